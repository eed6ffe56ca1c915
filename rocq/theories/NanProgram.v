(* NanProgram.v -- the program on any doubles, with and without k-means (C95). *)
From Coq Require Import String Ascii List Arith ZArith Bool Lia Sorted Relations SpecFloat.
From Verif Require Import SpecRobust.
From Verif Require Import Base Spec UtilsModel PartitionProofs ArrayListModel SpecComplex FastModel SpecGraph SpecFast ArgModel SpecArgs ArgProofs PipeModel SpecPipe PipeRuns MainModel SpecMain MainRuns SpecLink LinkRuns.
From Verif Require Import KmeansModel DoubleModel SpecDouble DoubleProofs DoubleRuns TextRuns.
From Verif Require Import IoModel SpecIo IoProofs TextModel SpecText TextProofs ReadModel SpecRead ReadProofs ReadUnique ReadRest ProgramRuns NanModel SpecNan NanRuns NanKmeans.
Import ListNotations.
Local Open Scope nat_scope.
Local Open Scope list_scope.

(* ---- text *)
Lemma code_char a n : nat_of_ascii a = n -> a = ascii_of_nat n.
Proof. intros <-. symmetry. apply ascii_nat_embedding. Qed.
Ltac letter H := destruct H as [H|H]; [|let K := fresh in match type of H with ?x + 32 = ?n => assert (K : x = n - 32) by lia; clear H; rename K into H end];
  apply code_char in H; cbn in H; subst.
Lemma spells_inf name : spells name "inf" \/ spells name "infinity" -> exists a b c rest, name = a :: b :: c :: rest /\ In a ["i"; "I"]%char /\ In b ["n"; "N"]%char /\ In c ["f"; "F"]%char.
Proof.
  assert (G : forall k, (k = 0%nat -> False) -> True) by auto. clear G.
  intros H. assert (H' : exists more, Forall2 (fun a b => nat_of_ascii a = nat_of_ascii b \/ nat_of_ascii a + 32 = nat_of_ascii b) name ("i"%char :: "n"%char :: "f"%char :: more)) by (destruct H as [H|H]; eexists; exact H).
  clear H. destruct H' as (more & H). inversion H as [|a ? ? ? H1 T1]; subst. inversion T1 as [|b ? ? ? H2 T2]; subst. inversion T2 as [|c ? rest ? H3 _]; subst. exists a, b, c, rest.
  split; [reflexivity|]. letter H1; letter H2; letter H3; repeat split; cbn; auto.
Qed.
Lemma spells_nan name : spells name "nan" -> exists a b c, name = [a; b; c] /\ In a ["n"; "N"]%char /\ In b ["a"; "A"]%char /\ In c ["n"; "N"]%char.
Proof.
  intros H. inversion H as [|a ? ? ? H1 T1]; subst. inversion T1 as [|b ? ? ? H2 T2]; subst. inversion T2 as [|c ? rest ? H3 T3]; subst. inversion T3; subst. exists a, b, c.
  split; [reflexivity|]. letter H1; letter H2; letter H3; repeat split; cbn; auto.
Qed.
Lemma reads_stod t y : reads_as t y -> stod t = Some y /\ ReadModel.atof t = y /\ fits y.
Proof.
  intros [H|(s & neg & name & -> & Hs & H)]; [destruct (stands_stod _ _ H); destruct (stands_canonical _ _ H); auto using canonical_fits|].
  unfold stod, ReadModel.atof, strtod.
  destruct H as [[H ->]|[H ->]]; [apply spells_inf in H as (a & b & c & rest & -> & A & B & C)|apply spells_nan in H as (a & b & c & -> & A & B & C)];
    destruct Hs as [[-> ->]|[[-> ->]|[-> ->]]]; cbn in A, B, C;
    destruct A as [<-|[<-|[]]]; destruct B as [<-|[<-|[]]]; destruct C as [<-|[<-|[]]]; repeat split.
Qed.
Lemma cells_reads cells row : Forall2 reads_as cells row -> map (fun t => option_map to_whole (stod t)) cells = map Some (map to_whole row) /\ Forall fits row.
Proof.
  induction 1 as [|t y cells row H _ [IH IH']]; [split; [reflexivity|constructor]|]. destruct (reads_stod _ _ H) as (E & _ & F). cbn [map]. rewrite E, IH. split; [reflexivity|]. now constructor.
Qed.
Lemma rows_reads ls os : Forall2 line_gives ls os ->
  Forall2 (line_reads (fun t => option_map to_whole (stod t))) ls (map (option_map (map to_whole)) os) /\ (forall row x, In row (kept os) -> In x row -> fits x).
Proof.
  induction 1 as [|line r ls os H _ [IH IH']]; [split; [cbn [map]; apply Forall2_nil|intros row x []]|]. cbn [map]. split.
  - apply Forall2_cons; [|exact IH]. destruct r as [row|]; cbn [option_map]; [|exact H]. destruct H as (cells & R & L & S). exists cells. split; [exact R|]. split; [exact L|]. now apply cells_reads.
  - intros row x. unfold kept. cbn [flat_map]. rewrite in_app_iff. intros [K|K]; [|now apply IH']. destruct r as [row'|]; [|destruct K]. destruct K as [<-|[]].
    destruct H as (cells & _ & _ & S). destruct (cells_reads _ _ S) as [_ F]. rewrite Forall_forall in F. apply F.
Qed.

(* ---- one run with some preprocessor *)
Section OneRun.
  Variable dist : list Z -> list Z -> Z.
  Variables atoi atof : string -> Z.
  Variable srt : list wsimp -> list wsimp.
  Variable past_end : list nat -> nat -> res nat.
  Variable nc0 : Z.
  Variable al_reduce : wgraph -> res wgraph.
  Variable other : pipe_kind -> amap -> packet -> res packet.
  Variable pre : pre_kind -> amap -> packet -> res packet.
  Variable uaf : res unit.
  Variable sd : text -> option Z.
  Variable file : string -> option text.
  Variables (argv : list string) (pr : string) (c : cx_type) (d e f o : string) (m : amap) (data : list (list Z)).
  Hypothesis Hl : one_run_line argv pr c d e f o.
  Hypothesis P : parse argv = Ok m.
  Hypothesis Hf : readCSV Z sd (file f) = Some data.
  Hypothesis Hne : data <> [].
  Notation args := (setPipeline m).
  Hypothesis Ho : o <> "console"%string.
  (* what the preprocessor makes of the data *)
  Variable made : res (list (list Z) * list nat).
  Hypothesis Hp : forall cx0, preprocess packet pre (fun _ p => Ok p) args (mkPacket data [] data [] cx0 [] [] []) =
    do r <- made; Ok (mkPacket (fst r) (snd r) data [] cx0 [] [] []).
  Lemma one_run : exists Dr : default_run args c d e,
    lhf dist atoi atof srt past_end nc0 al_reduce other pre (fun _ p => Ok p) uaf sd file argv =
    do x <- newSimplex atoi atof nc0 (opt args "complexType") args;
    do r <- made; do y <- run_program dist atoi atof srt past_end nc0 al_reduce other args (fst r);
    match y with Some (q, _) => Ok (Ran (relabel (snd r) data q) [((o ++ ".csv")%string, pk_output q)]) | None => UB end.
  Proof.
    destruct (line_args _ _ _ _ _ _ _ Hl) as (m' & P' & Dr & Pre & Fi & Fo & Up & Md). rewrite P in P'. injection P' as <-. exists Dr. assert (Pl := dr_pipeline _ _ _ _ Dr).
    unfold MainModel.lhf. rewrite P. cbn [bind]. destruct (newSimplex atoi atof nc0 (opt args "complexType") args) as [cx0|] eqn:Ns; [|reflexivity]. cbn [bind].
    replace (String.eqb (opt args "pipeline") "slidingwindow") with false by (unfold opt; rewrite Pl; reflexivity).
    replace (opt args "inputFile") with f by (unfold opt; now rewrite Fi). rewrite Hf.
    replace (0 <? length data) with true by (symmetry; apply Nat.ltb_lt; destruct data; [easy|cbn; lia]). cbn [orb].
    rewrite (proj2 (String.eqb_neq _ _) Up), (proj2 (String.eqb_neq _ _) Md). unfold processData. rewrite Hp. destruct made as [[cs labels]|]; [|reflexivity]. cbn [bind fst snd].
    unfold run_program, new_packet. rewrite Ns. cbn [bind]. unfold run_and_write.
    assert (W : writes_output args = true). { unfold writes_output. rewrite Pl, Fo. now rewrite (proj2 (String.eqb_neq _ _) Ho). }
    change (mkPacket cs labels data [] cx0 [] [] []) with (relabel labels data (mkPacket cs [] cs [] cx0 [] [] [])).
    rewrite (relabel_pipeline dist atoi atof srt past_end al_reduce other labels data args c d e _ Dr), W. replace (opt args "outputFile") with o by (unfold opt; now rewrite Fo).
    destruct (runPipeline _ _ _ args _) as [[[q fl]|]|] eqn:Ep; cbn [bind option_map fst snd]; auto.
    exfalso. unfold runPipeline in Ep. rewrite Pl in Ep. destruct (pipeline_loop _ _ _ _ _ _ _ _); discriminate.
  Qed.
End OneRun.

Lemma flat_map_concat_map {A B} (g : A -> list B) l : flat_map g l = concat (map g l).
Proof. apply flat_map_concat_map. Qed.
Lemma default_simplex atoi atof nc0 args c d e : default_run args c d e -> exists x, newSimplex atoi atof nc0 (opt args "complexType") args = Ok x.
Proof. intros Dr. unfold newSimplex. rewrite (dr_dim _ _ _ _ Dr), (dr_eps _ _ _ _ Dr). cbn [bind]. eauto. Qed.
Lemma complex_place args c d e : default_run args c d e -> nan_place (opt args "complexType") = nan_at c.
Proof. intros Dr. unfold opt. rewrite (dr_complex _ _ _ _ Dr). destruct c; reflexivity. Qed.

Lemma input_rows file (f : string) lines rs : file f = Some (join newline lines) -> Forall2 line_gives lines rs -> kept rs <> [] ->
  readCSV Z (fun t => option_map to_whole (stod t)) (file f) = Some (map (map to_whole) (kept rs)) /\ map (map to_whole) (kept rs) <> [] /\
  (forall p x, In p (kept rs) -> In x p -> fits x) /\ (forall p, In p (kept rs) -> p <> []).
Proof.
  intros Hf Hr Ne. destruct (rows_reads _ _ Hr) as [R F]. assert (H : holds_points (fun t => option_map to_whole (stod t)) file f (map (map to_whole) (kept rs))).
  { right. exists lines, (map (option_map (map to_whole)) rs). split; [|split; [exact Hf|split; [exact R|symmetry; apply kept_map]]]. intros E. subst lines. inversion Hr. subst rs. now apply Ne. }
  apply holds_reads in H. split; [exact H|]. split; [destruct (kept rs); [easy|discriminate]|]. split; [exact F|].
  intros p Hp. assert (Q := readCSV_ne _ _ _ _ H (map to_whole p) (in_map _ _ _ Hp)). now destruct p.
Qed.

Section Program.
  Variable square : double -> double.
  Variable index : nat.
  Variable picks : list (nat * (nat -> bool)).
  Variable pre_other : pre_kind -> amap -> packet -> res packet.
  Variable srt : list wsimp -> list wsimp.
  Variable past_end : list nat -> nat -> res nat.
  Variable nc0 : Z.
  Variable al_reduce : wgraph -> res wgraph.
  Variable other : pipe_kind -> amap -> packet -> res packet.
  Variable uaf : res unit.
  Variable file : string -> option text.
  Variables (argv : list string) (pr : string) (c : cx_type) (d e f o : string) (dd : Z) (eps : double).
  Variables (lines : list text) (rs : list (option (list double))).
  Hypothesis Hs : is_sort srt.
  Hypothesis Sq : squares square.
  Hypothesis Hl : one_run_line argv pr c d e f o.
  Hypothesis Hd : reads_number (list_ascii_of_string d) dd.
  Hypothesis Hk : (0 < dd < 2 ^ 31 - 1)%Z.
  Hypothesis He : reads_as (list_ascii_of_string e) eps.
  Hypothesis Pe : non_negative eps.
  Hypothesis Ho : o <> "console"%string.
  Hypothesis Hf : file f = Some (join newline lines).
  Hypothesis Hr : Forall2 line_gives lines rs.
  Hypothesis Ne : kept rs <> [].
  Hypothesis Hlen : forall p q, In p (kept rs) -> In q (kept rs) -> length p = length q.
  Notation program := (lhf_files square index picks pre_other srt past_end nc0 al_reduce other uaf file argv).
  Notation cloud := (kept rs).
  Notation data := (map (map to_whole) cloud).
  Notation pre := (pre_doubles square index picks pre_other).
  Notation sd := (fun t => option_map to_whole (stod t)).
  Notation ai := (fun s => ReadModel.atoi (list_ascii_of_string s)).
  Notation af := (fun s => rank (ReadModel.atof (list_ascii_of_string s))).

  Variable m : amap.
  Hypothesis P : parse argv = Ok m.
  Notation args := (setPipeline m).
  Notation packet0 := (mkPacket data [] data [] None [] [] []).
  Variable made : res (list (list double) * list nat).
  Hypothesis Hp : forall cx0, preprocess packet pre (fun _ p => Ok p) args (mkPacket data [] data [] cx0 [] [] []) =
    do r <- made; Ok (mkPacket (map (map to_whole) (fst r)) (snd r) data [] cx0 [] [] []).
  Lemma files_undefined : made = UB -> program = UB.
  Proof.
    intros E. destruct (input_rows file f lines rs Hf Hr Ne) as (Rd & Nd & _). unfold lhf_files. rewrite P. cbn [bind].
    destruct (one_run (coded_dist square (nan_place (opt args "complexType"))) ai af srt past_end nc0 al_reduce other pre uaf sd file argv pr c d e f o m data Hl P Rd Nd Ho UB) as (Dr & ->).
    { intros cx0. rewrite Hp, E. reflexivity. }
    now destruct (newSimplex _ _ _ _ _).
  Qed.
  Lemma files_run cents labels w : made = Ok (cents, labels) -> pre_written square index picks pre_other args packet0 = Ok w ->
    (forall p x, In p cents -> In x p -> fits x) -> (forall p q, In p cents -> In q cents -> length p = length q) -> (forall p, In p cents -> p <> []) -> cents <> [] ->
    (forall files, program = Ok files -> exists deaths bars, files = w ++ [((o ++ ".csv")%string, barcodes deaths eps bars)] /\ bars_of square cents c eps deaths bars /\
       reports (coded_dist square (nan_at c)) past_end c dd (rank eps) (map (map to_whole) cents) (coded_lines deaths eps bars) /\ sound deaths bars) /\
    (~ (exists v, near_pair square cents c eps v) -> program = UB) /\
    ((exists v, near_pair square cents c eps v) -> past_end = libstdcxx_past_end -> exists files, program = Ok files).
  Proof.
    intros E Ew Fc Lc Rc Nc. destruct (input_rows file f lines rs Hf Hr Ne) as (Rd & Nd & _). destruct (reads_stod _ _ He) as (_ & Ee & Fe).
    set (ai := ai). set (af := af).
    destruct (one_run (coded_dist square (nan_at c)) ai af srt past_end nc0 al_reduce other pre uaf sd file argv pr c d e f o m data Hl P Rd Nd Ho (Ok (map (map to_whole) cents, labels))) as (Dr & E1).
    { intros cx0. rewrite Hp, E. reflexivity. }
    destruct (default_simplex ai af nc0 args c d e Dr) as (x & Ex). rewrite Ex in E1. cbn [bind fst snd] in E1.
    assert (Fi : opt args "inputFile" = f). { destruct (line_args _ _ _ _ _ _ _ Hl) as (m' & P' & _ & _ & Fi & _). rewrite P in P'. injection P' as <-. unfold opt. now rewrite Fi. }
    assert (Eq : program = do y <- run_program (coded_dist square (nan_at c)) ai af srt past_end nc0 al_reduce other args (map (map to_whole) cents);
      match y with Some (q, _) => Ok (w ++ [((o ++ ".csv")%string, barcode_text at_place (pk_output q))]) | None => UB end).
    { unfold lhf_files. rewrite P. cbn [bind]. rewrite (complex_place _ _ _ _ Dr). fold ai af. rewrite E1. rewrite Fi, Rd.
      destruct (run_program _ ai af _ _ _ _ _ _ _) as [[[q fl]|]|]; [|reflexivity|reflexivity]. cbn [bind]. rewrite Ew. reflexivity. }
    assert (Hd' : (0 < ai d < 2 ^ 31 - 1)%Z) by (unfold ai; rewrite (atoi_number _ _ Hd); exact Hk). assert (Ea : af e = rank eps) by (unfold af; now rewrite Ee).
    rewrite Eq. clear Eq E1 Ex. split; [|split].
    - intros files H. destruct (run_program _ ai af _ _ _ _ _ _ _) as [[[q fl]|]|] eqn:Er; try discriminate. cbn [bind] in H. injection H as <-.
      destruct (nan_run_bars square Sq c cents Fc Lc ai af srt past_end nc0 al_reduce other args d e eps Hs Dr Rc Hd' Pe Fe Ea Nc q fl Er) as (deaths & bars & -> & B & Eo & So).
      exists deaths, bars. split; [reflexivity|]. split; [exact B|]. split; [|exact So].
      exists ai, af, srt, nc0, al_reduce, other, args, d, e, q, fl. split; [exact Hs|]. split; [exact Dr|]. split; [apply (atoi_number _ _ Hd)|]. split; [exact Ea|]. split; [exact Hk|].
      split; [intros y Hy; apply in_map_iff in Hy as (z & <- & Hz); apply Rc in Hz; now destruct z|]. split; [now destruct cents|]. split; [apply coded_dist_pos, Sq|]. split; [exact Er|]. now rewrite Eo.
    - intros N. now rewrite (nan_run_undefined square Sq c cents Fc Lc ai af srt past_end nc0 al_reduce other args d e eps Hs Dr Rc Hd' Pe Fe Ea Nc N).
    - intros Y Pa. destruct (nan_run_ends square Sq c cents Fc Lc ai af srt past_end nc0 al_reduce other args d e eps Hs Dr Rc Hd' Pe Fe Ea Y Pa) as (q & fl & ->). cbn [bind]. eauto.
  Qed.
End Program.

(* ---- one point that is not a number *)
Lemma distance_nan square x y : squares square -> length x = length y -> In S754_nan x -> d_distance square x y = Ok S754_nan /\ d_distance square y x = Ok S754_nan.
Proof.
  intros Sq L H. apply In_nth_error in H as (i & Hi). assert (Li : i < length y) by (rewrite <- L; apply nth_error_Some; congruence).
  destruct (nth_error y i) as [b|] eqn:Hb; [|apply nth_error_None in Hb; lia].
  assert (C : forall (u v : list double) a b' , nth_error u i = Some a -> nth_error v i = Some b' -> In (a, b') (combine u v)).
  { intros u v a b' Ha Hb'. revert u v Ha Hb'. clear. induction i as [|i IH]; intros [|a' u] [|b'' v] Ha Hb; try discriminate; cbn in *; [injection Ha as ->; injection Hb as ->; now left|right; auto]. }
  rewrite !distance_value by auto.
  assert (G : forall u v, length u = length v -> (exists p, In p (combine u v) /\ d_sub (fst p) (snd p) = S754_nan) -> d_sqrt (fold_left d_add (sq_diffs square u v) d_zero) = S754_nan).
  { intros u v _ (p & Hp & E). rewrite (sum_nan_in (sq_diffs square u v)); [reflexivity|]. apply in_map_iff. exists p. split; [|exact Hp]. rewrite E. apply (sq_nan _ Sq). }
  split; f_equal; apply G; auto; eexists; (split; [eapply C; eassumption|]); cbn [fst snd]; [reflexivity|]. now destruct b.
Qed.
Lemma nan_deaths square cloud eps deaths bars : squares square -> (forall p q, In p cloud -> In q cloud -> length p = length q) ->
  (forall p x, In p cloud -> In x p -> fits x) -> fits eps -> SFltb (S754_zero false) eps = true -> (exists p, In p cloud /\ In S754_nan p) ->
  bars_of square cloud Tree eps deaths bars -> deaths = repeat (S754_zero false) (length cloud - 1).
Proof.
  intros Sq Len Fin Fe Pe (p & Hp & Np) [_ Br Bc _]. apply In_nth_error in Hp as (i & Hi). assert (Li : i < length cloud) by (apply nth_error_Some; congruence).
  assert (One : forall t, SFleb (S754_zero false) t = true -> seen_clusters square cloud Tree eps t 1).
  { intros t Ht. exists [i]. split; [reflexivity|]. split; [repeat constructor; intros []|]. split; [intros x [<-|[]]; apply in_seq; lia|].
    split; [intros x y [<-|[]] [<-|[]] _; reflexivity|]. intros v Hv. apply in_seq in Hv. exists i. split; [now left|].
    destruct (nth_error cloud v) as [q|] eqn:Hq; [|apply nth_error_None in Hq; lia].
    destruct (distance_nan square p q Sq (Len p q (nth_error_In _ _ Hi) (nth_error_In _ _ Hq)) Np) as [D1 D2].
    destruct (lt_eq_lt_dec v i) as [[H| ->]|H]; [apply rst_step|apply rst_refl|apply rst_sym, rst_step]; (split; [exact H|]); exists (S754_zero false); (split; [|split; [exact Pe|exact Ht]]);
      exists S754_nan; (split; [|reflexivity]); do 2 eexists; eauto. }
  assert (Z1 := proj1 (Bc (S754_zero false) 1 ltac:(discriminate) I) (One (S754_zero false) eq_refl)). assert (Z2 := proj1 (Bc (S754_infinity false) 1 ltac:(discriminate) I) (One (S754_infinity false) eq_refl)).
  assert (K : forall w, In w deaths -> non_negative w).
  { intros w Hw. destruct (Br w Hw) as (W & u & v & Huv & A). destruct (seen_range square Tree cloud u v w A) as [Hu Hv].
    destruct (seen_value square Sq Tree cloud Fin Len u v Hu Hv) as (w' & A' & _ & K & _). rewrite (seen_unique square Tree cloud u v w w' A A') in *. destruct K as [->|K]; [|exact K]. destruct eps; discriminate W. }
  assert (Ln : length deaths = length cloud - 1).
  { assert (E : filter (fun w => SFleb w (S754_infinity false)) deaths = deaths); [|rewrite E in Z2; lia].
    clear - K. induction deaths as [|w deaths IH]; [reflexivity|]. cbn [filter]. assert (Kw := K w (or_introl eq_refl)).
    replace (SFleb w (S754_infinity false)) with true by (destruct w as [s|s| |s m e]; cbn in Kw; try easy; now subst). f_equal. apply IH. intros x Hx. apply K. now right. }
  rewrite <- Ln. assert (Lz : length (filter (fun w => SFleb w (S754_zero false)) deaths) = length deaths) by lia. clear - K Lz.
  assert (B : forall l : list double, length (filter (fun w => SFleb w (S754_zero false)) l) <= length l).
  { induction l as [|w l IH]; [apply Nat.le_refl|]. cbn [filter]. destruct (SFleb w (S754_zero false)); cbn [length]; lia. }
  induction deaths as [|w deaths IH]; [reflexivity|]. cbn [filter] in Lz. assert (Bd := B deaths). destruct (SFleb w (S754_zero false)) eqn:E; cbn [length] in Lz; [|lia].
  cbn [length repeat]. rewrite <- IH; [|intros x Hx; apply K; now right|lia]. f_equal. assert (Kw := K w (or_introl eq_refl)). destruct w as [s|s| |s m e]; cbn in Kw; subst; try discriminate E; reflexivity.
Qed.

Section Theorems.
  Variable square : double -> double.
  Variable index : nat.
  Variable picks : list (nat * (nat -> bool)).
  Variable pre_other : pre_kind -> amap -> packet -> res packet.
  Variable srt : list wsimp -> list wsimp.
  Variable past_end : list nat -> nat -> res nat.
  Variable nc0 : Z.
  Variable al_reduce : wgraph -> res wgraph.
  Variable other : pipe_kind -> amap -> packet -> res packet.
  Variable uaf : res unit.
  Variable file : string -> option text.
  Variables (argv : list string) (c : cx_type) (d e f o : string) (dd : Z) (eps : double).
  Variables (lines : list text) (rs : list (option (list double))).
  Hypothesis Hs : is_sort srt.
  Hypothesis Sq : squares square.
  Hypothesis Hd : reads_number (list_ascii_of_string d) dd.
  Hypothesis Hk : (0 < dd < 2 ^ 31 - 1)%Z.
  Hypothesis He : reads_as (list_ascii_of_string e) eps.
  Hypothesis Pe : non_negative eps.
  Hypothesis Ho : o <> "console"%string.
  Hypothesis Hf : file f = Some (join newline lines).
  Hypothesis Hr : Forall2 line_gives lines rs.
  Hypothesis Ne : kept rs <> [].
  Hypothesis Hlen : forall p q, In p (kept rs) -> In q (kept rs) -> length p = length q.
  Notation program := (lhf_files square index picks pre_other srt past_end nc0 al_reduce other uaf file argv).
  Notation cloud := (kept rs).

  Theorem plain_files_coded : plain_line argv c d e f o ->
    (forall files, program = Ok files -> exists deaths bars, files = [((o ++ ".csv")%string, barcodes deaths eps bars)] /\ bars_of square cloud c eps deaths bars /\
       reports (coded_dist square (nan_at c)) past_end c dd (rank eps) (map (map to_whole) cloud) (coded_lines deaths eps bars) /\ sound deaths bars) /\
    (~ (exists v, near_pair square cloud c eps v) -> program = UB) /\
    ((exists v, near_pair square cloud c eps v) -> past_end = libstdcxx_past_end -> exists files, program = Ok files).
  Proof.
    intros Hl. destruct (line_args _ _ _ _ _ _ _ Hl) as (m & P & Dr & Pre & _). destruct (input_rows file f lines rs Hf Hr Ne) as (_ & _ & Fit & Row).
    apply (files_run square index picks pre_other srt past_end nc0 al_reduce other uaf file argv "" c d e f o dd eps lines rs Hs Sq Hl Hd Hk He Pe Ho Hf Hr Ne m P (Ok (cloud, [])) ) with (cents := cloud) (labels := []) (w := []); auto.
    - intros cx0. unfold preprocess, mread. rewrite Pre. reflexivity.
    - unfold pre_written, opt. rewrite Pre. reflexivity.
  Qed.

  Theorem plain_files : plain_line argv c d e f o ->
    (forall files, program = Ok files -> exists deaths bars, files = [((o ++ ".csv")%string, barcodes deaths eps bars)] /\ bars_of square cloud c eps deaths bars) /\
    (~ (exists v, near_pair square cloud c eps v) -> program = UB) /\
    ((exists v, near_pair square cloud c eps v) -> past_end = libstdcxx_past_end -> exists files, program = Ok files).
  Proof.
    intros Hl. destruct (plain_files_coded Hl) as (A & B). split; [|exact B]. intros files E. destruct (A files E) as (ds & bars & F & Bo & _). eauto.
  Qed.

  Variables (pr kk rr : string) (k r : Z) (dim : nat).
  Hypothesis Hl : one_run_line argv pr c d e f o.
  Hypothesis Hn : names_kmeans pr.
  Hypothesis Vk : value argv "clusters" kk.
  Hypothesis Vr : value argv "iterations" rr.
  Hypothesis Rk : reads_number (list_ascii_of_string kk) k.
  Hypothesis Rr : reads_number (list_ascii_of_string rr) r.
  Hypothesis Kp : (0 < k)%Z.
  Hypothesis Rp : (0 < r)%Z.
  Hypothesis Hi : index < length cloud.
  Hypothesis Hpk : forall i valid, In (i, valid) picks -> i < length cloud.
  Hypothesis Nums : forall p x, In p cloud -> In x p -> is_number x.
  Hypothesis Dim : forall p, In p cloud -> length p = dim.
  Let n := Z.to_nat k.

  Theorem kmeans_files :
    (fewer_points n cloud -> program = UB) /\
    (~ fewer_points n cloud -> exists start cents labels, some_points n cloud start /\
       double_kmeans square dim n (removelast cloud) (Z.to_nat r) start cents labels /\
       (forall files, program = Ok files -> exists deaths bars,
          files = [("output/k-means++_centroid_output.csv"%string, centroid_text cents); ("output/k-means++_label_output.csv"%string, label_text labels);
                   ((o ++ ".csv")%string, barcodes deaths eps bars)] /\ bars_of square cents c eps deaths bars) /\
       (~ (exists v, near_pair square cents c eps v) -> program = UB) /\
       ((exists v, near_pair square cents c eps v) -> past_end = libstdcxx_past_end -> exists files, program = Ok files)).
  Proof.
    destruct (line_args _ _ _ _ _ _ _ Hl) as (m & P & Dr & Pre & _). destruct (input_rows file f lines rs Hf Hr Ne) as (_ & _ & Fit & Row).
    assert (HO := parse_has_options argv m P : has_options m).
    assert (Ek : mget (setPipeline m) "clusters" = Some kk) by (rewrite args_keep; [now apply (value_mget argv)|exact HO|cbn; intuition discriminate]).
    assert (Er : mget (setPipeline m) "iterations" = Some rr) by (rewrite args_keep; [now apply (value_mget argv)|exact HO|cbn; intuition discriminate]).
    assert (Ak : arg_int (setPipeline m) "clusters" = k) by (unfold arg_int, opt; rewrite Ek; now apply atoi_number).
    assert (Ar : arg_int (setPipeline m) "iterations" = r) by (unfold arg_int, opt; rewrite Er; now apply atoi_number).
    set (made := km_run double d_zero d_max d_add d_div SFltb (km_dist square) d_eqb cloud n (Z.to_nat r) index picks).
    assert (Dec : map (map of_whole) (map (map to_whole) cloud) = cloud).
    { rewrite map_map. rewrite <- (map_id cloud) at 2. apply map_ext_in. intros p Hp. now apply (decode_row cloud Fit). }
    assert (Hm : forall cx0, pre_doubles square index picks pre_other KKMeans (setPipeline m) (mkPacket (map (map to_whole) cloud) [] (map (map to_whole) cloud) [] cx0 [] [] []) =
      do x <- made; Ok (mkPacket (map (map to_whole) (fst x)) (snd x) (map (map to_whole) cloud) [] cx0 [] [] [])).
    { intros cx0. unfold pre_doubles, kmeans_doubles. cbn [pk_data pk_full pk_weights pk_complex pk_output pk_table pk_stats]. rewrite Ak, Ar, Dec. rewrite (proj2 (Z.ltb_ge k 0)) by lia. reflexivity. }
    assert (Hp : forall cx0, preprocess packet (pre_doubles square index picks pre_other) (fun _ p => Ok p) (setPipeline m) (mkPacket (map (map to_whole) cloud) [] (map (map to_whole) cloud) [] cx0 [] [] []) =
      do x <- made; Ok (mkPacket (map (map to_whole) (fst x)) (snd x) (map (map to_whole) cloud) [] cx0 [] [] [])).
    { intros cx0. rewrite (kmeans_preprocess _ (setPipeline m) pr _ Pre Hn) by congruence. apply Hm. }
    assert (Nu : forall p x, In p cloud -> In x p -> is_number x /\ fits x) by (intros p x H1 H2; split; [now apply (Nums p)|now apply (Fit p)]).
    destruct (double_run_kmeans square cloud dim n (Z.to_nat r) Nu Dim ltac:(unfold n; lia) ltac:(lia) index picks Hi Hpk) as [A B]. fold made in A, B. split.
    - intros H. apply (files_undefined square index picks pre_other srt past_end nc0 al_reduce other uaf file argv pr c d e f o lines rs Hl Ho Hf Hr Ne m P made Hp). now apply A.
    - intros H. destruct (B H) as (start & cents & labels & E & S & K). exists start, cents, labels. split; [exact S|]. split; [exact K|]. destruct K as [Ec _].
      assert (Fc : forall p x, In p cents -> In x p -> fits x) by (rewrite Ec; apply means_fit).
      assert (Lc : forall p, In p cents -> length p = dim) by (assert (M := means_dim dim n (removelast cloud) labels); rewrite <- Ec, Forall_forall in M; exact M).
      assert (Pd : 0 < dim). { destruct cloud as [|p cl]; [easy|]. rewrite <- (Dim p) by now left. assert (Rw := Row p (or_introl eq_refl)). destruct p; [easy|cbn; lia]. }
      match goal with |- ?X /\ ?Y => cut ((forall files, program = Ok files -> exists deaths bars,
        files = [("output/k-means++_centroid_output.csv"%string, centroid_text cents); ("output/k-means++_label_output.csv"%string, label_text labels);
                 ((o ++ ".csv")%string, barcodes deaths eps bars)] /\ bars_of square cents c eps deaths bars /\
        reports (coded_dist square (nan_at c)) past_end c dd (rank eps) (map (map to_whole) cents) (coded_lines deaths eps bars) /\ sound deaths bars) /\ Y);
        [intros [Y1 Y2]; split; [intros files Ef; destruct (Y1 files Ef) as (ds & bars & F1 & Bo & _); eauto|exact Y2]|] end.
      refine (files_run square index picks pre_other srt past_end nc0 al_reduce other uaf file argv pr c d e f o dd eps lines rs Hs Sq Hl Hd Hk He Pe Ho Hf Hr Ne m P made Hp cents labels
        [("output/k-means++_centroid_output.csv"%string, centroid_text cents); ("output/k-means++_label_output.csv"%string, label_text labels)] E _ Fc _ _ _).
      + unfold pre_written. unfold opt at 1. rewrite Pre. rewrite (proj2 (newPreprocessor_spec pr KKMeans) Hn).
        unfold configPreprocessor, pre_required. cbn [forallb]. unfold has_key. rewrite Ek, Er. cbn [andb]. rewrite Hm, E. cbn [bind fst snd pk_data pk_labels].
        assert (Dc : map (map of_whole) (map (map to_whole) cents) = cents) by (rewrite map_map; rewrite <- (map_id cents) at 2; apply map_ext_in; intros p H1; now apply (decode_row cents Fc)).
        rewrite Dc. unfold pre_files, centroid_text, label_text. rewrite !flat_map_concat_map. cbn [pre_name append].
        rewrite (map_ext (fun row => flat_map (fun d : double => to_string d ++ [comma]) row ++ [newline]) (fun row => concat (map (fun x : double => to_string x ++ [comma]) row) ++ [newline]));
          [reflexivity|intros row; now rewrite flat_map_concat_map].
      + intros p q H1 H2. rewrite (Lc p H1). symmetry. now apply Lc.
      + intros p H1 ->. apply Lc in H1. cbn in H1. lia.
      + intros Q. assert (Z : length cents = n) by (rewrite Ec; unfold double_means; now rewrite map_length, seq_length). rewrite Q in Z. cbn in Z. unfold n in Z. lia.
  Qed.
End Theorems.

Lemma nan_near square cloud eps : squares square -> (forall p q, In p cloud -> In q cloud -> length p = length q) -> SFltb (S754_zero false) eps = true ->
  (exists p, In p cloud /\ In S754_nan p) -> 2 <= length cloud -> exists v, near_pair square cloud Tree eps v.
Proof.
  intros Sq Len Pe (p & Hp & Np) L. apply In_nth_error in Hp as (i & Hi). assert (Li : i < length cloud) by (apply nth_error_Some; congruence).
  exists (S754_zero false). split; [exact Pe|].
  assert (G : forall j, j < length cloud -> exists q, nth_error cloud j = Some q /\ d_distance square p q = Ok S754_nan /\ d_distance square q p = Ok S754_nan).
  { intros j Hj. destruct (nth_error cloud j) as [q|] eqn:Hq; [|apply nth_error_None in Hq; lia]. exists q. split; [reflexivity|].
    apply (distance_nan square p q Sq (Len p q (nth_error_In _ _ Hi) (nth_error_In _ _ Hq)) Np). }
  destruct i as [|i].
  - destruct (G 1 ltac:(lia)) as (q & Hq & D & _). exists 0, 1. split; [lia|]. exists S754_nan. split; [exists p, q; auto|reflexivity].
  - destruct (G 0 ltac:(lia)) as (q & Hq & _ & D). exists 0, (S i). split; [lia|]. exists S754_nan. split; [exists q, p; auto|reflexivity].
Qed.
(* A cluster without points. *)
Lemma empty_cluster square dim k pts z start cents labels j : double_kmeans square dim k pts z start cents labels -> j < k -> ~ In j labels ->
  nth_error cents j = Some (repeat S754_nan dim) /\ length cents = k.
Proof.
  intros [-> _] Hj N. unfold double_means. split; [|now rewrite map_length, seq_length].
  assert (E : nth_error (seq 0 k) j = Some j) by (rewrite nth_error_nth' with (d := 0) by (now rewrite seq_length); now rewrite seq_nth).
  rewrite (map_nth_error _ _ _ E). f_equal. now apply empty_mean.
Qed.
Lemma kmeans_labels square dim k pts z start cents labels : double_kmeans square dim k pts z start cents labels -> length labels = length pts.
Proof. intros (_ & n & prev & _ & _ & L & _). symmetry. eapply Forall2_len, L. Qed.
