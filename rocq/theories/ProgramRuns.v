(* ProgramRuns.v -- proofs about the program from text to text (C94). *)
From Coq Require Import String Ascii List Arith ZArith Bool Lia Sorted Relations SpecFloat.
From Verif Require Import Base Spec UtilsModel ArrayListModel SpecComplex FastModel SpecGraph SpecFast ArgModel SpecArgs PipeModel SpecPipe MainModel SpecMain PropertiesMain MainRuns.
From Verif Require Import DoubleModel SpecDouble DoubleProofs DoubleRuns TextRuns.
From Verif Require Import IoModel SpecIo IoProofs TextModel SpecText TextProofs ReadModel SpecRead ReadProofs ReadUnique SpecProgram ProgramModel.
Import ListNotations.
Local Open Scope nat_scope.
Local Open Scope list_scope.

Lemma denominator_pos x : (0 < denominator x)%Z.
Proof. unfold denominator. apply Z.pow_pos_nonneg; lia. Qed.
Lemma stands_stod t y : stands_for t y -> stod t = Some y /\ ReadModel.atof t = y.
Proof.
  intros (neg & n & x & T & R & N & S). destruct (stod_decimal _ _ _ _ T R) as (z & E & Nz & Sz).
  assert (K : z = y) by (apply (nearest_double_unique _ _ _ _ (denominator_pos x) Nz N); congruence). subst z. split; [exact E|].
  unfold stod in E. unfold ReadModel.atof. destruct (strtod t) as [[z [|]]|]; [discriminate| |discriminate]. now injection E.
Qed.
Lemma stands_canonical t y : stands_for t y -> is_finite y /\ canonical y.
Proof. intros (neg & n & x & _ & _ & (F & C & _) & _). auto. Qed.
Lemma atoi_number t k : reads_number t k -> ReadModel.atoi t = k.
Proof.
  intros (N & F & V & _). unfold ReadModel.atoi. assert (S : skip_blanks t = t /\ take_sign t = (false, t)).
  { destruct t as [|c t]; [easy|]. inversion F as [|? ? D _]; subst. assert (D' := digit_in c D). cbn in D'.
    split; cbn [skip_blanks take_sign]; (repeat (destruct D' as [<-|D']; [reflexivity|])); destruct D'. }
  destruct S as [-> ->]. rewrite <- (app_nil_r t), take_digits_app by (auto; exact I). cbn [fst]. now rewrite number_vals.
Qed.

Section Run.
  Variable square : double -> double.
  Variable srt : list wsimp -> list wsimp.
  Variable past_end : list nat -> nat -> res nat.
  Variable nc0 : Z.
  Variable al_reduce : wgraph -> res wgraph.
  Variable other : pipe_kind -> amap -> packet -> res packet.
  Variable pre_run : pre_kind -> amap -> packet -> res packet.
  Variable pre_stats : pre_kind -> packet -> res packet.
  Variable uaf : res unit.
  Variable file : string -> option text.
  Variables (argv : list string) (c : cx_type) (d e f o : string) (k : Z) (eps : double).
  Variables (lines : list text) (rs : list (option (list double))).
  Hypothesis Hs : is_sort srt.
  Hypothesis Sq : squares square.
  Hypothesis Hl : plain_line argv c d e f o.
  Hypothesis Hd : reads_number (list_ascii_of_string d) k.
  Hypothesis Hk : (0 < k < 2 ^ 31 - 1)%Z.
  Hypothesis He : stands_for (list_ascii_of_string e) eps.
  Hypothesis Pe : non_negative eps.
  Hypothesis Ho : o <> "console"%string.
  Hypothesis Hf : file f = Some (join newline lines).
  Hypothesis Hr : Forall2 line_holds lines rs.
  Hypothesis Hlen : forall p q, In p (kept rs) -> In q (kept rs) -> length p = length q.
  Notation sd := (fun t => option_map to_whole (stod t)).

  Lemma cells_stod cells row : Forall2 stands_for cells row -> map sd cells = map Some (map to_whole row) /\ Forall (fun x => is_finite x /\ canonical x) row.
  Proof.
    induction 1 as [|t y cells row H _ [IH IH']]; [split; [reflexivity|constructor]|]. destruct (stands_stod _ _ H) as [E _]. cbn [map]. rewrite E, IH. split; [reflexivity|].
    constructor; [now apply (stands_canonical t)|exact IH'].
  Qed.
  Lemma rows_stod ls os : Forall2 line_holds ls os ->
    Forall2 (line_reads sd) ls (map (option_map (map to_whole)) os) /\ (forall row x, In row (kept os) -> In x row -> is_finite x /\ canonical x).
  Proof.
    clear. intros K0. induction K0 as [|line r ls os H K0 [IH IH']]; [split; [cbn [map]; apply Forall2_nil|intros row x []]|]. cbn [map]. split.
    - apply Forall2_cons; [|exact IH]. destruct r as [row|]; cbn [option_map]; [|exact H]. destruct H as (cells & R & L & S). exists cells. split; [exact R|]. split; [exact L|]. now apply cells_stod.
    - intros row x. unfold kept. cbn [flat_map]. rewrite in_app_iff. intros [K|K]; [|now apply IH']. destruct r as [row'|]; [|destruct K]. destruct K as [<-|[]].
      destruct H as (cells & _ & _ & S). destruct (cells_stod _ _ S) as [_ F]. rewrite Forall_forall in F. apply F.
  Qed.
  Definition lines_stod := rows_stod lines rs Hr.
  Lemma kept_map {A B} (g : A -> B) (l : list (option A)) : kept (map (option_map g) l) = map g (kept l).
  Proof. unfold kept. induction l as [|[a|] l IH]; cbn; [reflexivity|now rewrite IH|exact IH]. Qed.
  Lemma file_points : kept rs <> [] -> holds_points sd file f (map (map to_whole) (kept rs)).
  Proof.
    intros N. right. exists lines, (map (option_map (map to_whole)) rs). split; [|split; [exact Hf|split; [apply lines_stod|symmetry; apply kept_map]]].
    intros E. subst lines. inversion Hr. subst rs. now apply N.
  Qed.
  Let program := lhf_text square srt past_end nc0 al_reduce other pre_run pre_stats uaf file argv.
  Let cloud := kept rs.

  Theorem program_text : cloud <> [] ->
    (forall files, program = Ok files ->
       exists deaths bars,
         files = [((o ++ ".csv")%string,
           list_ascii_of_string "dimension,birth,death" ++ newline ::
           concat (map (fun w => list_ascii_of_string "0,0," ++ to_string w ++ [newline]) (deaths ++ [eps])) ++
           concat (map (fun l : nat * double * double => show (Z.of_nat (fst (fst l))) ++ comma :: to_string (snd (fst l)) ++ comma :: to_string (snd l) ++ [newline]) bars))] /\
         StronglySorted (fun x y => SFleb x y = true) deaths /\
         (forall w, In w deaths -> within c eps w /\ exists u v, u < v /\ apart square cloud u v w) /\
         (forall t n, is_number t -> fits t ->
           (double_clusters square cloud c eps t n <-> length (filter (fun w => SFleb w t) deaths) + n = length cloud)) /\
         (forall k b w, In (k, b, w) bars -> 1 <= k /\ SFeqb b w = false /\
            (within c eps b /\ exists u v, u < v /\ apart square cloud u v b) /\ (within c eps w /\ exists u v, u < v /\ apart square cloud u v w))) /\
    (~ (exists u v w, u < v /\ apart square cloud u v w /\ within c eps w) -> program = UB) /\
    ((exists u v w, u < v /\ apart square cloud u v w /\ within c eps w) -> past_end = libstdcxx_past_end -> exists files, program = Ok files).
  Proof.
    intros N. assert (Hp := file_points N). destruct lines_stod as [_ Fin]. destruct (stands_canonical _ _ He) as [Fe Ce]. destruct (stands_stod _ _ He) as [_ Ee].
    assert (Fin' : forall p x, In p cloud -> In x p -> is_finite x /\ of_whole (to_whole x) = x).
    { intros p x Hx Hx'. destruct (Fin p x Hx Hx') as [A B]. split; [exact A|]. now apply of_to_whole, canonical_fits. }
    assert (Hd' : (0 < ReadModel.atoi (list_ascii_of_string d) < 2 ^ 31 - 1)%Z) by (rewrite (atoi_number _ _ Hd); exact Hk).
    assert (Ee' : rank (ReadModel.atof (list_ascii_of_string e)) = rank eps) by now rewrite Ee.
    set (ai := fun s => ReadModel.atoi (list_ascii_of_string s)). set (af := fun s => rank (ReadModel.atof (list_ascii_of_string s))).
    split; [|split].
    - intros files E. unfold program, lhf_text in E. fold ai af in E. destruct (lhf _ ai af _ _ _ _ _ _ _ _ _ _ _) as [r|] eqn:Er; [|discriminate]. cbn [bind] in E.
      destruct (text_run square to_whole of_whole ai af srt past_end nc0 al_reduce other pre_run pre_stats uaf sd file argv c d e f o cloud eps
        Hs Sq Hd' Fin' Hlen Pe (canonical_fits _ Ce) Ee' Hl Ho Hp N r Er) as (q & deaths & bars & -> & T & R). injection E as <-.
      exists deaths, bars. cbn [map fst snd]. rewrite T. split; [reflexivity|exact R].
    - intros K. unfold program, lhf_text. fold ai af.
      destruct (double_run square to_whole of_whole ai af srt past_end nc0 al_reduce other pre_run pre_stats uaf sd file argv c d e f o cloud eps
        Hs Sq Hd' Fin' Hlen (number_of _ Pe) (canonical_fits _ Ce) Ee' Hl Hp N) as [_ U]. cbv zeta in U. now rewrite (U K).
    - intros (u & v & w & Huv & A & W) ->. unfold program, lhf_text. fold ai af.
      destruct (C72_plain_run_ends (double_dist square of_whole) ai af srt nc0 al_reduce other pre_run pre_stats uaf sd file argv c d e f o _ Hs (double_dist_pos square of_whole Sq) Hd' Hl Hp) as (r & ->).
      + destruct (apart_range _ _ _ _ _ A) as [_ Hv]. destruct (apart_value square Sq to_whole of_whole cloud Fin' Hlen u v ltac:(lia) ltac:(lia)) as (w' & A' & Nw & Fw & S1).
        exists u, v. split; [exact Huv|]. split; [now rewrite map_length|]. rewrite (apart_unique _ _ _ _ _ _ A A') in W. fold cloud. rewrite S1. unfold af at 1. rewrite Ee'.
        apply within_close; auto; first [now apply number_of|now apply canonical_fits].
      + cbn [bind]. eauto.
  Qed.
End Run.

Theorem program_throws square srt past_end nc0 al_reduce other pre_run pre_stats uaf file argv c d e f o lines rs line cells row bad more rest :
  plain_line argv c d e f o -> Forall2 line_holds lines rs -> one_line line -> 2 <= length (strip line) ->
  strip line = flat_map (fun t => t ++ [comma]) cells ++ bad ++ more -> Forall plain cells -> Forall2 stands_for cells row -> ~ In comma bad ->
  (more = [] \/ exists more', more = comma :: more') -> out_of_range bad ->
  file f = Some (lines_of lines ++ line ++ rest) -> (rest = [] \/ exists rest', rest = newline :: rest') ->
  lhf_text square srt past_end nc0 al_reduce other pre_run pre_stats uaf file argv = Ok [].
Proof.
  intros Hl Hr O L E P F B M (neg & n & x & T & R) Hf Re. set (sd := fun t => option_map to_whole (stod t)).
  assert (Sb : sd bad = None). { unfold sd. destruct R as [R|[R1 R2]]; [destruct (stod_large _ _ _ _ T R) as [-> _]|destruct (stod_small _ _ _ _ T R1 R2) as [-> _]]; reflexivity. }
  assert (Nb : bad <> []). { destruct T as (s & a & p & b & ex & y & -> & _ & _ & _ & N & _). intros K. apply app_eq_nil in K as [_ K]. apply app_eq_nil in K as [-> K]. apply app_eq_nil in K as [_ K]. apply app_eq_nil in K as [-> _]. now apply N. }
  assert (Rd : readCSV Z sd (file f) = None).
  { destruct (cells_stod _ _ F) as [S1 _]. destruct (rows_stod _ _ Hr) as [S2 _].
    assert (Pn : parseDoubleVector Z sd line [] = None).
    { unfold parseDoubleVector. replace (1 <? length (strip line)) with true by (symmetry; apply Nat.ltb_lt; lia). rewrite E at 2.
      assert (C : commas Z sd (length (strip line)) (flat_map (fun t => t ++ [comma]) cells ++ bad ++ more) [] = None); [|now rewrite C].
      destruct M as [->|[m ->]]; [rewrite app_nil_r; now apply (commas_throw_last Z sd cells (map to_whole row))|now apply (commas_throw Z sd cells (map to_whole row))]. }
    rewrite Hf. destruct (readCSV_throw Z sd lines _ line (match rest with [] => [] | _ :: r => r end) S2 O Pn) as [K1 K2].
    destruct Re as [->|[r ->]]; [rewrite app_nil_r; exact K2|exact K1]. }
  destruct (line_args _ _ _ _ _ _ _ Hl) as (m & Pm & Dr & _ & Fi & _). unfold lhf_text. fold sd.
  destruct (C72_no_points_prints_usage (double_dist square of_whole) (fun s => ReadModel.atoi (list_ascii_of_string s)) (fun s => rank (ReadModel.atof (list_ascii_of_string s)))
    srt past_end nc0 al_reduce other pre_run pre_stats uaf sd file argv m f Pm) as [_ Th].
  - rewrite (dr_pipeline _ _ _ _ Dr). discriminate.
  - apply (pl_in _ _ _ _ _ _ _ Hl).
  - cbv zeta in Th. rewrite (Th Rd). reflexivity.
Qed.
