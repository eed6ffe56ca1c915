(* SlideDouble.v -- proof for C113. *)
From Coq Require Import String Ascii List Arith ZArith QArith Bool Lia SpecFloat Reals.
From Verif Require Import Base Spec UtilsModel RunMonad ArrayListModel TreeModel FastModel ArgModel IoModel GaussModel IndModel TwistModel PipeModel EvalModel WindowModel MainModel AllModel.
From Verif Require Import  PipeProofs SpecIo SpecComplex SpecTree SpecArgs SpecGraph SpecFast SpecPipe SpecWindow SpecMain SpecAll ArgProofs IoProofs WindowProofs SlidingProofs MainProofs MainRuns AllRuns.
From Verif Require Import DoubleModel SpecDouble DoubleProofs DoubleRuns SpecText TextModel TextProofs TextProofs TextRuns ReadModel SpecRead ReadProofs ReadFileProofs ProgramRuns NanModel SpecNan NanRuns NanProgram CompareRuns.
From Verif Require Import FloatFacts SpecKdDouble KdDouble SpecError FloatError EvalDoubleModel SpecEvalDouble EvalDouble SlideDoubleModel SpecSlide.
Import ListNotations.
Local Open Scope nat_scope.
Local Open Scope list_scope.

Lemma stod_coded : stod_ignores_newline d_stod.
Proof. intros t H. unfold d_stod. now rewrite (stod_newline t H). Qed.
Lemma vector_line line v : stream_vector line v -> stream_line d_stod line (map to_whole v) /\ Forall fits v /\ v <> [].
Proof.
  intros (cells & H1 & H2 & H3 & H4 & H5 & H6 & H7). destruct (cells_reads cells v H7) as [E F]. split; [|split; [exact F|]].
  - exists cells. auto 10.
  - intros ->. inversion H7; subst. easy.
Qed.
Lemma vector_lines lines rows : Forall2 stream_vector lines rows ->
  Forall2 (stream_line d_stod) lines (map (map to_whole) rows) /\ (forall x, In x rows -> Forall fits x /\ x <> []).
Proof.
  induction 1 as [|line v lines rows H _ [IH IH']]; [split; [constructor|intros x []]|]. destruct (vector_line _ _ H) as (A & B & C). cbn [map]. split; [now constructor|].
  intros x [<-|Hx]; auto.
Qed.
Lemma decoded (x : list double) : Forall fits x -> map of_whole (map to_whole x) = x.
Proof. intros F. rewrite map_map. rewrite <- (map_id x) at 2. apply map_ext_in. intros y Hy. apply of_to_whole. rewrite Forall_forall in F. auto. Qed.

(* ---- the evaluator turns away or is undefined *)
Section Evaluator.
  Variable square : double -> double.
  Variable rest : evaluator_type.
  Variable W : list (list Z).
  Hypothesis HW : length W = 200.
  Variable st : params.
  Hypothesis Av : length (sp_avg st) = 1.
  Definition refused (x : list Z) : bool :=
    match pure_evaluator square (map (map of_whole) W) (map at_place (sp_nnDists st)) (map of_whole x) with Ok false => true | _ => false end.
  Lemma distances_length v window ws : d_distances square v window = Ok ws -> length ws = length window.
  Proof.
    unfold d_distances. assert (G : forall l acc r, foldr_ub (fun acc x => do w <- d_distance square v x; Ok (acc ++ [w])) acc l = Ok r -> length r = length acc + length l).
    { induction l as [|x l IH]; intros acc r; cbn [foldr_ub]; [intros [= ->]; cbn; lia|]. destruct (d_distance square v x) as [w|]; cbn [bind]; [|discriminate].
      intros H. rewrite (IH _ _ H), List.app_length. cbn. lia. }
    intros H. now rewrite (G _ _ _ H).
  Qed.
  Lemma reads_past {A} (l : list A) n : length l < n -> foldr_ub (fun _ i => do _ <- at_ l i; Ok tt) tt (seq 0 n) = UB.
  Proof.
    intros H. replace n with (length l + (n - length l)) by lia. rewrite seq_app, foldr_ub_app.
    destruct (foldr_ub _ tt (seq 0 (length l))) as [[]|]; cbn [bind]; [|reflexivity]. destruct (n - length l) as [|k] eqn:E; [lia|]. cbn [seq foldr_ub Nat.add].
    unfold at_ at 1. now rewrite (proj2 (nth_error_None l (length l)) (le_n _)).
  Qed.
  Lemma evaluator_refuses x m : length m = 200 ->
    if refused x then evaluator_doubles square rest x W st m = Ok (false, W, st, m) else evaluator_doubles square rest x W st m = UB.
  Proof.
    intros Lm. unfold refused, pure_evaluator, evaluator_doubles. rewrite Av. cbn [Nat.eqb negb].
    destruct (d_distances square _ _) as [ws|] eqn:E; cbn [bind]; [|reflexivity]. apply distances_length in E. rewrite map_length, HW in E.
    destruct (d_min ws) as [w|]; [|reflexivity]. destruct (admits _ w); [|reflexivity].
    unfold erase_at. rewrite E. change (0 <? 200) with true. cbn [bind]. rewrite Lm, reads_past; [reflexivity|].
    rewrite List.app_length, firstn_length, skipn_length. lia.
  Qed.
End Evaluator.

(* ---- the run *)
Section Run.
  Variable rest : evaluator_type.
  Variable srt : list wsimp -> list wsimp.
  Variable past_end : list nat -> nat -> res nat.
  Variable nc0 : Z.
  Variable al_reduce : wgraph -> res wgraph.
  Variable other : pipe_kind -> amap -> packet -> res packet.
  Variable pre_run : pre_kind -> amap -> packet -> res packet.
  Variable pre_stats : pre_kind -> packet -> res packet.
  Variable uaf : res unit.
  Variable file : string -> option text.
  Variable stopped : res packet.
  Hypothesis Hs : is_sort srt.
  Variables (argv : list string) (d e f o : string) (dd : Z) (eps : double).
  Hypothesis Hl : window_line argv ["sw"; "slidingwindow"]%string d e f o.
  Hypothesis Ho : o <> "console"%string.
  Hypothesis Hd : reads_number (list_ascii_of_string d) dd.
  Hypothesis Hdd : (0 < dd < 2 ^ 31 - 1)%Z.
  Hypothesis He : reads_as (list_ascii_of_string e) eps.
  Hypothesis Pe : non_negative eps.
  Variables (lines : list text) (t : text) (rows : list (list double)) (dim : nat).
  Hypothesis Hf : file f = Some (lines_of lines ++ t).
  Hypothesis Hrows : Forall2 stream_vector lines rows.
  Hypothesis Hend : stream_end t.
  Hypothesis Len : forall x, In x rows -> length x = dim.
  Hypothesis Dist : forall x y, In x rows -> In y rows -> exists w, d_distance d_square x y = Ok w /\ coordinate_ok w.

  Notation dist := (coded_dist d_square (nan_at Tree)).
  Notation ev := (evaluator_doubles d_square rest).
  Notation program := (lhf_stream d_square rest srt past_end nc0 al_reduce other pre_run pre_stats uaf file stopped argv).
  Notation data := (map (map to_whole) rows).
  Definition no_bars : res (list (string * text)) := Ok [((o ++ ".csv")%string, list_ascii_of_string "dimension,birth,death" ++ [newline])].

  Lemma eps_fits : d_atof e = rank eps /\ fits eps.
  Proof. destruct (reads_stod _ _ He) as (_ & A & F). unfold d_atof. now rewrite A. Qed.
  Lemma dim_read : d_atoi d = dd.
  Proof. unfold d_atoi. now apply atoi_number. Qed.

  Lemma program_is : exists args p, tree_options args d e /\ mget args "twist" <> None /\ new_packet d_atoi d_atof nc0 args [] = Ok p /\
    (forall p' w st reports c, sliding_run_with dist d_atoi d_atof srt past_end al_reduce ev args (Some data) p = Ok (p', w, st, reports) -> pk_output p' = [] -> pk_complex p' = Some c -> program = no_bars) /\
    (sliding_run_with dist d_atoi d_atof srt past_end al_reduce ev args (Some data) p = UB -> program = UB).
  Proof.
    destruct (window_args argv _ "slidingwindow" d e f o (or_intror (or_introl eq_refl)) Hl) as (m & Pa & To & Pl & Pre & Fi & Fo & Tw & Up & Md).
    set (args := setPipeline m) in *. exists args. assert (To' := To). destruct To' as [T1 T2 T3].
    assert (Np : exists p, new_packet d_atoi d_atof nc0 args [] = Ok p).
    { unfold new_packet, newSimplex, opt. rewrite T1, T2, T3. eexists. reflexivity. }
    destruct Np as (p & Np). exists p. split; [exact To|]. split; [exact Tw|]. split; [exact Np|].
    destruct (vector_lines _ _ Hrows) as [Ls _].
    assert (Sf : stream_of_file d_stod file f = Some (Some data)) by (apply (streams_file d_stod file f data stod_coded); exists lines, t; auto).
    assert (E : program = do r <- sliding_run_with dist d_atoi d_atof srt past_end al_reduce ev args (Some data) p;
                          do q' <- add_stats KSlidingWindow (fst (fst (fst r))); Ok [((o ++ ".csv")%string, barcode_text at_place (pk_output q'))]).
    { unfold lhf_stream. rewrite Pa. cbn [bind]. fold args.
      replace (nan_place (opt args "complexType")) with (nan_at Tree) by (unfold opt; now rewrite T1).
      rewrite (one_run_of dist d_atoi d_atof srt past_end nc0 al_reduce _ pre_run pre_stats uaf d_stod file argv m "slidingwindow" f o [] Pa Pl Pre Fi Fo Up Md eq_refl).
      fold args. rewrite Np. cbn [bind].
      rewrite (single_pipe_of dist d_atoi d_atof srt past_end al_reduce _ args "slidingwindow" KSlidingWindow p Pl eq_refl ltac:(unfold mread; rewrite T1; reflexivity)); [|intros k [<-|[<-|[]]]; congruence|reflexivity].
      cbn [run_pipe pipes_doubles]. replace (opt args "inputFile") with f by (unfold opt; now rewrite Fi). rewrite Sf.
      destruct (sliding_run_with _ _ _ _ _ _ _ _ _ _) as [r|]; cbn [bind]; [|reflexivity].
      destruct (add_stats KSlidingWindow (fst (fst (fst r)))) as [q'|]; cbn [bind]; [|reflexivity].
      unfold barcode_file. rewrite (proj2 (String.eqb_neq _ _) Ho). reflexivity. }
    split.
    - intros p' w st reports c R O C. rewrite E, R. cbn [bind fst]. unfold add_stats, PipeModel.deref. rewrite C. cbn [bind]. unfold no_bars. cbn [pk_output]. rewrite O. reflexivity.
    - intros R. now rewrite E, R.
  Qed.

  Lemma rows_fit x : In x rows -> Forall fits x /\ x <> [].
  Proof. exact (proj2 (vector_lines _ _ Hrows) x). Qed.
  Lemma same_length x y : In x rows -> In y rows -> length x = length y.
  Proof. intros Hx Hy. now rewrite (Len x Hx), (Len y Hy). Qed.
  Lemma distance_fine x y w : In x rows -> In y rows -> d_distance d_square x y = Ok w -> coordinate_ok w /\ non_negative w.
  Proof.
    intros Hx Hy E. destruct (Dist x y Hx Hy) as (w' & E' & O). assert (w' = w) as -> by congruence. split; [exact O|].
    destruct (distance_kind d_square x y w square_squares (same_length x y Hx Hy) E) as [->|[N _]]; [|exact N]. destruct O as [_ []].
  Qed.
  Lemma coded x y w : In x rows -> In y rows -> d_distance d_square x y = Ok w -> dist (map to_whole x) (map to_whole y) = rank w.
  Proof.
    intros Hx Hy E. unfold coded_dist. rewrite !decoded by (now apply rows_fit). rewrite E. destruct (distance_fine x y w Hx Hy E) as [_ N]. now destruct w.
  Qed.

  (* ---- the first 200 points *)
  Notation first := (firstn 200 rows).
  Notation firstZ := (firstn 200 data).
  Lemma first_in x : In x first -> In x rows.
  Proof. intros H. rewrite <- (firstn_skipn 200 rows). apply in_or_app. now left. Qed.
  Lemma later_in x : In x (skipn 200 rows) -> In x rows.
  Proof. intros H. rewrite <- (firstn_skipn 200 rows). apply in_or_app. now right. Qed.
  Theorem slide_short : length rows < 200 -> program = no_bars.
  Proof.
    intros L. destruct program_is as (args & p & To & Tw & Np & Good & _). rewrite <- (map_length (map to_whole)) in L.
    destruct (short_with dist d_atoi d_atof srt past_end al_reduce ev args d e nc0 To p Np data L) as (st & R).
    assert (K : pk_output p = [] /\ exists c, pk_complex p = Some c).
    { destruct To as [T1 T2 T3]. unfold new_packet, newSimplex, opt in Np. rewrite T1, T2, T3 in Np. injection Np as <-. split; [reflexivity|]. eexists. reflexivity. }
    destruct K as (O & c & C). exact (Good _ _ _ _ _ R O C).
  Qed.
  Hypothesis L200 : 200 <= length rows.
  Lemma first_length : length first = 200.
  Proof. rewrite firstn_length. lia. Qed.
  Lemma gap_value i j : i < 200 -> j < 200 -> exists w, apart d_square first i j w /\ fine w /\ SpecWindow.gap dist firstZ i j = rank w.
  Proof.
    intros Hi Hj. assert (L := first_length).
    destruct (nth_error first i) as [x|] eqn:Ex; [|apply nth_error_None in Ex; lia]. destruct (nth_error first j) as [y|] eqn:Ey; [|apply nth_error_None in Ey; lia].
    assert (Hx := first_in x (nth_error_In _ _ Ex)). assert (Hy := first_in y (nth_error_In _ _ Ey)). destruct (Dist x y Hx Hy) as (w & E & O). exists w.
    split; [exists x, y; auto|]. split; [exact (distance_fine x y w Hx Hy E)|].
    assert (E' : d_distance d_square y x = Ok w) by (rewrite <- E; apply distance_sym; [exact square_squares|now apply same_length]).
    unfold SpecWindow.gap, separation. rewrite firstn_map.
    destruct (Nat.le_ge_cases i j) as [H|H].
    - rewrite Nat.min_l, Nat.max_r by exact H. rewrite (map_nth_error _ _ _ Ex), (map_nth_error _ _ _ Ey). now apply coded.
    - rewrite Nat.min_r, Nat.max_l by exact H. rewrite (map_nth_error _ _ _ Ex), (map_nth_error _ _ _ Ey). now apply coded.
  Qed.
  Lemma apart_in i j w : apart d_square first i j w -> i < 200 /\ j < 200.
  Proof. intros (x & y & A & B & _). assert (L := first_length). split; rewrite <- L; apply nth_error_Some; congruence. Qed.
  Lemma nearest_coded i j z : nearest_other dist firstZ i j z -> nearest_gap first i (at_place z) /\ fine (at_place z).
  Proof.
    assert (L : length firstZ = 200) by (rewrite firstn_map, map_length; apply first_length).
    intros (Hi & Hj & Nj & -> & M). rewrite L in *. destruct (gap_value i j Hi Hj) as (w & A & [O N] & Gw). rewrite Gw in *.
    assert (F : fits w) by (apply valid_fits, (ok_spec w O)). rewrite (at_place_rank w N F). split; [|split; assumption]. split; [eauto|].
    intros k w' Nk A'. destruct (apart_in _ _ _ A') as [_ Hk]. destruct (gap_value i k Hi Hk) as (w2 & A2 & [O2 N2] & G2). rewrite (apart_unique d_square first _ _ _ _ A' A2).
    rewrite rank_leb; try (now apply DoubleRuns.number_of); [|exact F|apply valid_fits, (ok_spec w2 O2)]. apply Z.leb_le. rewrite <- G2. now apply M.
  Qed.
  Lemma close_coded : (exists u v, u < v /\ v < 200 /\ (separation dist firstZ u v < d_atof e)%Z) <-> exists w, near_pair d_square first Tree eps w.
  Proof.
    destruct eps_fits as [-> Fe]. split.
    - intros (u & v & H1 & H2 & H3). destruct (gap_value u v ltac:(lia) H2) as (w & A & [O N] & G). unfold SpecWindow.gap in G. rewrite Nat.min_l, Nat.max_r in G by lia. rewrite G in H3.
      exists w. split.
      + cbn [within]. rewrite rank_ltb; try (now apply DoubleRuns.number_of); [now apply Z.ltb_lt|apply valid_fits, (ok_spec w O)|exact Fe].
      + exists u, v. split; [exact H1|]. exists w. split; [exact A|]. now destruct w.
    - intros (w & Wi & u & v & H1 & x & A & E). destruct (apart_in _ _ _ A) as [Hu Hv]. exists u, v. split; [exact H1|]. split; [exact Hv|].
      destruct (gap_value u v Hu Hv) as (w2 & A2 & [O2 N2] & G). unfold SpecWindow.gap in G. rewrite Nat.min_l, Nat.max_r in G by lia. rewrite G.
      assert (x = w2) as -> by exact (apart_unique d_square first _ _ _ _ A A2). assert (w = w2) as -> by (rewrite E; now destruct w2).
      cbn [within] in Wi. rewrite rank_ltb in Wi; try (now apply DoubleRuns.number_of); [now apply Z.ltb_lt|apply valid_fits, (ok_spec w2 O2)|exact Fe].
  Qed.
  Lemma some_distances x : In x rows -> exists ws, distances_from d_square x first ws.
  Proof.
    intros Hx. unfold distances_from. assert (G : forall l, (forall y, In y l -> In y rows) -> exists ws, Forall2 (fun y w => d_distance d_square x y = Ok w /\ coordinate_ok w /\ non_negative w) l ws).
    { induction l as [|y l IH]; intros H; [exists []; constructor|]. destruct IH as (ws & F); [intros; apply H; now right|]. destruct (Dist x y Hx (H y (or_introl eq_refl))) as (w & E & _).
      exists (w :: ws). constructor; [|exact F]. split; [exact E|]. exact (distance_fine x y w Hx (H y (or_introl eq_refl)) E). }
    apply G. exact first_in.
  Qed.
  Lemma distances_same x ws ws' : distances_from d_square x first ws -> distances_from d_square x first ws' -> ws = ws'.
  Proof.
    unfold distances_from. generalize first. intros l H. revert ws'. induction H as [|y w l ws (E & _) _ IH]; intros ws' H'; inversion H' as [|? w' ? ws2 (E' & _) H2]; subst; [reflexivity|].
    f_equal; [congruence|auto].
  Qed.
  Lemma smallest_same ws a b : smallest ws a -> smallest ws b -> a = b.
  Proof. intros [(w & Hw & <-) H1] [(v & Hv & <-) H2]. apply Rle_antisym; auto. Qed.

  Theorem slide_long : exists nn, length nn = 200 /\ (forall i, i < 200 -> nearest_gap first i (nth i nn d_zero)) /\
    (length rows = 200 -> program = no_bars) /\
    (program = no_bars \/ program = UB) /\
    (200 < length rows -> (exists w, near_pair d_square first Tree eps w) -> program = UB) /\
    ((exact_average nn < powerRZ 2 1016)%R ->
       (~ (exists w, near_pair d_square first Tree eps w) ->
        (forall x, In x (skipn 200 rows) -> at_distance first nn x (clearly_turned_away (powerRZ 2 (-43)) (powerRZ 2 (-1073)))) -> program = no_bars) /\
       ((exists x, In x (skipn 200 rows) /\ at_distance first nn x (clearly_admitted (powerRZ 2 (-43)) (powerRZ 2 (-1073)))) -> program = UB)).
  Proof.
    destruct program_is as (args & p & To & Tw & Np & Good & Bad).
    assert (Dm : (0 < d_atoi d < 2 ^ 31 - 1)%Z) by (rewrite dim_read; exact Hdd).
    assert (Ne : forall x, In x data -> x <> []).
    { intros x Hx. apply in_map_iff in Hx as (r & <- & Hr). destruct (rows_fit r Hr) as [_ N]. destruct r; [easy|discriminate]. }
    assert (Ld : 200 <= length data) by (now rewrite map_length).
    destruct (long_with dist d_atoi d_atof srt past_end al_reduce Hs (coded_dist_pos d_square Tree square_squares) ev args d e nc0 To Tw Dm p Np data Ne Ld)
      as (idx & nnZ & st & L1 & L2 & N & Lab & Av & Sm & S1 & S2 & S3 & G).
    assert (LZ : length firstZ = 200) by (rewrite firstn_map, map_length; apply first_length).
    specialize (G (refused d_square firstZ st) (evaluator_refuses d_square rest firstZ LZ st ltac:(now rewrite Av))). cbv zeta in G. destruct G as [G B].
    rewrite map_length in G, B.
    set (nn := map at_place nnZ).
    assert (Ln : length nn = 200) by (unfold nn; now rewrite map_length).
    assert (Nn : forall i, i < 200 -> nearest_gap first i (nth i nn d_zero) /\ fine (nth i nn d_zero)).
    { intros i Hi. unfold nn. change d_zero with (at_place 0%Z). rewrite map_nth. exact (nearest_coded _ _ _ (N i Hi)). }
    assert (Fn : Forall fine nn). { apply Forall_forall. intros w Hw. apply (In_nth _ _ d_zero) in Hw as (i & Hi & <-). apply Nn. lia. }
    assert (Fw : map (map of_whole) firstZ = first).
    { rewrite firstn_map, map_map. rewrite <- (map_id first) at 2. apply map_ext_in. intros x Hx. apply decoded. apply rows_fit. now apply first_in. }
    assert (Rf : forall r, In r rows -> refused d_square firstZ st (map to_whole r) = match pure_evaluator d_square first nn r with Ok false => true | _ => false end).
    { intros r Hr. unfold refused. rewrite Fw, S2, decoded by (now apply rows_fit). reflexivity. }
    assert (Fne : first <> []) by (intros K; assert (L := first_length); rewrite K in L; discriminate).
    set (quiet := forall x, In x (skipn 200 data) -> refused d_square firstZ st x = true) in *.
    set (close_pair := exists u v, u < v /\ v < 200 /\ (separation dist firstZ u v < d_atof e)%Z) in *.
    assert (Ends : length rows = 200 \/ quiet /\ ~ close_pair -> program = no_bars).
    { intros H. destruct (G H) as (p' & reports & c & R & C & _ & O & _). exact (Good _ _ _ _ _ R O C). }
    assert (Qd : quiet \/ ~ quiet).
    { destruct (forallb (refused d_square firstZ st) (skipn 200 data)) eqn:Fb.
      - left. exact (proj1 (forallb_forall _ _) Fb).
      - right. intros Q. assert (X := proj2 (forallb_forall _ _) Q). congruence. }
    exists nn. split; [exact Ln|]. split; [intros i Hi; now apply Nn|]. split; [intros H; apply Ends; now left|]. split; [|split].
    - destruct (Nat.eq_dec (length rows) 200) as [H|H]; [left; apply Ends; now left|].
      destruct (sliding_run_with dist d_atoi d_atof srt past_end al_reduce ev args (Some data) p) as [r|] eqn:R; [left|right; exact (Bad eq_refl)].
      apply Ends. right. assert (K : ~ ~ (quiet /\ ~ close_pair)). { intros K. specialize (B ltac:(lia) K). congruence. }
      split; [destruct Qd as [Q|Q]; [exact Q|exfalso; apply K; intros [Q' _]; auto]|]. intros Cp. apply K. intros [_ Cn]. auto.
    - intros H Cl. apply Bad, B; [exact H|]. intros [_ Cn]. apply Cn. now apply close_coded.
    - intros Bd. assert (Dec : forall x, In x (skipn 200 rows) -> exists ws a answer, distances_from d_square x first ws /\ smallest ws a /\ pure_evaluator d_square first nn x = Ok answer /\
          (clearly_turned_away (powerRZ 2 (-43)) (powerRZ 2 (-1073)) (exact_average nn) a -> answer = false) /\ (clearly_admitted (powerRZ 2 (-43)) (powerRZ 2 (-1073)) (exact_average nn) a -> answer = true)).
      { intros x Hx. destruct (some_distances x (later_in x Hx)) as (ws & D). destruct (pure_decision d_square first nn x ws Fne D Ln Fn Bd) as (a & ans & H). exists ws, a, ans. auto. }
      split.
      + intros Cn Q. apply Ends. right. split; [|intros Cp; apply Cn; now apply close_coded]. intros z Hz. rewrite skipn_map in Hz. apply in_map_iff in Hz as (x & <- & Hx).
        rewrite Rf by (now apply later_in). destruct (Dec x Hx) as (ws & a & ans & D & Sa & -> & T & _). destruct (Q x Hx) as (ws' & a' & D' & Sa' & T').
        rewrite (distances_same x ws' ws D' D) in Sa'. rewrite (smallest_same ws a' a Sa' Sa) in T'. now rewrite (T T').
      + intros (x & Hx & ws' & a' & D' & Sa' & T'). apply Bad, B.
        * assert (K : length (skipn 200 rows) <> 0) by (intros K; destruct (skipn 200 rows); [destruct Hx|discriminate]). rewrite skipn_length in K. lia.
        * intros [Q _]. destruct (Dec x Hx) as (ws & a & ans & D & Sa & Ev & _ & T). rewrite (distances_same x ws' ws D' D) in Sa'. rewrite (smallest_same ws a' a Sa' Sa) in T'.
          specialize (Q (map to_whole x)). rewrite skipn_map in Q. specialize (Q (in_map _ _ _ Hx)). rewrite Rf in Q by (now apply later_in). rewrite Ev, (T T') in Q. discriminate.
  Qed.
End Run.
