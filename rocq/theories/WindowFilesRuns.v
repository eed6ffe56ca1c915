(* WindowFilesRuns.v -- proofs for C110. *)
From Coq Require Import String List Arith ZArith Bool Lia.
From Verif Require Import Base UtilsModel ArrayListModel TreeModel FastModel ArgModel PipeModel WindowModel DebugModel WindowFilesModel.
From Verif Require Import Spec SpecComplex SpecGraph SpecArgs SpecPipe SpecWindow SpecWindowFiles PipeProofs WindowProofs SlidingProofs.
Import ListNotations.
Local Open Scope nat_scope. Local Open Scope list_scope.

Section Files.
  Variable dist : list Z -> list Z -> Z.
  Variables atoi atof : string -> Z.
  Variable srt : list wsimp -> list wsimp.
  Variable past_end : list nat -> nat -> res nat.
  Variable al_reduce : wgraph -> res wgraph.
  Variable one : Z.
  Variable args : amap.
  Notation step := (sliding_step dist atoi atof srt past_end al_reduce one args).
  Notation fstep := (step_files dist atoi atof srt past_end al_reduce one args).
  Notation run := (sliding_run dist atoi atof srt past_end al_reduce one args).
  Notation frun := (sliding_run_files dist atoi atof srt past_end al_reduce one args).
  Definition due (k : nat) : bool := (k mod 100 =? 0) && (200 <? k).

  Lemma step_shape s v s' : step s v = Ok s' -> sw_counter s' = S (sw_counter s) /\ length (sw_reports s') = length (sw_reports s) + (if due (sw_counter s) then 1 else 0).
  Proof.
    unfold sliding_step, sliding_step_with. match goal with |- context [bind ?x _] => destruct x as [[[w st'] p]|] end; [|discriminate]. cbn [bind]. change windowMaxSize with 200. fold (due (sw_counter s)).
    destruct (due (sw_counter s)).
    - destruct (report_of _ p) as [rep|]; [|discriminate]. cbn [bind]. destruct (sliding_sub _ _ _ _ _ _ _ _) as [p'|]; [|discriminate]. cbn [bind].
      intros H. injection H as <-. cbn [sw_counter sw_reports]. rewrite app_length. auto.
    - intros H. injection H as <-. cbn [sw_counter sw_reports]. auto with arith.
  Qed.
  Lemma steps_counter rows : forall s s', foldr_ub step s rows = Ok s' -> sw_counter s' = sw_counter s + length rows.
  Proof.
    induction rows as [|v rows IH]; intros s s' H; cbn [foldr_ub length] in *; [injection H as <-; lia|].
    destruct (step s v) as [s1|] eqn:E; [|discriminate]. apply step_shape in E as [E _]. apply IH in H. lia.
  Qed.
  Lemma steps_ub rows : forall s out, foldr_ub step s rows = UB -> foldr_ub fstep (s, out) rows = UB.
  Proof.
    induction rows as [|v rows IH]; intros s out H; cbn [foldr_ub] in *; [discriminate|]. unfold step_files at 1. destruct (step s v) as [s1|]; [|reflexivity]. cbn [bind] in *. now apply IH.
  Qed.
  Definition numbered (vectors : list (list Z)) (m : nat) : nat * files := (m, map (fun k => vectors_file k vectors) (seq 0 m)).
  Lemma output_next vectors m : vectors <> [] -> sub_output vectors (numbered vectors m) = numbered vectors (S m).
  Proof. intros H. unfold numbered at 2. rewrite seq_S, map_app. cbn [map Nat.add]. destruct vectors; [contradiction|reflexivity]. Qed.

  Lemma steps_files first s0 rows : first <> [] -> sw_reports s0 = [] ->
    (forall k s, k <= length rows -> 200 < sw_counter s0 + k -> foldr_ub step s0 (firstn k rows) = Ok s -> sw_window s = first) ->
    forall s, foldr_ub step s0 rows = Ok s -> foldr_ub fstep (s0, numbered first 0) rows = Ok (s, numbered first (length (sw_reports s))).
  Proof.
    intros Hf H0. induction rows as [|v rows IH] using rev_ind; intros Hw s H.
    - cbn in H. injection H as <-. now rewrite H0.
    - rewrite foldr_ub_app in H. rewrite foldr_ub_app. destruct (foldr_ub step s0 rows) as [s1|] eqn:E; [|cbn in H; discriminate H]. cbn [bind] in H.
      assert (E2 : foldr_ub fstep (s0, numbered first 0) rows = Ok (s1, numbered first (length (sw_reports s1)))).
      { apply IH; [|reflexivity]. intros k s2 Hk Hc Hs. apply (Hw k s2); [rewrite app_length; lia|exact Hc|]. rewrite firstn_app. replace (k - length rows) with 0 by lia. now rewrite app_nil_r. }
      rewrite E2. cbn [bind foldr_ub] in *. unfold step_files. destruct (step s1 v) as [s2|] eqn:E3; [|discriminate]. cbn [bind] in *. injection H as <-.
      destruct (step_shape s1 v s2 E3) as [C L]. assert (E' := steps_counter _ _ _ E). rewrite L. change windowMaxSize with 200. fold (due (sw_counter s1)). destruct (due (sw_counter s1)) eqn:D; [|now rewrite Nat.add_0_r].
      rewrite Nat.add_1_r, (Hw (length (rows ++ [v])) s2); [now rewrite output_next|lia| |].
      + unfold due in D. apply andb_true_iff in D as [_ D]. apply Nat.ltb_lt in D. rewrite app_length. cbn. lia.
      + rewrite firstn_all, foldr_ub_app, E. cbn [bind foldr_ub]. now rewrite E3.
  Qed.

  (* ---- the end of the run *)
  Lemma sub_data p q : sliding_sub dist atoi atof srt past_end al_reduce args p = Ok q -> pk_data q = pk_data p.
  Proof. unfold sliding_sub. destruct (sub_pipeline _ _ _ _ _ _ _ _ _) as [r|]; [|discriminate]. cbn [bind]. intros H. injection H as <-. now destruct (pk_complex r). Qed.

  Lemma run_inv rows p p' w st reports : run (Some rows) p = Ok (p', w, st, reports) ->
    exists s, foldr_ub step (mkSliding [] params0 p 1 []) rows = Ok s /\ sw_window s = w /\
      (if negb (length rows mod 100 =? 0) then sliding_sub dist atoi atof srt past_end al_reduce args (sw_packet s) = Ok p' else p' = sw_packet s) /\ pk_data (sw_packet s) = pk_data p' /\
      length reports = length (sw_reports s) + (if negb (length rows mod 100 =? 0) then 1 else 0).
  Proof.
    unfold sliding_run, sliding_run_with. fold (sliding_step dist atoi atof srt past_end al_reduce one). destruct (foldr_ub step _ rows) as [s|] eqn:E; [|discriminate]. cbn [bind]. apply steps_counter in E as Ec. cbn [sw_counter] in Ec.
    replace (sw_counter s - 1) with (length rows) by lia. intros H. exists s. split; [reflexivity|]. destruct (negb (length rows mod 100 =? 0)).
    - destruct (report_of _ _) as [rep|]; [|discriminate]. cbn [bind] in H. destruct (sliding_sub _ _ _ _ _ _ _ _) as [q|] eqn:Es; [|discriminate]. cbn [bind] in H. destruct (deref q); [|discriminate].
      cbn [bind] in H. injection H as <- <- <- <-. split; [reflexivity|]. split; [reflexivity|]. apply sub_data in Es. split; [congruence|]. now rewrite app_length.
    - cbn [bind] in H. destruct (deref (sw_packet s)); [|discriminate]. cbn [bind] in H. injection H as <- <- <- <-. rewrite Nat.add_0_r. auto.
  Qed.

  Lemma frun_of rows p s out p' w st reports : foldr_ub fstep (mkSliding [] params0 p 1 [], (0, [])) rows = Ok (s, out) -> foldr_ub step (mkSliding [] params0 p 1 []) rows = Ok s ->
    run (Some rows) p = Ok (p', w, st, reports) ->
    frun (Some rows) p = Ok (p', w, st, reports, snd (if negb (length rows mod 100 =? 0) then sub_output (pk_data p') out else out)).
  Proof.
    intros F E H. unfold sliding_run_files, sliding_run, sliding_run_with in *. fold (sliding_step dist atoi atof srt past_end al_reduce one) in *. rewrite F. rewrite E in H. cbn [bind] in *. apply steps_counter in E as Ec. cbn [sw_counter] in Ec.
    replace (sw_counter s - 1) with (length rows) in * by lia. destruct (negb (length rows mod 100 =? 0)).
    - destruct (report_of _ _) as [rep|]; [|discriminate]. cbn [bind] in *. destruct (sliding_sub _ _ _ _ _ _ _ _) as [q|] eqn:Es; [|discriminate]. cbn [bind] in *. destruct (deref q); [|discriminate].
      cbn [bind] in *. injection H as <- <- <- <-. apply sub_data in Es. now rewrite Es.
    - cbn [bind] in *. destruct (deref (sw_packet s)); [|discriminate]. cbn [bind] in *. injection H as <- <- <- <-. reflexivity.
  Qed.
  Lemma frun_ub rows p : run (Some rows) p = UB -> frun (Some rows) p = UB.
  Proof.
    unfold sliding_run_files, sliding_run, sliding_run_with. fold (sliding_step dist atoi atof srt past_end al_reduce one). destruct (foldr_ub step _ rows) as [s|] eqn:E; [|intros _; rewrite steps_ub by exact E; reflexivity].
    destruct (foldr_ub fstep _ rows) as [[s' out]|] eqn:F; [|reflexivity].
    assert (s' = s). { revert E F. generalize (mkSliding [] params0 p 1 []) (@pair nat files 0 []). induction rows as [|v rows IH]; intros s0 o E F; cbn [foldr_ub] in *; [congruence|].
      unfold step_files at 1 in F. destruct (step s0 v) as [s1|]; [|discriminate]. cbn [bind] in *. eauto. }
    subst s'. cbn [bind]. destruct (negb _).
    - destruct (report_of _ _) as [rep|]; [|reflexivity]. cbn [bind]. destruct (sliding_sub _ _ _ _ _ _ _ _) as [q|]; [|reflexivity]. cbn [bind]. now destruct (deref q).
    - cbn [bind]. now destruct (deref (sw_packet s)).
  Qed.
End Files.

Section Theorem_.
  Variable dist : list Z -> list Z -> Z.
  Variables atoi atof : string -> Z.
  Variable srt : list wsimp -> list wsimp.
  Variable past_end : list nat -> nat -> res nat.
  Variable al_reduce : wgraph -> res wgraph.
  Hypothesis Hs : is_sort srt.
  Hypothesis Hpos : forall x y, (0 <= dist x y)%Z.
  Variable one : Z.
  Variable args : amap.
  Variables (d e : string) (nc0 : Z) (p : packet).
  Hypothesis O : tree_options args d e.
  Hypothesis Ht : mget args "twist" <> None.
  Hypothesis Hdim : (0 < atoi d < 2 ^ 31 - 1)%Z.
  Hypothesis Hp : new_packet atoi atof nc0 args [] = Ok p.
  Notation step := (sliding_step dist atoi atof srt past_end al_reduce one args).
  Notation fstep := (step_files dist atoi atof srt past_end al_reduce one args).
  Notation run := (sliding_run dist atoi atof srt past_end al_reduce one args).
  Notation frun := (sliding_run_files dist atoi atof srt past_end al_reduce one args).
  Notation long := (sliding_long dist atoi atof srt past_end al_reduce Hs Hpos one args d e nc0 O Ht Hdim p Hp).

  Lemma nearest_same first nn nn' idx idx' : length nn = 200 -> length nn' = 200 ->
    (forall i, i < 200 -> nearest_other dist first i (nth i idx 0) (nth i nn 0%Z)) -> (forall i, i < 200 -> nearest_other dist first i (nth i idx' 0) (nth i nn' 0%Z)) -> nn = nn'.
  Proof.
    intros L L' N N'. apply (nth_ext _ _ 0%Z 0%Z); [congruence|]. intros i Hi. rewrite L in Hi.
    destruct (N i Hi) as (_ & A1 & A2 & A3 & A4). destruct (N' i Hi) as (_ & B1 & B2 & B3 & B4). apply Z.le_antisymm; [rewrite B3; now apply A4|rewrite A3; now apply B4].
  Qed.

  (* A defined run keeps the first 200 vectors after every later vector. *)
  Lemma prefix_window rows : (forall x, In x rows -> x <> []) -> 200 <= length rows -> run (Some rows) p <> UB ->
    forall k s, 200 <= k <= length rows -> foldr_ub step (mkSliding [] params0 p 1 []) (firstn k rows) = Ok s -> sw_window s = firstn 200 rows.
  Proof.
    intros Hne L Def k s Hk E. destruct (list_eq_dec (list_eq_dec Z.eq_dec) (sw_window s) (firstn 200 rows)) as [Y|N]; [exact Y|exfalso].
    destruct (long rows Hne L) as (idx & nn & L1 & L2 & N1 & _ & Bad).
    destruct (long (firstn k rows)) as (idx' & nn' & L1' & L2' & N1' & Good & _).
    { intros x Hx. apply Hne. rewrite <- (firstn_skipn k rows). apply in_app_iff. now left. }
    { rewrite firstn_length. lia. }
    rewrite firstn_firstn in N1', Good. replace (Nat.min 200 k) with 200 in * by lia.
    assert (En := nearest_same _ _ _ _ _ L2 L2' N1 N1'). subst nn'.
    assert (W : length (firstn k rows) = 200 \/ ((forall x, In x (skipn 200 (firstn k rows)) -> turned_away dist (firstn 200 rows) one nn x) /\
       ~ (exists u v, u < v /\ v < 200 /\ (separation dist (firstn 200 rows) u v < atof e)%Z)) -> False).
    { intros Q. destruct (Good Q) as (p' & st & reports & c & R & _). destruct (run_inv dist atoi atof srt past_end al_reduce one args _ _ _ _ _ _ R) as (s' & E' & Ew & _). rewrite E in E'. injection E' as <-. contradiction. }
    destruct (Nat.eq_dec (length (firstn k rows)) 200) as [Y|Y]; [apply W; now left|]. rewrite firstn_length in Y.
    apply Def, Bad; [lia|]. intros [Q1 Q2]. apply W. right. split; [|exact Q2]. intros x Hx. apply Q1. rewrite <- (firstn_skipn k rows), skipn_app. apply in_app_iff. now left.
  Qed.

  Lemma filter_all (f : nat -> bool) l : forallb f l = true -> filter f l = l.
  Proof. induction l as [|x l IH]; cbn; [auto|]. intros H. apply andb_true_iff in H as [-> H]. now rewrite IH. Qed.
  Lemma reports_count n : 200 <= n -> length (filter (fun k => 200 <? k) (printed n)) = window_files n.
  Proof.
    intros L. unfold window_files, printed. destruct (Nat.ltb_spec n 200); [lia|]. rewrite filter_app, app_length. f_equal.
    - assert (D : 2 <= n / 100) by (apply Nat.div_le_lower_bound; lia). replace (n / 100) with (2 + (n / 100 - 2)) at 1 by lia. rewrite seq_app, map_app, filter_app. cbn [seq map filter].
      replace (200 <? 100 * 1) with false by reflexivity. replace (200 <? 100 * 2) with false by reflexivity. cbn [app].
      rewrite filter_all; [now rewrite map_length, seq_length|]. apply forallb_forall. intros y Hy. apply in_map_iff in Hy as (j & <- & Hj). apply in_seq in Hj. apply Nat.ltb_lt. lia.
    - destruct (n mod 100 =? 0); [reflexivity|]. cbn [filter]. destruct (Nat.ltb_spec 200 (n + 1)); [reflexivity|lia].
  Qed.

  Theorem window_files_of rows : (forall x, In x rows -> x <> []) ->
    (run (Some rows) p = UB -> frun (Some rows) p = UB) /\
    (forall p' w st reports, run (Some rows) p = Ok (p', w, st, reports) ->
       frun (Some rows) p = Ok (p', w, st, reports, map (fun k => vectors_file k (firstn 200 rows)) (seq 0 (window_files (length rows))))).
  Proof.
    intros Hne. split; [apply frun_ub|]. intros p' w st reports R. destruct (run_inv _ _ _ _ _ _ _ _ _ _ _ _ _ _ R) as (s & E & Ew & Ep & Ed & El).
    destruct (Nat.lt_ge_cases (length rows) 200) as [L|L].
    - destruct (sliding_short dist atoi atof srt past_end al_reduce one args d e nc0 O p Hp rows L) as (st' & R'). rewrite R in R'. injection R' as -> -> -> ->.
      assert (F : foldr_ub fstep (mkSliding [] params0 p 1 [], (0, [])) rows = Ok (s, (0, []))).
      { clear - L E. assert (G : forall s0 s, sw_counter s0 + length rows <= 200 -> foldr_ub step s0 rows = Ok s -> foldr_ub fstep (s0, (0, [])) rows = Ok (s, (0, []))); [|apply G; [cbn; lia|exact E]].
        clear. induction rows as [|v rows IH]; intros s0 s C E; cbn [foldr_ub length] in *; [congruence|]. unfold step_files at 1. destruct (step s0 v) as [s1|] eqn:E1; [|discriminate]. cbn [bind] in *.
        change windowMaxSize with 200. destruct (Nat.ltb_spec 200 (sw_counter s0)); [lia|]. rewrite andb_false_r. apply IH; [|exact E]. destruct (step_shape _ _ _ _ _ _ _ _ _ _ _ E1) as [Q _]. lia. }
      rewrite (frun_of _ _ _ _ _ _ _ _ _ _ _ _ _ _ _ _ F E R). unfold window_files. destruct (Nat.ltb_spec (length rows) 200); [|lia]. cbn [seq map].
      destruct (new_tree atoi atof args d e nc0 [] p O Hp) as (_ & _ & Hdata). rewrite Hdata. now destruct (negb _).
    - assert (Hf : firstn 200 rows <> []) by (destruct rows; [cbn in L; lia|discriminate]).
      assert (F := steps_files dist atoi atof srt past_end al_reduce one args (firstn 200 rows) (mkSliding [] params0 p 1 []) rows Hf eq_refl).
      assert (Def : run (Some rows) p <> UB) by congruence.
      specialize (F ltac:(intros k s' Hk Hc E'; cbn [sw_counter] in Hc; apply (prefix_window rows Hne L Def k s'); [lia|exact E']) s E).
      rewrite (frun_of _ _ _ _ _ _ _ _ _ _ _ _ _ _ _ _ F E R).
      assert (Good : pk_data p' = firstn 200 rows /\ length reports = window_files (length rows)).
      { destruct (list_eq_dec (list_eq_dec Z.eq_dec) (pk_data p') (firstn 200 rows)) as [Y|N]; [destruct (Nat.eq_dec (length reports) (window_files (length rows))) as [Y'|N]; [now split|]|]; exfalso.
        all: destruct (long rows Hne L) as (idx & nn & L1 & L2 & N1 & G & Bad).
        all: assert (W : length rows = 200 \/ ((forall x, In x (skipn 200 rows) -> turned_away dist (firstn 200 rows) one nn x) /\
               ~ (exists u v, u < v /\ v < 200 /\ (separation dist (firstn 200 rows) u v < atof e)%Z)) -> False)
          by (intros Q; destruct (G Q) as (q & st' & reports' & c & R' & _ & _ & _ & Dq & _ & _ & _ & Rp); assert (Ex := f_equal (fun r => match r with Ok x => (fst (fst (fst x)), snd x) | UB => (p', reports) end) (eq_trans (eq_sym R) R')); cbn [fst snd] in Ex; injection Ex as Ex1 Ex2;
              apply N; ((rewrite Ex1; exact Dq) || (rewrite Ex2, Rp, map_length; now apply reports_count))).
        all: destruct (Nat.eq_dec (length rows) 200) as [Y2|Y2]; [apply W; now left|]; apply Def, Bad; [lia|]; intros Q; apply W; now right. }
      destruct Good as [Gd Gr]. rewrite Gd, <- Gr, El. destruct (negb (length rows mod 100 =? 0)); [rewrite output_next by exact Hf; rewrite Nat.add_1_r|rewrite Nat.add_0_r]; reflexivity.
  Qed.
End Theorem_.
