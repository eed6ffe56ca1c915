(* NearEval.v -- proofs about nnBasedEvaluator. *)
From Coq Require Import List Arith ZArith QArith Bool Lia Sorted.
From Verif Require Import Base Spec EvalModel SpecGraph SpecWindow SpecNear NearProofs NearRuns NearEnd.
Import ListNotations.
Local Open Scope nat_scope. Local Open Scope list_scope.

Lemma min_pos_first l : l <> [] -> exists t d, min_pos l = Some (t, d) /\ t < length l /\ nth t l 0%Z = d /\
  (forall x, In x l -> (d <= x)%Z) /\ forall i, i < t -> (d < nth i l 0)%Z.
Proof.
  induction l as [|x l IH]; intros N; [easy|]. cbn [min_pos]. destruct l as [|y l].
  - exists 0, x. cbn [min_pos]. split; [reflexivity|]. split; [cbn; lia|]. split; [reflexivity|]. split; [intros z [->|[]]; lia|intros; lia].
  - destruct IH as (t & d & E & T & Nt & M & F); [easy|]. rewrite E. destruct (Z.ltb_spec d x).
    + exists (S t), d. split; [reflexivity|]. split; [cbn in *; lia|]. split; [exact Nt|]. split; [intros z [->|I]; [lia|auto]|].
      intros [|i] I; [exact H|]. cbn [nth]. apply F. lia.
    + exists 0, x. split; [reflexivity|]. split; [cbn; lia|]. split; [reflexivity|]. split; [|intros; lia]. intros z [->|I]; [lia|]. specialize (M z I). lia.
Qed.

Lemma inject_nonzero z : (0 < z)%Z -> ~ (inject_Z z == 0)%Q.
Proof. intros H E. unfold Qeq, inject_Z in E. cbn in E. lia. Qed.
(* Comparisons of averages: a = s / n. *)
Section Average.
  Variables (a : Q) (s n : Z).
  Hypothesis Hn : (0 < n)%Z.
  Hypothesis Ha : (a * inject_Z n == inject_Z s)%Q.
  Lemma avg_div : (a == inject_Z s / inject_Z n)%Q.
  Proof. rewrite <- Ha. field. now apply inject_nonzero. Qed.
  Lemma avg_small one : Qle_bool (inject_Z 4 * a) (inject_Z one) = (4 * s <=? n * one)%Z.
  Proof.
    apply Bool.eq_iff_eq_true. rewrite Qle_bool_iff, Z.leb_le. rewrite <- (Qmult_le_r _ _ (inject_Z n)) by (unfold Qlt, inject_Z; cbn; lia).
    rewrite <- Qmult_assoc, Ha. rewrite <- !inject_Z_mult. rewrite <- Zle_Qle. lia.
  Qed.
  Lemma avg_zero : Qeq_bool a 0 = (s =? 0)%Z.
  Proof.
    apply Bool.eq_iff_eq_true. rewrite Qeq_bool_iff, Z.eqb_eq. split.
    - intros E. assert (K : (inject_Z 0 == inject_Z s)%Q). { rewrite <- Ha, E. change (inject_Z 0) with 0%Q. ring. } apply (proj1 (inject_Z_injective 0 s)) in K. lia.
    - intros E. rewrite avg_div, E. unfold Qdiv. change (inject_Z 0) with 0%Q. apply Qmult_0_l.
  Qed.
  Lemma avg_pos : Qle_bool a 0 = (s <=? 0)%Z.
  Proof.
    apply Bool.eq_iff_eq_true. rewrite Qle_bool_iff, Z.leb_le. rewrite <- (Qmult_le_r _ _ (inject_Z n)) by (unfold Qlt, inject_Z; cbn; lia).
    rewrite Ha, Qmult_0_l. change 0%Q with (inject_Z 0). now rewrite <- Zle_Qle.
  Qed.
  Lemma avg_ratio d : (0 < s)%Z -> Qle_bool (inject_Z d / a) (inject_Z 4) = (d * n <=? 4 * s)%Z.
  Proof.
    intros Hs. assert (Pa : (0 < a)%Q). { apply Qnot_le_lt. intros H. assert (E := avg_pos). apply Qle_bool_iff in H. rewrite H in E. symmetry in E. apply Z.leb_le in E. lia. }
    apply Bool.eq_iff_eq_true. rewrite Qle_bool_iff, Z.leb_le. rewrite <- (Qmult_le_r _ _ a Pa).
    assert (E : (inject_Z d / a * a == inject_Z d)%Q) by (field; intros Z; rewrite Z in Pa; now apply Qlt_irrefl in Pa). rewrite E.
    rewrite <- (Qmult_le_r _ _ (inject_Z n)) by (unfold Qlt, inject_Z; cbn; lia). rewrite <- Qmult_assoc, Ha, <- !inject_Z_mult, <- Zle_Qle. reflexivity.
  Qed.
  Lemma avg_minus one : Qeq_bool a (inject_Z (- one)) = (s =? - one * n)%Z.
  Proof.
    apply Bool.eq_iff_eq_true. rewrite Qeq_bool_iff, Z.eqb_eq. split.
    - intros E. assert (K : (inject_Z (- one * n) == inject_Z s)%Q) by (rewrite <- Ha, E, inject_Z_mult; reflexivity). apply (proj1 (inject_Z_injective _ s)) in K. lia.
    - intros E. rewrite avg_div, E, inject_Z_mult. field. now apply inject_nonzero.
  Qed.
End Average.

Lemma sum_all labels nn c : length nn = length labels -> (forall x, In x labels -> x = c) -> sum_of labels nn c = total_weight nn.
Proof.
  unfold sum_of, total_weight. revert nn. induction labels as [|x l IH]; intros [|y nn] E H; try discriminate; [reflexivity|]. injection E as E.
  cbn [combine filter fst]. rewrite (H x) by (now left). rewrite Z.eqb_refl. cbn [map snd fold_right]. rewrite IH; auto. intros z I. apply H. now right.
Qed.
Lemma size_all labels c : (forall x, In x labels -> x = c) -> size labels c = length labels /\ forall p, p <> c -> size labels p = 0.
Proof.
  intros H. split.
  - unfold size. induction labels as [|x l IH]; [reflexivity|]. cbn [count_occ length]. rewrite (H x) by (now left). destruct (Z.eq_dec c c); [|easy]. rewrite IH; [reflexivity|]. intros z I. apply H. now right.
  - intros p N. unfold size. apply count_occ_not_In. intros I. now apply H in I.
Qed.
Lemma single_entry {A} (m : zmap A) c : zok m -> (forall p a, In (p, a) m -> p = c) -> (exists a, In (c, a) m) -> length m = 1.
Proof.
  intros O H (a & I). destruct m as [|[p x] [|[q y] m]]; [contradiction|reflexivity|]. exfalso. unfold zok in O. cbn [map fst] in O. inversion O as [|? ? O' F]; subst.
  rewrite (H p x) in F by (now left). rewrite (H q y) in F by (right; now left). inversion F; subst. lia.
Qed.
Lemma many_entries {A} (m : zmap A) p q : zok m -> p <> q -> (exists a, In (p, a) m) -> (exists a, In (q, a) m) -> length m <> 1.
Proof.
  intros O N (a & Ia) (b & Ib) E. destruct m as [|[x c] [|]]; try discriminate E. destruct Ia as [[= -> ->]|[]]. destruct Ib as [[= -> ->]|[]]. easy.
Qed.

Lemma set_maps_same st : set_maps st (sp_avg st) (sp_num st) = st.
Proof. now destruct st. Qed.

Section Eval.
  Variable dist : list Z -> list Z -> Z.
  Variable one : Z.
  Hypothesis Sym : forall x y, dist x y = dist y x.
  Hypothesis Pos : forall x y, (0 <= dist x y)%Z.
  Variables (pts : list (list Z)) (st : params) (v : list Z).
  Let labels := sp_labels st.
  Let nn := sp_nnDists st.
  Hypothesis R : right_records dist one pts labels (sp_nnIndices st) nn (sp_num st) (sp_avg st).
  Hypothesis Lk : length (sp_keys st) = length labels.

  Lemma nn_cases i : i < length labels -> (0 <= nth i nn 0)%Z \/ (nth i nn 0%Z = (- one)%Z /\ size labels (nth i labels 0%Z) = 1).
  Proof.
    intros H. destruct R as (_ & (_ & Rd) & _). destruct (Rd i H) as [[(j & _ & ->) _]|[A ->]]; [left; apply Pos|right]. split; [auto|].
    assert (P : 0 < size labels (nth i labels 0%Z)) by (apply size_pos; eauto). destruct (le_lt_dec 2 (size labels (nth i labels 0%Z))) as [G|]; [|lia].
    apply (size_other labels _ i H eq_refl) in G. destruct G as (j & G). now apply A in G.
  Qed.
  Lemma sum_pos p : 2 <= size labels p -> (0 <= sum_of labels nn p)%Z.
  Proof.
    intros G. assert (Ln : length nn = length labels) by apply R. rewrite sum_of_seq by auto. assert (B : forall i, i < length labels -> (0 <= part labels nn p i)%Z).
    { intros i H. unfold part. destruct (Z.eqb_spec (nth i labels 0%Z) p) as [E|]; [|lia]. destruct (nn_cases i H) as [|[_ S1]]; [auto|]. rewrite E in S1. lia. }
    assert (K : forall k, k <= length labels -> (0 <= zsum (part labels nn p) (seq 0 k))%Z); [|now apply K].
    induction k as [|k IH]; intros Hk; [cbn; lia|]. rewrite zsum_S. specialize (IH ltac:(lia)). specialize (B k ltac:(lia)). lia.
  Qed.

  (* ---- one partition ---- *)
  Variable c : Z.
  Hypothesis All : forall x, In x labels -> x = c.
  Hypothesis N2 : 2 <= length labels.
  Variable m : list (list Z).
  Let n := Z.of_nat (length labels).
  Let s := total_weight nn.

  Lemma pure_avg : length (sp_avg st) = 1 /\ exists a, zget (sp_avg st) c = Some a /\ (a * inject_Z n == inject_Z s)%Q.
  Proof.
    destruct R as (_ & Rd & _ & _ & (O & A & _ & B)). destruct (size_all labels c All) as [S1 S2]. split.
    - apply (single_entry _ c O).
      + intros p a I. assert (P : 0 < size labels p) by (apply A; eauto). destruct (Z.eq_dec p c) as [|N]; [auto|]. rewrite (S2 p N) in P. lia.
      + apply A. lia.
    - assert (P : 0 < size labels c) by lia. apply A in P. destruct P as (a & I). exists a. split; [now apply (zget_in _ _ _ O)|].
      specialize (B c a I ltac:(lia)). rewrite S1 in B. rewrite (sum_all labels nn c) in B; [exact B|apply Rd|auto].
  Qed.
  Definition refused : Prop := turned_away dist pts one nn v.

  Lemma pure_eval : 
    let run := nnBasedEvaluator dist one (length labels) v pts st m in
    (refused -> run = Ok (false, pts, st, m)) /\
    (~ refused -> run = do r <- deleteNNstats c 0 (map (dist v) pts) (set_target st (c + 1)%Z);
                       let '(st1, dists', gone) := r in
                       do w <- erase_at pts 0;
                       do r' <- updateStats one (length labels) c 0 gone dists' st1 m;
                       Ok (true, w, fst r', snd r')).
  Proof.
    intros run. unfold run, nnBasedEvaluator. assert (Lp : length labels = length pts) by apply R.
    destruct (min_pos_first (map (dist v) pts)) as (pos & d & E & B & Nd & M & _). { intros Z. apply map_eq_nil in Z. rewrite Z in Lp. cbn in Lp. lia. }
    rewrite E. destruct pure_avg as (L1 & a & Ga & Ea). rewrite L1, Nat.eqb_refl.
    assert (Near : nearest_distance dist pts v d).
    { split.
      - rewrite <- Nd. rewrite map_length in B. exists (nth pos pts []). split; [now apply nth_In|].
        rewrite (nth_indep _ 0%Z (dist v [])) by (now rewrite map_length). now rewrite map_nth.
      - intros p I. apply M. now apply in_map. }
    assert (Ref : refused <-> (d = 0 \/ (4 * s <= n * one /\ d <= one) \/ (s <> 0 /\ d * n <= 4 * s))%Z).
    { unfold refused, turned_away. fold s. assert (Ln : length nn = length labels) by apply R. rewrite Ln. fold n. split.
      - intros (d' & [(p & I & D1) D2] & H). destruct Near as [(q & Iq & Q1) Q2]. assert (Q3 : d' = d) by (specialize (D2 q Iq); specialize (Q2 p I); lia). rewrite Q3 in H. exact H.
      - intros H. exists d. auto. }
    assert (Hc : at_ labels 0 = Ok c). { rewrite (at_nth labels 0 0%Z) by lia. f_equal. apply All, nth_In. lia. }
    assert (Hn : (0 < n)%Z) by (unfold n; lia). assert (Hs : (0 <= s)%Z).
    { unfold s. rewrite <- (sum_all labels nn c) by (auto; apply R). apply sum_pos. rewrite (proj1 (size_all labels c All)). auto. }
    fold labels. rewrite Hc. cbn [bind]. rewrite (zread_some _ _ _ _ Ga).
    rewrite set_maps_same.
    rewrite (avg_small a s n Hn Ea), (avg_zero a s n Hn Ea).
    destruct (Z.eqb_spec d 0) as [D0|D0]; [split; [reflexivity|intros H; exfalso; apply H, Ref; auto]|].
    destruct (Z.leb_spec (4 * s) (n * one)) as [S1|S1]; cbn [andb].
    - destruct (Z.leb_spec d one) as [D1|D1]; [split; [reflexivity|intros H; exfalso; apply H, Ref; right; left; lia]|].
      destruct (Z.eqb_spec s 0) as [S0|S0]; cbn [orb].
      + split; [intros H; apply Ref in H; exfalso; lia|reflexivity].
      + rewrite (avg_ratio a s n Hn Ea) by lia. destruct (Z.leb_spec (d * n) (4 * s)) as [Dn|Dn]; cbn [negb].
        * split; [reflexivity|intros H; exfalso; apply H, Ref; right; right; lia].
        * split; [intros H; apply Ref in H; exfalso; lia|reflexivity].
    - destruct (Z.eqb_spec s 0) as [S0|S0]; cbn [orb].
      + split; [intros H; apply Ref in H; exfalso; lia|reflexivity].
      + rewrite (avg_ratio a s n Hn Ea) by lia. destruct (Z.leb_spec (d * n) (4 * s)) as [Dn|Dn]; cbn [negb].
        * split; [reflexivity|intros H; exfalso; apply H, Ref; right; right; lia].
        * split; [intros H; apply Ref in H; exfalso; lia|reflexivity].
  Qed.
End Eval.

(* ---- several partitions ---- *)
Lemma max_label_spec ls : ls <> [] -> exists top, max_label ls = Some top /\ greatest ls top.
Proof.
  destruct ls as [|x l]; [easy|]. intros _. exists (fold_left Z.max l x). split; [reflexivity|]. unfold greatest.
  revert x. induction l as [|y l IH]; intros x; cbn [fold_left].
  - split; [now left|]. intros z [->|[]]. lia.
  - destruct (IH (Z.max x y)) as [A B]. split.
    + destruct A as [A|A]; [|right; now right]. rewrite <- A. destruct (Z.max_spec x y) as [[_ ->]|[_ ->]]; [right; now left|now left].
    + assert (M := B (Z.max x y) (or_introl eq_refl)). intros z [->|[->|I]]; [lia|lia|]. apply B. now right.
Qed.
Lemma find_pos_spec ls p : (In p ls -> first_of ls p (find_pos ls p)) /\ (~ In p ls -> find_pos ls p = length ls).
Proof.
  unfold first_of. induction ls as [|x l [IH1 IH2]]; cbn [find_pos length]; [split; [intros []|auto]|].
  destruct (Z.eqb_spec x p) as [->|N].
  - split; [|intros H; exfalso; apply H; now left]. intros _. split; [lia|]. split; [reflexivity|]. intros; lia.
  - split.
    + intros [|I]; [easy|]. destruct (IH1 I) as (A & B & C). split; [lia|]. split; [exact B|]. intros [|i] Hi; [exact N|]. cbn [nth]. apply C. lia.
    + intros H. f_equal. apply IH2. intros I. apply H. now right.
Qed.
Lemma first_of_unique ls p i j : first_of ls p i -> first_of ls p j -> i = j.
Proof.
  intros (A & B & C) (A' & B' & C'). destruct (lt_eq_lt_dec i j) as [[H|H]|H]; [|auto|]; exfalso.
  - now apply (C' i H).
  - now apply (C j H).
Qed.
Lemma first_of_in ls p k : first_of ls p k -> In p ls.
Proof. intros (A & <- & _). now apply nth_In. Qed.

Section Outdated.
  Variables (labels : list Z) (num : zmap Z) (key : nat).
  Hypothesis Num : forall p, 0 < size labels p -> zget num p = Some (Z.of_nat (size labels p)).
  Definition best (mk : list (Z * nat)) (sz p : Z) : Prop :=
    ((forall q, ~ outdated key mk q) /\ sz = (-1)%Z /\ p = (-1)%Z) \/
    (smallest_outdated labels key mk p /\ sz = Z.of_nat (size labels p)).
  Lemma outdated_fold mk : StronglySorted Z.lt (map fst mk) -> (forall p x, In (p, x) mk -> 0 < size labels p) ->
    exists sz p, fold_left (outdated_step key) mk (num, -1, -1)%Z = (num, sz, p) /\ best mk sz p.
  Proof.
    induction mk as [|[q x] mk IH] using rev_ind; intros O P.
    - exists (-1)%Z, (-1)%Z. split; [reflexivity|]. left. split; [intros q (x & [] & _)|auto].
    - rewrite map_app in O. assert (O1 : StronglySorted Z.lt (map fst mk) /\ forall y, In y (map fst mk) -> (y < q)%Z).
      { clear IH P. cbn [map fst] in O. induction (map fst mk) as [|z l IHl]; [split; [constructor|intros y []]|]. cbn [app] in O. inversion O as [|? ? O' F]; subst.
        destruct (IHl O') as [Q1 Q2]. rewrite Forall_forall in F. split.
        - constructor; [auto|]. apply Forall_forall. intros y I. apply F. apply in_or_app. now left.
        - intros y [->|I]; [|auto]. apply F. apply in_or_app. right. now left. }
      destruct O1 as [O1 O2]. destruct IH as (sz & p & E & B); [auto|intros; eapply P; apply in_or_app; left; eauto|].
      rewrite fold_left_app, E. cbn [fold_left]. unfold outdated_step. cbn [fst snd].
      assert (Out : forall r, outdated key (mk ++ [(q, x)]) r <-> outdated key mk r \/ (r = q /\ x + 25 < key)).
      { intros r. unfold outdated. split.
        - intros (y & I & L). apply in_app_or in I. destruct I as [I|[[= <- <-]|[]]]; [left; eauto|auto].
        - intros [(y & I & L)|[-> L]]; [exists y; split; [apply in_or_app; now left|auto]|exists x; split; [apply in_or_app; right; now left|auto]]. }
      destruct (Z.ltb_spec 25 (Z.of_nat key - Z.of_nat x)) as [C|C].
      + assert (Pq : 0 < size labels q) by (eapply P; apply in_or_app; right; left; reflexivity). rewrite (zread_some _ _ _ _ (Num q Pq)).
        destruct B as [(B1 & -> & ->)|(B1 & ->)].
        * rewrite Z.eqb_refl. eexists _, _. split; [reflexivity|]. right. split; [|reflexivity]. split; [apply Out; right; split; [auto|lia]|].
          intros r H. apply Out in H. destruct H as [H|[-> _]]; [now apply B1 in H|]. split; [lia|lia].
        * destruct (Z.eqb_spec (Z.of_nat (size labels p)) (-1)); [lia|]. destruct B1 as [B0 B1].
          assert (Lpq : (p < q)%Z). { destruct B0 as (y & I & _). apply O2. now apply (in_map fst) in I. }
          destruct (Z.ltb_spec (Z.of_nat (size labels q)) (Z.of_nat (size labels p))) as [D|D].
          -- eexists _, _. split; [reflexivity|]. right. split; [|reflexivity]. split; [apply Out; right; split; [auto|lia]|].
             intros r H. apply Out in H. destruct H as [H|[-> _]]; [|split; lia]. destruct (B1 r H). split; lia.
          -- eexists _, _. split; [reflexivity|]. right. split; [|reflexivity]. split; [apply Out; now left|].
             intros r H. apply Out in H. destruct H as [H|[-> _]]; [now apply B1|]. split; lia.
      + eexists _, _. split; [reflexivity|]. destruct B as [(B1 & -> & ->)|((B0 & B1) & ->)].
        * left. split; [|auto]. intros r H. apply Out in H. destruct H as [H|[_ H]]; [now apply B1 in H|lia].
        * right. split; [|reflexivity]. split; [apply Out; now left|]. intros r H. apply Out in H. destruct H as [H|[_ H]]; [now apply B1|lia].
  Qed.
End Outdated.

Section Impure.
  Variable dist : list Z -> list Z -> Z.
  Variable one : Z.
  Hypothesis Pos : forall x y, (0 <= dist x y)%Z.
  Hypothesis One : (0 < one)%Z.
  Variables (pts : list (list Z)) (st : params) (v : list Z) (m : list (list Z)).
  Let labels := sp_labels st.
  Let nn := sp_nnDists st.
  Hypothesis R : right_records dist one pts labels (sp_nnIndices st) nn (sp_num st) (sp_avg st).
  Hypothesis Lk : length (sp_keys st) = length labels.
  Hypothesis Lab : forall x, In x labels -> (0 <= x)%Z.
  Hypothesis Two : exists i j, i < length labels /\ j < length labels /\ nth i labels 0%Z <> nth j labels 0%Z.
  Hypothesis Mk : StronglySorted Z.lt (map fst (sp_maxKeys st)).
  Hypothesis Mk' : forall p x, In (p, x) (sp_maxKeys st) -> In p labels.
  Let leaves' := leaves dist one pts labels nn v (sp_key st) (sp_maxKeys st).

  Lemma nearest_avg q : In q labels -> exists a, zget (sp_avg st) q = Some a /\
    (size labels q = 1 -> (a == inject_Z (- one))%Q) /\ (2 <= size labels q -> (a * inject_Z (Z.of_nat (size labels q)) == inject_Z (sum_of labels nn q))%Q).
  Proof.
    intros I. destruct R as (_ & _ & _ & _ & (O & A & B & C)). assert (P : 0 < size labels q) by (now apply (count_occ_In Z.eq_dec)).
    apply A in P. destruct P as (a & Ia). exists a. split; [now apply (zget_in _ _ _ O)|]. split; [now apply B|now apply C].
  Qed.
  Lemma target_spec i top : i < length labels -> 
    (joins dist one pts labels nn v i /\ choose_target one (dist v (nth i pts [])) (nth i labels 0%Z) top (sp_avg st) = (nth i labels 0%Z, sp_avg st)) \/
    (~ joins dist one pts labels nn v i /\ choose_target one (dist v (nth i pts [])) (nth i labels 0%Z) top (sp_avg st) = ((top + 1)%Z, sp_avg st)).
  Proof.
    intros Hi. unfold choose_target, joins. set (d := dist v (nth i pts [])). set (q := nth i labels 0%Z).
    assert (Pd : (0 <= d)%Z) by apply Pos. assert (Iq : In q labels) by (now apply nth_In).
    destruct (Z.eqb_spec d 0) as [D0|D0]; [left; auto|]. destruct (Z.ltb_spec (5 * one) d) as [D5|D5]; [right; split; [lia|auto]|].
    destruct (nearest_avg q Iq) as (a & Ga & A1 & A2). rewrite (zread_some _ _ _ _ Ga). rewrite (proj2 (Z.leb_le d (5 * one)) D5), andb_true_r.
    assert (P : 0 < size labels q) by (now apply (count_occ_In Z.eq_dec)). destruct (le_lt_dec 2 (size labels q)) as [G|G].
    - specialize (A2 G). assert (Hn : (0 < Z.of_nat (size labels q))%Z) by lia. assert (Hs := sum_pos dist one Pos pts st R Lk q G). fold labels nn in Hs.
      rewrite (avg_minus a _ _ Hn A2), (avg_small a _ _ Hn A2), (avg_pos a _ _ Hn A2). set (s := sum_of labels nn q) in *. set (n := Z.of_nat (size labels q)) in *.
      destruct (Z.eqb_spec s (- one * n)) as [E|E]; [exfalso; nia|].
      destruct (Z.leb_spec (4 * s) (n * one)) as [S1|S1]; destruct (Z.leb_spec d one) as [D1|D1]; cbn [andb]; try (left; split; [lia|auto]).
      + destruct (Z.leb_spec s 0) as [S0|S0]; cbn [negb andb]; [right; split; [lia|auto]|]. rewrite (avg_ratio a _ _ Hn A2) by auto.
        destruct (Z.leb_spec (d * n) (4 * s)); [left|right]; split; auto; lia.
      + destruct (Z.leb_spec s 0) as [S0|S0]; cbn [negb andb]; [right; split; [lia|auto]|]. rewrite (avg_ratio a _ _ Hn A2) by auto.
        destruct (Z.leb_spec (d * n) (4 * s)); [left|right]; split; auto; lia.
      + destruct (Z.leb_spec s 0) as [S0|S0]; cbn [negb andb]; [right; split; [lia|auto]|]. rewrite (avg_ratio a _ _ Hn A2) by auto.
        destruct (Z.leb_spec (d * n) (4 * s)); [left|right]; split; auto; lia.
    - assert (S1 : size labels q = 1) by lia. specialize (A1 S1). rewrite (proj2 (Qeq_bool_iff a (inject_Z (- one))) A1).
      left. split; [right; split; [lia|left; lia]|auto].
  Qed.

  Lemma many_avg : length (sp_avg st) <> 1.
  Proof.
    destruct Two as (i & j & Hi & Hj & N). destruct R as (_ & _ & _ & _ & (O & A & _)).
    apply (many_entries _ _ _ O N); apply A; apply size_pos; eauto.
  Qed.
  Lemma joins_dec i : joins dist one pts labels nn v i \/ ~ joins dist one pts labels nn v i.
  Proof. unfold joins. set (d := dist v _). set (s := sum_of _ _ _). set (n := Z.of_nat _). lia. Qed.

  Definition after (k : nat) (target : Z) (st' : params) : Prop :=
    let label := nth k labels 0%Z in
    let gone p := (p =? label)%Z && (size labels p =? 1) in
    sp_key st' = sp_key st /\ sp_target st' = target /\ sp_keys st' = without k (sp_keys st) /\ sp_labels st' = without k labels /\
    sp_nnIndices st' = without k (sp_nnIndices st) /\ sp_nnDists st' = without k nn /\ right_numbers (without k labels) (sp_num st') /\
    (forall p, zget (sp_avg st') p = if gone p then None else zget (sp_avg st) p) /\
    (forall p, zget (sp_maxKeys st') p = if gone p then None else zget (sp_maxKeys st) p).

  Lemma delete_spec k target : k < length labels -> exists st' gone,
    deleteNNstats (nth k labels 0%Z) k (map (dist v) pts) (set_target (set_maps st (sp_avg st) (sp_num st)) target) = Ok (st', map (dist v) (without k pts), gone) /\ after k target st'.
  Proof.
    intros Hk. destruct R as (Lp & Rd & Ri & Rn & Ra). rewrite set_maps_same. set (stt := set_target st target).
    assert (D := deleted dist one pts stt k v (eq_sym Lp) Hk Lk Rd Ri Rn). eexists _, _. split; [exact D|].
    assert (Sl : size labels (nth k labels 0%Z) = S (size (without k labels) (nth k labels 0%Z))).
    { rewrite (size_without labels k _ Hk), Z.eqb_refl. lia. }
    unfold after, st1. cbn [sp_key sp_target sp_keys sp_labels sp_nnIndices sp_nnDists sp_num sp_avg sp_maxKeys stt set_target].
    do 6 (split; [reflexivity|]). split; [|split].
    - split; [apply (num_ok stt k Rn)|]. split.
      + intros p c I. apply (zget_in _ _ _ (num_ok stt k Rn)) in I. apply (num1_get pts stt k (eq_sym Lp) Hk Lk Rn) in I. exact I.
      + intros p P. exists (Z.of_nat (size (without k labels) p)). apply (zget_in _ _ _ (num_ok stt k Rn)). now apply (num1_has pts stt k (eq_sym Lp) Hk Lk Rn).
    - intros p. unfold avg1. cbn [sp_labels sp_avg stt set_target]. fold labels. destruct (Z.eqb_spec p (nth k labels 0%Z)) as [->|N]; cbn [andb].
      + rewrite Sl. destruct (Nat.eqb_spec (size (without k labels) (nth k labels 0%Z)) 0) as [Z|Z].
        * rewrite Z, zdel_get, Z.eqb_refl. reflexivity.
        * destruct (Nat.eqb_spec (S (size (without k labels) (nth k labels 0%Z))) 1); [lia|reflexivity].
      + destruct (_ =? 0); [|reflexivity]. rewrite zdel_get. destruct (Z.eqb_spec p (nth k labels 0%Z)); [easy|reflexivity].
    - intros p. unfold keys1. cbn [sp_labels sp_maxKeys stt set_target]. fold labels. destruct (Z.eqb_spec p (nth k labels 0%Z)) as [->|N]; cbn [andb].
      + rewrite Sl. destruct (Nat.eqb_spec (size (without k labels) (nth k labels 0%Z)) 0) as [Z|Z].
        * rewrite Z, zdel_get, Z.eqb_refl. reflexivity.
        * destruct (Nat.eqb_spec (S (size (without k labels) (nth k labels 0%Z))) 1); [lia|reflexivity].
      + destruct (_ =? 0); [|reflexivity]. rewrite zdel_get. destruct (Z.eqb_spec p (nth k labels 0%Z)); [easy|reflexivity].
  Qed.

  Lemma impure_eval : exists i, first_nearest dist pts v i /\
    let run := nnBasedEvaluator dist one (length labels) v pts st m in
    ((forall k, ~ leaves' i k) -> run = UB) /\
    (forall k, leaves' i k -> exists target st', run = Ok (true, without k pts, st', m) /\ after k target st' /\
       (joins dist one pts labels nn v i -> target = nth i labels 0%Z) /\ (~ joins dist one pts labels nn v i -> exists top, greatest labels top /\ target = (top + 1)%Z)).
  Proof.
    assert (Lp : length labels = length pts) by apply R. assert (Ne : labels <> []). { destruct Two as (i & _ & Hi & _). intros E. rewrite E in Hi. cbn in Hi. lia. }
    destruct (min_pos_first (map (dist v) pts)) as (pos & d & E & B & Nd & M & F).
    { intros Z. apply map_eq_nil in Z. rewrite Z in Lp. destruct labels; [easy|discriminate]. }
    rewrite map_length in B. assert (Nth : forall j, j < length pts -> nth j (map (dist v) pts) 0%Z = dist v (nth j pts [])).
    { intros j J. rewrite (nth_indep _ 0%Z (dist v [])) by (now rewrite map_length). apply map_nth. }
    exists pos. assert (Ed : d = dist v (nth pos pts [])) by (rewrite <- Nd; now apply Nth). split.
    { split; [auto|]. intros j J. rewrite <- Ed. split; [apply M; apply in_map, nth_In; auto|]. intros Q. destruct (le_lt_dec pos j) as [|H]; [auto|].
      specialize (F j H). rewrite (Nth j J) in F. lia. }
    intros run. unfold run, nnBasedEvaluator. rewrite E. destruct (Nat.eqb_spec (length (sp_avg st)) 1) as [Q|_]; [now apply many_avg in Q|].
    fold labels. rewrite (at_nth labels pos 0%Z) by lia. cbn [bind]. destruct (max_label_spec labels Ne) as (top & Et & Gt). rewrite Et, Ed.
    assert (Pl : pos < length labels) by lia.
    assert (Rn : right_numbers labels (sp_num st)) by apply R.
    assert (Num : forall p, 0 < size labels p -> zget (sp_num st) p = Some (Z.of_nat (size labels p))).
    { intros p P. destruct Rn as (On & N1 & N2). destruct (N2 p P) as (c & I). rewrite (N1 _ _ I) in I. now apply (zget_in _ _ _ On). }
    destruct (outdated_fold labels (sp_num st) (sp_key st) Num (sp_maxKeys st) Mk) as (sz & p & Ef & Bst).
    { intros p x I. apply Mk' in I. now apply (count_occ_In Z.eq_dec). }
    set (i := pos) in *. set (q := nth i labels 0%Z). assert (Iq : In q labels) by (now apply nth_In).
    assert (Done : forall k target, k < length labels ->
      exists st', (do r <- deleteNNstats (nth k labels 0%Z) k (map (dist v) pts) (set_target (set_maps st (sp_avg st) (sp_num st)) target);
                   do w <- erase_at pts k; Ok (true, w, fst (fst r), m)) = Ok (true, without k pts, st', m) /\ after k target st').
    { intros k target Hk. destruct (delete_spec k target Hk) as (st' & gone & Ex & Af). rewrite Ex. cbn [bind fst snd]. rewrite erase_ok by lia. cbn [bind]. eauto. }
    assert (Key : forall target victim k, k < length labels ->
       victim = Ok (nth k labels 0%Z, k) ->
       exists st', (do vi <- victim; do r <- deleteNNstats (fst vi) (snd vi) (map (dist v) pts) (set_target (set_maps st (sp_avg st) (sp_num st)) target);
                    do w <- erase_at pts (snd vi); Ok (true, w, fst (fst r), m)) = Ok (true, without k pts, st', m) /\ after k target st').
    { intros target victim k Hk ->. cbn [bind fst snd]. now apply Done. }
    assert (Tgt : forall k, leaves' i k -> k < length labels).
    { intros k [(p' & _ & H & _)|[(_ & _ & ->)|(_ & _ & H & _)]]; [auto|lia|auto]. }
    assert (Uniq : forall k k', leaves' i k -> leaves' i k' -> k = k').
    { intros k k' [(p1 & [O1 S1] & F1)|[(N1 & J1 & ->)|(N1 & J1 & F1)]] [(p2 & [O2 S2] & F2)|[(N2 & J2 & ->)|(N2 & J2 & F2)]]; try (now apply N1 in O2); try (now apply N2 in O1); try easy.
      - assert (p1 = p2). { destruct (S1 p2 O2), (S2 p1 O1). lia. } subst. eapply first_of_unique; eauto.
      - eapply first_of_unique; eauto. }
    destruct (target_spec i top Pl) as [[J Ec]|[J Ec]]; fold q in Ec; rewrite Ec, Ef.
    - assert (Res : forall k st', leaves' i k -> after k q st' -> exists target st'', Ok (true, without k pts, st', m) = Ok (true, without k pts, st'', m) /\ after k target st'' /\
       (joins dist one pts labels nn v i -> target = q) /\ (~ joins dist one pts labels nn v i -> exists top, greatest labels top /\ target = (top + 1)%Z)).
      { intros k st' _ Af. exists q, st'. split; [auto|]. split; [auto|]. split; [auto|]. intros N. easy. }
      destruct Bst as [(N & -> & ->)|(Bo & ->)].
      + change (negb (-1 =? -1)%Z) with false. cbv iota. rewrite Z.eqb_refl. cbn [negb]. destruct (find_pos_spec labels (if (q =? 0)%Z then 1 else 0)%Z) as [Fi Fn].
        destruct (in_dec Z.eq_dec (if (q =? 0)%Z then 1 else 0)%Z labels) as [I|I].
        * specialize (Fi I). set (k0 := find_pos labels _) in *. assert (Lv : leaves' i k0) by (right; right; auto).
          split; [intros H; now apply H in Lv|]. intros k Hk. rewrite (Uniq k k0 Hk Lv). rewrite (at_nth labels k0 0%Z) by apply Fi. cbn [bind].
          destruct (Key q (Ok (nth k0 labels 0%Z, k0)) k0 (proj1 Fi) eq_refl) as (st' & Er & Af). cbn [bind] in Er. cbn [fst snd] in Er. cbn [fst snd]. rewrite Er. eapply Res; eauto.
        * rewrite (Fn I), at_out by auto. cbn [bind]. split; [auto|]. intros k [(p' & [O' _] & _)|[(_ & J' & _)|(_ & _ & F')]]; [now apply N in O'|easy|]. now apply first_of_in in F'.
      + assert (Pp : (0 <= p)%Z). { destruct Bo as [(x & I & _) _]. apply Lab. eapply Mk'; eauto. } destruct (Z.eqb_spec p (-1)); [lia|]. cbn [negb].
        assert (Ip : In p labels). { destruct Bo as [(x & I & _) _]. eapply Mk'; eauto. } destruct (find_pos_spec labels p) as [Fi _]. specialize (Fi Ip). set (k0 := find_pos labels p) in *.
        assert (Lv : leaves' i k0) by (left; eauto). split; [intros H; now apply H in Lv|]. intros k Hk. rewrite (Uniq k k0 Hk Lv). cbn [bind fst snd].
        assert (Ep : p = nth k0 labels 0%Z) by (symmetry; apply Fi). rewrite Ep. destruct (Done k0 q (proj1 Fi)) as (st' & Er & Af). rewrite Er. eapply Res; eauto.
    - assert (Res : forall k st', leaves' i k -> after k (top + 1)%Z st' -> exists target st'', Ok (true, without k pts, st', m) = Ok (true, without k pts, st'', m) /\ after k target st'' /\
       (joins dist one pts labels nn v i -> target = q) /\ (~ joins dist one pts labels nn v i -> exists top, greatest labels top /\ target = (top + 1)%Z)).
      { intros k st' _ Af. exists (top + 1)%Z, st'. split; [auto|]. split; [auto|]. split; [intros N; easy|]. intros _. eauto. }
      assert (Ntq : (top + 1 =? q)%Z = false). { apply Z.eqb_neq. destruct Gt as [_ G]. specialize (G q Iq). lia. }
      destruct Bst as [(N & -> & ->)|(Bo & ->)].
      + change (negb (-1 =? -1)%Z) with false. cbv iota. rewrite Ntq. cbn [negb]. assert (L0 : 0 < length labels) by lia.
        assert (Lv : leaves' i 0) by (right; left; auto). split; [intros H; now apply H in Lv|]. intros k Hk. rewrite (Uniq k 0 Hk Lv).
        rewrite (at_nth labels 0 0%Z) by auto. cbn [bind fst snd]. destruct (Done 0 (top + 1)%Z L0) as (st' & Er & Af). rewrite Er. eapply Res; eauto.
      + assert (Pp : (0 <= p)%Z). { destruct Bo as [(x & I & _) _]. apply Lab. eapply Mk'; eauto. } destruct (Z.eqb_spec p (-1)); [lia|]. cbn [negb].
        assert (Ip : In p labels). { destruct Bo as [(x & I & _) _]. eapply Mk'; eauto. } destruct (find_pos_spec labels p) as [Fi _]. specialize (Fi Ip). set (k0 := find_pos labels p) in *.
        assert (Lv : leaves' i k0) by (left; eauto). split; [intros H; now apply H in Lv|]. intros k Hk. rewrite (Uniq k k0 Hk Lv). cbn [bind fst snd].
        assert (Ep : p = nth k0 labels 0%Z) by (symmetry; apply Fi). rewrite Ep. destruct (Done k0 (top + 1)%Z (proj1 Fi)) as (st' & Er & Af). rewrite Er. eapply Res; eauto.
  Qed.
End Impure.
