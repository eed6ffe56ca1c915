(* ArrayListProofs.v -- lemmas about ArrayListModel.v. *)
From Coq Require Import List Arith ZArith Bool Lia Sorted Permutation.
From Verif Require Import Base Spec UtilsModel UtilsProofs PartitionProofs ArrayListModel.
Import ListNotations.

Local Notation lev wg k := (nth k wg (@nil wsimp)).

Lemma wsimp_eqb_eq a b : wsimp_eqb a b = true <-> a = b.
Proof.
  unfold wsimp_eqb. rewrite andb_true_iff, nlist_eqb_eq, Z.eqb_eq. destruct a, b; cbn. split.
  - intros [-> ->]; auto. - intros H; injection H as -> ->; auto.
Qed.

Lemma existsb_wsimp c l : existsb (wsimp_eqb c) l = true <-> In c l.
Proof.
  rewrite existsb_exists. split.
  - intros (x & Hx & E). apply wsimp_eqb_eq in E. now subst.
  - intros H. exists c. split; auto. now apply wsimp_eqb_eq.
Qed.

Lemma lev_nth_error (wg : wgraph) k : k < length wg -> nth_error wg k = Some (lev wg k).
Proof. intros H. now apply nth_error_nth'. Qed.

Lemma at_lev (wg : wgraph) k : k < length wg -> at_ wg k = Ok (lev wg k).
Proof. intros H. unfold at_. now rewrite lev_nth_error. Qed.

Lemma lev_over (wg : wgraph) k : length wg <= k -> lev wg k = [].
Proof. intros H. now apply nth_overflow. Qed.

(* ------------------------------------------------------------------ *)
(* deleting a vertex from an increasing list; facets *)

Definition del (x : nat) (s : list nat) : list nat := filter (fun y => negb (y =? x)) s.

Lemma del_In x s y : In y (del x s) <-> In y s /\ y <> x.
Proof.
  unfold del. rewrite filter_In, negb_true_iff, Nat.eqb_neq. tauto.
Qed.

Lemma del_ssorted x s : ssorted s -> ssorted (del x s).
Proof. apply ssorted_filter. Qed.

Lemma filter_length_compl {A} (f : A -> bool) l :
  length (filter f l) + length (filter (fun x => negb (f x)) l) = length l.
Proof. induction l as [|a l IH]; cbn; auto. destruct (f a); cbn; lia. Qed.

Lemma del_length x s : NoDup s -> In x s -> S (length (del x s)) = length s.
Proof.
  induction s as [|a s IH]; cbn; [easy|]. intros N Hx. inversion N; subst.
  destruct (Nat.eqb_spec a x) as [->|Hne]; cbn.
  - f_equal. f_equal. change (del x s = s). clear -H1. induction s as [|b s IH]; cbn; auto.
    destruct (Nat.eqb_spec b x) as [->|]; cbn; [exfalso; apply H1; now left|]. f_equal. apply IH. intros H; apply H1; now right.
  - f_equal. apply IH; auto. destruct Hx; congruence.
Qed.

Lemma NoDup_incl_eq_length (a b : list nat) :
  NoDup a -> NoDup b -> incl a b -> length a = length b -> incl b a.
Proof. intros. apply NoDup_length_incl; auto. lia. Qed.

Lemma facet_del f s : ssorted s -> (facet f s <-> exists x, In x s /\ f = del x s).
Proof.
  intros S. split.
  - intros (Sf & If & Lf).
    assert (Hx : exists x, In x s /\ ~ In x f).
    { destruct (Forall_dec (fun x => In x f) (fun x => in_dec Nat.eq_dec x f) s) as [HF|HF].
      - exfalso. rewrite Forall_forall in HF.
        assert (length s <= length f). { apply NoDup_incl_length; auto. now apply ssorted_NoDup. } lia.
      - apply Exists_Forall_neg in HF; [|intros x; destruct (in_dec Nat.eq_dec x f); tauto].
        apply Exists_exists in HF. auto. }
    destruct Hx as (x & Hx & Hnx). exists x. split; auto.
    apply ssorted_ext; auto. { now apply del_ssorted. }
    assert (I : incl f (del x s)). { intros y Hy. apply del_In. split; auto. intros ->; auto. }
    intros y; split; auto. apply NoDup_incl_eq_length; auto.
    + now apply ssorted_NoDup. + apply ssorted_NoDup. now apply del_ssorted.
    + assert (H := del_length x s (ssorted_NoDup _ S) Hx). lia.
  - intros (x & Hx & ->). repeat split.
    + now apply del_ssorted. + intros y Hy. now apply del_In in Hy as [Hy _].
    + apply del_length; auto. now apply ssorted_NoDup.
Qed.

(* ------------------------------------------------------------------ *)
(* two increasing lists of the same length that differ in exactly two elements *)

Lemma diff_counts a b :
  ssorted a -> ssorted b ->
  length (set_symmetric_difference a b) + 2 * length (set_intersection a b) = length a + length b.
Proof.
  intros Sa Sb.
  set (m := set_intersection a b).
  pose (inb := fun l x => if in_dec Nat.eq_dec x l then true else false).
  assert (Hin : forall l x, inb l x = true <-> In x l).
  { intros l x. unfold inb. destruct (in_dec Nat.eq_dec x l); split; easy. }
  assert (Em : m = filter (inb b) a).
  { apply ssorted_ext. - now apply set_intersection_ssorted. - now apply ssorted_filter.
    - intros x. unfold m. rewrite set_intersection_In, filter_In, Hin by auto. tauto. }
  assert (Em' : m = filter (inb a) b).
  { apply ssorted_ext. - now apply set_intersection_ssorted. - now apply ssorted_filter.
    - intros x. unfold m. rewrite set_intersection_In, filter_In, Hin by auto. tauto. }
  assert (Psd : Permutation (set_symmetric_difference a b)
                 (filter (fun x => negb (inb b x)) a ++ filter (fun x => negb (inb a x)) b)).
  { assert (Hn : forall l x, negb (inb l x) = true <-> ~ In x l).
    { intros l x. rewrite negb_true_iff, <- not_true_iff_false, Hin. tauto. }
    apply NoDup_Permutation.
    - apply ssorted_NoDup. now apply set_symmetric_difference_ssorted.
    - assert (G : forall u v : list nat, NoDup u -> NoDup v -> (forall z, In z u -> ~ In z v) -> NoDup (u ++ v)).
      { induction u as [|z u IHu]; cbn; auto. intros v Na Nb Hd. inversion Na; subst. constructor.
        - rewrite in_app_iff. intros [HH|HH]; auto. apply (Hd z); auto. - apply IHu; auto. }
      apply G. + apply NoDup_filter. now apply ssorted_NoDup. + apply NoDup_filter. now apply ssorted_NoDup.
      + intros z. rewrite !filter_In, !Hn. tauto.
    - intros x. rewrite set_symmetric_difference_In, in_app_iff, !filter_In, !Hn by auto. tauto. }
  rewrite (Permutation_length Psd), app_length.
  assert (C1 := filter_length_compl (inb b) a). assert (C2 := filter_length_compl (inb a) b).
  rewrite <- Em in C1. rewrite <- Em' in C2. lia.
Qed.

(* ------------------------------------------------------------------ *)
(* the candidate simplex, as a function of level d-1 only *)

Fixpoint check_facesL (L : list wsimp) (simp : list nat) (zs : list (list nat))
         (total : list nat) (mw : Z) : bool * list nat * Z :=
  match zs with
  | [] => (true, total, mw)
  | z :: zs' =>
      let wt := find_in_level L (simp ++ z) in
      let total' := setUnion total (simp ++ z) true in
      if (wt <? 0)%Z then (false, total', mw)
      else check_facesL L simp zs' total' (if (mw <? wt)%Z then wt else mw)
  end.

Definition candL (L : list wsimp) (a b : wsimp) : option wsimp :=
  let simp := symmetricDiff (fst a) (fst b) true in
  let mw := if (snd b <? snd a)%Z then snd a else snd b in
  if length simp =? 2 then
    let m := setIntersect (fst a) (fst b) true in
    if length m =? 1 then
      let wt := find_in_level L (nsort simp) in
      if (wt <? 0)%Z then None
      else Some (nsort (nsort simp ++ m), if (mw <? wt)%Z then wt else mw)
    else if 1 <? length m then
      let '(create, total, w) := check_facesL L simp (getSubsets m) simp mw in
      if create then Some (total, w) else None
    else Some (simp, mw)
  else None.

Lemma getSubsets_length m z : In z (getSubsets m) -> S (length z) = length m.
Proof.
  unfold getSubsets. rewrite filter_In, Nat.eqb_eq. tauto.
Qed.

Lemma check_faces_L wg L d simp zs total mw :
  nth_error wg (d - 1) = Some L -> 1 <= d ->
  (forall z, In z zs -> length (simp ++ z) = d) ->
  check_faces wg simp zs total mw = Ok (check_facesL L simp zs total mw).
Proof.
  intros HL Hd. revert total mw. induction zs as [|z zs IH]; intros total mw Hz; cbn; auto.
  assert (E : findWeight wg (simp ++ z) = Ok (find_in_level L (simp ++ z))).
  { unfold findWeight. rewrite (Hz z) by now left. destruct d; [lia|]. cbn in HL. rewrite Nat.sub_0_r in HL.
    unfold at_. now rewrite HL. }
  rewrite E. cbn. destruct (find_in_level L (simp ++ z) <? 0)%Z; auto.
  apply IH. intros; apply Hz; now right.
Qed.

Lemma candidate_L wg L d a b :
  nth_error wg (d - 1) = Some L -> 2 <= d ->
  ssorted (fst a) -> ssorted (fst b) -> length (fst a) = d -> length (fst b) = d ->
  candidate wg a b = Ok (candL L a b).
Proof.
  intros HL Hd Sa Sb La Lb. unfold candidate, candL.
  destruct (Nat.eqb_spec (length (symmetricDiff (fst a) (fst b) true)) 2) as [E2|E2]; auto.
  assert (Hne : fst a <> fst b).
  { intros E. unfold symmetricDiff in E2. rewrite E in E2.
    rewrite (proj2 (nlist_eqb_eq (fst b) (fst b)) eq_refl) in E2. cbn in E2. lia. }
  assert (Em : length (setIntersect (fst a) (fst b) true) = d - 1).
  { unfold symmetricDiff in E2. unfold setIntersect. rewrite (proj2 (nlist_eqb_neq _ _) Hne) in *.
    assert (H := diff_counts _ _ Sa Sb). lia. }
  destruct (Nat.eqb_spec (length (setIntersect (fst a) (fst b) true)) 1) as [E1|E1].
  - assert (E : findWeight wg (nsort (symmetricDiff (fst a) (fst b) true)) =
                Ok (find_in_level L (nsort (symmetricDiff (fst a) (fst b) true)))).
    { unfold findWeight. rewrite (Permutation_length (nsort_perm _)), E2.
      replace (d - 1) with 1 in HL by lia. unfold at_. now rewrite HL. }
    rewrite E. cbn. destruct (find_in_level L _ <? 0)%Z; auto.
  - destruct (Nat.ltb_spec 1 (length (setIntersect (fst a) (fst b) true))) as [E3|E3]; auto.
    rewrite (check_faces_L wg L d) by (auto; try lia; intros z Hz; apply getSubsets_length in Hz; rewrite app_length; lia).
    cbn. destruct (check_facesL L _ _ _ _) as [[[] ?] ?]; auto.
Qed.

(* Level conditions under which candidates are analysed. *)
Record goodL (d : nat) (L : list wsimp) : Prop := {
  gl_sorted : forall s w, In (s, w) L -> ssorted s;
  gl_length : forall s w, In (s, w) L -> length s = d;
  gl_nonneg : forall s w, In (s, w) L -> (0 <= w)%Z;
  gl_unique : forall s w w', In (s, w) L -> In (s, w') L -> w = w';
}.

Lemma find_in_level_spec d L v :
  goodL d L ->
  ((0 <= find_in_level L v)%Z <-> exists w, In (v, w) L) /\
  (forall w, In (v, w) L -> find_in_level L v = w).
Proof.
  intros G. unfold find_in_level. destruct (find (fun s => nlist_eqb (fst s) v) L) as [[s w]|] eqn:E.
  - apply find_some in E as [Hin Heq]. cbn in Heq. apply nlist_eqb_eq in Heq. subst v. cbn. split.
    + split; [eauto|]. intros _. eapply gl_nonneg; eauto.
    + intros w' Hw'. eapply gl_unique; eauto.
  - assert (Hno : forall w, ~ In (v, w) L).
    { intros w Hw. assert (H := find_none _ _ E _ Hw). cbn in H.
      assert (nlist_eqb v v = true) by now apply nlist_eqb_eq. congruence. }
    split. + split; [lia|]. intros (w & Hw). elim (Hno _ Hw). + intros w Hw. elim (Hno _ Hw).
Qed.

Lemma ssorted_app_length_eq a b : ssorted a -> ssorted b -> incl a b -> length a = length b -> a = b.
Proof.
  intros Sa Sb I E. apply ssorted_ext; auto. intros x; split; auto.
  apply NoDup_incl_eq_length; auto; now apply ssorted_NoDup.
Qed.

Lemma setUnion_sorted_In t s x :
  t <> s -> (In x (setUnion t s true) <-> In x t \/ In x s).
Proof.
  intros H. unfold setUnion. rewrite (proj2 (nlist_eqb_neq _ _) H). apply set_union_In.
Qed.

Lemma setUnion_sorted_ssorted t s :
  t <> s -> ssorted t -> ssorted s -> ssorted (setUnion t s true).
Proof.
  intros H S1 S2. unfold setUnion. rewrite (proj2 (nlist_eqb_neq _ _) H). now apply set_union_ssorted.
Qed.

Lemma check_facesL_sound d L simp zs total mw t w :
  goodL d L -> NoDup zs -> (forall z z', In z zs -> In z' zs -> length z = length z') ->
  ssorted total -> (forall z, In z zs -> simp ++ z <> total) ->
  check_facesL L simp zs total mw = (true, t, w) ->
  ssorted t /\
  (forall v, In v t <-> In v total \/ exists z, In z zs /\ In v (simp ++ z)) /\
  (forall z, In z zs -> exists wz, In (simp ++ z, wz) L /\ (wz <= w)%Z) /\
  (mw <= w)%Z /\
  (w = mw \/ exists z, In z zs /\ In (simp ++ z, w) L).
Proof.
  intros G. revert total mw. induction zs as [|z zs IH]; intros total mw N Hl S Hne; cbn.
  - intros H; injection H as <- <-. repeat split; auto; try lia; try easy.
    + intros [H|(z & [] & _)]; auto.
  - destruct (find_in_level_spec d L (simp ++ z) G) as [F1 F2].
    destruct (Z.ltb_spec (find_in_level L (simp ++ z)) 0) as [Hlt|Hge]; [easy|].
    apply F1 in Hge as (wz & Hwz). rewrite (F2 _ Hwz). intros H.
    inversion N; subst.
    assert (Sz : ssorted (simp ++ z)) by (eapply gl_sorted; eauto).
    assert (Hnz : total <> simp ++ z) by (intros E; apply (Hne z); [now left|auto]).
    apply IH in H; auto.
    + destruct H as (H1 & H4 & H5 & H6 & H7). repeat split; auto.
      * intros Hv. apply H4 in Hv as [Hv|(z' & Hz' & Hv)].
        -- apply setUnion_sorted_In in Hv as [Hv|Hv]; auto. right. exists z. split; [now left|auto].
        -- right. exists z'. split; [now right|auto].
      * intros Hv. apply H4. destruct Hv as [Hv|(z' & [<-|Hz'] & Hv)].
        -- left. apply setUnion_sorted_In; auto. -- left. apply setUnion_sorted_In; auto.
        -- right. eauto.
      * intros z' [<-|Hz']; auto. exists wz. split; auto. destruct (Z.ltb_spec mw wz); lia.
      * destruct (Z.ltb_spec mw wz); lia.
      * destruct H7 as [H7|(z' & Hz' & Hw)].
        -- destruct (Z.ltb_spec mw wz); [right; exists z; split; [now left|now subst w]|left; auto].
        -- right. exists z'. split; [now right|auto].
    + intros; apply Hl; now right.
    + apply setUnion_sorted_ssorted; auto.
    + intros z' Hz' E.
      assert (I : incl (simp ++ z) (simp ++ z')).
      { intros v Hv. rewrite E. apply setUnion_sorted_In; auto. }
      assert (Sz' : ssorted (simp ++ z')). { rewrite E. apply setUnion_sorted_ssorted; auto. }
      assert (simp ++ z = simp ++ z').
      { apply ssorted_app_length_eq; auto. rewrite !app_length, (Hl z z'); auto; [now left|now right]. }
      apply app_inv_head in H0. now subst.
Qed.

Lemma check_facesL_complete d L simp zs total mw :
  goodL d L -> (forall z, In z zs -> exists w, In (simp ++ z, w) L) ->
  exists t w, check_facesL L simp zs total mw = (true, t, w).
Proof.
  intros G. revert total mw. induction zs as [|z zs IH]; intros total mw Hz; cbn; eauto.
  destruct (find_in_level_spec d L (simp ++ z) G) as [F1 F2].
  assert (H0 : (0 <= find_in_level L (simp ++ z))%Z) by (apply F1; apply Hz; now left).
  destruct (Z.ltb_spec (find_in_level L (simp ++ z)) 0); [lia|].
  apply IH. intros; apply Hz; now right.
Qed.

(* ------------------------------------------------------------------ *)
(* what a successful candidate is *)

Lemma two_diff a b :
  ssorted a -> ssorted b -> length a = length b -> length (symmetricDiff a b true) = 2 ->
  exists p q, p <> q /\ In p a /\ ~ In p b /\ In q b /\ ~ In q a /\
    (forall z, In z (symmetricDiff a b true) <-> z = p \/ z = q) /\
    (forall z, In z (setIntersect a b true) <-> In z a /\ In z b) /\
    ssorted (setIntersect a b true) /\ ssorted (symmetricDiff a b true) /\
    S (length (setIntersect a b true)) = length a /\
    (forall z, In z a <-> z = p \/ In z (setIntersect a b true)) /\
    (forall z, In z b <-> z = q \/ In z (setIntersect a b true)).
Proof.
  intros Sa Sb El E2.
  assert (Hne : a <> b).
  { intros ->. unfold symmetricDiff in E2. rewrite (proj2 (nlist_eqb_eq b b) eq_refl) in E2. cbn in E2. lia. }
  destruct (symmetricDiff_spec a b true) as [Ss Hs]; auto using ssorted_NoDup.
  destruct (setIntersect_spec a b true) as (Hm & Sm & _); auto using ssorted_NoDup.
  specialize (Sm Hne).
  assert (Em : S (length (setIntersect a b true)) = length a).
  { assert (H := diff_counts a b Sa Sb). unfold symmetricDiff in E2. unfold setIntersect.
    rewrite (proj2 (nlist_eqb_neq _ _) Hne) in *. lia. }
  assert (Fa : facet (setIntersect a b true) a).
  { repeat split; auto. intros z Hz. now apply Hm in Hz. }
  assert (Fb : facet (setIntersect a b true) b).
  { repeat split; auto. - intros z Hz. now apply Hm in Hz. - congruence. }
  apply facet_del in Fa as (p & Hp & Ep); auto. apply facet_del in Fb as (q & Hq & Eq); auto.
  assert (Hpb : ~ In p b).
  { intros H. assert (In p (setIntersect a b true)) by (apply Hm; auto). rewrite Ep in H0. apply del_In in H0. tauto. }
  assert (Hqa : ~ In q a).
  { intros H. assert (In q (setIntersect a b true)) by (apply Hm; auto). rewrite Eq in H0. apply del_In in H0. tauto. }
  assert (Ha : forall z, In z a <-> z = p \/ In z (setIntersect a b true)).
  { intros z. rewrite Ep, del_In. destruct (Nat.eq_dec z p) as [->|]; tauto. }
  assert (Hb : forall z, In z b <-> z = q \/ In z (setIntersect a b true)).
  { intros z. rewrite Eq, del_In. destruct (Nat.eq_dec z q) as [->|]; tauto. }
  exists p, q. split; [congruence|]. repeat (split; [assumption|]).
  split. { intros z. rewrite Hs. specialize (Ha z). specialize (Hb z). specialize (Hm z). split.
    - tauto. - intros [->| ->]; tauto. }
  repeat (split; [assumption|]). assumption.
Qed.

Lemma del_app_mid l x r : ssorted (l ++ x :: r) -> del x (l ++ x :: r) = l ++ r.
Proof.
  intros S. assert (N := ssorted_NoDup _ S). apply NoDup_remove in N as [_ N].
  unfold del. rewrite filter_app. cbn. rewrite Nat.eqb_refl. cbn.
  assert (G : forall k, ~ In x k -> filter (fun y => negb (y =? x)) k = k).
  { induction k as [|y k IH]; cbn; auto. intros Hk. destruct (Nat.eqb_spec y x); [exfalso; apply Hk; now left|].
    cbn. f_equal. apply IH. tauto. }
  rewrite !G; auto; intros H; apply N; apply in_app_iff; auto.
Qed.

Lemma getSubsets_del m z : ssorted m -> (In z (getSubsets m) <-> exists x, In x m /\ z = del x m).
Proof.
  intros S. destruct (getSubsets_facets m (ssorted_NoDup _ S)) as [_ H]. rewrite H. split.
  - intros (l & x & r & -> & ->). exists x. split; [apply in_app_iff; right; now left|]. now rewrite del_app_mid.
  - intros (x & Hx & ->). apply in_split in Hx as (l & r & ->). exists l, x, r. split; auto. now apply del_app_mid.
Qed.

Lemma candL_sound d L sa wa sb wb s w :
  2 <= d -> goodL d L -> In (sa, wa) L -> In (sb, wb) L ->
  candL L (sa, wa) (sb, wb) = Some (s, w) ->
  ssorted s /\ length s = S d /\ (forall z, In z s <-> In z sa \/ In z sb) /\
  (forall x, In x s -> exists wf, In (del x s, wf) L /\ (wf <= w)%Z) /\
  (exists x, In x s /\ In (del x s, w) L).
Proof.
  intros Hd G Ha Hb. unfold candL. cbn [fst snd].
  assert (Sa := gl_sorted _ _ G _ _ Ha). assert (Sb := gl_sorted _ _ G _ _ Hb).
  assert (La := gl_length _ _ G _ _ Ha). assert (Lb := gl_length _ _ G _ _ Hb).
  destruct (Nat.eqb_spec (length (symmetricDiff sa sb true)) 2) as [E2|]; [|easy].
  destruct (two_diff sa sb Sa Sb ltac:(congruence) E2)
    as (p & q & Hpq & Hpa & Hpb & Hqb & Hqa & Hsd & Hm & Sm & Ssd & Lm & Ea & Eb).
  set (simp := symmetricDiff sa sb true) in *. set (m := setIntersect sa sb true) in *.
  clearbody simp m.
  set (mw := if (wb <? wa)%Z then wa else wb).
  assert (Hmw : (wa <= mw /\ wb <= mw /\ (mw = wa \/ mw = wb))%Z).
  { unfold mw. destruct (Z.ltb_spec wb wa); lia. }
  (* common conclusion from: s sorted, elements p,q,m; faces over m found *)
  assert (Fin : ssorted s -> (forall z, In z s <-> z = p \/ z = q \/ In z m) -> (mw <= w)%Z ->
     (forall x, In x m -> exists wf, In (del x s, wf) L /\ (wf <= w)%Z) ->
     (w = mw \/ exists x, In x m /\ In (del x s, w) L) ->
     ssorted s /\ length s = S d /\ (forall z, In z s <-> In z sa \/ In z sb) /\
     (forall x, In x s -> exists wf, In (del x s, wf) L /\ (wf <= w)%Z) /\
     (exists x, In x s /\ In (del x s, w) L)).
  { intros Ss Es Hw Hf Hex.
    assert (Dq : del q s = sa).
    { apply ssorted_ext; auto using del_ssorted. intros z. rewrite del_In, Es, Ea. split; [tauto|].
      intros [->|Hz]; [tauto|]. split; [tauto|]. intros ->. apply Hm in Hz. tauto. }
    assert (Dp : del p s = sb).
    { apply ssorted_ext; auto using del_ssorted. intros z. rewrite del_In, Es, Eb. split; [tauto|].
      intros [->|Hz]; [split; [tauto|congruence]|]. split; [tauto|]. intros ->. apply Hm in Hz. tauto. }
    split; auto. split.
    { assert (H := del_length q s (ssorted_NoDup _ Ss)). rewrite Dq in H. rewrite <- H; [congruence|]. apply Es. tauto. }
    split. { intros z. rewrite Es, Ea, Eb. tauto. }
    split.
    - intros x Hx. apply Es in Hx as [->|[->|Hx]]; auto.
      + rewrite Dp. exists wb. split; auto. lia. + rewrite Dq. exists wa. split; auto. lia.
    - destruct Hex as [->|(x & Hx & Hxw)].
      + destruct Hmw as (_ & _ & [->| ->]).
        * exists q. rewrite Dq. split; auto. apply Es; tauto. * exists p. rewrite Dp. split; auto. apply Es; tauto.
      + exists x. split; auto. apply Es; tauto. }
  destruct (Nat.eqb_spec (length m) 1) as [E1|E1].
  - rewrite (nsort_id simp) by auto.
    destruct (find_in_level_spec d L simp G) as [F1 F2].
    destruct (Z.ltb_spec (find_in_level L simp) 0) as [|Hge]; [easy|].
    apply F1 in Hge as (wf & Hwf). rewrite (F2 _ Hwf). intros H; injection H as Es Ew.
    assert (Hs : forall z, In z s <-> z = p \/ z = q \/ In z m).
    { intros z. rewrite <- Es, nsort_In, in_app_iff, Hsd. tauto. }
    assert (Nsm : NoDup (simp ++ m)).
    { assert (G' : forall u v : list nat, NoDup u -> NoDup v -> (forall z, In z u -> ~ In z v) -> NoDup (u ++ v)).
      { induction u as [|z u IHu]; cbn; auto. intros v Na Nb Hdj. inversion Na; subst. constructor.
        - rewrite in_app_iff. intros [HH|HH]; auto. apply (Hdj z); auto. - apply IHu; auto. }
      apply G'; auto using ssorted_NoDup. intros z Hz1 Hz2. apply Hsd in Hz1. apply Hm in Hz2.
      destruct Hz1 as [->| ->]; tauto. }
    assert (Ss : ssorted s) by (rewrite <- Es; now apply nsort_ssorted).
    assert (Dm : forall x, In x m -> del x s = simp).
    { intros x Hx. apply ssorted_ext; auto using del_ssorted. intros z. rewrite del_In, Hs, Hsd.
      split.
      - intros [[?|[?|Hz]] Hn]; auto. exfalso. apply Hn. destruct m as [|u [|? ?]]; cbn in *; try lia.
      - intros Hz. split; [tauto|]. intros ->. apply Hm in Hx. destruct Hz as [->| ->]; tauto. }
    apply Fin; auto.
    + rewrite <- Ew. destruct (Z.ltb_spec mw wf); lia.
    + intros x Hx. rewrite (Dm x Hx). exists wf. split; auto. rewrite <- Ew. destruct (Z.ltb_spec mw wf); lia.
    + rewrite <- Ew. destruct (Z.ltb_spec mw wf); auto. right.
      destruct m as [|u ?]; [cbn in *; lia|]. exists u. split; [now left|]. rewrite Dm; auto. now left.
  - destruct (Nat.ltb_spec 1 (length m)) as [E3|E3]; [|lia].
    destruct (check_facesL L simp (getSubsets m) simp mw) as [[[] t] w'] eqn:Ec; [|easy].
    intros H; injection H as -> ->.
    apply (check_facesL_sound d) in Ec; auto.
    + destruct Ec as (Ss & Ht & Hf & Hmw' & Hex).
      assert (Hs : forall z, In z s <-> z = p \/ z = q \/ In z m).
      { intros z. rewrite Ht, Hsd. split.
        - intros [?|(z' & Hz' & Hz)]; [tauto|]. apply in_app_iff in Hz as [Hz|Hz]; [apply Hsd in Hz; tauto|].
          apply getSubsets_del in Hz' as (x & Hx & ->); auto. apply del_In in Hz. tauto.
        - intros [?|[?|Hz]]; auto.
          assert (Hy : exists y, In y m /\ y <> z).
          { assert (Nm := ssorted_NoDup _ Sm). destruct m as [|u [|v m']]; cbn in E3; try lia.
            destruct (Nat.eq_dec u z) as [->|]. - exists v. split; [right; now left|]. inversion Nm; subst. intros ->. apply H1. now left.
            - exists u. split; auto. now left. }
          destruct Hy as (y & Hy & Hyz). right. exists (del y m). split; [apply getSubsets_del; eauto|].
          apply in_app_iff; right. apply del_In. auto. }
      assert (Dm : forall x wz, In x m -> In (simp ++ del x m, wz) L -> del x s = simp ++ del x m).
      { intros x wz Hx Hl. apply ssorted_ext; auto using del_ssorted. { eapply gl_sorted; eauto. }
        intros z. rewrite del_In, Hs, in_app_iff, Hsd, del_In. split; [tauto|].
        intros [Hz|Hz]; [|tauto]. split; [tauto|]. intros ->. apply Hm in Hx. destruct Hz as [->| ->]; tauto. }
      apply Fin; auto.
      * intros x Hx. destruct (Hf (del x m)) as (wz & Hwz & Hle); [apply getSubsets_del; eauto|].
        exists wz. rewrite (Dm x wz); auto.
      * destruct Hex as [?|(z & Hz & Hzw)]; auto. apply getSubsets_del in Hz as (x & Hx & ->); auto.
        right. exists x. split; auto. rewrite (Dm x w); auto.
    + apply getSubsets_facets. now apply ssorted_NoDup.
    + intros z z' Hz Hz'. apply getSubsets_length in Hz, Hz'. lia.
    + intros z Hz E. apply getSubsets_length in Hz.
      assert (length (simp ++ z) = length simp) by congruence. rewrite app_length in H. lia.
Qed.

Lemma candL_complete d L s wa wb v0 v1 z a b :
  2 <= d -> goodL d L -> s = v0 :: v1 :: z -> ssorted s -> length s = S d ->
  (forall x, In x s -> exists wf, In (del x s, wf) L) ->
  (a = (del v0 s, wa) /\ b = (del v1 s, wb)) \/ (a = (del v1 s, wa) /\ b = (del v0 s, wb)) ->
  In a L -> In b L -> exists w, candL L a b = Some (s, w).
Proof.
  intros Hd G Es Ss Ls Hf Hab Ha Hb.
  assert (H0 : In v0 s) by (subst s; now left). assert (H1 : In v1 s) by (subst s; right; now left).
  assert (H01 : v0 <> v1).
  { intros ->. apply ssorted_NoDup in Ss. subst s. inversion Ss; subst. apply H3. now left. }
  assert (Hz : forall x, In x z -> x <> v0 /\ x <> v1).
  { intros x Hx. apply ssorted_NoDup in Ss. subst s. inversion Ss; subst. inversion H4; subst. split; intros ->.
    - apply H3. now right. - auto. }
  assert (Sz : ssorted z) by (subst s; apply ssorted_cons in Ss as [Ss _]; now apply ssorted_cons in Ss as [Ss _]).
  assert (Ssorted2 : ssorted [v0; v1]).
  { subst s. apply ssorted_cons in Ss as [_ Ss]. apply ssorted_cons. split; [repeat constructor|].
    intros y [<-|[]]. apply Ss. now left. }
  destruct a as [sa wa'], b as [sb wb'].
  assert (Sa := gl_sorted _ _ G _ _ Ha). assert (Sb := gl_sorted _ _ G _ _ Hb).
  assert (Hcases : (sa = del v0 s /\ sb = del v1 s) \/ (sa = del v1 s /\ sb = del v0 s)).
  { destruct Hab as [[E F]|[E F]]; injection E as -> ->; injection F as -> ->; auto. }
  assert (Hne : sa <> sb).
  { intros E. assert (In v1 (del v0 s)) by (apply del_In; auto). assert (~ In v1 (del v1 s)) by (rewrite del_In; tauto).
    destruct Hcases as [[-> ->]|[-> ->]]; rewrite E in *; auto. }
  destruct (symmetricDiff_spec sa sb true) as [Ssd Hsd]; auto using ssorted_NoDup.
  destruct (setIntersect_spec sa sb true) as (Hm & Sm & _); auto using ssorted_NoDup. specialize (Sm Hne).
  assert (Esd : symmetricDiff sa sb true = [v0; v1]).
  { apply ssorted_ext; auto. intros x. rewrite Hsd.
    destruct Hcases as [[-> ->]|[-> ->]]; rewrite !del_In; cbn;
    (destruct (Nat.eq_dec x v0) as [->|]; [intuition congruence|destruct (Nat.eq_dec x v1) as [->|]; intuition congruence]). }
  assert (Em : setIntersect sa sb true = z).
  { apply ssorted_ext; auto. intros x. rewrite Hm.
    assert (Hx : In x s /\ x <> v0 /\ x <> v1 <-> In x z).
    { rewrite Es. cbn. split; [intuition congruence|]. intros HH. specialize (Hz x HH). tauto. }
    destruct Hcases as [[-> ->]|[-> ->]]; rewrite !del_In; tauto. }
  assert (Dz : forall x, In x z -> del x s = [v0; v1] ++ del x z).
  { intros x Hx. rewrite Es. cbn. specialize (Hz x Hx).
    destruct (Nat.eqb_spec v0 x); [subst; tauto|]. destruct (Nat.eqb_spec v1 x); [subst; tauto|reflexivity]. }
  assert (Hcan : exists s' w, candL L (sa, wa') (sb, wb') = Some (s', w)).
  { unfold candL. cbn [fst snd]. rewrite Esd, Em. cbn [length Nat.eqb].
    change (2 =? 2) with true. cbv iota.
    destruct (Nat.eqb_spec (length z) 1) as [E1|E1].
    - rewrite (nsort_id [v0; v1]) by auto.
      destruct z as [|x [|? ?]]; cbn in E1; try lia.
      destruct (find_in_level_spec d L [v0; v1] G) as [F1 _].
      assert (H : (0 <= find_in_level L [v0; v1])%Z).
      { apply F1. destruct (Hf x) as (wf & Hwf). { rewrite Es. right; right; now left. }
        exists wf. rewrite Dz in Hwf by now left. cbn in Hwf. rewrite Nat.eqb_refl in Hwf. exact Hwf. }
      destruct (Z.ltb_spec (find_in_level L [v0; v1]) 0); [lia|]. eauto.
    - destruct (Nat.ltb_spec 1 (length z)) as [E3|E3].
      + destruct (check_facesL_complete d L [v0; v1] (getSubsets z) [v0; v1]
                    (if (wb' <? wa')%Z then wa' else wb') G) as (t & w & Ec).
        { intros y Hy. apply getSubsets_del in Hy as (x & Hx & ->); auto. rewrite <- Dz by auto. apply Hf.
          rewrite Es. right; now right. }
        rewrite Ec. eauto.
      + rewrite Es in Ls. cbn in Ls. lia. }
  destruct Hcan as (s' & w & Ec). exists w. rewrite Ec. f_equal. f_equal.
  destruct (candL_sound d L _ _ _ _ _ _ Hd G Ha Hb Ec) as (Ss' & _ & Hs' & _).
  apply ssorted_ext; auto. intros x. rewrite Hs'.
  destruct Hcases as [[-> ->]|[-> ->]]; rewrite !del_In;
    (destruct (Nat.eq_dec x v0) as [->|]; [tauto|destruct (Nat.eq_dec x v1) as [->|]; tauto]).
Qed.
