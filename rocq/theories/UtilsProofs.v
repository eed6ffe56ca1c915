(* UtilsProofs.v -- lemmas about Base.v and UtilsModel.v. *)
From Coq Require Import List Arith ZArith Bool Lia Sorted Permutation.
From Verif Require Import Base Spec UtilsModel.
Import ListNotations.

(* ------------------------------------------------------------------ *)
(* generic list facts *)

Notation ssorted := (StronglySorted lt).

Lemma nlist_eqb_eq a b : nlist_eqb a b = true <-> a = b.
Proof.
  revert b; induction a as [|x a IH]; intros [|y b]; cbn; split; intros H; try easy.
  - apply andb_true_iff in H as [H1 H2]. apply Nat.eqb_eq in H1. apply IH in H2. now subst.
  - injection H as -> ->. rewrite Nat.eqb_refl. cbn. now apply IH.
Qed.

Lemma nlist_eqb_neq a b : nlist_eqb a b = false <-> a <> b.
Proof.
  destruct (nlist_eqb a b) eqn:E.
  - apply nlist_eqb_eq in E. split; [easy|]. intros H; now elim H.
  - split; [|easy]. intros _ ->. assert (nlist_eqb b b = true) by now apply nlist_eqb_eq. congruence.
Qed.

Lemma ssorted_NoDup l : ssorted l -> NoDup l.
Proof.
  induction 1; constructor; auto. intros Hin.
  rewrite Forall_forall in H0. specialize (H0 _ Hin). lia.
Qed.

Lemma ssorted_cons x l : ssorted (x :: l) <-> ssorted l /\ forall y, In y l -> x < y.
Proof.
  split.
  - intros H; inversion H; subst. split; auto. now rewrite <- Forall_forall.
  - intros [H1 H2]; constructor; auto. now rewrite Forall_forall.
Qed.

Lemma ssorted_app l1 l2 :
  ssorted (l1 ++ l2) <-> ssorted l1 /\ ssorted l2 /\ forall x y, In x l1 -> In y l2 -> x < y.
Proof.
  induction l1 as [|a l1 IH]; cbn.
  - split; [intros H; repeat split; auto; try constructor; easy | tauto].
  - rewrite !ssorted_cons, IH. split.
    + intros [[H1 [H2 H3]] H4]. repeat split; auto.
      * intros y Hy. apply H4. apply in_or_app; auto.
      * intros x y [->|Hx] Hy; auto. apply H4. apply in_or_app; auto.
    + intros [[H1 H2] [H3 H4]]. repeat split; auto.
      intros y Hy. apply in_app_or in Hy as [Hy|Hy]; auto.
Qed.

Lemma ssorted_ext l1 l2 :
  ssorted l1 -> ssorted l2 -> (forall x, In x l1 <-> In x l2) -> l1 = l2.
Proof.
  revert l2; induction l1 as [|a l1 IH]; intros l2 H1 H2 H.
  - destruct l2 as [|b l2]; auto. exfalso. apply (H b). now left.
  - destruct l2 as [|b l2]. { exfalso. apply (H a). now left. }
    apply ssorted_cons in H1 as [S1 L1]. apply ssorted_cons in H2 as [S2 L2].
    assert (a = b).
    { assert (Ha : In a (b :: l2)) by (apply H; now left).
      assert (Hb : In b (a :: l1)) by (apply H; now left).
      destruct Ha as [Ha|Ha]; auto. destruct Hb as [Hb|Hb]; auto.
      apply L2 in Ha. apply L1 in Hb. lia. }
    subst b. f_equal. apply IH; auto. intros x; split; intros Hx.
    + assert (Hx' : In x (a :: l2)) by (apply H; now right).
      destruct Hx' as [->|Hx']; auto. apply L1 in Hx. lia.
    + assert (Hx' : In x (a :: l1)) by (apply H; now right).
      destruct Hx' as [->|Hx']; auto. apply L2 in Hx. lia.
Qed.

Lemma ssorted_filter f l : ssorted l -> ssorted (filter f l).
Proof.
  induction 1; cbn; [constructor|]. destruct (f a); auto.
  constructor; auto. rewrite Forall_forall in *. intros x Hx.
  apply filter_In in Hx as [Hx _]. auto.
Qed.

(* ------------------------------------------------------------------ *)
(* insertion sort *)

Lemma ninsert_In x l y : In y (ninsert x l) <-> y = x \/ In y l.
Proof.
  induction l as [|a l IH]; cbn.
  - intuition.
  - destruct (x <=? a); cbn; rewrite ?IH; intuition.
Qed.

Lemma nsort_In l y : In y (nsort l) <-> In y l.
Proof.
  induction l as [|a l IH]; cbn; [tauto|]. rewrite ninsert_In, IH. intuition.
Qed.

Lemma ninsert_perm x l : Permutation (ninsert x l) (x :: l).
Proof.
  induction l as [|a l IH]; cbn; auto. destruct (x <=? a); auto.
  rewrite IH. constructor.
Qed.

Lemma nsort_perm l : Permutation (nsort l) l.
Proof. induction l; cbn; auto. rewrite ninsert_perm. now constructor. Qed.

Lemma ninsert_ssorted x l : ssorted l -> ~ In x l -> ssorted (ninsert x l).
Proof.
  induction l as [|a l IH]; cbn; intros H Hx.
  - repeat constructor.
  - apply ssorted_cons in H as [H1 H2]. destruct (Nat.leb_spec x a) as [E|E].
    + apply ssorted_cons; split. { apply ssorted_cons; auto. }
      intros y [<-|Hy]; [assert (a <> x) by (intros ->; apply Hx; now left); lia|]. specialize (H2 _ Hy). lia.
    + apply ssorted_cons; split. { apply IH; auto. }
      intros y Hy. apply ninsert_In in Hy as [->|Hy]; auto.
Qed.

Lemma nsort_ssorted l : NoDup l -> ssorted (nsort l).
Proof.
  induction 1; cbn; [constructor|]. apply ninsert_ssorted; auto. now rewrite nsort_In.
Qed.

Lemma nsort_id l : ssorted l -> nsort l = l.
Proof.
  intros H. apply ssorted_ext; auto.
  - apply nsort_ssorted. now apply ssorted_NoDup.
  - intros x. apply nsort_In.
Qed.

Lemma sinsert_In x l y : In y (sinsert x l) <-> y = x \/ In y l.
Proof.
  induction l as [|a l IH]; cbn.
  - intuition.
  - destruct (Nat.ltb_spec x a); cbn; [intuition|].
    destruct (Nat.ltb_spec a x); cbn; rewrite ?IH; [intuition|].
    assert (x = a) by lia. subst. intuition.
Qed.

Lemma sinsert_ssorted x l : ssorted l -> ssorted (sinsert x l).
Proof.
  induction l as [|a l IH]; cbn; intros H.
  - repeat constructor.
  - apply ssorted_cons in H as [H1 H2]. destruct (Nat.ltb_spec x a) as [E|E].
    + apply ssorted_cons; split. { apply ssorted_cons; auto. }
      intros y [->|Hy]; auto. specialize (H2 _ Hy). lia.
    + destruct (Nat.ltb_spec a x) as [F|F].
      * apply ssorted_cons; split; auto. intros y Hy. apply sinsert_In in Hy as [->|Hy]; auto.
      * now apply ssorted_cons.
Qed.

Lemma sinsert_last x l : (forall y, In y l -> y < x) -> sinsert x l = l ++ [x].
Proof.
  induction l as [|a l IH]; cbn; intros H; auto.
  assert (a < x) by auto. destruct (Nat.ltb_spec x a); [lia|].
  destruct (Nat.ltb_spec a x); [|lia]. f_equal. auto.
Qed.

(* ------------------------------------------------------------------ *)
(* merges *)

Lemma set_union_In a b x : In x (set_union a b) <-> In x a \/ In x b.
Proof.
  revert b; induction a as [|u a IHa]; intros b.
  - destruct b; cbn; intuition.
  - induction b as [|v b IHb].
    + cbn; intuition.
    + cbn -[In]. destruct (Nat.ltb_spec u v).
      * cbn [In]. rewrite IHa. cbn. intuition.
      * destruct (Nat.ltb_spec v u).
        -- cbn [In] in *. rewrite IHb. intuition.
        -- assert (u = v) by lia. subst. cbn [In]. rewrite IHa. intuition.
Qed.

Lemma set_union_ssorted a b : ssorted a -> ssorted b -> ssorted (set_union a b).
Proof.
  revert b; induction a as [|u a IHa]; intros b Ha Hb.
  - destruct b; auto.
  - induction b as [|v b IHb]; auto.
    apply ssorted_cons in Ha as Ha'. destruct Ha' as [Sa La].
    apply ssorted_cons in Hb as Hb'. destruct Hb' as [Sb Lb].
    cbn -[In]. destruct (Nat.ltb_spec u v).
    + apply ssorted_cons. split; auto. intros y Hy. apply set_union_In in Hy as [Hy|[->|Hy]]; auto.
      specialize (Lb _ Hy); lia.
    + destruct (Nat.ltb_spec v u).
      * apply ssorted_cons. split; auto. intros y Hy.
        change (In y (set_union (u :: a) b)) in Hy.
        apply set_union_In in Hy as [[->|Hy]|Hy]; auto. specialize (La _ Hy); lia.
      * assert (u = v) by lia; subst. apply ssorted_cons. split; auto.
        intros y Hy. apply set_union_In in Hy as [Hy|Hy]; auto.
Qed.

Lemma set_intersection_In a b x :
  ssorted a -> ssorted b -> (In x (set_intersection a b) <-> In x a /\ In x b).
Proof.
  revert b; induction a as [|u a IHa]; intros b Ha Hb.
  - destruct b; cbn; intuition.
  - induction b as [|v b IHb].
    + cbn; intuition.
    + apply ssorted_cons in Ha as Ha'. destruct Ha' as [Sa La].
      apply ssorted_cons in Hb as Hb'. destruct Hb' as [Sb Lb].
      cbn -[In]. destruct (Nat.ltb_spec u v).
      * rewrite IHa; auto. cbn. split; [intuition|]. intros [[->|Hx] [->|Hx']]; try lia; auto.
        specialize (Lb _ Hx'); lia.
      * destruct (Nat.ltb_spec v u).
        -- change (In x (set_intersection (u :: a) b) <-> In x (u :: a) /\ In x (v :: b)).
           rewrite IHb; auto. cbn. split; [intuition|]. intros [[->|Hx] [->|Hx']]; try lia; auto.
           specialize (La _ Hx); lia.
        -- assert (u = v) by lia; subst. cbn [In]. rewrite IHa; auto. split; [intuition|].
           intros [[E|Hx] [E'|Hx']]; auto.
Qed.

Lemma set_intersection_incl_l a b x : In x (set_intersection a b) -> In x a.
Proof.
  revert b; induction a as [|u a IHa]; intros b.
  - destruct b; cbn; intuition.
  - induction b as [|v b IHb]; [cbn; intuition|]. cbn -[In]. destruct (Nat.ltb_spec u v).
    + intros H0; right; eauto.
    + destruct (Nat.ltb_spec v u); auto. intros [->|H1]; [now left|right; eauto].
Qed.

Lemma set_intersection_ssorted a b : ssorted a -> ssorted (set_intersection a b).
Proof.
  revert b; induction a as [|u a IHa]; intros b Ha.
  - destruct b; constructor.
  - induction b as [|v b IHb]; [constructor|].
    apply ssorted_cons in Ha as Ha'. destruct Ha' as [Sa La].
    cbn -[In]. destruct (Nat.ltb_spec u v); auto.
    destruct (Nat.ltb_spec v u); auto. apply ssorted_cons. split; auto.
    intros y Hy. apply La. eapply set_intersection_incl_l; eauto.
Qed.

Lemma set_symmetric_difference_incl a b x :
  In x (set_symmetric_difference a b) -> In x a \/ In x b.
Proof.
  revert b; induction a as [|u a IHa]; intros b.
  - destruct b; cbn; intuition.
  - induction b as [|v b IHb]; [cbn; intuition|]. cbn -[In]. destruct (Nat.ltb_spec u v).
    + intros [->|H0]; [left; now left|]. apply IHa in H0 as [H0|H0]; [left; now right|now right].
    + destruct (Nat.ltb_spec v u).
      * intros [->|H1]; [right; now left|]. apply IHb in H1 as [H1|H1]; [now left|right; now right].
      * intros H1. apply IHa in H1 as [H1|H1]; [left; now right|right; now right].
Qed.

Lemma set_symmetric_difference_In a b x :
  ssorted a -> ssorted b ->
  (In x (set_symmetric_difference a b) <-> (In x a /\ ~ In x b) \/ (In x b /\ ~ In x a)).
Proof.
  revert b; induction a as [|u a IHa]; intros b Ha Hb.
  - destruct b; cbn; intuition.
  - induction b as [|v b IHb].
    + cbn; intuition.
    + apply ssorted_cons in Ha as Ha'. destruct Ha' as [Sa La].
      apply ssorted_cons in Hb as Hb'. destruct Hb' as [Sb Lb].
      cbn -[In]. destruct (Nat.ltb_spec u v).
      * cbn [In]. rewrite IHa; auto. cbn [In]. split.
        -- intros [->|[[H1 H2]|[H1 H2]]].
           ++ left; split; auto. intros [->|Hx]; [lia|]. specialize (Lb _ Hx); lia.
           ++ left; auto.
           ++ right; split; auto. intros [->|Hx]; auto. destruct H1 as [->|H1]; [lia|]. specialize (Lb _ H1); lia.
        -- tauto.
      * destruct (Nat.ltb_spec v u).
        -- change (In x (v :: set_symmetric_difference (u :: a) b) <->
                   (In x (u :: a) /\ ~ In x (v :: b)) \/ (In x (v :: b) /\ ~ In x (u :: a))).
           cbn [In]. rewrite IHb; auto. cbn [In]. split.
           ++ intros [->|[[H1 H2]|[H1 H2]]].
              ** right; split; auto. intros [->|Hx]; [lia|]. specialize (La _ Hx); lia.
              ** left; split; auto. intros [->|Hx]; auto. destruct H1 as [->|H1]; [lia|]. specialize (La _ H1); lia.
              ** right; auto.
           ++ tauto.
        -- assert (u = v) by lia; subst. rewrite IHa; auto. cbn [In]. split.
           ++ intros [[H1 H2]|[H1 H2]]; [left|right]; split; auto; intros [->|Hx]; auto.
              ** specialize (La _ H1); lia.
              ** specialize (Lb _ H1); lia.
           ++ tauto.
Qed.

Lemma set_symmetric_difference_ssorted a b :
  ssorted a -> ssorted b -> ssorted (set_symmetric_difference a b).
Proof.
  revert b; induction a as [|u a IHa]; intros b Ha Hb.
  - destruct b; auto.
  - induction b as [|v b IHb]; auto.
    apply ssorted_cons in Ha as Ha'. destruct Ha' as [Sa La].
    apply ssorted_cons in Hb as Hb'. destruct Hb' as [Sb Lb].
    cbn -[In]. destruct (Nat.ltb_spec u v).
    + apply ssorted_cons. split; auto. intros y Hy. apply set_symmetric_difference_incl in Hy as [Hy|[->|Hy]]; auto.
      specialize (Lb _ Hy); lia.
    + destruct (Nat.ltb_spec v u); auto.
      apply ssorted_cons. split; auto. intros y Hy.
      change (In y (set_symmetric_difference (u :: a) b)) in Hy.
      apply set_symmetric_difference_incl in Hy as [[->|Hy]|Hy]; auto. specialize (La _ Hy); lia.
Qed.

Lemma includes_spec a b :
  ssorted a -> ssorted b -> (includes a b = true <-> incl b a).
Proof.
  revert b; induction a as [|u a IHa]; intros b Ha Hb.
  - destruct b; cbn. { split; auto. intros _ x []. }
    split; [easy|]. intros H. destruct (H n). now left.
  - destruct b as [|v b]. { cbn; split; auto. intros _ x []. }
    apply ssorted_cons in Ha as Ha'. destruct Ha' as [Sa La].
    apply ssorted_cons in Hb as Hb'. destruct Hb' as [Sb Lb].
    cbn -[In]. destruct (Nat.ltb_spec v u).
    + split; [easy|]. intros H0. destruct (H0 v) as [->|H1]; [now left|lia|]. specialize (La _ H1); lia.
    + destruct (Nat.ltb_spec u v).
      * rewrite IHa; auto. split; intros H1 x Hx.
        -- right; auto.
        -- destruct (H1 _ Hx) as [->|H2]; auto. destruct Hx as [->|Hx]; [lia|]. specialize (Lb _ Hx); lia.
      * assert (u = v) by lia; subst. rewrite IHa; auto. split; intros H1 x Hx.
        -- destruct Hx as [->|Hx]; [now left|right; auto].
        -- destruct (H1 x) as [->|H2]; auto; [now right|]. specialize (Lb _ Hx); lia.
Qed.

(* ------------------------------------------------------------------ *)
(* wrappers *)

Lemma setIntersect_spec v1 v2 b :
  NoDup v1 -> NoDup v2 -> (b = true -> ssorted v1 /\ ssorted v2) ->
  (forall x, In x (setIntersect v1 v2 b) <-> In x v1 /\ In x v2) /\
  (v1 <> v2 -> ssorted (setIntersect v1 v2 b)) /\
  (v1 = v2 -> setIntersect v1 v2 b = v1).
Proof.
  intros N1 N2 Hb. unfold setIntersect. destruct (nlist_eqb v1 v2) eqn:E.
  - apply nlist_eqb_eq in E; subst. intuition.
  - apply nlist_eqb_neq in E. split; [|split; [|easy]].
    + intros x. destruct b.
      * destruct Hb; auto. now apply set_intersection_In.
      * rewrite set_intersection_In by now apply nsort_ssorted. now rewrite !nsort_In.
    + intros _. destruct b.
      * destruct Hb; auto. now apply set_intersection_ssorted.
      * apply set_intersection_ssorted. now apply nsort_ssorted.
Qed.

Lemma setIntersect_set_spec v1 v2 :
  ssorted v1 -> ssorted v2 ->
  ssorted (setIntersect_set v1 v2) /\
  forall x, In x (setIntersect_set v1 v2) <-> In x v1 /\ In x v2.
Proof.
  intros N1 N2. unfold setIntersect_set. destruct (nlist_eqb v1 v2) eqn:E.
  - apply nlist_eqb_eq in E; subst. intuition.
  - split. + now apply set_intersection_ssorted. + intros; now apply set_intersection_In.
Qed.

Lemma symmetricDiff_spec v1 v2 b :
  NoDup v1 -> NoDup v2 -> (b = true -> ssorted v1 /\ ssorted v2) ->
  ssorted (symmetricDiff v1 v2 b) /\
  (forall x, In x (symmetricDiff v1 v2 b) <-> (In x v1 /\ ~ In x v2) \/ (In x v2 /\ ~ In x v1)).
Proof.
  intros N1 N2 Hb. unfold symmetricDiff. destruct (nlist_eqb v1 v2) eqn:E.
  - apply nlist_eqb_eq in E; subst. split; [constructor|]. cbn; intuition.
  - apply nlist_eqb_neq in E. destruct b.
    + destruct Hb; auto. split. * now apply set_symmetric_difference_ssorted.
      * intros; now apply set_symmetric_difference_In.
    + split. * apply set_symmetric_difference_ssorted; now apply nsort_ssorted.
      * intros. rewrite set_symmetric_difference_In by now apply nsort_ssorted. now rewrite !nsort_In.
Qed.

Lemma symmetricDiff_set_spec v1 v2 :
  ssorted v1 -> ssorted v2 ->
  ssorted (symmetricDiff_set v1 v2) /\
  (forall x, In x (symmetricDiff_set v1 v2) <-> (In x v1 /\ ~ In x v2) \/ (In x v2 /\ ~ In x v1)).
Proof.
  intros S1 S2. unfold symmetricDiff_set. destruct (nlist_eqb v1 v2) eqn:E.
  - apply nlist_eqb_eq in E; subst. split; [constructor|]. cbn; intuition.
  - split. + now apply set_symmetric_difference_ssorted. + intros; now apply set_symmetric_difference_In.
Qed.

Lemma setXOR_spec v1 v2 :
  ssorted v1 -> ssorted v2 ->
  ssorted (setXOR v1 v2) /\
  (forall x, In x (setXOR v1 v2) <-> (In x v1 /\ ~ In x v2) \/ (In x v2 /\ ~ In x v1)).
Proof.
  intros S1 S2. unfold setXOR. split.
  - now apply set_symmetric_difference_ssorted.
  - intros; now apply set_symmetric_difference_In.
Qed.

Lemma setUnion_spec v1 v2 b :
  NoDup v1 -> NoDup v2 -> (b = true -> ssorted v1 /\ ssorted v2) ->
  (v1 <> v2 -> ssorted (setUnion v1 v2 b) /\
               forall x, In x (setUnion v1 v2 b) <-> In x v1 \/ In x v2) /\
  (v1 = v2 -> setUnion v1 v2 b = []).
Proof.
  intros N1 N2 Hb. unfold setUnion. destruct (nlist_eqb v1 v2) eqn:E.
  - apply nlist_eqb_eq in E; subst. intuition.
  - apply nlist_eqb_neq in E. split; [|easy]. intros _. destruct b.
    + destruct Hb; auto. split. * now apply set_union_ssorted. * intros; apply set_union_In.
    + split. * apply set_union_ssorted; now apply nsort_ssorted.
      * intros. rewrite set_union_In. now rewrite !nsort_In.
Qed.

(* ------------------------------------------------------------------ *)
(* length of symmetric differences: needed for "differ in exactly two" *)

Lemma length_two_iff (l : list nat) :
  NoDup l -> (length l = 2 <-> exists x y, x <> y /\ forall z, In z l <-> z = x \/ z = y).
Proof.
  intros N. split.
  - destruct l as [|x [|y [|z l]]]; cbn; try lia. intros _. exists x, y. split.
    + inversion N; subst. cbn in *. intuition.
    + intros z. intuition.
  - intros (x & y & Hxy & H).
    assert (P : Permutation l [x; y]).
    { apply NoDup_Permutation; auto. - repeat constructor; cbn; intuition.
      - intros z. rewrite H. cbn. intuition. }
    now rewrite (Permutation_length P).
Qed.

Lemma intersect_spec v1 v2 b :
  NoDup v1 -> NoDup v2 -> (b = true -> ssorted v1 /\ ssorted v2) ->
  let differ x := (In x v1 /\ ~ In x v2) \/ (In x v2 /\ ~ In x v1) in
  ((exists x y, x <> y /\ forall z, differ z <-> z = x \/ z = y) ->
     let '(sd, un) := intersect v1 v2 b in
     ssorted sd /\ ssorted un /\
     (forall x, In x sd <-> differ x) /\ (forall x, In x un <-> In x v1 \/ In x v2)) /\
  (~ (exists x y, x <> y /\ forall z, differ z <-> z = x \/ z = y) ->
     intersect v1 v2 b = ([], [])).
Proof.
  intros N1 N2 Hb differ. unfold intersect. destruct (nlist_eqb v1 v2) eqn:E.
  - apply nlist_eqb_eq in E; subst. split; auto.
    intros (x & y & Hxy & H). exfalso. assert (D : differ x) by (apply H; auto).
    unfold differ in D. tauto.
  - set (a := if b then v1 else nsort v1). set (c := if b then v2 else nsort v2).
    assert (Sa : ssorted a) by (unfold a; destruct b; [now destruct Hb|now apply nsort_ssorted]).
    assert (Sc : ssorted c) by (unfold c; destruct b; [now destruct Hb|now apply nsort_ssorted]).
    assert (Ia : forall x, In x a <-> In x v1) by (intros; unfold a; destruct b; [tauto|apply nsort_In]).
    assert (Ic : forall x, In x c <-> In x v2) by (intros; unfold c; destruct b; [tauto|apply nsort_In]).
    assert (Hsd : forall x, In x (set_symmetric_difference a c) <-> differ x).
    { intros x. rewrite set_symmetric_difference_In by auto. unfold differ. now rewrite Ia, Ic. }
    assert (Ssd := set_symmetric_difference_ssorted _ _ Sa Sc).
    assert (L := length_two_iff _ (ssorted_NoDup _ Ssd)).
    cbv zeta. split.
    + intros (x & y & Hxy & H).
      assert (L2 : length (set_symmetric_difference a c) = 2).
      { apply L. exists x, y. split; auto. intros z. now rewrite Hsd. }
      rewrite L2. cbn. repeat split; auto.
      * now apply set_union_ssorted.
      * now apply Hsd. * now apply Hsd.
      * rewrite set_union_In, Ia, Ic; auto.
      * rewrite set_union_In, Ia, Ic; auto.
    + intros Hno. destruct (Nat.eqb_spec (length (set_symmetric_difference a c)) 2) as [L2|L2]; auto.
      exfalso. apply Hno. apply L in L2 as (x & y & Hxy & H). exists x, y. split; auto.
      intros z. now rewrite <- Hsd.
Qed.

(* ------------------------------------------------------------------ *)
(* subset enumeration *)

(* [sublist a b]: a is obtained from b by deleting elements (order kept). *)
Inductive sublist : list nat -> list nat -> Prop :=
| sub_nil : sublist [] []
| sub_skip x a b : sublist a b -> sublist a (b ++ [x])
| sub_take x a b : sublist a b -> sublist (a ++ [x]) (b ++ [x]).

Lemma all_subsets_snoc ins l x :
  all_subsets ins (l ++ [x]) = all_subsets ins l ++ map (ins x) (all_subsets ins l).
Proof. unfold all_subsets. rewrite fold_left_app. reflexivity. Qed.

Lemma all_subsets_sublist l s :
  In s (all_subsets push_back l) -> sublist s l.
Proof.
  revert s; induction l as [|x l IH] using rev_ind; intros s.
  - cbn. intros [<-|[]]. constructor.
  - rewrite all_subsets_snoc, in_app_iff, in_map_iff. intros [H|(s' & <- & H)].
    + apply sub_skip; auto.
    + unfold push_back. apply sub_take; auto.
Qed.

Lemma all_subsets_mem l s :
  In s (all_subsets push_back l) <-> sublist s l.
Proof.
  split; [apply all_subsets_sublist|]. induction 1.
  - cbn; auto.
  - rewrite all_subsets_snoc, in_app_iff. auto.
  - rewrite all_subsets_snoc, in_app_iff, in_map_iff. right. exists a; auto.
Qed.

Lemma sublist_In a b x : sublist a b -> In x a -> In x b.
Proof.
  induction 1; cbn; auto; rewrite ?in_app_iff; cbn; intuition.
Qed.

Lemma sublist_length a b : sublist a b -> length a <= length b.
Proof. induction 1; cbn; auto; rewrite ?app_length; cbn; lia. Qed.

Lemma sublist_full a b : sublist a b -> length a = length b -> a = b.
Proof.
  induction 1; auto; rewrite ?app_length; cbn; intros L.
  - apply sublist_length in H. lia.
  - f_equal. apply IHsublist. lia.
Qed.

Lemma sublist_ssorted a b : sublist a b -> ssorted b -> ssorted a.
Proof.
  induction 1; auto; rewrite ssorted_app; intros (H1 & H2 & H3); auto.
  rewrite ssorted_app. repeat split; auto. intros u v Hu Hv. apply H3; auto. eapply sublist_In; eauto.
Qed.

Lemma ssorted_snoc_inv a x : ssorted (a ++ [x]) -> ssorted a /\ forall y, In y a -> y < x.
Proof. rewrite ssorted_app. intros (H1 & _ & H3). split; auto. intros y Hy. apply H3; cbn; auto. Qed.

(* For increasing lists, sublist = subset. *)
Lemma ssorted_sublist a b : ssorted a -> ssorted b -> (sublist a b <-> incl a b).
Proof.
  intros Sa Sb. split. { intros H x Hx. eapply sublist_In; eauto. }
  revert a Sa; induction b as [|x b IH] using rev_ind; intros a Sa Hi.
  - destruct a as [|y a]; [constructor|]. destruct (Hi y). now left.
  - apply ssorted_snoc_inv in Sb as [Sb Lb].
    destruct a as [|y a _] using rev_ind.
    { apply sub_skip. apply IH; auto. intros z []. }
    apply ssorted_snoc_inv in Sa as Sa'. destruct Sa' as [Sa' La].
    assert (Hy : In y (b ++ [x])) by (apply Hi; rewrite in_app_iff; cbn; auto).
    assert (Ha : forall z, In z a -> In z b).
    { intros z Hz. assert (Hz' : In z (b ++ [x])) by (apply Hi; rewrite in_app_iff; auto).
      apply in_app_iff in Hz' as [Hz'|[->|[]]]; auto.
      specialize (La _ Hz). apply in_app_iff in Hy as [Hy|[->|[]]]; [|lia]. specialize (Lb _ Hy). lia. }
    apply in_app_iff in Hy as [Hy|[->|[]]].
    + apply sub_skip. apply IH; auto. intros z Hz. apply in_app_iff in Hz as [Hz|[->|[]]]; auto.
    + apply sub_take. apply IH; auto.
Qed.

Lemma all_subsets_NoDup l : NoDup l -> NoDup (all_subsets push_back l).
Proof.
  induction l as [|x l IH] using rev_ind; intros N.
  - cbn. repeat constructor. auto.
  - rewrite all_subsets_snoc.
    assert (N' : NoDup l /\ ~ In x l).
    { split. - apply NoDup_remove_1 in N. now rewrite app_nil_r in N.
      - apply NoDup_remove_2 in N. now rewrite app_nil_r in N. }
    destruct N' as [N1 N2]. specialize (IH N1).
    assert (G : forall a b : list (list nat), NoDup a -> NoDup b -> (forall z, In z a -> ~ In z b) -> NoDup (a ++ b)).
    { induction a as [|z a IHa]; cbn; auto. intros b Na Nb Hd. inversion Na; subst. constructor.
      - rewrite in_app_iff. intros [H|H]; auto. apply (Hd z); auto.
      - apply IHa; auto. }
    apply G; auto.
    + apply FinFun.Injective_map_NoDup; auto. intros a b H. unfold push_back in H.
      now apply app_inj_tail in H as [H _].
    + intros z Hz Hm. apply in_map_iff in Hm as (s & <- & Hs). apply all_subsets_sublist in Hz.
      apply N2. eapply sublist_In; eauto. unfold push_back. rewrite in_app_iff; cbn; auto.
Qed.

Lemma all_subsets_set l : ssorted l -> all_subsets sinsert l = all_subsets push_back l.
Proof.
  induction l as [|x l IH] using rev_ind; intros S; auto.
  apply ssorted_snoc_inv in S as [S L]. rewrite !all_subsets_snoc, IH; auto. f_equal.
  apply map_ext_in. intros s Hs. unfold push_back. apply sinsert_last. intros y Hy. apply L.
  eapply sublist_In; eauto. now apply all_subsets_mem.
Qed.

Lemma filter_map_length (A B : Type) (f : B -> bool) (g : A -> B) l :
  filter f (map g l) = map g (filter (fun x => f (g x)) l).
Proof. induction l; cbn; auto. destruct (f (g a)); cbn; now rewrite IHl. Qed.

Lemma all_subsets_count l k :
  length (filter (fun z => length z =? k) (all_subsets push_back l)) = binom (length l) k.
Proof.
  revert k; induction l as [|x l IH] using rev_ind; intros k.
  - cbn. destruct k; auto.
  - rewrite all_subsets_snoc, filter_app, app_length, filter_map_length, map_length, IH, app_length.
    cbn [length]. rewrite Nat.add_1_r. cbn [binom].
    assert (E : filter (fun y => length (push_back x y) =? k) (all_subsets push_back l) =
                match k with 0 => [] | S k' => filter (fun z => length z =? k') (all_subsets push_back l) end).
    { destruct k.
      - rewrite <- (filter_ext (fun _ => false)). + clear; induction (all_subsets push_back l); auto.
        + intros a. unfold push_back. rewrite app_length. cbn. now rewrite Nat.add_1_r.
      - apply filter_ext. intros a. unfold push_back. rewrite app_length. cbn. now rewrite Nat.add_1_r. }
    rewrite E. destruct k.
    + cbn. destruct (length l); cbn; lia.
    + rewrite IH. lia.
Qed.

Lemma getSubsets_facets l :
  NoDup l ->
  NoDup (getSubsets l) /\
  (forall s, In s (getSubsets l) <-> exists a x b, l = a ++ x :: b /\ s = a ++ b).
Proof.
  intros N. split.
  - unfold getSubsets. apply NoDup_filter. now apply all_subsets_NoDup.
  - intros s. unfold getSubsets. rewrite filter_In, all_subsets_mem, Nat.eqb_eq. split.
    + intros [H L]. revert L. clear N. induction H; cbn; rewrite ?app_length; cbn; intros L; try lia.
      * assert (length a = length b) by lia.
        assert (a = b) by now apply sublist_full.
        subst. exists b, x, []. now rewrite app_nil_r.
      * destruct IHsublist as (u & y & v & -> & ->); [lia|].
        exists u, y, (v ++ [x]). now rewrite <- !app_assoc.
    + intros (a & x & b & -> & ->). rewrite !app_length. cbn. split; [|lia].
      clear N. induction b as [|y b IH] using rev_ind.
      * rewrite app_nil_r. apply sub_skip. induction a using rev_ind; [apply sub_nil|apply sub_take; auto].
      * rewrite app_assoc. rewrite app_comm_cons, app_assoc. now apply sub_take.
Qed.

Lemma binom_full n : binom n n = 1.
Proof.
  assert (G : forall n k, n < k -> binom n k = 0).
  { induction n0 as [|m IH]; intros [|k] H; cbn; try lia. rewrite !IH by lia. reflexivity. }
  induction n; cbn; auto. rewrite IHn, G by lia. reflexivity.
Qed.

Lemma binom_S n : binom (S n) n = S n.
Proof.
  induction n as [|n IH]; auto. change (binom (S (S n)) (S n)) with (binom (S n) n + binom (S n) (S n)).
  rewrite IH, binom_full. lia.
Qed.

Lemma getSubsets_count l : length (getSubsets l) = length l.
Proof.
  unfold getSubsets. destruct l as [|x l]; auto.
  rewrite <- (filter_ext (fun z => length z =? length l)).
  - rewrite all_subsets_count. cbn [length]. apply binom_S.
  - intros a. cbn [length]. now change (S (length a) =? S (length l)) with (length a =? length l).
Qed.

Lemma getSubsets_facets_count l : NoDup l ->
  NoDup (getSubsets l) /\ length (getSubsets l) = length l /\
  forall s, In s (getSubsets l) <-> exists a x b, l = a ++ x :: b /\ s = a ++ b.
Proof.
  intros N. destruct (getSubsets_facets l N) as [H1 H2]. repeat split; auto.
  - apply getSubsets_count. - apply H2. - apply H2.
Qed.

Lemma getSubsets_set_facets l : ssorted l ->
  NoDup (getSubsets_set l) /\ length (getSubsets_set l) = length l /\
  forall s, In s (getSubsets_set l) <-> ssorted s /\ incl s l /\ S (length s) = length l.
Proof.
  intros S. assert (E : getSubsets_set l = getSubsets l).
  { unfold getSubsets_set, getSubsets. now rewrite all_subsets_set. }
  rewrite E. split; [|split].
  - apply getSubsets_facets. now apply ssorted_NoDup.
  - apply getSubsets_count.
  - intros s. unfold getSubsets. rewrite filter_In, all_subsets_mem, Nat.eqb_eq. split.
    + intros [H1 H2]. assert (ssorted s) by (eapply sublist_ssorted; eauto).
      repeat split; auto. now apply ssorted_sublist.
    + intros (H1 & H2 & H3). split; auto. now apply ssorted_sublist.
Qed.

Lemma getSubsets_dim_spec l dim : ssorted l ->
  NoDup (getSubsets_dim l dim) /\
  (forall s, In s (getSubsets_dim l dim) <-> ssorted s /\ incl s l /\ Z.of_nat (length s) = dim) /\
  (forall k, dim = Z.of_nat k -> length (getSubsets_dim l dim) = binom (length l) k).
Proof.
  intros S. unfold getSubsets_dim. rewrite all_subsets_set by auto. split; [|split].
  - apply NoDup_filter. apply all_subsets_NoDup. now apply ssorted_NoDup.
  - intros s. rewrite filter_In, all_subsets_mem, Z.eqb_eq. split.
    + intros [H1 H2]. assert (ssorted s) by (eapply sublist_ssorted; eauto).
      repeat split; auto. now apply ssorted_sublist.
    + intros (H1 & H2 & H3). split; auto. now apply ssorted_sublist.
  - intros k ->. rewrite <- all_subsets_count. f_equal. apply filter_ext. intros a.
    destruct (Nat.eqb_spec (length a) k), (Z.eqb_spec (Z.of_nat (length a)) (Z.of_nat k)); auto; lia.
Qed.
