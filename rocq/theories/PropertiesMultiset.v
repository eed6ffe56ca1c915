(* PropertiesMultiset.v -- C99: the set operations of Utils/utils.cpp on vectors with repeated elements in any order. *)
From Coq Require Import List Arith ZArith Bool Lia Sorted Permutation.
From Verif Require Import Base Spec UtilsModel UtilsProofs PartitionProofs MultisetProofs.
Import ListNotations.

Local Notation times l x := (count_occ Nat.eq_dec l x).
Local Notation nondecreasing := (StronglySorted le).

(* C99: for different arguments, each element occurs in the intersection as often as in both, in the union as often as
   in the one that has it more often, in the symmetric difference as often as the numbers differ; the result is
   sorted.  (isSorted = true is promised only for sorted arguments.) *)
Theorem C99_multiplicities : forall (v1 v2 : list nat) (isSorted : bool),
  (isSorted = true -> nondecreasing v1 /\ nondecreasing v2) -> v1 <> v2 ->
  (nondecreasing (setIntersect v1 v2 isSorted) /\
     forall x, times (setIntersect v1 v2 isSorted) x = Nat.min (times v1 x) (times v2 x)) /\
  (nondecreasing (setUnion v1 v2 isSorted) /\
     forall x, times (setUnion v1 v2 isSorted) x = Nat.max (times v1 x) (times v2 x)) /\
  (nondecreasing (symmetricDiff v1 v2 isSorted) /\
     forall x, times (symmetricDiff v1 v2 isSorted) x = (times v1 x - times v2 x) + (times v2 x - times v1 x)).
Proof.
  intros v1 v2 isSorted HS Hne. unfold setIntersect, setUnion, symmetricDiff. rewrite (proj2 (nlist_eqb_neq _ _) Hne).
  destruct isSorted.
  - destruct (HS eq_refl) as [S1 S2]. split; [now apply inter_multi|]. split; [now apply union_multi|now apply symdiff_multi].
  - assert (S1 := nsort_sorted v1). assert (S2 := nsort_sorted v2).
    destruct (inter_multi _ _ S1 S2) as [A1 A2], (union_multi _ _ S1 S2) as [B1 B2], (symdiff_multi _ _ S1 S2) as [C1 C2].
    split; [|split]; (split; [assumption|]); intros x; rewrite <- ?(nsort_cnt v1), <- ?(nsort_cnt v2); auto.
Qed.
Print Assumptions C99_multiplicities.

(* Equal arguments: the argument as it is, and nothing. *)
Theorem C99_equal_arguments : forall (v : list nat) (isSorted : bool),
  setIntersect v v isSorted = v /\ setUnion v v isSorted = [] /\ symmetricDiff v v isSorted = [] /\
  intersect v v isSorted = ([], []).
Proof.
  intros v isSorted. unfold setIntersect, setUnion, symmetricDiff, intersect.
  rewrite (proj2 (nlist_eqb_eq v v) eq_refl). auto.
Qed.
Print Assumptions C99_equal_arguments.

(* With isSorted = false the order of the elements does not matter ... *)
Theorem C99_order_of_elements : forall v1 v2 w1 w2 : list nat,
  Permutation v1 w1 -> Permutation v2 w2 -> v1 <> v2 -> w1 <> w2 ->
  setIntersect v1 v2 false = setIntersect w1 w2 false /\ setUnion v1 v2 false = setUnion w1 w2 false /\
  symmetricDiff v1 v2 false = symmetricDiff w1 w2 false /\ intersect v1 v2 false = intersect w1 w2 false.
Proof.
  intros v1 v2 w1 w2 P1 P2 Hv Hw. unfold setIntersect, setUnion, symmetricDiff, intersect.
  rewrite (proj2 (nlist_eqb_neq _ _) Hv), (proj2 (nlist_eqb_neq _ _) Hw).
  assert (E : forall v w, Permutation v w -> nsort v = nsort w).
  { intros v w P. apply sorted_unique; auto using nsort_sorted. intros z. rewrite !nsort_cnt. now apply Permutation_count_occ. }
  rewrite (E _ _ P1), (E _ _ P2). auto.
Qed.
Print Assumptions C99_order_of_elements.

(* ... except that the test for equal arguments is made before sorting. *)
Theorem C99_order_of_elements_refuted : exists v1 v2 w1 w2 : list nat,
  Permutation v1 w1 /\ Permutation v2 w2 /\ setUnion v1 v2 false <> setUnion w1 w2 false /\
  setIntersect v1 v2 false <> setIntersect w1 w2 false.
Proof.
  exists [2; 1], [2; 1], [2; 1], [1; 2]. split; auto. split; [constructor|]. split; discriminate.
Qed.
Print Assumptions C99_order_of_elements_refuted.

(* Exchanging the arguments changes nothing, for any vectors, sorted or not, and either flag. *)
Theorem C99_arguments_exchanged : forall (v1 v2 : list nat) (isSorted : bool),
  setIntersect v1 v2 isSorted = setIntersect v2 v1 isSorted /\ setUnion v1 v2 isSorted = setUnion v2 v1 isSorted /\
  symmetricDiff v1 v2 isSorted = symmetricDiff v2 v1 isSorted /\ intersect v1 v2 isSorted = intersect v2 v1 isSorted.
Proof.
  intros v1 v2 isSorted. destruct (list_eq_dec Nat.eq_dec v1 v2) as [->|H]; [auto|].
  unfold setIntersect, setUnion, symmetricDiff, intersect.
  rewrite (proj2 (nlist_eqb_neq v1 v2) H), (proj2 (nlist_eqb_neq v2 v1)) by congruence.
  destruct isSorted; rewrite ?(inter_comm v1), ?(union_comm v1), ?(symdiff_comm v1),
    ?(inter_comm (nsort v1)), ?(union_comm (nsort v1)), ?(symdiff_comm (nsort v1)); auto.
Qed.
Print Assumptions C99_arguments_exchanged.

(* intersect on vectors with repetitions: the differences and the union if there are exactly two differences, counted
   with their multiplicities, and nothing otherwise. *)
Theorem C99_intersect_two_differences : forall (v1 v2 : list nat) (isSorted : bool),
  (isSorted = true -> nondecreasing v1 /\ nondecreasing v2) ->
  let two_differences :=
    exists x y, forall z, (times v1 z - times v2 z) + (times v2 z - times v1 z) = times [x; y] z in
  (two_differences ->
     let '(sd, un) := intersect v1 v2 isSorted in
     nondecreasing sd /\ nondecreasing un /\
     (forall z, times sd z = (times v1 z - times v2 z) + (times v2 z - times v1 z)) /\
     (forall z, times un z = Nat.max (times v1 z) (times v2 z))) /\
  (~ two_differences -> intersect v1 v2 isSorted = ([], [])).
Proof.
  intros v1 v2 isSorted HS two.
  assert (E : intersect v1 v2 isSorted =
    (if length (symmetricDiff v1 v2 isSorted) =? 2 then (symmetricDiff v1 v2 isSorted, setUnion v1 v2 isSorted) else ([], []))).
  { unfold intersect, symmetricDiff, setUnion. destruct (nlist_eqb v1 v2); [reflexivity|]. destruct isSorted; reflexivity. }
  destruct (list_eq_dec Nat.eq_dec v1 v2) as [Heq|Hne].
  - subst v2. split.
    + intros (x & y & H). specialize (H x). rewrite Nat.sub_diag, (count_occ_cons_eq Nat.eq_dec [y] (eq_refl x)) in H. discriminate.
    + intros _. unfold intersect. now rewrite (proj2 (nlist_eqb_eq v1 v1) eq_refl).
  - destruct (C99_multiplicities v1 v2 isSorted HS Hne) as (_ & [U1 U2] & [D1 D2]). rewrite E. split.
    + intros (x & y & H).
      assert (P : Permutation (symmetricDiff v1 v2 isSorted) [x; y]).
      { apply (Permutation_count_occ Nat.eq_dec). intros z. rewrite D2. apply H. }
      apply Permutation_length in P. rewrite P. cbn [length]. rewrite Nat.eqb_refl. auto.
    + intros H. destruct (Nat.eqb_spec (length (symmetricDiff v1 v2 isSorted)) 2) as [E2|E2]; [|reflexivity]. elim H.
      destruct (symmetricDiff v1 v2 isSorted) as [|x [|y [|z l]]]; try discriminate. exists x, y. intros z. now rewrite <- D2.
Qed.
Print Assumptions C99_intersect_two_differences.

(* The symmetric difference makes the finite sets a group in which every element is its own inverse. *)
Theorem C99_setXOR_group : forall a b c : list nat,
  increasing a -> increasing b -> increasing c ->
  increasing (setXOR a b) /\ setXOR (setXOR a b) c = setXOR a (setXOR b c) /\ setXOR a b = setXOR b a /\
  setXOR a [] = a /\ setXOR a a = [].
Proof.
  intros a b c Sa Sb Sc. destruct (setXOR_spec a b Sa Sb) as [Sab Hab], (setXOR_spec b c Sb Sc) as [Sbc Hbc].
  destruct (setXOR_spec _ c Sab Sc) as [S1 H1], (setXOR_spec a _ Sa Sbc) as [S2 H2].
  split; auto. split.
  - apply ssorted_ext; auto. intros x. rewrite H1, H2. unfold in_exactly_one. rewrite Hab, Hbc. unfold in_exactly_one.
    destruct (in_dec Nat.eq_dec x a), (in_dec Nat.eq_dec x b), (in_dec Nat.eq_dec x c); tauto.
  - split; [apply symdiff_comm|]. split; [now destruct a|].
    destruct (setXOR_spec a a Sa Sa) as [_ H]. destruct (setXOR a a) as [|x l]; auto.
    destruct (proj1 (H x) (or_introl eq_refl)) as [[? ?]|[? ?]]; easy.
Qed.
Print Assumptions C99_setXOR_group.

(* getSubsets on any vector, repeated elements included: position by position, the last one first, the vector without
   the entry at that position. *)
Theorem C99_getSubsets_by_position : forall l : list nat,
  getSubsets l = map (fun i => firstn i l ++ skipn (S i) l) (rev (seq 0 (length l))).
Proof. exact facets_by_position. Qed.
Print Assumptions C99_getSubsets_by_position.

Example C99_ex :
  setIntersect [5;2;2;2;7] [2;5;5;2] false = [2;2;5] /\ setUnion [5;2;2;2;7] [2;5;5;2] false = [2;2;2;5;5;7] /\
  symmetricDiff [5;2;2;2;7] [2;5;5;2] false = [2;5;7] /\ intersect [1;1;4] [4] false = ([1;1], [1;1;4]) /\
  nondecreasing [1;1;4] /\ setUnion [1;1;4] [1;4;4] true = [1;1;4;4] /\
  getSubsets [3;3;1] = [[3;3];[3;1];[3;1]] /\ setXOR [1;2;5] [2;3] = [1;3;5].
Proof. repeat split; try reflexivity. repeat constructor; lia. Qed.
