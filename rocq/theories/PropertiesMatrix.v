(* PropertiesMatrix.v -- C98: complexes whose distance matrix is exchanged between calls, and which histories of
   calls read outside the matrix. *)
From Coq Require Import List Arith ZArith Bool Lia.
From Verif Require Import Base Spec ArrayListModel ArrayListProofs SpecComplex ArrayListInv ArrayListHist TreeModel SpecTree TreeHist
  MatrixModel SpecMatrix MatrixRuns.
Import ListNotations.

(* C98, simplexArrayList: a history of calls is undefined exactly if edges are kept at all and some insertion does
   not find in the matrix in force an entry for every older point -- whatever the entries, signs included. *)
Theorem C98_array_list_undefined : forall eps maxDimension dm ops,
  am_run eps maxDimension dm ops = UB <->
  (0 < maxDimension)%Z /\
  exists a b, ops = a ++ ACall (OpInsert false) :: b /\ ~ has_column (a_matrix dm a) (length (a_seen dm a)).
Proof. exact array_list_undefined. Qed.
Print Assumptions C98_array_list_undefined.

(* Each pair of points keeps the distance found in the matrix that was in force when the later of the two was
   inserted: the complex holds exactly the Vietoris-Rips simplices for these distances, each once and with its
   diameter, up to the dimension it has been expanded to. *)
Theorem C98_array_list_contents : forall eps maxDimension dm ops,
  (forall a b, ops = a ++ ACall (OpInsert false) :: b -> good_column (a_matrix dm a) (length (a_seen dm a))) ->
  exists wg, am_run eps maxDimension dm ops = Ok (a_matrix dm ops, wg) /\
    level wg 0 = map (fun i => ([i], 0%Z)) (seq 0 (length (a_seen dm ops))) /\
    (forall k s w, 1 <= k -> In (s, w) (level wg k) ->
       length s = S k /\ seen_rips (a_seen dm ops) eps s /\ diameter (seen (a_seen dm ops)) s w) /\
    ((0 < maxDimension)%Z -> forall k s, 1 <= k <= expanded (calls ops) -> seen_rips (a_seen dm ops) eps s ->
       length s = S k -> exists w, In (s, w) (level wg k)) /\
    (forall k, NoDup (map fst (level wg k))) /\
    ((maxDimension <= 0)%Z -> forall k, 1 <= k -> level wg k = []) /\
    (forall k, deepest (calls ops) < k -> level wg k = []).
Proof.
  intros eps md dm ops M. destruct (am_run_good eps md dm ops M) as (wg & E & G). assert (G' := G). destruct G' as [I P C T].
  exists wg. split; auto. split; [apply (i_vert _ _ _ _ _ I)|]. split; [|split; [|split; [|split]]].
  - intros k s w Hk H. apply (i_sound _ _ _ _ _ I) in H; auto.
  - intros Hm k s [H1 H2] Hs Ls. now apply (C Hm k).
  - intros k. exact (am_nodup eps md dm ops wg G k).
  - intros Hm k Hk. unfold level. rewrite nth_overflow; auto. assert (length wg <= 1) by now apply (i_lowdim _ _ _ _ _ I). lia.
  - exact T.
Qed.
Print Assumptions C98_array_list_contents.

(* getDimEdges filters the simplices held by the matrix in force now, not by the distances they were built from. *)
Theorem C98_array_list_getDimEdges : forall eps maxDimension dm ops dim epsilon,
  (forall a b, ops = a ++ ACall (OpInsert false) :: b -> good_column (a_matrix dm a) (length (a_seen dm a))) ->
  upper_triangle (a_matrix dm ops) (length (a_seen dm ops)) ->
  exists wg ret, am_run eps maxDimension dm ops = Ok (a_matrix dm ops, wg) /\
    getDimEdges (a_matrix dm ops) wg dim epsilon = Ok ret /\ NoDup ret /\
    forall s, In s ret <-> Z.of_nat (length s) = dim /\ (exists k w, In (s, w) (level wg k)) /\
                           forall u v, In u s -> In v s -> u < v -> (dist_of (a_matrix dm ops) u v <= epsilon)%Z.
Proof. intros eps md dm ops dim epsilon. exact (getDimEdges_in_force eps md dm ops dim epsilon). Qed.
Print Assumptions C98_array_list_getDimEdges.

(* C98, simplexTree (with a null head at construction and a harmless write in its clear): a history is undefined
   exactly if an insertion under a non-empty matrix does not find an entry for every older point, or clear is called
   on an empty complex. *)
Theorem C98_tree_undefined : forall eps maxDimension dm nc0 srt ops,
  st_run eps maxDimension (Ok tt) srt (st_new dm nc0) ops = UB <->
  exists a o b, ops = a ++ o :: b /\ ~ t_allowed (m_past dm a) o.
Proof. exact tree_undefined. Qed.
Print Assumptions C98_tree_undefined.

(* The tree too keeps the distances of the matrix in force at the insertion of the later point; the names of its
   vertices count the points inserted before the last clear. *)
Theorem C98_tree_contents : forall eps maxDimension dm nc0 srt ops,
  is_sort srt -> (forall a o b, ops = a ++ o :: b -> t_proper (m_past dm a) o) ->
  exists t, st_run eps maxDimension (Ok tt) srt (st_new dm nc0) ops = Ok t /\
    (forall k, NoDup (map fst (level (st_weg t) k))) /\
    forall k s w, In (s, w) (level (st_weg t) k) <->
      exists s0, s = map (Nat.add (m_before (m_past dm ops))) s0 /\ length s0 = S k /\
        seen_strict_rips (m_seen (m_past dm ops)) eps s0 /\ within maxDimension s0 /\
        diameter (seen (m_seen (m_past dm ops))) s0 w.
Proof.
  intros eps md dm nc0 srt ops Hs L. destruct (tree_good eps md dm nc0 srt ops Hs L) as (t & cb & E & _ & _ & V).
  exists t. split; auto. split; [exact (v_nodup _ _ _ _ _ _ _ V)|]. intros k s w.
  exact (tree_seen eps md (m_seen (m_past dm ops)) _ cb t k s w V).
Qed.
Print Assumptions C98_tree_contents.

(* So after an exchange the complex need not be the Vietoris-Rips complex of the matrix in force. *)
Theorem C98_rips_of_the_matrix_in_force_refuted :
  ~ (forall eps maxDimension dm ops wg s,
       (forall a b, ops = a ++ ACall (OpInsert false) :: b -> good_column (a_matrix dm a) (length (a_seen dm a))) ->
       upper_triangle (a_matrix dm ops) (length (a_seen dm ops)) ->
       am_run eps maxDimension dm ops = Ok (a_matrix dm ops, wg) -> (0 < maxDimension)%Z -> length s = 2 ->
       ((exists w, In (s, w) (level wg 1)) <-> rips (a_matrix dm ops) eps (length (a_seen dm ops)) s)).
Proof.
  intros H.
  specialize (H 5%Z 2%Z [[0; 1]; [1; 0]]%Z
    [ACall (OpInsert false); ACall (OpInsert false); AMatrix [[0; 9]; [9; 0]]%Z] [[([0], 0%Z); ([1], 0%Z)]; [([0; 1], 1%Z)]] [0; 1]).
  destruct H as [H _]; auto; try lia.
  - intros a b E. destruct a as [|x [|y [|z a]]]; cbn in *; injection E as; subst; try discriminate.
    + intros j Hj. cbn in Hj. lia.
    + intros j Hj. cbn in Hj. assert (j = 0) by lia. subst j. cbn. lia.
    + destruct a; discriminate.
  - intros j i Hj Hi. cbn in Hi. assert (j = 0 /\ i = 1) as [-> ->] by lia. cbn. lia.
  - destruct H as (_ & _ & _ & H); [exists 1%Z; cbn; auto|]. specialize (H 0 1). cbn in H. lia.
Qed.
Print Assumptions C98_rips_of_the_matrix_in_force_refuted.

(* Points 0 and 1 inserted at distance 1, point 2 under another matrix in which 0 and 1 are 9 apart: all three edges
   and the triangle are there; the tree agrees; the first insertion that leaves the matrix is undefined. *)
Example C98_ex :
  let A := [[0; 1]; [1; 0]]%Z in
  let B := [[0; 9; 2]; [9; 0; 3]; [2; 3; 0]]%Z in
  let ops := [ACall (OpInsert false); ACall (OpInsert false); AMatrix B; ACall (OpInsert false); ACall (OpExpand 2)] in
  let G := [[([0], 0%Z); ([1], 0%Z); ([2], 0%Z)]; [([0; 1], 1%Z); ([0; 2], 2%Z); ([1; 2], 3%Z)]; [([0; 1; 2], 3%Z)]] in
  let tops := [TInsert; TInsert; TMatrix B; TInsert; TClear; TInsert] in
  am_run 5 2 A ops = Ok (B, G) /\
  a_seen A ops = [A; A; B] /\ expanded (calls ops) = 2 /\
  (forall a b, ops = a ++ ACall (OpInsert false) :: b -> good_column (a_matrix A a) (length (a_seen A a))) /\
  upper_triangle (a_matrix A ops) (length (a_seen A ops)) /\
  getDimEdges B G 2 5 = Ok [[0; 2]; [1; 2]] /\
  am_run 5 2 A [ACall (OpInsert false); ACall (OpInsert false); ACall (OpInsert false)] = UB /\
  m_past A tops = mkM B 3 [B] /\ (forall a o b, tops = a ++ o :: b -> t_proper (m_past A a) o) /\
  rmap st_weg (st_run 5 2 (Ok tt) (fun l => l) (st_new A 0) [TInsert; TInsert; TMatrix B; TInsert]) =
    Ok G /\
  st_run 5 2 (Ok tt) (fun l => l) (st_new A 0) [TInsert; TInsert; TInsert] = UB.
Proof.
  cbv zeta. split; [vm_compute; reflexivity|]. split; [vm_compute; reflexivity|]. split; [vm_compute; reflexivity|]. split.
  { intros a b E. destruct a as [|x [|y [|z [|u [|v a]]]]]; cbn in *; injection E as; subst; try discriminate.
    - intros j Hj. cbn in Hj. lia.
    - intros j Hj. cbn in Hj. assert (j = 0) by lia. subst j. cbn. lia.
    - intros j Hj. cbn in Hj. assert (j = 0 \/ j = 1) as [-> | ->] by lia; cbn; lia.
    - destruct a; discriminate. }
  split. { intros j i Hj Hi. cbn in Hi. assert (j = 0 /\ i = 1 \/ j = 0 /\ i = 2 \/ j = 1 /\ i = 2) as [[-> ->]|[[-> ->]|[-> ->]]] by lia; cbn; lia. }
  split; [vm_compute; reflexivity|]. split; [vm_compute; reflexivity|]. split; [vm_compute; reflexivity|]. split.
  { intros a o b E. destruct a as [|x [|y [|z [|u [|v [|q a]]]]]]; cbn in *; injection E as; subst; cbn; auto; try discriminate.
    - right. intros j Hj. cbn in Hj. lia.
    - right. intros j Hj. cbn in Hj. assert (j = 0) by lia. subst j. cbn. lia.
    - right. intros j Hj. cbn in Hj. assert (j = 0 \/ j = 1) as [-> | ->] by lia; cbn; lia.
    - right. intros j Hj. cbn in Hj. lia.
    - destruct a; discriminate. }
  split; vm_compute; reflexivity.
Qed.
