(* PropertiesFast.v -- property theorems about fastPersistence. *)
From Coq Require Import List Arith ZArith Bool Lia Sorted Permutation.
From Verif Require Import Base Spec ArrayListModel SpecComplex FastModel SpecGraph SpecLinear SpecFast
  FastProofs FastRuns PropertiesComplex.
Import ListNotations.

(* A complex to try the statements on: the square 0-1-2-3 (sides 1, diagonals 2 and 3) with its triangles and
   the tetrahedron, as getAllEdges lists it. *)
Definition sq_dm : list (list Z) := [[0;1;2;1];[1;0;1;3];[2;1;0;1];[1;3;1;0]]%Z.
Definition sq_ops : list al_op := repeat (OpInsert false) 4 ++ [OpExpand 2; OpExpand 3].
Definition sq : wgraph :=
  [[([0], 0%Z);([1], 0%Z);([2], 0%Z);([3], 0%Z)];
   [([0;1], 1%Z);([1;2], 1%Z);([0;3], 1%Z);([2;3], 1%Z);([0;2], 2%Z);([1;3], 3%Z)];
   [([0;1;2], 2%Z);([0;2;3], 2%Z);([0;1;3], 3%Z);([1;2;3], 3%Z)];
   [([0;1;2;3], 3%Z)]].
Lemma sq_covers : matrix_covers sq_dm sq_ops.
Proof.
  intros p q E. assert (L : live p <= 4).
  { unfold sq_ops in E. cbn in E. destruct p as [|a1 [|a2 [|a3 [|a4 [|a5 [|a6 [|]]]]]]]; try (cbn; lia); cbn in E; injection E; intros; subst; cbn; try lia. discriminate. }
  intros j i Hj Hi. assert (Hc : (j = 0 \/ j = 1 \/ j = 2) /\ (i = 1 \/ i = 2 \/ i = 3)) by lia.
  destruct Hc as [[->|[->| ->]] [->|[->| ->]]]; try lia; cbn; lia.
Qed.
Lemma sq_is : exists wg, al_run sq_dm 5 2 sq_ops = Ok wg /\ getAllEdges wsort wg 5 = sq.
Proof. eexists. split; vm_compute; reflexivity. Qed.
Lemma sq_good : complex sq /\ filtered sq.
Proof. destruct sq_is as (wg & E & <-). exact (array_list_filtered _ _ _ _ _ _ _ sq_covers E wsort_is_sort). Qed.
(* Reading 1000 past the end is harmless here. *)
Definition far : list nat -> nat -> res nat := fun _ _ => Ok 1000.

(* ---------------------------------------------------------------- C17 *)
(* The number of components at scale t is c, of the whole complex c'; the bars of dimension 0 are the deaths
   and one more that ends at epsilon. *)
Theorem C17_dim0_bars_count_components :
  forall past_end (dim eps : Z) (edges : wgraph) tab lines tab',
  complex edges -> StronglySorted by_weight (level edges 1) ->
  fp_run past_end dim eps edges tab = Ok (Some (lines, tab')) ->
  exists deaths, dim0 lines = map (fun w => (0, 0%Z, w)) deaths ++ [(0, 0%Z, eps)] /\
    forall t c c', components (vertices edges) (up_to t (level edges 1)) c -> components (vertices edges) (level edges 1) c' ->
      count_le t deaths + c = length (vertices edges) /\
      length deaths + c' = length (vertices edges) /\
      length (filter (fun w => (t <? w)%Z) deaths) + c' = c.
Proof. exact dim0_components. Qed.
Print Assumptions C17_dim0_bars_count_components.

Example C17_ex : complex sq /\ StronglySorted by_weight (level sq 1) /\
  exists lines tab', fp_run libstdcxx_past_end 2 5 sq [] = Ok (Some (lines, tab')) /\
    dim0 lines = map (fun w => (0, 0%Z, w)) [1;1;1;5]%Z.
Proof.
  split; [apply sq_good|]. split; [apply sq_good|]. do 2 eexists. split; vm_compute; reflexivity.
Qed.

(* ---------------------------------------------------------------- C18 *)
Theorem C18_dim0_pivots_are_a_minimum_spanning_forest :
  forall past_end (dim eps : Z) (edges : wgraph) tab lines tab',
  complex edges -> StronglySorted by_weight (level edges 1) ->
  fp_run past_end dim eps edges tab = Ok (Some (lines, tab')) ->
  exists piv, dim0 lines = map (fun i => (0, 0%Z, edge_weight (level edges 1) i)) piv ++ [(0, 0%Z, eps)] /\
    increasing piv /\ (forall i, In i piv <-> joins (level edges 1) i) /\
    spans (level edges 1) (edges_at (level edges 1) piv) /\
    (forall F t, spans (level edges 1) F ->
       length (filter (fun e => (t <? snd e)%Z) (edges_at (level edges 1) piv)) <= length (filter (fun e => (t <? snd e)%Z) F)) /\
    ((forall s w, In (s, w) (level edges 1) -> (0 <= w)%Z) -> forall F, spans (level edges 1) F ->
       (total_weight (map snd (edges_at (level edges 1) piv)) <= total_weight (map snd F))%Z).
Proof. exact dim0_forest. Qed.
Print Assumptions C18_dim0_pivots_are_a_minimum_spanning_forest.

Example C18_ex : complex sq /\ StronglySorted by_weight (level sq 1) /\ (forall s w, In (s, w) (level sq 1) -> (0 <= w)%Z) /\
  spans (level sq 1) (level sq 1) /\ total_weight (map snd (level sq 1)) = 9%Z /\
  exists lines tab', fp_run libstdcxx_past_end 2 5 sq [] = Ok (Some (lines, tab')) /\
    dim0 lines = map (fun i => (0, 0%Z, edge_weight (level sq 1) i)) [0;1;2] ++ [(0, 0%Z, 5%Z)].
Proof.
  split; [apply sq_good|]. split; [apply sq_good|]. split.
  - intros s w H. cbn in H. repeat destruct H as [H|H]; try injection H as <- <-; try lia; try destruct H.
  - split; [split; [apply incl_refl|reflexivity]|]. split; [reflexivity|]. do 2 eexists. split; vm_compute; reflexivity.
Qed.

(* ---------------------------------------------------------------- C19 *)
(* With a value read past the end that is not the number of a row, the run ends and reports one bar for every pair with
   different weights; no row and no column is in two pairs. *)
Theorem C19_reduction_pairs_rows_and_columns_once :
  forall past_end (dim eps : Z) (edges : wgraph) tab,
  complex edges -> 2 <= length edges ->
  (forall k p, 1 <= k < 1 + dims dim edges -> negative edges k p -> harmless past_end p (length (level edges k))) ->
  exists deaths ps tab', fp_run past_end dim eps edges tab =
    Ok (Some (map (fun w => (0, 0%Z, w)) deaths ++ [(0, 0%Z, eps)] ++ all_bars edges 1 (dims dim edges) ps, tab')) /\
  forall k, 1 <= k <= dims dim edges ->
    increasing (map snd (ps k)) /\ NoDup (map fst (ps k)) /\
    (forall i j, In (i, j) (ps k) -> i < length (level edges k) /\ j < length (level edges (S k)) /\
       (filtered edges -> (edge_weight (level edges k) i <= edge_weight (level edges (S k)) j)%Z)).
Proof.
  intros past_end dim eps edges tab C L H. destruct (fp_pairs past_end dim eps edges tab C L H) as (ds & ps & t' & E & Q).
  exists ds, ps, t'. split; auto. intros k Hk. destruct (Q k Hk) as (Q1 & Q2 & Q3 & _). auto.
Qed.
Print Assumptions C19_reduction_pairs_rows_and_columns_once.

(* With libstdc++'s lists the run ends without any condition on the complex. *)
Theorem C19_libstdcxx_always_ends :
  forall (dim eps : Z) (edges : wgraph) tab, complex edges -> 2 <= length edges ->
  exists deaths piv ps tab', fp_run libstdcxx_past_end dim eps edges tab =
    Ok (Some (map (fun w => (0, 0%Z, w)) deaths ++ [(0, 0%Z, eps)] ++ all_bars edges 1 (dims dim edges) ps, tab')) /\
  negative edges 1 (piv 1) /\
  forall k, 1 <= k <= dims dim edges ->
    piv (S k) = map snd (ps k) /\
    pairing (map (boundary_without (libstdcxx_skip (piv k) (length (level edges k))) (simplices edges k)) (simplices edges (S k))) (ps k) /\
    (forall i j, In (i, j) (ps k) -> i < length (level edges k) /\ j < length (level edges (S k)) /\
       (filtered edges -> (edge_weight (level edges k) i <= edge_weight (level edges (S k)) j)%Z)).
Proof. exact libstdcxx_pairs. Qed.
Print Assumptions C19_libstdcxx_always_ends.

Theorem C19_bars_are_born_before_they_die :
  forall past_end (dim eps : Z) (edges : wgraph) tab lines tab', complex edges -> filtered edges ->
  (past_end = libstdcxx_past_end \/
   forall k p, 1 <= k < 1 + dims dim edges -> negative edges k p -> harmless past_end p (length (level edges k))) ->
  fp_run past_end dim eps edges tab = Ok (Some (lines, tab')) ->
  forall d b e, In (d, b, e) lines -> 1 <= d -> (b < e)%Z.
Proof. exact bars_ordered. Qed.
Print Assumptions C19_bars_are_born_before_they_die.

Lemma far_harmless p n : n <= 1000 -> harmless far p n.
Proof. intros L _. exists 1000. split; auto. intros i Hi _. lia. Qed.

Example C19_ex : complex sq /\ filtered sq /\ 2 <= length sq /\ dims 3 sq = 2 /\
  (forall k p, 1 <= k < 3 -> negative sq k p -> harmless far p (length (level sq k))) /\
  exists lines tab', fp_run far 3 5 sq [] = Ok (Some (lines, tab')) /\ In (1, 1%Z, 2%Z) lines.
Proof.
  split; [apply sq_good|]. split; [apply sq_good|]. split; [cbn; lia|]. split; [reflexivity|]. split.
  - intros k p Hk _. apply far_harmless. assert (Hc : k = 1 \/ k = 2) by lia. destruct Hc as [-> | ->]; cbn; lia.
  - do 2 eexists. split; [vm_compute; reflexivity|]. cbn. tauto.
Qed.

(* ---------------------------------------------------------------- C20 *)
(* A column is paired iff its boundary is no combination of the boundaries before it; the number of pairs, up to any
   scale, is the rank of the boundary matrix. *)
Theorem C20_pairs_count_the_rank :
  forall past_end (dim eps : Z) (edges : wgraph) tab,
  complex edges -> 2 <= length edges ->
  (forall k p, 1 <= k < 1 + dims dim edges -> negative edges k p -> harmless past_end p (length (level edges k))) ->
  exists deaths ps tab', fp_run past_end dim eps edges tab =
    Ok (Some (map (fun w => (0, 0%Z, w)) deaths ++ [(0, 0%Z, eps)] ++ all_bars edges 1 (dims dim edges) ps, tab')) /\
  forall k, 1 <= k <= dims dim edges ->
    increasing (map snd (ps k)) /\ NoDup (map fst (ps k)) /\
    (forall i j, In (i, j) (ps k) -> i < length (level edges k) /\ j < length (level edges (S k)) /\
       (filtered edges -> (edge_weight (level edges k) i <= edge_weight (level edges (S k)) j)%Z)) /\
    (forall j, In j (map snd (ps k)) <-> fresh (bmatrix edges (S k)) j) /\
    rank (bmatrix edges (S k)) (length (ps k)) /\
    (filtered edges -> forall t, rank (bmatrix (at_scale t edges) (S k))
       (length (filter (fun p => (edge_weight (level edges (S k)) (snd p) <=? t)%Z) (ps k)))).
Proof. exact fp_pairs. Qed.
Print Assumptions C20_pairs_count_the_rank.

Example C20_ex : bmatrix sq 2 = [[0;1;4];[2;3;4];[0;2;5];[1;3;5]] /\ rank (bmatrix sq 2) 3 /\
  fresh (bmatrix sq 2) 2 /\ ~ fresh (bmatrix sq 2) 3.
Proof.
  split; [reflexivity|]. assert (F : forall j, In j [0;1;2] <-> fresh (bmatrix sq 2) j).
  { assert (Hs : forall j phi, nth_error (bmatrix sq 2) j <> None -> forallb (fun c => negb (dot phi c)) (firstn j (bmatrix sq 2)) = true ->
      dot phi (nth j (bmatrix sq 2) []) = true -> fresh (bmatrix sq 2) j).
    { intros j phi N H1 H2. destruct (nth_error (bmatrix sq 2) j) as [x|] eqn:E; [|easy]. exists x. split; auto.
      rewrite (nth_error_nth _ _ _ E) in H2. now apply (not_combination phi). }
    intros j. split.
    - intros [<-|[<-|[<-|[]]]]; [apply (Hs 0 [0])|apply (Hs 1 [3])|apply (Hs 2 [5])]; (discriminate || reflexivity).
    - intros (x & E & N). destruct j as [|[|[|[|j]]]]; cbn; auto.
      + exfalso. apply N. cbn in E. injection E as <-. exists [[0;1;4];[2;3;4];[0;2;5]]. split; [apply incl_refl|].
        intros i. do 6 (destruct i as [|i]; [reflexivity|]). reflexivity.
      + destruct j; discriminate. }
  split; [|split; [apply F; cbn; auto|intros K; apply F in K; cbn in K; lia]].
  apply (LinearProofs.fresh_rank _ [0;1;2]); auto. repeat constructor.
Qed.

(* ---------------------------------------------------------------- C21 *)
(* Six points for which a loop is born at 11 and is still no boundary at 15 (it dies at 16), while the bars reported
   are (11,15) and (15,16): the pairing is not that of persistent homology. *)
Definition six_dm : list (list Z) :=
  [[0;10;16;16;13;10];[10;0;11;14;16;17];[16;11;0;14;17;11];[16;14;14;0;16;15];[13;16;17;16;0;18];[10;17;11;15;18;0]]%Z.
Definition six_ops : list al_op := repeat (OpInsert false) 6 ++ [OpExpand 2; OpExpand 3].

Theorem C21_bars_are_not_persistent_homology_refuted :
  exists wg lines tab', al_run six_dm 20 2 six_ops = Ok wg /\
  let edges := getAllEdges wsort wg 20 in
  fp_run libstdcxx_past_end 2 20 edges [] = Ok (Some (lines, tab')) /\
  fp_run far 2 20 edges [] = Ok (Some (lines, tab')) /\
  survives edges 1 11 15 /\ ~ covered 1 11 15 lines.
Proof.
  do 3 eexists. split; [vm_compute; reflexivity|]. intros edges. split; [vm_compute; reflexivity|]. split; [vm_compute; reflexivity|].
  split.
  - exists [0;1;2;3]. split; [split|].
    + intros i [<-|[<-|[<-|[<-|[]]]]]; (split; [vm_compute; lia|vm_compute; discriminate]).
    + intros k. do 6 (destruct k as [|k]; [reflexivity|]). reflexivity.
    + unfold bounds. apply (not_combination [0]); reflexivity.
  - intros (b & e & H & H1 & H2). cbn in H. repeat destruct H as [H|H]; try discriminate H; try (injection H as <- <-; lia); try destruct H.
Qed.
Print Assumptions C21_bars_are_not_persistent_homology_refuted.

(* With libstdc++ even the full square is wrong: its loop (alive from 1 to 2) is lost and a bar of dimension 2 is
   reported although no sum of triangles present at scale 2 has zero boundary. *)
Theorem C21_libstdcxx_loses_the_loop_of_a_square_refuted :
  exists wg lines tab', al_run sq_dm 5 2 sq_ops = Ok wg /\
  let edges := getAllEdges wsort wg 5 in
  fp_run libstdcxx_past_end 3 5 edges [] = Ok (Some (lines, tab')) /\
  survives edges 1 1 1 /\ (forall b e, ~ In (1, b, e) lines) /\
  In (2, 2%Z, 3%Z) lines /\ (forall z, NoDup z -> cycle edges 2 2 z -> z = []).
Proof.
  do 3 eexists. split; [vm_compute; reflexivity|]. intros edges. split; [vm_compute; reflexivity|].
  split; [|split; [|split]].
  - exists [0;1;2;3]. split; [split|].
    + intros i [<-|[<-|[<-|[<-|[]]]]]; (split; [vm_compute; lia|vm_compute; discriminate]).
    + intros k. do 6 (destruct k as [|k]; [reflexivity|]). reflexivity.
    + unfold bounds. apply (not_combination [0]); reflexivity.
  - intros b e H. cbn in H. repeat destruct H as [H|H]; try discriminate H; try destruct H.
  - cbn. tauto.
  - intros z N [H1 H2]. assert (Hz : forall i, In i z -> i = 0 \/ i = 1).
    { intros i Hi. destruct (H1 i Hi) as [L W]. destruct i as [|[|[|[|i]]]]; auto; exfalso; [| |vm_compute in L; lia]; vm_compute in W; now apply W. }
    destruct z as [|a [|b [|c z]]]; auto; exfalso.
    + destruct (Hz a) as [-> | ->]; [now left|specialize (H2 0)|specialize (H2 2)]; vm_compute in H2; discriminate.
    + inversion N as [|? ? N1 N2]; subst.
      destruct (Hz a) as [-> | ->]; [now left| |]; (destruct (Hz b) as [-> | ->]; [right; now left| |]);
        try (apply N1; now left); specialize (H2 0); vm_compute in H2; discriminate.
    + inversion N as [|? ? N1 N2]; subst. inversion N2 as [|? ? N3 N4]; subst.
      assert (Ha := Hz a (or_introl eq_refl)). assert (Hb := Hz b (or_intror (or_introl eq_refl))). assert (Hc := Hz c (or_intror (or_intror (or_introl eq_refl)))).
      cbn in N1, N3. intuition lia.
Qed.
Print Assumptions C21_libstdcxx_loses_the_loop_of_a_square_refuted.

(* ---------------------------------------------------------------- C22 *)
(* The faces of a column: undefined iff some row follows the last pivot, otherwise exactly the non-pivot faces. *)
Theorem C22_row_loop_defined_iff_no_row_after_the_last_pivot :
  forall pivots (rows : list wsimp) column,
  increasing pivots -> increasing column -> Forall (fun r => increasing (fst r)) rows ->
  (reads_past_end pivots (length rows) -> cofaceList (fun _ _ => UB) pivots rows column = UB) /\
  (~ reads_past_end pivots (length rows) -> forall past_end,
     cofaceList past_end pivots rows column = Ok (boundary_without pivots (map fst rows) column)).
Proof. exact cofaceList_defined. Qed.
Print Assumptions C22_row_loop_defined_iff_no_row_after_the_last_pivot.

(* The whole run is undefined iff there is only one level, or in some dimension with columns a k-simplex follows the
   last k-simplex that ends a class. *)
Theorem C22_run_undefined_iff :
  forall (dim eps : Z) (edges : wgraph) tab, complex edges ->
  (fp_run (fun _ _ => UB) dim eps edges tab = UB <->
   length edges = 1 \/ exists k piv, 1 <= k <= dims dim edges /\ level edges (S k) <> [] /\ negative edges k piv /\
                                     reads_past_end piv (length (level edges k))).
Proof. exact fp_ub. Qed.
Print Assumptions C22_run_undefined_iff.

(* libstdc++ reads the list's size: harmless unless the pivots are exactly the first rows, and then one row too many
   is left out. *)
Theorem C22_libstdcxx_reads_the_size :
  forall pivots, increasing pivots ->
  (forall n, harmless libstdcxx_past_end pivots n <-> ~ (pivots = seq 0 (length pivots) /\ length pivots < n)) /\
  (forall (rows : list wsimp) column, increasing column -> Forall (fun r => increasing (fst r)) rows ->
     cofaceList libstdcxx_past_end pivots rows column =
       Ok (boundary_without (libstdcxx_skip pivots (length rows)) (map fst rows) column)).
Proof.
  intros pivots Sp. split.
  - intros n. now apply libstdcxx_harmless.
  - intros. now apply libstdcxx_cofaces.
Qed.
Print Assumptions C22_libstdcxx_reads_the_size.

Example C22_ex : reads_past_end [0;1;2] 6 /\ ~ reads_past_end [0;1;5] 6 /\ complex sq /\
  fp_run (fun _ _ => UB) 2 5 sq [] = UB /\
  libstdcxx_skip [0;1;2] 6 = [0;1;2;3] /\
  cofaceList libstdcxx_past_end [0;1;2] (level sq 1) [0;2;3] = Ok [4] /\
  boundary_without [0;1;2] (map fst (level sq 1)) [0;2;3] = [3;4].
Proof.
  split; [exists 3; split; [lia|cbn; intuition lia]|]. split.
  { intros (i & Hi & H). assert (5 < i) by (apply H; cbn; auto). lia. }
  split; [apply sq_good|]. repeat split; vm_compute; reflexivity.
Qed.

(* ---------------------------------------------------------------- C23 *)
Theorem C23_bars_start_and_end_at_simplices :
  forall past_end (dim eps : Z) (edges : wgraph) tab lines tab',
  fp_run past_end dim eps edges tab = Ok (Some (lines, tab')) ->
  forall d b e, In (d, b, e) lines -> 1 <= d ->
  d <= dims dim edges /\ b <> e /\
  (exists s, In (s, b) (level edges d)) /\ (exists s, In (s, e) (level edges (S d))).
Proof.
  intros past_end dim eps edges tab lines tab' H d b e Hi Hd.
  destruct (fp_any _ _ _ _ _ _ _ H) as (new & newt & _ & -> & _ & _ & Q).
  apply in_app_iff in Hi as [Hi|Hi]; [apply in_map_iff in Hi as (w & E & _); injection E as <- _ _; lia|].
  apply in_app_iff in Hi as [[E|[]]|Hi]; [injection E as <- _ _; lia|].
  destruct (Q _ Hi) as [Q1 (Q2 & Q3 & Q4)]. cbn in Q1. split; [lia|]. split; auto.
  apply in_map_iff in Q3 as ([s1 w1] & <- & Q3), Q4 as ([s2 w2] & <- & Q4). eauto.
Qed.
Print Assumptions C23_bars_start_and_end_at_simplices.

(* A hollow square has a class of dimension 1, and nothing reports it. *)
Theorem C23_essential_classes_are_not_reported_refuted :
  exists wg, al_run sq_dm 1 2 (repeat (OpInsert false) 4 ++ [OpExpand 2; OpExpand 3]) = Ok wg /\
  let edges := getAllEdges wsort wg 1 in
  survives edges 1 1 1 /\
  forall past_end eps tab, exists lines tab', fp_run past_end 2 eps edges tab = Ok (Some (lines, tab')) /\
    forall d b e, In (d, b, e) lines -> d = 0.
Proof.
  eexists. split; [vm_compute; reflexivity|]. intros edges. split.
  - exists [0;1;2;3]. split; [split|].
    + intros i [<-|[<-|[<-|[<-|[]]]]]; (split; [vm_compute; lia|vm_compute; discriminate]).
    + intros k. do 5 (destruct k as [|k]; [reflexivity|]). reflexivity.
    + unfold bounds. apply (not_combination [0]); reflexivity.
  - intros past_end eps tab. do 2 eexists. split; [reflexivity|].
    intros d b e H. cbn in H. repeat destruct H as [H|H]; try (injection H; intros; congruence); try destruct H.
Qed.
Print Assumptions C23_essential_classes_are_not_reported_refuted.

Example C23_ex : exists lines tab', fp_run libstdcxx_past_end 3 5 sq [] = Ok (Some (lines, tab')) /\
  In (2,2%Z,3%Z) lines /\ In ([0;2;3],2%Z) (level sq 2) /\ In ([0;1;2;3],3%Z) (level sq 3).
Proof.
  do 2 eexists. split; [vm_compute; reflexivity|]. cbn. tauto.
Qed.

(* ---------------------------------------------------------------- C53 *)
(* The printed bars of dimension 0 and the betti table differ: the table has no entry for a merging edge none of whose
   vertices is in an earlier edge. *)
Theorem C53_table_omits_edges_that_start_a_component :
  forall past_end (dim eps : Z) (edges : wgraph) tab lines tab',
  complex edges -> fp_run past_end dim eps edges tab = Ok (Some (lines, tab')) ->
  exists piv, dim0 lines = map (fun i => (0, 0%Z, edge_weight (level edges 1) i)) piv ++ [(0, 0%Z, eps)] /\
    exists new rest, tab' = tab ++ new ++ rest /\
      map (fun b => (UtilsModel.bettiDim b, UtilsModel.birth b, UtilsModel.death b)) new =
        map (fun i => (0, 0%Z, edge_weight (level edges 1) i)) (filter (touches (level edges 1)) piv) ++ [(0, 0%Z, eps)] /\
      map (fun b => (UtilsModel.bettiDim b, UtilsModel.birth b, UtilsModel.death b)) rest =
        filter (fun l => negb (fst (fst l) =? 0)) lines.
Proof. exact dim0_table. Qed.
Print Assumptions C53_table_omits_edges_that_start_a_component.

Example C53_ex : complex sq /\ touches (level sq 1) 0 = false /\ touches (level sq 1) 1 = true /\
  exists lines tab', fp_run libstdcxx_past_end 2 5 sq [] = Ok (Some (lines, tab')) /\ length lines = 4 /\ length tab' = 3.
Proof.
  split; [apply sq_good|]. split; [reflexivity|]. split; [reflexivity|]. do 2 eexists. split; [vm_compute; reflexivity|]. split; reflexivity.
Qed.

(* ---------------------------------------------------------------- C54 *)
Theorem C54_isolated_points_are_undefined :
  forall (dm : list (list Z)) (eps maxDimension : Z) (ops : list al_op) (wg : wgraph) srt epsilon past_end dim e tab,
  matrix_covers dm ops -> al_run dm eps maxDimension ops = Ok wg -> is_sort srt -> 0 < live ops ->
  (forall j i, j < i -> i < live ops -> (eps < dist_of dm j i)%Z) ->
  fp_run past_end dim e (getAllEdges srt wg epsilon) tab = UB.
Proof. exact isolated_points. Qed.
Print Assumptions C54_isolated_points_are_undefined.

Example C54_ex : matrix_covers sq_dm sq_ops /\ live sq_ops = 4 /\ (forall j i, j < i -> i < 4 -> (0 < dist_of sq_dm j i)%Z) /\
  exists wg, al_run sq_dm 0 2 sq_ops = Ok wg /\ fp_run libstdcxx_past_end 2 0 (getAllEdges wsort wg 0) [] = UB.
Proof.
  split; [apply sq_covers|]. split; [reflexivity|]. split.
  - intros j i Hj Hi. assert (Hc : (j = 0 \/ j = 1 \/ j = 2) /\ (i = 1 \/ i = 2 \/ i = 3)) by lia.
    destruct Hc as [[->|[->| ->]] [->|[->| ->]]]; try lia; cbn; lia.
  - eexists. split; vm_compute; reflexivity.
Qed.

(* ---------------------------------------------------------------- C55 *)
(* Although the bars are not the persistent ones (C21), they count: never more bars alive than the Betti number, and
   exactly as many at every scale iff no class survives to the end. *)
Theorem C55_betti_curve :
  forall past_end (dim eps : Z) (edges : wgraph) tab lines tab' d, complex edges -> filtered edges ->
  (forall k p, 1 <= k < 1 + dims dim edges -> negative edges k p -> harmless past_end p (length (level edges k))) ->
  fp_run past_end dim eps edges tab = Ok (Some (lines, tab')) -> 1 <= d <= dims dim edges ->
  (forall t, exists b, betti (at_scale t edges) d b) /\
  (forall t b, betti (at_scale t edges) d b -> alive d t lines <= b) /\
  ((forall t b, betti (at_scale t edges) d b -> alive d t lines = b) <-> betti edges d 0).
Proof. exact betti_curve. Qed.
Print Assumptions C55_betti_curve.

Example C55_ex : complex sq /\ filtered sq /\ dims 2 sq = 1 /\
  (forall k p, 1 <= k < 2 -> negative sq k p -> harmless far p (length (level sq k))) /\
  exists lines tab', fp_run far 2 5 sq [] = Ok (Some (lines, tab')) /\ alive 1 1 lines = 1 /\ alive 1 2 lines = 0.
Proof.
  split; [apply sq_good|]. split; [apply sq_good|]. split; [reflexivity|]. split.
  - intros k p Hk _. apply far_harmless. assert (Hc : k = 1) by lia. subst k. cbn; lia.
  - do 2 eexists. split; [vm_compute; reflexivity|]. split; reflexivity.
Qed.

(* ---------------------------------------------------------------- the complexes meet the hypotheses *)
(* What the array list and a fresh simplex tree return from getAllEdges is a filtered complex. *)
Theorem C11_getAllEdges_is_a_filtered_complex :
  forall (dm : list (list Z)) (eps maxDimension : Z) (ops : list al_op) (wg : wgraph) srt epsilon,
  matrix_covers dm ops -> al_run dm eps maxDimension ops = Ok wg -> is_sort srt ->
  complex (getAllEdges srt wg epsilon) /\ filtered (getAllEdges srt wg epsilon).
Proof. exact array_list_filtered. Qed.
Print Assumptions C11_getAllEdges_is_a_filtered_complex.

Theorem C51_first_getAllEdges_is_a_filtered_complex :
  forall (eps maxDimension : Z) (dm : list (list Z)) (nc0 : Z) n srt t,
  is_sort srt -> dm <> [] -> upper_triangle dm n ->
  TreeModel.st_run eps maxDimension (Ok tt) srt (TreeModel.st_new dm nc0) (repeat TreeModel.TInsert n) = Ok t ->
  complex (fst (TreeModel.st_getAllEdges srt t)) /\ filtered (fst (TreeModel.st_getAllEdges srt t)).
Proof. exact tree_filtered. Qed.
Print Assumptions C51_first_getAllEdges_is_a_filtered_complex.
