(* PropertiesGauss.v -- property theorems about boundaryPipe, persistencePairs and optPersistencePairs. *)
From Coq Require Import List Arith ZArith Bool Lia Sorted.
From Verif Require Import Base Spec ArrayListModel SpecComplex SpecLinear SpecFast GaussModel SpecGauss GaussProofs GaussRuns
  FastRuns PropertiesComplex PropertiesFast.
Import ListNotations.

(* ---------------------------------------------------------------- C24 *)
(* The rank, the nullity and rows that generate the same space; but an out-of-range read iff the rows are independent. *)
Theorem C24_reduceBoundaryMatrix_rank_and_nullity :
  forall (n : nat) (m : list (list nat)), binary_matrix n m -> m <> [] ->
  exists r, rank (supports m) r /\
  ((r = length m /\ reduceBoundaryMatrix m = Some UB) \/
   (r < length m /\ exists out, reduceBoundaryMatrix m = Some (Ok (out, (Z.of_nat r, Z.of_nat n - Z.of_nat r)%Z)) /\
      length out = length m /\ same_row_space out m /\ forall x, In x (skipn r out) -> x = repeat 0 n)).
Proof. exact reduceBoundaryMatrix_spec. Qed.
Print Assumptions C24_reduceBoundaryMatrix_rank_and_nullity.

Theorem C24_reduceBoundaryMatrix_empty : reduceBoundaryMatrix [] = Some (Ok ([], (0, 0)%Z)).
Proof. reflexivity. Qed.
Print Assumptions C24_reduceBoundaryMatrix_empty.

Example C24_ex : binary_matrix 4 [[1;1;0;0];[0;1;1;0];[1;0;1;0]] /\
  reduceBoundaryMatrix [[1;1;0;0];[0;1;1;0];[1;0;1;0]] = Some (Ok ([[1;1;0;0];[0;1;1;0];[0;0;0;0]], (2, 2)%Z)) /\
  reduceBoundaryMatrix [[1;1;0;0];[0;1;1;0]] = Some UB.
Proof.
  split; [|split; reflexivity]. intros r Hr. cbn in Hr. destruct Hr as [<-|[<-|[<-|[]]]]; (split; [reflexivity|]); cbn; intuition.
Qed.

(* ---------------------------------------------------------------- C25 *)
Theorem C25_getRankNull_finds_the_fresh_rows :
  forall (n : nat) (m : list (list nat)), binary_matrix n m -> m <> [] ->
  exists js, getRankNull m = Ok js /\ increasing js /\ (forall j, In j js <-> fresh (supports m) j) /\ rank (supports m) (length js).
Proof. exact getRankNull_spec. Qed.
Print Assumptions C25_getRankNull_finds_the_fresh_rows.

Theorem C25_getRankNull_empty : getRankNull [] = UB.
Proof. reflexivity. Qed.
Print Assumptions C25_getRankNull_empty.

Example C25_ex : getRankNull [[1;1;0;0];[1;1;0;0];[0;1;1;0];[1;0;1;0];[0;0;0;1]] = Ok [0;2;4].
Proof. reflexivity. Qed.

(* ---------------------------------------------------------------- C57 *)
(* createBoundaryMatrix of persistencePairs: the simplices whose boundary does not depend on earlier boundaries. *)
Theorem C57_pivots_are_the_negative_simplices :
  forall (edges : wgraph), complex edges -> edges <> [] -> (forall d, 1 <= d < length edges -> level edges d <> []) ->
  exists ps, pp_pivots edges = Ok ps /\ increasing ps /\
    forall g, In g ps <-> exists d j, 1 <= d < length edges /\ fresh (bmatrix edges d) j /\ g = first_number edges d + j.
Proof. exact pp_pivots_spec. Qed.
Print Assumptions C57_pivots_are_the_negative_simplices.

(* The run is defined only for a complex without edges. *)
Theorem C57_run_defined_only_without_edges :
  forall (dim eps : Z) (edges : wgraph), complex edges -> (0 <= dim)%Z ->
  (2 <= length edges -> pp_run dim eps edges = UB) /\
  (length edges <= 1 -> pp_run dim eps edges = Ok (if (1 <? dim)%Z then map (fun v => (0, snd v, eps)) (level edges 0) else [])).
Proof. exact pp_run_spec. Qed.
Print Assumptions C57_run_defined_only_without_edges.

Example C57_ex : complex sq /\ (forall d, 1 <= d < length sq -> level sq d <> []) /\ pp_pivots sq = Ok [4;5;6;10;11;12;14] /\
  pp_run 2 5 sq = UB /\ pp_run 2 5 (firstn 1 sq) = Ok (repeat (0, 0%Z, 5%Z) 4).
Proof.
  split; [apply sq_good|]. split.
  - intros d Hd. cbn in Hd. assert (Hc : d = 1 \/ d = 2 \/ d = 3) by lia. destruct Hc as [->|[->| ->]]; discriminate.
  - repeat split; vm_compute; reflexivity.
Qed.

(* ---------------------------------------------------------------- C58 *)
(* optPersistencePairs clears rows and still finds the same simplices, but its numbering is off by the number of
   simplices above dimension dim. *)
Theorem C58_clearing_keeps_the_pivots :
  forall (dim : nat) (edges : wgraph), complex edges -> dim < length edges -> (forall d, 1 <= d <= dim -> level edges d <> []) ->
  exists ps, opt_pivots dim edges = Ok ps /\ increasing ps /\
    forall g, In g ps <-> exists d j, 1 <= d <= dim /\ fresh (bmatrix edges d) j /\
      g = first_number edges d + j + (length (concat edges) - first_number edges (S dim)).
Proof. exact opt_pivots_spec. Qed.
Print Assumptions C58_clearing_keeps_the_pivots.

Theorem C58_run_never_defined :
  forall (dim eps : Z) (edges : wgraph), complex edges ->
  ((1 <= dim)%Z -> opt_run dim eps edges = UB) /\ (dim = 0%Z -> opt_run dim eps edges = Ok []).
Proof. exact opt_run_spec. Qed.
Print Assumptions C58_run_never_defined.

Example C58_ex : complex sq /\ opt_pivots 3 sq = Ok [4;5;6;10;11;12;14] /\ opt_pivots 2 sq = Ok [5;6;7;11;12;13] /\
  opt_run 2 5 sq = UB.
Proof. split; [apply sq_good|]. repeat split; vm_compute; reflexivity. Qed.

(* ---------------------------------------------------------------- C59 *)
(* The variant on sets only looks at row numbers below the number of columns. *)
Theorem C59_set_variant_ignores_large_rows :
  forall (m : list (list nat)), Forall increasing m ->
  let js := fst (opt_getRankNull_sets m) in
  increasing js /\ forall j, In j js <-> fresh (map (filter (fun c => c <? length m)) m) j.
Proof. exact sets_spec. Qed.
Print Assumptions C59_set_variant_ignores_large_rows.

Theorem C59_set_variant_complete_when_rows_are_few :
  forall (m : list (list nat)), Forall increasing m -> (forall s x, In s m -> In x s -> x < length m) ->
  forall j, In j (fst (opt_getRankNull_sets m)) <-> fresh m j.
Proof. exact sets_complete. Qed.
Print Assumptions C59_set_variant_complete_when_rows_are_few.

Theorem C59_set_variant_misses_pivots :
  exists m, Forall increasing m /\ fresh m 1 /\ ~ In 1 (fst (opt_getRankNull_sets m)).
Proof.
  exists [[0;1];[2;3]]. split; [repeat constructor; lia|]. split; [|vm_compute; intros [H|[]]; discriminate].
  exists [2;3]. split; [reflexivity|]. cbn. intros (l & I & H).
  assert (K : forall l, incl l [[0;1]] -> sum_coord l 2 = false).
  { clear. induction l as [|x l IH]; intros I; auto. unfold sum_coord in *. cbn [fold_right]. rewrite IH by (intros y Hy; apply I; now right).
    destruct (I x (or_introl eq_refl)) as [<-|[]]. reflexivity. }
  specialize (H 2). rewrite (K l I) in H. discriminate.
Qed.
Print Assumptions C59_set_variant_misses_pivots.

Example C59_ex : Forall increasing [[0;1];[1;2];[0;2];[0;1]] /\ fst (opt_getRankNull_sets [[0;1];[1;2];[0;2];[0;1]]) = [0;1].
Proof. split; [repeat constructor; lia|reflexivity]. Qed.

(* ---------------------------------------------------------------- C60 *)
Theorem C60_boundary_pipe_never_defined :
  forall (dim : Z) (weights : list Z), bd_run dim weights = if (dim =? 0)%Z then Ok [] else UB.
Proof. exact bd_run_spec. Qed.
Print Assumptions C60_boundary_pipe_never_defined.

Example C60_ex : bd_run 1 [0;1;2]%Z = UB /\ bd_run 0 [0;1;2]%Z = Ok [].
Proof. split; reflexivity. Qed.
