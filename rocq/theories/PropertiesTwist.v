(* PropertiesTwist.v -- property theorems about the reductions of optPersistencePairs on an indSimplexTree. *)
From Coq Require Import List Arith ZArith Bool Lia Sorted Permutation.
From Verif Require Import Base Spec RunMonad ArrayListModel SpecComplex TreeModel SpecTree SpecLinear SpecFast GaussModel SpecGauss IndModel SpecInd
  TwistModel TwistProofs SpecTwist TwistRuns PropertiesComplex PropertiesTree PropertiesInd.
Import ListNotations.
Local Open Scope nat_scope.

(* ---------------------------------------------------------------- C71 *)
(* The incremental reduction by itself is right: it ends, and its pivots are the columns that are not sums of earlier
   ones, for any boundary sets, whatever order the rows are filled in. *)
Theorem C71_incremental_reduction :
  forall (faces_of : list nat -> res (list nat)) (chain : list wsimp) (rows : nat) (F : list nat -> list nat),
  (forall s w, In (s, w) chain -> faces_of s = Ok (F s) /\ F s <> [] /\ increasing (F s) /\ forall x, In x (F s) -> x < rows) ->
  exists piv fs, tw_columns faces_of [] rows chain = ret (piv, fs) /\
    forall j, In j piv <-> fresh (map (fun s => F (fst s)) chain) j.
Proof. exact incremental. Qed.
Print Assumptions C71_incremental_reduction.

(* On the tree, where find returns a bool, the pivots are, in each dimension, the first simplex that has the first
   simplex of the dimension below as a face, and the first that has not. *)
Theorem C71_twist_pivots :
  forall (eps maxDimension : Z) (dm : list (list Z)) (nc0 : Z) (srt : list wsimp -> list wsimp) (ops : list ind_op) (t : itree),
  is_sort srt -> ilegal dm ops -> ~ In IGetAll ops -> ind_run eps maxDimension srt (ind_new dm nc0) ops = Ok t ->
  let edges := fst (ind_getAllEdges srt t) in
  let t' := snd (ind_getAllEdges srt t) in
  forall dim, dim < length edges ->
  exists ps, tw_pivots (ind_find t') dim edges = ret ps /\ increasing ps /\
    forall g, In g ps <-> exists d j, 1 <= d <= dim /\ leader edges d j /\
      g = first_number edges d + j + (length (concat edges) - first_number edges (S dim)).
Proof. exact ind_twist_pivots. Qed.
Print Assumptions C71_twist_pivots.

(* Without twist: never more than two pivots in a dimension. *)
Theorem C71_sets_pivots :
  forall (eps maxDimension : Z) (dm : list (list Z)) (nc0 : Z) (srt : list wsimp -> list wsimp) (ops : list ind_op) (t : itree),
  is_sort srt -> ilegal dm ops -> ~ In IGetAll ops -> ind_run eps maxDimension srt (ind_new dm nc0) ops = Ok t ->
  let edges := fst (ind_getAllEdges srt t) in
  let t' := snd (ind_getAllEdges srt t) in
  forall dim, dim < length edges ->
  exists ps, sets_pivots (ind_find t') dim edges = Ok ps /\ increasing ps /\ length ps <= 2 * dim /\
    forall g, In g ps -> exists d j, 1 <= d <= dim /\ j < length (level edges d) /\
      g = first_number edges d + j + (length (concat edges) - first_number edges (S dim)).
Proof. exact ind_sets_pivots. Qed.
Print Assumptions C71_sets_pivots.

(* With twist a run for dimensions >= 1 always has undefined behaviour, on this tree and on every other complex. *)
Theorem C71_twist_undefined :
  forall (eps maxDimension : Z) (dm : list (list Z)) (nc0 : Z) (srt : list wsimp -> list wsimp) (ops : list ind_op) (t : itree),
  is_sort srt -> ilegal dm ops -> ~ In IGetAll ops -> ind_run eps maxDimension srt (ind_new dm nc0) ops = Ok t ->
  forall (dimensions epsilon : Z), (1 <= dimensions)%Z ->
  opt_ind_run true dimensions epsilon srt t = Some UB /\ opt_twist_other dimensions epsilon = Some UB.
Proof. intros. split; [eapply ind_twist_run; eauto|now apply twist_other_ub]. Qed.
Print Assumptions C71_twist_undefined.

(* Without twist there is one exception: dimensions = 1 and a single edge, not at vertex 0.  Then every point is
   reported as a class that lives up to epsilon, although two of them are joined. *)
Theorem C71_sets_run :
  forall (eps maxDimension : Z) (dm : list (list Z)) (nc0 : Z) (srt : list wsimp -> list wsimp) (ops : list ind_op) (t : itree),
  is_sort srt -> ilegal dm ops -> ~ In IGetAll ops -> ind_run eps maxDimension srt (ind_new dm nc0) ops = Ok t ->
  let p := ipast_of dm ops in
  let lone_edge := exists u v, 0 < u /\
    forall s, length s = 2 -> (simplex_of (q_dm p) eps maxDimension (q_points p) s <-> s = [u; v]) in
  forall (dimensions epsilon : Z), (1 <= dimensions)%Z ->
  (dimensions = 1%Z /\ lone_edge -> opt_ind_run false dimensions epsilon srt t = ret (repeat (0, 0%Z, epsilon) (q_points p))) /\
  (~ (dimensions = 1%Z /\ lone_edge) -> opt_ind_run false dimensions epsilon srt t = Some UB).
Proof. intros. now apply ind_sets_run with (nc0 := nc0). Qed.
Print Assumptions C71_sets_run.

Theorem C71_dimension_zero :
  forall (eps maxDimension : Z) (dm : list (list Z)) (nc0 : Z) (srt : list wsimp -> list wsimp) (ops : list ind_op) (t : itree),
  is_sort srt -> ilegal dm ops -> ~ In IGetAll ops -> ind_run eps maxDimension srt (ind_new dm nc0) ops = Ok t ->
  forall (twist : bool) (epsilon : Z), opt_ind_run twist 0 epsilon srt t = ret [].
Proof. intros. eapply ind_zero_run; eauto. Qed.
Print Assumptions C71_dimension_zero.

(* A triangle with a tail: the pivots with twist are 4, 6 and 8, the right ones 4, 5, 7 and 8; three points with one edge
   [1;2]: three classes that never die; and the incremental reduction on boundary sets that are right. *)
Definition lone_dm : list (list Z) := [[0;9;9];[9;0;1];[9;1;0]]%Z.
Definition table_faces (s : list nat) : res (list nat) :=
  match s with [0;1] => Ok [0;1] | [0;2] => Ok [0;2] | [1;2] => Ok [1;2] | [2;3] => Ok [2;3] | _ => UB end.
Example C71_ex :
  ilegal ex_dm (repeat IInsert 4) /\ ~ In IGetAll (repeat IInsert 4) /\ is_sort wsort /\
  (exists t, ind_run 6 2 wsort (ind_new ex_dm 0) (repeat IInsert 4) = Ok t /\
     let edges := fst (ind_getAllEdges wsort t) in
     2 < length edges /\ tw_pivots (ind_find (snd (ind_getAllEdges wsort t))) 2 edges = ret [4; 6; 8] /\
     opt_pivots 2 edges = Ok [4; 5; 7; 8] /\ opt_ind_run true 1 6 wsort t = Some UB /\ opt_ind_run false 1 6 wsort t = Some UB) /\
  ilegal lone_dm (repeat IInsert 3) /\
  (exists t, ind_run 2 2 wsort (ind_new lone_dm 0) (repeat IInsert 3) = Ok t /\
     opt_ind_run false 1 2 wsort t = ret (repeat (0, 0%Z, 2%Z) 3)) /\
  exists fs, tw_columns table_faces [] 4 [([0;1],3%Z);([0;2],4%Z);([1;2],5%Z);([2;3],5%Z)] = ret ([0; 1; 3], fs).
Proof.
  split; [apply ilegal_inserts; [apply ex_upper|easy]|]. split; [intros H; apply repeat_spec in H; discriminate|]. split; [exact wsort_is_sort|].
  split. { eexists. split; [vm_compute; reflexivity|]. cbn zeta. split; [vm_compute; lia|]. repeat (split; [vm_compute; reflexivity|]). vm_compute. reflexivity. }
  split. { apply ilegal_inserts; [|easy]. intros n Hn j i Hj Hi. assert (Hc : (j = 0 \/ j = 1) /\ (i = 1 \/ i = 2)) by lia.
    destruct Hc as [[->| ->] [->| ->]]; try lia; cbn; lia. }
  split; [eexists; split; vm_compute; reflexivity|]. eexists. vm_compute. reflexivity.
Qed.
