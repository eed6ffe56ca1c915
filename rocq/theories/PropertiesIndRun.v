(* PropertiesIndRun.v -- property theorems about whole runs on an indSimplexTree. *)
From Coq Require Import String List Arith ZArith Bool Lia Sorted Permutation.
From Verif Require Import Base Spec ArgModel SpecArgs ArrayListModel TreeModel FastModel IndModel PipeModel
  SpecComplex SpecTree SpecGraph SpecFast SpecPipe SpecIndRun PipeRuns IndRuns PropertiesComplex PropertiesPipe.
Import ListNotations.
Local Open Scope nat_scope.
Local Open Scope list_scope.

(* ---------------------------------------------------------------- C82 *)
(* Without collapse the run analyses the same complex as on a simplexTree, unless -d is 3 or more and four points are
   pairwise closer than epsilon: then it writes out of range. *)
Theorem C82_run_without_collapse :
  forall dist atoi atof srt past_end nc0 al_reduce other args d e data,
  is_sort srt -> (forall x, In x data -> x <> []) -> (forall x y, (0 <= dist x y)%Z) -> (0 < atoi d < 2 ^ 31 - 1)%Z ->
  ind_options args d e false ->
  (has_tetrahedron dist data (atoi d) (atof e) -> run_program dist atoi atof srt past_end nc0 al_reduce other args data = UB) /\
  (~ has_tetrahedron dist data (atoi d) (atof e) ->
   exists edges finish, complex edges /\ filtered edges /\
    lists_rips (separation dist data) (close Tree (atof e)) (length data) (Z.to_nat (atoi d)) edges /\
    run_program dist atoi atof srt past_end nc0 al_reduce other args data =
      (do r <- fp_run past_end (atoi d) (atof e) edges []; Ok (Some (finish r, []))) /\
    forall r, (pk_output (finish r), pk_table (finish r)) = result r /\ pk_data (finish r) = data).
Proof. exact ind_run_edges. Qed.
Print Assumptions C82_run_without_collapse.

(* Then the bars of dimension 0 are the single-linkage merge heights. *)
Theorem C82_dim0_bars_are_single_linkage_heights :
  forall dist atoi atof srt past_end nc0 al_reduce other args d e data,
  is_sort srt -> (forall x, In x data -> x <> []) -> (forall x y, (0 <= dist x y)%Z) -> (0 < atoi d < 2 ^ 31 - 1)%Z ->
  ind_options args d e false ->
  forall p failed, run_program dist atoi atof srt past_end nc0 al_reduce other args data = Ok (Some (p, failed)) -> data <> [] ->
  failed = [] /\ exists deaths, dim0 (pk_output p) = map (fun w => (0, 0%Z, w)) deaths ++ [(0, 0%Z, atof e)] /\
    forall t n, clusters dist data Tree (atof e) t n <-> count_le t deaths + n = length data.
Proof. exact ind_dim0. Qed.
Print Assumptions C82_dim0_bars_are_single_linkage_heights.

(* Which runs are defined: with libstdc++'s list exactly those on no points, and those on points of which two are close
   and, with -d 3 or more, no four are. *)
Theorem C82_run_defined :
  forall dist atoi atof srt nc0 al_reduce other args d e data,
  is_sort srt -> (forall x, In x data -> x <> []) -> (forall x y, (0 <= dist x y)%Z) -> (0 < atoi d < 2 ^ 31 - 1)%Z ->
  ind_options args d e false ->
  let some_pair := exists u v, u < v /\ v < length data /\ close Tree (atof e) (separation dist data u v) in
  (forall past_end, data <> [] -> ~ some_pair -> run_program dist atoi atof srt past_end nc0 al_reduce other args data = UB) /\
  (forall past_end, has_tetrahedron dist data (atoi d) (atof e) -> run_program dist atoi atof srt past_end nc0 al_reduce other args data = UB) /\
  (data = [] \/ some_pair -> ~ has_tetrahedron dist data (atoi d) (atof e) ->
     exists p, run_program dist atoi atof srt libstdcxx_past_end nc0 al_reduce other args data = Ok (Some (p, []))).
Proof.
  intros dist atoi atof srt nc0 al_reduce other args d e data Hs Hne Hpos Hd Hr some_pair. split; [|split].
  - intros pe. now apply (ind_defined dist atoi atof srt pe nc0 al_reduce other args d e data).
  - intros pe. now apply (ind_defined dist atoi atof srt pe nc0 al_reduce other args d e data).
  - now apply ind_ends.
Qed.
Print Assumptions C82_run_defined.

(* With collapse the run analyses what reduceComplex leaves of that complex: all vertices, everything with -d 1, and from
   -d 2 on neither the triangles that have an edge of their own nor one edge of each triangle removed. *)
Theorem C82_run_with_collapse :
  forall dist atoi atof srt past_end nc0 al_reduce other args d e data,
  is_sort srt -> (forall x, In x data -> x <> []) -> (forall x y, (0 <= dist x y)%Z) -> (0 < atoi d < 2 ^ 31 - 1)%Z ->
  ind_options args d e true ->
  (has_tetrahedron dist data (atoi d) (atof e) -> run_program dist atoi atof srt past_end nc0 al_reduce other args data = UB) /\
  (~ has_tetrahedron dist data (atoi d) (atof e) ->
   exists full edges finish,
    lists_rips (separation dist data) (close Tree (atof e)) (length data) (Z.to_nat (atoi d)) full /\
    run_program dist atoi atof srt past_end nc0 al_reduce other args data =
      (do r <- fp_run past_end (atoi d) (atof e) edges []; Ok (Some (finish r, []))) /\
    (forall r, (pk_output (finish r), pk_table (finish r)) = result r /\ pk_data (finish r) = data) /\
    length edges = length full /\
    (forall k, 0 < k -> StronglySorted by_weight (level edges k)) /\
    (exists stays, forall k, Permutation (level edges k) (filter stays (level full k))) /\
    level edges 0 = level full 0 /\
    ((atoi d < 2)%Z -> forall k, Permutation (level edges k) (level full k)) /\
    ((2 <= atoi d)%Z ->
       (forall s z, In s (simplices full 2) -> facet z s ->
          (forall s', In s' (simplices full 2) -> incl z s' -> s' = s) -> ~ In s (simplices edges 2)) /\
       (forall s, In s (simplices full 2) -> ~ In s (simplices edges 2) -> exists z, facet z s /\ ~ In z (simplices edges 1)) /\
       (forall z, In z (simplices full 1) -> ~ In z (simplices edges 1) ->
          exists s, facet z s /\ In s (simplices full 2) /\ ~ In s (simplices edges 2)))).
Proof. exact ind_collapsed. Qed.
Print Assumptions C82_run_with_collapse.

(* A run from the command line: the bars and, for every pipe, the two counts it reports. *)
Definition ind_argv (d collapse : string) : list string := ["-c"; "indSimplexTree"; "-d"; d; "-z"; collapse]%string.
Definition ind_bars dist (d collapse : string) (data : list (list Z)) : res (list (nat * Z * Z) * list (Z * Z)) :=
  do m <- parse (ind_argv d collapse);
  do r <- run_program dist digit digit wsort libstdcxx_past_end 0 (fun g => Ok g) (fun _ _ p => Ok p) (setPipeline m) data;
  match r with Some (p, _) => Ok (pk_output p, map (fun x => (snd (fst x), snd x)) (pk_stats p)) | None => Ok ([], []) end.
Example C82_ex :
  is_sort wsort /\ (forall x y, (0 <= line_dist x y)%Z) /\
  (exists m, parse (ind_argv "2" "false") = Ok m /\ ind_options (setPipeline m) "2" "5" false) /\
  (exists m, parse (ind_argv "2" "true") = Ok m /\ ind_options (setPipeline m) "2" "5" true) /\
  ind_bars line_dist "2" "false" [[0]; [1]; [3]; [9]]%Z =
    Ok ([(0, 0%Z, 1%Z); (0, 0%Z, 2%Z); (0, 0%Z, 5%Z)], [(0, 0); (8, 8); (8, 8); (8, 8)]%Z) /\
  ~ has_tetrahedron line_dist [[0]; [1]; [3]; [9]]%Z 2 5 /\
  has_tetrahedron line_dist [[0]; [1]; [2]; [3]]%Z 3 5 /\ ind_bars line_dist "3" "false" [[0]; [1]; [2]; [3]]%Z = UB.
Proof.
  split; [apply wsort_is_sort|]. split; [intros; apply Z.abs_nonneg|].
  split; [|split].
  - eexists. split; [vm_compute; reflexivity|]. constructor; try (vm_compute; (reflexivity || discriminate)).
    eexists. split; [vm_compute; reflexivity|]. split; discriminate.
  - eexists. split; [vm_compute; reflexivity|]. constructor; try (vm_compute; (reflexivity || discriminate)).
    eexists. split; [vm_compute; reflexivity|]. now left.
  - split; [vm_compute; reflexivity|]. split; [intros [H _]; lia|]. split; [|vm_compute; reflexivity].
    split; [lia|]. exists [0;1;2;3]. split; [|reflexivity]. split; [easy|]. split; [repeat constructor|]. split; [cbn; intros v Hv; lia|].
    intros u v Hu Hv Huv. cbn in Hu, Hv. assert (Hc : (u = 0 \/ u = 1 \/ u = 2) /\ (v = 1 \/ v = 2 \/ v = 3)) by lia.
    destruct Hc as [[->|[->| ->]] [->|[->| ->]]]; cbn; lia.
Qed.

(* Collapse does not keep the bars of dimension 0: of three points on a line it removes the second of the two shortest
   edges, so that a bar ends at 3 instead of 2. *)
Theorem C82_collapse_keeps_merge_heights_refuted :
  exists data,
  ind_bars line_dist "2" "false" data = Ok ([(0, 0%Z, 1%Z); (0, 0%Z, 2%Z); (0, 0%Z, 5%Z)], [(0, 0); (7, 7); (7, 7); (7, 7)]%Z) /\
  ind_bars line_dist "2" "true" data = Ok ([(0, 0%Z, 1%Z); (0, 0%Z, 3%Z); (0, 0%Z, 5%Z)], [(0, 0); (7, 7); (5, 5); (5, 5)]%Z).
Proof. exists [[0]; [1]; [3]]%Z. split; vm_compute; reflexivity. Qed.
Print Assumptions C82_collapse_keeps_merge_heights_refuted.

(* Nor the number of them: collapse can cut a connected set of points in two, and the second part has no bar that ends at
   epsilon. *)
Definition five_table : list (list Z) := [[0;3;2;4;4]; [3;0;4;4;4]; [2;4;0;3;3]; [4;4;3;0;4]; [4;4;3;4;0]]%Z.
Definition five_dist (x y : list Z) : Z := nth (Z.to_nat (hd 0%Z y)) (nth (Z.to_nat (hd 0%Z x)) five_table []) 0%Z.
Theorem C82_collapse_keeps_the_number_of_bars_refuted :
  exists data,
  (forall x y z, In x data -> In y data -> In z data ->
     (0 <= five_dist x y)%Z /\ (five_dist x y = 0%Z <-> x = y) /\ five_dist x y = five_dist y x /\ (five_dist x z <= five_dist x y + five_dist y z)%Z) /\
  (exists counts, ind_bars five_dist "2" "false" data =
     Ok ([(0, 0%Z, 2%Z); (0, 0%Z, 3%Z); (0, 0%Z, 3%Z); (0, 0%Z, 3%Z); (0, 0%Z, 5%Z)], counts)) /\
  (exists a b c counts, ind_bars five_dist "2" "true" data = Ok ([(0, 0%Z, a); (0, 0%Z, b); (0, 0%Z, c); (0, 0%Z, 5%Z)], counts)).
Proof.
  exists [[0]; [1]; [2]; [3]; [4]]%Z. split.
  - intros x y z Hx Hy Hz. cbn [In] in Hx, Hy, Hz. 
    destruct Hx as [<-|[<-|[<-|[<-|[<-|[]]]]]], Hy as [<-|[<-|[<-|[<-|[<-|[]]]]]]; (split; [vm_compute; discriminate|]);
      (split; [split; intros Q; vm_compute in Q; (discriminate Q || reflexivity)|]); (split; [reflexivity|]);
      destruct Hz as [<-|[<-|[<-|[<-|[<-|[]]]]]]; vm_compute; discriminate.
  - split; [eexists; vm_compute; reflexivity|]. do 4 eexists. vm_compute. reflexivity.
Qed.
Print Assumptions C82_collapse_keeps_the_number_of_bars_refuted.
