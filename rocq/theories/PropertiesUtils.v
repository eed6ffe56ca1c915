(* PropertiesUtils.v -- properties of Utils/utils.cpp. *)
From Coq Require Import List Arith ZArith Bool Sorted Permutation Lia.
From Verif Require Import Base Spec UtilsModel UtilsProofs PartitionProofs.
Import ListNotations.

(* ---------------------------------------------------------------- C01 *)
(* vector overloads, any element order (isSorted = false) or sorted input (isSorted = true) *)
Theorem C01_setIntersect_exact : forall (v1 v2 : list nat) (isSorted : bool),
  NoDup v1 -> NoDup v2 -> (isSorted = true -> increasing v1 /\ increasing v2) ->
  (forall x, In x (setIntersect v1 v2 isSorted) <-> In x v1 /\ In x v2) /\
  (v1 <> v2 -> increasing (setIntersect v1 v2 isSorted)) /\
  (v1 = v2 -> setIntersect v1 v2 isSorted = v1).
Proof. exact setIntersect_spec. Qed.
Print Assumptions C01_setIntersect_exact.

Theorem C01_setIntersect_set_exact : forall v1 v2 : list nat,
  increasing v1 -> increasing v2 ->
  increasing (setIntersect_set v1 v2) /\
  forall x, In x (setIntersect_set v1 v2) <-> In x v1 /\ In x v2.
Proof. exact setIntersect_set_spec. Qed.
Print Assumptions C01_setIntersect_set_exact.

Theorem C01_symmetricDiff_exact : forall (v1 v2 : list nat) (isSorted : bool),
  NoDup v1 -> NoDup v2 -> (isSorted = true -> increasing v1 /\ increasing v2) ->
  increasing (symmetricDiff v1 v2 isSorted) /\
  forall x, In x (symmetricDiff v1 v2 isSorted) <-> in_exactly_one v1 v2 x.
Proof. exact symmetricDiff_spec. Qed.
Print Assumptions C01_symmetricDiff_exact.

Theorem C01_symmetricDiff_set_exact : forall v1 v2 : list nat,
  increasing v1 -> increasing v2 ->
  increasing (symmetricDiff_set v1 v2) /\
  forall x, In x (symmetricDiff_set v1 v2) <-> in_exactly_one v1 v2 x.
Proof. exact symmetricDiff_set_spec. Qed.
Print Assumptions C01_symmetricDiff_set_exact.

Theorem C01_setXOR_exact : forall v1 v2 : list nat,
  increasing v1 -> increasing v2 ->
  increasing (setXOR v1 v2) /\ forall x, In x (setXOR v1 v2) <-> in_exactly_one v1 v2 x.
Proof. exact setXOR_spec. Qed.
Print Assumptions C01_setXOR_exact.

Example C01_ex :
  setIntersect [7;1;5;3] [3;9;7] false = [3;7] /\ symmetricDiff [7;1;5;3] [3;9;7] false = [1;5;9] /\
  NoDup [7;1;5;3] /\ setXOR [1;2] [2;4] = [1;4].
Proof. repeat split; try reflexivity. repeat constructor; cbn; intuition congruence. Qed.

(* ---------------------------------------------------------------- C02 *)
Theorem C02_setUnion_exact_but_empty_on_equal : forall (v1 v2 : list nat) (isSorted : bool),
  NoDup v1 -> NoDup v2 -> (isSorted = true -> increasing v1 /\ increasing v2) ->
  (v1 <> v2 -> increasing (setUnion v1 v2 isSorted) /\
               forall x, In x (setUnion v1 v2 isSorted) <-> In x v1 \/ In x v2) /\
  (v1 = v2 -> setUnion v1 v2 isSorted = []).
Proof. exact setUnion_spec. Qed.
Print Assumptions C02_setUnion_exact_but_empty_on_equal.

(* the unrestricted claim "setUnion is the union" is false *)
Theorem C02_setUnion_is_union_refuted :
  exists v, increasing v /\ In 3 v /\ ~ In 3 (setUnion v v true).
Proof. exists [3]. repeat split; cbn; auto. repeat constructor. Qed.
Print Assumptions C02_setUnion_is_union_refuted.

Example C02_ex : setUnion [7;1] [3;1] false = [1;3;7] /\ setUnion [7;1] [7;1] false = [].
Proof. split; reflexivity. Qed.

(* ---------------------------------------------------------------- C03 *)
Theorem C03_intersect_adjacent_pairs : forall (v1 v2 : list nat) (isSorted : bool),
  NoDup v1 -> NoDup v2 -> (isSorted = true -> increasing v1 /\ increasing v2) ->
  let differ_in_exactly_two :=
    exists x y, x <> y /\ forall z, in_exactly_one v1 v2 z <-> z = x \/ z = y in
  (differ_in_exactly_two ->
     let '(sd, un) := intersect v1 v2 isSorted in
     increasing sd /\ increasing un /\
     (forall x, In x sd <-> in_exactly_one v1 v2 x) /\ (forall x, In x un <-> In x v1 \/ In x v2)) /\
  (~ differ_in_exactly_two -> intersect v1 v2 isSorted = ([], [])).
Proof. exact intersect_spec. Qed.
Print Assumptions C03_intersect_adjacent_pairs.

Example C03_ex : intersect [4;2] [2;9] false = ([4;9], [2;4;9]) /\ intersect [1;2] [3;4] true = ([], []).
Proof. split; reflexivity. Qed.

(* ---------------------------------------------------------------- C04 *)
(* vector overload: exactly the vectors obtained by dropping one entry, each once *)
Theorem C04_getSubsets_facets : forall l : list nat, NoDup l ->
  NoDup (getSubsets l) /\ length (getSubsets l) = length l /\
  forall s, In s (getSubsets l) <-> exists a x b, l = a ++ x :: b /\ s = a ++ b.
Proof. exact getSubsets_facets_count. Qed.
Print Assumptions C04_getSubsets_facets.

(* set overload: exactly the subsets with one element less, each once *)
Theorem C04_getSubsets_set_facets : forall l : list nat, increasing l ->
  NoDup (getSubsets_set l) /\ length (getSubsets_set l) = length l /\
  forall s, In s (getSubsets_set l) <-> increasing s /\ incl s l /\ S (length s) = length l.
Proof. exact getSubsets_set_facets. Qed.
Print Assumptions C04_getSubsets_set_facets.

(* overload with a size argument: exactly the subsets of that size, each once, C(n,dim) of them *)
Theorem C04_getSubsets_dim_exact : forall (l : list nat) (dim : Z), increasing l ->
  NoDup (getSubsets_dim l dim) /\
  (forall s, In s (getSubsets_dim l dim) <-> increasing s /\ incl s l /\ Z.of_nat (length s) = dim) /\
  (forall k, dim = Z.of_nat k -> length (getSubsets_dim l dim) = binom (length l) k).
Proof. exact getSubsets_dim_spec. Qed.
Print Assumptions C04_getSubsets_dim_exact.

Example C04_ex : getSubsets [2;5;8] = [[2;5];[2;8];[5;8]] /\ getSubsets_set [] = [] /\
  getSubsets_dim [1;2;3;4] 2 = [[1;2];[1;3];[2;3];[1;4];[2;4];[3;4]] /\ binom 4 2 = 6.
Proof. repeat split; reflexivity. Qed.

(* ---------------------------------------------------------------- C05 *)
Theorem C05_separatePartitions_exact : forall (P : Type) (k : nat) (data : list P) (labels : list nat),
  (length labels <= length data /\ (forall l, In l labels -> l < k) ->
     exists it pt, separatePartitions k data labels = Ok (it, pt) /\
       partition_tables k data (fun i j => nth_error labels i = Some j) it pt /\
       Permutation (concat it) (seq 0 (length labels))) /\
  (~ (length labels <= length data /\ (forall l, In l labels -> l < k)) ->
     separatePartitions k data labels = UB).
Proof.
  intros P k data labels. split.
  - intros [H1 H2]. destruct (separatePartitions_ok k data labels H1 H2) as (it & pt & E & T).
    exists it, pt. split; [exact E|]. split; [exact T|]. exact (tables_total k data labels it pt H2 T).
  - exact (separatePartitions_ub k data labels).
Qed.
Print Assumptions C05_separatePartitions_exact.

Example C05_ex : separatePartitions 3 [10;20;30;40]%Z [2;0;2] = Ok ([[1];[];[0;2]], [[20];[];[10;30]]%Z) /\
  separatePartitions 2 [10;20]%Z [2] = UB.
Proof. split; reflexivity. Qed.

(* ---------------------------------------------------------------- C06 *)
Theorem C06_separatePartitionsRad_strict_ball :
  forall (P : Type) (dist : P -> P -> Z) (rad : Z) (centroids data : list P) (labels : list nat),
  length labels <= length data ->
  exists it pt, separatePartitionsRad dist rad centroids data labels = Ok (it, pt) /\
    partition_tables (length centroids) data
      (fun i j => i < length labels /\ exists x c, nth_error data i = Some x /\
                  nth_error centroids j = Some c /\ (dist x c < rad)%Z) it pt.
Proof. exact @separatePartitionsRad_ok. Qed.
Print Assumptions C06_separatePartitionsRad_strict_ball.

(* computeMaxRadius is the largest distance to the own centroid (0 if there is none) *)
Theorem C06_computeMaxRadius_is_max :
  forall (P : Type) (dist : P -> P -> Z) (centroids data : list P) (labels : list nat),
  length labels <= length data -> (forall l, In l labels -> l < length centroids) ->
  exists r, computeMaxRadius dist centroids data labels = Ok r /\ (0 <= r)%Z /\
    (forall i lab x c, nth_error labels i = Some lab -> nth_error data i = Some x ->
                   nth_error centroids lab = Some c -> (dist x c <= r)%Z) /\
    (r = 0%Z \/ exists i lab x c, nth_error labels i = Some lab /\ nth_error data i = Some x /\
                   nth_error centroids lab = Some c /\ dist x c = r).
Proof. exact @computeMaxRadius_ok. Qed.
Print Assumptions C06_computeMaxRadius_is_max.

(* at that radius a point is in its own partition iff it is not a farthest one, and some point is lost *)
Theorem C06_farthest_point_dropped_at_max_radius :
  forall (P : Type) (dist : P -> P -> Z) (centroids data : list P) (labels : list nat),
  length labels <= length data -> (forall l, In l labels -> l < length centroids) ->
  exists r it pt,
    computeMaxRadius dist centroids data labels = Ok r /\
    separatePartitionsRad dist r centroids data labels = Ok (it, pt) /\
    (forall i lab x c, nth_error labels i = Some lab -> nth_error data i = Some x ->
       nth_error centroids lab = Some c ->
       exists row, nth_error it lab = Some row /\ (In i row <-> (dist x c < r)%Z) /\ (dist x c <= r)%Z) /\
    (labels <> [] -> (forall x y, (0 <= dist x y)%Z) ->
       exists i lab row, nth_error labels i = Some lab /\ nth_error it lab = Some row /\ ~ In i row).
Proof. exact @max_radius_own_partition. Qed.
Print Assumptions C06_farthest_point_dropped_at_max_radius.

Example C06_ex :
  let dist := fun x y : Z => Z.abs (x - y) in
  computeMaxRadius dist [0;10]%Z [1;4;12]%Z [0;0;1] = Ok 4%Z /\
  separatePartitionsRad dist 4 [0;10]%Z [1;4;12]%Z [0;0;1] = Ok ([[0];[2]], [[1];[12]]%Z).
Proof. split; reflexivity. Qed.

(* ---------------------------------------------------------------- C07 *)
Theorem C07_mapPartitionIndexing_changes_nothing : forall (labels : list nat) (table : list bettiEntry),
  ((forall b p, In b table -> In p (boundaryPoints b) -> p < length labels) ->
     mapPartitionIndexing labels table = Ok table) /\
  (~ (forall b p, In b table -> In p (boundaryPoints b) -> p < length labels) ->
     mapPartitionIndexing labels table = UB).
Proof. exact mapPartitionIndexing_noop. Qed.
Print Assumptions C07_mapPartitionIndexing_changes_nothing.

Example C07_ex : mapPartitionIndexing [5;6;7] [mkBetti 0 0 3 [0;2]] = Ok [mkBetti 0 0 3 [0;2]] /\
  mapPartitionIndexing [5;6] [mkBetti 0 0 3 [0;2]] = UB.
Proof. split; reflexivity. Qed.

(* ---------------------------------------------------------------- C46 *)
Theorem C46_vectors_distance_definedness :
  forall (N : Type) (sq add : N -> N -> N) (sqrt : N -> N) (zero : N) (a b : list N),
  (vectors_distance sq add sqrt zero a b = UB <-> b <> [] /\ length b < length a) /\
  (b = [] -> vectors_distance sq add sqrt zero a b = Ok zero).
Proof. exact @vectors_distance_defined. Qed.
Print Assumptions C46_vectors_distance_definedness.

(* square root of the sum of the squared coordinate differences *)
Theorem C46_vectors_distance_value :
  forall (N : Type) (sq add : N -> N -> N) (sqrt : N -> N) (zero : N) (a b : list N),
  b <> [] -> length a <= length b ->
  vectors_distance sq add sqrt zero a b =
    Ok (sqrt (fold_left add (map (fun p => sq (fst p) (snd p)) (combine a b)) zero)).
Proof. exact @vectors_distance_value. Qed.
Print Assumptions C46_vectors_distance_value.

Theorem C46_vectors_distance_symmetric :
  forall (N : Type) (sq add : N -> N -> N) (sqrt : N -> N) (zero : N) (a b : list N),
  (forall x y, sq x y = sq y x) -> length a = length b ->
  vectors_distance sq add sqrt zero a b = vectors_distance sq add sqrt zero b a.
Proof. exact @vectors_distance_sym. Qed.
Print Assumptions C46_vectors_distance_symmetric.

Theorem C46_vectors_distance_ignores_extra_coordinates :
  forall (N : Type) (sq add : N -> N -> N) (sqrt : N -> N) (zero : N) (a b c : list N),
  b <> [] -> length a <= length b ->
  vectors_distance sq add sqrt zero a (b ++ c) = vectors_distance sq add sqrt zero a b.
Proof. exact @vectors_distance_ignores_tail. Qed.
Print Assumptions C46_vectors_distance_ignores_extra_coordinates.

(* The distance of two numbers is the squared difference: the distance of the one-coordinate vectors is its root. *)
Theorem C46_distance_of_numbers : forall (N : Type) (sq add : N -> N -> N) (sqrt : N -> N) (zero : N) a b,
  vectors_distance sq add sqrt zero [a] [b] = Ok (sqrt (add zero (scalar_distance sq a b))).
Proof. reflexivity. Qed.
Print Assumptions C46_distance_of_numbers.
(* nearestNeighbors lists the distance from the point to every point of the cloud, in the order of the cloud. *)
Theorem C46_nearestNeighbors_distances : forall (P : Type) (dist : P -> P -> Z) point cloud,
  length (nearestNeighbors dist point cloud) = length cloud /\
  forall i q, nth_error cloud i = Some q -> nth_error (nearestNeighbors dist point cloud) i = Some (dist point q).
Proof.
  intros P dist point cloud. unfold nearestNeighbors. split; [apply map_length|]. intros i q H. rewrite nth_error_map, H. reflexivity.
Qed.
Print Assumptions C46_nearestNeighbors_distances.
(* sortBySecond compares by weight alone and is the strict weak order that std::sort requires. *)
Theorem C46_sortBySecond_strict_weak_order :
  (forall s t v w, sortBySecond (s, v) (t, w) = true <-> (v < w)%Z) /\
  (forall a, sortBySecond a a = false) /\
  (forall a b c, sortBySecond a b = true -> sortBySecond b c = true -> sortBySecond a c = true) /\
  (forall a b c, sortBySecond a b = false -> sortBySecond b c = false -> sortBySecond a c = false).
Proof.
  unfold sortBySecond. split; [intros; apply Z.ltb_lt|]. split; [intros; apply Z.ltb_irrefl|]. split.
  - intros a b c. rewrite !Z.ltb_lt. lia.
  - intros a b c. rewrite !Z.ltb_ge. lia.
Qed.
Print Assumptions C46_sortBySecond_strict_weak_order.

Example C46_ex :
  let d := vectors_distance (fun x y => (x - y) * (x - y))%Z Z.add Z.sqrt 0%Z in
  d [0;3]%Z [4;0]%Z = Ok 5%Z /\ d [4;0]%Z [0;3]%Z = Ok 5%Z /\ d [0;3]%Z [4;0;99]%Z = Ok 5%Z /\
  d [1]%Z [] = Ok 0%Z /\ d [1;2]%Z [1]%Z = UB.
Proof. repeat split; reflexivity. Qed.

(* ---------------------------------------------------------------- C47 *)
Theorem C47_separateBoundaryPartitions_exact :
  forall (P : Type) (bls : list (list nat)) (data : list P) (labels : list nat),
  length data <= length labels ->
  exists it pt, separateBoundaryPartitions bls data labels = Ok pt /\
    partition_tables (length bls) data
      (fun i j => i < length data /\ exists lab bl, nth_error labels i = Some lab /\
                  nth_error bls j = Some bl /\ In lab bl) it pt.
Proof. exact (fun P => @separateBoundaryPartitions_ok P (fun _ _ => 0%Z)). Qed.
Print Assumptions C47_separateBoundaryPartitions_exact.

Example C47_ex : separateBoundaryPartitions [[0;2];[1];[]] [10;20;30]%Z [0;1;2] = Ok [[10;30];[20];[]]%Z.
Proof. reflexivity. Qed.
