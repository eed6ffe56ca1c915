(* SpecLink.v -- vocabulary for the statements about the program with k-means++. *)
From Coq Require Import String List Arith ZArith.
From Verif Require Import Base ArgModel SpecArgs SpecKmeans SpecMain.
Import ListNotations.
Local Open Scope nat_scope.
Local Open Scope list_scope.

(* What k-means makes of the points: it labels all of them but the last, with k labels.  [nowhere] stands for a centroid
   whose coordinates are not numbers. *)
Record clustering (dist : list Z -> list Z -> Z) (quo : Z -> nat -> Z) (nowhere : list Z) (k dim : nat)
                  (data : list (list Z)) (labels : list nat) (centroids : list (list Z)) : Prop := {
  cl_all_but_one : length labels + 1 = length data;
  cl_range : forall l, In l labels -> l < k;
  (* The centroid of a cluster is the mean of its points; that of a cluster without points is not a number. *)
  cl_count : length centroids = k;
  cl_means : forall j, j < k -> nth_error centroids j = Some match members (removelast data) labels j with
                                                             | [] => nowhere
                                                             | pts => mean 0%Z Z.add quo dim pts
                                                             end;
  (* The label of a point is that of the nearest of k earlier centroids, the first one of several; None is a centroid that is not
     a number.  The earlier centroids are different points of the data, or the means of an earlier labelling. *)
  cl_nearest : exists prev : list (option (list Z)), length prev = k /\
    ((exists start, prev = map Some start /\ NoDup start /\ incl start data) \/
     (exists before, forall j, j < k -> nth_error prev j = Some match members (removelast data) before j with
                                                                | [] => None
                                                                | pts => Some (mean 0%Z Z.add quo dim pts)
                                                                end)) /\
    forall i x l, nth_error (removelast data) i = Some x -> nth_error labels i = Some l ->
    exists c, nth_error prev l = Some (Some c) /\
      forall j c', nth_error prev j = Some (Some c') -> (dist x c <= dist x c')%Z /\ (j < l -> (dist x c < dist x c')%Z) }.
(* Every cluster has a point. *)
Definition all_used (k : nat) (labels : list nat) : Prop := forall j, j < k -> In j labels.

(* The command line asks for k-means++. *)
Definition names_kmeans (pre : string) : Prop := In (pre, KKMeans) pre_names.
(* k clusters and r iterations, the random draws are indices of points, the points have the same dimension, and distances
   are smaller than the largest double. *)
Record kmeans_setting (dist : list Z -> list Z -> Z) (maxn : Z) (index : nat) (picks : list (nat * (nat -> bool)))
                      (k r : Z) (dim : nat) (data : list (list Z)) : Prop := {
  ks_clusters : (0 < k)%Z;
  ks_iterations : (0 < r)%Z;
  ks_index : index < length data;
  ks_picks : forall i valid, In (i, valid) picks -> i < length data;
  ks_dim : forall x, In x data -> length x = dim;
  ks_max : forall x y, (dist x y < maxn)%Z }.
(* A command line for the reduced mode: preprocessor pre, dimension d, epsilon e, input file f, output file o. *)
Record reduced_line (argv : list string) (pre d e f o : string) : Prop := {
  rl_complete : complete_line argv;
  rl_mode : value argv "mode" "reduced";
  rl_mpi : exists a, value argv "mpi" a /\ a <> "1"%string;
  rl_pipe : value argv "pipeline" "";
  rl_pre : value argv "preprocessor" pre;
  rl_collapse : exists z, value argv "collapse" z /\ z <> "true"%string /\ z <> "1"%string;
  rl_dim : value argv "dimensions" d;
  rl_eps : value argv "epsilon" e;
  rl_in : value argv "inputFile" f;
  rl_out : value argv "outputFile" o }.
(* The largest distance of a labelled point to the centroid of its label. *)
Definition farthest (dist : list Z -> list Z -> Z) (data : list (list Z)) (labels : list nat) (centroids : list (list Z)) (radius : Z) : Prop :=
  (0 <= radius)%Z /\
  (forall i l x c, nth_error labels i = Some l -> nth_error data i = Some x -> nth_error centroids l = Some c -> (dist x c <= radius)%Z) /\
  (radius = 0%Z \/ exists i l x c, nth_error labels i = Some l /\ nth_error data i = Some x /\ nth_error centroids l = Some c /\ dist x c = radius).
