(* SpecKd.v -- vocabulary for the statements about the kd-tree and DBSCAN. *)
From Coq Require Import List Arith ZArith Sorted Permutation.
From Verif Require Import Base KdModel.
Import ListNotations.

Definition coordinate (x : point) (i : nat) : Z := nth i x 0%Z.
(* Non-empty data, all of the same positive dimension. *)
Definition uniform (k : nat) (data : list point) : Prop := 0 < k /\ data <> [] /\ forall x, In x data -> length x = k.
(* A sorting algorithm for the comparison by one coordinate: any order on ties. *)
Definition level_sort (srt : nat -> list pointIndex -> list pointIndex) : Prop :=
  forall level l, Permutation l (srt level l) /\
    StronglySorted (fun a b => (coordinate (fst a) level <= coordinate (fst b) level)%Z) (srt level l).
(* What is needed of the number operations: subtraction is monotone in its first argument, abs does not exceed the true
   absolute value (truncation to int is allowed), and the distance is at least every coordinate difference. *)
Definition sound_numbers (dist : point -> point -> Z) (diff : Z -> Z -> Z) (mag : Z -> Z) : Prop :=
  (forall a b c, (a <= b)%Z -> (diff a c <= diff b c)%Z) /\
  (forall a, (mag a <= Z.abs a)%Z) /\
  (forall x y i, length x = length y -> i < length x -> (Z.abs (diff (coordinate x i) (coordinate y i)) <= dist x y)%Z).

(* Density reachability over the neighbour lists nb: core points have at least minPoints neighbours; a chain of core
   points, each in the list of the one before. *)
Definition core (nb : nat -> list nat) (minPoints : Z) (i : nat) : Prop := (0 <= minPoints <= Z.of_nat (length (nb i)))%Z.
Inductive density_reachable (nb : nat -> list nat) (minPoints : Z) : nat -> nat -> Prop :=
| dr_refl i : core nb minPoints i -> density_reachable nb minPoints i i
| dr_step i j k : density_reachable nb minPoints i j -> In k (nb j) -> core nb minPoints k -> density_reachable nb minPoints i k.

(* The largest number of loop iterations of one expandCluster call: the first list and one list for every point. *)
Definition enough_fuel (nb : nat -> list nat) (n : nat) : nat :=
  list_max (map (fun i => length (nb i)) (seq 0 n)) + list_sum (map (fun i => length (nb i)) (seq 0 n)).

(* The closed ball of radius epsilon around point i, among the first n points. *)
Definition ball (dist : point -> point -> Z) (data : list point) (epsilon : Z) (n i : nat) : list nat :=
  filter (fun j => (dist (nth j data []) (nth i data []) <=? epsilon)%Z) (seq 0 n).

(* What DBSCAN promises, for the neighbour relation nb on the points 0 .. n-1: *)
Record dbscan_labels (nb : nat -> list nat) (minPoints : Z) (n : nat) (label : nat -> Z) : Prop := {
  (* every point is noise (-1) or in a cluster, *)
  dl_total : forall p, p < n -> label p = (-1)%Z \/ (0 < label p)%Z;
  (* the clusters are numbered 1, 2, ... without gaps, *)
  dl_numbers : forall p v, p < n -> (0 < v <= label p)%Z -> exists q, q < n /\ core nb minPoints q /\ label q = v;
  (* core points are in clusters, *)
  dl_core : forall p, p < n -> core nb minPoints p -> (0 < label p)%Z;
  (* two core points are in the same cluster exactly when one is density reachable from the other, *)
  dl_same : forall p q, p < n -> q < n -> core nb minPoints p -> core nb minPoints q -> (label p = label q <-> density_reachable nb minPoints p q);
  (* a point is noise exactly when it is not core and no core point has it as a neighbour, *)
  dl_noise : forall p, p < n -> (label p = (-1)%Z <-> ~ core nb minPoints p /\ forall t, t < n -> core nb minPoints t -> ~ In p (nb t));
  (* and every clustered point is a neighbour of a core point of its cluster. *)
  dl_border : forall p, p < n -> (0 < label p)%Z -> exists t, t < n /\ core nb minPoints t /\ In p (nb t) /\ label t = label p
}.
