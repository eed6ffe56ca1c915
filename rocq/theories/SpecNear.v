(* SpecNear.v -- vocabulary for the statements about the nearest-neighbour statistics of the sliding window: which distances,
   averages and numbers are right for a window of points that carry the labels of their partitions. *)
From Coq Require Import List Arith ZArith QArith Sorted.
From Verif Require Import Base.
Import ListNotations.
Local Open Scope nat_scope. Local Open Scope list_scope.

(* The list without its element number k. *)
Definition without {A} (k : nat) (l : list A) : list A := firstn k l ++ skipn (S k) l.

(* The number of elements with the label l, and the sum of the values that go with it. *)
Definition size (labels : list Z) (l : Z) : nat := count_occ Z.eq_dec labels l.
Definition sum_of (labels values : list Z) (l : Z) : Z :=
  fold_right Z.add 0%Z (map snd (filter (fun e => (fst e =? l)%Z) (combine labels values))).

Section Near.
  Variable dist : list Z -> list Z -> Z.
  Variable one : Z.                                 (* the number 1.0 *)
  Variable points : list (list Z).
  Variable labels : list Z.

  (* The distance between the points number i and j. *)
  Definition away (i j : nat) : Z := dist (nth i points []) (nth j points []).
  (* j is another point of the partition of i. *)
  Definition mate (i j : nat) : Prop := j <> i /\ j < length labels /\ nth j labels 0%Z = nth i labels 0%Z.
  (* d is the distance from i to the nearest point of its partition, or -1 if i is alone. *)
  Definition right_distance (i : nat) (d : Z) : Prop :=
    ((exists j, mate i j /\ d = away i j) /\ forall j, mate i j -> (d <= away i j)%Z) \/
    ((forall j, ~ mate i j) /\ d = (- one)%Z).
  (* x is the number of a point of the partition of i at the distance d, or -1 if i is alone. *)
  Definition right_index (i : nat) (x d : Z) : Prop :=
    (exists j, mate i j /\ x = Z.of_nat j /\ d = away i j) \/ ((forall j, ~ mate i j) /\ x = (-1)%Z).

  Definition right_distances (nn : list Z) : Prop :=
    length nn = length labels /\ forall i, i < length labels -> right_distance i (nth i nn 0%Z).
  Definition right_indices (idx nn : list Z) : Prop :=
    length idx = length labels /\ forall i, i < length labels -> right_index i (nth i idx 0%Z) (nth i nn 0%Z).
  (* The numbers of points; a partition that has vanished may still have the number 0. *)
  Definition right_numbers (num : list (Z * Z)) : Prop :=
    StronglySorted Z.lt (map fst num) /\
    (forall l c, In (l, c) num -> c = Z.of_nat (size labels l)) /\ (forall l, 0 < size labels l -> exists c, In (l, c) num).
  (* The averages of the nearest-neighbour distances: the mean over the partition, -1 for a single point. *)
  Definition right_averages (nn : list Z) (avg : list (Z * Q)) : Prop :=
    StronglySorted Z.lt (map fst avg) /\
    (forall l, 0 < size labels l <-> exists a, In (l, a) avg) /\
    (forall l a, In (l, a) avg -> size labels l = 1 -> (a == inject_Z (- one))%Q) /\
    (forall l a, In (l, a) avg -> 2 <= size labels l -> (a * inject_Z (Z.of_nat (size labels l)) == inject_Z (sum_of labels nn l))%Q).

  (* Row i of m holds, at the place j, the distance between the points i < j. *)
  Definition right_matrix (m : list (list Z)) : Prop :=
    length m = length points /\
    (forall row, In row m -> length row = length points) /\
    (forall i j, i < j < length points -> nth j (nth i m []) 0%Z = away i j).
End Near.

(* Everything that is recorded about a window is right. *)
Definition right_records (dist : list Z -> list Z -> Z) (one : Z) (points : list (list Z)) (labels idx nn : list Z)
    (num : list (Z * Z)) (avg : list (Z * Q)) : Prop :=
  length labels = length points /\ right_distances dist one points labels nn /\ right_indices dist points labels idx nn /\
  right_numbers labels num /\ right_averages one labels nn avg.

(* What happens to a vector v that comes to a window with several partitions. *)
Section Several.
  Variable dist : list Z -> list Z -> Z.
  Variable one : Z.
  Variable points : list (list Z).
  Variables labels nn : list Z.                     (* the partitions, and the nearest-neighbour distances *)
  Variable v : list Z.

  (* i is the first of the points that are nearest to v. *)
  Definition first_nearest (i : nat) : Prop :=
    i < length points /\ forall j, j < length points ->
      (dist v (nth i points []) <= dist v (nth j points []))%Z /\ (dist v (nth j points []) = dist v (nth i points []) -> i <= j).
  (* v joins the partition of i: it is equal to i; or it is within 5 of i and the partition has one point, or an average
     nearest-neighbour distance of at most 1/4 while v is within 1 of i, or a positive average of at least a quarter of the
     distance. *)
  Definition joins (i : nat) : Prop :=
    let d := dist v (nth i points []) in
    let n := Z.of_nat (size labels (nth i labels 0%Z)) in let s := sum_of labels nn (nth i labels 0%Z) in
    (d = 0 \/ (d <= 5 * one /\ (n = 1 \/ (4 * s <= n * one /\ d <= one) \/ (0 < s /\ d * n <= 4 * s))))%Z.
  Definition greatest (top : Z) : Prop := In top labels /\ forall x, In x labels -> (x <= top)%Z.
  (* k is the first point of the partition p. *)
  Definition first_of (p : Z) (k : nat) : Prop :=
    k < length labels /\ nth k labels 0%Z = p /\ forall i, i < k -> nth i labels 0%Z <> p.

  (* The partition p has got no point for more than 25 vectors: key is the number of v, maxKeys the number of the last vector
     of every partition. *)
  Variable key : nat.
  Variable maxKeys : list (Z * nat).
  Definition outdated (p : Z) : Prop := exists x, In (p, x) maxKeys /\ x + 25 < key.
  (* p is the smallest outdated partition (with the least label if there are several). *)
  Definition smallest_outdated (p : Z) : Prop :=
    outdated p /\ forall q, outdated q -> size labels p <= size labels q /\ (size labels q = size labels p -> (p <= q)%Z).
  (* k is the point that leaves for v, whose first nearest point is i: the first of the smallest outdated partition; without
     one, the first of the window if v founds a partition, and the first of partition 0 (partition 1 if v joins partition 0)
     otherwise. *)
  Definition leaves (i k : nat) : Prop :=
    (exists p, smallest_outdated p /\ first_of p k) \/
    ((forall p, ~ outdated p) /\ ~ joins i /\ k = 0) \/
    ((forall p, ~ outdated p) /\ joins i /\ first_of (if (nth i labels 0 =? 0)%Z then 1 else 0)%Z k).
End Several.
