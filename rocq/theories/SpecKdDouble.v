(* SpecKdDouble.v -- vocabulary for the statements about the kd-tree on points with double coordinates. *)
From Coq Require Import List Arith ZArith SpecFloat.
From Verif Require Import Base KdModel DoubleModel SpecDouble SpecText.
Import ListNotations.

(* A coordinate: a double that is neither infinite nor NaN. *)
Definition coordinate_ok (x : double) : Prop := canonical x /\ is_finite x.
(* Non-empty data, all of the same positive dimension, and a point of that dimension. *)
Definition cloud_ok (k : nat) (data : list (list double)) : Prop :=
  0 < k /\ data <> [] /\ forall x, In x data -> length x = k /\ Forall coordinate_ok x.
(* Points are given to the tree by the places of their coordinates in the order of the doubles. *)
Definition placed (data : list (list double)) : list (list Z) := map (map rank) data.
(* The double at a place, of either sign. *)
Definition double_at (z : Z) : double := if (z <? 0)%Z then SFopp (at_place (- z)) else at_place z.
(* Distance and difference of coordinates, as the processor computes them. *)
Definition place_dist : list Z -> list Z -> Z := double_dist d_square double_at.
Definition place_diff (a b : Z) : Z := rank (d_sub (double_at a) (double_at b)).
(* The distance of two points is w. *)
Definition distance_is (x y : list double) (w : double) : Prop := d_distance d_square x y = Ok w.
(* 2 ^ (-511), about 1.5e-154. *)
Definition smallest_radius : double := S754_finite false (2 ^ 52) (-563).
(* The first n points that are at most eps away from the i-th point. *)
Definition double_ball (data : list (list double)) (eps : double) (n i : nat) : list nat :=
  filter (fun j => match d_distance d_square (nth j data []) (nth i data []) with Ok w => SFleb w eps | UB => false end) (seq 0 n).
