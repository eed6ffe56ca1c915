(* SpecRadius.v -- vocabulary for the statement about the partitions of the reduced mode in double arithmetic. *)
From Coq Require Import List Arith ZArith SpecFloat.
From Verif Require Import Base Spec DoubleModel SpecDouble SpecText SpecKdDouble.
Import ListNotations.

(* The distance of two points, as a whole number: its place in the order of the doubles.  A distance that is not a number is put above
   every place, so that it is not less than any radius. *)
Definition point_place (x y : list double) : Z :=
  match d_distance d_square x y with Ok S754_nan => (2 ^ 65 + 1)%Z | Ok v => rank v | UB => 0%Z end.
(* 2 * x, as the processor computes it. *)
Definition d_two : double := S754_finite false (2 ^ 52) (-51).
Definition twice (x : double) : double := d_mul d_two x.
(* The i-th point x, which is labelled with the centroid c. *)
Definition labelled_point (data cents : list (list double)) (labels : list nat) (i j : nat) (x c : list double) : Prop :=
  nth_error labels i = Some j /\ nth_error data i = Some x /\ nth_error cents j = Some c.

(* r is the largest distance of a labelled point to its centroid, or zero if there is none.  The rows are the balls of radius 2 * r
   around the centroids: row j has the labelled points that are less than 2 * r away from centroid j. *)
Definition radius_and_rows (data cents : list (list double)) (labels : list nat) (r : double) (idx : list (list nat)) (rows : list (list (list double))) : Prop :=
  canonical r /\ non_negative r /\
  (forall i j x c, labelled_point data cents labels i j x c -> exists w, distance_is x c w /\ SFleb w r = true) /\
  (is_zero r \/ exists i j x c, labelled_point data cents labels i j x c /\ distance_is x c r) /\
  partition_tables (length cents) data
    (fun i j => i < length labels /\ exists x c w, nth_error data i = Some x /\ nth_error cents j = Some c /\ distance_is x c w /\ SFltb w (twice r) = true) idx rows.
