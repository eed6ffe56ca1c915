(* SpecError.v -- vocabulary for the statement about the error of computed distances. *)
From Coq Require Import List ZArith Reals Relations SpecFloat.
From Verif Require Import SpecGraph DoubleModel.
Import ListNotations.
Local Open Scope R_scope.

(* The real number a double stands for. *)
Definition real_value (x : double) : R :=
  match x with S754_finite s m e => (if s then -1 else 1) * IZR (Zpos m) * powerRZ 2 e | _ => 0 end.
(* The square of the true distance of two points. *)
Definition true_square (x y : list double) : R :=
  fold_right Rplus 0 (map (fun p => (real_value (fst p) - real_value (snd p)) ^ 2) (combine x y)).
(* The relative error of one rounded operation, and the absolute error of a product that underflows. *)
Definition unit_error : R := powerRZ 2 (-53).
Definition underflow_error : R := powerRZ 2 (-1075).

(* The points fall into n clusters if points with a true square of the distance of at most q are joined. *)
Definition true_clusters (cloud : list (list double)) (q : R) (n : nat) : Prop :=
  classes (seq 0 (length cloud))
    (clos_refl_sym_trans nat (fun u v => (u < v)%nat /\ exists x y, nth_error cloud u = Some x /\ nth_error cloud v = Some y /\ true_square x y <= q)) n.
(* Where the true square of a distance can be if the computed distance of points with k coordinates is w. *)
Definition least_square (k : nat) (w : double) : R := real_value w ^ 2 / (1 + unit_error) ^ (k + 5) - INR k * underflow_error.
Definition largest_square (k : nat) (w : double) : R := (real_value w ^ 2 + INR k * underflow_error) / (1 - unit_error) ^ (k + 5).
(* w is the computed distance of two points with k coordinates, and within the errors of their true distance. *)
Definition near_true_distance (cloud : list (list double)) (k : nat) (w : double) : Prop :=
  exists u v x y, (u < v)%nat /\ nth_error cloud u = Some x /\ nth_error cloud v = Some y /\ d_distance d_square x y = Base.Ok w /\
    least_square k w <= true_square x y <= largest_square k w.
