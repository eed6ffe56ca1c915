(* SpecMean.v -- vocabulary for the statement about the error of computed means. *)
From Coq Require Import List Arith ZArith Reals SpecFloat.
From Verif Require Import DoubleModel SpecError.
Import ListNotations.
Local Open Scope R_scope.

(* The j-th coordinates of points as real numbers, and the sum of real numbers. *)
Definition coordinates (j : nat) (points : list (list double)) : list R := map (fun x => real_value (nth j x (S754_zero false))) points.
Definition total (l : list R) : R := fold_right Rplus 0 l.
(* The mean of the j-th coordinates, and the mean of their absolute values. *)
Definition true_mean (j : nat) (points : list (list double)) : R := total (coordinates j points) / INR (length points).
Definition mean_size (j : nat) (points : list (list double)) : R := total (map Rabs (coordinates j points)) / INR (length points).
