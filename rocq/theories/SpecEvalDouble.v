(* SpecEvalDouble.v -- vocabulary for the statement about admission to the window in double arithmetic. *)
From Coq Require Import List Arith ZArith Reals SpecFloat.
From Verif Require Import Base SpecDouble SpecKdDouble SpecError DoubleModel.
Import ListNotations.
Local Open Scope R_scope.

(* ws are the computed distances of v from the points of the window, all finite. *)
Definition distances_from (square : double -> double) (v : list double) (window : list (list double)) (ws : list double) : Prop :=
  Forall2 (fun x w => d_distance square v x = Ok w /\ coordinate_ok w /\ non_negative w) window ws.
(* d is the smallest of them. *)
Definition smallest (ws : list double) (d : R) : Prop :=
  (exists w, In w ws /\ real_value w = d) /\ forall w, In w ws -> d <= real_value w.
(* The exact average of the distances of the points of the window from their nearest neighbours. *)
Definition exact_average (nnDists : list double) : R := fold_right Rplus 0 (map real_value nnDists) / INR (length nnDists).

(* The rule with exact numbers, with room for the rounding: e is a relative error and t an absolute one.  With e = t = 0 the first is
   that a vector is turned away and the second its negation. *)
Definition clearly_turned_away (e t A d : R) : Prop :=
  d = 0 \/ ((1 + e) * A + t <= 1 / 4 /\ d <= 1) \/ (0 < A /\ d <= 4 * ((1 - e) * A - t)).
Definition clearly_admitted (e t A d : R) : Prop :=
  0 < d /\ (1 / 4 < (1 - e) * A - t \/ 1 < d) /\ 4 * ((1 + e) * A + t) < d.
