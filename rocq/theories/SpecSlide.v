(* SpecSlide.v -- vocabulary for the statement about the mode sw in double arithmetic. *)
From Coq Require Import String Ascii List Arith ZArith Reals SpecFloat.
From Verif Require Import Base IoModel SpecIo DoubleModel SpecDouble SpecKdDouble SpecError SpecNan SpecEvalDouble.
Import ListNotations.
Local Open Scope nat_scope.
Local Open Scope list_scope.

(* A line of the stream, of at most 998 characters, with the numbers of one vector (see stream_line in SpecIo.v). *)
Definition stream_vector (line : text) (v : list double) : Prop :=
  exists cells, one_line line /\ ~ In nul line /\ length line <= 998 /\ cells <> [] /\ Forall plain cells /\ strip line = join comma cells /\ Forall2 reads_as cells v.

(* w is the smallest computed distance from the point number i to the others. *)
Definition nearest_gap (points : list (list double)) (i : nat) (w : double) : Prop :=
  (exists j, j <> i /\ apart d_square points i j w) /\ forall j w', j <> i -> apart d_square points i j w' -> SFleb w w' = true.

(* Seen from the points of the window, the vector x has this property of the average of the distances nn and of its distance to the nearest point. *)
Definition at_distance (points : list (list double)) (nn : list double) (x : list double) (P : R -> R -> Prop) : Prop :=
  exists ws d, distances_from d_square x points ws /\ smallest ws d /\ P (exact_average nn) d.
