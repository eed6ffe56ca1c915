(* SpecAllText.v -- vocabulary for the statements about the program with all its pipes in double arithmetic. *)
From Coq Require Import String Ascii List Arith ZArith SpecFloat.
From Verif Require Import Base IoModel DoubleModel SpecDouble SpecText TextModel.
Import ListNotations.
Local Open Scope nat_scope.
Local Open Scope list_scope.

(* A line of text, with its newline. *)
Definition line (s : string) : text := list_ascii_of_string s ++ [newline].
(* n lines for points that live from 0 to epsilon. *)
Definition whole_lives (n : nat) (eps : double) : text := concat (repeat (list_ascii_of_string "0,0.000000," ++ to_string eps ++ [newline]) n).
(* Two points are closer than epsilon. *)
Definition closer (cloud : list (list double)) (eps : double) (u v : nat) : Prop :=
  u < v /\ exists w, apart d_square cloud u v w /\ SFltb w eps = true.
(* Exactly one pair of points is, and the first point does not belong to it. *)
Definition one_closer_pair (cloud : list (list double)) (eps : double) : Prop :=
  exists u v, 0 < u /\ closer cloud eps u v /\ forall u' v', closer cloud eps u' v' -> u' = u /\ v' = v.
