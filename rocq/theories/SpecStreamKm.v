(* SpecStreamKm.v -- vocabulary for the statements about streaming k-means. *)
From Coq Require Import List Arith ZArith Bool.
From Verif Require Import Base.
Import ListNotations.

(* <= and < of numbers without not-a-number: total, transitive, and < is the negation of >=. *)
Definition total_order {num} (leb ltb : num -> num -> bool) : Prop :=
  (forall a b, leb a b = true \/ leb b a = true) /\
  (forall a b c, leb a b = true -> leb b c = true -> leb a c = true) /\
  (forall a b, ltb a b = negb (leb b a)).
(* The pairs increase in their first component: every two neighbours are in order. *)
Definition ascending {num} (leb : num -> num -> bool) (sorted : list (num * nat)) : Prop :=
  forall i a b, nth_error sorted i = Some a -> nth_error sorted (S i) = Some b -> leb (fst a) (fst b) = true.
