(* SpecLastText.v -- vocabulary for the text that the last of several pipes leaves in the barcode file. *)
From Coq Require Import String Ascii List Arith ZArith.
From Verif Require Import Base ArgModel IoModel DoubleModel SpecDouble SpecText TextModel SpecAllText.
Import ListNotations.
Local Open Scope nat_scope.
Local Open Scope list_scope.

(* The pipes that assign the bars, each with the header it puts above them. *)
Definition own_headers : list (pipe_kind * text) :=
  [(KFastPersistence, []); (KPersistencePairs, line "dim,birth,death"); (KOptPersistencePairs, line "curIndex,index,dim,birth,death");
   (KBoundary, line "Dim,Birth,Death")].
(* The line of a bar: dimension, birth and death; fastPersistence writes the birth in dimension 0 as the digit 0. *)
Definition row_of (k : pipe_kind) (bar : nat * Z * Z) (t : text) : Prop :=
  let '(dim, birth, death) := bar in
  exists d b, reads_number d (Z.of_nat dim) /\
    (k = KFastPersistence /\ dim = 0 -> b = list_ascii_of_string "0") /\
    (~ (k = KFastPersistence /\ dim = 0) -> b = to_string (at_place birth)) /\
    t = d ++ comma :: b ++ comma :: to_string (at_place death) ++ [newline].
