(* SpecProgram.v -- vocabulary for the statements about the program from text to text. *)
From Coq Require Import String Ascii List Arith ZArith Bool SpecFloat.
From Verif Require Import Base IoModel SpecIo DoubleModel SpecDouble SpecText SpecRead.
Import ListNotations.
Local Open Scope list_scope.

(* A line of the input file: a blank line, or numbers separated by commas, with the doubles they stand for. *)
Definition line_holds (line : text) (r : option (list double)) : Prop :=
  match r with
  | None => blank line
  | Some row => exists cells, is_row line cells /\ 2 <= length (strip line) /\ Forall2 stands_for cells row
  end.
(* The text is a decimal number beyond the doubles: from 2 ^ 1024 on, or below half of the smallest one and not 0. *)
Definition out_of_range (t : text) : Prop :=
  exists neg n x, decimal_text t neg n x /\
    ((2 ^ 1024 * denominator x <= numerator n x)%Z \/ (0 < n /\ numerator n x * 2 ^ 1075 < denominator x)%Z).
