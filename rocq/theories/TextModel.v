(* TextModel.v -- numbers as text: std::to_string of a double, and the text of the barcode file (definitions only). *)
From Coq Require Import String Ascii List Arith ZArith Bool SpecFloat.
From Verif Require Import Base IoModel DoubleModel.
Import ListNotations.
Local Open Scope Z_scope.
Local Open Scope list_scope.

Definition digit (d : Z) : ascii := ascii_of_nat (48 + Z.to_nat d).
(* The decimal digits of n in front of acc. *)
Fixpoint show_digits (fuel : nat) (n : Z) (acc : text) : text :=
  match fuel with
  | O => acc
  | S fuel' => let acc' := digit (n mod 10) :: acc in if n <? 10 then acc' else show_digits fuel' (n / 10) acc'
  end.
(* std::to_string of an unsigned number. *)
Definition show (n : Z) : text := show_digits (S (Z.to_nat (Z.log2 n))) n [].

(* a / b rounded to the nearest whole number, to the even one in the middle. *)
Definition round_div (a b : Z) : Z :=
  let q := a / b in
  match (2 * (a mod b)) ?= b with Lt => q | Gt => q + 1 | Eq => if Z.even q then q else q + 1 end.
(* m * 2 ^ e in millionths, for e from -1074 on, as printf rounds it (exactly, to even in the middle). *)
Definition millionths (m : positive) (e : Z) : Z := round_div (Zpos m * 2 ^ (e + 1074) * 10 ^ 6) (2 ^ 1074).

Definition minus (s : bool) : text := if s then ["-"%char] else [].
(* n millionths with six digits after the point. *)
Definition fixed (n : Z) : text := show (n / 10 ^ 6) ++ "."%char :: map (fun k => digit (n / 10 ^ k mod 10)) [5; 4; 3; 2; 1; 0].
(* std::to_string(double), which is printf's %f (the sign of NaN is left out). *)
Definition to_string (x : double) : text :=
  match x with
  | S754_zero s => minus s ++ fixed 0
  | S754_infinity s => minus s ++ list_ascii_of_string "inf"
  | S754_nan => list_ascii_of_string "nan"
  | S754_finite s m e => minus s ++ fixed (millionths m e)
  end.

Section Barcode.
  Variable weight : Z -> double.        (* the double that a weight of the model stands for *)
  (* Pipes/fastPersistence.cpp:143, 146 and 225: one line of bettiOutput.  In dimension 0 the birth is the character 0. *)
  Definition bar_text (l : nat * Z * Z) : text :=
    match fst (fst l) with
    | O => list_ascii_of_string "0,0," ++ to_string (weight (snd l)) ++ [newline]
    | d => show (Z.of_nat d) ++ comma :: to_string (weight (snd (fst l))) ++ comma :: to_string (weight (snd l)) ++ [newline]
    end.
  (* Utils/writeOutput.cpp:37-41 writeOutput::writeBarcodes and 86-94 writeCSV with a header. *)
  Definition barcode_text (lines : list (nat * Z * Z)) : text := barcode_header ++ concat (map bar_text lines).
End Barcode.
