(* SpecRead.v -- vocabulary for the statements about text as numbers. *)
From Coq Require Import String Ascii List Arith ZArith Bool SpecFloat.
From Verif Require Import Base IoModel DoubleModel SpecDouble SpecText.
Import ListNotations.
Local Open Scope Z_scope.
Local Open Scope list_scope.

(* A sign, or none. *)
Definition sign_text (t : text) (neg : bool) : Prop := (t = [] /\ neg = false) \/ (t = ["+"%char] /\ neg = false) \/ (t = ["-"%char] /\ neg = true).
(* An exponent, or none. *)
Definition exponent_text (t : text) (x : Z) : Prop :=
  (t = [] /\ x = 0) \/
  exists c s neg ds, t = c :: s ++ ds /\ (c = "e"%char \/ c = "E"%char) /\ sign_text s neg /\ ds <> [] /\ Forall is_digit ds /\
    x = if neg then - number_of_digits ds else number_of_digits ds.
(* The text is the decimal number n * 10 ^ x, with a minus before it if neg: digits, perhaps a point among them, perhaps an
   exponent behind them. *)
Definition decimal_text (t : text) (neg : bool) (n x : Z) : Prop :=
  exists s a p b ex y, t = s ++ a ++ p ++ b ++ ex /\ sign_text s neg /\ Forall is_digit a /\ Forall is_digit b /\ a ++ b <> [] /\
    (p = ["."%char] \/ (p = [] /\ b = [])) /\ exponent_text ex y /\ n = number_of_digits (a ++ b) /\ x = y - Z.of_nat (length b).

(* The distance of the size of a double from num / den, in units of 2 ^ (-1074) / den. *)
Definition off (num den : Z) (y : double) : Z := Z.abs (units y * den - num * 2 ^ 1074).
(* Among the doubles y is nearest to num / den, and its last bit is 0 if another one is as near. *)
Definition nearest_double (num den : Z) (y : double) : Prop :=
  is_finite y /\ canonical y /\
  forall z, is_finite z -> canonical z -> off num den y <= off num den z /\
    (off num den z = off num den y -> units z = units y \/ match y with S754_finite _ m _ => Z.even (Zpos m) = true | _ => True end).
(* num / den is between 2 ^ (-1022), the smallest double with 53 bits, and the largest double. *)
Definition in_range (num den : Z) : Prop := den <= num * 2 ^ 1022 /\ num <= (2 ^ 53 - 1) * 2 ^ 971 * den.
(* The fraction that n * 10 ^ x is. *)
Definition numerator (n x : Z) : Z := n * 10 ^ Z.max 0 x.
Definition denominator (x : Z) : Z := 10 ^ Z.max 0 (- x).
(* The text is a decimal number in the range of the doubles with 53 bits, and y is the double nearest to it. *)
Definition stands_for (t : text) (y : double) : Prop :=
  exists neg n x, decimal_text t neg n x /\ (n = 0 \/ in_range (numerator n x) (denominator x)) /\
    nearest_double (numerator n x) (denominator x) y /\ negative y = neg.
(* Blanks as isspace has them, and what cannot go on a number. *)
Definition is_space (c : ascii) : Prop := (9 <= nat_of_ascii c <= 13)%nat \/ nat_of_ascii c = 32%nat.
Definition ends_number (t : text) : Prop :=
  match t with c :: _ => ~ is_digit c /\ c <> "."%char /\ c <> "e"%char /\ c <> "E"%char | [] => True end.
(* The text starts, behind blanks and a sign, with no number, infinity or NaN. *)
Definition no_number (t : text) : Prop :=
  exists bl s neg r, t = bl ++ s ++ r /\ Forall is_space bl /\ sign_text s neg /\
    match r with
    | c :: _ => ~ is_digit c /\ c <> "."%char /\ ~ In c ["i"; "I"; "n"; "N"]%char /\ (s = [] -> ~ is_space c /\ c <> "-"%char /\ c <> "+"%char)
    | [] => True
    end.
