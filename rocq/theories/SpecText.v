(* SpecText.v -- vocabulary for the statements about numbers as text. *)
From Coq Require Import String Ascii List Arith ZArith Bool SpecFloat.
From Verif Require Import Base IoModel DoubleModel SpecDouble.
Import ListNotations.
Local Open Scope Z_scope.
Local Open Scope list_scope.

(* Digits, and the number they stand for. *)
Definition is_digit (c : ascii) : Prop := (48 <= nat_of_ascii c <= 57)%nat.
Definition number_of_digits (t : text) : Z := fold_left (fun n c => 10 * n + (Z.of_nat (nat_of_ascii c) - 48)) t 0.
(* The text is the number n, without leading zeros. *)
Definition reads_number (t : text) (n : Z) : Prop :=
  t <> [] /\ Forall is_digit t /\ number_of_digits t = n /\ (hd "0"%char t = "0"%char -> t = ["0"%char]).
(* The text has six digits after the point, and n is the number without the point; a minus stands before it if neg. *)
Definition reads_millionths (t : text) (neg : bool) (n : Z) : Prop :=
  exists whole frac, t = (if neg then ["-"%char] else []) ++ whole ++ "."%char :: frac /\ length frac = 6%nat /\
    reads_number whole (n / 10 ^ 6) /\ Forall is_digit frac /\ number_of_digits (whole ++ frac) = n.

(* A finite double is a multiple of 2 ^ (-1074); this is the multiple, without the sign. *)
Definition units (x : double) : Z := match x with S754_finite _ m e => Zpos m * 2 ^ (e + 1074) | _ => 0 end.
Definition negative (x : double) : bool := match x with S754_zero s | S754_finite s _ _ | S754_infinity s => s | S754_nan => false end.
(* n millionths are nearest to the double, and n is even if the double is in the middle. *)
Definition nearest_millionths (x : double) (n : Z) : Prop :=
  2 * Z.abs (n * 2 ^ 1074 - units x * 10 ^ 6) <= 2 ^ 1074 /\
  (2 * Z.abs (n * 2 ^ 1074 - units x * 10 ^ 6) = 2 ^ 1074 -> Z.even n = true).

(* The way a double is stored: 53 bits, unless it is too small for that. *)
Definition canonical (x : double) : Prop :=
  match x with S754_finite _ m e => Zpos m < 2 ^ 53 /\ -1074 <= e <= 971 /\ (e = -1074 \/ 2 ^ 52 <= Zpos m) | _ => True end.
(* The double at a place (see rank), for places from 0 on. *)
Definition at_place (z : Z) : double :=
  if z <=? 0 then S754_zero false else if z <? 2 ^ 65 then S754_finite false (Z.to_pos (z mod 2 ^ 53)) (z / 2 ^ 53 - 1074)
  else S754_infinity false.
