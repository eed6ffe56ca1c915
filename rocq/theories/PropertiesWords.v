(* PropertiesWords.v -- C93: the words that stand for numbers. *)
From Coq Require Import String Ascii List Arith ZArith Bool Lia SpecFloat.
From Verif Require Import Base IoModel DoubleModel SpecDouble ReadModel SpecRead ReadProofs ReadRest SpecWords.
Import ListNotations.
Local Open Scope list_scope.

(* C93: blanks, a sign, inf or nan in small or capital letters, and anything: the infinity with that sign, or NaN.  Neither
   std::stod nor std::atof takes it for an error. *)
Theorem C93_infinity_and_nan : forall bl s neg w rest, Forall is_space bl -> sign_text s neg ->
  (infinity_word w -> stod (bl ++ s ++ w ++ rest) = Some (S754_infinity neg) /\ atof (bl ++ s ++ w ++ rest) = S754_infinity neg) /\
  (nan_word w -> stod (bl ++ s ++ w ++ rest) = Some S754_nan /\ atof (bl ++ s ++ w ++ rest) = S754_nan).
Proof.
  intros bl s neg w rest Hb Hs.
  split; intros (a & b & c & -> & [-> | ->] & [-> | ->] & [-> | ->]); unfold stod, atof, strtod;
    rewrite (skip_blanks_app _ _ Hb), (sign_no_blank s neg _ Hs) by (intros; reflexivity);
    rewrite (sign_take s neg _ Hs) by (split; discriminate); split; reflexivity.
Qed.
Print Assumptions C93_infinity_and_nan.

Local Notation txt s := (list_ascii_of_string s).
(* The long word is read by its first letters; other words and the first two letters alone are no numbers. *)
Example C93_words_ex :
  infinity_word (txt "InF") /\ nan_word (txt "NAN") /\ Forall is_space (txt "  ") /\ sign_text (txt "-") true /\
  stod (txt "  -InFinity,") = Some (S754_infinity true) /\ stod (txt "+NAN") = Some S754_nan /\ atof (txt "INF") = S754_infinity false /\
  stod (txt "in") = None /\ stod (txt "no") = None.
Proof.
  repeat split; try (vm_compute; reflexivity).
  - exists "I"%char, "n"%char, "F"%char. unfold is_letter. auto.
  - exists "N"%char, "A"%char, "N"%char. unfold is_letter. auto.
  - repeat constructor; right; reflexivity.
  - right; right. auto.
Qed.
Print Assumptions C93_words_ex.
