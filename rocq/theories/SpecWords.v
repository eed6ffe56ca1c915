(* SpecWords.v -- vocabulary for the statements about the words that stand for numbers. *)
From Coq Require Import Ascii List.
From Verif Require Import Base IoModel.
Import ListNotations.

(* The text is the word inf, or nan, each of its letters small or capital. *)
Definition is_letter (small capital c : ascii) : Prop := c = small \/ c = capital.
Definition infinity_word (w : text) : Prop :=
  exists a b c, w = [a; b; c] /\ is_letter "i" "I" a /\ is_letter "n" "N" b /\ is_letter "f" "F" c.
Definition nan_word (w : text) : Prop :=
  exists a b c, w = [a; b; c] /\ is_letter "n" "N" a /\ is_letter "a" "A" b /\ is_letter "n" "N" c.
