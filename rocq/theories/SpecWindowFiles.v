(* SpecWindowFiles.v -- vocabulary for the statement about the files of the sliding window. *)
From Coq Require Import String List Arith ZArith DecimalString.
From Verif Require Import DebugModel.
Import ListNotations.

(* The k-th file: its name, a line for every vector, and an empty line. *)
Definition vectors_file (k : nat) (vectors : list (list Z)) : string * list row :=
  (("output/SlidingWindow_" ++ NilEmpty.string_of_uint (Nat.to_uint k) ++ "_output.csv")%string, (map RNumbers vectors ++ [RText ""%string])%list).
(* How many files a stream of n vectors leaves: none up to 200, then one for every full hundred and one for the rest. *)
Definition window_files (n : nat) : nat := if (n <? 200)%nat then 0 else (n / 100 - 2) + (if n mod 100 =? 0 then 0 else 1)%nat.
