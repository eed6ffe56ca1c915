(* PropertiesError.v -- C105: how far a computed distance is from the true Euclidean distance. *)
From Coq Require Import List Arith ZArith Reals Lra SpecFloat.
From Verif Require Import Base DoubleModel SpecDouble SpecText SpecKdDouble SpecError FloatError.
Import ListNotations.
Local Open Scope R_scope.

(* C105: for points with n finite coordinates, the square of the computed distance is the square of the true distance up
   to n + 5 relative errors of 2 ^ (-53) and n absolute errors of 2 ^ (-1075); it is finite unless the true square, with
   these errors, reaches 2 ^ 1024. *)
Theorem C105_distance_error : forall x y w,
  length x = length y -> Forall coordinate_ok x -> Forall coordinate_ok y -> distance_is x y w ->
  let n := length x in
  (is_finite w ->
     (1 - unit_error) ^ (n + 5) * true_square x y - INR n * underflow_error <= real_value w ^ 2 <=
     (1 + unit_error) ^ (n + 5) * (true_square x y + INR n * underflow_error)) /\
  ((1 + unit_error) ^ (n + 3) * (true_square x y + INR n * underflow_error) < powerRZ 2 1024 -> is_finite w).
Proof. exact distance_error. Qed.
Print Assumptions C105_distance_error.

(* The points (0, 0.5) and (3, 4.5): the true square is 25 and the computed distance 5. *)
Definition origin2 : list double := [S754_zero true; S754_finite false (2 ^ 52) (-53)].
Definition other2 : list double := [S754_finite false (3 * 2 ^ 51) (-51); S754_finite false (9 * 2 ^ 49) (-50)].
Definition five2 : double := S754_finite false (5 * 2 ^ 50) (-50).
Example C105_ex : Forall coordinate_ok origin2 /\ Forall coordinate_ok other2 /\ distance_is origin2 other2 five2 /\ is_finite five2 /\
  true_square origin2 other2 = 25 /\ real_value five2 = 5.
Proof.
  split; [constructor; [split; exact I|constructor; [split; [vm_compute; intuition discriminate|exact I]|constructor]]|].
  split; [constructor; [split; [vm_compute; intuition discriminate|exact I]|constructor; [split; [vm_compute; intuition discriminate|exact I]|constructor]]|].
  split; [vm_compute; reflexivity|]. split; [exact I|].
  assert (P : forall (m : positive) (k : nat) v, IZR (Zpos m) = v * 2 ^ k -> 1 * IZR (Zpos m) * powerRZ 2 (- Z.of_nat k) = v).
  { intros m k v ->. rewrite Rmult_1_l, powerRZ_neg', <- pow_powerRZ. field. apply pow_nonzero. lra. }
  assert (A : real_value (S754_finite false (2 ^ 52) (-53)) = / 2) by (apply (P _ 53%nat); cbn; lra).
  assert (B : real_value (S754_finite false (3 * 2 ^ 51) (-51)) = 3) by (apply (P _ 51%nat); cbn; lra).
  assert (C : real_value (S754_finite false (9 * 2 ^ 49) (-50)) = 9 / 2) by (apply (P _ 50%nat); cbn; lra).
  split; [|apply (P _ 50%nat); cbn; lra]. unfold true_square, origin2, other2. cbn [combine map fold_right fst snd]. rewrite A, B, C. cbn [real_value]. lra.
Qed.
