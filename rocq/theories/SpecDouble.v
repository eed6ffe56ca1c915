(* SpecDouble.v -- vocabulary for the statements about double arithmetic. *)
From Coq Require Import List Arith ZArith Bool Relations SpecFloat.
From Verif Require Import Base SpecGraph SpecPipe DoubleModel.
Import ListNotations.

Definition is_number (x : spec_float) : Prop := x <> S754_nan.
Definition is_finite (x : spec_float) : Prop := match x with S754_zero _ | S754_finite _ _ _ => True | _ => False end.
(* Zero, a number above zero, or infinity; the sign bit is not set. *)
Definition non_negative (x : spec_float) : Prop := match x with S754_zero s | S754_finite s _ _ | S754_infinity s => s = false | S754_nan => False end.
(* A double has 53 bits, and its last bit is worth at least 2 ^ (-1074) and at most 2 ^ 971. *)
Definition fits (x : spec_float) : Prop := match x with S754_finite _ m e => (Zpos m < 2 ^ 53)%Z /\ (-1074 <= e <= 971)%Z | _ => True end.
Definition is_zero (x : spec_float) : Prop := match x with S754_zero _ => True | _ => False end.

(* What is asked of pow(x, 2): it does not see the sign, it is a number from 0 on, and its value at zero is zero. *)
Record squares (square : spec_float -> spec_float) : Prop := {
  sq_even : forall x, square (SFopp x) = square x;
  sq_number : forall x, is_number x -> non_negative (square x);
  sq_fits : forall x, fits (square x);
  sq_nan : square S754_nan = S754_nan;
  sq_zero : forall s, square (S754_zero s) = S754_zero false }.

(* The place of a double in the order of the doubles, as a whole number: first the exponent counts, then the 53 bits.
   Zero is at place 0 with either sign; what is not a number is put there too. *)
Definition rank (x : spec_float) : Z :=
  (match x with
   | S754_zero _ | S754_nan => 0
   | S754_finite s m e => (if s then -1 else 1) * ((e + 1074) * 2 ^ 53 + Zpos m)
   | S754_infinity s => (if s then -1 else 1) * 2 ^ 65
   end)%Z.

(* The distance of points whose coordinates are given as whole numbers that stand for doubles. *)
Definition double_dist (square : double -> double) (decode : Z -> double) (a b : list Z) : Z :=
  match d_distance square (map decode a) (map decode b) with Ok v => rank v | UB => 0%Z end.

Section Points.
  Variable square : double -> double.
  Variable cloud : list (list double).
  (* The distance between the u-th and the v-th point is w. *)
  Definition apart (u v : nat) (w : double) : Prop :=
    exists x y, nth_error cloud u = Some x /\ nth_error cloud v = Some y /\ d_distance square x y = Ok w.
  (* The comparison of a distance with the threshold: strict in the tree, not in the array list. *)
  Definition within (c : cx_type) (eps w : double) : Prop :=
    match c with Tree => SFltb w eps = true | ArrayList => SFleb w eps = true end.
  (* The points fall into n clusters at scale t, if points that are within the threshold and at most t apart are joined. *)
  Definition double_clusters (c : cx_type) (eps t : double) (n : nat) : Prop :=
    classes (seq 0 (length cloud))
      (clos_refl_sym_trans nat (fun u v => u < v /\ exists w, apart u v w /\ within c eps w /\ SFleb w t = true)) n.
End Points.
