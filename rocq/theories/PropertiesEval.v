(* PropertiesEval.v -- C112: which vectors the sliding window admits, in double arithmetic. *)
From Coq Require Import List Arith ZArith Reals Lra Lia Bool SpecFloat.
From Verif Require Import Base DoubleModel SpecDouble SpecKdDouble SpecError FloatFacts KdDouble FloatError EvalDoubleModel SpecEvalDouble EvalDouble.
Import ListNotations.
Local Open Scope R_scope.

(* C112: a window with one partition, as it is until the first vector is admitted.  For every window, every list of 200 finite
   nearest-neighbour distances whose average is below 2 ^ 1016, and every vector at finite distances from the points of the window, the
   decision is that of the exact rule unless the distance or the average is within a relative error of 2 ^ (-43) of a threshold. *)
Theorem C112_admission_in_double_arithmetic : forall square window nnDists v ws,
  window <> [] -> distances_from square v window ws ->
  length nnDists = 200%nat -> Forall (fun w => coordinate_ok w /\ non_negative w) nnDists -> exact_average nnDists < powerRZ 2 1016 ->
  exists d answer, smallest ws d /\ pure_evaluator square window nnDists v = Ok answer /\
    (clearly_turned_away (powerRZ 2 (-43)) (powerRZ 2 (-1073)) (exact_average nnDists) d -> answer = false) /\
    (clearly_admitted (powerRZ 2 (-43)) (powerRZ 2 (-1073)) (exact_average nnDists) d -> answer = true).
Proof. intros square window nnDists v ws W D L F B. exact (pure_decision square window nnDists v ws W D L F B). Qed.
Print Assumptions C112_admission_in_double_arithmetic.

(* Without the room for errors the two conditions are each other's negation. *)
Theorem C112_rule_without_rounding : forall A d, 0 <= A -> 0 <= d -> (clearly_turned_away 0 0 A d <-> ~ clearly_admitted 0 0 A d).
Proof.
  intros A d HA Hd. unfold clearly_turned_away, clearly_admitted. split.
  - intros [K|[[K1 K2]|[K1 K2]]] (H1 & [H2|H2] & H3); lra.
  - intros K. destruct (Req_dec d 0) as [Z|Z]; [now left|right]. destruct (Rle_lt_dec d (4 * A)) as [L|L]; [right; lra|left].
    destruct (Rle_lt_dec A (1 / 4)) as [L1|L1]; [|exfalso; apply K; lra]. destruct (Rle_lt_dec d 1) as [L2|L2]; [lra|exfalso; apply K; lra].
Qed.
Print Assumptions C112_rule_without_rounding.

Definition zero_window : list (list double) := [[d_zero]].
Lemma repeat_average x : exact_average (repeat x 200) = real_value x.
Proof.
  unfold exact_average. rewrite repeat_length. assert (E : forall n, fold_right Rplus 0 (map real_value (repeat x n)) = INR n * real_value x).
  { induction n as [|n IH]; [cbn; lra|]. rewrite S_INR. cbn [repeat map fold_right]. rewrite IH. ring. }
  rewrite E. field. apply not_0_INR. discriminate.
Qed.
Lemma fine_repeat x n : coordinate_ok x -> non_negative x -> Forall (fun w => coordinate_ok w /\ non_negative w) (repeat x n).
Proof. intros O P. apply Forall_forall. intros y Hy. apply repeat_spec in Hy. subst y. auto. Qed.
Lemma value_of m e n : (0 <= n)%Z -> e = (- n)%Z -> real_value (S754_finite false m e) = IZR (Zpos m) / IZR (2 ^ n).
Proof.
  intros H ->. cbn [real_value]. replace (IZR (2 ^ n)) with (powerRZ 2 n).
  - rewrite powerRZ_neg'. unfold Rdiv. ring.
  - rewrite <- (Z2Nat.id n H). generalize (Z.to_nat n). intros k. rewrite <- pow_powerRZ. apply pow_IZR.
Qed.
Lemma few_1016 x : x <= 4 -> x < powerRZ 2 1016.
Proof. intros H. apply Rle_lt_trans with 4; [exact H|]. replace 4 with (powerRZ 2 2) by (unfold powerRZ; change (Pos.to_nat 2) with 2%nat; lra). change 1016%Z with (2 + 1014)%Z. rewrite powerRZ_add by lra. rewrite <- (Rmult_1_r (powerRZ 2 2)) at 1.
  apply Rmult_lt_compat_l; [apply powerRZ_lt; lra|]. change 1014%Z with (1 + 1013)%Z. rewrite powerRZ_add by lra. rewrite powerRZ_1. assert (1 <= powerRZ 2 1013); [|lra]. rewrite <- (Z2Nat.id 1013) by lia. rewrite <- pow_powerRZ. apply pow_R1_Rle. lra. Qed.

(* The average is 1, and the only point of the window is at 0: the vector at 3 is turned away and the one at 5 is admitted. *)
Definition three : double := S754_finite false (3 * 2 ^ 51) (-51).
Definition five : double := S754_finite false (5 * 2 ^ 50) (-50).
Example C112_ex :
  zero_window <> [] /\ distances_from d_square [three] zero_window [three] /\ distances_from d_square [five] zero_window [five] /\
  Forall (fun w => coordinate_ok w /\ non_negative w) (repeat d_one 200) /\ exact_average (repeat d_one 200) = 1 /\ 1 < powerRZ 2 1016 /\
  clearly_turned_away (powerRZ 2 (-43)) (powerRZ 2 (-1073)) 1 (real_value three) /\ pure_evaluator d_square zero_window (repeat d_one 200) [three] = Ok false /\
  clearly_admitted (powerRZ 2 (-43)) (powerRZ 2 (-1073)) 1 (real_value five) /\ pure_evaluator d_square zero_window (repeat d_one 200) [five] = Ok true.
Proof.
  assert (C : forall x, In x [three; five; d_one] -> coordinate_ok x /\ non_negative x).
  { intros x [<-|[<-|[<-|[]]]]; (split; [split; [vm_compute; intuition discriminate|exact I]|reflexivity]). }
  assert (V3 : real_value three = 3) by (unfold three; rewrite (value_of _ _ 51) by lia; cbn; lra).
  assert (V5 : real_value five = 5) by (unfold five; rewrite (value_of _ _ 50) by lia; cbn; lra).
  assert (V1 : real_value d_one = 1) by (unfold d_one; rewrite (value_of _ _ 52) by lia; cbn; lra).
  assert (U := u_pos). assert (Us := u_small). assert (H := eta_pos). assert (HU : eta <= u) by (assert (K := eta_below_unit); exact K).
  split; [discriminate|]. split. { constructor; [|constructor]. split; [vm_compute; reflexivity|]. apply C. cbn; auto. }
  split. { constructor; [|constructor]. split; [vm_compute; reflexivity|]. apply C. cbn; auto. }
  split. { apply fine_repeat; apply C; cbn; auto. } split. { rewrite repeat_average. exact V1. } split; [apply few_1016; lra|].
  rewrite V3, V5, u_1024, eta_4. split. { right; right. lra. } split; [vm_compute; reflexivity|]. split. { split; [lra|]. split; [right; lra|lra]. } vm_compute; reflexivity.
Qed.

(* With the average 1.1 and a vector at the distance 4.4, four times as much, the exact rule turns it away; the program, which computes
   1.0999999999999963 as the average, admits it. *)
Definition eleven_tenths : double := S754_finite false 4953959590107546 (-52).
Definition four_times : double := S754_finite false 4953959590107546 (-50).
Theorem C112_exact_rule_refuted : exists v ws d nnDists,
  distances_from d_square v zero_window ws /\ smallest ws d /\ length nnDists = 200%nat /\ Forall (fun w => coordinate_ok w /\ non_negative w) nnDists /\
  clearly_turned_away 0 0 (exact_average nnDists) d /\ pure_evaluator d_square zero_window nnDists v = Ok true.
Proof.
  assert (C : forall x, In x [eleven_tenths; four_times] -> coordinate_ok x /\ non_negative x).
  { intros x [<-|[<-|[]]]; (split; [split; [vm_compute; intuition discriminate|exact I]|reflexivity]). }
  assert (V1 : real_value eleven_tenths = 4953959590107546 / 4503599627370496) by (unfold eleven_tenths; rewrite (value_of _ _ 52) by lia; reflexivity).
  assert (V2 : real_value four_times = 4953959590107546 / 1125899906842624) by (unfold four_times; rewrite (value_of _ _ 50) by lia; reflexivity).
  exists [four_times], [four_times], (real_value four_times), (repeat eleven_tenths 200).
  split. { constructor; [|constructor]. split; [vm_compute; reflexivity|]. apply C. cbn; auto. }
  split. { split; [exists four_times; split; [now left|reflexivity]|]. intros w [<-|[]]. lra. }
  split; [reflexivity|]. split. { apply fine_repeat; apply C; cbn; auto. }
  split. { rewrite repeat_average, V1, V2. right; right. split; lra. } vm_compute. reflexivity.
Qed.
Print Assumptions C112_exact_rule_refuted.
