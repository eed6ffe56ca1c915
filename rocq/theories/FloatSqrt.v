(* FloatSqrt.v -- the rounded square root of a rounded square is not below the number (C104). *)
From Coq Require Import ZArith Lia Reals Psatz SpecFloat.
From Flocq Require Import Core BinarySingleNaN.
From Verif Require Import FloatFacts.
Local Open Scope R_scope.

Local Instance valid_fe : Valid_exp fe := fexp_correct 53 1024 Hprec.
Lemma fe_val e : fe e = Z.max (e - 53) (-1074).
Proof. reflexivity. Qed.
Lemma bpow2 k : bpow radix2 (k + k) = bpow radix2 k * bpow radix2 k.
Proof. apply bpow_plus. Qed.
Lemma bpow_S k : bpow radix2 (k + 1) = 2 * bpow radix2 k.
Proof. rewrite bpow_plus, Rmult_comm. reflexivity. Qed.
Lemma rnd_half x : Rabs (rnd x - x) <= / 2 * ulp radix2 fe x.
Proof. apply error_le_half_ulp. exact valid_fe. Qed.
Lemma pred_pos_val b k : bpow radix2 k < b < bpow radix2 (k + 1) -> pred radix2 fe b = b - bpow radix2 (fe (k + 1)).
Proof.
  intros H. assert (P := bpow_gt_0 radix2 k). assert (M : mag radix2 b = (k + 1)%Z :> Z) by (apply mag_unique_pos; replace (k + 1 - 1)%Z with k by lia; lra).
  rewrite pred_eq_pos by lra. unfold pred_pos. rewrite M. replace (k + 1 - 1)%Z with k by lia. rewrite Req_bool_false by lra.
  rewrite ulp_neq_0 by lra. unfold cexp. now rewrite M.
Qed.
Lemma sqrt_square_normal b : generic_format radix2 fe b -> bpow radix2 (-511) <= b -> b <= rnd (sqrt (rnd (b * b))).
Proof.
  intros F L. assert (P0 := bpow_gt_0 radix2 (-511)). assert (Pb : 0 < b) by lra.
  destruct (mag radix2 b) as (k1 & Hk). assert (B := Hk ltac:(lra)). clear Hk. rewrite Rabs_pos_eq in B by lra.
  set (k := (k1 - 1)%Z) in *. replace k1 with (k + 1)%Z in B by lia. set (s := bpow radix2 k) in *. assert (Ps : 0 < s) by apply bpow_gt_0.
  assert (Kk : (-511 <= k)%Z). { apply Z.lt_succ_r. apply (lt_bpow radix2). unfold Z.succ. lra. }
  destruct (Req_dec b s) as [E|E].
  - rewrite E. assert (Q : rnd (s * s) = s * s). { apply round_generic; [apply valid_rnd_N|]. unfold s. rewrite <- bpow2. apply generic_format_bpow. rewrite fe_val. lia. }
    rewrite Q, sqrt_square by lra. rewrite round_generic; [lra|apply valid_rnd_N|]. rewrite <- E. exact F.
  - assert (Pr : pred radix2 fe b = b - bpow radix2 (fe (k + 1))) by (apply pred_pos_val; fold s; lra).
    set (h := bpow radix2 (k - 53)). assert (Ph : 0 < h) by apply bpow_gt_0.
    assert (Ef : bpow radix2 (fe (k + 1)) = 2 * h). { rewrite fe_val. replace (Z.max (k + 1 - 53) (-1074)) with (k - 53 + 1)%Z by lia. apply bpow_S. }
    assert (Hs : 4 * h <= s). { unfold h, s. replace k with (k - 53 + 1 + 1 + 51)%Z at 2 by lia. rewrite bpow_plus, !bpow_S. fold h.
      assert (1 <= bpow radix2 51) by (change 1 with (bpow radix2 0); apply bpow_le; lia). nra. }
    apply round_N_ge_midp; [exact valid_fe|exact F|]. rewrite Pr, Ef.
    assert (Er : Rabs (rnd (b * b) - b * b) < 2 * b * h - h * h).
    { eapply Rle_lt_trans; [apply rnd_half|]. rewrite ulp_neq_0 by nra. unfold cexp.
      rewrite bpow_S in B. fold s in B.
      destruct (Rlt_le_dec (b * b) (2 * s * s)) as [C|C].
      - assert (M : mag radix2 (b * b) = (k + k + 1)%Z :> Z).
        { apply mag_unique_pos. replace (k + k + 1 - 1)%Z with (k + k)%Z by lia. rewrite bpow_S, bpow2. fold s. split; nra. }
        rewrite M, fe_val. replace (Z.max (k + k + 1 - 53) (-1074)) with (k + (k - 53) + 1)%Z by lia. rewrite bpow_S, bpow_plus. fold s h. nra.
      - assert (M : mag radix2 (b * b) = (k + k + 1 + 1)%Z :> Z).
        { apply mag_unique_pos. replace (k + k + 1 + 1 - 1)%Z with (k + k + 1)%Z by lia. rewrite !bpow_S, bpow2. fold s. split; nra. }
        rewrite M, fe_val. replace (Z.max (k + k + 1 + 1 - 53) (-1074)) with (k + (k - 53) + 1 + 1)%Z by lia. rewrite !bpow_S, bpow_plus. fold s h.
        assert (D : 7 / 5 * s <= b) by nra. nra. }
    apply Rabs_def2 in Er. replace ((b + (b - 2 * h)) / 2) with (b - h) by lra. rewrite <- (sqrt_square (b - h)) by lra. apply sqrt_lt_1; nra.
Qed.
Lemma sqrt_square_small s : generic_format radix2 fe s -> 0 <= s -> rnd (sqrt s) < bpow radix2 (-511) -> s <= rnd (rnd (sqrt s) * rnd (sqrt s)).
Proof.
  intros F Ns L. destruct (Req_dec s 0) as [->|Z].
  { rewrite sqrt_0, rnd_0, Rmult_0_l, rnd_0. lra. }
  assert (Ps : 0 < s) by lra. set (b := rnd (sqrt s)) in *. assert (Pr := sqrt_lt_R0 s Ps).
  assert (Ls : sqrt s < bpow radix2 (-511)).
  { apply Rnot_le_lt. intros H. apply rnd_le in H. fold b in H. rewrite round_generic in H; [lra|apply valid_rnd_N|]. apply generic_format_bpow. rewrite fe_val. lia. }
  assert (Pb : 0 <= b) by (apply rnd_nonneg; lra).
  assert (Er : Rabs (b - sqrt s) <= bpow radix2 (-565)).
  { eapply Rle_trans; [apply rnd_half|]. rewrite ulp_neq_0 by lra. unfold cexp. replace (-565)%Z with (-1 + -564)%Z by lia. rewrite (bpow_plus radix2 (-1) (-564)). change (bpow radix2 (-1)) with (/ 2).
    apply Rmult_le_compat_l; [lra|]. apply bpow_le. assert (M : (mag radix2 (sqrt s) <= -511)%Z) by (apply mag_le_bpow; [lra|rewrite Rabs_pos_eq; lra]). rewrite fe_val. lia. }
  assert (D : s - b * b < bpow radix2 (-1075)).
  { replace (-1075)%Z with (-565 + (-511 + 1))%Z by lia. rewrite (bpow_plus radix2 (-565)), bpow_S. set (u := bpow radix2 (-565)) in *. set (w := bpow radix2 (-511)) in *. assert (Pu : 0 < u) by apply bpow_gt_0.
    rewrite <- (sqrt_sqrt s) at 1 by lra. assert (A := Rle_abs (- (b - sqrt s))). rewrite Rabs_Ropp in A. nra. }
  apply round_N_ge_midp; [exact valid_fe|exact F|].
  assert (Q : pred radix2 fe s <= s - bpow radix2 (-1074)).
  { rewrite pred_eq_pos by lra. unfold pred_pos. destruct (Req_bool_spec s (bpow radix2 (mag radix2 s - 1))).
    - assert (bpow radix2 (-1074) <= bpow radix2 (fe (mag radix2 s - 1))) by (apply bpow_le; rewrite fe_val; lia). lra.
    - rewrite ulp_neq_0 by lra. unfold cexp. assert (bpow radix2 (-1074) <= bpow radix2 (fe (mag radix2 s))) by (apply bpow_le; rewrite fe_val; lia). lra. }
  assert (E : bpow radix2 (-1074) = 2 * bpow radix2 (-1075)) by (rewrite <- bpow_S; reflexivity). lra.
Qed.
(* What a distance is compared with. *)
Lemma sqrt_square_ge s : generic_format radix2 fe s -> 0 <= s -> rnd (sqrt s) <= rnd (sqrt (rnd (rnd (sqrt s) * rnd (sqrt s)))).
Proof.
  intros F N. destruct (Rlt_le_dec (rnd (sqrt s)) (bpow radix2 (-511))) as [L|L].
  - apply rnd_le, sqrt_le_1_alt, sqrt_square_small; auto.
  - apply sqrt_square_normal; [|exact L]. apply generic_format_round; [exact valid_fe|apply valid_rnd_N].
Qed.
