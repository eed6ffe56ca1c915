(* FloatError.v -- how far computed distances are from the true ones (C105). *)
From Coq Require Import List Arith ZArith Bool Lia SpecFloat Reals Psatz.
From Flocq Require Import Core BinarySingleNaN Relative Plus_error.
From Verif Require Import Base UtilsModel DoubleModel SpecDouble DoubleProofs SpecText FloatFacts FloatSqrt SpecKdDouble KdDouble SpecError.
Import ListNotations.
Local Open Scope R_scope.

Notation u := unit_error.
Notation eta := underflow_error.
Lemma u_val : u = / 2 * bpow radix2 (-53 + 1).
Proof. unfold unit_error. change 2%R with (IZR radix2) at 1. rewrite <- bpow_powerRZ. replace (-53)%Z with (-1 + (-53 + 1))%Z at 1 by lia. rewrite bpow_plus. reflexivity. Qed.
Lemma eta_val : eta = / 2 * bpow radix2 (-1074).
Proof. unfold underflow_error. change 2%R with (IZR radix2) at 1. rewrite <- bpow_powerRZ. replace (-1075)%Z with (-1 + -1074)%Z by lia. rewrite bpow_plus. reflexivity. Qed.
Lemma u_pos : 0 < u < / 2.
Proof.
  rewrite u_val. assert (A := bpow_gt_0 radix2 (-53 + 1)). assert (B : bpow radix2 (-53 + 1) < 1) by (change 1 with (bpow radix2 0); apply bpow_lt; lia). lra.
Qed.
Lemma eta_pos : 0 < eta.
Proof. rewrite eta_val. assert (A := bpow_gt_0 radix2 (-1074)). lra. Qed.
Lemma real_val x : is_finite x -> real_value x = val x.
Proof.
  destruct x as [s|s| |s m e]; intros F; try destruct F; [reflexivity|]. unfold real_value, val, SF2R, F2R. cbn [Fnum Fexp]. rewrite bpow_powerRZ. change (IZR radix2) with 2.
  destruct s; cbn [cond_Zopp]; [rewrite opp_IZR|]; ring.
Qed.
Lemma add_error x y : generic_format radix2 fe x -> generic_format radix2 fe y -> Rabs (rnd (x + y) - (x + y)) <= u * Rabs (x + y).
Proof.
  intros Fx Fy. destruct (@FLT_plus_error_N_ex radix2 (-1074) 53 Hprec (fun n => negb (Z.even n)) x y Fx Fy) as (e & He & E).
  change (FLT_exp (-1074) 53) with fe in E. rewrite E. replace ((x + y) * (1 + e) - (x + y)) with (e * (x + y)) by ring. rewrite Rabs_mult. apply Rmult_le_compat_r; [apply Rabs_pos|].
  eapply Rle_trans; [exact He|]. assert (Eu : u_ro radix2 53 = u) by (rewrite u_val; reflexivity). rewrite Eu. assert (P := u_pos).
  apply (Rmult_le_reg_r (1 + u)); [lra|]. unfold Rdiv. rewrite Rmult_assoc, Rinv_l by lra. nra.
Qed.
Lemma mul_error x : Rabs (rnd x - x) <= u * Rabs x + eta.
Proof.
  destruct (error_N_FLT radix2 (-1074) 53 eq_refl (fun n => negb (Z.even n)) x) as (e & h & He & Hh & _ & E). change (FLT_exp (-1074) 53) with fe in E. rewrite E.
  replace (x * (1 + e) + h - x) with (e * x + h) by ring. eapply Rle_trans; [apply Rabs_triang|]. rewrite Rabs_mult, eta_val, u_val. apply Rplus_le_compat; [|exact Hh]. apply Rmult_le_compat_r; [apply Rabs_pos|exact He].
Qed.
Lemma sqrt_error s : generic_format radix2 fe s -> 0 <= s -> Rabs (rnd (sqrt s) - sqrt s) <= u * sqrt s.
Proof.
  intros F N. destruct (Req_dec s 0) as [->|Z]; [rewrite sqrt_0, rnd_0, Rminus_0_r, Rabs_R0; lra|]. assert (P : 0 < s) by lra. assert (R := sqrt_lt_R0 s P).
  rewrite <- (Rabs_pos_eq (sqrt s)) at 3 by lra. rewrite u_val. apply (relative_error_N_FLT radix2 (-1074) 53 eq_refl (fun n => negb (Z.even n))). rewrite Rabs_pos_eq by lra.
  assert (G : bpow radix2 (-1074) <= s).
  { rewrite F in P |- *. unfold F2R in *. cbn [Fnum Fexp] in *. set (m := Ztrunc _) in *. set (e := cexp radix2 fe s) in *. assert (Pe := bpow_gt_0 radix2 e).
    assert (0 < m)%Z by (apply lt_IZR; nra). assert (1 <= IZR m) by (apply IZR_le; lia). assert (bpow radix2 (-1074) <= bpow radix2 e) by (apply bpow_le; unfold e, cexp; rewrite fe_val; lia). nra. }
  apply Rle_trans with (bpow radix2 (-537)); [apply bpow_le; lia|]. rewrite <- (sqrt_square (bpow radix2 (-537))) by apply bpow_ge_0. rewrite <- bpow2. apply sqrt_le_1_alt. exact G.
Qed.
(* one coordinate *)
Definition gap (p : double * double) : R := real_value (fst p) - real_value (snd p).
Lemma clamp_abs r : Rabs (clamp r) <= Rabs r.
Proof. assert (T := top_pos). unfold clamp, Rmax, Rmin, Rabs. repeat (destruct (Rle_dec _ _) || destruct (Rcase_abs _)); lra. Qed.
Lemma square_error x y : coordinate_ok x -> coordinate_ok y ->
  val (d_square (d_sub x y)) <= (1 + u) ^ 3 * gap (x, y) ^ 2 + eta /\
  (is_finite (d_square (d_sub x y)) -> (1 - u) ^ 3 * gap (x, y) ^ 2 - eta <= val (d_square (d_sub x y))).
Proof.
  intros Ox Oy. destruct (ok_spec x Ox) as (Vx & Fx & _). destruct (ok_spec y Oy) as (Vy & Fy & _). destruct (sub_spec x y Vx Vy Fx Fy) as (Vd & Nd & Ed).
  destruct (square_spec _ Vd Nd) as (Vq & Pq & Eq). set (d := d_sub x y) in *. unfold gap. cbn [fst snd]. rewrite !real_val by auto. set (g := val x - val y) in *.
  assert (U := u_pos). assert (H := eta_pos). assert (T := top_pos).
  assert (S := add_error (val x) (- val y) (format_val x Vx Fx) (generic_format_opp _ _ _ (format_val y Vy Fy))). change (val x + - val y) with g in S.
  assert (M := mul_error (val d * val d)). assert (Sq : 0 <= val d * val d) by apply Rle_0_sqr. rewrite (Rabs_pos_eq _ Sq) in M.
  assert (N := rnd_nonneg _ Sq). destruct (clamp_nonneg _ N) as [_ C2]. rewrite <- Eq in C2. apply Rabs_le_inv in M.
  assert (Sg : forall r, r ^ 2 = Rabs r ^ 2) by (intros r; unfold Rabs; destruct (Rcase_abs r); ring).
  assert (Ag := Rabs_pos g). assert (Ar := Rabs_pos (rnd g)).
  assert (B1 : Rabs (rnd g) <= (1 + u) * Rabs g /\ (1 - u) * Rabs g <= Rabs (rnd g)).
  { assert (A1 := Rabs_triang_inv (rnd g) g). assert (A2 := Rabs_triang_inv g (rnd g)). rewrite (Rabs_minus_sym g) in A2. split; lra. }
  split.
  - assert (D : val d * val d <= (1 + u) ^ 2 * g ^ 2).
    { replace (val d * val d) with (val d ^ 2) by ring. rewrite (Sg (val d)), (Sg g), Ed. assert (A := clamp_abs (rnd g)). assert (A' := Rabs_pos (clamp (rnd g))). nra. }
    assert (Q : val (d_square d) <= (1 + u) * (val d * val d) + eta) by lra. eapply Rle_trans; [exact Q|]. apply Rplus_le_compat_r. nra.
  - intros Fq. assert (Q := val_finite _ Vq Fq).
    assert (Fr : val (d_square d) = rnd (val d * val d)).
    { rewrite Eq. apply clamp_in. rewrite Rabs_pos_eq by exact N. destruct (Rlt_le_dec (rnd (val d * val d)) top) as [?|G]; [assumption|]. rewrite Eq, clamp_above, Rabs_pos_eq in Q by lra. lra. }
    assert (Fd : val d = rnd g).
    { destruct (number_cases d Nd) as [F|[s E]]; [|exfalso; rewrite E in Fq; destruct s; exact Fq]. assert (L := val_finite d Vd F). rewrite Ed in L |- *.
      destruct (Rlt_le_dec (Rabs (rnd g)) top) as [?|G]; [now apply clamp_in|exfalso].
      unfold Rabs in G at 1. destruct (Rcase_abs (rnd g)); [rewrite clamp_below, Rabs_Ropp in L by lra|rewrite clamp_above in L by lra]; rewrite Rabs_pos_eq in L; lra. }
    assert (D : (1 - u) ^ 2 * g ^ 2 <= val d * val d).
    { replace (val d * val d) with (val d ^ 2) by ring. rewrite (Sg (val d)), (Sg g), Fd, <- Rpow_mult_distr. apply pow_incr. split; [nra|lra]. }
    rewrite Fr. assert (Q2 : (1 - u) * (val d * val d) - eta <= rnd (val d * val d)) by lra. eapply Rle_trans; [|exact Q2]. apply Rplus_le_compat_r. nra.
Qed.
(* sums *)
Definition total (l : list R) : R := fold_right Rplus 0 l.
Lemma number_format x : valid x -> is_number x -> generic_format radix2 fe (val x).
Proof. intros V N. rewrite <- (rnd_val x V N). apply generic_format_round; [exact valid_fe|apply valid_rnd_N]. Qed.
Lemma below_top_finite x : valid x -> non_negative x -> val x < top -> is_finite x.
Proof. intros V P L. destruct (number_cases x (positive_number x P)) as [F|[s ->]]; [exact F|]. cbn in P. subst s. cbn [val] in L. lra. Qed.
Lemma add_bounds x y : valid x -> valid y -> non_negative x -> non_negative y ->
  val (d_add x y) <= (1 + u) * (val x + val y) /\ (val (d_add x y) < top -> (1 - u) * (val x + val y) <= val (d_add x y)).
Proof.
  intros Vx Vy Px Py. destruct (add_spec x y Vx Vy Px Py) as (_ & _ & E). assert (A := non_negative_val x Vx Px). assert (B := non_negative_val y Vy Py).
  assert (R := add_error _ _ (number_format x Vx (positive_number x Px)) (number_format y Vy (positive_number y Py))). rewrite (Rabs_pos_eq (val x + val y)) in R by lra. apply Rabs_le_inv in R.
  assert (N : 0 <= rnd (val x + val y)) by (apply rnd_nonneg; lra). destruct (clamp_nonneg _ N) as [_ C]. rewrite E. split; [lra|]. intros L.
  rewrite clamp_in; [lra|]. rewrite Rabs_pos_eq by exact N. destruct (Rlt_le_dec (rnd (val x + val y)) top) as [?|G]; [assumption|]. rewrite clamp_above in L; lra.
Qed.
Lemma sum_error l : forall x, valid x -> non_negative x -> Forall (fun y => valid y /\ non_negative y) l ->
  val (fold_left d_add l x) <= (1 + u) ^ length l * (val x + total (map val l)) /\
  (val (fold_left d_add l x) < top -> (1 - u) ^ length l * (val x + total (map val l)) <= val (fold_left d_add l x)).
Proof.
  assert (U := u_pos). induction l as [|z l IH]; intros x V P F; cbn [fold_left length map total fold_right pow]; [split; lra|]. inversion F as [|? ? [Vz Pz] F']; subst.
  destruct (add_spec x z V Vz P Pz) as (Va & _ & _). assert (Pa := add_non_negative x z P Pz). destruct (add_bounds x z V Vz P Pz) as [A1 A2].
  destruct (IH (d_add x z) Va Pa F') as [B1 B2]. destruct (sum_above l (d_add x z) Va Pa F') as (_ & _ & C & _).
  assert (T : 0 <= total (map val l)).
  { clear -F'. induction F' as [|y l [Vy Py] F IH]; cbn [map total fold_right]; [lra|]. assert (Q := non_negative_val y Vy Py). unfold total in IH. lra. }
  fold (total (map val l)). assert (Nx := non_negative_val x V P). assert (Nz := non_negative_val z Vz Pz). split.
  - eapply Rle_trans; [exact B1|]. assert (Q : 0 <= (1 + u) ^ length l) by (apply pow_le; lra).
    replace ((1 + u) * (1 + u) ^ length l * (val x + (val z + total (map val l)))) with ((1 + u) ^ length l * ((1 + u) * (val x + val z) + (1 + u) * total (map val l))) by ring.
    apply Rmult_le_compat_l; [exact Q|]. nra.
  - intros L. specialize (B2 L). specialize (A2 ltac:(lra)). eapply Rle_trans; [|exact B2]. assert (Q : 0 <= (1 - u) ^ length l) by (apply pow_le; lra).
    replace ((1 - u) * (1 - u) ^ length l * (val x + (val z + total (map val l)))) with ((1 - u) ^ length l * ((1 - u) * (val x + val z) + (1 - u) * total (map val l))) by ring.
    apply Rmult_le_compat_l; [exact Q|]. nra.
Qed.
Lemma total_error x : forall y, Forall coordinate_ok x -> Forall coordinate_ok y -> length x = length y ->
  total (map val (sq_diffs d_square x y)) <= (1 + u) ^ 3 * true_square x y + INR (length x) * eta /\
  (Forall is_finite (sq_diffs d_square x y) -> (1 - u) ^ 3 * true_square x y - INR (length x) * eta <= total (map val (sq_diffs d_square x y))).
Proof.
  unfold sq_diffs, true_square. induction x as [|a x IH]; intros [|b y] Fx Fy L; try discriminate; [cbn; split; lra|]. inversion Fx; inversion Fy; subst. injection L as L.
  cbn [combine map fold_right total fst snd]. change (length (a :: x)) with (S (length x)). rewrite S_INR. destruct (IH y) as [I1 I2]; auto. destruct (square_error a b) as [S1 S2]; auto. unfold gap in S1, S2. cbn [fst snd] in S1, S2.
  set (Q := fold_right Rplus 0 (map (fun p => (real_value (fst p) - real_value (snd p)) ^ 2) (combine x y))) in *. set (T := total (map val (map (fun p => d_square (d_sub (fst p) (snd p))) (combine x y)))) in *. fold (total (map val (map (fun p => d_square (d_sub (fst p) (snd p))) (combine x y)))). fold T.
  set (g := (real_value a - real_value b) ^ 2) in *. split.
  - replace ((1 + u) ^ 3 * (g + Q) + (INR (length x) + 1) * eta) with ((1 + u) ^ 3 * g + eta + ((1 + u) ^ 3 * Q + INR (length x) * eta)) by ring. apply Rplus_le_compat; assumption.
  - intros F. inversion F; subst. replace ((1 - u) ^ 3 * (g + Q) - (INR (length x) + 1) * eta) with ((1 - u) ^ 3 * g - eta + ((1 - u) ^ 3 * Q - INR (length x) * eta)) by ring. apply Rplus_le_compat; auto.
Qed.
Lemma true_square_pos x y : 0 <= true_square x y.
Proof. unfold true_square. induction (combine x y) as [|p l IH]; cbn [map fold_right]; [lra|]. assert (Q := pow2_ge_0 (real_value (fst p) - real_value (snd p))). lra. Qed.
Lemma top_powerRZ : top = powerRZ 2 1024.
Proof. rewrite top_eq, bpow_powerRZ. reflexivity. Qed.
Lemma pow_small k : 0 <= (1 - u) ^ k <= 1.
Proof. assert (U := u_pos). induction k as [|k IH]; cbn [pow]; [lra|nra]. Qed.
Theorem distance_error x y w : length x = length y -> Forall coordinate_ok x -> Forall coordinate_ok y -> distance_is x y w ->
  let n := length x in
  (is_finite w -> (1 - u) ^ (n + 5) * true_square x y - INR n * eta <= real_value w ^ 2 <= (1 + u) ^ (n + 5) * (true_square x y + INR n * eta)) /\
  ((1 + u) ^ (n + 3) * (true_square x y + INR n * eta) < powerRZ 2 1024 -> is_finite w).
Proof.
  intros L Fx Fy D n. destruct (place_dist_value x y L Fx Fy) as [D' _]. assert (Ew : w = d_sqrt (fold_left d_add (sq_diffs d_square x y) d_zero)) by (unfold distance_is in *; congruence). clear D D'.
  assert (Dv := diffs_valid x y Fx Fy). destruct (sum_above _ d_zero eq_refl eq_refl Dv) as (Vs & Ps & _ & Above). destruct (sum_error _ d_zero eq_refl eq_refl Dv) as [S1 S2].
  set (s := fold_left d_add _ d_zero) in *. assert (Ln : length (sq_diffs d_square x y) = n) by (unfold sq_diffs; rewrite map_length, combine_length; unfold n; lia). rewrite Ln in S1, S2.
  destruct (total_error x y Fx Fy L) as [T1 T2]. fold n in T1, T2. change (val d_zero) with 0 in S1, S2. rewrite Rplus_0_l in S1, S2.
  assert (U := u_pos). assert (E := eta_pos). assert (Q := true_square_pos x y). assert (Ni := pos_INR n). assert (Ns := non_negative_val s Vs Ps).
  assert (P1 : 1 <= (1 + u) ^ n) by (apply pow_R1_Rle; lra). assert (P3 : 1 <= (1 + u) ^ 3) by (apply pow_R1_Rle; lra).
  assert (P2 : 0 <= (1 - u) ^ n <= 1) by apply pow_small. assert (P4 : 0 <= (1 - u) ^ 3 <= 1) by apply pow_small.
  set (Tt := true_square x y) in *. set (N := INR n * eta) in *. assert (Hn : 0 <= N) by (unfold N; nra).
  assert (Up : val s <= (1 + u) ^ (n + 3) * (Tt + N)).
  { rewrite pow_add. eapply Rle_trans; [exact S1|]. rewrite Rmult_assoc. apply Rmult_le_compat_l; [lra|]. eapply Rle_trans; [exact T1|]. nra. }
  split.
  - intros Fw. assert (Fs : is_finite s). { destruct (number_cases s (positive_number s Ps)) as [F|[b Eb]]; [exact F|]. rewrite Ew, Eb in Fw. rewrite Eb in Ps. cbn in Ps. subst b. destruct Fw. }
    assert (Ls : val s < top). { assert (A := val_finite s Vs Fs). rewrite Rabs_pos_eq in A by exact Ns. exact A. }
    destruct (sqrt_spec s Vs Ps Fs) as (_ & _ & Er). rewrite real_val by exact Fw. rewrite Ew, Er. assert (R := sqrt_error _ (format_val s Vs Fs) Ns). apply Rabs_le_inv in R.
    assert (Sq : sqrt (val s) ^ 2 = val s) by (replace (sqrt (val s) ^ 2) with (sqrt (val s) * sqrt (val s)) by ring; now apply sqrt_sqrt). assert (Rp := sqrt_pos (val s)).
    assert (W1 : (1 - u) ^ 2 * val s <= rnd (sqrt (val s)) ^ 2) by (rewrite <- Sq at 1; rewrite <- Rpow_mult_distr; apply pow_incr; split; [nra|lra]).
    assert (W2 : rnd (sqrt (val s)) ^ 2 <= (1 + u) ^ 2 * val s) by (rewrite <- Sq at 2; rewrite <- Rpow_mult_distr; apply pow_incr; split; [apply rnd_nonneg; lra|lra]).
    split.
    + eapply Rle_trans; [|exact W1].
      assert (Fq : Forall is_finite (sq_diffs d_square x y)).
      { apply Forall_forall. intros v Hv. rewrite Forall_forall in Dv. destruct (Dv v Hv) as [Vv Pv]. apply below_top_finite; auto. specialize (Above v Hv). lra. }
      specialize (T2 Fq). specialize (S2 Ls).
      assert (Lo : (1 - u) ^ (n + 3) * Tt - N <= val s).
      { rewrite pow_add. eapply Rle_trans; [|exact S2]. apply Rle_trans with ((1 - u) ^ n * ((1 - u) ^ 3 * Tt - N)); [|apply Rmult_le_compat_l; lra]. rewrite Rmult_minus_distr_l, <- Rmult_assoc. nra. }
      replace (n + 5)%nat with (2 + (n + 3))%nat by lia. rewrite pow_add. assert (Z : 0 <= (1 - u) ^ 2 <= 1) by apply pow_small.
      apply Rle_trans with ((1 - u) ^ 2 * ((1 - u) ^ (n + 3) * Tt - N)); [|apply Rmult_le_compat_l; lra]. rewrite Rmult_minus_distr_l, <- Rmult_assoc. nra.
    + eapply Rle_trans; [exact W2|]. replace (n + 5)%nat with (2 + (n + 3))%nat by lia. rewrite (pow_add (1 + u) 2), Rmult_assoc. apply Rmult_le_compat_l; [apply pow_le; lra|exact Up].
  - intros Lt. rewrite <- top_powerRZ in Lt. assert (Fs : is_finite s) by (apply below_top_finite; auto; lra). rewrite Ew. now apply sqrt_spec.
Qed.
