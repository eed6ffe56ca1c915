(* FloatFacts.v -- the double operations of Coq's standard library as rounded operations on real numbers, by Flocq (C104). *)
From Coq Require Import List Arith ZArith Bool Lia SpecFloat Reals Psatz.
From Flocq Require Import Core BinarySingleNaN.
From Verif Require Import Base UtilsModel DoubleModel SpecDouble.
Import ListNotations.
Local Open Scope R_scope.

Local Instance Hprec : FLX.Prec_gt_0 53 := eq_refl _.
Local Instance Hmax : Prec_lt_emax 53 1024 := eq_refl _.
Notation valid x := (SpecFloat.valid_binary 53 1024 x = true).
Notation bin := (binary_float 53 1024).
Notation fe := (SpecFloat.fexp 53 1024).
Notation rnd := (round radix2 fe ZnearestE).

(* The four operations (proofs as in Flocq's IEEE754/PrimFloat.v). *)
Lemma rne_equiv s m l : round_nearest_even m l = choice_mode mode_NE s m l.
Proof. case l; [reflexivity|intro c]. case c; [ | reflexivity..]. now simpl; unfold Round.cond_incr; case Z.even. Qed.
Lemma round_aux_equiv sx mx ex lx : SpecFloat.binary_round_aux 53 1024 sx mx ex lx = BinarySingleNaN.binary_round_aux 53 1024 mode_NE sx mx ex lx.
Proof.
  unfold SpecFloat.binary_round_aux, BinarySingleNaN.binary_round_aux. set (mrse' := shr_fexp _ _ _ _ _). case mrse'; intros mrs' e'; simpl. now rewrite (rne_equiv sx).
Qed.
Lemma round_equiv s m e : SpecFloat.binary_round 53 1024 s m e = BinarySingleNaN.binary_round 53 1024 mode_NE s m e.
Proof. unfold SpecFloat.binary_round, BinarySingleNaN.binary_round, shl_align_fexp. set (mez := shl_align _ _ _); case mez as [mz ez]. apply round_aux_equiv. Qed.
Lemma normalize_equiv m e szero : SpecFloat.binary_normalize 53 1024 m e szero = B2SF (BinarySingleNaN.binary_normalize 53 1024 Hprec Hmax mode_NE m e szero).
Proof.
  case m as [ | p | p].
  - now simpl.
  - simpl; rewrite B2SF_SF2B; apply round_equiv.
  - simpl; rewrite B2SF_SF2B; apply round_equiv.
Qed.
Lemma mul_equiv (x y : bin) : d_mul (B2SF x) (B2SF y) = B2SF (Bmult mode_NE x y).
Proof.
  unfold d_mul. case x as [sx|sx| |sx mx ex Bx]; case y as [sy|sy| |sy my ey By]; [now trivial.. | ]. simpl. rewrite B2SF_SF2B. apply round_aux_equiv.
Qed.
Lemma add_equiv (x y : bin) : d_add (B2SF x) (B2SF y) = B2SF (Bplus mode_NE x y).
Proof.
  unfold d_add. case x as [sx|sx| |sx mx ex Bx]; case y as [sy|sy| |sy my ey By]; [now (trivial || simpl; case Bool.eqb).. | ]. apply normalize_equiv.
Qed.
Lemma sub_equiv (x y : bin) : d_sub (B2SF x) (B2SF y) = B2SF (Bminus mode_NE x y).
Proof.
  unfold d_sub. case x as [sx|sx| |sx mx ex Bx]; case y as [sy|sy| |sy my ey By]; [now (trivial || simpl; case Bool.eqb).. | ].
  simpl. unfold Zminus. rewrite <- cond_Zopp_negb. apply normalize_equiv.
Qed.
Lemma sqrt_equiv (x : bin) : d_sqrt (B2SF x) = B2SF (Bsqrt mode_NE x).
Proof.
  unfold d_sqrt. case x as [sx|sx| |sx mx ex Bx]; [now (trivial || case sx).. | ]. case sx; [reflexivity | ]. simpl. rewrite B2SF_SF2B.
  set (melz := SFsqrt_core_binary _ _ _ _). case melz as [[mz ez] lz]. apply round_aux_equiv.
Qed.
Lemma to_bin x : valid x -> exists b : bin, x = B2SF b.
Proof. intros H. exists (SF2B x H). symmetry. apply B2SF_SF2B. Qed.

(* The value of a double; infinity counts as 2 ^ 1024. *)
Lemma top_sig : {t : R | t = bpow radix2 1024}. Proof. now exists (bpow radix2 1024). Qed.
Definition top : R := proj1_sig top_sig.
Lemma top_eq : top = bpow radix2 1024. Proof. exact (proj2_sig top_sig). Qed.
Definition val (x : double) : R :=
  match x with S754_infinity s => if s then - top else top | _ => SF2R radix2 x end.
Definition clamp (r : R) : R := Rmax (- top) (Rmin top r).
Lemma top_pos : 0 < top. Proof. rewrite top_eq. apply bpow_gt_0. Qed.
Lemma clamp_in r : Rabs r < top -> clamp r = r.
Proof. intros H. apply Rabs_def2 in H. unfold clamp. rewrite Rmin_right, Rmax_right; lra. Qed.
Lemma clamp_above r : top <= r -> clamp r = top.
Proof. intros H. assert (T := top_pos). unfold clamp. rewrite Rmin_left, Rmax_right; lra. Qed.
Lemma clamp_below r : r <= - top -> clamp r = - top.
Proof. intros H. assert (T := top_pos). unfold clamp. rewrite Rmin_right, Rmax_left; lra. Qed.
Lemma clamp_mono a b : a <= b -> clamp a <= clamp b.
Proof. intros H. unfold clamp. apply Rle_max_compat_l, Rle_min_compat_l, H. Qed.
Lemma clamp_le r : clamp r <= top.
Proof. assert (T := top_pos). unfold clamp. apply Rmax_lub; [lra|apply Rmin_l]. Qed.
Lemma clamp_nonneg r : 0 <= r -> 0 <= clamp r /\ clamp r <= r.
Proof. intros H. assert (T := top_pos). unfold clamp. rewrite Rmax_right; [|apply Rmin_glb; lra]. split; [apply Rmin_glb; lra|apply Rmin_r]. Qed.
Lemma val_B2SF (b : bin) : BinarySingleNaN.is_finite b = true -> val (B2SF b) = B2R b.
Proof. destruct b; intros H; try discriminate; reflexivity. Qed.
Lemma finite_bin (b : bin) : SpecDouble.is_finite (B2SF b) <-> BinarySingleNaN.is_finite b = true.
Proof. destruct b; cbn; intuition discriminate. Qed.
Lemma val_finite x : valid x -> SpecDouble.is_finite x -> Rabs (val x) < top.
Proof. intros V F. destruct (to_bin x V) as [b ->]. apply finite_bin in F. rewrite val_B2SF by auto. rewrite top_eq; apply abs_B2R_lt_emax. Qed.
Lemma val_zero s : val (S754_zero s) = 0. Proof. reflexivity. Qed.
Lemma sign_val (b : bin) : is_nan b = false -> (Bsign b = true -> val (B2SF b) <= 0) /\ (Bsign b = false -> 0 <= val (B2SF b)).
Proof.
  assert (T := top_pos). destruct b as [s|s| |s m e H]; intros N; try discriminate; cbn; destruct s; split; try discriminate; intros _; try lra.
  - apply F2R_le_0. cbn. lia.
  - apply F2R_ge_0. cbn. lia.
Qed.
Lemma number_bin (b : bin) : BinarySingleNaN.is_finite b = true -> is_number (B2SF b).
Proof. destruct b; intros H; try discriminate H; discriminate. Qed.
Lemma valid_B (b : bin) : valid (B2SF b). Proof. apply valid_binary_B2SF. Qed.

Lemma mul_spec x y : valid x -> valid y -> SpecDouble.is_finite x -> SpecDouble.is_finite y ->
  valid (d_mul x y) /\ is_number (d_mul x y) /\ val (d_mul x y) = clamp (rnd (val x * val y)).
Proof.
  intros Vx Vy Fx Fy. destruct (to_bin x Vx) as [a ->]. destruct (to_bin y Vy) as [b ->]. apply finite_bin in Fx, Fy.
  rewrite mul_equiv. split; [apply valid_B|]. assert (C := Bmult_correct 53 1024 Hprec Hmax mode_NE a b). cbn [round_mode] in C. rewrite (val_B2SF a), (val_B2SF b) by auto. rewrite Fx, Fy in C. rewrite <- top_eq in C.
  destruct (Rlt_bool_spec (Rabs (rnd (B2R a * B2R b))) top) as [L|L].
  - destruct C as (C1 & C2 & _). cbn in C2. split; [apply number_bin, C2|]. rewrite val_B2SF by exact C2. rewrite C1. now rewrite clamp_in.
  - cbn [binary_overflow overflow_to_inf] in C. unfold binary_overflow in C. cbn in C. rewrite C. split; [easy|].
    assert (Na : is_nan a = false) by (destruct a; easy). assert (Nb : is_nan b = false) by (destruct b; easy).
    assert (Sa := sign_val a Na). assert (Sb := sign_val b Nb). rewrite val_B2SF in Sa, Sb by auto.
    destruct (xorb (Bsign a) (Bsign b)) eqn:X; cbn [val]; symmetry.
    + apply clamp_below. rewrite Rabs_left1 in L; [lra|]. rewrite <- (round_0 radix2 fe ZnearestE). apply round_le; [apply fexp_correct; reflexivity|apply valid_rnd_N|].
      destruct (Bsign a), (Bsign b); try discriminate; [assert (A := proj1 Sa eq_refl); assert (B := proj2 Sb eq_refl)|assert (A := proj2 Sa eq_refl); assert (B := proj1 Sb eq_refl)]; nra.
    + apply clamp_above. rewrite Rabs_pos_eq in L; [exact L|]. rewrite <- (round_0 radix2 fe ZnearestE). apply round_le; [apply fexp_correct; reflexivity|apply valid_rnd_N|].
      destruct (Bsign a), (Bsign b); try discriminate; [assert (A := proj1 Sa eq_refl); assert (B := proj1 Sb eq_refl)|assert (A := proj2 Sa eq_refl); assert (B := proj2 Sb eq_refl)]; nra.
Qed.
Lemma sub_spec x y : valid x -> valid y -> SpecDouble.is_finite x -> SpecDouble.is_finite y ->
  valid (d_sub x y) /\ is_number (d_sub x y) /\ val (d_sub x y) = clamp (rnd (val x - val y)).
Proof.
  intros Vx Vy Fx Fy. destruct (to_bin x Vx) as [a ->]. destruct (to_bin y Vy) as [b ->]. apply finite_bin in Fx, Fy.
  rewrite sub_equiv. split; [apply valid_B|]. assert (C := Bminus_correct 53 1024 Hprec Hmax mode_NE a b Fx Fy). cbn [round_mode] in C. rewrite <- top_eq in C. rewrite (val_B2SF a), (val_B2SF b) by auto.
  destruct (Rlt_bool_spec (Rabs (rnd (B2R a - B2R b))) top) as [L|L].
  - destruct C as (C1 & C2 & _). split; [apply number_bin, C2|]. rewrite val_B2SF by exact C2. rewrite C1. now rewrite clamp_in.
  - unfold binary_overflow in C. cbn in C. destruct C as [C X]. rewrite C. split; [easy|].
    assert (Na : is_nan a = false) by (destruct a; easy). assert (Nb : is_nan b = false) by (destruct b; easy).
    assert (Sa := sign_val a Na). assert (Sb := sign_val b Nb). rewrite val_B2SF in Sa, Sb by auto.
    destruct (Bsign a) eqn:X'; cbn [val]; symmetry.
    + apply clamp_below. rewrite Rabs_left1 in L; [lra|]. rewrite <- (round_0 radix2 fe ZnearestE). apply round_le; [apply fexp_correct; reflexivity|apply valid_rnd_N|].
      destruct (Bsign b); try discriminate. assert (A := proj1 Sa eq_refl); assert (B := proj2 Sb eq_refl); lra.
    + apply clamp_above. rewrite Rabs_pos_eq in L; [exact L|]. rewrite <- (round_0 radix2 fe ZnearestE). apply round_le; [apply fexp_correct; reflexivity|apply valid_rnd_N|].
      destruct (Bsign b); try discriminate. assert (A := proj2 Sa eq_refl); assert (B := proj1 Sb eq_refl); lra.
Qed.
Lemma rnd_le a b : a <= b -> rnd a <= rnd b.
Proof. apply round_le; [apply fexp_correct; reflexivity|apply valid_rnd_N]. Qed.
Lemma rnd_0 : rnd 0 = 0. Proof. apply round_0, valid_rnd_N. Qed.
Lemma rnd_nonneg a : 0 <= a -> 0 <= rnd a. Proof. intros H. rewrite <- rnd_0. now apply rnd_le. Qed.
Lemma non_negative_val x : valid x -> non_negative x -> 0 <= val x.
Proof.
  intros V H. destruct (to_bin x V) as [b ->]. apply sign_val; destruct b as [s|s| |s m e h]; cbn in *; easy.
Qed.
Lemma format_val x : valid x -> SpecDouble.is_finite x -> generic_format radix2 fe (val x).
Proof. intros V F. destruct (to_bin x V) as [b ->]. apply finite_bin in F. rewrite val_B2SF by auto. apply generic_format_B2R. Qed.
Lemma format_top : generic_format radix2 fe top.
Proof. rewrite top_eq. apply generic_format_bpow. vm_compute. discriminate. Qed.
Lemma rnd_val x : valid x -> is_number x -> rnd (val x) = val x.
Proof.
  intros V N. apply round_generic; [apply valid_rnd_N|]. destruct x as [s|s| |s m e]; try (now apply format_val).
  cbn. destruct s; [apply generic_format_opp|]; apply format_top.
Qed.
Lemma val_le_top x : valid x -> is_number x -> Rabs (val x) <= top.
Proof.
  intros V N. assert (T := top_pos). destruct x as [s|s| |s m e]; try (apply Rlt_le, val_finite; easy).
  - cbn. destruct s; [rewrite Rabs_Ropp|]; rewrite Rabs_pos_eq; lra.
Qed.
Lemma number_cases x : is_number x -> SpecDouble.is_finite x \/ exists s, x = S754_infinity s.
Proof. destruct x; cbn; try tauto; [|intros []; reflexivity]. right. eauto. Qed.
(* sums of numbers from 0 on *)
Lemma add_spec x y : valid x -> valid y -> non_negative x -> non_negative y ->
  valid (d_add x y) /\ is_number (d_add x y) /\ val (d_add x y) = clamp (rnd (val x + val y)).
Proof.
  intros Vx Vy Nx Ny. assert (Px := non_negative_val x Vx Nx). assert (Py := non_negative_val y Vy Ny).
  assert (Rt : rnd top = top) by (apply round_generic; [apply valid_rnd_N|apply format_top]).
  assert (I : forall z, 0 <= val z -> clamp (rnd (top + val z)) = top /\ clamp (rnd (val z + top)) = top).
  { intros z H. split; apply clamp_above; rewrite <- Rt at 1; apply rnd_le; lra. }
  destruct (number_cases x ltac:(destruct x; easy)) as [Fx|[s ->]]; [destruct (number_cases y ltac:(destruct y; easy)) as [Fy|[s ->]]|].
  - destruct (to_bin x Vx) as [a ->]. destruct (to_bin y Vy) as [b ->]. apply finite_bin in Fx, Fy.
    rewrite add_equiv. split; [apply valid_B|]. assert (C := Bplus_correct 53 1024 Hprec Hmax mode_NE a b Fx Fy). cbn [round_mode] in C. rewrite <- top_eq in C. rewrite (val_B2SF a), (val_B2SF b) in * by auto.
    destruct (Rlt_bool_spec (Rabs (rnd (B2R a + B2R b))) top) as [L|L].
    + destruct C as (C1 & C2 & _). split; [apply number_bin, C2|]. rewrite val_B2SF by exact C2. rewrite C1. now rewrite clamp_in.
    + unfold binary_overflow in C. cbn in C. destruct C as [C X]. rewrite C. split; [easy|].
      assert (Sa : Bsign a = false) by (destruct a; easy). rewrite Sa. cbn [val]. symmetry. apply clamp_above. rewrite Rabs_pos_eq in L; [exact L|]. apply rnd_nonneg. lra.
  - cbn in Ny. subst s. change (val (S754_infinity false)) with top. rewrite (proj2 (I x Px)). assert (E : d_add x (S754_infinity false) = S754_infinity false) by (destruct x as [?|[]| |[]]; cbn in *; easy). rewrite E. easy.
  - cbn in Nx. subst s. change (val (S754_infinity false)) with top. rewrite (proj1 (I y Py)). assert (E : d_add (S754_infinity false) y = S754_infinity false) by (destruct y as [?|[]| |[]]; cbn in *; easy). rewrite E. easy.
Qed.
Lemma sqrt_spec x : valid x -> non_negative x -> SpecDouble.is_finite x ->
  valid (d_sqrt x) /\ SpecDouble.is_finite (d_sqrt x) /\ val (d_sqrt x) = rnd (sqrt (val x)).
Proof.
  intros V N F. destruct (to_bin x V) as [a ->]. apply finite_bin in F. rewrite sqrt_equiv. split; [apply valid_B|].
  destruct (Bsqrt_correct 53 1024 Hprec Hmax mode_NE a) as (C1 & C2 & _). cbn [round_mode] in C1.
  assert (Fs : BinarySingleNaN.is_finite (Bsqrt mode_NE a) = true) by (rewrite C2; destruct a as [s|s| |s m e h]; cbn in *; try easy; now subst s).
  split; [now apply finite_bin|]. rewrite !val_B2SF by auto. exact C1.
Qed.
(* the order of the doubles *)
Lemma leb_val x y : valid x -> valid y -> is_number x -> is_number y -> SFleb x y = true <-> val x <= val y.
Proof.
  intros Vx Vy Nx Ny. assert (T := top_pos).
  destruct (number_cases x Nx) as [Fx|[s ->]]; destruct (number_cases y Ny) as [Fy|[s' ->]].
  - destruct (to_bin x Vx) as [a ->]. destruct (to_bin y Vy) as [b ->]. apply finite_bin in Fx, Fy. rewrite !val_B2SF by auto.
    assert (C := Bleb_correct 53 1024 a b Fx Fy). unfold Bleb in C. rewrite C. destruct (Rle_bool_spec (B2R a) (B2R b)); split; try easy; lra.
  - assert (Q := val_finite x Vx Fx). apply Rabs_def2 in Q. destruct s'; cbn [val].
    + split; [|lra]. destruct x; cbn in *; easy.
    + split; [lra|]. intros _. destruct x; cbn in *; easy.
  - assert (Q := val_finite y Vy Fy). apply Rabs_def2 in Q. destruct s; cbn [val].
    + split; [lra|]. intros _. destruct y; cbn in *; easy.
    + split; [|lra]. destruct y; cbn in *; easy.
  - destruct s, s'; cbn; split; try easy; lra.
Qed.
