(* MeanError.v -- how far computed means are from the true ones (C107). *)
From Coq Require Import List Arith ZArith Bool Lia SpecFloat Reals Psatz.
From Flocq Require Import Core BinarySingleNaN.
From Verif Require Import Base UtilsModel DoubleModel SpecDouble DoubleProofs DoubleRuns SpecText FloatFacts SpecKdDouble KdDouble SpecError FloatError.
From Verif Require Import SpecNan SpecMean.
Import ListNotations.
Local Open Scope R_scope.

Local Notation d_div := (SFdiv 53 1024).
Local Notation d_count n := (SpecFloat.binary_normalize 53 1024 (Z.of_nat n) 0 false).
(* ---- division and counts ---- *)
Lemma div_equiv (x y : bin) : d_div (B2SF x) (B2SF y) = B2SF (@Bdiv 53 1024 Hprec Hmax mode_NE x y).
Proof.
  case x as [sx|sx| |sx mx ex Bx]; case y as [sy|sy| |sy my ey By]; [now trivial.. | ]. simpl. rewrite B2SF_SF2B.
  set (melz := SFdiv_core_binary _ _ _ _ _ _). case melz as [[mz ez] lz]. apply round_aux_equiv.
Qed.
Lemma div_spec x y : valid x -> valid y -> SpecDouble.is_finite x -> SpecDouble.is_finite y -> val y <> 0 -> Rabs (rnd (val x / val y)) < top ->
  valid (d_div x y) /\ SpecDouble.is_finite (d_div x y) /\ val (d_div x y) = rnd (val x / val y).
Proof.
  intros Vx Vy Fx Fy Ny L. destruct (to_bin x Vx) as [a ->]. destruct (to_bin y Vy) as [b ->]. apply finite_bin in Fx, Fy. rewrite (val_B2SF a), (val_B2SF b) in * by auto.
  rewrite div_equiv. split; [apply valid_B|]. assert (C := Bdiv_correct 53 1024 Hprec Hmax mode_NE a b Ny). cbn [round_mode] in C. rewrite <- top_eq in C.
  rewrite Rlt_bool_true in C by exact L. destruct C as (C1 & C2 & _). rewrite Fx in C2. split; [now apply finite_bin|]. rewrite val_B2SF by exact C2. exact C1.
Qed.
Lemma count_spec n : (0 < n)%nat -> (Z.of_nat n < 2 ^ 53)%Z -> valid (d_count n) /\ SpecDouble.is_finite (d_count n) /\ val (d_count n) = INR n.
Proof.
  intros Hn L. rewrite normalize_equiv. split; [apply valid_B|]. assert (C := binary_normalize_correct 53 1024 Hprec Hmax mode_NE (Z.of_nat n) 0 false). cbn [round_mode] in C. rewrite <- top_eq in C.
  assert (E : F2R (Float radix2 (Z.of_nat n) 0) = INR n) by (unfold F2R; cbn [Fnum Fexp bpow]; rewrite Rmult_1_r; symmetry; apply INR_IZR_INZ). rewrite E in C.
  assert (G : generic_format radix2 fe (INR n)).
  { apply generic_format_FLT. exists (Float radix2 (Z.of_nat n) 0); [symmetry; exact E| |cbn; lia]. cbn [Fnum]. rewrite Z.abs_eq by lia. exact L. }
  rewrite (round_generic _ _ _ _ G) in C. assert (B : Rabs (INR n) < top).
  { rewrite Rabs_pos_eq by apply pos_INR. rewrite top_eq, INR_IZR_INZ. apply Rlt_trans with (IZR (2 ^ 53)); [now apply IZR_lt|]. change (IZR (2 ^ 53)) with (bpow radix2 53). apply bpow_lt. lia. }
  rewrite Rlt_bool_true in C by exact B. destruct C as (C1 & C2 & _). split; [now apply finite_bin|]. rewrite val_B2SF by exact C2. exact C1.
Qed.
Lemma add_finite x y : valid x -> valid y -> SpecDouble.is_finite x -> SpecDouble.is_finite y -> Rabs (rnd (val x + val y)) < top ->
  valid (d_add x y) /\ SpecDouble.is_finite (d_add x y) /\ val (d_add x y) = rnd (val x + val y).
Proof.
  intros Vx Vy Fx Fy L. destruct (to_bin x Vx) as [a ->]. destruct (to_bin y Vy) as [b ->]. apply finite_bin in Fx, Fy. rewrite (val_B2SF a), (val_B2SF b) in * by auto.
  rewrite add_equiv. split; [apply valid_B|]. assert (C := Bplus_correct 53 1024 Hprec Hmax mode_NE a b Fx Fy). cbn [round_mode] in C. rewrite <- top_eq in C.
  rewrite Rlt_bool_true in C by exact L. destruct C as (C1 & C2 & _). split; [now apply finite_bin|]. rewrite val_B2SF by exact C2. exact C1.
Qed.

(* ---- sums of numbers of both signs ---- *)
Lemma add_abs x y : generic_format radix2 fe x -> generic_format radix2 fe y -> Rabs (rnd (x + y)) <= (1 + u) * (Rabs x + Rabs y).
Proof.
  intros Fx Fy. assert (E := add_error x y Fx Fy). assert (T := Rabs_triang x y). assert (U := u_pos). assert (S := Rabs_triang (rnd (x + y) - (x + y)) (x + y)).
  replace (rnd (x + y) - (x + y) + (x + y)) with (rnd (x + y)) in S by ring. assert (A := Rabs_pos (x + y)). nra.
Qed.
Lemma signed_sum l : forall x, valid x -> SpecDouble.is_finite x -> Forall coordinate_ok l ->
  (1 + u) ^ length l * (Rabs (val x) + total (map Rabs (map real_value l))) < top ->
  let s := fold_left d_add l x in
  valid s /\ SpecDouble.is_finite s /\ Rabs (val s) <= (1 + u) ^ length l * (Rabs (val x) + total (map Rabs (map real_value l))) /\
  Rabs (val s - (val x + total (map real_value l))) <= ((1 + u) ^ length l - 1) * (Rabs (val x) + total (map Rabs (map real_value l))).
Proof.
  assert (U := u_pos). induction l as [|y l IH]; intros x Vx Fx Fl B; cbn [fold_left length pow map total fold_right] in *.
  - rewrite !Rplus_0_r, Rmult_1_l in *. split; [exact Vx|]. split; [exact Fx|]. split; [lra|]. replace (val x - val x) with 0 by ring. rewrite Rabs_R0. lra.
  - inversion Fl as [|? ? Oy Fl']; subst. destruct (ok_spec y Oy) as (Vy & Fy & _). rewrite real_val in * by exact Fy. fold (total (map Rabs (map real_value l))) in *. fold (total (map real_value l)).
    assert (A := add_abs (val x) (val y) (format_val x Vx Fx) (format_val y Vy Fy)). assert (E := add_error (val x) (val y) (format_val x Vx Fx) (format_val y Vy Fy)). assert (T := Rabs_triang (val x) (val y)).
    set (S := total (map Rabs (map real_value l))) in *. assert (Sp : 0 <= S).
    { unfold S. clear. induction l as [|y l IH]; cbn; [lra|]. assert (P := Rabs_pos (real_value y)). unfold total in IH. lra. }
    set (g := (1 + u) ^ length l) in *. assert (G : 1 <= g) by (apply pow_R1_Rle; lra). assert (Px := Rabs_pos (val x)). assert (Py := Rabs_pos (val y)).
    assert (K : (1 + u) * (Rabs (val x) + Rabs (val y)) + S <= (1 + u) * (Rabs (val x) + (Rabs (val y) + S))) by nra.
    assert (L : Rabs (rnd (val x + val y)) < top).
    { eapply Rle_lt_trans; [exact A|]. eapply Rle_lt_trans; [|exact B]. apply Rle_trans with (1 * ((1 + u) * (Rabs (val x) + Rabs (val y)))); [lra|].
      rewrite Rmult_assoc, (Rmult_comm g), <- Rmult_assoc, (Rmult_comm _ g). apply Rmult_le_compat; nra. }
    destruct (add_finite x y Vx Vy Fx Fy L) as (Va & Fa & Ea). rewrite <- Ea in A, E.
    assert (B1 : g * (Rabs (val (d_add x y)) + S) <= (1 + u) * g * (Rabs (val x) + (Rabs (val y) + S))).
    { rewrite (Rmult_comm (1 + u) g), Rmult_assoc. apply Rmult_le_compat_l; [lra|]. lra. }
    assert (B' : g * (Rabs (val (d_add x y)) + S) < top) by (eapply Rle_lt_trans; [exact B1|exact B]).
    destruct (IH _ Va Fa Fl' B') as (V & F & H1 & H2). split; [exact V|]. split; [exact F|]. split; [eapply Rle_trans; [exact H1|exact B1]|].
    set (s := val (fold_left d_add l (d_add x y))) in *. set (t := total (map real_value l)) in *. clearbody s t g S.
    replace (s - (val x + (val y + t))) with ((s - (val (d_add x y) + t)) + (val (d_add x y) - (val x + val y))) by ring. eapply Rle_trans; [apply Rabs_triang|].
    eapply Rle_trans; [apply Rplus_le_compat; [exact H2|exact E]|]. clear H1 H2 B B' L IH.
    assert (E' : Rabs (val (d_add x y)) + S <= (1 + u) * (Rabs (val x) + (Rabs (val y) + S))) by lra.
    assert (Q : (g - 1) * (Rabs (val (d_add x y)) + S) <= (g - 1) * ((1 + u) * (Rabs (val x) + (Rabs (val y) + S)))) by (apply Rmult_le_compat_l; lra).
    assert (Q2 : u * Rabs (val x + val y) <= u * (Rabs (val x) + (Rabs (val y) + S))) by (apply Rmult_le_compat_l; lra).
    replace (((1 + u) * g - 1) * (Rabs (val x) + (Rabs (val y) + S))) with ((g - 1) * ((1 + u) * (Rabs (val x) + (Rabs (val y) + S))) + u * (Rabs (val x) + (Rabs (val y) + S))) by ring. lra.
Qed.

(* ---- the mean of a cluster ---- *)
Lemma mean_error points dim j : Forall (fun x => Forall coordinate_ok x) points -> (0 < length points)%nat -> (Z.of_nat (length points) < 2 ^ 53)%Z -> (j < dim)%nat ->
  let n := length points in
  let size := total (map Rabs (coordinates j points)) in
  (1 + u) ^ n * size < powerRZ 2 1024 ->
  exists v, nth_error (double_mean dim points) j = Some v /\ coordinate_ok v /\
    Rabs (real_value v - total (coordinates j points) / INR n) <= ((1 + u) ^ (n + 1) - 1) * (size / INR n) + eta.
Proof.
  intros Ok Hn Lim Hj n size B. rewrite <- top_powerRZ in B. assert (U := u_pos). assert (H := eta_pos). unfold double_mean. change (S754_zero false) with d_zero. change (SFadd 53 1024) with d_add.
  set (l := map (fun x => nth j x d_zero) points). assert (Ol : Forall coordinate_ok l).
  { unfold l. rewrite Forall_forall in *. intros y Hy. apply in_map_iff in Hy as (x & <- & Hx). specialize (Ok x Hx). rewrite Forall_forall in Ok. destruct (nth_in_or_default j x d_zero) as [I|E]; [now apply Ok|rewrite E; split; exact I]. }
  assert (El : map real_value l = coordinates j points) by (unfold l, coordinates; now rewrite map_map). assert (Ll : length l = n) by (unfold l; now rewrite map_length).
  assert (Z0 : Rabs (val d_zero) = 0) by (change (val d_zero) with 0; apply Rabs_R0).
  destruct (signed_sum l d_zero eq_refl I Ol) as (V & F & S1 & S2); [rewrite El, Ll, Z0, Rplus_0_l; exact B|]. rewrite El, Ll, Z0, Rplus_0_l in S1, S2. change (val d_zero) with 0 in S2. rewrite Rplus_0_l in S2. fold size in S1, S2.
  set (s := fold_left d_add l d_zero) in *. destruct (count_spec n Hn Lim) as (Vc & Fc & Ec). assert (N1 : 1 <= INR n) by (change 1 with (INR 1); apply le_INR; unfold n in *; lia).
  assert (Ql : Rabs (val s / INR n) <= Rabs (val s)).
  { unfold Rdiv. rewrite Rabs_mult. rewrite <- (Rmult_1_r (Rabs (val s))) at 2. apply Rmult_le_compat_l; [apply Rabs_pos|]. rewrite Rabs_pos_eq by (apply Rlt_le, Rinv_0_lt_compat; lra). rewrite <- Rinv_1. apply Rinv_le_contravar; lra. }
  assert (L : Rabs (rnd (val s / val (d_count n))) < top).
  { rewrite Ec. assert (Vs := val_finite s V F). apply Rabs_le_inv in Ql. assert (G : rnd (Rabs (val s)) = Rabs (val s)) by (apply round_generic; [apply valid_rnd_N|apply generic_format_abs, format_val; auto]).
    assert (G' : rnd (- Rabs (val s)) = - Rabs (val s)) by (apply round_generic; [apply valid_rnd_N|apply generic_format_opp, generic_format_abs, format_val; auto]).
    apply Rle_lt_trans with (Rabs (val s)); [|exact Vs]. apply Rabs_le. rewrite <- G' at 1. rewrite <- G at 2. split; apply rnd_le; lra. }
  destruct (div_spec s (d_count n) V Vc F Fc ltac:(rewrite Ec; lra) L) as (Vd & Fd & Ed). rewrite Ec in Ed. exists (d_div s (d_count n)).
  split; [rewrite nth_error_map, (nth_error_nth' (seq 0 dim) 0%nat), seq_nth by (rewrite ?seq_length; exact Hj); reflexivity|].
  split; [split; [now apply canonical_valid|exact Fd]|]. rewrite real_val by exact Fd. rewrite Ed. assert (M := mul_error (val s / INR n)). set (t := total (coordinates j points)) in *.
  assert (In : 0 < / INR n) by (apply Rinv_0_lt_compat; lra).
  replace (rnd (val s / INR n) - t / INR n) with ((rnd (val s / INR n) - val s / INR n) + (val s - t) * / INR n) by (unfold Rdiv; ring). eapply Rle_trans; [apply Rabs_triang|].
  rewrite Rabs_mult, (Rabs_pos_eq (/ INR n)) by lra. assert (Ma : Rabs (val s / INR n) = Rabs (val s) * / INR n) by (unfold Rdiv; rewrite Rabs_mult, (Rabs_pos_eq (/ INR n)) by lra; reflexivity). rewrite Ma in M.
  rewrite pow_add, pow_1. unfold Rdiv. set (g := (1 + u) ^ n) in *.
  assert (A1 : u * (Rabs (val s) * / INR n) <= u * (g * size * / INR n)) by (apply Rmult_le_compat_l; [lra|]; apply Rmult_le_compat_r; lra).
  assert (A2 : Rabs (val s - t) * / INR n <= (g - 1) * size * / INR n) by (apply Rmult_le_compat_r; lra).
  unfold Rdiv in M. replace ((g * (1 + u) - 1) * (size * / INR n)) with (u * (g * size * / INR n) + (g - 1) * size * / INR n) by ring. lra.
Qed.
