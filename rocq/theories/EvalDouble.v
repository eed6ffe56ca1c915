(* EvalDouble.v -- admission to the sliding window in double arithmetic (C112). *)
From Coq Require Import List Arith ZArith Bool Lia SpecFloat Reals Psatz.
From Flocq Require Import Core BinarySingleNaN.
From Verif Require Import Base UtilsModel DoubleModel SpecDouble DoubleProofs DoubleRuns SpecText FloatFacts SpecKdDouble KdDouble SpecError FloatError.
From Verif Require Import SpecNan SpecMean MeanError EvalDoubleModel SpecEvalDouble.
Import ListNotations.
Local Open Scope R_scope.

(* ---- comparisons ---- *)
Lemma ltb_val x y : valid x -> valid y -> is_number x -> is_number y -> SFltb x y = true <-> val x < val y.
Proof.
  intros Vx Vy Nx Ny. rewrite rank_ltb by auto using valid_fits. rewrite Z.ltb_lt. assert (H := rank_val y x Vy Vx Ny Nx). split; intros K.
  - apply Rnot_le_lt. intros L. apply H in L. lia.
  - apply Z.nle_gt. intros L. apply H in L. lra.
Qed.
Lemma eqb_val x y : valid x -> valid y -> is_number x -> is_number y -> SFeqb x y = true <-> val x = val y.
Proof.
  intros Vx Vy Nx Ny. rewrite rank_eqb by auto using valid_fits. rewrite Z.eqb_eq. assert (H := rank_val y x Vy Vx Ny Nx). assert (H' := rank_val x y Vx Vy Nx Ny). split; intros K.
  - assert (rank x <= rank y)%Z as L by lia. assert (rank y <= rank x)%Z as L' by lia. apply H' in L. apply H in L'. lra.
  - assert (val x <= val y) as L by lra. assert (val y <= val x) as L' by lra. apply H' in L. apply H in L'. lia.
Qed.
Lemma div_positive x y : valid x -> valid y -> non_negative x -> SpecDouble.is_finite x -> SpecDouble.is_finite y -> 0 < val y ->
  valid (SFdiv 53 1024 x y) /\ is_number (SFdiv 53 1024 x y) /\ val (SFdiv 53 1024 x y) = clamp (rnd (val x / val y)).
Proof.
  intros Vx Vy Px Fx Fy Ny. assert (P := non_negative_val x Vx Px).
  assert (Q : 0 <= rnd (val x / val y)) by (apply rnd_nonneg; apply Rmult_le_pos; [exact P|]; apply Rlt_le, Rinv_0_lt_compat, Ny).
  destruct (to_bin x Vx) as [a ->]. destruct (to_bin y Vy) as [b ->]. apply finite_bin in Fx, Fy. rewrite (val_B2SF a), (val_B2SF b) in * by auto.
  rewrite div_equiv. split; [apply valid_B|]. assert (C := Bdiv_correct 53 1024 Hprec Hmax mode_NE a b ltac:(lra)). cbn [round_mode] in C. rewrite <- top_eq in C.
  destruct (Rlt_bool_spec (Rabs (rnd (B2R a / B2R b))) top) as [L|L].
  - destruct C as (C1 & C2 & _). rewrite Fx in C2. split; [apply number_bin, C2|]. rewrite val_B2SF by exact C2. rewrite C1. now rewrite clamp_in.
  - unfold binary_overflow in C. cbn in C. rewrite C. split; [easy|].
    assert (Sa : Bsign a = false) by (destruct a; easy). assert (Sb : Bsign b = false).
    { destruct (Bsign b) eqn:E; [|reflexivity]. assert (Nb : is_nan b = false) by (destruct b; easy). destruct (sign_val b Nb) as [W _]. specialize (W E). rewrite val_B2SF in W by exact Fy. lra. }
    rewrite Sa, Sb. cbn [xorb val]. symmetry. apply clamp_above. now rewrite Rabs_pos_eq in L.
Qed.

(* ---- the smallest distance ---- *)
Definition fine (w : double) : Prop := coordinate_ok w /\ non_negative w.
Lemma min_spec l : forall x, fine x -> Forall fine l ->
  let m := fold_left (fun m y => if SFltb y m then y else m) l x in
  fine m /\ In m (x :: l) /\ forall y, In y (x :: l) -> val m <= val y.
Proof.
  induction l as [|y l IH]; intros x Fx Fl; cbn [fold_left].
  - split; [exact Fx|]. split; [now left|]. intros y [->|[]]. lra.
  - inversion Fl as [|? ? Fy Fl']; subst. destruct Fx as [Ox Px], Fy as [Oy Py]. destruct (ok_spec x Ox) as (Vx & _ & Nx). destruct (ok_spec y Oy) as (Vy & _ & Ny).
    assert (L := ltb_val y x Vy Vx Ny Nx). destruct (SFltb y x).
    + assert (K : val y < val x) by (now apply L). destruct (IH y (conj Oy Py) Fl') as (A & B & C). split; [exact A|]. split; [right; exact B|]. intros z [<-|Hz]; [|now apply C]. assert (Q := C y (or_introl eq_refl)). lra.
    + assert (K : val x <= val y) by (apply Rnot_lt_le; intros H; apply L in H; discriminate). destruct (IH x (conj Ox Px) Fl') as (A & B & C). split; [exact A|].
      split; [destruct B as [B|B]; [left; exact B|right; right; exact B]|]. assert (Q := C x (or_introl eq_refl)). intros z [<-|[<-|Hz]]; [exact Q|lra|apply C; now right].
Qed.
Lemma distances_run square v window ws : distances_from square v window ws -> d_distances square v window = Ok ws.
Proof.
  unfold d_distances, distances_from. intros H.
  enough (G : forall acc, foldr_ub (fun acc x => do w <- d_distance square v x; Ok (acc ++ [w])) acc window = Ok (acc ++ ws)) by (now rewrite G).
  induction H as [|x w window ws (E & _) H IH]; intros acc; cbn [foldr_ub].
  - now rewrite app_nil_r.
  - rewrite E. cbn [bind]. rewrite IH. now rewrite <- app_assoc.
Qed.

(* ---- the average ---- *)
Lemma pow_bound n : 2 * INR n * u <= 1 -> (1 + u) ^ n <= 1 + 2 * INR n * u.
Proof.
  assert (U := u_pos). induction n as [|n IH]; intros H; [cbn; lra|]. rewrite S_INR in *. cbn [pow]. assert (P := pos_INR n). specialize (IH ltac:(nra)).
  apply Rle_trans with ((1 + u) * (1 + 2 * INR n * u)); [apply Rmult_le_compat_l; lra|]. nra.
Qed.
Lemma u_1024 : powerRZ 2 (-43) = 1024 * u.
Proof. change (-43)%Z with (10 + -53)%Z. rewrite powerRZ_add by lra. unfold unit_error. f_equal. unfold powerRZ. change (Pos.to_nat 10) with 10%nat. lra. Qed.
Lemma eta_4 : powerRZ 2 (-1073) = 4 * eta.
Proof. change (-1073)%Z with (2 + -1075)%Z. rewrite powerRZ_add by lra. unfold underflow_error. f_equal. unfold powerRZ. change (Pos.to_nat 2) with 2%nat. lra. Qed.
Lemma top_1016 : powerRZ 2 1024 = 256 * powerRZ 2 1016.
Proof. change 1024%Z with (8 + 1016)%Z. rewrite powerRZ_add by lra. f_equal. unfold powerRZ. change (Pos.to_nat 8) with 8%nat. lra. Qed.
Lemma u_small : u * 1048576 <= 1.
Proof.
  unfold unit_error. change (-53)%Z with (-33 + -20)%Z. rewrite powerRZ_add by lra. replace (powerRZ 2 (-20)) with (/ 1048576) by (unfold powerRZ; change (Pos.to_nat 20) with 20%nat; lra).
  assert (0 < powerRZ 2 (-33) <= 1); [|lra]. change 2 with (IZR radix2). rewrite <- bpow_powerRZ. split; [apply bpow_gt_0|]. change 1 with (bpow radix2 0). apply bpow_le. lia.
Qed.
Lemma eta_below_unit : eta <= u.
Proof. unfold unit_error, underflow_error. change 2 with (IZR radix2). rewrite <- !bpow_powerRZ. apply bpow_le. lia. Qed.
Lemma average_error nnd : length nnd = 200%nat -> Forall fine nnd -> exact_average nnd < powerRZ 2 1016 ->
  coordinate_ok (d_average nnd) /\ 0 <= val (d_average nnd) /\ 0 <= exact_average nnd /\
  Rabs (val (d_average nnd) - exact_average nnd) <= 403 * u * exact_average nnd + eta.
Proof.
  intros L F B. assert (U := u_pos). assert (US := u_small). assert (H := eta_pos). set (points := map (fun x : double => [x]) nnd).
  assert (C : coordinates 0 points = map real_value nnd) by (unfold coordinates, points; rewrite map_map; reflexivity).
  assert (Pos : forall x, In x (map real_value nnd) -> 0 <= x).
  { intros x Hx. apply in_map_iff in Hx as (y & <- & Hy). rewrite Forall_forall in F. destruct (F y Hy) as [Oy Py]. destruct (ok_spec y Oy) as (Vy & Fy & _). rewrite real_val by exact Fy. now apply non_negative_val. }
  assert (Ab : map Rabs (map real_value nnd) = map real_value nnd).
  { rewrite <- (map_id (map real_value nnd)) at 2. apply map_ext_in. intros x Hx. apply Rabs_pos_eq. now apply Pos. }
  assert (Lp : length points = 200%nat) by (unfold points; now rewrite map_length). assert (I2 : INR 200 = 200) by (rewrite INR_IZR_INZ; reflexivity).
  unfold exact_average in *. fold (SpecMean.total (map real_value nnd)) in *. rewrite L, I2 in *. set (S := SpecMean.total (map real_value nnd)) in *.
  assert (S0 : 0 <= S). { unfold S, SpecMean.total. clear -Pos. induction (map real_value nnd) as [|a l IH]; cbn; [lra|]. assert (0 <= a) by (apply Pos; now left). assert (0 <= fold_right Rplus 0 l) by (apply IH; intros; apply Pos; now right). lra. }
  assert (G200 : (1 + u) ^ 200 <= 1 + 400 * u) by (eapply Rle_trans; [apply pow_bound; rewrite I2; lra|rewrite I2; lra]).
  assert (I3 : INR 201 = 201) by (rewrite INR_IZR_INZ; reflexivity).
  assert (G201 : (1 + u) ^ 201 <= 1 + 402 * u) by (eapply Rle_trans; [apply pow_bound; rewrite I3; lra|rewrite I3; lra]).
  destruct (mean_error points 1 0) as (v & E & Ov & M).
  { unfold points. apply Forall_forall. intros p Hp. apply in_map_iff in Hp as (x & <- & Hx). constructor; [|constructor]. rewrite Forall_forall in F. apply (F x Hx). }
  { rewrite Lp. lia. } { rewrite Lp. reflexivity. } { lia. }
  { rewrite Lp, C, Ab. fold S. rewrite top_1016. apply Rle_lt_trans with ((1 + 400 * u) * S); [apply Rmult_le_compat_r; [exact S0|exact G200]|]. nra. }
  rewrite Lp, C, Ab, I2 in M. fold S in M.
  assert (Ev : v = d_average nnd).
  { unfold double_mean, points in E. cbn [seq map nth_error] in E. injection E as <-. unfold d_average. rewrite !map_map, map_length. cbn [nth]. now rewrite map_id. }
  subst v. destruct (ok_spec _ Ov) as (Vv & Fv & _). rewrite real_val in M by exact Fv.
  assert (A0 : 0 <= S / 200) by lra.
  assert (M' : Rabs (val (d_average nnd) - S / 200) <= 403 * u * (S / 200) + eta).
  { eapply Rle_trans; [exact M|]. change (200 + 1)%nat with 201%nat. apply Rplus_le_compat_r, Rmult_le_compat_r; [exact A0|]. lra. }
  split; [exact Ov|]. split; [|split; [exact A0|exact M']].
  assert (F' : Forall (fun y => valid y /\ non_negative y) nnd) by (eapply Forall_impl; [|exact F]; intros y [Oy Py]; split; [apply (ok_spec y Oy)|exact Py]).
  destruct (sum_above nnd d_zero eq_refl eq_refl F') as (Vs & Ps & _). unfold d_average in *. rewrite L in *. destruct (count_spec 200 ltac:(lia) ltac:(reflexivity)) as (Vc & Fc & Ec).
  set (s := fold_left d_add nnd d_zero) in *. destruct (number_cases s (positive_number s Ps)) as [Fs|[b ->]].
  - destruct (div_positive s _ Vs Vc Ps Fs Fc ltac:(rewrite Ec, I2; lra)) as (_ & _ & ->). apply clamp_nonneg, rnd_nonneg. rewrite Ec, I2. assert (Q := non_negative_val s Vs Ps). lra.
  - exfalso. revert Fv Fc Ec. generalize (SpecFloat.binary_normalize 53 1024 (Z.of_nat 200) 0 false). intros c Fv Fc _. destruct c; cbn in Fv, Fc; tauto.
Qed.

(* ---- the decision ---- *)
Lemma const_spec m e : SpecFloat.bounded 53 1024 m e = true -> valid (S754_finite false m e) /\ is_number (S754_finite false m e).
Proof. intros B. split; [exact B|discriminate]. Qed.
Lemma f1_val : val f1 = 4.
Proof. unfold f1, val, SF2R, F2R. cbn [Fnum Fexp cond_Zopp]. change (IZR (Zpos (2 ^ 52))) with (bpow radix2 52). rewrite <- bpow_plus. cbn. lra. Qed.
Lemma f2_val : val f2 = 1 / 4.
Proof. unfold f2, val, SF2R, F2R. cbn [Fnum Fexp cond_Zopp]. change (IZR (Zpos (2 ^ 52))) with (bpow radix2 52). rewrite <- bpow_plus. cbn. lra. Qed.
Lemma one_val : val d_one = 1.
Proof. unfold d_one, val, SF2R, F2R. cbn [Fnum Fexp cond_Zopp]. change (IZR (Zpos (2 ^ 52))) with (bpow radix2 52). rewrite <- bpow_plus. cbn. lra. Qed.
Lemma rnd_4 : rnd 4 = 4.
Proof. rewrite <- f1_val. apply rnd_val; [reflexivity|discriminate]. Qed.
Lemma admits_spec a d : coordinate_ok a -> fine d ->
  (val d = 0 \/ (val a <= 1 / 4 /\ val d <= 1) \/ (0 < val a /\ val d <= 4 * val a) -> admits a d = false) /\
  (0 <= val a -> 0 < val d -> 1 / 4 < val a \/ 1 < val d -> 4 * (1 + 4 * u) * val a + 4 * eta < val d -> admits a d = true).
Proof.
  intros Oa [Od Pd]. destruct (ok_spec a Oa) as (Va & Fa & Na). destruct (ok_spec d Od) as (Vd & Fd & Nd). assert (P := non_negative_val d Vd Pd).
  assert (Z0 : valid d_zero /\ is_number d_zero) by (split; [reflexivity|discriminate]). destruct Z0 as [Vz Nz]. assert (T1 := eqb_val d d_zero Vd Vz Nd Nz). assert (T4 := eqb_val a d_zero Va Vz Na Nz). change (val d_zero) with 0 in T1, T4.
  assert (T2 := leb_val a f2 Va eq_refl Na ltac:(discriminate)). rewrite f2_val in T2. assert (T3 := leb_val d d_one Vd eq_refl Nd ltac:(discriminate)). rewrite one_val in T3.
  unfold admits. assert (U := u_pos). assert (H := eta_pos). split.
  - intros [K|[[K1 K2]|[K1 K2]]].
    + now rewrite (proj2 T1 K).
    + rewrite (proj2 T2 K1), (proj2 T3 K2). now destruct (SFeqb d d_zero).
    + destruct (SFeqb d d_zero); [reflexivity|]. destruct (SFleb a f2 && SFleb d d_one); [reflexivity|]. apply orb_false_iff. split.
      * apply not_true_iff_false. intros E. apply T4 in E. lra.
      * destruct (div_positive d a Vd Va Pd Fd Fa K1) as (V & N & E). apply not_true_iff_false. intros L. apply ltb_val in L; [|reflexivity|exact V|discriminate|exact N]. rewrite f1_val, E in L.
        assert (Q : val d / val a <= 4) by (apply (Rmult_le_reg_r (val a)); [exact K1|]; unfold Rdiv; rewrite Rmult_assoc, Rinv_l; lra). apply rnd_le in Q. rewrite rnd_4 in Q.
        assert (Q0 : 0 <= rnd (val d / val a)) by (apply rnd_nonneg; apply Rmult_le_pos; [exact P|]; apply Rlt_le, Rinv_0_lt_compat, K1). destruct (clamp_nonneg _ Q0) as [_ C]. lra.
  - intros A0 D0 K1 K2. destruct (SFeqb d d_zero) eqn:E1; [assert (val d = 0) by (now apply T1); lra|]. destruct (SFleb a f2 && SFleb d d_one) eqn:E2.
    { apply andb_true_iff in E2 as [X Y]. apply T2 in X. apply T3 in Y. lra. }
    destruct (SFeqb a d_zero) eqn:E4; [reflexivity|]. cbn [orb]. assert (Ap : 0 < val a) by (destruct (Req_dec (val a) 0) as [Z|Z]; [apply T4 in Z; discriminate|lra]).
    destruct (div_positive d a Vd Va Pd Fd Fa Ap) as (V & N & E). apply ltb_val; [reflexivity|exact V|discriminate|exact N|]. rewrite f1_val, E.
    assert (Q : 4 * (1 + 4 * u) <= val d / val a) by (apply (Rmult_le_reg_r (val a)); [exact Ap|]; unfold Rdiv; rewrite (Rmult_assoc (val d)), Rinv_l; lra).
    assert (M := mul_error (val d / val a)). apply Rabs_le_inv in M. rewrite (Rabs_pos_eq (val d / val a)) in M by lra.
    assert (HU := eta_below_unit).
    assert (Us := u_small). assert (G : 4 < rnd (val d / val a)) by nra.
    destruct (Rle_lt_dec top (rnd (val d / val a))) as [L|L]; [rewrite clamp_above by exact L|rewrite clamp_in by (rewrite Rabs_pos_eq; lra); exact G].
    rewrite top_eq. change 4 with (bpow radix2 2). apply bpow_lt. lia.
Qed.

Theorem pure_decision square window nnd v ws :
  window <> [] -> distances_from square v window ws -> length nnd = 200%nat -> Forall fine nnd -> exact_average nnd < powerRZ 2 1016 ->
  exists d answer, smallest ws d /\ pure_evaluator square window nnd v = Ok answer /\
    (clearly_turned_away (powerRZ 2 (-43)) (powerRZ 2 (-1073)) (exact_average nnd) d -> answer = false) /\
    (clearly_admitted (powerRZ 2 (-43)) (powerRZ 2 (-1073)) (exact_average nnd) d -> answer = true).
Proof.
  intros W D L F B. destruct (average_error nnd L F B) as (Oa & Ha & A0 & M). apply Rabs_le_inv in M. assert (U := u_pos). assert (Us := u_small). assert (H := eta_pos).
  destruct ws as [|w0 ws]; [inversion D; subst; easy|].
  assert (Fw : Forall fine (w0 :: ws)). { clear -D. unfold distances_from in D. revert D. generalize (w0 :: ws). intros l D. induction D as [|x w win l' (_ & O & P) D IH]; constructor; [split; assumption|exact IH]. }
  inversion Fw as [|? ? F0 Fw']; subst. destruct (min_spec ws w0 F0 Fw') as (Fm & Im & Lm). set (m := fold_left _ ws w0) in *.
  assert (Rm : forall y, In y (w0 :: ws) -> real_value y = val y). { intros y Hy. rewrite Forall_forall in Fw. destruct (Fw y Hy) as [O _]. apply real_val. apply (ok_spec y O). }
  exists (val m), (admits (d_average nnd) m). split; [|split].
  - split; [exists m; split; [exact Im|now apply Rm]|]. intros w Hw. rewrite Rm by exact Hw. now apply Lm.
  - unfold pure_evaluator. rewrite (distances_run _ _ _ _ D). reflexivity.
  - destruct (admits_spec (d_average nnd) m Oa Fm) as [S1 S2]. rewrite u_1024, eta_4. set (a := val (d_average nnd)) in *. set (A := exact_average nnd) in *. assert (Dm : 0 <= val m) by (apply non_negative_val; [apply (ok_spec m), Fm|apply Fm]).
    split.
    + intros [K|[[K1 K2]|[K1 K2]]]; apply S1; [now left|right; left; split; [nra|exact K2]|]. destruct (Req_dec (val m) 0) as [Z|Z]; [now left|]. right; right. split; nra.
    + intros (K1 & K2 & K3). apply S2; [exact Ha|exact K1| |].
      * destruct K2 as [K2|K2]; [left; nra|now right].
      * nra.
Qed.
