(* KdDouble.v -- lemmas about the kd-tree and DBSCAN on points with double coordinates (C104). *)
From Coq Require Import List Arith ZArith Bool Lia SpecFloat Reals Psatz.
From Flocq Require Import Core BinarySingleNaN.
From Verif Require Import Base UtilsModel KdModel SpecKd KdProofs DbscanProofs DoubleModel SpecDouble DoubleProofs DoubleRuns SpecText TextProofs FloatFacts FloatSqrt SpecKdDouble.
Import ListNotations.

Lemma digits_canonical m : (2 ^ 52 <= Zpos m < 2 ^ 53)%Z <-> Zpos (digits2_pos m) = 53%Z.
Proof.
  assert (D := digits_bound m). set (d := Zpos (digits2_pos m)) in *. assert (0 < d)%Z by (unfold d; lia). split; intros H0.
  - assert (d - 1 < 53)%Z by (apply (Z.pow_lt_mono_r_iff 2); lia). assert (52 < d)%Z by (apply (Z.pow_lt_mono_r_iff 2); lia). lia.
  - rewrite H0 in D. exact D.
Qed.
Lemma digits_small m : (Zpos m < 2 ^ 53)%Z <-> (Zpos (digits2_pos m) <= 53)%Z.
Proof.
  assert (D := digits_bound m). set (d := Zpos (digits2_pos m)) in *. assert (0 < d)%Z by (unfold d; lia). split; intros H0.
  - assert (d - 1 < 53)%Z by (apply (Z.pow_lt_mono_r_iff 2); lia). lia.
  - eapply Z.lt_le_trans; [apply D|]. apply Z.pow_le_mono_r; lia.
Qed.
Lemma canonical_valid x : canonical x <-> valid x.
Proof.
  destruct x as [s|s| |s m e]; cbn [canonical SpecFloat.valid_binary]; try tauto.
  unfold SpecFloat.bounded, SpecFloat.canonical_mantissa. rewrite andb_true_iff, <- Zeq_is_eq_bool, fe_val, Z.leb_le, digits_small.
  assert (D := digits_canonical m). change (1024 - 53)%Z with 971%Z. set (d := Zpos (digits2_pos m)) in *. assert (0 < d)%Z by (unfold d; lia). split.
  - intros (H1 & H2 & [H3|H3]); [lia|]. assert (Q : (Zpos m < 2 ^ 53)%Z) by (apply digits_small; exact H1). rewrite (proj1 D) by lia. lia.
  - intros [H1 H2]. assert (d <= 53)%Z by lia. assert (Q : (Zpos m < 2 ^ 53)%Z) by (apply digits_small; exact H0). split; [exact H0|]. split; [lia|].
    destruct (Z.eq_dec e (-1074)); [now left|right]. apply D. lia.
Qed.
Lemma valid_fits x : valid x -> fits x.
Proof. intros H. apply canonical_valid in H. destruct x; cbn in *; tauto. Qed.
Lemma rank_val x y : valid x -> valid y -> is_number x -> is_number y -> (rank x <= rank y)%Z <-> (val x <= val y)%R.
Proof.
  intros Vx Vy Nx Ny. rewrite <- leb_val by auto. rewrite rank_leb by auto using valid_fits. symmetry. apply Z.leb_le.
Qed.
Lemma finite_number x : SpecDouble.is_finite x -> is_number x.
Proof. destruct x; cbn; easy. Qed.
Lemma positive_number x : non_negative x -> is_number x.
Proof. destruct x; cbn; easy. Qed.

Lemma rank_positive m e : fits (S754_finite false m e) -> (0 < rank (S754_finite false m e))%Z /\ rank (S754_finite true m e) = (- rank (S754_finite false m e))%Z.
Proof. unfold fits, rank. change (2 ^ 53)%Z with 9007199254740992%Z. intros [_ H]. split; lia. Qed.
(* the double at the place of a coordinate: the same, but for the sign of zero *)
Lemma double_at_rank x : canonical x -> SpecDouble.is_finite x -> double_at (rank x) = x \/ exists s, x = S754_zero s /\ double_at (rank x) = S754_zero false.
Proof.
  intros C F. assert (Fi : fits x) by (apply valid_fits, canonical_valid, C). unfold double_at. destruct x as [s|s| |s m e]; try destruct F; [right; exists s; split; reflexivity|left].
  destruct (rank_positive m e Fi) as [R R']. destruct s.
  - rewrite R', (proj2 (Z.ltb_lt _ _)) by lia. rewrite Z.opp_involutive. rewrite at_place_rank; [reflexivity|reflexivity|exact Fi].
  - rewrite (proj2 (Z.ltb_ge _ _)) by lia. apply at_place_rank; [reflexivity|exact Fi].
Qed.
Lemma double_at_ok x : coordinate_ok x -> coordinate_ok (double_at (rank x)) /\ rank (double_at (rank x)) = rank x.
Proof. intros [C F]. destruct (double_at_rank x C F) as [->|(s & -> & ->)]; [split; [split|]; auto|split; [split; exact I|reflexivity]]. Qed.
Lemma square_same x y : coordinate_ok x -> coordinate_ok y -> d_square (d_sub (double_at (rank x)) (double_at (rank y))) = d_square (d_sub x y).
Proof.
  intros [Cx Fx] [Cy Fy].
  assert (Z : forall s, SFopp (S754_zero s) = S754_zero (negb s)) by reflexivity.
  destruct (double_at_rank x Cx Fx) as [->|(s & -> & ->)]; destruct (double_at_rank y Cy Fy) as [->|(s' & -> & ->)].
  - reflexivity.
  - destruct x as [s|s| |s m e]; try destruct Fx; [|reflexivity]. unfold d_square, d_sub, d_mul. cbn [SFsub]. destruct s, s'; reflexivity.
  - destruct y as [s'|s'| |s' m e]; try destruct Fy; [|reflexivity]. unfold d_square, d_sub, d_mul. cbn [SFsub]. destruct s, s'; reflexivity.
  - unfold d_square, d_sub, d_mul. cbn [SFsub]. destruct s, s'; reflexivity.
Qed.
Lemma sq_diffs_same x : forall y, Forall coordinate_ok x -> Forall coordinate_ok y ->
  sq_diffs d_square (map double_at (map rank x)) (map double_at (map rank y)) = sq_diffs d_square x y.
Proof.
  unfold sq_diffs. induction x as [|a x IH]; intros [|b y] Fx Fy; cbn [map combine]; try reflexivity. inversion Fx; inversion Fy; subst. cbn [fst snd]. rewrite square_same, IH by auto. reflexivity.
Qed.
Lemma place_dist_value x y : length x = length y -> Forall coordinate_ok x -> Forall coordinate_ok y ->
  distance_is x y (d_sqrt (fold_left d_add (sq_diffs d_square x y) d_zero)) /\ place_dist (map rank x) (map rank y) = rank (d_sqrt (fold_left d_add (sq_diffs d_square x y) d_zero)).
Proof.
  intros L Fx Fy. split; [apply distance_value, L|]. unfold place_dist, double_dist. rewrite distance_value by (rewrite !map_length; exact L). now rewrite sq_diffs_same.
Qed.

(* squares, sums and square roots as real numbers *)
Lemma square_spec x : valid x -> is_number x -> valid (d_square x) /\ non_negative (d_square x) /\ val (d_square x) = clamp (rnd (val x * val x)).
Proof.
  intros V N. unfold d_square. destruct (number_cases x N) as [F|[s ->]].
  - destruct (mul_spec x x V V F F) as (A & _ & C). split; [exact A|]. split; [apply (sq_number _ square_squares); exact N|exact C].
  - assert (T := top_pos). assert (E : d_mul (S754_infinity s) (S754_infinity s) = S754_infinity false) by (destruct s; reflexivity). rewrite E. split; [reflexivity|]. split; [reflexivity|].
    symmetry. apply clamp_above. assert (Rt : rnd top = top) by (apply round_generic; [apply valid_rnd_N|apply format_top]). rewrite <- Rt. apply rnd_le.
    assert (1 <= top)%R by (rewrite top_eq; change 1%R with (bpow radix2 0); apply bpow_le; lia). destruct s; cbn [val]; nra.
Qed.
Lemma square_mono x y : valid x -> valid y -> is_number x -> is_number y -> (Rabs (val x) <= Rabs (val y))%R -> (val (d_square x) <= val (d_square y))%R.
Proof.
  intros Vx Vy Nx Ny H. destruct (square_spec x Vx Nx) as (_ & _ & ->). destruct (square_spec y Vy Ny) as (_ & _ & ->). apply clamp_mono, rnd_le.
  assert (A := Rabs_pos (val x)). assert (Ex : (val x * val x = Rabs (val x) * Rabs (val x))%R) by (unfold Rabs; destruct (Rcase_abs (val x)); ring).
  assert (Ey : (val y * val y = Rabs (val y) * Rabs (val y))%R) by (unfold Rabs; destruct (Rcase_abs (val y)); ring). rewrite Ex, Ey. nra.
Qed.
Lemma clamp_val x : valid x -> is_number x -> non_negative x -> clamp (val x) = val x.
Proof.
  intros V N P. assert (T := top_pos). assert (A := non_negative_val x V P). assert (B := val_le_top x V N). rewrite Rabs_pos_eq in B by exact A. unfold clamp. rewrite Rmin_right, Rmax_right; lra.
Qed.
Lemma add_above x y : valid x -> valid y -> non_negative x -> non_negative y -> (val x <= val (d_add x y))%R /\ (val y <= val (d_add x y))%R.
Proof.
  intros Vx Vy Px Py. destruct (add_spec x y Vx Vy Px Py) as (_ & _ & ->). assert (A := non_negative_val x Vx Px). assert (B := non_negative_val y Vy Py).
  assert (Nx := positive_number x Px). assert (Ny := positive_number y Py). split.
  - rewrite <- (clamp_val x) at 1 by auto. apply clamp_mono. rewrite <- (rnd_val x) at 1 by auto. apply rnd_le. lra.
  - rewrite <- (clamp_val y) at 1 by auto. apply clamp_mono. rewrite <- (rnd_val y) at 1 by auto. apply rnd_le. lra.
Qed.
Lemma sum_above l : forall x, valid x -> non_negative x -> Forall (fun y => valid y /\ non_negative y) l ->
  valid (fold_left d_add l x) /\ non_negative (fold_left d_add l x) /\ (val x <= val (fold_left d_add l x))%R /\ forall y, In y l -> (val y <= val (fold_left d_add l x))%R.
Proof.
  induction l as [|z l IH]; intros x V P F; cbn [fold_left]; [repeat split; auto; [lra|intros y []]|]. inversion F as [|? ? [Vz Pz] F']; subst.
  destruct (add_spec x z V Vz P Pz) as (Va & _ & _). destruct (add_above x z V Vz P Pz) as [A1 A2].
  destruct (IH (d_add x z) Va (add_non_negative _ _ P Pz) F') as (B1 & B2 & B3 & B4). split; [exact B1|]. split; [exact B2|]. split; [lra|]. intros y [<-|Hy]; [lra|now apply B4].
Qed.
Lemma sqrt_valid x : valid x -> non_negative x -> valid (d_sqrt x).
Proof. intros V P. destruct (number_cases x (positive_number x P)) as [F|[s ->]]; [now apply sqrt_spec|]. cbn in P. subst s. reflexivity. Qed.
Lemma sqrt_mono x y : valid x -> valid y -> non_negative x -> non_negative y -> (val x <= val y)%R -> (val (d_sqrt x) <= val (d_sqrt y))%R.
Proof.
  intros Vx Vy Px Py H. destruct (number_cases y (positive_number y Py)) as [Fy|[s ->]].
  - destruct (number_cases x (positive_number x Px)) as [Fx|[s ->]].
    + destruct (sqrt_spec x Vx Px Fx) as (_ & _ & ->). destruct (sqrt_spec y Vy Py Fy) as (_ & _ & ->). apply rnd_le, sqrt_le_1_alt, H.
    + exfalso. cbn in Px. subst s. cbn [val] in H. assert (Q := val_finite y Vy Fy). apply Rabs_def2 in Q. lra.
  - cbn in Py. subst s. change (d_sqrt (S754_infinity false)) with (S754_infinity false). cbn [val].
    assert (Q := val_le_top (d_sqrt x) (sqrt_valid x Vx Px) (positive_number _ (sqrt_non_negative x Px))). eapply Rle_trans; [apply Rle_abs|exact Q].
Qed.

(* The bounds that are good: the rounded root of the rounded square is not below them. *)
Definition reaches (w : double) : Prop := valid w /\ non_negative w /\ (val w <= val (d_sqrt (d_square w)))%R.
Definition good_bound (b : Z) : Prop := (b <= 0)%Z \/ exists w, reaches w /\ rank w = b.
Definition good_place (a : Z) : Prop := exists x, coordinate_ok x /\ rank x = a.
Lemma reaches_infinity : reaches (S754_infinity false).
Proof. split; [reflexivity|]. split; [reflexivity|]. change (d_sqrt (d_square (S754_infinity false))) with (S754_infinity false). lra. Qed.
Lemma root_of_square w : valid w -> non_negative w -> SpecDouble.is_finite w -> (val w <= rnd (sqrt (rnd (val w * val w))))%R -> reaches w.
Proof.
  intros V P F H. split; [exact V|]. split; [exact P|]. assert (N := finite_number w F). destruct (square_spec w V N) as (Vs & Ps & Es). assert (T := top_pos). assert (Q := val_finite w V F).
  destruct (number_cases (d_square w) (positive_number _ Ps)) as [Fs|[s Ei]].
  - destruct (sqrt_spec (d_square w) Vs Ps Fs) as (_ & _ & ->). assert (L := val_finite (d_square w) Vs Fs). rewrite Es in L |- *.
    assert (C : clamp (rnd (val w * val w)) = rnd (val w * val w)); [|rewrite C; exact H].
    apply clamp_in. destruct (Rlt_le_dec (Rabs (rnd (val w * val w))) top) as [?|G]; [assumption|exfalso].
    rewrite Rabs_pos_eq in G by (apply rnd_nonneg; apply Rle_0_sqr). rewrite clamp_above in L by exact G. rewrite Rabs_pos_eq in L; lra.
  - rewrite Ei in Ps |- *. cbn in Ps. subst s. change (d_sqrt (S754_infinity false)) with (S754_infinity false). cbn [val]. apply Rabs_def2 in Q. lra.
Qed.
Lemma root_reaches s : valid s -> non_negative s -> reaches (d_sqrt s).
Proof.
  intros V P. destruct (number_cases s (positive_number s P)) as [F|[b ->]]; [|cbn in P; subst b; exact reaches_infinity].
  destruct (sqrt_spec s V P F) as (Vr & Fr & Er). apply root_of_square; auto using sqrt_non_negative. rewrite Er. apply sqrt_square_ge; [now apply format_val|now apply non_negative_val].
Qed.
Lemma radius_val : val smallest_radius = bpow radix2 (-511).
Proof. unfold smallest_radius, val, SF2R. cbn [cond_Zopp]. change (Zpos (2 ^ 52)) with (2 ^ 52)%Z. unfold F2R. cbn [Fnum Fexp]. change (IZR (2 ^ 52)) with (bpow radix2 52). rewrite <- bpow_plus. reflexivity. Qed.
Lemma radius_reaches w : canonical w -> SFleb smallest_radius w = true -> reaches w.
Proof.
  intros C L. apply canonical_valid in C. assert (N : is_number w) by (intros ->; discriminate L). apply leb_val in L; [|reflexivity|exact C|discriminate|exact N]. rewrite radius_val in L.
  assert (B := bpow_gt_0 radix2 (-511)). assert (T := top_pos). destruct (number_cases w N) as [F|[[] ->]]; [|cbn [val] in L; lra|exact reaches_infinity].
  apply root_of_square; auto; [|apply sqrt_square_normal; [now apply format_val|exact L]].
  destruct w as [s|s| |s m e]; try destruct F; [cbn in L; lra|]. destruct s; [|reflexivity]. exfalso. assert (val (S754_finite true m e) <= 0)%R; [|lra]. cbn. apply F2R_le_0. cbn. lia.
Qed.
Lemma rank_abs x : fits x -> is_number x -> Z.abs (rank x) = rank (SFabs x).
Proof. intros F N. destruct x as [s|s| |s m e]; try reflexivity; [destruct s; reflexivity|]. destruct (rank_positive m e F) as [R R']. destruct s; cbn [SFabs]; lia. Qed.
Lemma val_abs x : valid x -> is_number x -> valid (SFabs x) /\ non_negative (SFabs x) /\ val (SFabs x) = Rabs (val x).
Proof.
  intros V N. assert (T := top_pos). destruct x as [s|s| |s m e]; [| |now destruct N|].
  - cbn. rewrite Rabs_R0. auto.
  - cbn. split; [reflexivity|]. split; [reflexivity|]. destruct s; [rewrite Rabs_Ropp|]; rewrite Rabs_pos_eq; lra.
  - split; [exact V|]. split; [reflexivity|]. unfold SFabs, val, SF2R. rewrite <- F2R_Zabs. destruct s; reflexivity.
Qed.
Lemma zip_in {A} (d : A) x : forall y i, length x = length y -> i < length x -> In (nth i x d, nth i y d) (combine x y).
Proof.
  induction x as [|a x IH]; intros [|b y] i L Li; cbn in *; try lia. destruct i; [now left|right]. apply IH; lia.
Qed.
Lemma places_of l : Forall good_place l -> exists x, Forall coordinate_ok x /\ l = map rank x.
Proof.
  induction 1 as [|a l (x & Cx & Ex) F (xs & Fx & ->)]; [exists []; split; [constructor|reflexivity]|]. exists (x :: xs). split; [now constructor|]. cbn. now rewrite Ex.
Qed.
Lemma good_places x : Forall coordinate_ok x -> Forall good_place (map rank x).
Proof. intros F. apply Forall_map. eapply Forall_impl; [|exact F]. intros a Ha. exists a. auto. Qed.
Lemma ok_spec x : coordinate_ok x -> valid x /\ SpecDouble.is_finite x /\ is_number x.
Proof. intros [C F]. split; [now apply canonical_valid|]. split; [exact F|now apply finite_number]. Qed.
Lemma diffs_valid x y : Forall coordinate_ok x -> Forall coordinate_ok y -> Forall (fun v => valid v /\ non_negative v) (sq_diffs d_square x y).
Proof.
  intros Fx Fy. apply Forall_forall. intros v Hv. apply in_map_iff in Hv as ([a b] & <- & Hp). cbn [fst snd]. rewrite Forall_forall in Fx, Fy.
  destruct (ok_spec a (Fx a (in_combine_l _ _ _ _ Hp))) as (Va & Fa & _). destruct (ok_spec b (Fy b (in_combine_r _ _ _ _ Hp))) as (Vb & Fb & _).
  destruct (sub_spec a b Va Vb Fa Fb) as (Vs & Ns & _). destruct (square_spec _ Vs Ns) as (A & B & _). auto.
Qed.
Lemma coordinate_rank x i : i < length x -> coordinate (map rank x) i = rank (nth i x d_zero).
Proof. intros L. unfold coordinate. change 0%Z with (rank d_zero). now rewrite map_nth. Qed.
Lemma double_sound mag : (forall a, (mag a <= Z.abs a)%Z) -> sound_on good_place good_bound place_dist place_diff mag.
Proof.
  intros Hm. split; [|split; [exact Hm|]].
  - intros a b c (x & Cx & <-) (y & Cy & <-) (z & Cz & <-) L. unfold place_diff.
    destruct (double_at_ok x Cx) as [Ox Rx]. destruct (double_at_ok y Cy) as [Oy Ry]. destruct (double_at_ok z Cz) as [Oz Rz].
    set (x' := double_at (rank x)) in *. set (y' := double_at (rank y)) in *. set (z' := double_at (rank z)) in *.
    destruct (ok_spec x' Ox) as (Vx & Fx & Nx). destruct (ok_spec y' Oy) as (Vy & Fy & Ny). destruct (ok_spec z' Oz) as (Vz & Fz & Nz).
    destruct (sub_spec x' z' Vx Vz Fx Fz) as (V1 & N1 & E1). destruct (sub_spec y' z' Vy Vz Fy Fz) as (V2 & N2 & E2).
    apply rank_val; auto. rewrite E1, E2. apply clamp_mono, rnd_le. assert (val x' <= val y')%R; [|lra]. apply rank_val; auto. lia.
  - intros xs ys i b Dx Dy G L Li Hb. destruct (places_of xs Dx) as (x & Fx & ->). destruct (places_of ys Dy) as (y & Fy & ->). rewrite !map_length in *.
    rewrite (proj2 (place_dist_value x y L Fx Fy)). set (w := d_sqrt _).
    destruct (sum_above (sq_diffs d_square x y) d_zero eq_refl eq_refl (diffs_valid x y Fx Fy)) as (Vs & Ps & _ & Above). set (sum := fold_left d_add _ d_zero) in *.
    assert (Vw : valid w) by (apply sqrt_valid; auto). assert (Pw : non_negative w) by (apply sqrt_non_negative; auto).
    destruct G as [G|(v & (Vv & Pv & Rv) & <-)]; [assert (Q := rank_non_negative w (valid_fits w Vw) Pw); lia|].
    rewrite !coordinate_rank in Hb by lia. set (a := nth i x d_zero) in *. set (c := nth i y d_zero) in *.
    assert (Oa : coordinate_ok a) by (rewrite Forall_forall in Fx; apply Fx, nth_In; lia). assert (Oc : coordinate_ok c) by (rewrite Forall_forall in Fy; apply Fy, nth_In; lia).
    unfold place_diff in Hb. destruct (double_at_ok a Oa) as [Oa' _]. destruct (double_at_ok c Oc) as [Oc' _].
    assert (Hin : In (d_square (d_sub (double_at (rank a)) (double_at (rank c)))) (sq_diffs d_square x y)).
    { rewrite square_same by auto. unfold sq_diffs. apply in_map_iff. exists (a, c). split; [reflexivity|]. apply zip_in; auto. }
    set (d := d_sub (double_at (rank a)) (double_at (rank c))) in *.
    destruct (ok_spec _ Oa') as (Va & Fa & _). destruct (ok_spec _ Oc') as (Vc & Fc & _). destruct (sub_spec _ _ Va Vc Fa Fc) as (Vd & Nd & _). fold d in Vd, Nd.
    rewrite rank_abs in Hb by auto using valid_fits. destruct (val_abs d Vd Nd) as (Vd' & Pd' & Ed'). apply rank_val in Hb; auto using positive_number. rewrite Ed' in Hb.
    apply rank_val; auto using positive_number. eapply Rle_trans; [exact Rv|]. destruct (square_spec v Vv (positive_number v Pv)) as (Vq & Pq & _).
    apply sqrt_mono; auto. eapply Rle_trans; [|apply (Above _ Hin)]. apply square_mono; auto using positive_number. rewrite (Rabs_pos_eq (val v)) by now apply non_negative_val. exact Hb.
Qed.
Lemma dist_good x y : length x = length y -> Forall good_place x -> Forall good_place y -> good_bound (place_dist x y).
Proof.
  intros L Dx Dy. destruct (places_of x Dx) as (x' & Fx & ->). destruct (places_of y Dy) as (y' & Fy & ->). rewrite !map_length in L.
  right. rewrite (proj2 (place_dist_value x' y' L Fx Fy)). eexists. split; [|reflexivity].
  destruct (sum_above (sq_diffs d_square x' y') d_zero eq_refl eq_refl (diffs_valid x' y' Fx Fy)) as (Vs & Ps & _). now apply root_reaches.
Qed.

(* the results *)
Section Cloud.
  Variable mag : Z -> Z.
  Hypothesis Hmag : forall a, (mag a <= Z.abs a)%Z.
  Variable srt : nat -> list pointIndex -> list pointIndex.
  Hypothesis Srt : level_sort srt.
  Variable k : nat.
  Variable data : list (list double).
  Hypothesis Ok_data : cloud_ok k data.
  Variable size : nat.
  Hypothesis Hsize : size <= length data.
  Notation n := (if size =? 0 then length data else size).

  Lemma placed_uniform : uniform k (placed data).
  Proof.
    destruct Ok_data as (K & Ne & F). split; [exact K|]. split; [unfold placed; destruct data; [now destruct Ne|discriminate]|].
    intros x Hx. apply in_map_iff in Hx as (y & <- & Hy). rewrite map_length. now apply F.
  Qed.
  Lemma placed_good : Forall (Forall good_place) (placed data).
  Proof. destruct Ok_data as (_ & _ & F). apply Forall_forall. intros x Hx. apply in_map_iff in Hx as (y & <- & Hy). now apply good_places, F. Qed.
  Lemma placed_length : @length point (placed data) = length data. Proof. apply map_length. Qed.
  Lemma placed_nth i : @nth point i (placed data) [] = map rank (nth i data []).
  Proof. unfold placed. change (@nil Z) with (map rank []). apply map_nth. Qed.
  Lemma n_le : n <= length data. Proof. destruct (size =? 0); lia. Qed.
  Lemma nth_ok i : i < n -> length (nth i data []) = k /\ Forall coordinate_ok (nth i data []).
  Proof. intros H. assert (L := n_le). apply Ok_data, nth_In. lia. Qed.
  Lemma dist_spec x y : length x = length y -> Forall coordinate_ok x -> Forall coordinate_ok y ->
    exists w, distance_is x y w /\ valid w /\ non_negative w /\ place_dist (map rank x) (map rank y) = rank w.
  Proof.
    intros L Fx Fy. destruct (place_dist_value x y L Fx Fy) as [A B]. eexists. split; [exact A|].
    destruct (sum_above (sq_diffs d_square x y) d_zero eq_refl eq_refl (diffs_valid x y Fx Fy)) as (Vs & Ps & _).
    split; [now apply sqrt_valid|]. split; [now apply sqrt_non_negative|exact B].
  Qed.

  Theorem nearest_double pt : length pt = k -> Forall coordinate_ok pt ->
    exists t i, kd_build srt (placed data) size = Ok t /\ nearestIndex place_dist place_diff mag t (map rank pt) = Ok i /\ i < n /\
      forall j, j < n -> exists v w, distance_is (nth i data []) pt v /\ distance_is (nth j data []) pt w /\ SFleb v w = true.
  Proof.
    intros Lp Fp. destruct (nearestIndex_on good_place good_bound place_dist place_diff mag srt k (placed data) size (map rank pt)) as (t & i & E & Ei & Li & M).
    - now apply double_sound.
    - exact Srt.
    - exact placed_uniform.
    - now rewrite map_length.
    - now rewrite placed_length.
    - exact placed_good.
    - now apply good_places.
    - intros y Ly Fy. apply dist_good; auto; [rewrite map_length; lia|now apply good_places].
    - rewrite placed_length in Li, M. exists t, i. split; [exact E|]. split; [exact Ei|]. split; [exact Li|]. intros j Lj.
      destruct (nth_ok i Li) as [L1 F1]. destruct (nth_ok j Lj) as [L2 F2].
      destruct (dist_spec (nth i data []) pt ltac:(lia) F1 Fp) as (v & D1 & V1 & P1 & R1). destruct (dist_spec (nth j data []) pt ltac:(lia) F2 Fp) as (w & D2 & V2 & P2 & R2).
      exists v, w. split; [exact D1|]. split; [exact D2|]. specialize (M j Lj). rewrite !placed_nth, R1, R2 in M. rewrite rank_leb by auto using positive_number, valid_fits. now apply Z.leb_le.
  Qed.

  Theorem neighbourhood_double pt rad : length pt = k -> Forall coordinate_ok pt -> canonical rad -> SFleb smallest_radius rad = true ->
    exists t l, kd_build srt (placed data) size = Ok t /\ neighborhoodIndices place_dist place_diff mag t (map rank pt) (rank rad) = Ok l /\ NoDup l /\
      (forall i, In i l -> i < n /\ exists w, distance_is (nth i data []) pt w /\ SFleb w rad = true) /\
      (forall i, i < n -> (exists w, distance_is (nth i data []) pt w /\ SFltb w rad = true) -> In i l).
  Proof.
    intros Lp Fp Cr Lr. destruct (radius_reaches rad Cr Lr) as (Vr & Pr & Rr).
    destruct (neighborhoodIndices_on good_place good_bound place_dist place_diff mag srt k (placed data) size (map rank pt) (rank rad)) as (t & l & E & El & Nd & S1 & S2).
    - now apply double_sound.
    - exact Srt.
    - exact placed_uniform.
    - now rewrite map_length.
    - now rewrite placed_length.
    - exact placed_good.
    - now apply good_places.
    - right. exists rad. split; [repeat split; auto|reflexivity].
    - rewrite placed_length in S1, S2. exists t, l. split; [exact E|]. split; [exact El|]. split; [exact Nd|]. split.
      + intros i Hi. destruct (S1 i Hi) as [Li D]. split; [exact Li|]. destruct (nth_ok i Li) as [L1 F1]. destruct (dist_spec (nth i data []) pt ltac:(lia) F1 Fp) as (w & D1 & V1 & P1 & R1).
        exists w. split; [exact D1|]. rewrite placed_nth, R1 in D. rewrite rank_leb by auto using positive_number, valid_fits. now apply Z.leb_le.
      + intros i Li (w' & D' & Lw). apply S2; [exact Li|]. destruct (nth_ok i Li) as [L1 F1]. destruct (dist_spec (nth i data []) pt ltac:(lia) F1 Fp) as (w & D1 & V1 & P1 & R1).
        assert (w' = w) by (unfold distance_is in *; congruence). subst w'. rewrite placed_nth, R1. rewrite rank_ltb in Lw by auto using positive_number, valid_fits. now apply Z.ltb_lt.
  Qed.

  Lemma ball_same eps i : valid eps -> is_number eps -> i < n -> ball place_dist (placed data) (rank eps) n i = double_ball data eps n i.
  Proof.
    intros Ve Ne Li. unfold ball, double_ball. apply filter_ext_in. intros j Hj. apply in_seq in Hj. destruct (nth_ok i Li) as [L1 F1]. destruct (nth_ok j ltac:(lia)) as [L2 F2].
    destruct (dist_spec (nth j data []) (nth i data []) ltac:(lia) F2 F1) as (w & D1 & V1 & P1 & R1). rewrite !placed_nth, R1, D1. now rewrite rank_leb by auto using positive_number, valid_fits.
  Qed.
  Theorem dbscan_double minPoints eps fuel : canonical eps -> SFleb smallest_radius eps = true ->
    (forall x y, In x data -> In y data -> ~ distance_is x y eps) -> n + n * n <= fuel ->
    exists l, dbscan place_dist place_diff mag srt fuel (placed data) minPoints (rank eps) size = Some (Ok l) /\ length l = n /\
      dbscan_labels (double_ball data eps n) minPoints n (fun p => nth p l 0%Z).
  Proof.
    intros Ce Le Tie Fu. destruct (radius_reaches eps Ce Le) as (Ve & Pe & Re). assert (Ne := positive_number eps Pe).
    assert (Each : forall x, In x data -> length x = k /\ Forall coordinate_ok x) by apply Ok_data.
    destruct (dbscan_on good_place good_bound place_dist place_diff mag srt k (placed data) minPoints (rank eps) size fuel) as (l & E & Ll & D).
    - now apply double_sound.
    - exact Srt.
    - exact placed_uniform.
    - now rewrite placed_length.
    - exact placed_good.
    - right. exists eps. split; [repeat split; auto|reflexivity].
    - intros x y Hx Hy. apply in_map_iff in Hx as (x' & <- & Hx). apply in_map_iff in Hy as (y' & <- & Hy). destruct (Each x' Hx) as [Lx Fx]. destruct (Each y' Hy) as [Ly Fy].
      rewrite (proj2 (place_dist_value x' y' ltac:(lia) Fx Fy)), (proj2 (place_dist_value y' x' ltac:(lia) Fy Fx)). now rewrite (sq_diffs_sym d_square square_squares).
    - intros x Hx. apply in_map_iff in Hx as (x' & <- & Hx). destruct (Each x' Hx) as [Lx Fx]. rewrite (proj2 (place_dist_value x' x' eq_refl Fx Fx)).
      rewrite (sq_diffs_self d_square square_squares) by (eapply Forall_impl; [|exact Fx]; intros a Ha; apply Ha).
      assert (Z0 : forall m, fold_left d_add (repeat (S754_zero false) m) d_zero = S754_zero false) by (induction m as [|m IH]; [reflexivity|exact IH]). rewrite Z0.
      change (d_sqrt (S754_zero false)) with (S754_zero false). assert (Q : (rank smallest_radius <= rank eps)%Z) by (apply Z.leb_le; rewrite <- rank_leb; [exact Le|discriminate|exact Ne|now apply valid_fits|now apply valid_fits]).
      eapply Z.lt_le_trans; [|exact Q]. reflexivity.
    - intros x y Hx Hy. apply in_map_iff in Hx as (x' & <- & Hx). apply in_map_iff in Hy as (y' & <- & Hy). destruct (Each x' Hx) as [Lx Fx]. destruct (Each y' Hy) as [Ly Fy].
      destruct (dist_spec x' y' ltac:(lia) Fx Fy) as (w & D & Vw & Pw & R). rewrite R. intros Q. apply (Tie x' y' Hx Hy). rewrite <- (at_place_rank eps), <- Q, at_place_rank; auto using valid_fits.
    - now rewrite placed_length.
    - rewrite placed_length in Ll, D. exists l. split; [exact E|]. split; [exact Ll|]. eapply labels_ext; [| | |exact D].
      + intros i j Li Hj. apply filter_In in Hj as [Hj _]. apply in_seq in Hj. lia.
      + intros i Li. now rewrite ball_same by auto.
      + intros i j Li. now rewrite ball_same by auto.
  Qed.
End Cloud.
