(* RadiusDouble.v -- proof for C109. *)
From Coq Require Import List Arith ZArith Bool Lia SpecFloat Reals Lra Classical.
From Flocq Require Import Core BinarySingleNaN Mult_error.
From Verif Require Import Base Spec UtilsModel PartitionProofs DoubleModel SpecDouble DoubleProofs DoubleRuns SpecText TextProofs FloatFacts FloatSqrt SpecKdDouble KdDouble NanProgram KmeansModel NanModel SpecNan NanKmeans SpecError SpecMean FloatError MeanError SpecRadius.
Import ListNotations.

Lemma valid_two : valid d_two. Proof. vm_compute. reflexivity. Qed.
Lemma val_two : val d_two = 2%R.
Proof.
  unfold d_two, val, SF2R, F2R. cbn [cond_Zopp Fnum Fexp]. change (-51)%Z with (- (51))%Z. rewrite bpow_opp.
  replace (IZR (Zpos (2 ^ 52))) with (2 * bpow radix2 51)%R; [field; apply Rgt_not_eq, bpow_gt_0|].
  rewrite <- IZR_Zpower by lia. rewrite <- mult_IZR. reflexivity.
Qed.
Lemma twice_spec r : valid r -> non_negative r -> valid (twice r) /\ is_number (twice r) /\
  (SpecDouble.is_finite r -> (0 < val r)%R -> (val r < val (twice r))%R) /\ (is_zero r -> is_zero (twice r)).
Proof.
  intros V N. destruct r as [s|s| |s m e]; cbn in N; try contradiction; subst s.
  - split; [reflexivity|]. split; [easy|]. split; [cbn; lra|intros _; exact I].
  - split; [reflexivity|]. split; [easy|]. split; cbn; contradiction.
  - set (r := S754_finite false m e) in *. destruct (mul_spec d_two r valid_two V I I) as (V2 & N2 & E). fold (twice r) in *.
    assert (F : generic_format radix2 fe (2 * val r)%R).
    { rewrite Rmult_comm. change 2%R with (bpow radix2 1). apply (mult_bpow_pos_exact_FLT radix2 (3 - 1024 - 53) 53); [|lia]. exact (format_val r V I). }
    assert (P : (0 <= val r)%R) by (apply non_negative_val; easy).
    rewrite val_two, round_generic in E by (apply valid_rnd_N || exact F). assert (T := top_pos). assert (B := val_finite r V I). rewrite Rabs_pos_eq in B by exact P.
    split; [exact V2|]. split; [exact N2|]. split; [|intros []].
    intros _ Q. rewrite E. unfold clamp. apply Rlt_le_trans with (Rmin top (2 * val r)); [apply Rmin_glb_lt; lra|apply Rmax_r].
Qed.

Section Radius.
  Variables (dim : nat) (data cents : list (list double)) (labels : list nat).
  Hypothesis Hd : forall x, In x data -> length x = dim /\ Forall coordinate_ok x.
  Hypothesis Hc : forall c, In c cents -> length c = dim /\ (Forall coordinate_ok c \/ In S754_nan c).
  Hypothesis Hl : length labels <= length data.
  Hypothesis Hj : forall j, In j labels -> exists c, nth_error cents j = Some c /\ Forall coordinate_ok c.

  Lemma place_ok x c : In x data -> In c cents -> Forall coordinate_ok c ->
    exists w, distance_is x c w /\ valid w /\ non_negative w /\ point_place x c = rank w.
  Proof.
    intros Hx Hcc F. destruct (Hd x Hx) as [L1 F1]. destruct (Hc c Hcc) as [L2 _].
    destruct (dist_spec x c ltac:(lia) F1 F) as (w & D & V & P & _). exists w. split; [exact D|]. split; [exact V|]. split; [exact P|].
    unfold point_place. unfold distance_is in D. rewrite D. now destruct w.
  Qed.
  Lemma place_nan x c : In x data -> In c cents -> In S754_nan c -> distance_is x c S754_nan /\ point_place x c = (2 ^ 65 + 1)%Z.
  Proof.
    intros Hx Hcc F. destruct (Hd x Hx) as [L1 _]. destruct (Hc c Hcc) as [L2 _].
    destruct (distance_nan d_square c x square_squares ltac:(lia) F) as [_ D]. split; [exact D|]. unfold point_place. now rewrite D.
  Qed.
  Lemma rank_below v : valid v -> is_number v -> (rank v <= 2 ^ 65)%Z.
  Proof.
    intros V N. change (2 ^ 65)%Z with (rank (S754_infinity false)). apply rank_val; auto; [easy|]. assert (B := val_le_top v V N). apply Rabs_le_inv in B. exact (proj2 B).
  Qed.
  Lemma number_of w : non_negative w -> is_number w. Proof. destruct w; easy. Qed.

  Lemma labelled_ok i j x c : labelled_point data cents labels i j x c -> In x data /\ In c cents /\ Forall coordinate_ok c.
  Proof.
    intros (A & B & C). split; [eapply nth_error_In; eauto|]. split; [eapply nth_error_In; eauto|].
    destruct (Hj j (nth_error_In _ _ A)) as (c' & C' & F). congruence.
  Qed.

  Theorem radius_partitions :
    exists r idx rows,
      computeMaxRadius point_place cents data labels = Ok (rank r) /\
      separatePartitionsRad point_place (rank (twice r)) cents data labels = Ok (idx, rows) /\
      radius_and_rows data cents labels r idx rows /\
      (is_finite r -> SFltb d_zero r = true -> forall i j, nth_error labels i = Some j -> exists row, nth_error idx j = Some row /\ In i row) /\
      (is_zero r -> forall row, In row idx -> row = []).
  Proof.
    destruct (computeMaxRadius_ok point_place cents data labels Hl) as (z & Ez & Pz & Mz & Az).
    { intros l H. destruct (Hj l H) as (c & Ec & _). apply nth_error_Some. congruence. }
    assert (R : exists r, z = rank r /\ valid r /\ non_negative r /\ (is_zero r \/ exists i j x c, labelled_point data cents labels i j x c /\ distance_is x c r)).
    { destruct Az as [->|(i & j & x & c & A & B & C & D)]; [exists d_zero; cbn; auto|].
      assert (Lp : labelled_point data cents labels i j x c) by (repeat split; auto). destruct (labelled_ok _ _ _ _ Lp) as (I1 & I2 & I3).
      destruct (place_ok x c I1 I2 I3) as (w & Dw & Vw & Nw & Ew). exists w. split; [congruence|]. split; [exact Vw|]. split; [exact Nw|]. right. now exists i, j, x, c. }
    destruct R as (r & -> & Vr & Nr & Ar). destruct (twice_spec r Vr Nr) as (V2 & N2 & Gt & Ze).
    destruct (separatePartitionsRad_ok point_place (rank (twice r)) cents data labels Hl) as (idx & rows & Es & L1 & L2 & T).
    assert (Eq : forall x c, In x data -> In c cents -> (point_place x c < rank (twice r))%Z <-> exists w, distance_is x c w /\ SFltb w (twice r) = true).
    { intros x c Hx Hcc. destruct (Hc c Hcc) as [_ [F|F]].
      - destruct (place_ok x c Hx Hcc F) as (w & Dw & Vw & Nw & Ew). rewrite Ew, <- Z.ltb_lt, <- rank_ltb by auto using number_of, valid_fits. split; [intros H; now exists w|].
        intros (w' & Dw' & H). unfold distance_is in *. rewrite Dw in Dw'. injection Dw' as ->. exact H.
      - destruct (place_nan x c Hx Hcc F) as [Dn En]. rewrite En. assert (B := rank_below _ V2 N2). split; [lia|]. intros (w & Dw & H). unfold distance_is in *. rewrite Dn in Dw. injection Dw as <-. discriminate. }
    exists r, idx, rows. split; [exact Ez|]. split; [exact Es|].
    assert (Le : forall i j x c, labelled_point data cents labels i j x c -> exists w, distance_is x c w /\ valid w /\ non_negative w /\ SFleb w r = true).
    { intros i j x c Lp. destruct (labelled_ok _ _ _ _ Lp) as (I1 & I2 & I3). destruct (place_ok x c I1 I2 I3) as (w & Dw & Vw & Nw & Ew). exists w. repeat split; auto.
      rewrite rank_leb by auto using number_of, valid_fits. apply Z.leb_le. rewrite <- Ew. now apply (Mz i j x c); apply Lp. }
    assert (Tab : partition_tables (length cents) data
        (fun i j => i < length labels /\ exists x c w, nth_error data i = Some x /\ nth_error cents j = Some c /\ distance_is x c w /\ SFltb w (twice r) = true) idx rows).
    { split; [exact L1|]. split; [exact L2|]. intros j Lj. destruct (T j Lj) as (ix & ps & A & B & C & D & E). exists ix, ps. split; [exact A|]. split; [exact B|]. split; [exact C|]. split; [|exact E].
      intros i. rewrite D. split.
      - intros (Li & x & c & X1 & X2 & X3). apply Eq in X3 as (w & W1 & W2); eauto using nth_error_In. split; [exact Li|]. now exists x, c, w.
      - intros (Li & x & c & w & X1 & X2 & X3 & X4). split; [exact Li|]. exists x, c. split; [exact X1|]. split; [exact X2|]. apply Eq; eauto using nth_error_In. }
    split. { split; [now apply canonical_valid|]. split; [exact Nr|]. split; [|split; [exact Ar|exact Tab]]. intros i j x c Lp. destruct (Le i j x c Lp) as (w & A & _ & _ & B). eauto. }
    split.
    - intros Fr Pr i j Hi. destruct Tab as (_ & _ & Tab). destruct (Hj j (nth_error_In _ _ Hi)) as (c & Ec & Fc).
      destruct (Tab j) as (ix & ps & A & _ & _ & D & _); [apply nth_error_Some; congruence|]. exists ix. split; [exact A|]. apply D.
      assert (Li : i < length labels) by (apply nth_error_Some; congruence). split; [exact Li|].
      destruct (nth_error data i) as [x|] eqn:Ex; [|apply nth_error_None in Ex; lia].
      destruct (Le i j x c) as (w & Dw & Vw & Nw & Lw); [repeat split; auto|]. exists x, c, w. split; [reflexivity|]. split; [exact Ec|]. split; [exact Dw|].
      assert (Nr' := number_of r Nr). assert (Nw' := number_of w Nw).
      rewrite rank_ltb by auto using valid_fits. apply Z.ltb_lt. assert (Q : ~ (rank (twice r) <= rank w)%Z); [|lia]. rewrite rank_val by auto.
      apply leb_val in Lw; auto. assert (P0 : (0 < val r)%R).
      { destruct (Rlt_le_dec 0 (val r)) as [Y|Y]; [exact Y|]. exfalso. change 0%R with (val d_zero) in Y. apply rank_val in Y; auto; [|easy..].
        rewrite rank_ltb in Pr by (auto using valid_fits; easy). apply Z.ltb_lt in Pr. lia. }
      specialize (Gt Fr P0). lra.
    - intros Zr row Hrow. apply In_nth_error in Hrow as (j & Hrow). destruct Tab as (_ & _ & Tab). assert (Lj : j < length cents) by (rewrite <- L1; apply nth_error_Some; congruence).
      destruct (Tab j Lj) as (ix & ps & A & _ & _ & D & _). rewrite Hrow in A. injection A as <-. destruct row as [|i row]; [reflexivity|]. exfalso.
      destruct (proj1 (D i) (or_introl eq_refl)) as (_ & x & c & w & X1 & X2 & X3 & X4). specialize (Ze Zr). destruct (twice r) as [s| | |]; try contradiction.
      destruct (Hc c (nth_error_In _ _ X2)) as [_ [F|F]].
      + destruct (place_ok x c (nth_error_In _ _ X1) (nth_error_In _ _ X2) F) as (w' & D1 & D2 & D3 & _). unfold distance_is in *. rewrite D1 in X3. injection X3 as ->. destruct w as [|[]| |[]]; easy.
      + destruct (place_nan x c (nth_error_In _ _ X1) (nth_error_In _ _ X2) F) as [D1 _]. unfold distance_is in *. rewrite D1 in X3. injection X3 as <-. discriminate.
  Qed.
End Radius.

(* ---- after a run of k-means++ *)
Section AfterKmeans.
  Local Open Scope R_scope.
  Variables (index : nat) (picks : list (nat * (nat -> bool))) (k r : Z) (data : list (list double)) (dim : nat) (cents : list (list double)) (labels : list nat).
  Hypothesis Hd : forall p, In p data -> length p = dim /\ Forall coordinate_ok p.
  Hypothesis Hdim : (0 < dim)%nat.
  Hypothesis Hk : (0 < k)%Z.
  Hypothesis Hr : (0 < r)%Z.
  Hypothesis Hi : (index < length data)%nat.
  Hypothesis Hp : forall i v, In (i, v) picks -> (i < length data)%nat.
  Hypothesis Run : kmeans_doubles d_square index picks k r data = Ok (cents, labels).
  Hypothesis Few : (Z.of_nat (length data) < 2 ^ 53)%Z.
  Hypothesis Small : forall c j, (c < Z.to_nat k)%nat -> (j < dim)%nat ->
    let points := labelled (removelast data) labels c in (1 + unit_error) ^ length points * (mean_size j points * INR (length points)) < powerRZ 2 1024.

  Lemma rounds_length points n : forall start prev, double_rounds d_square dim (Z.to_nat k) points n start prev -> length start = Z.to_nat k -> length prev = Z.to_nat k.
  Proof. induction n as [|n IH]; intros start prev H L; inversion H; subst; [exact L|]. eapply IH; [eassumption|]. unfold double_means. now rewrite map_length, seq_length. Qed.

  Lemma labelled_pos points ls c : In c ls -> length ls = length points -> (0 < length (labelled points ls c))%nat.
  Proof.
    intros H L. apply In_nth_error in H as (i & Hc). destruct (nth_error points i) as [x|] eqn:Ex; [|apply nth_error_None in Ex; assert (i < length ls)%nat by (apply nth_error_Some; congruence); lia].
    assert (I0 : In x (labelled points ls c)); [|destruct (labelled points ls c); [contradiction|cbn; lia]].
    unfold labelled. apply in_map_iff. exists (c, x). split; [reflexivity|]. apply filter_In. split; [|cbn; now rewrite Nat.eqb_refl].
    clear - Ex Hc. revert points ls Ex Hc. induction i as [|i IH]; intros [|y ps] [|l ls] Ex Hc; try discriminate; cbn in *; [injection Ex as ->; injection Hc as ->; now left|right; eauto].
  Qed.

  Lemma kmeans_ready :
    length labels = (length data - 1)%nat /\ (length labels <= length data)%nat /\
    (forall c, In c cents -> length c = dim /\ (Forall coordinate_ok c \/ In S754_nan c)) /\
    (forall j, In j labels -> exists c, nth_error cents j = Some c /\ Forall coordinate_ok c).
  Proof.
    assert (Run' := Run). unfold kmeans_doubles in Run'. rewrite (proj2 (Z.ltb_ge k 0)) in Run' by lia.
    assert (Nums : forall p x, In p data -> In x p -> is_number x /\ fits x).
    { intros p x H1 H2. destruct (Hd p H1) as [_ F]. rewrite Forall_forall in F. destruct (F x H2) as [Cx Fx]. split; [destruct x; easy|now apply canonical_fits]. }
    destruct (double_run_kmeans d_square data dim (Z.to_nat k) (Z.to_nat r) Nums (fun p H => proj1 (Hd p H)) ltac:(lia) ltac:(lia) index picks Hi Hp) as [U R].
    assert (K : exists start, some_points (Z.to_nat k) data start /\ double_kmeans d_square dim (Z.to_nat k) (removelast data) (Z.to_nat r) start cents labels).
    { destruct (classic (fewer_points (Z.to_nat k) data)) as [Y|N]; [rewrite (U Y) in Run'; discriminate|]. destruct (R N) as (start & cs & ls & E' & S & D). rewrite Run' in E'. injection E' as -> ->. eauto. }
    destruct K as (start & (Ls & _) & Ec & n & prev & _ & Rs & Lb & _). apply rounds_length in Rs; [|exact Ls].
    assert (Ll : length labels = length (removelast data)) by (clear - Lb; induction Lb; cbn; congruence).
    assert (Lr : (length (removelast data) <= length data)%nat) by (rewrite removelast_firstn_len, firstn_length; lia).
    assert (Sub : forall c, (length (labelled (removelast data) labels c) <= length data)%nat).
    { intros c. unfold labelled. rewrite map_length. eapply Nat.le_trans; [|exact Lr]. rewrite <- (map_length snd (filter _ _)). rewrite map_length.
      apply (Nat.le_trans _ (length (combine labels (removelast data)))); [generalize (combine labels (removelast data)); intros l; induction l as [|[a b] l IH]; cbn in *; [lia|]; destruct (_ =? _); cbn; lia|]. rewrite combine_length. lia. }
    assert (Good : forall c, (c < Z.to_nat k)%nat -> (0 < length (labelled (removelast data) labels c))%nat -> Forall coordinate_ok (double_mean dim (labelled (removelast data) labels c))).
    { intros c Hc Pn. set (points := labelled (removelast data) labels c) in *.
      assert (Op : Forall (fun x => Forall coordinate_ok x) points).
      { apply Forall_forall. intros x Hx. unfold points, labelled in Hx. apply in_map_iff in Hx as ((l & x') & <- & Hx). apply filter_In in Hx as [Hx _]. apply in_combine_r in Hx.
        apply Hd. rewrite removelast_firstn_len in Hx. rewrite <- (firstn_skipn (Init.Nat.pred (length data)) data). apply in_app_iff. now left. }
      apply Forall_forall. intros v Hv. apply In_nth_error in Hv as (j & Hv).
      assert (Hj : (j < dim)%nat). { assert (Q : (j < length (double_mean dim points))%nat) by (apply nth_error_Some; congruence). unfold double_mean in Q. now rewrite map_length, seq_length in Q. }
      destruct (mean_error points dim j Op Pn) as (v' & Ev & Fv & _); [| exact Hj | | rewrite Hv in Ev; injection Ev as ->; exact Fv].
      - eapply Z.le_lt_trans; [|exact Few]. apply Nat2Z.inj_le, Sub.
      - assert (B := Small c j Hc Hj). cbv zeta in B. fold points in B. assert (In0 : INR (length points) <> 0) by (apply not_0_INR; lia). unfold mean_size in B. unfold Rdiv in B. rewrite (Rmult_assoc _ (/ INR _)), Rinv_l, Rmult_1_r in B by exact In0. exact B. }
    assert (Nth : forall j, (j < Z.to_nat k)%nat -> nth_error cents j = Some (double_mean dim (labelled (removelast data) labels j))).
    { intros j Hj. rewrite Ec. unfold double_means. now rewrite nth_error_map, (nth_error_nth' (seq 0 (Z.to_nat k)) 0%nat), seq_nth by (rewrite ?seq_length; exact Hj). }
    split; [rewrite Ll, removelast_firstn_len, firstn_length; lia|]. split; [lia|]. split.
    - intros c Hc. rewrite Ec in Hc. unfold double_means in Hc. apply in_map_iff in Hc as (j & <- & Hj). apply in_seq in Hj. split; [unfold double_mean; now rewrite map_length, seq_length|].
      destruct (in_dec Nat.eq_dec j labels) as [Y|N]; [left; apply Good; [lia|]; now apply labelled_pos|right]. rewrite empty_mean by exact N. destruct dim; [lia|now left].
    - intros j Hj. assert (Lj : (j < Z.to_nat k)%nat).
      { clear - Lb Hj Rs Hk. induction Lb as [|x l ps ls H Lb IH]; [contradiction|]. destruct Hj as [<-|Hj]; [|auto]. destruct H as [(c & w & E & _)|[-> _]]; [|lia]. rewrite <- Rs. apply nth_error_Some. congruence. }
      exists (double_mean dim (labelled (removelast data) labels j)). split; [now apply Nth|]. apply Good; [exact Lj|]. now apply labelled_pos.
  Qed.
End AfterKmeans.
