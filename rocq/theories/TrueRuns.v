(* TrueRuns.v -- the bars of a run in double arithmetic against the true distances of the points. *)
From Coq Require Import List Arith ZArith Reals Lra Lia Relations SpecFloat Classical Psatz.
From Verif Require Import Base Spec SpecGraph DoubleModel SpecDouble SpecText SpecKdDouble SpecError FloatFacts KdDouble FloatError RobustProofs DoubleProofs DoubleRuns UtilsModel ArgModel SpecArgs PipeModel SpecPipe.
Import ListNotations.
Local Open Scope R_scope.

Lemma grow_pos k : 0 < (1 + unit_error) ^ k.
Proof. apply pow_lt. pose proof u_pos. unfold u in *. lra. Qed.
Lemma shrink_pos k : 0 < (1 - unit_error) ^ k.
Proof. apply pow_lt. pose proof u_pos. unfold u in *. lra. Qed.

(* The true square of a pair with computed distance w. *)
Lemma distance_range x y w : length x = length y -> Forall coordinate_ok x -> Forall coordinate_ok y -> distance_is x y w -> is_finite w ->
  least_square (length x) w <= true_square x y <= largest_square (length x) w.
Proof.
  intros L Fx Fy D Fw. destruct (distance_error x y w L Fx Fy D) as [B _]. destruct (B Fw) as [B1 B2]. clear B. unfold least_square, largest_square.
  pose proof (grow_pos (length x + 5)) as G. pose proof (shrink_pos (length x + 5)) as S. split.
  - apply (Rplus_le_reg_r (INR (length x) * underflow_error)). ring_simplify. apply (Rmult_le_reg_r ((1 + unit_error) ^ (length x + 5))); [exact G|].
    unfold Rdiv. rewrite Rmult_assoc, Rinv_l, Rmult_1_r by lra. lra.
  - apply (Rmult_le_reg_r ((1 - unit_error) ^ (length x + 5))); [exact S|]. unfold Rdiv. rewrite Rmult_assoc, Rinv_l, Rmult_1_r by lra. lra.
Qed.

Definition near (cloud : list (list double)) (q : R) (u v : nat) : Prop :=
  (u < v)%nat /\ exists x y, nth_error cloud u = Some x /\ nth_error cloud v = Some y /\ true_square x y <= q.
(* Every finite set falls into classes. *)
Lemma classes_exist (R : nat -> nat -> Prop) (V : list nat) : (forall x, R x x) -> (forall x y, R x y -> R y x) -> NoDup V -> exists n, classes V R n.
Proof.
  intros Rr Rs. induction V as [|v V IH]; intros N.
  - exists 0%nat, []. split; [reflexivity|]. split; [constructor|]. split; [intros x []|]. split; [intros x y []|intros x []].
  - inversion N as [|? ? Nv N']; subst. destruct (IH N') as (n & reps & L & Nr & I & U & T).
    destruct (classic (exists r, In r reps /\ R v r)) as [(r & Hr & Rv)|E].
    + exists n, reps. split; [exact L|]. split; [exact Nr|]. split; [intros x Hx; right; now apply I|]. split; [exact U|]. intros x [<-|Hx]; eauto.
    + exists (S n), (v :: reps). split; [cbn; now rewrite L|]. split; [constructor; auto|]. split; [intros x [<-|Hx]; [now left|right; now apply I]|]. split.
      * intros x y [<-|Hx] [<-|Hy] H; auto; exfalso; apply E; eauto.
      * intros x [<-|Hx]; [exists v; split; [now left|apply Rr]|]. destruct (T x Hx) as (r & Hr & Rx). exists r. split; [now right|exact Rx].
Qed.
Lemma true_clusters_exist cloud q : exists n, true_clusters cloud q n.
Proof. apply classes_exist; [intros; apply rst_refl|intros; now apply rst_sym|apply seq_NoDup]. Qed.
(* A coarser relation has fewer classes. *)
Lemma classes_coarser n (R R' : nat -> nat -> Prop) c c' : (forall u v, R u v -> R' u v) ->
  classes (seq 0 n) (clos_refl_sym_trans nat R) c -> classes (seq 0 n) (clos_refl_sym_trans nat R') c' -> (c' <= c)%nat.
Proof.
  intros M. apply (classes_map _ _ _ _ (fun x => x)); [intros; now apply rst_sym|intros; eapply rst_trans; eauto| |].
  - intros x y _ _. apply rst_mono. intros u v H. apply rst_step. now apply M.
  - intros y Hy. exists y. split; [exact Hy|apply rst_refl].
Qed.

Section Cloud.
  Variables (cloud : list (list double)) (k : nat) (c : cx_type) (eps : double).
  Hypothesis Ok_cloud : forall x, In x cloud -> length x = k /\ Forall coordinate_ok x.
  Hypothesis Eps : canonical eps /\ is_number eps.

  Lemma apart_range u v w : apart d_square cloud u v w -> is_finite w ->
    exists x y, nth_error cloud u = Some x /\ nth_error cloud v = Some y /\ least_square k w <= true_square x y <= largest_square k w.
  Proof.
    intros (x & y & Hx & Hy & D) F. exists x, y. split; [exact Hx|]. split; [exact Hy|]. destruct (Ok_cloud x (nth_error_In _ _ Hx)) as [Lx Fx].
    destruct (Ok_cloud y (nth_error_In _ _ Hy)) as [Ly Fy]. rewrite <- Lx. apply distance_range; auto. congruence.
  Qed.
  Lemma apart_good u v w : apart d_square cloud u v w -> valid w /\ non_negative w.
  Proof.
    intros (x & y & Hx & Hy & D). destruct (Ok_cloud x (nth_error_In _ _ Hx)) as [Lx Fx]. destruct (Ok_cloud y (nth_error_In _ _ Hy)) as [Ly Fy].
    destruct (place_dist_value x y ltac:(congruence) Fx Fy) as [D' _]. assert (Ew : w = d_sqrt (fold_left d_add (sq_diffs d_square x y) d_zero)) by (unfold distance_is in *; congruence).
    destruct (sum_above _ d_zero eq_refl eq_refl (diffs_valid x y Fx Fy)) as (Vs & Ps & _). rewrite Ew. split; [now apply sqrt_valid|now apply sqrt_non_negative].
  Qed.
  Lemma below_finite w t : valid w -> non_negative w -> coordinate_ok t -> SFleb w t = true -> is_finite w.
  Proof.
    intros V P [Ct Ft] L. destruct (number_cases w (positive_number w P)) as [F|[s Es]]; [exact F|]. subst w. cbn in P. subst s.
    destruct t as [[]|[]| |[] ? ?]; try destruct Ft; discriminate L.
  Qed.
  Lemma leb_square w t : valid w -> non_negative w -> is_finite w -> coordinate_ok t -> non_negative t ->
    (SFleb w t = true <-> real_value w ^ 2 <= real_value t ^ 2).
  Proof.
    intros V P F [Ct Ft] Pt. apply canonical_valid in Ct. rewrite leb_val by auto using positive_number. rewrite !real_val by auto.
    assert (A := non_negative_val w V P). assert (B := non_negative_val t Ct Pt). split; [intros H; apply pow_incr; lra|]. intros H. apply Rnot_lt_le. intros H'.
    assert (Q : val t ^ 2 < val w ^ 2); [|lra]. cbn [pow]. nra.
  Qed.
  Lemma least_mono w t : real_value w ^ 2 <= real_value t ^ 2 -> least_square k w <= least_square k t.
  Proof.
    intros H. unfold least_square, Rdiv. apply Rplus_le_compat_r, Rmult_le_compat_r; [|exact H]. apply Rlt_le, Rinv_0_lt_compat, grow_pos.
  Qed.
  Lemma largest_mono w t : real_value w ^ 2 <= real_value t ^ 2 -> largest_square k w <= largest_square k t.
  Proof.
    intros H. unfold largest_square, Rdiv. apply Rmult_le_compat_r; [|lra]. apply Rlt_le, Rinv_0_lt_compat, shrink_pos.
  Qed.

  Variables (t : double).
  Hypothesis T : coordinate_ok t /\ non_negative t /\ within c eps t.

  (* At the scale t the computed clusters lie between the true ones. *)
  Lemma coarser n m : double_clusters d_square cloud c eps t n -> true_clusters cloud (largest_square k t) m -> (m <= n)%nat.
  Proof.
    intros C C'. destruct T as (Ct & Pt & Wt). apply (classes_coarser _ _ _ _ _) with (2 := C) (3 := C'). intros u v (Huv & w & A & _ & L). split; [exact Huv|].
    destruct (apart_good _ _ _ A) as [Vw Pw]. assert (Fw := below_finite w t Vw Pw Ct L). destruct (apart_range _ _ _ A Fw) as (x & y & Hx & Hy & _ & B).
    exists x, y. split; [exact Hx|]. split; [exact Hy|]. apply Rle_trans with (1 := B), largest_mono, leb_square; auto.
  Qed.
  Lemma finer n m : real_value t ^ 2 < powerRZ 2 1024 -> double_clusters d_square cloud c eps t n -> true_clusters cloud (least_square k t) m -> (n <= m)%nat.
  Proof.
    intros Top C C'. destruct T as (Ct & Pt & Wt). apply (classes_coarser _ _ _ _ _) with (2 := C') (3 := C). intros u v (Huv & x & y & Hx & Hy & B). split; [exact Huv|].
    destruct (Ok_cloud x (nth_error_In _ _ Hx)) as [Lx Fx]. destruct (Ok_cloud y (nth_error_In _ _ Hy)) as [Ly Fy].
    destruct (place_dist_value x y ltac:(congruence) Fx Fy) as [D _]. set (w := d_sqrt _) in D. clearbody w. exists w. assert (A : apart d_square cloud u v w) by (exists x, y; auto).
    split; [exact A|]. destruct (apart_good _ _ _ A) as [Vw Pw]. destruct (distance_error x y w ltac:(congruence) Fx Fy D) as [E1 E2]. rewrite Lx in E1, E2.
    assert (G := grow_pos (k + 5)). assert (Q : (1 + unit_error) ^ (k + 5) * (true_square x y + INR k * underflow_error) <= real_value t ^ 2).
    { rewrite Rmult_comm. apply (Rmult_le_reg_r (/ (1 + unit_error) ^ (k + 5))); [now apply Rinv_0_lt_compat|]. rewrite Rmult_assoc, Rinv_r, Rmult_1_r by lra. unfold least_square, Rdiv in B. lra. }
    assert (Fw : is_finite w).
    { apply E2. eapply Rle_lt_trans; [|exact Top]. eapply Rle_trans; [|exact Q]. apply Rmult_le_compat_r.
      - assert (S := true_square_pos x y). assert (S' := pos_INR k). assert (S2 := eta_pos). assert (0 <= INR k * underflow_error) by (apply Rmult_le_pos; lra). lra.
      - apply Rle_pow; [|lia]. assert (S := u_pos). lra. }
    assert (L : SFleb w t = true) by (apply leb_square; auto; apply Rle_trans with (2 := Q), E1, Fw).
    split; [|exact L]. destruct Ct as [Ct Ft]. apply canonical_valid in Ct. destruct Eps as [Ce Ne]. apply canonical_valid in Ce. unfold within in *.
    rewrite rank_leb in L by auto using valid_fits, positive_number. apply Z.leb_le in L.
    destruct c; [rewrite rank_ltb in * by auto using valid_fits, positive_number; apply Z.ltb_lt in Wt; apply Z.ltb_lt; lia
      |rewrite rank_leb in * by auto using valid_fits, positive_number; apply Z.leb_le in Wt; apply Z.leb_le; lia].
  Qed.
End Cloud.
