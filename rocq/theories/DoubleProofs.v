(* DoubleProofs.v -- lemmas about double arithmetic (C90). *)
From Coq Require Import List Arith ZArith Bool Lia SpecFloat.
From Verif Require Import Base UtilsModel PartitionProofs DoubleModel SpecDouble.
Import ListNotations.
Local Open Scope Z_scope.

(* shifting and rounding *)
Lemma shr_1_div m r s : 0 <= m -> shr_m (shr_1 {| shr_m := m; shr_r := r; shr_s := s |}) = m / 2.
Proof.
  intros H. destruct m as [|p|p]; [reflexivity| |lia]. destruct p as [p|p|]; cbn [shr_1 shr_m]; [|now rewrite Pos2Z.inj_xO, Z.mul_comm, Z.div_mul|reflexivity].
  rewrite Pos2Z.inj_xI. symmetry. rewrite Z.add_comm, Z.mul_comm. rewrite Z.div_add by lia. reflexivity.
Qed.
Lemma shr_1_div' r : 0 <= shr_m r -> shr_m (shr_1 r) = shr_m r / 2.
Proof. destruct r as [m r s]. apply shr_1_div. Qed.
Lemma iter_shr p : forall r, 0 <= shr_m r -> shr_m (iter_pos shr_1 p r) = shr_m r / 2 ^ Zpos p.
Proof.
  induction p as [p IH|p IH|]; intros r H; cbn [iter_pos].
  - assert (H1 := shr_1_div' r H). assert (0 <= shr_m (shr_1 r)) by (rewrite H1; apply Z.div_pos; lia).
    assert (H2 := IH (shr_1 r) H0). assert (0 <= shr_m (iter_pos shr_1 p (shr_1 r))) by (rewrite H2; apply Z.div_pos; [lia|apply Z.pow_pos_nonneg; lia]).
    rewrite IH, H2, H1 by auto. rewrite !Z.div_div by (try apply Z.pow_nonzero; try apply Z.mul_pos_pos; try apply Z.pow_pos_nonneg; lia).
    rewrite Pos2Z.inj_xI. rewrite <- Z.pow_add_r, Z.add_diag by lia. rewrite (Z.add_comm _ 1), Z.pow_add_r, Z.pow_1_r by lia. reflexivity.
  - assert (H2 := IH r H). assert (0 <= shr_m (iter_pos shr_1 p r)) by (rewrite H2; apply Z.div_pos; [lia|apply Z.pow_pos_nonneg; lia]).
    rewrite IH, H2 by auto. rewrite Z.div_div by (try apply Z.pow_nonzero; try apply Z.pow_pos_nonneg; lia).
    rewrite Pos2Z.inj_xO. now rewrite <- Z.pow_add_r, Z.add_diag by lia.
  - rewrite shr_1_div' by auto. reflexivity.
Qed.
Lemma digits_bound p : 2 ^ (Zpos (digits2_pos p) - 1) <= Zpos p < 2 ^ Zpos (digits2_pos p).
Proof.
  induction p as [p IH|p IH|]; cbn [digits2_pos]; [| |cbn; lia]; rewrite Pos2Z.inj_succ; unfold Z.succ;
    rewrite Z.pow_add_r, Z.pow_1_r by lia; replace (Zpos (digits2_pos p) + 1 - 1) with (Zpos (digits2_pos p) - 1 + 1) by lia; rewrite Z.pow_add_r, Z.pow_1_r by lia; lia.
Qed.
Notation fexp' := (fexp 53 1024).
Lemma fexp_val e : fexp' e = Z.max (e - 53) (-1074).
Proof. reflexivity. Qed.
Lemma shr_fexp_spec m e l : 0 <= m ->
  let '(r, e') := shr_fexp 53 1024 m e l in
  e' = Z.max e (fexp' (Zdigits2 m + e)) /\ shr_m r = m / 2 ^ (e' - e) /\ 0 <= shr_m r < 2 ^ 53 /\ (0 < m -> -1074 <= e -> 0 < shr_m r).
Proof.
  intros H. unfold shr_fexp. set (n := fexp' (Zdigits2 m + e) - e). assert (Sm : shr_m (shr_record_of_loc m l) = m) by (destruct l as [|[| |]]; reflexivity).
  assert (G : shr_m (fst (shr (shr_record_of_loc m l) e n)) = m / 2 ^ (Z.max 0 n) /\ snd (shr (shr_record_of_loc m l) e n) = e + Z.max 0 n).
  { unfold shr. destruct n as [|p|p] eqn:En; cbn [fst snd].
    - rewrite Sm. cbn. rewrite Z.div_1_r. split; lia.
    - rewrite iter_shr by lia. rewrite Sm. rewrite Z.max_r by lia. split; reflexivity.
    - rewrite Sm. cbn. rewrite Z.div_1_r. split; lia. }
  destruct (shr _ e n) as [r e'] eqn:Es. cbn [fst snd] in G. destruct G as [G1 G2].
  split; [lia|]. replace (e' - e) with (Z.max 0 n) by lia. split; [exact G1|]. rewrite G1. split.
  - split; [apply Z.div_pos; [lia|apply Z.pow_pos_nonneg; lia]|]. destruct m as [|p|p]; [rewrite Z.div_0_l; [reflexivity|apply Z.pow_nonzero; lia]| |lia].
    assert (D := digits_bound p). cbn [Zdigits2] in n. unfold n in *. rewrite fexp_val in *. apply Z.div_lt_upper_bound; [apply Z.pow_pos_nonneg; lia|].
    rewrite <- Z.pow_add_r by lia. eapply Z.lt_le_trans; [apply D|]. apply Z.pow_le_mono_r; lia.
  - intros Hm He. destruct m as [|p|p]; [lia| |lia]. assert (D := digits_bound p). cbn [Zdigits2] in n. unfold n in *. rewrite fexp_val in *.
    apply Z.div_str_pos. split; [apply Z.pow_pos_nonneg; lia|]. eapply Z.le_trans; [|apply D]. apply Z.pow_le_mono_r; lia.
Qed.
Lemma rne_bound m l : 0 <= m -> m <= round_nearest_even m l <= m + 1.
Proof. intros H. destruct l as [|[| |]]; cbn; try lia. destruct (Z.even m); lia. Qed.
Lemma round_aux_spec s m e l : 0 <= m ->
  fits (binary_round_aux 53 1024 s m e l) /\
  (binary_round_aux 53 1024 s m e l = S754_zero s \/ binary_round_aux 53 1024 s m e l = S754_infinity s \/ exists m' e', binary_round_aux 53 1024 s m e l = S754_finite s m' e') /\
  (0 < m -> -1074 <= e -> ~ is_zero (binary_round_aux 53 1024 s m e l)).
Proof.
  intros H. unfold binary_round_aux. assert (G := shr_fexp_spec m e l H). destruct (shr_fexp 53 1024 m e l) as [r e1]. destruct G as (E1 & _ & B1 & P1).
  set (m1 := round_nearest_even (shr_m r) (loc_of_shr_record r)). assert (R := rne_bound (shr_m r) (loc_of_shr_record r) (proj1 B1)). fold m1 in R.
  assert (G := shr_fexp_spec m1 e1 loc_Exact ltac:(lia)). destruct (shr_fexp 53 1024 m1 e1 loc_Exact) as [r2 e2]. destruct G as (E2 & _ & B2 & P2).
  rewrite fexp_val in *. destruct (shr_m r2) as [|p|p] eqn:Er; [| |lia].
  - split; [exact I|]. split; [now left|]. intros Hm He. exfalso. specialize (P1 Hm He). assert (0 < 0); [apply P2; lia|lia].
  - change (1024 - 53) with 971. destruct (Z.leb e2 971) eqn:El; unfold Zle_bool in *.
    + apply Z.leb_le in El. split; [cbn; lia|]. split; [right; right; eauto|]. intros _ _ [].
    + split; [exact I|]. split; [auto|]. intros _ _ [].
Qed.
Lemma shl_align_spec m e e' : let '(m', e2) := shl_align m e e' in e2 = Z.min e e' /\ Zpos m' = Zpos m * 2 ^ (e - e2).
Proof.
  unfold shl_align. destruct (e' - e) as [|d|d] eqn:E.
  - split; [lia|]. replace (e - e) with 0 by lia. cbn. lia.
  - split; [lia|]. replace (e - e) with 0 by lia. cbn. lia.
  - split; [lia|]. replace (e - e') with (Zpos d) by lia. rewrite shift_pos_correct, Zpower_pos_nat. rewrite Zpower_nat_Z, positive_nat_Z. lia.
Qed.
Lemma round_spec s m e : fits (binary_round 53 1024 s m e) /\
  (binary_round 53 1024 s m e = S754_zero s \/ binary_round 53 1024 s m e = S754_infinity s \/ exists m' e', binary_round 53 1024 s m e = S754_finite s m' e') /\
  (-1074 <= e -> ~ is_zero (binary_round 53 1024 s m e)).
Proof.
  unfold binary_round. assert (G := shl_align_spec m e (fexp' (Zpos (digits2_pos m) + e))). destruct (shl_align _ _ _) as [mz ez]. destruct G as [E _].
  destruct (round_aux_spec s (Zpos mz) ez loc_Exact ltac:(lia)) as (A & B & C). split; [exact A|]. split; [exact B|]. intros He. apply C; [lia|]. rewrite fexp_val in E. lia.
Qed.

(* Rounding does not look at the sign. *)
Lemma round_aux_sign s m e l : binary_round_aux 53 1024 (negb s) m e l = SFopp (binary_round_aux 53 1024 s m e l).
Proof.
  unfold binary_round_aux. destruct (shr_fexp 53 1024 m e l) as [r e1]. destruct (shr_fexp _ _ _ e1 loc_Exact) as [r2 e2].
  destruct (shr_m r2); try reflexivity. destruct (Zle_bool _ _); reflexivity.
Qed.
Lemma round_sign s m e : binary_round 53 1024 (negb s) m e = SFopp (binary_round 53 1024 s m e).
Proof. unfold binary_round. destruct (shl_align _ _ _). apply round_aux_sign. Qed.
Lemma opp_square square x : squares square -> square (SFopp x) = square x.
Proof. intros H. apply sq_even, H. Qed.
(* x - y and y - x are opposite, or both are +0 *)
Lemma sub_anti square x y : squares square -> square (d_sub x y) = square (d_sub y x).
Proof.
  intros Sq. unfold d_sub. destruct x as [s|s| |s m e], y as [s'|s'| |s' m' e']; cbn [SFsub]; try reflexivity.
  - destruct s, s'; cbn [Bool.eqb negb]; now rewrite ?(sq_zero _ Sq).
  - rewrite <- (opp_square square (S754_infinity s')) by auto. reflexivity.
  - rewrite <- (opp_square square (S754_finite s' m' e')) by auto. reflexivity.
  - rewrite <- (opp_square square (S754_infinity s)) by auto. reflexivity.
  - destruct s, s'; cbn [Bool.eqb negb]; try reflexivity; now rewrite <- (opp_square square (S754_infinity true)) by auto.
  - rewrite <- (opp_square square (S754_infinity s)) by auto. reflexivity.
  - rewrite <- (opp_square square (S754_finite s m e)) by auto. reflexivity.
  - rewrite <- (opp_square square (S754_infinity s')) by auto. reflexivity.
  - rewrite (Z.min_comm e' e). set (a := cond_Zopp s _). set (b := cond_Zopp s' _). replace (b - a) with (- (a - b)) by lia.
    destruct (a - b) as [|p|p]; cbn [binary_normalize Z.opp]; try reflexivity.
    + rewrite <- (opp_square square (binary_round _ _ false p _)) by auto. now rewrite <- round_sign.
    + rewrite <- (opp_square square (binary_round _ _ true p _)) by auto. now rewrite <- round_sign.
Qed.
Lemma sub_self x : is_finite x -> d_sub x x = S754_zero false.
Proof.
  destruct x as [s|s| |s m e]; cbn; try easy; [now destruct s|]. intros _. rewrite Z.sub_diag. reflexivity.
Qed.
Lemma sub_number x y : is_finite x -> is_finite y -> is_number (d_sub x y).
Proof.
  unfold d_sub, is_number. destruct x as [s|s| |s m e], y as [s'|s'| |s' m' e']; cbn [SFsub is_finite]; try easy; intros _ _; try (destruct s, s'; discriminate).
  set (a := Zminus _ _). destruct a as [|p|p]; cbn [binary_normalize]; [discriminate| |].
  - destruct (round_spec false p (Z.min e e')) as (_ & [-> |[-> |(m1 & e1 & ->)]] & _); discriminate.
  - destruct (round_spec true p (Z.min e e')) as (_ & [-> |[-> |(m1 & e1 & ->)]] & _); discriminate.
Qed.

(* x * x is such a square *)
Lemma square_squares : squares d_square.
Proof.
  unfold d_square, d_mul. constructor.
  - intros [s|s| |s m e]; cbn [SFopp SFmul]; try reflexivity; now destruct s.
  - intros [s|s| |s m e] N; cbn [SFmul]; try (now destruct s); [now destruct N|]. rewrite xorb_nilpotent.
    destruct (round_aux_spec false (Zpos (m * m)) (e + e) loc_Exact ltac:(lia)) as (_ & [-> |[-> |(m1 & e1 & ->)]] & _); reflexivity.
  - intros [s|s| |s m e]; cbn [SFmul]; try exact I. apply round_aux_spec. lia.
  - reflexivity.
  - intros s. cbn [SFmul]. now rewrite xorb_nilpotent.
Qed.

(* sums of numbers from 0 on *)
Lemma add_non_negative x y : non_negative x -> non_negative y -> non_negative (d_add x y).
Proof.
  unfold d_add. destruct x as [s|s| |s m e], y as [s'|s'| |s' m' e']; cbn [SFadd non_negative]; try easy; try (intros -> ->; reflexivity).
  intros -> ->. cbn [cond_Zopp]. cbn [Z.add binary_normalize]. destruct (round_spec false (fst (shl_align m e (Z.min e e')) + fst (shl_align m' e' (Z.min e e'))) (Z.min e e')) as (_ & [-> |[-> |(m1 & e1 & ->)]] & _); reflexivity.
Qed.
Lemma add_fits x y : fits x -> fits y -> fits (d_add x y).
Proof.
  unfold d_add. destruct x as [s|s| |s m e], y as [s'|s'| |s' m' e']; cbn [SFadd]; try easy; try (now destruct s, s').
  intros _ _. set (a := Zplus _ _). destruct a; cbn [binary_normalize]; [exact I| |]; apply round_spec.
Qed.
Lemma add_zero x y : fits x -> fits y -> non_negative x -> non_negative y -> is_zero (d_add x y) -> is_zero x /\ is_zero y.
Proof.
  unfold d_add. destruct x as [s|s| |s m e], y as [s'|s'| |s' m' e']; cbn [SFadd non_negative is_zero fits];
    try (lazymatch goal with |- context [binary_normalize] => fail | _ => (intros; subst; easy) || (now destruct s, s') end).
  intros [_ H] [_ H'] -> ->. cbn [cond_Zopp Z.add binary_normalize]. intros Q. exfalso. revert Q. apply round_spec. lia.
Qed.
Lemma sqrt_core m e mz ez lz : SFsqrt_core_binary 53 1024 (Zpos m) e = (mz, ez, lz) -> 0 < mz /\ (-1074 <= e -> -1074 <= ez).
Proof.
  unfold SFsqrt_core_binary. cbv zeta. set (e' := Z.min _ _). assert (L : e' <= Z.div2 e) by apply Z.le_min_r.
  assert (F : -1074 <= e -> -1074 <= e').
  { intros He. unfold e'. rewrite fexp_val. assert (D := Z.div2_odd e). destruct (Z.odd e); unfold Z.b2z in D; lia. }
  clearbody e'. set (a := match e - 2 * e' with Z0 => _ | Zpos _ => _ | Zneg _ => _ end). assert (A : 0 < a).
  { unfold a. assert (0 <= e - 2 * e') by (assert (D := Z.div2_odd e); destruct (Z.odd e); unfold Z.b2z in D; lia).
    destruct (e - 2 * e') as [|p|p]; try lia. rewrite Z.shiftl_mul_pow2 by lia. apply Z.mul_pos_pos; [lia|apply Z.pow_pos_nonneg; lia]. }
  clearbody a. assert (Q := Z.sqrtrem_sqrt a). destruct (Z.sqrtrem a) as [q r]. cbn [fst] in Q. intros E. injection E as <- <- _. split; [|exact F].
  rewrite Q. now apply Z.sqrt_pos.
Qed.
Lemma sqrt_non_negative x : non_negative x -> non_negative (d_sqrt x).
Proof.
  unfold d_sqrt. destruct x as [s|s| |s m e]; cbn [SFsqrt non_negative]; try easy; intros ->; try reflexivity.
  destruct (SFsqrt_core_binary 53 1024 (Zpos m) e) as [[mz ez] lz] eqn:E. apply sqrt_core in E.
  destruct (round_aux_spec false mz ez lz ltac:(lia)) as (_ & [-> |[-> |(m1 & e1 & ->)]] & _); reflexivity.
Qed.
Lemma sqrt_fits x : fits (d_sqrt x).
Proof.
  unfold d_sqrt. destruct x as [s|s| |s m e]; cbn [SFsqrt]; try exact I; destruct s; try exact I.
  destruct (SFsqrt_core_binary 53 1024 (Zpos m) e) as [[mz ez] lz] eqn:E. apply sqrt_core in E. apply round_aux_spec. lia.
Qed.
Lemma sqrt_zero x : fits x -> is_zero (d_sqrt x) -> is_zero x.
Proof.
  unfold d_sqrt. destruct x as [s|s| |s m e]; cbn [SFsqrt]; try easy; destruct s; try easy.
  destruct (SFsqrt_core_binary 53 1024 (Zpos m) e) as [[mz ez] lz] eqn:E. apply sqrt_core in E. intros [_ H] Q. exfalso. revert Q. apply round_aux_spec; lia.
Qed.

(* distances *)
Lemma sum_non_negative l : forall x, non_negative x -> Forall non_negative l -> non_negative (fold_left d_add l x).
Proof. induction l as [|y l IH]; intros x H F; cbn [fold_left]; [exact H|]. inversion F; subst. apply IH; auto. now apply add_non_negative. Qed.
Lemma sum_fits l : forall x, fits x -> Forall fits l -> fits (fold_left d_add l x).
Proof. induction l as [|y l IH]; intros x H F; cbn [fold_left]; [exact H|]. inversion F; subst. apply IH; auto. now apply add_fits. Qed.
Lemma sum_zero l : forall x, fits x -> Forall fits l -> non_negative x -> Forall non_negative l ->
  is_zero (fold_left d_add l x) -> is_zero x /\ Forall is_zero l.
Proof.
  induction l as [|y l IH]; intros x H F Hn Fn Q; cbn [fold_left] in Q; [auto|]. inversion F; subst. inversion Fn; subst.
  destruct (IH (d_add x y)) as [Z1 Z2]; auto; [now apply add_fits|now apply add_non_negative|]. apply add_zero in Z1; auto. destruct Z1. auto.
Qed.
Lemma sum_nan l : fold_left d_add l S754_nan = S754_nan.
Proof. induction l as [|y l IH]; cbn [fold_left]; [reflexivity|exact IH]. Qed.
Lemma sum_nan_in l : forall x, In S754_nan l -> fold_left d_add l x = S754_nan.
Proof.
  induction l as [|y l IH]; intros x H; [destruct H|]. cbn [fold_left]. destruct H as [->|H]; [|now apply IH].
  replace (d_add x S754_nan) with S754_nan by (destruct x; reflexivity). apply sum_nan.
Qed.
Section Distance.
  Variable square : double -> double.
  Hypothesis Sq : squares square.
  Definition sq_diffs (a b : list double) : list double := map (fun p => square (d_sub (fst p) (snd p))) (combine a b).
  Lemma distance_value a b : length a = length b -> d_distance square a b = Ok (d_sqrt (fold_left d_add (sq_diffs a b) d_zero)).
  Proof.
    intros L. unfold d_distance. destruct b as [|y b]; [destruct a; [reflexivity|discriminate]|]. rewrite vectors_distance_value by (try discriminate; lia). reflexivity.
  Qed.
  Lemma diffs_fit a b : Forall fits (sq_diffs a b).
  Proof. apply Forall_forall. intros v H. apply in_map_iff in H as (p & <- & _). apply sq_fits, Sq. Qed.
  Lemma diffs_non_negative a b : (forall x y, In (x, y) (combine a b) -> is_number (d_sub x y)) -> Forall non_negative (sq_diffs a b).
  Proof. intros H. apply Forall_forall. intros v Hv. apply in_map_iff in Hv as ([x y] & <- & Hp). cbn. apply (sq_number _ Sq). now apply H. Qed.
  Lemma finite_numbers a b : Forall is_finite a -> Forall is_finite b -> forall x y, In (x, y) (combine a b) -> is_number (d_sub x y).
  Proof. intros Fa Fb x y H. rewrite Forall_forall in *. apply sub_number; [apply Fa; eapply in_combine_l; eauto|apply Fb; eapply in_combine_r; eauto]. Qed.
  Lemma sq_diffs_sym a : forall b, sq_diffs a b = sq_diffs b a.
  Proof. unfold sq_diffs. induction a as [|x a IH]; intros [|y b]; cbn [combine map]; try reflexivity. f_equal; [|apply IH]. now apply sub_anti. Qed.
  Lemma sq_diffs_self a : Forall is_finite a -> sq_diffs a a = repeat (S754_zero false) (length a).
  Proof. unfold sq_diffs. induction 1 as [|x a H F IH]; cbn [combine map length repeat]; [reflexivity|]. rewrite IH. cbn [fst snd]. rewrite (sub_self _ H), (sq_zero _ Sq). reflexivity. Qed.
End Distance.
