(* TextProofs.v -- lemmas about numbers as text (C92). *)
From Coq Require Import String Ascii List Arith ZArith Bool Lia SpecFloat.
From Verif Require Import Base IoModel DoubleModel SpecDouble DoubleProofs TextModel SpecText.
Import ListNotations.
Local Open Scope Z_scope.
Local Open Scope list_scope.

(* digits *)
Lemma digit_value d : 0 <= d < 10 -> is_digit (digit d) /\ Z.of_nat (nat_of_ascii (digit d)) - 48 = d.
Proof. intros H. unfold is_digit, digit. rewrite nat_ascii_embedding by lia. lia. Qed.
Lemma number_acc t : forall n, fold_left (fun n c => 10 * n + (Z.of_nat (nat_of_ascii c) - 48)) t n = n * 10 ^ Z.of_nat (length t) + number_of_digits t.
Proof.
  unfold number_of_digits. induction t as [|c t IH]; intros n; [cbn; lia|]. cbn [fold_left length]. rewrite IH, (IH (10 * 0 + _)).
  rewrite Nat2Z.inj_succ, Z.pow_succ_r by lia. lia.
Qed.
Lemma number_app t t' : number_of_digits (t ++ t') = number_of_digits t * 10 ^ Z.of_nat (length t') + number_of_digits t'.
Proof. unfold number_of_digits at 1. rewrite fold_left_app. now rewrite number_acc. Qed.
Lemma show_digits_spec fuel : forall n acc, (0 < fuel)%nat -> 0 <= n < 2 ^ Z.of_nat fuel ->
  exists t, show_digits fuel n acc = t ++ acc /\ reads_number t n.
Proof.
  induction fuel as [|fuel IH]; intros n acc Hf Hn; [lia|]. cbn [show_digits]. destruct (digit_value (n mod 10)) as [D1 D2]; [apply Z.mod_pos_bound; lia|].
  destruct (Z.ltb_spec n 10).
  - exists [digit (n mod 10)]. split; [reflexivity|]. split; [discriminate|]. split; [now constructor|]. rewrite Z.mod_small in * by lia.
    split; [unfold number_of_digits; cbn [fold_left]; lia|]. cbn [hd]. now intros ->.
  - rewrite Nat2Z.inj_succ, Z.pow_succ_r in Hn by lia.
    destruct (IH (n / 10) (digit (n mod 10) :: acc)) as (t & E & R1 & R2 & R3 & R4).
    { destruct fuel; [cbn in Hn; lia|lia]. }
    { split; [apply Z.div_pos; lia|]. apply Z.div_lt_upper_bound; lia. }
    exists (t ++ [digit (n mod 10)]). split; [now rewrite E, <- app_assoc|]. split; [destruct t; discriminate|].
    split; [apply Forall_app; split; [exact R2|now constructor]|]. split.
    + rewrite number_app, R3. unfold number_of_digits. cbn [fold_left length]. rewrite Z.mul_0_r, Z.add_0_l, D2. change (10 ^ Z.of_nat 1) with 10. rewrite (Z.div_mod n 10) at 3 by lia. lia.
    + destruct t as [|c t]; [now destruct R1|]. cbn [hd app]. intros Hc. specialize (R4 Hc). injection R4 as -> ->. exfalso.
      cbn in R3. assert (1 <= n / 10) by (apply Z.div_le_lower_bound; lia). lia.
Qed.
Lemma show_spec n : 0 <= n -> reads_number (show n) n.
Proof.
  intros H. unfold show. destruct (show_digits_spec (S (Z.to_nat (Z.log2 n))) n []) as (t & E & R); [lia| |now rewrite E, app_nil_r].
  split; [lia|]. rewrite Nat2Z.inj_succ, Z2Nat.id by apply Z.log2_nonneg. destruct (Z.eq_dec n 0) as [->|]; [reflexivity|]. apply Z.log2_spec. lia.
Qed.
Lemma fixed_spec n s : 0 <= n -> reads_millionths (minus s ++ fixed n) s n.
Proof.
  intros H. unfold fixed. set (frac := map _ _). exists (show (n / 10 ^ 6)), frac. split; [reflexivity|]. split; [reflexivity|].
  assert (R : reads_number (show (n / 10 ^ 6)) (n / 10 ^ 6)) by (apply show_spec, Z.div_pos; lia). split; [exact R|].
  assert (D : forall k, is_digit (digit (n / 10 ^ k mod 10)) /\ Z.of_nat (nat_of_ascii (digit (n / 10 ^ k mod 10))) - 48 = n / 10 ^ k mod 10).
  { intros k. apply digit_value, Z.mod_pos_bound. lia. }
  split; [repeat (constructor; [apply D|]); constructor|].
  rewrite number_app. destruct R as (_ & _ & R & _). rewrite R. change (length frac) with 6%nat. change (Z.of_nat 6) with 6.
  assert (F : number_of_digits frac = n mod 10 ^ 6).
  { unfold number_of_digits, frac. cbn [map fold_left]. rewrite !(proj2 (D _)).
    assert (S1 : forall b, 0 < b -> n mod (b * 10) = n mod b + b * ((n / b) mod 10)) by (intros b Hb; apply Z.rem_mul_r; lia).
    change (10 ^ 6) with (100000 * 10). rewrite S1 by lia. change (n mod 100000) with (n mod (10000 * 10)). rewrite S1 by lia.
    change (n mod 10000) with (n mod (1000 * 10)). rewrite S1 by lia. change (n mod 1000) with (n mod (100 * 10)). rewrite S1 by lia.
    change (n mod 100) with (n mod (10 * 10)). rewrite S1 by lia. change (10 ^ 5) with 100000. change (10 ^ 4) with 10000. change (10 ^ 3) with 1000.
    change (10 ^ 2) with 100. change (10 ^ 1) with 10. change (10 ^ 0) with 1. rewrite Z.div_1_r. lia. }
  rewrite F. rewrite (Z.div_mod n (10 ^ 6)) at 3 by lia. lia.
Qed.

(* rounding *)
Lemma round_div_spec a b : 0 < b -> 2 * Z.abs (round_div a b * b - a) <= b /\ (2 * Z.abs (round_div a b * b - a) = b -> Z.even (round_div a b) = true).
Proof.
  intros Hb. unfold round_div. assert (D := Z.div_mod a b ltac:(lia)). assert (M := Z.mod_pos_bound a b Hb). set (q := a / b) in *. set (r := a mod b) in *. clearbody q r. subst a.
  destruct (Z.compare_spec (2 * r) b) as [E|E|E].
  - destruct (Z.even q) eqn:Q.
    + split; [|auto]. replace (q * b - (b * q + r)) with (- r) by lia. lia.
    + split; [replace ((q + 1) * b - (b * q + r)) with (b - r) by lia; lia|]. intros _. rewrite Z.even_add, Q. reflexivity.
  - replace (q * b - (b * q + r)) with (- r) by lia. split; lia.
  - replace ((q + 1) * b - (b * q + r)) with (b - r) by lia. split; lia.
Qed.
Lemma round_div_le a a' b : 0 < b -> a <= a' -> round_div a b <= round_div a' b.
Proof.
  intros Hb Ha. destruct (Z.eq_dec a a') as [->|Hn]; [lia|]. destruct (round_div_spec a b Hb) as [A _]. destruct (round_div_spec a' b Hb) as [A' _].
  set (n := round_div a b) in *. set (n' := round_div a' b) in *. clearbody n n'. destruct (Z.le_gt_cases n n') as [|G]; [auto|exfalso].
  assert (b <= (n - n') * b) by nia. lia.
Qed.
Lemma round_div_0 b : 0 < b -> round_div 0 b = 0.
Proof. intros H. unfold round_div. rewrite Z.div_0_l, Z.mod_0_l by lia. destruct (Z.compare_spec (2 * 0) b); lia. Qed.
Lemma pow1074 : 0 < 2 ^ 1074. Proof. apply Z.pow_pos_nonneg; lia. Qed.
Lemma millionths_pos m e : -1074 <= e -> 0 <= millionths m e.
Proof.
  intros H. unfold millionths. rewrite <- (round_div_0 (2 ^ 1074) pow1074). apply round_div_le; [exact pow1074|]. apply Z.mul_nonneg_nonneg; [|lia].
  apply Z.mul_nonneg_nonneg; [lia|apply Z.pow_nonneg; lia].
Qed.
Definition printed (x : double) : Z := match x with S754_finite _ m e => millionths m e | _ => 0 end.
Lemma to_string_spec x : is_finite x -> fits x -> reads_millionths (to_string x) (negative x) (printed x) /\ nearest_millionths x (printed x).
Proof.
  destruct x as [s|s| |s m e]; intros I F; [|destruct I|destruct I|]; cbn [fits] in F; cbn [to_string negative printed].
  - split; [apply fixed_spec; lia|]. unfold nearest_millionths. cbn [units]. assert (P := pow1074). revert P. generalize (2 ^ 1074). clear. intros b P. split; [|intros _; reflexivity].
    rewrite !Z.mul_0_l. cbn. lia.
  - split; [apply fixed_spec, millionths_pos; lia|]. unfold nearest_millionths. cbn [units]. apply round_div_spec, pow1074.
Qed.
Lemma nearest_unique x n n' : nearest_millionths x n -> nearest_millionths x n' -> n = n'.
Proof.
  unfold nearest_millionths. set (u := units x * 10 ^ 6). assert (P := pow1074). set (b := 2 ^ 1074) in *. clearbody u b. intros [A E] [A' E'].
  destruct (Z.lt_trichotomy n n') as [G|[G|G]]; [exfalso|exact G|exfalso].
  - assert (n' = n + 1) by nia. subst. rewrite Z.even_add in E'. assert (2 * Z.abs (n * b - u) = b) by lia. assert (2 * Z.abs ((n + 1) * b - u) = b) by lia. specialize (E' H0).
    rewrite (E H) in E'. discriminate.
  - assert (n = n' + 1) by nia. subst. rewrite Z.even_add in E. assert (2 * Z.abs (n' * b - u) = b) by lia. assert (2 * Z.abs ((n' + 1) * b - u) = b) by lia.
    specialize (E H0). rewrite (E' H) in E. discriminate.
Qed.

(* the order of the doubles is the order of their values *)
Lemma canonical_fits x : canonical x -> fits x.
Proof. destruct x; cbn; tauto. Qed.
Lemma units_le x y : canonical x -> canonical y -> non_negative x -> non_negative y -> is_finite x -> is_finite y ->
  (SFleb x y = true <-> units x <= units y).
Proof.
  unfold SFleb. destruct x as [s|s| |s m e], y as [s'|s'| |s' m' e']; intros Cx Cy Nx Ny Fx Fy; try solve [destruct Fx]; try solve [destruct Fy]; cbn [canonical non_negative] in *; subst; cbn [SFcompare units].
  - split; lia.
  - split; [intros _; apply Z.mul_nonneg_nonneg; [lia|apply Z.pow_nonneg; lia]|auto].
  - split; [discriminate|]. assert (0 < Zpos m * 2 ^ (e + 1074)) by (apply Z.mul_pos_pos; [lia|apply Z.pow_pos_nonneg; lia]). lia.
  - assert (K : forall m e m' e', Zpos m < 2 ^ 53 -> -1074 <= e < e' -> 2 ^ 52 <= Zpos m' -> Zpos m * 2 ^ (e + 1074) < Zpos m' * 2 ^ (e' + 1074)).
    { clear. intros m e m' e' A B C. assert (F : e' + 1074 = (e' - e - 1) + 1 + (e + 1074)) by lia. assert (G : 0 <= e + 1074) by lia. assert (G' : 0 <= e' - e - 1) by lia.
      rewrite F. set (f := e + 1074) in *. set (g := e' - e - 1) in *. clearbody f g. rewrite !Z.pow_add_r, Z.pow_1_r by lia.
      assert (P : 0 < 2 ^ f) by (apply Z.pow_pos_nonneg; lia). assert (1 <= 2 ^ g) by (apply (Z.pow_le_mono_r 2 0); lia).
      change (2 ^ 53) with (2 ^ 52 * 2) in A. set (p := 2 ^ f) in *. set (q := 2 ^ g) in *. set (k := 2 ^ 52) in *. clearbody p q k.
      assert (Zpos m' * 1 <= Zpos m' * q) by (apply Z.mul_le_mono_nonneg_l; lia). replace (Zpos m' * (q * 2 * p)) with ((Zpos m' * q * 2) * p) by ring. apply Z.mul_lt_mono_pos_r; lia. }
    destruct (Z.compare_spec e e') as [<-|H|H].
    + change (Pos.compare_cont Eq m m') with (Pos.compare m m'). assert (P : 0 < 2 ^ (e + 1074)) by (apply Z.pow_pos_nonneg; lia).
      destruct (Pos.compare_spec m m') as [<-|H|H]; split; intros; try discriminate; try lia; try reflexivity; [apply Z.mul_le_mono_nonneg_r; lia|].
      exfalso. apply Z.mul_le_mono_pos_r in H0; lia.
    + split; auto. intros _. apply Z.lt_le_incl, K; try lia.
    + split; [discriminate|]. intros Q. exfalso. apply Z.le_ngt in Q. apply Q, K; lia.
Qed.
Lemma printed_le x y : canonical x -> canonical y -> non_negative x -> non_negative y -> is_finite x -> is_finite y -> SFleb x y = true -> printed x <= printed y.
Proof.
  intros Cx Cy Nx Ny Fx Fy H. apply units_le in H; auto.
  assert (E : forall x, is_finite x -> printed x = round_div (units x * 10 ^ 6) (2 ^ 1074)).
  { clear. intros [s|s| |s m e] F; try solve [destruct F]; [|reflexivity]. cbn [printed units]. rewrite Z.mul_0_l. symmetry. apply round_div_0. exact pow1074. }
  rewrite !E by auto. apply round_div_le; [exact pow1074|lia].
Qed.

(* places *)
Lemma at_place_rank x : non_negative x -> fits x -> at_place (rank x) = x.
Proof.
  destruct x as [s|s| |s m e]; intros N F; try solve [destruct N]; cbn [non_negative fits] in *; subst; try reflexivity. destruct F as [M E]. cbn [rank]. unfold at_place.
  rewrite Z.mul_1_l. assert (K : 2 ^ 65 = 4096 * 2 ^ 53) by reflexivity. assert (P : 0 < 2 ^ 53) by reflexivity. rewrite K. clear K. set (k := 2 ^ 53) in *. clearbody k.
  assert (0 <= (e + 1074) * k) by (apply Z.mul_nonneg_nonneg; lia). assert ((e + 1074) * k <= 2045 * k) by (apply Z.mul_le_mono_nonneg_r; lia).
  destruct (Z.leb_spec ((e + 1074) * k + Zpos m) 0); [lia|]. destruct (Z.ltb_spec ((e + 1074) * k + Zpos m) (4096 * k)); [|lia].
  assert (D1 : ((e + 1074) * k + Zpos m) / k = e + 1074) by (symmetry; apply Z.div_unique with (Zpos m); lia).
  assert (D2 : ((e + 1074) * k + Zpos m) mod k = Zpos m) by (symmetry; apply Z.mod_unique with (e + 1074); lia).
  rewrite D1, D2. cbn [Z.to_pos]. f_equal. lia.
Qed.

(* results of rounding are canonical *)
Lemma digits_unique p d : 2 ^ (d - 1) <= Zpos p < 2 ^ d -> Zpos (digits2_pos p) = d.
Proof.
  intros [A B]. assert (D := digits_bound p). assert (0 < d) by (destruct (Z.lt_ge_cases 0 d); [auto|]; assert (2 ^ d <= 2 ^ 0) by (apply Z.pow_le_mono_r; lia); change (2 ^ 0) with 1 in *; lia).
  assert (d - 1 < Zpos (digits2_pos p)) by (apply (Z.pow_lt_mono_r_iff 2); lia). assert (Zpos (digits2_pos p) - 1 < d) by (apply (Z.pow_lt_mono_r_iff 2); lia). lia.
Qed.
Lemma round_aux_canonical s m e l : 0 < m -> e <= fexp 53 1024 (Zdigits2 m + e) -> canonical (binary_round_aux 53 1024 s m e l).
Proof.
  intros H He. unfold binary_round_aux. assert (G := shr_fexp_spec m e l ltac:(lia)). destruct (shr_fexp 53 1024 m e l) as [r e1]. destruct G as (E1 & D1 & B1 & _).
  rewrite Z.max_r in E1 by exact He. rewrite fexp_val in *.
  set (m1 := round_nearest_even (shr_m r) (loc_of_shr_record r)). assert (R := rne_bound (shr_m r) (loc_of_shr_record r) (proj1 B1)). fold m1 in R.
  assert (G := shr_fexp_spec m1 e1 loc_Exact ltac:(lia)). destruct (shr_fexp 53 1024 m1 e1 loc_Exact) as [r2 e2]. destruct G as (E2 & D2 & B2 & _). rewrite fexp_val in *.
  destruct (shr_m r2) as [|p|p] eqn:Er; [exact I| |lia].
  change (1024 - 53) with 971. destruct (Zle_bool e2 971) eqn:El; [|exact I]. apply Zle_is_le_bool in El. cbn [canonical]. split; [lia|]. split; [lia|].
  destruct (Z.eq_dec e2 (-1074)) as [|N]; [now left|right].
  (* e1 > -1074 means that the first shift left 53 bits *)
  assert (L1 : e1 = -1074 \/ 2 ^ 52 <= shr_m r).
  { destruct (Z.eq_dec e1 (-1074)) as [|N1]; [now left|right]. destruct m as [|q|q]; try lia. cbn [Zdigits2] in *. assert (D := digits_bound q).
    assert (X : e1 - e = Zpos (digits2_pos q) - 53) by lia. rewrite D1, X. apply Z.div_le_lower_bound; [apply Z.pow_pos_nonneg; lia|]. rewrite <- Z.pow_add_r by lia.
    eapply Z.le_trans; [|apply D]. apply Z.pow_le_mono_r; lia. }
  destruct (Z.eq_dec e2 e1) as [E|E].
  - subst e2. rewrite E, Z.sub_diag in D2. change (2 ^ 0) with 1 in D2. rewrite Z.div_1_r in D2. destruct L1; lia.
  - destruct m1 as [|q|q] eqn:Em; [|clearbody m1|lia].
    + rewrite Z.div_0_l in D2 by (apply Z.pow_nonzero; lia). lia.
    + cbn [Zdigits2] in *. assert (D := digits_bound q). assert (X : e2 - e1 = Zpos (digits2_pos q) - 53) by lia. rewrite D2, X. apply Z.div_le_lower_bound; [apply Z.pow_pos_nonneg; lia|]. rewrite <- Z.pow_add_r by lia.
      eapply Z.le_trans; [|apply D]. apply Z.pow_le_mono_r; lia.
Qed.
Lemma sqrt_core_exp m e mz ez lz : SFsqrt_core_binary 53 1024 (Zpos m) e = (mz, ez, lz) -> 0 < mz /\ ez <= fexp 53 1024 (Zdigits2 mz + ez).
Proof.
  unfold SFsqrt_core_binary. cbv zeta. set (e' := Z.min _ _). assert (L : e' <= Z.div2 e) by apply Z.le_min_r. assert (L2 : e' <= fexp 53 1024 (Z.div2 (Zdigits2 (Zpos m) + e + 1))) by apply Z.le_min_l.
  clearbody e'. set (a := match e - 2 * e' with Z0 => _ | Zpos _ => _ | Zneg _ => _ end).
  assert (S1 : 0 <= e - 2 * e') by (assert (D := Z.div2_odd e); destruct (Z.odd e); unfold Z.b2z in D; lia).
  assert (A : a = Zpos m * 2 ^ (e - 2 * e')).
  { unfold a. destruct (e - 2 * e') as [|p|p]; [cbn; lia| |lia]. now rewrite Z.shiftl_mul_pow2 by lia. }
  clearbody a. assert (Q := Z.sqrtrem_sqrt a). destruct (Z.sqrtrem a) as [q r]. cbn [fst] in Q. intros E. injection E as <- <- _. cbn [Zdigits2] in L2. assert (D := digits_bound m).
  set (d := Zpos (digits2_pos m)) in *. assert (D1 : 1 <= d) by (unfold d; lia). clearbody d.
  set (k := Z.div2 (d + e + 1) - e'). assert (K : 2 * k <= d + (e - 2 * e') + 1 <= 2 * k + 1).
  { unfold k. assert (Z1 := Z.div2_odd (d + e + 1)). destruct (Z.odd (d + e + 1)); unfold Z.b2z in Z1; lia. }
  assert (P : 0 < 2 ^ (e - 2 * e')) by (apply Z.pow_pos_nonneg; lia).
  assert (A1 : 2 ^ (2 * (k - 1)) <= a).
  { rewrite A. apply Z.le_trans with (2 ^ (d - 1) * 2 ^ (e - 2 * e')); [rewrite <- Z.pow_add_r by lia; apply Z.pow_le_mono_r; lia|apply Z.mul_le_mono_nonneg_r; lia]. }
  assert (A2 : a < 2 ^ (2 * k)).
  { rewrite A. apply Z.lt_le_trans with (2 ^ d * 2 ^ (e - 2 * e')); [apply Z.mul_lt_mono_pos_r; lia|]. rewrite <- Z.pow_add_r by lia. apply Z.pow_le_mono_r; lia. }
  assert (Hk : 1 <= k) by lia.
  assert (B1 : 2 ^ (k - 1) <= q).
  { rewrite Q. apply Z.sqrt_le_square; [assert (0 < a) by (rewrite A; apply Z.mul_pos_pos; lia); lia|apply Z.pow_nonneg; lia|]. rewrite <- Z.pow_2_r, <- Z.pow_mul_r by lia. now replace ((k - 1) * 2) with (2 * (k - 1)) by lia. }
  assert (B2 : q < 2 ^ k).
  { rewrite Q. apply Z.sqrt_lt_square; [assert (0 < a) by (rewrite A; apply Z.mul_pos_pos; lia); lia|apply Z.pow_nonneg; lia|]. rewrite <- Z.pow_2_r, <- Z.pow_mul_r by lia. now replace (k * 2) with (2 * k) by lia. }
  assert (0 < q) by (assert (0 < 2 ^ (k - 1)) by (apply Z.pow_pos_nonneg; lia); lia). split; [auto|].
  destruct q as [|q|q]; try lia. cbn [Zdigits2]. rewrite (digits_unique q k) by lia. unfold k. replace (Z.div2 (d + e + 1) - e' + e') with (Z.div2 (d + e + 1)) by lia. exact L2.
Qed.
Lemma sqrt_canonical x : canonical (d_sqrt x).
Proof.
  unfold d_sqrt. destruct x as [s|s| |s m e]; cbn [SFsqrt]; try exact I; destruct s; try exact I.
  destruct (SFsqrt_core_binary 53 1024 (Zpos m) e) as [[mz ez] lz] eqn:E. apply sqrt_core_exp in E. apply round_aux_canonical; apply E.
Qed.

(* a text stands for one number only *)
Definition digitb (c : ascii) : bool := ((48 <=? nat_of_ascii c)%nat && (nat_of_ascii c <=? 57)%nat)%bool.
Lemma reads_unique t s n s' n' : reads_millionths t s n -> reads_millionths t s' n' -> n = n'.
Proof.
  assert (K : forall s n, reads_millionths t s n -> n = number_of_digits (filter digitb t)); [|intros A B; now rewrite (K s n A), (K s' n' B)].
  intros s0 n0 (w & f & -> & _ & (_ & D & _) & D' & <-). f_equal.
  assert (F : forall l, Forall is_digit l -> filter digitb l = l).
  { induction 1 as [|c l H F IH]; [reflexivity|]. cbn [filter]. assert (E : digitb c = true) by (unfold is_digit in H; unfold digitb; apply andb_true_intro; split; apply Nat.leb_le; lia).
    now rewrite E, IH. }
  rewrite filter_app, filter_app. cbn [filter]. change (digitb ".") with false. rewrite (F w D), (F f D'). now destruct s0.
Qed.
