(* ReadProofs.v -- proofs about text as numbers (C93). *)
From Coq Require Import String Ascii List Arith ZArith Bool Lia SpecFloat.
From Verif Require Import Base IoModel SpecIo DoubleModel SpecDouble TextModel ReadModel SpecText SpecRead TextProofs.
Import ListNotations.
Local Open Scope Z_scope.
Local Open Scope list_scope.

(* ---- rounding *)
Lemma round_div_nearest a b k : 0 < b -> Z.abs (round_div a b * b - a) <= Z.abs (k * b - a).
Proof.
  intros Hb. destruct (round_div_spec a b Hb) as [H _]. set (q := round_div a b) in *. clearbody q.
  destruct (Z.eq_dec k q) as [->|N]; [lia|]. assert (b <= Z.abs (k * b - q * b)).
  { replace (k * b - q * b) with ((k - q) * b) by ring. rewrite Z.abs_mul, (Z.abs_eq b) by lia. assert (1 <= Z.abs (k - q)) by lia. nia. }
  lia.
Qed.
Lemma round_div_tie a b k : 0 < b -> Z.abs (k * b - a) = Z.abs (round_div a b * b - a) -> k = round_div a b \/ Z.even (round_div a b) = true.
Proof.
  intros Hb H. destruct (round_div_spec a b Hb) as [H1 H2]. set (q := round_div a b) in *. clearbody q.
  destruct (Z.eq_dec k q) as [->|N]; [auto|]. right. apply H2. assert (b <= Z.abs (k * b - q * b)).
  { replace (k * b - q * b) with ((k - q) * b) by ring. rewrite Z.abs_mul, (Z.abs_eq b) by lia. assert (1 <= Z.abs (k - q)) by lia. nia. }
  lia.
Qed.
Lemma round_div_bounds a b lo hi : 0 < b -> lo * b <= a -> a <= hi * b -> lo <= round_div a b <= hi.
Proof.
  intros Hb L H. destruct (round_div_spec a b Hb) as [A _]. set (q := round_div a b) in *. clearbody q.
  split; [destruct (Z.le_gt_cases lo q) as [|G]; [auto|exfalso]|destruct (Z.le_gt_cases q hi) as [|G]; [auto|exfalso]].
  - assert ((q + 1) * b <= lo * b) by nia. lia.
  - assert ((hi + 1) * b <= q * b) by nia. lia.
Qed.

Section Round.
  Variables W den : Z.
  Hypothesis Hden : 0 < den.
  Hypothesis HW : 0 <= W.
  Let E := Z.max 0 (Z.log2 (W / den) - 52).
  Let m := round_div W (den * 2 ^ E).
  Lemma E_pos : 0 <= E. Proof. unfold E. lia. Qed.
  Lemma powE : 0 < 2 ^ E. Proof. apply Z.pow_pos_nonneg; [lia|exact E_pos]. Qed.
  Lemma W_low : 0 < E -> 2 ^ 52 * 2 ^ E * den <= W.
  Proof.
    intros H. assert (L : Z.log2 (W / den) = 52 + E) by (unfold E in *; lia). rewrite <- Z.pow_add_r by lia.
    assert (V : 0 < W / den). { destruct (Z.le_gt_cases (W / den) 0) as [G|G]; [|auto]. rewrite Z.log2_nonpos in L by auto. lia. }
    destruct (Z.log2_spec _ V) as [A _]. rewrite L in A. assert (D := Z.div_mod W den ltac:(lia)). assert (M := Z.mod_pos_bound W den Hden).
    set (p := 2 ^ (52 + E)) in *. clearbody p. nia.
  Qed.
  Lemma W_high : W < 2 ^ 53 * 2 ^ E * den.
  Proof.
    rewrite <- Z.pow_add_r by (try lia; exact E_pos). assert (A : W / den < 2 ^ (53 + E)).
    { destruct (Z.le_gt_cases (W / den) 0) as [G|G].
      - apply Z.le_lt_trans with 0; auto. apply Z.pow_pos_nonneg; [lia|]. assert (H := E_pos). lia.
      - destruct (Z.log2_spec _ G) as [_ A]. eapply Z.lt_le_trans; [exact A|]. apply Z.pow_le_mono_r; unfold E; lia. }
    assert (D := Z.div_mod W den ltac:(lia)). assert (M := Z.mod_pos_bound W den Hden). set (p := 2 ^ (53 + E)) in *. clearbody p. nia.
  Qed.
  Lemma m_bounds : 0 <= m <= 2 ^ 53 /\ (0 < E -> 2 ^ 52 <= m).
  Proof.
    assert (PE := powE). assert (B : 0 < den * 2 ^ E) by nia. split.
    - apply (round_div_bounds W (den * 2 ^ E) 0 (2 ^ 53) B); [lia|]. assert (H := W_high). set (k := 2 ^ 53) in *. clearbody k. lia.
    - intros H. apply (round_div_bounds W (den * 2 ^ E) (2 ^ 52) (2 ^ 53) B).
      + assert (L := W_low H). set (k := 2 ^ 52) in *. clearbody k. lia.
      + assert (L := W_high). set (k := 2 ^ 53) in *. clearbody k. lia.
  Qed.
  (* m * 2 ^ E is at least as near to W / den as any double. *)
  Lemma m_nearest m' E' : 0 <= m' < 2 ^ 53 -> 0 <= E' -> 
    Z.abs (m * 2 ^ E * den - W) <= Z.abs (m' * 2 ^ E' * den - W) /\
    (Z.abs (m' * 2 ^ E' * den - W) = Z.abs (m * 2 ^ E * den - W) -> m' * 2 ^ E' = m * 2 ^ E \/ Z.even m = true).
  Proof.
    intros Hm HE. assert (PE := powE). assert (B : 0 < den * 2 ^ E) by nia.
    destruct (Z.le_gt_cases E E') as [G|G].
    - assert (X : 2 ^ E' = 2 ^ (E' - E) * 2 ^ E) by (rewrite <- Z.pow_add_r by (try lia; exact E_pos); f_equal; lia).
      rewrite X. set (k := 2 ^ (E' - E)) in *. clearbody k.
      assert (N := round_div_nearest W (den * 2 ^ E) (m' * k) B). assert (T := round_div_tie W (den * 2 ^ E) (m' * k) B). fold m in N, T.
      replace (m * 2 ^ E * den) with (m * (den * 2 ^ E)) by ring. replace (m' * (k * 2 ^ E) * den) with (m' * k * (den * 2 ^ E)) by ring.
      split; [exact N|]. intros Q. destruct (T Q) as [R|R]; [left|right; exact R]. rewrite <- R. ring.
    - assert (H0 : 0 < E) by lia. assert (L := W_low H0). assert (N := round_div_nearest W (den * 2 ^ E) (2 ^ 52) B). fold m in N.
      replace (m * (den * 2 ^ E)) with (m * 2 ^ E * den) in N by ring. replace (2 ^ 52 * (den * 2 ^ E)) with (2 ^ 52 * 2 ^ E * den) in N by ring.
      assert (S : m' * 2 ^ E' < 2 ^ 52 * 2 ^ E).
      { assert (X : 2 ^ E = 2 ^ (E - E' - 1) * (2 * 2 ^ E')) by (rewrite <- Z.pow_succ_r, <- Z.pow_add_r by lia; f_equal; lia).
        assert (1 <= 2 ^ (E - E' - 1)) by (apply (Z.pow_le_mono_r 2 0); lia). assert (0 < 2 ^ E') by (apply Z.pow_pos_nonneg; lia).
        rewrite X. change (2 ^ 53) with (2 ^ 52 * 2) in Hm. set (k := 2 ^ 52) in *. set (g := 2 ^ (E - E' - 1)) in *. set (h := 2 ^ E') in *.
        assert (0 < k) by reflexivity. clearbody k g h. nia. }
      set (k := 2 ^ 52 * 2 ^ E) in *. set (z := m' * 2 ^ E') in *. set (u := m * 2 ^ E) in *. clearbody k z u. assert (z * den < k * den) by nia. lia.
  Qed.
End Round.

Lemma canonical_units_form z : is_finite z -> canonical z -> exists m' E', units z = m' * 2 ^ E' /\ 0 <= m' < 2 ^ 53 /\ 0 <= E'.
Proof.
  destruct z as [s|s| |s m e]; intros F C; try solve [destruct F].
  - exists 0, 0. cbn [units]. split; [reflexivity|]. split; [split; [lia|reflexivity]|lia].
  - cbn [canonical units] in *. exists (Zpos m), (e + 1074). split; [reflexivity|]. split; [split; [lia|tauto]|lia].
Qed.

Lemma round_to_double_spec s num den : 0 <= num -> 0 < den -> (num = 0 \/ in_range num den) ->
  exists y, round_to_double s num den = (y, false) /\ nearest_double num den y /\ negative y = s.
Proof.
  intros Hn Hd R. unfold round_to_double.
  assert (HP := pow1074). set (W := num * 2 ^ 1074). assert (HW : 0 <= W) by (unfold W; apply Z.mul_nonneg_nonneg; [exact Hn|apply Z.lt_le_incl, HP]).
  assert (Bd := m_bounds W den Hd HW). assert (Nr := m_nearest W den Hd). assert (EP := E_pos W den).
  assert (WL := W_low W den Hd). assert (PE := powE W den).
  cbv zeta in *. set (E := Z.max 0 (Z.log2 (W / den) - 52)) in *. set (m := round_div W (den * 2 ^ E)) in *.
  (* a double with these units is nearest *)
  assert (Near : forall y, is_finite y -> canonical y -> units y = m * 2 ^ E ->
                 (Z.even m = true -> match y with S754_finite _ m _ => Z.even (Zpos m) = true | _ => True end) -> nearest_double num den y).
  { intros y Fy Cy Uy Ey. split; [exact Fy|]. split; [exact Cy|]. intros z Fz Cz. destruct (canonical_units_form z Fz Cz) as (m' & E' & Uz & Hm' & HE').
    unfold off. fold W. rewrite Uy, Uz. destruct (Nr m' E' Hm' HE') as [N1 N2]. split; [exact N1|]. intros Q. destruct (N2 Q) as [Q'|Q']; [left; exact Q'|right; exact (Ey Q')]. }
  destruct R as [->|[R1 R2]].
  { assert (M0 : m = 0). { unfold m, W. rewrite Z.mul_0_l. apply round_div_0. apply Z.mul_pos_pos; auto. }
    rewrite M0. exists (S754_zero s). split; [reflexivity|]. split; [|reflexivity]. apply Near; try exact I; [cbn [units]; rewrite M0; ring|intros _; exact I]. }
  (* powers *)
  assert (K1 : 2 ^ 1074 = 2 ^ 1022 * 2 ^ 52) by (rewrite <- Z.pow_add_r by lia; reflexivity).
  assert (K2 : 2 ^ 971 * 2 ^ 1074 = 2 ^ 2045) by (rewrite <- Z.pow_add_r by lia; reflexivity).
  assert (L1 : 2 ^ 52 * den <= W).
  { unfold W. rewrite K1. assert (0 < 2 ^ 52) by reflexivity. set (a := 2 ^ 52) in *. set (b := 2 ^ 1022) in *. clearbody a b. clear -R1 H Hd. nia. }
  assert (L2 : W <= (2 ^ 53 - 1) * 2 ^ 2045 * den).
  { unfold W. rewrite <- K2. set (a := 2 ^ 53 - 1) in *. set (b := 2 ^ 971) in *. set (c := 2 ^ 1074) in *. clearbody a b c. clear -R2 HP. nia. }
  assert (M52 : 2 ^ 52 <= m).
  { destruct (Z.eq_dec E 0) as [Z0|NZ]; [|apply Bd; lia]. unfold m. rewrite Z0, Z.pow_0_r, Z.mul_1_r.
    apply (round_div_bounds W den (2 ^ 52) (2 ^ 53) Hd L1). assert (WH := W_high W den Hd). cbv zeta in WH. fold E in WH. rewrite Z0, Z.pow_0_r, Z.mul_1_r in WH. lia. }
  assert (EM : E <= 2045 /\ (E = 2045 -> m <= 2 ^ 53 - 1)).
  { split.
    - destruct (Z.le_gt_cases E 2045) as [|G]; [auto|exfalso]. assert (WL' := WL ltac:(lia)).
      assert (X : 2 ^ E = 2 ^ (E - 2046) * (2 * 2 ^ 2045)) by (rewrite <- Z.pow_succ_r, <- Z.pow_add_r by lia; f_equal; lia).
      assert (1 <= 2 ^ (E - 2046)) by (apply (Z.pow_le_mono_r 2 0); lia). rewrite X in WL'.
      assert (0 < 2 ^ 2045) by (apply Z.pow_pos_nonneg; lia). change (2 ^ 53) with (2 * 2 ^ 52) in L2. assert (0 < 2 ^ 52) by reflexivity.
      set (a := 2 ^ 52) in *. set (b := 2 ^ (E - 2046)) in *. set (c := 2 ^ 2045) in *. clearbody a b c. clear -WL' L2 H H0 H1 Hd.
      assert (0 < c * den) by nia. assert (a * (b * (2 * c)) * den <= (2 * a - 1) * (c * den)) by lia. replace (a * (b * (2 * c)) * den) with (2 * a * b * (c * den)) in H3 by ring.
      assert (2 * a * b <= 2 * a - 1) by (apply Z.mul_le_mono_pos_r with (c * den); auto). nia.
    - intros E0. unfold m. assert (B : 0 < den * 2 ^ E) by (apply Z.mul_pos_pos; auto).
      apply (round_div_bounds W (den * 2 ^ E) 0 (2 ^ 53 - 1) B); [lia|]. rewrite E0. set (a := 2 ^ 53 - 1) in *. set (c := 2 ^ 2045) in *. clearbody a c. lia. }
  assert (P52 : 0 < 2 ^ 52) by reflexivity.
  destruct (Z.eqb_spec m 0) as [M0|_]; [exfalso; clearbody m; lia|].
  destruct (Z.eqb_spec m (2 ^ 53)) as [M3|M3].
  - assert (E3 : E + 1 <= 2045). { destruct EM as [A B]. destruct (Z.eq_dec E 2045) as [Q|Q]; [specialize (B Q); exfalso; clearbody m; lia|lia]. }
    replace (2045 <? E + 1) with false by (symmetry; apply Z.ltb_ge; lia). rewrite Z.ltb_irrefl. cbn [andb].
    exists (S754_finite s (Z.to_pos (2 ^ 52)) (E + 1 - 1074)). split; [reflexivity|]. split; [|reflexivity]. apply Near; [exact I| | |].
    + cbn [canonical]. rewrite Z2Pos.id by exact P52. split; [reflexivity|]. split; [lia|]. right. reflexivity.
    + cbn [units]. rewrite Z2Pos.id by exact P52. replace (E + 1 - 1074 + 1074) with (Z.succ E) by lia. rewrite Z.pow_succ_r by exact EP. rewrite M3.
      change (2 ^ 53) with (2 ^ 52 * 2). ring.
    + intros _. reflexivity.
  - replace (2045 <? E) with false by (symmetry; apply Z.ltb_ge; lia). replace (m <? 2 ^ 52) with false by (symmetry; apply Z.ltb_ge; exact M52). cbn [andb].
    assert (Mp : 0 < m) by (clearbody m; lia). exists (S754_finite s (Z.to_pos m) (E - 1074)). split; [reflexivity|]. split; [|reflexivity]. apply Near; [exact I| | |].
    + cbn [canonical]. rewrite Z2Pos.id by exact Mp. split; [clearbody m; lia|]. split; [lia|]. right. exact M52.
    + cbn [units]. rewrite Z2Pos.id by exact Mp. f_equal. f_equal. lia.
    + rewrite Z2Pos.id by exact Mp. auto.
Qed.

(* ---- parsing *)
Definition ten : list ascii := ["0"; "1"; "2"; "3"; "4"; "5"; "6"; "7"; "8"; "9"]%char.
Lemma digit_in c : is_digit c -> In c ten.
Proof.
  intros H. unfold is_digit in H. rewrite <- (ascii_nat_embedding c). set (k := nat_of_ascii c) in *. clearbody k.
  do 58 (destruct k as [|k]; [cbn in *; first [lia|tauto]|]). lia.
Qed.
Lemma digit_of_spec c : digit_of c = if (48 <=? nat_of_ascii c)%nat && (nat_of_ascii c <=? 57)%nat then Some (Z.of_nat (nat_of_ascii c) - 48) else None.
Proof. reflexivity. Qed.
Lemma digit_of_digit c : is_digit c -> digit_of c = Some (Z.of_nat (nat_of_ascii c) - 48).
Proof. intros [A B]. rewrite digit_of_spec. apply Nat.leb_le in A, B. now rewrite A, B. Qed.
Lemma digit_of_other c : ~ is_digit c -> digit_of c = None.
Proof.
  intros H. rewrite digit_of_spec. destruct (48 <=? nat_of_ascii c)%nat eqn:A; [|reflexivity]. destruct (nat_of_ascii c <=? 57)%nat eqn:B; [|reflexivity].
  exfalso. apply H. split; now apply Nat.leb_le.
Qed.
Definition no_digit (t : text) : Prop := match t with c :: _ => ~ is_digit c | [] => True end.
Definition vals (a : text) : list Z := map (fun c => Z.of_nat (nat_of_ascii c) - 48) a.
Lemma take_digits_app a r : Forall is_digit a -> no_digit r -> take_digits (a ++ r) = (vals a, r).
Proof.
  intros F N. induction F as [|c a D F IH]; cbn [app].
  - destruct r as [|c r]; [reflexivity|]. cbn [take_digits]. now rewrite (digit_of_other c N).
  - cbn [take_digits]. rewrite (digit_of_digit c D), IH. reflexivity.
Qed.
Lemma number_vals a : number (vals a) = number_of_digits a.
Proof. unfold number, number_of_digits, vals. generalize 0. induction a as [|c a IH]; intros n; [reflexivity|]. cbn [map fold_left]. apply IH. Qed.
Lemma vals_app a b : vals (a ++ b) = vals a ++ vals b. Proof. apply map_app. Qed.
Lemma vals_length a : length (vals a) = length a. Proof. apply map_length. Qed.

Ltac ten_cases H := apply digit_in in H; unfold ten in H; cbn [In] in H; repeat (destruct H as [<-|H]; [|]); [..|destruct H].
Lemma point_no_digit r : no_digit ("."%char :: r).
Proof. intros [A B]. cbn in A. lia. Qed.
Lemma exponent_no_digit t x : exponent_text t x -> no_digit t.
Proof. intros [[-> _]|(c & s & neg & ds & -> & [-> | ->] & _)]; cbn; [exact I| |]; intros [A B]; cbn in B; lia. Qed.
Lemma sign_take s neg r : sign_text s neg -> (match r with c :: _ => c <> "-"%char /\ c <> "+"%char | [] => True end) -> take_sign (s ++ r) = (neg, r).
Proof.
  intros [[-> ->]|[[-> ->]|[-> ->]]] H; cbn [app]; [|reflexivity|reflexivity]. destruct r as [|c r]; [reflexivity|]. unfold take_sign.
  destruct H as [A B]. destruct (Ascii.eqb_spec c "-"); [easy|]. destruct (Ascii.eqb_spec c "+"); [easy|]. reflexivity.
Qed.
Lemma digit_no_sign c : is_digit c -> c <> "-"%char /\ c <> "+"%char.
Proof. intros [A B]. split; intros ->; cbn in A; lia. Qed.
Lemma exponent_take t x : exponent_text t x -> take_exponent t = x.
Proof.
  intros [[-> ->]|(c & s & neg & ds & -> & Hc & Hs & N & F & ->)]; [reflexivity|]. unfold take_exponent.
  replace (Ascii.eqb c "e" || Ascii.eqb c "E")%bool with true by (destruct Hc as [-> | ->]; reflexivity).
  rewrite (sign_take s neg ds Hs) by (destruct F as [|c' ds' D _]; [exact I|now apply digit_no_sign]).
  rewrite <- (app_nil_r ds). rewrite (take_digits_app ds [] F I). rewrite app_nil_r. rewrite number_vals.
  destruct ds as [|c0 ds]; [congruence|]. reflexivity.
Qed.
Lemma take_number_spec a p b ex y : Forall is_digit a -> Forall is_digit b -> a ++ b <> [] -> (p = ["."%char] \/ (p = [] /\ b = [])) -> exponent_text ex y ->
  take_number (a ++ p ++ b ++ ex) = Some (number_of_digits (a ++ b), y - Z.of_nat (length b)).
Proof.
  intros Fa Fb Ne Hp Hx. assert (Nx := exponent_no_digit _ _ Hx). unfold take_number.
  assert (G : forall ds : list Z, ds = vals (a ++ b) -> match ds with [] => None | d :: l => Some (number (d :: l), take_exponent ex - Z.of_nat (length (vals b))) end
    = Some (number_of_digits (a ++ b), y - Z.of_nat (length b))).
  { intros ds ->. rewrite (exponent_take _ _ Hx), vals_length. rewrite <- (number_vals (a ++ b)). destruct (a ++ b); [congruence|reflexivity]. }
  destruct Hp as [->|[-> ->]].
  - change (["."%char] ++ b ++ ex) with ("."%char :: b ++ ex). rewrite (take_digits_app a _ Fa (point_no_digit (b ++ ex))). replace (Ascii.eqb "." ".") with true by reflexivity.
    rewrite (take_digits_app b ex Fb Nx). apply (G (vals a ++ vals b)). now rewrite vals_app.
  - cbn [app]. rewrite (take_digits_app a ex Fa Nx).
    assert (X : match ex with [] => ([], []) | c :: r => if Ascii.eqb c "." then take_digits r else ([], ex) end = ([] : list Z, ex)).
    { destruct Hx as [[-> _]|(c & s & neg & ds & -> & [-> | ->] & _)]; reflexivity. }
    rewrite X. apply (G (vals a ++ [])). now rewrite vals_app.
Qed.
Lemma strtod_decimal t neg n x : decimal_text t neg n x -> strtod t = Some (round_to_double neg (numerator n x) (denominator x)).
Proof.
  intros (s & a & p & b & ex & y & -> & Hs & Fa & Fb & Ne & Hp & Hx & -> & ->). unfold strtod.
  set (r := a ++ p ++ b ++ ex).
  assert (First : exists c r', r = c :: r' /\ (is_digit c \/ c = "."%char)).
  { unfold r. destruct Fa as [|c a D Fa]; [|exists c, (a ++ p ++ b ++ ex); auto]. destruct Hp as [-> | [-> ->]]; [|cbn in Ne; congruence]. cbn [app]. eauto. }
  destruct First as (c & r' & Er & Hc).
  assert (Nb : is_blank c = false /\ c <> "-"%char /\ c <> "+"%char /\ Ascii.eqb (lower c) "i" = false /\ Ascii.eqb (lower c) "n" = false).
  { destruct Hc as [Hc | ->]; [|repeat split; try reflexivity; discriminate]. apply digit_in in Hc. unfold ten in Hc. cbn [In] in Hc.
    repeat (destruct Hc as [<-|Hc]; [repeat split; try reflexivity; discriminate|]). destruct Hc. }
  destruct Nb as (B1 & B2 & B3 & B4 & B5).
  assert (Sk : skip_blanks (s ++ r) = s ++ r).
  { destruct Hs as [[-> ->]|[[-> ->]|[-> ->]]]; cbn [app]; try reflexivity. rewrite Er. cbn [skip_blanks]. now rewrite B1. }
  rewrite Sk, (sign_take s neg r Hs) by (rewrite Er; auto).
  assert (St : forall w0 w, Ascii.eqb (lower c) w0 = false -> starts (w0 :: w) r = false).
  { intros w0 w H. unfold starts. rewrite Er. cbn [length firstn map]. destruct (list_eq_dec ascii_dec _ _) as [E|]; [|reflexivity].
    injection E as E _. apply Ascii.eqb_neq in H. congruence. }
  cbn [list_ascii_of_string]. rewrite !St by assumption. unfold r.
  now rewrite (take_number_spec a p b ex y Fa Fb Ne Hp Hx).
Qed.
Lemma stod_decimal t neg n x : decimal_text t neg n x -> n = 0 \/ in_range (numerator n x) (denominator x) ->
  exists y, stod t = Some y /\ nearest_double (numerator n x) (denominator x) y /\ negative y = neg.
Proof.
  intros D R. unfold stod. rewrite (strtod_decimal _ _ _ _ D).
  assert (N0 : 0 <= n).
  { destruct D as (s & a & p & b & ex & y & _ & _ & Fa & Fb & _ & _ & _ & -> & _). unfold number_of_digits.
    assert (G : forall l k, Forall is_digit l -> 0 <= k -> 0 <= fold_left (fun n c => 10 * n + (Z.of_nat (nat_of_ascii c) - 48)) l k).
    { clear. intros l k F. revert k. induction F as [|c l [A B] F IH]; intros k K; [exact K|]. cbn [fold_left]. apply IH. lia. }
    apply G; [|lia]. now apply Forall_app. }
  assert (N1 : 0 <= numerator n x) by (apply Z.mul_nonneg_nonneg; [exact N0|apply Z.pow_nonneg; lia]).
  assert (N2 : 0 < denominator x) by (apply Z.pow_pos_nonneg; lia).
  destruct (round_to_double_spec neg (numerator n x) (denominator x) N1 N2) as (y & E & Y & Sy).
  { destruct R as [-> | R]; [left; reflexivity|right; exact R]. }
  exists y. rewrite E. auto.
Qed.

(* ---- reading back what was printed *)
Lemma reads_decimal t s n : reads_millionths t s n -> decimal_text t s n (-6).
Proof.
  intros (whole & frac & -> & Lf & (Nw & Fw & _) & Ff & <-).
  exists (if s then ["-"%char] else []), whole, ["."%char], frac, [], 0. rewrite app_nil_r. split; [reflexivity|].
  split; [destruct s; unfold sign_text; auto|]. split; [exact Fw|]. split; [exact Ff|].
  split; [destruct whole; [congruence|discriminate]|]. split; [now left|]. split; [left; auto|]. split; [reflexivity|]. rewrite Lf. reflexivity.
Qed.
Lemma small_power : 10 ^ 6 <= 2 ^ 1022.
Proof. apply Z.leb_le. vm_compute. reflexivity. Qed.
Lemma printed_range x : is_finite x -> canonical x -> printed x = 0 \/ in_range (printed x) (10 ^ 6).
Proof.
  destruct x as [s|s| |s m e]; intros F C; try solve [destruct F]; [now left|]. cbn [printed canonical] in *. destruct C as (M & [E1 E2] & _).
  assert (P := millionths_pos m e E1). destruct (Z.eq_dec (millionths m e) 0) as [Z0|NZ]; [now left|right]. split.
  - apply Z.le_trans with (1 * 2 ^ 1022).
    + rewrite Z.mul_1_l. apply small_power.
    + apply Z.mul_le_mono_nonneg_r; [apply Z.pow_nonneg; lia|lia].
  - unfold millionths. refine (proj2 (round_div_bounds _ (2 ^ 1074) 0 _ pow1074 _ _)).
    + rewrite Z.mul_0_l. apply Z.mul_nonneg_nonneg; [|lia]. apply Z.mul_nonneg_nonneg; [lia|apply Z.pow_nonneg; lia].
    + assert (A : 2 ^ (e + 1074) <= 2 ^ 971 * 2 ^ 1074) by (rewrite <- Z.pow_add_r by lia; apply Z.pow_le_mono_r; lia).
      assert (B : 0 < 2 ^ (e + 1074)) by (apply Z.pow_pos_nonneg; lia). assert (Q := pow1074).
      set (a := 2 ^ 53) in *. set (b := 2 ^ (e + 1074)) in *. set (c := 2 ^ 971) in *. set (d := 2 ^ 1074) in *. set (k := 10 ^ 6). assert (0 < k) by reflexivity.
      clearbody a b c d k. assert (Zpos m * b <= (a - 1) * (c * d)) by (apply Z.mul_le_mono_nonneg; lia).
      replace ((a - 1) * c * k * d) with ((a - 1) * (c * d) * k) by ring. apply Z.mul_le_mono_nonneg_r; lia.
Qed.
Lemma to_string_finite x : is_finite x -> to_string x = minus (negative x) ++ fixed (printed x).
Proof. destruct x; intros F; try solve [destruct F]; reflexivity. Qed.
Lemma read_back x : is_finite x -> canonical x ->
  exists y, stod (to_string x) = Some y /\ nearest_double (printed x) (10 ^ 6) y /\ negative y = negative x /\ to_string y = to_string x.
Proof.
  intros F C. destruct (to_string_spec x F (canonical_fits _ C)) as [R Nx].
  destruct (stod_decimal _ _ _ _ (reads_decimal _ _ _ R)) as (y & E & Y & Sy).
  { unfold numerator, denominator. change (10 ^ Z.max 0 (-6)) with 1. change (10 ^ Z.max 0 (- (-6))) with (10 ^ 6). rewrite Z.mul_1_r. now apply printed_range. }
  unfold numerator, denominator in Y. change (10 ^ Z.max 0 (-6)) with 1 in Y. change (10 ^ Z.max 0 (- (-6))) with (10 ^ 6) in Y. rewrite Z.mul_1_r in Y.
  exists y. split; [exact E|]. split; [exact Y|]. split; [exact Sy|]. destruct Y as (Fy & Cy & Ny).
  rewrite !to_string_finite, Sy by auto. f_equal. f_equal. destruct (to_string_spec y Fy (canonical_fits _ Cy)) as [_ Py].
  apply (nearest_unique y _ _ Py). destruct (Ny x F C) as [O _]. unfold off in O. destruct Nx as [A B]. unfold nearest_millionths in *.
  set (b := 2 ^ 1074) in *. set (ux := units x * 10 ^ 6) in *. set (uy := units y * 10 ^ 6) in *. set (n := printed x) in *. clearbody b ux uy n.
  replace (Z.abs (n * b - uy)) with (Z.abs (uy - n * b)) by lia. replace (Z.abs (n * b - ux)) with (Z.abs (ux - n * b)) in A, B by lia.
  split; [lia|]. intros Q. apply B. lia.
Qed.

Lemma units_lt m e m' e' : Zpos m < 2 ^ 53 -> -1074 <= e < e' -> 2 ^ 52 <= Zpos m' -> Zpos m * 2 ^ (e + 1074) < Zpos m' * 2 ^ (e' + 1074).
Proof.
  intros A B C. assert (F : e' + 1074 = (e' - e - 1) + 1 + (e + 1074)) by lia. assert (G : 0 <= e + 1074) by lia. assert (G' : 0 <= e' - e - 1) by lia.
  rewrite F. set (f := e + 1074) in *. set (g := e' - e - 1) in *. clearbody f g. rewrite !Z.pow_add_r, Z.pow_1_r by lia.
  assert (P : 0 < 2 ^ f) by (apply Z.pow_pos_nonneg; lia). assert (1 <= 2 ^ g) by (apply (Z.pow_le_mono_r 2 0); lia).
  change (2 ^ 53) with (2 ^ 52 * 2) in A. set (p := 2 ^ f) in *. set (q := 2 ^ g) in *. set (k := 2 ^ 52) in *. clearbody p q k.
  assert (Zpos m' * 1 <= Zpos m' * q) by (apply Z.mul_le_mono_nonneg_l; lia). replace (Zpos m' * (q * 2 * p)) with ((Zpos m' * q * 2) * p) by ring. apply Z.mul_lt_mono_pos_r; lia.
Qed.
Lemma units_inj x y : is_finite x -> is_finite y -> canonical x -> canonical y -> negative x = negative y -> units x = units y -> x = y.
Proof.
  destruct x as [s|s| |s m e], y as [s'|s'| |s' m' e']; intros Fx Fy Cx Cy N U; try solve [destruct Fx]; try solve [destruct Fy]; cbn [negative units canonical] in *.
  - now subst.
  - exfalso. assert (0 < Zpos m' * 2 ^ (e' + 1074)) by (apply Z.mul_pos_pos; [lia|apply Z.pow_pos_nonneg; lia]). lia.
  - exfalso. assert (0 < Zpos m * 2 ^ (e + 1074)) by (apply Z.mul_pos_pos; [lia|apply Z.pow_pos_nonneg; lia]). lia.
  - destruct Cx as (M & [E1 E2] & D), Cy as (M' & [E1' E2'] & D'). destruct (Z.lt_trichotomy e e') as [G|[<-|G]].
    + exfalso. assert (H := units_lt m e m' e' M ltac:(lia) ltac:(destruct D'; [lia|assumption])). lia.
    + subst. f_equal. assert (P : 0 < 2 ^ (e + 1074)) by (apply Z.pow_pos_nonneg; lia). apply Z.mul_cancel_r in U; [congruence|lia].
    + exfalso. assert (H := units_lt m' e' m e M' ltac:(lia) ltac:(destruct D; [lia|assumption])). lia.
Qed.

(* A number is printed exactly, or it is so large that no other double is as near to the text. *)
Lemma high_multiple z : is_finite z -> canonical z -> 2 ^ 1107 <= units z -> exists k, units z = k * 2 ^ 1055.
Proof.
  destruct z as [s|s| |s m e]; intros F C H; try solve [destruct F]; cbn [units canonical] in *.
  - exists 0. reflexivity.
  - destruct C as (M & [E1 E2] & _). assert (1055 <= e + 1074).
    { destruct (Z.le_gt_cases 1055 (e + 1074)) as [|G]; [auto|exfalso]. assert (A : 2 ^ (e + 1074) <= 2 ^ 1054) by (apply Z.pow_le_mono_r; lia).
      assert (K : 2 ^ 1107 = 2 ^ 53 * 2 ^ 1054) by (rewrite <- Z.pow_add_r by lia; reflexivity). rewrite K in H. assert (0 < 2 ^ 1054) by (apply Z.pow_pos_nonneg; lia).
      assert (0 <= 2 ^ (e + 1074)) by (apply Z.pow_nonneg; lia).
      set (a := 2 ^ 53) in *. set (b := 2 ^ 1054) in *. set (c := 2 ^ (e + 1074)) in *. clearbody a b c. nia. }
    exists (Zpos m * 2 ^ (e + 1074 - 1055)). rewrite <- Z.mul_assoc, <- Z.pow_add_r by lia. f_equal. f_equal. lia.
Qed.
Lemma read_back_exact x : is_finite x -> canonical x -> (2 ^ 1068 | units x) \/ 2 ^ 34 * 2 ^ 1074 <= units x -> stod (to_string x) = Some x.
Proof.
  intros F C H. destruct (read_back x F C) as (y & E & (Fy & Cy & Ny) & Sy & _). rewrite E. f_equal. symmetry. apply units_inj; auto.
  destruct (to_string_spec x F (canonical_fits _ C)) as [_ [Nx _]]. destruct (Ny x F C) as [O _]. unfold off in O. set (n := printed x) in *. clearbody n.
  assert (Q := pow1074). destruct H as [[k H]|H].
  - assert (K : 2 ^ 1068 * 2 ^ 6 = 2 ^ 1074) by (rewrite <- Z.pow_add_r by lia; reflexivity).
    assert (X : units x * 10 ^ 6 = k * 15625 * 2 ^ 1074). { rewrite H, <- K. change (10 ^ 6) with (2 ^ 6 * 15625). ring. }
    rewrite X in *. set (b := 2 ^ 1074) in *. assert (Z : n = k * 15625).
    { clear -Nx Q. clearbody b. replace (n * b - k * 15625 * b) with ((n - k * 15625) * b) in Nx by ring. rewrite Z.abs_mul, (Z.abs_eq b) in Nx by lia.
      destruct (Z.eq_dec n (k * 15625)); [auto|]. assert (1 <= Z.abs (n - k * 15625)) by lia. nia. }
    rewrite Z, Z.sub_diag in O. change (Z.abs 0) with 0 in O. clear -O X. change (10 ^ 6) with 1000000 in *. lia.
  - assert (D : Z.abs (units y - units x) * 10 ^ 6 <= 2 ^ 1074).
    { set (b := 2 ^ 1074) in *. replace (Z.abs (units y - units x) * 10 ^ 6) with (Z.abs (units y * 10 ^ 6 - units x * 10 ^ 6)).
      - set (ux := units x * 10 ^ 6) in *. set (uy := units y * 10 ^ 6) in *. clearbody b ux uy. lia.
      - rewrite <- Z.mul_sub_distr_r, Z.abs_mul. reflexivity. }
    assert (K1 : 2 ^ 34 * 2 ^ 1074 = 2 * 2 ^ 1107) by (rewrite <- !Z.pow_add_r by lia; change (2 * 2 ^ 1107) with (2 ^ 1 * 2 ^ 1107); rewrite <- Z.pow_add_r by lia; reflexivity).
    assert (K2 : 2 ^ 1107 = 2 ^ 33 * 2 ^ 1074) by (rewrite <- Z.pow_add_r by lia; reflexivity).
    assert (K3 : 2 ^ 1074 = 2 ^ 19 * 2 ^ 1055) by (rewrite <- Z.pow_add_r by lia; reflexivity).
    assert (P : 0 < 2 ^ 1055) by (apply Z.pow_pos_nonneg; lia).
    destruct (high_multiple x F C) as (i & Hi). { rewrite K1 in H. assert (0 < 2 ^ 1107) by (apply Z.pow_pos_nonneg; lia). set (a := 2 ^ 1107) in *. clearbody a. lia. }
    destruct (high_multiple y Fy Cy) as (j & Hj).
    { rewrite K1 in H. rewrite K2 in *. change (10 ^ 6) with 1000000 in D. change (2 ^ 33) with 8589934592 in *. set (b := 2 ^ 1074) in *. set (ux := units x) in *. set (uy := units y) in *. clearbody b ux uy. lia. }
    rewrite Hi, Hj in D |- *. rewrite K3 in D. rewrite <- Z.mul_sub_distr_r, Z.abs_mul in D. set (b := 2 ^ 1055) in *. change (10 ^ 6) with 1000000 in D. change (2 ^ 19) with 524288 in D.
    clearbody b. clear -D P. rewrite (Z.abs_eq b) in D by lia. assert (Z.abs (j - i) < 1) by nia. f_equal. lia.
Qed.

(* ---- beyond the doubles *)
Lemma round_to_double_large s num den : 0 < den -> 2 ^ 1024 * den <= num -> round_to_double s num den = (S754_infinity s, true).
Proof.
  intros D H. assert (P := pow1074).
  assert (L : 2098 <= Z.log2 (num * 2 ^ 1074 / den)).
  { apply Z.log2_le_pow2.
    - apply Z.div_str_pos. assert (0 < 2 ^ 1024) by (apply Z.pow_pos_nonneg; lia). assert (1 <= 2 ^ 1074) by lia. set (a := 2 ^ 1024) in *. set (b := 2 ^ 1074) in *. clearbody a b. nia.
    - apply Z.div_le_lower_bound; [exact D|]. replace (2 ^ 2098) with (2 ^ 1024 * 2 ^ 1074) by (rewrite <- Z.pow_add_r by lia; reflexivity).
      set (a := 2 ^ 1024) in *. set (b := 2 ^ 1074) in *. clearbody a b. replace (den * (a * b)) with (a * den * b) by ring. apply Z.mul_le_mono_nonneg_r; lia. }
  assert (N : 0 < num). { assert (0 < 2 ^ 1024) by (apply Z.pow_pos_nonneg; lia). set (a := 2 ^ 1024) in *. clearbody a. nia. }
  unfold round_to_double. cbv zeta. assert (B := m_bounds (num * 2 ^ 1074) den D ltac:(apply Z.mul_nonneg_nonneg; lia)). cbv zeta in B.
  set (E := Z.max 0 (Z.log2 (num * 2 ^ 1074 / den) - 52)) in *. assert (EE : 2046 <= E) by (unfold E; lia). set (m := round_div (num * 2 ^ 1074) (den * 2 ^ E)) in *.
  destruct B as [_ B]. assert (B' := B ltac:(lia)). assert (0 < 2 ^ 52) by reflexivity. clearbody m E. destruct (Z.eqb_spec m 0) as [Z0|_]; [lia|].
  destruct (m =? 2 ^ 53).
  - replace (2045 <? E + 1) with true by (symmetry; apply Z.ltb_lt; lia). reflexivity.
  - replace (2045 <? E) with true by (symmetry; apply Z.ltb_lt; lia). reflexivity.
Qed.
Lemma round_to_double_small s num den : 0 < den -> 0 < num -> num * 2 ^ 1075 < den -> round_to_double s num den = (S754_zero s, true).
Proof.
  intros D N H. replace (2 ^ 1075) with (2 * 2 ^ 1074) in H by (change (2 * 2 ^ 1074) with (2 ^ 1 * 2 ^ 1074); rewrite <- Z.pow_add_r by lia; reflexivity).
  unfold round_to_double. cbv zeta. set (W := num * 2 ^ 1074) in *. assert (0 <= W) by (apply Z.mul_nonneg_nonneg; [lia|apply Z.pow_nonneg; lia]).
  replace (W / den) with 0 by (symmetry; apply Z.div_small; set (b := 2 ^ 1074) in *; lia). change (Z.log2 0) with 0. change (Z.max 0 (0 - 52)) with 0. change (2 ^ 0) with 1. rewrite Z.mul_1_r.
  replace (round_div W den) with 0.
  - cbn [Z.eqb]. now replace (num =? 0) with false by (symmetry; apply Z.eqb_neq; lia).
  - symmetry. assert (Q := round_div_nearest W den 0 D). assert (B := round_div_bounds W den 0 1 D ltac:(lia) ltac:(lia)). rewrite Z.mul_0_l in Q. assert (C : round_div W den = 0 \/ round_div W den = 1) by lia.
    destruct C as [C|C]; [exact C|exfalso]. rewrite C in Q. unfold W in *. set (b := 2 ^ 1074) in *. clearbody b. lia.
Qed.
Lemma stod_large t neg n x : decimal_text t neg n x -> 2 ^ 1024 * denominator x <= numerator n x -> stod t = None /\ atof t = S754_infinity neg.
Proof.
  intros T H. unfold stod, atof. rewrite (strtod_decimal _ _ _ _ T). rewrite round_to_double_large; [auto| |exact H]. unfold denominator. apply Z.pow_pos_nonneg; lia.
Qed.
Lemma stod_small t neg n x : decimal_text t neg n x -> 0 < n -> numerator n x * 2 ^ 1075 < denominator x -> stod t = None /\ atof t = S754_zero neg.
Proof.
  intros T N H. unfold stod, atof. rewrite (strtod_decimal _ _ _ _ T). rewrite round_to_double_small; [auto| | |exact H].
  - unfold denominator. apply Z.pow_pos_nonneg; lia.
  - unfold numerator. apply Z.mul_pos_pos; [exact N|]. apply Z.pow_pos_nonneg; lia.
Qed.
