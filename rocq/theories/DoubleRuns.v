(* DoubleRuns.v -- lemmas about the runs of the program on points with double coordinates (C91). *)
From Coq Require Import String List Arith ZArith Bool Lia Sorted Relations SpecFloat.
From Verif Require Import Base Spec UtilsModel PartitionProofs ArrayListModel SpecComplex FastModel SpecGraph SpecFast ArgModel SpecArgs PipeModel SpecPipe IoModel MainModel SpecMain.
From Verif Require Import PipeRuns SpecRobust RobustProofs MainRuns DoubleModel SpecDouble DoubleProofs.
Import ListNotations.
Local Open Scope nat_scope.
Local Open Scope list_scope.

Lemma rank_compare x y : is_number x -> is_number y -> fits x -> fits y -> SFcompare x y = Some (Z.compare (rank x) (rank y)).
Proof.
  assert (E : (2 ^ 53 = 9007199254740992)%Z) by reflexivity. assert (E2 : (2 ^ 65 = 36893488147419103232)%Z) by reflexivity.
  intros Nx Ny Fx Fy. destruct x as [sx|sx| |sx mx ex], y as [sy|sy| |sy my ey]; try (now destruct Nx); try (now destruct Ny);
    cbn [SFcompare rank fits] in *; rewrite ?E, ?E2 in *; clear Nx Ny E E2; f_equal; try (destruct sx); try (destruct sy);
    try (symmetry; first [apply Z.compare_eq_iff|apply Z.compare_lt_iff|apply Z.compare_gt_iff]; lia).
  all: change (Pos.compare_cont Eq mx my) with (Pos.compare mx my).
  all: destruct (Z.compare_spec ex ey) as [<-|H|H]; [|symmetry; first [apply Z.compare_lt_iff|apply Z.compare_gt_iff]; lia ..].
  all: destruct (Pos.compare_spec mx my); cbn [CompOpp]; symmetry; first [apply Z.compare_eq_iff|apply Z.compare_lt_iff|apply Z.compare_gt_iff]; lia.
Qed.
Lemma rank_ltb x y : is_number x -> is_number y -> fits x -> fits y -> SFltb x y = (rank x <? rank y)%Z.
Proof. intros. unfold SFltb, Z.ltb. rewrite rank_compare by auto. now destruct (rank x ?= rank y)%Z. Qed.
Lemma rank_leb x y : is_number x -> is_number y -> fits x -> fits y -> SFleb x y = (rank x <=? rank y)%Z.
Proof. intros. unfold SFleb, Z.leb. rewrite rank_compare by auto. now destruct (rank x ?= rank y)%Z. Qed.
Lemma rank_eqb x y : is_number x -> is_number y -> fits x -> fits y -> SFeqb x y = (rank x =? rank y)%Z.
Proof. intros. unfold SFeqb. rewrite rank_compare, Z.eqb_compare by auto. reflexivity. Qed.
Lemma rank_non_negative x : fits x -> non_negative x -> (0 <= rank x)%Z.
Proof. destruct x; cbn; try lia; intros F ->; lia. Qed.

Lemma nan_dec (l : list double) : In S754_nan l \/ forall x, In x l -> is_number x.
Proof.
  induction l as [|x l [H|H]]; [right; intros x []|left; now right|]. destruct x; try (right; intros y [<-|Hy]; [discriminate|now apply H]). left. now left.
Qed.
Lemma double_dist_pos square decode : squares square -> forall a b, (0 <= double_dist square decode a b)%Z.
Proof.
  intros Sq a b. unfold double_dist. destruct (d_distance square (map decode a) (map decode b)) as [v|] eqn:E; [|lia].
  generalize dependent (map decode b). generalize (map decode a). clear a b. intros a b E.
  assert (V : v = S754_nan \/ non_negative v /\ fits v).
  { unfold d_distance in E. destruct b as [|y b]; [injection E as <-; right; split; [reflexivity|exact I]|]. remember (y :: b) as b' eqn:Eb.
    destruct (le_lt_dec (length a) (length b')) as [L|L].
    - rewrite vectors_distance_value in E by (subst; try discriminate; auto). injection E as <-. change (map _ (combine a b')) with (sq_diffs square a b').
      destruct (nan_dec (sq_diffs square a b')) as [H|H]; [left; now rewrite sum_nan_in|right]. split; [|apply sqrt_fits].
      apply sqrt_non_negative, sum_non_negative; [reflexivity|]. apply diffs_non_negative; auto. intros x z Hx Q. apply (H S754_nan); [|reflexivity].
      apply in_map_iff. exists (x, z). cbn [fst snd]. split; [|exact Hx]. rewrite Q. apply (sq_nan _ Sq).
    - unfold vectors_distance in E. rewrite Eb in E. rewrite <- Eb in E.
      assert (T : forall (a b : list double), length b < length a -> transform2 (fun x y => square (d_sub x y)) a b = UB).
      { induction a0 as [|x a0 IH]; intros [|z b0] Hl; cbn in Hl |- *; try lia; auto. rewrite IH by lia. reflexivity. }
      rewrite T in E by auto. discriminate. }
  destruct V as [->|[V1 V2]]; [cbn; lia|now apply rank_non_negative].
Qed.

Section Points.
  Variable square : double -> double.
  Hypothesis Sq : squares square.
  Variable code : double -> Z.
  Variable decode : Z -> double.
  Variable cloud : list (list double).
  Hypothesis Fin : forall p x, In p cloud -> In x p -> is_finite x /\ decode (code x) = x.
  Hypothesis Len : forall p q, In p cloud -> In q cloud -> length p = length q.
  Notation data := (map (map code) cloud).
  Notation dist := (double_dist square decode).

  Lemma decode_point p : In p cloud -> map decode (map code p) = p.
  Proof. intros H. rewrite map_map. rewrite <- (map_id p) at 2. apply map_ext_in. intros x Hx. now apply (Fin p x). Qed.
  Lemma apart_value u v : u < length cloud -> v < length cloud -> exists w, apart square cloud u v w /\ non_negative w /\ fits w /\ separation dist data u v = rank w.
  Proof.
    intros Hu Hv. destruct (nth_error cloud u) as [x|] eqn:Ex; [|apply nth_error_None in Ex; lia]. destruct (nth_error cloud v) as [y|] eqn:Ey; [|apply nth_error_None in Ey; lia].
    assert (Hx := nth_error_In _ _ Ex). assert (Hy := nth_error_In _ _ Ey).
    assert (Fx : Forall is_finite x) by (apply Forall_forall; intros z Hz; now apply (Fin x)).
    assert (Fy : Forall is_finite y) by (apply Forall_forall; intros z Hz; now apply (Fin y)).
    exists (d_sqrt (fold_left d_add (sq_diffs square x y) d_zero)). assert (E := distance_value square x y (Len x y Hx Hy)). split; [exists x, y; auto|]. split.
    { apply sqrt_non_negative, sum_non_negative; [reflexivity|]. apply diffs_non_negative; auto. now apply finite_numbers. }
    split; [apply sqrt_fits|]. unfold separation. rewrite (map_nth_error _ _ _ Ex), (map_nth_error _ _ _ Ey). unfold double_dist. rewrite !decode_point by auto. now rewrite E.
  Qed.
  Lemma apart_unique u v w w' : apart square cloud u v w -> apart square cloud u v w' -> w = w'.
  Proof. intros (x & y & A & B & C) (x' & y' & A' & B' & C'). congruence. Qed.
  Lemma apart_range u v w : apart square cloud u v w -> u < length cloud /\ v < length cloud.
  Proof. intros (x & y & A & B & _). split; apply nth_error_Some; congruence. Qed.
  Lemma number_of w : non_negative w -> is_number w. Proof. intros H ->. exact H. Qed.
  Lemma within_close c eps w : is_number eps -> fits eps -> is_number w -> fits w -> within c eps w <-> close c (rank eps) (rank w).
  Proof. intros. unfold within, close. destruct c; [rewrite rank_ltb by auto; apply Z.ltb_lt|rewrite rank_leb by auto; apply Z.leb_le]. Qed.

  Lemma double_clusters_rank c eps t n : is_number eps -> fits eps -> is_number t -> fits t ->
    (double_clusters square cloud c eps t n <-> clusters dist data c (rank eps) (rank t) n).
  Proof.
    intros Ne Fe Nt Ft. unfold double_clusters, clusters. rewrite map_length.
    assert (J : forall u v, (u < v /\ exists w, apart square cloud u v w /\ within c eps w /\ SFleb w t = true) <-> joined dist data c (rank eps) (rank t) u v).
    { intros u v. unfold joined. rewrite map_length. split.
      - intros (Huv & w & A & W & T). destruct (apart_range _ _ _ A) as [Hu Hv]. destruct (apart_value u v Hu Hv) as (w' & A' & N & F & S1). rewrite (apart_unique _ _ _ _ A A') in *. rewrite S1.
        apply number_of in N. split; [auto|]. split; [auto|]. split; [now apply within_close|]. rewrite rank_leb in T by auto. now apply Z.leb_le.
      - intros (Huv & Hv & C & T). destruct (apart_value u v) as (w & A & N & F & S1); try lia. rewrite S1 in *. apply number_of in N. split; [auto|]. exists w.
        split; [auto|]. split; [now apply within_close|]. rewrite rank_leb by auto. now apply Z.leb_le. }
    assert (E := rst_ext _ _ J). split; apply classes_ext; try reflexivity; intros; [|symmetry]; apply E.
  Qed.

  Lemma real_deaths ds : (forall w, In w ds -> exists u v, u < v /\ v < length cloud /\ separation dist data u v = w) ->
    exists deaths, ds = map rank deaths /\ forall w, In w deaths -> is_number w /\ fits w /\ exists u v, u < v /\ v < length cloud /\ apart square cloud u v w.
  Proof.
    induction ds as [|d ds IH]; intros H; [exists []; split; [reflexivity|intros w []]|].
    destruct IH as (deaths & -> & D); [intros w Hw; apply H; now right|]. destruct (H d (or_introl eq_refl)) as (u & v & Huv & Hv & E).
    destruct (apart_value u v) as (w & A & N & F & S1); try lia. exists (w :: deaths). split; [cbn [map]; congruence|]. intros x [<-|Hx]; [|auto].
    split; [now apply number_of|]. split; [auto|]. eauto.
  Qed.
End Points.

Theorem double_run square code decode atoi atof srt past_end nc0 al_reduce other pre_run pre_stats uaf stod file argv c d e f o cloud eps :
  is_sort srt -> squares square -> (0 < atoi d < 2 ^ 31 - 1)%Z ->
  (forall p x, In p cloud -> In x p -> is_finite x /\ decode (code x) = x) ->
  (forall p q, In p cloud -> In q cloud -> length p = length q) ->
  is_number eps -> fits eps -> atof e = rank eps ->
  plain_line argv c d e f o -> holds_points stod file f (map (map code) cloud) -> cloud <> [] ->
  let program := lhf (double_dist square decode) atoi atof srt past_end nc0 al_reduce other pre_run pre_stats uaf stod file argv in
  (forall r, program = Ok r ->
     exists q deaths, r = Ran q (if String.eqb o "console" then [] else [((o ++ ".csv")%string, pk_output q)]) /\
       dim0 (pk_output q) = map (fun w => (0, 0%Z, rank w)) deaths ++ [(0, 0%Z, rank eps)] /\
       StronglySorted (fun x y => SFleb x y = true) deaths /\
       (forall w, In w deaths -> within c eps w /\ exists u v, u < v /\ apart square cloud u v w) /\
       forall t n, is_number t -> fits t ->
         (double_clusters square cloud c eps t n <-> length (filter (fun w => SFleb w t) deaths) + n = length cloud)) /\
  (~ (exists u v w, u < v /\ apart square cloud u v w /\ within c eps w) -> program = UB).
Proof.
  intros Hs Sq Hd Fin Len Ne Fe Ea Hl Hf Hc program.
  assert (Hne : map (map code) cloud <> []) by (destruct cloud; [easy|discriminate]).
  destruct (plain_lhf (double_dist square decode) atoi atof srt past_end nc0 al_reduce other pre_run pre_stats uaf stod file _ _ _ _ _ _ _ Hl Hf Hne) as (args & Dr & E).
  assert (Hrow := readCSV_ne _ _ _ _ (holds_reads _ _ _ _ Hf)). assert (Hpos := double_dist_pos square decode Sq).
  split.
  - unfold program. intros r H. rewrite E in H. destruct (run_program _ _ _ _ _ _ _ _ args _) as [[[q fl]|]|] eqn:Er; try discriminate. cbn [bind] in H. injection H as <-.
    destruct (run_merges _ _ _ _ _ _ _ _ args c d e _ Hs Dr Hrow Hpos Hd q fl Er Hne) as (D1 & M). rewrite Ea in D1, M.
    destruct (real_deaths square Sq code decode cloud Fin Len (deaths (pk_output q))) as (ds & D2 & D3).
    { intros w Hw. destruct (mg_real _ _ _ _ M w Hw) as (u & v & A & B & C). rewrite map_length in B. eauto. }
    exists q, ds. split; [reflexivity|]. split; [now rewrite D1, D2, map_map|]. split.
    { assert (S1 := mg_sorted _ _ _ _ M). rewrite D2 in S1. clear - S1 D3. induction ds as [|w ds IH]; [constructor|]. cbn [map] in S1. inversion S1 as [|? ? S2 F]; subst. constructor.
      - apply IH; [|exact S2]. intros x Hx. apply D3. now right.
      - apply Forall_forall. intros x Hx. rewrite Forall_forall in F. destruct (D3 w (or_introl eq_refl)) as (N & T & _). destruct (D3 x (or_intror Hx)) as (N' & T' & _).
        rewrite rank_leb by auto. apply Z.leb_le, F. now apply in_map. }
    split.
    { intros w Hw. destruct (D3 w Hw) as (N & T & u & v & A & B & C). split; [|eauto]. apply within_close; auto. apply close_reach. apply (mg_below _ _ _ _ M). rewrite D2. now apply in_map. }
    intros t n Nt Ft. rewrite (double_clusters_rank square Sq code decode cloud Fin Len) by auto.
    rewrite clusters_link, (mg_count _ _ _ _ M (rank t) n), D2, map_length.
    assert (X : count_le (rank t) (map rank ds) = length (filter (fun w => SFleb w t) ds)); [|now rewrite X].
    unfold count_le. clear - D3 Nt Ft. induction ds as [|w ds IH]; [reflexivity|]. cbn [map filter]. destruct (D3 w (or_introl eq_refl)) as (N & T & _).
    rewrite rank_leb by auto. destruct (rank w <=? rank t)%Z; cbn [length]; rewrite IH; auto; intros x Hx; apply D3; now right.
  - intros N. unfold program. rewrite E, (proj1 (default_undefined _ atoi atof srt past_end nc0 al_reduce other args c d e _ Hs Dr Hrow Hpos Hd) Hne); [reflexivity|].
    intros (u & v & Huv & Hv & C). rewrite map_length in Hv. apply N. destruct (apart_value square Sq code decode cloud Fin Len u v) as (w & A & Nw & F & S1); try lia.
    exists u, v, w. split; [auto|]. split; [auto|]. apply within_close; auto; [now apply number_of|]. rewrite <- S1, <- Ea. exact C.
Qed.

(* One way to write doubles as whole numbers. *)
Definition bit (s : bool) : Z := if s then 1%Z else 0%Z.
Definition to_whole (x : double) : Z :=
  (match x with
   | S754_zero s => bit s | S754_infinity s => 2 + bit s | S754_nan => 4
   | S754_finite s m e => 6 + 2 * ((e + 1074) * 2 ^ 53 + Zpos m) + bit s
   end)%Z.
Definition of_whole (z : Z) : double :=
  if (z <? 2)%Z then S754_zero (Z.odd z) else if (z <? 4)%Z then S754_infinity (Z.odd z) else if (z =? 4)%Z then S754_nan
  else let k := ((z - 6) / 2)%Z in S754_finite (Z.odd z) (Z.to_pos (k mod 2 ^ 53)) (k / 2 ^ 53 - 1074)%Z.
Lemma of_to_whole x : fits x -> of_whole (to_whole x) = x.
Proof.
  destruct x as [s|s| |s m e]; try (destruct s; reflexivity); try reflexivity. cbn [to_whole fits]. unfold of_whole.
  assert (K : (0 < 2 ^ 53)%Z) by reflexivity. generalize dependent (2 ^ 53)%Z. intros k K [M E].
  assert (P : (0 <= (e + 1074) * k)%Z) by (apply Z.mul_nonneg_nonneg; lia). assert (B : (0 <= bit s <= 1)%Z) by (destruct s; unfold bit; lia).
  remember ((e + 1074) * k + Z.pos m)%Z as q eqn:Q. assert (0 < q)%Z by lia.
  destruct (Z.ltb_spec (6 + 2 * q + bit s) 2); [lia|]. destruct (Z.ltb_spec (6 + 2 * q + bit s) 4); [lia|].
  destruct (Z.eqb_spec (6 + 2 * q + bit s) 4); [lia|]. cbv zeta.
  assert (D : ((6 + 2 * q + bit s - 6) / 2 = q)%Z).
  { replace (6 + 2 * q + bit s - 6)%Z with (bit s + q * 2)%Z by lia. rewrite Z.div_add by lia. destruct s; reflexivity. }
  assert (O : Z.odd (6 + 2 * q + bit s) = s).
  { replace (6 + 2 * q + bit s)%Z with (bit s + 2 * (3 + q))%Z by lia. rewrite Z.odd_add_mul_2. destruct s; reflexivity. }
  rewrite D, O. assert (D1 : (q / k = e + 1074)%Z) by (symmetry; apply Z.div_unique with (Zpos m); lia).
  assert (D2 : (q mod k = Zpos m)%Z) by (symmetry; apply Z.mod_unique with (e + 1074)%Z; lia).
  rewrite D1, D2. cbn [Z.to_pos]. f_equal. lia.
Qed.
