(* DenStreamProofs.v -- proofs about micro-clusters and the DenStream run. *)
From Coq Require Import List Arith ZArith QArith Qcanon Bool Lia Permutation.
From Verif Require Import Base KdModel SpecKd KdProofs DbscanProofs DenStreamModel SpecDenStream.
Import ListNotations.
Open Scope nat_scope.

Lemma q_le_iff a b : q_le a b = true <-> (a <= b)%Qc.
Proof. unfold q_le, Qcle. apply Qle_bool_iff. Qed.
Lemma q_lt_iff a b : q_lt a b = true <-> (a < b)%Qc.
Proof.
  unfold q_lt. destruct (q_le b a) eqn:E; cbn.
  - apply q_le_iff in E. split; [discriminate|]. intros L. exfalso. revert E. now apply Qclt_not_le.
  - split; [|reflexivity]. intros _. apply Qcnot_le_lt. intros L. apply q_le_iff in L. congruence.
Qed.
Lemma q_lt_false a b : q_lt a b = false <-> (b <= a)%Qc.
Proof. unfold q_lt. rewrite <- q_le_iff. destruct (q_le b a); cbn; intuition congruence. Qed.

(* C40 *)
Section Nearest.
  Variable distq : list Qc -> list Qc -> Qc.
  Variable pt : list Qc.
  Let key (m : micro) := distq (mc_center m) pt.
  Let step : nat * Qc -> nat * micro -> nat * Qc := fun '(mn, minDist) '(i, m) =>
    let d := distq (mc_center m) pt in if q_lt d minDist then (i, d) else (mn, minDist).
  Lemma step_eq mn md k a : step (mn, md) (k, a) = if q_lt (key a) md then (k, key a) else (mn, md).
  Proof. reflexivity. Qed.
  Lemma nearest_fold ms : forall k mn md, exists i,
    fold_left step (enum k ms) (mn, md) = i /\
    ((i = (mn, md) /\ forall m, In m ms -> (md <= key m)%Qc) \/
     exists j m, nth_error ms j = Some m /\ i = (k + j, key m) /\ (key m < md)%Qc /\
       forall j' m', nth_error ms j' = Some m' -> (key m <= key m')%Qc /\ (j' < j -> (key m < key m')%Qc)).
  Proof.
    induction ms as [|a ms IH]; intros k mn md; cbn [enum fold_left].
    - eexists. split; [reflexivity|]. left. split; [reflexivity|]. intros m [].
    - rewrite step_eq. destruct (q_lt (key a) md) eqn:L.
      + apply q_lt_iff in L. destruct (IH (S k) k (key a)) as (i & E & [[-> H]|(j & m & N & -> & Lm & H)]); rewrite E; eexists; (split; [reflexivity|]); right.
        * exists 0, a. rewrite Nat.add_0_r. split; [reflexivity|]. split; [reflexivity|]. split; [exact L|].
          intros [|j'] m' N; cbn in N; [inversion N; subst; split; [apply Qcle_refl|lia]|]. split; [apply H; eapply nth_error_In; eauto|lia].
        * exists (S j), m. split; [exact N|]. split; [f_equal; lia|]. split; [eapply Qclt_trans; eauto|].
          intros [|j'] m' N'; cbn in N'; [inversion N'; subst; split; [now apply Qclt_le_weak|auto]|]. destruct (H j' m' N'). split; [assumption|]. intros; apply H1; lia.
      + apply q_lt_false in L. destruct (IH (S k) mn md) as (i & E & [[-> H]|(j & m & N & -> & Lm & H)]); rewrite E; eexists; (split; [reflexivity|]).
        * left. split; [reflexivity|]. intros m [<-|I]; auto.
        * right. exists (S j), m. split; [exact N|]. split; [f_equal; lia|]. split; [exact Lm|].
          intros [|j'] m' N'; cbn in N'; [inversion N'; subst; assert (key m < key m')%Qc by (eapply Qclt_le_trans; eauto); split; [now apply Qclt_le_weak|auto]|].
          destruct (H j' m' N'). split; [assumption|]. intros; apply H1; lia.
  Qed.
  Theorem nearest_spec ms : ms <> [] -> exists i m, nearestCluster distq ms pt = Ok i /\ nth_error ms i = Some m /\
    forall j m', nth_error ms j = Some m' -> (key m <= key m')%Qc /\ (j < i -> (key m < key m')%Qc).
  Proof.
    destruct ms as [|m0 ms]; [congruence|]. intros _. change (nearestCluster distq (m0 :: ms) pt) with (let '(mn, _) := fold_left step (enum 1 ms) (0, key m0) in Ok mn).
    destruct (nearest_fold ms 1 0 (key m0)) as (i & E & [[-> H]|(j & m & N & -> & Lm & H)]); rewrite E.
    - exists 0, m0. split; [reflexivity|]. split; [reflexivity|]. intros [|j] m' N; cbn in N; [inversion N; subst; split; [apply Qcle_refl|lia]|].
      split; [apply H; eapply nth_error_In; eauto|lia].
    - exists (S j), m. split; [reflexivity|]. split; [exact N|]. intros [|j'] m' N'; cbn in N'; [inversion N'; subst; split; [now apply Qclt_le_weak|auto]|].
      destruct (H j' m' N'). split; [assumption|]. intros; apply H1; lia.
  Qed.
End Nearest.

(* Sums. *)
Section Sums.
  Lemma total_app {A} (f : A -> Qc) l l' : total f (l ++ l') = (total f l + total f l')%Qc.
  Proof. induction l as [|a l IH]; unfold total in *; cbn [fold_right app]; [ring|]. rewrite IH. ring. Qed.
  Lemma total_ext {A} (f g : A -> Qc) l : (forall a, In a l -> f a = g a) -> total f l = total g l.
  Proof. induction l as [|a l IH]; unfold total in *; cbn [fold_right]; intros H; [reflexivity|]. rewrite IH, H; [reflexivity|now left|intros; apply H; now right]. Qed.
  Lemma total_scale {A} (f : A -> Qc) c l : total (fun a => c * f a)%Qc l = (c * total f l)%Qc.
  Proof. induction l as [|a l IH]; unfold total in *; cbn [fold_right app]; [ring|]. rewrite IH. ring. Qed.
  Lemma total_plus {A} (f g : A -> Qc) l : total (fun a => f a + g a)%Qc l = (total f l + total g l)%Qc.
  Proof. induction l as [|a l IH]; unfold total in *; cbn [fold_right app]; [ring|]. rewrite IH. ring. Qed.
  Lemma total_nonneg {A} (f : A -> Qc) l : (forall a, In a l -> (0 <= f a)%Qc) -> (0 <= total f l)%Qc.
  Proof.
    induction l as [|a l IH]; unfold total in *; cbn [fold_right]; intros H; [apply Qcle_refl|]. replace 0%Qc with (0 + 0)%Qc by ring. apply Qcplus_le_compat; [apply H; now left|apply IH; intros; apply H; now right].
  Qed.
  Lemma total_pos {A} (f : A -> Qc) l : l <> [] -> (forall a, In a l -> (0 < f a)%Qc) -> (0 < total f l)%Qc.
  Proof.
    destruct l as [|a l]; [congruence|]. intros _ H. unfold total; cbn [fold_right]; fold (total f l). apply Qclt_le_trans with (f a); [apply H; now left|].
    replace (f a) with (f a + 0)%Qc at 1 by ring. apply Qcplus_le_compat; [apply Qcle_refl|]. apply total_nonneg. intros; apply Qclt_le_weak, H. now right.
  Qed.
  Lemma total_map {A B} (f : B -> Qc) (g : A -> B) l : total f (map g l) = total (fun a => f (g a)) l.
  Proof. induction l as [|a l IH]; unfold total in *; cbn [fold_right map]; [reflexivity|]. now rewrite IH. Qed.
End Sums.

Lemma list_as_map (x : list Qc) : forall s, x = map (fun d => coord x (d - s)) (seq s (length x)).
Proof.
  induction x as [|a x IH]; intros s; cbn [length seq map]; [reflexivity|]. rewrite Nat.sub_diag. unfold coord at 1. cbn [nth]. f_equal. rewrite (IH (S s)) at 1.
  apply map_ext_in. intros d I. apply in_seq in I. unfold coord. replace (d - s) with (S (d - S s)) by lia. reflexivity.
Qed.
Lemma point_as_map (x : list Qc) : x = map (coord x) (seq 0 (length x)).
Proof. rewrite (list_as_map x 0) at 1. apply map_ext. intros d. now rewrite Nat.sub_0_r. Qed.
Lemma shift_map w {A} (f g : A -> Qc) l : shift w (map f l) (map g l) = Ok (map (fun d => f d + (g d - f d) / w)%Qc l).
Proof. induction l as [|a l IH]; cbn; [reflexivity|]. now rewrite IH. Qed.
Lemma overwrite_map {A} (f g : A -> Qc) l : overwrite (map f l) (map g l) = Ok (map g l).
Proof. induction l as [|a l IH]; cbn; [reflexivity|]. now rewrite IH. Qed.
Lemma radius2_map {A} (f g : A -> Qc) l : radius2 (map f l) (map g l) = Ok (total (fun d => g d - f d * f d)%Qc l).
Proof. induction l as [|a l IH]; cbn; [reflexivity|]. now rewrite IH. Qed.
Lemma merge2_map w {A} (f g x : A -> Qc) l :
  merge2 w (map f l) (map g l) (map x l) = Ok (total (fun d => (g d + (x d * x d - g d) / w) - (f d + (x d - f d) / w) * (f d + (x d - f d) / w))%Qc l).
Proof. induction l as [|a l IH]; cbn; [reflexivity|]. now rewrite IH. Qed.

Lemma shift_point w f x dim : length x = dim -> shift w (map f (seq 0 dim)) x = Ok (map (fun d => f d + (coord x d - f d) / w)%Qc (seq 0 dim)).
Proof. intros <-. transitivity (shift w (map f (seq 0 (length x))) (map (coord x) (seq 0 (length x)))); [now rewrite <- point_as_map|apply shift_map]. Qed.
Lemma merge2_point w f g x dim : length x = dim -> merge2 w (map f (seq 0 dim)) (map g (seq 0 dim)) x =
  Ok (total (fun d => (g d + (coord x d * coord x d - g d) / w) - (f d + (coord x d - f d) / w) * (f d + (coord x d - f d) / w))%Qc (seq 0 dim)).
Proof. intros <-. transitivity (merge2 w (map f (seq 0 (length x))) (map g (seq 0 (length x))) (map (coord x) (seq 0 (length x)))); [now rewrite <- point_as_map|apply merge2_map]. Qed.

Section Micro.
  Variable decay : Z -> Qc.
  Variable root : Qc -> Qc.
  Variable Fad : fading decay.
  Variable dim : nat.
  Let D0 : decay 0%Z = 1%Qc := proj1 Fad.
  Let Dadd : forall a b, decay (a + b)%Z = (decay a * decay b)%Qc := proj1 (proj2 Fad).
  Let Dpos : forall a, (0 < decay a)%Qc := proj2 (proj2 Fad).
  Local Notation weight := (faded_weight decay).
  Local Notation mean := (faded_mean decay).
  Definition sums (T : Z) (h : history) (g : Qc -> Qc) (d : nat) : Qc := total (fun e => decay (T - fst e)%Z * g (coord (snd e) d))%Qc h.

  Lemma pos_neq a : (0 < a)%Qc -> a <> 0%Qc.
  Proof. intros H ->. now apply Qclt_not_eq in H. Qed.
  Lemma weight_later T T' h : weight T' h = (decay (T' - T) * weight T h)%Qc.
  Proof. unfold faded_weight. rewrite <- total_scale. apply total_ext. intros e _. rewrite <- Dadd. f_equal. lia. Qed.
  Lemma sums_later T T' h g d : sums T' h g d = (decay (T' - T) * sums T h g d)%Qc.
  Proof. unfold sums. rewrite <- total_scale. apply total_ext. intros e _. rewrite Qcmult_assoc, <- Dadd. do 2 f_equal. lia. Qed.
  Lemma weight_pos T h : h <> [] -> (0 < weight T h)%Qc.
  Proof. intros H. apply total_pos; auto. Qed.
  Lemma mean_later T T' h g d : mean T' h g d = mean T h g d.
  Proof.
    destruct h as [|e h]; [reflexivity|]. unfold faded_mean. fold (sums T' (e :: h) g d) (sums T (e :: h) g d). rewrite (sums_later T T'), (weight_later T T'). field.
    split; apply pos_neq; [apply weight_pos; discriminate|apply Dpos].
  Qed.
  Lemma weight_snoc T h x : weight T (h ++ [(T, x)]) = (weight T h + 1)%Qc.
  Proof. unfold faded_weight. rewrite total_app. unfold total at 2. cbn [fold_right fst snd]. rewrite Z.sub_diag, D0. ring. Qed.
  Lemma sums_snoc T h x g d : sums T (h ++ [(T, x)]) g d = (sums T h g d + g (coord x d))%Qc.
  Proof. unfold sums. rewrite total_app. unfold total at 2. cbn [fold_right fst snd]. rewrite Z.sub_diag, D0. ring. Qed.
  Lemma mean_snoc T h x g d : h <> [] -> mean T (h ++ [(T, x)]) g d = (mean T h g d + (g (coord x d) - mean T h g d) / (weight T h + 1))%Qc.
  Proof.
    intros N. unfold faded_mean. fold (sums T (h ++ [(T, x)]) g d) (sums T h g d). rewrite sums_snoc, weight_snoc. field.
    split; apply pos_neq; [now apply weight_pos|]. apply Qclt_le_trans with 1%Qc; [reflexivity|]. replace 1%Qc with (0 + 1)%Qc at 1 by ring.
    apply Qcplus_le_compat; [now apply Qclt_le_weak, weight_pos|apply Qcle_refl].
  Qed.
  Lemma mean_single T x g d : mean T [(T, x)] g d = g (coord x d).
  Proof. unfold faded_mean, faded_weight, total. cbn [fold_right fst snd]. rewrite Z.sub_diag, D0. field. discriminate. Qed.

  (* m summarises the history h. *)
  Definition sq (v : Qc) : Qc := (v * v)%Qc.
  Definition id' (v : Qc) : Qc := v.
  Record summary (m : micro) (h : history) : Prop := {
    sm_weight : mc_weight m = weight (mc_edit m) h;
    sm_center : mc_center m = map (mean (mc_edit m) h id') (seq 0 dim);
    sm_squares : mc_squares m = map (mean (mc_edit m) h sq) (seq 0 dim) }.

  Lemma map_const {A B} (f : A -> B) b l : (forall a, f a = b) -> map f l = repeat b (length l).
  Proof. intros H. induction l; cbn; [reflexivity|]. now rewrite H, IHl. Qed.
  Lemma summary_new t : summary (new_micro t dim) [].
  Proof.
    assert (E : forall g d, mean 0 [] g d = 0%Qc) by (intros; unfold faded_mean, total, Qcdiv; cbn [fold_right]; ring).
    split; [reflexivity| |]; cbn [new_micro mc_center mc_squares mc_edit]; rewrite map_const with (b := 0%Qc) by (intros; apply E); now rewrite seq_length.
  Qed.

  Lemma insert_spec m h x t : summary m h -> length x = dim ->
    exists m', insertPoint decay m x t = Ok m' /\ summary m' (h ++ [(t, x)]) /\ mc_edit m' = t /\ mc_created m' = mc_created m.
  Proof.
    intros [W C S] L. unfold insertPoint. rewrite W, C, S.
    assert (X : x = map (fun d => coord x d) (seq 0 dim)) by (rewrite <- L; apply point_as_map).
    assert (X2 : squares x = map (fun d => sq (coord x d)) (seq 0 dim)).
    { transitivity (squares (map (fun d => coord x d) (seq 0 dim))); [now rewrite <- X|]. unfold squares. rewrite map_map. reflexivity. }
    assert (NW : (weight (mc_edit m) h * decay (t - mc_edit m) + 1 = weight t h + 1)%Qc) by (rewrite (weight_later (mc_edit m) t); ring).
    rewrite NW. destruct (Qc_eq_bool (weight (mc_edit m) h) 0) eqn:Z.
    - apply Qc_eq_bool_correct in Z. assert (h = []) as ->.
      { destruct h as [|e h]; [reflexivity|]. exfalso. revert Z. apply pos_neq, weight_pos. discriminate. }
      rewrite X2, overwrite_map. cbn [bind]. eexists. split; [reflexivity|]. split; [|split; reflexivity]. cbn [app]. split; cbn [mc_weight mc_edit mc_center mc_squares].
      + now rewrite <- (weight_snoc t [] x).
      + transitivity (map (fun d => coord x d) (seq 0 dim)); [exact X|]. apply map_ext. intros d. now rewrite mean_single.
      + apply map_ext. intros d. now rewrite mean_single.
    - assert (N : h <> []) by (intros ->; cbn in Z; discriminate).
      rewrite X2, shift_point, shift_map by exact L. cbn [bind]. eexists. split; [reflexivity|]. split; [|split; reflexivity]. split; cbn [mc_weight mc_edit mc_center mc_squares].
      + now rewrite weight_snoc.
      + apply map_ext. intros d. rewrite mean_snoc by exact N. rewrite (mean_later (mc_edit m) t). reflexivity.
      + apply map_ext. intros d. rewrite mean_snoc by exact N. rewrite (mean_later (mc_edit m) t). reflexivity.
  Qed.

  Lemma mean_plus T h f g d : mean T h (fun v => f v + g v)%Qc d = (mean T h f d + mean T h g d)%Qc.
  Proof.
    unfold faded_mean. rewrite (total_ext _ (fun e => decay (T - fst e)%Z * f (coord (snd e) d) + decay (T - fst e)%Z * g (coord (snd e) d)))%Qc by (intros; ring).
    rewrite total_plus. unfold Qcdiv. ring.
  Qed.
  Lemma mean_scale T h c f d : mean T h (fun v => c * f v)%Qc d = (c * mean T h f d)%Qc.
  Proof.
    unfold faded_mean. rewrite (total_ext _ (fun e => c * (decay (T - fst e)%Z * f (coord (snd e) d))))%Qc by (intros; ring).
    rewrite total_scale. unfold Qcdiv. ring.
  Qed.
  Lemma mean_const T h c d : h <> [] -> mean T h (fun _ => c) d = c.
  Proof.
    intros N. unfold faded_mean. rewrite (total_ext _ (fun e => c * decay (T - fst e)%Z))%Qc by (intros; ring). rewrite total_scale. fold (weight T h). field. now apply pos_neq, weight_pos.
  Qed.
  Lemma mean_ext T h f g d : (forall v, f v = g v) -> mean T h f d = mean T h g d.
  Proof. intros H. unfold faded_mean. f_equal. apply total_ext. intros. now rewrite H. Qed.
  Lemma center_nth T h d : d < dim -> coord (faded_center decay T h dim) d = mean T h id' d.
  Proof.
    intros L. unfold coord, faded_center. apply nth_error_nth. rewrite nth_error_map. rewrite (nth_error_nth' _ 0) by (now rewrite seq_length). rewrite seq_nth by exact L. reflexivity.
  Qed.
  Lemma spread_mean T h : faded_spread decay T h dim = total (fun d => mean T h sq d - mean T h id' d * mean T h id' d)%Qc (seq 0 dim).
  Proof.
    unfold faded_spread. apply total_ext. intros d I. apply in_seq in I. rewrite center_nth by lia. set (c := mean T h id' d).
    destruct h as [|e h]; [unfold c, faded_mean, total, Qcdiv; cbn [fold_right]; ring|].
    rewrite (mean_ext _ _ _ (fun v => (sq v + (- (c + c)) * id' v) + c * c)%Qc) by (intros; unfold sq, id'; ring).
    rewrite (mean_plus _ _ (fun v => sq v + (- (c + c)) * id' v)%Qc (fun _ => c * c)%Qc), (mean_plus _ _ sq (fun v => (- (c + c)) * id' v)%Qc), mean_const, mean_scale by discriminate.
    fold c. ring.
  Qed.
  Lemma spread_later T T' h : faded_spread decay T' h dim = faded_spread decay T h dim.
  Proof. rewrite !spread_mean. apply total_ext. intros. now rewrite !(mean_later T T'). Qed.
  Lemma mean_nonneg T h f d : (forall v, 0 <= f v)%Qc -> (0 <= mean T h f d)%Qc.
  Proof.
    intros H. destruct h as [|e h]; [unfold faded_mean, total; cbn [fold_right]; unfold Qcdiv; match goal with |- (0 <= 0 * ?z)%Qc => replace (0 * z)%Qc with 0%Qc by ring end; apply Qcle_refl|].
    unfold faded_mean. assert (P := weight_pos T (e :: h) ltac:(discriminate)). set (w := weight T (e :: h)) in *.
    assert (N : (0 <= total (fun e => decay (T - fst e)%Z * f (coord (snd e) d)) (e :: h))%Qc).
    { apply total_nonneg. intros a _. replace 0%Qc with (0 * f (coord (snd a) d))%Qc by ring. apply Qcmult_le_compat_r; [now apply Qclt_le_weak|apply H]. }
    set (s := total _ _) in *. clearbody s w. apply Qcnot_lt_le. intros L.
    assert (K : (s / w * w < 0 * w)%Qc) by (apply Qcmult_lt_compat_r; assumption).
    replace (s / w * w)%Qc with s in K by (field; now apply pos_neq). replace (0 * w)%Qc with 0%Qc in K by ring. revert N. now apply Qclt_not_le.
  Qed.
  Lemma square_nonneg (v : Qc) : (0 <= v * v)%Qc.
  Proof.
    destruct (Qclt_le_dec v 0) as [L|L].
    - replace (v * v)%Qc with ((- v) * (- v))%Qc by ring. assert (P : (0 <= - v)%Qc) by (replace 0%Qc with (- (0))%Qc by ring; now apply Qcopp_le_compat, Qclt_le_weak).
      replace 0%Qc with (0 * - v)%Qc by ring. now apply Qcmult_le_compat_r.
    - replace 0%Qc with (0 * v)%Qc by ring. now apply Qcmult_le_compat_r.
  Qed.
  Lemma spread_nonneg T h : (0 <= faded_spread decay T h dim)%Qc.
  Proof. unfold faded_spread. apply total_nonneg. intros. apply mean_nonneg. intros; apply square_nonneg. Qed.

  Lemma radius_spec m h T : summary m h -> getRadius root m = Ok (root (faded_spread decay T h dim)).
  Proof. intros [W C S]. unfold getRadius. rewrite C, S, radius2_map. cbn. rewrite (spread_later (mc_edit m) T), spread_mean. reflexivity. Qed.
  Lemma weight_spec m h T : summary m h -> getWeight decay m T = weight T h.
  Proof. intros [W C S]. unfold getWeight. rewrite W, (weight_later (mc_edit m) T). ring. Qed.
  Lemma center_spec m h T : summary m h -> mc_center m = faded_center decay T h dim.
  Proof. intros [W C S]. rewrite C. apply map_ext. intros. now rewrite (mean_later T (mc_edit m)). Qed.
  Lemma mergeRadius_spec m h x t T : summary m h -> length x = dim -> mergeRadius decay root m x t = Ok (root (faded_spread decay T (h ++ [(t, x)]) dim)).
  Proof.
    intros [W C S] L. unfold mergeRadius. rewrite W, C, S.
    rewrite merge2_point by exact L. cbn [rmap bind]. do 2 f_equal. rewrite (spread_later t T), spread_mean. apply total_ext. intros d _.
    replace (weight (mc_edit m) h * decay (t - mc_edit m) + 1)%Qc with (weight t h + 1)%Qc by (rewrite (weight_later (mc_edit m) t); ring).
    rewrite !(mean_later t (mc_edit m)). destruct h as [|e h].
    - cbn [app]. rewrite !mean_single. unfold faded_mean, faded_weight, sq, id', total. cbn [fold_right]. unfold Qcdiv. replace (0 + 1)%Qc with 1%Qc by ring. replace (/ 1)%Qc with 1%Qc by reflexivity. ring.
    - rewrite !mean_snoc by discriminate. reflexivity.
  Qed.

  Lemma history_spec t0 h : (forall e, In e h -> length (snd e) = dim) ->
    exists m, foldr_ub (fun m e => insertPoint decay m (snd e) (fst e)) (new_micro t0 dim) h = Ok m /\ summary m h.
  Proof.
    assert (G : forall h h0 m, summary m h0 -> (forall e, In e h -> length (snd e) = dim) ->
      exists m', foldr_ub (fun m e => insertPoint decay m (snd e) (fst e)) m h = Ok m' /\ summary m' (h0 ++ h)).
    { clear h. induction h as [|[t x] h IH]; intros h0 m S H; cbn [foldr_ub].
      - exists m. rewrite app_nil_r. auto.
      - destruct (insert_spec m h0 x t S) as (m' & E & S' & _); [apply (H (t, x)); now left|]. cbn [fst snd]. rewrite E. cbn [bind].
        destruct (IH (h0 ++ [(t, x)]) m' S') as (m2 & E2 & S2); [intros; apply H; now right|]. exists m2. split; [exact E2|]. now rewrite <- app_assoc in S2. }
    intros H. destruct (G h [] (new_micro t0 dim) (summary_new t0) H) as (m & E & S). eauto.
  Qed.
End Micro.
