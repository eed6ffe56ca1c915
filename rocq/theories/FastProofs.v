(* FastProofs.v -- clearing, the dimension loop and the whole of fastPersistence. *)
From Coq Require Import List Arith ZArith Bool Lia Sorted Permutation Relations.
From Verif Require Import Base Spec UtilsModel UtilsProofs PartitionProofs ArrayListModel ArrayListProofs SpecComplex FastModel
  SpecGraph KruskalProofs SpecLinear LinearProofs SpecFast ReductionProofs.
Import ListNotations.

(* ---- counting form of bsum ---- *)
Lemma bsum_count cs : forall k x i, bsum_from k cs x i =
  Nat.odd (length (filter (fun j => x j && nth (j - k) cs vzero i) (seq k (length cs)))).
Proof.
  induction cs as [|c cs IH]; intros k x i; cbn [bsum_from length seq filter]; [reflexivity|].
  unfold vadd at 1. rewrite IH, Nat.sub_diag. cbn [nth].
  assert (E : filter (fun j => x j && nth (j - k) (c :: cs) vzero i) (seq (S k) (length cs)) =
              filter (fun j => x j && nth (j - S k) cs vzero i) (seq (S k) (length cs))).
  { apply filter_ext_in. intros j Hj. apply in_seq in Hj. replace (j - k) with (S (j - S k)) by lia. reflexivity. }
  cbn [nth] in E. rewrite E. destruct (x k && c i); cbn [length]; [rewrite Nat.odd_succ, <- Nat.negb_odd|]; destruct (Nat.odd _); reflexivity.
Qed.

(* ---- exactly two or no facets between a simplex and a face of codimension two ---- *)
Lemma length_filter_split {A} (f : A -> bool) l : length (filter f l) + length (filter (fun x => negb (f x)) l) = length l.
Proof. induction l as [|x l IH]; cbn; auto. destruct (f x); cbn; lia. Qed.

Lemma filter_sub s t : ssorted s -> ssorted t -> incl t s -> filter (coord t) s = t.
Proof.
  intros S1 S2 I. apply ssorted_ext; auto; [now apply ssorted_filter|]. intros x. rewrite filter_In, coord_In. split; [tauto|auto].
Qed.

Lemma codim_one s f : ssorted s -> ssorted f -> incl f s -> length s = S (length f) ->
  exists x, In x s /\ ~ In x f /\ f = filter (fun y => negb (y =? x)) s.
Proof.
  intros S1 S2 I L. assert (E := length_filter_split (coord f) s). rewrite filter_sub in E by auto.
  destruct (filter (fun x => negb (coord f x)) s) as [|x [|y l]] eqn:Ef; cbn in E; try lia.
  exists x. assert (Hx : In x (filter (fun x => negb (coord f x)) s)) by (rewrite Ef; now left).
  apply filter_In in Hx as [Hx Hn]. apply negb_true_iff, coord_false in Hn. split; auto. split; auto.
  apply ssorted_ext; auto; [now apply ssorted_filter|]. intros z. rewrite filter_In, negb_true_iff, Nat.eqb_neq. split.
  - intros Hz. split; auto. intros ->. contradiction.
  - intros [Hz Nz]. destruct (coord f z) eqn:Ez; [now apply coord_In|]. exfalso. apply Nz.
    assert (K : In z (filter (fun x => negb (coord f x)) s)) by (apply filter_In; rewrite Ez; auto). rewrite Ef in K. destruct K as [K|[]]. auto.
Qed.

Lemma remove_one s x : ssorted s -> In x s -> let f := filter (fun y => negb (y =? x)) s in
  ssorted f /\ incl f s /\ length s = S (length f).
Proof.
  intros Ss Hx. cbn zeta. split; [now apply ssorted_filter|]. split; [intros y Hy; apply filter_In in Hy; tauto|].
  assert (E := length_filter_split (fun y => negb (y =? x)) s). cbn beta in E.
  assert (E1 : filter (fun y => negb (negb (y =? x))) s = [x]); [|rewrite E1 in E; cbn in E; lia].
  apply ssorted_ext; [now apply ssorted_filter|repeat constructor|]. intros y. rewrite filter_In, negb_involutive, Nat.eqb_eq. cbn. intuition; subst; auto.
Qed.

Lemma between_two s t fs : ssorted s -> ssorted t -> length s = S (S (length t)) -> NoDup fs ->
  (forall f, In f fs -> ssorted f /\ S (length f) = length s) ->
  (forall f, ssorted f -> incl f s -> S (length f) = length s -> In f fs) ->
  Nat.odd (length (filter (fun f => is_face s f && is_face f t) fs)) = false.
Proof.
  intros S1 S2 L N F1 F2. destruct (is_face s t) eqn:Et.
  - apply is_face_incl in Et. assert (E := length_filter_split (coord t) s). rewrite filter_sub in E by auto.
    destruct (filter (fun x => negb (coord t x)) s) as [|a [|b [|]]] eqn:Ef; cbn in E; try lia.
    assert (Sab : ssorted [a; b]) by (rewrite <- Ef; now apply ssorted_filter).
    assert (Hab : a <> b). { apply ssorted_cons in Sab as [_ H]. specialize (H b (or_introl eq_refl)). lia. }
    assert (Hin : forall x, In x [a; b] <-> In x s /\ ~ In x t).
    { intros x. rewrite <- Ef, filter_In, negb_true_iff, coord_false. reflexivity. }
    set (fa := filter (fun y => negb (y =? a)) s). set (fb := filter (fun y => negb (y =? b)) s).
    assert (Ha : In a s /\ ~ In a t) by (apply Hin; now left). assert (Hb : In b s /\ ~ In b t) by (apply Hin; right; now left).
    assert (Nab : fa <> fb).
    { intros E2. assert (K : In b fa) by (unfold fa; apply filter_In; rewrite negb_true_iff, Nat.eqb_neq; split; [tauto|auto]).
      rewrite E2 in K. unfold fb in K. apply filter_In in K. rewrite Nat.eqb_refl in K. destruct K. discriminate. }
    assert (Hsub : forall x, In x [a; b] -> incl t (filter (fun y => negb (y =? x)) s)).
    { intros x Hx y Hy. apply filter_In. rewrite negb_true_iff, Nat.eqb_neq. split; auto. intros ->. apply Hin in Hx. tauto. }
    replace (length (filter (fun f => is_face s f && is_face f t) fs)) with (length [fa; fb]); [reflexivity|].
    apply Permutation_length. apply NoDup_Permutation.
    + constructor; [cbn; intuition|repeat constructor; auto].
    + now apply NoDup_filter.
    + intros f. rewrite filter_In, andb_true_iff, !is_face_incl. cbn [In]. split.
      * intros [<-|[<-|[]]].
        -- destruct (remove_one s a S1) as (A & B & C); [tauto|]. split; [apply F2; auto|]. split; auto. apply Hsub. now left.
        -- destruct (remove_one s b S1) as (A & B & C); [tauto|]. split; [apply F2; auto|]. split; auto. apply Hsub. right. now left.
      * intros (Hf & I1 & I2). destruct (F1 f Hf) as (Sf & Lf). destruct (codim_one s f S1 Sf I1) as (x & Hx & Nx & ->); [lia|].
        assert (Hx' : In x [a; b]) by (apply Hin; split; auto). destruct Hx' as [<-|[<-|[]]]; auto.
  - assert (E : filter (fun f => is_face s f && is_face f t) fs = []); [|now rewrite E].
    destruct (filter (fun f => is_face s f && is_face f t) fs) as [|f l] eqn:Ef; auto. exfalso.
    assert (Hf : In f (filter (fun f => is_face s f && is_face f t) fs)) by (rewrite Ef; now left).
    apply filter_In in Hf as [_ Hf]. apply andb_true_iff in Hf as [H1 H2]. apply is_face_incl in H1, H2.
    apply not_true_iff_false in Et. apply Et, is_face_incl. intros x Hx. auto.
Qed.

(* ---- boundaries are cycles ---- *)
Lemma filter_seq_nth {A} (f : A -> bool) d l : length (filter (fun j => f (nth j l d)) (seq 0 (length l))) = length (filter f l).
Proof.
  assert (H : forall k, length (filter (fun j => f (nth (j - k) l d)) (seq k (length l))) = length (filter f l)).
  { induction l as [|x l IH]; intros k; cbn [length seq filter]; auto. rewrite Nat.sub_diag. cbn [nth].
    assert (E : filter (fun j => f (nth (j - k) (x :: l) d)) (seq (S k) (length l)) = filter (fun j => f (nth (j - S k) l d)) (seq (S k) (length l))).
    { apply filter_ext_in. intros j Hj. apply in_seq in Hj. replace (j - k) with (S (j - S k)) by lia. reflexivity. }
    cbn [nth] in E. rewrite E. destruct (f x); cbn [length]; now rewrite IH. }
  rewrite <- (H 0). f_equal. apply filter_ext. intros j. now rewrite Nat.sub_0_r.
Qed.

Lemma coord_boundary rows s j : j < length rows -> coord (boundary rows s) j = is_face s (nth j rows []).
Proof. intros L. apply eq_true_iff_eq. rewrite coord_In, boundary_In, is_face_incl. tauto. Qed.

Lemma boundary_cycle edges k s w : complex edges -> In (s, w) (level edges (S (S k))) ->
  veq (bsum (map coord (bmatrix edges (S k))) (coord (boundary (simplices edges (S k)) s))) vzero.
Proof.
  intros C Hs i. unfold bsum, vzero. rewrite bsum_count.
  destruct (cx_shape _ C _ _ _ Hs) as [Ss Ls].
  set (rows := simplices edges k). set (fs := simplices edges (S k)).
  assert (Hb : bmatrix edges (S k) = map (boundary rows) fs) by (unfold bmatrix, boundary_matrix; now rewrite Nat.sub_succ, Nat.sub_0_r).
  rewrite Hb, !map_length.
  destruct (Nat.lt_ge_cases i (length rows)) as [Li|Li].
  - rewrite (filter_ext_in _ (fun j => is_face s (nth j fs []) && is_face (nth j fs []) (nth i rows []))).
    2:{ intros j Hj. apply in_seq in Hj. rewrite coord_boundary by lia. f_equal. rewrite Nat.sub_0_r, map_map.
        rewrite (nth_indep _ vzero (coord (boundary rows []))) by (rewrite map_length; lia).
        rewrite (map_nth (fun x => coord (boundary rows x))). apply coord_boundary. auto. }
    rewrite (filter_seq_nth (fun f => is_face s f && is_face f (nth i rows [])) [] fs).
    assert (Ht : In (nth i rows []) rows) by (now apply nth_In).
    unfold rows, simplices in Ht. apply in_map_iff in Ht as ([t wt] & Et & Ht). fold (simplices edges k) in Et. fold rows in Et. cbn in Et. rewrite <- Et.
    destruct (cx_shape _ C _ _ _ Ht) as [St Lt].
    apply between_two; auto; [lia|apply C| |].
    + intros f Hf. unfold fs, simplices in Hf. apply in_map_iff in Hf as ([f' wf] & <- & Hf). destruct (cx_shape _ C _ _ _ Hf). cbn. split; auto. lia.
    + intros f Sf If Lf. apply (cx_closed _ C _ _ _ _ Hs). split; auto.
  - rewrite (filter_ext_in _ (fun _ => false)).
    + induction (seq 0 (length fs)); auto.
    + intros j Hj. apply in_seq in Hj. rewrite Nat.sub_0_r, map_map.
      rewrite (nth_indep _ vzero (coord (boundary rows []))) by (rewrite map_length; lia).
      rewrite (map_nth (fun x => coord (boundary rows x))). apply andb_false_iff. right. apply coord_false. rewrite boundary_In. lia.
Qed.

(* ---- clearing ---- *)
Definition vres (skip : list nat) (x : vec) : vec := fun i => x i && negb (coord skip i).
Lemma vres_add skip x y : veq (vres skip (vadd x y)) (vadd (vres skip x) (vres skip y)).
Proof. intros i. unfold vres, vadd. destruct (x i), (y i), (coord skip i); reflexivity. Qed.

Lemma span_vres skip cs : forall y, span (map (vres skip) cs) y -> exists z, span cs z /\ veq y (vres skip z).
Proof.
  induction cs as [|c cs IH]; cbn; intros y H.
  - exists vzero. split; [apply veq_refl|]. intros i. rewrite H. reflexivity.
  - destruct H as [H|H]; apply IH in H as (z & Hz & E).
    + exists z. auto.
    + exists (vadd z c). split.
      * right. eapply span_ext; [|exact Hz]. intros i. unfold vadd. destruct (z i), (c i); reflexivity.
      * intros i. rewrite vres_add. unfold vadd. rewrite <- E. unfold vadd. destruct (y i), (vres skip c i); reflexivity.
Qed.
Lemma span_vres' skip cs : forall z, span cs z -> span (map (vres skip) cs) (vres skip z).
Proof.
  induction cs as [|c cs IH]; cbn; intros z H.
  - intros i. unfold vres. now rewrite H.
  - destruct H as [H|H]; [left; auto|right]. eapply span_ext; [|apply IH, H]. apply vres_add.
Qed.

Lemma boundary_without_coord skip rows s : veq (coord (boundary_without skip rows s)) (vres skip (coord (boundary rows s))).
Proof.
  intros i. unfold vres. apply eq_true_iff_eq. rewrite coord_In, boundary_without_In, andb_true_iff, negb_true_iff, coord_In, coord_false. reflexivity.
Qed.

Lemma span_pointwise cs ds : Forall2 veq cs ds -> forall x, span cs x -> span ds x.
Proof.
  induction 1 as [|c d cs ds E _ IH]; cbn; intros x H; auto. destruct H as [H|H]; [left; auto|right].
  eapply span_ext; [|apply IH, H]. apply vadd_ext; auto using veq_refl.
Qed.

Lemma span_support n cs : (forall c, In c cs -> forall i, n <= i -> c i = false) -> forall x, span cs x -> forall i, n <= i -> x i = false.
Proof.
  induction cs as [|c cs IH]; cbn; intros H x K i L.
  - now rewrite K.
  - assert (H' : forall d, In d cs -> forall i, n <= i -> d i = false) by (intros d Hd; apply H; now right).
    destruct K as [K|K]; [now apply (IH H' x K)|]. specialize (IH H' _ K i L). unfold vadd in IH.
    rewrite (H c (or_introl eq_refl) i L), xorb_false_r in IH. auto.
Qed.
Lemma span_cycle bs cs : (forall c, In c cs -> veq (bsum bs c) vzero) -> forall x, span cs x -> veq (bsum bs x) vzero.
Proof.
  induction cs as [|c cs IH]; cbn; intros H x K.
  - unfold bsum. apply (bsum_zero bs 0 x). intros j _. apply K.
  - assert (H' : forall d, In d cs -> veq (bsum bs d) vzero) by (intros d Hd; apply H; now right).
    destruct K as [K|K]; [now apply IH|]. specialize (IH H' _ K). assert (Hc := H c (or_introl eq_refl)).
    intros i. specialize (IH i). specialize (Hc i). unfold bsum in *. rewrite bsum_add in IH. unfold vadd in IH. rewrite Hc in IH.
    unfold vzero in *. rewrite xorb_false_r in IH. auto.
Qed.

Lemma clearing edges k piv : complex edges -> negative edges (S k) piv -> forall j,
  fresh (map (boundary_without piv (simplices edges (S k))) (simplices edges (S (S k)))) j <-> fresh (bmatrix edges (S (S k))) j.
Proof.
  intros C [Sp Hp] j. set (rows := simplices edges (S k)) in *. set (cols := simplices edges (S (S k))).
  assert (Hb : bmatrix edges (S (S k)) = map (boundary rows) cols) by (unfold bmatrix, boundary_matrix; now rewrite Nat.sub_succ, Nat.sub_0_r).
  rewrite Hb.
  destruct (nth_error cols j) as [c|] eqn:Ec.
  2:{ split; intros (x & E & _); rewrite nth_error_map, Ec in E; discriminate. }
  assert (Hcyc : forall s, In s cols -> veq (bsum (map coord (bmatrix edges (S k))) (coord (boundary rows s))) vzero).
  { intros s Hs. unfold cols, simplices in Hs. apply in_map_iff in Hs as ([s' w] & <- & Hs). now apply (boundary_cycle edges k s' w). }
  assert (Hlen : length (bmatrix edges (S k)) = length rows) by (unfold bmatrix, boundary_matrix; now rewrite map_length).
  assert (Hzero : forall x, span (map (fun s => coord (boundary rows s)) cols) x -> veq (vres piv x) vzero -> veq x vzero).
  { intros x Hx Hr i. destruct (Nat.lt_ge_cases i (length rows)) as [L|L].
    - apply (bsum_injective (map coord (bmatrix edges (S k)))).
      + intros q d Eq Xq. rewrite nth_error_map in Eq. destruct (nth_error (bmatrix edges (S k)) q) as [b|] eqn:Eb; [|discriminate].
        injection Eq as <-. apply (fresh_span _ q b Eb). apply Hp.
        specialize (Hr q). unfold vres, vzero in Hr. rewrite Xq in Hr. cbn in Hr. apply negb_false_iff, coord_In in Hr. auto.
      + apply (span_cycle _ (map (fun s => coord (boundary rows s)) cols)); auto.
        intros d Hd. apply in_map_iff in Hd as (s & <- & Hs). auto.
      + rewrite map_length, Hlen. auto.
    - apply (span_support (length rows) (map (fun s => coord (boundary rows s)) cols)); auto.
      intros d Hd m Hm. apply in_map_iff in Hd as (s & <- & Hs). apply coord_false. rewrite boundary_In. lia. }
  rewrite (fresh_span _ j (boundary_without piv rows c)) by (now rewrite nth_error_map, Ec).
  rewrite (fresh_span _ j (boundary rows c)) by (now rewrite nth_error_map, Ec).
  rewrite !map_map, !firstn_map.
  set (A := map (fun s => coord (boundary rows s)) (firstn j cols)).
  assert (HF : Forall2 veq (map (fun x => coord (boundary_without piv rows x)) (firstn j cols)) (map (vres piv) A)).
  { unfold A. rewrite map_map. induction (firstn j cols); constructor; auto. apply boundary_without_coord. }
  assert (HF' : Forall2 veq (map (vres piv) A) (map (fun x => coord (boundary_without piv rows x)) (firstn j cols))).
  { clear - HF. induction HF; constructor; auto. now apply veq_sym. }
  assert (Ic : In c cols) by (eapply nth_error_In; eauto).
  split; intros Hn K; apply Hn.
  - apply (span_pointwise _ _ HF'). eapply span_ext; [apply veq_sym, boundary_without_coord|]. apply span_vres'. exact K.
  - apply (span_pointwise _ _ HF) in K. apply span_vres in K as (z & Hz & Ez).
    eapply span_ext; [|exact Hz].
    assert (Hs : span (map (fun s => coord (boundary rows s)) cols) (vadd (coord (boundary rows c)) z)).
    { apply span_add.
      - apply span_in. apply in_map_iff. eauto.
      - eapply span_sub; [|exact Hz]. intros d Hd. apply in_map_iff in Hd as (s & <- & Hd). apply span_in, in_map_iff. exists s. split; auto.
        rewrite <- (firstn_skipn j cols). apply in_app_iff. auto. }
    apply Hzero in Hs.
    + intros i. specialize (Hs i). unfold vadd, vzero in Hs. destruct (coord (boundary rows c) i), (z i); auto; discriminate.
    + intros i. rewrite vres_add. unfold vadd. rewrite <- Ez, boundary_without_coord. unfold vzero. apply xorb_nilpotent.
Qed.

(* ---- dimension one: joining edges are the independent boundaries ---- *)
Lemma bsum_single cs x j : j < length cs -> (forall k, x k = true <-> k = j) -> veq (bsum cs x) (nth j cs vzero).
Proof.
  intros L H i. unfold bsum. rewrite bsum_count.
  rewrite (filter_ext_in _ (fun k => (k =? j) && nth j cs vzero i)).
  2:{ intros k Hk. rewrite Nat.sub_0_r. destruct (x k) eqn:E.
      - apply H in E. subst. now rewrite Nat.eqb_refl.
      - destruct (Nat.eqb_spec k j) as [->|N]; auto. assert (x j = true) by now apply H. congruence. }
  destruct (nth j cs vzero i).
  - rewrite (filter_ext _ (fun k => k =? j)) by (intros; apply andb_true_r).
    assert (E : filter (fun k => k =? j) (seq 0 (length cs)) = [j]); [|now rewrite E].
    apply ssorted_ext; [apply filter_seq_ssorted|repeat constructor|]. intros k. rewrite filter_In, in_seq, Nat.eqb_eq. cbn. intuition.
  - rewrite (filter_ext _ (fun k => false)) by (intros; apply andb_false_r).
    induction (seq 0 (length cs)); auto.
Qed.

Section Graph.
  Variable V : list nat.
  Hypothesis NV : NoDup V.
  Let rows := map (fun v => [v]) V.

  Lemma rows_nth i : i < length V -> nth i rows [] = [nth i V 0].
  Proof. intros L. unfold rows. rewrite (nth_indep _ [] [0]) by (now rewrite map_length). now rewrite (map_nth (fun v => [v])). Qed.

  Lemma vertex_coord u i : coord (boundary rows [u]) i = true <-> i < length V /\ nth i V 0 = u.
  Proof.
    rewrite coord_In, boundary_In. unfold rows at 1. rewrite map_length. split; intros [L H]; split; auto.
    - rewrite rows_nth in H by auto. destruct (H (nth i V 0)) as [E|[]]; [now left|auto].
    - rewrite rows_nth by auto. intros x [<-|[]]. now left.
  Qed.
  Lemma edge_coord u v : u <> v -> veq (coord (boundary rows [u; v])) (vadd (coord (boundary rows [u])) (coord (boundary rows [v]))).
  Proof.
    intros N i. unfold vadd. apply eq_true_iff_eq. rewrite coord_In, boundary_In. unfold rows at 1. rewrite map_length.
    assert (Hu := vertex_coord u i). assert (Hv := vertex_coord v i).
    split.
    - intros [L H]. rewrite rows_nth in H by auto. destruct (H (nth i V 0)) as [E|[E|[]]]; [now left| |].
      + assert (E1 : coord (boundary rows [u]) i = true) by (apply Hu; auto). rewrite E1.
        destruct (coord (boundary rows [v]) i); auto. exfalso. apply N. destruct Hv as [Hv _]. specialize (Hv eq_refl). destruct Hv. congruence.
      + assert (E1 : coord (boundary rows [v]) i = true) by (apply Hv; auto). rewrite E1.
        destruct (coord (boundary rows [u]) i); auto. exfalso. apply N. destruct Hu as [Hu _]. specialize (Hu eq_refl). destruct Hu. congruence.
    - intros H. destruct (coord (boundary rows [u]) i).
      + destruct Hu as [Hu _]. destruct (Hu eq_refl) as [L E]. split; auto. rewrite rows_nth by auto. intros x [<-|[]]. left. auto.
      + destruct (coord (boundary rows [v]) i); [|discriminate]. destruct Hv as [Hv _]. destruct (Hv eq_refl) as [L E]. split; auto.
        rewrite rows_nth by auto. intros x [<-|[]]. right. now left.
  Qed.

  Variable P : list wsimp.
  Hypothesis GP : graph_on V P.
  Let B := map (fun s => coord (boundary rows s)) (map fst P).

  Lemma connected_span u v : connected P u v -> span B (vadd (coord (boundary rows [u])) (coord (boundary rows [v]))).
  Proof.
    intros H. induction H as [x y (w & Hw)|x|x y _ IH|x y z _ IH1 _ IH2].
    - destruct (GP _ _ Hw) as (a & b & E & Hab & _). injection E as <- <-. eapply span_ext; [apply edge_coord; lia|].
      apply span_in. unfold B. apply in_map_iff. exists [x; y]. split; auto. apply in_map_iff. exists ([x; y], w). auto.
    - eapply span_ext; [|apply span_zero]. intros i. unfold vadd, vzero. now rewrite xorb_nilpotent.
    - eapply span_ext; [|exact IH]. intros i. unfold vadd. apply xorb_comm.
    - eapply span_ext; [|apply span_add; [exact IH1|exact IH2]]. intros i. unfold vadd.
      destruct (coord (boundary rows [x]) i), (coord (boundary rows [y]) i), (coord (boundary rows [z]) i); reflexivity.
  Qed.

  Lemma span_connected u v : In u V -> In v V -> span B (vadd (coord (boundary rows [u])) (coord (boundary rows [v]))) -> connected P u v.
  Proof.
    intros Hu Hv H. destruct (cinv_exists V P GP) as (con & C).
    set (f := fun x => (x =? u) || existsb (fun c => existsb (Nat.eqb u) c && existsb (Nat.eqb x) c) con).
    assert (Hf : forall x, f x = true <-> connected P u x).
    { intros x. rewrite (ci_conn _ _ C). unfold f. rewrite orb_true_iff, Nat.eqb_eq, existsb_exists. split.
      - intros [->|(c & Hc & E)]; auto. apply andb_true_iff in E as [E1 E2]. apply existsb_In in E1, E2. eauto.
      - intros [->|(c & Hc & E1 & E2)]; auto. right. exists c. apply existsb_In in E1, E2. now rewrite E1, E2. }
    set (F := map (fun x => (fun _ : nat => f x)) V).
    assert (Hval : forall a, In a V -> bsum F (coord (boundary rows [a])) 0 = f a).
    { intros a Ha. destruct (In_nth V a 0 Ha) as (j & Lj & Ej). rewrite (bsum_single F _ j).
      - unfold F. rewrite (nth_indep _ vzero ((fun x => (fun _ : nat => f x)) 0)) by (now rewrite map_length). rewrite (map_nth (fun x => (fun _ : nat => f x))). now rewrite Ej.
      - unfold F. now rewrite map_length.
      - intros k. rewrite vertex_coord. split; [|intros ->; auto]. intros [Lk Ek]. apply (NoDup_nth V 0); auto. congruence. }
    assert (Hadd : forall a b, In a V -> In b V -> bsum F (vadd (coord (boundary rows [a])) (coord (boundary rows [b]))) 0 = xorb (f a) (f b)).
    { intros a b Ha Hb. unfold bsum in *. rewrite bsum_add. unfold vadd. now rewrite !Hval. }
    assert (Hz : forall x, span B x -> bsum F x 0 = false).
    { assert (Hb : forall b, In b B -> bsum F b 0 = false).
      { intros b Hb. unfold B in Hb. rewrite map_map in Hb. apply in_map_iff in Hb as ([s w] & <- & Hs). cbn.
        destruct (GP _ _ Hs) as (a & b & -> & Hab & Ha & Hb).
        unfold bsum. rewrite (bsum_ext F 0 _ (vadd (coord (boundary rows [a])) (coord (boundary rows [b])))) by (intros j _; apply edge_coord; lia).
        change (bsum F (vadd (coord (boundary rows [a])) (coord (boundary rows [b]))) 0 = false). rewrite Hadd by auto.
        assert (Eab : f a = true <-> f b = true).
        { rewrite !Hf. assert (K : connected P a b) by (eapply conn_edge; eauto). split; intros Q; eapply conn_trans; eauto using conn_sym. }
        destruct (f a), (f b); auto; exfalso; destruct Eab as [E1 E2]; (discriminate (E1 eq_refl) || discriminate (E2 eq_refl)). }
      clear - Hb. induction B as [|b B' IH]; cbn; intros x K.
      - unfold bsum. apply (bsum_zero F 0 x). intros j _. apply K.
      - assert (Hb' : forall c, In c B' -> bsum F c 0 = false) by (intros c Hc; apply Hb; now right).
        destruct K as [K|K]; [now apply IH|]. specialize (IH Hb' _ K). specialize (Hb b (or_introl eq_refl)).
        unfold bsum in *. rewrite bsum_add in IH. unfold vadd in IH. rewrite Hb, xorb_false_r in IH. auto. }
    apply Hz in H. rewrite Hadd in H by auto. apply Hf.
    assert (Eu : f u = true) by (apply Hf; apply conn_refl). rewrite Eu in H. now destruct (f v).
  Qed.
End Graph.

Lemma joins_fresh V E j : NoDup V -> graph_on V E ->
  joins E j <-> fresh (boundary_matrix (map (fun v => [v]) V) (map fst E)) j.
Proof.
  intros N G. set (rows := map (fun v => [v]) V).
  assert (Gp : graph_on V (firstn j E)).
  { eapply graph_on_incl; [exact G|]. intros e He. rewrite <- (firstn_skipn j E). apply in_app_iff. auto. }
  unfold joins. split.
  - intros (u & v & w & En & Hn). apply (fresh_span _ j (boundary rows [u; v])).
    { apply map_nth_error. exact (map_nth_error fst j E En). }
    intros K. apply Hn. destruct (G [u; v] w) as (a & b & Ea & Hab & Ha & Hb); [eapply nth_error_In; eauto|]. injection Ea as <- <-.
    apply (span_connected V N _ Gp); auto. eapply span_ext; [apply edge_coord; lia|].
    unfold boundary_matrix in K. rewrite !map_map, firstn_map in K. rewrite map_map. exact K.
  - intros F. assert (Lj : j < length E). { apply fresh_lt in F. unfold boundary_matrix in F. rewrite !map_length in F. auto. }
    destruct (nth_error E j) as [[s w]|] eqn:En; [|apply nth_error_None in En; lia].
    destruct (G s w) as (u & v & -> & Huv & Hu & Hv); [eapply nth_error_In; eauto|]. exists u, v, w. split; auto. intros K.
    apply (fresh_span _ j (boundary rows [u; v])) in F.
    2:{ apply map_nth_error. exact (map_nth_error fst j E En). }
    apply F. unfold boundary_matrix. rewrite !map_map, firstn_map.
    eapply span_ext; [apply veq_sym, edge_coord; lia|]. apply (connected_span V _ Gp) in K. rewrite map_map in K. exact K.
Qed.

(* ---- the loop over the columns ---- *)
Definition entry (b : bettiEntry) : nat * Z * Z := (bettiDim b, birth b, death b).

Lemma bars_app d rows cols a b : bars d rows cols (a ++ b) = bars d rows cols a ++ bars d rows cols b.
Proof. unfold bars. apply flat_map_app. Qed.

Lemma col_loop past_end d pivots rows cof lines tab all : forall rest D s ps,
  all = D ++ rest ->
  (forall c, In c rest -> cofaceList past_end pivots rows (fst c) = Ok (cof (fst c))) ->
  (forall s, ssorted (cof s)) -> (forall s x, In x (cof s) -> x < length rows) ->
  cinvr (length rows) (map (fun c => cof (fst c)) D) (c_v s) ps -> c_ix s = length D -> c_next s = map snd ps ->
  c_lines s = lines ++ bars d rows all ps ->
  (exists new, c_tab s = tab ++ new /\ map entry new = bars d rows all ps) ->
  exists s' ps', foldr_ub (col_step past_end d pivots rows) s rest = Ok s' /\
    pairing (map (fun c => cof (fst c)) all) ps' /\ c_next s' = map snd ps' /\
    (forall i j, In (i, j) ps' -> i < length rows /\ j < length all) /\
    c_lines s' = lines ++ bars d rows all ps' /\
    (exists new, c_tab s' = tab ++ new /\ map entry new = bars d rows all ps').
Proof.
  induction rest as [|c rest IH]; intros D s ps Ea Hcof Scof Bcof C Ix Nx Ls Tb.
  - rewrite app_nil_r in Ea. subst D. exists s, ps. cbn. split; auto. split; [apply C|]. split; auto. split; [|split; auto].
    intros i j Hin. apply (cr_bound _ _ _ _ C) in Hin. now rewrite map_length in Hin.
  - cbn [foldr_ub]. unfold col_step at 1. rewrite Hcof by now left. cbn [bind].
    assert (Ea' : all = (D ++ [c]) ++ rest) by (rewrite <- app_assoc; auto).
    assert (Hcof' : forall c, In c rest -> cofaceList past_end pivots rows (fst c) = Ok (cof (fst c))) by (intros c' Hc'; apply Hcof; now right).
    destruct (col_advance (length rows) (map (fun c => cof (fst c)) D) (c_v s) ps (cof (fst c)) C) as (r & Er & H); auto.
    { apply Forall_forall. intros x Hx. apply in_map_iff in Hx as (y & <- & _). auto. }
    { intros x Hx. eapply Bcof; eauto. }
    rewrite map_length in H. rewrite Er.
    assert (Em : map (fun c => cof (fst c)) D ++ [cof (fst c)] = map (fun c => cof (fst c)) (D ++ [c])) by (now rewrite map_app).
    destruct r as [col|].
    + destruct H as (p & col' & -> & Lp & C'). rewrite Em in C'.
      destruct (nth_error rows p) as [rw|] eqn:Erw; [|apply nth_error_None in Erw; lia].
      assert (Eat : at_ rows p = Ok rw) by (unfold at_; now rewrite Erw). rewrite Eat. cbn [bind].
      assert (Ebar : bars d rows all [(p, length D)] = if (snd rw =? snd c)%Z then [] else [(d, snd rw, snd c)]).
      { unfold bars. cbn [flat_map fst snd]. rewrite app_nil_r.
        assert (E1 : nth p rows ([], 0%Z) = rw) by (now apply nth_error_nth).
        assert (E2 : nth (length D) all ([], 0%Z) = c) by (rewrite Ea, app_nth2, Nat.sub_diag by auto; reflexivity).
        rewrite E1, E2. reflexivity. }
      apply (IH (D ++ [c]) _ (ps ++ [(p, length D)])); auto.
      * cbn [c_ix]. rewrite Ix, app_length. cbn. lia.
      * cbn [c_next]. rewrite Nx, Ix, map_app. reflexivity.
      * cbn [c_lines]. rewrite bars_app, Ebar, Ls. destruct (snd rw =? snd c)%Z; cbn [negb]; [now rewrite app_nil_r|now rewrite app_assoc].
      * cbn [c_tab]. destruct Tb as (new & En & Mn). rewrite bars_app, Ebar, En. destruct (snd rw =? snd c)%Z; cbn [negb].
        -- exists new. now rewrite app_nil_r.
        -- exists (new ++ [mkBetti d (snd rw) (snd c) (p :: col')]). rewrite app_assoc, map_app, Mn. auto.
    + rewrite Em in H. cbn [bind]. apply (IH (D ++ [c]) _ ps); auto.
      cbn [c_ix]. rewrite Ix, app_length. cbn. lia.
Qed.

Lemma cinvr_nil m : cinvr m [] [] [].
Proof.
  constructor.
  - constructor; cbn; [constructor|intros p c []].
  - intros x. reflexivity.
  - reflexivity.
  - split; [constructor|split; [constructor|split]].
    + intros j. cbn. split; [easy|]. intros F. apply fresh_lt in F. cbn in F. lia.
    + intros i j [].
  - intros i j [].
Qed.

(* one dimension *)
Lemma dim_skip past_end d pivots skip rows cols lines tab :
  Forall (fun r => ssorted (fst r)) rows -> Forall (fun r => ssorted (fst r)) cols ->
  (forall c, In c cols -> cofaceList past_end pivots rows (fst c) = Ok (boundary_without skip (map fst rows) (fst c))) ->
  exists s ps, foldr_ub (col_step past_end d pivots rows) (mkC [] [] 0 lines tab) cols = Ok s /\
    pairing (map (fun c => boundary_without skip (map fst rows) (fst c)) cols) ps /\ c_next s = map snd ps /\
    (forall i j, In (i, j) ps -> i < length rows /\ j < length cols) /\
    c_lines s = lines ++ bars d rows cols ps /\
    (exists new, c_tab s = tab ++ new /\ map entry new = bars d rows cols ps).
Proof.
  intros Sr Sc Hh.
  apply (col_loop past_end d pivots rows (boundary_without skip (map fst rows)) lines tab cols cols [] _ []); auto.
  - intros s. apply boundary_without_ssorted.
  - intros s x Hx. apply boundary_without_In in Hx as [Hx _]. apply boundary_In in Hx. rewrite map_length in Hx. tauto.
  - apply cinvr_nil.
  - cbn. now rewrite app_nil_r.
  - exists []. cbn. now rewrite app_nil_r.
Qed.

Lemma dim_one past_end d pivots rows cols lines tab :
  ssorted pivots -> Forall (fun r => ssorted (fst r)) rows -> Forall (fun r => ssorted (fst r)) cols ->
  harmless past_end pivots (length rows) ->
  exists s ps, foldr_ub (col_step past_end d pivots rows) (mkC [] [] 0 lines tab) cols = Ok s /\
    pairing (map (fun c => boundary_without pivots (map fst rows) (fst c)) cols) ps /\ c_next s = map snd ps /\
    (forall i j, In (i, j) ps -> i < length rows /\ j < length cols) /\
    c_lines s = lines ++ bars d rows cols ps /\
    (exists new, c_tab s = tab ++ new /\ map entry new = bars d rows cols ps).
Proof.
  intros Sp Sr Sc Hh. apply dim_skip; auto.
  intros c Hc. apply cofaceList_harmless; auto. rewrite Forall_forall in Sc. now apply Sc.
Qed.

Lemma level_at edges d : d < length edges -> at_ edges d = Ok (level edges d).
Proof.
  intros L. unfold at_, level. destruct (nth_error edges d) as [l|] eqn:E; [|apply nth_error_None in E; lia].
  now rewrite (nth_error_nth _ _ _ E).
Qed.

Lemma complex_sorted edges k : complex edges -> Forall (fun r => ssorted (fst r)) (level edges k).
Proof. intros C. apply Forall_forall. intros [s w] H. now destruct (cx_shape _ C _ _ _ H). Qed.

(* all dimensions from d on *)
Definition stages past_end edges (d n : nat) (ps : nat -> list (nat * nat)) : Prop :=
  forall k, d <= k < d + n -> exists piv, negative edges k piv /\ harmless past_end piv (length (level edges k)) /\
    pairing (map (boundary_without piv (simplices edges k)) (simplices edges (S k))) (ps k) /\
    negative edges (S k) (map snd (ps k)) /\
    (forall i j, In (i, j) (ps k) -> i < length (level edges k) /\ j < length (level edges (S k))).

Lemma dim_loop_spec past_end edges : complex edges ->
  forall n d piv lines tab, 1 <= d -> d + n < length edges \/ n = 0 -> negative edges d piv ->
  (forall k p, d <= k < d + n -> negative edges k p -> harmless past_end p (length (level edges k))) ->
  exists ps piv' lines' tab', dim_loop past_end n d edges (piv, lines, tab) = Ok (piv', lines', tab') /\
    stages past_end edges d n ps /\ lines' = lines ++ all_bars edges d n ps /\
    exists new, tab' = tab ++ new /\ map entry new = all_bars edges d n ps.
Proof.
  intros C. induction n as [|n IH]; intros d piv lines tab Hd Hn Hneg Hh.
  - exists (fun _ => []), piv, lines, tab. cbn. split; auto. split; [intros k Hk; lia|]. split; [now rewrite app_nil_r|]. exists []. now rewrite app_nil_r.
  - cbn [dim_loop]. destruct Hn as [Hn|Hn]; [|lia]. rewrite !level_at by lia. cbn [bind].
    assert (Hh0 : harmless past_end piv (length (level edges d))) by (apply Hh; auto; lia).
    destruct (dim_one past_end d piv (level edges d) (level edges (S d)) lines tab) as (s & p0 & E & P1 & P2 & P3 & P4 & new & P5 & P6); auto.
    { apply Hneg. } { now apply complex_sorted. } { now apply complex_sorted. }
    rewrite E. cbn [bind].
    assert (Emap : map (fun c => boundary_without piv (map fst (level edges d)) (fst c)) (level edges (S d)) =
                   map (boundary_without piv (simplices edges d)) (simplices edges (S d))).
    { unfold simplices. now rewrite map_map. }
    rewrite Emap in P1.
    assert (Hneg' : negative edges (S d) (map snd p0)).
    { destruct P1 as (Q1 & Q2 & Q3 & Q4). split; auto. intros j. rewrite Q3. destruct d as [|k]; [lia|]. now apply clearing. }
    rewrite P2, P4, P5.
    destruct (IH (S d) (map snd p0) (lines ++ bars d (level edges d) (level edges (S d)) p0) (tab ++ new)) as (ps & piv' & lines' & tab' & I1 & I2 & I3 & new' & I4 & I5); auto.
    { left. lia. } { intros k p Hk. apply Hh. lia. }
    exists (fun k => if k =? d then p0 else ps k), piv', lines', tab'. split; auto.
    assert (Eb : all_bars edges d (S n) (fun k => if k =? d then p0 else ps k) = bars d (level edges d) (level edges (S d)) p0 ++ all_bars edges (S d) n ps).
    { unfold all_bars. cbn [seq flat_map]. rewrite Nat.eqb_refl. f_equal. rewrite !flat_map_concat_map. f_equal. apply map_ext_in. intros k Hk. apply in_seq in Hk.
      destruct (Nat.eqb_spec k d); [lia|reflexivity]. }
    rewrite Eb. split; [|split].
    + intros k Hk. destruct (Nat.eqb_spec k d) as [->|Nk].
      * exists piv. auto.
      * apply I2. lia.
    + rewrite I3, app_assoc. reflexivity.
    + exists (new ++ new'). rewrite I4, map_app, P6, I5, app_assoc. auto.
Qed.

(* ---- fastPersistence as a whole ---- *)

Lemma complex_vertices edges : complex edges ->
  simplices edges 0 = map (fun v => [v]) (vertices edges) /\ NoDup (vertices edges) /\
  length (level edges 0) = length (vertices edges) /\ graph_on (vertices edges) (level edges 1).
Proof.
  intros C. assert (H1 : forall s, In s (simplices edges 0) -> length s = 1).
  { intros s Hs. apply in_map_iff in Hs as ([s' w] & <- & Hs). now destruct (cx_shape _ C _ _ _ Hs). }
  assert (E : simplices edges 0 = map (fun v => [v]) (vertices edges)).
  { unfold vertices. induction (simplices edges 0) as [|s l IH]; auto. cbn. assert (L := H1 s (or_introl eq_refl)).
    destruct s as [|v [|]]; try discriminate. cbn. f_equal. apply IH. intros t Ht. apply H1. now right. }
  split; auto. split.
  - assert (N := cx_nodup _ C 0). rewrite E in N. now apply NoDup_map_inv in N.
  - split.
    + unfold simplices in E. apply (f_equal (@length _)) in E. now rewrite !map_length in E.
    + intros s w Hs. destruct (cx_shape _ C _ _ _ Hs) as [Ss Ls]. destruct s as [|u [|v [|]]]; try discriminate.
      exists u, v. apply ssorted_cons in Ss as [_ Huv]. split; auto. split; [apply Huv; now left|].
      assert (K : forall x, In x [u; v] -> In x (vertices edges)).
      { intros x Hx. assert (F : In [x] (simplices edges 0)).
        { apply (cx_closed _ C _ _ _ _ Hs). split; [repeat constructor|]. split; [intros y [<-|[]]; auto|reflexivity]. }
        rewrite E in F. apply in_map_iff in F as (y & Ey & Hy). injection Ey as ->. auto. }
      split; apply K; cbn; auto.
Qed.

Lemma bmatrix_one edges : complex edges -> bmatrix edges 1 = boundary_matrix (map (fun v => [v]) (vertices edges)) (map fst (level edges 1)).
Proof. intros C. destruct (complex_vertices _ C) as (E & _). unfold bmatrix. cbn. now rewrite E. Qed.

Lemma kruskal_negative edges tab : complex edges -> negative edges 1 (k_piv (kruskal (length (level edges 0)) (level edges 1) tab)).
Proof.
  intros C. destruct (complex_vertices _ C) as (E & N & L & G). rewrite L.
  assert (K := kruskal_spec _ (level edges 1) tab N G). cbn zeta in K. split; [apply K|]. intros j.
  rewrite (kf_piv _ _ _ _ _ _ K), bmatrix_one by auto. now apply joins_fresh.
Qed.

Theorem fp_spec past_end dim eps edges tab : complex edges -> 2 <= length edges ->
  (forall k p, 1 <= k < 1 + dims dim edges -> negative edges k p -> harmless past_end p (length (level edges k))) ->
  exists js ps tab', 
    fp_run past_end dim eps edges tab =
      Ok (Some (map (fun w => (0, 0%Z, w)) (map (edge_weight (level edges 1)) js) ++ [(0, 0%Z, eps)] ++ all_bars edges 1 (dims dim edges) ps, tab')) /\
    negative edges 1 js /\ map (edge_weight (level edges 1)) js = k_mst (kruskal (length (vertices edges)) (level edges 1) tab) /\
    stages past_end edges 1 (dims dim edges) ps /\
    exists new0 new, tab' = tab ++ new0 ++ [mkBetti 0 0 eps []] ++ new /\
      map entry new0 = map (fun w => (0, 0%Z, w)) (map (edge_weight (level edges 1)) (filter (touches (level edges 1)) js)) /\
      map entry new = all_bars edges 1 (dims dim edges) ps.
Proof.
  intros C L2 Hh. destruct (complex_vertices _ C) as (EV & NV & LV & GV).
  assert (Hneg := kruskal_negative edges tab C).
  assert (K := kruskal_spec _ (level edges 1) tab NV GV). cbn zeta in K. rewrite <- LV in *.
  set (k := kruskal (length (level edges 0)) (level edges 1) tab) in *.
  unfold fp_run. destruct edges as [|e0 edges']; [cbn in L2; lia|]. set (edges := e0 :: edges') in *.
  rewrite level_at by auto. cbn [bind]. change (length e0) with (length (level edges 0)). fold k.
  set (lines := map (fun w => (0, 0%Z, w)) (k_mst k) ++ [(0, 0%Z, eps)]). set (tab1 := k_tab k ++ [mkBetti 0 0 eps []]).
  destruct (dim_loop_spec past_end edges C (dims dim edges) 1 (k_piv k) lines tab1) as (ps & piv' & lines' & tab' & D1 & D2 & D3 & new & D4 & D5); auto.
  { unfold dims. lia. }
  exists (k_piv k), ps, tab'. split; [|split; [auto|split]].
  - assert (E : (if (0 <? dim)%Z then dim_loop past_end (Nat.min (Z.to_nat dim) (length edges - 1) - 1) 1 edges (k_piv k, lines, tab1)
       else Ok (k_piv k, lines, tab1)) = Ok (piv', lines', tab')).
    { destruct (Z.ltb_spec 0 dim); auto. assert (E0 : dims dim edges = 0) by (unfold dims; lia). rewrite E0 in D1. exact D1. }
    rewrite E. cbn [bind]. rewrite D3. unfold lines. rewrite (kf_mst _ _ _ _ _ _ K) at 1. rewrite <- app_assoc. reflexivity.
  - symmetry. apply (kf_mst _ _ _ _ _ _ K).
  - split; auto. destruct (kf_tab _ _ _ _ _ _ K) as (new0 & N1 & N2 & N3).
    exists new0, new. split; [rewrite D4; unfold tab1; rewrite N1, <- !app_assoc; reflexivity|]. split; auto.
    rewrite <- N3, map_map. apply map_ext_in. intros b Hb. destruct (N2 b Hb) as [B1 B2]. unfold entry. now rewrite B1, B2.
Qed.

(* ---- bars of a filtered complex are born before they die ---- *)
Lemma span_coord cs : forall x i, span cs x -> x i = true -> exists c, In c cs /\ c i = true.
Proof.
  induction cs as [|c cs IH]; cbn; intros x i H E.
  - rewrite H in E. discriminate.
  - destruct H as [H|H].
    + destruct (IH x i H E) as (d & Hd & Ed). eauto.
    + destruct (c i) eqn:Ec; [eauto|]. destruct (IH _ i H) as (d & Hd & Ed); [unfold vadd; now rewrite E, Ec|eauto].
Qed.

Lemma sorted_nth_le l i j : StronglySorted by_weight l -> i <= j -> j < length l -> (edge_weight l i <= edge_weight l j)%Z.
Proof.
  intros H. revert i j. induction H as [|a l Hl IH Ha]; intros i j Lij Lj; [cbn in Lj; lia|].
  rewrite Forall_forall in Ha. destruct i as [|i], j as [|j]; cbn in *; unfold edge_weight; cbn; try lia.
  - apply Ha, nth_In. lia.
  - apply IH; lia.
Qed.

Lemma paired_weight edges k piv i j : filtered edges -> complex edges ->
  paired (map (boundary_without piv (simplices edges k)) (simplices edges (S k))) i j -> j < length (level edges (S k)) ->
  (edge_weight (level edges k) i <= edge_weight (level edges (S k)) j)%Z.
Proof.
  intros F C [(x & (c & y & Ec & Hy & Ex) & Hi & _) _] Lj. set (M := map _ _) in *.
  assert (Hcol : exists q d, q <= j /\ nth_error M q = Some d /\ In i d).
  { apply coord_In in Hi. rewrite Ex in Hi. destruct (coord c i) eqn:Ei.
    - apply coord_In in Ei. exists j, c. auto.
    - rewrite xorb_false_l in Hi. apply combination_span in Hy. destruct (span_coord _ _ _ Hy Hi) as (d & Hd & Ed).
      apply in_map_iff in Hd as (d' & <- & Hd). apply coord_In in Ed. apply In_nth_error in Hd as (q & Hq).
      assert (Lq : q < length (firstn j M)) by (apply nth_error_Some; congruence). rewrite firstn_length in Lq.
      exists q, d'. split; [lia|]. split; auto. rewrite <- (firstn_skipn j M), nth_error_app1 by (rewrite firstn_length; lia). auto. }
  destruct Hcol as (q & d & Lq & Hq & Hid). unfold M in Hq. rewrite nth_error_map in Hq.
  destruct (nth_error (simplices edges (S k)) q) as [s|] eqn:Es; [|discriminate]. injection Hq as <-.
  apply boundary_without_In in Hid as [Hid _]. apply boundary_In in Hid as [Li Hf].
  unfold simplices in Es. rewrite nth_error_map in Es. destruct (nth_error (level edges (S k)) q) as [[s' w]|] eqn:Eq; [|discriminate].
  injection Es as <-. cbn in Hf.
  transitivity (edge_weight (level edges (S k)) q); [|apply sorted_nth_le; auto; apply F].
  assert (Ew : edge_weight (level edges (S k)) q = w) by (unfold edge_weight; now rewrite (nth_error_nth _ _ _ Eq)).
  rewrite Ew. unfold simplices in Li. rewrite map_length in Li.
  destruct (nth_error (level edges k) i) as [[f wf]|] eqn:Ef; [|apply nth_error_None in Ef; lia].
  assert (Ewf : edge_weight (level edges k) i = wf) by (unfold edge_weight; now rewrite (nth_error_nth _ _ _ Ef)).
  rewrite Ewf. apply (fl_mono _ F k s' w f wf).
  - eapply nth_error_In; eauto. - eapply nth_error_In; eauto.
  - unfold simplices in Hf. rewrite (map_nth fst (level edges k) ([], 0%Z) i : nth i (map fst (level edges k)) [] = _) in Hf.
    now rewrite (nth_error_nth _ _ _ Ef) in Hf.
Qed.

(* ---- what is read past the end ---- *)
Lemma reads_past_end_dec pivots n : reads_past_end pivots n \/ ~ reads_past_end pivots n.
Proof.
  destruct (existsb (fun i => forallb (fun p => p <? i) pivots) (seq 0 n)) eqn:E.
  - left. apply existsb_exists in E as (i & Hi & E). apply in_seq in Hi. rewrite forallb_forall in E. exists i. split; [lia|].
    intros p Hp. apply Nat.ltb_lt. auto.
  - right. intros (i & Hi & H). apply not_true_iff_false in E. apply E. apply existsb_exists. exists i. split; [apply in_seq; lia|].
    apply forallb_forall. intros p Hp. apply Nat.ltb_lt. auto.
Qed.

Lemma foldr_ub_app_UB {A S} (f : S -> A -> res S) a b s : foldr_ub f s (a ++ b) = do x <- foldr_ub f s a; foldr_ub f x b.
Proof. apply foldr_ub_app. Qed.

(* the standard gives no value to *end(): a row after the last pivot is undefined behaviour *)
Lemma row_loop_ub pivots column : forall rs a b ix cof, pivots = a ++ b -> (forall p, In p a -> p < ix) -> (forall p, In p b -> ix <= p) -> ssorted b ->
  reads_past_end pivots (ix + length rs) -> (exists i, ix <= i < ix + length rs /\ forall p, In p pivots -> p < i) ->
  foldr_ub (row_step (fun _ _ => UB) pivots column) (length a, ix, cof) rs = UB.
Proof.
  induction rs as [|r rs IH]; intros a b ix cof Ep Ha Hb Sb Hr (i & Hi & Hp); [cbn in Hi; lia|].
  cbn [foldr_ub]. unfold row_step at 1. destruct b as [|p b].
  - rewrite app_nil_r in Ep. subst a. unfold deref. rewrite (proj2 (nth_error_None pivots (length pivots))) by auto. reflexivity.
  - assert (D : deref (fun _ _ => UB) pivots (length a) = Ok p).
    { unfold deref. rewrite Ep, nth_error_app2, Nat.sub_diag by auto. reflexivity. }
    rewrite D. cbn [bind]. apply ssorted_cons in Sb as [Sb Lb].
    assert (Hpi : p < i) by (apply Hp; rewrite Ep; apply in_app_iff; right; now left).
    cbn [length] in *. rewrite <- Nat.add_succ_comm in *.
    destruct (Nat.eqb_spec p ix) as [->|N]; cbn [negb bind].
    + assert (L : length (a ++ [ix]) = S (length a)) by (rewrite app_length; cbn; lia). rewrite <- L.
      apply (IH (a ++ [ix]) b); auto.
      * rewrite Ep, <- app_assoc. reflexivity.
      * intros q Hq. apply in_app_iff in Hq as [Hq|[<-|[]]]; [apply Ha in Hq; lia|lia].
      * exists i. split; [lia|auto].
    + assert (ix < p) by (assert (ix <= p) by (apply Hb; now left); lia).
      apply (IH a (p :: b)); auto.
      * intros q Hq. apply Ha in Hq. lia.
      * intros q [<-|Hq]; [lia|apply Lb in Hq; lia].
      * now apply ssorted_cons.
      * exists i. split; [lia|auto].
Qed.

Theorem cofaceList_defined pivots rows column : ssorted pivots -> ssorted column -> Forall (fun r => ssorted (fst r)) rows ->
  (reads_past_end pivots (length rows) -> cofaceList (fun _ _ => UB) pivots rows column = UB) /\
  (~ reads_past_end pivots (length rows) -> forall past_end,
     cofaceList past_end pivots rows column = Ok (boundary_without pivots (map fst rows) column)).
Proof.
  intros Sp Sc Sr. split.
  - intros R. unfold cofaceList. assert (E : foldr_ub (row_step (fun _ _ => UB) pivots column) (length (@nil nat), 0, []) rows = UB).
    { apply (row_loop_ub pivots column rows [] pivots); auto; try (now intros ? []). - intros; lia.
      - destruct R as (i & Hi & Hp). exists i. split; [lia|auto]. }
    cbn [length] in E. now rewrite E.
  - intros R past_end. apply cofaceList_harmless; auto. intros K. contradiction.
Qed.

Lemma initial_segment l : ssorted l -> (forall x, In x l -> x < length l) -> l = seq 0 (length l).
Proof.
  intros Ss H. apply ssorted_ext; auto.
  - clear. generalize 0. induction (length l) as [|n IH]; intros k; cbn; [constructor|]. apply ssorted_cons. split; auto. intros y Hy. apply in_seq in Hy. lia.
  - assert (N : NoDup l). { clear - Ss. induction l as [|x l IH]; [constructor|]. apply ssorted_cons in Ss as [A B]. constructor; auto. intros Hx. apply B in Hx. lia. }
    assert (I : incl l (seq 0 (length l))) by (intros x Hx; apply in_seq; apply H in Hx; lia).
    intros x. split; [apply I|]. apply (NoDup_length_incl N); auto. now rewrite seq_length.
Qed.

Lemma libstdcxx_first pivots : libstdcxx_past_end pivots 0 = Ok (length pivots).
Proof.
  unfold libstdcxx_past_end. rewrite Nat.add_0_r, Nat.mod_small by lia. now rewrite nth_overflow.
Qed.
Lemma libstdcxx_second pivots : (pivots = [] \/ hd 0 pivots = 0) -> libstdcxx_past_end pivots 1 = Ok 0.
Proof.
  intros H. unfold libstdcxx_past_end. rewrite Nat.add_1_r, Nat.mod_same by lia. f_equal. destruct pivots as [|p l]; auto. cbn in *. destruct H; [discriminate|auto].
Qed.

Theorem libstdcxx_harmless pivots n : ssorted pivots -> (harmless libstdcxx_past_end pivots n <-> ~ (pivots = seq 0 (length pivots) /\ length pivots < n)).
Proof.
  intros Sp. unfold harmless. rewrite libstdcxx_first. split.
  - intros H [E L]. assert (K : forall p, In p pivots -> p < length pivots) by (intros p Hp; rewrite E in Hp; apply in_seq in Hp; lia).
    destruct H as (v & Ev & Hv). { exists (length pivots). auto. } injection Ev as <-. now apply (Hv (length pivots)).
  - intros H R. exists (length pivots). split; auto. intros i Li Hp E. apply H. subst i. split; auto. now apply initial_segment.
Qed.

Theorem libstdcxx_harm pivots rows column : ssorted column -> Forall (fun r => ssorted (fst r)) rows ->
  pivots = seq 0 (length pivots) -> length pivots < length rows ->
  cofaceList libstdcxx_past_end pivots rows column = Ok (boundary_without (seq 0 (S (length pivots))) (map fst rows) column).
Proof.
  intros Sc Sr Ep L. set (m := length pivots) in *.
  assert (Sp : ssorted pivots) by (rewrite Ep; clear; generalize 0; induction m as [|n IH]; intros k; cbn; [constructor|]; apply ssorted_cons; split; auto; intros y Hy; apply in_seq in Hy; lia).
  destruct (nth_error rows m) as [r|] eqn:Er; [|apply nth_error_None in Er; lia].
  apply nth_error_split in Er as (a & b & Erows & La).
  unfold cofaceList. rewrite Erows, foldr_ub_app. rewrite Erows in Sr. apply Forall_app in Sr as [Sa Sb]. apply Forall_cons_iff in Sb as [_ Sb].
  assert (Epos : foldr_ub (row_step libstdcxx_past_end pivots column) (0, 0, []) a = Ok (m, m, [])).
  { assert (G : forall k a', length a' + k = m -> forall cof, foldr_ub (row_step libstdcxx_past_end pivots column) (k, k, cof) a' = Ok (m, m, cof)).
    { intros k a'. revert k. induction a' as [|x a' IH]; intros k Lk cof; cbn in *; [subst k; reflexivity|].
      assert (D : deref libstdcxx_past_end pivots k = Ok k).
      { unfold deref. assert (En : nth_error pivots k = Some k). { rewrite Ep. rewrite nth_error_nth' with (d := 0) by (rewrite seq_length; lia). rewrite seq_nth by lia. reflexivity. } now rewrite En. }
      rewrite D. cbn [bind]. rewrite Nat.eqb_refl. cbn [negb bind]. apply IH. lia. }
    apply (G 0). lia. }
  rewrite Epos. cbn [bind foldr_ub].
  assert (D1 : deref libstdcxx_past_end pivots m = Ok m).
  { unfold deref. rewrite (proj2 (nth_error_None pivots m)) by auto. unfold m. rewrite Nat.sub_diag. apply libstdcxx_first. }
  assert (D2 : deref libstdcxx_past_end pivots (S m) = Ok 0).
  { unfold deref. rewrite (proj2 (nth_error_None pivots (S m))) by (unfold m; lia). replace (S m - length pivots) with 1 by (unfold m; lia).
    apply libstdcxx_second. destruct pivots as [|p l]; auto. right. cbn. cbn in Ep. now injection Ep. }
  unfold row_step at 1. rewrite D1. cbn [bind]. rewrite Nat.eqb_refl. cbn [negb bind].
  rewrite (row_loop_rest libstdcxx_past_end pivots column Sc (S m) 0 D2); [|assumption|constructor| |].
  2:{ intros y []. } 2:{ intros; lia. }
  cbn [bind snd app]. f_equal.
  apply ssorted_ext; [apply filter_seq_ssorted|apply boundary_without_ssorted|].
  intros i. rewrite boundary_without_In, boundary_In. unfold faces_from. rewrite filter_In, !in_seq. cbn [negb andb].
  rewrite is_face_incl, map_length, app_length. cbn [length].
  assert (K : S m <= i -> nth i (map fst (a ++ r :: b)) [] = fst (nth (i - S m) b ([], 0%Z))).
  { intros Li. change (@nil nat) with (fst (@nil nat, 0%Z)). rewrite map_nth. rewrite app_nth2 by lia. f_equal. rewrite La.
    replace (i - m) with (S (i - S m)) by lia. reflexivity. }
  split.
  - intros [Hi Hf]. rewrite K by lia. repeat split; auto; lia.
  - intros [[Hi Hf] Hn]. assert (S m <= i) by lia. rewrite K in Hf by auto. split; auto; lia.
Qed.
