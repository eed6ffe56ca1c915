(* GaussRuns.v -- the pivots of persistencePairs and optPersistencePairs on a simplicial complex. *)
From Coq Require Import List Arith ZArith Bool Lia Sorted Permutation.
From Verif Require Import Base Spec UtilsModel UtilsProofs ArrayListModel PartitionProofs SpecComplex SpecLinear LinearProofs SpecFast ReductionProofs FastProofs
  GaussModel SpecGauss GaussProofs.
Import ListNotations.

Lemma NoDup_join {A} (a b : list A) : NoDup a -> NoDup b -> (forall x, In x a -> ~ In x b) -> NoDup (a ++ b).
Proof. induction a as [|x a IH]; cbn; auto. intros N M D. inversion N; subst. constructor; [rewrite in_app_iff; intros [|]; [auto|eapply D; eauto]|apply IH; auto]. Qed.

(* ---- faces *)
Lemma ssorted_NoDup l : ssorted l -> NoDup l.
Proof. induction l as [|x l IH]; intros H; [constructor|]. apply ssorted_cons in H as [A B]. constructor; auto. intros K. apply B in K. lia. Qed.
Lemma checkFace_face f s : ssorted f -> ssorted s -> length s = S (length f) -> checkFace f s = if is_face s f then 1 else 0.
Proof.
  intros Sf Ss L. unfold checkFace. destruct s as [|x0 s0]; [discriminate|]. set (s := x0 :: s0) in *.
  destruct (symmetricDiff_set_spec f s Sf Ss) as [Sd Hd]. set (sd := symmetricDiff_set f s) in *.
  assert (Nf := ssorted_NoDup f Sf). assert (Ns := ssorted_NoDup s Ss). assert (Nd := ssorted_NoDup sd Sd).
  replace (length sd =? 1) with (is_face s f); auto. apply eq_true_iff_eq. rewrite is_face_incl, Nat.eqb_eq. split.
  - intros I. assert (P : Permutation s (f ++ sd)).
    { apply NoDup_Permutation; auto.
      - apply NoDup_join; auto. intros x Hx K. rewrite Hd in K. specialize (I x Hx). tauto.
      - intros x. rewrite in_app_iff, Hd. destruct (in_dec Nat.eq_dec x f); intuition. }
    apply Permutation_length in P. rewrite app_length in P. lia.
  - intros E y Hy. destruct (in_dec Nat.eq_dec y s) as [|Hn]; auto. exfalso. destruct sd as [|z [|]]; try discriminate.
    assert (Ey : In y [z]) by (apply Hd; tauto). destruct Ey as [->|[]].
    assert (I : incl s f). { intros u Hu. destruct (in_dec Nat.eq_dec u f) as [|Hu']; auto. assert (K : In u [y]) by (apply Hd; tauto).
      destruct K as [->|[]]. contradiction. }
    apply NoDup_incl_length in I; auto. lia.
Qed.

Definition face_row (nChain : list wsimp) (s : list nat) : list nat := map (fun f => checkFace (fst f) s) nChain.
Lemma face_matrix_nth F nChain pChain j s : nth_error pChain j = Some s ->
  nth_error (face_matrix F nChain pChain) j = Some (if coord F j then repeat 0 (length nChain) else face_row nChain (fst s)).
Proof.
  intros H. unfold face_matrix, face_row, coord.
  assert (E : forall l k i, nth_error l i = Some s -> nth_error (enum k l) i = Some (k + i, s)).
  { induction l as [|x l IH]; intros k [|i] Hi; try discriminate; cbn in *; [now injection Hi as ->; rewrite Nat.add_0_r|].
    rewrite (IH (S k) i Hi). f_equal. f_equal. lia. }
  rewrite nth_error_map, (E pChain 0 j H). reflexivity.
Qed.
Lemma face_matrix_length F nChain pChain : length (face_matrix F nChain pChain) = length pChain.
Proof. unfold face_matrix. rewrite map_length. generalize 0. induction pChain; intros k; cbn; auto. Qed.
Lemma checkFace_01 f s : checkFace f s = 0 \/ checkFace f s = 1.
Proof. unfold checkFace. destruct s; auto. destruct (_ =? 1); auto. Qed.
Lemma face_matrix_bin F nChain pChain : bmat (length nChain) (face_matrix F nChain pChain).
Proof.
  intros r Hr. apply In_nth_error in Hr as (j & Hj). assert (L : j < length pChain).
  { rewrite <- (face_matrix_length F nChain). apply nth_error_Some. congruence. }
  destruct (nth_error pChain j) as [s|] eqn:Es; [|apply nth_error_None in Es; lia].
  rewrite (face_matrix_nth F nChain pChain j s Es) in Hj. injection Hj as <-. destruct (coord F j).
  - split; [apply repeat_length|]. intros x Hx. apply repeat_spec in Hx. auto.
  - unfold face_row. split; [apply map_length|]. intros x Hx. apply in_map_iff in Hx as (f & <- & _). apply checkFace_01.
Qed.
Lemma rv_repeat n : veq (rv (repeat 0 n)) vzero.
Proof. intros i. unfold rv, vzero. destruct (Nat.lt_ge_cases i n); [rewrite nth_repeat; auto|rewrite nth_overflow; auto; rewrite repeat_length; auto]. Qed.
Lemma face_row_rv edges k s w : complex edges -> In (s, w) (level edges (S k)) ->
  veq (rv (face_row (level edges k) s)) (coord (boundary (simplices edges k) s)).
Proof.
  intros C Hs i. destruct (cx_shape _ C _ _ _ Hs) as [Ss Ls]. unfold simplices. destruct (Nat.lt_ge_cases i (length (level edges k))) as [L|L].
  - rewrite coord_boundary by now rewrite map_length. unfold rv, face_row.
    destruct (nth_error (level edges k) i) as [[f u]|] eqn:Ei; [|apply nth_error_None in Ei; lia].
    destruct (cx_shape _ C k f u (nth_error_In _ _ Ei)) as [Sf Lf].
    rewrite (nth_error_nth (map (fun f => checkFace (fst f) s) (level edges k)) i 0 (x := checkFace f s)) by now rewrite nth_error_map, Ei.
    rewrite (nth_error_nth (map fst (level edges k)) i [] (x := f)) by now rewrite nth_error_map, Ei.
    rewrite checkFace_face; auto; [|lia]. destruct (is_face s f); reflexivity.
  - unfold face_row. rewrite rv_out by now rewrite map_length. symmetry. apply coord_false. rewrite boundary_In, map_length. lia.
Qed.

(* ---- zeroed rows that depend on earlier ones change nothing *)
Definition weakened (M M' : list (list nat)) : Prop := length M' = length M /\ forall j c c', nth_error M j = Some c -> nth_error M' j = Some c' ->
  veq (coord c') (coord c) \/ (veq (coord c') vzero /\ ~ fresh M j).
Lemma firstn_snoc {A} (l : list A) j x : nth_error l j = Some x -> firstn (S j) l = firstn j l ++ [x].
Proof. revert j. induction l as [|y l IH]; intros [|j] H; try discriminate; cbn in *; [now injection H as ->|]. f_equal. now apply IH. Qed.
Lemma fresh_dec M j c : nth_error M j = Some c -> fresh M j \/ span (map coord (firstn j M)) (coord c).
Proof. intros H. destruct (span_dec (firstn j M) c) as [|N]; auto. left. exists c. split; auto. now rewrite combination_span. Qed.
Lemma weakened_span M M' : weakened M M' -> forall k, k <= length M -> forall x, span (map coord (firstn k M')) x <-> span (map coord (firstn k M)) x.
Proof.
  intros [L H]. induction k as [|k IH]; intros Lk x; [reflexivity|].
  destruct (nth_error M k) as [c|] eqn:Ec; [|apply nth_error_None in Ec; lia]. destruct (nth_error M' k) as [c'|] eqn:Ec'; [|apply nth_error_None in Ec'; lia].
  rewrite (firstn_snoc M k c Ec), (firstn_snoc M' k c' Ec'), !map_app. cbn [map]. rewrite !span_snoc, !IH by lia.
  destruct (H k c c' Ec Ec') as [E|[E N]].
  - split; (intros [K|K]; [now left|right; eapply span_ext; [|exact K]]); (apply vadd_ext; [apply veq_refl|auto using veq_sym]).
  - destruct (fresh_dec M k c Ec) as [|D]; [contradiction|]. split; intros [K|K]; try (now left); left.
    + eapply span_ext; [|exact K]. intros i. unfold vadd. rewrite E. unfold vzero. now rewrite xorb_false_r.
    + eapply span_ext; [apply vadd_r|]. apply span_add; [exact K|exact D].
Qed.
Lemma weakened_fresh M M' : weakened M M' -> forall j, fresh M' j <-> fresh M j.
Proof.
  intros W j. destruct (W) as [L H]. destruct (nth_error M j) as [c|] eqn:Ec.
  2:{ split; intros (x & Hx & _); [|congruence]. apply nth_error_None in Ec. assert (j < length M') by (apply nth_error_Some; congruence). lia. }
  assert (Lj : j < length M) by (apply nth_error_Some; congruence).
  destruct (nth_error M' j) as [c'|] eqn:Ec'; [|apply nth_error_None in Ec'; lia].
  rewrite (fresh_span M j c Ec), (fresh_span M' j c' Ec'), !firstn_map, (weakened_span M M' W j) by lia.
  destruct (H j c c' Ec Ec') as [E|[E N]].
  - split; intros K Q; apply K; (eapply span_ext; [|exact Q]); auto using veq_sym.
  - destruct (fresh_dec M j c Ec) as [|D]; [contradiction|]. split; intros K; exfalso; apply K; auto. eapply span_ext; [apply veq_sym, E|apply span_zero].
Qed.
Lemma bmatrix_S edges k : bmatrix edges (S k) = map (boundary (simplices edges k)) (simplices edges (S k)).
Proof. unfold bmatrix, boundary_matrix. now replace (S k - 1) with k by lia. Qed.
Lemma face_weakened edges k F : complex edges -> (forall i, In i F -> ~ fresh (bmatrix edges (S k)) i) ->
  weakened (bmatrix edges (S k)) (supports (face_matrix F (level edges k) (level edges (S k)))).
Proof.
  intros C HF. rewrite bmatrix_S in *. unfold supports. split.
  - rewrite !map_length. unfold simplices. now rewrite face_matrix_length, map_length.
  - intros j c c' Hc Hc'. rewrite nth_error_map in Hc. unfold simplices in Hc at 2. rewrite nth_error_map in Hc. destruct (nth_error (level edges (S k)) j) as [[s w]|] eqn:Es; [|discriminate].
    injection Hc as <-. rewrite nth_error_map, (face_matrix_nth F _ _ j (s, w) Es) in Hc'. injection Hc' as <-. cbn [fst].
    destruct (coord F j) eqn:Ef.
    + right. split; [eapply veq_trans; [apply rv_support|apply rv_repeat]|]. apply HF, coord_In, Ef.
    + left. eapply veq_trans; [apply rv_support|]. eapply face_row_rv; eauto using nth_error_In.
Qed.

(* ---- the last non-zero column of a cycle depends on earlier ones *)
Lemma maximal_dependent M v m : veq (bsum (map coord M) v) vzero -> v m = true -> (forall c, m < c -> v c = false) -> ~ fresh M m.
Proof.
  intros Z Hm Hc (x & Hx & N). apply N. rewrite combination_span. unfold bsum in Z.
  apply nth_error_split in Hx as (a & b & -> & L). rewrite <- L, firstn_app, Nat.sub_diag, firstn_all. cbn [firstn]. rewrite app_nil_r.
  eapply span_ext; [|apply (bsum_span (map coord a) 0 v)]. intros i. specialize (Z i). rewrite map_app in Z. cbn [map] in Z. rewrite (bsum_app _ _ 0 v i) in Z. unfold vadd in Z.
  cbn [bsum_from] in Z. unfold vadd in Z. rewrite map_length, L in Z. cbn [Nat.add] in Z. rewrite Hm in Z. rewrite (bsum_zero (map coord b) (S m) v) in Z; [|intros j Hj; apply Hc; lia].
  unfold vzero in Z. destruct (bsum_from 0 (map coord a) v i), (coord x i); cbn in Z; congruence.
Qed.
Lemma last_maximal_acc row : forall l acc, (forall c, In c l -> c < length row) ->
  let m := fold_left (fun l mf => if nth mf row 0 =? 1 then mf else l) l acc in
  (m = acc /\ forall c, In c l -> rv row c = false) \/ (exists a b, l = a ++ m :: b /\ rv row m = true /\ forall c, In c b -> rv row c = false).
Proof.
  induction l as [|x l IH] using rev_ind; intros acc H; cbn zeta; [left; split; [reflexivity|intros c []]|].
  rewrite fold_left_app. cbn [fold_left]. change (nth x row 0 =? 1) with (rv row x). destruct (rv row x) eqn:E.
  - right. exists l, []. split; [reflexivity|]. split; [exact E|intros c []].
  - destruct (IH acc) as [[Em Z]|(a & b & El & Em & Z)]; [intros c Hc; apply H; apply in_app_iff; now left| |].
    + left. split; [exact Em|]. intros c Hc. apply in_app_iff in Hc as [Hc|[<-|[]]]; auto.
    + right. exists a, (b ++ [x]). split; [rewrite El at 1; now rewrite <- app_assoc|]. split; [exact Em|].
      intros c Hc. apply in_app_iff in Hc as [Hc|[<-|[]]]; auto.
Qed.
Lemma seq_ssorted n : forall k, ssorted (seq k n).
Proof. induction n as [|n IH]; intros k; cbn; [constructor|]. apply ssorted_cons. split; auto. intros y Hy. apply in_seq in Hy. lia. Qed.
Lemma in_firstn {A} k (l : list A) x : In x (firstn k l) -> In x l.
Proof. intros H. rewrite <- (firstn_skipn k l). apply in_app_iff. now left. Qed.
Lemma last_maximal_spec j i row c0 : i < c0 -> rv row c0 = true ->
  let m := last_maximal j i row in i < m /\ rv row m = true /\ forall c, m < c -> rv row c = false.
Proof.
  intros L0 H0. cbn zeta. unfold last_maximal. assert (Lc : c0 < length row). { destruct (Nat.lt_ge_cases c0 (length row)); auto. rewrite rv_out in H0 by auto. discriminate. }
  set (l := seq (i + 1) (length row - (i + 1))). assert (I0 : In c0 l) by (apply in_seq; lia).
  destruct (last_maximal_acc row l j) as [[_ Z]|(a & b & El & Em & Z)]; [intros c Hc; apply in_seq in Hc; lia|rewrite Z in H0 by auto; discriminate|].
  set (m := fold_left _ l j) in *. assert (Im : In m l) by (rewrite El; apply in_app_iff; right; now left).
  apply in_seq in Im. split; [lia|]. split; [exact Em|]. intros c Hc.
  destruct (Nat.lt_ge_cases c (length row)) as [L|L]; [|now apply rv_out]. assert (Ic : In c l) by (apply in_seq; lia).
  rewrite El in Ic. apply in_app_iff in Ic as [Ic|[Ic|Ic]]; auto; [|lia]. exfalso.
  assert (Sl : ssorted l) by apply seq_ssorted.
  rewrite El in Sl. clear -Sl Ic Hc. induction a as [|x a IH]; [destruct Ic|]. cbn in Sl. apply ssorted_cons in Sl as [S1 S2]. destruct Ic as [->|Ic]; auto.
  assert (c < m) by (apply S2; apply in_app_iff; right; now left). lia.
Qed.
Lemma boundary_nonzero edges k s w : complex edges -> In (s, w) (level edges (S k)) -> exists i, coord (boundary (simplices edges k) s) i = true.
Proof.
  intros C Hs. destruct (cx_shape _ C _ _ _ Hs) as [Ss Ls]. destruct s as [|x s]; [discriminate|].
  assert (F : facet s (x :: s)). { apply ssorted_cons in Ss as [S1 _]. split; [exact S1|]. split; [intros y Hy; now right|reflexivity]. }
  assert (I := cx_closed _ C k _ _ _ Hs F). apply In_nth_error in I as (i & Hi). exists i. apply coord_In, boundary_In.
  split; [apply nth_error_Some; congruence|]. rewrite (nth_error_nth _ _ _ Hi). intros y Hy. now right.
Qed.
Lemma cycles_dependent edges k F : complex edges -> forall C P,
  ginv (length (level edges (S k))) (length (level edges (S k))) (face_matrix F (level edges (S k)) (level edges (S (S k)))) C P ->
  forall t, In t P -> ~ fresh (bmatrix edges (S k)) (last_maximal (pj t) (pc t) (snd t)).
Proof.
  intros Cx C P G t Ht. destruct (gi_pivot _ _ _ _ _ G t Ht) as ([L1 L2] & Lp & [Lr Br] & x & Hx & Sx).
  set (R := face_matrix F (level edges (S k)) (level edges (S (S k)))) in *.
  assert (Sp : span (map rv R) (pv t)).
  { assert (K := pivot_span _ _ _ _ _ G (S (pj t)) (pv t)). assert (Q : span (before (S (pj t)) P) (pv t)) by (apply span_in, before_In; exists t; auto).
    apply K in Q. clear -Q. revert Q. apply span_sub. intros c Hc. apply span_in. rewrite <- firstn_map in Hc. eapply in_firstn; eauto. }
  assert (Z : veq (bsum (map coord (bmatrix edges (S k))) (pv t)) vzero).
  { revert Sp. apply span_cycle. intros c Hc. apply in_map_iff in Hc as (r & <- & Hr). apply In_nth_error in Hr as (j & Hj).
    assert (Lj : j < length (level edges (S (S k)))). { rewrite <- (face_matrix_length F (level edges (S k))). apply nth_error_Some. fold R. congruence. }
    destruct (nth_error (level edges (S (S k))) j) as [[s w]|] eqn:Es; [|apply nth_error_None in Es; lia].
    unfold R in Hj. rewrite (face_matrix_nth F _ _ j (s, w) Es) in Hj. injection Hj as <-. apply nth_error_In in Es. cbn [fst]. destruct (coord F j).
    - unfold bsum. apply bsum_zero. intros q _. apply rv_repeat.
    - eapply veq_trans; [|eapply boundary_cycle; eauto]. unfold bsum. apply bsum_ext. intros q _. apply (face_row_rv edges (S k) s w); auto. }
  assert (Q : exists c0, pc t < c0 /\ rv (snd t) c0 = true).
  { destruct (existsb (rv (snd t)) (seq (S (pc t)) (length (snd t)))) eqn:E.
    - apply existsb_exists in E as (c & Hc & E). apply in_seq in Hc. exists c. split; [lia|auto].
    - exfalso. assert (U : forall q, pv t q = true <-> q = pc t).
      { intros q. split; [|intros ->; auto]. intros Hq. destruct (lt_eq_lt_dec q (pc t)) as [[L|L]|L]; auto; [rewrite L2 in Hq by auto; discriminate|].
        assert (Lq : q < length (snd t)). { destruct (Nat.lt_ge_cases q (length (snd t))); auto. unfold pv in Hq. rewrite rv_out in Hq by auto. discriminate. }
        assert (existsb (rv (snd t)) (seq (S (pc t)) (length (snd t))) = true); [|congruence]. apply existsb_exists. exists q. split; auto. apply in_seq. lia. }
      assert (Lb : length (map coord (bmatrix edges (S k))) = length (level edges (S k))) by (rewrite bmatrix_S; unfold simplices; now rewrite !map_length).
      assert (Lc : pc t < length (map coord (bmatrix edges (S k)))) by (rewrite Lb; exact Lp).
      assert (B := bsum_single _ (pv t) (pc t) Lc U).
      destruct (nth_error (level edges (S k)) (pc t)) as [[s w]|] eqn:Es; [|apply nth_error_None in Es; lia].
      destruct (boundary_nonzero edges k s w Cx (nth_error_In _ _ Es)) as (i & Hi). specialize (B i). rewrite Z in B.
      rewrite (nth_error_nth _ (pc t) vzero (x := coord (boundary (simplices edges k) s))) in B; [unfold vzero in B; congruence|].
      rewrite bmatrix_S. unfold simplices. now rewrite !nth_error_map, Es. }
  destruct Q as (c0 & L0 & H0). destruct (last_maximal_spec (pj t) (pc t) (snd t) c0 L0 H0) as (_ & H1 & H2).
  apply maximal_dependent with (v := pv t); auto.
Qed.

(* ---- one dimension *)
Lemma pp_rank edges k : complex edges -> level edges (S k) <> [] ->
  exists js, getRankNull (face_matrix [] (level edges k) (level edges (S k))) = Ok js /\ negative edges (S k) js.
Proof.
  intros C N. set (R := face_matrix [] (level edges k) (level edges (S k))).
  assert (NR : R <> []). { intros E. apply N, length_zero_iff_nil. rewrite <- (face_matrix_length [] (level edges k)). fold R. now rewrite E. }
  destruct (getRankNull_spec (length (level edges k)) R (face_matrix_bin _ _ _) NR) as (js & -> & Sj & Hj & _).
  exists js. split; auto. split; auto. intros j. rewrite Hj. apply weakened_fresh, face_weakened; auto.
Qed.
Lemma opt_rank edges k F : complex edges -> level edges (S k) <> [] -> (forall i, In i F -> ~ fresh (bmatrix edges (S k)) i) ->
  exists js F', opt_getRankNull (face_matrix F (level edges k) (level edges (S k))) = Ok (js, F') /\ negative edges (S k) js /\
    forall k', k = S k' -> forall i, In i F' -> ~ fresh (bmatrix edges k) i.
Proof.
  intros C N HF. set (R := face_matrix F (level edges k) (level edges (S k))).
  assert (NR : R <> []). { intros E. apply N, length_zero_iff_nil. rewrite <- (face_matrix_length F (level edges k)). fold R. now rewrite E. }
  destruct (eliminate_spec (length (level edges k)) R (face_matrix_bin _ _ _) NR) as (D & P & E & G).
  unfold opt_getRankNull. rewrite E. cbn [bind]. eexists; eexists; split; [reflexivity|]. split.
  - destruct (to_set_spec (map (fun t : pivot => fst (fst t)) P)) as [S1 S2]. split; auto. intros j. rewrite S2.
    change (fun t : pivot => fst (fst t)) with pj. rewrite (pivots_fresh _ _ _ _ G). apply weakened_fresh, face_weakened; auto.
  - intros k' -> i Hi. apply (proj1 (proj2 (to_set_spec _) i)) in Hi. apply in_map_iff in Hi as (t & <- & Ht). exact (cycles_dependent edges k' F C D P G t Ht).
Qed.

(* ---- all dimensions *)
Lemma offset_S edges d : d < length edges -> first_number edges (S d) = first_number edges d + length (level edges d).
Proof.
  intros L. unfold first_number, level. destruct (nth_error edges d) as [l|] eqn:E; [|apply nth_error_None in E; lia].
  rewrite (firstn_snoc _ _ _ E), concat_app, app_length, (nth_error_nth _ _ _ E). cbn. now rewrite app_nil_r.
Qed.
Lemma offset_total edges : first_number edges (length edges) = total edges.
Proof. unfold first_number, total. now rewrite firstn_all. Qed.
Lemma offset_le edges d e : d <= e -> first_number edges d <= first_number edges e.
Proof.
  intros L. unfold first_number. rewrite <- (firstn_skipn d (firstn e edges)), firstn_firstn, Nat.min_l by auto. rewrite concat_app, app_length. lia.
Qed.
Definition pivots_of edges (lo hi s : nat) (acc : list nat) (g : nat) : Prop :=
  In g acc \/ exists d j, lo <= d <= hi /\ fresh (bmatrix edges d) j /\ g = first_number edges d + j + s.

Lemma add_pivots edges d c js acc : negative edges d js -> ssorted acc ->
  ssorted (fold_left (fun s a => sinsert (c + a) s) js acc) /\
  forall g, In g (fold_left (fun s a => sinsert (c + a) s) js acc) <-> In g acc \/ exists j, fresh (bmatrix edges d) j /\ g = c + j.
Proof.
  intros [_ H] Sa. assert (E : fold_left (fun s a => sinsert (c + a) s) js acc = fold_left (fun s x => sinsert x s) (map (fun a => c + a) js) acc).
  { clear. revert acc. induction js as [|j js IH]; intros acc; cbn; auto. }
  rewrite E. destruct (to_set_acc (map (fun a => c + a) js) acc Sa) as [S1 S2]. split; auto. intros g. rewrite S2, in_map_iff. split.
  - intros [(j & <- & Hj)|Hg]; [right; exists j; split; auto; now apply H|now left].
  - intros [Hg|(j & Hj & ->)]; [now right|left; exists j; split; auto; now apply H].
Qed.
Lemma rev_seq_S n : rev (seq 1 (S n)) = S n :: rev (seq 1 n).
Proof. rewrite seq_S, rev_app_distr. reflexivity. Qed.

Lemma pp_loop edges : complex edges -> forall n acc, S n <= length edges -> ssorted acc ->
  (forall d, 1 <= d <= n -> level edges d <> []) ->
  exists acc', foldr_ub (pp_dimension edges) (first_number edges (S n), acc) (rev (seq 1 n)) = Ok (first_number edges 1, acc') /\ ssorted acc' /\
    forall g, In g acc' <-> pivots_of edges 1 n 0 acc g.
Proof.
  intros C. induction n as [|n IH]; intros acc L Sa N.
  - exists acc. split; [reflexivity|]. split; auto. intros g. unfold pivots_of. split; auto. intros [|(d & j & H & _)]; auto. lia.
  - rewrite rev_seq_S. cbn [foldr_ub]. unfold pp_dimension at 1. rewrite !level_at by lia. cbn [bind].
    replace (S n - 1) with n by lia. destruct (pp_rank edges n C (N (S n) ltac:(lia))) as (js & -> & Hj). cbn [bind fst snd].
    rewrite (offset_S edges (S n)) by lia. replace (first_number edges (S n) + length (level edges (S n)) - length (level edges (S n))) with (first_number edges (S n)) by lia.
    destruct (add_pivots edges (S n) (first_number edges (S n)) js acc Hj Sa) as [S1 S2].
    destruct (IH (fold_left (fun s a => sinsert (first_number edges (S n) + a) s) js acc)) as (acc' & -> & S3 & H); auto; try lia; [intros d Hd; apply N; lia|].
    exists acc'. split; auto. split; auto. intros g. rewrite H. unfold pivots_of. rewrite S2. split.
    + intros [[Hg|(j & Hf & ->)]|(d & j & Hd & Hf & ->)]; auto; right; [exists (S n), j|exists d, j]; split; auto; try lia; split; auto; lia.
    + intros [Hg|(d & j & Hd & Hf & ->)]; auto. destruct (Nat.eq_dec d (S n)) as [->|]; [left; right; exists j; split; auto; lia|].
      right. exists d, j. split; [lia|auto].
Qed.
Lemma pp_loop_ub edges : complex edges -> forall n st, S n <= length edges -> (exists d, 1 <= d <= n /\ level edges d = []) ->
  foldr_ub (pp_dimension edges) st (rev (seq 1 n)) = UB.
Proof.
  intros C. induction n as [|n IH]; intros st L (d & Hd & E); [lia|]. rewrite rev_seq_S. cbn [foldr_ub].
  destruct (level edges (S n)) as [|x0 l0] eqn:El.
  - unfold pp_dimension. rewrite !level_at by lia. rewrite El. reflexivity.
  - assert (D : exists d, 1 <= d <= n /\ level edges d = []). { exists d. split; auto. destruct (Nat.eq_dec d (S n)); [congruence|lia]. }
    unfold pp_dimension at 1. rewrite !level_at by lia. cbn [bind]. replace (S n - 1) with n by lia.
    destruct (pp_rank edges n C ltac:(congruence)) as (js & -> & Hj). cbn [bind]. now rewrite IH by (auto; lia).
Qed.
Lemma opt_loop edges s : complex edges -> forall n acc F, S n <= length edges -> ssorted acc ->
  (forall d, 1 <= d <= n -> level edges d <> []) -> (forall i, In i F -> ~ fresh (bmatrix edges n) i) ->
  exists acc' F', foldr_ub (opt_dimension edges) (first_number edges (S n) + s, acc, F) (rev (seq 1 n)) = Ok (first_number edges 1 + s, acc', F') /\ ssorted acc' /\
    forall g, In g acc' <-> pivots_of edges 1 n s acc g.
Proof.
  intros C. induction n as [|n IH]; intros acc F L Sa N HF.
  - exists acc, F. split; [reflexivity|]. split; auto. intros g. unfold pivots_of. split; auto. intros [|(d & j & H & _)]; auto. lia.
  - rewrite rev_seq_S. cbn [foldr_ub]. unfold opt_dimension at 1. rewrite !level_at by lia. cbn [bind].
    replace (S n - 1) with n by lia. destruct (opt_rank edges n F C (N (S n) ltac:(lia)) HF) as (js & F' & -> & Hj & HF'). cbn [bind fst snd].
    rewrite (offset_S edges (S n)) by lia. replace (first_number edges (S n) + length (level edges (S n)) + s - length (level edges (S n))) with (first_number edges (S n) + s) by lia.
    destruct (add_pivots edges (S n) (first_number edges (S n) + s) js acc Hj Sa) as [S1 S2]. destruct n as [|n'].
    + eexists; eexists; split; [reflexivity|]. split; auto. intros g. unfold pivots_of. rewrite S2. split.
      * intros [Hg|(j & Hf & ->)]; auto. right. exists 1, j. split; [lia|]. split; auto. lia.
      * intros [Hg|(d & j & Hd & Hf & ->)]; auto. right. assert (d = 1) by lia. subst. exists j. split; auto. lia.
    + destruct (IH (fold_left (fun s0 a => sinsert (first_number edges (S (S n')) + s + a) s0) js acc) F') as (acc' & F'' & -> & S3 & H); auto; try lia; [intros d Hd; apply N; lia|apply (HF' n' eq_refl)|].
      exists acc', F''. split; auto. split; auto. intros g. rewrite H. unfold pivots_of. rewrite S2. split.
      * intros [[Hg|(j & Hf & ->)]|(d & j & Hd & Hf & ->)]; auto; right; [exists (S (S n')), j|exists d, j]; split; auto; try lia; split; auto; lia.
      * intros [Hg|(d & j & Hd & Hf & ->)]; auto. destruct (Nat.eq_dec d (S (S n'))) as [->|]; [left; right; exists j; split; auto; lia|].
        right. exists d, j. split; [lia|auto].
Qed.
Lemma opt_loop_ub edges : complex edges -> forall n off acc F, (forall i, In i F -> ~ fresh (bmatrix edges n) i) ->
  (exists d, 1 <= d <= n /\ level edges d = []) ->
  foldr_ub (opt_dimension edges) (off, acc, F) (rev (seq 1 n)) = UB.
Proof.
  intros C. induction n as [|n IH]; intros off acc F HF (d & Hd & E); [lia|]. rewrite rev_seq_S. cbn [foldr_ub].
  destruct (Nat.lt_ge_cases (S n) (length edges)) as [L|L].
  2:{ unfold opt_dimension. unfold at_ at 1. apply nth_error_None in L. rewrite L. reflexivity. }
  destruct (level edges (S n)) as [|x0 l0] eqn:El.
  - unfold opt_dimension. rewrite !level_at by lia. rewrite El. reflexivity.
  - assert (D : exists d, 1 <= d <= n /\ level edges d = []). { exists d. split; auto. destruct (Nat.eq_dec d (S n)); [congruence|lia]. }
    unfold opt_dimension at 1. rewrite !level_at by lia. cbn [bind]. replace (S n - 1) with n by lia.
    destruct (opt_rank edges n F C ltac:(congruence) HF) as (js & F' & -> & Hj & HF'). cbn [bind fst snd]. destruct n as [|n']; [destruct D as (d' & H & _); lia|].
    apply IH; auto. apply (HF' n' eq_refl).
Qed.

(* C57 *)
Theorem pp_pivots_spec edges : complex edges -> edges <> [] -> (forall d, 1 <= d < length edges -> level edges d <> []) ->
  exists ps, pp_pivots edges = Ok ps /\ increasing ps /\
    forall g, In g ps <-> exists d j, 1 <= d < length edges /\ fresh (bmatrix edges d) j /\ g = first_number edges d + j.
Proof.
  intros C Ne N. assert (L : length edges <> 0) by (intros E; apply Ne; now apply length_zero_iff_nil). unfold pp_pivots. rewrite <- offset_total.
  destruct (pp_loop edges C (length edges - 1) []) as (acc & E & Sa & H); [lia|constructor|intros d Hd; apply N; lia|].
  replace (S (length edges - 1)) with (length edges) in E by lia. rewrite E. cbn [bind snd]. exists acc. split; auto. split; auto.
  intros g. rewrite H. unfold pivots_of. split.
  - intros [[]|(d & j & Hd & Hf & ->)]. exists d, j. repeat split; auto; lia.
  - intros (d & j & Hd & Hf & ->). right. exists d, j. repeat split; auto; lia.
Qed.
(* C58 *)
Theorem opt_pivots_spec dim edges : complex edges -> dim < length edges -> (forall d, 1 <= d <= dim -> level edges d <> []) ->
  exists ps, opt_pivots dim edges = Ok ps /\ increasing ps /\
    forall g, In g ps <-> exists d j, 1 <= d <= dim /\ fresh (bmatrix edges d) j /\ g = first_number edges d + j + (length (concat edges) - first_number edges (S dim)).
Proof.
  intros C L N. fold (total edges). unfold opt_pivots. assert (Lo : first_number edges (S dim) <= total edges) by (rewrite <- offset_total; apply offset_le; lia).
  destruct (opt_loop edges (total edges - first_number edges (S dim)) C dim [] [] L ltac:(constructor) N ltac:(intros i [])) as (acc & F & E & Sa & H).
  replace (first_number edges (S dim) + (total edges - first_number edges (S dim))) with (total edges) in E by lia. rewrite E. cbn [bind snd fst].
  exists acc. split; auto. split; auto. intros g. rewrite H. unfold pivots_of. split; [intros [[]|K]; exact K|now right].
Qed.

(* ---- the pairing *)
Definition all_marked (l : list wsimp) : list tentry := map (fun s => mkT true (snd s) (-1) (fst s)) l.
Lemma pair_prefix opt ks piv cur lines : forall l i ts, (forall c, cur = Some c -> i + length l <= c) ->
  foldr_ub (pair_simplex opt ks) (ts, piv, cur, lines) (enum i l) = Ok (ts ++ all_marked l, piv, cur, lines).
Proof.
  induction l as [|[s w] l IH]; intros i ts H; cbn [enum foldr_ub all_marked map]; [now rewrite app_nil_r|].
  unfold pair_simplex at 1. replace (match cur with Some c => i =? c | None => false end) with false.
  2:{ destruct cur as [c|]; auto. specialize (H c eq_refl). cbn [length] in H. symmetry. apply Nat.eqb_neq. lia. }
  cbn [negb]. rewrite orb_true_r. cbn [bind]. rewrite IH; [now rewrite <- app_assoc|]. intros c Hc. specialize (H c Hc). cbn [length] in H. lia.
Qed.
Lemma enum_app {A} (a b : list A) : forall i, enum i (a ++ b) = enum i a ++ enum (i + length a) b.
Proof. induction a as [|x a IH]; intros i; cbn; [now rewrite Nat.add_0_r|]. rewrite IH. now replace (S i + length a) with (i + S (length a)) by lia. Qed.
Lemma pp_search_end loose ts ks cur : pp_search loose ts ks cur (length ts) = UB.
Proof.
  assert (K : at_ ts (length ts) = UB) by (unfold at_; now rewrite (proj2 (nth_error_None ts (length ts)) (Nat.le_refl _))).
  destruct (length ts); cbn [pp_search]; now rewrite K.
Qed.
Lemma pair_all_ub opt dim eps edges p rest s w : nth_error (concat edges) p = Some (s, w) -> length s <> 1 ->
  pair_all opt dim eps edges (p :: rest) = UB.
Proof.
  intros E N. unfold pair_all. cbn [hd_error]. apply nth_error_split in E as (a & b & Ek & L). rewrite Ek at 2. rewrite enum_app, foldr_ub_app.
  rewrite pair_prefix; [|intros c Hc; injection Hc as <-; lia]. cbn [bind enum foldr_ub]. unfold pair_simplex at 1.
  apply Nat.eqb_neq in N. rewrite N. replace (0 + length a =? p) with true by (symmetry; apply Nat.eqb_eq; lia). cbn [orb negb].
  now rewrite pp_search_end.
Qed.
Lemma above_vertices edges p : complex edges -> first_number edges 1 <= p < total edges -> exists s w, nth_error (concat edges) p = Some (s, w) /\ length s <> 1.
Proof.
  intros C [L1 L2]. unfold total in L2. destruct (nth_error (concat edges) p) as [[s w]|] eqn:E; [|apply nth_error_None in E; lia].
  exists s, w. split; auto. rewrite <- (firstn_skipn 1 edges), concat_app, nth_error_app2 in E by exact L1.
  apply nth_error_In, in_concat in E as (l & Hl & Hs). apply In_nth_error in Hl as (k & Hk).
  assert (Hk' : nth_error edges (S k) = Some l) by (destruct edges; [destruct k; discriminate|exact Hk]).
  assert (In (s, w) (level edges (S k))) by (unfold level; now rewrite (nth_error_nth _ _ _ Hk')). destruct (cx_shape _ C _ _ _ H). lia.
Qed.
Lemma first_fresh edges k : complex edges -> level edges (S k) <> [] -> fresh (bmatrix edges (S k)) 0.
Proof.
  intros C N. rewrite bmatrix_S. unfold simplices at 2. destruct (level edges (S k)) as [|[s w] l] eqn:E; [easy|]. exists (boundary (simplices edges k) s). split; [reflexivity|].
  cbn [firstn]. rewrite combination_span. cbn. intros Z. destruct (boundary_nonzero edges k s w C) as (i & Hi); [rewrite E; now left|]. rewrite Z in Hi. discriminate.
Qed.
Lemma fresh_bound cs j : fresh cs j -> j < length cs.
Proof. intros (x & H & _). apply nth_error_Some. congruence. Qed.
Lemma bmatrix_length edges k : length (bmatrix edges k) = length (level edges k).
Proof. unfold bmatrix, boundary_matrix, simplices. now rewrite !map_length. Qed.

Lemma left_none (opt : bool) dim eps : (0 <= dim)%Z -> forall (l : list wsimp) lines, (forall s w, In (s, w) l -> Z.of_nat (length s) >= dim + (if opt then 1 else 0))%Z ->
  foldr_ub (if opt then opt_left dim eps else pp_left dim eps) lines (all_marked l) = Ok lines.
Proof.
  intros D. induction l as [|[s w] l IH]; intros lines H; cbn [all_marked map foldr_ub]; auto. destruct opt.
  - unfold opt_left at 1. cbn [t_marked t_death t_simplex andb fst snd]. assert (K := H s w (or_introl eq_refl)). cbn [Z.eqb].
    replace (dim <? 0)%Z with false by lia. replace (Z.of_nat (length s) <=? dim)%Z with false by lia. cbn. apply IH. intros s' w' Hs. apply (H s' w'). now right.
  - unfold pp_left at 1. cbn [t_marked t_death t_simplex andb fst snd]. assert (K := H s w (or_introl eq_refl)). cbn [Z.eqb].
    replace (dim <? 0)%Z with false by lia. replace (Z.of_nat (length s) <? dim)%Z with false by lia. cbn. apply IH. intros s' w' Hs. apply (H s' w'). now right.
Qed.
Lemma left_vertices dim eps : (1 < dim)%Z -> forall (l : list wsimp) lines, (forall s w, In (s, w) l -> length s = 1) ->
  foldr_ub (pp_left dim eps) lines (all_marked l) = Ok (lines ++ map (fun v => (0, snd v, eps)) l).
Proof.
  intros D. induction l as [|[s w] l IH]; intros lines H; cbn [all_marked map foldr_ub]; [now rewrite app_nil_r|].
  unfold pp_left at 1. cbn [t_marked t_death t_simplex t_birth andb fst snd Z.eqb]. rewrite (H s w) by now left.
  replace (dim <? 0)%Z with false by lia. rewrite (proj2 (Z.ltb_lt (Z.of_nat 1) dim)) by exact D. cbn [orb].
  rewrite (at_nth _ 1 tt) by (rewrite repeat_length; lia). replace (-1 =? -1)%Z with true by lia. cbn [bind andb]. fold (all_marked l). rewrite IH by (intros s0 w0 H0; apply (H s0 w0); now right). now rewrite <- app_assoc.
Qed.

Theorem pp_run_spec dim eps edges : complex edges -> (0 <= dim)%Z ->
  (2 <= length edges -> pp_run dim eps edges = UB) /\
  (length edges <= 1 -> pp_run dim eps edges = Ok (if (1 <? dim)%Z then map (fun v => (0, snd v, eps)) (level edges 0) else [])).
Proof.
  intros C D. split; intros L.
  - unfold pp_run. destruct (existsb (fun d => match level edges d with [] => true | _ => false end) (seq 1 (length edges - 1))) eqn:E.
    + apply existsb_exists in E as (d & Hd & E). apply in_seq in Hd. unfold pp_pivots. rewrite pp_loop_ub; auto; [lia|].
      exists d. split; [lia|]. destruct (level edges d); [reflexivity|discriminate].
    + assert (N : forall d, 1 <= d < length edges -> level edges d <> []).
      { intros d Hd K. rewrite <- not_true_iff_false in E. apply E, existsb_exists. exists d. split; [apply in_seq; lia|now rewrite K]. }
      destruct (pp_pivots_spec edges C) as (ps & -> & _ & H); auto; [intros ->; cbn in L; lia|]. cbn [bind].
      destruct ps as [|p ps].
      { exfalso. apply (proj2 (H (first_number edges 1 + 0))). exists 1, 0. split; [lia|]. split; [|reflexivity]. apply first_fresh; auto. }
      destruct (proj1 (H p) (or_introl eq_refl)) as (d & j & Hd & Hf & ->). apply fresh_bound in Hf. rewrite bmatrix_length in Hf.
      destruct (above_vertices edges (first_number edges d + j) C) as (s & w & Hs & Ls).
      { assert (K1 := offset_le edges 1 d ltac:(lia)). assert (K2 := offset_le edges (S d) (length edges) ltac:(lia)). rewrite offset_S, offset_total in K2 by lia. lia. }
      eapply pair_all_ub; eauto.
  - assert (Ec : concat edges = level edges 0). { destruct edges as [|l [|]]; cbn in *; try reflexivity; [now rewrite app_nil_r|lia]. }
    assert (Ep : pp_pivots edges = Ok []) by (unfold pp_pivots; replace (length edges - 1) with 0 by lia; reflexivity).
    unfold pp_run. rewrite Ep. cbn [bind]. unfold pair_all. rewrite Ec. cbn [hd_error]. rewrite pair_prefix by discriminate. cbn [bind app].
    assert (V : forall s w, In (s, w) (level edges 0) -> length s = 1) by (intros s w Hs; now destruct (cx_shape _ C _ _ _ Hs)).
    destruct (Z.ltb_spec 1 dim); [now apply left_vertices|]. apply (left_none false); auto. intros s w Hs. rewrite (V s w Hs). lia.
Qed.
Theorem opt_run_spec dim eps edges : complex edges ->
  ((1 <= dim)%Z -> opt_run dim eps edges = UB) /\ (dim = 0%Z -> opt_run dim eps edges = Ok []).
Proof.
  intros C. split; intros D.
  - unfold opt_run. set (n := Z.to_nat dim). assert (1 <= n) by lia.
    destruct (existsb (fun d => match level edges d with [] => true | _ => false end) (seq 1 n)) eqn:E.
    + apply existsb_exists in E as (d & Hd & E). apply in_seq in Hd. unfold opt_pivots. rewrite opt_loop_ub; [reflexivity|auto|intros i []|].
      exists d. split; [lia|]. destruct (level edges d); [reflexivity|discriminate].
    + assert (N : forall d, 1 <= d <= n -> level edges d <> []).
      { intros d Hd K. rewrite <- not_true_iff_false in E. apply E, existsb_exists. exists d. split; [apply in_seq; lia|now rewrite K]. }
      assert (L : n < length edges). { destruct (Nat.lt_ge_cases n (length edges)); auto. exfalso. apply (N n ltac:(lia)). unfold level. now apply nth_overflow. }
      destruct (opt_pivots_spec n edges C L N) as (ps & -> & _ & H'). cbn [bind]. destruct ps as [|p ps].
      { exfalso. eapply (proj2 (H' _)). exists 1, 0. split; [lia|]. split; [apply first_fresh; auto; apply N; lia|reflexivity]. }
      destruct (proj1 (H' p) (or_introl eq_refl)) as (d & j & Hd & Hf & ->). apply fresh_bound in Hf. rewrite bmatrix_length in Hf.
      destruct (above_vertices edges (first_number edges d + j + (total edges - first_number edges (S n))) C) as (s & w & Hs & Ls).
      { assert (K1 := offset_le edges 1 d ltac:(lia)). assert (K2 := offset_le edges (S d) (S n) ltac:(lia)). rewrite offset_S in K2 by lia.
        assert (K3 := offset_le edges (S n) (length edges) ltac:(lia)). rewrite offset_total in K3. lia. }
      eapply pair_all_ub; eauto.
  - subst dim. unfold opt_run. cbn [Z.to_nat]. change (opt_pivots 0 edges) with (@Ok (list nat) []). cbn [bind]. unfold pair_all. cbn [hd_error].
    rewrite pair_prefix by discriminate. cbn [bind app]. apply (left_none true); [lia|]. intros s w Hs. apply in_concat in Hs as (l & Hl & Hs). apply In_nth_error in Hl as (k & Hk).
    assert (Hl : In (s, w) (level edges k)) by (unfold level; now rewrite (nth_error_nth _ _ _ Hk)). destruct (cx_shape _ C _ _ _ Hl). lia.
Qed.
Theorem bd_run_spec dim weights : bd_run dim weights = if (dim =? 0)%Z then Ok [] else UB.
Proof.
  unfold bd_run. destruct (Z.ltb_spec dim 0); [now replace (dim =? 0)%Z with false by lia|]. destruct (Z.eqb_spec dim 0) as [->|]; [reflexivity|].
  replace (Z.to_nat dim) with (S (Z.to_nat dim - 1)) by lia. set (b := flat_map _ _). cbn [seq foldr_ub]. unfold at_ at 1.
  now rewrite (proj2 (nth_error_None b (length b)) (Nat.le_refl _)).
Qed.

(* ---- the elimination on sets *)
Definition row (k : nat) (s : list nat) : list nat := map (fun c => if coord s c then 1 else 0) (seq 0 k).
Lemma row_rv k s c : c < k -> rv (row k s) c = coord s c.
Proof.
  intros L. unfold rv, row. rewrite (nth_error_nth _ c 0 (x := if coord s c then 1 else 0)); [destruct (coord s c); reflexivity|].
  rewrite nth_error_map, (nth_error_nth' _ 0) by now rewrite seq_length. rewrite seq_nth by auto. reflexivity.
Qed.
Lemma row_length k s : length (row k s) = k. Proof. unfold row. now rewrite map_length, seq_length. Qed.
Lemma row_01 k s : is01 (row k s).
Proof. intros x Hx. apply in_map_iff in Hx as (c & <- & _). destruct (coord s c); auto. Qed.
Lemma row_bmat k m : bmat k (map (row k) m).
Proof. intros r Hr. apply in_map_iff in Hr as (s & <- & _). split; [apply row_length|apply row_01]. Qed.
Lemma row_ext k r s : length r = k -> is01 r -> (forall c, c < k -> rv r c = coord s c) -> r = row k s.
Proof.
  intros L B H. apply nth_ext with (d := 0) (d' := 0); [now rewrite row_length|]. intros c Hc. rewrite L in Hc. specialize (H c Hc).
  assert (K := row_rv k s c Hc). assert (N : forall l, length l = k -> is01 l -> nth c l 0 = if rv l c then 1 else 0).
  { intros l Ll Bl. unfold rv. destruct (Bl (nth c l 0)) as [->| ->]; auto. apply nth_In. lia. }
  rewrite (N r L B), (N (row k s) (row_length k s) (row_01 k s)). now rewrite H, K.
Qed.
Lemma row_xor k a b : ssorted a -> ssorted b -> xor2 (row k b) (row k a) = row k (setXOR a b).
Proof.
  intros Sa Sb. apply row_ext; [rewrite xor2_length; now rewrite !row_length|apply xor2_01; apply row_01|].
  intros c Hc. rewrite xor2_rv; [|now rewrite !row_length|apply row_01|apply row_01]. unfold vadd. rewrite !row_rv by auto.
  rewrite (coord_xor a b Sa Sb c). unfold vadd. apply xorb_comm.
Qed.
Lemma starts_coord i s : ssorted s -> (forall x, In x s -> i <= x) -> starts_with i s = coord s i.
Proof.
  intros Ss H. destruct s as [|x s]; auto. cbn [starts_with]. apply eq_true_iff_eq. rewrite Nat.eqb_eq, coord_In. split; [intros ->; now left|].
  intros [->|K]; auto. apply ssorted_cons in Ss as [_ S2]. specialize (H x (or_introl eq_refl)). specialize (S2 i K). lia.
Qed.
Definition good (i : nat) (cur : list (list nat)) : Prop := forall s, In s cur -> ssorted s /\ forall x, In x s -> i <= x.
Lemma find_start_spec k i : i < k -> forall cur, good i cur ->
  match find_start i cur with
  | None => find_one i (map (row k) cur) = Ok None /\ forall s, In s cur -> ~ In i s
  | Some (b, c, a) => cur = b ++ c :: a /\ coord c i = true /\ (forall s, In s b -> ~ In i s) /\
                      find_one i (map (row k) cur) = Ok (Some (map (row k) b, row k c, map (row k) a))
  end.
Proof.
  intros Hi. induction cur as [|s cur IH]; intros G; cbn [find_start map find_one]; [split; [reflexivity|intros s []]|].
  destruct (G s (or_introl eq_refl)) as [Ss Hs]. rewrite (starts_coord i s Ss Hs). rewrite (at_nth _ i 0) by now rewrite row_length. cbn [bind].
  change (nth i (row k s) 0 =? 1) with (rv (row k s) i). rewrite row_rv by auto. destruct (coord s i) eqn:E.
  - split; [reflexivity|]. split; [exact E|]. split; [intros s' []|reflexivity].
  - specialize (IH ltac:(intros s' Hs'; apply G; now right)). apply coord_false in E. destruct (find_start i cur) as [[[b c] a]|].
    + destruct IH as (-> & Ec & Hb & ->). split; [reflexivity|]. split; [exact Ec|]. split; [intros s' [<-|H]; auto|reflexivity].
    + destruct IH as (-> & H). split; [reflexivity|]. intros s' [<-|K]; auto.
Qed.
Lemma elim_column_eq n m piv i : elim_column n (m, piv) i =
  do f <- find_one i m;
  match f with
  | None => Ok (m, piv)
  | Some (before, row, after) => do rest <- clear_column i n row (row :: after); Ok (before ++ rest, piv ++ [(length before, i, row)])
  end.
Proof. reflexivity. Qed.
Lemma set_step_eq m piv i : set_step (m, piv) i =
  match find_start i m with
  | None => (m, piv)
  | Some (before, c, after) => (before ++ map (fun x => if starts_with i x then setXOR c x else x) (c :: after), piv ++ [(length before, c)])
  end.
Proof. reflexivity. Qed.
Lemma set_loop k : forall n i cur P Q, i + n = k -> good i cur -> map fst Q = map pj P ->
  exists C P', foldr_ub (elim_column k) (map (row k) cur, P) (seq i n) = Ok (C, P') /\
    map fst (snd (fold_left set_step (seq i n) (cur, Q))) = map pj P'.
Proof.
  induction n as [|n IH]; intros i cur P Q E G EQ; cbn [seq foldr_ub fold_left].
  - eexists; eexists; split; [reflexivity|exact EQ].
  - rewrite (elim_column_eq k (map (row k) cur) P i), (set_step_eq cur Q i). assert (F := find_start_spec k i ltac:(lia) cur G). destruct (find_start i cur) as [[[b c] a]|].
    + destruct F as (-> & Ec & Hb & ->). cbn [bind]. destruct (G c ltac:(apply in_app_iff; right; now left)) as [Sc Hc].
      change (row k c :: map (row k) a) with (map (row k) (c :: a)). rewrite (clear_spec k i (row k c)); [|lia|apply row_length|apply row_bmat]. cbn [bind].
      assert (M : map (cleared i (row k c)) (map (row k) (c :: a)) = map (row k) (map (fun x => if starts_with i x then setXOR c x else x) (c :: a))).
      { rewrite !map_map. apply map_ext_in. intros s Hs. destruct (G s ltac:(apply in_app_iff; now right)) as [Ss Hs'].
        unfold cleared. rewrite row_rv by lia. rewrite (starts_coord i s Ss Hs'). destruct (coord s i); auto. now apply row_xor. }
      rewrite M, <- map_app. apply IH; [lia| |].
      * intros s Hs. apply in_app_iff in Hs as [Hs|Hs].
        { destruct (G s) as [Ss Hs']; [apply in_app_iff; now left|]. split; auto. intros x Hx. specialize (Hs' x Hx).
          assert (x <> i) by (intros ->; exact (Hb s Hs Hx)). lia. }
        apply in_map_iff in Hs as (s' & <- & Hs). destruct (G s' ltac:(apply in_app_iff; now right)) as [Ss Hs']. rewrite (starts_coord i s' Ss Hs').
        destruct (coord s' i) eqn:Ei.
        { destruct (setXOR_spec c s' Sc Ss) as [Sx Hx]. split; auto. intros x K. apply Hx in K. apply coord_In in Ec, Ei.
          assert (x <> i) by (intros ->; tauto). destruct K as [[K _]|[K _]]; [specialize (Hc x K)|specialize (Hs' x K)]; lia. }
        { split; auto. intros x Hx. specialize (Hs' x Hx). apply coord_false in Ei. assert (x <> i) by (intros ->; tauto). lia. }
      * rewrite !map_app, EQ. cbn [map fst pj]. now rewrite map_length.
    + destruct F as (-> & H). cbn [bind]. apply IH; [lia| |exact EQ]. intros s Hs. destruct (G s Hs) as [Ss Hs']. split; auto.
      intros x Hx. specialize (Hs' x Hx). assert (x <> i) by (intros ->; exact (H s Hs Hx)). lia.
Qed.
Lemma support_row k s : ssorted s -> support (row k s) = filter (fun c => c <? k) s.
Proof.
  intros Ss. apply ssorted_ext.
  - unfold support. apply ssorted_filter, seq_ssorted.
  - now apply ssorted_filter.
  - intros x. rewrite <- coord_In, (rv_support (row k s) x), filter_In, Nat.ltb_lt. destruct (Nat.lt_ge_cases x k) as [L|L].
    + rewrite row_rv, coord_In by auto. tauto.
    + rewrite rv_out by now rewrite row_length. split; [discriminate|lia].
Qed.
(* C59 *)
Theorem sets_spec m : Forall increasing m ->
  let js := fst (opt_getRankNull_sets m) in
  increasing js /\ forall j, In j js <-> fresh (map (filter (fun c => c <? length m)) m) j.
Proof.
  intros Sm. cbn zeta. unfold opt_getRankNull_sets. cbn [fst]. set (k := length m). rewrite Forall_forall in Sm.
  split; [apply to_set_spec|]. intros j. rewrite (proj2 (to_set_spec _)).
  destruct (set_loop k k 0 m [] [] eq_refl) as (C' & P' & E' & HQ); [intros s Hs; split; [now apply Sm|intros; lia]|reflexivity|]. rewrite HQ.
  destruct (elim_loop k (map (row k) m) k 0 (map (row k) m) [] eq_refl (ginv_init k _ (row_bmat k m))) as (C & P & E & G).
  rewrite E' in E. injection E as -> ->. rewrite (pivots_fresh _ _ _ _ G). unfold supports. rewrite map_map.
  erewrite map_ext_in; [reflexivity|]. intros s Hs. apply support_row. now apply Sm.
Qed.
Theorem sets_complete m : Forall increasing m -> (forall s x, In s m -> In x s -> x < length m) ->
  forall j, In j (fst (opt_getRankNull_sets m)) <-> fresh m j.
Proof.
  intros Sm H j. rewrite (proj2 (sets_spec m Sm)). replace (map (filter (fun c => c <? length m)) m) with m; [reflexivity|].
  rewrite <- (map_id m) at 1. apply map_ext_in. intros s Hs. assert (K : forall x, In x s -> x < length m) by (intros; eapply H; eauto).
  generalize (length m) K. clear. intros k K. induction s as [|x s IH]; auto. cbn. rewrite (proj2 (Nat.ltb_lt _ _) (K x (or_introl eq_refl))). f_equal. apply IH. intros; apply K; now right.
Qed.
