(* ReductionProofs.v -- the column reduction of fastPersistence. *)
From Coq Require Import List Arith ZArith Bool Lia Sorted.
From Verif Require Import Base Spec UtilsModel UtilsProofs PartitionProofs ArrayListModel SpecComplex FastModel
  SpecLinear LinearProofs SpecFast.
Import ListNotations.

(* ---- the row loop ---- *)
Lemma sinsert_snoc l x : ssorted l -> (forall y, In y l -> y < x) -> sinsert x l = l ++ [x].
Proof.
  induction l as [|a l IH]; intros Ss H; cbn; auto. apply ssorted_cons in Ss as [S1 S2].
  assert (a < x) by (apply H; now left). destruct (Nat.ltb_spec x a); [lia|]. destruct (Nat.ltb_spec a x); [|lia].
  f_equal. apply IH; auto. intros y Hy. apply H. now right.
Qed.

Lemma is_face_incl s t : is_face s t = true <-> incl t s.
Proof.
  unfold is_face. rewrite forallb_forall. split; intros H x Hx; specialize (H x Hx).
  - apply existsb_exists in H as (y & Hy & E). apply Nat.eqb_eq in E. now subst.
  - apply existsb_exists. exists x. split; auto. apply Nat.eqb_refl.
Qed.

Lemma includes_face s t : ssorted s -> ssorted t -> includes s t = is_face s t.
Proof. intros S1 S2. apply eq_true_iff_eq. rewrite includes_spec, is_face_incl by auto. reflexivity. Qed.

Lemma filter_seq_ssorted f k n : ssorted (filter f (seq k n)).
Proof.
  apply ssorted_filter. revert k. induction n as [|n IH]; intros k; cbn; [constructor|]. apply ssorted_cons. split; auto.
  intros y Hy. apply in_seq in Hy. lia.
Qed.
Lemma boundary_ssorted rows s : ssorted (boundary rows s).
Proof. apply filter_seq_ssorted. Qed.
Lemma boundary_In rows s i : In i (boundary rows s) <-> i < length rows /\ incl (nth i rows []) s.
Proof. unfold boundary. rewrite filter_In, in_seq, is_face_incl. intuition lia. Qed.
Lemma boundary_without_ssorted skip rows s : ssorted (boundary_without skip rows s).
Proof. apply ssorted_filter, boundary_ssorted. Qed.
Lemma boundary_without_In skip rows s i : In i (boundary_without skip rows s) <-> In i (boundary rows s) /\ ~ In i skip.
Proof.
  unfold boundary_without. rewrite filter_In, negb_true_iff. change (existsb (Nat.eqb i) skip) with (coord skip i).
  now rewrite coord_false.
Qed.

Section Rows.
  Variables (past_end : list nat -> nat -> res nat) (pivots column : list nat).
  Hypothesis Spiv : ssorted pivots.
  Hypothesis Scol : ssorted column.

  (* the faces collected from the rows [rs], numbered from ix, except those in skip *)
  Definition faces_from (skip : nat -> bool) (ix : nat) (rs : list wsimp) : list nat :=
    filter (fun i => negb (skip i) && is_face column (fst (nth (i - ix) rs ([], 0%Z)))) (seq ix (length rs)).

  Lemma faces_from_cons skip ix r rs :
    faces_from skip ix (r :: rs) = (if negb (skip ix) && is_face column (fst r) then [ix] else []) ++ faces_from skip (S ix) rs.
  Proof.
    unfold faces_from. cbn [length seq filter].
    assert (E : filter (fun i => negb (skip i) && is_face column (fst (nth (i - ix) (r :: rs) ([], 0%Z)))) (seq (S ix) (length rs)) =
                filter (fun i => negb (skip i) && is_face column (fst (nth (i - S ix) rs ([], 0%Z)))) (seq (S ix) (length rs))).
    { apply filter_ext_in. intros i Hi. apply in_seq in Hi. replace (i - ix) with (S (i - S ix)) by lia. reflexivity. }
    rewrite E, Nat.sub_diag. cbn [nth]. destruct (negb (skip ix) && is_face column (fst r)); reflexivity.
  Qed.

  (* the pointer stays where it is: every row is kept *)
  Lemma row_loop_rest pos v : deref past_end pivots pos = Ok v -> forall rs ix cof,
    Forall (fun r => ssorted (fst r)) rs -> ssorted cof -> (forall y, In y cof -> y < ix) ->
    (forall i, ix <= i < ix + length rs -> v <> i) ->
    foldr_ub (row_step past_end pivots column) (pos, ix, cof) rs =
      Ok (pos, ix + length rs, cof ++ faces_from (fun _ => false) ix rs).
  Proof.
    intros D. induction rs as [|r rs IH]; intros ix cof Sr Sc Hc Hv.
    - cbn. rewrite app_nil_r, Nat.add_0_r. reflexivity.
    - inversion Sr as [|? ? S1 S2]; subst. cbn [foldr_ub]. unfold row_step at 1. rewrite D. cbn [bind].
      destruct (Nat.eqb_spec v ix) as [E|E]; [exfalso; apply (Hv ix); [cbn; lia|auto]|]. cbn [negb].
      rewrite includes_face by auto. rewrite faces_from_cons. cbn [negb andb bind].
      destruct (is_face column (fst r)).
      + rewrite sinsert_snoc by auto. rewrite IH; auto.
        * cbn [length]. rewrite <- app_assoc, Nat.add_succ_comm. reflexivity.
        * rewrite <- sinsert_snoc by auto. now apply sinsert_ssorted.
        * intros y Hy. apply in_app_iff in Hy as [Hy|[<-|[]]]; [apply Hc in Hy; lia|lia].
        * intros i Hi. apply Hv. cbn. lia.
      + rewrite IH; auto.
        * cbn [length app]. rewrite Nat.add_succ_comm. reflexivity.
        * intros y Hy. apply Hc in Hy. lia.
        * intros i Hi. apply Hv. cbn. lia.
  Qed.

  (* the pointer walks along the pivots; the first rows that the pivots reach *)
  Lemma row_loop_walk : forall rs a b ix cof, pivots = a ++ b -> (forall p, In p a -> p < ix) -> (forall p, In p b -> ix <= p) ->
    Forall (fun r => ssorted (fst r)) rs -> ssorted cof -> (forall y, In y cof -> y < ix) ->
    (reads_past_end pivots (ix + length rs) -> exists v, past_end pivots 0 = Ok v /\
       forall i, i < ix + length rs -> (forall p, In p pivots -> p < i) -> v <> i) ->
    exists pos, foldr_ub (row_step past_end pivots column) (length a, ix, cof) rs =
      Ok (pos, ix + length rs, cof ++ faces_from (fun i => existsb (Nat.eqb i) pivots) ix rs).
  Proof.
    induction rs as [|r rs IH]; intros a b ix cof Ep Ha Hb Sr Sc Hc Hh.
    - exists (length a). cbn. rewrite app_nil_r, Nat.add_0_r. reflexivity.
    - destruct b as [|p b].
      + rewrite app_nil_r in Ep. subst a.
        destruct Hh as (v & Hv & Hn). { exists ix. split; [cbn; lia|auto]. }
        assert (D : deref past_end pivots (length pivots) = Ok v).
        { unfold deref. rewrite (proj2 (nth_error_None pivots (length pivots))) by auto. now rewrite Nat.sub_diag. }
        exists (length pivots). rewrite (row_loop_rest _ v D); auto.
        * do 3 f_equal. unfold faces_from. apply filter_ext_in. intros i Hi. apply in_seq in Hi.
          change (existsb (Nat.eqb i) pivots) with (coord pivots i). replace (coord pivots i) with false; auto.
          symmetry. apply coord_false. intros Hin. apply Ha in Hin. lia.
        * intros i Hi. apply Hn; [lia|]. intros q Hq. apply Ha in Hq. lia.
      + apply Forall_cons_iff in Sr as [S1 S2]. cbn [foldr_ub]. unfold row_step at 1.
        assert (D : deref past_end pivots (length a) = Ok p).
        { unfold deref. rewrite Ep, nth_error_app2, Nat.sub_diag by auto. reflexivity. }
        rewrite D. cbn [bind]. rewrite faces_from_cons. change (existsb (Nat.eqb ix) pivots) with (coord pivots ix).
        assert (Hsp : ssorted (p :: b)).
        { rewrite Ep in Spiv. clear - Spiv. induction a as [|x a IHa]; auto. apply ssorted_cons in Spiv as [A _]. auto. }
        apply ssorted_cons in Hsp as [_ Hpb].
        assert (Hh' : reads_past_end pivots (S ix + length rs) -> exists v, past_end pivots 0 = Ok v /\
           forall i, i < S ix + length rs -> (forall p, In p pivots -> p < i) -> v <> i).
        { intros H. cbn [length] in Hh. rewrite <- Nat.add_succ_comm in Hh. auto. }
        cbn [length]. rewrite <- Nat.add_succ_comm.
        destruct (Nat.eqb_spec p ix) as [E|E].
        * subst p. assert (Ec : coord pivots ix = true). { apply coord_In. rewrite Ep. apply in_app_iff. right. now left. }
          rewrite Ec. cbn [negb andb app bind].
          destruct (IH (a ++ [ix]) b (S ix) cof) as (pos & H); auto.
          -- rewrite Ep, <- app_assoc. reflexivity.
          -- intros q Hq. apply in_app_iff in Hq as [Hq|[<-|[]]]; [apply Ha in Hq; lia|lia].
          -- intros q Hq. apply Hc in Hq. lia.
          -- exists pos. rewrite app_length in H. cbn [length] in H. rewrite Nat.add_1_r in H. exact H.
        * assert (Hp : ix < p). { assert (ix <= p) by (apply Hb; now left). lia. }
          assert (Ec : coord pivots ix = false).
          { apply coord_false. rewrite Ep. intros Hin. apply in_app_iff in Hin as [Hin|[Hin|Hin]]; [apply Ha in Hin|subst|apply Hpb in Hin]; lia. }
          rewrite Ec. cbn [negb andb bind]. rewrite includes_face by auto.
          assert (Hb' : forall q, In q (p :: b) -> S ix <= q) by (intros q [<-|Hq]; [lia|apply Hpb in Hq; lia]).
          assert (Ha' : forall q, In q a -> q < S ix) by (intros q Hq; apply Ha in Hq; lia).
          assert (Hc' : forall q, In q cof -> q < S ix) by (intros q Hq; apply Hc in Hq; lia).
          destruct (is_face column (fst r)).
          -- rewrite sinsert_snoc by auto. destruct (IH a (p :: b) (S ix) (cof ++ [ix])) as (pos & H); auto.
             ++ rewrite <- sinsert_snoc by auto. now apply sinsert_ssorted.
             ++ intros y Hy. apply in_app_iff in Hy as [Hy|[<-|[]]]; [apply Hc in Hy; lia|lia].
             ++ exists pos. rewrite H, <- app_assoc. reflexivity.
          -- destruct (IH a (p :: b) (S ix) cof) as (pos & H); auto. exists pos. exact H.
  Qed.
End Rows.

Lemma faces_from_boundary skip column rows :
  faces_from column skip 0 rows = filter (fun i => negb (skip i)) (boundary (map fst rows) column).
Proof.
  unfold faces_from, boundary. rewrite map_length.
  assert (H : forall l, (forall i, In i l -> i < length rows) ->
    filter (fun i => negb (skip i) && is_face column (fst (nth (i - 0) rows ([], 0%Z)))) l =
    filter (fun i => negb (skip i)) (filter (fun i => is_face column (nth i (map fst rows) [])) l)).
  { induction l as [|i l IH]; intros Hl; cbn; auto. rewrite Nat.sub_0_r.
    rewrite (map_nth fst rows (([], 0%Z) : wsimp) i : nth i (map fst rows) [] = _).
    rewrite IH by (intros j Hj; apply Hl; now right).
    match goal with |- context [filter _ (if ?b2 then _ else _)] =>
      match goal with |- context [negb (skip i) && ?b1] => change b2 with b1; generalize b1; intros bb end end.
    destruct (skip i) eqn:Ek, bb; cbn; rewrite ?Ek; reflexivity. }
  apply H. intros i Hi. apply in_seq in Hi. cbn in Hi. lia.
Qed.

Lemma cofaceList_harmless past_end pivots rows column : ssorted pivots -> ssorted column ->
  Forall (fun r => ssorted (fst r)) rows -> harmless past_end pivots (length rows) ->
  cofaceList past_end pivots rows column = Ok (boundary_without pivots (map fst rows) column).
Proof.
  intros Sp Sc Sr Hh. unfold cofaceList.
  destruct (row_loop_walk past_end pivots column Sp Sc rows [] pivots 0 []) as (pos & H); auto; try (now intros ? []); try constructor.
  - intros p _. lia.
  - cbn [length] in H. rewrite H. cbn [bind snd app]. f_equal. apply faces_from_boundary.
Qed.

(* ---- reduce ---- *)
Definition vals (v : vmap) : list vec := map (fun e => coord (snd e)) v.
Record vinv (m : nat) (v : vmap) : Prop := {
  vi_nodup : NoDup (map fst v);
  vi_cols : forall p c, In (p, c) v -> ssorted c /\ exists c', c = p :: c' /\ forall x, In x c -> x < m
}.

Lemma vfind_Some v p c : vfind v p = Some c -> In (p, c) v.
Proof. induction v as [|[k d] v IH]; cbn; [easy|]. destruct (Nat.eqb_spec p k) as [->|]; [intros [=->]; now left|intros H; right; auto]. Qed.
Lemma vfind_None v p : vfind v p = None -> ~ In p (map fst v).
Proof. induction v as [|[k d] v IH]; cbn; [tauto|]. destruct (Nat.eqb_spec p k) as [->|]; [easy|]. intros H [E|E]; [congruence|]. now apply IH in H. Qed.

Lemma reduce_spec m v : vinv m v -> forall fuel col, ssorted col -> (forall x, In x col -> x < m) ->
  (match col with [] => 0 | p :: _ => m - p end) < fuel ->
  exists r, reduce fuel v col = Some r /\
    match r with
    | None => span (vals v) (coord col)
    | Some c => exists p c', c = p :: c' /\ ssorted c /\ (forall x, In x c -> x < m) /\ ~ In p (map fst v) /\
                  span (vals v) (vadd (coord c) (coord col))
    end.
Proof.
  intros V. induction fuel as [|fuel IH]; intros col Sc Hm Hf; [lia|]. cbn [reduce].
  destruct col as [|p col].
  - exists None. split; auto. eapply span_ext; [|apply span_zero]. intros i. reflexivity.
  - destruct (vfind v p) as [c|] eqn:Ef.
    + apply vfind_Some in Ef. destruct (vi_cols _ _ V p c Ef) as (Ss & c' & -> & Hc).
      destruct (setXOR_spec (p :: c') (p :: col) Ss Sc) as [Sx Ix]. assert (Ex := coord_xor (p :: c') (p :: col) Ss Sc).
      set (old := setXOR (p :: c') (p :: col)) in *.
      assert (Hp : ~ In p old). { intros H. apply Ix in H. cbn in H. tauto. }
      destruct (nlist_eqb old (p :: col)) eqn:En.
      { apply nlist_eqb_eq in En. exfalso. apply Hp. rewrite En. now left. }
      assert (Hin : In (coord (p :: c')) (vals v)) by (unfold vals; apply in_map_iff; exists (p, p :: c'); auto).
      apply ssorted_cons in Ss as [_ L1]. apply ssorted_cons in Sc as [_ L2].
      destruct (IH old) as (r & Er & H); auto.
      * intros x Hx. apply Ix in Hx as [[Hx _]|[Hx _]]; auto.
      * destruct old as [|q old']; [cbn in Hf; specialize (Hm p (or_introl eq_refl)); lia|].
        assert (p < q). { assert (Hq : In q (q :: old')) by now left. apply Ix in Hq as [[[Hq|Hq] N]|[[Hq|Hq] N]]; cbn in N; try tauto; auto. }
        assert (q < m). { assert (Hq : In q (q :: old')) by now left. apply Ix in Hq as [[Hq _]|[Hq _]]; auto. }
        lia.
      * exists r. split; auto. destruct r as [c|].
        -- destruct H as (p0 & c0 & -> & H1 & H2 & H3 & H4). exists p0, c0. split; [auto|]. split; [auto|]. split; [auto|]. split; [auto|].
           eapply span_ext; [|apply span_add; [exact H4|apply span_in, Hin]]. intros i. unfold vadd at 1 2. rewrite Ex. unfold vadd.
           destruct (coord (p0 :: c0) i), (coord (p :: c') i), (coord (p :: col) i); reflexivity.
        -- eapply span_ext; [|apply span_add; [exact H|apply span_in, Hin]]. intros i. unfold vadd at 1. rewrite Ex. unfold vadd.
           destruct (coord (p :: c') i), (coord (p :: col) i); reflexivity.
    + exists (Some (p :: col)). split; auto. exists p, col. split; [auto|]. split; [auto|]. split; [auto|]. split; [now apply vfind_None|].
      eapply span_ext; [|apply span_zero]. intros i. unfold vadd, vzero. now rewrite xorb_nilpotent.
Qed.

Lemma vinv_staircase m v : vinv m v -> forall x, span (vals v) x -> veq x vzero \/ exists p, In p (map fst v) /\ leads p x.
Proof.
  intros V x H. assert (E1 : vals v = map snd (map (fun e => (fst e, coord (snd e))) v)) by (unfold vals; rewrite map_map; reflexivity).
  assert (E2 : map fst v = map fst (map (fun e => (fst e, coord (snd e))) v)) by (rewrite map_map; reflexivity).
  rewrite E1 in H. rewrite E2. apply staircase; auto.
  - rewrite map_map. apply V.
  - intros p c Hin. apply in_map_iff in Hin as ([q d] & E & Hin). inversion E; subst. cbn.
    destruct (vi_cols _ _ V p d Hin) as (Ss & c' & -> & _). now apply leads_head.
Qed.

Lemma not_spanned m v p c : vinv m v -> ssorted (p :: c) -> ~ In p (map fst v) -> ~ span (vals v) (coord (p :: c)).
Proof.
  intros V Ss Hp H. destruct (vinv_staircase m v V _ H) as [E|(q & Hq & L)].
  - specialize (E p). unfold vzero in E. apply coord_false in E. apply E. now left.
  - assert (Lp := leads_head p c Ss). rewrite (leads_unique _ _ _ L Lp) in Hq. contradiction.
Qed.

Lemma least_leads i x : least i x <-> leads i (coord x).
Proof.
  unfold least, leads. rewrite coord_In. split; intros [H K]; split; auto.
  - intros k Hk. apply coord_false. intros Hin. apply K in Hin. lia.
  - intros k Hk. destruct (Nat.le_gt_cases i k); auto. apply K in H0. apply coord_false in H0. contradiction.
Qed.

(* ---- the loop over the columns ---- *)
Definition spans_eq (a b : list vec) : Prop := forall x, span a x <-> span b x.

Lemma fresh_app M c j : j < length M -> fresh (M ++ [c]) j <-> fresh M j.
Proof. intros L. unfold fresh. rewrite nth_error_app1, firstn_app by auto. replace (j - length M) with 0 by lia. now rewrite app_nil_r. Qed.
Lemma fresh_lt M j : fresh M j -> j < length M.
Proof. intros (x & H & _). apply nth_error_Some. congruence. Qed.
Lemma fresh_last M c : fresh (M ++ [c]) (length M) <-> ~ span (map coord M) (coord c).
Proof.
  unfold fresh. rewrite nth_error_app2, Nat.sub_diag, firstn_app, Nat.sub_diag, firstn_all, app_nil_r by auto. cbn.
  setoid_rewrite combination_span. split; [intros (x & [=->] & H); auto|intros H; exists c; auto].
Qed.
Lemma reduced_app M c j x : j < length M -> reduced (M ++ [c]) j x <-> reduced M j x.
Proof. intros L. unfold reduced. rewrite nth_error_app1, firstn_app by auto. replace (j - length M) with 0 by lia. now rewrite app_nil_r. Qed.
Lemma paired_app M c i j : j < length M -> paired (M ++ [c]) i j <-> paired M i j.
Proof. intros L. unfold paired. setoid_rewrite reduced_app; auto. reflexivity. Qed.

Lemma NoDup_snoc {A} (l : list A) x : NoDup l -> ~ In x l -> NoDup (l ++ [x]).
Proof.
  induction l as [|y l IH]; cbn; intros N H; [repeat constructor; auto|]. inversion N; subst. constructor.
  - rewrite in_app_iff. cbn. intuition. - apply IH; auto.
Qed.

Record cinvr (m : nat) (M : list (list nat)) (v : vmap) (ps : list (nat * nat)) : Prop := {
  cr_v : vinv m v;
  cr_span : spans_eq (vals v) (map coord M);
  cr_keys : map fst v = rev (map fst ps);
  cr_pair : pairing M ps;
  cr_bound : forall i j, In (i, j) ps -> i < m /\ j < length M
}.

(* a vector as a sorted list *)
Lemma combination_list M y : Forall ssorted M -> span (map coord M) y -> exists l, ssorted l /\ veq (coord l) y.
Proof.
  revert y. induction M as [|c M IH]; cbn; intros y Ss H.
  - exists []. split; [constructor|]. intros i. now rewrite H.
  - inversion Ss; subst. destruct H as [H|H]; apply IH in H as (l & Sl & E); auto.
    + exists l. auto.
    + exists (setXOR l c). split; [now apply setXOR_spec|]. intros i. rewrite coord_xor by auto. unfold vadd. rewrite E. unfold vadd.
      destruct (y i), (coord c i); reflexivity.
Qed.

Lemma col_advance m M v ps c : cinvr m M v ps -> Forall ssorted M -> ssorted c -> (forall x, In x c -> x < m) ->
  exists r, reduce (S (S m)) v c = Some r /\
    match r with
    | None => cinvr m (M ++ [c]) v ps
    | Some col => exists p col', col = p :: col' /\ p < m /\ cinvr m (M ++ [c]) ((p, col) :: v) (ps ++ [(p, length M)])
    end.
Proof.
  intros C SM Sc Hc. assert (V := cr_v _ _ _ _ C). assert (SE : forall x, span (vals v) x <-> span (map coord M) x) by exact (cr_span _ _ _ _ C). assert (Bd := cr_bound _ _ _ _ C).
  destruct (cr_pair _ _ _ _ C) as (P1 & P2 & P3 & P4).
  destruct (reduce_spec m v V (S (S m)) c Sc Hc) as (r & Er & H). { destruct c; lia. }
  exists r. split; auto. destruct r as [col|].
  - destruct H as (p & col' & -> & Sp & Hm & Hk & Hs). exists p, col'. split; auto.
    assert (Lp : p < m) by (apply Hm; now left). split; auto.
    assert (Hnc : ~ span (vals v) (coord c)).
    { intros K. apply (not_spanned m v p col' V Sp Hk). eapply span_ext; [|apply span_add; [exact Hs|exact K]]. intros i. unfold vadd.
      destruct (coord (p :: col') i), (coord c i); reflexivity. }
    assert (Hkeys : ~ In p (map fst ps)). { intros K. apply Hk. rewrite (cr_keys _ _ _ _ C). now apply in_rev in K. }
    constructor.
    + constructor; cbn; [constructor; auto; apply V|]. intros q d [E|Hin]; [inversion E; subst; eauto|]. apply V. auto.
    + intros x. rewrite map_app. cbn [map]. rewrite span_snoc. change (vals ((p, p :: col') :: v)) with (coord (p :: col') :: vals v).
      cbn [span]. rewrite <- !SE. split; intros [K|K]; auto; right.
      * eapply span_ext; [|apply span_add; [exact K|exact Hs]]. intros i. unfold vadd.
        destruct (x i), (coord (p :: col') i), (coord c i); reflexivity.
      * eapply span_ext; [|apply span_add; [exact K|exact Hs]]. intros i. unfold vadd.
        destruct (x i), (coord (p :: col') i), (coord c i); reflexivity.
    + cbn. rewrite map_app, rev_app_distr. cbn. now rewrite (cr_keys _ _ _ _ C).
    + split; [|split; [|split]].
      * rewrite map_app. cbn. clear - P1 Bd.
        assert (H : forall j, In j (map snd ps) -> j < length M) by (intros j Hj; apply in_map_iff in Hj as ([i k] & <- & Hj); apply Bd in Hj; cbn; tauto).
        induction (map snd ps) as [|x l IH]; cbn; [repeat constructor|]. apply ssorted_cons in P1 as [A B]. apply ssorted_cons. split.
        -- apply IH; auto. intros j Hj. apply H. now right.
        -- intros y Hy. apply in_app_iff in Hy as [Hy|[<-|[]]]; auto. apply H. now left.
      * rewrite map_app. cbn. apply NoDup_snoc; auto.
      * intros j. rewrite map_app, in_app_iff. cbn. split.
        -- intros [Hj|[<-|[]]].
           ++ assert (L : j < length M) by (apply fresh_lt, P3, Hj). apply fresh_app; auto. now apply P3.
           ++ apply fresh_last. now rewrite <- SE.
        -- intros Hf. assert (L := fresh_lt _ _ Hf). rewrite app_length in L. cbn in L.
           destruct (Nat.eq_dec j (length M)) as [->|N]; auto. left. apply P3. eapply fresh_app; eauto. lia.
      * intros i j Hin. apply in_app_iff in Hin as [Hin|[E|[]]].
        -- assert (L : j < length M) by (apply Bd in Hin; tauto). apply paired_app; auto.
        -- injection E as <- <-.
           assert (En : nth_error (M ++ [c]) (length M) = Some c) by (now rewrite nth_error_app2, Nat.sub_diag by auto).
           assert (Ef : firstn (length M) (M ++ [c]) = M) by (now rewrite firstn_app, Nat.sub_diag, firstn_all, app_nil_r).
           split.
           ++ exists (p :: col'). split; [|apply least_leads, leads_head; auto].
              destruct (combination_list M (vadd (coord (p :: col')) (coord c)) SM) as (y & Sy & Ey); [now apply SE|].
              exists c, y. rewrite Ef. split; auto. split.
              ** apply combination_span. eapply span_ext; [apply veq_sym, Ey|]. now apply SE.
              ** intros k. rewrite Ey. unfold vadd. destruct (coord (p :: col') k), (coord c k); reflexivity.
           ++ intros x (c0 & y & E0 & Hy & Ex). rewrite En in E0. injection E0 as <-. rewrite Ef in Hy. apply combination_span, SE in Hy.
              assert (Hd : span (vals v) (vadd (coord x) (coord (p :: col')))).
              { eapply span_ext; [|apply span_add; [exact Hy|exact Hs]]. intros k. unfold vadd. rewrite Ex.
                destruct (coord y k), (coord (p :: col') k), (coord c k); reflexivity. }
              assert (Lp' := leads_head p col' Sp). destruct Lp' as [A1 A2].
              destruct (vinv_staircase m v V _ Hd) as [E|(q & Hq & [B1 B2])].
              ** exists p. split; auto. apply least_leads. assert (Exc : veq (coord x) (coord (p :: col'))).
                 { intros k. specialize (E k). unfold vadd, vzero in E. destruct (coord x k), (coord (p :: col') k); auto; discriminate. }
                 split; [now rewrite Exc|]. intros k Hk'. rewrite Exc. auto.
              ** assert (Nq : q <> p) by (intros ->; contradiction). unfold vadd in B1, B2.
                 destruct (lt_eq_lt_dec q p) as [[Hlt|Heq]|Hgt]; [| |].
                 --- exists q. split; [|lia]. apply least_leads. rewrite (A2 q Hlt), xorb_false_r in B1. split; auto.
                     intros k Hk'. specialize (B2 k Hk'). rewrite A2, xorb_false_r in B2 by lia. auto.
                 --- contradiction.
                 --- exists p. split; auto. apply least_leads. specialize (B2 p Hgt) as B3. rewrite A1, xorb_true_r in B3. split.
                     +++ now destruct (coord x p).
                     +++ intros k Hk'. specialize (B2 k ltac:(lia)). rewrite A2, xorb_false_r in B2 by lia. auto.
    + intros i j Hin. rewrite app_length. cbn. apply in_app_iff in Hin as [Hin|[E|[]]].
      * apply Bd in Hin. lia. * injection E as <- <-. lia.
  - constructor; auto.
    + intros x. rewrite map_app. cbn [map]. rewrite span_snoc, <- !SE. split; auto. intros [K|K]; auto.
      eapply span_ext; [|apply span_add; [exact K|exact H]]. intros i. unfold vadd. destruct (x i), (coord c i); reflexivity.
    + apply C.
    + split; [auto|split; [auto|split]].
      * intros j. split.
        -- intros Hj. assert (L : j < length M) by (apply fresh_lt, P3, Hj). apply fresh_app; auto. now apply P3.
        -- intros Hf. assert (L := fresh_lt _ _ Hf). rewrite app_length in L. cbn in L.
           destruct (Nat.eq_dec j (length M)) as [->|N].
           ++ apply fresh_last in Hf. rewrite <- SE in Hf. contradiction.
           ++ apply P3. eapply fresh_app; eauto. lia.
      * intros i j Hin. assert (L : j < length M) by (apply Bd in Hin; tauto). apply paired_app; auto.
    + intros i j Hin. apply Bd in Hin. rewrite app_length. lia.
Qed.
