(* RobustRuns.v -- two runs on clouds with the same, pairwise different distances: dimension 1. *)
From Coq Require Import String List Arith ZArith Bool Lia Sorted Permutation Relations.
From Verif Require Import Base Spec UtilsModel UtilsProofs PartitionProofs ArrayListModel ArrayListProofs SpecComplex FastModel SpecGraph SpecLinear SpecFast ArgModel SpecArgs PipeModel SpecPipe.
From Verif Require Import KruskalProofs LinearProofs ReductionProofs FastProofs FastRuns PipeRuns SpecRobust RobustProofs.
Import ListNotations.
Local Open Scope nat_scope.
Local Open Scope list_scope.

(* ---- which rows are paired by a prefix of the columns ---- *)
Lemma firstn_snoc {A} (l : list A) m x : nth_error l m = Some x -> firstn (S m) l = firstn m l ++ [x].
Proof.
  revert m. induction l as [|a l IH]; intros [|m] H; try discriminate; cbn in *.
  - now injection H as ->. - now rewrite <- IH.
Qed.
Lemma NoDup_fst_unique {A B} (l : list (A * B)) a b b' : NoDup (map fst l) -> In (a, b) l -> In (a, b') l -> b = b'.
Proof.
  induction l as [|[x y] l IH]; cbn; intros N H K; [easy|]. inversion N; subst. destruct H as [E|H], K as [E'|K].
  - congruence. - injection E as -> ->. exfalso. apply H2. apply (in_map fst) in K. exact K.
  - injection E' as -> ->. exfalso. apply H2. apply (in_map fst) in H. exact H. - auto.
Qed.
Lemma pairing_basis M ps : pairing M ps -> forall m, m <= length M ->
  exists v, NoDup (map fst v) /\ (forall p c, In (p, c) v -> leads p c) /\
    (forall p, In p (map fst v) -> exists j, j < m /\ In (p, j) ps) /\
    forall x, span (map coord (firstn m M)) x -> span (map snd v) x.
Proof.
  intros (P1 & P2 & P3 & P4). induction m as [|m IH]; intros Hm.
  - exists []. cbn. repeat split; try constructor; try easy.
  - destruct IH as (v & N & L & B & S); [lia|]. destruct (nth_error M m) as [c|] eqn:Ec; [|apply nth_error_None in Ec; lia].
    rewrite (firstn_snoc _ _ _ Ec), map_app. cbn [map].
    destruct (span_dec (firstn m M) c) as [D|D].
    + exists v. split; auto. split; auto. split; [intros p Hp; destruct (B p Hp) as (j & Hj & Hi); exists j; split; auto|].
      intros x. rewrite span_snoc. intros [H|H]; auto. apply S. apply span_ext with (vadd (vadd x (coord c)) (coord c)).
      { intros i. unfold vadd. destruct (x i), (coord c i); reflexivity. } now apply span_add.
    + assert (Hf : fresh M m). { exists c. split; auto. now rewrite combination_span. }
      apply P3 in Hf. apply in_map_iff in Hf as ([i j] & Ej & Hij). cbn in Ej. subst j.
      destruct (P4 i m Hij) as ((x & (c' & y & Ec' & Cy & Ex) & Lx) & _). rewrite Ec in Ec'. injection Ec' as <-.
      exists ((i, coord x) :: v). cbn [map fst snd]. split; [|split; [|split]].
      * constructor; auto. intros Hi. destruct (B i Hi) as (j & Hj & Hij'). assert (j = m); [|lia].
        eapply NoDup_fst_unique; eauto.
      * intros p d [E|Hp]; [injection E as <- <-; now apply least_leads|auto].
      * intros p [<-|Hp]; [exists m; split; auto|]. destruct (B p Hp) as (j & Hj & Hi). exists j. split; auto.
      * assert (Sc : span (coord x :: map snd v) (coord c)).
        { right. apply S. apply span_ext with (coord y); [|now apply combination_span]. intros k. unfold vadd. rewrite Ex.
          destruct (coord c k), (coord y k); reflexivity. }
        intros z. rewrite span_snoc. intros [H|H]; [left; auto|].
        apply span_ext with (vadd (vadd z (coord c)) (coord c)). { intros k. unfold vadd. destruct (z k), (coord c k); reflexivity. }
        apply span_add; auto. left. auto.
Qed.

Lemma span_mono cs ds : incl cs ds -> forall x, span cs x -> span ds x.
Proof. intros I. apply span_sub. intros c Hc. apply span_in. auto. Qed.
Lemma pairing_leads M ps i m : pairing M ps -> m <= length M ->
  ((exists j, j < m /\ In (i, j) ps) <-> exists x, span (map coord (firstn m M)) x /\ leads i x).
Proof.
  intros P Hm. split.
  - intros (j & Hj & Hij). destruct P as (_ & _ & _ & P4). destruct (P4 i j Hij) as ((x & (c & y & Ec & Cy & Ex) & Lx) & _).
    exists (coord x). split; [|now apply least_leads]. apply span_ext with (vadd (coord c) (coord y)).
    { intros k. unfold vadd. now rewrite Ex. }
    assert (I : incl (map coord (firstn (S j) M)) (map coord (firstn m M))).
    { intros z Hz. apply in_map_iff in Hz as (q & <- & Hq). apply in_map. rewrite <- (firstn_skipn (S j) (firstn m M)), firstn_firstn.
      apply in_app_iff. left. now rewrite Nat.min_l by lia. }
    apply (span_mono _ _ I). rewrite (firstn_snoc _ _ _ Ec), map_app. cbn [map]. apply span_add.
    + apply span_in, in_app_iff. right. now left.
    + apply span_snoc. left. now apply combination_span.
  - intros (x & Sx & Lx). destruct (pairing_basis M ps P m Hm) as (v & N & L & B & S).
    destruct (staircase v N L x (S x Sx)) as [E|(p & Hp & Lp)].
    + destruct Lx as [H _]. rewrite E in H. discriminate.
    + rewrite (leads_unique _ _ _ Lx Lp). auto.
Qed.

(* Columns in order of weight: which rows are paired, and at which weight, depends only on the set of weighted columns. *)
Lemma pairing_weight cs ps i t : StronglySorted by_weight cs -> pairing (map fst cs) ps ->
  ((exists j, In (i, j) ps /\ (edge_weight cs j <= t)%Z) <-> exists x, span (map coord (map fst (up_to t cs))) x /\ leads i x).
Proof.
  intros S P. destruct (up_to_prefix cs t S) as (k & E1 & E2).
  assert (Lt : forall j, In (i, j) ps -> j < length cs).
  { intros j Hj. destruct P as (_ & _ & P3 & _). assert (F : fresh (map fst cs) j) by (apply P3; now apply (in_map snd) in Hj).
    apply fresh_lt in F. now rewrite map_length in F. }
  assert (Q := pairing_leads (map fst cs) ps i (Nat.min k (length cs)) P ltac:(rewrite map_length; lia)).
  assert (Ef : firstn (Nat.min k (length cs)) (map fst cs) = map fst (up_to t cs)).
  { rewrite E1, <- firstn_map. destruct (Nat.min_spec k (length cs)) as [[H ->]|[H ->]]; auto.
    rewrite <- (map_length fst cs) at 1. rewrite firstn_all, firstn_all2; auto. now rewrite map_length. }
  rewrite Ef in Q. rewrite <- Q. split.
  - intros (j & Hj & W). exists j. split; auto. assert (j < length cs) by auto. apply E2 in W; auto. lia.
  - intros (j & Hj & Hi). exists j. split; auto. apply E2; auto. lia.
Qed.
Definition births_deaths (cs : list wsimp) (ps : list (nat * nat)) : list (nat * Z) := map (fun p => (fst p, edge_weight cs (snd p))) ps.
Lemma same_pairs cs cs' ps ps' : StronglySorted by_weight cs -> StronglySorted by_weight cs' ->
  (forall c w, In (c, w) cs <-> In (c, w) cs') -> pairing (map fst cs) ps -> pairing (map fst cs') ps' ->
  Permutation (births_deaths cs ps) (births_deaths cs' ps').
Proof.
  intros S S' H P P'.
  assert (Nd : forall cs ps, pairing (map fst cs) ps -> NoDup (births_deaths cs ps)).
  { intros c p (_ & N & _). apply NoDup_map_inv with (f := fst). unfold births_deaths. rewrite map_map. exact N. }
  assert (Half : forall cs cs' ps ps', StronglySorted by_weight cs -> StronglySorted by_weight cs' ->
    (forall c w, In (c, w) cs <-> In (c, w) cs') -> pairing (map fst cs) ps -> pairing (map fst cs') ps' ->
    forall i w, In (i, w) (births_deaths cs ps) -> exists w', In (i, w') (births_deaths cs' ps') /\ (w' <= w)%Z).
  { clear. intros cs cs' ps ps' S S' H P P' i w Hi. apply in_map_iff in Hi as ([i' j] & E & Hij). injection E as -> <-.
    assert (A : exists j, In (i, j) ps /\ (edge_weight cs j <= edge_weight cs (snd (i, j)))%Z) by (exists j; split; auto; cbn; lia).
    cbn [snd] in *. clear A. assert (A : exists x, span (map coord (map fst (up_to (edge_weight cs j) cs))) x /\ leads i x).
    { apply (pairing_weight cs ps i _ S P). exists j. split; auto. lia. }
    destruct A as (x & Sx & Lx). assert (B : exists j', In (i, j') ps' /\ (edge_weight cs' j' <= edge_weight cs j)%Z).
    { apply (pairing_weight cs' ps' i _ S' P'). exists x. split; auto. revert Sx. apply span_mono. intros z Hz.
      apply in_map_iff in Hz as (q & <- & Hq). apply in_map. apply in_map_iff in Hq as ([c u] & <- & Hc). cbn [fst].
      apply filter_In in Hc as [Hc Hu]. apply in_map_iff. exists (c, u). split; auto. apply filter_In. split; auto. now apply H. }
    destruct B as (j' & Hj' & W). exists (edge_weight cs' j'). split; auto. apply in_map_iff. exists (i, j'). auto. }
  assert (Fst : forall cs ps, pairing (map fst cs) ps -> forall i w w', In (i, w) (births_deaths cs ps) -> In (i, w') (births_deaths cs ps) -> w = w').
  { intros c p (_ & N & _) i w w'. apply NoDup_fst_unique. unfold births_deaths. rewrite map_map. exact N. }
  assert (H' : forall c w, In (c, w) cs' <-> In (c, w) cs) by (intros; symmetry; apply H).
  apply NoDup_Permutation; auto. intros [i w]. split; intros Hi.
  - destruct (Half cs cs' ps ps' S S' H P P' i w Hi) as (w' & Hw' & L). destruct (Half cs' cs ps' ps S' S H' P' P i w' Hw') as (w'' & Hw'' & L').
    rewrite (Fst _ _ P _ _ _ Hi Hw'') in *. replace w'' with w' by lia. auto.
  - destruct (Half cs' cs ps' ps S' S H' P' P i w Hi) as (w' & Hw' & L). destruct (Half cs cs' ps ps' S S' H P P' i w' Hw') as (w'' & Hw'' & L').
    rewrite (Fst _ _ P' _ _ _ Hi Hw'') in *. replace w'' with w' by lia. auto.
Qed.

Lemma flat_map_perm {A B} (f : A -> list B) l l' : Permutation l l' -> Permutation (flat_map f l) (flat_map f l').
Proof.
  induction 1 as [|x l l' _ IH|x y l|l l' l'' _ IH1 _ IH2]; cbn; auto.
  - now apply Permutation_app_head.
  - rewrite !app_assoc. apply Permutation_app_tail, Permutation_app_comm.
  - eapply Permutation_trans; eauto.
Qed.
Definition bar_of (d : nat) (rows : list wsimp) (p : nat * Z) : list (nat * Z * Z) :=
  let b := snd (nth (fst p) rows ([], 0%Z)) in if (b =? snd p)%Z then [] else [(d, b, snd p)].
Lemma bars_pairs d rows cols cs ps : (forall i j, In (i, j) ps -> edge_weight cs j = edge_weight cols j) ->
  bars d rows cols ps = flat_map (bar_of d rows) (births_deaths cs ps).
Proof.
  intros H. unfold bars, births_deaths. induction ps as [|[i j] ps IH]; cbn [flat_map map]; auto.
  rewrite IH by (intros a b Hab; eapply H; right; eauto). f_equal. unfold bar_of. cbn [fst snd].
  rewrite (H i j (or_introl eq_refl)). reflexivity.
Qed.
Lemma bar_of_rows d rows rows' : map snd rows = map snd rows' -> forall p, bar_of d rows p = bar_of d rows' p.
Proof.
  intros E p. unfold bar_of. assert (G : snd (nth (fst p) rows ([], 0%Z)) = snd (nth (fst p) rows' ([], 0%Z))).
  { change 0%Z with (snd (@nil nat, 0%Z)) at 1. rewrite <- !(map_nth snd). now rewrite E. }
  now rewrite G.
Qed.

Lemma seq_inc n : forall k, increasing (seq k n).
Proof.
  induction n as [|n IH]; intros k; cbn; constructor; auto. apply Forall_forall. intros x Hx. apply in_seq in Hx. lia.
Qed.
(* ---- carrying simplices along a matching of the points ---- *)
Record matching (n : nat) (D D' : nat -> nat -> Z) (f : nat -> nat) : Prop := {
  mt_bound : forall u, u < n -> f u < n;
  mt_inj : forall u v, u < n -> v < n -> f u = f v -> u = v;
  mt_sym : forall u v, D u v = D v u;
  mt_sym' : forall u v, D' u v = D' v u;
  mt_dist : forall u v, u < n -> v < n -> u <> v -> D' (f u) (f v) = D u v }.
Definition bounded (n : nat) (s : list nat) : Prop := forall v, In v s -> v < n.
Definition image (n : nat) (f : nat -> nat) (s : list nat) : list nat := filter (fun v => existsb (fun u => f u =? v) s) (seq 0 n).

Lemma inverse_exists n D D' f : matching n D D' f -> exists g, matching n D' D g /\ (forall v, v < n -> f (g v) = v) /\ (forall u, u < n -> g (f u) = u).
Proof.
  intros M. exists (fun v => match find (fun u => f u =? v) (seq 0 n) with Some u => u | None => 0 end).
  assert (G : forall v, v < n -> exists u, u < n /\ f u = v /\ match find (fun u => f u =? v) (seq 0 n) with Some u => u | None => 0 end = u).
  { intros v Hv. destruct (find (fun u => f u =? v) (seq 0 n)) as [u|] eqn:E.
    - apply find_some in E as [E1 E2]. apply in_seq in E1. apply Nat.eqb_eq in E2. exists u. split; [lia|auto].
    - exfalso. destruct (injection_onto n f (mt_bound _ _ _ _ M) (mt_inj _ _ _ _ M) v Hv) as (x & Hx & Ex).
      assert (F := find_none _ _ E x ltac:(apply in_seq; lia)). cbn in F. apply Nat.eqb_neq in F. auto. }
  split; [constructor|split].
  - intros v Hv. destruct (G v Hv) as (u & Hu & _ & ->). auto.
  - intros a b Ha Hb. destruct (G a Ha) as (u & Hu & E & ->), (G b Hb) as (v & Hv & E' & ->). congruence.
  - apply M. - apply M.
  - intros a b Ha Hb Hab. destruct (G a Ha) as (u & Hu & E & ->), (G b Hb) as (v & Hv & E' & ->). rewrite <- E, <- E'.
    symmetry. apply M; auto. congruence.
  - intros v Hv. destruct (G v Hv) as (u & Hu & E & ->). auto.
  - intros u Hu. destruct (G (f u) (mt_bound _ _ _ _ M u Hu)) as (v & Hv & E & ->). now apply (mt_inj _ _ _ _ M).
Qed.

Section Image.
  Variables (n : nat) (D D' : nat -> nat -> Z) (f : nat -> nat).
  Hypothesis M : matching n D D' f.
  Lemma image_In s v : bounded n s -> (In v (image n f s) <-> exists u, In u s /\ f u = v).
  Proof.
    intros B. unfold image. rewrite filter_In, existsb_exists, in_seq. split.
    - intros (_ & u & Hu & E). exists u. split; auto. now apply Nat.eqb_eq.
    - intros (u & Hu & <-). split; [assert (f u < n) by (apply M, B; auto); lia|]. exists u. split; auto. apply Nat.eqb_refl.
  Qed.
  Lemma image_bounded s : bounded n (image n f s).
  Proof. intros v Hv. apply filter_In in Hv as [Hv _]. apply in_seq in Hv. lia. Qed.
  Lemma image_sorted s : increasing (image n f s).
  Proof. apply ssorted_filter, seq_inc. Qed.
  Lemma image_length s : bounded n s -> NoDup s -> length (image n f s) = length s.
  Proof.
    intros B N. rewrite <- (map_length f s). apply Permutation_length, NoDup_Permutation.
    - apply NoDup_filter, seq_NoDup.
    - clear - M B N. induction s as [|a s IH]; cbn; constructor; inversion N; subst.
      + intros H. apply in_map_iff in H as (b & E & Hb). apply (mt_inj _ _ _ _ M) in E; [congruence|apply B; now right|apply B; now left].
      + apply IH; auto. intros v Hv. apply B. now right.
    - intros v. rewrite (image_In s v B), in_map_iff. split; intros (u & H1 & H2); exists u; auto.
  Qed.
  Lemma image_pair (P : Z -> Prop) s : bounded n s -> (forall u v, In u s -> In v s -> u < v -> P (D u v)) ->
    forall u v, In u (image n f s) -> In v (image n f s) -> u < v -> P (D' u v).
  Proof.
    intros B H u v Hu Hv Huv. apply (image_In s u B) in Hu as (a & Ha & <-). apply (image_In s v B) in Hv as (b & Hb & <-).
    rewrite (mt_dist _ _ _ _ M) by (auto; intros ->; lia). destruct (lt_eq_lt_dec a b) as [[L| ->]|L]; [auto|lia|]. rewrite (mt_sym _ _ _ _ M). auto.
  Qed.
  Lemma image_flag (cl : Z -> Prop) s : flag_simplex (fun u v => cl (D u v)) n s -> flag_simplex (fun u v => cl (D' u v)) n (image n f s).
  Proof.
    intros (N & S & B & C). split; [|split; [apply image_sorted|split; [apply image_bounded|now apply image_pair]]].
    destruct s as [|a s]; [easy|]. intros E. assert (H : In (f a) (image n f (a :: s))) by (apply image_In; auto; exists a; split; auto; now left).
    rewrite E in H. destruct H.
  Qed.
  Lemma image_diameter s w : bounded n s -> increasing s -> diameter D s w -> diameter D' (image n f s) w.
  Proof.
    intros B S (H1 & H2). split; [now apply image_pair with (P := fun d => (d <= w)%Z)|]. destruct H2 as [(u & v & Hu & Hv & Huv & E)|[L E]].
    - left. assert (Du : D' (f u) (f v) = w) by (rewrite (mt_dist _ _ _ _ M); auto; lia).
      assert (Iu : In (f u) (image n f s)) by (apply image_In; auto; exists u; auto).
      assert (Iv : In (f v) (image n f s)) by (apply image_In; auto; exists v; auto).
      destruct (lt_eq_lt_dec (f u) (f v)) as [[L|L]|L].
      + exists (f u), (f v). auto.
      + apply (mt_inj _ _ _ _ M) in L; auto. lia.
      + exists (f v), (f u). repeat split; auto. now rewrite (mt_sym' _ _ _ _ M).
    - right. split; auto. rewrite image_length; auto. now apply ssorted_NoDup.
  Qed.
  Lemma image_face s t : bounded n s -> bounded n t -> is_face (image n f s) (image n f t) = is_face s t.
  Proof.
    intros Bs Bt. apply eq_true_iff_eq. unfold is_face. rewrite !forallb_forall. split; intros H v Hv.
    - specialize (H (f v)). rewrite (image_In t (f v) Bt) in H. specialize (H (ex_intro _ v (conj Hv eq_refl))).
      apply existsb_exists in H as (y & Hy & E). apply Nat.eqb_eq in E. subst y. apply (image_In s _ Bs) in Hy as (u & Hu & E).
      apply (mt_inj _ _ _ _ M) in E; auto. subst u. apply existsb_exists. exists v. split; auto. apply Nat.eqb_refl.
    - apply (image_In t v Bt) in Hv as (u & Hu & <-). specialize (H u Hu). apply existsb_exists in H as (y & Hy & E). apply Nat.eqb_eq in E. subst y.
      apply existsb_exists. exists (f u). split; [|apply Nat.eqb_refl]. apply image_In; auto. exists u. auto.
  Qed.
  Lemma image_boundary rows s : (forall r, In r rows -> bounded n r) -> bounded n s -> boundary (map (image n f) rows) (image n f s) = boundary rows s.
  Proof.
    intros Br Bs. unfold boundary. rewrite map_length. apply filter_ext_in. intros i Hi. apply in_seq in Hi.
    rewrite nth_indep with (d' := image n f []) by (rewrite map_length; lia). rewrite map_nth. apply image_face; auto. apply Br, nth_In. lia.
  Qed.
End Image.
Lemma image_back n D D' f g s : matching n D D' f -> matching n D' D g -> (forall u, u < n -> g (f u) = u) ->
  bounded n s -> increasing s -> image n g (image n f s) = s.
Proof.
  intros Mf Mg H B S. apply ssorted_ext; auto; [apply image_sorted|]. intros v.
  rewrite (image_In n D' D g Mg) by apply image_bounded. split.
  - intros (u & Hu & <-). apply (image_In n D D' f Mf) in Hu as (w & Hw & <-); auto. rewrite H; auto.
  - intros Hv. exists (f v). split; auto. apply (image_In n D D' f Mf); auto. exists v. auto.
Qed.

(* ---- the levels of the two complexes ---- *)
Lemma zsorted_ext l l' : StronglySorted Z.lt l -> StronglySorted Z.lt l' -> (forall x, In x l <-> In x l') -> l = l'.
Proof.
  revert l'. induction l as [|a l IH]; intros [|b l'] S S' H; auto.
  - exfalso. apply (proj2 (H b)). now left.
  - exfalso. apply (proj1 (H a)). now left.
  - apply StronglySorted_inv in S as [S1 S2], S' as [S1' S2']. rewrite Forall_forall in *.
    assert (a = b).
    { destruct (proj1 (H a) (or_introl eq_refl)) as [E|E]; auto. destruct (proj2 (H b) (or_introl eq_refl)) as [E'|E']; auto.
      specialize (S2 _ E'). specialize (S2' _ E). lia. }
    subst b. f_equal. apply IH; auto. intros x. specialize (H x). cbn in H. split; intros Hx.
    + destruct (proj1 H (or_intror Hx)) as [<-|]; auto. specialize (S2 _ Hx). lia.
    + destruct (proj2 H (or_intror Hx)) as [<-|]; auto. specialize (S2' _ Hx). lia.
Qed.
(* No two edges have the same weight. *)
Definition distinct_weights (l : list wsimp) : Prop := forall s t w, In (s, w) l -> In (t, w) l -> s = t.
Lemma strict_weights l : StronglySorted by_weight l -> NoDup (map fst l) -> distinct_weights l -> StronglySorted Z.lt (map snd l).
Proof.
  unfold by_weight. induction l as [|[s w] l IH]; intros S N H; cbn; [constructor|].
  apply StronglySorted_inv in S as [S1 S2]. cbn in N. inversion N; subst. rewrite Forall_forall in S2.
  constructor; [apply IH; auto; intros a b x Ha Hb; eapply H; right; eauto|]. apply Forall_forall. intros x Hx.
  apply in_map_iff in Hx as ([t y] & <- & Ht). cbn. specialize (S2 _ Ht). cbn in S2. assert (w <> y); [|lia].
  intros <-. rewrite (H s t w) in H2 by (cbn; auto). apply H2. apply (in_map fst) in Ht. exact Ht.
Qed.
Lemma rows_match l l' (phi : list nat -> list nat) : map snd l = map snd l' -> distinct_weights l' ->
  (forall s w, In (s, w) l -> In (phi s, w) l') -> map fst l' = map phi (map fst l).
Proof.
  intros E Dw H. revert E. assert (Hl : incl l l) by apply incl_refl. assert (Hl' : incl l' l') by apply incl_refl. revert Hl Hl'.
  generalize l at 1 3 4. generalize l' at 1 3 4. intros m' m. revert m'. induction m as [|[s w] m IH]; intros [|[s' w'] m'] I I' E; try discriminate; auto.
  cbn in *. injection E as E1 E2. subst w'. f_equal.
  - apply (Dw s' (phi s) w); [apply I'; now left|]. apply H, I. now left.
  - apply IH; auto; intros x Hx; [apply I|apply I']; now right.
Qed.

Section TwoComplexes.
  Variables (n top top' : nat) (D D' : nat -> nat -> Z) (f : nat -> nat) (cl : Z -> Prop) (E E' : wgraph).
  Hypothesis M : matching n D D' f.
  Hypothesis L : lists_rips D cl n top E.
  Hypothesis L' : lists_rips D' cl n top' E'.
  Lemma level_image k s w : k <= top' -> In (s, w) (level E k) -> In (image n f s, w) (level E' k).
  Proof.
    intros Hk H. apply (proj1 L) in H as (H1 & H2 & H3 & H4). assert (B := proj1 (proj2 (proj2 H3))). assert (S := proj1 (proj2 H3)).
    apply (proj1 L'). split; [rewrite (image_length n D D' f M); auto; now apply ssorted_NoDup|]. split; auto.
    split; [now apply (image_flag n D D' f M)|now apply (image_diameter n D D' f M)].
  Qed.
  Lemma level_shape k s w : In (s, w) (level E k) -> bounded n s /\ increasing s.
  Proof. intros H. apply (proj1 L) in H as (_ & _ & (_ & H1 & H2 & _) & _). auto. Qed.
End TwoComplexes.

Lemma distinct_edges dist data cl top E : lists_rips (separation dist data) cl (length data) top E -> distinct_distances dist data ->
  distinct_weights (level E 1).
Proof.
  intros L Dd s t w Hs Ht. apply (proj1 L) in Hs as (L1 & _ & (_ & S1 & B1 & _) & Di1). apply (proj1 L) in Ht as (L2 & _ & (_ & S2 & B2 & _) & Di2).
  destruct s as [|u [|v [|]]]; try discriminate. destruct t as [|u' [|v' [|]]]; try discriminate.
  assert (X : forall a b, increasing [a; b] -> diameter (separation dist data) [a; b] w -> a < b /\ separation dist data a b = w).
  { intros a b S (_ & [(x & y & Hx & Hy & Hxy & E')|[H _]]); [|cbn in H; lia]. inversion S as [|? ? _ Hf]; subst. inversion Hf as [|? ? Hab _]; subst.
    split; auto. cbn in Hx, Hy. destruct Hx as [<-|[<-|[]]], Hy as [<-|[<-|[]]]; auto; lia. }
  destruct (X u v S1 Di1) as [H1 E1], (X u' v' S2 Di2) as [H2 E2].
  destruct (Dd u v u' v') as [-> ->]; auto; try congruence. - apply B1; cbn; auto. - apply B2; cbn; auto.
Qed.
Lemma isometry_distinct dist data dist' data' f : symmetric_on dist data -> symmetric_on dist' data' -> isometry dist data dist' data' f ->
  distinct_distances dist data -> distinct_distances dist' data'.
Proof.
  intros S S' (Ln & Bf & If & Hd) Dd u v u' v' H1 H2 H3 H4 E. rewrite Ln in *.
  destruct (injection_onto _ f Bf If u ltac:(lia)) as (a & Ha & <-), (injection_onto _ f Bf If v ltac:(lia)) as (b & Hb & <-).
  destruct (injection_onto _ f Bf If u' ltac:(lia)) as (a' & Ha' & <-), (injection_onto _ f Bf If v' ltac:(lia)) as (b' & Hb' & <-).
  rewrite !Hd in E by (auto; intros ->; lia).
  assert (Any : forall x y, x <> y -> x < length data -> y < length data -> exists p q, p < q /\ q < length data /\ separation dist data x y = separation dist data p q /\ ((p = x /\ q = y) \/ (p = y /\ q = x))).
  { intros x y Hxy Hx Hy. destruct (Nat.lt_ge_cases x y) as [K|K].
    - exists x, y. auto 7. - exists y, x. split; [lia|]. split; auto. }
  destruct (Any a b) as (p & q & P1 & P2 & P3 & P4); auto; [intros ->; lia|].
  destruct (Any a' b') as (p' & q' & P1' & P2' & P3' & P4'); auto; [intros ->; lia|].
  destruct (Dd p q p' q') as [-> ->]; auto; [congruence|].
  destruct P4 as [[<- <-]|[<- <-]], P4' as [[<- <-]|[<- <-]]; auto; lia.
Qed.
Lemma isometry_matching dist data dist' data' f : symmetric_on dist data -> symmetric_on dist' data' -> isometry dist data dist' data' f ->
  matching (length data) (separation dist data) (separation dist' data') f.
Proof. intros S S' (Ln & Bf & If & Hd). constructor; auto. Qed.

Lemma reports_edges dist c dim eps data lines : reports dist libstdcxx_past_end c dim eps data lines ->
  exists E js piv ps, complex E /\ filtered E /\ lists_rips (separation dist data) (close c eps) (length data) (Z.to_nat (top c dim)) E /\
    2 <= length E /\ lines = map (fun w => (0, 0%Z, w)) (map (edge_weight (level E 1)) js) ++ [(0, 0%Z, eps)] ++ all_bars E 1 (dims dim E) ps /\
    negative E 1 js /\ piv 1 = js /\ lstages E (dims dim E) piv ps.
Proof.
  intros (atoi & atof & srt & nc0 & al_reduce & other & args & d & e & p & failed & Hs & Hr & <- & <- & Hd & Hne & Hdata & Hpos & H & ->).
  destruct (default_run_edges dist atoi atof srt libstdcxx_past_end nc0 al_reduce other args c d e data Hs Hr Hne Hpos Hd) as (E & finish & C & F & L & Er & O).
  rewrite Er in H. clear Er. destruct (fp_run libstdcxx_past_end (atoi d) (atof e) E []) as [r|] eqn:Er; [|discriminate]. cbn [bind] in H. injection H as <- <-.
  assert (T : 1 <= Z.to_nat (top c (atoi d))) by (destruct c; cbn; lia).
  destruct (rips_levels dist data c (atof e) _ T E L C) as [L2 L0].
  destruct (Nat.le_gt_cases 2 (length E)) as [G|G].
  - destruct (libstdcxx_run (atoi d) (atof e) E [] C G) as (js & piv & ps & tab & E1 & E2 & E3 & E4). rewrite Er in E1. injection E1 as ->.
    destruct (O (Some (map (fun w => (0, 0%Z, w)) (map (edge_weight (level E 1)) js) ++ [(0, 0%Z, atof e)] ++ all_bars E 1 (dims (atoi d) E) ps, tab))) as [O1 _].
    cbn [result] in O1. injection O1 as O1 _. exists E, js, piv, ps. auto 9.
  - exfalso. destruct E as [|e0 [|e1 E]]; [apply Hdata, L0; reflexivity|discriminate Er|cbn in G; lia].
Qed.

Lemma of_dim_lines ds eps E n ps : of_dim 1 (map (fun w => (0, 0%Z, w)) ds ++ [(0, 0%Z, eps)] ++ all_bars E 1 n ps) =
  match n with 0 => [] | S _ => bars 1 (level E 1) (level E 2) (ps 1) end.
Proof.
  unfold of_dim. rewrite !filter_app. cbn [filter fst]. cbn [Nat.eqb app].
  assert (A : filter (fun l : nat * Z * Z => fst (fst l) =? 1) (map (fun w => (0, 0%Z, w)) ds) = []) by (induction ds; cbn; auto).
  rewrite A. cbn [app].
  assert (B : forall d rows cols p, filter (fun l : nat * Z * Z => fst (fst l) =? 1) (bars d rows cols p) = if d =? 1 then bars d rows cols p else []).
  { intros d rows cols p. unfold bars. induction p as [|[i j] p IH]; cbn [flat_map]; [destruct (d =? 1); auto|]. rewrite filter_app, IH.
    destruct (_ =? _)%Z; cbn [filter fst app]; destruct (d =? 1); auto. }
  destruct n as [|n]; [reflexivity|]. unfold all_bars. cbn [seq flat_map]. rewrite filter_app, B. cbn [Nat.eqb]. 
  assert (G : filter (fun l : nat * Z * Z => fst (fst l) =? 1) (flat_map (fun k => bars k (level E k) (level E (S k)) (ps k)) (seq 2 n)) = []).
  { assert (Hk : forall k, In k (seq 2 n) -> k <> 1) by (intros k Hk; apply in_seq in Hk; lia). revert Hk. generalize (seq 2 n) as l.
    induction l as [|k l IH]; intros Hk; cbn; auto. rewrite filter_app, B. rewrite (proj2 (Nat.eqb_neq k 1)) by (apply Hk; now left).
    apply IH. intros; apply Hk. now right. }
  rewrite G. apply app_nil_r.
Qed.
Lemma deaths_lines ds eps E n ps : deaths (map (fun w => (0, 0%Z, w)) ds ++ [(0, 0%Z, eps)] ++ all_bars E 1 n ps) = ds.
Proof.
  assert (A : dim0 (map (fun w => (0, 0%Z, w)) ds ++ [(0, 0%Z, eps)] ++ all_bars E 1 n ps) = map (fun w => (0, 0%Z, w)) ds ++ [(0, 0%Z, eps)]).
  { unfold dim0. rewrite !filter_app. cbn [filter fst]. cbn [Nat.eqb app].
    assert (A : filter (fun l : nat * Z * Z => fst (fst l) =? 0) (map (fun w => (0, 0%Z, w)) ds) = map (fun w => (0, 0%Z, w)) ds) by (clear; induction ds as [|w ds IH]; cbn; [auto|now rewrite IH]).
    assert (G : forall l, (forall k, In k l -> k <> 0) -> filter (fun l : nat * Z * Z => fst (fst l) =? 0) (flat_map (fun k => bars k (level E k) (level E (S k)) (ps k)) l) = []).
    { induction l as [|k l IH]; intros Hk; cbn [flat_map]; auto. rewrite filter_app, IH by (intros; apply Hk; now right). rewrite app_nil_r.
      assert (k <> 0) by (apply Hk; now left). unfold bars. generalize (ps k) as q. induction q as [|[i j] q IHq]; cbn [flat_map]; auto. rewrite filter_app, IHq, app_nil_r.
      destruct (_ =? _)%Z; cbn [filter fst]; auto. destruct (Nat.eqb_spec k 0); auto. contradiction. }
    rewrite A. unfold all_bars. rewrite G by (intros k Hk; apply in_seq in Hk; lia). reflexivity. }
  unfold deaths. rewrite A. rewrite removelast_last, map_map. now rewrite map_id.
Qed.

Lemma pivots_match E E' js js' : StronglySorted Z.lt (map snd (level E 1)) -> map snd (level E 1) = map snd (level E' 1) ->
  negative E 1 js -> negative E' 1 js' -> map (edge_weight (level E 1)) js = map (edge_weight (level E' 1)) js' -> js = js'.
Proof.
  intros S Ew [_ N] [_ N'] H.
  assert (B : forall i, In i js -> i < length (level E 1)).
  { intros i Hi. apply N, fresh_lt in Hi. unfold bmatrix, boundary_matrix, simplices in Hi. now rewrite !map_length in Hi. }
  assert (Ln : length (level E 1) = length (level E' 1)) by (rewrite <- (map_length snd), Ew; apply map_length).
  assert (B' : forall i, In i js' -> i < length (level E 1)).
  { intros i Hi. apply N', fresh_lt in Hi. unfold bmatrix, boundary_matrix, simplices in Hi. rewrite !map_length in Hi. lia. }
  assert (Wt : forall i, edge_weight (level E' 1) i = edge_weight (level E 1) i).
  { intros i. unfold edge_weight. change 0%Z with (snd (@nil nat, 0%Z)) at 1. rewrite <- !(map_nth snd). now rewrite Ew. }
  assert (Inj : forall i j, i < length (level E 1) -> j < length (level E 1) -> edge_weight (level E 1) i = edge_weight (level E 1) j -> i = j).
  { assert (Nd : NoDup (map snd (level E 1))).
    { clear - S. induction S as [|a l S IH H]; constructor; auto. intros Hi. rewrite Forall_forall in H. specialize (H _ Hi). lia. }
    intros i j Hi Hj. unfold edge_weight. rewrite <- !(map_nth snd). apply NoDup_nth; auto; now rewrite map_length. }
  rewrite (map_ext _ _ Wt) in H. clear - B B' Inj H. revert js' B' H. induction js as [|a js IH]; intros [|b js'] B' H; try discriminate; auto. cbn in H. injection H as H1 H2. f_equal.
  - apply Inj; auto. apply B; now left. apply B'; now left.
  - apply IH; auto; intros i Hi; [apply B|apply B']; now right.
Qed.

Theorem dim1_isometry dist dist' c dim dim' eps data data' lines lines' f :
  symmetric_on dist data -> symmetric_on dist' data' -> isometry dist data dist' data' f -> distinct_distances dist data -> (2 <= dim)%Z -> (2 <= dim')%Z ->
  reports dist libstdcxx_past_end c dim eps data lines -> reports dist' libstdcxx_past_end c dim' eps data' lines' ->
  Permutation (of_dim 1 lines) (of_dim 1 lines').
Proof.
  intros S S' I Dd H2 H2' R R'. assert (Eq0 := dim0_isometry _ _ _ _ _ _ _ _ _ _ _ _ _ S S' I R R').
  assert (Dd' := isometry_distinct _ _ _ _ _ S S' I Dd). assert (M := isometry_matching _ _ _ _ _ S S' I).
  destruct (inverse_exists _ _ _ _ M) as (g & Mg & Fg & Gf). assert (Ln : length data' = length data) by exact (proj1 I).
  destruct (reports_edges _ _ _ _ _ _ R) as (E & js & piv & ps & C & F & L & L2 & El & Ng & Hp & St).
  destruct (reports_edges _ _ _ _ _ _ R') as (E' & js' & piv' & ps' & C' & F' & L' & L2' & El' & Ng' & Hp' & St').
  rewrite Ln in L'. set (n := length data) in *. set (D := separation dist data) in *. set (D' := separation dist' data') in *.
  assert (T : 2 <= Z.to_nat (top c dim)) by (destruct c; unfold top; lia). assert (T' : 2 <= Z.to_nat (top c dim')) by (destruct c; unfold top; lia).
  assert (W : distinct_weights (level E 1)) by (eapply distinct_edges; eauto).
  assert (W' : distinct_weights (level E' 1)) by (eapply (distinct_edges dist' data'); [rewrite Ln; eauto|auto]).
  assert (SW := strict_weights _ (fl_sorted _ F 1) (cx_nodup _ C 1) W). assert (SW' := strict_weights _ (fl_sorted _ F' 1) (cx_nodup _ C' 1) W').
  assert (Im : forall k s w, k <= 2 -> In (s, w) (level E k) -> In (image n f s, w) (level E' k)).
  { intros k s w Hk. apply (level_image n _ _ D D' f (close c eps) E E' M L L'). lia. }
  assert (Im' : forall k s w, k <= 2 -> In (s, w) (level E' k) -> In (image n g s, w) (level E k)).
  { intros k s w Hk. apply (level_image n _ _ D' D g (close c eps) E' E Mg L' L). lia. }
  assert (Ew : map snd (level E 1) = map snd (level E' 1)).
  { apply zsorted_ext; auto. intros w. rewrite !in_map_iff. split; intros ([s x] & <- & H).
    - exists (image n f s, x). auto. - exists (image n g s, x). auto. }
  assert (Rows : simplices E' 1 = map (image n f) (simplices E 1)).
  { unfold simplices. apply rows_match; auto. }
  assert (Len : length (level E 1) = length (level E' 1)) by (rewrite <- (map_length snd), Ew; apply map_length).
  assert (Ej : js = js').
  { apply (pivots_match E E'); auto. rewrite <- (deaths_lines (map (edge_weight (level E 1)) js) eps E (dims dim E) ps), <- El.
    rewrite <- (deaths_lines (map (edge_weight (level E' 1)) js') eps E' (dims dim' E') ps'), <- El'. unfold deaths. now rewrite Eq0. }
  rewrite <- Ej in Hp', El'. clear Ej Ng' js'. rewrite El, El', !of_dim_lines.
  assert (Le : 3 <= length E <-> 3 <= length E').
  { change (2 < length E <-> 2 < length E'). rewrite (proj2 L 2), (proj2 L' 2). split; intros H K; apply H.
    - destruct (level E 2) as [|[s w] l] eqn:El2; auto. assert (Hin : In (image n f s, w) (level E' 2)) by (apply Im; auto; rewrite El2; now left). rewrite K in Hin. destruct Hin.
    - destruct (level E' 2) as [|[s w] l] eqn:El2; auto. assert (Hin : In (image n g s, w) (level E 2)) by (apply Im'; auto; rewrite El2; now left). rewrite K in Hin. destruct Hin. }
  assert (Nd : forall dd EE, (2 <= dd)%Z -> (dims dd EE = 0 <-> ~ 3 <= length EE)) by (intros dd EE Hdd; unfold dims; lia).
  destruct (dims dim E) as [|m] eqn:Em.
  { apply Nd in Em; auto. assert (Em' : dims dim' E' = 0) by (apply Nd; auto; tauto). rewrite Em'. constructor. }
  destruct (dims dim' E') as [|m'] eqn:Em'. { apply Nd in Em'; auto. exfalso. assert (dims dim E = 0) by (apply Nd; auto; tauto). congruence. }
  destruct (St 1 ltac:(lia)) as (P & _ & Bd). destruct (St' 1 ltac:(lia)) as (P' & _ & Bd'). rewrite Hp in P. rewrite Hp' in P'. rewrite <- Len in P'.
  set (skip := libstdcxx_skip js (length (level E 1))) in *.
  set (cs := map (fun x => (boundary_without skip (simplices E 1) (fst x), snd x)) (level E 2)).
  set (cs' := map (fun x => (boundary_without skip (simplices E' 1) (fst x), snd x)) (level E' 2)).
  assert (Wcs : forall (h : list nat -> list nat) l j, edge_weight (map (fun x => (h (fst x), snd x)) l) j = edge_weight l j).
  { intros h l j. unfold edge_weight. rewrite <- !(map_nth snd). cbn [snd]. now rewrite map_map. }
  assert (Fcs : forall (h : list nat -> list nat) (l : list wsimp), map fst (map (fun x => (h (fst x), snd x)) l) = map h (map fst l)) by (intros; now rewrite !map_map).
  assert (Scs : forall (h : list nat -> list nat) l, StronglySorted by_weight l -> StronglySorted by_weight (map (fun x => (h (fst x), snd x)) l)).
  { intros h l Sl. induction Sl as [|x l Sl IH Hf]; cbn; constructor; auto. apply Forall_forall. intros y Hy. apply in_map_iff in Hy as (z & <- & Hz).
    rewrite Forall_forall in Hf. apply Hf in Hz. exact Hz. }
  assert (Br : forall r, In r (simplices E 1) -> bounded n r).
  { intros r Hr. apply in_map_iff in Hr as ([s w] & <- & Hs). apply (level_shape n _ D (close c eps) E L 1 s w Hs). }
  assert (Col : forall s w, In (s, w) (level E 2) -> boundary_without skip (simplices E' 1) (image n f s) = boundary_without skip (simplices E 1) s).
  { intros s w Hs. unfold boundary_without. rewrite Rows. rewrite (image_boundary n D D' f M); auto. apply (level_shape n _ D (close c eps) E L 2 s w Hs). }
  assert (Same : forall x w, In (x, w) cs <-> In (x, w) cs').
  { intros x w. unfold cs, cs'. rewrite !in_map_iff. split.
    - intros ([s y] & Hx & Hs). cbn in Hx. injection Hx as <- <-. exists (image n f s, y). cbn [fst snd]. rewrite (Col s y Hs). split; auto.
    - intros ([s' y] & Hx & Hs'). cbn in Hx. injection Hx as <- <-. assert (Hs := Im' 2 s' y ltac:(auto) Hs'). exists (image n g s', y). cbn [fst snd]. split; auto.
      rewrite <- (Col _ y Hs). destruct (level_shape n _ D' (close c eps) E' L' 2 s' y Hs') as [B1 B2].
      now rewrite (image_back n D' D g f s' Mg M Fg B1 B2). }
  rewrite (bars_pairs 1 (level E 1) (level E 2) cs (ps 1)) by (intros; apply Wcs).
  rewrite (bars_pairs 1 (level E' 1) (level E' 2) cs' (ps' 1)) by (intros; apply Wcs).
  rewrite (flat_map_ext _ _ (bar_of_rows 1 _ _ Ew)). apply flat_map_perm. apply same_pairs; auto.
  - apply Scs, F. - apply Scs, F'.
  - unfold cs. rewrite Fcs. exact P. - unfold cs'. rewrite Fcs. exact P'.
Qed.
