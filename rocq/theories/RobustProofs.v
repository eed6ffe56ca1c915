(* RobustProofs.v -- two runs on related point clouds: lemmas about dimension 0. *)
From Coq Require Import String List Arith ZArith Bool Lia Sorted Permutation Relations.
From Verif Require Import Base Spec UtilsModel ArrayListModel SpecComplex FastModel SpecGraph SpecLinear SpecFast ArgModel SpecArgs PipeModel SpecPipe.
From Verif Require Import KruskalProofs FastProofs FastRuns PipeRuns SpecRobust.
Import ListNotations.
Local Open Scope nat_scope.
Local Open Scope list_scope.

(* ---- sorted lists of numbers ---- *)
Lemma count_nth l : StronglySorted Z.le l -> forall k t, k < length l -> ((nth k l 0 <= t)%Z <-> k < count_le t l).
Proof.
  unfold count_le. induction 1 as [|x l S IH F]; cbn [length]; intros k t H; [lia|]. rewrite Forall_forall in F. cbn [filter].
  destruct (Z.leb_spec x t) as [Hx|Hx].
  - destruct k; cbn [nth length]; [split; [intros _; lia|auto]|]. rewrite IH by lia. split; lia.
  - replace (filter (fun w => (w <=? t)%Z) l) with (@nil Z).
    + destruct k; cbn [nth length]; [split; intros; exfalso; lia|]. assert (x <= nth k l 0)%Z by (apply F, nth_In; lia). split; intros; exfalso; lia.
    + symmetry. apply filter_none. intros y Hy. apply F in Hy. apply Z.leb_gt. lia.
Qed.
Lemma count_le_length t l : count_le t l <= length l.
Proof. unfold count_le. induction l as [|x l IH]; cbn; auto. destruct (x <=? t)%Z; cbn; lia. Qed.
Lemma count_le_all t l : (forall x, In x l -> (x <= t)%Z) -> count_le t l = length l.
Proof.
  unfold count_le. induction l as [|x l IH]; cbn [filter]; intros H; auto. destruct (Z.leb_spec x t); cbn [length].
  - rewrite IH; auto. intros y Hy. apply H. now right. - specialize (H x (or_introl eq_refl)). lia.
Qed.
Lemma count_le_large l : exists T, forall t, (T <= t)%Z -> count_le t l = length l.
Proof.
  induction l as [|x l (T & IH)]; [exists 0%Z; reflexivity|]. exists (Z.max x T). intros t Ht. unfold count_le. cbn [filter].
  destruct (Z.leb_spec x t); [|lia]. cbn [length]. fold (count_le t l). rewrite IH; lia.
Qed.
Lemma sorted_counts l l' : StronglySorted Z.le l -> StronglySorted Z.le l' -> (forall t, count_le t l = count_le t l') -> l = l'.
Proof.
  intros S S' H. assert (L : length l = length l').
  { destruct (count_le_large l) as (T & HT), (count_le_large l') as (T' & HT'). specialize (H (Z.max T T')). rewrite HT, HT' in H by lia. exact H. }
  apply nth_ext with (d := 0%Z) (d' := 0%Z); auto. intros k Hk. apply Z.le_antisymm.
  - apply (count_nth l S k _ Hk). rewrite H. apply count_nth; auto; lia.
  - apply count_nth; auto; [lia|]. rewrite <- H. apply count_nth; auto; lia.
Qed.
Lemma count_le_filter p t l : count_le t (filter p l) = length (filter (fun w => (w <=? t)%Z && p w) l).
Proof. unfold count_le. induction l as [|x l IH]; cbn; auto. destruct (p x); cbn; destruct (x <=? t)%Z; cbn; lia. Qed.
Lemma sorted_filter p l : StronglySorted Z.le l -> StronglySorted Z.le (filter p l).
Proof.
  induction 1 as [|x l S IH F]; cbn; [constructor|]. destruct (p x); auto. constructor; auto. rewrite Forall_forall in *.
  intros y Hy. apply filter_In in Hy as [Hy _]. auto.
Qed.

(* ---- classes ---- *)
Lemma classes_map V V' (R R' : nat -> nat -> Prop) f c c' :
  (forall x y, R' x y -> R' y x) -> (forall x y z, R' x y -> R' y z -> R' x z) ->
  (forall x y, In x V -> In y V -> R x y -> R' (f x) (f y)) -> (forall y, In y V' -> exists x, In x V /\ R' y (f x)) ->
  classes V R c -> classes V' R' c' -> c' <= c.
Proof.
  intros Rs Rt M Su (reps & L & N & I & U & T) (reps' & L' & N' & I' & U' & T'). subst. rewrite <- (map_length f reps).
  apply (classes_le V' R' reps' (map f reps)); auto. intros v Hv. destruct (Su v Hv) as (x & Hx & Rx). destruct (T x Hx) as (r & Hr & Rr).
  exists (f r). split; [now apply in_map|]. eapply Rt; [exact Rx|]. apply M; auto.
Qed.
Lemma classes_unique V (R : nat -> nat -> Prop) c c' : (forall x y, R x y -> R y x) -> (forall x y z, R x y -> R y z -> R x z) -> (forall x, R x x) ->
  classes V R c -> classes V R c' -> c = c'.
Proof.
  intros Rs Rt Rr C C'. apply Nat.le_antisymm; [apply (classes_map V V R R (fun x => x) c' c)|apply (classes_map V V R R (fun x => x) c c')]; auto;
  intros y Hy; eauto.
Qed.
Lemma rst_mono (R R' : nat -> nat -> Prop) : (forall u v, R u v -> clos_refl_sym_trans nat R' u v) ->
  forall u v, clos_refl_sym_trans nat R u v -> clos_refl_sym_trans nat R' u v.
Proof. intros H u v C. induction C; [auto|apply rst_refl|now apply rst_sym|eapply rst_trans; eauto]. Qed.
Lemma rst_image (R R' : nat -> nat -> Prop) f : (forall u v, R u v -> clos_refl_sym_trans nat R' (f u) (f v)) ->
  forall u v, clos_refl_sym_trans nat R u v -> clos_refl_sym_trans nat R' (f u) (f v).
Proof. intros H u v C. induction C; [auto|apply rst_refl|now apply rst_sym|eapply rst_trans; eauto]. Qed.

(* ---- the clusters of a cloud at a scale ---- *)
Definition linked dist (data : list (list Z)) (t : Z) (u v : nat) : Prop := u < v /\ v < length data /\ (separation dist data u v <= t)%Z.
Definition link dist data t := clos_refl_sym_trans nat (linked dist data t).
(* The largest distance that counts as close. *)
Definition reach (c : cx_type) (eps : Z) : Z := match c with Tree => (eps - 1)%Z | ArrayList => eps end.
Lemma close_reach c eps d : close c eps d <-> (d <= reach c eps)%Z.
Proof. destruct c; cbn; lia. Qed.
Lemma joined_linked dist data c eps t u v : joined dist data c eps t u v <-> linked dist data (Z.min t (reach c eps)) u v.
Proof. unfold joined, linked. rewrite close_reach. intuition lia. Qed.
Lemma clusters_link dist data c eps t n : clusters dist data c eps t n <-> classes (seq 0 (length data)) (link dist data (Z.min t (reach c eps))) n.
Proof.
  assert (E := rst_ext _ _ (joined_linked dist data c eps t)). unfold clusters, link. split; apply classes_ext; try reflexivity; intros; auto.
  symmetry. apply E.
Qed.

(* What a run reports in dimension 0: the deaths ds are sorted, at most B, and count the classes. *)
Record merges dist (data : list (list Z)) (B : Z) (ds : list Z) : Prop := {
  mg_sorted : StronglySorted Z.le ds;
  mg_below : forall w, In w ds -> (w <= B)%Z;
  mg_real : forall w, In w ds -> exists u v, u < v /\ v < length data /\ separation dist data u v = w;
  mg_length : length ds <= length data;
  mg_count : forall t n, classes (seq 0 (length data)) (link dist data (Z.min t B)) n <-> count_le t ds + n = length data }.

Lemma merges_at dist data B ds : merges dist data B ds -> forall t,
  exists n, classes (seq 0 (length data)) (link dist data (Z.min t B)) n /\ count_le t ds + n = length data.
Proof.
  intros M t. assert (C := mg_count _ _ _ _ M). assert (L := mg_length _ _ _ _ M). assert (E := count_le_length t ds).
  exists (length data - count_le t ds). split; [apply C; lia|lia].
Qed.

Lemma link_sym dist data t u v : link dist data t u v -> link dist data t v u. Proof. apply rst_sym. Qed.
Lemma link_trans dist data t u v w : link dist data t u v -> link dist data t v w -> link dist data t u w. Proof. apply rst_trans. Qed.

(* If f maps linked points to linked points and meets every class, the second cloud has merged at least as much, up to the
   points it has more or less. *)
Lemma merges_compare dist data dist' data' B B' ds ds' f t t' :
  merges dist data B ds -> merges dist' data' B' ds' ->
  (forall u, u < length data -> f u < length data') ->
  (forall u v, linked dist data (Z.min t B) u v -> link dist' data' (Z.min t' B') (f u) (f v)) ->
  (forall y, y < length data' -> exists x, x < length data /\ link dist' data' (Z.min t' B') y (f x)) ->
  length data' + count_le t ds <= length data + count_le t' ds'.
Proof.
  intros M M' Hf HL Hs. destruct (merges_at _ _ _ _ M t) as (n & C & E), (merges_at _ _ _ _ M' t') as (n' & C' & E').
  assert (n' <= n); [|lia].
  apply (classes_map (seq 0 (length data)) (seq 0 (length data')) (link dist data (Z.min t B)) (link dist' data' (Z.min t' B')) f n n'); auto using link_sym.
  - intros. eapply link_trans; eauto.
  - intros x y _ _. now apply rst_image.
  - intros y Hy. apply in_seq in Hy. destruct (Hs y ltac:(lia)) as (x & Hx & R). exists x. split; [apply in_seq; lia|auto].
Qed.

(* An injection of the first n numbers into themselves meets every number. *)
Lemma injection_onto n f : (forall u, u < n -> f u < n) -> (forall u v, u < n -> v < n -> f u = f v -> u = v) ->
  forall y, y < n -> exists x, x < n /\ f x = y.
Proof.
  intros B I y Hy. assert (N : NoDup (map f (seq 0 n))).
  { assert (G : forall l, incl l (seq 0 n) -> NoDup l -> NoDup (map f l)).
    { induction l as [|a l IH]; intros H Nl; cbn; [constructor|]. inversion Nl; subst. constructor.
      - intros Hin. apply in_map_iff in Hin as (b & E & Hb). assert (a < n) by (specialize (H a (or_introl eq_refl)); apply in_seq in H; lia).
        assert (b < n) by (specialize (H b (or_intror Hb)); apply in_seq in H; lia). rewrite (I b a) in Hb by auto. contradiction.
      - apply IH; auto. intros z Hz. apply H. now right. }
    apply G; [apply incl_refl|apply seq_NoDup]. }
  assert (Hin : In y (map f (seq 0 n))).
  { apply (NoDup_length_incl N (l' := seq 0 n)).
    - rewrite map_length. lia.
    - intros z Hz. apply in_map_iff in Hz as (a & <- & Ha). apply in_seq in Ha. apply in_seq. specialize (B a). lia.
    - apply in_seq. lia. }
  apply in_map_iff in Hin as (x & E & Hx). apply in_seq in Hx. exists x. split; [lia|auto].
Qed.

(* The distances of the points of a cloud do not depend on the order of the arguments. *)
Definition symmetric_on dist (data : list (list Z)) : Prop := forall u v, separation dist data u v = separation dist data v u.
Lemma separation_sym dist data : symmetric dist -> symmetric_on dist data.
Proof. intros H u v. unfold separation. destruct (nth_error data u), (nth_error data v); auto. Qed.

Lemma linked_any dist data t u v : symmetric_on dist data -> u <> v -> u < length data -> v < length data -> (separation dist data u v <= t)%Z -> link dist data t u v.
Proof.
  intros S Huv Hu Hv H. destruct (Nat.lt_ge_cases u v) as [Hlt|Hge].
  - apply rst_step. split; auto.
  - apply rst_sym, rst_step. split; [lia|]. split; auto. now rewrite (S v u).
Qed.

(* Two clouds matched by f such that f does not enlarge distances by more than the passage from t to t'. *)
Lemma merges_matched dist data dist' data' B B' ds ds' f t t' : symmetric_on dist' data' ->
  merges dist data B ds -> merges dist' data' B' ds' -> length data' = length data ->
  (forall u, u < length data -> f u < length data) -> (forall u v, u < length data -> v < length data -> f u = f v -> u = v) ->
  (forall u v, u < length data -> v < length data -> u <> v -> (separation dist data u v <= Z.min t B)%Z ->
     (separation dist' data' (f u) (f v) <= Z.min t' B')%Z) ->
  count_le t ds <= count_le t' ds'.
Proof.
  intros S M M' L Bf If H. assert (G := merges_compare dist data dist' data' B B' ds ds' f t t' M M'). rewrite L in G.
  enough (length data + count_le t ds <= length data + count_le t' ds') by lia. apply G; auto.
  - intros u v (Huv & Hv & Hs). assert (f u <> f v) by (intros E; apply If in E; lia). apply linked_any; rewrite ?L; auto.
    + apply Bf. lia. + apply H; auto; lia.
  - intros y Hy. destruct (injection_onto _ f Bf If y Hy) as (x & Hx & <-). exists x. split; auto. apply rst_refl.
Qed.

(* ---- two lists of deaths ---- *)
(* ... at the same distances up to delta *)
Lemma merges_stable dist data dist' data' B ds ds' f delta : symmetric_on dist' data' ->
  merges dist data B ds -> merges dist' data' B ds' -> length data' = length data ->
  (forall u, u < length data -> f u < length data) -> (forall u v, u < length data -> v < length data -> f u = f v -> u = v) ->
  (forall u v, u < length data -> v < length data -> u <> v -> (separation dist' data' (f u) (f v) <= separation dist data u v + delta)%Z) ->
  (0 <= delta)%Z ->
  forall k, k < length ds -> (k < length ds' /\ (nth k ds' 0 <= nth k ds 0 + delta)%Z) \/ (length ds' <= k /\ (B < nth k ds 0 + delta)%Z).
Proof.
  intros S M M' L Bf If H Hd k Hk. assert (Ss := mg_sorted _ _ _ _ M). assert (Ss' := mg_sorted _ _ _ _ M').
  set (t := nth k ds 0%Z). assert (Ht : k < count_le t ds) by (apply count_nth; auto; lia).
  destruct (Z.le_gt_cases (t + delta) B) as [HB|HB].
  - left. assert (G : count_le t ds <= count_le (t + delta) ds').
    { apply (merges_matched dist data dist' data' B B ds ds' f t (t + delta)); auto. intros u v Hu Hv Huv Hs. specialize (H u v Hu Hv Huv). lia. }
    assert (G1 := count_le_length (t + delta) ds'). split; [lia|]. apply count_nth; auto; lia.
  - destruct (le_lt_dec (length ds') k) as [Hk'|Hk']; [right; auto|left]. split; auto.
    assert (nth k ds' 0 <= B)%Z by (apply (mg_below _ _ _ _ M'), nth_In; auto). lia.
Qed.

(* ---- what a run of the default pipeline reports in dimension 0 ---- *)
Lemma removelast_snoc {A} (l : list A) x : removelast (l ++ [x]) = l.
Proof. rewrite removelast_app by discriminate. cbn. apply app_nil_r. Qed.
Lemma deaths_dim0 lines ds eps : dim0 lines = map (fun w => (0, 0%Z, w)) ds ++ [(0, 0%Z, eps)] -> deaths lines = ds.
Proof. intros E. unfold deaths. rewrite E, removelast_snoc, map_map. apply map_id. Qed.

Section Run.
  Variable dist : list Z -> list Z -> Z.
  Variables atoi atof : string -> Z.
  Variable srt : list wsimp -> list wsimp.
  Variable past_end : list nat -> nat -> res nat.
  Variable nc0 : Z.
  Variable al_reduce : wgraph -> res wgraph.
  Variable other : pipe_kind -> amap -> packet -> res packet.
  Variables (args : amap) (c : cx_type) (d e : string) (data : list (list Z)).
  Hypothesis Hs : is_sort srt.
  Hypothesis Hr : default_run args c d e.
  Hypothesis Hne : forall x, In x data -> x <> [].
  Hypothesis Hpos : forall x y, (0 <= dist x y)%Z.
  Hypothesis Hd : (0 < atoi d < 2 ^ 31 - 1)%Z.

  Lemma run_merges p failed : run_program dist atoi atof srt past_end nc0 al_reduce other args data = Ok (Some (p, failed)) -> data <> [] ->
    dim0 (pk_output p) = map (fun w => (0, 0%Z, w)) (deaths (pk_output p)) ++ [(0, 0%Z, atof e)] /\
    merges dist data (reach c (atof e)) (deaths (pk_output p)).
  Proof.
    intros H Hdata.
    destruct (default_dim0 dist atoi atof srt past_end nc0 al_reduce other args c d e data Hs Hr Hne Hpos Hd p failed H Hdata) as (_ & ds & D1 & D2).
    destruct (default_run_edges dist atoi atof srt past_end nc0 al_reduce other args c d e data Hs Hr Hne Hpos Hd)
      as (edges & finish & C & F & L & E & O). rewrite E in H. clear E.
    destruct (fp_run past_end (atoi d) (atof e) edges []) as [r|] eqn:Er; [|discriminate]. cbn [bind] in H. injection H as <- <-.
    destruct (O r) as [O1 _]. clear O.
    assert (T : 1 <= Z.to_nat (top c (atoi d))) by (destruct c; cbn; lia). destruct (rips_levels dist data c (atof e) _ T edges L C) as [_ L0].
    assert (Ne : edges <> []) by (intros ->; apply Hdata, L0; reflexivity).
    destruct r as [[lines tab]|]; [|now apply fp_none in Er].
    cbn [result] in O1. injection O1 as O1 O2. rewrite O1 in *.
    destruct (dim0_forest past_end (atoi d) (atof e) edges [] lines tab C (fl_sorted _ F 1) Er) as (piv & P1 & P2 & P3 & _).
    destruct (dim0_components past_end (atoi d) (atof e) edges [] lines tab C (fl_sorted _ F 1) Er) as (ds' & Q1 & Q2).
    assert (E0 := deaths_dim0 _ _ _ D1). assert (E0' := deaths_dim0 _ _ _ Q1).
    assert (E1 : deaths lines = map (edge_weight (level edges 1)) piv).
    { apply (deaths_dim0 _ _ (atof e)). rewrite P1. now rewrite map_map. }
    rewrite E0. split; [exact D1|].
    assert (Lt : forall i, In i piv -> i < length (level edges 1)).
    { intros i Hi. apply P3 in Hi as (u & v & w & Hi & _). apply nth_error_Some. congruence. }
    assert (In1 : forall w, In w ds -> exists u v, u < v /\ v < length data /\ separation dist data u v = w /\ close c (atof e) w).
    { intros w Hw. rewrite <- E0, E1 in Hw. apply in_map_iff in Hw as (i & <- & Hi). unfold edge_weight.
      assert (I := nth_In (level edges 1) ([], 0%Z) (Lt i Hi)). destruct (nth i (level edges 1) ([], 0%Z)) as [s w] eqn:En.
      destruct (cx_shape _ C 1 _ _ I) as [_ Ls]. destruct s as [|u [|v [|]]]; try discriminate.
      apply (proj1 L) in I as (_ & _ & (_ & Ss & Sv & Cl) & Dm).
      inversion Ss as [|? ? _ Hf]; subst. inversion Hf as [|? ? Huv _]; subst. exists u, v. split; [auto|]. split; [apply Sv; cbn; auto|].
      assert (Ew : w = separation dist data u v).
      { destruct Dm as [Dm1 Dm2]. apply Z.le_antisymm; [|apply Dm1; cbn; auto].
        destruct Dm2 as [(x & y & Hx & Hy & Hxy & <-)|[Hl _]]; [|cbn in Hl; lia].
        destruct Hx as [<-|[<-|[]]], Hy as [<-|[<-|[]]]; lia. }
      cbn [snd]. rewrite Ew. split; auto. apply Cl; cbn; auto. }
    constructor.
    - rewrite <- E0, E1. clear - P2 Lt F. revert P2 Lt. induction 1 as [|i l S IH Fi]; intros Lt; cbn; constructor.
      + apply IH. intros j Hj. apply Lt. now right.
      + rewrite Forall_forall in *. intros w Hw. apply in_map_iff in Hw as (j & <- & Hj). apply sorted_nth_le; [apply F| |apply Lt; now right].
        apply Nat.lt_le_incl. auto.
    - intros w Hw. destruct (In1 w Hw) as (u & v & _ & _ & _ & I). now apply close_reach.
    - intros w Hw. destruct (In1 w Hw) as (u & v & I1 & I2 & I3 & _). eauto.
    - destruct (complex_vertices _ C) as (_ & NV & _ & GV). destruct (components_exist _ _ NV GV) as (c1 & C1).
      assert (RC := rips_count dist data c (atof e) _ T edges L C).
      assert (Gt : graph_on (vertices edges) (up_to 0 (level edges 1))).
      { intros s w Hw. apply filter_In in Hw. now apply (GV s w). }
      destruct (components_exist _ _ NV Gt) as (c0 & C0). destruct (Q2 0%Z c0 c1 C0 C1) as (_ & Q & _). rewrite <- E0, E0'. lia.
    - intros t n. rewrite <- clusters_link. apply D2.
  Qed.
End Run.

Lemma reports_merges dist past_end c dim eps data lines : reports dist past_end c dim eps data lines ->
  dim0 lines = map (fun w => (0, 0%Z, w)) (deaths lines) ++ [(0, 0%Z, eps)] /\ merges dist data (reach c eps) (deaths lines).
Proof.
  intros (atoi & atof & srt & nc0 & al_reduce & other & args & d & e & p & failed & Hs & Hr & <- & <- & Hd & Hne & Hdata & Hpos & H & ->).
  eapply run_merges; eauto.
Qed.

(* ---- the theorems on dimension 0 ---- *)
Lemma merges_isometry dist data dist' data' B ds ds' f : symmetric_on dist data -> symmetric_on dist' data' -> isometry dist data dist' data' f ->
  merges dist data B ds -> merges dist' data' B ds' -> ds = ds'.
Proof.
  intros S S' (L & Bf & If & D) M M'. apply sorted_counts; [apply M|apply M'|]. intros t. apply Nat.le_antisymm.
  - apply (merges_matched dist data dist' data' B B ds ds' f t t); auto. intros u v Hu Hv Huv Hs. now rewrite D.
  - (* the inverse of f *)
    destruct (merges_at _ _ _ _ M t) as (n & C & E), (merges_at _ _ _ _ M' t) as (n' & C' & E'). rewrite L in E'.
    assert (n <= n'); [|lia].
    (* representatives of the first cloud stay apart in the second *)
    destruct C as (reps & Lr & N & I & U & T). destruct C' as (reps' & Lr' & N' & I' & U' & T'). subst n n'.
    rewrite <- (map_length f reps). apply (classes_le (seq 0 (length data')) (link dist' data' (Z.min t B)) (map f reps) reps'); auto using link_sym.
    + intros; eapply link_trans; eauto.
    + assert (G : forall l, incl l reps -> NoDup l -> NoDup (map f l)); [|apply G; auto; apply incl_refl].
      induction l as [|a l IH]; intros Hl Nl; cbn; [constructor|]. inversion Nl; subst. constructor.
      * intros Hin. apply in_map_iff in Hin as (b & Eb & Hb). assert (a < length data) by (specialize (I a (Hl a (or_introl eq_refl))); apply in_seq in I; lia).
        assert (b < length data) by (specialize (I b (Hl b (or_intror Hb))); apply in_seq in I; lia). rewrite (If b a) in Hb by auto. contradiction.
      * apply IH; auto. intros z Hz. apply Hl. now right.
    + intros y Hy. apply in_map_iff in Hy as (x & <- & Hx). apply I in Hx. apply in_seq in Hx. apply in_seq. rewrite L. specialize (Bf x). lia.
    + intros a b Ha Hb R. apply in_map_iff in Ha as (x & <- & Hx). apply in_map_iff in Hb as (y & <- & Hy). f_equal. apply U; auto.
      assert (Back : forall p q, link dist' data' (Z.min t B) p q -> forall x y, x < length data -> y < length data -> f x = p -> f y = q -> link dist data (Z.min t B) x y).
      { clear - S L Bf If D. intros p q R.
        assert (R1 : clos_refl_trans_1n nat (fun a b => linked dist' data' (Z.min t B) a b \/ linked dist' data' (Z.min t B) b a) p q).
        { apply clos_rt_rt1n. induction R; [now constructor; left|apply rt_refl| |eapply rt_trans; eauto].
          clear R. induction IHR; [constructor; tauto|apply rt_refl|eapply rt_trans; eauto]. }
        clear R. induction R1 as [p|p m q Hpm _ IH]; intros x y Hx Hy Ex Ey.
        - subst p. apply If in Ey; auto. subst. apply rst_refl.
        - assert (Hm : m < length data) by (rewrite <- L; destruct Hpm as [(?&?&?)|(?&?&?)]; lia).
          destruct (injection_onto _ f Bf If m Hm) as (z & Hz & Ez). apply rst_trans with z; [|apply IH; auto].
          subst p m. destruct Hpm as [(H1 & H2 & H3)|(H1 & H2 & H3)].
          + assert (x <> z) by (intros ->; lia). apply linked_any; auto. now rewrite <- D.
          + assert (x <> z) by (intros ->; lia). apply rst_sym. apply linked_any; auto. rewrite <- D; auto. }
      apply I in Hx, Hy. apply in_seq in Hx, Hy. eapply Back; eauto; lia.
Qed.

Theorem dim0_isometry dist dist' pe pe' c dim dim' eps data data' lines lines' f :
  symmetric_on dist data -> symmetric_on dist' data' -> isometry dist data dist' data' f ->
  reports dist pe c dim eps data lines -> reports dist' pe' c dim' eps data' lines' -> dim0 lines = dim0 lines'.
Proof.
  intros S S' I R R'. destruct (reports_merges _ _ _ _ _ _ _ R) as [E M], (reports_merges _ _ _ _ _ _ _ R') as [E' M'].
  rewrite E, E'. now rewrite (merges_isometry _ _ _ _ _ _ _ f S S' I M M').
Qed.

Lemma permutation_isometry dist data data' : Permutation data data' -> exists f, isometry dist data dist data' f.
Proof.
  intros P. apply Permutation_sym, (Permutation_nth _ _ []) in P as (L & f & Bf & If & H). exists f. symmetry in L.
  split; [auto|]. rewrite L in *. split; [auto|]. split; [auto|]. intros u v Hu Hv Huv. unfold separation.
  assert (G : forall x, x < length data -> nth_error data' (f x) = nth_error data x).
  { intros x Hx. rewrite (nth_error_nth' data' []) by (rewrite L; apply Bf; auto). rewrite (nth_error_nth' data []) by auto. f_equal. symmetry. apply H. auto. }
  now rewrite !G.
Qed.
Theorem dim0_permutation dist pe pe' c dim dim' eps data data' lines lines' : symmetric_on dist data -> symmetric_on dist data' -> Permutation data data' ->
  reports dist pe c dim eps data lines -> reports dist pe' c dim' eps data' lines' -> dim0 lines = dim0 lines'.
Proof. intros S S' P R R'. destruct (permutation_isometry dist data data' P) as (f & I). exact (dim0_isometry dist dist pe pe' c dim dim' eps data data' lines lines' f S S' I R R'). Qed.

Theorem dim0_threshold dist pe pe' c c' dim dim' eps eps' data lines lines' closeb :
  (forall w, closeb w = true <-> close c eps w) -> (forall w, close c eps w -> close c' eps' w) ->
  reports dist pe c dim eps data lines -> reports dist pe' c' dim' eps' data lines' -> deaths lines = filter closeb (deaths lines').
Proof.
  intros Hb Hc R R'. destruct (reports_merges _ _ _ _ _ _ _ R) as [_ M], (reports_merges _ _ _ _ _ _ _ R') as [_ M'].
  apply sorted_counts; [apply M|apply sorted_filter, M'|]. intros t. rewrite count_le_filter.
  assert (Eq : filter (fun w => (w <=? t)%Z && closeb w) (deaths lines') = filter (fun w => (w <=? Z.min t (reach c eps))%Z) (deaths lines')).
  { apply filter_ext. intros w. apply eq_true_iff_eq. rewrite andb_true_iff, Hb, close_reach, !Z.leb_le. lia. }
  rewrite Eq. fold (count_le (Z.min t (reach c eps)) (deaths lines')).
  assert (HB : (reach c eps <= reach c' eps')%Z) by (apply close_reach, Hc, close_reach; lia).
  destruct (merges_at _ _ _ _ M t) as (n & C & E), (merges_at _ _ _ _ M' (Z.min t (reach c eps))) as (n' & C' & E').
  replace (Z.min (Z.min t (reach c eps)) (reach c' eps')) with (Z.min t (reach c eps)) in C' by lia.
  assert (n = n'); [|lia]. apply (classes_unique (seq 0 (length data)) (link dist data (Z.min t (reach c eps)))); auto using link_sym; [intros; eapply link_trans; eauto|intros; apply rst_refl].
Qed.

Lemma sorted_nth_mono l : StronglySorted Z.le l -> forall i j, i <= j -> j < length l -> (nth i l 0 <= nth j l 0)%Z.
Proof.
  induction 1 as [|x l S IH F]; cbn [length]; intros i j H L; [lia|]. rewrite Forall_forall in F. destruct i, j; cbn [nth]; try lia; [apply F, nth_In; lia|apply IH; lia].
Qed.
Theorem dim0_rescaled dist dist' pe pe' c dim dim' eps eps' data data' lines lines' g :
  symmetric_on dist data -> symmetric_on dist' data' -> length data' = length data ->
  (forall a b, (a < b)%Z -> (g a < g b)%Z) -> (forall d, close c eps' (g d) <-> close c eps d) ->
  (forall u v, u < length data -> v < length data -> u <> v -> separation dist' data' u v = g (separation dist data u v)) ->
  reports dist pe c dim eps data lines -> reports dist' pe' c dim' eps' data' lines' -> deaths lines' = map g (deaths lines).
Proof.
  intros S S' L Hg He Hs R R'. destruct (reports_merges _ _ _ _ _ _ _ R) as [_ M], (reports_merges _ _ _ _ _ _ _ R') as [_ M'].
  set (ds := deaths lines) in *. set (ds' := deaths lines') in *.
  assert (Gle : forall a b, (g a <= g b)%Z <-> (a <= b)%Z).
  { intros a b. assert (H1 := Hg a b). assert (H2 := Hg b a). destruct (Z.lt_trichotomy a b) as [H|[->|H]]; split; lia. }
  assert (Gb : forall s, (g s <= reach c eps')%Z <-> (s <= reach c eps)%Z) by (intros s; rewrite <- !close_reach; apply He).
  (* k-th deaths *)
  assert (A : forall k, k < length ds -> k < length ds' /\ (nth k ds' 0 <= g (nth k ds 0))%Z).
  { intros k Hk. set (t := nth k ds 0%Z). assert (Ht : k < count_le t ds) by (apply count_nth; auto; [apply M|lia]).
    assert (G : count_le t ds <= count_le (g t) ds').
    { apply (merges_matched dist data dist' data' (reach c eps) (reach c eps') ds ds' (fun x => x)); auto. intros u v Hu Hv Huv H.
      rewrite Hs by auto. assert (g (separation dist data u v) <= g t)%Z by (apply Gle; lia). assert (g (separation dist data u v) <= reach c eps')%Z by (apply Gb; lia). lia. }
    assert (G1 := count_le_length (g t) ds'). split; [lia|]. apply count_nth; [apply M'|lia|lia]. }
  assert (B : forall k, k < length ds' -> k < length ds /\ (g (nth k ds 0) <= nth k ds' 0)%Z).
  { intros k Hk. destruct (mg_real _ _ _ _ M' (nth k ds' 0%Z) (nth_In _ _ Hk)) as (u & v & Huv & Hv & E). rewrite L in Hv.
    rewrite Hs in E by lia. set (t := separation dist data u v) in *. assert (Ht : k < count_le (g t) ds') by (apply count_nth; auto; [apply M'|lia]).
    assert (G : count_le (g t) ds' <= count_le t ds).
    { apply (merges_matched dist' data' dist data (reach c eps') (reach c eps) ds' ds (fun x => x)); rewrite ?L; auto. intros a b Ha Hb Hab H.
      rewrite Hs in H by auto. assert (separation dist data a b <= t)%Z by (apply Gle; lia). assert (separation dist data a b <= reach c eps)%Z by (apply Gb; lia). lia. }
    assert (G1 := count_le_length t ds). split; [lia|]. rewrite <- E. apply Gle. apply count_nth; [apply M|lia|lia]. }
  assert (Ll : length ds' = length ds).
  { destruct (lt_eq_lt_dec (length ds') (length ds)) as [[H|H]|H]; auto; [destruct (A _ H)|destruct (B _ H)]; lia. }
  apply nth_ext with (d := 0%Z) (d' := g 0%Z); [now rewrite map_length|]. intros k Hk. rewrite map_nth. destruct (B k Hk) as [Hk' H1]. destruct (A k Hk') as [_ H2]. lia.
Qed.

Theorem dim0_stable dist dist' pe pe' c dim dim' eps data data' lines lines' delta :
  symmetric_on dist data -> symmetric_on dist' data' -> length data' = length data ->
  (forall u v, u < length data -> v < length data -> u <> v -> (Z.abs (separation dist' data' u v - separation dist data u v) <= delta)%Z) ->
  reports dist pe c dim eps data lines -> reports dist' pe' c dim' eps data' lines' ->
  forall k, (k < length (deaths lines) -> k < length (deaths lines') -> (Z.abs (nth k (deaths lines') 0 - nth k (deaths lines) 0) <= delta)%Z) /\
    (length (deaths lines') <= k < length (deaths lines) -> ~ close c eps (nth k (deaths lines) 0 + delta)%Z) /\
    (length (deaths lines) <= k < length (deaths lines') -> ~ close c eps (nth k (deaths lines') 0 + delta)%Z).
Proof.
  intros S S' L Hs R R' k. destruct (reports_merges _ _ _ _ _ _ _ R) as [_ M], (reports_merges _ _ _ _ _ _ _ R') as [_ M'].
  set (ds := deaths lines) in *. set (ds' := deaths lines') in *.
  assert (Hd : ds <> [] \/ ds' <> [] -> (0 <= delta)%Z).
  { intros H. assert (X : exists u v, u < v /\ v < length data).
    { destruct H as [H|H].
      - destruct ds as [|w l] eqn:E; [easy|]. destruct (mg_real _ _ _ _ M w (or_introl eq_refl)) as (u & v & H1 & H2 & _). eauto.
      - destruct ds' as [|w l] eqn:E; [easy|]. destruct (mg_real _ _ _ _ M' w (or_introl eq_refl)) as (u & v & H1 & H2 & _). rewrite L in H2. eauto. }
    destruct X as (u & v & H1 & H2). specialize (Hs u v ltac:(lia) H2 ltac:(lia)). lia. }
  assert (F : k < length ds -> (0 <= delta)%Z) by (intros H; apply Hd; left; intros E; rewrite E in H; cbn in H; lia).
  assert (F' : k < length ds' -> (0 <= delta)%Z) by (intros H; apply Hd; right; intros E; rewrite E in H; cbn in H; lia).
  assert (A := merges_stable dist data dist' data' (reach c eps) ds ds' (fun x => x) delta S' M M' L ltac:(auto) ltac:(auto)).
  assert (B := merges_stable dist' data' dist data (reach c eps) ds' ds (fun x => x) delta S M' M ltac:(auto) ltac:(auto) ltac:(auto)).
  assert (Hs1 : forall u v, u < length data -> v < length data -> u <> v -> (separation dist' data' u v <= separation dist data u v + delta)%Z)
    by (intros u v Hu Hv Huv; specialize (Hs u v Hu Hv Huv); lia).
  assert (Hs2 : forall u v, u < length data -> v < length data -> u <> v -> (separation dist data u v <= separation dist' data' u v + delta)%Z)
    by (intros u v Hu Hv Huv; specialize (Hs u v Hu Hv Huv); lia).
  rewrite L in B. specialize (A Hs1). specialize (B Hs2).
  rewrite !close_reach. split; [|split].
  - intros Hk Hk'. destruct (A (F Hk) k Hk) as [[_ H1]|[H1 _]]; [|lia]. destruct (B (F' Hk') k Hk') as [[_ H2]|[H2 _]]; [|lia]. lia.
  - intros [Hk Hk']. destruct (A (F Hk') k Hk') as [[H1 _]|[_ H1]]; lia.
  - intros [Hk Hk']. destruct (B (F' Hk') k Hk') as [[H1 _]|[_ H1]]; lia.
Qed.

Lemma separation_app dist data extra u v : u < length data -> v < length data -> separation dist (data ++ extra) u v = separation dist data u v.
Proof. intros Hu Hv. unfold separation. now rewrite !nth_error_app1. Qed.

Theorem dim0_more_points dist pe pe' c dim dim' eps data extra lines lines' :
  reports dist pe c dim eps data lines -> reports dist pe' c dim' eps (data ++ extra) lines' ->
  forall k, k < length (deaths lines) -> k < length (deaths lines') /\ (nth k (deaths lines') 0 <= nth k (deaths lines) 0)%Z.
Proof.
  intros R R' k Hk. destruct (reports_merges _ _ _ _ _ _ _ R) as [_ M], (reports_merges _ _ _ _ _ _ _ R') as [_ M'].
  set (ds := deaths lines) in *. set (ds' := deaths lines') in *. set (t := nth k ds 0%Z).
  assert (Ht : k < count_le t ds) by (apply count_nth; auto; [apply M|lia]).
  assert (G : count_le t ds <= count_le t ds').
  { destruct (merges_at _ _ _ _ M t) as (n & C & E), (merges_at _ _ _ _ M' t) as (n' & C' & E'). rewrite app_length in *.
    assert (n' <= n + length extra); [|lia].
    destruct C as (reps & Lr & N & I & U & T). destruct C' as (reps' & Lr' & N' & I' & U' & T'). subst n n'.
    assert (Lx : length reps + length extra = length (reps ++ seq (length data) (length extra))) by (now rewrite app_length, seq_length).
    rewrite Lx. apply (classes_le (seq 0 (length data + length extra)) (link dist (data ++ extra) (Z.min t (reach c eps))) reps'); auto using link_sym.
    - intros; eapply link_trans; eauto.
    - intros v Hv. apply in_seq in Hv. destruct (le_lt_dec (length data) v) as [H|H].
      + exists v. split; [apply in_app_iff; right; apply in_seq; lia|apply rst_refl].
      + destruct (T v) as (r & Hr & Rr); [apply in_seq; lia|]. exists r. split; [apply in_app_iff; auto|].
        revert Rr. apply rst_mono. intros x y (H1 & H2 & H3). apply rst_step. split; auto. rewrite app_length. split; [lia|].
        rewrite separation_app; auto; lia. }
  assert (G1 := count_le_length t ds'). split; [lia|]. apply count_nth; [apply M'|lia|lia].
Qed.

(* ---- repeated points ---- *)
Theorem dim0_repeated dist pe c dim eps data lines (dec : forall x y : list Z, {x = y} + {x <> y}) :
  (forall x y, In x data -> In y data -> (dist x y = 0%Z <-> x = y)) -> close c eps 0%Z -> reports dist pe c dim eps data lines ->
  count_le 0 (deaths lines) + length (nodup dec data) = length data.
Proof.
  intros H0 Hc R. destruct (reports_merges _ _ _ _ _ _ _ R) as [_ M]. apply (mg_count _ _ _ _ M). apply close_reach in Hc.
  replace (Z.min 0 (reach c eps)) with 0%Z by lia.
  assert (Pos : forall x y, (0 <= dist x y)%Z).
  { destruct R as (? & ? & ? & ? & ? & ? & ? & ? & ? & ? & ? & _ & _ & _ & _ & _ & _ & _ & Hp & _). exact Hp. }
  assert (A : forall u v, link dist data 0 u v -> nth_error data u = nth_error data v).
  { intros u v L. induction L as [u v (H1 & H2 & H3)|u|u v _ IH|u v w _ IH1 _ IH2]; try congruence.
    unfold separation in H3. destruct (nth_error data u) as [x|] eqn:Eu; [|apply nth_error_None in Eu; lia].
    destruct (nth_error data v) as [y|] eqn:Ev; [|apply nth_error_None in Ev; lia]. f_equal. apply H0; [eapply nth_error_In; eauto|eapply nth_error_In; eauto|]. specialize (Pos x y). lia. }
  assert (B : forall u v x, nth_error data u = Some x -> nth_error data v = Some x -> link dist data 0 u v).
  { intros u v x Hu Hv. assert (Sep : forall a b, nth_error data a = Some x -> nth_error data b = Some x -> a < b -> linked dist data 0 a b).
    { intros a b Ha Hb Hab. split; auto. split; [apply nth_error_Some; congruence|]. unfold separation. rewrite Ha, Hb. assert (dist x x = 0%Z) by (apply H0; auto; eapply nth_error_In; eauto). lia. }
    destruct (lt_eq_lt_dec u v) as [[H| ->]|H]; [apply rst_step; auto|apply rst_refl|apply rst_sym, rst_step; auto]. }
  assert (X : forall l, incl l data -> exists reps, Forall2 (fun x i => nth_error data i = Some x) l reps).
  { induction l as [|x l IH]; intros Hl; [exists []; constructor|]. destruct IH as (reps & F); [intros z Hz; apply Hl; now right|].
    destruct (In_nth_error data x (Hl x (or_introl eq_refl))) as (i & Hi). exists (i :: reps). now constructor. }
  destruct (X (nodup dec data)) as (reps & F). { intros x Hx. now apply nodup_In in Hx. }
  exists reps. split; [clear - F; induction F; cbn; congruence|].
  assert (N := NoDup_nodup dec data). assert (T : forall x, In x data -> In x (nodup dec data)) by (intros; now apply nodup_In).
  assert (In1 : forall l r, Forall2 (fun x i => nth_error data i = Some x) l r -> forall i, In i r -> exists x, In x l /\ nth_error data i = Some x).
  { induction 1 as [|x i l r Hx _ IH]; [intros j []|]. intros j [<-|Hj]; [exists x; split; [now left|auto]|]. destruct (IH j Hj) as (y & Hy & E). exists y. split; [now right|auto]. }
  assert (In2 : forall l r, Forall2 (fun x i => nth_error data i = Some x) l r -> forall x, In x l -> exists i, In i r /\ nth_error data i = Some x).
  { induction 1 as [|x i l r Hx _ IH]; [intros y []|]. intros y [<-|Hy]; [exists i; split; [now left|auto]|]. destruct (IH y Hy) as (j & Hj & E). exists j. split; [now right|auto]. }
  split; [|split; [|split]].
  - clear T. revert N F. generalize (nodup dec data). intros l N F. induction F as [|x i l r Hx F IH]; [constructor|]. inversion N; subst. constructor; [|apply IH; auto].
    intros Hi. destruct (In1 _ _ F i Hi) as (y & Hy & E). congruence.
  - intros i Hi. destruct (In1 _ _ F i Hi) as (x & _ & E). apply in_seq. assert (i < length data) by (apply nth_error_Some; congruence). lia.
  - intros i j Hi Hj L. apply A in L. clear T. revert N F Hi Hj. generalize (nodup dec data). intros l N F. induction F as [|x k l r Hx F IH]; intros Hi Hj; [easy|].
    inversion N; subst. destruct Hi as [<-|Hi], Hj as [<-|Hj]; auto.
    + destruct (In1 _ _ F j Hj) as (y & Hy & E). congruence.
    + destruct (In1 _ _ F i Hi) as (y & Hy & E). congruence.
  - intros v Hv. apply in_seq in Hv. destruct (nth_error data v) as [x|] eqn:Ev; [|apply nth_error_None in Ev; lia].
    destruct (In2 _ _ F x (T x (nth_error_In _ _ Ev))) as (i & Hi & E). exists i. split; auto. eapply B; eauto.
Qed.
