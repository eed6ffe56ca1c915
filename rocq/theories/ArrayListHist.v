(* ArrayListHist.v -- simplexArrayList over arbitrary histories of calls. *)
From Coq Require Import List Arith ZArith Bool Lia Sorted Permutation.
From Verif Require Import Base Spec UtilsModel UtilsProofs PartitionProofs ArrayListModel ArrayListProofs
  ArrayListInv SpecComplex.
Import ListNotations.

Local Notation lev wg k := (nth k wg (@nil wsimp)).

Lemma live_from_snoc n ops o : live_from n (ops ++ [o]) =
  match o with OpInsert false => S (live_from n ops) | OpInsert true => live_from n ops
             | OpExpand _ => live_from n ops | OpClear => 0 end.
Proof.
  revert n; induction ops as [|p ops IH]; intros n; cbn.
  - destruct o as [[]| |]; reflexivity.
  - destruct p as [[]| |]; apply IH.
Qed.
Lemma live_snoc ops o : live (ops ++ [o]) =
  match o with OpInsert false => S (live ops) | OpInsert true => live ops | OpExpand _ => live ops | OpClear => 0 end.
Proof. apply live_from_snoc. Qed.

Lemma expanded_from_snoc n ops o : expanded_from n (ops ++ [o]) =
  match o with OpInsert false => 1 | OpInsert true => expanded_from n ops
             | OpExpand d => Nat.max (expanded_from n ops) (to_unsigned d) | OpClear => 1 end.
Proof.
  revert n; induction ops as [|p ops IH]; intros n; cbn [expanded_from app].
  - destruct o as [[]| |]; reflexivity.
  - destruct p as [[]| |]; apply IH.
Qed.
Lemma expanded_snoc ops o : expanded (ops ++ [o]) =
  match o with OpInsert false => 1 | OpInsert true => expanded ops
             | OpExpand d => Nat.max (expanded ops) (to_unsigned d) | OpClear => 1 end.
Proof. apply expanded_from_snoc. Qed.

Lemma deepest_from_snoc n ops o : deepest_from n (ops ++ [o]) =
  match o with OpInsert _ => deepest_from n ops
             | OpExpand d => Nat.max (deepest_from n ops) (to_unsigned d) | OpClear => 1 end.
Proof.
  revert n; induction ops as [|p ops IH]; intros n; cbn [deepest_from app].
  - destruct o as [[]| |]; reflexivity.
  - destruct p as [[]| |]; apply IH.
Qed.
Lemma deepest_snoc ops o : deepest (ops ++ [o]) =
  match o with OpInsert _ => deepest ops
             | OpExpand d => Nat.max (deepest ops) (to_unsigned d) | OpClear => 1 end.
Proof. apply deepest_from_snoc. Qed.

Lemma expanded_pos ops : 1 <= expanded ops.
Proof.
  induction ops as [|o ops IH] using rev_ind; [cbn; lia|]. rewrite expanded_snoc. destruct o as [[]| |]; lia.
Qed.
Lemma deepest_pos ops : 1 <= deepest ops.
Proof.
  induction ops as [|o ops IH] using rev_ind; [cbn; lia|]. rewrite deepest_snoc. destruct o as [[]| |]; lia.
Qed.

Lemma matrix_covers_snoc dm ops o :
  matrix_covers dm (ops ++ [o]) -> matrix_covers dm ops /\ upper_triangle dm (live (ops ++ [o])).
Proof.
  intros H. split.
  - intros p q E. apply (H p (q ++ [o])). subst ops. now rewrite app_assoc.
  - apply (H _ []). now rewrite app_nil_r.
Qed.

Lemma upper_dm_at dm n j i : upper_triangle dm n -> j < i -> i < n -> dm_at dm j i = Ok (dist_of dm j i).
Proof.
  intros U Hj Hi. destruct (U j i Hj Hi) as [Hl _]. unfold dm_at, dist_of.
  assert (Hjl : j < length dm).
  { destruct (Nat.lt_ge_cases j (length dm)); auto. rewrite (nth_overflow dm) in Hl by auto. cbn in Hl. lia. }
  unfold at_. rewrite (nth_error_nth' dm []) by auto. cbn. now rewrite (nth_error_nth' _ 0%Z).
Qed.

(* The state after a history. *)
Record al_state (dm : list (list Z)) (eps maxDimension : Z) (ops : list al_op) (wg : wgraph) : Prop := {
  st_inv : al_inv (dist_of dm) eps maxDimension (live ops) wg;
  st_complete : (0 < maxDimension)%Z -> forall k, 1 <= k -> k <= expanded ops ->
                  completeL (dist_of dm) eps (live ops) wg k;
  st_top : forall k, deepest ops < k -> lev wg k = []
}.

Lemma al_run_state dm eps maxDimension ops :
  matrix_covers dm ops ->
  exists wg, al_run dm eps maxDimension ops = Ok wg /\ al_state dm eps maxDimension ops wg.
Proof.
  induction ops as [|o ops IH] using rev_ind; intros M.
  - exists []. split; auto. constructor.
    + apply al_inv_nil.
    + intros _ k Hk1 Hk2 s (Hn & _ & V & _) Ls. exfalso. destruct s as [|a s]; [easy|].
      assert (a < 0) by (apply V; now left). lia.
    + intros [|k] _; auto.
  - apply matrix_covers_snoc in M as [M U]. destruct (IH M) as (wg & E & [I C T]).
    unfold al_run in *. rewrite foldr_ub_app, E. cbn [bind foldr_ub].
    assert (P : Dpos (dist_of dm) (live ops)).
    { intros j i Hj Hi. apply (M ops [] (eq_sym (app_nil_r ops))); auto. }
    assert (Ci : forall o', live (ops ++ [o']) = live ops -> forall k, completeL (dist_of dm) eps (live ops) wg k ->
              completeL (dist_of dm) eps (live (ops ++ [o'])) wg k).
    { intros o' -> k H. exact H. }
    destruct o as [[]|dim|]; cbn [al_step].
    + cbn. exists wg. split; auto. constructor.
      * now rewrite live_snoc. * rewrite live_snoc, expanded_snoc. auto. * rewrite deepest_snoc. auto.
    + rewrite live_snoc in U.
      destruct (al_insert_spec (dist_of dm) eps maxDimension dm (live ops) wg) as (wg' & E' & I' & Lk); auto.
      { intros u Hu. apply (upper_dm_at dm (S (live ops))); auto. }
      rewrite E'. cbn. exists wg'. split; auto. constructor.
      * now rewrite live_snoc.
      * rewrite live_snoc, expanded_snoc. intros Hm k H1 H2. replace k with 1 by lia.
        intros s Hs Ls. now apply (i_edges _ _ _ _ _ I').
      * rewrite deepest_snoc. intros k Hk. assert (H := deepest_pos ops). rewrite Lk by lia. auto.
    + destruct (expandDimensions_spec (dist_of dm) eps maxDimension (live ops) dim wg P I) as (wg' & E' & I' & Inc & Lk & C').
      rewrite E'. cbn. exists wg'. split; auto. constructor.
      * now rewrite live_snoc.
      * rewrite live_snoc, expanded_snoc. intros Hm k H1 H2.
        destruct (Nat.le_gt_cases k (Nat.max 1 (to_unsigned dim))) as [Hle|Hgt]; [now apply C'|].
        assert (Hc : completeL (dist_of dm) eps (live ops) wg k) by (apply C; auto; lia).
        intros s Hs Ls. destruct (Hc s Hs Ls) as (w & Hw). exists w. now apply Inc.
      * rewrite deepest_snoc. intros k Hk. assert (H := deepest_pos ops). rewrite Lk by lia. apply T. lia.
    + cbn. exists []. split; auto. constructor.
      * rewrite live_snoc. apply al_inv_nil.
      * rewrite live_snoc. intros _ k Hk1 Hk2 s (Hn & _ & V & _) Ls. exfalso. destruct s as [|a s]; [easy|].
        assert (a < 0) by (apply V; now left). lia.
      * intros [|k] _; auto.
Qed.

Lemma al_run_inv dm eps maxDimension ops wg :
  matrix_covers dm ops -> al_run dm eps maxDimension ops = Ok wg -> al_state dm eps maxDimension ops wg.
Proof.
  intros M E. destruct (al_run_state dm eps maxDimension ops M) as (wg' & E' & S). congruence.
Qed.

(* ------------------------------------------------------------------ C09 *)
Lemma array_list_rips dm eps maxDimension ops :
  matrix_covers dm ops ->
  exists wg, al_run dm eps maxDimension ops = Ok wg /\
    level wg 0 = map (fun i => ([i], 0%Z)) (seq 0 (live ops)) /\
    (forall k s w, 1 <= k -> In (s, w) (level wg k) -> length s = S k /\ rips dm eps (live ops) s) /\
    ((0 < maxDimension)%Z -> forall k s, 1 <= k <= expanded ops -> rips dm eps (live ops) s -> length s = S k ->
        exists w, In (s, w) (level wg k)) /\
    ((maxDimension <= 0)%Z -> forall k, 1 <= k -> level wg k = []) /\
    (forall k, deepest ops < k -> level wg k = []).
Proof.
  intros M. destruct (al_run_state dm eps maxDimension ops M) as (wg & E & [I C T]). exists wg.
  split; auto. split; [apply (i_vert _ _ _ _ _ I)|]. split; [|split; [|split]]; auto.
  - intros k s w Hk H. apply (i_sound _ _ _ _ _ I) in H; auto. tauto.
  - intros Hm k s [H1 H2] Hs Ls. now apply (C Hm k).
  - intros Hm k Hk. apply lev_over. assert (length wg <= 1) by now apply (i_lowdim _ _ _ _ _ I). lia.
Qed.

(* ------------------------------------------------------------------ C10 *)
Lemma NoDup_map_fst (l : list wsimp) :
  NoDup l -> (forall s w w', In (s, w) l -> In (s, w') l -> w = w') -> NoDup (map fst l).
Proof.
  induction l as [|[s w] l IH]; cbn; intros N U; constructor; inversion N; subst.
  - intros H. apply in_map_iff in H as ([s' w'] & E & H). cbn in E. subst s'.
    assert (w = w') by (apply (U s w w'); auto). subst. auto.
  - apply IH; auto. intros s' w1 w2 H H'. apply (U s'); auto.
Qed.

Lemma inv_diam D eps md n wg k s w :
  al_inv D eps md n wg -> In (s, w) (lev wg k) -> diameter D s w /\ length s = S k /\ increasing s /\ s <> [].
Proof.
  intros I H. destruct k as [|k].
  - rewrite (i_vert _ _ _ _ _ I) in H. apply in_map_iff in H as (i & E & _). injection E as <- <-. repeat split; auto.
    + intros u v [<-|[]] [<-|[]] Huv. lia. + repeat constructor. + easy.
  - apply (i_sound _ _ _ _ _ I) in H as (L & F & Di); [|lia]. repeat split; auto; try apply Di. apply F. apply F.
Qed.

Lemma inv_unique D eps md n wg k s w w' :
  al_inv D eps md n wg -> In (s, w) (lev wg k) -> In (s, w') (lev wg k) -> w = w'.
Proof.
  intros I H H'. destruct k as [|k].
  - rewrite (i_vert _ _ _ _ _ I) in H, H'. apply in_map_iff in H as (i & E & _), H' as (i' & E' & _). congruence.
  - apply (i_sound _ _ _ _ _ I) in H as (L & F & Di); [|lia]. apply (i_sound _ _ _ _ _ I) in H' as (L' & F' & Di'); [|lia].
    eapply diameter_unique; eauto. lia.
Qed.

Lemma inv_facet D eps md n wg k s w f :
  al_inv D eps md n wg -> In (s, w) (lev wg (S k)) -> facet f s -> exists w', In (f, w') (lev wg k) /\ (0 <= n).
Proof.
  intros I H Hf. assert (Hs := i_sound _ _ _ _ _ I (S k) s w ltac:(lia) H). destruct Hs as (L & (_ & S & V & _) & _).
  apply facet_del in Hf as (x & Hx & ->); auto. destruct k as [|k].
  - assert (Hd := del_length x s (ssorted_NoDup _ S) Hx).
    destruct (del x s) as [|v [|? ?]] eqn:E; cbn in Hd; try lia. exists 0%Z. split; [|lia].
    rewrite (i_vert _ _ _ _ _ I). apply in_map_iff. exists v. split; auto. apply in_seq. split; [lia|]. apply V.
    assert (In v (del x s)) by (rewrite E; now left). now apply del_In in H0.
  - destruct (i_closed _ _ _ _ _ I (Datatypes.S (Datatypes.S k)) s w x ltac:(lia) H Hx) as (w' & Hw').
    exists w'. split; [|lia]. exact Hw'.
Qed.

Lemma array_list_closed dm eps maxDimension ops wg :
  matrix_covers dm ops -> al_run dm eps maxDimension ops = Ok wg ->
  (forall k, NoDup (map fst (level wg k))) /\
  (forall k s w, In (s, w) (level wg k) -> length s = S k /\ increasing s /\ diameter (dist_of dm) s w) /\
  (forall k s w f, In (s, w) (level wg (S k)) -> facet f s -> exists w', In (f, w') (level wg k) /\ (w' <= w)%Z).
Proof.
  intros M E. destruct (al_run_inv _ _ _ _ _ M E) as [I C T]. split; [|split].
  - intros k. apply NoDup_map_fst; [apply (i_nodup _ _ _ _ _ I)|]. intros s w w'. now apply (inv_unique _ _ _ _ _ _ _ _ _ I).
  - intros k s w H. apply (inv_diam _ _ _ _ _ _ _ _ I) in H. tauto.
  - intros k s w f H Hf. destruct (inv_facet _ _ _ _ _ _ _ _ _ I H Hf) as (w' & Hw' & _). exists w'. split; auto.
    destruct (inv_diam _ _ _ _ _ _ _ _ I H) as ([Hb Hex] & _ & Ss & _).
    destruct (inv_diam _ _ _ _ _ _ _ _ I Hw') as ([Hb' [(u & v & Hu & Hv & Huv & Ew)|[Hl ->]]] & _ & _ & _).
    + subst w'. destruct Hf as (_ & Inc & _). apply Hb; auto.
    + destruct Hex as [(u & v & Hu & Hv & Huv & <-)|[_ ->]]; [|lia].
      apply (M ops [] (eq_sym (app_nil_r ops))); auto.
      destruct (i_sound _ _ _ _ _ I (S k) s _ ltac:(lia) H) as (_ & (_ & _ & V & _) & _). auto.
Qed.

(* ------------------------------------------------------------------ C11 *)
Lemma to_set_id s : increasing s -> to_set s = s.
Proof.
  unfold to_set. intros S.
  assert (G : forall acc, ssorted (acc ++ s) -> fold_left (fun a x => sinsert x a) s acc = acc ++ s).
  { clear S. induction s as [|x s IH]; intros acc S; cbn; [now rewrite app_nil_r|].
    assert (E : sinsert x acc = acc ++ [x]).
    { apply sinsert_last. intros y Hy. apply ssorted_app in S as (_ & _ & S). apply S; auto. now left. }
    rewrite E, IH; rewrite <- app_assoc; auto. }
  apply (G []). exact S.
Qed.

Lemma getAllEdges_map srt wg eps :
  (forall l, In l wg -> l <> []) -> (forall l s w, In l wg -> In (s, w) l -> increasing s) ->
  getAllEdges srt wg eps = map srt wg.
Proof.
  intros Hne Hs. unfold getAllEdges.
  assert (Hid : forall l, In l wg -> map (fun edge : wsimp => (to_set (fst edge), snd edge)) l = l).
  { intros l Hl. transitivity (map (fun x : wsimp => x) l); [|apply map_id]. apply map_ext_in. intros [s w] Hw. cbn [fst snd]. rewrite to_set_id; auto. eapply Hs; eauto. }
  assert (G : forall wg' acc, incl wg' wg -> fold_left (fun ret dim =>
        match map (fun edge : wsimp => (to_set (fst edge), snd edge)) dim with
        | [] => ret | _ => ret ++ [srt (map (fun edge : wsimp => (to_set (fst edge), snd edge)) dim)] end) wg' acc = acc ++ map srt wg').
  { induction wg' as [|l wg' IH]; intros acc Hi; cbn; [now rewrite app_nil_r|].
    assert (Hl : In l wg) by (apply Hi; now left). rewrite (Hid l Hl). destruct l as [|e l]; [now apply Hne in Hl|].
    rewrite IH by (intros x Hx; apply Hi; now right). rewrite <- app_assoc. reflexivity. }
  apply G, incl_refl.
Qed.

Lemma getAllEdges_spec dm eps maxDimension ops wg srt epsilon :
  matrix_covers dm ops -> al_run dm eps maxDimension ops = Ok wg -> is_sort srt ->
  let ret := getAllEdges srt wg epsilon in
  (forall k, Permutation (level ret k) (level wg k) /\ StronglySorted by_weight (level ret k)) /\
  (forall k, k < length ret <-> level wg k <> []) /\
  (forall epsilon', getAllEdges srt wg epsilon' = ret).
Proof.
  intros M E Hsrt. cbv zeta. destruct (al_run_inv _ _ _ _ _ M E) as [I C T].
  assert (Eq : forall e, getAllEdges srt wg e = map srt wg).
  { intros e. apply getAllEdges_map.
    - intros l Hl. apply (In_nth _ _ []) in Hl as (k & Hk & <-). now apply (i_ne _ _ _ _ _ I).
    - intros l s w Hl Hw. apply (In_nth _ _ []) in Hl as (k & Hk & <-). apply (inv_diam _ _ _ _ _ _ _ _ I) in Hw. tauto. }
  rewrite Eq. split; [|split].
  - intros k. unfold level. destruct (Nat.lt_ge_cases k (length wg)) as [Hk|Hk].
    + rewrite (nth_indep _ [] (srt [])) by now rewrite map_length. rewrite map_nth. apply Hsrt.
    + rewrite !nth_overflow by (rewrite ?map_length; auto). split; auto. constructor.
  - intros k. rewrite map_length. split; [apply (i_ne _ _ _ _ _ I)|].
    intros H. destruct (Nat.lt_ge_cases k (length wg)); auto. exfalso. apply H. now apply nth_overflow.
  - intros e'. apply Eq.
Qed.

(* ------------------------------------------------------------------ C12 *)
Lemma add_all_prefix cs l : exists ext, fold_left add_new cs l = l ++ ext.
Proof.
  revert l; induction cs as [|c cs IH]; intros l; cbn.
  - exists []. now rewrite app_nil_r.
  - destruct (IH (add_new l c)) as (e & E). rewrite E. unfold add_new. destruct (existsb _ _); eauto.
    exists (c :: e). now rewrite <- app_assoc.
Qed.

Definition settled (wg : wgraph) (d : nat) : Prop :=
  incl (cands (lev wg (d - 1)) (lev wg (d - 1))) (lev wg d).

Lemma expand_loop_more D eps md n fuel d wg :
  Dpos D n -> al_inv D eps md n wg -> 2 <= d ->
  forall wg', expand_loop fuel d wg = Ok wg' ->
  (forall k, exists ext, lev wg' k = lev wg k ++ ext) /\
  (forall k, d <= k -> k < d + fuel -> settled wg' k).
Proof.
  intros P. revert d wg; induction fuel as [|fuel IH]; intros d wg I Hd wg'; cbn.
  - intros E. injection E as <-. split; [|lia]. intros k. exists []. now rewrite app_nil_r.
  - destruct (Nat.ltb_spec (length wg) d) as [Hlt|Hge].
    + intros E. injection E as <-. split. { intros k. exists []. now rewrite app_nil_r. }
      intros k H1 H2. unfold settled. rewrite (lev_over wg (k - 1)) by lia. cbn. easy.
    + rewrite at_lev by lia. cbn [bind].
      assert (G : goodL d (lev wg (d - 1))). { replace d with (S (d - 1)) at 1 by lia. apply (inv_goodL D eps md n); auto. lia. }
      destruct (expand_outer_spec d wg Hd Hge G) as (wg1 & E1 & Len & Ld & Lk).
      destruct (expand_step D eps md n wg d P I Hd Hge) as (wg1' & E1' & I1 & Inc1 & _).
      rewrite E1 in E1'. injection E1' as <-. rewrite E1. cbn [bind]. intros E.
      destruct (IH (S d) wg1 I1 ltac:(lia) wg' E) as [Hp Hs]. split.
      * intros k. destruct (Hp k) as (e & He). destruct (Nat.eq_dec k d) as [->|Hk].
        -- rewrite He, Ld. destruct (add_all_prefix (cands (lev wg (d - 1)) (lev wg (d - 1))) (lev wg d)) as (e' & ->).
           exists (e' ++ e). now rewrite app_assoc.
        -- rewrite He, Lk by auto. eauto.
      * intros k H1 H2. destruct (Nat.eq_dec k d) as [->|Hk]; [|apply Hs; lia].
        destruct (expand_loop_spec D eps md n fuel (S d) wg1 P I1 ltac:(lia)) as (wg2 & E2 & _ & Inc2 & Lk2 & _).
        rewrite E in E2. injection E2 as <-. unfold settled. rewrite Lk2 by lia. rewrite Lk by lia.
        intros x Hx. apply Inc2. rewrite Ld. apply add_all_In. auto.
Qed.

Lemma expand_loop_settled D eps md n fuel d wg :
  Dpos D n -> al_inv D eps md n wg -> 2 <= d ->
  (forall k, d <= k -> k < d + fuel -> settled wg k) -> expand_loop fuel d wg = Ok wg.
Proof.
  intros P. revert d; induction fuel as [|fuel IH]; intros d I Hd Hs; cbn; auto.
  destruct (Nat.ltb_spec (length wg) d) as [Hlt|Hge]; auto.
  rewrite at_lev by lia. cbn [bind].
  assert (G : goodL d (lev wg (d - 1))). { replace d with (S (d - 1)) at 1 by lia. apply (inv_goodL D eps md n); auto. lia. }
  destruct (expand_outer_spec d wg Hd Hge G) as (wg1 & E1 & Len & Ld & Lk).
  rewrite E1. cbn [bind].
  assert (Hd' : settled wg d) by (apply Hs; lia). unfold settled in Hd'.
  assert (wg1 = wg).
  { apply lev_ext.
    - rewrite Len. destruct (cands (lev wg (d - 1)) (lev wg (d - 1))) as [|c cs]; auto.
      assert (H : In c (lev wg d)) by (apply Hd'; now left).
      destruct (Nat.lt_ge_cases d (length wg)) as [|Hx]; [lia|]. rewrite (lev_over wg d Hx) in H. easy.
    - intros k. destruct (Nat.eq_dec k d) as [->|]; [|now apply Lk]. rewrite Ld. now apply add_all_id. }
  subst wg1. apply IH; auto. intros k H1 H2. apply Hs; lia.
Qed.

Lemma expand_again dm eps maxDimension ops wg a wg1 b :
  matrix_covers dm ops -> al_run dm eps maxDimension ops = Ok wg -> expandDimensions a wg = Ok wg1 ->
  (to_unsigned b <= to_unsigned a -> expandDimensions b wg1 = Ok wg1) /\
  (exists wg2, expandDimensions b wg1 = Ok wg2 /\
     (forall k, k <= Nat.max 1 (to_unsigned a) -> level wg2 k = level wg1 k) /\
     (forall k, exists new, level wg2 k = level wg1 k ++ new)).
Proof.
  intros M E E1. destruct (al_run_inv _ _ _ _ _ M E) as [I C T].
  assert (P : Dpos (dist_of dm) (live ops)).
  { intros j i Hj Hi. apply (M ops [] (eq_sym (app_nil_r ops))); auto. }
  destruct (expandDimensions_spec _ _ _ _ a wg P I) as (wg1' & E1' & I1 & _).
  rewrite E1 in E1'. injection E1' as <-.
  assert (S1 : forall k, 2 <= k -> k <= to_unsigned a -> settled wg1 k).
  { intros k H1 H2. unfold expandDimensions in E1.
    destruct (expand_loop_more _ _ _ _ _ _ _ P I (le_n 2) _ E1) as [_ H]. apply H; lia. }
  split.
  - intros Hb. unfold expandDimensions. apply (expand_loop_settled (dist_of dm) eps maxDimension (live ops)); auto.
    intros k H1 H2. apply S1; lia.
  - destruct (expandDimensions_spec _ _ _ _ b wg1 P I1) as (wg2 & E2 & I2 & Inc & Lk & _).
    exists wg2. split; auto. unfold expandDimensions in E2.
    assert (Hp : forall k, exists new, level wg2 k = level wg1 k ++ new).
    { apply (expand_loop_more _ _ _ _ _ _ _ P I1 (le_n 2) _ E2). }
    split; auto. intros k Hk.
    destruct (Nat.le_gt_cases (to_unsigned b) (to_unsigned a)) as [Hb|Hb].
    + assert (Hsame : expand_loop (to_unsigned b - 1) 2 wg1 = Ok wg1).
      { apply (expand_loop_settled (dist_of dm) eps maxDimension (live ops)); auto. intros j H1 H2. apply S1; lia. }
      rewrite Hsame in E2. now injection E2 as <-.
    + (* levels settled by the first call cannot grow: everything that could be added is there *)
      destruct (expand_loop_more _ _ _ _ _ _ _ P I1 (le_n 2) _ E2) as [_ Hs2].
      assert (G : forall fuel d wg0, al_inv (dist_of dm) eps maxDimension (live ops) wg0 -> 2 <= d ->
                (forall j, d <= j -> j <= to_unsigned a -> settled wg0 j) ->
                forall wg3, expand_loop fuel d wg0 = Ok wg3 -> forall j, j <= Nat.max 1 (to_unsigned a) -> lev wg3 j = lev wg0 j).
      { clear - P. induction fuel as [|fuel IH]; intros d wg0 I0 Hd Hs wg3; cbn.
        - intros E. injection E as <-. auto.
        - destruct (Nat.ltb_spec (length wg0) d) as [Hlt|Hge]. { intros E. injection E as <-. auto. }
          rewrite at_lev by lia. cbn [bind].
          assert (G : goodL d (lev wg0 (d - 1))).
          { replace d with (S (d - 1)) at 1 by lia. apply (inv_goodL (dist_of dm) eps maxDimension (live ops)); auto. lia. }
          destruct (expand_outer_spec d wg0 Hd Hge G) as (wgx & Ex & Len & Ld & Lk).
          destruct (expand_step _ _ _ _ wg0 d P I0 Hd Hge) as (wgx' & Ex' & Ix & _).
          rewrite Ex in Ex'. injection Ex' as <-. rewrite Ex. cbn [bind]. intros E j Hj.
          assert (Hx : forall i, i <= Nat.max 1 (to_unsigned a) -> lev wgx i = lev wg0 i).
          { intros i Hi. destruct (Nat.eq_dec i d) as [->|]; [|now apply Lk]. rewrite Ld. apply add_all_id.
            apply Hs; lia. }
          rewrite <- (Hx j Hj). apply (IH (S d) wgx Ix ltac:(lia)); auto.
          intros i H1 H2. unfold settled. rewrite !Hx by lia. apply Hs; lia. }
      apply (G _ _ _ I1 (le_n 2)) with (2 := E2); auto.
Qed.

(* ------------------------------------------------------------------ C15 (array list) *)
Lemma count_concat (wg : wgraph) : al_simplexCount wg = length (concat wg).
Proof.
  unfold al_simplexCount. assert (G : forall a, fold_left (fun n (l : list wsimp) => n + length l) wg a = a + length (concat wg)).
  { induction wg as [|l wg IH]; intros a; cbn; [lia|]. rewrite IH, app_length. lia. }
  apply G.
Qed.

Lemma array_list_counts dm eps maxDimension ops wg :
  matrix_covers dm ops -> al_run dm eps maxDimension ops = Ok wg ->
  al_vertexCount wg = live ops /\
  exists simplices, al_simplexCount wg = length simplices /\ NoDup simplices /\
    forall s, In s simplices <-> exists k w, In (s, w) (level wg k).
Proof.
  intros M E. destruct (al_run_inv _ _ _ _ _ M E) as [I C T]. split.
  - unfold al_vertexCount. assert (H := i_vert _ _ _ _ _ I). destruct wg as [|l0 wg]; cbn in H.
    + destruct (live ops); [auto|easy]. + rewrite H, map_length, seq_length. auto.
  - exists (map fst (concat wg)). rewrite count_concat, map_length. split; auto.
    assert (Hin : forall x, In x (concat wg) <-> exists k, In x (level wg k)).
    { intros x. rewrite in_concat. split.
      - intros (l & Hl & Hx). apply (In_nth _ _ []) in Hl as (k & Hk & <-). eauto.
      - intros (k & Hx). exists (level wg k). split; auto. unfold level in *.
        destruct (Nat.lt_ge_cases k (length wg)); [now apply nth_In|]. rewrite nth_overflow in Hx; easy. }
    split.
    + destruct (array_list_closed _ _ _ _ _ M E) as (N & HL & _).
      (* levels are disjoint: they hold simplices of different length *)
      assert (G : forall k0 wg', (forall k s w, In (s, w) (level wg' k) -> length s = S (k0 + k)) ->
                 (forall k, NoDup (map fst (level wg' k))) -> NoDup (map fst (concat wg'))).
      { intros k0 wg'. revert k0. induction wg' as [|l wg' IH]; intros k0 Hl Hn; cbn; [constructor|].
        rewrite map_app.
        assert (Gd : forall u v : list (list nat), NoDup u -> NoDup v -> (forall z, In z u -> ~ In z v) -> NoDup (u ++ v)).
        { induction u as [|z u IHu]; cbn; auto. intros v Na Nb Hdj. inversion Na; subst. constructor.
          - rewrite in_app_iff. intros [HH|HH]; auto. apply (Hdj z); auto. - apply IHu; auto. }
        apply Gd.
        - apply (Hn 0).
        - apply (IH (S k0)). + intros k s w H. rewrite (Hl (S k) s w H). lia. + intros k. apply (Hn (S k)).
        - intros s H1 H2. apply in_map_iff in H1 as ([s1 w1] & E1 & H1), H2 as ([s2 w2] & E2 & H2). cbn in *. subst s1 s2.
          apply in_concat in H2 as (l' & Hl' & H2). apply (In_nth _ _ []) in Hl' as (k & Hk & <-).
          assert (A := Hl 0 s w1 H1). assert (B := Hl (S k) s w2 H2). lia. }
      apply (G 0); auto. intros k s w H. now apply HL in H.
    + intros s. rewrite in_map_iff. split.
      * intros ([s' w] & E' & H). cbn in E'. subst s'. apply Hin in H as (k & H). eauto.
      * intros (k & w & H). exists (s, w). split; auto. apply Hin. eauto.
Qed.

(* ------------------------------------------------------------------ find / findWeight *)
Lemma find_level_true (l : list wsimp) v :
  existsb (fun s => nlist_eqb (fst s) v) l = true <-> exists w, In (v, w) l.
Proof.
  rewrite existsb_exists. split.
  - intros ([s w] & H & E). apply nlist_eqb_eq in E. cbn in E. subst s. eauto.
  - intros (w & H). exists (v, w). split; auto. now apply nlist_eqb_eq.
Qed.

Lemma al_find_spec dm eps maxDimension ops wg v :
  matrix_covers dm ops -> al_run dm eps maxDimension ops = Ok wg -> v <> [] ->
  exists b, al_find wg v = Ok b /\ (b = true <-> exists k w, In (v, w) (level wg k)).
Proof.
  intros M E Hv. destruct (al_run_inv _ _ _ _ _ M E) as [I C T].
  assert (Hk : forall k w, In (v, w) (level wg k) -> length v = S k).
  { intros k w H. apply (inv_diam _ _ _ _ _ _ _ _ I) in H. tauto. }
  unfold al_find. destruct (Nat.leb_spec (length v) (length wg)) as [Hle|Hgt].
  - destruct (length v) as [|k] eqn:El; [now destruct v|]. rewrite at_lev by lia. cbn.
    eexists. split; eauto. rewrite find_level_true. split.
    + intros (w & H). exists k, w. auto.
    + intros (k' & w & H). exists w. assert (S k = S k') by (eapply Hk; eauto). injection H0 as ->. exact H.
  - exists false. split; auto. split; [easy|]. intros (k & w & H). exfalso. assert (Hl := Hk k w H).
    unfold level in H. rewrite nth_overflow in H by lia. easy.
Qed.

Lemma findWeight_spec dm eps maxDimension ops wg v :
  matrix_covers dm ops -> al_run dm eps maxDimension ops = Ok wg ->
  (v = [] \/ length wg < length v -> findWeight wg v = UB) /\
  (v <> [] -> length v <= length wg -> exists w, findWeight wg v = Ok w /\
     ((exists k w', In (v, w') (level wg k)) -> diameter (dist_of dm) v w) /\
     (~ (exists k w', In (v, w') (level wg k)) -> w = (-1)%Z)).
Proof.
  intros M E. destruct (al_run_inv _ _ _ _ _ M E) as [I C T]. unfold findWeight. split.
  - intros [->|H]; auto. destruct v as [|x v]; cbn in *; [lia|]. assert (Hub : at_ wg (length v) = UB) by (apply at_UB; lia).
    now rewrite Hub.
  - intros Hv Hl. destruct (length v) as [|k] eqn:El; [now destruct v|]. rewrite at_lev by lia. cbn.
    eexists. split; eauto. unfold find_in_level. destruct (find (fun s => nlist_eqb (fst s) v) (lev wg k)) as [[s w]|] eqn:Ef.
    + apply find_some in Ef as [Hin Heq]. cbn in Heq. apply nlist_eqb_eq in Heq. subst s. cbn. split.
      * intros _. apply (inv_diam _ _ _ _ _ _ _ _ I) in Hin. tauto.
      * intros H. exfalso. apply H. exists k, w. auto.
    + split; auto. intros (k' & w & H). exfalso.
      assert (length v = S k') by (apply (inv_diam _ _ _ _ _ _ _ _ I) in H; tauto).
      assert (k' = k) by lia. subst k'. assert (Hf := find_none _ _ Ef _ H). cbn in Hf.
      assert (nlist_eqb v v = true) by now apply nlist_eqb_eq. congruence.
Qed.

(* ------------------------------------------------------------------ getDimEdges *)
Lemma ssorted_nth s i j : ssorted s -> i < j -> j < length s -> nth i s 0 < nth j s 0.
Proof.
  intros S. revert i j; induction S as [|a s S IH F]; intros i j Hij Hj; cbn in Hj; [lia|].
  destruct j as [|j]; [lia|]. destruct i as [|i]; cbn.
  - rewrite Forall_forall in F. apply F. apply nth_In. lia.
  - apply IH; lia.
Qed.

Lemma at_nth {A} (l : list A) i d : i < length l -> at_ l i = Ok (nth i l d).
Proof. intros H. unfold at_. now rewrite (nth_error_nth' l d). Qed.

Lemma dim_inner dm n epsilon (s : list nat) i m t0 b :
  upper_triangle dm n -> ssorted s -> (forall v, In v s -> v < n) -> i < length s ->
  (forall j, In j m -> i < j < length s) ->
  exists t b', foldr_ub (fun (st : bool * bool) j =>
      let '(isTrue, broken) := st in
      if broken then Ok st
      else do vi <- at_ s i; do vj <- at_ s j; do d <- dm_at dm vi vj;
           if (epsilon <? d)%Z then Ok (false, true) else Ok (isTrue, false)) (t0, b) m = Ok (t, b') /\
    (b = true -> t = t0) /\
    (b = false -> (t = true <-> t0 = true /\ forall j, In j m -> (dist_of dm (nth i s 0%nat) (nth j s 0%nat) <= epsilon)%Z)).
Proof.
  intros U S V Hi.
  match goal with |- context [foldr_ub ?f] => set (F := f) end.
  assert (HF : forall t j, i < j < length s -> F (t, false) j =
      if (epsilon <? dist_of dm (nth i s 0%nat) (nth j s 0%nat))%Z then Ok (false, true) else Ok (t, false)).
  { intros t j Hj. unfold F. rewrite (at_nth s i 0), (at_nth s j 0) by lia. cbn [bind].
    rewrite (upper_dm_at dm n); auto; try (apply V, nth_In; lia). apply ssorted_nth; auto; lia. }
  assert (HT : forall t j, F (t, true) j = Ok (t, true)) by reflexivity.
  clearbody F.
  revert t0 b; induction m as [|j m IH]; intros t0 b Hm; cbn [foldr_ub].
  - exists t0, b. split; auto. split; auto. intros _. split; [|tauto]. intros ->. split; auto. easy.
  - destruct b.
    + rewrite HT. cbn [bind]. destruct (IH t0 true) as (t & b' & E & H1 & H2). { intros; apply Hm; now right. }
      exists t, b'. split; [exact E|]. split; auto. easy.
    + assert (Hj : i < j < length s) by (apply Hm; now left).
      rewrite HF by auto. destruct (Z.ltb_spec epsilon (dist_of dm (nth i s 0) (nth j s 0))) as [Hlt|Hge]; cbn [bind].
      * destruct (IH false true) as (t & b' & E & H1 & H2). { intros; apply Hm; now right. }
        exists t, b'. split; [exact E|]. split; [easy|]. intros _. rewrite (H1 eq_refl). split; [easy|].
        intros [_ H]. assert (dist_of dm (nth i s 0%nat) (nth j s 0%nat) <= epsilon)%Z by (apply H; now left). lia.
      * destruct (IH t0 false) as (t & b' & E & H1 & H2). { intros; apply Hm; now right. }
        exists t, b'. split; [exact E|]. split; [easy|]. intros _. rewrite (H2 eq_refl). split.
        -- intros [Ht H]. split; auto. intros j' [<-|Hj']; auto.
        -- intros [Ht H]. split; auto. intros j' Hj'. apply H. now right.
Qed.

Lemma dim_outer dm n epsilon (s : list nat) is t0 :
  upper_triangle dm n -> ssorted s -> (forall v, In v s -> v < n) ->
  (forall i, In i is -> i < length s) ->
  exists t, foldr_ub (fun isTrue i =>
      rmap fst (foldr_ub (fun (st : bool * bool) j =>
        let '(isTrue, broken) := st in
        if broken then Ok st
        else do vi <- at_ s i; do vj <- at_ s j; do d <- dm_at dm vi vj;
           if (epsilon <? d)%Z then Ok (false, true) else Ok (isTrue, false)) (isTrue, false) (seq (i + 1) (length s - (i + 1)))))
      t0 is = Ok t /\
    (t = true <-> t0 = true /\ forall i j, In i is -> i < j -> j < length s ->
                    (dist_of dm (nth i s 0%nat) (nth j s 0%nat) <= epsilon)%Z).
Proof.
  intros U S V. revert t0; induction is as [|i is IH]; intros t0 Hi; cbn [foldr_ub].
  - exists t0. split; auto. split; [|tauto]. intros ->. split; auto. easy.
  - assert (Hil : i < length s) by (apply Hi; now left).
    destruct (dim_inner dm n epsilon s i (seq (i + 1) (length s - (i + 1))) t0 false) as (t1 & b & E & _ & H1); auto.
    { intros j Hj. apply in_seq in Hj. lia. }
    rewrite E. cbn [rmap bind fst]. destruct (IH t1) as (t & E' & H). { intros; apply Hi; now right. }
    exists t. split; [exact E'|]. rewrite H, (H1 eq_refl). split.
    + intros [[Ht Ha] Hb]. split; auto. intros i' j [<-|Hi'] Hij Hj; auto. apply Ha. apply in_seq. lia.
    + intros [Ht Ha]. split; [split; auto|].
      * intros j Hj. apply in_seq in Hj. apply Ha; [now left|lia|lia]. * intros i' j Hi' Hij Hj. apply Ha; auto. now right.
Qed.

Lemma getDimEdges_spec dm eps maxDimension ops wg dim epsilon :
  matrix_covers dm ops -> al_run dm eps maxDimension ops = Ok wg ->
  exists ret, getDimEdges dm wg dim epsilon = Ok ret /\ NoDup ret /\
    forall s, In s ret <-> Z.of_nat (length s) = dim /\ (exists k w, In (s, w) (level wg k)) /\
                           forall u v, In u s -> In v s -> u < v -> (dist_of dm u v <= epsilon)%Z.
Proof.
  intros M E. destruct (al_run_inv _ _ _ _ _ M E) as [I C T].
  assert (U : upper_triangle dm (live ops)) by (apply (M ops []); now rewrite app_nil_r).
  assert (HL : forall k s w, In (s, w) (level wg k) -> length s = S k).
  { intros k s w H. apply (inv_diam _ _ _ _ _ _ _ _ I) in H. tauto. }
  unfold getDimEdges. destruct (Z.ltb_spec (dim - 1) 0) as [Hd|Hd].
  { exists []. split; auto. split; [constructor|]. intros s. split; [easy|]. intros (H & (k & w & Hk) & _).
    apply HL in Hk. lia. }
  destruct (Z.ltb_spec (Z.of_nat (length wg)) dim) as [Hl|Hl].
  { exists []. split; auto. split; [constructor|]. intros s. split; [easy|]. intros (H & (k & w & Hk) & _).
    assert (Ek := HL _ _ _ Hk). unfold level in Hk. rewrite nth_overflow in Hk by lia. easy. }
  set (k := Z.to_nat (dim - 1)). rewrite at_lev by lia. cbn [bind].
  assert (N : NoDup (map fst (lev wg k))) by apply (array_list_closed _ _ _ _ _ M E).
  assert (Hinv : forall s w, In (s, w) (lev wg k) -> ssorted s /\ forall v, In v s -> v < live ops).
  { intros s w H. split; [apply (inv_diam _ _ _ _ _ _ _ _ I) in H; tauto|]. destruct k as [|k'].
    - rewrite (i_vert _ _ _ _ _ I) in H. apply in_map_iff in H as (i & Ei & Hi). injection Ei as <- _. apply in_seq in Hi.
      intros v [<-|[]]. lia.
    - apply (i_sound _ _ _ _ _ I) in H as (_ & F & _); [|lia]. apply F. }
  assert (G : forall l acc, incl l (lev wg k) -> NoDup (acc ++ map fst l) ->
    exists ret, foldr_ub (fun ret (a : wsimp) =>
        do isTrue <- foldr_ub (fun isTrue i =>
              rmap fst (foldr_ub (fun (st : bool * bool) j =>
                  let '(isTrue, broken) := st in
                  if broken then Ok st
                  else
                    do vi <- at_ (fst a) i; do vj <- at_ (fst a) j; do d <- dm_at dm vi vj;
                    if (epsilon <? d)%Z then Ok (false, true) else Ok (isTrue, false))
                (isTrue, false) (seq (i + 1) (length (fst a) - (i + 1)))))
            true (seq 0 (length (fst a)));
        Ok (if isTrue : bool then ret ++ [fst a] else ret)) acc l = Ok ret /\ NoDup ret /\
    forall s, In s ret <-> In s acc \/ ((exists w, In (s, w) l) /\
                           forall u v, In u s -> In v s -> u < v -> (dist_of dm u v <= epsilon)%Z)).
  { induction l as [|[s w] l IH]; intros acc Hin Hnd; cbn [foldr_ub].
    - exists acc. cbn in Hnd. rewrite app_nil_r in Hnd. split; auto. split; auto. intros s. split; auto. intros [H|((w & []) & _)]; auto.
    - destruct (Hinv s w) as [Ss V]. { apply Hin; now left. }
      destruct (dim_outer dm (live ops) epsilon s (seq 0 (length s)) true U Ss V) as (t & Et & Ht).
      { intros i Hi. apply in_seq in Hi. lia. }
      cbn [fst]. rewrite Et. cbn [bind].
      assert (Hgood : t = true <-> forall u v, In u s -> In v s -> u < v -> (dist_of dm u v <= epsilon)%Z).
      { rewrite Ht. split.
        - intros [_ H] u v Hu Hv Huv. apply (In_nth _ _ 0) in Hu as (i & Hi & <-), Hv as (j & Hj & <-).
          apply H; auto. + apply in_seq. lia.
          + destruct (Nat.lt_trichotomy i j) as [|[->|Hji]]; auto; [lia|].
            assert (nth j s 0 < nth i s 0) by now apply ssorted_nth. lia.
        - intros H. split; auto. intros i j Hi Hij Hj. apply H; try (apply nth_In; lia). now apply ssorted_nth. }
      assert (Hnd' : NoDup ((if t then acc ++ [s] else acc) ++ map fst l)).
      { cbn in Hnd. destruct t; [now rewrite <- app_assoc|]. now apply NoDup_remove_1 in Hnd. }
      destruct (IH (if t then acc ++ [s] else acc)) as (ret & Er & Nr & Hr); auto.
      { intros x Hx. apply Hin. now right. }
      exists ret. split; [exact Er|]. split; auto. intros s'. rewrite Hr. destruct t.
      + rewrite in_app_iff. cbn. split.
        * intros [[H|[<-|[]]]|[(w' & Hw') H]]; auto. -- right. split; [exists w; now left|]. now apply Hgood.
          -- right. split; auto. exists w'. now right.
        * intros [H|[(w' & [Hw'|Hw']) H]]; auto. -- injection Hw' as <- _. auto. -- right. split; eauto.
      + split.
        * intros [H|[(w' & Hw') H]]; auto. right. split; auto. exists w'. now right.
        * intros [H|[(w' & [Hw'|Hw']) H]]; auto. -- injection Hw' as <- _. apply Hgood in H. easy. -- right. split; eauto. }
  destruct (G (lev wg k) [] (incl_refl _) N) as (ret & Er & Nr & Hr).
  exists ret. split; [exact Er|]. split; auto. intros s. rewrite Hr. split.
  - intros [[]|[(w & Hw) H]]. split; [|split; auto].
    + assert (El := HL k s w Hw). lia. + exists k, w. auto.
  - intros (Hs & (k' & w & Hw) & H). right. split; auto. exists w.
    assert (El := HL k' s w Hw). assert (k' = k) by (unfold k; lia). now subst k'.
Qed.

(* A matrix large enough for all calls covers the history. *)
Lemma live_from_le n ops : live_from n ops <= n + length ops.
Proof.
  revert n; induction ops as [|[[]| |] ops IH]; intros n; cbn; try lia.
  - specialize (IH n). lia. - specialize (IH (S n)). lia. - specialize (IH n). lia. - specialize (IH 0). lia.
Qed.
Lemma covers_if dm ops : upper_triangle dm (length ops) -> matrix_covers dm ops.
Proof.
  intros U p q -> j i Hj Hi. apply U; auto. rewrite app_length. assert (H := live_from_le 0 p). unfold live in Hi. lia.
Qed.
