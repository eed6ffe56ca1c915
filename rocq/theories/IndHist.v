(* IndHist.v -- what an indSimplexTree holds and answers after any legal history of calls. *)
From Coq Require Import List Arith ZArith Bool Lia Sorted Permutation.
From Verif Require Import Base Spec UtilsModel UtilsProofs PartitionProofs ArrayListModel ArrayListProofs
  ArrayListInv SpecComplex ArrayListHist TreeModel TreeProofs TreeHist SpecTree FastRuns IndModel SpecInd IndProofs.
Import ListNotations.

Local Notation lev wg k := (nth k wg (@nil wsimp)).

Lemma map_add0 s : map (Nat.add 0) s = s.
Proof. transitivity (map (fun x => x) s); [reflexivity|apply map_id]. Qed.

Section Obj.
  Variables eps md : Z.

  Lemma spec0 dm n cb t k s w : tinv eps md dm 0 n cb t ->
    In (s, w) (lev (st_weg t) k) <-> length s = S k /\ simplex_of dm eps md n s /\ diameter (dist_of dm) s w.
  Proof.
    intros V. rewrite (spec_shift _ _ _ _ _ _ _ _ _ _ V). unfold simplex_of. split.
    - intros (s0 & -> & H). rewrite map_add0. tauto.
    - intros H. exists s. rewrite map_add0. tauto.
  Qed.

  Definition big (dm : list (list Z)) (n : nat) : Prop := exists s, simplex_of dm eps md n s /\ 4 <= length s.

  Lemma big_weg dm n cb t : tinv eps md dm 0 n cb t -> (4 <= length (st_weg t) <-> big dm n).
  Proof.
    intros V. split.
    - intros H. destruct (lev (st_weg t) 3) as [|[s w] l] eqn:E; [exfalso; now apply (v_ne _ _ _ _ _ _ _ V 3)|].
      assert (I : In (s, w) (lev (st_weg t) 3)) by (rewrite E; now left). apply (spec0 _ _ _ _ _ _ _ V) in I as (L & Sx & _).
      exists s. split; auto. lia.
    - intros (s & Sx & L). destruct (diameter_exists (dist_of dm) s) as (w & Dw); [apply Sx|].
      destruct (Nat.le_gt_cases 4 (length (st_weg t))) as [|Hl]; auto. exfalso.
      assert (I : In (s, w) (lev (st_weg t) (length s - 1))).
      { apply (spec0 _ _ _ _ _ _ _ V). split; [lia|]. auto. }
      rewrite nth_overflow in I by lia. destruct I.
  Qed.
  Lemma big_dec dm n cb t : tinv eps md dm 0 n cb t -> big dm n \/ ~ big dm n.
  Proof. intros V. rewrite <- (big_weg _ _ _ _ V). lia. Qed.
  Lemma big_0 dm : ~ big dm 0.
  Proof. intros (s & ((N & _ & V & _) & _) & _). destruct s as [|x s]; [easy|]. specialize (V x (or_introl eq_refl)). lia. Qed.
  Lemma big_S dm n : big dm n -> big dm (S n).
  Proof.
    intros (s & ((N & Ss & V & F) & W) & L). exists s. split; auto. split; auto. refine (conj N (conj Ss (conj _ F))). intros v Hv. specialize (V v Hv). lia.
  Qed.

  Definition iinv (dm : list (list Z)) (n : nat) (nc0 : Z) (i : itree) : Prop :=
    exists t, tinv eps md dm 0 n nc0 t /\ i_dm i = dm /\ i_roots i = st_roots t /\ i_dims i = st_weg t /\
      i_count i = st_count t /\ i_next i = n /\ cnt_ok (i_counts i) (i_dims i) /\ length (i_dims i) <= 3 /\
      lev (i_dims i) 0 = map (fun v => ([v], 0%Z)) (seq 0 n).

  Lemma iinv_tree dm n nc0 i : iinv dm n nc0 i -> exists t, tinv eps md dm 0 n nc0 t.
  Proof. intros (t & V & _). eauto. Qed.

  Lemma ind_insert_step dm n nc0 i : iinv dm n nc0 i -> dm <> [] -> upper_triangle dm (S n) ->
    (~ big dm (S n) /\ exists i', ind_insert eps md i = Ok i' /\ iinv dm (S n) nc0 i' /\ i_sorted i' = i_sorted i /\ i_graph i' = i_graph i) \/
    (big dm (S n) /\ ind_insert eps md i = UB).
  Proof.
    intros (t & V & Ed & Er & Em & Ec & En & Hc & Hl & H0) Hdm U.
    destruct (insert_step eps md dm 0 n nc0 t V Hdm U) as (t' & E & V' & _).
    assert (B := big_weg _ _ _ _ V').
    unfold st_insert in E. unfold ind_insert. rewrite Ed, Er, En.
    rewrite (v_dm _ _ _ _ _ _ _ V), (v_ic _ _ _ _ _ _ _ V), (v_rvc _ _ _ _ _ _ _ V) in E. cbn [Nat.add] in E.
    destruct dm as [|r0 dmr] eqn:Edm; [easy|]. rewrite <- Edm in *.
    destruct (st_roots t) as [|root roots] eqn:Ert.
    - injection E as <-. assert (n = 0). { assert (Q := v_ix _ _ _ _ _ _ _ V). rewrite Ert in Q. destruct n; easy. } subst n.
      assert (W : st_weg t = []) by now apply (v_len _ _ _ _ _ _ _ V). rewrite Em, W in *. cbn [st_weg app] in *.
      left. destruct (upd_counts (i_counts i) [] [[([0], 0%Z)]] 0 ([0], 0%Z) Hc) as (cts & Eu & Hcts); [lia| |].
      { intros [|[|j]]; reflexivity. }
      split; [rewrite <- B; cbn; lia|]. rewrite Eu. cbn [bind]. eexists. split; [reflexivity|]. cbn. split; auto.
      eexists. split; [exact V'|]. cbn. assert (N0 : i_next i = 0) by lia. rewrite ?N0 in *. rewrite Ec. auto 12.
    - set (dd := tree_dist dm (length (st_runningVectorIndices t ++ [n])) n n) in *.
      assert (Edd : dd = fun i => dm_at dm i n).
      { unfold dd, tree_dist. rewrite app_length, (v_rvi _ _ _ _ _ _ _ V). cbn [length]. rewrite Nat.ltb_irrefl. reflexivity. }
      rewrite Edd in E. clear dd Edd.
      destruct (insert_roots eps md (fun i => dm_at dm i n) n (root :: roots) (st_weg t, st_count t)) as [[l' [d1 c1]]|] eqn:E1; [|discriminate].
      cbn [bind fst snd] in E.
      assert (Hw : 1 <= length (st_weg t)).
      { destruct (st_weg t) eqn:Ew; [|cbn; lia]. apply (v_len _ _ _ _ _ _ _ V) in Ew. subst n. assert (Q := v_ix _ _ _ _ _ _ _ V).
        rewrite Ert in Q. discriminate. }
      assert (P : Forall (path_ok n []) (root :: roots)).
      { apply Forall_forall. intros x Hx. assert (G := v_good _ _ _ _ _ _ _ V). rewrite Forall_forall in G. cbn [Nat.add] in G.
        rewrite Ert in G. apply (good_path _ _ _ _ _ _ (G x Hx)); [intros y []|].
        assert (Hix : In (t_index x) (seq 0 n)) by (rewrite <- (v_ix _ _ _ _ _ _ _ V), Ert; now apply in_map). apply in_seq in Hix. lia. }
      rewrite Em in *. rewrite Ec.
      destruct (roots_sim eps md n _ _ (st_weg t) (i_counts i) (st_count t) l' d1 c1 P (conj Hw Hl) Hc E1) as (S1 & S2).
      assert (M := roots_mono _ _ _ _ _ _ _ _ E1). cbn in M.
      destruct (upd d1 0 (fun l => l ++ [([n], 0%Z)])) as [d2|] eqn:E2; [|discriminate]. cbn [bind] in E. injection E as <-. cbn [st_weg] in *.
      assert (L2 : length d2 = length d1 /\ lev d2 0 = lev d1 0 ++ [([n], 0%Z)] /\ forall k, k <> 0 -> lev d2 k = lev d1 k).
      { destruct (upd_lev d1 0 (fun l => l ++ [([n], 0%Z)])) as (d2' & E2' & Q); [lia|]. rewrite E2 in E2'. injection E2' as <-. exact Q. }
      destruct L2 as (L2 & A2 & B2).
      destruct (Nat.le_gt_cases (length d1) 3) as [H3|H3].
      + left. split; [rewrite <- B; lia|]. destruct (S1 H3) as (cts & Hcts & Q0 & Eq). rewrite Eq. cbn [bind snd fst]. rewrite E2. cbn [bind].
        destruct (upd_counts cts d1 d2 0 ([n], 0%Z) Hcts) as (cts2 & Eu & Hcts2); [lia| |].
        { intros [|j]; cbn [Nat.eqb]; [exact A2|]. rewrite app_nil_r. apply B2. lia. }
        rewrite Eu. cbn [bind]. eexists. split; [reflexivity|]. cbn. split; auto.
        eexists. split; [exact V'|]. cbn [i_dm i_roots i_dims i_count i_next i_counts].
        repeat (split; [solve [auto | lia]|]). rewrite A2, Q0, H0, seq_S, map_app. reflexivity.
      + right. split; [rewrite <- B; lia|]. rewrite S2 by lia. reflexivity.
  Qed.

  Lemma ipast_snoc dm ops o : ipast_of dm (ops ++ [o]) = ipast_step (ipast_of dm ops) o.
  Proof. unfold ipast_of. now rewrite fold_left_app. Qed.
  Lemma ilegal_snoc dm ops o : ilegal dm (ops ++ [o]) -> ilegal dm ops /\ ilegal_step (ipast_of dm ops) o.
  Proof.
    intros L. split.
    - intros a x c E. apply (L a x (c ++ [o])). rewrite E, <- app_assoc. reflexivity.
    - now apply (L ops o []).
  Qed.
  Lemma iinv_new dm nc0 : iinv dm 0 nc0 (ind_new dm nc0).
  Proof.
    exists (st_new dm nc0). split; [apply tinv_new|]. cbn. repeat split; auto. intros [|[|[|k]]] Hk; try lia; reflexivity.
  Qed.

  Lemma ind_run_inv dm nc0 srt ops : ilegal dm ops ->
    let p := ipast_of dm ops in
    (~ big (q_dm p) (q_points p) /\ exists i, ind_run eps md srt (ind_new dm nc0) ops = Ok i /\ iinv (q_dm p) (q_points p) nc0 i) \/
    (big (q_dm p) (q_points p) /\ ind_run eps md srt (ind_new dm nc0) ops = UB).
  Proof.
    unfold ind_run. induction ops as [|o ops IH] using rev_ind; intros L.
    - left. cbn. split; [apply big_0|]. eexists. split; [reflexivity|apply iinv_new].
    - apply ilegal_snoc in L as [L Lo]. specialize (IH L). rewrite foldr_ub_app, ipast_snoc. set (P := ipast_of dm ops) in *.
      cbv zeta in *. destruct IH as [(NB & i & E & V)|(B & E)]; rewrite E; cbn [bind foldr_ub].
      + destruct o; cbn [ind_step ipast_step ilegal_step] in *.
        * assert (Vd : i_dm i = q_dm P) by (destruct V as (t & _ & Q & _); exact Q). 
          destruct (q_dm P) as [|r0 rr] eqn:Edm.
          -- left. rewrite Edm. split; auto. exists i. unfold ind_insert. rewrite Vd. split; auto.
          -- rewrite <- Edm in *. cbn [q_dm q_points]. assert (Hdm : q_dm P <> []) by (rewrite Edm; easy).
             destruct (ind_insert_step _ _ _ _ V Hdm Lo) as [(NB' & i' & E' & V' & _)|(B' & E')]; rewrite E'; cbn; [left|right]; eauto.
        * left. split; auto. exists i. auto.
        * left. cbn [q_dm q_points]. rewrite Lo. split; [apply big_0|]. eexists. split; [reflexivity|].
          destruct V as (t & V & Ed & Er & Em & Ec & En & Hc & Hl & H0). rewrite Lo in *.
          exists (st_setDistanceMatrix dm0 t). split; [now apply (matrix_step _ _ (q_dm P))|]. cbn. auto 10.
        * left. split; auto. exists (snd (ind_getAllEdges srt i)). split; auto.
          destruct V as (t & V & Ed & Er & Em & Ec & En & Hc & Hl & H0). exists t. split; auto.
          unfold ind_getAllEdges. destruct (i_dims i) eqn:Edi; cbn; [rewrite Edi; auto 10|]. destruct (i_sorted i); cbn; rewrite ?Edi; auto 10.
      + right. split; [|reflexivity]. destruct o; cbn [ipast_step ilegal_step] in *; auto.
        * destruct (q_dm P) eqn:Edm; [now rewrite Edm|]. rewrite <- Edm in *. now apply big_S.
        * cbn. rewrite Lo in B. now apply big_0 in B.
  Qed.

  (* ---- the walk of find ---- *)
  Lemma simplex_prefix dm n a b : a <> [] -> simplex_of dm eps md n (a ++ b) -> simplex_of dm eps md n a.
  Proof.
    intros Ha ((_ & Ss & V & F) & W). apply ssorted_app in Ss as (Sa & _). split.
    - refine (conj Ha (conj Sa (conj _ _))); intros; [apply V|apply F]; auto; apply in_app_iff; auto.
    - unfold within in *. rewrite app_length in W. lia.
  Qed.

  Lemma child_iff dm n p i w cs j : good (dsh dm 0) eps md n p (TN i w cs) -> simplex_of dm eps md n (p ++ [i]) ->
    (In j (map t_index cs) <-> simplex_of dm eps md n ((p ++ [i]) ++ [j])).
  Proof.
    intros G Sx. inversion G as [p0 i0 w0 cs0 _ Gc _]; subst. rewrite Gc. clear Gc G.
    assert (A : allow md (S (length p)) = true <-> within md ((p ++ [i]) ++ [j])).
    { rewrite <- within_allow by (destruct (p ++ [i]); easy). rewrite !app_length. cbn [length].
      replace (length p + 1 + 1 - 1) with (S (length p)) by lia. split; [auto|intros [H|H]; [lia|auto]]. }
    destruct Sx as ((N & Ss & V & F) & W). split.
    - destruct (allow md (S (length p))); [|intros []]. intros H. apply in_rev in H. apply filter_In in H as [H1 H2].
      apply in_seq in H1. assert (C := proj1 (clb_spec _ _ _ _) H2).
      assert (Hj : forall x, In x (p ++ [i]) -> x < j).
      { apply ssorted_snoc_inv in Ss as [_ Ss]. intros x Hx. apply in_app_iff in Hx as [Hx|[<-|[]]]; [|lia]. specialize (Ss x Hx). lia. }
      split; [|now apply A]. split; [destruct (p ++ [i]); easy|]. split.
      { apply ssorted_app. split; auto. split; [repeat constructor|]. intros x y Hx [<-|[]]. auto. }
      split; [intros v Hv; apply in_app_iff in Hv as [Hv|[<-|[]]]; [auto|lia]|].
      intros u v Hu Hv Huv. apply in_app_iff in Hu, Hv. destruct Hv as [Hv|[<-|[]]], Hu as [Hu|[<-|[]]]; auto; try lia.
      + specialize (Hj v Hv). lia.
      + specialize (C u Hu). unfold dsh in C. now rewrite !Nat.sub_0_r in C.
    - intros ((N' & Ss' & V' & F') & W'). apply A in W'. rewrite W'. rewrite <- in_rev. apply filter_In.
      apply ssorted_snoc_inv in Ss' as [_ Ss']. split.
      + apply in_seq. assert (i < j) by (apply Ss', in_app_iff; right; now left). assert (j < n) by (apply V', in_app_iff; right; now left). lia.
      + apply clb_spec. intros v Hv. unfold dsh. rewrite !Nat.sub_0_r. apply F'; [apply in_app_iff; auto|apply in_app_iff; right; now left|auto].
  Qed.

  Lemma find_child (cs : list tnode) j : In j (map t_index cs) -> exists c, List.find (fun c => t_index c =? j) cs = Some c /\ In c cs /\ t_index c = j.
  Proof.
    induction cs as [|c cs IH]; [intros []|]. cbn. destruct (Nat.eqb_spec (t_index c) j) as [E|E]; [exists c; auto|].
    intros [H|H]; [easy|]. destruct (IH H) as (c' & A & B & C). eauto.
  Qed.
  Lemma find_no_child (cs : list tnode) j : ~ In j (map t_index cs) -> List.find (fun c => t_index c =? j) cs = None.
  Proof.
    induction cs as [|c cs IH]; auto. cbn. intros H. destruct (Nat.eqb_spec (t_index c) j) as [E|E]; [exfalso; auto|]. apply IH. auto.
  Qed.

  Lemma walk_spec dm n r : forall node p, good (dsh dm 0) eps md n p node -> simplex_of dm eps md n ((p ++ [t_index node]) ++ r) ->
    (forall r', r' = [] \/ ~ extendable dm eps md n ((p ++ [t_index node]) ++ r) ->
       find_walk (Some node) (p ++ [t_index node]) (r ++ r') = Ok ((p ++ [t_index node]) ++ r)) /\
    (forall j r', extendable dm eps md n ((p ++ [t_index node]) ++ r) -> ~ simplex_of dm eps md n (((p ++ [t_index node]) ++ r) ++ [j]) ->
       find_walk (Some node) (p ++ [t_index node]) (r ++ j :: r') = UB).
  Proof.
    induction r as [|j r IH]; intros [i w cs] p G Sx; cbn [t_index] in *.
    - rewrite app_nil_r in *. split.
      + intros r' [->|Nx]; [destruct cs; reflexivity|]. cbn [app]. assert (cs = []) as ->.
        { destruct cs as [|c cs]; auto. exfalso. apply Nx. exists (t_index c). apply (child_iff _ _ _ _ _ _ _ G Sx). now left. }
        clear. induction r' as [|x r' IH]; auto.
      + intros j r' (v & Hv) Nj. apply (child_iff _ _ _ _ _ _ _ G Sx) in Hv. cbn [app].
        assert (Nc : ~ In j (map t_index cs)) by (intros H; apply Nj; now apply (child_iff _ _ _ _ _ _ _ G Sx)).
        destruct cs as [|c cs]; [destruct Hv|]. cbn [find_walk]. rewrite find_no_child by auto. destruct r'; reflexivity.
    - assert (Sj : simplex_of dm eps md n ((p ++ [i]) ++ [j])).
      { apply (simplex_prefix dm n _ r); [destruct (p ++ [i]); easy|]. rewrite <- app_assoc. exact Sx. }
      assert (Si : simplex_of dm eps md n (p ++ [i])).
      { apply (simplex_prefix dm n _ (j :: r)); [destruct p; easy|exact Sx]. }
      apply (child_iff _ _ _ _ _ _ _ G Si) in Sj. destruct (find_child _ _ Sj) as (c & Ec & Hc & Ej). subst j.
      assert (Gc : good (dsh dm 0) eps md n (p ++ [i]) c).
      { inversion G as [p0 i0 w0 cs0 _ _ Gf]; subst. rewrite Forall_forall in Gf. auto. }
      replace ((p ++ [i]) ++ t_index c :: r) with (((p ++ [i]) ++ [t_index c]) ++ r) in * by (rewrite <- app_assoc; reflexivity).
      destruct (IH c (p ++ [i]) Gc Sx) as [I1 I2].
      assert (Ew : forall x, find_walk (Some (TN i w cs)) (p ++ [i]) (t_index c :: x) = find_walk (Some c) ((p ++ [i]) ++ [t_index c]) x).
      { intros x. destruct cs as [|c0 cs0]; [destruct Hc|]. cbn [find_walk]. rewrite Ec. reflexivity. }
      split.
      + intros r' H. cbn [app]. rewrite Ew. now apply I1.
      + intros j r' H1 H2. cbn [app]. rewrite Ew. now apply I2.
  Qed.
End Obj.

Lemma reach eps md dm nc0 srt ops t : ilegal dm ops -> ind_run eps md srt (ind_new dm nc0) ops = Ok t ->
  iinv eps md (q_dm (ipast_of dm ops)) (q_points (ipast_of dm ops)) nc0 t.
Proof. intros L E. destruct (ind_run_inv eps md dm nc0 srt ops L) as [(_ & i & E' & V)|(_ & E')]; rewrite E in E'; [injection E' as <-; exact V|discriminate]. Qed.

(* ---- what insert stores ---- *)
Theorem ind_rips eps md dm nc0 srt ops : ilegal dm ops ->
  let p := ipast_of dm ops in
  ((forall s, simplex_of (q_dm p) eps md (q_points p) s -> length s <= 3) ->
   exists t, ind_run eps md srt (ind_new dm nc0) ops = Ok t /\
     (forall k s w, In (s, w) (level (i_dims t) k) <->
        length s = S k /\ simplex_of (q_dm p) eps md (q_points p) s /\ diameter (dist_of (q_dm p)) s w) /\
     (forall k, NoDup (map fst (level (i_dims t) k))) /\ (forall k, k < length (i_dims t) <-> level (i_dims t) k <> []) /\
     level (i_dims t) 0 = map (fun v => ([v], 0%Z)) (seq 0 (q_points p))) /\
  ((exists s, simplex_of (q_dm p) eps md (q_points p) s /\ 4 <= length s) -> ind_run eps md srt (ind_new dm nc0) ops = UB).
Proof.
  intros L. destruct (ind_run_inv eps md dm nc0 srt ops L) as [(NB & i & E & V)|(B & E)].
  - split; [|intros B; exfalso; now apply NB]. intros _. exists i. split; auto.
    destruct V as (t & V & Ed & Er & Em & Ec & En & Hc & Hl & H0). unfold level. rewrite Em in *.
    split; [intros k s w; apply (spec0 _ _ _ _ _ _ _ _ _ V)|]. split; [apply V|]. split; auto.
    intros k. split; [apply V|]. intros N. destruct (Nat.le_gt_cases (length (st_weg t)) k); auto. now rewrite nth_overflow in N.
  - split; auto. intros S3. destruct B as (s & B & Ls). specialize (S3 s B). lia.
Qed.

(* ---- the counters ---- *)
Theorem ind_counters eps md dm nc0 srt ops t : ilegal dm ops -> ind_run eps md srt (ind_new dm nc0) ops = Ok t ->
  ind_vertexCount t = (nc0 + Z.of_nat (length (concat (i_dims t))))%Z /\ ind_simplexCount t = ind_vertexCount t /\
  i_counts t = map (fun k => (nth k [6; 15; 20]%Z 0 + Z.of_nat (length (level (i_dims t) k)))%Z) [0; 1; 2].
Proof.
  intros L E. destruct (reach _ _ _ _ _ _ _ L E) as (s & V & Ed & Er & Em & Ec & En & Hc & Hl & H0).
  split; [|split; [reflexivity|]].
  - unfold ind_vertexCount. rewrite Ec, Em. exact (v_cnt _ _ _ _ _ _ _ V).
  - destruct Hc as [L3 C]. unfold level. destruct (i_counts t) as [|a [|b [|c [|]]]]; try discriminate.
    cbn [map]. rewrite <- (C 0), <- (C 1), <- (C 2) by lia. reflexivity.
Qed.

(* ---- getWeight ---- *)
Theorem ind_weight eps md dm nc0 srt ops t s : ilegal dm ops -> ind_run eps md srt (ind_new dm nc0) ops = Ok t ->
  let p := ipast_of dm ops in
  (forall w, simplex_of (q_dm p) eps md (q_points p) s -> diameter (dist_of (q_dm p)) s w -> ind_getWeight t s = Ok w) /\
  (~ simplex_of (q_dm p) eps md (q_points p) s -> (exists s', simplex_of (q_dm p) eps md (q_points p) s' /\ length s' = length s) ->
     ind_getWeight t s = Ok 10000%Z) /\
  (~ (exists s', simplex_of (q_dm p) eps md (q_points p) s' /\ length s' = length s) -> ind_getWeight t s = UB).
Proof.
  intros L E p. destruct (reach _ _ _ _ _ _ _ L E) as (st & V & Ed & Er & Em & Ec & En & Hc & Hl & H0). fold p in V, H0, Ed, En.
  assert (Sp := fun k s w => spec0 eps md (q_dm p) (q_points p) nc0 st k s w V). rewrite <- Em in Sp.
  assert (Lv : forall k, k < length (i_dims t) <-> exists s', simplex_of (q_dm p) eps md (q_points p) s' /\ length s' = S k).
  { intros k. split.
    - intros H. destruct (lev (i_dims t) k) as [|[s' w'] l] eqn:El.
      + rewrite Em in H, El. exfalso. now apply (v_ne _ _ _ _ _ _ _ V k).
      + assert (I : In (s', w') (lev (i_dims t) k)) by (rewrite El; now left). apply Sp in I as (A & B & _). eauto.
    - intros (s' & B & A). destruct (diameter_exists (dist_of (q_dm p)) s') as (w' & D'); [apply B|].
      assert (I : In (s', w') (lev (i_dims t) k)) by (apply Sp; auto).
      destruct (Nat.le_gt_cases (length (i_dims t)) k); auto. rewrite nth_overflow in I by auto. destruct I. }
  assert (At : forall k, k < length (i_dims t) -> at_ (i_dims t) k = Ok (lev (i_dims t) k)).
  { intros k H. unfold at_. now rewrite (nth_error_nth' (i_dims t) [] H). }
  unfold ind_getWeight. split; [|split].
  - intros w Sx Dw. destruct (length s) as [|k] eqn:El; [destruct s; [|discriminate]; now destruct Sx as ((N & _) & _)|].
    assert (Hk : k < length (i_dims t)) by (apply Lv; eauto). rewrite At by auto. cbn [bind]. f_equal.
    assert (I : In (s, w) (lev (i_dims t) k)) by (apply Sp; auto).
    assert (Nd : NoDup (map fst (lev (i_dims t) k))) by (rewrite Em; apply V).
    clear - I Nd. induction (lev (i_dims t) k) as [|[a b] l IH]; [destruct I|]. cbn in *. inversion Nd; subst.
    destruct (nlist_eqb s a) eqn:Eq.
    + apply nlist_eqb_eq in Eq. subst a. destruct I as [I|I]; [now injection I|]. exfalso. apply H1. apply (in_map fst) in I. exact I.
    + destruct I as [I|I]; [injection I as -> ->; apply nlist_eqb_neq in Eq; easy|auto].
  - intros Nx Ex. destruct (length s) as [|k] eqn:El. { destruct Ex as (s' & ((N & _) & _) & Q). destruct s'; easy. }
    assert (Hk : k < length (i_dims t)) by now apply Lv. rewrite At by auto. cbn [bind]. f_equal.
    destruct (List.find _ _) as [[a b]|] eqn:Ef; auto. apply find_some in Ef as [I Eq]. cbn in Eq. apply nlist_eqb_eq in Eq. subst a.
    apply Sp in I as (_ & I & _). easy.
  - intros Nx. destruct (length s) as [|k] eqn:El; auto. unfold at_. destruct (nth_error (i_dims t) k) eqn:En'; auto.
    exfalso. apply Nx. apply Lv. apply nth_error_Some. congruence.
Qed.

(* ---- getAllEdges and find after the first sort ---- *)
Lemma sorted_stays eps md dm nc0 srt ops t : ilegal dm ops -> ind_run eps md srt (ind_new dm nc0) ops = Ok t -> ~ In IGetAll ops -> i_sorted t = false.
Proof.
  unfold ind_run. revert t. induction ops as [|o ops IH] using rev_ind; intros t L E N.
  - injection E as <-. reflexivity.
  - apply ilegal_snoc in L as [L Lo]. rewrite foldr_ub_app in E. destruct (foldr_ub _ _ ops) as [t0|] eqn:E0; [|discriminate].
    cbn [bind foldr_ub] in E. assert (S0 : i_sorted t0 = false) by (apply IH; auto; intros H; apply N, in_app_iff; auto).
    destruct o; cbn [ind_step] in E.
    + assert (Q : i_sorted t = i_sorted t0); [|congruence]. destruct (ind_insert eps md t0) as [t1|] eqn:E1; [|discriminate].
      cbn in E. injection E as <-. unfold ind_insert in E1. destruct (i_dm t0); [injection E1 as <-; auto|].
      destruct (i_roots t0).
      * destruct (upd _ _ _); [|discriminate]. injection E1 as <-. reflexivity.
      * destruct (ind_roots _ _ _ _ _ _) as [[r [[d c] n]]|]; [|discriminate]. cbn [bind snd fst] in E1.
        destruct (upd d _ _); [|discriminate]. cbn [bind] in E1. destruct (upd c _ _); [|discriminate]. injection E1 as <-. reflexivity.
    + injection E as <-. exact S0. + injection E as <-. exact S0. + exfalso. apply N, in_app_iff. right. now left.
Qed.

Lemma graph_keeps eps md srt ops : forall t t', i_sorted t = true -> ind_run eps md srt t ops = Ok t' ->
  i_sorted t' = true /\ i_graph t' = i_graph t /\ (i_dims t <> [] -> i_dims t' <> []).
Proof.
  unfold ind_run. induction ops as [|o ops IH]; intros t t' S0 E; [injection E as <-; auto|]. cbn [foldr_ub] in E.
  destruct (ind_step eps md srt t o) as [t1|] eqn:E1; [|discriminate]. cbn [bind] in E.
  assert (Q : i_sorted t1 = true /\ i_graph t1 = i_graph t /\ (i_dims t <> [] -> i_dims t1 <> [])).
  { destruct o; cbn [ind_step] in E1.
    - unfold ind_insert in E1. destruct (i_dm t); [injection E1 as <-; auto|]. destruct (i_roots t).
      + destruct (upd _ _ _); [|discriminate]. injection E1 as <-. cbn. split; auto. split; auto. intros _ H. now apply app_eq_nil in H.
      + destruct (ind_roots _ _ _ _ _ _) as [[r [[d c] n]]|]; [|discriminate]. cbn [bind snd fst] in E1.
        destruct (upd d _ _) eqn:Eu; [|discriminate]. cbn [bind] in E1. destruct (upd c _ _); [|discriminate]. injection E1 as <-. cbn.
        split; auto. split; auto. intros _ ->. destruct d; discriminate.
    - injection E1 as <-. auto. - injection E1 as <-. auto.
    - injection E1 as <-. unfold ind_getAllEdges. rewrite S0. destruct (i_dims t) eqn:Ed; cbn; rewrite ?Ed; auto. }
  destruct Q as (Q1 & Q2 & Q3). destruct (IH t1 t' Q1 E) as (R1 & R2 & R3). rewrite R2, Q2. auto.
Qed.

Lemma legal_triangle dm ops : ilegal dm ops -> upper_triangle (q_dm (ipast_of dm ops)) (q_points (ipast_of dm ops)).
Proof.
  induction ops as [|o ops IH] using rev_ind; intros L; [intros j i _ H; cbn in H; lia|].
  apply ilegal_snoc in L as [L Lo]. rewrite ipast_snoc. specialize (IH L). destruct o; cbn [ipast_step ilegal_step q_dm q_points] in *; auto.
  - destruct (q_dm (ipast_of dm ops)) eqn:E; [now rewrite E|]. rewrite <- E in *. exact Lo.
  - rewrite Lo. intros j i _ H. lia.
Qed.

Theorem ind_edges eps md dm nc0 srt ops t : is_sort srt -> ilegal dm ops -> ~ In IGetAll ops -> ind_run eps md srt (ind_new dm nc0) ops = Ok t ->
  let edges := fst (ind_getAllEdges srt t) in
  (forall k, Permutation (level edges k) (level (i_dims t) k)) /\ level edges 0 = level (i_dims t) 0 /\ length edges = length (i_dims t) /\
  SpecFast.complex edges /\ SpecFast.filtered edges /\
  (i_dims t <> [] -> forall ops' t', ind_run eps md srt (snd (ind_getAllEdges srt t)) ops' = Ok t' -> fst (ind_getAllEdges srt t') = edges).
Proof.
  intros Hs L N E. assert (S0 := sorted_stays _ _ _ _ _ _ _ L E N).
  destruct (reach _ _ _ _ _ _ _ L E) as (st & V & Ed & Er & Em & Ec & En & Hc & Hl & H0). set (p := ipast_of dm ops) in *.
  assert (Ut : upper_triangle (q_dm p) (q_points p)) by apply (legal_triangle _ _ L).
  assert (Sp := fun k s w => spec0 eps md (q_dm p) (q_points p) nc0 st k s w V). rewrite <- Em in Sp.
  assert (Nd : forall k, NoDup (map fst (level (i_dims t) k))) by (rewrite Em; apply V).
  assert (Ge : fst (ind_getAllEdges srt t) = match i_dims t with [] => [] | l :: ls => l :: map srt ls end).
  { unfold ind_getAllEdges. rewrite S0. destruct (i_dims t) eqn:Edi; auto. unfold sortAndBuildGraph. cbn. now rewrite Edi. }
  assert (Sn := sort_nil srt Hs).
  assert (Pm : forall k, Permutation (level (fst (ind_getAllEdges srt t)) k) (level (i_dims t) k)).
  { intros k. rewrite Ge. unfold level. destruct (i_dims t) as [|l ls]; auto. destruct k as [|k]; cbn [nth]; auto.
    rewrite map_lev by auto. apply Hs. }
  assert (So : forall k, StronglySorted by_weight (level (fst (ind_getAllEdges srt t)) k)).
  { intros k. destruct k as [|k].
    - assert (Q : forall x, In x (level (fst (ind_getAllEdges srt t)) 0) -> snd x = 0%Z).
      { intros x Hx. apply (Permutation_in _ (Pm 0)) in Hx. unfold level in Hx. rewrite H0 in Hx. apply in_map_iff in Hx as (v & <- & _). reflexivity. }
      revert Q. generalize (level (fst (ind_getAllEdges srt t)) 0). induction l as [|x l IH]; intros Q; constructor.
      + apply IH. intros y Hy. apply Q. now right.
      + apply Forall_forall. intros y Hy. unfold by_weight. rewrite (Q x (or_introl eq_refl)), (Q y (or_intror Hy)). lia.
    - rewrite Ge. unfold level. destruct (i_dims t) as [|l ls]; [constructor|]. cbn [nth]. rewrite map_lev by auto. apply Hs. }
  split; [exact Pm|]. split. { rewrite Ge. unfold level. now destruct (i_dims t). }
  split. { rewrite Ge. destruct (i_dims t); auto. cbn. now rewrite map_length. }
  assert (Cx : SpecFast.complex (fst (ind_getAllEdges srt t)) /\ SpecFast.filtered (fst (ind_getAllEdges srt t))).
  { apply (sorted_complex (i_dims t)); auto.
    - intros k s w H. apply Sp in H as (Lk & ((_ & I & _) & _) & _). auto.
    - intros k s w f H Hf. apply Sp in H as (Lk & ((N1 & I & Vv & Cc) & W) & D). destruct Hf as (If & Inc & Lf).
      assert (Hne : f <> []) by (intros ->; cbn in Lf; lia).
      destruct (diameter_exists (dist_of (q_dm p)) f If) as (w' & D'). exists w'. split.
      + apply Sp. split; [lia|]. split; [|auto]. split; [|unfold within in *; lia].
        refine (conj Hne (conj If (conj _ _))); intros; auto.
      + destruct D' as [_ [(u & v & Hu & Hv & Huv & <-)|[L1 ->]]]; [apply D; auto|].
        destruct D as [_ [(u & v & Hu & Hv & Huv & <-)|[L2 ->]]]; [|lia].
        apply Ut; auto. }
  destruct Cx as [C1 C2]. split; auto. split; auto.
  intros Ne ops' t' E'. assert (Q : i_sorted (snd (ind_getAllEdges srt t)) = true /\ i_dims (snd (ind_getAllEdges srt t)) = i_dims t /\
    i_graph (snd (ind_getAllEdges srt t)) = fst (ind_getAllEdges srt t)).
  { unfold ind_getAllEdges. rewrite S0. destruct (i_dims t) eqn:Edi; [easy|]. cbn. auto. }
  destruct Q as (Q1 & Q2 & Q3). destruct (graph_keeps _ _ _ _ _ _ Q1 E') as (R1 & R2 & R3). rewrite Q2 in R3. rewrite <- Q3, <- R2.
  unfold ind_getAllEdges. rewrite R1. destruct (i_dims t'); [exfalso; now apply R3|reflexivity].
Qed.

Lemma position_spec s l : NoDup (map fst l) -> In s (map fst l) -> exists k w, position s l = Some k /\ nth_error l k = Some (s, w).
Proof.
  induction l as [|[a b] l IH]; intros N I; [destruct I|]. cbn in *. inversion N; subst. destruct (nlist_eqb s a) eqn:E.
  - apply nlist_eqb_eq in E. subst a. exists 0, b. auto.
  - destruct I as [->|I]; [apply nlist_eqb_neq in E; easy|]. destruct (IH H2 I) as (k & w & Ek & En). exists (S k), w. rewrite Ek. auto.
Qed.

Theorem ind_find_spec eps md dm nc0 srt ops t : is_sort srt -> ilegal dm ops -> ~ In IGetAll ops ->
  ind_run eps md srt (ind_new dm nc0) ops = Ok t -> 0 < q_points (ipast_of dm ops) ->
  let p := ipast_of dm ops in
  let edges := fst (ind_getAllEdges srt t) in
  let t' := snd (ind_getAllEdges srt t) in
  (forall q r, simplex_of (q_dm p) eps md (q_points p) q -> r = [] \/ ~ extendable (q_dm p) eps md (q_points p) q ->
     (exists k w, nth_error (level edges (length q - 1)) k = Some (q, w) /\ ind_find t' (q ++ r) = Ok (negb (k =? 0))) /\
     (2 <= length q -> ind_find t (q ++ r) = UB)) /\
  (forall q j r, simplex_of (q_dm p) eps md (q_points p) q -> extendable (q_dm p) eps md (q_points p) q ->
     ~ simplex_of (q_dm p) eps md (q_points p) (q ++ [j]) -> ind_find t' (q ++ j :: r) = UB /\ ind_find t (q ++ j :: r) = UB) /\
  (forall v r, q_points p <= v -> ind_find t' (v :: r) = UB /\ ind_find t (v :: r) = UB).
Proof.
  intros Hs L N E Pos p edges t'. destruct (ind_edges _ _ _ _ _ _ _ Hs L N E) as (Pm & G0 & Gl & _ & _ & _). fold edges in Pm, G0, Gl.
  assert (S0 := sorted_stays _ _ _ _ _ _ _ L E N).
  destruct (reach _ _ _ _ _ _ _ L E) as (st & V & Ed & Er & Em & Ec & En & Hc & Hl & H0). fold p in V, H0, Ed, En, Pos.
  assert (Sp := fun k s w => spec0 eps md (q_dm p) (q_points p) nc0 st k s w V). rewrite <- Em in Sp.
  assert (Nd : forall k, NoDup (map fst (level (i_dims t) k))) by (rewrite Em; apply V).
  assert (Ne : exists d0 dr, i_dims t = d0 :: dr).
  { destruct (i_dims t) as [|d0 dr] eqn:Ed0; [|eauto]. symmetry in Em. apply (v_len _ _ _ _ _ _ _ V) in Em. lia. }
  destruct Ne as (d0 & dr & Ed0).
  assert (Q : i_sorted t' = true /\ i_dims t' = i_dims t /\ i_graph t' = edges /\ i_roots t' = i_roots t).
  { unfold t', edges, ind_getAllEdges. rewrite S0, Ed0. cbn. now rewrite Ed0. }
  destruct Q as (Q1 & Q2 & Q3 & Q4).
  assert (Rt : forall v, v < q_points p -> exists node, at_ (i_roots t) v = Ok node /\ t_index node = v /\ good (dsh (q_dm p) 0) eps md (q_points p) [] node).
  { intros v Hv. assert (Ix := v_ix _ _ _ _ _ _ _ V). rewrite <- Er in Ix. assert (Lr : length (i_roots t) = q_points p).
    { rewrite <- (map_length t_index), Ix. apply seq_length. }
    unfold at_. destruct (nth_error (i_roots t) v) as [node|] eqn:En'; [|apply nth_error_None in En'; lia]. exists node. split; auto. split.
    - apply (map_nth_error t_index) in En'. rewrite Ix in En'. apply nth_error_nth with (d := 0) in En'. rewrite seq_nth in En' by lia. lia.
    - assert (G := v_good _ _ _ _ _ _ _ V). rewrite <- Er in G. rewrite Forall_forall in G. apply G. eapply nth_error_In; eauto. }
  assert (Fd : forall x v s, i_dims x = i_dims t -> i_roots x = i_roots t -> ind_find x (v :: s) =
    (do node <- at_ (i_roots t) v; do path <- find_walk (Some node) [v] s; do k <- sortedIndex x path; Ok (negb (k =? 0)))).
  { intros x v s X1 X2. unfold ind_find. rewrite X1, X2, Ed0. reflexivity. }
  split; [|split].
  - intros q r Sx Hr. destruct q as [|v q]; [now destruct Sx as ((N0 & _) & _)|].
    assert (Hv : v < q_points p) by (destruct Sx as ((_ & _ & Vv & _) & _); apply Vv; now left).
    destruct (Rt v Hv) as (node & Ea & Ei & G).
    assert (W : find_walk (Some node) [v] (q ++ r) = Ok (v :: q)).
    { destruct (walk_spec eps md (q_dm p) (q_points p) q node [] G) as [W _]; [rewrite Ei; exact Sx|]. rewrite Ei in W. now apply W. }
    assert (Ip : In (v :: q) (map fst (level edges (length (v :: q) - 1)))).
    { destruct (diameter_exists (dist_of (q_dm p)) (v :: q)) as (w & D); [apply Sx|].
      apply (in_map fst _ (v :: q, w)). apply (Permutation_in _ (Permutation_sym (Pm _))). apply Sp. split; [cbn; lia|]. auto. }
    assert (Ndp : NoDup (map fst (level edges (length (v :: q) - 1)))).
    { eapply Permutation_NoDup; [apply Permutation_map, Permutation_sym, Pm|apply Nd]. }
    cbn [app]. split.
    + destruct (position_spec _ _ Ndp Ip) as (k & w & Ek & Enk). exists k, w. split; auto.
      rewrite (Fd t') by auto. rewrite Ea. cbn [bind]. rewrite W. cbn [bind]. unfold sortedIndex.
      destruct q as [|v' q].
      * cbn [bind]. cbn [length Nat.sub] in Enk. rewrite G0 in Enk. unfold level in Enk. rewrite H0 in Enk.
        assert (k = v) as ->; auto. assert (Lk : k < length (seq 0 (q_points p))).
        { apply nth_error_Some. intros X. rewrite nth_error_map, X in Enk. discriminate. }
        rewrite seq_length in Lk. rewrite nth_error_map in Enk. rewrite (nth_error_nth' _ 0) in Enk by now rewrite seq_length.
        rewrite seq_nth in Enk by auto. cbn in Enk. now injection Enk.
      * rewrite Q1, Q3. unfold level in Ek. rewrite Ek. reflexivity.
    + intros L2. rewrite (Fd t) by auto. rewrite Ea. cbn [bind]. rewrite W. cbn [bind]. unfold sortedIndex.
      destruct q as [|v' q]; [cbn in L2; lia|]. rewrite S0. reflexivity.
  - intros q j r Sx Hx Nj. destruct q as [|v q]; [now destruct Sx as ((N0 & _) & _)|].
    assert (Hv : v < q_points p) by (destruct Sx as ((_ & _ & Vv & _) & _); apply Vv; now left).
    destruct (Rt v Hv) as (node & Ea & Ei & G).
    assert (W : find_walk (Some node) [v] (q ++ j :: r) = UB).
    { destruct (walk_spec eps md (q_dm p) (q_points p) q node [] G) as [_ W]; [rewrite Ei; exact Sx|]. rewrite Ei in W. now apply W. }
    cbn [app]. rewrite (Fd t'), (Fd t), Ea by auto. cbn [bind]. rewrite W. auto.
  - intros v r Hv. rewrite (Fd t'), (Fd t) by auto.
    assert (A : at_ (i_roots t) v = UB); [|rewrite A; auto]. unfold at_. replace (nth_error (i_roots t) v) with (@None tnode); auto. symmetry.
    apply nth_error_None. rewrite Er, <- (map_length t_index), (v_ix _ _ _ _ _ _ _ V), seq_length. auto.
Qed.

(* ---- search ---- *)
Lemma seq_increasing n : forall k, ssorted (seq k n).
Proof.
  induction n as [|n IH]; intros k; constructor; auto. apply Forall_forall. intros x Hx. apply in_seq in Hx. lia.
Qed.
Section Search.
  Variables (eps md : Z) (dm : list (list Z)) (n : nat).
  Notation sx := (simplex_of dm eps md n).

  Lemma head_child p i w cs : good (dsh dm 0) eps md n p (TN i w cs) -> sx (p ++ [i]) ->
    match cs with
    | [] => ~ extendable dm eps md n (p ++ [i])
    | c :: _ => sx ((p ++ [i]) ++ [t_index c]) /\ (forall v, sx ((p ++ [i]) ++ [v]) -> v <= t_index c) /\ good (dsh dm 0) eps md n (p ++ [i]) c
    end.
  Proof.
    intros G Si. assert (C := fun j => child_iff eps md dm n p i w cs j G Si). destruct cs as [|c cs].
    - intros (v & Hv). now apply C in Hv.
    - split; [apply C; now left|]. split.
      + intros v Hv. apply C in Hv. inversion G as [p0 i0 w0 cs0 _ Gc _]; subst. rewrite Gc in Hv.
        assert (Gd : StronglySorted lt (rev (map t_index (c :: cs)))).
        { rewrite Gc. destruct (allow md (S (length p))); [|constructor]. rewrite rev_involutive. apply ssorted_filter, seq_increasing. }
        rewrite <- Gc in Hv. cbn [map rev] in Gd. destruct Hv as [Hv|Hv]; [lia|]. apply ssorted_snoc_inv in Gd as [_ Gd].
        assert (v < t_index c); [|lia]. apply Gd. now apply -> in_rev.
      + inversion G as [p0 i0 w0 cs0 _ _ Gf]; subst. now inversion Gf.
  Qed.

  Lemma search_walk_spec r : forall node p, good (dsh dm 0) eps md n p node -> sx (p ++ [t_index node]) ->
    let q := p ++ [t_index node] in
    (forall a j b, r = a ++ j :: b -> sx ((q ++ a) ++ [j]) /\ forall v, sx ((q ++ a) ++ [v]) -> v <= j) ->
    (search_walk (Some node) (t_index node :: r) = Some true) /\
    (forall j r', ~ extendable dm eps md n (q ++ r) -> search_walk (Some node) (t_index node :: r ++ j :: r') = Some false) /\
    (forall m j r', sx ((q ++ r) ++ [m]) -> (forall v, sx ((q ++ r) ++ [v]) -> v <= m) -> j <> m ->
       search_walk (Some node) (t_index node :: r ++ j :: r') = None).
  Proof.
    induction r as [|x r IH]; intros [i w cs] p G Si q Hr; cbn [t_index] in *; assert (H := head_child _ _ _ _ G Si); fold q in H.
    - rewrite app_nil_r in *. split; [cbn; now rewrite Nat.eqb_refl|]. split.
      + intros j r' Nx. cbn [search_walk]. rewrite Nat.eqb_refl. destruct cs as [|c cs]; [reflexivity|]. exfalso. apply Nx. exists (t_index c). apply H.
      + intros m j r' Hm Mx Nj. cbn [search_walk]. rewrite Nat.eqb_refl. destruct cs as [|c cs]; [exfalso; apply H; now exists m|].
        destruct H as (H1 & H2 & _). assert (t_index c = m) by (apply Nat.le_antisymm; auto). subst m. cbn. destruct c as [ci cw cc]. cbn in *.
        destruct (Nat.eqb_spec ci j); congruence.
    - destruct (Hr [] x r eq_refl) as [Hx Mx]. rewrite app_nil_r in Hx, Mx.
      destruct cs as [|c cs]; [exfalso; apply H; now exists x|]. destruct H as (H1 & H2 & Gc).
      assert (t_index c = x) by (apply Nat.le_antisymm; auto). subst x.
      assert (Eqa : forall a, (q ++ [t_index c]) ++ a = q ++ t_index c :: a) by (intros; now rewrite <- app_assoc).
      destruct (IH c (p ++ [i]) Gc H1) as (I1 & I2 & I3).
      { intros a j b Ea. fold q. rewrite Eqa. apply (Hr (t_index c :: a) j b). now rewrite Ea. }
      assert (Ew : forall y, search_walk (Some (TN i w (c :: cs))) (i :: t_index c :: y) = search_walk (Some c) (t_index c :: y)).
      { intros y. cbn [search_walk hd_error]. now rewrite Nat.eqb_refl. }
      fold q in I2, I3. rewrite Eqa in I2, I3.
      split; [rewrite Ew; auto|]. split; intros; rewrite <- app_comm_cons, Ew; eauto.
  Qed.
End Search.

Theorem ind_search_spec eps md dm nc0 srt ops t : ilegal dm ops -> ind_run eps md srt (ind_new dm nc0) ops = Ok t ->
  let p := ipast_of dm ops in
  let sx := simplex_of (q_dm p) eps md (q_points p) in
  (q_points p = 0 -> forall s, ind_search t s = Some UB) /\
  (0 < q_points p ->
     ind_search t [] = Some (Ok true) /\ (forall v s, v <> 0 -> ind_search t (v :: s) = None) /\
     forall q, greedy (q_dm p) eps md (q_points p) q ->
       ind_search t q = Some (Ok true) /\
       (~ extendable (q_dm p) eps md (q_points p) q -> forall j r, ind_search t (q ++ j :: r) = Some (Ok false)) /\
       (forall m j r, sx (q ++ [m]) -> (forall v, sx (q ++ [v]) -> v <= m) -> j <> m -> ind_search t (q ++ j :: r) = None)).
Proof.
  intros L E p sx. destruct (reach _ _ _ _ _ _ _ L E) as (st & V & Ed & Er & Em & Ec & En & Hc & Hl & H0). fold p in V.
  assert (Ix := v_ix _ _ _ _ _ _ _ V). rewrite <- Er in Ix. assert (G := v_good _ _ _ _ _ _ _ V). rewrite <- Er in G. unfold ind_search. split.
  - intros Z s. rewrite Z in Ix. destruct (i_roots t); [reflexivity|discriminate].
  - intros Pos. destruct (q_points p) as [|n] eqn:Eq; [lia|]. cbn [seq] in Ix. destruct (i_roots t) as [|[i w cs] rs]; [discriminate|].
    cbn [map t_index] in Ix. injection Ix as -> Ix. split; [reflexivity|]. split; [intros v s Hv; cbn; destruct v; [easy|reflexivity]|].
    intros q [Hq Gq]. destruct q as [|x q]; [discriminate|]. injection Hq as ->.
    inversion G as [|? ? G0 _]; subst. cbn [Nat.add] in G0.
    assert (S0 : sx [0]).
    { split; [|left; auto]. split; [easy|]. split; [repeat constructor|]. split; [intros u [<-|[]]; lia|]. intros u v [<-|[]] [<-|[]] H. lia. }
    unfold sx in *.
    destruct (search_walk_spec eps md (q_dm p) (S n) q (TN 0 w cs) [] G0 S0) as (W1 & W2 & W3).
    { intros a j b Ea. cbn [app t_index]. apply (Gq (0 :: a) j b); [now rewrite Ea|easy]. }
    cbn [t_index app] in *. split; [now rewrite W1|]. split.
    + intros Nx j r. now rewrite W2.
    + intros m j r Hm Mx Nj. now rewrite (W3 m).
Qed.
