(* TreeProofs.v -- simplexTree::insert keeps the strict Vietoris-Rips complex. *)
From Coq Require Import List Arith ZArith Bool Lia Sorted Permutation.
From Verif Require Import Base Spec UtilsModel UtilsProofs PartitionProofs ArrayListModel ArrayListProofs
  ArrayListInv SpecComplex ArrayListHist TreeModel.
Import ListNotations.

Local Notation lev wg k := (nth k wg (@nil wsimp)).

Lemma NoDup_app_intro {A} (l m : list A) :
  NoDup l -> NoDup m -> (forall x, In x l -> In x m -> False) -> NoDup (l ++ m).
Proof.
  induction l as [|x l IH]; cbn; auto. intros Hl Hm Hd. inversion Hl; subst. constructor.
  - rewrite in_app_iff. intros [H|H]; auto. apply (Hd x); auto.
  - apply IH; auto. intros y H3 H4. apply (Hd y); auto.
Qed.

Section TnodeInd.
  Variable P : tnode -> Prop.
  Hypothesis HN : forall i w cs, Forall P cs -> P (TN i w cs).
  Fixpoint tnode_ind' (t : tnode) : P t :=
    match t with
    | TN i w cs => HN i w cs ((fix go (cs : list tnode) : Forall P cs :=
                                match cs with [] => Forall_nil _ | c :: cs' => Forall_cons _ (tnode_ind' c) (go cs') end) cs)
    end.
End TnodeInd.

Lemma record_spec weg simp w :
  simp <> [] -> length simp <= S (length weg) -> (forall k, k < length weg -> lev weg k <> []) ->
  exists weg', record_simplex weg simp w = Ok weg' /\
    (forall k, lev weg' k = lev weg k ++ (if length simp =? S k then [(simp, w)] else [])) /\
    length weg <= length weg' /\ length simp <= length weg' /\ (forall k, k < length weg' -> lev weg' k <> []).
Proof.
  intros Hs Hl Hne. unfold record_simplex. destruct (Nat.ltb_spec (length weg) (length simp)) as [Hlt|Hge].
  - assert (E : length simp = S (length weg)) by lia.
    assert (Hk : forall k, lev (weg ++ [[(simp, w)]]) k = lev weg k ++ (if length simp =? S k then [(simp, w)] else [])).
    { intros k. rewrite E. destruct (Nat.lt_trichotomy k (length weg)) as [H|[->|H]].
      - rewrite app_nth1 by auto. destruct (Nat.eqb_spec (S (length weg)) (S k)); [lia|]. now rewrite app_nil_r.
      - rewrite app_nth2, Nat.sub_diag, Nat.eqb_refl by lia. cbn [nth]. rewrite (nth_overflow weg) by lia. reflexivity.
      - rewrite !nth_overflow by (rewrite ?app_length; cbn; lia).
        destruct (Nat.eqb_spec (S (length weg)) (S k)); [lia|]. reflexivity. }
    eexists. split; [reflexivity|]. split; [exact Hk|]. rewrite app_length. cbn. repeat split; try lia.
    intros k Hk'. rewrite Hk. destruct (Nat.eqb_spec (length simp) (S k)).
    + intros H. now apply app_eq_nil in H as [_ H]. + rewrite app_nil_r. apply Hne. lia.
  - destruct (length simp) as [|m] eqn:E; [now destruct simp|].
    destruct (upd_lev weg m (fun l => l ++ [(simp, w)])) as (weg' & Eu & L & A & B); [lia|].
    assert (Hk : forall k, lev weg' k = lev weg k ++ (if S m =? S k then [(simp, w)] else [])).
    { intros k. destruct (Nat.eqb_spec (S m) (S k)) as [H|H].
      - injection H as <-. exact A. - rewrite app_nil_r. apply B. lia. }
    exists weg'. split; auto. split; [exact Hk|]. repeat split; try lia.
    intros k Hk'. rewrite Hk. intros H. apply app_eq_nil in H as [H _]. revert H. apply Hne. lia.
Qed.

Section Tree.
  Variable D : nat -> nat -> Z.
  Variable eps md : Z.

  Notation mayr := (may_recurse md).
  Definition allow (L : nat) : bool := (L =? 1) || mayr L.

  Lemma mayr_mono a b : a <= b -> mayr b = true -> mayr a = true.
  Proof. unfold may_recurse. rewrite !Z.leb_le. lia. Qed.
  Lemma allow_mono a b : 1 <= a -> a <= b -> allow b = true -> allow a = true.
  Proof.
    unfold allow. rewrite !orb_true_iff, !Nat.eqb_eq. intros Ha Hb [->|H]; [left; lia|right].
    eapply mayr_mono; eauto.
  Qed.
  Lemma allow_S L : 1 <= L -> allow (S L) = mayr (S L).
  Proof. intros H. unfold allow. destruct (Nat.eqb_spec (S L) 1); [lia|reflexivity]. Qed.

  (* all vertices of q are close to j *)
  Definition clb (q : list nat) (j : nat) : bool := forallb (fun v => (D v j <? eps)%Z) q.
  Lemma clb_spec q j : clb q j = true <-> forall v, In v q -> (D v j < eps)%Z.
  Proof. unfold clb. rewrite forallb_forall. split; intros H v Hv; [apply Z.ltb_lt|apply Z.ltb_lt in H || apply Z.ltb_lt]; auto. Qed.

  (* Node for path p ++ [i] in the tree of the vertices below hi. *)
  Inductive good (hi : nat) : list nat -> tnode -> Prop :=
  | good_node p i w cs :
      diameter D (p ++ [i]) w ->
      map t_index cs = (if allow (S (length p)) then rev (filter (clb (p ++ [i])) (seq (S i) (hi - S i))) else []) ->
      Forall (good hi (p ++ [i])) cs ->
      good hi p (TN i w cs).

  Variable cur : nat.

  (* the simplices added below a node, in order *)
  Fixpoint news (p : list nat) (maxE : Z) (t : tnode) : list wsimp :=
    match t with
    | TN i w cs =>
        if (D i cur <? eps)%Z then
          let curE := if (maxE <? D i cur)%Z then D i cur else maxE in
          let maxE' := if (w <? curE)%Z then curE else w in
          (p ++ [i; cur], maxE') ::
          (if mayr (length p + 2) then flat_map (news (p ++ [i]) maxE') cs else [])
        else []
    end.

  Definition sel (k : nat) (l : list wsimp) : list wsimp := filter (fun c => length (fst c) =? S k) l.
  Lemma sel_app k a b : sel k (a ++ b) = sel k a ++ sel k b.
  Proof. apply filter_app. Qed.

  Lemma diam_step p i maxE w :
    ssorted (p ++ [i]) -> i < cur -> diameter D (p ++ [cur]) maxE -> diameter D (p ++ [i]) w ->
    (0 <= D i cur)%Z -> (forall u v, In u (p ++ [i]) -> In v (p ++ [i]) -> u < v -> (0 <= D u v)%Z) ->
    let curE := if (maxE <? D i cur)%Z then D i cur else maxE in
    let maxE' := if (w <? curE)%Z then curE else w in
    diameter D (p ++ [i; cur]) maxE'.
  Proof.
    intros S Hi [H1 H1'] [H2 H2'] H0 Hpos. cbv zeta.
    set (curE := if (maxE <? D i cur)%Z then D i cur else maxE).
    set (m := if (w <? curE)%Z then curE else w).
    assert (Hm : (maxE <= m /\ D i cur <= m /\ w <= m /\ (m = maxE \/ m = D i cur \/ m = w))%Z).
    { assert (HC : (maxE <= curE /\ D i cur <= curE /\ (curE = maxE \/ curE = D i cur))%Z)
        by (unfold curE; destruct (Z.ltb_spec maxE (D i cur)); lia).
      clearbody curE. unfold m. destruct (Z.ltb_spec w curE); lia. }
    assert (Hpc : forall x, In x p -> x < i).
    { intros x Hx. apply ssorted_snoc_inv in S as [_ S]. auto. }
    split.
    - intros u v Hu Hv Huv. apply in_app_iff in Hu, Hv. cbn in Hu, Hv.
      assert (A : In u (p ++ [i]) -> In v (p ++ [i]) -> (D u v <= m)%Z) by (intros; assert (D u v <= w)%Z by auto; lia).
      assert (B : In u (p ++ [cur]) -> In v (p ++ [cur]) -> (D u v <= m)%Z) by (intros; assert (D u v <= maxE)%Z by auto; lia).
      rewrite !in_app_iff in A, B. cbn in A, B.
      destruct Hu as [Hu|[Hu|[Hu|[]]]], Hv as [Hv|[Hv|[Hv|[]]]]; auto; try (apply A; tauto); try (apply B; tauto); subst; try lia.
    - left. destruct Hm as (Hm1 & Hm2 & Hm3 & Hm).
      assert (Hd : m = D i cur -> exists u v, In u (p ++ [i; cur]) /\ In v (p ++ [i; cur]) /\ u < v /\ D u v = m).
      { intros ->. exists i, cur. rewrite !in_app_iff. cbn. auto 6. }
      destruct Hm as [E|[E|E]]; auto.
      + destruct H1' as [(u & v & Hu & Hv & Huv & Ew)|[_ E0]].
        * exists u, v. apply in_app_iff in Hu, Hv. rewrite !in_app_iff. cbn in *. intuition congruence.
        * apply Hd. lia.
      + destruct H2' as [(u & v & Hu & Hv & Huv & Ew)|[_ E0]].
        * exists u, v. apply in_app_iff in Hu, Hv. rewrite !in_app_iff. cbn in *. intuition congruence.
        * apply Hd. lia.
  Qed.

  Lemma diam_lt q w : diameter D q w -> 2 <= length q ->
    (forall u v, In u q -> In v q -> u < v -> (D u v < eps)%Z) -> (w < eps)%Z.
  Proof. intros [_ [(u & v & Hu & Hv & Huv & <-)|[H _]]] L Hc; auto. lia. Qed.

  Variable lo : nat.
  Definition posD : Prop := forall u v, lo <= u -> u < v -> v <= cur -> (0 <= D u v)%Z.
  Variable dist : nat -> res Z.
  Hypothesis dist_ok : forall i, lo <= i -> i < cur -> dist i = Ok (D i cur).
  Hypothesis pos : posD.

  Lemma seq_snoc_filter f i hi : i < hi -> 
    filter f (seq (S i) (S hi - S i)) = filter f (seq (S i) (hi - S i)) ++ (if f hi then [hi] else []).
  Proof.
    intros H. replace (S hi - S i) with (S (hi - S i)) by lia. rewrite seq_S, filter_app. cbn.
    replace (S (i + (hi - S i))) with hi by lia. destruct (f hi); auto.
  Qed.

  (* A node not adjacent to the new vertex, or whose children may not be extended, stays as it was. *)
  Lemma good_same p t : lo <= t_index t -> t_index t < cur -> good cur p t ->
    clb (p ++ [t_index t]) cur = false \/ allow (S (length p)) = false ->
    good (S cur) p t.
  Proof.
    revert p. induction t as [i w cs IH] using tnode_ind'; intros p Hlo Hi G Hn. cbn in *.
    inversion G; subst. constructor; auto.
    - rewrite H4. destruct (allow (S (length p))) eqn:Ea; auto. destruct Hn as [Hn|Hn]; [|easy].
      rewrite seq_snoc_filter by auto. rewrite Hn. now rewrite app_nil_r.
    - rewrite Forall_forall in *. intros c Hc.
      assert (Hci : In (t_index c) (map t_index cs)) by now apply in_map.
      rewrite H4 in Hci. destruct (allow (S (length p))) eqn:Ea; [|easy].
      apply in_rev in Hci. apply filter_In in Hci as [Hci Hcl]. apply in_seq in Hci.
      apply (IH c Hc); auto; try lia. left. destruct Hn as [Hn|Hn]; [|easy].
      apply not_true_iff_false. intros Hx. apply not_true_iff_false in Hn. apply Hn.
      apply clb_spec. intros v Hv. apply (proj1 (clb_spec _ _) Hx). apply in_app_iff. auto.
  Qed.

  Lemma recurseInsert_spec t : forall p maxE (weg : wgraph) (cnt : Z),
    good cur p t -> lo <= t_index t -> t_index t < cur ->
    ssorted (p ++ [t_index t]) -> (forall v, In v p -> lo <= v) ->
    (forall u v, In u (p ++ [t_index t]) -> In v (p ++ [t_index t]) -> u < v -> (D u v < eps)%Z) ->
    (forall v, In v p -> (D v cur < eps)%Z) ->
    diameter D (p ++ [cur]) maxE -> (p <> [] -> (maxE < eps)%Z) ->
    allow (S (length p)) = true ->
    S (length p) <= length weg -> (forall k, k < length weg -> lev weg k <> []) ->
    exists t' weg', recurseInsert eps md dist cur t maxE (p ++ [cur]) (weg, cnt) =
        Ok (t', (weg', (cnt + Z.of_nat (length (news p maxE t)))%Z)) /\
      t_index t' = t_index t /\ good (S cur) p t' /\
      (forall k, lev weg' k = lev weg k ++ sel k (news p maxE t)) /\
      length weg <= length weg' /\ (forall k, k < length weg' -> lev weg' k <> []).
  Proof.
    induction t as [i w cs IH] using tnode_ind'; intros p maxE weg cnt G Hlo Hi S Hp Hfl Hcl Hd HmE Ha Hl Hne.
    cbn [t_index] in *. inversion G as [p0 i0 w0 cs0 Gd Gc Gf]; subst. rewrite Ha in Gc.
    cbn [recurseInsert news]. rewrite dist_ok by auto. cbn [bind].
    assert (Hdi : (0 <= D i cur)%Z) by (apply pos; auto).
    set (curE := if (maxE <? D i cur)%Z then D i cur else maxE).
    assert (Hpi : forall x, In x p -> x < i) by (apply ssorted_snoc_inv in S; tauto).
    assert (HcE : (curE <? eps)%Z = (D i cur <? eps)%Z).
    { unfold curE. destruct (Z.ltb_spec maxE (D i cur)) as [H|H]; auto.
      destruct p as [|x p].
      - destruct Hd as [_ [(u & v & Hu & Hv & Huv & _)|[_ E]]].
        + cbn in Hu, Hv. lia. + f_equal. lia.
      - assert (maxE < eps)%Z by (apply HmE; easy). destruct (Z.ltb_spec maxE eps), (Z.ltb_spec (D i cur) eps); auto; lia. }
    rewrite HcE. destruct (Z.ltb_spec (D i cur) eps) as [Hlt|Hge].
    2: { exists (TN i w cs), weg. cbn [length]. rewrite Z.add_0_r. split; auto. split; auto. split.
         - apply good_same; auto. left. cbn. apply not_true_iff_false. intros H. apply clb_spec with (v := i) in H; [lia|].
           apply in_app_iff. right. now left.
         - split; auto. intros k. cbn. now rewrite app_nil_r. }
    set (maxE' := if (w <? curE)%Z then curE else w).
    assert (Es : sinsert i (p ++ [cur]) = p ++ [i; cur]).
    { clear - Hpi Hi. induction p as [|x p IHp]; cbn.
      - destruct (Nat.ltb_spec i cur); [reflexivity|lia].
      - assert (x < i) by (apply Hpi; now left). destruct (Nat.ltb_spec i x); [lia|]. destruct (Nat.ltb_spec x i); [|lia].
        f_equal. apply IHp. intros y Hy. apply Hpi. now right. }
    rewrite Es. cbn [fst snd].
    assert (El : length (p ++ [i; cur]) = length p + 2) by (rewrite app_length; reflexivity). rewrite El.
    destruct (record_spec weg (p ++ [i; cur]) maxE') as (weg1 & E1 & L1 & Len1 & Len1' & Ne1); auto.
    { destruct p; easy. } { rewrite El. lia. }
    rewrite E1. cbn [bind].
    assert (Dm : diameter D (p ++ [i; cur]) maxE').
    { apply diam_step; auto. intros u v Hu Hv Huv.
      assert (B : forall x, In x (p ++ [i]) -> lo <= x /\ x < cur).
      { intros x Hx. apply in_app_iff in Hx as [Hx|[<-|[]]]; split; auto. specialize (Hpi x Hx). lia. }
      apply pos; auto; try apply B; auto. assert (v < cur) by now apply B. lia. }
    assert (Hcl' : clb (p ++ [i]) cur = true).
    { apply clb_spec. intros v Hv. apply in_app_iff in Hv as [Hv|[<-|[]]]; auto. }
    assert (Hnewidx : cur :: map t_index cs = rev (filter (clb (p ++ [i])) (seq (Datatypes.S i) (Datatypes.S cur - Datatypes.S i)))).
    { rewrite seq_snoc_filter by auto. rewrite Hcl', rev_app_distr, Gc. reflexivity. }
    assert (Hleaf : good (Datatypes.S cur) (p ++ [i]) (TN cur maxE' [])).
    { constructor.
      - rewrite <- app_assoc. exact Dm.
      - rewrite Nat.sub_diag. match goal with |- context [allow ?x] => destruct (allow x) end; reflexivity.
      - constructor. }
    assert (Hch : forall c, In c cs -> lo <= t_index c /\ i < t_index c /\ t_index c < cur /\ clb (p ++ [i]) (t_index c) = true).
    { intros c Hc. assert (Hx : In (t_index c) (map t_index cs)) by now apply in_map.
      rewrite Gc in Hx. apply in_rev in Hx. apply filter_In in Hx as [Hx Hx']. apply in_seq in Hx. repeat split; auto; lia. }
    match goal with |- context [?f cs (weg1, (cnt + 1)%Z)] => set (GO := f) end.
    assert (GO0 : forall acc, GO [] acc = Ok ([], acc)) by reflexivity.
    assert (GOS : forall c l acc, GO (c :: l) acc =
              bind (recurseInsert eps md dist cur c maxE' (p ++ [i; cur]) acc)
                   (fun r1 => bind (GO l (snd r1)) (fun r2 => Ok (fst r1 :: fst r2, snd r2)))) by reflexivity.
    clearbody GO.
    destruct cs as [|c0 cs0] eqn:Ecs.
    { exists (TN i w [TN cur maxE' []]), weg1. cbn [flat_map].
      assert (N : forall A (b : bool), (if b then @nil A else []) = []) by (intros A b; now destruct b). rewrite !N.
      cbn [length]. split; [reflexivity|]. split; auto. split; [|split; [|split; auto]].
      - constructor; auto. rewrite Ha. cbn [map t_index]. exact Hnewidx.
      - intros k. rewrite L1. unfold sel. cbn [filter fst]. destruct (length (p ++ [i; cur]) =? Datatypes.S k); auto. }
    rewrite <- Ecs in *.
    destruct (mayr (length p + 2)) eqn:Em.
    - (* recursion into the older children *)
      assert (Ha' : allow (Datatypes.S (length (p ++ [i]))) = true).
      { rewrite app_length. cbn. rewrite allow_S by lia. replace (Datatypes.S (length p + 1)) with (length p + 2) by lia. exact Em. }
      assert (HmE' : (maxE' < eps)%Z).
      { apply (diam_lt _ _ Dm); [rewrite El; lia|]. intros u v Hu Hv Huv.
        apply in_app_iff in Hu, Hv. cbn in Hu, Hv.
        destruct Hv as [Hv|[Hv|[Hv|[]]]]; destruct Hu as [Hu|[Hu|[Hu|[]]]]; subst; try lia; auto;
        try (apply Hfl; auto; apply in_app_iff; cbn; tauto); try (specialize (Hpi _ Hv); lia). }
      assert (Go : forall (l : list tnode) (weg : wgraph) (cnt : Z), incl l cs -> length p + 2 <= length weg -> (forall k, k < length weg -> lev weg k <> []) ->
        exists l' weg', GO l (weg, cnt) =
          Ok (l', (weg', (cnt + Z.of_nat (length (flat_map (news (p ++ [i]) maxE') l)))%Z)) /\
          map t_index l' = map t_index l /\ Forall (good (Datatypes.S cur) (p ++ [i])) l' /\
          (forall k, lev weg' k = lev weg k ++ sel k (flat_map (news (p ++ [i]) maxE') l)) /\
          length weg <= length weg' /\ (forall k, k < length weg' -> lev weg' k <> [])).
      { induction l as [|c l IHl]; intros weg0 cnt0 Hin Hl0 Hne0.
        - exists [], weg0. rewrite GO0. cbn. rewrite Z.add_0_r. repeat split; auto. intros k. now rewrite app_nil_r.
        - assert (Hc : In c cs) by (apply Hin; now left). destruct (Hch c Hc) as (C1 & C2 & C3 & C4).
          assert (C4' := proj1 (clb_spec _ _) C4).
          rewrite Forall_forall in IH.
          destruct (IH c Hc (p ++ [i]) maxE' weg0 cnt0) as (c' & weg1' & E1' & I1 & G1 & K1 & Ln1 & N1); auto.
          + rewrite Forall_forall in Gf. auto.
          + rewrite <- app_assoc. cbn. apply ssorted_app. apply ssorted_snoc_inv in S as [S1 S2].
            split; auto. split. { apply ssorted_cons. split; [repeat constructor|]. intros y [<-|[]]. auto. }
            intros x y Hx [<-|[<-|[]]]; auto. specialize (Hpi x Hx). lia.
          + intros v Hv. apply in_app_iff in Hv as [Hv|[<-|[]]]; auto.
          + intros u v Hu Hv Huv. apply in_app_iff in Hu, Hv. cbn in Hu, Hv.
            destruct Hv as [Hv|[Hv|[]]].
            * destruct Hu as [Hu|[Hu|[]]]; [apply Hfl; auto|]. exfalso. subst u.
              apply in_app_iff in Hv as [Hv|[<-|[]]]; [specialize (Hpi v Hv); lia|lia].
            * subst v. destruct Hu as [Hu|[Hu|[]]]; [apply C4'; auto|lia].
          + intros v Hv. apply in_app_iff in Hv as [Hv|[<-|[]]]; auto.
          + rewrite <- app_assoc. exact Dm.
          + rewrite app_length. cbn. lia.
          + rewrite <- app_assoc in E1'. cbn [app] in E1'. rewrite GOS, E1'. cbn [bind snd fst].
            destruct (IHl weg1' (cnt0 + Z.of_nat (length (news (p ++ [i]) maxE' c)))%Z) as (l' & weg2 & E2 & I2 & G2 & K2 & Ln2 & N2); auto.
            { intros x Hx. apply Hin. now right. } { lia. }
            rewrite E2. cbn [bind fst snd]. exists (c' :: l'), weg2. split.
            { cbn [flat_map]. rewrite app_length. do 3 f_equal. lia. }
            split. { cbn. now rewrite I1, I2. } split; [now constructor|]. split; [|split; [lia|auto]].
            intros k. rewrite K2, K1. cbn [flat_map]. rewrite sel_app, app_assoc. reflexivity. }
      destruct (Go cs weg1 (cnt + 1)%Z (incl_refl _) ltac:(lia) Ne1) as (l' & weg2 & E2 & I2 & G2 & K2 & Ln2 & N2).
      rewrite E2. cbn [bind fst snd]. exists (TN i w (TN cur maxE' [] :: l')), weg2.
      split. { cbn [length]. do 3 f_equal. lia. }
      split; auto. split; [|split; [|split; [lia|auto]]].
      + constructor; auto. rewrite Ha. cbn [map t_index]. rewrite I2. exact Hnewidx.
      + intros k. rewrite K2, L1. unfold sel at 2. cbn [filter fst]. fold (sel k (flat_map (news (p ++ [i]) maxE') cs)).
        destruct (length (p ++ [i; cur]) =? Datatypes.S k); now rewrite <- app_assoc.
    - exists (TN i w (TN cur maxE' [] :: cs)), weg1. split.
      { rewrite Ecs. reflexivity. }
      split; auto. split; [|split; [|split; auto]].
      + constructor; auto.
        * rewrite Ha. cbn [map t_index]. exact Hnewidx.
        * constructor; auto. rewrite Forall_forall in *. intros c Hc. destruct (Hch c Hc) as (C1 & C2 & C3 & C4).
          apply good_same; auto. right. rewrite app_length. cbn. rewrite allow_S by lia.
          replace (Datatypes.S (length p + 1)) with (length p + 2) by lia. exact Em.
      + intros k. rewrite L1. unfold sel. cbn [filter fst]. destruct (length (p ++ [i; cur]) =? Datatypes.S k); auto.
  Qed.

  Definition flagD (s : list nat) : Prop := forall u v, In u s -> In v s -> u < v -> (D u v < eps)%Z.

  Lemma news_spec t : forall p maxE,
    good cur p t -> lo <= t_index t -> t_index t < cur ->
    ssorted (p ++ [t_index t]) -> (forall v, In v p -> lo <= v) -> flagD (p ++ [t_index t]) ->
    (forall v, In v p -> (D v cur < eps)%Z) -> diameter D (p ++ [cur]) maxE ->
    allow (S (length p)) = true ->
    (forall s wt, In (s, wt) (news p maxE t) <->
       exists q, s = p ++ t_index t :: q ++ [cur] /\ ssorted s /\ flagD s /\ allow (length s - 1) = true /\ diameter D s wt) /\
    NoDup (map fst (news p maxE t)).
  Proof.
    induction t as [i w cs IH] using tnode_ind'; intros p maxE G Hlo Hi Ss Hp Hfl Hcl Hd Ha.
    cbn [t_index] in *. inversion G as [p0 i0 w0 cs0 Gd Gc Gf]; subst. rewrite Ha in Gc.
    assert (Hdi : (0 <= D i cur)%Z) by (apply pos; auto).
    assert (Hpi : forall x, In x p -> x < i) by (apply ssorted_snoc_inv in Ss; tauto).
    cbn [news]. set (curE := if (maxE <? D i cur)%Z then D i cur else maxE).
    set (maxE' := if (w <? curE)%Z then curE else w).
    destruct (Z.ltb_spec (D i cur) eps) as [Hlt|Hge].
    2: { split; [|constructor]. intros s wt. split; [intros []|]. intros (q & -> & _ & Hf & _). exfalso.
         assert (D i cur < eps)%Z; [|lia]. apply Hf; auto; rewrite !in_app_iff; cbn; rewrite in_app_iff; cbn; tauto. }
    assert (Dm : diameter D (p ++ [i; cur]) maxE').
    { apply diam_step; auto. intros u v Hu Hv Huv.
      assert (B : forall x, In x (p ++ [i]) -> lo <= x /\ x < cur).
      { intros x Hx. apply in_app_iff in Hx as [Hx|[<-|[]]]; split; auto. specialize (Hpi x Hx). lia. }
      apply pos; auto; try apply B; auto. assert (v < cur) by now apply B. lia. }
    assert (Sic : ssorted (p ++ [i; cur])).
    { apply ssorted_snoc_inv in Ss as [S1 S2]. apply ssorted_app. split; auto. split.
      - apply ssorted_cons. split; [repeat constructor|]. intros y [<-|[]]. auto.
      - intros x y Hx [<-|[<-|[]]]; auto. specialize (Hpi x Hx). lia. }
    assert (Fic : flagD (p ++ [i; cur])).
    { intros u v Hu Hv Huv. apply in_app_iff in Hu, Hv. cbn in Hu, Hv.
      destruct Hv as [Hv|[Hv|[Hv|[]]]]; destruct Hu as [Hu|[Hu|[Hu|[]]]]; subst; try lia; auto;
      try (apply Hfl; auto; apply in_app_iff; cbn; tauto); try (specialize (Hpi _ Hv); lia). }
    assert (Hch : forall c, In c cs -> lo <= t_index c /\ i < t_index c /\ t_index c < cur /\ clb (p ++ [i]) (t_index c) = true).
    { intros c Hc. assert (Hx : In (t_index c) (map t_index cs)) by now apply in_map.
      rewrite Gc in Hx. apply in_rev in Hx. apply filter_In in Hx as [Hx Hx']. apply in_seq in Hx. repeat split; auto; lia. }
    destruct (mayr (length p + 2)) eqn:Em.
    2: { split.
         - intros s wt. cbn [In]. split.
           + intros [E|[]]. inversion E; subst. exists []. cbn. split; auto. split; auto. split; auto. split; auto.
             rewrite app_length. cbn. replace (length p + 2 - 1) with (S (length p)) by lia. exact Ha.
           + intros (q & -> & Sq & Fq & Aq & Dq). destruct q as [|j q].
             * left. cbn. f_equal. cbn in Dq. apply (diameter_unique D _ _ _ Dm Dq). rewrite app_length; cbn; lia.
             * exfalso. apply (allow_mono (length p + 2)) in Aq.
               -- replace (length p + 2) with (S (S (length p))) in Aq by lia. rewrite allow_S in Aq by lia.
                  replace (length p + 2) with (S (S (length p))) in Em by lia. congruence.
               -- lia. -- rewrite app_length. cbn. rewrite app_length. cbn. lia.
         - cbn. repeat constructor. auto. }
    assert (Ha' : allow (S (length (p ++ [i]))) = true).
    { rewrite app_length. cbn. rewrite allow_S by lia. replace (S (length p + 1)) with (length p + 2) by lia. exact Em. }
    assert (Hc : forall c, In c cs ->
      (forall s wt, In (s, wt) (news (p ++ [i]) maxE' c) <->
         exists q, s = (p ++ [i]) ++ t_index c :: q ++ [cur] /\ ssorted s /\ flagD s /\ allow (length s - 1) = true /\ diameter D s wt) /\
      NoDup (map fst (news (p ++ [i]) maxE' c))).
    { intros c Hc. destruct (Hch c Hc) as (C1 & C2 & C3 & C4). assert (C4' := proj1 (clb_spec _ _) C4).
      rewrite Forall_forall in IH. apply (IH c Hc); auto.
      - rewrite Forall_forall in Gf. auto.
      - rewrite <- app_assoc. cbn. apply ssorted_app. apply ssorted_snoc_inv in Ss as [S1 S2].
        split; auto. split. { apply ssorted_cons. split; [repeat constructor|]. intros y [<-|[]]. auto. }
        intros x y Hx [<-|[<-|[]]]; auto. specialize (Hpi x Hx). lia.
      - intros v Hv. apply in_app_iff in Hv as [Hv|[<-|[]]]; auto.
      - intros u v Hu Hv Huv. apply in_app_iff in Hu, Hv. cbn in Hu, Hv.
        destruct Hv as [Hv|[Hv|[]]].
        + destruct Hu as [Hu|[Hu|[]]]; [apply Hfl; auto|]. exfalso. subst u.
          apply in_app_iff in Hv as [Hv|[<-|[]]]; [specialize (Hpi v Hv); lia|lia].
        + subst v. destruct Hu as [Hu|[Hu|[]]]; [apply C4'; auto|lia].
      - intros v Hv. apply in_app_iff in Hv as [Hv|[<-|[]]]; auto.
      - rewrite <- app_assoc. exact Dm. }
    split.
    - intros s wt. cbn [In]. rewrite in_flat_map. split.
      + intros [E|(c & Hcin & Hin)].
        * inversion E; subst. exists []. cbn. split; auto. split; auto. split; auto. split; auto.
          rewrite app_length. cbn. replace (length p + 2 - 1) with (S (length p)) by lia. exact Ha.
        * apply (proj1 (Hc c Hcin)) in Hin as (q & -> & Sq & Fq & Aq & Dq).
          exists (t_index c :: q). rewrite <- app_assoc in *. cbn in *. auto.
      + intros (q & Es & Sq & Fq & Aq & Dq). destruct q as [|j q].
        * left. subst s. cbn in *. f_equal. apply (diameter_unique D _ _ _ Dm Dq). rewrite app_length; cbn; lia.
        * right. assert (Hj : i < j /\ j < cur /\ clb (p ++ [i]) j = true).
          { subst s. assert (S0 := Sq). apply ssorted_app in Sq as (_ & Sq & Hx). apply ssorted_cons in Sq as [Sq Hy].
            apply ssorted_cons in Sq as [_ Hz].
            assert (A1 : i < j) by (apply Hy; now left).
            assert (A2 : j < cur) by (apply Hz; apply in_app_iff; right; now left).
            split; auto. split; auto. apply clb_spec. intros v Hv. apply Fq.
            - rewrite in_app_iff in *. cbn in *. tauto.
            - rewrite in_app_iff. cbn. tauto.
            - apply in_app_iff in Hv as [Hv|[<-|[]]]; auto. apply Hx; [auto|right; now left]. }
          destruct Hj as (J1 & J2 & J3).
          assert (Hjin : In j (map t_index cs)).
          { rewrite Gc, <- in_rev, filter_In, in_seq. split; auto. lia. }
          apply in_map_iff in Hjin as (c & <- & Hcin). exists c. split; auto.
          apply (proj1 (Hc c Hcin)). exists q. rewrite <- app_assoc. cbn in *. auto.
    - cbn [map]. constructor.
      + intros Hin. apply in_map_iff in Hin as ((s & wt) & Es & Hin). cbn in Es.
        apply in_flat_map in Hin as (c & Hcin & Hin). apply (proj1 (Hc c Hcin)) in Hin as (q & E & _).
        destruct (Hch c Hcin) as (_ & _ & C3 & _). subst s. cbn [fst] in E. rewrite <- app_assoc in E. cbn in E.
        apply app_inv_head in E. inversion E. lia.
      + assert (Nd : NoDup (map t_index cs)).
        { rewrite Gc. apply NoDup_rev, NoDup_filter, seq_NoDup. }
        clear - Hc Nd. induction cs as [|c cs IHc]; cbn; [constructor|].
        inversion Nd; subst. rewrite map_app. apply NoDup_app_intro.
        * apply Hc. now left.
        * apply IHc; auto. intros c' Hc'. apply Hc. now right.
        * intros x Hx Hy. apply in_map_iff in Hx as ((s & wt) & Es & Hx), Hy as ((s' & wt') & Es' & Hy). cbn in *. subst.
          apply (proj1 (Hc c (or_introl eq_refl))) in Hx as (q & E & _).
          apply in_flat_map in Hy as (c' & Hc' & Hy).
          apply (proj1 (Hc c' (or_intror Hc'))) in Hy as (q' & E' & _). subst x.
          apply app_inv_head in E'. inversion E' as [[E1 E2]]. apply H1. rewrite E1. now apply in_map.
  Qed.
End Tree.
