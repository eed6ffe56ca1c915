(* TreeHist.v -- invariants of simplexTree objects along every history. *)
From Coq Require Import List Arith ZArith Bool Lia Sorted Permutation.
From Verif Require Import Base Spec UtilsModel UtilsProofs PartitionProofs ArrayListModel ArrayListProofs
  ArrayListInv SpecComplex ArrayListHist TreeModel TreeProofs SpecTree.
Import ListNotations.

Local Notation lev wg k := (nth k wg (@nil wsimp)).

(* ---- simplex counter ---- *)
Definition total (weg : wgraph) : Z := Z.of_nat (length (concat weg)).

Lemma upd_total (weg weg' : wgraph) k x : upd weg k (fun l => l ++ [x]) = Ok weg' -> total weg' = (total weg + 1)%Z.
Proof.
  revert k weg'. induction weg as [|l weg IH]; intros k weg' E; [destruct k; discriminate|].
  destruct k as [|k]; cbn in E.
  - inversion E; subst. unfold total. cbn. rewrite !app_length. cbn. lia.
  - destruct (upd weg k _) as [w1|] eqn:E1; [|discriminate]. inversion E; subst. apply IH in E1.
    unfold total in *. cbn. rewrite !app_length. lia.
Qed.

Lemma record_total weg s w weg' : record_simplex weg s w = Ok weg' -> total weg' = (total weg + 1)%Z.
Proof.
  unfold record_simplex. destruct (length weg <? length s).
  - intros E. inversion E; subst. unfold total. rewrite concat_app, app_length. cbn. lia.
  - destruct (length s); [discriminate|]. apply upd_total.
Qed.

Lemma recurse_total eps md dist cur t : forall maxE simp weg cnt t' weg' cnt',
  recurseInsert eps md dist cur t maxE simp (weg, cnt) = Ok (t', (weg', cnt')) ->
  (cnt' - total weg' = cnt - total weg)%Z.
Proof.
  induction t as [i w cs IH] using tnode_ind'; intros maxE simp weg cnt t' weg' cnt' E.
  cbn [recurseInsert] in E. destruct (dist i) as [d|]; [|discriminate]. cbn [bind] in E.
  set (curE := if (maxE <? d)%Z then d else maxE) in *.
  destruct (curE <? eps)%Z; [|inversion E; subst; reflexivity].
  set (maxE' := if (w <? curE)%Z then curE else w) in *.
  destruct (record_simplex (fst (weg, cnt)) (sinsert i simp) maxE') as [weg1|] eqn:E1; [|discriminate].
  cbn [fst snd] in E1. apply record_total in E1. cbn [bind snd fst] in E.
  match type of E with context [?f cs (weg1, (cnt + 1)%Z)] => set (GO := f) in E end.
  assert (HGO : forall l w0 c0 r, incl l cs -> GO l (w0, c0) = Ok r -> (snd (snd r) - total (fst (snd r)) = c0 - total w0)%Z).
  { induction l as [|c l IHl]; intros w0 c0 r Hin Er.
    - inversion Er; subst. reflexivity.
    - cbn [GO] in Er. assert (Er' : bind (recurseInsert eps md dist cur c maxE' (sinsert i simp) (w0, c0))
        (fun r1 => bind (GO l (snd r1)) (fun r2 => Ok (fst r1 :: fst r2, snd r2))) = Ok r) by exact Er. clear Er.
      destruct (recurseInsert _ _ _ _ c _ _ _) as [[c' [w1 c1]]|] eqn:Ec; [|discriminate]. cbn [bind snd fst] in Er'.
      destruct (GO l (w1, c1)) as [r2|] eqn:El; [|discriminate]. cbn [bind] in Er'. inversion Er'; subst. cbn.
      apply IHl in El. 2:{ intros x Hx. apply Hin. now right. }
      rewrite Forall_forall in IH. apply IH in Ec. 2:{ apply Hin. now left. } lia. }
  clearbody GO. destruct cs as [|c0 cs0].
  - inversion E; subst. lia.
  - destruct (may_recurse md (length (sinsert i simp))).
    + destruct (GO (c0 :: cs0) _) as [r|] eqn:Er; [|discriminate]. cbn in E. inversion E as [[Et Ew]]. subst.
      apply HGO in Er; [|apply incl_refl]. rewrite Ew in Er. cbn [fst snd] in Er. lia.
    + inversion E; subst. lia.
Qed.

Section Obj.
  Variable eps md : Z.

  Definition dsh (dm : list (list Z)) (b u v : nat) : Z := dist_of dm (u - b) (v - b).

  (* s is a simplex of the tree on the vertices b .. b+n-1 *)
  Definition cpx (D : nat -> nat -> Z) (b n : nat) (s : list nat) : Prop :=
    s <> [] /\ ssorted s /\ (forall v, In v s -> b <= v < b + n) /\ flagD D eps s /\
    (length s = 1 \/ allow md (length s - 1) = true).

  Record tinv (dm : list (list Z)) (b n : nat) (cb : Z) (t : stree) : Prop := {
    v_dm : st_dm t = dm;
    v_ix : map t_index (st_roots t) = seq b n;
    v_good : Forall (good (dsh dm b) eps md (b + n) []) (st_roots t);
    v_ic : st_indexCounter t = b + n;
    v_rvc : st_runningVectorCount t = b + n;
    v_rvi : length (st_runningVectorIndices t) = n;
    v_len : n = 0 <-> st_weg t = [];
    v_ne : forall k, k < length (st_weg t) -> lev (st_weg t) k <> [];
    v_spec : forall k s w, In (s, w) (lev (st_weg t) k) <-> length s = S k /\ cpx (dsh dm b) b n s /\ diameter (dsh dm b) s w;
    v_nodup : forall k, NoDup (map fst (lev (st_weg t) k));
    v_cnt : (st_count t = cb + total (st_weg t))%Z
  }.

  Lemma diam_single (D : nat -> nat -> Z) x : diameter D [x] 0.
  Proof. split; [|right; split; auto]. intros u v [<-|[]] [<-|[]] H. lia. Qed.
  Lemma diam_single_inv (D : nat -> nat -> Z) x w : diameter D [x] w -> w = 0%Z.
  Proof. intros [_ [(u & v & [<-|[]] & [<-|[]] & H & _)|[_ E]]]; [lia|auto]. Qed.

  Lemma tree_dist_ok dm b n i rvi : upper_triangle dm (S n) -> b <= i -> i < b + n -> length rvi = n ->
    tree_dist dm (length (rvi ++ [b + n])) (b + n) (b + n) i = Ok (dsh dm b i (b + n)).
  Proof.
    intros U H1 H2 L. unfold tree_dist, dsh. rewrite app_length, L. cbn.
    destruct (Nat.ltb_spec (n + 1) (b + n + 1)) as [H|H].
    - replace (b + n + 1 - (n + 1)) with b by lia.
      destruct (Nat.ltb_spec i b); [lia|]. destruct (Nat.ltb_spec (b + n) b); [lia|]. cbn.
      apply (upper_dm_at dm (S n)); auto; lia.
    - assert (b = 0) by lia. subst b. rewrite !Nat.sub_0_r. apply (upper_dm_at dm (S n)); auto; lia.
  Qed.

  Lemma insert_roots_spec D cur lo dist l : forall (weg : wgraph) cnt,
    (forall i, lo <= i -> i < cur -> dist i = Ok (D i cur)) -> posD D cur lo ->
    (forall t, In t l -> good D eps md cur [] t /\ lo <= t_index t /\ t_index t < cur) ->
    1 <= length weg -> (forall k, k < length weg -> lev weg k <> []) ->
    exists l' weg', insert_roots eps md dist cur l (weg, cnt) =
        Ok (l', (weg', (cnt + Z.of_nat (length (flat_map (news D eps md cur [] 0) l)))%Z)) /\
      map t_index l' = map t_index l /\ Forall (good D eps md (S cur) []) l' /\
      (forall k, lev weg' k = lev weg k ++ sel k (flat_map (news D eps md cur [] 0) l)) /\
      length weg <= length weg' /\ (forall k, k < length weg' -> lev weg' k <> []) /\
      (cnt + Z.of_nat (length (flat_map (news D eps md cur [] 0) l)) - total weg' = cnt - total weg)%Z.
  Proof.
    induction l as [|t l IH]; intros weg cnt Hd Hp Hl Hw Hne; cbn [insert_roots flat_map].
    - exists [], weg. cbn. rewrite Z.add_0_r. repeat split; auto. intros k. now rewrite app_nil_r.
    - destruct (Hl t (or_introl eq_refl)) as (G & T1 & T2).
      destruct (recurseInsert_spec D eps md cur lo dist Hd Hp t [] 0%Z weg cnt) as (t' & weg1 & E1 & I1 & G1 & K1 & L1 & N1); auto.
      { cbn. repeat constructor. } { intros v []. } { intros u v [<-|[]] [<-|[]] H. lia. } { intros v []. }
      { apply diam_single. } { easy. }
      cbn [app] in E1. rewrite E1. cbn [bind snd fst]. apply recurse_total in E1.
      destruct (IH weg1 (cnt + Z.of_nat (length (news D eps md cur [] 0 t)))%Z) as (l' & weg2 & E2 & I2 & G2 & K2 & L2 & N2 & T); auto.
      { intros x Hx. apply Hl. now right. } { lia. }
      rewrite E2. cbn [bind snd fst]. exists (t' :: l'), weg2. split.
      { rewrite app_length. do 3 f_equal. lia. }
      split. { cbn. now rewrite I1, I2. } split; [now constructor|]. split; [|split; [lia|split; [auto|]]].
      + intros k. rewrite K2, K1, sel_app, app_assoc. reflexivity.
      + rewrite app_length. lia.
  Qed.

  Lemma In_sel k s w l : In (s, w) (sel k l) <-> length s = S k /\ In (s, w) l.
  Proof. unfold sel. rewrite filter_In, Nat.eqb_eq. cbn. tauto. Qed.

  Lemma NoDup_sel k l : NoDup (map fst l) -> NoDup (map fst (sel k l)).
  Proof.
    unfold sel. induction l as [|x l IH]; cbn; auto. intros H. inversion H; subst.
    destruct (_ =? _); cbn; auto. constructor; auto. intros Hx. apply H2.
    apply in_map_iff in Hx as (y & <- & Hy). apply in_map. apply filter_In in Hy. tauto.
  Qed.

  Lemma insert_step dm b n cb t :
    tinv dm b n cb t -> dm <> [] -> upper_triangle dm (S n) ->
    exists t', st_insert eps md t = Ok t' /\ tinv dm b (S n) cb t' /\ st_isSorted t' = st_isSorted t.
  Proof.
    intros [Vdm Vix Vg Vic Vrvc Vrvi Vlen Vne Vs Vnd Vc] Hdm U. unfold st_insert. rewrite Vdm.
    destruct dm as [|r0 dmr] eqn:Edm; [easy|]. rewrite <- Edm in *.
    destruct (st_roots t) as [|root roots] eqn:Er.
    - (* first vertex *)
      destruct n; [|discriminate]. assert (W : st_weg t = []) by now apply Vlen.
      rewrite Vic, Vrvc, W. eexists. split; [reflexivity|]. split; [|reflexivity].
      constructor; cbn; auto.
      + rewrite Nat.add_0_r. reflexivity.
      + constructor; auto. constructor; [cbn; apply diam_single| |constructor].
        replace (b + 1 - S (b + 0)) with 0 by lia. now destruct (allow _ _).
      + rewrite app_length, Vrvi. reflexivity. + split; easy.
      + intros k Hk. destruct k; [easy|lia].
      + intros k s w. destruct k as [|k]; cbn.
        * split.
          -- intros [E|[]]. inversion E; subst. split; auto. split; [|apply diam_single].
             split; [easy|]. split; [repeat constructor|]. split; [intros v [<-|[]]; lia|]. split; [|now left].
             intros u v [<-|[]] [<-|[]]; lia.
          -- intros (L & (_ & _ & V & _) & Dw). destruct s as [|x [|y s]]; try discriminate.
             assert (b <= x < b + 1) by (apply V; now left). apply diam_single_inv in Dw. left. f_equal; auto. f_equal. lia.
        * split; [destruct k; intros []|]. intros (L & (_ & Ss & V & _) & _).
          destruct s as [|x [|y s]]; try discriminate. apply ssorted_cons in Ss as [_ Ss].
          assert (x < y) by (apply Ss; now left).
          assert (b <= x < b + 1) by (apply V; now left). assert (b <= y < b + 1) by (apply V; right; now left). lia.
      + intros k. destruct k as [|[|k]]; cbn; repeat constructor. auto.
      + rewrite Vc, W. unfold total. cbn. lia.
    - (* further vertex *)
      assert (Hn : n <> 0). { intros ->. discriminate. }
      set (D := dsh dm b) in *. set (cur := b + n) in *.
      assert (Hpos : posD D cur b).
      { intros u v H1 H2 H3. unfold D, dsh. apply U; unfold cur in *; lia. }
      rewrite Vic, Vrvc.
      destruct (insert_roots_spec D cur b (tree_dist dm (length (st_runningVectorIndices t ++ [cur])) cur cur)
                  (root :: roots) (st_weg t) (st_count t)) as (l' & weg1 & E1 & I1 & G1 & K1 & L1 & N1 & T1); auto.
      { intros i Hi1 Hi2. unfold D, cur. apply tree_dist_ok; auto. }
      { intros x Hx. rewrite Forall_forall in Vg. split; [now apply Vg|].
        assert (Hix : In (t_index x) (seq b n)) by (rewrite <- Vix; now apply in_map).
        apply in_seq in Hix. exact Hix. }
      { destruct (st_weg t); [|cbn; lia]. exfalso. apply Hn. now apply Vlen. }
      rewrite E1. cbn [bind snd fst].
      assert (L1' : 0 < length weg1).
      { destruct (st_weg t); [exfalso; apply Hn; now apply Vlen|]. cbn in L1. lia. }
      destruct (upd_lev weg1 0 (fun l => l ++ [([cur], 0%Z)]) L1') as (weg2 & E2 & L2 & A2 & B2).
      rewrite E2. cbn [bind]. eexists. split; [reflexivity|]. split; [|reflexivity].
      set (NW := flat_map (news D eps md cur [] 0) (root :: roots)) in *.
      assert (HN : forall x, In x (root :: roots) ->
        (forall s wt, In (s, wt) (news D eps md cur [] 0 x) <->
          exists q, s = [] ++ t_index x :: q ++ [cur] /\ ssorted s /\ flagD D eps s /\ allow md (length s - 1) = true /\ diameter D s wt) /\
        NoDup (map fst (news D eps md cur [] 0 x))).
      { intros x Hx. assert (Hix : In (t_index x) (seq b n)) by (rewrite <- Vix; now apply in_map).
        apply in_seq in Hix. rewrite Forall_forall in Vg.
        apply (news_spec D eps md cur b Hpos); auto; try (now apply Hix); try easy.
        - cbn. repeat constructor. - intros u v [<-|[]] [<-|[]] H. lia. - apply diam_single. }
      assert (HNW : forall s wt, In (s, wt) NW <-> exists q, q <> [] /\ s = q ++ [cur] /\ (forall v, In v q -> b <= v) /\
                 ssorted s /\ flagD D eps s /\ allow md (length s - 1) = true /\ diameter D s wt).
      { intros s wt. unfold NW. rewrite in_flat_map. split.
        - intros (x & Hx & Hin). apply (proj1 (HN x Hx)) in Hin as (q & -> & Sq & H1 & H2 & H3).
          exists (t_index x :: q). split; [easy|]. split; [reflexivity|]. split; [|auto].
          assert (Hix : In (t_index x) (seq b n)) by (rewrite <- Vix; now apply in_map). apply in_seq in Hix.
          cbn in Sq. apply ssorted_cons in Sq as [_ Sq]. intros v [<-|Hv]; [lia|].
          assert (t_index x < v) by (apply Sq, in_app_iff; auto). lia.
        - intros (q & Hq & -> & Hb & Sq & H1 & H2 & H3). destruct q as [|j q]; [easy|].
          assert (Hj : In j (map t_index (root :: roots))).
          { rewrite Vix, in_seq. split; [apply Hb; now left|]. cbn in Sq. apply ssorted_cons in Sq as [_ Sq].
            apply Sq, in_app_iff. right. now left. }
          apply in_map_iff in Hj as (x & <- & Hx). exists x. split; auto. apply (proj1 (HN x Hx)). exists q. auto. }
      assert (HND : NoDup (map fst NW)).
      { unfold NW. assert (Nd : NoDup (map t_index (root :: roots))) by (rewrite Vix; apply seq_NoDup).
        revert HN Nd. clear. generalize (root :: roots) as l. induction l as [|c l IH]; intros HN Nd; cbn; [constructor|].
        inversion Nd; subst. rewrite map_app. apply NoDup_app_intro.
        - apply HN. now left.
        - apply IH; auto. intros c' Hc'. apply HN. now right.
        - intros x Hx Hy. apply in_map_iff in Hx as ((s & wt) & Es & Hx), Hy as ((s' & wt') & Es' & Hy). cbn in *. subst.
          apply (proj1 (HN c (or_introl eq_refl))) in Hx as (q & E & _).
          apply in_flat_map in Hy as (c' & Hc' & Hy).
          apply (proj1 (HN c' (or_intror Hc'))) in Hy as (q' & E' & _). subst x.
          cbn in E'. inversion E' as [[Ea Eb]]. apply H1. rewrite Ea. now apply in_map. }
      assert (Hlev : forall k, lev weg2 k = lev (st_weg t) k ++ sel k NW ++ (if k =? 0 then [([cur], 0%Z)] else [])).
      { intros k. destruct (Nat.eqb_spec k 0) as [->|Hk].
        - rewrite A2, K1, app_assoc. reflexivity. - rewrite B2, K1, app_nil_r by auto. reflexivity. }
      replace (b + S n) with (S cur) by (unfold cur; lia).
      constructor; cbn [st_dm st_roots st_weg st_count st_indexCounter st_runningVectorCount st_runningVectorIndices]; auto.
      + rewrite map_app, I1, Vix, seq_S. reflexivity.
      + replace (b + S n) with (S cur) by (unfold cur; lia). apply Forall_app. split; auto. constructor; auto.
        constructor; [cbn; apply diam_single| |constructor]. rewrite Nat.sub_diag. now destruct (allow _ _).
      + unfold cur; lia. + unfold cur; lia. + rewrite app_length, Vrvi. cbn. lia.
      + split; [easy|]. intros ->. cbn in L2. lia.
      + intros k Hk E. rewrite Hlev in E. apply app_eq_nil in E as [E0 E]. apply app_eq_nil in E as [E E'].
        apply (N1 k); [lia|]. rewrite K1, E0, E. reflexivity.
      + fold D. intros k s w. rewrite Hlev, !in_app_iff, In_sel, HNW, Vs. split.
        * intros [(L & (C1 & C2 & C3 & C4 & C5) & Dw)|[(L & q & Hq & -> & Hb & Sq & F & A & Dw)|Hv]].
          -- split; auto. split; auto. split; auto. split; auto. split; [|auto]. intros v Hv. specialize (C3 v Hv). lia.
          -- split; auto. split; auto. split; [now destruct q|]. split; auto. split; [|auto].
             apply ssorted_snoc_inv in Sq as [_ Sq]. intros v Hv. apply in_app_iff in Hv as [Hv|[<-|[]]]; [|unfold cur; lia].
             specialize (Sq v Hv). specialize (Hb v Hv). unfold cur in Sq. lia.
          -- destruct (Nat.eqb_spec k 0) as [->|]; [|easy]. destruct Hv as [E|[]]. inversion E; subst. split; auto.
             split; [|apply diam_single]. split; [easy|]. split; [repeat constructor|].
             split; [intros v [<-|[]]; unfold cur; lia|]. split; [|now left]. intros u v [<-|[]] [<-|[]]; lia.
        * intros (L & (C1 & C2 & C3 & C4 & C5) & Dw).
          destruct (exists_last C1) as (q & x & ->). assert (Sq := C2). apply ssorted_snoc_inv in Sq as [_ Sq].
          assert (Hx : b <= x < b + S n) by (apply C3, in_app_iff; right; now left).
          destruct (Nat.eq_dec x cur) as [->|Hne].
          -- right. destruct q as [|y q].
             ++ right. cbn in L. replace k with 0 by lia. rewrite Nat.eqb_refl. left. f_equal. symmetry. eapply diam_single_inv; eauto.
             ++ left. split; auto. exists (y :: q). split; [easy|]. split; auto. split.
                { intros v Hv. apply (C3 v). apply in_app_iff. auto. }
                split; auto. split; auto. split; auto. destruct C5 as [C5|C5]; auto. rewrite app_length in C5. cbn in C5. lia.
          -- left. split; auto. split; auto. split; auto. split; auto. split; auto.
             intros v Hv. specialize (C3 v Hv). split; [lia|]. apply in_app_iff in Hv as [Hv|[<-|[]]]; [|unfold cur in *; lia].
             specialize (Sq v Hv). unfold cur in *. lia.
      + intros k. rewrite Hlev, !map_app. apply NoDup_app_intro; auto; [apply NoDup_app_intro|].
        * now apply NoDup_sel. * destruct (k =? 0); cbn; repeat constructor; auto.
        * intros x Hx Hy. destruct (k =? 0); [|easy]. destruct Hy as [<-|[]].
          apply in_map_iff in Hx as ((s & wt) & Es & Hx). apply In_sel in Hx as [_ Hx]. apply HNW in Hx as (q & Hq & E & _).
          cbn in Es. subst s. destruct q as [|? [|]]; easy.
        * intros x Hx Hy. apply in_map_iff in Hx as ((s & wt) & Es & Hx). apply Vs in Hx as (_ & (_ & _ & V & _) & _).
          cbn in Es. subst x.
          assert (In cur s); [|assert (b <= cur < b + n) by auto; unfold cur in *; lia].
          apply in_app_iff in Hy as [Hy|Hy].
          -- apply in_map_iff in Hy as ((s' & wt') & Es & Hy). cbn in Es. subst s'. apply In_sel in Hy as [_ Hy].
             apply HNW in Hy as (q & _ & -> & _). apply in_app_iff. right. now left.
          -- destruct (k =? 0); [|easy]. destruct Hy as [<-|[]]. now left.
      + apply upd_total in E2. lia.
  Qed.

  Lemma deletion_spec r rs c : st_deletion (Ok tt) (r :: rs) c = Ok (c - Z.of_nat (S (length rs)))%Z.
  Proof.
    revert r c. induction rs as [|r' rs IH]; intros r c.
    - cbn. f_equal. 
    - cbn [st_deletion]. change (bind (st_deletion (Ok tt) (r' :: rs) c) (fun c0 => bind (Ok tt) (fun _ => Ok (c0 - 1)%Z)) = Ok (c - Z.of_nat (S (length (r' :: rs))))%Z).
      rewrite IH. cbn [bind]. f_equal. cbn [length]. lia.
  Qed.

  Lemma clear_step dm b n cb t : tinv dm b n cb t -> n <> 0 ->
    exists t', st_clear (Ok tt) t = Ok t' /\ tinv dm (b + n) 0 (cb + total (st_weg t) - Z.of_nat n) t'.
  Proof.
    intros [Vdm Vix Vg Vic Vrvc Vrvi Vlen Vne Vs Vnd Vc] Hn. unfold st_clear.
    destruct (st_roots t) as [|r rs] eqn:Er; [destruct n; easy|]. rewrite deletion_spec. cbn [bind].
    eexists. split; [reflexivity|].
    assert (length (r :: rs) = n) by (rewrite <- (seq_length n b), <- Vix, map_length; reflexivity).
    constructor; cbn; auto; try lia.
    - split; auto.
    - intros k s w. split; [destruct k; intros []|]. intros (_ & (Hs & _ & V & _) & _).
      destruct s as [|x s]; [easy|]. specialize (V x (or_introl eq_refl)). lia.
    - intros k. destruct k; constructor.
    - rewrite Vc. unfold total. cbn in *. lia.
  Qed.

  Lemma matrix_step dm dm' b cb t : tinv dm b 0 cb t -> tinv dm' b 0 cb (st_setDistanceMatrix dm' t).
  Proof.
    intros [Vdm Vix Vg Vic Vrvc Vrvi Vlen Vne Vs Vnd Vc].
    assert (W : st_weg t = []) by now apply Vlen.
    assert (R : st_roots t = []) by (destruct (st_roots t); easy).
    constructor; cbn; auto.
    - rewrite R. constructor.
    - rewrite W. intros k s w. split; [destruct k; intros []|]. intros (_ & (Hs & _ & V & _) & _).
      destruct s as [|x s]; [easy|]. specialize (V x (or_introl eq_refl)). lia.
  Qed.

  Lemma map_lev (srt : list wsimp -> list wsimp) (weg : wgraph) k : srt [] = [] -> lev (map srt weg) k = srt (lev weg k).
  Proof. intros H. rewrite <- H at 1. apply map_nth. Qed.
  Lemma sort_nil srt : is_sort srt -> srt [] = [].
  Proof. intros H. destruct (H []) as [P _]. now apply Permutation_sym, Permutation_nil in P. Qed.
  Lemma sort_total srt weg : is_sort srt -> total (map srt weg) = total weg.
  Proof.
    intros H. unfold total. f_equal. induction weg as [|l weg IH]; cbn; auto. rewrite !app_length, IH.
    f_equal. apply Permutation_length. apply H.
  Qed.

  Lemma sort_step dm b n cb t srt : is_sort srt -> tinv dm b n cb t -> tinv dm b n cb (snd (st_getAllEdges srt t)).
  Proof.
    intros Hs V. unfold st_getAllEdges. destruct (st_isSorted t); [exact V|].
    destruct V as [Vdm Vix Vg Vic Vrvc Vrvi Vlen Vne Vs Vnd Vc]. assert (N := sort_nil srt Hs).
    constructor; cbn; auto.
    - rewrite Vlen. split; [intros ->; reflexivity|]. destruct (st_weg t); easy.
    - intros k Hk. rewrite map_length in Hk. rewrite map_lev by auto. intros E.
      destruct (Hs (lev (st_weg t) k)) as [P _]. rewrite E in P. apply Permutation_nil in P. now apply Vne in Hk.
    - intros k s w. rewrite map_lev by auto. rewrite <- Vs. destruct (Hs (lev (st_weg t) k)) as [P _].
      split; apply Permutation_in; [exact P|now apply Permutation_sym].
    - intros k. rewrite map_lev by auto. destruct (Hs (lev (st_weg t) k)) as [P _].
      eapply Permutation_NoDup; [apply Permutation_map, Permutation_sym, P|auto].
    - now rewrite sort_total.
  Qed.

  Lemma tinv_new dm nc0 : tinv dm 0 0 nc0 (st_new dm nc0).
  Proof.
    constructor; cbn; auto; try lia.
    - split; auto.
    - intros k s w. split; [destruct k; intros []|]. intros (_ & (Hs & _ & V & _) & _).
      destruct s as [|x s]; [easy|]. specialize (V x (or_introl eq_refl)). lia.
    - intros k. destruct k; constructor.
  Qed.

  Lemma past_snoc dm ops o : past dm (ops ++ [o]) = past_step (past dm ops) o.
  Proof. unfold past. now rewrite fold_left_app. Qed.

  Lemma legal_snoc dm ops o : legal dm (ops ++ [o]) -> legal dm ops /\ legal_step (past dm ops) o.
  Proof.
    intros L. split.
    - intros a x c E. apply (L a x (c ++ [o])). rewrite E, <- app_assoc. reflexivity.
    - now apply (L ops o []).
  Qed.

  Lemma run_inv dm nc0 srt ops : is_sort srt -> legal dm ops ->
    exists t cb, st_run eps md (Ok tt) srt (st_new dm nc0) ops = Ok t /\
      tinv (p_dm (past dm ops)) (p_before (past dm ops)) (p_live (past dm ops)) cb t /\
      (~ In TClear ops -> cb = nc0).
  Proof.
    intros Hs. unfold st_run. induction ops as [|o ops IH] using rev_ind; intros L.
    - exists (st_new dm nc0), nc0. split; [reflexivity|]. split; [apply tinv_new|auto].
    - apply legal_snoc in L as [L Lo]. destruct (IH L) as (t & cb & E & V & C). rewrite foldr_ub_app, E. cbn [bind foldr_ub].
      rewrite past_snoc. set (P := past dm ops) in *.
      assert (C' : ~ In TClear (ops ++ [o]) -> cb = nc0).
      { intros H. apply C. intros H'. apply H. apply in_app_iff. auto. }
      destruct o; cbn [st_step past_step legal_step] in *.
      + destruct (p_dm P) as [|r0 rr] eqn:Edm.
        * exists t, cb. unfold st_insert. rewrite (v_dm _ _ _ _ _ V). split; [reflexivity|]. rewrite Edm. split; auto.
        * rewrite <- Edm in *. destruct (insert_step (p_dm P) _ _ cb t V) as (t' & E' & V' & _); auto. { now rewrite Edm. }
          exists t', cb. rewrite E'. cbn. auto.
      + destruct (clear_step _ _ _ _ _ V Lo) as (t' & E' & V'). rewrite E'. eexists t', _. cbn [bind p_dm p_before p_live].
        split; [reflexivity|]. split; [exact V'|]. intros H. exfalso. apply H. apply in_app_iff. right. now left.
      + exists (st_setDistanceMatrix dm0 t), cb. split; [reflexivity|]. cbn [p_dm p_before p_live]. split; auto.
        rewrite Lo in *. now apply matrix_step with (dm := p_dm P).
      + eexists _, cb. split; [reflexivity|]. split; auto. now apply sort_step.
  Qed.

  (* ---- from shifted to plain vertices ---- *)
  Lemma within_allow s : s <> [] -> (length s = 1 \/ allow md (length s - 1) = true) <-> within md s.
  Proof.
    intros Hs. unfold within, allow, may_recurse. rewrite orb_true_iff, Nat.eqb_eq, Z.leb_le.
    destruct s as [|x s]; [easy|]. cbn [length]. replace (S (length s) - 1) with (length s) by lia. lia.
  Qed.

  Lemma ssorted_shift b s : ssorted (map (Nat.add b) s) <-> ssorted s.
  Proof.
    induction s as [|x s IH]; cbn; [split; constructor|]. rewrite !ssorted_cons, IH.
    split; intros [H1 H2]; split; auto; intros y Hy.
    - specialize (H2 (b + y) (in_map (Nat.add b) _ _ Hy)). lia.
    - apply in_map_iff in Hy as (z & <- & Hz). specialize (H2 z Hz). lia.
  Qed.

  Lemma diameter_shift dm b s w : diameter (dsh dm b) (map (Nat.add b) s) w <-> diameter (dist_of dm) s w.
  Proof.
    assert (E : forall u v, dsh dm b (b + u) (b + v) = dist_of dm u v).
    { intros u v. unfold dsh. f_equal; lia. }
    unfold diameter. rewrite map_length. split; intros [H1 H2]; split.
    - intros u v Hu Hv Huv. rewrite <- E. apply H1; try now apply in_map. lia.
    - destruct H2 as [(u & v & Hu & Hv & Huv & Ew)|H2]; [left|now right].
      apply in_map_iff in Hu as (u0 & <- & Hu), Hv as (v0 & <- & Hv). exists u0, v0. rewrite <- E. repeat split; auto. lia.
    - intros u v Hu Hv Huv. apply in_map_iff in Hu as (u0 & <- & Hu), Hv as (v0 & <- & Hv). rewrite E. apply H1; auto. lia.
    - destruct H2 as [(u & v & Hu & Hv & Huv & Ew)|H2]; [left|now right].
      exists (b + u), (b + v). rewrite E. repeat split; try now apply in_map; auto. lia. auto.
  Qed.

  Lemma cpx_shift dm b n s : cpx (dsh dm b) b n (map (Nat.add b) s) <-> strict_rips dm eps n s /\ within md s.
  Proof.
    unfold cpx, strict_rips, flag_simplex, flagD. rewrite ssorted_shift, map_length.
    assert (E : forall u v, dsh dm b (b + u) (b + v) = dist_of dm u v).
    { intros u v. unfold dsh. f_equal; lia. }
    split.
    - intros (H1 & H2 & H3 & H4 & H5). assert (s <> []) by (intros ->; now apply H1). split.
      + split; auto. split; auto. split.
        * intros v Hv. specialize (H3 (b + v) (in_map (Nat.add b) _ _ Hv)). lia.
        * intros u v Hu Hv Huv. rewrite <- E. apply H4; try now apply in_map. lia.
      + now apply within_allow.
    - intros ((H1 & H2 & H3 & H4) & H5). split; [destruct s; easy|]. split; auto. split; [|split].
      + intros v Hv. apply in_map_iff in Hv as (z & <- & Hz). specialize (H3 z Hz). lia.
      + intros u v Hu Hv Huv. apply in_map_iff in Hu as (u0 & <- & Hu), Hv as (v0 & <- & Hv). rewrite E. apply H4; auto. lia.
      + now apply within_allow.
  Qed.

  Lemma cpx_map D b n s : cpx D b n s -> exists s0, s = map (Nat.add b) s0.
  Proof.
    intros (_ & _ & V & _). exists (map (fun v => v - b) s). rewrite map_map.
    transitivity (map (fun x => x) s); [now rewrite map_id|]. apply map_ext_in. intros v Hv. specialize (V v Hv). lia.
  Qed.

  Lemma spec_shift dm b n cb t k s w : tinv dm b n cb t ->
    In (s, w) (lev (st_weg t) k) <->
    exists s0, s = map (Nat.add b) s0 /\ length s0 = S k /\ strict_rips dm eps n s0 /\ within md s0 /\ diameter (dist_of dm) s0 w.
  Proof.
    intros V. rewrite (v_spec _ _ _ _ _ V). split.
    - intros (L & C & Dw). destruct (cpx_map _ _ _ _ C) as (s0 & ->). exists s0. rewrite map_length in L.
      apply cpx_shift in C as [C1 C2]. apply diameter_shift in Dw. auto.
    - intros (s0 & -> & L & C1 & C2 & Dw). rewrite map_length. split; auto. split; [now apply cpx_shift|now apply diameter_shift].
  Qed.
End Obj.

(* ---- the property lemmas ---- *)
Lemma past_inserts dm n : dm <> [] -> past dm (repeat TInsert n) = mkPast dm 0 n.
Proof.
  intros H. induction n as [|n IH]; auto. replace (S n) with (n + 1) by lia. rewrite repeat_app. cbn [repeat].
  rewrite past_snoc, IH. cbn. destruct dm; [easy|]. f_equal. lia.
Qed.
Lemma repeat_split {A} (x : A) n a o b : repeat x n = a ++ o :: b -> o = x /\ a = repeat x (length a) /\ length a < n.
Proof.
  intros E. assert (H : forall y, In y (repeat x n) -> y = x) by (intros y; apply repeat_spec).
  split. { apply H. rewrite E. apply in_app_iff. right. now left. }
  split.
  - assert (Ha : forall y, In y a -> y = x) by (intros y Hy; apply H; rewrite E; apply in_app_iff; auto).
    clear - Ha. induction a as [|y a IH]; cbn; auto. f_equal; [apply Ha; now left|apply IH; intros z Hz; apply Ha; now right].
  - apply (f_equal (@length _)) in E. rewrite repeat_length, app_length in E. cbn in E. lia.
Qed.
Lemma legal_inserts dm n : upper_triangle dm n -> dm <> [] -> legal dm (repeat TInsert n).
Proof.
  intros U Hd a o b E. apply repeat_split in E as (-> & Ea & L). rewrite Ea, past_inserts by auto. cbn.
  intros j i Hj Hi. apply U; lia.
Qed.

Lemma tree_rips eps md dm nc0 n srt :
  is_sort srt -> dm <> [] -> upper_triangle dm n ->
  exists t, st_run eps md (Ok tt) srt (st_new dm nc0) (repeat TInsert n) = Ok t /\
    (forall k, NoDup (map fst (level (st_weg t) k))) /\
    (forall k s w, In (s, w) (level (st_weg t) k) <->
       length s = S k /\ strict_rips dm eps n s /\ within md s /\ diameter (dist_of dm) s w).
Proof.
  intros Hs Hd U. destruct (run_inv eps md dm nc0 srt (repeat TInsert n) Hs) as (t & cb & E & V & _).
  { now apply legal_inserts. }
  rewrite past_inserts in V by auto. cbn in V. exists t. split; auto. split; [apply V|].
  intros k s w. unfold level. rewrite (spec_shift _ _ _ _ _ _ _ _ _ _ V). split.
  - intros (s0 & -> & H). replace (map (Nat.add 0) s0) with s0; auto. transitivity (map (fun x => x) s0); [now rewrite map_id|reflexivity].
  - intros H. exists s. split; auto. transitivity (map (fun x => x) s); [now rewrite map_id|reflexivity].
Qed.

Lemma tree_history_rips eps md dm nc0 srt ops :
  is_sort srt -> legal dm ops ->
  exists t, st_run eps md (Ok tt) srt (st_new dm nc0) ops = Ok t /\
    let p := past dm ops in
    (forall k, NoDup (map fst (level (st_weg t) k))) /\
    (forall k s w, In (s, w) (level (st_weg t) k) <->
       exists s0, s = map (Nat.add (p_before p)) s0 /\ length s0 = S k /\
         strict_rips (p_dm p) eps (p_live p) s0 /\ within md s0 /\ diameter (dist_of (p_dm p)) s0 w).
Proof.
  intros Hs L. destruct (run_inv eps md dm nc0 srt ops Hs L) as (t & cb & E & V & _).
  exists t. split; auto. split; [apply V|]. intros k s w. apply (spec_shift _ _ _ _ _ _ _ _ _ _ V).
Qed.

Lemma total_levels weg : NoDup (concat (map (map fst) weg)) ->
  exists l, Z.of_nat (length l) = total weg /\ NoDup l /\ forall s, In s l <-> exists k (w : Z), In (s, w) (level weg k).
Proof.
  intros N. exists (concat (map (map fst) weg)). split; [|split; auto].
  - unfold total. f_equal. clear. induction weg as [|l weg IH]; cbn; auto. now rewrite !app_length, map_length, IH.
  - intros s. rewrite in_concat. split.
    + intros (l & Hl & Hin). apply in_map_iff in Hl as (l0 & <- & Hl). apply in_map_iff in Hin as ((s' & w) & <- & Hin).
      apply In_nth with (d := []) in Hl as (k & _ & <-). exists k, w. exact Hin.
    + intros (k & w & Hin). exists (map fst (level weg k)). split.
      * apply in_map. unfold level in *. destruct (Nat.lt_ge_cases k (length weg)) as [H|H]; [now apply nth_In|].
        rewrite nth_overflow in Hin by auto. easy.
      * apply in_map_iff. now exists (s, w).
Qed.

Lemma NoDup_levels weg : (forall k, NoDup (map fst (lev weg k))) -> (forall k s w, In (s, w) (lev weg k) -> length s = S k) ->
  NoDup (concat (map (map (@fst (list nat) Z)) weg)).
Proof.
  intros N L.
  assert (H : forall o, (forall k s w, In (s, w) (lev weg k) -> length s = o + k) -> NoDup (concat (map (map fst) weg))).
  2:{ now apply (H 1). }
  clear L. induction weg as [|l weg IH]; intros o L; cbn; [constructor|]. apply NoDup_app_intro.
  - exact (N 0).
  - apply (IH (fun k => N (S k)) (S o)). intros k s w Hin. rewrite (L (S k) s w Hin). lia.
  - intros s H1 H2. apply in_map_iff in H1 as ((s' & w) & <- & H1). apply (L 0) in H1.
    apply in_concat in H2 as (l' & Hl & H2). apply in_map_iff in Hl as (l0 & <- & Hl). apply in_map_iff in H2 as ((s2 & w2) & E & H2).
    apply In_nth with (d := []) in Hl as (k & _ & <-). apply (L (S k)) in H2. cbn in *. subst. lia.
Qed.

Lemma tree_counts eps md dm nc0 srt ops t :
  is_sort srt -> legal dm ops -> st_run eps md (Ok tt) srt (st_new dm nc0) ops = Ok t ->
  st_vertexCount t = p_live (past dm ops) /\
  (~ In TClear ops -> exists simplices, st_simplexCount t = (nc0 + Z.of_nat (length simplices))%Z /\ NoDup simplices /\
     forall s, In s simplices <-> exists k w, In (s, w) (level (st_weg t) k)).
Proof.
  intros Hs L E0. destruct (run_inv eps md dm nc0 srt ops Hs L) as (t' & cb & E & V & C).
  rewrite E in E0. injection E0 as ->. split.
  - unfold st_vertexCount. rewrite (v_rvi _ _ _ _ _ _ _ V), (v_rvc _ _ _ _ _ _ _ V).
    destruct (Nat.ltb_spec (p_live (past dm ops)) (p_before (past dm ops) + p_live (past dm ops) + 1)); lia.
  - intros H. specialize (C H). subst cb.
    destruct (total_levels (st_weg t)) as (l & E1 & N & Hl).
    { apply NoDup_levels; [apply V|]. intros k s w Hin. apply (v_spec _ _ _ _ _ _ _ V) in Hin. tauto. }
    exists l. split; [|auto]. unfold st_simplexCount. rewrite (v_cnt _ _ _ _ _ _ _ V). lia.
Qed.

(* ---- agreement with the array list ---- *)
Lemma live_inserts n d : live (repeat (OpInsert false) n ++ [OpExpand d]) = n.
Proof.
  unfold live. assert (H : forall m, live_from m (repeat (OpInsert false) n ++ [OpExpand d]) = m + n).
  { induction n as [|n IH]; intros m; cbn; [lia|]. rewrite IH. lia. }
  rewrite H. lia.
Qed.
Lemma expanded_inserts n d : expanded (repeat (OpInsert false) n ++ [OpExpand d]) = Nat.max 1 (to_unsigned d).
Proof.
  unfold expanded. assert (H : expanded_from 1 (repeat (OpInsert false) n ++ [OpExpand d]) = Nat.max 1 (to_unsigned d)).
  { induction n as [|n IH]; [reflexivity|]. exact IH. }
  exact H.
Qed.
Lemma deepest_inserts n d : deepest (repeat (OpInsert false) n ++ [OpExpand d]) = Nat.max 1 (to_unsigned d).
Proof. unfold deepest. induction n as [|n IH]; [reflexivity|]. exact IH. Qed.
Lemma covers_inserts dm n d : upper_triangle dm n -> matrix_covers dm (repeat (OpInsert false) n ++ [OpExpand d]).
Proof.
  intros U p q E.
  assert (L : live p <= n).
  { unfold live. assert (H : forall n p q m, repeat (OpInsert false) n ++ [OpExpand d] = p ++ q -> live_from m p <= m + n).
    { clear. induction n as [|n IH]; intros p q m E.
      - destruct p as [|o [|o' p]]; cbn in *; [lia| |discriminate]. injection E as <- _. cbn. lia.
      - destruct p as [|o p]; [cbn; lia|]. cbn in E. injection E as <- E. cbn. specialize (IH p q (S m) E). lia. }
    specialize (H n p q 0 E). lia. }
  intros j i Hj Hi. apply U; lia.
Qed.

Lemma al_single_weight dm eps md ops wg k s w : matrix_covers dm ops -> al_run dm eps md ops = Ok wg ->
  In (s, w) (level wg k) -> length s = S k /\ diameter (dist_of dm) s w.
Proof. intros C E H. destruct (array_list_closed _ _ _ _ _ C E) as (_ & H2 & _). apply H2 in H. tauto. Qed.

Lemma complexes_agree eps md dm nc0 n srt wg t :
  is_sort srt -> dm <> [] -> upper_triangle dm n -> (0 < md < 2 ^ 31)%Z ->
  al_run dm eps md (repeat (OpInsert false) n ++ [OpExpand md]) = Ok wg ->
  st_run eps md (Ok tt) srt (st_new dm nc0) (repeat TInsert n) = Ok t ->
  ((forall j i, j < i -> i < n -> dist_of dm j i <> eps) ->
     forall k s w, In (s, w) (level wg k) <-> In (s, w) (level (st_weg t) k)) /\
  (forall j i, j < i -> i < n -> dist_of dm j i = eps ->
     In ([j; i], eps) (level wg 1) /\ forall k w, ~ In ([j; i], w) (level (st_weg t) k)).
Proof.
  intros Hs Hd U Hmd Ew Et.
  destruct (tree_rips eps md dm nc0 n srt Hs Hd U) as (t' & Et' & Nt & St). rewrite Et in Et'. injection Et' as <-.
  assert (C := covers_inserts dm n md U).
  destruct (array_list_rips dm eps md _ C) as (wg' & Ew' & L0 & S1 & S2 & _ & S4). rewrite Ew in Ew'. injection Ew' as <-.
  rewrite live_inserts, expanded_inserts, deepest_inserts in *.
  assert (Hu : to_unsigned md = Z.to_nat md) by (unfold to_unsigned; rewrite Z.mod_small; lia).
  rewrite Hu in *.
  assert (Hm64 : (md mod 2 ^ 64 = md)%Z) by (apply Z.mod_small; lia).
  split.
  - intros Hne k s w.
    assert (Hr : forall s, rips dm eps n s <-> strict_rips dm eps n s).
    { intros s0. unfold rips, strict_rips, flag_simplex. split; intros (A1 & A2 & A3 & A4); repeat split; auto; intros u v Hu' Hv Huv;
      specialize (A4 u v Hu' Hv Huv); [|lia]. assert (dist_of dm u v <> eps) by (apply Hne; auto). lia. }
    rewrite St. unfold within. rewrite Hm64. split.
    + intros Hin. destruct (al_single_weight _ _ _ _ _ _ _ _ C Ew Hin) as [L Dw]. split; auto.
      destruct (Nat.eq_dec k 0) as [->|Hk].
      * rewrite L0 in Hin. apply in_map_iff in Hin as (i & E & Hin). inversion E; subst. apply in_seq in Hin.
        split; [|cbn; split; [lia|auto]]. split; [easy|]. split; [repeat constructor|]. split; [intros v [<-|[]]; lia|].
        intros u v [<-|[]] [<-|[]]; lia.
      * destruct (S1 k s w ltac:(lia) Hin) as [_ R]. split; [now apply Hr|]. split; auto.
        destruct (Nat.le_gt_cases k (Nat.max 1 (Z.to_nat md))) as [Hle|Hgt]; [lia|]. rewrite (S4 k Hgt) in Hin. easy.
    + intros (L & R & W & Dw). destruct (Nat.eq_dec k 0) as [->|Hk].
      * destruct s as [|x [|y s]]; try discriminate. rewrite L0. apply in_map_iff. exists x.
        split; [f_equal; symmetry; eapply diam_single_inv; eauto|]. apply in_seq. destruct R as (_ & _ & R & _).
        specialize (R x (or_introl eq_refl)). lia.
      * destruct (S2 ltac:(lia) k s ltac:(lia) (proj2 (Hr s) R) L) as (w' & Hin).
        destruct (al_single_weight _ _ _ _ _ _ _ _ C Ew Hin) as [_ Dw'].
        now rewrite (diameter_unique _ _ _ _ Dw Dw') by lia.
  - intros j i Hj Hi E. split.
    + assert (R : rips dm eps n [j; i]).
      { split; [easy|]. split; [apply ssorted_cons; split; [repeat constructor|intros y [<-|[]]; auto]|].
        split; [intros v [<-|[<-|[]]]; lia|]. intros u v [<-|[<-|[]]] [<-|[<-|[]]] H; lia. }
      destruct (S2 ltac:(lia) 1 [j; i] ltac:(lia) R eq_refl) as (w' & Hin).
      destruct (al_single_weight _ _ _ _ _ _ _ _ C Ew Hin) as [_ [Dw' _]].
      destruct (al_single_weight _ _ _ _ _ _ _ _ C Ew Hin) as [_ Dw2].
      assert (Dd : diameter (dist_of dm) [j; i] eps).
      { split; [intros u v [<-|[<-|[]]] [<-|[<-|[]]] H; lia|]. left. exists j, i. cbn. auto. }
      now rewrite (diameter_unique _ _ _ _ Dd Dw2) by (cbn; lia).
    + intros k w Hin. apply St in Hin as (_ & (_ & _ & _ & R) & _).
      assert (dist_of dm j i < eps)%Z by (apply R; cbn; auto). lia.
Qed.

(* ---- getAllEdges / getDimEdges ---- *)
Lemma sorted_flag eps md dm nc0 srt ops t :
  st_run eps md (Ok tt) srt (st_new dm nc0) ops = Ok t -> (st_isSorted t = true <-> In TGetAll ops).
Proof.
  unfold st_run. revert t. induction ops as [|o ops IH] using rev_ind; intros t E.
  - inversion E; subst. cbn. split; easy.
  - rewrite foldr_ub_app in E. destruct (foldr_ub _ _ ops) as [t0|]; [|discriminate]. cbn [bind foldr_ub] in E.
    specialize (IH t0 eq_refl). destruct (st_step eps md (Ok tt) srt t0 o) as [t1|] eqn:E1; [|discriminate].
    cbn in E. inversion E; subst. rewrite in_app_iff, <- IH. cbn [In]. destruct o; cbn [st_step] in E1.
    + assert (st_isSorted t = st_isSorted t0); [|split; intros; [left; congruence|]; intuition; try congruence; easy].
      unfold st_insert in E1. destruct (st_dm t0); [congruence|]. destruct (st_roots t0); [inversion E1; reflexivity|].
      destruct (insert_roots _ _ _ _ _ _) as [r|]; [|discriminate]. cbn [bind] in E1.
      destruct (upd _ _ _); [|discriminate]. inversion E1; reflexivity.
    + assert (st_isSorted t = st_isSorted t0); [|split; intros; [left; congruence|]; intuition; try congruence; easy].
      unfold st_clear in E1. destruct (st_deletion _ _ _); [|discriminate]. inversion E1; reflexivity.
    + inversion E1; subst. cbn. split; [auto|]. intros [H|[H|[]]]; [auto|discriminate].
    + inversion E1; subst. unfold st_getAllEdges. destruct (st_isSorted t0) eqn:Es; cbn; split; auto.
Qed.

Lemma first_getAllEdges eps md dm nc0 srt ops t :
  is_sort srt -> legal dm ops -> ~ In TGetAll ops ->
  st_run eps md (Ok tt) srt (st_new dm nc0) ops = Ok t ->
  (forall k, Permutation (level (fst (st_getAllEdges srt t)) k) (level (st_weg t) k) /\
             StronglySorted by_weight (level (fst (st_getAllEdges srt t)) k)) /\
  fst (st_getAllEdges srt (snd (st_getAllEdges srt t))) = fst (st_getAllEdges srt t).
Proof.
  intros Hs L Hn E. assert (F := sorted_flag _ _ _ _ _ _ _ E).
  unfold st_getAllEdges. destruct (st_isSorted t); [exfalso; tauto|]. split; [|reflexivity].
  intros k. unfold level. cbn. rewrite map_lev by now apply sort_nil. apply Hs.
Qed.

Lemma later_getAllEdges eps md dm nc0 srt ops t :
  In TGetAll ops -> st_run eps md (Ok tt) srt (st_new dm nc0) ops = Ok t -> fst (st_getAllEdges srt t) = st_weg t.
Proof.
  intros Hn E. apply (sorted_flag _ _ _ _ _ _ _ E) in Hn. unfold st_getAllEdges. now rewrite Hn.
Qed.

Lemma getDimEdges_tree t (d : Z) :
  (Z.of_nat (length (st_weg t)) < 2 ^ 63)%Z -> (- 2 ^ 31 <= d < 2 ^ 31)%Z ->
  ((0 <= d < Z.of_nat (length (st_weg t)))%Z -> st_getDimEdges t d = Ok (map fst (level (st_weg t) (Z.to_nat d)))) /\
  (d = Z.of_nat (length (st_weg t)) -> st_getDimEdges t d = UB) /\
  ((d < 0 \/ Z.of_nat (length (st_weg t)) < d)%Z -> st_getDimEdges t d = Ok []).
Proof.
  intros H Hd. unfold st_getDimEdges, level. split; [|split].
  - intros H1. rewrite Z.mod_small by lia. destruct (Z.leb_spec d (Z.of_nat (length (st_weg t)))); [|lia].
    rewrite at_lev by lia. reflexivity.
  - intros ->. rewrite Z.mod_small by lia. rewrite Z.leb_refl, Nat2Z.id. rewrite (proj2 (at_UB _ _)); [reflexivity|lia].
  - intros [H1|H1].
    + replace (d mod 2 ^ 64)%Z with (d + 2 ^ 64)%Z.
      2:{ apply Z.mod_unique with (q := (-1)%Z); lia. }
      destruct (Z.leb_spec (d + 2 ^ 64) (Z.of_nat (length (st_weg t)))); [lia|reflexivity].
    + rewrite Z.mod_small by lia. destruct (Z.leb_spec d (Z.of_nat (length (st_weg t)))); [lia|reflexivity].
Qed.

Lemma clear_undefined t :
  st_clear UB t = UB /\ (st_roots t = [] -> forall uaf, st_clear uaf t = UB).
Proof.
  unfold st_clear. split.
  - destruct (st_roots t) as [|r rs]; [reflexivity|]. revert r. induction rs as [|r' rs IH]; intros r; [reflexivity|].
    cbn [st_deletion]. specialize (IH r'). cbn [st_deletion] in IH.
    destruct (st_deletion UB (r' :: rs) (st_count t)) as [c|] eqn:E; cbn [st_deletion] in E; rewrite E in *; [|reflexivity].
    exfalso. clear IH. cbn in E. destruct rs; [discriminate|]. destruct (st_deletion UB (t0 :: rs) (st_count t)); discriminate.
  - intros -> uaf. reflexivity.
Qed.

Lemma clear_count eps md dm nc0 srt ops t t' :
  is_sort srt -> legal dm ops -> ~ In TClear ops -> st_run eps md (Ok tt) srt (st_new dm nc0) ops = Ok t ->
  st_clear (Ok tt) t = Ok t' -> st_weg t' = [] /\ st_simplexCount t' = (st_simplexCount t - Z.of_nat (st_vertexCount t))%Z.
Proof.
  intros Hs L _ E E'. destruct (run_inv eps md dm nc0 srt ops Hs L) as (t0 & cb & E0 & V & _).
  rewrite E in E0. injection E0 as <-.
  assert (Hv := proj1 (tree_counts eps md dm nc0 srt ops t Hs L E)). rewrite Hv.
  assert (Hn : p_live (past dm ops) <> 0).
  { intros H. rewrite H in V. unfold st_clear in E'. destruct (st_roots t) eqn:Er; [discriminate|].
    assert (X := v_ix _ _ _ _ _ _ _ V). rewrite Er in X. discriminate. }
  destruct (clear_step eps md _ _ _ _ _ V Hn) as (t2 & E2 & V2). rewrite E' in E2. injection E2 as <-.
  split; [now apply (v_len _ _ _ _ _ _ _ V2)|].
  unfold st_simplexCount. rewrite (v_cnt _ _ _ _ _ _ _ V2), (v_cnt _ _ _ _ _ _ _ V).
  assert (W : st_weg t' = []) by now apply (v_len _ _ _ _ _ _ _ V2). rewrite W. unfold total at 2. cbn. lia.
Qed.

Lemma reduce_nothing body t : st_reduceComplex body t = t.
Proof.
  unfold st_reduceComplex. destruct (st_weg t); auto. unfold st_dimensions. destruct (st_roots t); reflexivity.
Qed.

(* three points, distances d01 = 5, d02 = 3, d12 = 1, getAllEdges between the first and second insert *)
Definition un_dm : list (list Z) := [[0;5;3];[0;0;1];[0;0;0]]%Z.
Definition un_ops : list st_op := [TInsert; TGetAll; TInsert; TInsert].
Lemma later_unsorted :
  exists (dm : list (list Z)) (ops : list st_op) (t : stree),
  legal dm ops /\ (forall srt, is_sort srt ->
    st_run 9 1 (Ok tt) srt (st_new dm 0) ops = Ok t /\
    ~ StronglySorted by_weight (level (fst (st_getAllEdges srt t)) 1)).
Proof.
  eexists un_dm, un_ops, _. split.
  - assert (U : forall n, n <= 3 -> upper_triangle un_dm n).
    { intros n Hn j i Hj Hi. assert (Hc : (j = 0 \/ j = 1) /\ (i = 1 \/ i = 2)) by lia.
      destruct Hc as [[->| ->] [->| ->]]; try lia; cbn; lia. }
    intros a o b E. unfold un_ops in E.
    destruct a as [|? a]; [injection E as <- E; cbn; apply U; lia|injection E as <- E].
    destruct a as [|? a]; [injection E as <- E; exact I|injection E as <- E].
    do 2 (destruct a as [|? a]; [injection E as <- E; cbn; apply U; lia|injection E as <- E]).
    destruct a; discriminate.
  - intros srt Hs.
    assert (H1 : forall x, srt [x] = [x]).
    { intros x. destruct (Hs [x]) as [P _]. apply Permutation_sym in P. now apply Permutation_length_1_inv in P. }
    split.
    + unfold st_run, un_ops. cbn. rewrite H1. reflexivity.
    + cbn. intros Ss. inversion Ss as [|? ? Ss' F]; subst. inversion F; subst. unfold by_weight in *. cbn in *. lia.
Qed.
