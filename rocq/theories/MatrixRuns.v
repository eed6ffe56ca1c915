(* MatrixRuns.v -- proofs about complexes whose distance matrix is exchanged between calls. *)
From Coq Require Import List Arith ZArith Bool Lia Sorted Permutation.
From Verif Require Import Base Spec UtilsModel UtilsProofs PartitionProofs ArrayListModel ArrayListProofs
  ArrayListInv SpecComplex ArrayListHist TreeModel TreeProofs SpecTree TreeHist MatrixModel SpecMatrix.
Import ListNotations.

Local Notation lev wg k := (nth k wg (@nil wsimp)).

(* ------------------------------------------------------------------ *)
(* matrices *)

Lemma dm_at_ok dm j n : n < length (nth j dm []) -> dm_at dm j n = Ok (dist_of dm j n).
Proof.
  intros Hl. unfold dm_at, dist_of.
  assert (Hjl : j < length dm).
  { destruct (Nat.lt_ge_cases j (length dm)); auto. rewrite (nth_overflow dm) in Hl by auto. cbn in Hl. lia. }
  unfold at_. rewrite (nth_error_nth' dm []) by auto. cbn. now rewrite (nth_error_nth' _ 0%Z).
Qed.

Lemma dm_at_UB dm j n : length (nth j dm []) <= n -> dm_at dm j n = UB.
Proof.
  intros Hl. unfold dm_at, at_. destruct (nth_error dm j) as [r|] eqn:E; [|reflexivity]. cbn.
  apply nth_error_nth with (d := []) in E. rewrite E in Hl.
  destruct (nth_error r n) eqn:E2; [|reflexivity]. assert (n < length r) by (apply nth_error_Some; congruence). lia.
Qed.

Lemma has_column_dec dm n : has_column dm n \/ exists j, j < n /\ length (nth j dm []) <= n.
Proof.
  assert (H : forall m, m <= n -> (forall j, j < m -> n < length (nth j dm [])) \/ exists j, j < m /\ length (nth j dm []) <= n).
  { induction m as [|m IH]; intros Hm; [left; intros; lia|].
    destruct IH as [IH|(j & Hj & Hl)]; [lia| |right; exists j; split; auto; lia].
    destruct (Nat.lt_ge_cases n (length (nth m dm []))) as [H|H].
    - left. intros j Hj. destruct (Nat.eq_dec j m) as [->|]; auto. apply IH. lia.
    - right. exists m. split; auto. }
  apply H. auto.
Qed.

Lemma not_column dm n : ~ has_column dm n -> exists j, j < n /\ length (nth j dm []) <= n.
Proof. intros H. destruct (has_column_dec dm n); [easy|auto]. Qed.

Lemma good_has dm n : good_column dm n -> has_column dm n.
Proof. intros H j Hj. now apply H. Qed.

Lemma foldr_ub_UB {A S} (body : S -> A -> res S) l x : In x l -> (forall s, body s x = UB) ->
  forall s, foldr_ub body s l = UB.
Proof.
  intros Hin Hx. induction l as [|y l IH]; [easy|]. intros s. cbn. destruct Hin as [->|Hin].
  - now rewrite Hx. - destruct (body s y); cbn; auto.
Qed.

(* ------------------------------------------------------------------ *)
(* array list: shapes of levels, weights left aside *)

Definition zeroed (L : list wsimp) : list wsimp := map (fun x => (fst x, 0%Z)) L.

Definition shapeL (d : nat) (L : list wsimp) : Prop := forall s w, In (s, w) L -> ssorted s /\ length s = d.

Lemma zeroed_In s w L : In (s, w) (zeroed L) <-> w = 0%Z /\ exists w', In (s, w') L.
Proof.
  unfold zeroed. rewrite in_map_iff. split.
  - intros ([s' w'] & E & H). cbn in E. injection E as <- <-. eauto.
  - intros (-> & w' & H). exists (s, w'). auto.
Qed.

Lemma zeroed_good d L : shapeL d L -> goodL d (zeroed L).
Proof.
  intros H. constructor.
  - intros s w Hs. apply zeroed_In in Hs as (_ & w' & Hs). now apply H in Hs.
  - intros s w Hs. apply zeroed_In in Hs as (_ & w' & Hs). now apply H in Hs.
  - intros s w Hs. apply zeroed_In in Hs as (-> & _). lia.
  - intros s w w' Hs Hs'. apply zeroed_In in Hs as (-> & _). now apply zeroed_In in Hs' as (-> & _).
Qed.

Lemma found_In L v : (0 <= find_in_level L v)%Z -> exists w, In (v, w) L.
Proof.
  unfold find_in_level. destruct (find _ L) as [[s w]|] eqn:E; [|lia]. intros _.
  apply find_some in E as [Hin Heq]. cbn in Heq. apply nlist_eqb_eq in Heq. subst v. eauto.
Qed.

Lemma found_zeroed d L v : shapeL d L -> (0 <= find_in_level L v)%Z -> find_in_level (zeroed L) v = 0%Z.
Proof.
  intros Sh H. apply found_In in H as (w & Hw).
  apply (find_in_level_spec d (zeroed L) v (zeroed_good d L Sh)). apply zeroed_In. eauto.
Qed.

Lemma check_facesL_zeroed d L simp zs : shapeL d L -> forall total mw t w,
  check_facesL L simp zs total mw = (true, t, w) -> check_facesL (zeroed L) simp zs total 0 = (true, t, 0%Z).
Proof.
  intros Sh. induction zs as [|z zs IH]; intros total mw t w; cbn.
  - intros H. injection H as -> _. reflexivity.
  - destruct (Z.ltb_spec (find_in_level L (simp ++ z)) 0) as [|Hge]; [easy|]. intros H.
    rewrite (found_zeroed d L _ Sh Hge). cbn. eapply IH; eauto.
Qed.

Lemma candL_shape d L sa wa sb wb s w :
  2 <= d -> shapeL d L -> In (sa, wa) L -> In (sb, wb) L ->
  candL L (sa, wa) (sb, wb) = Some (s, w) -> ssorted s /\ length s = S d.
Proof.
  intros Hd Sh Ha Hb E.
  assert (E' : candL (zeroed L) (sa, 0%Z) (sb, 0%Z) = Some (s, 0%Z)).
  { unfold candL in *. cbn [fst snd] in *.
    destruct (length (symmetricDiff sa sb true) =? 2); [|easy].
    destruct (length (setIntersect sa sb true) =? 1).
    - destruct (Z.ltb_spec (find_in_level L (nsort (symmetricDiff sa sb true))) 0) as [|Hge]; [easy|].
      rewrite (found_zeroed d L _ Sh Hge). cbn. injection E as <- _. reflexivity.
    - destruct (1 <? length (setIntersect sa sb true)); [|injection E as <- _; reflexivity].
      destruct (check_facesL L _ _ _ _) as [[[] t] w'] eqn:Ec; [|easy]. injection E as <- <-.
      apply (check_facesL_zeroed d) in Ec; auto. change (if (0 <? 0)%Z then 0%Z else 0%Z) with 0%Z. now rewrite Ec. }
  apply (candL_sound d) in E'; auto.
  - tauto. - now apply zeroed_good.
  - apply zeroed_In. eauto. - apply zeroed_In. eauto.
Qed.

Lemma expand_outer_shape d wg :
  2 <= d -> d <= length wg -> shapeL d (lev wg (d - 1)) ->
  let cs := cands (lev wg (d - 1)) (lev wg (d - 1)) in
  exists wg', expand_outer d wg (lev wg (d - 1)) = Ok wg' /\ length wg <= length wg' /\
    lev wg' d = fold_left add_new cs (lev wg d) /\ forall k, k <> d -> lev wg' k = lev wg k.
Proof.
  intros Hd Hl G. cbv zeta. set (L := lev wg (d - 1)) in *.
  assert (Inner : forall a rest wg0, In a L -> incl rest L -> d <= length wg0 -> lev wg0 (d - 1) = L ->
            expand_inner d wg0 a rest = foldr_ub (fun wg c => store wg d c) wg0 (cands_inner L a rest)).
  { intros a rest. induction rest as [|b rest IH]; intros wg0 Ha Hr Hl0 H0; cbn; auto.
    assert (Hb : In b L) by (apply Hr; now left).
    assert (C : candidate wg0 a b = Ok (candL L a b)).
    { destruct a as [sa wa], b as [sb wb]. apply (candidate_L wg0 L d); auto; cbn.
      - rewrite <- H0. apply lev_nth_error. lia.
      - now apply G in Ha. - now apply G in Hb. - now apply G in Ha. - now apply G in Hb. }
    rewrite C. cbn. rewrite foldr_ub_app. destruct (candL L a b) as [c|]; cbn.
    - destruct (store_spec wg0 d c Hl0) as (wg1 & E1 & L1 & A1 & B1). rewrite E1. cbn.
      apply IH; auto. + intros x Hx; apply Hr; now right. + lia. + rewrite B1; auto. lia.
    - apply IH; auto. intros x Hx; apply Hr; now right. }
  assert (Outer : forall l wg0, incl l L -> d <= length wg0 -> lev wg0 (d - 1) = L ->
            expand_outer d wg0 l = foldr_ub (fun wg c => store wg d c) wg0 (cands L l)).
  { induction l as [|a l IH]; intros wg0 Hr Hl0 H0; cbn; auto.
    rewrite Inner; auto. 2: { apply Hr; now left. } 2: { intros x Hx; apply Hr; now right. }
    rewrite foldr_ub_app.
    destruct (store_all_spec d (cands_inner L a l) wg0 Hl0) as (wg1 & E1 & L1 & A1 & B1). rewrite E1. cbn.
    apply IH. + intros x Hx; apply Hr; now right. + destruct (cands_inner L a l); lia. + rewrite B1; auto. lia. }
  rewrite Outer by (auto; apply incl_refl).
  destruct (store_all_spec d (cands L L) wg Hl) as (wg' & E & Le & A & B). exists wg'.
  split; auto. split; [destruct (cands L L); lia|]. auto.
Qed.

Record aw (n : nat) (wg : wgraph) : Prop := {
  aw_vert : length (lev wg 0) = n;
  aw_empty : n = 0 -> wg = [];
  aw_shape : forall k, 1 <= k -> shapeL (S k) (lev wg k)
}.

Lemma aw_nil : aw 0 [].
Proof. constructor; auto. intros k _ s w H. destruct k; destruct H. Qed.

Lemma expand_loop_aw fuel n : forall d wg, 2 <= d -> aw n wg -> exists wg', expand_loop fuel d wg = Ok wg' /\ aw n wg'.
Proof.
  induction fuel as [|fuel IH]; intros d wg Hd I; cbn; [eauto|].
  destruct (Nat.ltb_spec (length wg) d) as [Hlt|Hge]; [eauto|].
  rewrite at_lev by lia. cbn [bind].
  assert (Sh : shapeL d (lev wg (d - 1))).
  { assert (H := aw_shape _ _ I (d - 1) ltac:(lia)). now replace (S (d - 1)) with d in H by lia. }
  destruct (expand_outer_shape d wg Hd Hge Sh) as (wg1 & E & Le & A & B). rewrite E. cbn [bind].
  apply IH; [lia|]. constructor.
  - rewrite B by lia. apply (aw_vert _ _ I).
  - intros ->. rewrite (aw_empty _ _ I eq_refl) in Hge. cbn in Hge. lia.
  - intros k Hk. destruct (Nat.eq_dec k d) as [->|Hn]; [|rewrite B by auto; now apply (aw_shape _ _ I)].
    intros s w H. rewrite A in H. apply add_all_In in H as [H|H]; [now apply (aw_shape _ _ I d) in H|].
    apply cands_In in H as ([sa wa] & [sb wb] & Ha & Hb & Ec). now apply (candL_shape d) in Ec.
Qed.

Lemma insert_aw dm eps md n wg : aw n wg -> has_column dm n \/ (md <= 0)%Z ->
  exists wg', al_insert dm eps md false wg = Ok wg' /\ aw (S n) wg'.
Proof.
  intros I Hc. unfold al_insert. destruct wg as [|l0 wgr] eqn:Ewg.
  - assert (n = 0) by (symmetry; apply (aw_vert _ _ I)). subst n. eexists. split; [reflexivity|].
    constructor; auto; [lia|]. intros k Hk s w H. destruct k as [|[|k]]; [lia|easy|easy].
  - rewrite <- Ewg in *. assert (Hn : length l0 = n) by (rewrite <- (aw_vert _ _ I), Ewg; reflexivity). rewrite Hn.
    assert (Hlen : 1 <= length wg) by (rewrite Ewg; cbn; lia).
    assert (Fin : forall wg1, 1 <= length wg1 -> length (lev wg1 0) = n -> (forall k, 1 <= k -> shapeL (S k) (lev wg1 k)) ->
      exists wg', upd wg1 0 (fun l => l ++ [([n], 0%Z)]) = Ok wg' /\ aw (S n) wg').
    { intros wg1 H1 H2 H3. destruct (upd_lev wg1 0 (fun l => l ++ [([n], 0%Z)])) as (wg2 & E2 & L2 & A2 & B2); [lia|].
      exists wg2. split; auto. constructor.
      - rewrite A2, app_length, H2. cbn. lia. - lia. - intros k Hk. rewrite B2 by lia. auto. }
    destruct (Z.ltb_spec 0 md) as [Hm|Hm].
    2: { cbn [bind]. apply Fin; auto; [apply (aw_vert _ _ I)|apply (aw_shape _ _ I)]. }
    destruct Hc as [Hc|Hc]; [|lia].
    assert (H : forall j, j <= n -> exists wg', foldr_ub (fun wg j => do dist <- dm_at dm j n;
                if (dist <=? eps)%Z then insert_edge wg ([j; n], dist) else Ok wg) wg (seq 0 j) = Ok wg' /\
      1 <= length wg' /\ length (lev wg' 0) = n /\ (forall k, 1 <= k -> shapeL (S k) (lev wg' k))).
    { induction j as [|j IH]; intros Hj.
      - cbn. exists wg. split; auto. split; auto. split; [apply (aw_vert _ _ I)|apply (aw_shape _ _ I)].
      - destruct IH as (wg1 & E1 & A1 & B1 & C1); [lia|].
        rewrite seq_S, foldr_ub_app, E1. cbn [foldr_ub bind Nat.add]. rewrite dm_at_ok by (apply Hc; lia). cbn [bind].
        destruct (dist_of dm j n <=? eps)%Z; [|exists wg1; auto].
        rewrite insert_edge_store. destruct (store_spec wg1 1 ([j; n], dist_of dm j n) A1) as (wg2 & E2 & L2 & A2 & B2).
        rewrite E2. cbn [bind]. exists wg2. split; auto. split; [lia|]. split; [rewrite B2; auto|].
        intros k Hk. destruct (Nat.eq_dec k 1) as [->|Hn1]; [|rewrite B2; auto].
        intros s w Hs. rewrite A2 in Hs. apply add_new_In in Hs as [Hs|Hs]; [now apply (C1 1) in Hs|].
        injection Hs as -> _. split; auto. repeat constructor. lia. }
    unfold insert_edges. destruct (H n (le_n n)) as (wg1 & E1 & A1 & B1 & C1).
    match goal with |- context [foldr_ub ?f ?w ?l] => change (foldr_ub f w l) with (foldr_ub f w l) in * end.
    rewrite E1. cbn [bind]. apply Fin; auto.
Qed.

Lemma insert_UB dm eps md n wg : aw n wg -> (0 < md)%Z -> ~ has_column dm n -> al_insert dm eps md false wg = UB.
Proof.
  intros I Hm Hc. apply not_column in Hc as (j & Hj & Hl). unfold al_insert. destruct wg as [|l0 wgr] eqn:Ewg.
  - assert (n = 0) by (symmetry; apply (aw_vert _ _ I)). lia.
  - assert (Hn : length l0 = n) by apply (aw_vert _ _ I). rewrite Hn. destruct (Z.ltb_spec 0 md); [|lia].
    unfold insert_edges. rewrite (foldr_ub_UB _ _ j); [reflexivity|apply in_seq; lia|]. intros s. now rewrite dm_at_UB.
Qed.

(* ------------------------------------------------------------------ *)
(* array list: histories *)

Lemma a_note_snoc dm ops o : fold_left a_note (ops ++ [o]) (dm, []) = a_note (fold_left a_note ops (dm, [])) o.
Proof. now rewrite fold_left_app. Qed.

Lemma a_split dm ops : fold_left a_note ops (dm, []) = (a_matrix dm ops, a_seen dm ops).
Proof. unfold a_matrix, a_seen. now destruct (fold_left a_note ops (dm, [])). Qed.

Lemma calls_app a b : calls (a ++ b) = calls a ++ calls b.
Proof. induction a as [|[o|d] a IH]; cbn; auto. now rewrite IH. Qed.

Lemma live_length dm ops : live (calls ops) = length (a_seen dm ops).
Proof.
  induction ops as [|o ops IH] using rev_ind; auto. unfold a_seen. rewrite a_note_snoc, calls_app, a_split.
  destruct o as [[[]|d|]|d]; cbn [a_note fst snd calls]; rewrite ?live_snoc, ?app_nil_r; auto.
  rewrite IH, app_length. cbn. lia.
Qed.

Definition a_usable (md : Z) (dm : list (list Z)) (ops : list am_op) : Prop :=
  (0 < md)%Z -> forall a b, ops = a ++ ACall (OpInsert false) :: b -> has_column (a_matrix dm a) (length (a_seen dm a)).

Lemma a_usable_snoc md dm ops o : a_usable md dm (ops ++ [o]) ->
  a_usable md dm ops /\ (o = ACall (OpInsert false) -> has_column (a_matrix dm ops) (length (a_seen dm ops)) \/ (md <= 0)%Z).
Proof.
  intros H. split.
  - intros Hm a b E. apply (H Hm a (b ++ [o])). subst ops. now rewrite <- app_assoc.
  - intros ->. destruct (Z.lt_ge_cases 0 md) as [Hm|Hm]; [|now right]. left. now apply (H Hm ops []).
Qed.

Definition a_bad (md : Z) (dm : list (list Z)) (ops : list am_op) : Prop :=
  (0 < md)%Z /\ exists a b, ops = a ++ ACall (OpInsert false) :: b /\ ~ has_column (a_matrix dm a) (length (a_seen dm a)).

Lemma a_usable_not_bad md dm ops : a_usable md dm ops -> ~ a_bad md dm ops.
Proof. intros U (Hm & a & b & E & H). apply H. exact (U Hm a b E). Qed.

Lemma a_usable_add md dm ops o : a_usable md dm ops ->
  (o = ACall (OpInsert false) -> has_column (a_matrix dm ops) (length (a_seen dm ops)) \/ (md <= 0)%Z) ->
  a_usable md dm (ops ++ [o]).
Proof.
  intros U Ho Hm x y E. destruct y as [|z y _] using rev_ind.
  - apply app_inj_tail in E as [<- ->]. destruct (Ho eq_refl); auto. lia.
  - rewrite app_comm_cons, app_assoc in E. apply app_inj_tail in E as [E _]. apply (U Hm _ _ E).
Qed.

Lemma am_run_cases eps md dm ops :
  (a_usable md dm ops /\ exists wg, am_run eps md dm ops = Ok (a_matrix dm ops, wg) /\ aw (length (a_seen dm ops)) wg) \/
  (a_bad md dm ops /\ am_run eps md dm ops = UB).
Proof.
  unfold am_run. induction ops as [|o ops IH] using rev_ind.
  - left. split; [intros _ a b E; destruct a; discriminate|]. exists []. split; [reflexivity|apply aw_nil].
  - rewrite foldr_ub_app. destruct IH as [(U & wg & E & I)|((Hm & a & b & -> & Hn) & E)]; rewrite E.
    2: { right. split; [|reflexivity]. split; auto. exists a, (b ++ [o]). now rewrite <- app_assoc. }
    cbn [bind foldr_ub].
    assert (EM : a_matrix dm (ops ++ [o]) = fst (a_note (a_matrix dm ops, a_seen dm ops) o)).
    { unfold a_matrix at 1. now rewrite a_note_snoc, a_split. }
    assert (ES : a_seen dm (ops ++ [o]) = snd (a_note (a_matrix dm ops, a_seen dm ops) o)).
    { unfold a_seen at 1. now rewrite a_note_snoc, a_split. }
    assert (Hcase : (o = ACall (OpInsert false) /\ (0 < md)%Z /\ ~ has_column (a_matrix dm ops) (length (a_seen dm ops))) \/
      (o = ACall (OpInsert false) -> has_column (a_matrix dm ops) (length (a_seen dm ops)) \/ (md <= 0)%Z)).
    { destruct o as [[[]|d|]|d]; try (right; discriminate).
      destruct (Z.lt_ge_cases 0 md) as [Hm|Hm]; [|right; auto].
      destruct (has_column_dec (a_matrix dm ops) (length (a_seen dm ops))) as [H|(j & Hj & Hl)]; [right; auto|].
      left. split; auto. split; auto. intros H. specialize (H j Hj). lia. }
    destruct Hcase as [(-> & Hm & Hn)|Ho].
    + right. split; [split; auto; exists ops, []; auto|]. cbn [am_step al_step fst snd].
      now rewrite (insert_UB _ _ _ _ _ I Hm Hn).
    + left. split; [now apply a_usable_add|]. rewrite EM, ES.
      destruct o as [[[]|d|]|d]; cbn [am_step al_step fst snd a_note].
      * exists wg. split; auto.
      * destruct (insert_aw (a_matrix dm ops) eps md _ wg I (Ho eq_refl)) as (wg' & E' & I').
        rewrite E'. exists wg'. split; [reflexivity|]. rewrite app_length. cbn. now rewrite Nat.add_1_r.
      * destruct (expand_loop_aw (to_unsigned d - 1) _ 2 wg (le_n 2) I) as (wg' & E' & I').
        unfold expandDimensions. rewrite E'. exists wg'. split; [reflexivity|auto].
      * exists []. split; auto. apply aw_nil.
      * exists wg. auto.
Qed.

Lemma array_list_undefined eps md dm ops :
  am_run eps md dm ops = UB <->
  (0 < md)%Z /\ exists a b, ops = a ++ ACall (OpInsert false) :: b /\ ~ has_column (a_matrix dm a) (length (a_seen dm a)).
Proof.
  fold (a_bad md dm ops). destruct (am_run_cases eps md dm ops) as [(U & wg & E & _)|(B & E)]; rewrite E.
  - split; [discriminate|]. intros B. now apply a_usable_not_bad in B.
  - tauto.
Qed.

(* ---- contents ---- *)
Lemma flag_ext (c c' : nat -> nat -> Prop) n s : (forall u v, u < v -> v < n -> (c u v <-> c' u v)) ->
  flag_simplex c n s <-> flag_simplex c' n s.
Proof.
  intros H. unfold flag_simplex. split; intros (H1 & H2 & H3 & H4); repeat split; auto;
    intros u v Hu Hv Huv; apply (H u v); auto.
Qed.

Lemma diameter_ext (D D' : nat -> nat -> Z) s w : (forall u v, In u s -> In v s -> u < v -> D u v = D' u v) ->
  diameter D s w -> diameter D' s w.
Proof.
  intros H [H1 H2]. split.
  - intros u v Hu Hv Huv. rewrite <- H by auto. auto.
  - destruct H2 as [(u & v & Hu & Hv & Huv & E)|H2]; [left|now right]. exists u, v. rewrite <- H by auto. auto.
Qed.

Lemma al_inv_ext D D' eps md n wg : (forall u v, u < v -> v < n -> D u v = D' u v) ->
  al_inv D eps md n wg -> al_inv D' eps md n wg.
Proof.
  intros H [A B C E F G I J].
  assert (FE : forall s, flag_simplex (close D eps) n s <-> flag_simplex (close D' eps) n s).
  { intros s. apply flag_ext. intros u v Huv Hv. unfold close. now rewrite H. }
  constructor; auto.
  - intros k s w Hk Hs. destruct (E k s w Hk Hs) as (L & Fl & Dw). split; auto. split; [now apply FE|].
    apply (diameter_ext D); auto. intros u v Hu Hv Huv. apply H; auto. now apply Fl.
  - intros Hm s Hs Ls. apply I; auto. now apply FE.
Qed.

Lemma completeL_ext D D' eps n wg k : (forall u v, u < v -> v < n -> D u v = D' u v) ->
  completeL D eps n wg k -> completeL D' eps n wg k.
Proof.
  intros H C s Hs Ls. apply C; auto. apply (flag_ext _ (close D' eps)); auto.
  intros u v Huv Hv. unfold close. now rewrite H.
Qed.

Lemma seen_app ms l u v : v < length ms -> seen (ms ++ l) u v = seen ms u v.
Proof. intros H. unfold seen. now rewrite app_nth1. Qed.
Lemma seen_last ms dm u : seen (ms ++ [dm]) u (length ms) = dist_of dm u (length ms).
Proof. unfold seen. rewrite app_nth2, Nat.sub_diag by lia. reflexivity. Qed.

(* Every insertion along the history found its distances in the matrix, none negative. *)
Definition a_covers (dm : list (list Z)) (ops : list am_op) : Prop :=
  forall a b, ops = a ++ ACall (OpInsert false) :: b -> good_column (a_matrix dm a) (length (a_seen dm a)).

Lemma a_covers_snoc dm ops o : a_covers dm (ops ++ [o]) ->
  a_covers dm ops /\ (o = ACall (OpInsert false) -> good_column (a_matrix dm ops) (length (a_seen dm ops))).
Proof.
  intros H. split.
  - intros a b E. apply (H a (b ++ [o])). subst ops. now rewrite <- app_assoc.
  - intros ->. now apply (H ops []).
Qed.

Record am_good (eps md : Z) (dm : list (list Z)) (ops : list am_op) (wg : wgraph) : Prop := {
  mg_inv : al_inv (seen (a_seen dm ops)) eps md (length (a_seen dm ops)) wg;
  mg_pos : Dpos (seen (a_seen dm ops)) (length (a_seen dm ops));
  mg_complete : (0 < md)%Z -> forall k, 1 <= k -> k <= expanded (calls ops) ->
                  completeL (seen (a_seen dm ops)) eps (length (a_seen dm ops)) wg k;
  mg_top : forall k, deepest (calls ops) < k -> lev wg k = []
}.

Lemma am_run_good eps md dm ops : a_covers dm ops ->
  exists wg, am_run eps md dm ops = Ok (a_matrix dm ops, wg) /\ am_good eps md dm ops wg.
Proof.
  unfold am_run. induction ops as [|o ops IH] using rev_ind; intros M.
  - exists []. split; auto. constructor.
    + apply al_inv_nil. + intros j i _ H. cbn in H. lia.
    + intros _ k Hk1 Hk2 s (Hn & _ & V & _) Ls. exfalso. destruct s as [|a s]; [easy|].
      assert (a < 0) by (apply V; now left). lia.
    + intros [|k] _; auto.
  - apply a_covers_snoc in M as [M U]. destruct (IH M) as (wg & E & [I P C T]).
    rewrite foldr_ub_app, E. cbn [bind foldr_ub].
    assert (EM : a_matrix dm (ops ++ [o]) = fst (a_note (a_matrix dm ops, a_seen dm ops) o)).
    { unfold a_matrix at 1. now rewrite a_note_snoc, a_split. }
    assert (ES : a_seen dm (ops ++ [o]) = snd (a_note (a_matrix dm ops, a_seen dm ops) o)).
    { unfold a_seen at 1. now rewrite a_note_snoc, a_split. }
    destruct o as [[[]|dim|]|dm']; cbn [am_step al_step fst snd a_note] in *.
    + exists wg. rewrite EM. split; auto. constructor; rewrite ?ES, ?calls_app; cbn [calls]; auto.
      * rewrite expanded_snoc. auto. * rewrite deepest_snoc. auto.
    + set (ms := a_seen dm ops) in *. set (cur := a_matrix dm ops) in *. specialize (U eq_refl).
      assert (Ag : forall u v, u < v -> v < length ms -> seen ms u v = seen (ms ++ [cur]) u v).
      { intros u v _ Hv. now rewrite seen_app. }
      destruct (al_insert_spec (seen (ms ++ [cur])) eps md cur (length ms) wg) as (wg' & E' & I' & Lk).
      { intros u Hu. rewrite seen_last. apply dm_at_ok. now apply U. }
      { now apply (al_inv_ext (seen ms)). }
      rewrite E'. cbn [rmap bind]. exists wg'. rewrite EM. split; auto.
      assert (EL : length (a_seen dm (ops ++ [ACall (OpInsert false)])) = S (length ms)).
      { rewrite ES, app_length. cbn. lia. }
      constructor; rewrite ?EL, ?ES, ?calls_app; cbn [calls]; auto.
      * intros j i Hj Hi. destruct (Nat.eq_dec i (length ms)) as [->|Hn].
        -- rewrite seen_last. now apply U. -- rewrite seen_app by lia. apply P; auto. lia.
      * rewrite expanded_snoc. intros Hm k H1 H2. replace k with 1 by lia.
        intros s Hs Ls. now apply (i_edges _ _ _ _ _ I').
      * rewrite deepest_snoc. intros k Hk. assert (H := deepest_pos (calls ops)). rewrite Lk by lia. auto.
    + destruct (expandDimensions_spec (seen (a_seen dm ops)) eps md _ dim wg P I) as (wg' & E' & I' & Inc & Lk & C').
      rewrite E'. cbn. exists wg'. rewrite EM. split; auto. constructor; rewrite ?ES, ?calls_app; cbn [calls]; auto.
      * rewrite expanded_snoc. intros Hm k H1 H2.
        destruct (Nat.le_gt_cases k (Nat.max 1 (to_unsigned dim))) as [Hle|Hgt]; [now apply C'|].
        assert (Hc : completeL (seen (a_seen dm ops)) eps (length (a_seen dm ops)) wg k) by (apply C; auto; lia).
        intros s Hs Ls. destruct (Hc s Hs Ls) as (w & Hw). exists w. now apply Inc.
      * rewrite deepest_snoc. intros k Hk. assert (H := deepest_pos (calls ops)). rewrite Lk by lia. apply T. lia.
    + cbn. exists []. rewrite EM. split; auto. constructor; rewrite ?ES, ?calls_app; cbn [length calls].
      * apply al_inv_nil. * intros j i _ H. lia.
      * intros _ k Hk1 Hk2 s (Hn & _ & V & _) Ls. exfalso. destruct s as [|a s]; [easy|].
        assert (a < 0) by (apply V; now left). lia.
      * intros [|k] _; auto.
    + exists wg. rewrite EM. split; auto. constructor; rewrite ?ES, ?calls_app; cbn [calls]; rewrite ?app_nil_r; auto.
Qed.

Lemma am_nodup eps md dm ops wg : am_good eps md dm ops wg -> forall k, NoDup (map fst (lev wg k)).
Proof.
  intros [I P C T] k. apply NoDup_map_fst; [apply (i_nodup _ _ _ _ _ I)|]. intros s w w' H H'.
  destruct (inv_diam _ _ _ _ _ _ _ _ I H) as (Dw & Ls & _). destruct (inv_diam _ _ _ _ _ _ _ _ I H') as (Dw' & _ & _).
  destruct k as [|k].
  - destruct s as [|x [|y s]]; try discriminate. apply diam_single_inv in Dw, Dw'. congruence.
  - apply (diameter_unique (seen (a_seen dm ops)) s); auto. lia.
Qed.

Lemma getDimEdges_in_force eps md dm ops dim epsilon : a_covers dm ops ->
  let n := length (a_seen dm ops) in let cur := a_matrix dm ops in
  upper_triangle cur n ->
  exists wg ret, am_run eps md dm ops = Ok (cur, wg) /\ getDimEdges cur wg dim epsilon = Ok ret /\ NoDup ret /\
    forall s, In s ret <-> Z.of_nat (length s) = dim /\ (exists k w, In (s, w) (level wg k)) /\
                           forall u v, In u s -> In v s -> u < v -> (dist_of cur u v <= epsilon)%Z.
Proof.
  intros M n cur U. destruct (am_run_good eps md dm ops M) as (wg & E & Gd). assert (G' := Gd). destruct G' as [I P C T]. fold cur n in E, I, P.
  exists wg.
  assert (N := am_nodup eps md dm ops wg Gd).
  cut (exists ret, getDimEdges cur wg dim epsilon = Ok ret /\ NoDup ret /\
    forall s, In s ret <-> Z.of_nat (length s) = dim /\ (exists k w, In (s, w) (level wg k)) /\
                           forall u v, In u s -> In v s -> u < v -> (dist_of cur u v <= epsilon)%Z).
  { intros (ret & H). exists ret. auto. }
  assert (HL : forall k s w, In (s, w) (level wg k) -> length s = S k).
  { intros k s w H. apply (inv_diam _ _ _ _ _ _ _ _ I) in H. tauto. }
  unfold getDimEdges. destruct (Z.ltb_spec (dim - 1) 0) as [Hd|Hd].
  { exists []. split; auto. split; [constructor|]. intros s. split; [easy|]. intros (H & (k & w & Hk) & _).
    apply HL in Hk. lia. }
  destruct (Z.ltb_spec (Z.of_nat (length wg)) dim) as [Hl|Hl].
  { exists []. split; auto. split; [constructor|]. intros s. split; [easy|]. intros (H & (k & w & Hk) & _).
    assert (Ek := HL _ _ _ Hk). unfold level in Hk. rewrite nth_overflow in Hk by lia. easy. }
  set (k := Z.to_nat (dim - 1)). rewrite at_lev by lia. cbn [bind].
  specialize (N k).
  assert (Hinv : forall s w, In (s, w) (lev wg k) -> ssorted s /\ forall v, In v s -> v < n).
  { intros s w H. split; [apply (inv_diam _ _ _ _ _ _ _ _ I) in H; tauto|]. destruct k as [|k'].
    - rewrite (i_vert _ _ _ _ _ I) in H. apply in_map_iff in H as (i & Ei & Hi). injection Ei as <- _. apply in_seq in Hi.
      intros v [<-|[]]. lia.
    - apply (i_sound _ _ _ _ _ I) in H as (_ & F & _); [|lia]. apply F. }
  assert (G : forall l acc, incl l (lev wg k) -> NoDup (acc ++ map fst l) ->
    exists ret, foldr_ub (fun ret (a : wsimp) =>
        do isTrue <- foldr_ub (fun isTrue i =>
              rmap fst (foldr_ub (fun (st : bool * bool) j =>
                  let '(isTrue, broken) := st in
                  if broken then Ok st
                  else
                    do vi <- at_ (fst a) i; do vj <- at_ (fst a) j; do d <- dm_at cur vi vj;
                    if (epsilon <? d)%Z then Ok (false, true) else Ok (isTrue, false))
                (isTrue, false) (seq (i + 1) (length (fst a) - (i + 1)))))
            true (seq 0 (length (fst a)));
        Ok (if isTrue : bool then ret ++ [fst a] else ret)) acc l = Ok ret /\ NoDup ret /\
    forall s, In s ret <-> In s acc \/ ((exists w, In (s, w) l) /\
                           forall u v, In u s -> In v s -> u < v -> (dist_of cur u v <= epsilon)%Z)).
  { induction l as [|[s w] l IH]; intros acc Hin Hnd; cbn [foldr_ub].
    - exists acc. cbn in Hnd. rewrite app_nil_r in Hnd. split; auto. split; auto. intros s. split; auto. intros [H|((w & []) & _)]; auto.
    - destruct (Hinv s w) as [Ss V]. { apply Hin; now left. }
      destruct (dim_outer cur (n) epsilon s (seq 0 (length s)) true U Ss V) as (t & Et & Ht).
      { intros i Hi. apply in_seq in Hi. lia. }
      cbn [fst]. rewrite Et. cbn [bind].
      assert (Hgood : t = true <-> forall u v, In u s -> In v s -> u < v -> (dist_of cur u v <= epsilon)%Z).
      { rewrite Ht. split.
        - intros [_ H] u v Hu Hv Huv. apply (In_nth _ _ 0) in Hu as (i & Hi & <-), Hv as (j & Hj & <-).
          apply H; auto. + apply in_seq. lia.
          + destruct (Nat.lt_trichotomy i j) as [|[->|Hji]]; auto; [lia|].
            assert (nth j s 0 < nth i s 0) by now apply ssorted_nth. lia.
        - intros H. split; auto. intros i j Hi Hij Hj. apply H; try (apply nth_In; lia). now apply ssorted_nth. }
      assert (Hnd' : NoDup ((if t then acc ++ [s] else acc) ++ map fst l)).
      { cbn in Hnd. destruct t; [now rewrite <- app_assoc|]. now apply NoDup_remove_1 in Hnd. }
      destruct (IH (if t then acc ++ [s] else acc)) as (ret & Er & Nr & Hr); auto.
      { intros x Hx. apply Hin. now right. }
      exists ret. split; [exact Er|]. split; auto. intros s'. rewrite Hr. destruct t.
      + rewrite in_app_iff. cbn. split.
        * intros [[H|[<-|[]]]|[(w' & Hw') H]]; auto. -- right. split; [exists w; now left|]. now apply Hgood.
          -- right. split; auto. exists w'. now right.
        * intros [H|[(w' & [Hw'|Hw']) H]]; auto. -- injection Hw' as <- _. auto. -- right. split; eauto.
      + split.
        * intros [H|[(w' & Hw') H]]; auto. right. split; auto. exists w'. now right.
        * intros [H|[(w' & [Hw'|Hw']) H]]; auto. -- injection Hw' as <- _. apply Hgood in H. easy. -- right. split; eauto. }
  destruct (G (lev wg k) [] (incl_refl _) N) as (ret & Er & Nr & Hr).
  exists ret. split; [exact Er|]. split; auto. intros s. rewrite Hr. split.
  - intros [[]|[(w & Hw) H]]. split; [|split; auto].
    + assert (El := HL k s w Hw). lia. + exists k, w. auto.
  - intros (Hs & (k' & w & Hw) & H). right. split; auto. exists w.
    assert (El := HL k' s w Hw). assert (k' = k) by (unfold k; lia). now subst k'.
Qed.

(* ------------------------------------------------------------------ *)
(* tree: indices of the nodes *)

Inductive ixs (lo hi : nat) : tnode -> Prop :=
| ixs_node i w cs : lo <= i -> i < hi -> Forall (ixs lo hi) cs -> ixs lo hi (TN i w cs).

Lemma ixs_mono lo hi hi' t : hi <= hi' -> ixs lo hi t -> ixs lo hi' t.
Proof.
  intros H. induction t as [i w cs IH] using tnode_ind'. intros Hx. inversion Hx; subst. constructor; auto; [lia|].
  rewrite Forall_forall in *. auto.
Qed.

Lemma good_ixs D eps md hi lo t : forall p, good D eps md hi p t -> lo <= t_index t -> t_index t < hi -> ixs lo hi t.
Proof.
  induction t as [i w cs IH] using tnode_ind'. intros p G H1 H2. inversion G as [? ? ? ? Dw Hc Hg]; subst. cbn in H1, H2.
  constructor; auto. rewrite Forall_forall in *. intros c Hin. apply (IH c Hin (p ++ [i])); auto.
  - assert (Hi : In (t_index c) (map t_index cs)) by now apply in_map. rewrite Hc in Hi.
    destruct (allow md _); [|easy]. apply in_rev, filter_In in Hi as [Hi _]. apply in_seq in Hi. lia.
  - assert (Hi : In (t_index c) (map t_index cs)) by now apply in_map. rewrite Hc in Hi.
    destruct (allow md _); [|easy]. apply in_rev, filter_In in Hi as [Hi _]. apply in_seq in Hi. lia.
Qed.

Lemma ssorted_add a x : ssorted a -> (forall y, In y a -> y < x) -> ssorted (a ++ [x]).
Proof.
  induction a as [|y a IH]; cbn; intros S H; [repeat constructor|]. apply ssorted_cons in S as [S1 S2].
  apply ssorted_cons. split; [apply IH; auto|]. intros z Hz. apply in_app_iff in Hz as [Hz|[<-|[]]]; auto.
Qed.

Lemma good_ext D D' eps md hi lo t : forall p,
  (forall u v, lo <= u -> u < v -> v < hi -> D u v = D' u v) ->
  ssorted (p ++ [t_index t]) -> (forall v, In v p -> lo <= v) -> lo <= t_index t -> t_index t < hi ->
  good D eps md hi p t -> good D' eps md hi p t.
Proof.
  induction t as [i w cs IH] using tnode_ind'. intros p H Ss Hp H1 H2 G.
  inversion G as [? ? ? ? Dw Hc Hg]; subst. cbn [t_index] in *.
  assert (Hpi : forall v, In v (p ++ [i]) -> lo <= v /\ v <= i).
  { apply ssorted_snoc_inv in Ss as [_ Ss]. intros v Hv. apply in_app_iff in Hv as [Hv|[<-|[]]]; [|lia].
    specialize (Ss v Hv). specialize (Hp v Hv). lia. }
  constructor.
  - apply (diameter_ext D); auto. intros u v Hu Hv Huv. apply H; auto; [now apply Hpi|]. apply Hpi in Hv. lia.
  - rewrite Hc. destruct (allow md _); auto. f_equal. apply filter_ext_in. intros j Hj. apply in_seq in Hj.
    unfold clb. apply eq_true_iff_eq. rewrite !forallb_forall. split; intros Hall v Hv; specialize (Hall v Hv); apply Hpi in Hv.
    + rewrite <- H by lia. auto. + rewrite H by lia. auto.
  - rewrite Forall_forall in *. intros c Hin.
    assert (Hi : In (t_index c) (map t_index cs)) by now apply in_map. rewrite Hc in Hi.
    destruct (allow md _); [|easy]. apply in_rev, filter_In in Hi as [Hi _]. apply in_seq in Hi.
    apply (IH c Hin); auto; try lia.
    + apply ssorted_add; auto. intros v Hv. apply Hpi in Hv. lia.
    + intros v Hv. now apply Hpi in Hv.
Qed.

Lemma record_ok (weg : wgraph) s w : 1 <= length weg -> s <> [] ->
  exists weg', record_simplex weg s w = Ok weg' /\ length weg <= length weg'.
Proof.
  intros Hw Hs. unfold record_simplex. destruct (Nat.ltb_spec (length weg) (length s)) as [H|H].
  - eexists. split; [reflexivity|]. rewrite app_length. lia.
  - destruct s as [|x s]; [easy|]. cbn [length] in *.
    destruct (upd_lev weg (length s) (fun l => l ++ [(x :: s, w)])) as (weg' & E & L & _); [lia|]. exists weg'. split; auto. lia.
Qed.

Lemma sinsert_ne x l : sinsert x l <> [].
Proof. destruct l as [|y l]; cbn; [easy|]. destruct (x <? y); [easy|]. destruct (y <? x); easy. Qed.

Section Recurse.
  Variable eps md : Z.
  Variable cur lo : nat.

  Lemma recurse_defined dist hi t : hi <= cur -> lo <= cur -> (forall i, lo <= i -> i < hi -> exists d, dist i = Ok d) ->
    ixs lo hi t -> forall maxE simp (weg : wgraph) cnt, 1 <= length weg ->
    exists t' (weg' : wgraph) cnt', recurseInsert eps md dist cur t maxE simp (weg, cnt) = Ok (t', (weg', cnt')) /\
      ixs lo (S cur) t' /\ t_index t' = t_index t /\ length weg <= length weg'.
  Proof.
    intros Hh Hlo Hd. induction t as [i w cs IH] using tnode_ind'; intros X maxE simp weg cnt Hw.
    assert (X0 := X). inversion X; subst. cbn [recurseInsert]. destruct (Hd i) as (d & ->); auto. cbn [bind].
    set (curE := if (maxE <? d)%Z then d else maxE).
    assert (XM : forall l, Forall (ixs lo hi) l -> Forall (ixs lo (S cur)) l).
    { intros l. apply Forall_impl. intros a. apply ixs_mono. lia. }
    destruct (curE <? eps)%Z.
    2: { eexists _, weg, cnt. split; [reflexivity|]. split; [apply (ixs_mono lo hi); [lia|auto]|]. auto. }
    set (maxE' := if (w <? curE)%Z then curE else w).
    destruct (record_ok weg (sinsert i simp) maxE' Hw (sinsert_ne _ _)) as (weg1 & E1 & L1). cbn [fst snd]. rewrite E1. cbn [bind].
    assert (Hins : ixs lo (S cur) (TN cur maxE' [])) by (constructor; auto).
    match goal with |- context [?f cs (weg1, (cnt + 1)%Z)] => set (GO := f) end.
    assert (HGO : forall l (w0 : wgraph) c0, incl l cs -> 1 <= length w0 -> exists l' (w1 : wgraph) c1, GO l (w0, c0) = Ok (l', (w1, c1)) /\
      Forall (ixs lo (S cur)) l' /\ length w0 <= length w1).
    { induction l as [|c l IHl]; intros w0 c0 Hin H0.
      - exists [], w0, c0. repeat split; auto.
      - rewrite Forall_forall in IH, H4.
        destruct (IH c (Hin c (or_introl eq_refl)) (H4 c (Hin c (or_introl eq_refl))) maxE' (sinsert i simp) w0 c0 H0)
          as (c' & w1 & c1 & Ec & Xc & _ & Lc).
        destruct (IHl w1 c1) as (l' & w2 & c2 & El & Xl & Ll); [intros x Hx; apply Hin; now right|lia|].
        exists (c' :: l'), w2, c2. split; [|split; [constructor; auto|lia]].
        change (bind (recurseInsert eps md dist cur c maxE' (sinsert i simp) (w0, c0))
          (fun r1 => bind (GO l (snd r1)) (fun r2 => Ok (fst r1 :: fst r2, snd r2))) = Ok (c' :: l', (w2, c2))).
        rewrite Ec. change (bind (GO l (w1, c1)) (fun r2 => Ok (c' :: fst r2, snd r2)) = Ok (c' :: l', (w2, c2))).
        rewrite El. reflexivity. }
    clearbody GO. destruct cs as [|c0 cs0].
    - eexists _, weg1, _. split; [reflexivity|]. split; [constructor; auto; lia|]. auto.
    - destruct (may_recurse md (length (sinsert i simp))).
      + destruct (HGO (c0 :: cs0) weg1 (cnt + 1)%Z (incl_refl _) ltac:(lia)) as (l' & w1 & c1 & El & Xl & Ll).
        rewrite El. cbn [bind fst snd]. eexists _, w1, c1. split; [reflexivity|].
        split; [constructor; auto; try lia|]. split; auto. lia.
      + eexists _, weg1, _. split; [reflexivity|]. split; [constructor; auto; lia|]. auto.
  Qed.

  Lemma roots_defined dist hi l : hi <= cur -> lo <= cur -> (forall i, lo <= i -> i < hi -> exists d, dist i = Ok d) ->
    Forall (ixs lo hi) l -> forall (weg : wgraph) cnt, 1 <= length weg ->
    exists l' (weg' : wgraph) cnt', insert_roots eps md dist cur l (weg, cnt) = Ok (l', (weg', cnt')) /\
      Forall (ixs lo (S cur)) l' /\ map t_index l' = map t_index l /\ length weg <= length weg'.
  Proof.
    intros Hh Hlo Hd. induction l as [|t l IH]; intros X weg cnt Hw; cbn [insert_roots].
    - exists [], weg, cnt. auto.
    - inversion X; subst. destruct (recurse_defined dist hi t Hh Hlo Hd H1 0%Z [cur] weg cnt Hw) as (t' & w1 & c1 & E1 & X1 & I1 & L1).
      rewrite E1. cbn [bind snd fst].
      destruct (IH H2 w1 c1) as (l' & w2 & c2 & E2 & X2 & I2 & L2); [lia|]. rewrite E2. cbn [bind snd fst].
      eexists _, w2, c2. split; [reflexivity|]. split; [constructor; auto|]. split; [cbn; now rewrite I1, I2|lia].
  Qed.

  Lemma roots_UB dist l : (exists t, In t l /\ dist (t_index t) = UB) -> forall acc, insert_roots eps md dist cur l acc = UB.
  Proof.
    intros (t & Hin & Ht). induction l as [|r l IH]; [easy|]. intros acc. cbn [insert_roots]. destruct Hin as [->|Hin].
    - destruct t as [i w cs]. cbn in Ht. cbn [recurseInsert]. rewrite Ht. reflexivity.
    - destruct (recurseInsert _ _ _ _ r _ _ _); [|reflexivity]. cbn [bind]. rewrite IH by auto. reflexivity.
  Qed.

  Lemma recurse_ext d1 d2 hi t : (forall i, lo <= i -> i < hi -> d1 i = d2 i) -> ixs lo hi t -> forall maxE simp acc,
    recurseInsert eps md d1 cur t maxE simp acc = recurseInsert eps md d2 cur t maxE simp acc.
  Proof.
    intros Hd. induction t as [i w cs IH] using tnode_ind'; intros X maxE simp acc. inversion X; subst.
    cbn [recurseInsert]. rewrite Hd by auto. destruct (d2 i) as [d|]; [|reflexivity]. cbn [bind].
    set (curE := if (maxE <? d)%Z then d else maxE). destruct (curE <? eps)%Z; [|reflexivity].
    set (maxE' := if (w <? curE)%Z then curE else w).
    destruct (record_simplex (fst acc) (sinsert i simp) maxE') as [weg1|]; [|reflexivity]. cbn [bind].
    match goal with |- context [?f cs (weg1, (snd acc + 1)%Z)] => match f with context [d1] => set (G1 := f) end end.
    match goal with |- context [?f cs (weg1, (snd acc + 1)%Z)] => match f with context [d2] => set (G2 := f) end end.
    assert (HG : forall l a, incl l cs -> G1 l a = G2 l a).
    { induction l as [|c l IHl]; intros a Hin; [reflexivity|].
      change (bind (recurseInsert eps md d1 cur c maxE' (sinsert i simp) a)
          (fun r1 => bind (G1 l (snd r1)) (fun r2 => Ok (fst r1 :: fst r2, snd r2))) =
        bind (recurseInsert eps md d2 cur c maxE' (sinsert i simp) a)
          (fun r1 => bind (G2 l (snd r1)) (fun r2 => Ok (fst r1 :: fst r2, snd r2)))).
      rewrite Forall_forall in IH, H4.
      rewrite (IH c (Hin c (or_introl eq_refl)) (H4 c (Hin c (or_introl eq_refl)))).
      destruct (recurseInsert _ _ d2 _ c _ _ _) as [r|]; [|reflexivity]. unfold bind at 1 3. rewrite IHl; [reflexivity|].
      intros x Hx. apply Hin. now right. }
    rewrite (HG cs _ (incl_refl _)). reflexivity.
  Qed.

  Lemma roots_ext d1 d2 hi l : (forall i, lo <= i -> i < hi -> d1 i = d2 i) -> Forall (ixs lo hi) l -> forall acc,
    insert_roots eps md d1 cur l acc = insert_roots eps md d2 cur l acc.
  Proof.
    intros Hd. induction l as [|t l IH]; intros X acc; cbn [insert_roots]; auto. inversion X; subst.
    rewrite (recurse_ext d1 d2 hi) by auto. destruct (recurseInsert _ _ d2 _ t _ _ _); [|reflexivity]. cbn [bind]. now rewrite IH.
  Qed.
End Recurse.

(* ------------------------------------------------------------------ *)
(* tree: when a history is undefined *)

Lemma m_past_snoc dm ops o : m_past dm (ops ++ [o]) = m_note (m_past dm ops) o.
Proof. unfold m_past. now rewrite fold_left_app. Qed.

Lemma tree_dist_eq dm b n i rvi : b <= i -> length rvi = n ->
  tree_dist dm (length (rvi ++ [b + n])) (b + n) (b + n) i = dm_at dm (i - b) n.
Proof.
  intros H1 L. unfold tree_dist. rewrite app_length, L. cbn.
  destruct (Nat.ltb_spec (n + 1) (b + n + 1)) as [H|H].
  - replace (b + n + 1 - (n + 1)) with b by lia.
    destruct (Nat.ltb_spec i b); [lia|]. destruct (Nat.ltb_spec (b + n) b); [lia|]. cbn. f_equal. lia.
  - assert (b = 0) by lia. subst b. rewrite !Nat.sub_0_r. reflexivity.
Qed.

Record tw (dm : list (list Z)) (b n : nat) (t : stree) : Prop := {
  w_dm : st_dm t = dm;
  w_ix : map t_index (st_roots t) = seq b n;
  w_ixs : Forall (ixs b (b + n)) (st_roots t);
  w_ic : st_indexCounter t = b + n;
  w_rvc : st_runningVectorCount t = b + n;
  w_rvi : length (st_runningVectorIndices t) = n;
  w_len : n <> 0 -> 1 <= length (st_weg t)
}.

Section TreeUB.
  Variable eps md : Z.

  Lemma tw_insert dm b n t : tw dm b n t -> dm <> [] -> has_column dm n ->
    exists t', st_insert eps md t = Ok t' /\ tw dm b (S n) t'.
  Proof.
    intros [Vdm Vix Vx Vic Vrvc Vrvi Vlen] Hdm Hc. unfold st_insert. rewrite Vdm. destruct dm as [|r0 dmr] eqn:Edm; [easy|].
    rewrite <- Edm in *. destruct (st_roots t) as [|root roots] eqn:Er.
    - destruct n; [|discriminate]. eexists. split; [reflexivity|]. constructor; cbn; auto; try lia.
      + rewrite Vic, Nat.add_0_r. reflexivity.
      + repeat constructor; lia.
      + rewrite app_length, Vrvi. reflexivity.
      + rewrite app_length. cbn. lia.
    - assert (Hn : n <> 0) by (intros ->; discriminate). specialize (Vlen Hn). rewrite Vic, Vrvc.
      destruct (roots_defined eps md (b + n) b (tree_dist dm (length (st_runningVectorIndices t ++ [b + n])) (b + n) (b + n))
        (b + n) (root :: roots) (le_n _) (Nat.le_add_r _ _)) with (weg := st_weg t) (cnt := st_count t)
        as (l' & weg' & cnt' & E & X & I & L); auto.
      { intros i H1 H2. rewrite tree_dist_eq by auto. eexists. apply dm_at_ok, Hc. lia. }
      rewrite E. cbn [bind snd fst].
      destruct (upd_lev weg' 0 (fun l => l ++ [([b + n], 0%Z)])) as (weg2 & E2 & L2 & _); [lia|]. rewrite E2. cbn [bind].
      eexists. split; [reflexivity|]. constructor; cbn [st_dm st_roots st_weg st_count st_indexCounter st_runningVectorCount st_runningVectorIndices]; auto; try lia.
      + rewrite map_app, I, Vix, seq_S. reflexivity.
      + apply Forall_app. replace (b + S n) with (S (b + n)) by lia. split; auto. repeat constructor; lia.
      + rewrite app_length, Vrvi. cbn. lia.
  Qed.

  Lemma tw_insert_UB dm b n t : tw dm b n t -> dm <> [] -> ~ has_column dm n -> st_insert eps md t = UB.
  Proof.
    intros [Vdm Vix Vx Vic Vrvc Vrvi Vlen] Hdm Hc. apply not_column in Hc as (j & Hj & Hl).
    unfold st_insert. rewrite Vdm. destruct dm as [|r0 dmr] eqn:Edm; [easy|]. rewrite <- Edm in *.
    destruct (st_roots t) as [|root roots] eqn:Er; [destruct n; [lia|discriminate]|].
    rewrite Vic, Vrvc, roots_UB; [reflexivity|].
    assert (Hin : In (b + j) (map t_index (root :: roots))) by (rewrite Vix; apply in_seq; lia).
    apply in_map_iff in Hin as (x & Ex & Hx). exists x. split; auto. rewrite Ex, tree_dist_eq by (auto; lia).
    apply dm_at_UB. now replace (b + j - b) with j by lia.
  Qed.

  Lemma t_allowed_dec p o : t_allowed p o \/ ~ t_allowed p o.
  Proof.
    destruct o; cbn; auto.
    - destruct (m_matrix p) as [|r m] eqn:E; [auto|]. rewrite <- E.
      destruct (has_column_dec (m_matrix p) (length (m_seen p))) as [H|(j & Hj & Hl)]; [auto|]. right.
      intros [H|H]; [congruence|]. specialize (H j Hj). lia.
    - destruct (m_seen p); [right|left]; easy.
  Qed.

  Lemma tree_cases dm nc0 srt ops :
    ((forall a o b, ops = a ++ o :: b -> t_allowed (m_past dm a) o) /\
     exists t, st_run eps md (Ok tt) srt (st_new dm nc0) ops = Ok t /\
       tw (m_matrix (m_past dm ops)) (m_before (m_past dm ops)) (length (m_seen (m_past dm ops))) t) \/
    ((exists a o b, ops = a ++ o :: b /\ ~ t_allowed (m_past dm a) o) /\
     st_run eps md (Ok tt) srt (st_new dm nc0) ops = UB).
  Proof.
    unfold st_run. induction ops as [|o ops IH] using rev_ind.
    - left. split; [intros a o b E; destruct a; discriminate|]. eexists. split; [reflexivity|].
      constructor; cbn; auto. lia.
    - rewrite foldr_ub_app. destruct IH as [(U & t & E & W)|((a & x & b & -> & Hn) & E)]; rewrite E.
      2: { right. split; [|reflexivity]. exists a, x, (b ++ [o]). now rewrite <- app_assoc. }
      cbn [bind foldr_ub]. rewrite m_past_snoc. set (P := m_past dm ops) in *.
      destruct (t_allowed_dec P o) as [Ho|Ho].
      + left. split.
        { intros a x b Ex. destruct b as [|z b _] using rev_ind.
          - apply app_inj_tail in Ex as [<- <-]. auto.
          - rewrite app_comm_cons, app_assoc in Ex. apply app_inj_tail in Ex as [Ex _]. now apply (U a x b). }
        destruct o; cbn [st_step m_note t_allowed] in *.
        * destruct (m_matrix P) as [|r0 rr] eqn:Edm.
          -- exists t. unfold st_insert. rewrite (w_dm _ _ _ _ W). split; [reflexivity|]. now rewrite Edm.
          -- rewrite <- Edm in *. destruct Ho as [Ho|Ho]; [congruence|].
             destruct (tw_insert _ _ _ _ W) as (t' & E' & W'); auto; [congruence|]. exists t'. rewrite E'. split; [reflexivity|].
             cbn [m_matrix m_before m_seen]. rewrite app_length, Nat.add_1_r. exact W'.
        * unfold st_clear. destruct W as [Vdm Vix Vx Vic Vrvc Vrvi Vlen].
          destruct (st_roots t) as [|r rs]; [destruct (m_seen P); easy|]. rewrite deletion_spec. cbn [bind].
          eexists. split; [reflexivity|]. constructor; cbn; auto; try lia.
        * eexists. split; [reflexivity|]. destruct W as [Vdm Vix Vx Vic Vrvc Vrvi Vlen]. constructor; cbn; auto.
        * eexists. split; [reflexivity|]. destruct W as [Vdm Vix Vx Vic Vrvc Vrvi Vlen]. unfold st_getAllEdges.
          destruct (st_isSorted t); constructor; cbn; auto. rewrite map_length. auto.
      + right. split; [exists ops, o, []; auto|]. destruct o; cbn [st_step t_allowed] in *; try tauto.
        * rewrite (tw_insert_UB _ _ _ _ W); auto.
        * assert (Hs : m_seen P = []) by (destruct (m_seen P); [auto|exfalso; now apply Ho]).
          assert (Hr : st_roots t = []).
          { assert (H := w_ix _ _ _ _ W). rewrite Hs in H. now destruct (st_roots t). }
          unfold st_clear. rewrite Hr. reflexivity.
  Qed.

  Lemma tree_undefined dm nc0 srt ops :
    st_run eps md (Ok tt) srt (st_new dm nc0) ops = UB <->
    exists a o b, ops = a ++ o :: b /\ ~ t_allowed (m_past dm a) o.
  Proof.
    destruct (tree_cases dm nc0 srt ops) as [(U & t & E & _)|(B & E)]; rewrite E; [|tauto].
    split; [discriminate|]. intros (a & o & b & Eo & Hn). elim Hn. now apply (U a o b).
  Qed.

  (* ---- contents ---- *)
  Definition combined (ms : list (list (list Z))) : list (list Z) :=
    map (fun u => map (fun v => seen ms u v) (seq 0 (length ms))) (seq 0 (length ms)).

  Lemma combined_row ms u : u < length ms -> nth u (combined ms) [] = map (fun v => seen ms u v) (seq 0 (length ms)).
  Proof.
    intros H. unfold combined. rewrite nth_indep with (d' := (fun u => map (fun v => seen ms u v) (seq 0 (length ms))) 0) by (now rewrite map_length, seq_length).
    rewrite (map_nth (fun u => map (fun v => seen ms u v) (seq 0 (length ms)))). now rewrite seq_nth.
  Qed.
  Lemma combined_dist ms u v : u < length ms -> v < length ms -> dist_of (combined ms) u v = seen ms u v.
  Proof.
    intros Hu Hv. unfold dist_of. rewrite combined_row by auto.
    rewrite nth_indep with (d' := seen ms u 0) by (now rewrite map_length, seq_length).
    rewrite (map_nth (fun v => seen ms u v)). now rewrite seq_nth.
  Qed.

  Definition set_dm := st_setDistanceMatrix.

  Lemma tinv_ext M M' b n cb t : (forall u v, u < v -> v < n -> dist_of M u v = dist_of M' u v) ->
    tinv eps md M b n cb (set_dm M t) -> tinv eps md M' b n cb (set_dm M' t).
  Proof.
    intros H [Vdm Vix Vg Vic Vrvc Vrvi Vlen Vne Vs Vnd Vc]. cbn in *.
    assert (HD : forall u v, b <= u -> u < v -> v < b + n -> dsh M b u v = dsh M' b u v).
    { intros u v H1 H2 H3. unfold dsh. apply H; lia. }
    assert (HC : forall s w, cpx eps md (dsh M b) b n s /\ diameter (dsh M b) s w <-> cpx eps md (dsh M' b) b n s /\ diameter (dsh M' b) s w).
    { intros s w. unfold cpx, flagD. split; intros ((H1 & H2 & H3 & H4 & H5) & H6); (split; [repeat split; auto|]).
      - now apply H3. - now apply H3.
      - intros u v Hu Hv Huv. rewrite <- HD by (auto; now apply H3). auto.
      - apply (diameter_ext (dsh M b)); auto. intros u v Hu Hv Huv. apply HD; auto; now apply H3.
      - now apply H3. - now apply H3.
      - intros u v Hu Hv Huv. rewrite HD by (auto; now apply H3). auto.
      - apply (diameter_ext (dsh M' b)); auto. intros u v Hu Hv Huv. symmetry. apply HD; auto; now apply H3. }
    constructor; cbn; auto.
    - rewrite Forall_forall in *. intros x Hx. apply (good_ext (dsh M b) _ _ _ _ b); auto.
      + cbn. repeat constructor. + intros v [].
      + assert (Hi : In (t_index x) (seq b n)) by (rewrite <- Vix; now apply in_map). apply in_seq in Hi. lia.
      + assert (Hi : In (t_index x) (seq b n)) by (rewrite <- Vix; now apply in_map). apply in_seq in Hi. lia.
    - intros k s w. rewrite Vs. rewrite HC. tauto.
  Qed.

  Lemma insert_set dm M b n cb t t1 : tinv eps md M b n cb (set_dm M t) -> dm <> [] -> M <> [] ->
    (forall j, j < n -> dm_at dm j n = dm_at M j n) ->
    st_insert eps md (set_dm M t) = Ok t1 -> st_insert eps md (set_dm dm t) = Ok (set_dm dm t1).
  Proof.
    intros [Vdm Vix Vg Vic Vrvc Vrvi Vlen Vne Vs Vnd Vc] Hdm HM Hc. cbn in *.
    unfold st_insert, set_dm, st_setDistanceMatrix. cbn. destruct dm as [|r0 dmr] eqn:Edm; [easy|]. rewrite <- Edm in *.
    destruct M as [|q0 qm] eqn:EM; [easy|]. rewrite <- EM in *.
    destruct (st_roots t) as [|root roots] eqn:Er.
    - intros E. injection E as <-. reflexivity.
    - rewrite Vic, Vrvc.
      rewrite (roots_ext eps md (b + n) b (tree_dist dm _ _ _) (tree_dist M (length (st_runningVectorIndices t ++ [b + n])) (b + n) (b + n)) (b + n)).
      + destruct (insert_roots _ _ _ _ _ _) as [r|]; [|discriminate]. cbn [bind].
        destruct (upd _ _ _) as [weg|]; [|discriminate]. cbn [bind]. intros E. injection E as <-. reflexivity.
      + intros i H1 H2. rewrite !tree_dist_eq by auto. apply Hc. lia.
      + rewrite Forall_forall in *. intros x Hx.
        assert (Hi : In (t_index x) (seq b n)) by (rewrite <- Vix; now apply in_map). apply in_seq in Hi.
        apply (good_ixs (dsh M b) eps md _ _ x []); [now apply Vg| |]; lia.
  Qed.

  Lemma set_set a b t : set_dm a (set_dm b t) = set_dm a t.
  Proof. reflexivity. Qed.

  Lemma upper_combined ms : (forall u v, u < v -> v < length ms -> (0 <= seen ms u v)%Z) -> upper_triangle (combined ms) (length ms).
  Proof.
    intros H j i Hj Hi. rewrite combined_row by lia. rewrite map_length, seq_length. split; auto. rewrite combined_dist by lia. auto.
  Qed.

  Lemma tree_good dm nc0 srt ops : is_sort srt -> (forall a o b, ops = a ++ o :: b -> t_proper (m_past dm a) o) ->
    exists t cb, st_run eps md (Ok tt) srt (st_new dm nc0) ops = Ok t /\
      st_dm t = m_matrix (m_past dm ops) /\
      (forall u v, u < v -> v < length (m_seen (m_past dm ops)) -> (0 <= seen (m_seen (m_past dm ops)) u v)%Z) /\
      tinv eps md (combined (m_seen (m_past dm ops))) (m_before (m_past dm ops)) (length (m_seen (m_past dm ops))) cb
           (set_dm (combined (m_seen (m_past dm ops))) t).
  Proof.
    intros Hs. unfold st_run. induction ops as [|o ops IH] using rev_ind; intros L.
    - exists (st_new dm nc0), nc0. split; [reflexivity|]. split; [reflexivity|]. split; [cbn; lia|]. apply (tinv_new eps md [] nc0).
    - assert (L' : forall a x b, ops = a ++ x :: b -> t_proper (m_past dm a) x).
      { intros a x b E. apply (L a x (b ++ [o])). rewrite E, <- app_assoc. reflexivity. }
      assert (Lo : t_proper (m_past dm ops) o) by now apply (L ops o []). clear L.
      destruct (IH L') as (t & cb & E & Vd & Pos & V). rewrite foldr_ub_app, E. cbn [bind foldr_ub].
      rewrite m_past_snoc. set (P := m_past dm ops) in *. set (ms := m_seen P) in *.
      destruct o; cbn [st_step m_note t_proper] in *.
      + destruct (m_matrix P) as [|r0 rr] eqn:Edm.
        * exists t, cb. unfold st_insert. rewrite Vd. split; [reflexivity|]. rewrite Edm. auto.
        * rewrite <- Edm in *. destruct Lo as [Lo|Lo]; [congruence|]. cbn [m_matrix m_before m_seen]. fold ms.
          set (dmc := m_matrix P) in *. set (ms' := ms ++ [dmc]).
          assert (Len : length ms' = S (length ms)) by (unfold ms'; rewrite app_length; cbn; lia).
          assert (Ag : forall u v, u < v -> v < length ms -> dist_of (combined ms) u v = dist_of (combined ms') u v).
          { intros u v Hu Hv. rewrite !combined_dist by lia. unfold ms'. now rewrite seen_app. }
          assert (Pos' : forall u v, u < v -> v < length ms' -> (0 <= seen ms' u v)%Z).
          { intros u v Hu Hv. rewrite Len in Hv. unfold ms'. destruct (Nat.eq_dec v (length ms)) as [->|Hn].
            - rewrite seen_last. now apply Lo. - rewrite seen_app by lia. apply Pos; auto. lia. }
          assert (V1 := tinv_ext _ _ _ _ _ _ Ag V).
          assert (HU : upper_triangle (combined ms') (S (length ms))) by (rewrite <- Len; now apply upper_combined).
          assert (HM : combined ms' <> []).
          { unfold combined. rewrite Len. discriminate. }
          destruct (insert_step eps md _ _ _ _ _ V1 HM HU) as (t1 & E1 & V2 & _).
          assert (Et : t = set_dm dmc t). { rewrite <- Vd. now destruct t. }
          assert (E2 : st_insert eps md t = Ok (set_dm dmc t1)).
          { rewrite Et. apply (insert_set dmc (combined ms') _ _ _ t t1 V1); auto; [congruence|].
            intros j Hj. rewrite dm_at_ok by now apply Lo. rewrite dm_at_ok.
            - rewrite combined_dist by lia. unfold ms'. now rewrite seen_last.
            - rewrite combined_row by lia. rewrite map_length, seq_length. lia. }
          rewrite E2. exists (set_dm dmc t1), cb. split; [reflexivity|]. split; [reflexivity|]. split; [auto|].
          rewrite set_set, Len. replace (set_dm (combined ms') t1) with t1; auto.
          rewrite <- (v_dm _ _ _ _ _ _ _ V2). now destruct t1.
      + destruct (clear_step eps md _ _ _ _ _ V) as (t' & E' & V'). { intros H. apply length_zero_iff_nil in H. now apply Lo. }
        unfold st_clear in *. cbn in E'. destruct (st_deletion (Ok tt) (st_roots t) (st_count t)) as [c|]; [|discriminate].
        cbn [bind] in *. injection E' as <-. eexists _, _. split; [reflexivity|]. cbn [m_matrix m_before m_seen length].
        split; [exact Vd|]. split; [intros; lia|]. apply (matrix_step eps md _ [] _ _ _ V').
      + exists (set_dm dm0 t), cb. split; [reflexivity|]. cbn [m_matrix m_before m_seen]. split; [reflexivity|]. split; [auto|].
        fold ms. now rewrite set_set.
      + eexists _, cb. split; [reflexivity|]. split; [|split; [auto|]].
        * unfold st_getAllEdges. now destruct (st_isSorted t).
        * assert (V' := sort_step eps md _ _ _ _ _ srt Hs V). unfold st_getAllEdges in *. cbn in V'. destruct (st_isSorted t); auto.
  Qed.

  Lemma tree_seen ms b cb t k s w : tinv eps md (combined ms) b (length ms) cb (set_dm (combined ms) t) ->
    In (s, w) (lev (st_weg t) k) <->
    exists s0, s = map (Nat.add b) s0 /\ length s0 = S k /\ seen_strict_rips ms eps s0 /\ within md s0 /\ diameter (seen ms) s0 w.
  Proof.
    intros V. assert (H := spec_shift eps md _ _ _ _ _ k s w V). cbn [set_dm st_setDistanceMatrix st_weg] in H. rewrite H. clear H.
    assert (F : forall s0, strict_rips (combined ms) eps (length ms) s0 <-> seen_strict_rips ms eps s0).
    { intros s0. apply flag_ext. intros u v Hu Hv. rewrite combined_dist by lia. tauto. }
    assert (Dd : forall s0, seen_strict_rips ms eps s0 -> diameter (dist_of (combined ms)) s0 w <-> diameter (seen ms) s0 w).
    { intros s0 (_ & _ & Hlt & _). split; apply diameter_ext; intros u v Hu Hv Huv; [|symmetry]; apply combined_dist; now apply Hlt. }
    split; intros (s0 & H1 & H2 & H3 & H4 & H5); exists s0; split; auto; split; auto.
    - assert (H3' := proj1 (F s0) H3). split; auto. split; auto. now apply Dd.
    - assert (H3' := proj2 (F s0) H3). split; auto. split; auto. now apply Dd.
  Qed.
End TreeUB.
