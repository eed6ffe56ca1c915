(* MultisetProofs.v -- the set operations of Utils/utils.cpp on vectors with repeated or unordered elements. *)
From Coq Require Import List Arith ZArith Bool Lia Sorted Permutation.
From Verif Require Import Base Spec UtilsModel UtilsProofs PartitionProofs.
Import ListNotations.

Local Notation cnt l x := (count_occ Nat.eq_dec l x).

Lemma sorted_cons x l : StronglySorted le (x :: l) <-> StronglySorted le l /\ forall y, In y l -> x <= y.
Proof.
  split.
  - intros H. inversion H; subst. split; auto. now rewrite <- Forall_forall.
  - intros [H1 H2]. constructor; auto. now rewrite Forall_forall.
Qed.

Lemma cnt_notin (l : list nat) x : ~ In x l -> cnt l x = 0.
Proof. apply count_occ_not_In. Qed.

Lemma cnt_below l x z : StronglySorted le (x :: l) -> z < x -> cnt (x :: l) z = 0.
Proof. intros S H. apply sorted_cons in S as [_ S]. apply cnt_notin. intros [->|Hz]; [lia|]. specialize (S z Hz). lia. Qed.

Lemma cnt_cons x l z : cnt (x :: l) z = (if x =? z then S (cnt l z) else cnt l z).
Proof. cbn. destruct (Nat.eq_dec x z) as [->|H]; [now rewrite Nat.eqb_refl|]. apply Nat.eqb_neq in H. now rewrite H. Qed.

Section Merge.
  (* one of the three merges, by its unfolding *)
  Variable f : list nat -> list nat -> list nat.
  Variable g : nat -> nat -> nat.     (* multiplicities *)
  Variable kl kr : list nat -> list nat.   (* what is left when one side is exhausted *)
  Variable ll lr lb : bool.           (* smaller left element, smaller right element, equal elements kept *)
  Definition keep (b : bool) (x : nat) (l : list nat) := if b then x :: l else l.
  Hypothesis f_nil_l : forall b, f [] b = kr b.
  Hypothesis f_nil_r : forall a, a <> [] -> f a [] = kl a.
  Hypothesis f_cons : forall x a y b, f (x :: a) (y :: b) =
    if x <? y then keep ll x (f a (y :: b)) else if y <? x then keep lr y (f (x :: a) b) else keep lb x (f a b).
  Hypothesis k_l : forall a, StronglySorted le a -> incl (kl a) a /\ StronglySorted le (kl a) /\ forall z, cnt (kl a) z = g (cnt a z) 0.
  Hypothesis k_r : forall b, StronglySorted le b -> incl (kr b) b /\ StronglySorted le (kr b) /\ forall z, cnt (kr b) z = g 0 (cnt b z).
  Hypothesis g_ll : forall n, g (S n) 0 = (if ll then S (g n 0) else g n 0).
  Hypothesis g_lr : forall n, g 0 (S n) = (if lr then S (g 0 n) else g 0 n).
  Hypothesis g_lb : forall n m, g (S n) (S m) = (if lb then S (g n m) else g n m).

  Lemma merge_spec a : forall b, StronglySorted le a -> StronglySorted le b ->
    (forall z, In z (f a b) -> In z a \/ In z b) /\ StronglySorted le (f a b) /\ forall z, cnt (f a b) z = g (cnt a z) (cnt b z).
  Proof.
    assert (K : forall bb x l, StronglySorted le l -> (forall z, In z l -> x <= z) -> StronglySorted le (keep bb x l)).
    { intros [] x l S H; cbn; auto. now apply sorted_cons. }
    assert (KI : forall bb x l z, In z (keep bb x l) -> z = x \/ In z l).
    { intros [] x l z H; cbn in H; auto. destruct H; auto. }
    assert (KC : forall bb x l z, cnt (keep bb x l) z = if bb && (x =? z) then S (cnt l z) else cnt l z).
    { intros [] x l z; auto. unfold keep. now rewrite cnt_cons. }
    induction a as [|x a IHa]; intros b Sa Sb.
    - rewrite f_nil_l. destruct (k_r b Sb) as (I & S & C). split; [auto|]. split; auto.
    - induction b as [|y b IHb].
      + rewrite f_nil_r by easy. destruct (k_l (x :: a) Sa) as (I & S & C). split; [auto|]. split; auto.
      + rewrite f_cons. assert (Sa' := Sa). assert (Sb' := Sb). apply sorted_cons in Sa' as [Sa1 Sa2]. apply sorted_cons in Sb' as [Sb1 Sb2].
        destruct (Nat.ltb_spec x y) as [Hxy|Hxy]; [|destruct (Nat.ltb_spec y x) as [Hyx|Hyx]].
        * destruct (IHa (y :: b) Sa1 Sb) as (I & S & C). split; [|split].
          -- intros z Hz. apply KI in Hz as [->|Hz]; [left; now left|]. destruct (I z Hz); auto. left. now right.
          -- apply K; auto. intros z Hz. destruct (I z Hz) as [H|[<-|H]]; [now apply Sa2|lia|]. specialize (Sb2 z H). lia.
          -- intros z. rewrite KC, C, (cnt_cons x a). destruct (Nat.eqb_spec x z) as [<-|Hn]; [|now rewrite andb_false_r].
             rewrite (cnt_below b y x Sb Hxy), g_ll. now destruct ll.
        * destruct (IHb Sb1) as (I & S & C). split; [|split].
          -- intros z Hz. apply KI in Hz as [->|Hz]; [right; now left|]. destruct (I z Hz); auto. right. now right.
          -- apply K; auto. intros z Hz. destruct (I z Hz) as [[<-|H]|H]; [lia| |now apply Sb2]. specialize (Sa2 z H). lia.
          -- intros z. rewrite KC, C, (cnt_cons y b). destruct (Nat.eqb_spec y z) as [<-|Hn]; [|now rewrite andb_false_r].
             rewrite (cnt_below a x y Sa Hyx), g_lr. now destruct lr.
        * assert (x = y) by lia. subst y. destruct (IHa b Sa1 Sb1) as (I & S & C). split; [|split].
          -- intros z Hz. apply KI in Hz as [->|Hz]; [left; now left|]. destruct (I z Hz); [left; now right|right; now right].
          -- apply K; auto. intros z Hz. destruct (I z Hz); auto.
          -- intros z. rewrite KC, C, (cnt_cons x a), (cnt_cons x b). destruct (Nat.eqb_spec x z) as [<-|Hn]; [|now rewrite andb_false_r].
             rewrite g_lb. now destruct lb.
  Qed.
End Merge.

Lemma union_multi a b : StronglySorted le a -> StronglySorted le b ->
  StronglySorted le (set_union a b) /\ forall z, cnt (set_union a b) z = Nat.max (cnt a z) (cnt b z).
Proof.
  intros Sa Sb.
  destruct (merge_spec set_union Nat.max (fun a => a) (fun b => b) true true true) with (a := a) (b := b) as (_ & S & C); auto.
  - destruct b0; reflexivity.
  - intros [|x l] H; [easy|reflexivity].
  - intros l S. split; [apply incl_refl|]. split; auto. intros z. lia.
  - intros l S. split; [apply incl_refl|]. split; auto.
  - intros n. lia.
Qed.

Lemma inter_multi a b : StronglySorted le a -> StronglySorted le b ->
  StronglySorted le (set_intersection a b) /\ forall z, cnt (set_intersection a b) z = Nat.min (cnt a z) (cnt b z).
Proof.
  intros Sa Sb.
  destruct (merge_spec set_intersection Nat.min (fun a => []) (fun b => []) false false true) with (a := a) (b := b) as (_ & S & C); auto.
  - destruct b0; reflexivity.
  - intros [|x l] H; [easy|reflexivity].
  - intros l S. split; [easy|]. split; [constructor|]. intros z. cbn. lia.
  - intros l S. split; [easy|]. split; [constructor|]. intros z. reflexivity.
  - intros n. lia.
Qed.

Definition apart (n m : nat) : nat := (n - m) + (m - n).

Lemma symdiff_multi a b : StronglySorted le a -> StronglySorted le b ->
  StronglySorted le (set_symmetric_difference a b) /\
  forall z, cnt (set_symmetric_difference a b) z = (cnt a z - cnt b z) + (cnt b z - cnt a z).
Proof.
  intros Sa Sb.
  destruct (merge_spec set_symmetric_difference apart (fun a => a) (fun b => b) true true false) with (a := a) (b := b) as (_ & S & C);
    auto; unfold apart.
  - destruct b0; reflexivity.
  - intros [|x l] H; [easy|reflexivity].
  - intros l S. split; [apply incl_refl|]. split; auto. intros z. lia.
  - intros l S. split; [apply incl_refl|]. split; auto. intros z. lia.
  - intros n. lia.
  - intros n. lia.
Qed.

Lemma sorted_unique a : forall b, StronglySorted le a -> StronglySorted le b -> (forall z, cnt a z = cnt b z) -> a = b.
Proof.
  induction a as [|x a IH]; intros b Sa Sb H.
  - destruct b as [|y b]; auto. specialize (H y). cbn in H. destruct (Nat.eq_dec y y); easy.
  - destruct b as [|y b]. { specialize (H x). cbn in H. destruct (Nat.eq_dec x x); easy. }
    assert (x = y).
    { destruct (Nat.lt_trichotomy x y) as [Hl|[He|Hl]]; auto; exfalso.
      - assert (Hx := H x). rewrite (cnt_below b y x Sb Hl), cnt_cons, Nat.eqb_refl in Hx. lia.
      - assert (Hy := H y). rewrite (cnt_below a x y Sa Hl), cnt_cons, Nat.eqb_refl in Hy. lia. }
    subst y. f_equal. apply sorted_cons in Sa as [Sa _], Sb as [Sb _]. apply IH; auto. intros z. specialize (H z).
    rewrite !cnt_cons in H. destruct (x =? z); lia.
Qed.

Lemma nsort_cnt l z : cnt (nsort l) z = cnt l z.
Proof. apply (Permutation_count_occ Nat.eq_dec). apply nsort_perm. Qed.

Lemma nsort_sorted l : StronglySorted le (nsort l).
Proof.
  induction l as [|x l IH]; cbn; [constructor|]. fold (nsort l). revert IH. generalize (nsort l). clear.
  induction l as [|y l IH]; cbn; intros S; [repeat constructor|].
  destruct (Nat.leb_spec x y) as [H|H].
  - apply sorted_cons. split; auto. intros z [<-|Hz]; auto. apply sorted_cons in S as [_ S]. specialize (S z Hz). lia.
  - apply sorted_cons in S as [S1 S2]. apply sorted_cons. split; auto. intros z Hz.
    assert (P : Permutation (ninsert x l) (x :: l)).
    { clear. induction l as [|u l IH]; cbn; auto. destruct (x <=? u); auto. rewrite IH. apply perm_swap. }
    apply (Permutation_in _ P) in Hz as [<-|Hz]; [lia|auto].
Qed.

(* the merges do not look at which argument is which *)
Lemma union_comm a : forall b, set_union a b = set_union b a.
Proof.
  induction a as [|x a IHa]; intros b; [now destruct b|]. induction b as [|y b IHb]; [reflexivity|]. cbn.
  destruct (Nat.ltb_spec x y), (Nat.ltb_spec y x); try lia.
  - now rewrite IHa. - f_equal. exact IHb. - rewrite IHa. f_equal. lia.
Qed.
Lemma inter_comm a : forall b, set_intersection a b = set_intersection b a.
Proof.
  induction a as [|x a IHa]; intros b; [now destruct b|]. induction b as [|y b IHb]; [reflexivity|]. cbn.
  destruct (Nat.ltb_spec x y), (Nat.ltb_spec y x); try lia.
  - now rewrite IHa. - exact IHb. - rewrite IHa. f_equal. lia.
Qed.
Lemma symdiff_comm a : forall b, set_symmetric_difference a b = set_symmetric_difference b a.
Proof.
  induction a as [|x a IHa]; intros b; [now destruct b|]. induction b as [|y b IHb]; [reflexivity|]. cbn.
  destruct (Nat.ltb_spec x y), (Nat.ltb_spec y x); try lia.
  - now rewrite IHa. - f_equal. exact IHb. - apply IHa.
Qed.

(* ---- all facets, by position ---- *)
Lemma all_subsets_snoc ins l x : all_subsets ins (l ++ [x]) = all_subsets ins l ++ map (ins x) (all_subsets ins l).
Proof. unfold all_subsets. now rewrite fold_left_app. Qed.

Lemma push_length l : forall z, In z (all_subsets push_back l) -> length z <= length l.
Proof.
  induction l as [|x l IH] using rev_ind; intros z H; [destruct H as [<-|[]]; auto|].
  rewrite all_subsets_snoc in H. rewrite app_length. cbn. apply in_app_iff in H as [H|H].
  - apply IH in H. lia. - apply in_map_iff in H as (y & <- & H). apply IH in H. unfold push_back. rewrite app_length. cbn. lia.
Qed.

Lemma filter_map_push (p q : list nat -> bool) x l : (forall z, p (push_back x z) = q z) ->
  filter p (map (push_back x) l) = map (push_back x) (filter q l).
Proof. intros H. induction l as [|z l IH]; cbn; auto. rewrite H. destruct (q z); cbn; now rewrite IH. Qed.

Lemma push_full l : filter (fun z => length z =? length l) (all_subsets push_back l) = [l].
Proof.
  induction l as [|x l IH] using rev_ind; [reflexivity|]. rewrite all_subsets_snoc, filter_app.
  rewrite (filter_map_push _ (fun z => length z =? length l)).
  2: { intros z. unfold push_back. rewrite !app_length. cbn. rewrite !Nat.add_1_r. reflexivity. }
  rewrite IH. cbn. replace (filter _ (all_subsets push_back l)) with (@nil (list nat)); [reflexivity|].
  assert (H := push_length l). revert H. generalize (all_subsets push_back l). induction l0 as [|z l0 IHl]; intros H; auto. cbn.
  rewrite app_length. cbn. destruct (Nat.eqb_spec (length z) (length l + 1)) as [E|E].
  - specialize (H z (or_introl eq_refl)). lia. - rewrite app_length in IHl. cbn in IHl. apply IHl. intros y Hy. apply H. now right.
Qed.

Lemma facets_by_position l : getSubsets l = map (fun i => firstn i l ++ skipn (S i) l) (rev (seq 0 (length l))).
Proof.
  unfold getSubsets. induction l as [|x l IH] using rev_ind; [reflexivity|].
  rewrite all_subsets_snoc, filter_app, app_length. cbn [length]. rewrite Nat.add_1_r.
  rewrite (filter_map_push _ (fun z => S (length z) =? length l)).
  2: { intros z. unfold push_back. rewrite app_length. cbn. rewrite Nat.add_1_r. reflexivity. }
  rewrite IH. change (filter (fun z : list nat => S (length z) =? S (length l)) (all_subsets push_back l))
    with (filter (fun z => length z =? length l) (all_subsets push_back l)).
  rewrite push_full, seq_S, rev_app_distr. cbn [rev app map Nat.add]. rewrite firstn_app, firstn_all, Nat.sub_diag. cbn [firstn Nat.add].
  rewrite app_nil_r, skipn_all2 by (rewrite app_length; cbn; lia). rewrite app_nil_r. f_equal. rewrite map_map.
  apply map_ext_in. intros i Hi. rewrite <- in_rev, in_seq in Hi. unfold push_back.
  rewrite firstn_app, skipn_app. replace (i - length l) with 0 by lia. replace (S i - length l) with 0 by lia. cbn [firstn skipn].
  rewrite app_nil_r, app_assoc. reflexivity.
Qed.
