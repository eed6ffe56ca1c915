(* CollapseProofs.v -- lemmas about CollapseModel.v. *)
From Coq Require Import List Arith ZArith Bool Lia Sorted Permutation.
From Verif Require Import Base RunMonad Spec UtilsModel UtilsProofs PartitionProofs ArrayListModel ArrayListProofs ArrayListInv SpecComplex ArrayListHist CollapseModel SpecCollapse SpecGraph KruskalProofs ReductionProofs.
Import ListNotations.
Local Open Scope nat_scope.

Lemma without_del v s : without v s = del v s. Proof. reflexivity. Qed.

Lemma among_In v l : among v l = true <-> In v l.
Proof.
  unfold among. rewrite existsb_exists. split.
  - intros (x & H & E). apply nlist_eqb_eq in E. now subst.
  - intros H. exists v. split; [exact H|]. now apply nlist_eqb_eq.
Qed.
Lemma among_false v l : among v l = false <-> ~ In v l.
Proof. rewrite <- among_In. destruct (among v l); split; congruence. Qed.

(* ------------------------------------------------------------------ the order of getSubsets *)
Lemma all_subsets_short l z : In z (all_subsets push_back l) -> length z <= length l.
Proof. intros H. apply all_subsets_mem in H. induction H; cbn; rewrite ?List.app_length; cbn; lia. Qed.

Lemma filter_none {A} (f : A -> bool) l : (forall x, In x l -> f x = false) -> filter f l = [].
Proof. induction l as [|a l IH]; intros H; [reflexivity|]. cbn. rewrite (H a (or_introl eq_refl)). apply IH. intros x Hx. apply H. now right. Qed.

Lemma filter_push f g x l : (forall z, f (push_back x z) = g z) -> filter f (map (push_back x) l) = map (push_back x) (filter g l).
Proof. intros H. induction l as [|a l IH]; [reflexivity|]. cbn. rewrite H, IH. destruct (g a); reflexivity. Qed.

Lemma subsets_full l : filter (fun z => length z =? length l) (all_subsets push_back l) = [l].
Proof.
  induction l as [|x l IH] using rev_ind; [reflexivity|].
  rewrite all_subsets_snoc, filter_app, (filter_none _ (all_subsets push_back l)).
  - rewrite (filter_push _ (fun z => length z =? length l)).
    + rewrite IH. reflexivity.
    + intros z. unfold push_back. rewrite !List.app_length. cbn [length]. destruct (Nat.eqb_spec (length z) (length l)); destruct (Nat.eqb_spec (length z + 1) (length l + 1)); lia.
  - intros z Hz. apply all_subsets_short in Hz. apply Nat.eqb_neq. rewrite List.app_length. cbn [length]. lia.
Qed.

Lemma getSubsets_snoc l x : getSubsets (l ++ [x]) = l :: map (push_back x) (getSubsets l).
Proof.
  unfold getSubsets. rewrite all_subsets_snoc, filter_app.
  rewrite (filter_ext _ (fun z => length z =? length l)).
  - rewrite subsets_full. cbn [app]. f_equal. apply filter_push. intros z. unfold push_back. rewrite !List.app_length. cbn [length].
    destruct (Nat.eqb_spec (S (length z + 1)) (length l + 1)), (Nat.eqb_spec (S (length z)) (length l)); lia.
  - intros z. rewrite List.app_length. cbn [length]. destruct (Nat.eqb_spec (S (length z)) (length l + 1)), (Nat.eqb_spec (length z) (length l)); lia.
Qed.

Lemma getSubsets_rev s : ssorted s -> getSubsets s = map (fun v => del v s) (rev s).
Proof.
  induction s as [|x s IH] using rev_ind; intros S; [reflexivity|].
  rewrite getSubsets_snoc, rev_app_distr. cbn [rev app map].
  pose proof S as S'. apply ssorted_app in S' as (S1 & _ & L). f_equal.
  - symmetry. rewrite (del_app_mid s x []); [apply app_nil_r|exact S].
  - rewrite (IH S1), map_map. apply map_ext_in. intros v Hv. apply in_rev in Hv. unfold push_back, del. rewrite filter_app. cbn.
    specialize (L v x Hv (or_introl eq_refl)). destruct (Nat.eqb_spec x v); [lia|reflexivity].
Qed.

(* ------------------------------------------------------------------ the face chosen for a simplex *)
Definition pick (K : list wsimp) (w : Z) (m f : list nat) : list nat := if (find_in_level K f =? w)%Z then f else m.
Definition chosen (K : list wsimp) (t : wsimp) : list nat := fold_left (pick K (snd t)) (getSubsets (fst t)) [].

Lemma find_in_level_In K f w : NoDup (map fst K) -> (exists w', In (f, w') K) -> (find_in_level K f =? w)%Z = true <-> In (f, w) K.
Proof.
  intros N (w' & Hw'). rewrite Z.eqb_eq. unfold find_in_level. destruct (find _ K) as [[s x]|] eqn:E.
  - apply find_some in E as [Hin Heq]. cbn in Heq. apply nlist_eqb_eq in Heq. subst s. cbn. split.
    + now intros <-.
    + intros H. revert Hin H. clear -N. induction K as [|[a b] K IH]; [easy|]. cbn in N. inversion N as [|? ? N1 N2]; subst. intros [A|A] [B|B].
      * congruence.
      * inversion A; subst. elim N1. apply in_map_iff. now exists (f, w).
      * inversion B; subst. elim N1. apply in_map_iff. now exists (f, x).
      * now apply IH.
  - pose proof (find_none _ _ E _ Hw') as X. cbn in X. assert (nlist_eqb f f = true) by now apply nlist_eqb_eq. congruence.
Qed.

Lemma fold_pick (g : nat -> list nat) (p : nat -> bool) l m0 : (exists v, In v l /\ p v = true) ->
  exists a v b, l = a ++ v :: b /\ p v = true /\ (forall u, In u a -> p u = false) /\
    fold_left (fun m v => if p v then g v else m) (rev l) m0 = g v.
Proof.
  induction l as [|x l IH]; intros (v & Hv & Pv); [easy|]. cbn [rev]. rewrite fold_left_app. cbn. destruct (p x) eqn:E.
  - exists [], x, l. repeat split; auto. now intros u [].
  - destruct Hv as [->|Hv]; [congruence|]. destruct IH as (a & y & b & -> & P & Q & R); [now exists v|].
    exists (x :: a), y, b. split; [reflexivity|]. split; [exact P|]. split; [|exact R]. intros u [<-|Hu]; auto.
Qed.

Lemma fold_left_map {A B C} (f : A -> C -> A) (g : B -> C) l a : fold_left f (map g l) a = fold_left (fun a b => f a (g b)) l a.
Proof. revert a; induction l as [|b l IH]; intros a; [reflexivity|]. apply IH. Qed.

Lemma chosen_spec K t : NoDup (map fst K) -> ssorted (fst t) ->
  (forall v, In v (fst t) -> exists w, In (del v (fst t), w) K) -> (exists v, In v (fst t) /\ In (del v (fst t), snd t) K) ->
  exists v, In v (fst t) /\ chosen K t = del v (fst t) /\ In (del v (fst t), snd t) K /\
    forall u, In u (fst t) -> u < v -> ~ In (del u (fst t), snd t) K.
Proof.
  intros N S C (v & Hv & Ev). unfold chosen. rewrite (getSubsets_rev _ S), fold_left_map.
  destruct (fold_pick (fun v => del v (fst t)) (fun v => (find_in_level K (del v (fst t)) =? snd t)%Z) (fst t) []) as (a & x & b & E & P & Q & R).
  { exists v. split; [exact Hv|]. apply find_in_level_In; auto. }
  assert (X : In x (fst t)) by (rewrite E; apply in_app_iff; right; now left).
  exists x. split; [exact X|]. split; [exact R|]. split.
  - apply find_in_level_In in P; auto.
  - intros u Hu Lt H. apply find_in_level_In in H; auto. rewrite E in S. apply ssorted_app in S as (_ & S & _). apply ssorted_cons in S as [_ S].
    assert (Ua : In u a). { rewrite E in Hu. apply in_app_iff in Hu as [Hu|[->|Hu]]; [exact Hu|lia|]. specialize (S u Hu). lia. }
    rewrite (Q u Ua) in H. discriminate.
Qed.

(* ------------------------------------------------------------------ one level *)
Section Level.
  Variable wg : wgraph.
  Variable k : nat.                 (* the level S k is reduced *)
  Let L := level wg (S k).
  Let K := level wg k.
  Hypothesis Len : S k < length wg.
  Hypothesis NL : NoDup (map fst L).
  Hypothesis NK : NoDup (map fst K).
  Hypothesis Shape : forall s w, In (s, w) L -> length s = S (S k) /\ ssorted s.
  Hypothesis Faces : forall s w v, In (s, w) L -> In v s -> exists w', In (del v s, w') K.
  Hypothesis Has : forall s w, In (s, w) L -> exists v, In v s /\ In (del v s, w) K.

  (* What a call does to removals and checked. *)
  Definition grows (rc rc' : lists) : Prop :=
    NoDup (snd rc') /\ incl (snd rc') (map fst L) /\ incl (snd rc) (snd rc') /\
    (forall x, In x (fst rc') <-> In x (fst rc) \/
       exists t, In t L /\ In (fst t) (snd rc') /\ ~ In (fst t) (snd rc) /\ (x = fst t \/ x = chosen K t)).

  Lemma grows_refl rc : NoDup (snd rc) -> incl (snd rc) (map fst L) -> grows rc rc.
  Proof.
    intros N I. split; [exact N|]. split; [exact I|]. split; [now intros x|]. intros x. split; [now left|]. intros [H|(t & _ & A & B & _)]; [exact H|contradiction].
  Qed.
  Lemma grows_trans a b c : grows a b -> grows b c -> grows a c.
  Proof.
    intros (N1 & I1 & M1 & R1) (N2 & I2 & M2 & R2). split; [exact N2|]. split; [exact I2|]. split; [intros x Hx; auto|].
    intros x. rewrite R2, R1. split.
    - intros [[H|(t & A & B & C & D)]|(t & A & B & C & D)]; [now left|right; exists t; auto|right; exists t; split; [exact A|]; split; [exact B|]; split; [|exact D]; intros Q; now apply C, M1].
    - intros [H|(t & A & B & C & D)]; [auto|]. destruct (in_dec (list_eq_dec Nat.eq_dec) (fst t) (snd b)) as [E|E].
      + left. right. exists t. auto.
      + right. exists t. auto.
  Qed.
  Lemma grows_length a b : NoDup (snd a) -> grows a b -> length (snd a) <= length (snd b).
  Proof. intros N (_ & _ & M & _). now apply NoDup_incl_length. Qed.

  Definition called (fuel : nat) : Prop := forall s rc, In s L -> ~ In (fst s) (snd rc) -> NoDup (snd rc) -> incl (snd rc) (map fst L) ->
    length L - length (snd rc) <= fuel ->
    exists rc', recurseReduce fuel wg s rc = Some (Ok rc') /\ grows rc rc' /\ In (fst s) (snd rc').

  Lemma neighbours_spec fuel simplex face : called fuel -> forall lev rc, incl lev L -> NoDup (snd rc) -> incl (snd rc) (map fst L) ->
    length L - length (snd rc) <= fuel ->
    exists rc', neighbours (recurseReduce fuel wg) simplex face lev true rc = Some (Ok (true, rc')) /\ grows rc rc'.
  Proof.
    intros Call. induction lev as [|simp lev IH]; intros rc Hl N I F.
    - exists rc. split; [reflexivity|]. now apply grows_refl.
    - assert (Hl' : incl lev L) by (intros x Hx; apply Hl; now right). cbn [neighbours].
      destruct (negb (wsimp_eqb simp simplex) && negb (among (fst simp) (snd rc))) eqn:E; [|now apply IH].
      apply andb_true_iff in E as [_ E]. apply negb_true_iff, among_false in E.
      destruct (_ =? 1); [|now apply IH].
      destruct (Call simp rc (Hl _ (or_introl eq_refl)) E N I F) as (rc1 & E1 & G1 & In1). rewrite E1. cbn [rbind].
      assert (R1 : In (fst simp) (fst rc1)).
      { destruct G1 as (_ & _ & _ & G). apply G. right. exists simp. split; [apply Hl; now left|]. auto. }
      apply among_In in R1. rewrite R1. destruct (IH rc1 Hl') as (rc2 & E2 & G2).
      + apply G1. + apply G1. + pose proof (grows_length rc rc1 N G1). lia.
      + exists rc2. split; [exact E2|]. now apply (grows_trans rc rc1).
  Qed.

  Lemma faces_spec fuel s : called fuel -> In s L -> forall fs, incl fs (getSubsets (fst s)) -> forall m rc, NoDup (snd rc) -> incl (snd rc) (map fst L) ->
    length L - length (snd rc) <= fuel ->
    exists rc', foldr_run (reduce_face (recurseReduce fuel wg) wg s) (true, m, rc) fs =
        Some (Ok (true, fold_left (pick K (snd s)) fs m, rc')) /\ grows rc rc'.
  Proof.
    intros Call Hs. induction fs as [|f fs IH]; intros Hf m rc N I F.
    - exists rc. split; [reflexivity|]. now apply grows_refl.
    - cbn [foldr_run]. unfold reduce_face at 1. destruct s as [s w]. destruct (Shape s w Hs) as [Ls Ss]. cbn [fst snd] in *.
      unfold level_of. rewrite Ls. rewrite at_lev by exact Len. cbn [lift rbind].
      destruct (neighbours_spec fuel (s, w) f Call (level wg (S k)) rc) as (rc1 & E1 & G1); [now intros x|exact N|exact I|exact F|].
      unfold level in E1 at 1. rewrite E1. cbn [rbind fst snd].
      assert (Lf : length f = S k). { assert (X := getSubsets_length s f (Hf f (or_introl eq_refl))). lia. }
      unfold findWeight. rewrite Lf. rewrite at_lev by lia. cbn [bind lift rbind ret].
      destruct (IH (fun x Hx => Hf x (or_intror Hx)) (pick K w m f) rc1) as (rc2 & E2 & G2).
      + apply G1. + apply G1. + pose proof (grows_length rc rc1 N G1). lia.
      + exists rc2. split; [|now apply (grows_trans rc rc1)]. exact E2.
  Qed.

  Lemma recurse_spec fuel : called fuel.
  Proof.
    induction fuel as [|fuel Call]; intros s rc Hs Hn N I F.
    - exfalso. assert (X : length (fst s :: snd rc) <= length (map fst L)).
      { apply NoDup_incl_length; [now constructor|]. intros x [<-|Hx]; [apply in_map_iff; exists s; auto|now apply I]. }
      rewrite map_length in X. cbn in X. lia.
    - cbn [recurseReduce].
      assert (N1 : NoDup (snd rc ++ [fst s])) by (apply NoDup_snoc; auto).
      assert (I1 : incl (snd rc ++ [fst s]) (map fst L)).
      { intros x Hx. apply in_app_iff in Hx as [Hx|[<-|[]]]; [now apply I|]. apply in_map_iff. now exists s. }
      destruct (faces_spec fuel s Call Hs (getSubsets (fst s)) (fun x H => H) [] (fst rc, snd rc ++ [fst s]) N1 I1) as (rc1 & E1 & G1).
      { cbn [snd]. rewrite List.app_length. cbn [length]. lia. }
      rewrite E1. cbn [rbind ret fst snd].
      destruct G1 as (GN & GI & GM & GR). cbn [fst snd] in *.
      assert (Inn : In (fst s) (snd rc1)) by (apply GM, in_app_iff; right; now left).
      eexists. split; [reflexivity|]. cbn [fst snd]. split; [|exact Inn].
      split; [exact GN|]. split; [exact GI|]. split; [intros x Hx; apply GM, in_app_iff; now left|]. cbn [fst snd].
      intros x. rewrite in_app_iff, GR. split.
      + intros [[H|(t & A & B & C & D)]|H]; [now left| |].
        * right. exists t. split; [exact A|]. split; [exact B|]. split; [|exact D]. intros Q. apply C, in_app_iff. now left.
        * right. exists s. split; [exact Hs|]. split; [exact Inn|]. split; [exact Hn|]. cbn in H. destruct H as [<-|[<-|[]]]; [now left|now right].
      + intros [H|(t & A & B & C & D)]; [auto|]. destruct (list_eq_dec Nat.eq_dec (fst t) (fst s)) as [Q|Q].
        * assert (t = s). { clear -A Hs Q NL. revert A Hs NL. generalize L. intros l A Hs NL. induction l as [|y l IH]; [easy|]. cbn in NL. inversion NL as [|? ? P R]; subst.
            destruct A as [->|A], Hs as [->|Hs]; auto.
            - elim P. rewrite Q. now apply in_map. - elim P. rewrite <- Q. now apply in_map. }
          subst t. right. unfold chosen in D. cbn. destruct D as [->| ->]; auto.
        * left. right. exists t. split; [exact A|]. split; [exact B|]. split; [|exact D]. intros X. apply in_app_iff in X as [X|[X|[]]]; [auto|]. now apply Q.
  Qed.

  Lemma pass_spec fuel : length L <= fuel -> forall lev rc, incl lev L -> NoDup (snd rc) -> incl (snd rc) (map fst L) ->
    exists rc', reduce_pass fuel wg lev rc = Some (Ok rc') /\ grows rc rc' /\ incl (map fst lev) (snd rc').
  Proof.
    intros F. induction lev as [|l lev IH]; intros rc Hl N I.
    - exists rc. split; [reflexivity|]. split; [now apply grows_refl|now intros x].
    - unfold reduce_pass in *. cbn [foldr_run]. assert (Hl' : incl lev L) by (intros x Hx; apply Hl; now right).
      assert (St : exists rc1, (if among (fst l) (snd rc) then ret rc else recurseReduce fuel wg l rc) = Some (Ok rc1) /\ grows rc rc1 /\ In (fst l) (snd rc1)).
      { destruct (among (fst l) (snd rc)) eqn:E.
        - exists rc. split; [reflexivity|]. split; [now apply grows_refl|]. now apply among_In.
        - apply among_false in E. apply recurse_spec; auto. + apply Hl; now left. + lia. }
      destruct St as (rc1 & E1 & G1 & In1). rewrite E1. cbn [rbind]. destruct (IH rc1 Hl') as (rc2 & E2 & G2 & I2); [apply G1|apply G1|].
      exists rc2. split; [exact E2|]. split; [now apply (grows_trans rc rc1)|]. cbn [map]. intros x [<-|Hx]; [|now apply I2]. apply G2. exact In1.
  Qed.

  Lemma level_spec fuel : S (length L) < fuel ->
    exists rc, reduce_level fuel wg L ([], []) = Some (Ok rc) /\
      forall x, In x (fst rc) <-> exists t, In t L /\ (x = fst t \/ x = chosen K t).
  Proof.
    intros F. destruct fuel as [|fuel]; [lia|]. cbn [reduce_level snd length]. destruct (Nat.eqb_spec 0 (length L)) as [E|E].
    - exists ([], []). split; [reflexivity|]. intros x. split; [easy|]. intros (t & H & _). destruct L; [easy|discriminate].
    - destruct (pass_spec (S fuel)) with (lev := L) (rc := (@nil (list nat), @nil (list nat))) as (rc & E1 & (GN & GI & GM & GR) & A); [lia|now intros x|constructor|now intros x|].
      rewrite E1. cbn [rbind]. destruct fuel as [|fuel]; [lia|]. cbn [reduce_level].
      assert (Ln : length (snd rc) = length L).
      { apply Nat.le_antisymm.
        - rewrite <- (map_length fst L). now apply NoDup_incl_length.
        - rewrite <- (map_length fst L). now apply NoDup_incl_length. }
      rewrite Ln, Nat.eqb_refl. exists rc. split; [reflexivity|]. intros x. rewrite GR. cbn [fst snd]. split.
      + intros [[]|(t & B & _ & _ & D)]. exists t. auto.
      + intros (t & B & D). right. exists t. split; [exact B|]. split; [apply A, in_map, B|]. auto.
  Qed.
End Level.

(* ------------------------------------------------------------------ deletion *)
Definition kept (rem : list (list nat)) (l : list wsimp) : list wsimp := filter (fun s => negb (among (fst s) rem)) l.

Lemma erase_first_filter v l : NoDup (map fst l) -> erase_first v l = filter (fun s => negb (nlist_eqb (fst s) v)) l.
Proof.
  induction l as [|s l IH]; intros N; [reflexivity|]. cbn in N. inversion N as [|? ? A B]; subst. cbn [erase_first filter].
  destruct (nlist_eqb (fst s) v) eqn:E; cbn [negb].
  - apply nlist_eqb_eq in E. subst v. symmetry. apply filter_all. intros x Hx. apply negb_true_iff, nlist_eqb_neq. intros Q. apply A. rewrite <- Q. now apply in_map.
  - f_equal. now apply IH.
Qed.

Lemma NoDup_filter_fst (f : wsimp -> bool) l : NoDup (map fst l) -> NoDup (map fst (filter f l)).
Proof.
  induction l as [|s l IH]; intros N; [constructor|]. cbn in N. inversion N as [|? ? A B]; subst. cbn. destruct (f s); [|auto]. cbn. constructor; [|auto].
  intros H. apply A. apply in_map_iff in H as (x & <- & Hx). apply filter_In in Hx. now apply in_map.
Qed.

Lemma deletions_spec : forall rem wg,
  (forall j, NoDup (map fst (level wg j))) -> (forall j s w, In (s, w) (level wg j) -> length s = S j) ->
  (forall v, In v rem -> v <> [] /\ length v <= length wg) ->
  exists wg', foldr_ub deletion wg rem = Ok wg' /\ length wg' = length wg /\ forall j, level wg' j = kept rem (level wg j).
Proof.
  induction rem as [|v rem IH]; intros wg N Sh R.
  - exists wg. split; [reflexivity|]. split; [reflexivity|]. intros j. symmetry. apply filter_all. reflexivity.
  - cbn [foldr_ub]. destruct (R v (or_introl eq_refl)) as [R1 R2]. unfold deletion at 1. destruct v as [|x v]; [congruence|]. cbn [length] in *.
    destruct (upd_lev wg (length v) (erase_first (x :: v))) as (wg1 & E1 & L1 & A1 & B1); [lia|]. rewrite E1. cbn [bind].
    assert (Lv : forall j, level wg1 j = filter (fun s => negb (nlist_eqb (fst s) (x :: v))) (level wg j)).
    { intros j. unfold level. destruct (Nat.eq_dec j (length v)) as [->|Q].
      - rewrite A1. apply erase_first_filter. apply (N (length v)).
      - rewrite B1 by exact Q. symmetry. apply filter_all. intros [s w] Hs. apply negb_true_iff, nlist_eqb_neq. cbn. intros ->. apply Q.
        pose proof (Sh j (x :: v) w Hs) as X. cbn in X. lia. }
    destruct (IH wg1) as (wg2 & E2 & L2 & A2).
    + intros j. rewrite Lv. now apply NoDup_filter_fst.
    + intros j s w. rewrite Lv, filter_In. intros [H _]. eauto.
    + intros u Hu. rewrite L1. apply R. now right.
    + exists wg2. split; [exact E2|]. split; [congruence|]. intros j. rewrite A2, Lv. unfold kept. clear. induction (level wg j) as [|s l IHl]; [reflexivity|]. cbn [filter].
      unfold among at 2. cbn [existsb]. fold (among (fst s) rem). destruct (nlist_eqb (fst s) (x :: v)) eqn:E; cbn [negb orb filter]; [exact IHl|]. rewrite IHl. reflexivity.
Qed.

(* ------------------------------------------------------------------ the whole collapse *)
(* A complex as the array list holds it: every level without repetitions, faces present and not heavier, and the weight
   of a simplex of dimension at least 2 is the weight of one of its faces. *)
Record closed_complex (wg : wgraph) : Prop := {
  cc_nodup : forall k, NoDup (map fst (level wg k));
  cc_shape : forall k s w, In (s, w) (level wg k) -> length s = S k /\ ssorted s;
  cc_face : forall k s w v, In (s, w) (level wg (S k)) -> In v s -> exists w', In (del v s, w') (level wg k) /\ (w' <= w)%Z;
  cc_has : forall k s w, 1 <= k -> In (s, w) (level wg (S k)) -> exists v, In v s /\ In (del v s, w) (level wg k);
}.

Lemma del_len v s : ssorted s -> In v s -> length (del v s) = length s - 1.
Proof. intros S H. pose proof (del_length v s (ssorted_NoDup _ S) H). lia. Qed.

Lemma chosen_top wg k t : closed_complex wg -> 1 <= k -> In t (level wg (S k)) ->
  forall f, top_face wg t f <-> f = chosen (level wg k) t.
Proof.
  intros C Hk Ht f. destruct t as [s w]. destruct (cc_shape wg C _ _ _ Ht) as [Ls Ss].
  destruct (chosen_spec (level wg k) (s, w)) as (v & Hv & E & Hin & Hno).
  - apply C. - exact Ss.
  - intros v Hv. cbn [fst] in *. destruct (cc_face wg C _ _ _ _ Ht Hv) as (w' & H & _). now exists w'.
  - apply (cc_has wg C _ _ _ Hk Ht).
  - cbn [fst snd] in *. assert (Lv : forall u, In u s -> length (without u s) - 1 = k). { intros u Hu. rewrite without_del, del_len by auto. lia. }
    split.
    + intros (u & Hu & -> & A & B). cbn [fst snd] in *. rewrite E. rewrite (Lv u Hu) in A, B. destruct (Nat.lt_trichotomy u v) as [Q|[->|Q]].
      * elim (Hno u Hu Q A). * reflexivity. * elim (B v Hv Q Hin).
    + intros ->. exists v. cbn [fst snd]. rewrite E. split; [exact Hv|]. split; [reflexivity|]. pose proof (Lv v Hv) as X. rewrite without_del in X. rewrite X. split; [exact Hin|exact Hno].
Qed.

Lemma stays_In wg a k s : stays wg a k s -> In s (level wg k).
Proof. destruct a; intros [H _]; exact H. Qed.

Record reduced_to (wg wg' : wgraph) (i : nat) : Prop := {
  rt_length : length wg' = length wg;
  rt_below : forall j, j < i -> level wg' j = level wg j;
  rt_at : (exists p, level wg' i = filter p (level wg i)) /\ forall s, In s (level wg' i) <-> stays wg (length wg - 1 - i) i s;
  rt_above : forall j, i < j -> level wg' j = [];
}.

Lemma reduce_from_spec wg fuel : closed_complex wg -> (forall k, S (length (level wg k)) < fuel) ->
  forall i wg1, 1 <= i -> i < length wg -> reduced_to wg wg1 i ->
  exists wg', reduce_from fuel wg1 i = Some (Ok wg') /\ reduced_to wg wg' 1.
Proof.
  intros C F. induction i as [|i IH]; intros wg1 H1 Hi R; [lia|]. cbn [reduce_from]. destruct (Nat.ltb_spec 1 (S i)) as [Q|Q].
  2:{ assert (i = 0) by lia. subst i. exists wg1. split; [reflexivity|exact R]. }
  destruct R as [Rl Rb [(p & Rp) Ra] Rn].
  rewrite at_lev by lia. cbn [lift rbind]. fold (level wg1 (S i)).
  assert (Sub : forall s, In s (level wg1 (S i)) -> In s (level wg (S i))) by (intros s; rewrite Rp, filter_In; tauto).
  assert (NL1 : NoDup (map fst (level wg1 (S i)))) by (rewrite Rp; apply NoDup_filter_fst, C).
  assert (Ki : level wg1 i = level wg i) by (apply Rb; lia).
  destruct (level_spec wg1 i) with (fuel := fuel) as (rc & E & Rem).
  - lia.
  - exact NL1.
  - intros s w H. apply Sub in H. apply (cc_shape wg C _ _ _ H).
  - intros s w v H Hv. apply Sub in H. rewrite Ki. destruct (cc_face wg C _ _ _ _ H Hv) as (w' & X & _). now exists w'.
  - intros s w H. apply Sub in H. rewrite Ki. apply (cc_has wg C i s w); [lia|exact H].
  - rewrite Rp. pose proof (filter_length_compl p (level wg (S i))). specialize (F (S i)). lia.
  - unfold level in E at 1. fold (level wg1 (S i)) in E. rewrite E. cbn [rbind].
    assert (Top : forall t, In t (level wg1 (S i)) -> forall f, top_face wg t f <-> f = chosen (level wg1 i) t).
    { intros t Ht f. rewrite Ki. apply chosen_top; auto. lia. }
    assert (Chl : forall t, In t (level wg1 (S i)) -> length (chosen (level wg1 i) t) = S i).
    { intros t Ht. destruct (proj2 (Top t Ht _) eq_refl) as (v & Hv & -> & _). destruct t as [s w]. apply Sub in Ht. destruct (cc_shape wg C _ _ _ Ht) as [Ls Ss].
      cbn [fst] in *. rewrite without_del, del_len by auto. lia. }
    destruct (deletions_spec (fst rc) wg1) as (wg2 & E2 & L2 & A2).
    + intros j. destruct (Nat.lt_trichotomy j (S i)) as [G|[->|G]]; [rewrite Rb by exact G; apply C|exact NL1|rewrite Rn by exact G; constructor].
    + intros j s w H. destruct (Nat.lt_trichotomy j (S i)) as [G|[->|G]]; [rewrite Rb in H by exact G; apply (cc_shape wg C _ _ _ H)|apply Sub in H; apply (cc_shape wg C _ _ _ H)|rewrite Rn in H by exact G; easy].
    + intros v Hv. apply Rem in Hv as (t & Ht & [->| ->]).
      * destruct t as [s w]. pose proof (proj1 (cc_shape wg C _ _ _ (Sub _ Ht))) as X. cbn [fst]. split; [intros ->; discriminate|lia].
      * pose proof (Chl t Ht) as X. split; [intros Y; rewrite Y in X; discriminate|lia].
    + rewrite E2. cbn [lift rbind]. apply (IH wg2); [lia|lia|]. constructor.
      * congruence.
      * intros j Hj. rewrite A2, Rb by lia. apply filter_all. intros [s w] Hs. apply negb_true_iff, among_false. cbn [fst]. intros X.
        pose proof (proj1 (cc_shape wg C _ _ _ Hs)) as Ls. apply Rem in X as (t & Ht & [X|X]).
        -- destruct t as [s' w']. cbn [fst] in X. subst s'. pose proof (proj1 (cc_shape wg C _ _ _ (Sub _ Ht))). lia.
        -- pose proof (Chl t Ht). rewrite <- X in *. lia.
      * split; [rewrite A2, Ki; eexists; reflexivity|]. intros [s w]. rewrite A2, Ki. unfold kept. rewrite filter_In, negb_true_iff, among_false. cbn [fst].
        replace (length wg - 1 - i) with (S (length wg - 1 - S i)) by lia. cbn [stays]. split.
        -- intros [A B]. split; [exact A|]. intros t Ht X. apply B, Rem. apply Ra in Ht. exists t. split; [exact Ht|]. right. now apply Top.
        -- intros [A B]. split; [exact A|]. intros X. apply Rem in X as (t & Ht & [X|X]).
           ++ destruct t as [s' w']. cbn [fst] in X. subst s'. pose proof (proj1 (cc_shape wg C _ _ _ (Sub _ Ht))). pose proof (proj1 (cc_shape wg C _ _ _ A)). lia.
           ++ apply (B t); [now apply Ra|]. now apply Top.
      * intros j Hj. rewrite A2. destruct (Nat.eq_dec j (S i)) as [->|G].
        -- apply filter_none. intros t Ht. apply negb_false_iff, among_In, Rem. exists t. auto.
        -- rewrite Rn by lia. reflexivity.
Qed.

Theorem reduce_spec wg fuel : closed_complex wg -> (forall k, S (length (level wg k)) < fuel) ->
  exists wg', reduceComplex fuel wg = Some (Ok wg') /\ reduced_to wg wg' 1.
Proof.
  intros C F. assert (T : length wg <= 1 \/ 1 < length wg) by lia. destruct T as [T|T].
  - exists wg. split.
    + unfold reduceComplex. destruct wg as [|l [|? ?]]; [reflexivity|reflexivity|cbn in T; lia].
    + assert (Nil : forall j, 1 <= j -> level wg j = []) by (intros j Hj; apply lev_over; lia).
      constructor; [reflexivity|reflexivity| |intros j Hj; apply Nil; lia]. split; [exists (fun _ => true); symmetry; now apply filter_all|]. intros s. replace (length wg - 1 - 1) with 0 by lia. cbn [stays]. tauto.
  - unfold reduceComplex. destruct wg as [|l wg0] eqn:E; [cbn in T; lia|]. rewrite <- E in *.
    assert (R : reduced_to wg wg (length wg - 1)).
    { constructor; [reflexivity|reflexivity| |].
      - split; [exists (fun _ => true); symmetry; now apply filter_all|]. intros s. rewrite Nat.sub_diag. cbn [stays]. tauto.
      - intros j Hj. apply lev_over. lia. }
    apply (reduce_from_spec wg fuel C F (length wg - 1) wg); [lia|lia|exact R].
Qed.

(* ------------------------------------------------------------------ connectivity *)
(* The order in which ties are broken: by weight, then by the two end points. *)
Definition before (a b : wsimp) : Prop :=
  (snd a < snd b)%Z \/ (snd a = snd b /\ match fst a, fst b with
    | [x; y], [x'; y'] => x < x' \/ (x = x' /\ y < y') | _, _ => False end).
Definition beforeb (a b : wsimp) : bool :=
  (snd a <? snd b)%Z || ((snd a =? snd b)%Z && match fst a, fst b with
    | [x; y], [x'; y'] => (x <? x') || ((x =? x') && (y <? y')) | _, _ => false end).
Lemma beforeb_spec a b : beforeb a b = true <-> before a b.
Proof.
  unfold beforeb, before. rewrite orb_true_iff, andb_true_iff, Z.ltb_lt, Z.eqb_eq.
  destruct (fst a) as [|x [|y [|? ?]]]; [intuition discriminate|intuition discriminate| |intuition discriminate].
  destruct (fst b) as [|x' [|y' [|? ?]]]; [intuition discriminate|intuition discriminate| |intuition discriminate].
  now rewrite orb_true_iff, andb_true_iff, !Nat.ltb_lt, Nat.eqb_eq.
Qed.
Lemma before_trans a b c : before a b -> before b c -> before a c.
Proof.
  unfold before. intros [A|[A A']] [B|[B B']]; [left; lia|left; lia|left; lia|]. right. split; [lia|].
  destruct (fst a) as [|x [|y [|? ?]]]; [easy|easy| |easy]. destruct (fst b) as [|x' [|y' [|? ?]]]; [easy|easy| |easy].
  destruct (fst c) as [|x2 [|y2 [|? ?]]]; [easy|easy| |easy]. lia.
Qed.
Lemma before_irrefl a : ~ before a a.
Proof. unfold before. intros [A|[_ A]]; [lia|]. destruct (fst a) as [|x [|y [|? ?]]]; [easy|easy| |easy]. lia. Qed.

Definition rank (E : list wsimp) (e : wsimp) : nat := length (filter (fun x => beforeb x e) E).
Lemma filter_lt {A} (f g : A -> bool) l x : (forall y, f y = true -> g y = true) -> In x l -> f x = false -> g x = true ->
  length (filter f l) < length (filter g l).
Proof.
  intros M. induction l as [|a l IH]; intros Hx Fx Gx; [easy|].
  assert (Le : forall l', length (filter f l') <= length (filter g l')).
  { induction l' as [|b l' IH']; [auto|]. cbn. destruct (f b) eqn:E; [rewrite (M b E); cbn; lia|]. destruct (g b); cbn; lia. }
  destruct Hx as [->|Hx].
  - cbn. rewrite Fx, Gx. cbn. specialize (Le l). lia.
  - specialize (IH Hx Fx Gx). cbn. destruct (f a) eqn:E; [rewrite (M a E); cbn; lia|]. destruct (g a); cbn; lia.
Qed.
Lemma rank_lt E a b : In a E -> before a b -> rank E a < rank E b.
Proof.
  intros H B. unfold rank. apply (filter_lt _ _ E a).
  - intros y. rewrite !beforeb_spec. intros Y. eapply before_trans; eauto.
  - exact H.
  - destruct (beforeb a a) eqn:X; [|reflexivity]. apply beforeb_spec in X. elim (before_irrefl _ X).
  - now apply beforeb_spec.
Qed.

Lemma triangle (s : list nat) : ssorted s -> length s = 3 -> exists a b c, s = [a; b; c] /\ a < b /\ b < c.
Proof.
  intros S L. destruct s as [|a [|b [|c [|? ?]]]]; try discriminate. exists a, b, c. split; [reflexivity|].
  apply ssorted_cons in S as [S A]. apply ssorted_cons in S as [_ B]. split; [apply A; now left|apply B; now left].
Qed.
Lemma del_triangle a b c : a < b -> b < c -> del a [a; b; c] = [b; c] /\ del b [a; b; c] = [a; c] /\ del c [a; b; c] = [a; b].
Proof.
  intros A B. unfold del. cbn [filter]. rewrite !Nat.eqb_refl.
  replace (b =? a) with false by (symmetry; apply Nat.eqb_neq; lia). replace (c =? a) with false by (symmetry; apply Nat.eqb_neq; lia).
  replace (a =? b) with false by (symmetry; apply Nat.eqb_neq; lia). replace (c =? b) with false by (symmetry; apply Nat.eqb_neq; lia).
  replace (a =? c) with false by (symmetry; apply Nat.eqb_neq; lia). replace (b =? c) with false by (symmetry; apply Nat.eqb_neq; lia). cbn. auto.
Qed.

(* The other two edges of the triangle come before its top edge and join the same vertices. *)
Lemma top_edge wg T w u v x : closed_complex wg -> In (T, w) (level wg 2) -> top_face wg (T, w) [u; v] -> In ([u; v], x) (level wg 1) ->
  exists m e1 e2 w1 w2, In (e1, w1) (level wg 1) /\ In (e2, w2) (level wg 1) /\ before (e1, w1) ([u; v], x) /\ before (e2, w2) ([u; v], x) /\
    (e1 = [u; m] \/ e1 = [m; u]) /\ (e2 = [m; v] \/ e2 = [v; m]).
Proof.
  intros C HT (y & Hy & Ey & Iy & Ny) Hx. cbn [fst snd] in *. destruct (cc_shape wg C _ _ _ HT) as [LT ST].
  destruct (triangle T ST LT) as (a & b & c & -> & Hab & Hbc). destruct (del_triangle a b c Hab Hbc) as (Da & Db & Dc). cbn [length] in *.
  change (length [u; v] - 1) with 1 in *.
  assert (x = w). { pose proof (cc_nodup wg C 1) as N. destruct (find_in_level_In (level wg 1) [u; v] x N (ex_intro _ x Hx)) as [_ P].
    destruct (find_in_level_In (level wg 1) [u; v] w N (ex_intro _ x Hx)) as [_ Q]. specialize (P Hx). specialize (Q Iy). apply Z.eqb_eq in P, Q. congruence. }
  subst x.
  destruct (cc_face wg C 1 _ _ a HT (or_introl eq_refl)) as (wa & Ia & La). rewrite Da in Ia.
  destruct (cc_face wg C 1 _ _ b HT (or_intror (or_introl eq_refl))) as (wb & Ib & Lb). rewrite Db in Ib.
  destruct (cc_face wg C 1 _ _ c HT (or_intror (or_intror (or_introl eq_refl)))) as (wc & Ic & Lc). rewrite Dc in Ic.
  destruct Hy as [<-|[<-|[<-|[]]]].
  - unfold without in Ey. fold (del a [a; b; c]) in Ey. rewrite Da in Ey. injection Ey as -> ->. exists a, [a; b], [a; c], wc, wb. do 2 (split; [assumption|]).
    split; [unfold before; cbn; lia|]. split; [unfold before; cbn; lia|]. auto.
  - unfold without in Ey. fold (del b [a; b; c]) in Ey. rewrite Db in Ey. injection Ey as -> ->.
    assert (A : wa <> w). { intros ->. apply (Ny a (or_introl eq_refl) Hab). rewrite without_del, Da. exact Ia. }
    exists b, [a; b], [b; c], wc, wa. do 2 (split; [assumption|]). split; [unfold before; cbn; lia|]. split; [unfold before; cbn; lia|]. auto.
  - unfold without in Ey. fold (del c [a; b; c]) in Ey. rewrite Dc in Ey. injection Ey as -> ->.
    assert (A : wa <> w). { intros ->. apply (Ny a (or_introl eq_refl)); [lia|]. rewrite without_del, Da. exact Ia. }
    assert (B : wb <> w). { intros ->. apply (Ny b (or_intror (or_introl eq_refl))); [lia|]. rewrite without_del, Db. exact Ib. }
    exists c, [a; c], [b; c], wb, wa. do 2 (split; [assumption|]). split; [unfold before; cbn; lia|]. split; [unfold before; cbn; lia|]. auto.
Qed.

Lemma up_to_In t E s w : In (s, w) (up_to t E) <-> In (s, w) E /\ (w <= t)%Z.
Proof. unfold up_to. rewrite filter_In, Z.leb_le. reflexivity. Qed.

Definition wdec : forall a b : wsimp, {a = b} + {a <> b}.
Proof. decide equality; [apply Z.eq_dec|apply (list_eq_dec Nat.eq_dec)]. Defined.

Lemma removed_joined wg wg' t : closed_complex wg -> reduced_to wg wg' 1 -> forall n u v w, rank (level wg 1) ([u; v], w) < n ->
  In ([u; v], w) (level wg 1) -> (w <= t)%Z -> connected (up_to t (level wg' 1)) u v.
Proof.
  intros C R. induction n as [|n IH]; intros u v w Hn Hin Ht; [lia|].
  destruct (in_dec wdec ([u; v], w) (level wg' 1)) as [Y|Y]; [apply (conn_edge _ u v w), up_to_In; auto|].
  destruct R as [Rl Rb [_ Ra] Rn].
  assert (Top : exists T w2, In (T, w2) (level wg 2) /\ top_face wg (T, w2) [u; v]).
  { (* the edge was removed: some triangle that stays has it as top face *)
    destruct (length wg - 1 - 1) as [|a] eqn:Ea.
    - elim Y. apply Ra. cbn [stays]. auto.
    - destruct (existsb (fun T => nlist_eqb [u; v] (chosen (level wg 1) T)) (level wg 2)) eqn:X.
      + apply existsb_exists in X as ([T w2] & HT & E). apply nlist_eqb_eq in E. exists T, w2. split; [exact HT|]. apply (chosen_top wg 1); auto.
      + elim Y. apply Ra. cbn [stays]. split; [exact Hin|]. intros T HT F. apply stays_In in HT.
        apply (chosen_top wg 1 T C (le_n 1) HT) in F. cbn [fst] in F.
        assert (Z : existsb (fun T => nlist_eqb [u; v] (chosen (level wg 1) T)) (level wg 2) = true); [|congruence].
        apply existsb_exists. exists T. split; [exact HT|]. now apply nlist_eqb_eq. }
  destruct Top as (T & w2 & HT & F). destruct (top_edge wg T w2 u v w C HT F Hin) as (m & e1 & e2 & w1 & w3 & I1 & I2 & B1 & B2 & S1 & S2).
  assert (W1 : (w1 <= w)%Z) by (destruct B1 as [B1|[B1 _]]; cbn in B1; lia).
  assert (W2 : (w3 <= w)%Z) by (destruct B2 as [B2|[B2 _]]; cbn in B2; lia).
  pose proof (rank_lt (level wg 1) _ _ I1 B1) as R1. pose proof (rank_lt (level wg 1) _ _ I2 B2) as R2.
  apply (conn_trans _ u m).
  - destruct S1 as [->| ->]; [|apply conn_sym]; apply (IH _ _ w1); try lia; exact I1.
  - destruct S2 as [->| ->]; [|apply conn_sym]; apply (IH _ _ w3); try lia; exact I2.
Qed.

Theorem collapse_connected wg wg' t : closed_complex wg -> reduced_to wg wg' 1 ->
  forall u v, connected (up_to t (level wg 1)) u v <-> connected (up_to t (level wg' 1)) u v.
Proof.
  intros C R u v. split.
  - intros H. induction H as [x y (w & H)|x|x y _ IH|x y z _ IH1 _ IH2].
    + apply up_to_In in H as [H Hw]. apply (removed_joined wg wg' t C R _ x y w (Nat.lt_succ_diag_r _) H Hw).
    + apply conn_refl. + now apply conn_sym. + now apply (conn_trans _ x y).
  - apply conn_mono. intros [s w]. rewrite !up_to_In. intros [H Hw]. split; [|exact Hw]. destruct R as [_ _ [_ Ra] _]. apply Ra in H. now apply stays_In in H.
Qed.

(* ------------------------------------------------------------------ the complexes of the program *)
Lemma array_closed dm eps maxDimension ops wg : matrix_covers dm ops -> al_run dm eps maxDimension ops = Ok wg -> closed_complex wg.
Proof.
  intros M E. destruct (array_list_closed dm eps maxDimension ops wg M E) as (N & Sh & Fa). constructor.
  - exact N.
  - intros k s w H. destruct (Sh k s w H) as (A & B & _). auto.
  - intros k s w v H Hv. apply (Fa k s w (del v s) H). destruct (Sh _ s w H) as (_ & B & _). apply facet_del; [exact B|]. now exists v.
  - intros k s w Hk H. destruct (Sh _ s w H) as (Ls & Ss & [Db [(u & v & Hu & Hv & Huv & Ew)|[X _]]]); [|lia].
    destruct (third_vertex s u v (ssorted_NoDup _ Ss)) as (x & Hx & Hxu & Hxv); [lia|].
    destruct (Fa k s w (del x s) H) as (w' & H' & Le); [apply facet_del; [exact Ss|]; now exists x|].
    exists x. split; [exact Hx|]. destruct (Sh _ _ _ H') as (_ & _ & [Db' _]).
    assert (dist_of dm u v <= w')%Z by (apply Db'; [apply del_In; auto|apply del_In; auto|exact Huv]). replace w with w' by lia. exact H'.
Qed.
