(* ArrayListInv.v -- invariant of simplexArrayList under insert / expandDimensions / clear. *)
From Coq Require Import List Arith ZArith Bool Lia Sorted Permutation.
From Verif Require Import Base Spec UtilsModel UtilsProofs PartitionProofs ArrayListModel ArrayListProofs.
Import ListNotations.

Local Notation lev wg k := (nth k wg (@nil wsimp)).

Definition add_new (l : list wsimp) (c : wsimp) : list wsimp :=
  if existsb (wsimp_eqb c) l then l else l ++ [c].

Lemma add_new_In l c x : In x (add_new l c) <-> In x l \/ x = c.
Proof.
  unfold add_new. destruct (existsb (wsimp_eqb c) l) eqn:E.
  - apply existsb_wsimp in E. split; [tauto|]. intros [?| ->]; auto.
  - rewrite in_app_iff. cbn. intuition.
Qed.

Lemma add_new_NoDup l c : NoDup l -> NoDup (add_new l c).
Proof.
  unfold add_new. destruct (existsb (wsimp_eqb c) l) eqn:E; auto. intros N.
  apply NoDup_Add with (a := c) (l := l). { rewrite <- (app_nil_r l) at 1. apply Add_app. }
  split; auto. intros H. apply existsb_wsimp in H. congruence.
Qed.

Lemma add_new_ne l c : add_new l c <> [].
Proof. intros E. assert (In c []) by (rewrite <- E; apply add_new_In; auto). easy. Qed.

Lemma add_all_In cs l x : In x (fold_left add_new cs l) <-> In x l \/ In x cs.
Proof.
  revert l; induction cs as [|c cs IH]; intros l; cbn; [tauto|]. rewrite IH, add_new_In. intuition.
Qed.

Lemma add_all_NoDup cs l : NoDup l -> NoDup (fold_left add_new cs l).
Proof. revert l; induction cs as [|c cs IH]; intros l H; cbn; auto using add_new_NoDup. Qed.

Lemma add_all_id cs l : incl cs l -> fold_left add_new cs l = l.
Proof.
  revert l; induction cs as [|c cs IH]; intros l H; cbn; auto.
  assert (E : add_new l c = l).
  { unfold add_new. assert (Hc : In c l) by (apply H; now left). apply existsb_wsimp in Hc. now rewrite Hc. }
  rewrite E. apply IH. intros x Hx. apply H. now right.
Qed.

Lemma lev_ext (a b : wgraph) :
  length a = length b -> (forall k, lev a k = lev b k) -> a = b.
Proof.
  intros L H. apply (nth_ext _ _ (@nil wsimp) (@nil wsimp)); auto.
Qed.

Lemma upd_lev (wg : wgraph) d f :
  d < length wg -> exists wg', upd wg d f = Ok wg' /\ length wg' = length wg /\
    lev wg' d = f (lev wg d) /\ forall k, k <> d -> lev wg' k = lev wg k.
Proof.
  intros H. destruct (upd_Ok wg d f H) as (wg' & E & L & N). exists wg'. repeat split; auto.
  - specialize (N d). rewrite Nat.eqb_refl, (lev_nth_error wg d) in N by auto. cbn in N.
    now apply nth_error_nth with (d := []) in N.
  - intros k Hk. specialize (N k). destruct (Nat.eqb_spec k d); [easy|].
    destruct (Nat.lt_ge_cases k (length wg)) as [Hlt|Hge].
    + rewrite (lev_nth_error wg k) in N by auto. now apply nth_error_nth with (d := []) in N.
    + rewrite !nth_overflow; auto. lia.
Qed.

Lemma store_spec wg d c :
  d <= length wg ->
  exists wg', store wg d c = Ok wg' /\ length wg' = Nat.max (length wg) (S d) /\
    lev wg' d = add_new (lev wg d) c /\ forall k, k <> d -> lev wg' k = lev wg k.
Proof.
  intros Hd. unfold store. destruct (Nat.eqb_spec (length wg) d) as [E|E].
  - exists (wg ++ [[c]]). repeat split.
    + rewrite app_length. cbn. lia.
    + rewrite app_nth2, E, Nat.sub_diag by lia. rewrite (nth_overflow wg) by lia. reflexivity.
    + intros k Hk. destruct (Nat.lt_ge_cases k (length wg)).
      * now rewrite app_nth1. * rewrite !nth_overflow; auto. rewrite app_length; cbn; lia.
  - rewrite at_lev by lia. cbn. unfold add_new. destruct (existsb (wsimp_eqb c) (lev wg d)).
    + exists wg. repeat split; auto. lia.
    + destruct (upd_lev wg d (fun l => l ++ [c])) as (wg' & E1 & E2 & E3 & E4); [lia|].
      exists wg'. repeat split; auto. lia.
Qed.

Lemma store_all_spec d cs wg :
  d <= length wg ->
  exists wg', foldr_ub (fun wg c => store wg d c) wg cs = Ok wg' /\
    length wg' = (match cs with [] => length wg | _ => Nat.max (length wg) (S d) end) /\
    lev wg' d = fold_left add_new cs (lev wg d) /\ forall k, k <> d -> lev wg' k = lev wg k.
Proof.
  revert wg; induction cs as [|c cs IH]; intros wg H; cbn.
  - exists wg. auto.
  - destruct (store_spec wg d c H) as (wg1 & E & L1 & A1 & B1). rewrite E. cbn.
    destruct (IH wg1) as (wg2 & E2 & L2 & A2 & B2); [lia|]. exists wg2. repeat split; auto.
    + rewrite L2, L1. destruct cs; lia.
    + now rewrite A2, A1.
    + intros k Hk. now rewrite B2, B1.
Qed.

(* ------------------------------------------------------------------ *)
(* candidates of a whole level *)

Definition opt_list {A} (o : option A) : list A := match o with Some a => [a] | None => [] end.
Definition cands_inner (L : list wsimp) (a : wsimp) (rest : list wsimp) : list wsimp :=
  flat_map (fun b => opt_list (candL L a b)) rest.
Fixpoint cands (L l : list wsimp) : list wsimp :=
  match l with [] => [] | a :: rest => cands_inner L a rest ++ cands L rest end.

Lemma cands_In L l c :
  In c (cands L l) -> exists a b, In a l /\ In b l /\ candL L a b = Some c.
Proof.
  induction l as [|a l IH]; cbn; [easy|]. rewrite in_app_iff. intros [H|H].
  - unfold cands_inner in H. apply in_flat_map in H as (b & Hb & Hc). exists a, b.
    destruct (candL L a b); cbn in Hc; [|easy]. destruct Hc as [->|[]]. auto.
  - destruct (IH H) as (a' & b' & Ha & Hb & E). exists a', b'. auto.
Qed.

Lemma cands_pair L l a b c1 c2 :
  In a l -> In b l -> a <> b -> candL L a b = Some c1 -> candL L b a = Some c2 ->
  In c1 (cands L l) \/ In c2 (cands L l).
Proof.
  induction l as [|x l IH]; cbn; [easy|]. intros Ha Hb Hne E1 E2. rewrite !in_app_iff.
  destruct Ha as [->|Ha], Hb as [->|Hb].
  - easy.
  - left. left. unfold cands_inner. apply in_flat_map. exists b. rewrite E1. cbn. auto.
  - right. left. unfold cands_inner. apply in_flat_map. exists a. rewrite E2. cbn. auto.
  - destruct (IH Ha Hb Hne E1 E2); auto.
Qed.

(* Characterisation of the candidates of a good level. *)
Lemma cands_sound d L s w :
  2 <= d -> goodL d L -> In (s, w) (cands L L) ->
  ssorted s /\ length s = S d /\
  (forall x, In x s -> exists wf, In (del x s, wf) L /\ (wf <= w)%Z) /\
  (exists x, In x s /\ In (del x s, w) L).
Proof.
  intros Hd G H. apply cands_In in H as ([sa wa] & [sb wb] & Ha & Hb & E).
  apply (candL_sound d) in E; auto. tauto.
Qed.

Lemma cands_complete d L s :
  2 <= d -> goodL d L -> ssorted s -> length s = S d ->
  (forall x, In x s -> exists wf, In (del x s, wf) L) ->
  exists w, In (s, w) (cands L L).
Proof.
  intros Hd G Ss Ls Hf. destruct s as [|v0 [|v1 z]] eqn:Es; cbn in Ls; try lia. rewrite <- Es in *.
  destruct (Hf v0) as (w0 & H0). { rewrite Es; now left. }
  destruct (Hf v1) as (w1 & H1). { rewrite Es; right; now left. }
  assert (L0 : length s = S d) by (rewrite Es; auto).
  destruct (candL_complete d L s w0 w1 v0 v1 z (del v0 s, w0) (del v1 s, w1)) as (w & E); auto.
  destruct (candL_complete d L s w1 w0 v0 v1 z (del v1 s, w1) (del v0 s, w0)) as (w' & E'); auto.
  assert (Hne : (del v0 s, w0) <> (del v1 s, w1)).
  2: { destruct (cands_pair L L _ _ _ _ H0 H1 Hne E E'); eauto. }
  intros H. injection H as H _.
  assert (Hn : v0 <> v1).
  { apply ssorted_NoDup in Ss. rewrite Es in Ss. inversion Ss; subst. intros ->. apply H4. now left. }
  assert (In v1 (del v1 s)). { rewrite <- H. apply del_In. split; auto. rewrite Es; right; now left. }
  apply del_In in H2. tauto.
Qed.

Lemma expand_outer_spec d wg :
  2 <= d -> d <= length wg -> goodL d (lev wg (d - 1)) ->
  let cs := cands (lev wg (d - 1)) (lev wg (d - 1)) in
  exists wg', expand_outer d wg (lev wg (d - 1)) = Ok wg' /\
    length wg' = (match cs with [] => length wg | _ => Nat.max (length wg) (S d) end) /\
    lev wg' d = fold_left add_new cs (lev wg d) /\ forall k, k <> d -> lev wg' k = lev wg k.
Proof.
  intros Hd Hl G. cbv zeta. set (L := lev wg (d - 1)) in *.
  assert (Inner : forall a rest wg0, In a L -> incl rest L -> d <= length wg0 -> lev wg0 (d - 1) = L ->
            expand_inner d wg0 a rest = foldr_ub (fun wg c => store wg d c) wg0 (cands_inner L a rest)).
  { intros a rest. induction rest as [|b rest IH]; intros wg0 Ha Hr Hl0 H0; cbn; auto.
    assert (Hb : In b L) by (apply Hr; now left).
    assert (C : candidate wg0 a b = Ok (candL L a b)).
    { destruct a as [sa wa], b as [sb wb]. apply (candidate_L wg0 L d); auto; cbn.
      - rewrite <- H0. apply lev_nth_error. lia.
      - eapply gl_sorted; eauto. - eapply gl_sorted; eauto. - eapply gl_length; eauto. - eapply gl_length; eauto. }
    rewrite C. cbn. rewrite foldr_ub_app. destruct (candL L a b) as [c|]; cbn.
    - destruct (store_spec wg0 d c Hl0) as (wg1 & E1 & L1 & A1 & B1). rewrite E1. cbn.
      apply IH; auto. + intros x Hx; apply Hr; now right. + lia. + rewrite B1; auto. lia.
    - apply IH; auto. intros x Hx; apply Hr; now right. }
  assert (Outer : forall l wg0, incl l L -> d <= length wg0 -> lev wg0 (d - 1) = L ->
            expand_outer d wg0 l = foldr_ub (fun wg c => store wg d c) wg0 (cands L l)).
  { induction l as [|a l IH]; intros wg0 Hr Hl0 H0; cbn; auto.
    rewrite Inner; auto. 2: { apply Hr; now left. } 2: { intros x Hx; apply Hr; now right. }
    rewrite foldr_ub_app.
    destruct (store_all_spec d (cands_inner L a l) wg0 Hl0) as (wg1 & E1 & L1 & A1 & B1). rewrite E1. cbn.
    apply IH. + intros x Hx; apply Hr; now right. + destruct (cands_inner L a l); lia. + rewrite B1; auto. lia. }
  rewrite Outer by (auto; apply incl_refl). now apply store_all_spec.
Qed.

(* ------------------------------------------------------------------ *)
(* flag simplices and their facets *)

Lemma flag_del close n s x :
  flag_simplex close n s -> In x s -> 2 <= length s -> flag_simplex close n (del x s).
Proof.
  intros (Hne & S & Hv & Hc) Hx Hl. repeat split.
  - intros E. assert (H := del_length x s (ssorted_NoDup _ S) Hx). rewrite E in H. cbn in H. lia.
  - now apply del_ssorted.
  - intros v Hv'. apply Hv. now apply del_In in Hv'.
  - intros u v Hu Hv' Huv. apply Hc; auto; [now apply del_In in Hu|now apply del_In in Hv'].
Qed.

Lemma third_vertex (s : list nat) u v :
  NoDup s -> 3 <= length s -> exists x, In x s /\ x <> u /\ x <> v.
Proof.
  intros N L.
  destruct (Forall_dec (fun x => x = u \/ x = v)
      (fun x => match Nat.eq_dec x u, Nat.eq_dec x v with
                | left e, _ => left (or_introl e) | _, left e => left (or_intror e)
                | right n1, right n2 => right (fun H => match H with or_introl e => n1 e | or_intror e => n2 e end) end) s) as [F|F].
  - exfalso. rewrite Forall_forall in F. assert (length s <= length [u; v]).
    { apply NoDup_incl_length; auto. intros x Hx. cbn. destruct (F x Hx); auto. } cbn in *. lia.
  - apply Exists_Forall_neg in F.
    + apply Exists_exists in F as (x & Hx & Hn). exists x. tauto.
    + intros x. destruct (Nat.eq_dec x u), (Nat.eq_dec x v); tauto.
Qed.

(* A list whose facets are all flag simplices, with at least three vertices, is one. *)
Lemma flag_of_facets close n s :
  ssorted s -> 3 <= length s -> (forall x, In x s -> flag_simplex close n (del x s)) -> flag_simplex close n s.
Proof.
  intros S L H. assert (N := ssorted_NoDup _ S). repeat split; auto.
  - intros ->. cbn in L. lia.
  - intros v Hv. destruct (third_vertex s v v N L) as (x & Hx & Hxv & _).
    destruct (H x Hx) as (_ & _ & Hb & _). apply Hb. apply del_In. auto.
  - intros u v Hu Hv Huv. destruct (third_vertex s u v N L) as (x & Hx & Hxu & Hxv).
    destruct (H x Hx) as (_ & _ & _ & Hc). apply Hc; auto; apply del_In; auto.
Qed.

Lemma diameter_of_facets D s w (L : list wsimp) :
  ssorted s -> 3 <= length s ->
  (forall x, In x s -> exists wf, In (del x s, wf) L /\ (wf <= w)%Z) ->
  (exists x, In x s /\ In (del x s, w) L) ->
  (forall f wf, In (f, wf) L -> diameter D f wf) -> diameter D s w.
Proof.
  intros S Ls Hf (x0 & Hx0 & Hw) Hd. assert (N := ssorted_NoDup _ S). split.
  - intros u v Hu Hv Huv. destruct (third_vertex s u v N Ls) as (x & Hx & Hxu & Hxv).
    destruct (Hf x Hx) as (wf & Hin & Hle). destruct (Hd _ _ Hin) as [Hb _].
    assert (D u v <= wf)%Z by (apply Hb; auto; apply del_In; auto). lia.
  - left. destruct (Hd _ _ Hw) as [_ [(u & v & Hu & Hv & Huv & E)|[Hlen _]]].
    + exists u, v. apply del_In in Hu, Hv. tauto.
    + assert (H := del_length x0 s N Hx0). lia.
Qed.

Lemma diameter_unique D s w w' : diameter D s w -> diameter D s w' -> 2 <= length s -> w = w'.
Proof.
  intros [H1 [(u & v & Hu & Hv & Huv & E)|[Hl _]]] [H1' [(u' & v' & Hu' & Hv' & Huv' & E')|[Hl' _]]] L; try lia.
  assert (D u v <= w')%Z by auto. assert (D u' v' <= w)%Z by auto. lia.
Qed.

(* ------------------------------------------------------------------ *)
(* the invariant *)

Section Inv.
  Variable D : nat -> nat -> Z.
  Variable eps maxDimension : Z.

  Definition close u v := (D u v <= eps)%Z.

  Record al_inv (n : nat) (wg : wgraph) : Prop := {
    i_vert : lev wg 0 = map (fun i => ([i], 0%Z)) (seq 0 n);
    i_empty : n = 0 -> wg = [];
    i_ne : forall k, k < length wg -> lev wg k <> [];
    i_sound : forall k s w, 1 <= k -> In (s, w) (lev wg k) ->
                length s = S k /\ flag_simplex close n s /\ diameter D s w;
    i_nodup : forall k, NoDup (lev wg k);
    i_closed : forall k s w x, 2 <= k -> In (s, w) (lev wg k) -> In x s ->
                 exists w', In (del x s, w') (lev wg (k - 1));
    i_edges : (0 < maxDimension)%Z -> forall s, flag_simplex close n s -> length s = 2 ->
                exists w, In (s, w) (lev wg 1);
    i_lowdim : (maxDimension <= 0)%Z -> length wg <= 1
  }.

  Definition completeL (n : nat) (wg : wgraph) (k : nat) : Prop :=
    forall s, flag_simplex close n s -> length s = S k -> exists w, In (s, w) (lev wg k).

  Definition Dpos (n : nat) : Prop := forall j i, j < i -> i < n -> (0 <= D j i)%Z.

  Lemma inv_goodL n wg k : Dpos n -> al_inv n wg -> 1 <= k -> goodL (S k) (lev wg k).
  Proof.
    intros P I Hk. constructor.
    - intros s w H. destruct (i_sound _ _ I k s w Hk H) as (_ & (_ & S & _) & _). auto.
    - intros s w H. now destruct (i_sound _ _ I k s w Hk H) as (L & _ & _).
    - intros s w H. destruct (i_sound _ _ I k s w Hk H) as (L & (_ & S & V & _) & _ & [(u & v & Hu & Hv & Huv & E)|[Hl _]]); [|lia].
      rewrite <- E. apply P; auto.
    - intros s w w' H H'. destruct (i_sound _ _ I k s w Hk H) as (L & _ & Di).
      destruct (i_sound _ _ I k s w' Hk H') as (_ & _ & Di'). eapply diameter_unique; eauto. lia.
  Qed.

  Lemma expand_step n wg d :
    Dpos n -> al_inv n wg -> 2 <= d -> d <= length wg ->
    exists wg', expand_outer d wg (lev wg (d - 1)) = Ok wg' /\ al_inv n wg' /\
      (forall k, incl (lev wg k) (lev wg' k)) /\
      (forall k, k <> d -> lev wg' k = lev wg k) /\
      (completeL n wg (d - 1) -> completeL n wg' d).
  Proof.
    intros P I Hd Hl. set (L := lev wg (d - 1)).
    assert (G : goodL d L). { replace d with (S (d - 1)) by lia. apply (inv_goodL n); auto. lia. }
    destruct (expand_outer_spec d wg Hd Hl G) as (wg' & E & Len & Ld & Lk). fold L in E, Len, Ld.
    exists wg'. split; auto.
    assert (Lenge : length wg <= length wg') by (rewrite Len; destruct (cands L L); lia).
    assert (Incl : forall k, incl (lev wg k) (lev wg' k)).
    { intros k x Hx. destruct (Nat.eq_dec k d) as [->|Hk]; [|now rewrite Lk]. rewrite Ld. apply add_all_In. auto. }
    assert (Snd : forall s w, In (s, w) (cands L L) ->
              length s = S d /\ flag_simplex close n s /\ diameter D s w /\
              forall x, In x s -> exists w', In (del x s, w') L).
    { intros s w H. apply (cands_sound d) in H as (Ss & Ls & Hf & Hex); auto.
      assert (Hsnd : forall f wf, In (f, wf) L -> flag_simplex close n f /\ diameter D f wf).
      { intros f wf Hw. apply (i_sound _ _ I (d - 1)) in Hw; [tauto|lia]. }
      split; [auto|split; [|split]].
      - apply (flag_of_facets close n s Ss); [lia|]. intros x Hx. destruct (Hf x Hx) as (wf & Hw & _). now apply (Hsnd _ wf).
      - apply (diameter_of_facets D s w L); auto; try lia. intros f wf Hw. now apply Hsnd.
      - intros x Hx. destruct (Hf x Hx) as (wf & Hw & _). eauto. }
    assert (Dne : forall s w, In (s, w) (lev wg' d) -> In (s, w) (lev wg d) \/ In (s, w) (cands L L)).
    { intros s w. rewrite Ld, add_all_In. auto. }
    split.
    { constructor.
      - rewrite Lk by lia. apply (i_vert _ _ I).
      - intros ->. assert (wg = []) by now apply (i_empty _ _ I). subst wg. cbn in Hl. lia.
      - intros k Hk. destruct (Nat.eq_dec k d) as [->|Hkd].
        + rewrite Ld. destruct (cands L L) as [|c cs] eqn:Ec.
          * cbn. apply (i_ne _ _ I). lia.
          * intros E0. assert (Hc : In c []) by (rewrite <- E0; apply add_all_In; right; now left). easy.
        + rewrite Lk by auto. apply (i_ne _ _ I). rewrite Len in Hk. destruct (cands L L); lia.
      - intros k s w Hk H. destruct (Nat.eq_dec k d) as [->|Hkd].
        + apply Dne in H as [H|H]; [now apply (i_sound _ _ I)|]. apply Snd in H. tauto.
        + rewrite Lk in H by auto. now apply (i_sound _ _ I).
      - intros k. destruct (Nat.eq_dec k d) as [->|Hkd].
        + rewrite Ld. apply add_all_NoDup. apply (i_nodup _ _ I). + rewrite Lk by auto. apply (i_nodup _ _ I).
      - intros k s w x Hk H Hx. destruct (Nat.eq_dec k d) as [->|Hkd].
        + rewrite Lk by lia. apply Dne in H as [H|H]; [now apply (i_closed _ _ I d s w)|]. apply Snd in H as (_ & _ & _ & H). auto.
        + rewrite Lk in H by auto. destruct (i_closed _ _ I k s w x Hk H Hx) as (w' & Hw'). exists w'. now apply Incl.
      - intros Hm s Hs Ls. destruct (i_edges _ _ I Hm s Hs Ls) as (w & Hw). exists w. now apply Incl.
      - intros Hm. assert (length wg <= 1) by now apply (i_lowdim _ _ I). lia. }
    repeat split; auto.
    intros C s Hs Ls. destruct (cands_complete d L s Hd G) as (w & Hw); auto.
    { now destruct Hs as (_ & S & _). }
    { intros x Hx. apply C.
      - apply flag_del; auto. lia.
      - destruct Hs as (_ & S & _). assert (H := del_length x s (ssorted_NoDup _ S) Hx). lia. }
    exists w. rewrite Ld. apply add_all_In. auto.
  Qed.

  Lemma completeL_above n wg j k :
    al_inv n wg -> length wg <= j -> completeL n wg j -> j <= k -> completeL n wg k.
  Proof.
    intros I Hj C Hk. induction Hk as [|k Hk IH]; auto.
    intros s Hs Ls. exfalso. destruct s as [|v s]; [easy|].
    destruct (IH (del v (v :: s))) as (w & Hw).
    - apply flag_del; auto. + now left. + lia.
    - destruct Hs as (_ & S & _). assert (H := del_length v (v :: s) (ssorted_NoDup _ S) (or_introl eq_refl)). lia.
    - rewrite nth_overflow in Hw by lia. easy.
  Qed.

  Lemma expand_loop_spec n fuel d wg :
    Dpos n -> al_inv n wg -> 2 <= d ->
    exists wg', expand_loop fuel d wg = Ok wg' /\ al_inv n wg' /\
      (forall k, incl (lev wg k) (lev wg' k)) /\
      (forall k, k < d \/ d + fuel <= k -> lev wg' k = lev wg k) /\
      (completeL n wg (d - 1) -> forall k, d - 1 <= k -> k < d + fuel -> completeL n wg' k).
  Proof.
    intros P. revert d wg; induction fuel as [|fuel IH]; intros d wg I Hd; cbn.
    - exists wg. do 2 (split; [auto|]). split; [intros k; apply incl_refl|]. split; [auto|].
      intros C k H1 H2. replace k with (d - 1) by lia. auto.
    - destruct (Nat.ltb_spec (length wg) d) as [Hlt|Hge].
      + exists wg. do 2 (split; [auto|]). split; [intros k; apply incl_refl|]. split; [auto|].
        intros C k H1 H2. apply (completeL_above n wg (d - 1)); auto. lia.
      + rewrite at_lev by lia. cbn [bind].
        destruct (expand_step n wg d P I Hd Hge) as (wg1 & E1 & I1 & Inc1 & Lk1 & C1). rewrite E1. cbn [bind].
        destruct (IH (S d) wg1 I1 ltac:(lia)) as (wg2 & E2 & I2 & Inc2 & Lk2 & C2).
        exists wg2. split; [auto|split; [auto|split; [|split]]].
        * intros k. eapply incl_tran; eauto.
        * intros k Hk. rewrite Lk2 by lia. apply Lk1. lia.
        * intros C k H1 H2. replace (S d - 1) with d in C2 by lia.
          destruct (Nat.eq_dec k (d - 1)) as [->|Hk].
          -- intros s Hs Ls. destruct (C s Hs Ls) as (w & Hw). exists w. now apply Inc2, Inc1.
          -- apply C2; auto; lia.
  Qed.

  Lemma expandDimensions_spec n dim wg :
    Dpos n -> al_inv n wg ->
    exists wg', expandDimensions dim wg = Ok wg' /\ al_inv n wg' /\
      (forall k, incl (lev wg k) (lev wg' k)) /\
      (forall k, Nat.max 1 (to_unsigned dim) < k -> lev wg' k = lev wg k) /\
      ((0 < maxDimension)%Z -> forall k, 1 <= k -> k <= Nat.max 1 (to_unsigned dim) -> completeL n wg' k).
  Proof.
    intros P I. unfold expandDimensions.
    destruct (expand_loop_spec n (to_unsigned dim - 1) 2 wg P I ltac:(lia)) as (wg' & E & I' & Inc & Lk & C).
    exists wg'. split; [auto|split; [auto|split; [auto|split]]].
    - intros k Hk. apply Lk. lia.
    - intros Hm k H1 H2. apply C; try lia. intros s Hs Ls. now apply (i_edges _ _ I).
  Qed.

  (* ---------------------------------------------------------------- *)
  (* insertion *)

  Variable dm : list (list Z).

  Definition new_edges (i j : nat) : list wsimp :=
    map (fun u => ([u; i], D u i)) (filter (fun u => (D u i <=? eps)%Z) (seq 0 j)).

  Lemma new_edges_S i j :
    new_edges i (S j) = new_edges i j ++ (if (D j i <=? eps)%Z then [([j; i], D j i)] else []).
  Proof.
    unfold new_edges. rewrite seq_S, filter_app, map_app. cbn. destruct (D j i <=? eps)%Z; auto.
  Qed.

  Lemma new_edges_In i j s w :
    In (s, w) (new_edges i j) <-> exists u, u < j /\ s = [u; i] /\ w = D u i /\ (D u i <= eps)%Z.
  Proof.
    unfold new_edges. rewrite in_map_iff. split.
    - intros (u & E & H). apply filter_In in H as [H1 H2]. apply in_seq in H1. apply Z.leb_le in H2.
      injection E as <- <-. exists u. repeat split; auto; lia.
    - intros (u & Hu & -> & -> & H). exists u. split; auto. apply filter_In. rewrite in_seq, Z.leb_le. split; auto. lia.
  Qed.

  Lemma insert_edge_store wg e : insert_edge wg e = store wg 1 e.
  Proof. reflexivity. Qed.

  Lemma insert_edges_spec wg i :
    1 <= length wg -> (forall u, u < i -> dm_at dm u i = Ok (D u i)) ->
    (forall s w, In (s, w) (lev wg 1) -> forall v, In v s -> v < i) ->
    exists wg', insert_edges dm eps wg i = Ok wg' /\
      lev wg' 1 = lev wg 1 ++ new_edges i i /\ (forall k, k <> 1 -> lev wg' k = lev wg k) /\
      length wg' = (match new_edges i i with [] => length wg | _ => Nat.max (length wg) 2 end).
  Proof.
    intros Hl Hdm Hold. unfold insert_edges.
    assert (H : forall j, j <= i -> exists wg', foldr_ub (fun wg j => do dist <- dm_at dm j i;
                if (dist <=? eps)%Z then insert_edge wg ([j; i], dist) else Ok wg) wg (seq 0 j) = Ok wg' /\
      lev wg' 1 = lev wg 1 ++ new_edges i j /\ (forall k, k <> 1 -> lev wg' k = lev wg k) /\
      length wg' = (match new_edges i j with [] => length wg | _ => Nat.max (length wg) 2 end)).
    { induction j as [|j IH]; intros Hj.
      - cbn. exists wg. rewrite app_nil_r. auto.
      - destruct IH as (wg1 & E1 & A1 & B1 & C1); [lia|].
        rewrite new_edges_S, seq_S, foldr_ub_app, E1. cbn [foldr_ub bind Nat.add]. rewrite Hdm by lia. cbn [bind].
        destruct (D j i <=? eps)%Z.
        + rewrite insert_edge_store.
          assert (Hl1 : 1 <= length wg1) by (rewrite C1; destruct (new_edges i j); lia).
          destruct (store_spec wg1 1 ([j; i], D j i) Hl1) as (wg2 & E2 & L2 & A2 & B2). rewrite E2. cbn [bind].
          exists wg2. split; auto. split; [|split].
          * rewrite A2, A1, app_assoc. unfold add_new.
            destruct (existsb _ _) eqn:Ex; auto. exfalso. apply existsb_wsimp in Ex.
            apply in_app_iff in Ex as [Ex|Ex].
            -- assert (i < i) by (apply (Hold _ _ Ex); right; now left). lia.
            -- apply new_edges_In in Ex as (u & Hu & E & _). injection E as <-. lia.
          * intros k Hk. rewrite B2, B1; auto.
          * rewrite L2, C1. destruct (new_edges i j); cbn; lia.
        + rewrite !app_nil_r. exists wg1. auto. }
    apply H. auto.
  Qed.

  Lemma flag_mono n m s : flag_simplex close n s -> n <= m -> flag_simplex close m s.
  Proof. intros (A & B & C & E) H. repeat split; auto. intros v Hv. specialize (C v Hv). lia. Qed.

  Lemma al_insert_spec n wg :
    (forall u, u < n -> dm_at dm u n = Ok (D u n)) -> al_inv n wg ->
    exists wg', al_insert dm eps maxDimension false wg = Ok wg' /\ al_inv (S n) wg' /\
      (forall k, 2 <= k -> lev wg' k = lev wg k).
  Proof.
    intros Hdm I. unfold al_insert. destruct wg as [|l0 wgr] eqn:Ewg.
    - assert (n = 0). { assert (H := i_vert _ _ I). cbn in H. destruct n; auto. easy. } subst n.
      exists [[([0], 0%Z)]]. split; auto. split.
      + constructor.
        * reflexivity. * lia.
        * intros [|[|k]] Hk; cbn in *; easy || lia.
        * intros [|[|k]] s w Hk H; cbn in *; easy || lia.
        * intros [|[|k]]; cbn; repeat constructor; auto.
        * intros [|[|k]] s w x Hk H; cbn in *; easy || lia.
        * intros _ s (_ & S & V & _) Ls. exfalso. destruct s as [|a [|b s]]; cbn in Ls; try lia.
          assert (a < 1) by (apply V; now left). assert (b < 1) by (apply V; right; now left).
          apply ssorted_cons in S as [_ S]. assert (a < b) by (apply S; now left). lia.
        * cbn. lia.
      + intros [|[|k]] Hk; cbn; auto; lia.
    - rewrite <- Ewg in *.
      assert (El0 : lev wg 0 = l0) by now rewrite Ewg.
      assert (Hlen0 : length l0 = n). { rewrite <- El0, (i_vert _ _ I), map_length, seq_length. auto. }
      assert (Hl : 1 <= length wg) by (rewrite Ewg; cbn; lia).
      cbv zeta. rewrite Hlen0.
      assert (Old : forall k s w, 1 <= k -> In (s, w) (lev wg k) -> forall v, In v s -> v < n).
      { intros k s w Hk H v Hv. destruct (i_sound _ _ I k s w Hk H) as (_ & (_ & _ & V & _) & _). auto. }
      (* the edges part *)
      assert (HE : exists wg1, (if (0 <? maxDimension)%Z then insert_edges dm eps wg n else Ok wg) = Ok wg1 /\
        lev wg1 1 = lev wg 1 ++ (if (0 <? maxDimension)%Z then new_edges n n else []) /\
        (forall k, k <> 1 -> lev wg1 k = lev wg k) /\
        length wg1 = (if (0 <? maxDimension)%Z then match new_edges n n with [] => length wg | _ => Nat.max (length wg) 2 end else length wg)).
      { destruct (0 <? maxDimension)%Z.
        - apply insert_edges_spec; auto. intros s w H. apply (Old 1 s w); auto.
        - exists wg. rewrite app_nil_r. auto. }
      destruct HE as (wg1 & E1 & A1 & B1 & C1). rewrite E1. cbn [bind].
      set (ne := if (0 <? maxDimension)%Z then new_edges n n else []) in *.
      assert (Hne : forall s w, In (s, w) ne -> (0 < maxDimension)%Z /\ exists u, u < n /\ s = [u; n] /\ w = D u n /\ (D u n <= eps)%Z).
      { intros s w H. unfold ne in H. destruct (Z.ltb_spec 0 maxDimension); [|easy]. split; auto. now apply new_edges_In. }
      assert (C1' : length wg <= length wg1 /\ length wg1 <= Nat.max (length wg) 2 /\ (length wg < length wg1 -> ne <> [])).
      { unfold ne. rewrite C1. destruct (0 <? maxDimension)%Z; [|lia]. destruct (new_edges n n); repeat split; try lia. easy. }
      destruct (upd_lev wg1 0 (fun l => l ++ [([n], 0%Z)])) as (wg2 & E2 & L2 & A2 & B2); [lia|].
      rewrite E2. exists wg2. split; auto.
      assert (Hk1 : lev wg2 1 = lev wg 1 ++ ne) by (rewrite B2, A1; auto).
      assert (Hk2 : forall k, 2 <= k -> lev wg2 k = lev wg k) by (intros; rewrite B2, B1; auto; lia).
      split; auto. constructor.
      + rewrite A2, B1, (i_vert _ _ I) by lia. rewrite seq_S, map_app. reflexivity.
      + lia.
      + intros k Hk. destruct k as [|[|k]].
        * rewrite A2. intros E. now apply app_eq_nil in E as [_ E].
        * rewrite Hk1. destruct (Nat.lt_ge_cases 1 (length wg)) as [Hlt|Hge].
          -- intros E. apply app_eq_nil in E as [E _]. revert E. now apply (i_ne _ _ I).
          -- intros E. apply app_eq_nil in E as [_ E]. revert E. apply C1'. lia.
        * rewrite Hk2 by lia. apply (i_ne _ _ I). lia.
      + intros k s w Hk H. destruct (Nat.eq_dec k 1) as [->|Hk'].
        * rewrite Hk1 in H. apply in_app_iff in H as [H|H].
          -- destruct (i_sound _ _ I 1 s w Hk H) as (Ls & F & Di). split; [auto|]. split; auto. apply (flag_mono n); auto.
          -- apply Hne in H as (_ & u & Hu & -> & -> & Hle). split; auto. split.
             ++ repeat split.
                ** easy. ** apply ssorted_cons. split; [repeat constructor|]. intros y [<-|[]]. auto.
                ** intros v [<-|[<-|[]]]; lia.
                ** intros a b [<-|[<-|[]]] [<-|[<-|[]]] Hab; try lia. exact Hle.
             ++ split.
                ** intros a b [<-|[<-|[]]] [<-|[<-|[]]] Hab; lia.
                ** left. exists u, n. cbn. auto.
        * rewrite Hk2 in H by lia. destruct (i_sound _ _ I k s w Hk H) as (Ls & F & Di). split; [auto|]. split; auto.
          apply (flag_mono n); auto.
      + intros k. destruct k as [|[|k]].
        * rewrite A2, B1, (i_vert _ _ I) by lia.
          assert (Eq : map (fun i => ([i], 0%Z)) (seq 0 n) ++ [([n], 0%Z)] = map (fun i => ([i], 0%Z)) (seq 0 (S n))).
          { rewrite seq_S, map_app. reflexivity. }
          match goal with |- NoDup ?x => replace x with (map (fun i : nat => ([i], 0%Z)) (seq 0 (S n))) by (symmetry; exact Eq) end. apply FinFun.Injective_map_NoDup; [|apply seq_NoDup]. intros a b E. now injection E.
        * rewrite Hk1.
          assert (Gd : forall u v : list wsimp, NoDup u -> NoDup v -> (forall z, In z u -> ~ In z v) -> NoDup (u ++ v)).
          { induction u as [|z u IHu]; cbn; auto. intros v Na Nb Hdj. inversion Na; subst. constructor.
            - rewrite in_app_iff. intros [HH|HH]; auto. apply (Hdj z); auto. - apply IHu; auto. }
          apply Gd; [apply (i_nodup _ _ I)| |].
          -- unfold ne. destruct (0 <? maxDimension)%Z; [|constructor]. unfold new_edges.
             apply FinFun.Injective_map_NoDup. ++ intros a b E. now injection E. ++ apply NoDup_filter, seq_NoDup.
          -- intros [s w] H H'. apply Hne in H' as (_ & u & Hu & -> & _).
             assert (n < n) by (apply (Old 1 _ _ (le_n 1) H); right; now left). lia.
        * rewrite Hk2 by lia. apply (i_nodup _ _ I).
      + intros k s w x Hk H Hx. rewrite Hk2 in H by lia. destruct (i_closed _ _ I k s w x Hk H Hx) as (w' & Hw').
        exists w'. destruct (Nat.eq_dec k 2) as [->|].
        * cbn [Nat.sub] in *. rewrite Hk1. apply in_app_iff. auto. * rewrite Hk2 by lia. auto.
      + intros Hm s Hs Ls. rewrite Hk1. destruct Hs as (Hn0 & Ss & V & Hc).
        destruct s as [|a [|b [|? ?]]]; cbn in Ls; try lia.
        assert (Hab : a < b). { apply ssorted_cons in Ss as [_ Ss]. apply Ss. now left. }
        assert (Hb : b < S n) by (apply V; right; now left).
        destruct (Nat.eq_dec b n) as [->|Hbn].
        * exists (D a n). apply in_app_iff. right. unfold ne. destruct (Z.ltb_spec 0 maxDimension); [|lia].
          apply new_edges_In. exists a. repeat split; auto. apply Hc; auto; cbn; auto.
        * destruct (i_edges _ _ I Hm [a; b]) as (w & Hw); auto.
          -- repeat split; auto. intros v [<-|[<-|[]]]; lia.
          -- exists w. apply in_app_iff. auto.
      + intros Hm. assert (length wg <= 1) by now apply (i_lowdim _ _ I).
        assert (ne = []). { unfold ne. destruct (Z.ltb_spec 0 maxDimension); [lia|auto]. }
        rewrite L2. destruct (Nat.lt_ge_cases (length wg) (length wg1)) as [Hlt|Hge]; [|lia].
        now apply C1' in Hlt.
  Qed.

  Lemma al_inv_nil : al_inv 0 [].
  Proof.
    constructor; auto.
    - intros k Hk. cbn in Hk. lia.
    - intros [|k] s w Hk H; cbn in *; easy || lia.
    - intros [|k]; constructor.
    - intros [|k] s w x Hk H; cbn in *; easy || lia.
    - intros _ s (Hn & _ & V & _) Ls. exfalso. destruct s as [|a s]; [easy|]. assert (a < 0) by (apply V; now left). lia.
  Qed.
End Inv.
