(* GaussProofs.v -- the eliminations of GaussModel compute ranks. *)
From Coq Require Import List Arith ZArith Bool Lia Sorted.
From Verif Require Import Base Spec UtilsModel UtilsProofs ArrayListModel SpecLinear LinearProofs GaussModel SpecGauss.
Import ListNotations.

(* ---- rows as vectors *)
Lemma vadd_l x y : veq (vadd (vadd x y) x) y. Proof. vsolve. Qed.
Lemma vadd_r x y : veq (vadd (vadd x y) y) x. Proof. vsolve. Qed.
Definition rv (r : list nat) : vec := fun i => nth i r 0 =? 1.
Definition is01 (r : list nat) : Prop := forall x, In x r -> x = 0 \/ x = 1.
Lemma rv_support r : veq (coord (support r)) (rv r).
Proof.
  intros i. apply eq_true_iff_eq. rewrite coord_In. unfold support, rv. rewrite filter_In, in_seq. split; [tauto|].
  intros H. split; auto. split; [lia|]. destruct (Nat.lt_ge_cases i (length r)); auto. rewrite nth_overflow in H by auto. discriminate.
Qed.
Lemma rv_out r i : length r <= i -> rv r i = false.
Proof. intros H. unfold rv. now rewrite nth_overflow. Qed.

Fixpoint xor2 (a b : list nat) : list nat := match a, b with x :: a', y :: b' => Nat.lxor x y :: xor2 a' b' | _, _ => [] end.
Lemma xor2_length a : forall b, length b = length a -> length (xor2 a b) = length a.
Proof. induction a as [|x a IH]; intros [|y b] H; try discriminate; cbn; auto. Qed.
Lemma xor2_01 a : forall b, is01 a -> is01 b -> is01 (xor2 a b).
Proof.
  induction a as [|x a IH]; intros [|y b] Ha Hb z Hz; cbn in Hz; try tauto. destruct Hz as [<-|Hz].
  - destruct (Ha x (or_introl eq_refl)) as [->| ->], (Hb y (or_introl eq_refl)) as [->| ->]; cbn; auto.
  - apply (IH b); auto. + intros u Hu. apply Ha. now right. + intros u Hu. apply Hb. now right.
Qed.
Lemma xor2_rv a : forall b, length b = length a -> is01 a -> is01 b -> veq (rv (xor2 a b)) (vadd (rv a) (rv b)).
Proof.
  induction a as [|x a IH]; intros [|y b] L Ha Hb i; try discriminate.
  - unfold rv, vadd. destruct i; reflexivity.
  - destruct i as [|i].
    + unfold rv, vadd. cbn. destruct (Ha x (or_introl eq_refl)) as [->| ->], (Hb y (or_introl eq_refl)) as [->| ->]; reflexivity.
    + change (rv (xor2 a b) i = vadd (rv a) (rv b) i). apply IH; [cbn in L; lia| |].
      * intros u Hu. apply Ha. now right. * intros u Hu. apply Hb. now right.
Qed.

Lemma at_nth {A} (l : list A) i d : i < length l -> at_ l i = Ok (nth i l d).
Proof. intros H. unfold at_. now rewrite (nth_error_nth' l d H). Qed.
Lemma upd_app {A} (a : list A) x c (f : A -> A) : upd (a ++ x :: c) (length a) f = Ok (a ++ f x :: c).
Proof. induction a as [|y a IH]; cbn; auto. now rewrite IH. Qed.
Lemma xor_row_aux a b : forall pa pb, length pb = length pa -> length b = length a ->
  foldr_ub (fun r d => do t <- at_ (pb ++ b) d; upd r d (fun x => Nat.lxor x t)) (pa ++ a) (seq (length pa) (length a)) = Ok (pa ++ xor2 a b).
Proof.
  revert b. induction a as [|x a IH]; intros [|y b] pa pb Lp L; try discriminate; cbn [length seq foldr_ub xor2]; auto.
  unfold at_ at 1. rewrite nth_error_app2, Lp, Nat.sub_diag by lia. cbn [nth_error bind]. rewrite upd_app. cbn [bind].
  specialize (IH b (pa ++ [Nat.lxor x y]) (pb ++ [y])). rewrite <- !app_assoc in IH. cbn [app] in IH. rewrite !app_length in IH. cbn [length] in IH.
  replace (length pa + 1) with (S (length pa)) in IH by lia. apply IH; cbn in L |- *; lia.
Qed.
Lemma xor_row_ok a b : length b = length a -> xor_row (length a) a b = Ok (xor2 a b).
Proof. intros H. exact (xor_row_aux a b [] [] eq_refl H). Qed.

(* ---- one column *)
Definition brow n r := length r = n /\ is01 r.
Definition bmat n m := forall r, In r m -> brow n r.

Lemma find_one_spec n i : i < n -> forall m, bmat n m ->
  (find_one i m = Ok None /\ forall r, In r m -> rv r i = false) \/
  exists b p a, find_one i m = Ok (Some (b, p, a)) /\ m = b ++ p :: a /\ rv p i = true /\ forall r, In r b -> rv r i = false.
Proof.
  intros Hi. induction m as [|r m IH]; intros H; [left; split; auto; intros r []|].
  assert (Hr : brow n r) by (apply H; now left). cbn [find_one]. rewrite (at_nth r i 0) by (destruct Hr; lia). cbn [bind].
  change (nth i r 0 =? 1) with (rv r i). destruct (rv r i) eqn:E.
  - right. exists [], r, m. repeat split; auto. intros x [].
  - destruct IH as [[E1 E2]|(b & p & a & E1 & E2 & E3 & E4)]. { intros x Hx. apply H. now right. }
    + left. rewrite E1. split; auto. intros x [<-|Hx]; auto.
    + right. exists (r :: b), p, a. rewrite E1. cbn. rewrite E2. repeat split; auto. intros x [<-|Hx]; auto.
Qed.
Definition cleared i p r := if rv r i then xor2 r p else r.
Lemma clear_spec n i p : i < n -> length p = n -> forall m, bmat n m -> clear_column i n p m = Ok (map (cleared i p) m).
Proof.
  intros Hi Lp m H. unfold clear_column.
  assert (K : forall l acc, bmat n l -> foldr_ub (fun done r => do x <- at_ r i; do r' <- (if x =? 1 then xor_row n r p else Ok r); Ok (done ++ [r'])) acc l =
                            Ok (acc ++ map (cleared i p) l)); [|now apply (K m [])].
  clear m H. induction l as [|r m IH]; intros acc H; cbn [foldr_ub map]; [now rewrite app_nil_r|].
  destruct (H r (or_introl eq_refl)) as [Lr Br]. rewrite (at_nth r i 0) by lia. cbn [bind].
  change (nth i r 0 =? 1) with (rv r i).
  replace (if rv r i then xor_row n r p else Ok r) with (Ok (cleared i p r)).
  2:{ unfold cleared. destruct (rv r i); auto. rewrite <- Lr. symmetry. apply xor_row_ok. lia. }
  cbn [bind]. rewrite IH by (intros x Hx; apply H; now right). now rewrite <- app_assoc.
Qed.
Lemma cleared_brow n i p r : brow n p -> brow n r -> brow n (cleared i p r).
Proof.
  intros [Lp Bp] [Lr Br]. unfold cleared. destruct (rv r i); [|split; auto]. split; [rewrite xor2_length; lia|now apply xor2_01].
Qed.
Lemma cleared_rv n i p r : brow n p -> brow n r -> veq (rv (cleared i p r)) (if rv r i then vadd (rv r) (rv p) else rv r).
Proof. intros [Lp Bp] [Lr Br]. unfold cleared. destruct (rv r i); [|apply veq_refl]. apply xor2_rv; auto. lia. Qed.

(* ---- the invariant: R the rows at the start, C the current rows, P the pivots *)
Notation pivot := (nat * nat * list nat)%type.
Definition pj (t : pivot) := fst (fst t).
Definition pc (t : pivot) := snd (fst t).
Definition pv (t : pivot) : vec := rv (snd t).
Definition before (k : nat) (P : list pivot) : list vec := map pv (filter (fun t => pj t <? k) P).
Lemma before_In k P x : In x (before k P) <-> exists t, In t P /\ pj t < k /\ pv t = x.
Proof.
  unfold before. rewrite in_map_iff. split.
  - intros (t & E & H). apply filter_In in H as [H L]. apply Nat.ltb_lt in L. eauto.
  - intros (t & H & L & E). exists t. split; auto. apply filter_In. split; auto. now apply Nat.ltb_lt.
Qed.
Lemma before_mono k k' P P' : k <= k' -> incl P P' -> forall x, span (before k P) x -> span (before k' P') x.
Proof.
  intros L I. apply span_sub. intros c Hc. apply before_In in Hc as (t & H & Lt & E). apply span_in, before_In. exists t. split; auto. split; [lia|auto].
Qed.
Record ginv (n i : nat) (R C : list (list nat)) (P : list pivot) : Prop := {
  gi_len : length C = length R;
  gi_mat : bmat n C;
  gi_zero : forall r c, In r C -> c < i -> rv r c = false;
  gi_free : forall k r x, nth_error C k = Some r -> nth_error R k = Some x -> ~ In k (map pj P) -> span (before k P) (vadd (rv x) (rv r));
  gi_done : forall k r, nth_error C k = Some r -> In k (map pj P) -> veq (rv r) vzero;
  gi_pivot : forall t, In t P -> leads (pc t) (pv t) /\ pc t < i /\ brow n (snd t) /\
     exists x, nth_error R (pj t) = Some x /\ span (before (pj t) P) (vadd (rv x) (pv t));
  gi_rows : NoDup (map pj P);
  gi_cols : NoDup (map pc P)
}.
Lemma ginv_init n R : bmat n R -> ginv n 0 R R [].
Proof.
  intros H. constructor; auto; try (intros; lia); try (intros; contradiction); try constructor.
  intros k r x E1 E2 _. rewrite E1 in E2. injection E2 as ->. cbn. intros c. unfold vadd, vzero. apply xorb_nilpotent.
Qed.
Lemma ginv_next n i R C P : i < n -> ginv n i R C P -> (forall r, In r C -> rv r i = false) -> ginv n (S i) R C P.
Proof.
  intros Hi [A B D E F G H I] Z. constructor; auto.
  - intros r c Hr Hc. destruct (Nat.eq_dec c i) as [->|]; [auto|apply D; auto; lia].
  - intros t Ht. destruct (G t Ht) as (G1 & G2 & G3). split; [exact G1|]. split; [lia|exact G3].
Qed.
Lemma ginv_step n i R C P b p a : i < n -> ginv n i R C P -> C = b ++ p :: a -> rv p i = true -> (forall r, In r b -> rv r i = false) ->
  ginv n (S i) R (b ++ map (cleared i p) (p :: a)) (P ++ [(length b, i, p)]).
Proof.
  intros Hi [A B D E F G H I] EC Ep Eb.
  assert (Bp : brow n p) by (apply B; rewrite EC; apply in_app_iff; right; now left).
  assert (Lp : leads i (rv p)). { split; auto. intros c Hc. apply D; auto. rewrite EC. apply in_app_iff. right. now left. }
  assert (Hk : nth_error C (length b) = Some p) by (rewrite EC, nth_error_app2, Nat.sub_diag by lia; reflexivity).
  assert (Nk : ~ In (length b) (map pj P)). { intros K. specialize (F _ _ Hk K i). unfold vzero in F. congruence. }
  assert (Ni : ~ In i (map pc P)). { intros K. apply in_map_iff in K as (t & <- & Ht). apply G in Ht as (_ & L & _). lia. }
  assert (Nd : forall (l : list nat) x, NoDup l -> ~ In x l -> NoDup (l ++ [x])).
  { clear. induction l as [|y l IH]; cbn; intros x N K; [repeat constructor; auto|]. inversion N; subst. constructor; [rewrite in_app_iff; cbn; intuition|apply IH; auto]. }
  assert (Rk : exists x, nth_error R (length b) = Some x).
  { destruct (nth_error R (length b)) eqn:K; eauto. apply nth_error_None in K. assert (length b < length C) by (apply nth_error_Some; congruence). lia. }
  assert (Hinc : incl P (P ++ [(length b, i, p)])) by (intros t Ht; apply in_app_iff; auto).
  assert (Hcl : forall r, brow n r -> rv (cleared i p r) i = false).
  { intros r Hr. rewrite (cleared_rv n) by auto. destruct (rv r i) eqn:K; auto. unfold vadd. now rewrite K, Ep. }
  constructor.
  - rewrite EC in A. rewrite <- A, !app_length, map_length. cbn. lia.
  - intros r Hr. apply in_app_iff in Hr as [Hr|Hr]; [apply B; rewrite EC; apply in_app_iff; auto|].
    apply in_map_iff in Hr as (x & <- & Hx). apply cleared_brow; auto. apply B. rewrite EC. apply in_app_iff. auto.
  - intros r c Hr Hc. apply in_app_iff in Hr as [Hr|Hr].
    + destruct (Nat.eq_dec c i) as [->|]; auto. apply D; [rewrite EC; apply in_app_iff; auto|lia].
    + apply in_map_iff in Hr as (x & <- & Hx). assert (Bx : brow n x) by (apply B; rewrite EC; apply in_app_iff; auto).
      destruct (Nat.eq_dec c i) as [->|]; auto. rewrite (cleared_rv n) by auto.
      assert (rv x c = false) by (apply D; [rewrite EC; apply in_app_iff; auto|lia]).
      assert (rv p c = false) by (apply Lp; lia). destruct (rv x i); auto. unfold vadd. rewrite H0, H1. reflexivity.
  - intros k r x Hr Hx Hn. rewrite map_app, in_app_iff in Hn. cbn in Hn.
    assert (Hn1 : ~ In k (map pj P)) by tauto. assert (Hn2 : k <> length b) by (intros ->; apply Hn; right; now left). clear Hn.
    destruct (Nat.lt_ge_cases k (length b)) as [L|L].
    + rewrite nth_error_app1 in Hr by auto. apply (before_mono k k P); auto. apply (E k r x); auto. rewrite EC, nth_error_app1; auto.
    + rewrite nth_error_app2 in Hr by auto. destruct (k - length b) as [|q] eqn:Eq; [lia|]. cbn in Hr.
      rewrite nth_error_map in Hr. destruct (nth_error a q) as [y|] eqn:Ey; [|discriminate]. cbn in Hr. injection Hr as <-.
      assert (Hy : nth_error C k = Some y) by (rewrite EC, nth_error_app2, Eq by auto; exact Ey).
      assert (By : brow n y) by (apply B; eapply nth_error_In; eauto).
      assert (S0 := E k y x Hy Hx Hn1). apply (before_mono k k P (P ++ [(length b, i, p)])) in S0; auto.
      eapply span_ext; [apply vadd_ext; [apply veq_refl|apply veq_sym, (cleared_rv n); auto]|].
      destruct (rv y i); auto. apply span_ext with (vadd (vadd (rv x) (rv y)) (rv p)); [intros c; unfold vadd; now rewrite xorb_assoc|].
      apply span_add; auto. apply span_in, before_In. exists (length b, i, p). split; [apply in_app_iff; right; now left|]. split; [cbn; lia|reflexivity].
  - intros k r Hr Hin. rewrite map_app, in_app_iff in Hin. cbn in Hin.
    destruct (Nat.lt_ge_cases k (length b)) as [L|L].
    + rewrite nth_error_app1 in Hr by auto. destruct Hin as [Hin|[Hin|[]]]; [|unfold pj in Hin; cbn in Hin; lia]. apply (F k); auto. rewrite EC, nth_error_app1; auto.
    + rewrite nth_error_app2 in Hr by auto. destruct (k - length b) as [|q] eqn:Eq.
      * cbn in Hr. injection Hr as <-. unfold cleared. rewrite Ep. intros c. rewrite xor2_rv by (auto; destruct Bp; auto). unfold vadd, vzero. apply xorb_nilpotent.
      * destruct Hin as [Hin|[Hin|[]]]; [|unfold pj in Hin; cbn in Hin; lia]. cbn in Hr.
        rewrite nth_error_map in Hr. destruct (nth_error a q) as [y|] eqn:Ey; [|discriminate]. cbn in Hr. injection Hr as <-.
        assert (Hy : nth_error C k = Some y) by (rewrite EC, nth_error_app2, Eq by auto; exact Ey).
        assert (Z := F k y Hy Hin). unfold cleared. rewrite (Z i). exact Z.
  - intros t Ht. apply in_app_iff in Ht as [Ht|[<-|[]]].
    + destruct (G t Ht) as (G1 & G2 & G3 & x & G4 & G5). repeat split; try apply G1; try apply G3; try lia. exists x. split; auto.
      apply (before_mono (pj t) (pj t) P); auto.
    + unfold pj, pc, pv. cbn [fst snd]. split; auto. split; [lia|]. split; auto. destruct Rk as (x & Hx). exists x. split; auto.
      apply (before_mono (length b) (length b) P); auto.
  - rewrite map_app. apply Nd; auto.
  - rewrite map_app. apply Nd; auto.
Qed.

Lemma elim_column_spec n i R C P : i < n -> ginv n i R C P ->
  exists C' P', elim_column n (C, P) i = Ok (C', P') /\ ginv n (S i) R C' P'.
Proof.
  intros Hi G. destruct (find_one_spec n i Hi C (gi_mat _ _ _ _ _ G)) as [[E Z]|(b & p & a & E & EC & Ep & Eb)]; unfold elim_column; rewrite E; cbn [bind].
  - exists C, P. split; auto. now apply ginv_next.
  - assert (Bm : bmat n (p :: a)) by (intros r Hr; apply (gi_mat _ _ _ _ _ G); rewrite EC; apply in_app_iff; auto).
    rewrite (clear_spec n) by (auto; apply (Bm p); now left). cbn [bind]. do 2 eexists. split; [reflexivity|]. eapply ginv_step; eauto.
Qed.
Lemma elim_loop n R : forall k i C P, i + k = n -> ginv n i R C P ->
  exists C' P', foldr_ub (elim_column n) (C, P) (seq i k) = Ok (C', P') /\ ginv n n R C' P'.
Proof.
  induction k as [|k IH]; intros i C P E G; cbn [seq foldr_ub].
  - exists C, P. split; auto. assert (i = n) as -> by lia. exact G.
  - destruct (elim_column_spec n i R C P ltac:(lia) G) as (C1 & P1 & -> & G1). cbn [bind]. apply IH; auto. lia.
Qed.

(* ---- what the pivots are at the end *)
Lemma final_zero n R C P : ginv n n R C P -> forall r, In r C -> veq (rv r) vzero.
Proof.
  intros G r Hr c. destruct (Nat.lt_ge_cases c n); [now apply (gi_zero _ _ _ _ _ G)|]. apply rv_out. destruct (gi_mat _ _ _ _ _ G r Hr). lia.
Qed.
Lemma nth_firstn {A} (l : list A) : forall k j, j < k -> nth_error (firstn k l) j = nth_error l j.
Proof. induction l as [|x l IH]; intros [|k] [|j] H; cbn; auto; try lia. apply IH. lia. Qed.
Lemma firstn_mono {A} j k (l : list A) x : j <= k -> In x (firstn j l) -> In x (firstn k l).
Proof.
  intros L H. apply In_nth_error in H as (q & Hq). assert (q < j). { assert (q < length (firstn j l)) by (apply nth_error_Some; congruence). rewrite firstn_length in *. lia. }
  rewrite nth_firstn in Hq by auto. apply nth_error_In with q. rewrite nth_firstn; auto. lia.
Qed.
Lemma pivot_span n i R C P : ginv n i R C P -> forall k x, span (before k P) x -> span (map rv (firstn k R)) x.
Proof.
  intros G. induction k as [k IH] using lt_wf_ind. apply span_sub. intros c Hc. apply before_In in Hc as (t & Ht & L & <-).
  destruct (gi_pivot _ _ _ _ _ G t Ht) as (_ & _ & _ & x & Hx & Sx). apply IH in Sx; auto.
  apply span_ext with (vadd (vadd (rv x) (pv t)) (rv x)); [apply vadd_l|]. apply span_add.
  - eapply span_sub; [|exact Sx]. intros c Hc. apply in_map_iff in Hc as (y & <- & Hy). apply span_in, in_map.
    apply (firstn_mono (pj t) k); [lia|exact Hy].
  - apply span_in, in_map. apply nth_error_In with (pj t). rewrite nth_firstn by auto. exact Hx.
Qed.

Lemma row_span n R C P : ginv n n R C P -> forall k x, nth_error R k = Some x ->
  span (before (S k) P) (rv x) /\ (~ In k (map pj P) -> span (before k P) (rv x)).
Proof.
  intros G k x Hx. assert (Hr : exists r, nth_error C k = Some r).
  { destruct (nth_error C k) eqn:E; eauto. apply nth_error_None in E. rewrite (gi_len _ _ _ _ _ G) in E. assert (k < length R) by (apply nth_error_Some; congruence). lia. }
  destruct Hr as (r & Hr). assert (Z := final_zero n R C P G r (nth_error_In _ _ Hr)).
  assert (Q : ~ In k (map pj P) -> span (before k P) (rv x)).
  { intros Hn. eapply span_ext; [|apply (gi_free _ _ _ _ _ G k r x); auto]. intros c. unfold vadd. rewrite (Z c). apply xorb_false_r. }
  split; auto. destruct (in_dec Nat.eq_dec k (map pj P)) as [Hin|Hn].
  - apply in_map_iff in Hin as (t & <- & Ht). destruct (gi_pivot _ _ _ _ _ G t Ht) as (_ & _ & _ & x' & Hx' & Sx). rewrite Hx in Hx'. injection Hx' as <-.
    apply span_ext with (vadd (vadd (rv x) (pv t)) (pv t)); [apply vadd_r|]. apply span_add.
    + eapply before_mono; [| |exact Sx]; [lia|apply incl_refl]. + apply span_in, before_In. exists t. auto.
  - eapply before_mono; [| |exact (Q Hn)]; [lia|apply incl_refl].
Qed.
Lemma pivots_fresh n R C P : ginv n n R C P -> forall k, In k (map pj P) <-> fresh (supports R) k.
Proof.
  intros G k. destruct (nth_error R k) as [x|] eqn:Hx.
  2:{ split.
    - intros H. apply in_map_iff in H as (t & <- & Ht). destruct (gi_pivot _ _ _ _ _ G t Ht) as (_ & _ & _ & y & E & _). congruence.
    - intros (y & E & _). unfold supports in E. rewrite nth_error_map, Hx in E. discriminate. }
  assert (Hs : nth_error (supports R) k = Some (support x)) by (unfold supports; now rewrite nth_error_map, Hx).
  assert (Es : forall m y, span (map coord (supports m)) y <-> span (map rv m) y).
  { intros m. unfold supports. rewrite map_map. induction m as [|r m IH]; intros y; cbn; [reflexivity|].
    rewrite <- !IH. split; (intros [Q|Q]; [now left|right; eapply span_ext; [|exact Q]; apply vadd_ext; [apply veq_refl|]]); [apply rv_support|apply veq_sym, rv_support]. }
  assert (Ef : fresh (supports R) k <-> ~ span (map rv (firstn k R)) (rv x)).
  { rewrite (fresh_span _ _ _ Hs). assert (E1 : firstn k (map coord (supports R)) = map coord (supports (firstn k R))) by (unfold supports; now rewrite !firstn_map).
    rewrite E1, Es. split; intros Q K; apply Q; (eapply span_ext; [|exact K]); [apply veq_sym, rv_support|apply rv_support]. }
  rewrite Ef. split.
  - intros Hin K. apply in_map_iff in Hin as (t & <- & Ht). destruct (gi_pivot _ _ _ _ _ G t Ht) as (Lt & _ & _ & x' & Hx' & Sx). rewrite Hx in Hx'. injection Hx' as <-.
    assert (Kb : span (before (pj t) P) (rv x)).
    { eapply span_sub; [|exact K]. intros c Hc. apply in_map_iff in Hc as (y & <- & Hy). apply In_nth_error in Hy as (q & Hq).
      assert (Lq : q < pj t). { assert (q < length (firstn (pj t) R)) by (apply nth_error_Some; congruence). rewrite firstn_length in *. lia. }
      rewrite nth_firstn in Hq by auto. destruct (row_span n R C P G q y Hq) as [S1 _]. eapply before_mono; [| |exact S1]; [lia|apply incl_refl]. }
    assert (Kv : span (before (pj t) P) (pv t)). { apply span_ext with (vadd (vadd (rv x) (pv t)) (rv x)); [apply vadd_l|]. now apply span_add. }
    set (Q := filter (fun u => pj u <? pj t) P).
    assert (Sub : forall u, In u Q -> In u P /\ pj u < pj t) by (intros u Hu; apply filter_In in Hu as [Hu L]; apply Nat.ltb_lt in L; auto).
    assert (Nf : forall (f : pivot -> nat) (g : pivot -> bool) l, NoDup (map f l) -> NoDup (map f (filter g l))).
    { clear. induction l as [|u l IH]; cbn; intros N; auto. inversion N; subst. destruct (g u); cbn; auto. constructor; auto.
      intros K. apply H1. apply in_map_iff in K as (w & E & Hw). apply filter_In in Hw as [Hw _]. rewrite <- E. now apply in_map. }
    destruct (staircase (map (fun u => (pc u, pv u)) Q)) with (x := pv t) as [Z|(c & Hc & Lc)].
    + rewrite map_map. cbn. apply Nf, (gi_cols _ _ _ _ _ G).
    + intros c d Hd. apply in_map_iff in Hd as (u & [= <- <-] & Hu). apply (gi_pivot _ _ _ _ _ G). now apply Sub.
    + rewrite map_map. exact Kv.
    + destruct Lt as [Lt _]. rewrite Z in Lt. discriminate.
    + rewrite map_map in Hc. cbn in Hc. apply in_map_iff in Hc as (u & <- & Hu). destruct (Sub u Hu) as [Hu1 Hu2].
      assert (Ec : pc u = pc t) by (eapply leads_unique; eauto).
      assert (u = t); [|subst; lia]. clear -Ec Hu1 Ht G. assert (N := gi_cols _ _ _ _ _ G). clear G.
      induction P as [|w P IH]; [easy|]. inversion N; subst. destruct Hu1 as [->|Hu1], Ht as [->|Ht]; auto.
      * exfalso. apply H1. rewrite Ec. now apply in_map. * exfalso. apply H1. rewrite <- Ec. now apply in_map.
  - intros K. destruct (in_dec Nat.eq_dec k (map pj P)) as [Hin|Hn]; auto. exfalso. apply K.
    destruct (row_span n R C P G k x Hx) as [_ S2]. apply (pivot_span n n R C P G). now apply S2.
Qed.

Lemma to_set_acc l : forall s, ssorted s -> ssorted (fold_left (fun s x => sinsert x s) l s) /\
  forall x, In x (fold_left (fun s x => sinsert x s) l s) <-> In x l \/ In x s.
Proof.
  induction l as [|y l IH]; intros s Ss; cbn; [tauto|]. destruct (IH (sinsert y s) (sinsert_ssorted y s Ss)) as [H1 H2]. split; auto.
  intros x. rewrite H2, sinsert_In. intuition.
Qed.
Lemma to_set_spec l : ssorted (to_set l) /\ forall x, In x (to_set l) <-> In x l.
Proof. destruct (to_set_acc l [] ltac:(constructor)) as [H1 H2]. split; auto. intros x. unfold to_set. rewrite H2. cbn. tauto. Qed.

Theorem eliminate_spec n m : bmat n m -> m <> [] -> exists C P, eliminate m = Ok P /\ ginv n n m C P.
Proof.
  intros B Hm. destruct m as [|r0 m']; [easy|]. set (m := r0 :: m') in *. unfold eliminate. change (at_ m 0) with (Ok r0). cbn [bind].
  destruct (B r0) as [L _]; [now left|]. rewrite L. destruct (elim_loop n m n 0 m [] eq_refl (ginv_init n m B)) as (C & P & -> & G).
  exists C, P. auto.
Qed.
Lemma binary_bmat n m : binary_matrix n m -> bmat n m.
Proof. intros H r Hr. apply H in Hr. exact Hr. Qed.

(* C25 *)
Theorem getRankNull_spec n m : binary_matrix n m -> m <> [] ->
  exists js, getRankNull m = Ok js /\ increasing js /\ (forall j, In j js <-> fresh (supports m) j) /\ rank (supports m) (length js).
Proof.
  intros B Hm. apply binary_bmat in B. destruct (eliminate_spec n m B Hm) as (C & P & E & G). unfold getRankNull. rewrite E. cbn [bind].
  exists (to_set (map (fun t => fst (fst t)) P)). split; auto. destruct (to_set_spec (map (fun t => fst (fst t)) P)) as [S1 S2].
  assert (F : forall j, In j (to_set (map (fun t => fst (fst t)) P)) <-> fresh (supports m) j) by (intros j; rewrite S2; apply (pivots_fresh n m C P G)).
  split; auto. split; auto. now apply fresh_rank.
Qed.

(* ---- boundaryPipe *)
Lemma xor_row_some b : forall k (a : list nat), k <= length a -> k <= length b -> exists r, xor_row k a b = Ok r /\ length r = length a.
Proof.
  intros k a La Lb. unfold xor_row.
  assert (K : forall l r, length r = length a -> (forall d, In d l -> d < length a /\ d < length b) ->
    exists r', foldr_ub (fun r d => do t <- at_ b d; upd r d (fun x => Nat.lxor x t)) r l = Ok r' /\ length r' = length a).
  { induction l as [|d l IH]; intros r Lr H; cbn; [eauto|]. destruct (H d (or_introl eq_refl)) as [H1 H2].
    rewrite (at_nth b d 0) by auto. cbn [bind].
    assert (U : forall (q : list nat) e f, e < length q -> exists q', upd q e f = Ok q' /\ length q' = length q).
    { clear. induction q as [|x q IH]; intros [|e] f L; cbn in *; try lia; [eauto|]. destruct (IH e f) as (q' & -> & E); [lia|]. cbn. eexists. split; [reflexivity|]. cbn. lia. }
    destruct (U r d (fun x => Nat.lxor x (nth d b 0))) as (r' & -> & Lr'); [lia|]. cbn [bind]. apply IH; [lia|]. intros e He. apply H. now right. }
  apply K; auto. intros d Hd. apply in_seq in Hd. lia.
Qed.
Lemma copies_ok n i row ret : i < n -> length row = n -> bmat n ret -> length ret <= n -> copies i row ret = Ok tt.
Proof.
  intros Hi Lr B Lt. unfold copies. generalize (length ret) Lt. intros k Hk.
  assert (K : forall l, bmat n l -> foldr_ub (fun (_ : unit) a => do x <- at_ a i; if x =? 1 then rmap (fun _ => tt) (xor_row k a row) else Ok tt) tt l = Ok tt); auto.
  clear B. induction l as [|a l IH]; intros B; cbn; auto. destruct (B a (or_introl eq_refl)) as [La _]. rewrite (at_nth a i 0) by lia. cbn [bind].
  assert (H : (if nth i a 0 =? 1 then rmap (fun _ => tt) (xor_row k a row) else Ok tt) = Ok tt).
  { destruct (nth i a 0 =? 1); auto. destruct (xor_row_some row k a) as (r & -> & _); [lia|lia|]. reflexivity. }
  rewrite H. cbn [bind]. apply IH. intros x Hx. apply B. now right.
Qed.

Record rinv (n i : nat) (R m ret : list (list nat)) (cols : list nat) : Prop := {
  ri_m : bmat n m; ri_ret : bmat n ret;
  ri_len : length ret + length m = length R;
  ri_span : forall x, span (map rv (ret ++ m)) x <-> span (map rv R) x;
  ri_zero : forall r c, In r m -> c < i -> rv r c = false;
  ri_cols : length cols = length ret; ri_nodup : NoDup cols; ri_lt : forall c, In c cols -> c < i;
  ri_leads : forall k c r, nth_error cols k = Some c -> nth_error ret k = Some r -> leads c (rv r)
}.
Lemma NoDup_end {A} (l : list A) x : NoDup l -> ~ In x l -> NoDup (l ++ [x]).
Proof. induction l as [|y l IH]; cbn; intros N K; [repeat constructor; auto|]. inversion N; subst. constructor; [rewrite in_app_iff; cbn; intuition|apply IH; auto]. Qed.
Lemma below_length l n : NoDup l -> (forall c, In c l -> c < n) -> length l <= n.
Proof. intros N H. rewrite <- (seq_length n 0). apply NoDup_incl_length; auto. intros c Hc. apply in_seq. specialize (H c Hc). lia. Qed.

Lemma rbm_column_spec n i R m ret cols : i < n -> rinv n i R m ret cols ->
  exists m' ret' cols', rbm_column i m ret = Ok (m', ret') /\ rinv n (S i) R m' ret' cols'.
Proof.
  intros Hi I. unfold rbm_column. destruct (find_one_spec n i Hi m (ri_m _ _ _ _ _ _ I)) as [[E Z]|(b & p & a & E & Em & Ep & Eb)]; rewrite E; cbn [bind].
  - exists m, ret, cols. split; auto. destruct I. constructor; auto.
    + intros r c Hr Hc. destruct (Nat.eq_dec c i) as [->|]; auto. apply ri_zero0; auto. lia.
    + intros c Hc. apply ri_lt0 in Hc. lia.
  - assert (Bm := ri_m _ _ _ _ _ _ I). assert (Bp : brow n p) by (apply Bm; rewrite Em; apply in_app_iff; right; now left).
    assert (Ba : bmat n a) by (intros r Hr; apply Bm; rewrite Em; apply in_app_iff; right; now right).
    assert (Bb : bmat n b) by (intros r Hr; apply Bm; rewrite Em; apply in_app_iff; now left).
    assert (Ecl : clear_column i (length (hd [] (b ++ a))) p a = Ok (map (cleared i p) a)).
    { destruct a as [|r a]; [reflexivity|]. replace (length (hd [] (b ++ r :: a))) with n; [apply clear_spec; auto; apply Bp|].
      destruct b as [|q b]; cbn; [destruct (Ba r (or_introl eq_refl)); auto|destruct (Bb q (or_introl eq_refl)); auto]. }
    rewrite Ecl. cbn [bind].
    assert (Nc : NoDup (cols ++ [i])). { apply NoDup_end; [apply I|]. intros K. apply (ri_lt _ _ _ _ _ _ I) in K. lia. }
    assert (Lc : forall c, In c (cols ++ [i]) -> c < S i). { intros c Hc. apply in_app_iff in Hc as [Hc|[<-|[]]]; [apply (ri_lt _ _ _ _ _ _ I) in Hc|]; lia. }
    assert (Br : bmat n (ret ++ [p])). { intros r Hr. apply in_app_iff in Hr as [Hr|[<-|[]]]; auto. now apply (ri_ret _ _ _ _ _ _ I). }
    assert (Ll : length (cols ++ [i]) = length (ret ++ [p])) by (rewrite !app_length, (ri_cols _ _ _ _ _ _ I); reflexivity).
    assert (Kl := below_length _ _ Nc Lc). rewrite Ll in Kl. rewrite (copies_ok n i p (ret ++ [p]) Hi (proj1 Bp) Br ltac:(lia)). cbn [bind].
    exists (b ++ map (cleared i p) a), (ret ++ [p]), (cols ++ [i]). split; auto.
    assert (Lp : leads i (rv p)). { split; auto. intros c Hc. apply (ri_zero _ _ _ _ _ _ I); auto. rewrite Em. apply in_app_iff. right. now left. }
    assert (Hcin : forall x, In x a -> rv x i = true -> span (map rv ((ret ++ [p]) ++ b ++ map (cleared i p) a)) (rv x)).
    { intros x Hx Ex. apply span_ext with (vadd (rv (cleared i p x)) (rv p)).
      - intros c. unfold vadd. rewrite (cleared_rv n) by auto. rewrite Ex. unfold vadd. rewrite xorb_assoc, xorb_nilpotent. apply xorb_false_r.
      - apply span_add; apply span_in, in_map; rewrite !in_app_iff; [right; right; now apply in_map|left; right; now left]. }
    constructor; auto.
    + intros r Hr. apply in_app_iff in Hr as [Hr|Hr]; auto. apply in_map_iff in Hr as (x & <- & Hx). apply cleared_brow; auto.
    + rewrite !app_length, map_length. assert (K := ri_len _ _ _ _ _ _ I). rewrite Em, app_length in K. cbn in *. lia.
    + intros x. rewrite <- (ri_span _ _ _ _ _ _ I). rewrite Em. split; apply span_sub; intros c Hc; apply in_map_iff in Hc as (r & <- & Hr); rewrite !in_app_iff in Hr.
      * assert (Sin : forall y, In y (ret ++ b ++ p :: a) -> span (map rv (ret ++ b ++ p :: a)) (rv y)) by (intros y Hy; apply span_in, in_map, Hy).
        destruct Hr as [[Hr|[<-|[]]]|[Hr|Hr]]; try (apply Sin; rewrite !in_app_iff; cbn; tauto).
        apply in_map_iff in Hr as (y & <- & Hy). eapply span_ext; [apply veq_sym, (cleared_rv n); auto|].
        assert (span (map rv (ret ++ b ++ p :: a)) (rv y)) by (apply Sin; rewrite !in_app_iff; cbn; tauto).
        destruct (rv y i); auto. apply span_add; auto. apply Sin. rewrite !in_app_iff. cbn. tauto.
      * destruct Hr as [Hr|[Hr|[<-|Hr]]]; try (apply span_in, in_map; rewrite !in_app_iff; cbn; tauto).
        destruct (rv r i) eqn:Er; [now apply Hcin|]. apply span_in, in_map. rewrite !in_app_iff. right. right.
        apply in_map_iff. exists r. split; auto. unfold cleared. now rewrite Er.
    + intros r c Hr Hc. assert (Zm : forall y, In y m -> c < i -> rv y c = false) by (intros y Hy Lc'; apply (ri_zero _ _ _ _ _ _ I); auto).
      apply in_app_iff in Hr as [Hr|Hr].
      * destruct (Nat.eq_dec c i) as [->|]; auto. apply Zm; [rewrite Em; apply in_app_iff; auto|lia].
      * apply in_map_iff in Hr as (y & <- & Hy). rewrite (cleared_rv n) by auto. destruct (Nat.eq_dec c i) as [->|].
        -- destruct (rv y i) eqn:Ey; auto. unfold vadd. now rewrite Ey, Ep.
        -- assert (rv y c = false) by (apply Zm; [rewrite Em; apply in_app_iff; right; now right|lia]).
           assert (rv p c = false) by (apply Lp; lia). destruct (rv y i); auto. unfold vadd. now rewrite H, H0.
    + intros k c r Hc Hr. assert (Lr := ri_cols _ _ _ _ _ _ I). destruct (Nat.lt_ge_cases k (length ret)) as [L|L].
      * rewrite nth_error_app1 in Hc, Hr by lia. eapply (ri_leads _ _ _ _ _ _ I); eauto.
      * rewrite nth_error_app2 in Hc, Hr by lia. rewrite Lr in Hc. destruct (k - length ret) as [|q]; [|destruct q; discriminate].
        cbn in Hc, Hr. injection Hc as <-. injection Hr as <-. exact Lp.
Qed.
Lemma rbm_loop_spec n R : forall fuel i m ret cols, n < i + fuel -> i <= n -> rinv n i R m ret cols ->
  exists m' ret' cols' i', i' <= n /\ rinv n i' R m' ret' cols' /\
    ((m' = [] /\ rbm_loop fuel i m ret = Some UB) \/ (m' <> [] /\ i' = n /\ rbm_loop fuel i m ret = Some (Ok (m', ret')))).
Proof.
  induction fuel as [|fuel IH]; intros i m ret cols Hf Hi I; [lia|]. cbn [rbm_loop]. destruct m as [|r0 m0].
  - exists [], ret, cols, i. split; auto.
  - set (m := r0 :: m0) in *. assert (L0 : length r0 = n) by (apply (ri_m _ _ _ _ _ _ I); now left). rewrite L0.
    destruct (Nat.ltb_spec i n) as [L|L].
    + destruct (rbm_column_spec n i R m ret cols L I) as (m' & ret' & cols' & E & I'). rewrite E. apply (IH (S i) m' ret' cols'); auto. lia.
    + assert (i = n) as -> by lia. exists m, ret, cols, n. split; auto. split; auto. right. split; [discriminate|auto].
Qed.

Lemma indep_leads (l : list (nat * vec)) : NoDup (map fst l) -> (forall p c, In (p, c) l -> leads p c) -> indepr (map snd l).
Proof.
  induction l as [|[p c] l IH]; cbn; intros N H; [auto|]. inversion N; subst. split; [|apply IH; auto; intros; apply H; auto].
  intros K. assert (Lc : leads p c) by (apply H; auto). destruct (staircase l H3) with (x := c) as [Z|(q & Hq & Lq)]; auto.
  - destruct Lc as [Lc _]. rewrite Z in Lc. discriminate.
  - assert (q = p) as -> by (eapply leads_unique; eauto). contradiction.
Qed.
Lemma span_dim (A B : list vec) : indepr A -> indepr B -> (forall x, span A x <-> span B x) -> length A = length B.
Proof.
  intros IA IB H. apply Nat.le_antisymm; apply steinitz; auto; intros x Hx; apply H, span_in, Hx.
Qed.
Lemma supports_span m x : span (map coord (supports m)) x <-> span (map rv m) x.
Proof.
  unfold supports. rewrite map_map. revert x. induction m as [|r m IH]; intros y; cbn; [reflexivity|].
  rewrite <- !IH. split; (intros [Q|Q]; [now left|right; eapply span_ext; [|exact Q]; apply vadd_ext; [apply veq_refl|]]); [apply rv_support|apply veq_sym, rv_support].
Qed.
Lemma combination_rv m r : combination (supports m) (support r) <-> span (map rv m) (rv r).
Proof. rewrite combination_span, supports_span. split; apply span_ext; [|apply veq_sym]; apply rv_support. Qed.
Lemma span_zeros (A B : list vec) : (forall x, In x B -> veq x vzero) -> forall x, span (A ++ B) x <-> span A x.
Proof.
  intros Z x. split; apply span_sub; intros c Hc.
  - apply in_app_iff in Hc as [Hc|Hc]; [now apply span_in|]. eapply span_ext; [apply veq_sym, Z, Hc|apply span_zero].
  - apply span_in, in_app_iff. auto.
Qed.

Theorem reduceBoundaryMatrix_spec n m : binary_matrix n m -> m <> [] -> exists r, rank (supports m) r /\
  ((r = length m /\ reduceBoundaryMatrix m = Some UB) \/
   (r < length m /\ exists out, reduceBoundaryMatrix m = Some (Ok (out, (Z.of_nat r, Z.of_nat n - Z.of_nat r)%Z)) /\
      length out = length m /\ same_row_space out m /\ forall x, In x (skipn r out) -> x = repeat 0 n)).
Proof.
  intros B Hm. destruct (getRankNull_spec n m B Hm) as (js & _ & _ & _ & Rk). exists (length js). split; auto.
  assert (Bm := binary_bmat n m B). assert (Hmax : list_max (map (@length nat) m) = n).
  { apply Nat.le_antisymm.
    - apply list_max_le, Forall_forall. intros k Hk. apply in_map_iff in Hk as (r & <- & Hr). destruct (Bm r Hr). lia.
    - destruct m as [|r0 m0]; [easy|]. destruct (Bm r0 (or_introl eq_refl)) as [L _]. cbn. lia. }
  destruct (rbm_loop_spec n m (S n) 0 m [] []) as (m' & ret & cols & i & Hi & I & D); [lia|lia| |].
  { constructor; try exact Bm; try reflexivity; try (apply NoDup_nil); try solve [intros r []]; try (intros x; reflexivity); try (intros; contradiction); try (intros; lia).
    all: intros [|k] c x Hc; discriminate. }
  assert (Er : length js = length ret).
  { destruct Rk as (bs & <- & Ib & Db & Sb). apply independent_indepr in Db.
    assert (Zm : forall x, In x (map rv m') -> veq x vzero).
    { intros x Hx. apply in_map_iff in Hx as (r & <- & Hr). destruct D as [[-> _]|(_ & -> & _)]; [destruct Hr|]. intros c.
      destruct (Nat.lt_ge_cases c n) as [Lc|Lc]; [now apply (ri_zero _ _ _ _ _ _ I)|apply rv_out; destruct (ri_m _ _ _ _ _ _ I r Hr); lia]. }
    assert (Hret : indepr (map rv ret)).
    { assert (E := indep_leads (combine cols (map rv ret))).
      assert (Lc : length cols = length (map rv ret)) by (rewrite map_length; apply I).
      assert (M1 : map fst (combine cols (map rv ret)) = cols) by (clear -Lc; revert Lc; generalize (map rv ret); induction cols; intros [|] L; cbn in *; try discriminate; auto; f_equal; apply IHcols; lia).
      assert (M2 : map snd (combine cols (map rv ret)) = map rv ret) by (clear -Lc; revert Lc; generalize (map rv ret); induction cols; intros [|] L; cbn in *; try discriminate; auto; f_equal; apply IHcols; lia).
      rewrite M1, M2 in E. apply E; [apply I|]. intros c x Hx. apply In_nth_error in Hx as (k & Hk).
      assert (Q : forall (la : list nat) (lb : list vec) k c x, nth_error (combine la lb) k = Some (c, x) -> nth_error la k = Some c /\ nth_error lb k = Some x).
      { clear. induction la as [|u la IH]; intros [|w lb] [|k] c x H; cbn in *; try discriminate; [injection H as -> ->; auto|auto]. }
      apply Q in Hk as [K1 K2]. rewrite nth_error_map in K2. destruct (nth_error ret k) as [r|] eqn:Ek; [|discriminate]. injection K2 as <-.
      eapply (ri_leads _ _ _ _ _ _ I); eauto. }
    assert (E := span_dim _ _ Db Hret). rewrite rev_length, !map_length in E. apply E. intros x.
    assert (E1 : span (map rv ret) x <-> span (map rv m) x). { rewrite <- (ri_span _ _ _ _ _ _ I), map_app. symmetry. now apply span_zeros. }
    rewrite E1, <- supports_span. split; apply span_sub; intros c Hc.
    - apply in_rev in Hc. apply in_map_iff in Hc as (y & <- & Hy). apply span_in, in_map, Ib, Hy.
    - apply in_map_iff in Hc as (y & <- & Hy). apply Sb in Hy. apply combination_span in Hy. eapply span_sub; [|exact Hy].
      intros d Hd. apply span_in. now apply in_rev in Hd. }
  rewrite Er. assert (Len := ri_len _ _ _ _ _ _ I). unfold reduceBoundaryMatrix. destruct m as [|r0 m0]; [easy|]. set (m := r0 :: m0) in *. rewrite Hmax.
  destruct D as [[-> E]|(Hne & -> & E)]; rewrite E.
  - left. split; auto. change (length (@nil (list nat))) with 0 in Len. lia.
  - right. split; [destruct m'; [easy|cbn [length] in Len; lia]|]. exists (ret ++ m').
    assert (H0 : exists x, nth_error (ret ++ m') 0 = Some x /\ length x = n).
    { destruct ret as [|x ret']; [destruct m' as [|x m'']; [easy|]; exists x; split; auto; apply (ri_m _ _ _ _ _ _ I); now left|]. exists x. split; auto. apply (ri_ret _ _ _ _ _ _ I). now left. }
    destruct H0 as (x & E0 & Lx). unfold at_. rewrite E0. cbn [bind]. rewrite Lx. split; auto. split; [rewrite app_length; lia|]. split; [split|].
    + intros r Hr. apply combination_rv, (ri_span _ _ _ _ _ _ I), span_in, in_map, Hr.
    + intros r Hr. apply combination_rv, (ri_span _ _ _ _ _ _ I), span_in, in_map, Hr.
    + rewrite skipn_app, skipn_all, Nat.sub_diag. cbn. intros r Hr. destruct (ri_m _ _ _ _ _ _ I r Hr) as [Lr Br].
      rewrite <- Lr. clear -Br Hr I Lr. assert (Z := fun c => ri_zero _ _ _ _ _ _ I r c Hr). rewrite <- Lr in Z. clear I Hr Lr.
      induction r as [|y r IH]; cbn; auto. f_equal.
      * specialize (Z 0 ltac:(cbn; lia)). unfold rv in Z. cbn in Z. destruct (Br y (or_introl eq_refl)) as [->| ->]; auto. discriminate.
      * apply IH; [intros z Hz; apply Br; now right|]. intros c Hc. apply (Z (S c)). cbn. lia.
Qed.
