(* LinearProofs.v -- GF(2) spans. *)
From Coq Require Import List Arith ZArith Bool Lia Sorted.
From Verif Require Import Base Spec UtilsModel UtilsProofs PartitionProofs SpecLinear.
Import ListNotations.

Definition vec := nat -> bool.
Definition vadd (x y : vec) : vec := fun i => xorb (x i) (y i).
Definition veq (x y : vec) : Prop := forall i, x i = y i.
Definition vzero : vec := fun _ => false.

Fixpoint span (cs : list vec) (x : vec) : Prop :=
  match cs with [] => veq x vzero | c :: cs' => span cs' x \/ span cs' (vadd x c) end.

Ltac vsolve := let i := fresh "i" in intros i; unfold vadd, vzero;
  repeat match goal with |- context [?f i] => is_var f; destruct (f i) end; reflexivity.

Lemma veq_refl x : veq x x. Proof. intros i. reflexivity. Qed.
Lemma veq_sym x y : veq x y -> veq y x. Proof. intros H i. symmetry. apply H. Qed.
Lemma veq_trans x y z : veq x y -> veq y z -> veq x z. Proof. intros H K i. rewrite H. apply K. Qed.
Lemma vadd_ext x y a b : veq x y -> veq a b -> veq (vadd x a) (vadd y b).
Proof. intros H K i. unfold vadd. now rewrite H, K. Qed.

Lemma span_ext cs : forall x y, veq x y -> span cs x -> span cs y.
Proof.
  induction cs as [|c cs IH]; cbn; intros x y E.
  - intros H i. rewrite <- E. apply H.
  - intros [H|H]; [left; eapply IH; eauto|right]. eapply IH; [|exact H]. apply vadd_ext; auto using veq_refl.
Qed.
Lemma span_zero cs : span cs vzero.
Proof. induction cs; cbn; [apply veq_refl|now left]. Qed.
Lemma span_add cs : forall x y, span cs x -> span cs y -> span cs (vadd x y).
Proof.
  induction cs as [|c cs IH]; cbn; intros x y H K.
  - intros i. unfold vadd. now rewrite H, K.
  - destruct H as [H|H], K as [K|K].
    + left; auto.
    + right. eapply span_ext; [|apply IH; [exact H|exact K]]. vsolve.
    + right. eapply span_ext; [|apply IH; [exact H|exact K]]. vsolve.
    + left. eapply span_ext; [|apply IH; [exact H|exact K]]. vsolve.
Qed.
Lemma span_in cs c : In c cs -> span cs c.
Proof.
  induction cs as [|d cs IH]; [intros []|]. cbn. intros [->|H].
  - right. eapply span_ext; [|apply span_zero]. vsolve.
  - left. auto.
Qed.
Lemma span_sub cs ds : (forall c, In c cs -> span ds c) -> forall x, span cs x -> span ds x.
Proof.
  induction cs as [|c cs IH]; cbn; intros H x.
  - intros E. eapply span_ext; [apply veq_sym, E|apply span_zero].
  - intros [K|K]. + apply IH; auto. + apply span_ext with (vadd (vadd x c) c); [vsolve|]. apply span_add; auto.
Qed.
Lemma span_snoc cs c x : span (cs ++ [c]) x <-> span cs x \/ span cs (vadd x c).
Proof.
  split.
  - revert x. induction cs as [|d cs IH]; cbn; intros x; auto. intros [H|H]; apply IH in H as [H|H]; auto.
    right. right. eapply span_ext; [|exact H]. vsolve.
  - intros [H|H].
    + eapply span_sub; [|exact H]. intros d Hd. apply span_in, in_app_iff. auto.
    + apply span_ext with (vadd (vadd x c) c); [vsolve|]. apply span_add.
      * eapply span_sub; [|exact H]. intros d Hd. apply span_in, in_app_iff. auto.
      * apply span_in, in_app_iff. right. now left.
Qed.

(* combination as span *)
Definition vsum (l : list vec) : vec := fun i => fold_right (fun c b => xorb (c i) b) false l.
Lemma span_sum cs x : span cs x <-> exists l, incl l cs /\ veq x (vsum l).
Proof.
  split.
  - revert x. induction cs as [|c cs IH]; cbn; intros x.
    + intros H. exists []. split; [apply incl_refl|exact H].
    + intros [H|H]; apply IH in H as (l & I & E).
      * exists l. split; auto. intros y Hy. right. auto.
      * exists (c :: l). split; [intros y [->|Hy]; [now left|right; auto]|]. intros i. specialize (E i). unfold vadd in E.
        change (x i = xorb (c i) (vsum l i)). rewrite <- E. destruct (x i), (c i); reflexivity.
  - intros (l & I & E). apply span_ext with (vsum l); [now apply veq_sym|]. clear E. induction l as [|c l IH]; [apply span_zero|].
    apply span_ext with (vadd c (vsum l)); [intros i; reflexivity|]. apply span_add; [apply span_in, I; now left|].
    apply IH. intros y Hy. apply I. now right.
Qed.
Lemma combination_span cs x : combination cs x <-> span (map coord cs) (coord x).
Proof.
  rewrite span_sum. split.
  - intros (l & I & E). exists (map coord l). split; [intros y Hy; apply in_map_iff in Hy as (z & <- & Hz); apply in_map; auto|].
    intros i. rewrite E. unfold sum_coord, vsum. clear. induction l; cbn; auto. now rewrite IHl.
  - intros (l & I & E).
    assert (H : exists l', incl l' cs /\ l = map coord l').
    { clear E. induction l as [|c l IH]; [exists []; split; [intros y []|reflexivity]|].
      destruct IH as (l' & I' & ->). { intros y Hy. apply I. now right. }
      assert (Hc : In c (map coord cs)) by (apply I; now left). apply in_map_iff in Hc as (s & <- & Hs).
      exists (s :: l'). split; [intros y [->|Hy]; auto|reflexivity]. }
    destruct H as (l' & I' & ->). exists l'. split; auto. intros i. rewrite E. unfold sum_coord, vsum. clear. induction l'; cbn; auto. now rewrite IHl'.
Qed.
Lemma coord_In s i : coord s i = true <-> In i s.
Proof. unfold coord. rewrite existsb_exists. split; [intros (y & Hy & E); apply Nat.eqb_eq in E; now subst|intros H; exists i; split; auto; apply Nat.eqb_refl]. Qed.
Lemma coord_false s i : coord s i = false <-> ~ In i s.
Proof. rewrite <- not_true_iff_false, coord_In. reflexivity. Qed.

Lemma coord_xor a b : ssorted a -> ssorted b -> veq (coord (setXOR a b)) (vadd (coord a) (coord b)).
Proof.
  intros Sa Sb i. destruct (setXOR_spec a b Sa Sb) as [_ H]. specialize (H i). unfold vadd.
  destruct (coord a i) eqn:Ea, (coord b i) eqn:Eb; cbn; rewrite ?coord_In, ?coord_false in Ea; rewrite ?coord_In, ?coord_false in Eb;
    rewrite ?coord_In, ?coord_false; tauto.
Qed.

(* ---- sums over a finite family ---- *)
(* bsum cs x = the sum of the cs_j with x_j = true. *)
Fixpoint bsum_from (k : nat) (cs : list vec) (x : vec) : vec :=
  match cs with [] => vzero | c :: cs' => vadd (fun i => x k && c i) (bsum_from (S k) cs' x) end.
Definition bsum := bsum_from 0.

Lemma bsum_add cs : forall k x y, veq (bsum_from k cs (vadd x y)) (vadd (bsum_from k cs x) (bsum_from k cs y)).
Proof.
  induction cs as [|c cs IH]; intros k x y i; cbn; [reflexivity|]. unfold vadd at 1. rewrite IH. unfold vadd.
  destruct (x k), (y k), (c i), (bsum_from (S k) cs x i), (bsum_from (S k) cs y i); reflexivity.
Qed.
Lemma bsum_ext cs : forall k x y, (forall j, k <= j < k + length cs -> x j = y j) -> veq (bsum_from k cs x) (bsum_from k cs y).
Proof.
  induction cs as [|c cs IH]; intros k x y H i; cbn; [reflexivity|]. unfold vadd. rewrite (H k) by (cbn; lia).
  rewrite (IH (S k) x y); auto. intros j Hj. apply H. cbn. lia.
Qed.
Lemma bsum_zero cs : forall k x, (forall j, k <= j < k + length cs -> x j = false) -> veq (bsum_from k cs x) vzero.
Proof.
  induction cs as [|c cs IH]; intros k x H i; cbn; [reflexivity|]. unfold vadd. rewrite (H k) by (cbn; lia).
  rewrite (IH (S k) x); auto. intros j Hj. apply H. cbn. lia.
Qed.
Lemma bsum_app cs ds : forall k x, veq (bsum_from k (cs ++ ds) x) (vadd (bsum_from k cs x) (bsum_from (k + length cs) ds x)).
Proof.
  induction cs as [|c cs IH]; intros k x i.
  - cbn [length app bsum_from]. rewrite Nat.add_0_r. unfold vadd, vzero. now destruct (bsum_from k ds x i).
  - cbn [length app bsum_from]. unfold vadd at 1. rewrite IH. unfold vadd. replace (S k + length cs) with (k + S (length cs)) by lia.
    now rewrite xorb_assoc.
Qed.
Lemma bsum_span cs : forall k x, span cs (bsum_from k cs x).
Proof.
  induction cs as [|c cs IH]; intros k x; cbn; [apply veq_refl|].
  destruct (x k) eqn:E.
  - right. eapply span_ext; [|apply (IH (S k) x)]. intros i. unfold vadd. cbn.
    destruct (c i), (bsum_from (S k) cs x i); reflexivity.
  - left. eapply span_ext; [|apply (IH (S k) x)]. intros i. unfold vadd. cbn. now destruct (bsum_from (S k) cs x i).
Qed.

(* a family in which no chosen vector depends on earlier vectors has no non-trivial vanishing sum *)
Lemma bsum_injective cs x : (forall j c, nth_error cs j = Some c -> x j = true -> ~ span (firstn j cs) c) ->
  veq (bsum cs x) vzero -> forall j, j < length cs -> x j = false.
Proof.
  induction cs as [|c cs IH] using rev_ind; intros H E j Hj; [cbn in Hj; lia|].
  rewrite app_length in Hj. cbn in Hj. unfold bsum in *.
  assert (Ea : forall i, bsum_from 0 (cs ++ [c]) x i = xorb (bsum_from 0 cs x i) (x (length cs) && c i)).
  { intros i. rewrite bsum_app. unfold vadd. cbn. unfold vadd, vzero. now rewrite xorb_false_r. }
  assert (Hl : x (length cs) = false).
  { destruct (x (length cs)) eqn:Ex; auto. exfalso. apply (H (length cs) c); auto.
    - now rewrite nth_error_app2, Nat.sub_diag by auto.
    - rewrite firstn_app, Nat.sub_diag, firstn_all, app_nil_r.
      eapply span_ext; [|apply (bsum_span cs 0 x)]. intros i. specialize (Ea i). rewrite E, ?Ex in Ea. unfold vzero in Ea. cbn in Ea. destruct (c i), (bsum_from 0 cs x i); auto; discriminate. }
  assert (E' : veq (bsum_from 0 cs x) vzero).
  { intros i. specialize (Ea i). rewrite E, Hl in Ea. unfold vzero in *. cbn in Ea.
    rewrite xorb_false_r in Ea. auto. }
  destruct (Nat.eq_dec j (length cs)) as [->|N]; auto. apply IH; auto; [|lia].
  intros q d Hq Hx. assert (Lq : q < length cs) by (apply nth_error_Some; congruence).
  specialize (H q d). rewrite nth_error_app1, firstn_app in H by auto. replace (q - length cs) with 0 in H by lia.
  rewrite app_nil_r in H. auto.
Qed.

(* ---- staircase families ---- *)
(* x has least non-zero coordinate p *)
Definition leads (p : nat) (x : vec) : Prop := x p = true /\ forall i, i < p -> x i = false.

Lemma staircase v : NoDup (map fst v) -> (forall p c, In (p, c) v -> leads p c) ->
  forall x, span (map snd v) x -> veq x vzero \/ exists p, In p (map fst v) /\ leads p x.
Proof.
  induction v as [|[p c] v IH]; cbn; intros N L x.
  - auto.
  - inversion N; subst.
    assert (L' : forall q d, In (q, d) v -> leads q d) by (intros q d Hq; apply L; auto).
    assert (Lp : leads p c) by (apply L; auto).
    intros [H|H].
    + destruct (IH H2 L' x H) as [E|(q & Hq & Lq)]; auto. right. exists q. auto.
    + destruct (IH H2 L' _ H) as [E|(q & Hq & Lq)].
      * right. exists p. split; auto. assert (Ex : veq x c). { intros i. specialize (E i). unfold vadd, vzero in E. destruct (x i), (c i); auto; discriminate. }
        destruct Lp as [P1 P2]. split; [now rewrite Ex|]. intros i Hi. rewrite Ex. auto.
      * right. destruct Lp as [P1 P2], Lq as [Q1 Q2]. unfold vadd in Q1, Q2.
        destruct (lt_eq_lt_dec q p) as [[Hlt|Heq]|Hgt].
        -- exists q. split; auto. rewrite (P2 q Hlt), xorb_false_r in Q1. split; auto.
           intros i Hi. specialize (Q2 i Hi). rewrite P2, xorb_false_r in Q2 by lia. auto.
        -- subst. contradiction.
        -- exists p. split; auto. specialize (Q2 p Hgt) as Q3. rewrite P1, xorb_true_r in Q3. split.
           ++ now destruct (x p).
           ++ intros i Hi. specialize (Q2 i ltac:(lia)). rewrite P2, xorb_false_r in Q2 by lia. auto.
Qed.

Lemma leads_head p c : ssorted (p :: c) -> leads p (coord (p :: c)).
Proof.
  intros H. apply ssorted_cons in H as [H1 H2]. split; [apply coord_In; now left|]. intros i Hi. apply coord_false. intros [->|Hin]; [lia|].
  apply H2 in Hin. lia.
Qed.
Lemma leads_unique p q x : leads p x -> leads q x -> p = q.
Proof.
  intros [A B] [C D]. destruct (lt_eq_lt_dec p q) as [[H|H]|H]; auto.
  - rewrite D in A by auto. discriminate. - rewrite B in C by auto. discriminate.
Qed.

(* ---- rank is well defined ---- *)
Lemma fresh_span cs j x : nth_error cs j = Some x -> (fresh cs j <-> ~ span (firstn j (map coord cs)) (coord x)).
Proof.
  intros E. unfold fresh. rewrite firstn_map. split.
  - intros (y & Ey & H). rewrite E in Ey. injection Ey as ->. now rewrite combination_span in H.
  - intros H. exists x. split; auto. now rewrite combination_span.
Qed.

Fixpoint indepr (b : list vec) : Prop := match b with [] => True | x :: b' => ~ span b' x /\ indepr b' end.

Lemma exchange c cs b : indepr b -> (forall x, In x b -> span (c :: cs) x) ->
  (forall x, In x b -> span cs x) \/
  exists b' p, length b = S (length b') /\ indepr b' /\ (forall x, In x b' -> span cs x) /\
    span b p /\ span cs (vadd p c) /\ (forall x, In x b' -> span b x).
Proof.
  induction b as [|x b IH]; intros I H; [left; intros x []|]. destruct I as [I1 I2].
  assert (Hb : forall y, In y b -> span (x :: b) y) by (intros y Hy; apply span_in; now right).
  assert (Hx : span (x :: b) x) by (apply span_in; now left).
  destruct IH as [A|(b' & p & L & Ib & Sb & Sp & Sc & Sbb)]; auto. { intros y Hy. apply H. now right. }
  - destruct (H x (or_introl eq_refl)) as [K|K].
    + left. intros y [<-|Hy]; auto.
    + right. exists b, x. auto 8.
  - right. assert (Sp' : span (x :: b) p) by (now left).
    assert (Sbb' : forall y, In y b' -> span (x :: b) y) by (intros y Hy; left; auto).
    assert (Hsub : forall y, span b' y -> span b y) by (apply span_sub; auto).
    destruct (H x (or_introl eq_refl)) as [K|K].
    + exists (x :: b'), p. cbn [length]. split; [lia|]. split; [split; auto|]. split; [intros y [<-|Hy]; auto|].
      split; auto. split; auto. intros y [<-|Hy]; auto.
    + exists (vadd x p :: b'), p. cbn [length]. split; [lia|]. split.
      { split; auto. intros Q. apply Hsub in Q. apply I1. eapply span_ext; [|apply span_add; [exact Q|exact Sp]]. vsolve. }
      split; [|split; auto; split; auto].
      * intros y [<-|Hy]; auto. eapply span_ext; [|apply span_add; [exact K|exact Sc]]. vsolve.
      * intros y [<-|Hy]; auto. apply span_add; auto.
Qed.

Lemma steinitz cs : forall b, indepr b -> (forall x, In x b -> span cs x) -> length b <= length cs.
Proof.
  induction cs as [|c cs IH]; intros b I H.
  - destruct b as [|x b]; auto. exfalso. destruct I as [I _]. apply I. eapply span_ext; [|apply span_zero].
    apply veq_sym. apply (H x). now left.
  - destruct (exchange c cs b I H) as [A|(b' & p & L & Ib & Sb & _)].
    + apply IH in A; auto. cbn. lia.
    + apply IH in Sb; auto. cbn. lia.
Qed.

Lemma independent_indepr b : independent b -> indepr (rev (map coord b)).
Proof.
  induction b as [|x b IH] using rev_ind; intros H; [exact I|].
  rewrite map_app, rev_app_distr. cbn. split.
  - assert (F := H (length b)). rewrite app_length in F. cbn in F. specialize (F ltac:(lia)).
    apply (fresh_span (b ++ [x]) (length b) x) in F; [|now rewrite nth_error_app2, Nat.sub_diag by auto].
    rewrite map_app, firstn_app, map_length, Nat.sub_diag in F. cbn in F. rewrite app_nil_r, <- (map_length coord b), firstn_all in F.
    intros K. apply F. eapply span_sub; [|exact K]. intros c Hc. apply span_in. now apply in_rev in Hc.
  - apply IH. intros j Hj. specialize (H j). rewrite app_length in H. specialize (H ltac:(lia)).
    destruct H as (y & E & N). rewrite nth_error_app1 in E by auto. rewrite firstn_app in N. replace (j - length b) with 0 in N by lia.
    rewrite app_nil_r in N. exists y. auto.
Qed.

Theorem rank_unique cs r1 r2 : rank cs r1 -> rank cs r2 -> r1 = r2.
Proof.
  intros (b1 & L1 & I1 & D1 & S1) (b2 & L2 & I2 & D2 & S2).
  assert (K : forall a b, independent a -> incl a cs -> (forall x, In x cs -> combination b x) -> length a <= length b).
  { intros a b Da Ia Sb. apply independent_indepr in Da.
    assert (H := steinitz (map coord b) (rev (map coord a)) Da). rewrite rev_length, !map_length in H. apply H.
    intros x Hx. apply in_rev in Hx. apply in_map_iff in Hx as (y & <- & Hy). apply combination_span. auto. }
  assert (length b1 <= length b2) by auto. assert (length b2 <= length b1) by auto. lia.
Qed.

Definition lxor (a b : list nat) : list nat := filter (fun i => negb (coord b i)) a ++ filter (fun i => negb (coord a i)) b.
Lemma coord_lxor a b : veq (coord (lxor a b)) (vadd (coord a) (coord b)).
Proof.
  intros i. unfold vadd. apply eq_true_iff_eq. rewrite coord_In. unfold lxor. rewrite in_app_iff, !filter_In, !negb_true_iff, <- !coord_In.
  destruct (coord a i), (coord b i); cbn; intuition.
Qed.
Lemma span_dec cs : forall x, span (map coord cs) (coord x) \/ ~ span (map coord cs) (coord x).
Proof.
  induction cs as [|c cs IH]; intros x; cbn.
  - destruct x as [|a x]; [left; intros i; reflexivity|]. right. intros H. specialize (H a). apply coord_false in H. apply H. now left.
  - destruct (IH x) as [H|H]; [auto|]. destruct (IH (lxor x c)) as [K|K].
    + left. right. eapply span_ext; [|exact K]. apply coord_lxor.
    + right. intros [Q|Q]; auto. apply K. eapply span_ext; [|exact Q]. apply veq_sym, coord_lxor.
Qed.

(* the fresh vectors are a basis *)
Lemma fresh_snoc cs c j : j < length cs -> (fresh (cs ++ [c]) j <-> fresh cs j).
Proof.
  intros L. unfold fresh. rewrite nth_error_app1, firstn_app by auto. replace (j - length cs) with 0 by lia. now rewrite app_nil_r.
Qed.
Lemma fresh_rank cs : forall js, ssorted js -> (forall j, In j js <-> fresh cs j) ->
  rank cs (length js) /\ independent (map (fun j => nth j cs []) js) /\
  (forall x, span (map coord (map (fun j => nth j cs []) js)) x <-> span (map coord cs) x).
Proof.
  induction cs as [|c cs IH] using rev_ind; intros js Ss H.
  - assert (E : js = []). { destruct js as [|j js]; auto. destruct (proj1 (H j) (or_introl eq_refl)) as (x & E & _). destruct j; discriminate. }
    subst. cbn. split; [|split; [intros j Hj; cbn in Hj; lia|reflexivity]].
    exists []. split; auto. split; [intros x []|]. split; [intros j Hj; cbn in Hj; lia|intros x []].
  - set (js' := filter (fun j => j <? length cs) js).
    assert (Sj : ssorted js') by (now apply ssorted_filter).
    assert (Hj' : forall j, In j js' <-> fresh cs j).
    { intros j. unfold js'. rewrite filter_In, Nat.ltb_lt, H. split.
      - intros [F L]. eapply fresh_snoc; eauto.
      - intros F. assert (L : j < length cs) by (destruct F as (x & E & _); apply nth_error_Some; congruence).
        split; auto. apply fresh_snoc; auto. }
    assert (Hlt : forall j, In j js' -> j < length cs).
    { intros j F. apply Hj' in F. destruct F as (x & E & _). apply nth_error_Some. congruence. }
    assert (Hle : forall j, In j js -> j <= length cs).
    { intros j F. apply H in F. destruct F as (x & E & _). assert (L : j < length (cs ++ [c])) by (apply nth_error_Some; congruence).
      rewrite app_length in L. cbn in L. lia. }
    destruct (IH js' Sj Hj') as (_ & IH2 & IH3).
    assert (Emap : map (fun j => nth j (cs ++ [c]) []) js' = map (fun j => nth j cs []) js').
    { apply map_ext_in. intros j Hj. apply app_nth1. auto. }
    enough (Hgoal : independent (map (fun j => nth j (cs ++ [c]) []) js) /\
      forall x, span (map coord (map (fun j => nth j (cs ++ [c]) []) js)) x <-> span (map coord (cs ++ [c])) x).
    { destruct Hgoal as [G1 G2]. split; [|split; auto]. exists (map (fun j => nth j (cs ++ [c]) []) js).
      split; [apply map_length|]. split.
      - intros x Hx. apply in_map_iff in Hx as (j & <- & Hj). apply nth_In. rewrite app_length. cbn. apply Hle in Hj. lia.
      - split; auto. intros x Hx. apply combination_span, G2, span_in, in_map, Hx. }
    destruct (in_dec Nat.eq_dec (length cs) js) as [Hin|Hni].
    + assert (Ej : js = js' ++ [length cs]).
      { apply ssorted_ext; auto.
        - clear - Sj Hlt. induction js' as [|i p IHp]; cbn; [repeat constructor|]. apply ssorted_cons in Sj as [A B]. apply ssorted_cons. split.
          + apply IHp; auto. intros j Hj. apply Hlt. now right.
          + intros y Hy. apply in_app_iff in Hy as [Hy|[<-|[]]]; auto. apply Hlt. now left.
        - intros j. rewrite in_app_iff. unfold js' at 1. rewrite filter_In, Nat.ltb_lt. split.
          + intros Hj. destruct (Nat.eq_dec j (length cs)) as [->|]; [right; now left|left; split; auto; apply Hle in Hj; lia].
          + intros [[Hj _]|[<-|[]]]; auto. }
      rewrite Ej, map_app. cbn [map]. rewrite app_nth2, Nat.sub_diag by auto. cbn [nth]. rewrite Emap.
      assert (Hs : forall x, span (map coord (map (fun j => nth j cs []) js' ++ [c])) x <-> span (map coord (cs ++ [c])) x).
      { intros x. rewrite !map_app. cbn [map]. rewrite !span_snoc, !IH3. reflexivity. }
      split; auto.
      intros j Hj. rewrite app_length in Hj. cbn in Hj. destruct (Nat.eq_dec j (length (map (fun j => nth j cs []) js'))) as [->|N].
      * set (b := map (fun j => nth j cs []) js') in *. exists c. rewrite nth_error_app2, Nat.sub_diag by auto. split; auto.
        rewrite firstn_app, Nat.sub_diag, firstn_all, app_nil_r. rewrite combination_span, IH3.
        destruct (proj1 (H (length cs)) Hin) as (x & E & Nx). rewrite nth_error_app2, Nat.sub_diag in E by auto. injection E as <-.
        rewrite firstn_app, Nat.sub_diag, firstn_all, app_nil_r, combination_span in Nx. exact Nx.
      * apply fresh_snoc; [lia|]. apply IH2. lia.
    + assert (Ej : js = js').
      { apply ssorted_ext; auto. intros j. unfold js'. rewrite filter_In, Nat.ltb_lt. split; [|tauto]. intros Hj. split; auto.
        assert (L := Hle j Hj). destruct (Nat.eq_dec j (length cs)) as [->|]; [contradiction|lia]. }
      rewrite Ej, Emap. split; auto. intros x. rewrite IH3, map_app. cbn [map]. rewrite span_snoc. split; auto.
      destruct (span_dec cs c) as [D|D].
      * intros [K|K]; auto. eapply span_ext; [|apply span_add; [exact K|exact D]]. intros i. unfold vadd. destruct (x i), (coord c i); reflexivity.
      * exfalso. apply Hni. apply H. exists c. rewrite nth_error_app2, Nat.sub_diag by auto. split; auto.
        now rewrite firstn_app, Nat.sub_diag, firstn_all, app_nil_r, combination_span.
Qed.
