(* PolygonProofs.v -- points that form a polygon: the loop is lost with libstdc++'s list (C97). *)
From Coq Require Import List Arith ZArith Bool Lia Sorted Permutation Relations.
From Verif Require Import Base Spec UtilsModel UtilsProofs ArrayListModel SpecComplex FastModel SpecGraph KruskalProofs SpecLinear LinearProofs SpecFast ReductionProofs FastProofs FastRuns PipeModel SpecPipe PipeRuns.
Import ListNotations.

Lemma sum_map_add {A} (f g : A -> nat) l : list_sum (map (fun x => f x + g x) l) = list_sum (map f l) + list_sum (map g l).
Proof. induction l as [|x l IH]; [reflexivity|]. unfold list_sum in *. cbn [map fold_right]. rewrite IH. lia. Qed.
Lemma sum_const {A} (f : A -> nat) k l : (forall x, In x l -> f x = k) -> list_sum (map f l) = k * length l.
Proof. induction l as [|x l IH]; intros H; [cbn; lia|]. unfold list_sum in *. cbn [map fold_right length]. rewrite IH, (H x) by (intros; try apply H; cbn; auto). lia. Qed.
Definition mem (v : nat) (s : list nat) : bool := existsb (Nat.eqb v) s.
Lemma mem_In v s : mem v s = true <-> In v s.
Proof. unfold mem. rewrite existsb_exists. split; [intros (x & H & E); apply Nat.eqb_eq in E; now subst|intros H; exists v; split; [auto|apply Nat.eqb_refl]]. Qed.
Lemma indicator_sum n s : NoDup s -> (forall v, In v s -> v < n) -> list_sum (map (fun v => if mem v s then 1 else 0) (seq 0 n)) = length s.
Proof.
  intros N B. assert (E : forall l, list_sum (map (fun v => if mem v s then 1 else 0) l) = length (filter (fun v => mem v s) l)).
  { induction l as [|x l IH]; [reflexivity|]. unfold list_sum in *. cbn [map fold_right filter]. destruct (mem x s); cbn [length]; rewrite IH; lia. }
  rewrite E. apply Permutation_length, NoDup_Permutation; [apply NoDup_filter, seq_NoDup|auto|]. intros v. rewrite filter_In, mem_In, in_seq. split; [tauto|]. intros H. split; [|auto]. specialize (B v H). lia.
Qed.
(* Every edge has two ends. *)
Lemma handshake n (L : list (list nat)) : (forall s, In s L -> NoDup s /\ length s = 2 /\ forall v, In v s -> v < n) ->
  list_sum (map (fun v => length (filter (mem v) L)) (seq 0 n)) = 2 * length L.
Proof.
  induction L as [|s L IH]; intros H.
  - cbn [filter length]. rewrite (sum_const _ 0); [lia|auto].
  - destruct (H s (or_introl eq_refl)) as (N & L2 & B). cbn [length]. rewrite <- (indicator_sum n s N B) in L2.
    rewrite (map_ext _ (fun v => (if mem v s then 1 else 0) + length (filter (mem v) L))); [|intros v; cbn [filter]; destruct (mem v s); reflexivity].
    rewrite sum_map_add, L2, IH by (intros; apply H; now right). lia.
Qed.
Lemma full_increasing k l : increasing l -> (forall x, In x l -> x < k) -> length l = k -> l = seq 0 k.
Proof. intros S B <-. now apply initial_segment. Qed.
Lemma filter_every {A} (f : A -> bool) l : (forall x, In x l -> f x = true) -> filter f l = l.
Proof. induction l as [|x l IH]; intros H; [reflexivity|]. cbn [filter]. rewrite (H x (or_introl eq_refl)), IH; auto. intros; apply H; now right. Qed.
Lemma sum_coord_parity cols i : sum_coord cols i = Nat.odd (length (filter (fun c => coord c i) cols)).
Proof.
  induction cols as [|c cols IH]; [reflexivity|]. cbn [sum_coord fold_right filter]. fold (sum_coord cols i). rewrite IH. destruct (coord c i); [|now rewrite xorb_false_l].
  cbn [length]. rewrite Nat.odd_succ, <- Nat.negb_odd. apply xorb_true_l.
Qed.

Section Polygon.
  Variable dist : list Z -> list Z -> Z.
  Variable data : list (list Z).
  Variable c : cx_type.
  Variable eps : Z.
  Variable tp : nat.
  Hypothesis Htp : 1 <= tp.
  Variable E : wgraph.
  Hypothesis Lr : lists_rips (separation dist data) (close c eps) (length data) tp E.
  Hypothesis C : complex E.
  Hypothesis F : filtered E.
  Variable t : Z.
  Notation n := (length data).
  Notation J := (joined dist data c eps t).
  Definition next_to (u v : nat) : Prop := J u v \/ J v u.
  Hypothesis Deg : forall v, v < n -> exists a b, a <> b /\ forall x, next_to v x <-> x = a \/ x = b.
  Hypothesis One : clusters dist data c eps t 1.
  Notation L := (map fst (up_to t (level E 1))).

  Lemma edge_In u v : In [u; v] L <-> J u v.
  Proof.
    rewrite <- (rips_adjacent dist data c eps tp Htp E Lr t u v). unfold adjacent. rewrite in_map_iff. split.
    - intros ([s w] & Q & H). cbn [fst] in Q. subst s. eauto.
    - intros (w & H). exists ([u; v], w). auto.
  Qed.
  Lemma edge_shape s : In s L -> exists u v, s = [u; v] /\ u < v /\ v < n.
  Proof.
    intros H. assert (H' := H). apply in_map_iff in H as ([s' w] & Q & H). cbn [fst] in Q. subst s'. apply filter_In in H as [H _]. destruct (cx_shape _ C 1 s w H) as [I Ls].
    destruct s as [|u [|v [|]]]; try discriminate. apply edge_In in H' as (Huv & Hv & _). eauto.
  Qed.
  Lemma edges_NoDup : NoDup L.
  Proof. unfold up_to. assert (N := cx_nodup _ C 1). unfold simplices in N. revert N. generalize (level E 1) as l. induction l as [|[s w] l IH]; intros N; [constructor|]. cbn [map fst] in N. inversion N as [|? ? N1 N2]; subst.
    cbn [filter snd]. destruct (w <=? t)%Z; [|auto]. cbn [map fst]. constructor; [|auto]. intros H. apply N1. apply in_map_iff in H as (x & Q & H). apply filter_In in H as [H _]. apply in_map_iff. eauto. Qed.
  Lemma degree v : v < n -> length (filter (mem v) L) = 2.
  Proof.
    intros Hv. destruct (Deg v Hv) as (a & b & Hab & H).
    set (pr := fun x => if v <? x then [v; x] else [x; v]).
    assert (P : forall x, next_to v x -> In (pr x) L /\ v <> x).
    { intros x [Hx|Hx]; assert (Hx' := Hx); destruct Hx' as (G & _); unfold pr.
      - rewrite (proj2 (Nat.ltb_lt v x) G). split; [now apply edge_In|lia].
      - destruct (Nat.ltb_spec v x); [lia|]. split; [now apply edge_In|lia]. }
    change 2 with (length [pr a; pr b]). apply Permutation_length, NoDup_Permutation.
    - apply NoDup_filter, edges_NoDup.
    - constructor; [|constructor; [intros []|constructor]]. intros [Q|[]]. unfold pr in Q. destruct (v <? a) eqn:Ea, (v <? b) eqn:Eb; injection Q; intros; subst; try lia; apply Nat.ltb_lt in Ea || apply Nat.ltb_ge in Ea; apply Nat.ltb_lt in Eb || apply Nat.ltb_ge in Eb; lia.
    - intros s. rewrite filter_In, mem_In. split.
      + intros [Hs Hin]. destruct (edge_shape s Hs) as (u & w & -> & Huw & Hw). apply edge_In in Hs. cbn [In] in *.
        destruct Hin as [->|[->|[]]].
        * destruct (proj1 (H w) (or_introl Hs)) as [->| ->]; [left|right; left]; unfold pr; now rewrite (proj2 (Nat.ltb_lt _ _) Huw).
        * destruct (proj1 (H u) (or_intror Hs)) as [->| ->]; [left|right; left]; unfold pr; destruct (Nat.ltb_spec v a); destruct (Nat.ltb_spec v b); try lia; reflexivity.
      + intros Hs. assert (G : exists x, next_to v x /\ s = pr x) by (destruct Hs as [<-|[<-|[]]]; eexists; (split; [|reflexivity]); apply H; auto).
        destruct G as (x & Hx & ->). destruct (P x Hx) as [I1 _]. split; [exact I1|]. unfold pr. destruct (v <? x); cbn; auto.
  Qed.
  Lemma edge_number : cut t E 1 = n.
  Proof.
    assert (H := handshake n L). rewrite map_length in H. fold (cut t E 1) in H.
    rewrite (sum_const _ 2) in H by (intros v Hv; apply degree; apply in_seq in Hv; lia). rewrite seq_length in H. specialize (H ltac:(
      intros s Hs; destruct (edge_shape s Hs) as (u & v & -> & Huv & Hv); split; [constructor; [intros [Q|[]]; lia|constructor; [intros []|constructor]]|split; [reflexivity|intros x [<-|[<-|[]]]; lia]])). lia.
  Qed.
  Lemma point : 0 < n.
  Proof. destruct One as (reps & Ln & _ & I & _). destruct reps as [|r reps]; [discriminate|]. specialize (I r (or_introl eq_refl)). apply in_seq in I. lia. Qed.

  (* The last of these edges closes the loop. *)
  Lemma first_edges : firstn n (bmatrix E 1) = map (boundary (simplices E 0)) L.
  Proof.
    unfold bmatrix, boundary_matrix, simplices. cbn [Nat.sub]. rewrite !firstn_map. destruct (cut_spec t E 1 F) as (Q & _). rewrite edge_number in Q. rewrite <- Q, level_at_scale. reflexivity.
  Qed.
  Lemma rows_are_points i : i < length (simplices E 0) -> exists v, nth i (simplices E 0) [] = [v] /\ v < n.
  Proof.
    intros Hi. assert (H := nth_In (simplices E 0) [] Hi). unfold simplices at 2 in H. apply in_map_iff in H as ([s w] & Q & H). rewrite <- Q. cbn [fst].
    apply (proj1 Lr) in H as (Ls & _ & (_ & _ & B & _) & _). destruct s as [|v [|]]; try discriminate. exists v. split; [reflexivity|]. apply B. now left.
  Qed.
  Lemma boundary_coord s i : coord (boundary (simplices E 0) s) i = (i <? length (simplices E 0)) && is_face s (nth i (simplices E 0) []).
  Proof.
    apply eq_true_iff_eq. unfold coord. rewrite existsb_exists, andb_true_iff, Nat.ltb_lt. unfold boundary. split.
    - intros (x & H & Q). apply Nat.eqb_eq in Q. subst x. apply filter_In in H as [H Q]. apply in_seq in H. split; [lia|exact Q].
    - intros [H Q]. exists i. split; [|apply Nat.eqb_refl]. apply filter_In. split; [apply in_seq; lia|exact Q].
  Qed.
  Lemma all_even i : sum_coord (firstn n (bmatrix E 1)) i = false.
  Proof.
    rewrite first_edges, sum_coord_parity. destruct (Nat.lt_ge_cases i (length (simplices E 0))) as [Hi|Hi].
    - destruct (rows_are_points i Hi) as (v & Q & Hv).
      assert (X : length (filter (fun c0 => coord c0 i) (map (boundary (simplices E 0)) L)) = length (filter (mem v) L)).
      { assert (G : forall l, length (filter (fun c0 => coord c0 i) (map (boundary (simplices E 0)) l)) = length (filter (mem v) l)).
        { induction l as [|s l IH]; [reflexivity|]. cbn [map filter]. rewrite boundary_coord, Q, (proj2 (Nat.ltb_lt _ _) Hi). cbn [andb]. unfold is_face. cbn [forallb]. rewrite andb_true_r. fold (mem v s). destruct (mem v s); cbn [length]; now rewrite IH. }
        apply G. }
      rewrite X, (degree v Hv). reflexivity.
    - assert (G : forall l, filter (fun c0 => coord c0 i) (map (boundary (simplices E 0)) l) = []).
      { induction l as [|s l IH]; [reflexivity|]. cbn [map filter]. rewrite boundary_coord. destruct (Nat.ltb_spec i (length (simplices E 0))); [lia|]. cbn [andb]. exact IH. }
      rewrite G. reflexivity.
  Qed.
  Lemma last_not_fresh : ~ fresh (bmatrix E 1) (n - 1).
  Proof.
    intros (x & Ex & N). apply N. exists (firstn (n - 1) (bmatrix E 1)). split; [apply incl_refl|]. intros i. assert (A := all_even i). assert (Hp := point).
    replace n with (S (n - 1)) in A at 1 by lia. assert (Q : firstn (S (n - 1)) (bmatrix E 1) = firstn (n - 1) (bmatrix E 1) ++ [x]).
    { clear - Ex. revert Ex. generalize (n - 1) as m, (bmatrix E 1) as l. induction m as [|m IH]; intros [|y l] Ex; try discriminate; cbn in Ex; [injection Ex as ->; reflexivity|]. cbn [firstn app]. f_equal. now apply IH. }
    rewrite Q in A. unfold sum_coord in A |- *. rewrite fold_right_app in A. cbn [fold_right] in A. rewrite xorb_false_r in A.
    revert A. generalize (firstn (n - 1) (bmatrix E 1)) as l. intros l A. assert (G : forall l b, fold_right (fun s b => xorb (coord s i) b) b l = xorb (fold_right (fun s b => xorb (coord s i) b) false l) b).
    { clear. induction l as [|y l IH]; intros b; cbn [fold_right]; [now rewrite xorb_false_l|]. rewrite IH. now rewrite xorb_assoc. }
    rewrite G in A. apply xorb_eq in A. now symmetry.
  Qed.

  Variable piv : list nat.
  Hypothesis Np : negative E 1 piv.
  Variable ds : list Z.
  Hypothesis Dp : ds = map (edge_weight (level E 1)) piv.
  Hypothesis Count : forall s k, clusters dist data c eps s k -> count_le s ds + k = n.

  Lemma pivots_are_first : piv = seq 0 (n - 1).
  Proof.
    destruct Np as [I Hf].
    assert (B : forall j, In j piv -> j < length (level E 1)).
    { intros j Hj. apply Hf, fresh_lt in Hj. unfold bmatrix, boundary_matrix, simplices in Hj. now rewrite !map_length in Hj. }
    destruct (cut_spec t E 1 F) as (_ & _ & W). rewrite edge_number in W.
    assert (Cn := Count t 1 One). assert (Hp := point).
    assert (Cs : count_le t ds = length (filter (fun j => j <? n) piv)).
    { rewrite Dp. unfold count_le. revert B. clear - W. induction piv as [|j l IH]; intros B; [reflexivity|]. cbn [map filter]. specialize (W j (B j (or_introl eq_refl))).
      assert (X : (edge_weight (level E 1) j <=? t)%Z = (j <? n)) by (apply eq_true_iff_eq; rewrite Z.leb_le, Nat.ltb_lt; tauto). rewrite X.
      destruct (j <? n); cbn [length]; rewrite IH; auto; intros; apply B; now right. }
    (* all of them: at the largest weight there is still at least one cluster *)
    assert (All : length ds <= n - 1).
    { assert (M : exists T, (t <= T)%Z /\ forall w, In w ds -> (w <= T)%Z).
      { clear. exists (fold_right Z.max t ds). split; [induction ds; cbn; lia|]. induction ds as [|x l IH]; intros w []; cbn; subst; [lia|]. specialize (IH w H). lia. }
      destruct M as (T & HT & M). assert (O : clusters dist data c eps T 1).
      { destruct One as (reps & Ln & Nr & Ir & U & A). exists reps. do 3 (split; [assumption|]). split.
        - destruct reps as [|r [|]]; try discriminate. intros x y [<-|[]] [<-|[]] _. reflexivity.
        - intros v Hv. destruct (A v Hv) as (r & Hr & R). exists r. split; [auto|]. clear - R HT. induction R as [x y (H1 & H2 & H3 & H4)| | |]; [apply rst_step; repeat split; auto; lia|apply rst_refl|now apply rst_sym|eapply rst_trans; eauto]. }
      specialize (Count T 1 O). assert (X : count_le T ds = length ds); [|lia]. unfold count_le. f_equal. clear - M. induction ds as [|w l IH]; [reflexivity|]. cbn [filter].
      rewrite (proj2 (Z.leb_le w T) (M w (or_introl eq_refl))). f_equal. apply IH. intros; apply M; now right. }
    assert (Lp : length ds = length piv) by (rewrite Dp; apply map_length).
    assert (Fa : filter (fun j => j <? n) piv = piv).
    { assert (G : forall l : list nat, length (filter (fun j => j <? n) l) >= length l -> filter (fun j => j <? n) l = l).
      { clear. induction l as [|x l IH]; [reflexivity|]. cbn [filter]. assert (X : length (filter (fun j => j <? n) l) <= length l) by (clear; induction l as [|y l IH]; cbn [filter]; [lia|]; destruct (y <? n); cbn [length]; lia).
        destruct (x <? n); cbn [length]; intros H; [f_equal; apply IH; lia|lia]. }
      apply G. lia. }
    apply full_increasing; [exact I| |rewrite Fa in Cs; lia].
    intros x Hx. rewrite <- Fa in Hx. apply filter_In in Hx as [Hx Hn]. apply Nat.ltb_lt in Hn. destruct (Nat.eq_dec x (n - 1)) as [->|]; [|lia]. exfalso. apply last_not_fresh. now apply Hf.
  Qed.
  Lemma skipped : libstdcxx_skip piv (length (level E 1)) = seq 0 n.
  Proof.
    assert (Hp := point). rewrite pivots_are_first. unfold libstdcxx_skip. rewrite seq_length. destruct (list_eq_dec Nat.eq_dec (seq 0 (n - 1)) (seq 0 (n - 1))) as [_|X]; [|now destruct X].
    destruct (cut_spec t E 1 F) as (_ & Q & _). rewrite edge_number in Q. destruct (Nat.ltb_spec (n - 1) (length (level E 1))); [|lia]. f_equal. lia.
  Qed.
  Theorem loop_lost ps : pairing (map (boundary_without (libstdcxx_skip piv (length (level E 1))) (simplices E 1)) (simplices E 2)) ps ->
    forall i j, In (i, j) ps -> n <= i.
  Proof.
    rewrite skipped. intros (_ & _ & _ & P) i j H. destruct (paired_column _ _ _ (P i j H)) as (x & Hx & Hi). apply in_map_iff in Hx as (s & <- & _).
    unfold boundary_without in Hi. apply filter_In in Hi as [_ Hi]. destruct (Nat.lt_ge_cases i n) as [G|G]; [exfalso|exact G].
    rewrite negb_true_iff in Hi. assert (X : existsb (Nat.eqb i) (seq 0 n) = true) by (apply existsb_exists; exists i; split; [apply in_seq; lia|apply Nat.eqb_refl]). congruence.
  Qed.
  Lemma heavier i : n <= i -> i < length (level E 1) -> (t < edge_weight (level E 1) i)%Z.
  Proof. intros H Hi. destruct (cut_spec t E 1 F) as (_ & _ & W). rewrite edge_number in W. specialize (W i Hi). lia. Qed.

  (* Four or more points: no three of them are neighbours of each other, so the loop is not filled. *)
  Lemma no_triangle : 3 < n -> up_to t (level E 2) = [].
  Proof.
    intros Hn. destruct (up_to t (level E 2)) as [|[s w] l] eqn:Q; [reflexivity|exfalso].
    assert (H : In (s, w) (up_to t (level E 2))) by (rewrite Q; now left). apply filter_In in H as [H Hw]. cbn [snd] in Hw. apply Z.leb_le in Hw.
    apply (proj1 Lr) in H as (Ls & _ & (_ & I & B & P) & [M _]). destruct s as [|x [|y [|z [|]]]]; try discriminate.
    assert (G : forall u v, In u [x; y; z] -> In v [x; y; z] -> u < v -> J u v).
    { intros u v Hu Hv Huv. repeat split; auto. specialize (M u v Hu Hv Huv). lia. }
    assert (Hxy : x < y /\ y < z) by (apply ssorted_cons in I as [I1 I2]; apply ssorted_cons in I1 as [_ I3]; split; [apply I2|apply I3]; now left).
    assert (A : forall u v, In u [x; y; z] -> In v [x; y; z] -> u <> v -> next_to u v).
    { intros u v Hu Hv Huv. destruct (Nat.lt_gt_cases u v) as [[X|X] _]; [lia| |]; [left|right]; now apply G. }
    assert (Cl : forall u v, In u [x; y; z] -> next_to u v -> In v [x; y; z]).
    { intros u v Hu Huv. destruct (Deg u (B u Hu)) as (a & b & Hab & D).
      assert (K : forall p q, In p [x; y; z] -> In q [x; y; z] -> u <> p -> u <> q -> p <> q -> In v [x; y; z]).
      { intros p q Hp Hq Hup Huq Hpq. assert (D1 := proj1 (D p) (A u p Hu Hp Hup)). assert (D2 := proj1 (D q) (A u q Hu Hq Huq)). apply D in Huv.
        assert (v = p \/ v = q) as [->| ->] by (destruct D1, D2, Huv; subst; auto; congruence); auto. }
      cbn [In] in Hu. destruct Hu as [<-|[<-|[<-|[]]]]; [apply (K y z)|apply (K x z)|apply (K x y)]; cbn [In]; auto; lia. }
    assert (CC : forall u v, clos_refl_sym_trans nat J u v -> (In u [x; y; z] <-> In v [x; y; z])).
    { intros u v R. induction R as [u v R| |u v R IH|u v w' R1 IH1 R2 IH2]; [|tauto|tauto|tauto]. split; intros K; (eapply Cl; [exact K|]); [left|right]; exact R. }
    destruct One as (reps & Lr' & _ & _ & _ & Al). destruct reps as [|r [|]]; try discriminate.
    assert (AA : forall v, v < n -> In v [x; y; z]).
    { intros v Hv. assert (Hx : In x [x; y; z]) by now left. destruct (Al x) as (r1 & [<-|[]] & R1); [apply in_seq; specialize (B x Hx); lia|]. destruct (Al v) as (r2 & [<-|[]] & R2); [apply in_seq; lia|].
      apply (CC v r R2). now apply (CC x r R1). }
    assert (X : incl (seq 0 4) [x; y; z]) by (intros v Hv; apply AA; apply in_seq in Hv; lia).
    apply (NoDup_incl_length (seq_NoDup 4 0)) in X. cbn [seq length] in X. lia.
  Qed.
  Theorem one_loop : 3 < n -> betti (at_scale t E) 1 1.
  Proof.
    intros Hn. exists (n - 1), 0. split; [|split].
    - assert (R := rank_at_scale t E 0 piv F C Np). rewrite edge_number, pivots_are_first in R.
      rewrite (filter_every (fun j => j <? n) (seq 0 (n - 1))) in R; [now rewrite seq_length in R|].
      intros j Hj. apply in_seq in Hj. apply Nat.ltb_lt. lia.
    - unfold bmatrix, boundary_matrix. assert (X : simplices (at_scale t E) 2 = []) by (unfold simplices; now rewrite level_at_scale, no_triangle). rewrite X.
      cbn [map]. apply (fresh_rank [] []); [constructor|]. intros j. split; [intros []|]. intros (v & Hv & _). now destruct j.
    - rewrite level_at_scale. fold (cut t E 1). rewrite edge_number. assert (Hp := point). lia.
  Qed.
End Polygon.
