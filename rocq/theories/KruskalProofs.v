(* KruskalProofs.v -- the dimension-0 part of fastPersistence computes a minimum spanning forest. *)
From Coq Require Import List Arith ZArith Bool Lia Sorted Permutation Relations.
From Verif Require Import Base Spec UtilsModel UtilsProofs PartitionProofs ArrayListModel ArrayListProofs
  SpecComplex FastModel SpecGraph.
Import ListNotations.

(* ---- connectivity ---- *)
Lemma conn_refl E u : connected E u u. Proof. apply rst_refl. Qed.
Lemma conn_sym E u v : connected E u v -> connected E v u. Proof. apply rst_sym. Qed.
Lemma conn_trans E u v x : connected E u v -> connected E v x -> connected E u x.
Proof. apply rst_trans. Qed.
Lemma conn_mono E E' u v : incl E E' -> connected E u v -> connected E' u v.
Proof.
  intros I H. induction H as [x y (w & Hw)|x|x y _ IH|x y z _ IH1 _ IH2].
  - apply rst_step. exists w. auto. - apply conn_refl. - now apply conn_sym. - eapply conn_trans; eauto.
Qed.
Lemma conn_nil u v : connected [] u v <-> u = v.
Proof.
  split; [|intros ->; apply conn_refl]. intros H. induction H as [x y (w & [])|x|x y _ IH|x y z _ IH1 _ IH2]; congruence.
Qed.
Lemma conn_edge E u v w : In ([u; v], w) E -> connected E u v.
Proof. intros H. apply rst_step. now exists w. Qed.

Lemma conn_add E u v w a b :
  connected (E ++ [([u; v], w)]) a b <->
  connected E a b \/ (connected E a u /\ connected E v b) \/ (connected E a v /\ connected E u b).
Proof.
  split.
  - intros H. induction H as [x y (w' & Hw)|x|x y _ IH|x y z _ IH1 _ IH2].
    + apply in_app_iff in Hw as [Hw|[E1|[]]].
      * left. eapply conn_edge; eauto.
      * inversion E1; subst. right. left. split; apply conn_refl.
    + left. apply conn_refl.
    + destruct IH as [H|[[H1 H2]|[H1 H2]]]; [left|right; right|right; left]; try split; now apply conn_sym.
    + destruct IH1 as [H|[[H1 H2]|[H1 H2]]], IH2 as [K|[[K1 K2]|[K1 K2]]];
        eauto 6 using conn_trans, conn_sym.
  - assert (I : incl E (E ++ [([u; v], w)])) by (intros x Hx; apply in_app_iff; auto).
    assert (Huv : connected (E ++ [([u; v], w)]) u v) by (apply conn_edge with w; apply in_app_iff; right; now left).
    intros [H|[[H1 H2]|[H1 H2]]].
    + eapply conn_mono; eauto.
    + eapply conn_trans; [eapply conn_mono; eauto|]. eapply conn_trans; [exact Huv|]. eapply conn_mono; eauto.
    + eapply conn_trans; [eapply conn_mono; eauto|]. eapply conn_trans; [apply conn_sym, Huv|]. eapply conn_mono; eauto.
Qed.

Lemma conn_same E E' : (forall s w, In (s, w) E <-> In (s, w) E') -> forall u v, connected E u v <-> connected E' u v.
Proof. intros H u v. split; apply conn_mono; intros [s w]; apply H. Qed.

(* ---- classes ---- *)
Lemma classes_le (V : list nat) (R : nat -> nat -> Prop) r1 r2 :
  (forall x y, R x y -> R y x) -> (forall x y z, R x y -> R y z -> R x z) ->
  NoDup r1 -> incl r1 V -> (forall x y, In x r1 -> In y r1 -> R x y -> x = y) ->
  (forall v, In v V -> exists r, In r r2 /\ R v r) -> length r1 <= length r2.
Proof.
  intros Rs Rt N I U T.
  assert (H : exists m, length m = length r1 /\ NoDup m /\ incl m r2 /\ forall y, In y m -> exists x, In x r1 /\ R x y).
  { clear - Rs Rt N I U T. revert N I U. induction r1 as [|x r1 IH]; intros N I U.
    - exists []. repeat split; try constructor. + intros x []. + intros y [].
    - inversion N; subst. destruct IH as (m & L & Nm & Im & Hm); auto.
      { intros y Hy. apply I. now right. } { intros a b Ha Hb. apply U; now right. }
      destruct (T x) as (r & Hr & Rx). { apply I. now left. }
      exists (r :: m). cbn. split; [lia|]. split.
      + constructor; auto. intros Hin. destruct (Hm r Hin) as (y & Hy & Ry).
        assert (x = y) by (apply U; [now left|now right|eauto]). subst. easy.
      + split; [intros y [<-|Hy]; auto|]. intros y [<-|Hy]; [exists x; split; [now left|auto]|].
        destruct (Hm y Hy) as (z & Hz & Rz). exists z. split; [now right|auto]. }
  destruct H as (m & L & Nm & Im & _). rewrite <- L. now apply NoDup_incl_length.
Qed.

Lemma components_unique V E c1 c2 : components V E c1 -> components V E c2 -> c1 = c2.
Proof.
  intros (r1 & L1 & N1 & I1 & U1 & T1) (r2 & L2 & N2 & I2 & U2 & T2).
  assert (length r1 <= length r2) by (eapply classes_le with (R := connected E); eauto using conn_sym, conn_trans).
  assert (length r2 <= length r1) by (eapply classes_le with (R := connected E); eauto using conn_sym, conn_trans).
  lia.
Qed.

Lemma components_same V E E' c : (forall u v, connected E u v <-> connected E' u v) -> components V E c -> components V E' c.
Proof.
  intros H (r & L & N & I & U & T). exists r. split; [auto|]. split; auto. split; auto. split.
  - intros x y Hx Hy R. apply U; auto. now apply H.
  - intros v Hv. destruct (T v Hv) as (q & Hq & R). exists q. split; auto. now apply H.
Qed.

Lemma components_nil V : NoDup V -> components V [] (length V).
Proof.
  intros N. exists V. split; auto. split; auto. split; [apply incl_refl|]. split.
  - intros x y _ _ H. now apply conn_nil. - intros v Hv. exists v. split; auto. apply conn_refl.
Qed.

Lemma components_join V E u v w c : In u V -> In v V -> ~ connected E u v -> components V E c ->
  exists c', c = S c' /\ components V (E ++ [([u; v], w)]) c'.
Proof.
  intros Hu Hv Hn (r & L & N & I & U & T).
  destruct (T u Hu) as (ru & Hru & Ru). destruct (T v Hv) as (rv & Hrv & Rv).
  apply in_split in Hru as (a & b & ->). exists (length (a ++ b)). rewrite !app_length in *. cbn in L. split; [lia|].
  exists (a ++ b). split; [apply app_length|]. assert (N' := NoDup_remove _ _ _ N). destruct N' as [N1 N2]. split; auto.
  assert (Hin : forall x, In x (a ++ ru :: b) <-> x = ru \/ In x (a ++ b)).
  { intros x. rewrite !in_app_iff. cbn. intuition. }
  split; [intros x Hx; apply I; apply Hin; auto|].
  assert (Hne : forall x, In x (a ++ b) -> ~ connected E x u).
  { intros x Hx H. assert (x = ru); [|subst; easy]. apply U; [apply Hin; auto|apply Hin; auto|].
    eapply conn_trans; eauto. }
  split.
  - intros x y Hx Hy H. apply conn_add in H as [H|[[H1 H2]|[H1 H2]]].
    + apply U; auto; apply Hin; auto. + now apply Hne in H1. + apply conn_sym in H2. now apply Hne in H2.
  - intros z Hz. assert (Hrv' : In rv (a ++ b)).
    { apply Hin in Hrv as [->|Hrv]; auto. exfalso. apply Hn. eapply conn_trans; [exact Ru|now apply conn_sym]. }
    destruct (T z Hz) as (q & Hq & R). apply Hin in Hq as [->|Hq].
    + exists rv. split; auto. apply conn_add. right. left. split; auto. eapply conn_trans; [exact R|]. now apply conn_sym.
    + exists q. split; auto. apply conn_add. auto.
Qed.

Lemma conn_redundant E u v w : connected E u v -> forall a b, connected E a b <-> connected (E ++ [([u; v], w)]) a b.
Proof.
  intros H a b. rewrite conn_add. split; auto. intros [K|[[K1 K2]|[K1 K2]]]; eauto using conn_trans, conn_sym.
Qed.

Lemma connected_all V E : components V E 1 -> forall u v, In u V -> In v V -> connected E u v.
Proof.
  intros (r & L & N & I & U & T) u v Hu Hv. destruct r as [|x [|]]; try discriminate.
  destruct (T u Hu) as (p & [<-|[]] & Ru), (T v Hv) as (q & [<-|[]] & Rv). eapply conn_trans; eauto using conn_sym.
Qed.

(* ---- one scan over conSet ---- *)
Definition hits (u v : nat) (c : list nat) : bool := existsb (Nat.eqb u) c || existsb (Nat.eqb v) c.

Lemma existsb_In x c : existsb (Nat.eqb x) c = true <-> In x c.
Proof. rewrite existsb_exists. split; [intros (y & Hy & E); apply Nat.eqb_eq in E; now subst|intros H; exists x; split; auto; apply Nat.eqb_refl]. Qed.

Lemma wset_length u v c : u < v -> ssorted c ->
  length (setIntersect_set [u; v] c) =
    (if existsb (Nat.eqb u) c then 1 else 0) + (if existsb (Nat.eqb v) c then 1 else 0).
Proof.
  intros Huv Sc. assert (Sv : ssorted [u; v]) by (apply ssorted_cons; split; [repeat constructor|intros y [<-|[]]; auto]).
  destruct (setIntersect_set_spec [u; v] c Sv Sc) as [S1 I1].
  assert (E : setIntersect_set [u; v] c = filter (fun x => existsb (Nat.eqb x) c) [u; v]).
  { apply ssorted_ext; auto. - now apply ssorted_filter.
    - intros x. rewrite I1, filter_In, existsb_In. reflexivity. }
  rewrite E. cbn. destruct (existsb (Nat.eqb u) c), (existsb (Nat.eqb v) c); reflexivity.
Qed.

Lemma insert_all_spec xs : forall s, ssorted s -> ssorted (insert_all xs s) /\ forall x, In x (insert_all xs s) <-> In x xs \/ In x s.
Proof.
  unfold insert_all. induction xs as [|y xs IH]; intros s Ss; cbn; [split; [auto|tauto]|].
  destruct (IH (sinsert y s)) as [H1 H2]. { now apply sinsert_ssorted. }
  split; auto. intros x. rewrite H2, sinsert_In. intuition.
Qed.

Section Scan.
  Variables (u v : nat) (w : Z) (ix : nat).
  Hypothesis Huv : u < v.
  Notation edge := ([u; v], w).

  (* no set contains both ends *)
  Lemma scan_open con : forall s,
    Forall ssorted con -> (forall c, In c con -> ~ (In u c /\ In v c)) -> ssorted (ks_temp s) ->
    let r := fold_left (kr_scan1 edge ix) con s in
    let h := existsb (hits u v) con in
    ks_found r = ks_found s || h /\ ks_br r = ks_br s /\
    ks_con r = ks_con s ++ filter (fun c => negb (hits u v c)) con /\
    ks_mst r = ks_mst s ++ (if negb (ks_found s) && h then [w] else []) /\
    ks_piv r = ks_piv s ++ (if negb (ks_found s) && h then [ix] else []) /\
    map death (ks_tab r) = map death (ks_tab s) ++ (if negb (ks_found s) && h then [w] else []) /\
    (exists new, ks_tab r = ks_tab s ++ new /\ forall b, In b new -> bettiDim b = 0 /\ birth b = 0%Z) /\
    ssorted (ks_temp r) /\
    (forall x, In x (ks_temp r) <-> In x (ks_temp s) \/ (exists c, In c con /\ hits u v c = true /\ (In x c \/ x = u \/ x = v))).
  Proof.
    induction con as [|c con IH]; intros s Sc Hb St; cbn zeta.
    - cbn. rewrite !orb_false_r, !andb_false_r, !app_nil_r. repeat split; auto.
      + exists []. rewrite app_nil_r. split; auto. intros b [].
      + intros [H|(c & [] & _)]; auto.
    - inversion Sc as [|? ? Sc1 Sc2]; subst. cbn [fold_left existsb filter].
      assert (Hb' : forall c, In c con -> ~ (In u c /\ In v c)) by (intros c' Hc'; apply Hb; now right).
      assert (Hbc := Hb c (or_introl eq_refl)).
      set (s1 := kr_scan1 edge ix s c). specialize (IH s1 Sc2 Hb').
      assert (Su : ssorted [u; v]) by (apply ssorted_cons; split; [repeat constructor|intros y [<-|[]]; auto]).
      assert (W := wset_length u v c Huv Sc1).
      destruct (hits u v c) eqn:Eh; cbn [negb orb].
      + assert (W1 : length (setIntersect_set [u; v] c) = 1).
        { rewrite W. unfold hits in Eh. rewrite <- !existsb_In in Hbc.
          destruct (existsb (Nat.eqb u) c), (existsb (Nat.eqb v) c); cbn in *; auto; [exfalso; auto|discriminate]. }
        destruct (ks_found s) eqn:Ef; cbn [negb orb andb] in *.
        * assert (E1 : s1 = let t1 := insert_all (set_union (ks_temp s) c) (ks_temp s) in
             mkScan true (ks_br s) (insert_all (set_union [u; v] t1) t1) (ks_con s) (ks_mst s) (ks_piv s) (ks_tab s)).
          { unfold s1, kr_scan1. rewrite Ef. cbn [negb andb fst]. rewrite W1. reflexivity. }
          destruct (insert_all_spec (set_union (ks_temp s) c) (ks_temp s) St) as [T1 T2].
          set (t1 := insert_all (set_union (ks_temp s) c) (ks_temp s)) in *. cbn zeta in E1.
          destruct (insert_all_spec (set_union [u; v] t1) t1 T1) as [T3 T4].
          rewrite E1 in IH. cbn [ks_temp ks_found ks_br ks_con ks_mst ks_piv ks_tab] in IH.
          destruct (IH T3) as (R1 & R2 & R3 & R4 & R5 & R6 & R7 & R8 & R9). rewrite E1.
          split; [auto|]. split; [auto|]. split; [auto|]. split; [auto|]. split; [auto|]. split; [auto|]. split; [auto|]. split; [auto|].
          intros x. rewrite R9, T4, set_union_In, T2, set_union_In by auto. cbn [In]. split.
          -- intros [[[[<-|[<-|[]]]|[[H|H]|H]]|[[H|H]|H]]|(c' & H1 & H2 & H3)]; auto;
               try (right; exists c; split; [now left|]; auto; fail); right; exists c'; auto.
          -- intros [H|(c' & [<-|H1] & H2 & H3)]; auto; [left|right; exists c'; auto].
             destruct H3 as [H3|[->| ->]]; auto 6.
        * assert (E1 : s1 = mkScan true (ks_br s) (insert_all (set_union [u; v] c) (ks_temp s)) (ks_con s)
             (ks_mst s ++ [w]) (ks_piv s ++ [ix]) (ks_tab s ++ [mkBetti 0 0 w (setIntersect_set [u; v] c)])).
          { unfold s1, kr_scan1. rewrite Ef. cbn [negb andb fst snd]. rewrite W1. reflexivity. }
          destruct (insert_all_spec (set_union [u; v] c) (ks_temp s) St) as [T3 T4].
          rewrite E1 in IH. cbn [ks_temp ks_found ks_br ks_con ks_mst ks_piv ks_tab negb andb] in IH.
          destruct (IH T3) as (R1 & R2 & R3 & R4 & R5 & R6 & R7 & R8 & R9). rewrite E1.
          split; [auto|]. split; [auto|]. split; [auto|]. rewrite R4, R5, R6, map_app, !app_nil_r.
          split; [auto|]. split; [auto|]. split; [auto|]. split.
          { destruct R7 as (new & En & Hn). rewrite En, <- app_assoc. eexists. split; [reflexivity|].
            intros b [<-|Hin]; auto. }
          split; [auto|].
          intros x. rewrite R9, T4, set_union_In by auto. cbn [In]. split.
          -- intros [[[[<-|[<-|[]]]|H]|H]|(c' & H1 & H2 & H3)]; auto;
               try (right; exists c; split; [now left|]; auto; fail); right; exists c'; auto.
          -- intros [H|(c' & [<-|H1] & H2 & H3)]; auto; [left|right; exists c'; auto].
             destruct H3 as [H3|[->| ->]]; auto 6.
      + assert (W0 : length (setIntersect_set [u; v] c) = 0).
        { rewrite W. unfold hits in Eh. apply orb_false_iff in Eh as [-> ->]. reflexivity. }
        assert (E1 : s1 = mkScan (ks_found s) (ks_br s) (ks_temp s) (ks_con s ++ [c]) (ks_mst s) (ks_piv s) (ks_tab s)).
        { unfold s1, kr_scan1. cbn [fst]. rewrite W0. now rewrite andb_false_r. }
        rewrite E1 in IH. cbn [ks_temp ks_found ks_br ks_con ks_mst ks_piv ks_tab] in IH.
        destruct (IH St) as (R1 & R2 & R3 & R4 & R5 & R6 & R7 & R8 & R9). rewrite E1.
        split; [auto|]. split; [auto|]. split; [rewrite R3, <- app_assoc; reflexivity|].
        split; [auto|]. split; [auto|]. split; [auto|]. split; [auto|]. split; [auto|].
        intros x. rewrite R9. split.
        * intros [H|(c' & H1 & H2)]; auto. right. exists c'. split; [now right|auto].
        * intros [H|(c' & [<-|H1] & H2 & H3)]; auto; [congruence|]. right. exists c'. auto.
  Qed.

  (* sets that contain no end or both are copied *)
  Lemma scan_closed con : forall s,
    Forall ssorted con -> (forall c, In c con -> (In u c <-> In v c)) ->
    let r := fold_left (kr_scan1 edge ix) con s in
    r = mkScan (ks_found s) (ks_br s || existsb (hits u v) con) (ks_temp s) (ks_con s ++ con) (ks_mst s) (ks_piv s) (ks_tab s).
  Proof.
    induction con as [|c con IH]; intros s Sc Hb; cbn zeta.
    - cbn. rewrite orb_false_r, app_nil_r. now destruct s.
    - inversion Sc as [|? ? Sc1 Sc2]; subst. cbn [fold_left existsb].
      assert (Hbc := Hb c (or_introl eq_refl)). rewrite <- !existsb_In in Hbc.
      assert (W := wset_length u v c Huv Sc1).
      rewrite IH; auto. 2:{ intros c' Hc'. apply Hb. now right. }
      unfold hits at 2. unfold kr_scan1. cbn [fst snd]. rewrite W.
      destruct (existsb (Nat.eqb u) c) eqn:E1, (existsb (Nat.eqb v) c) eqn:E2.
      + change (1 + 1 =? 1) with false. change (1 + 1 =? 2) with true. rewrite andb_false_r.
        cbn [ks_found ks_br ks_con ks_temp ks_mst ks_piv ks_tab orb]. rewrite <- app_assoc, !orb_true_r. reflexivity.
      + exfalso. destruct Hbc as [H _]. discriminate H. auto.
      + exfalso. destruct Hbc as [_ H]. discriminate H. auto.
      + change (0 + 0 =? 1) with false. change (0 + 0 =? 2) with false. rewrite andb_false_r.
        cbn [ks_found ks_br ks_con ks_temp ks_mst ks_piv ks_tab orb]. now rewrite <- app_assoc.
  Qed.
End Scan.

(* ---- the loop ---- *)
Definition disjoint (a b : list nat) : Prop := forall x, In x a -> ~ In x b.

Record cinv (con : list (list nat)) (P : list wsimp) : Prop := {
  ci_sorted : Forall ssorted con;
  ci_disj : ForallOrdPairs disjoint con;
  ci_conn : forall u v, connected P u v <-> u = v \/ exists c, In c con /\ In u c /\ In v c;
  ci_touch : forall u, (exists c, In c con /\ In u c) <-> exists s w, In (s, w) P /\ In u s
}.

Lemma same_set con P u c1 c2 : cinv con P -> In c1 con -> In c2 con -> In u c1 -> In u c2 ->
  forall x, In x c1 <-> In x c2.
Proof.
  intros [_ Hd _ _] H1 H2 U1 U2. revert H1 H2. induction Hd as [|c con Hc Hd IH]; intros H1 H2; [easy|].
  rewrite Forall_forall in Hc. destruct H1 as [<-|H1], H2 as [<-|H2]; try tauto.
  - exfalso. apply (Hc c2 H2 u); auto. - exfalso. apply (Hc c1 H1 u); auto.
Qed.

Lemma FOP_app_one {A} (R : A -> A -> Prop) l x : ForallOrdPairs R l -> (forall y, In y l -> R y x) -> ForallOrdPairs R (l ++ [x]).
Proof.
  induction 1 as [|y l Hy Hl IH]; intros H; cbn; [repeat constructor|]. constructor.
  - apply Forall_app. split; auto. constructor; auto. apply H. now left.
  - apply IH. intros z Hz. apply H. now right.
Qed.
Lemma FOP_filter {A} (R : A -> A -> Prop) f l : ForallOrdPairs R l -> ForallOrdPairs R (filter f l).
Proof.
  induction 1 as [|y l Hy Hl IH]; cbn; [constructor|]. destruct (f y); auto. constructor; auto.
  rewrite Forall_forall in *. intros z Hz. apply filter_In in Hz. apply Hy. tauto.
Qed.

Definition touched (P : list wsimp) (u v : nat) : Prop := exists s w, In (s, w) P /\ (In u s \/ In v s).

Lemma kr_edge_spec s P u v w : u < v -> cinv (k_con s) P ->
  let s' := kr_edge s ([u; v], w) in
  cinv (k_con s') (P ++ [([u; v], w)]) /\
  ((connected P u v /\ k_mst s' = k_mst s /\ k_piv s' = k_piv s /\ k_tab s' = k_tab s) \/
   (~ connected P u v /\ k_mst s' = k_mst s ++ [w] /\ k_piv s' = k_piv s ++ [k_ix s] /\
    exists new, k_tab s' = k_tab s ++ new /\ (forall b, In b new -> bettiDim b = 0 /\ birth b = 0%Z) /\
      ((touched P u v /\ map death new = [w]) \/ (~ touched P u v /\ new = [])))).
Proof.
  intros Huv C. assert (C0 := C). destruct C as [Cs Cd Cc Ct]. cbn zeta. unfold kr_edge.
  assert (Htouch : touched P u v <-> existsb (hits u v) (k_con s) = true).
  { rewrite existsb_exists. unfold touched. split.
    - intros (q & x & H1 & [H2|H2]).
      + destruct (proj2 (Ct u)) as (c & Hc & Hu); eauto. exists c. split; auto. unfold hits. apply existsb_In in Hu. now rewrite Hu.
      + destruct (proj2 (Ct v)) as (c & Hc & Hu); eauto. exists c. split; auto. unfold hits. apply existsb_In in Hu. rewrite Hu. apply orb_true_r.
    - intros (c & Hc & H). unfold hits in H. apply orb_true_iff in H. rewrite !existsb_In in H. destruct H as [H|H].
      + destruct (proj1 (Ct u)) as (q & x & H1 & H2); eauto 6. + destruct (proj1 (Ct v)) as (q & x & H1 & H2); eauto 6. }
  assert (Hdec : (exists c, In c (k_con s) /\ In u c /\ In v c) \/ (forall c, In c (k_con s) -> ~ (In u c /\ In v c))).
  { destruct (existsb (fun c => existsb (Nat.eqb u) c && existsb (Nat.eqb v) c) (k_con s)) eqn:E.
    - left. apply existsb_exists in E as (c & Hc & E). apply andb_true_iff in E as [E1 E2]. apply existsb_In in E1, E2. eauto.
    - right. intros c Hc [H1 H2]. apply existsb_In in H1, H2. apply not_true_iff_false in E. apply E.
      apply existsb_exists. exists c. split; auto. now rewrite H1, H2. }
  destruct Hdec as [(c0 & Hc0 & Hu0 & Hv0)|Hopen].
  - (* both ends in one set *)
    rewrite scan_closed; auto.
    2:{ intros c Hc. split; intros H.
        - now apply (same_set _ _ u c0 c C0). - now apply (same_set _ _ v c0 c C0). }
    cbn [ks_found ks_br ks_con ks_temp ks_mst ks_piv ks_tab].
    assert (Eh : existsb (hits u v) (k_con s) = true).
    { apply existsb_exists. exists c0. split; auto. unfold hits. apply existsb_In in Hu0. now rewrite Hu0. }
    rewrite Eh. cbn [orb k_con k_mst k_piv k_tab].
    assert (Huv' : connected P u v) by (apply Cc; right; eauto).
    split; [|left; auto]. constructor; auto.
    + intros a b. rewrite <- (conn_redundant P u v w Huv'). apply Cc.
    + intros a. rewrite Ct. split.
      * intros (q & x & H1 & H2). exists q, x. split; auto. apply in_app_iff. auto.
      * intros (q & x & H1 & H2). apply in_app_iff in H1 as [H1|[H1|[]]]; eauto. inversion H1; subst q x.
        destruct H2 as [<-|[<-|[]]]; apply Ct; eauto.
  - destruct (scan_open u v w (k_ix s) Huv (k_con s) (mkScan false false [] [] (k_mst s) (k_piv s) (k_tab s)) Cs Hopen)
      as (R1 & R2 & R3 & R4 & R5 & R6 & (new & R7 & R7') & R8 & R9); [constructor|].
    cbn [ks_found ks_br ks_con ks_temp ks_mst ks_piv ks_tab negb orb andb] in *.
    assert (Hn : ~ connected P u v).
    { intros H. apply Cc in H as [->|(c & H1 & H2 & H3)]; [lia|]. apply (Hopen c); auto. }
    rewrite R1. destruct (existsb (hits u v) (k_con s)) eqn:Eh.
    + (* joins existing sets *)
      cbn [k_con k_mst k_piv k_tab]. rewrite R3, R4, R5, R7. cbn [app].
      assert (Htemp : forall x, In x (ks_temp (fold_left (kr_scan1 ([u; v], w) (k_ix s)) (k_con s) (mkScan false false [] [] (k_mst s) (k_piv s) (k_tab s)))) <->
        x = u \/ x = v \/ exists c, In c (k_con s) /\ (In u c \/ In v c) /\ In x c).
      { intros x. rewrite R9. apply existsb_exists in Eh as (c1 & Hc1 & Eh). split.
        - intros [[]|(c & H1 & H2 & [H3|[->| ->]])]; auto. right. right. exists c. split; auto. split; auto.
          unfold hits in H2. apply orb_true_iff in H2. now rewrite !existsb_In in H2.
        - intros [->|[->|(c & H1 & H2 & H3)]]; right; [exists c1|exists c1|exists c]; auto.
          split; auto. split; auto. unfold hits. apply orb_true_iff. now rewrite !existsb_In. }
      set (temp := ks_temp _) in *. clearbody temp.
      assert (Hfil : forall c, In c (filter (fun c => negb (hits u v c)) (k_con s)) <-> In c (k_con s) /\ ~ In u c /\ ~ In v c).
      { intros c. rewrite filter_In, negb_true_iff. unfold hits. rewrite orb_false_iff, <- !not_true_iff_false, !existsb_In. reflexivity. }
      split.
      * constructor.
        -- apply Forall_app. split; [|constructor; auto]. rewrite Forall_forall in *. intros c Hc. apply Hfil in Hc. apply Cs. tauto.
        -- apply FOP_app_one; [now apply FOP_filter|]. intros c Hc x H1 H2. apply Hfil in Hc as (Hc & N1 & N2).
           apply Htemp in H2 as [->|[->|(c' & H2 & H3 & H4)]]; auto.
           assert (Hs := same_set _ _ x c c' C0 Hc H2 H1 H4). rewrite <- !Hs in H3. tauto.
        -- intros a b. rewrite conn_add. split.
           ++ intros [H|H].
              ** apply Cc in H as [->|(c & H1 & H2 & H3)]; auto. right.
                 destruct (hits u v c) eqn:E.
                 --- exists temp. split; [apply in_app_iff; right; now left|]. unfold hits in E. apply orb_true_iff in E. rewrite !existsb_In in E.
                     split; apply Htemp; right; right; exists c; auto.
                 --- exists c. split; auto. apply in_app_iff. left. apply filter_In. rewrite E. auto.
              ** right. exists temp. split; [apply in_app_iff; right; now left|].
                 assert (K : forall z e, (e = u \/ e = v) -> connected P z e -> In z temp).
                 { intros z e He Hz. apply Htemp. apply Cc in Hz as [->|(c & H1 & H2 & H3)]; [tauto|].
                   right. right. exists c. destruct He as [->| ->]; auto. }
                 destruct H as [[H1 H2]|[H1 H2]]; split; eauto using conn_sym.
           ++ intros [->|(c & Hc & H2 & H3)]; [left; apply conn_refl|].
              apply in_app_iff in Hc as [Hc|[<-|[]]].
              ** left. apply Cc. right. exists c. apply Hfil in Hc. tauto.
              ** assert (K : forall z, In z temp -> connected P z u \/ connected P z v).
                 { intros z Hz. apply Htemp in Hz as [->|[->|(c & H1 & [H4|H4] & H5)]]; auto using conn_refl.
                   - left. apply Cc. right. eauto. - right. apply Cc. right. eauto. }
                 destruct (K a H2), (K b H3); eauto 6 using conn_trans, conn_sym.
        -- intros a. split.
           ++ intros (c & Hc & Ha). apply in_app_iff in Hc as [Hc|[<-|[]]].
              ** apply Hfil in Hc as (Hc & _). destruct (proj1 (Ct a)) as (q & x & H1 & H2); eauto. exists q, x. split; auto. apply in_app_iff. auto.
              ** assert (B : a = u \/ a = v -> exists q x, In (q, x) (P ++ [([u; v], w)]) /\ In a q).
                 { intros H. exists [u; v], w. split; [apply in_app_iff; right; now left|]. cbn. intuition. }
                 apply Htemp in Ha as [Ha|[Ha|(c & H1 & H2 & H3)]]; auto.
                 destruct (proj1 (Ct a)) as (q & x & H4 & H5); eauto. exists q, x. split; auto. apply in_app_iff. auto.
           ++ intros (q & x & H1 & H2). apply in_app_iff in H1 as [H1|[H1|[]]].
              ** destruct (proj2 (Ct a)) as (c & Hc & Ha); eauto. destruct (hits u v c) eqn:E.
                 --- exists temp. split; [apply in_app_iff; right; now left|]. apply Htemp. unfold hits in E. apply orb_true_iff in E. rewrite !existsb_In in E. eauto 6.
                 --- exists c. split; auto. apply in_app_iff. left. apply filter_In. rewrite E. auto.
              ** inversion H1; subst q x. exists temp. split; [apply in_app_iff; right; now left|]. apply Htemp. cbn in H2. intuition.
      * right. split; auto. split; auto. split; auto. exists new. split; auto. split; auto. left. split; [now apply Htouch|].
        rewrite R7, map_app in R6. now apply app_inv_head in R6.
    + (* a new set *)
      rewrite R2. cbn [k_con k_mst k_piv k_tab]. rewrite R3, R4, R5, R7. cbn [app] in *. rewrite !app_nil_r in *.
      assert (Hnone : forall c, In c (k_con s) -> hits u v c = false).
      { intros c Hc. apply not_true_iff_false. intros H. apply not_true_iff_false in Eh. apply Eh. apply existsb_exists. eauto. }
      assert (Hnu : forall c, In c (k_con s) -> ~ In u c /\ ~ In v c).
      { intros c Hc. specialize (Hnone c Hc). unfold hits in Hnone. apply orb_false_iff in Hnone as [A B].
        rewrite <- not_true_iff_false, existsb_In in A, B. auto. }
      assert (Ef : filter (fun c => negb (hits u v c)) (k_con s) = k_con s).
      { clear - Hnone. induction (k_con s) as [|c l IH]; cbn; auto. rewrite (Hnone c (or_introl eq_refl)). cbn. f_equal. apply IH.
        intros c' H'. apply Hnone. now right. }
      rewrite Ef.
      split.
      * constructor.
        -- apply Forall_app. split; auto. constructor; auto. apply ssorted_cons; split; [repeat constructor|intros y [<-|[]]; auto].
        -- apply FOP_app_one; auto. intros c Hc x H1 [<-|[<-|[]]]; destruct (Hnu c Hc); auto.
        -- intros a b. rewrite conn_add. split.
           ++ assert (K : forall z e, e = u \/ e = v -> connected P z e -> z = e).
              { intros z e He Hz. apply Cc in Hz as [->|(c & H1 & H2 & H3)]; auto. exfalso. destruct (Hnu c H1). destruct He as [->| ->]; auto. }
              intros [H|[[H1 H2]|[H1 H2]]].
              ** apply Cc in H as [->|(c & H1 & H2 & H3)]; auto. right. exists c. rewrite in_app_iff. auto.
              ** apply K in H1; auto. apply conn_sym in H2. apply K in H2; auto. subst. right. exists [u; v]. rewrite in_app_iff. cbn. auto 7.
              ** apply K in H1; auto. apply conn_sym in H2. apply K in H2; auto. subst. right. exists [u; v]. rewrite in_app_iff. cbn. auto 7.
           ++ intros [->|(c & Hc & H2 & H3)]; [left; apply conn_refl|].
              apply in_app_iff in Hc as [Hc|[<-|[]]].
              ** left. apply Cc. right. eauto.
              ** destruct H2 as [<-|[<-|[]]], H3 as [<-|[<-|[]]]; auto using conn_refl.
        -- intros a. split.
           ++ intros (c & Hc & Ha). apply in_app_iff in Hc as [Hc|[<-|[]]].
              ** destruct (proj1 (Ct a)) as (q & x & H1 & H2); eauto. exists q, x. split; auto. apply in_app_iff. auto.
              ** exists [u; v], w. split; auto. apply in_app_iff. right. now left.
           ++ intros (q & x & H1 & H2). apply in_app_iff in H1 as [H1|[H1|[]]].
              ** destruct (proj2 (Ct a)) as (c & Hc & Ha); eauto. exists c. rewrite in_app_iff. auto.
              ** inversion H1; subst q x. exists [u; v]. rewrite in_app_iff. cbn [In]. auto.
      * right. split; auto. split; auto. split; auto. exists new. split; auto. split; auto. right. split.
        -- intros H. apply Htouch in H. congruence.
        -- rewrite R7, map_app in R6. apply (f_equal (@length _)) in R6. rewrite !app_length, !map_length in R6.
           destruct new; cbn in R6; auto. lia.
Qed.

Record kfin (V : list nat) (P : list wsimp) (piv : list nat) (mst : list Z) (tab0 tab : list bettiEntry) : Prop := {
  kf_sorted : ssorted piv;
  kf_piv : forall i, In i piv <-> joins P i;
  kf_mst : mst = map (edge_weight P) piv;
  kf_count : forall k, exists c, components V (firstn k P) c /\ c + length (filter (fun i => i <? k) piv) = length V;
  kf_tab : exists new, tab = tab0 ++ new /\ (forall b, In b new -> bettiDim b = 0 /\ birth b = 0%Z) /\
             map death new = map (edge_weight P) (filter (touches P) piv)
}.

Lemma joins_lt P i : joins P i -> i < length P.
Proof. intros (u & v & w & H & _). apply nth_error_Some. congruence. Qed.
Lemma joins_app P e i : i < length P -> joins (P ++ [e]) i <-> joins P i.
Proof.
  intros L. unfold joins. rewrite nth_error_app1, firstn_app by auto.
  replace (i - length P) with 0 by lia. now rewrite app_nil_r.
Qed.
Lemma joins_last P u v w : joins (P ++ [([u; v], w)]) (length P) <-> ~ connected P u v.
Proof.
  unfold joins. rewrite nth_error_app2, Nat.sub_diag, firstn_app, Nat.sub_diag, firstn_all, app_nil_r by auto. cbn. split.
  - intros (a & b & x & H & N). now inversion H; subst. - intros N. exists u, v, w. auto.
Qed.
Lemma edge_weight_app P e i : i < length P -> edge_weight (P ++ [e]) i = edge_weight P i.
Proof. intros L. unfold edge_weight. now rewrite app_nth1. Qed.
Lemma touches_app P e i : i < length P -> touches (P ++ [e]) i = touches P i.
Proof.
  intros L. unfold touches. rewrite firstn_app. replace (i - length P) with 0 by lia. rewrite app_nil_r.
  rewrite app_nth1 by auto. reflexivity.
Qed.
Lemma map_weight_app P e l : (forall i, In i l -> i < length P) -> map (edge_weight (P ++ [e])) l = map (edge_weight P) l.
Proof. intros H. apply map_ext_in. intros i Hi. apply edge_weight_app. auto. Qed.
Lemma filter_touches_app P e l : (forall i, In i l -> i < length P) -> filter (touches (P ++ [e])) l = filter (touches P) l.
Proof. intros H. apply filter_ext_in. intros i Hi. apply touches_app. auto. Qed.

Lemma filter_all {A} (f : A -> bool) l : (forall x, In x l -> f x = true) -> filter f l = l.
Proof. induction l as [|x l IH]; cbn; intros H; auto. rewrite (H x (or_introl eq_refl)). f_equal. auto. Qed.

Lemma kfin_nil V tab : NoDup V -> kfin V [] [] [] tab tab.
Proof.
  intros N. constructor.
  - constructor.
  - intros i. split; [intros []|]. intros H. apply joins_lt in H. cbn in H. lia.
  - reflexivity.
  - intros k. rewrite firstn_nil. exists (length V). split; [now apply components_nil|cbn; lia].
  - exists []. rewrite app_nil_r. split; auto. split; [intros b []|reflexivity].
Qed.

Lemma kfin_lt V P piv mst t0 t : kfin V P piv mst t0 t -> forall i, In i piv -> i < length P.
Proof. intros K i Hi. apply joins_lt. now apply (kf_piv _ _ _ _ _ _ K). Qed.

Lemma kfin_whole V P piv mst t0 t : kfin V P piv mst t0 t -> exists c, components V P c /\ c + length piv = length V.
Proof.
  intros K. destruct (kf_count _ _ _ _ _ _ K (length P)) as (c & C & L). rewrite firstn_all in C.
  rewrite filter_all in L; eauto. intros i Hi. apply Nat.ltb_lt. eapply kfin_lt; eauto.
Qed.

Lemma kfin_conn V P piv mst t0 t u v w : kfin V P piv mst t0 t -> connected P u v ->
  kfin V (P ++ [([u; v], w)]) piv mst t0 t.
Proof.
  intros K C. assert (Hlt := kfin_lt _ _ _ _ _ _ K). destruct (kfin_whole _ _ _ _ _ _ K) as (c & Hc & Lc).
  destruct K as [K1 K2 K3 K4 K5]. constructor; auto.
  - intros i. split.
    + intros Hi. apply joins_app; auto. now apply K2.
    + intros Hj. assert (L := joins_lt _ _ Hj). rewrite app_length in L. cbn in L.
      destruct (Nat.eq_dec i (length P)) as [->|N]; [apply joins_last in Hj; contradiction|].
      apply K2. eapply joins_app; [|exact Hj]. lia.
  - now rewrite map_weight_app.
  - intros k. destruct (Nat.le_gt_cases k (length P)) as [L|L].
    + rewrite firstn_app. replace (k - length P) with 0 by lia. rewrite app_nil_r. apply K4.
    + rewrite firstn_all2 by (rewrite app_length; cbn; lia). exists c. split.
      * eapply components_same; [|exact Hc]. now apply conn_redundant.
      * rewrite filter_all; auto. intros i Hi. apply Nat.ltb_lt. apply Hlt in Hi. lia.
  - destruct K5 as (new & E & B & M). exists new. split; auto. split; auto. now rewrite map_weight_app, filter_touches_app
      by (intros i Hi; try apply filter_In in Hi as [Hi _]; auto).
Qed.

Lemma touches_last P u v w : touches (P ++ [([u; v], w)]) (length P) = true <-> touched P u v.
Proof.
  unfold touches, touched. rewrite firstn_app, Nat.sub_diag, firstn_all, app_nil_r, app_nth2, Nat.sub_diag by auto. cbn [nth fst].
  rewrite existsb_exists. split.
  - intros ([s x] & H1 & H2). apply existsb_exists in H2 as (y & Hy & H2). cbn in H2, Hy. exists s, x. split; auto.
    rewrite orb_false_r in H2. apply orb_true_iff in H2 as [H2|H2]; apply Nat.eqb_eq in H2; subst; auto.
  - intros (s & x & H1 & H2). exists (s, x). split; auto. apply existsb_exists. cbn.
    destruct H2 as [H2|H2]; [exists u|exists v]; split; auto; rewrite Nat.eqb_refl; auto. now rewrite orb_true_r.
Qed.

Lemma kfin_join V P piv mst t0 t u v w new : kfin V P piv mst t0 t -> In u V -> In v V -> ~ connected P u v ->
  (forall b, In b new -> bettiDim b = 0 /\ birth b = 0%Z) ->
  ((touched P u v /\ map death new = [w]) \/ (~ touched P u v /\ new = [])) ->
  kfin V (P ++ [([u; v], w)]) (piv ++ [length P]) (mst ++ [w]) t0 (t ++ new).
Proof.
  intros K Hu Hv C Hb Ht. assert (Hlt := kfin_lt _ _ _ _ _ _ K). destruct (kfin_whole _ _ _ _ _ _ K) as (c & Hc & Lc).
  destruct K as [K1 K2 K3 K4 K5].
  assert (Ew : edge_weight (P ++ [([u; v], w)]) (length P) = w).
  { unfold edge_weight. rewrite app_nth2, Nat.sub_diag; auto. }
  constructor.
  - clear - K1 Hlt. induction piv as [|i piv IH]; cbn; [repeat constructor|]. apply ssorted_cons in K1 as [A B]. apply ssorted_cons. split.
    + apply IH; auto. intros j Hj. apply Hlt. now right.
    + intros y Hy. apply in_app_iff in Hy as [Hy|[<-|[]]]; auto. apply Hlt. now left.
  - intros i. rewrite in_app_iff. split.
    + intros [Hi|[<-|[]]]; [apply joins_app; auto; now apply K2|now apply joins_last].
    + intros Hj. assert (L := joins_lt _ _ Hj). rewrite app_length in L. cbn in L.
      destruct (Nat.eq_dec i (length P)) as [->|N]; [right; now left|].
      left. apply K2. eapply joins_app; [|exact Hj]. lia.
  - rewrite map_app, map_weight_app by auto. cbn. now rewrite Ew, K3.
  - intros k. rewrite filter_app. cbn [filter].
    destruct (Nat.le_gt_cases k (length P)) as [L|L].
    + rewrite firstn_app. replace (k - length P) with 0 by lia. rewrite app_nil_r.
      destruct (Nat.ltb_spec (length P) k); [lia|]. rewrite app_nil_r. apply K4.
    + rewrite firstn_all2 by (rewrite app_length; cbn; lia). destruct (components_join V P u v w c Hu Hv C Hc) as (c' & -> & Hc').
      exists c'. split; auto. rewrite filter_all by (intros i Hi; apply Nat.ltb_lt; apply Hlt in Hi; lia).
      destruct (Nat.ltb_spec (length P) k); [|lia]. rewrite app_length. cbn. lia.
  - destruct K5 as (n & E & B & M). exists (n ++ new). split; [subst; now rewrite app_assoc|]. split.
    + intros b Hin. apply in_app_iff in Hin as [Hin|Hin]; auto.
    + rewrite map_app, M, filter_app, map_app. rewrite filter_touches_app by auto.
      rewrite map_weight_app by (intros i Hi; apply filter_In in Hi as [Hi _]; auto). f_equal. cbn [filter].
      destruct Ht as [[T Ed]|[T ->]].
      * apply touches_last with (w := w) in T. match goal with |- context [if ?b then _ else _] => replace b with true by (symmetry; exact T) end.
        rewrite Ed. cbn. f_equal. symmetry. exact Ew.
      * rewrite <- (touches_last P u v w) in T. apply not_true_iff_false in T.
        match goal with |- context [if ?b then _ else _] => replace b with false by (symmetry; exact T) end. reflexivity.
Qed.

Lemma kfin_rest V P piv mst t0 t es : components V P 1 -> graph_on V es -> kfin V P piv mst t0 t -> kfin V (P ++ es) piv mst t0 t.
Proof.
  revert P. induction es as [|[s w] es IH]; intros P C G K; [now rewrite app_nil_r|].
  destruct (G s w (or_introl eq_refl)) as (u & v & -> & Huv & Hu & Hv).
  assert (Cuv := connected_all V P C u v Hu Hv).
  enough (H : kfin V ((P ++ [([u; v], w)]) ++ es) piv mst t0 t) by (rewrite <- app_assoc in H; exact H).
  apply IH.
  - eapply components_same; [|exact C]. now apply conn_redundant.
  - intros q x Hq. apply (G q x). now right.
  - now apply kfin_conn.
Qed.

Lemma kr_loop_spec V tab es : forall P s, graph_on V es ->
  cinv (k_con s) P -> k_ix s = length P -> kfin V P (k_piv s) (k_mst s) tab (k_tab s) ->
  let r := kr_loop (length V) s es in kfin V (P ++ es) (k_piv r) (k_mst r) tab (k_tab r).
Proof.
  induction es as [|[q w] es IH]; intros P s G C X K; cbn zeta; [now rewrite app_nil_r|].
  cbn [kr_loop]. destruct (G q w (or_introl eq_refl)) as (u & v & -> & Huv & Hu & Hv).
  destruct (kr_edge_spec s P u v w Huv C) as [C' D]. set (s' := kr_edge s ([u; v], w)) in *.
  assert (G' : graph_on V es) by (intros q x Hq; apply (G q x); now right).
  assert (K' : kfin V (P ++ [([u; v], w)]) (k_piv s') (k_mst s') tab (k_tab s')).
  { destruct D as [(D1 & D2 & D3 & D4)|(D1 & D2 & D3 & new & D4 & D5 & D6)].
    - rewrite D2, D3, D4. now apply kfin_conn.
    - rewrite D2, D3, D4, X. now apply kfin_join. }
  match goal with |- kfin _ _ ?a ?b ?c ?d =>
    enough (H : kfin V ((P ++ [([u; v], w)]) ++ es) a b c d) by (rewrite <- app_assoc in H; exact H) end.
  destruct (Nat.eqb_spec (S (length (k_mst s'))) (length V)) as [E|E].
  - apply kfin_rest; auto. destruct (kfin_whole _ _ _ _ _ _ K') as (c & Hc & Lc).
    assert (Em := kf_mst _ _ _ _ _ _ K'). apply (f_equal (@length _)) in Em. rewrite map_length in Em.
    replace 1 with c by lia. auto.
  - apply IH; cbn; auto. rewrite app_length. cbn. lia.
Qed.

Theorem kruskal_spec V es tab : NoDup V -> graph_on V es ->
  let r := kruskal (length V) es tab in kfin V es (k_piv r) (k_mst r) tab (k_tab r).
Proof.
  intros N G. apply (kr_loop_spec V tab es [] (mkK [] [] [] tab 0)); auto.
  - constructor; cbn; auto; try constructor.
    + intros H. apply conn_nil in H. auto. + intros [->|(c & [] & _)]. apply conn_refl.
    + intros (c & [] & _). + intros (q & x & [] & _).
  - now apply kfin_nil.
Qed.

(* ---- thresholds ---- *)
Lemma up_to_prefix E t : StronglySorted by_weight E -> exists k, up_to t E = firstn k E /\ forall i, i < length E -> (i < k <-> (edge_weight E i <= t)%Z).
Proof.
  unfold by_weight. induction E as [|e E IH]; intros H.
  - exists 0. split; auto. cbn. intros i Hi. lia.
  - apply StronglySorted_inv in H as [H1 H2]. destruct (IH H1) as (k & E1 & E2). rewrite Forall_forall in H2. unfold by_weight in H2. unfold up_to in *. cbn [filter].
    destruct (Z.leb_spec (snd e) t) as [L|L].
    + exists (S k). cbn. split; [exact (f_equal (cons e) E1)|]. intros [|i] Hi; cbn in *.
      * unfold edge_weight. cbn. split; auto. lia.
      * assert (Hi' : i < length E) by lia. specialize (E2 i Hi'). unfold edge_weight in *. cbn. rewrite <- E2. lia.
    + exists 0. split.
      * cbn [firstn]. destruct (filter (fun e => (snd e <=? t)%Z) E) as [|x l] eqn:Eu; [reflexivity|]. exfalso.
        assert (Hx : In x (filter (fun e => (snd e <=? t)%Z) E)) by (rewrite Eu; now left). apply filter_In in Hx as [Hx Hw]. apply H2 in Hx. apply Z.leb_le in Hw. lia.
      * intros i Hi. split; [lia|]. intros Hw. exfalso. unfold edge_weight in Hw. destruct i as [|i]; cbn in *; [lia|].
        assert (Hx : In (nth i E ([], 0%Z)) E) by (apply nth_In; lia). apply H2 in Hx. lia.
Qed.

Lemma filter_map_length {A B} (f : B -> bool) (g : A -> B) l : length (filter f (map g l)) = length (filter (fun x => f (g x)) l).
Proof. induction l as [|x l IH]; cbn; auto. destruct (f (g x)); cbn; auto. Qed.

(* C17 *)
Theorem mst_counts V es tab t c : NoDup V -> graph_on V es -> StronglySorted by_weight es ->
  components V (up_to t es) c -> count_le t (k_mst (kruskal (length V) es tab)) + c = length V.
Proof.
  intros N G B C. assert (K := kruskal_spec V es tab N G). cbn zeta in K. set (r := kruskal _ _ _) in *. clearbody r.
  destruct (up_to_prefix es t B) as (k & E1 & E2). destruct (kf_count _ _ _ _ _ _ K k) as (c' & C' & L).
  rewrite <- E1 in C'. rewrite <- (components_unique _ _ _ _ C' C) in *.
  rewrite (kf_mst _ _ _ _ _ _ K). unfold count_le. rewrite filter_map_length.
  rewrite (filter_ext_in (fun i => i <? k) (fun x => (edge_weight es x <=? t)%Z)) in L; [lia|].
  intros i Hi. assert (Hl := kfin_lt _ _ _ _ _ _ K i Hi). apply eq_true_iff_eq. rewrite Nat.ltb_lt, Z.leb_le. auto.
Qed.

(* ---- the pivots span what the edges span ---- *)
Lemma cinv_exists V es : graph_on V es -> exists con, cinv con es.
Proof.
  induction es as [|[q w] es IH] using rev_ind; intros G.
  - exists []. constructor; try constructor.
    + intros H. apply conn_nil in H. auto. + intros [->|(c & [] & _)]. apply conn_refl.
    + intros (c & [] & _). + intros (q & x & [] & _).
  - destruct IH as (con & C). { intros s x H; apply (G s x); apply in_app_iff; auto. }
    destruct (G q w) as (a & b & -> & Hab & Ha & Hb). { apply in_app_iff. right. now left. }
    eexists. apply (kr_edge_spec (mkK con [] [] [] 0) es a b w Hab C).
Qed.
Lemma conn_dec V es u v : graph_on V es -> connected es u v \/ ~ connected es u v.
Proof.
  intros G. destruct (cinv_exists V es G) as (con & C). rewrite (ci_conn _ _ C).
  destruct (Nat.eq_dec u v) as [->|N]; [left; auto|].
  destruct (existsb (fun c => existsb (Nat.eqb u) c && existsb (Nat.eqb v) c) con) eqn:E.
  - left. right. apply existsb_exists in E as (c & Hc & E). apply andb_true_iff in E as [E1 E2]. apply existsb_In in E1, E2. eauto.
  - right. intros [H|(c & Hc & H1 & H2)]; auto. apply existsb_In in H1, H2. apply not_true_iff_false in E. apply E.
    apply existsb_exists. exists c. split; auto. now rewrite H1, H2.
Qed.
Lemma edges_at_app P e l : (forall i, In i l -> i < length P) -> edges_at (P ++ [e]) l = edges_at P l.
Proof. intros H. apply map_ext_in. intros i Hi. apply app_nth1. auto. Qed.

Lemma pivots_span V es : graph_on V es -> forall piv, ssorted piv -> (forall i, In i piv <-> joins es i) ->
  (forall u v, connected (edges_at es piv) u v <-> connected es u v).
Proof.
  induction es as [|e es IH] using rev_ind; intros G piv Hs Hp u v.
  - assert (E : piv = []). { destruct piv as [|i p]; auto. exfalso. assert (H : joins [] i) by (apply Hp; now left). apply joins_lt in H. cbn in H. lia. }
    subst. reflexivity.
  - destruct e as [q w]. destruct (G q w) as (a & b & -> & Hab & Ha & Hb). { apply in_app_iff. right. now left. }
    assert (G' : graph_on V es) by (intros s x H; apply (G s x); apply in_app_iff; auto).
    set (p' := filter (fun i => i <? length es) piv).
    assert (Sp : ssorted p') by (now apply ssorted_filter).
    assert (Hp' : forall i, In i p' <-> joins es i).
    { intros i. unfold p'. rewrite filter_In, Nat.ltb_lt. split.
      - intros [H L]. apply Hp in H. eapply joins_app; eauto.
      - intros H. assert (L := joins_lt _ _ H). split; auto. apply Hp. now apply joins_app. }
    specialize (IH G' p' Sp Hp'). rewrite conn_add.
    assert (Hlt : forall i, In i p' -> i < length es) by (intros i Hi; apply joins_lt; now apply Hp').
    destruct (in_dec Nat.eq_dec (length es) piv) as [Hin|Hni].
    + assert (Ep : piv = p' ++ [length es]).
      { apply ssorted_ext; auto.
        - clear - Sp Hlt. induction p' as [|i p IH]; cbn; [repeat constructor|]. apply ssorted_cons in Sp as [A B]. apply ssorted_cons. split.
          + apply IH; auto. intros j Hj. apply Hlt. now right.
          + intros y Hy. apply in_app_iff in Hy as [Hy|[<-|[]]]; auto. apply Hlt. now left.
        - intros i. rewrite in_app_iff. unfold p' at 1. rewrite filter_In, Nat.ltb_lt. split.
          + intros H. assert (L := joins_lt _ _ (proj1 (Hp i) H)). rewrite app_length in L. cbn in L.
            destruct (Nat.eq_dec i (length es)) as [->|]; [right; now left|left; split; auto; lia].
          + intros [[H _]|[<-|[]]]; auto. }
      assert (Ea : edges_at (es ++ [([a; b], w)]) piv = edges_at es p' ++ [([a; b], w)]).
      { rewrite Ep. unfold edges_at. rewrite map_app. f_equal; [now apply edges_at_app|]. cbn [map]. rewrite app_nth2, Nat.sub_diag by auto. reflexivity. }
      match goal with |- connected ?X _ _ <-> _ => change X with (edges_at (es ++ [([a; b], w)]) piv) end.
      rewrite Ea, conn_add, !IH. reflexivity.
    + assert (Ep : piv = p').
      { apply ssorted_ext; auto. intros i. unfold p'. rewrite filter_In, Nat.ltb_lt. split; [|tauto]. intros H. split; auto.
        assert (L := joins_lt _ _ (proj1 (Hp i) H)). rewrite app_length in L. cbn in L.
        destruct (Nat.eq_dec i (length es)) as [->|]; [contradiction|lia]. }
      rewrite Ep, edges_at_app, IH by auto. rewrite <- conn_add with (w := w).
      assert (Cab : connected es a b).
      { destruct (conn_dec V es a b G') as [H|H]; auto. exfalso. apply Hni. apply Hp. now apply joins_last. }
      now apply conn_redundant.
Qed.

(* ---- minimality ---- *)
Lemma graph_on_incl V E F : graph_on V E -> incl F E -> graph_on V F.
Proof. intros G I s w H. apply (G s w). auto. Qed.

Lemma components_exist V E : NoDup V -> graph_on V E -> exists c, components V E c.
Proof.
  intros N G. destruct (kfin_whole _ _ _ _ _ _ (kruskal_spec V E [] N G)) as (c & C & _). eauto.
Qed.

Lemma components_mono V E F cE cF : incl F E -> components V F cF -> components V E cE -> cE <= cF.
Proof.
  intros I (r2 & L2 & N2 & I2 & U2 & T2) (r1 & L1 & N1 & I1 & U1 & T1). subst.
  apply (classes_le V (connected E)); eauto using conn_sym, conn_trans.
  intros v Hv. destruct (T2 v Hv) as (r & Hr & R). exists r. split; auto. eapply conn_mono; eauto.
Qed.

Lemma components_app_le V A B : NoDup V -> graph_on V (A ++ B) -> forall c1 c2, components V A c1 -> components V (A ++ B) c2 -> c1 <= c2 + length B.
Proof.
  intros N. induction B as [|[q w] B IH] using rev_ind; intros G c1 c2 C1 C2.
  - rewrite app_nil_r in C2. rewrite (components_unique _ _ _ _ C1 C2). cbn. lia.
  - assert (G' : graph_on V (A ++ B)) by (eapply graph_on_incl; [exact G|]; intros x; rewrite !in_app_iff; tauto).
    destruct (components_exist V (A ++ B) N G') as (c3 & C3). specialize (IH G' c1 c3 C1 C3).
    destruct (G q w) as (u & v & -> & Huv & Hu & Hv). { rewrite !in_app_iff. cbn. auto. }
    rewrite app_assoc in C2. rewrite app_length. cbn.
    destruct (conn_dec V (A ++ B) u v G') as [D|D].
    + assert (c2 = c3); [|lia]. eapply components_unique; [exact C2|]. eapply components_same; [|exact C3]. now apply conn_redundant.
    + destruct (components_join V (A ++ B) u v w c3 Hu Hv D C3) as (c' & -> & C'). rewrite (components_unique _ _ _ _ C2 C'). lia.
Qed.

Definition count_gt (t : Z) (ws : list Z) : nat := length (filter (fun w => (t <? w)%Z) ws).

Lemma count_split t ws : count_le t ws + count_gt t ws = length ws.
Proof.
  unfold count_le, count_gt. induction ws as [|w ws IH]; cbn; auto.
  destruct (Z.leb_spec w t), (Z.ltb_spec t w); cbn; lia.
Qed.

Lemma components_gt V F t c1 c2 : NoDup V -> graph_on V F -> components V (up_to t F) c1 -> components V F c2 ->
  c1 <= c2 + count_gt t (map snd F).
Proof.
  intros N G C1 C2. set (B := filter (fun e => (t <? snd e)%Z) F).
  assert (HI : forall e, In e (up_to t F ++ B) <-> In e F).
  { intros e. unfold up_to, B. rewrite in_app_iff, !filter_In, Z.leb_le, Z.ltb_lt. split; [tauto|]. intros H.
    destruct (Z.le_gt_cases (snd e) t); [left|right]; split; auto. }
  assert (C3 : components V (up_to t F ++ B) c2).
  { eapply components_same; [|exact C2]. apply conn_same. intros s w. symmetry. apply HI. }
  replace (count_gt t (map snd F)) with (length B).
  - eapply components_app_le; eauto. eapply graph_on_incl; [exact G|]. intros e He. now apply HI.
  - unfold count_gt, B. now rewrite filter_map_length.
Qed.

Lemma mst_dominated V es tab F t : NoDup V -> graph_on V es -> StronglySorted by_weight es -> spans es F ->
  count_gt t (k_mst (kruskal (length V) es tab)) <= count_gt t (map snd F).
Proof.
  intros N G B [I S].
  assert (GF := graph_on_incl _ _ _ G I).
  assert (Gt : graph_on V (up_to t es)) by (eapply graph_on_incl; [exact G|]; apply incl_filter).
  assert (GFt : graph_on V (up_to t F)) by (eapply graph_on_incl; [exact GF|]; apply incl_filter).
  destruct (components_exist V _ N Gt) as (c1 & C1). destruct (components_exist V _ N GFt) as (c2 & C2).
  destruct (components_exist V _ N G) as (c & C).
  assert (CF : components V F c) by (eapply components_same; [|exact C]; auto).
  assert (L1 : c1 <= c2).
  { eapply components_mono; [|exact C2|exact C1]. intros e He. apply filter_In in He as [H1 H2]. apply filter_In. auto. }
  assert (L2 := components_gt V F t c2 c N GF C2 CF).
  assert (L3 := mst_counts V es tab t c1 N G B C1).
  destruct (kfin_whole _ _ _ _ _ _ (kruskal_spec V es tab N G)) as (c' & C' & L4).
  rewrite (components_unique _ _ _ _ C' C) in L4.
  assert (Em := kf_mst _ _ _ _ _ _ (kruskal_spec V es tab N G)). apply (f_equal (@length _)) in Em. rewrite map_length in Em.
  assert (L5 := count_split t (k_mst (kruskal (length V) es tab))). lia.
Qed.

Lemma max_split (a : list Z) : a <> [] -> exists l m r, a = l ++ m :: r /\ forall x, In x a -> (x <= m)%Z.
Proof.
  induction a as [|x a IH]; [easy|]. intros _. destruct a as [|y a].
  - exists [], x, []. split; auto. intros z [<-|[]]. lia.
  - destruct IH as (l & m & r & E & M); [easy|]. destruct (Z.le_gt_cases x m).
    + exists (x :: l), m, r. rewrite E. split; auto. intros z [<-|Hz]; auto. apply M. now rewrite E.
    + exists [], x, (y :: a). split; auto. intros z [<-|Hz]; [lia|]. apply M in Hz. lia.
Qed.

Lemma total_app a b : total_weight (a ++ b) = (total_weight a + total_weight b)%Z.
Proof. unfold total_weight. induction a; cbn; lia. Qed.
Lemma count_gt_app t a b : count_gt t (a ++ b) = count_gt t a + count_gt t b.
Proof. unfold count_gt. now rewrite filter_app, app_length. Qed.
Lemma count_gt_zero t a : (forall x, In x a -> (x <= t)%Z) -> count_gt t a = 0.
Proof.
  unfold count_gt. induction a as [|x a IH]; cbn; intros H; auto. assert (x <= t)%Z by (apply H; now left).
  destruct (Z.ltb_spec t x); [lia|]. auto.
Qed.
Lemma count_gt_cons t x a : count_gt t (x :: a) = (if (t <? x)%Z then 1 else 0) + count_gt t a.
Proof. unfold count_gt. cbn. destruct (t <? x)%Z; auto. Qed.

Lemma dominated_total : forall n a b, length a = n -> (forall x, In x b -> (0 <= x)%Z) ->
  (forall t, count_gt t a <= count_gt t b) -> (total_weight a <= total_weight b)%Z.
Proof.
  induction n as [|n IH]; intros a b La Hb D.
  - destruct a; [|discriminate]. cbn. clear - Hb. induction b as [|x b IH]; cbn; [lia|].
    assert (0 <= x)%Z by (apply Hb; now left). assert (0 <= total_weight b)%Z by (apply IH; intros y Hy; apply Hb; now right). cbn in *. fold (total_weight b). lia.
  - destruct (max_split a) as (l & m & r & Ea & Ma). { intros ->. discriminate. }
    assert (Nb : b <> []).
    { intros ->. specialize (D (m - 1)%Z). rewrite Ea, count_gt_app, count_gt_cons in D. destruct (Z.ltb_spec (m - 1) m); [|lia]. cbn in D. lia. }
    destruct (max_split b Nb) as (l' & M & r' & Eb & Mb).
    assert (HmM : (m <= M)%Z).
    { destruct (Z.le_gt_cases m M); auto. exfalso. specialize (D M). rewrite (count_gt_zero M b Mb) in D.
      rewrite Ea, count_gt_app, count_gt_cons in D. destruct (Z.ltb_spec M m); lia. }
    assert (H : (total_weight (l ++ r) <= total_weight (l' ++ r'))%Z).
    { apply IH.
      - rewrite Ea, app_length in La. cbn in La. rewrite app_length. lia.
      - intros x Hx. apply Hb. rewrite Eb. rewrite in_app_iff in *. cbn. tauto.
      - intros t. destruct (Z.le_gt_cases m t) as [Ht|Ht].
        + rewrite (count_gt_zero t (l ++ r)); [lia|]. intros x Hx. assert (x <= m)%Z; [|lia]. apply Ma. rewrite Ea.
          rewrite in_app_iff in *. cbn. tauto.
        + specialize (D t). rewrite Ea, Eb, !count_gt_app, !count_gt_cons in D. rewrite !count_gt_app.
          destruct (Z.ltb_spec t m), (Z.ltb_spec t M); lia. }
    rewrite total_app in H. rewrite Ea, Eb, !total_app. unfold total_weight in *. cbn [fold_right]. rewrite !total_app in H || idtac. 
    fold (total_weight l) (total_weight r) (total_weight l') (total_weight r') in *. rewrite <- !total_app in *. 
    assert (total_weight (l ++ r) = total_weight l + total_weight r)%Z by apply total_app.
    assert (total_weight (l' ++ r') = total_weight l' + total_weight r')%Z by apply total_app. lia.
Qed.

Theorem mst_minimal V es tab F : NoDup V -> graph_on V es -> StronglySorted by_weight es -> spans es F ->
  (forall s w, In (s, w) es -> (0 <= w)%Z) ->
  (total_weight (k_mst (kruskal (length V) es tab)) <= total_weight (map snd F))%Z.
Proof.
  intros N G B S P. eapply dominated_total; [reflexivity| |].
  - intros x Hx. apply in_map_iff in Hx as ([s w] & <- & Hw). apply (P s w). now apply S.
  - intros t. eapply mst_dominated; eauto.
Qed.
