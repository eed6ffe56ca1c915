(* MainProofs.v -- later runs of the default pipeline on a packet that was used before. *)
From Coq Require Import String Ascii List Arith ZArith Bool Lia Sorted Permutation Relations.
From Verif Require Import Base UtilsModel ArrayListModel TreeModel FastModel ArgModel PipeModel IoModel MainModel.
From Verif Require Import Spec SpecComplex SpecTree SpecArgs SpecGraph SpecLinear SpecFast SpecPipe SpecMain.
From Verif Require Import UtilsProofs ArrayListProofs ArgProofs KruskalProofs ArrayListHist TreeHist FastProofs FastRuns PipeProofs PipeRuns.
Import ListNotations.
Local Open Scope nat_scope.
Local Open Scope list_scope.

Lemma rst_mono (R R' : nat -> nat -> Prop) : (forall u v, R u v -> R' u v) -> forall u v, clos_refl_sym_trans nat R u v -> clos_refl_sym_trans nat R' u v.
Proof. intros H u v C. induction C; [apply rst_step; auto|apply rst_refl|now apply rst_sym|eapply rst_trans; eauto]. Qed.

(* ---- graphs with shifted vertices *)
Section Shift.
  Variable B : nat.
  Variables (R0 R : nat -> nat -> Prop).
  Hypothesis HR : forall x y, R x y <-> exists u v, x = B + u /\ y = B + v /\ R0 u v.

  Lemma rst_shift u v : clos_refl_sym_trans nat R0 u v -> clos_refl_sym_trans nat R (B + u) (B + v).
  Proof.
    induction 1 as [x y H|x|x y _ IH|x y z _ IH1 _ IH2]; [apply rst_step, HR; eauto|apply rst_refl|now apply rst_sym|eapply rst_trans; eauto].
  Qed.
  Lemma rst_unshift x y : clos_refl_sym_trans nat R x y -> x = y \/ exists u v, x = B + u /\ y = B + v /\ clos_refl_sym_trans nat R0 u v.
  Proof.
    induction 1 as [x y H|x|x y _ IH|x y z _ IH1 _ IH2].
    - right. apply HR in H as (u & v & -> & -> & H). exists u, v. repeat split; auto. now apply rst_step.
    - now left.
    - destruct IH as [->|(u & v & -> & -> & H)]; auto. right. exists v, u. repeat split; auto. now apply rst_sym.
    - destruct IH1 as [->|(u & v & -> & -> & H1)]; auto. destruct IH2 as [<-|(u' & v' & E & -> & H2)]; [right; eauto|].
      assert (u' = v) by lia. subst u'. right. exists u, v'. repeat split; auto. eapply rst_trans; eauto.
  Qed.
  Lemma rst_shift_iff u v : clos_refl_sym_trans nat R0 u v <-> clos_refl_sym_trans nat R (B + u) (B + v).
  Proof.
    split; [apply rst_shift|]. intros H. apply rst_unshift in H as [E|(a & b & E1 & E2 & H)].
    - assert (u = v) by lia. subst. apply rst_refl. - assert (a = u) by lia. assert (b = v) by lia. now subst.
  Qed.
  Lemma classes_shift n c : classes (seq 0 n) (clos_refl_sym_trans nat R0) c <-> classes (seq B n) (clos_refl_sym_trans nat R) c.
  Proof.
    split; intros (reps & L & N & I & U & C).
    - exists (map (Nat.add B) reps). rewrite map_length. split; auto. split; [apply FinFun.Injective_map_NoDup; auto; intros x y E; lia|]. split; [|split].
      + intros x Hx. apply in_map_iff in Hx as (r & <- & Hr). apply I in Hr. apply in_seq in Hr. apply in_seq. lia.
      + intros x y Hx Hy H. apply in_map_iff in Hx as (r & <- & Hr), Hy as (r' & <- & Hr'). f_equal. apply U; auto. now apply rst_shift_iff.
      + intros v Hv. apply in_seq in Hv. destruct (C (v - B)) as (r & Hr & H); [apply in_seq; lia|]. exists (B + r). split; [now apply in_map|].
        replace v with (B + (v - B)) by lia. now apply rst_shift.
    - assert (Hr : forall r, In r reps -> B <= r) by (intros r Hr; apply I in Hr; apply in_seq in Hr; lia).
      exists (map (fun x => x - B) reps). rewrite map_length. split; auto. split.
      { clear - N Hr. induction N as [|x l Nx N IH]; cbn; constructor.
        - intros H. apply in_map_iff in H as (y & E & Hy). assert (B <= x) by (apply Hr; now left). assert (B <= y) by (apply Hr; now right).
          assert (y = x) by lia. now subst.
        - apply IH. intros r H. apply Hr. now right. }
      split; [|split].
      + intros x Hx. apply in_map_iff in Hx as (r & <- & H). apply I in H. apply in_seq in H. apply in_seq. lia.
      + intros x y Hx Hy H. apply in_map_iff in Hx as (r & <- & H1), Hy as (r' & <- & H2). f_equal. apply U; auto.
        apply rst_shift_iff in H. replace r with (B + (r - B)) by (specialize (Hr r H1); lia). replace r' with (B + (r' - B)) by (specialize (Hr r' H2); lia). exact H.
      + intros v Hv. apply in_seq in Hv. destruct (C (B + v)) as (r & H1 & H); [apply in_seq; lia|]. exists (r - B). split; [now apply (in_map (fun x => x - B))|].
        apply rst_shift_iff. replace (B + (r - B)) with r by (specialize (Hr r H1); lia). exact H.
  Qed.
End Shift.

(* ---- levels with shifted vertices *)
Record shifted (D : nat -> nat -> Z) (eps : Z) (tp B n : nat) (edges : wgraph) : Prop := {
  sh_in : forall k s w, In (s, w) (level edges k) <->
    exists s0, s = map (Nat.add B) s0 /\ length s0 = S k /\ k <= tp /\ flag_simplex (fun u v => (D u v < eps)%Z) n s0 /\ diameter D s0 w;
  sh_nodup : forall k, NoDup (map fst (level edges k));
  sh_len : forall k, k < length edges <-> level edges k <> []
}.

Section Group.
  Variable dist : list Z -> list Z -> Z.
  Variable g : list (list Z).
  Variables (eps : Z) (tp B : nat) (edges : wgraph).
  Hypothesis Htp : 1 <= tp.
  Hypothesis Sh : shifted (separation dist g) eps tp B (length g) edges.

  Lemma sh_vertex v w : In ([v], w) (level edges 0) <-> B <= v < B + length g /\ w = 0%Z.
  Proof.
    rewrite (sh_in _ _ _ _ _ _ Sh). split.
    - intros (s0 & E & L & _ & (_ & _ & V & _) & [_ D]). destruct s0 as [|x [|]]; try discriminate. cbn in E. injection E as ->.
      assert (x < length g) by (apply V; now left). split; [lia|]. destruct D as [(a & b & [<-|[]] & [<-|[]] & H1 & _)|[_ D]]; [lia|auto].
    - intros [H ->]. exists [v - B]. split; [cbn; f_equal; lia|]. split; auto. split; [lia|]. split.
      + split; [discriminate|]. split; [repeat constructor|]. split; [intros x [<-|[]]; lia|]. intros a b [<-|[]] [<-|[]]; lia.
      + split; [intros a b [<-|[]] [<-|[]]; lia|]. right. auto.
  Qed.
  Lemma sh_level0 : length (level edges 0) = length g.
  Proof.
    rewrite <- (map_length fst). rewrite <- (seq_length (length g) B), <- (map_length (fun x => [x]) (seq B (length g))).
    apply Permutation_length, NoDup_Permutation; [apply Sh| |].
    - apply FinFun.Injective_map_NoDup; [intros x y E; congruence|apply seq_NoDup].
    - intros s. rewrite !in_map_iff. split.
      + intros ([q w] & <- & H). cbn [fst]. assert (L := H). apply (sh_in _ _ _ _ _ _ Sh) in L as (s0 & E & L & _).
        destruct s0 as [|x [|]]; try discriminate. cbn in E. subst q. apply sh_vertex in H. exists (B + x). split; auto. apply in_seq. lia.
      + intros (x & <- & H). apply in_seq in H. exists ([x], 0%Z). split; auto. apply sh_vertex. split; auto; lia.
  Qed.
  Lemma sh_edge s w : In (s, w) (level edges 1) <-> exists u v, s = [B + u; B + v] /\ joined dist g Tree eps eps u v /\ w = separation dist g u v.
  Proof.
    rewrite (sh_in _ _ _ _ _ _ Sh). split.
    - intros (s0 & -> & L & _ & (_ & Ss & V & C) & [D1 D2]). destruct s0 as [|u [|v [|]]]; try discriminate. exists u, v. split; [reflexivity|].
      inversion Ss as [|? ? _ Hf]; subst. inversion Hf as [|? ? Huv _]; subst.
      assert (Cl : (separation dist g u v < eps)%Z) by (apply C; auto; [now left|right; now left]).
      split; [|destruct D2 as [(a & b & [<-|[<-|[]]] & [<-|[<-|[]]] & H1 & H2)|[H1 _]]; try lia; auto; cbn in H1; lia].
      split; auto. split; [apply V; right; now left|]. split; [exact Cl|lia].
    - intros (u & v & -> & (Huv & Hv & Cl & W) & ->). cbn in Cl. exists [u; v]. split; auto. split; auto. split; [lia|]. split.
      + split; [discriminate|]. split; [repeat constructor; lia|]. split; [intros x [<-|[<-|[]]]; lia|].
        intros a b [<-|[<-|[]]] [<-|[<-|[]]] H; try lia; exact Cl.
      + split; [intros a b [<-|[<-|[]]] [<-|[<-|[]]] H; lia|]. left. exists u, v. cbn. auto 6.
  Qed.
  Lemma sh_graph : graph_on (seq B (length g)) (level edges 1).
  Proof.
    intros s w H. apply sh_edge in H as (u & v & -> & (Huv & Hv & _) & _). exists (B + u), (B + v). split; auto. split; [lia|]. rewrite !in_seq. lia.
  Qed.
  Lemma sh_adjacent t x y : adjacent (up_to t (level edges 1)) x y <-> exists u v, x = B + u /\ y = B + v /\ joined dist g Tree eps t u v.
  Proof.
    unfold adjacent, up_to. split.
    - intros (w & H). apply filter_In in H as [H W]. apply Z.leb_le in W. cbn in W. apply sh_edge in H as (u & v & E & (H1 & H2 & H3 & _) & ->).
      injection E as -> ->. exists u, v. split; auto. split; auto. split; auto.
    - intros (u & v & -> & -> & (H1 & H2 & H3 & H4)). exists (separation dist g u v). apply filter_In. split; [|now apply Z.leb_le].
      apply sh_edge. exists u, v. split; auto. split; auto. split; auto. split; auto. split; auto. cbn in H3. lia.
  Qed.
  Lemma sh_adjacent_all x y : adjacent (level edges 1) x y <-> exists u v, x = B + u /\ y = B + v /\ joined dist g Tree eps eps u v.
  Proof.
    unfold adjacent. split.
    - intros (w & H). apply sh_edge in H as (u & v & E & J & _). injection E as -> ->. eauto.
    - intros (u & v & -> & -> & J). exists (separation dist g u v). apply sh_edge. eauto.
  Qed.
  Lemma sh_clusters t n : components (seq B (length g)) (up_to t (level edges 1)) n <-> clusters dist g Tree eps t n.
  Proof. symmetry. apply classes_shift. intros x y. apply sh_adjacent. Qed.
  Lemma sh_clusters_all n : components (seq B (length g)) (level edges 1) n <-> clusters dist g Tree eps eps n.
  Proof. symmetry. apply classes_shift. intros x y. apply sh_adjacent_all. Qed.

  Lemma sh_two : 2 <= length edges <-> some_pair dist g eps.
  Proof.
    change (2 <= length edges) with (1 < length edges). rewrite (sh_len _ _ _ _ _ _ Sh). split.
    - destruct (level edges 1) as [|[s w] l] eqn:E; [easy|]. intros _. assert (H : In (s, w) (level edges 1)) by (rewrite E; now left).
      apply sh_edge in H as (u & v & _ & (H1 & H2 & H3 & _) & _). exists u, v. auto.
    - intros (u & v & H1 & H2 & H3) E. assert (H : In ([B + u; B + v], separation dist g u v) (level edges 1)).
      { apply sh_edge. exists u, v. split; auto. split; auto. split; auto. split; auto. split; auto. lia. }
      rewrite E in H. destruct H.
  Qed.

  Lemma sh_weight k s w : 1 <= k -> In (s, w) (level edges k) -> exists u v, u < v /\ v < length g /\ separation dist g u v = w /\ (w < eps)%Z.
  Proof.
    intros Hk H. apply (sh_in _ _ _ _ _ _ Sh) in H as (s0 & _ & L & _ & (_ & _ & V & C) & _ & [(x & y & Hx & Hy & Hxy & <-)|[Hl _]]); [|lia].
    exists x, y. split; [auto|]. split; [now apply V|]. split; [reflexivity|]. now apply C.
  Qed.

  (* The result, whatever the order of the edges. *)
  Theorem group_bars past_end dim tab lines tab' : fp_run past_end dim eps edges tab = Ok (Some (lines, tab')) ->
    exists F, spanning_forest dist g eps F /\ ends_at dist g eps F lines /\
      (StronglySorted by_weight (level edges 1) -> single_linkage dist g eps F).
  Proof.
    intros H. destruct (fp_any _ _ _ _ _ _ _ H) as (new & newt & L2 & E1 & E2 & E3 & E4). cbn zeta in *. rewrite sh_level0 in *.
    set (V := seq B (length g)). assert (NV : NoDup V) by apply seq_NoDup. assert (LV : length V = length g) by apply seq_length.
    rewrite <- LV in E1. assert (K := kruskal_spec V (level edges 1) tab NV sh_graph). cbn zeta in K.
    set (k := kruskal (length V) (level edges 1) tab) in *.
    assert (Em := kf_mst _ _ _ _ _ _ K).
    (* the pairs *)
    assert (PF : forall i, In i (k_piv k) -> exists u v, nth i (level edges 1) ([], 0%Z) = ([B + u; B + v], separation dist g u v) /\ joined dist g Tree eps eps u v).
    { intros i Hi. assert (Li := kfin_lt _ _ _ _ _ _ K i Hi). destruct (nth i (level edges 1) ([], 0%Z)) as [s w] eqn:En.
      assert (Hin : In (s, w) (level edges 1)) by (rewrite <- En; now apply nth_In). apply sh_edge in Hin as (u & v & -> & J & ->). eauto. }
    set (pr := fun i => match fst (nth i (level edges 1) ([], 0%Z)) with [x; y] => (x - B, y - B) | _ => (0, 0) end).
    assert (Pp : forall i, In i (k_piv k) -> exists u v, pr i = (u, v) /\ nth i (level edges 1) ([], 0%Z) = ([B + u; B + v], separation dist g u v) /\ joined dist g Tree eps eps u v).
    { intros i Hi. destruct (PF i Hi) as (u & v & En & J). exists u, v. unfold pr. rewrite En. cbn. split; auto. f_equal; lia. }
    set (F := map pr (k_piv k)). exists F.
    assert (EF : map (fun e => separation dist g (fst e) (snd e)) F = k_mst k).
    { rewrite Em. unfold F. rewrite map_map. apply map_ext_in. intros i Hi. destruct (Pp i Hi) as (u & v & -> & En & _). unfold edge_weight. now rewrite En. }
    assert (CF : forall n, clusters dist g Tree eps eps n -> length F + n = length g).
    { intros n Hn. apply sh_clusters_all in Hn. destruct (kfin_whole _ _ _ _ _ _ K) as (c & C & L).
      assert (n = c) by (eapply components_unique; eauto). subst n. unfold F. rewrite map_length. lia. }
    split; [|split].
    - split; [|split; auto].
      + intros u v Hi. apply in_map_iff in Hi as (i & E & Hi). destruct (Pp i Hi) as (u' & v' & E' & _ & J). rewrite E in E'. injection E' as -> ->. auto.
      + intros u v. rewrite (rst_shift_iff B (joined dist g Tree eps eps) (adjacent (level edges 1)) sh_adjacent_all u v).
        rewrite (rst_shift_iff B (fun a b => In (a, b) F) (adjacent (edges_at (level edges 1) (k_piv k)))).
        * apply (pivots_span V _ sh_graph _ (kf_sorted _ _ _ _ _ _ K) (kf_piv _ _ _ _ _ _ K)).
        * intros x y. unfold adjacent, edges_at. split.
          -- intros (w & Hw). apply in_map_iff in Hw as (i & E & Hi). destruct (Pp i Hi) as (a & b & Ea & En & J). rewrite En in E. injection E as <- <- <-.
             exists a, b. split; auto. split; auto. rewrite <- Ea. unfold F. now apply in_map.
          -- intros (a & b & -> & -> & Hi). apply in_map_iff in Hi as (i & E & Hi). destruct (Pp i Hi) as (a' & b' & Ea & En & J). rewrite E in Ea. injection Ea as -> ->.
             eexists. apply in_map_iff. exists i. split; eauto.
    - exists new. split; [rewrite E1, <- EF, map_map; reflexivity|]. intros n b w Hl. destruct (E4 _ Hl) as [Q1 (Q2 & Q3 & Q4)]. cbn [fst snd] in *. split; [lia|]. split; [auto|].
      apply in_map_iff in Q3 as ([s1 w1] & <- & Q3), Q4 as ([s2 w2] & <- & Q4). split; [apply (sh_weight n s1)|apply (sh_weight (S n) s2)]; auto; lia.
    - intros Hs t n. rewrite EF, <- sh_clusters.
      assert (Gt : graph_on V (up_to t (level edges 1))) by (intros s w Hw; apply filter_In in Hw; now apply (sh_graph s w)).
      destruct (components_exist _ _ NV Gt) as (c0 & C0). assert (Q := mst_counts V _ tab t c0 NV sh_graph Hs C0). fold k in Q. split.
      + intros Hn. assert (n = c0) by (eapply components_unique; eauto). subst. lia.
      + intros Hn. replace n with c0 by lia. exact C0.
  Qed.
End Group.

(* ---- the points recorded in the table *)
Definition point_of (es : list wsimp) (b : bettiEntry) : Prop := exists x s w, In (s, w) es /\ In x s /\ boundaryPoints b = [x].

Lemma intersection_incl sx : forall c x, In x (setIntersect_set sx c) -> In x sx.
Proof.
  intros c x. unfold setIntersect_set. destruct (nlist_eqb sx c); auto.
  revert c. induction sx as [|a sx IH]; intros c H; [destruct c; destruct H|].
  induction c as [|y c IHc]; [destruct H|]. cbn in H.
  destruct (a <? y); [right; eapply IH; eauto|]. destruct (y <? a); [apply IHc, H|]. destruct H as [H|H]; [now left|]. right. eapply IH; eauto.
Qed.
Lemma scan_points edge ix con : forall s,
  exists u, ks_tab (fold_left (kr_scan1 edge ix) con s) = ks_tab s ++ u /\ forall b, In b u -> point_of [edge] b.
Proof.
  induction con as [|c con IH]; intros s; cbn [fold_left]; [exists []; split; [now rewrite app_nil_r|easy]|].
  assert (O : exists u, ks_tab (kr_scan1 edge ix s c) = ks_tab s ++ u /\ forall b, In b u -> point_of [edge] b).
  { unfold kr_scan1. destruct edge as [sx wx]. cbn [fst snd].
    destruct (negb (ks_found s) && (length (setIntersect_set sx c) =? 1)) eqn:E1.
    - eexists. split; [reflexivity|]. intros b [<-|[]]. apply andb_true_iff in E1 as [_ E1]. apply Nat.eqb_eq in E1.
      destruct (setIntersect_set sx c) as [|x [|]] eqn:Ex; try discriminate. exists x, sx, wx. split; [now left|]. split; auto.
      apply (intersection_incl sx c). rewrite Ex. now left.
    - exists []. rewrite app_nil_r. split; [|easy].
      destruct (length (setIntersect_set sx c) =? 1); [auto|]. destruct (length (setIntersect_set sx c) =? 2); auto. }
  destruct O as (u & E & P), (IH (kr_scan1 edge ix s c)) as (u' & E' & P'). exists (u ++ u'). rewrite E', E, app_assoc. split; auto.
  intros b Hb. apply in_app_iff in Hb as [Hb|Hb]; auto.
Qed.
Lemma edge_points s e : exists u, k_tab (kr_edge s e) = k_tab s ++ u /\ forall b, In b u -> point_of [e] b.
Proof.
  unfold kr_edge. destruct (scan_points e (k_ix s) (k_con s) (mkScan false false [] [] (k_mst s) (k_piv s) (k_tab s))) as (u & E & P).
  exists u. split; auto. destruct (ks_found _); [exact E|]. destruct (ks_br _); exact E.
Qed.
Lemma loop_points n0 es : forall s, exists u, k_tab (kr_loop n0 s es) = k_tab s ++ u /\ forall b, In b u -> point_of es b.
Proof.
  assert (P : forall e es b, point_of [e] b -> point_of (e :: es) b) by (intros e l b (x & q & w & [H|[]] & R); exists x, q, w; split; [now left|auto]).
  assert (P2 : forall e es b, point_of es b -> point_of (e :: es) b) by (intros e l b (x & q & w & H & R); exists x, q, w; split; [now right|auto]).
  induction es as [|e es IH]; intros s; cbn [kr_loop]; [exists []; split; [now rewrite app_nil_r|easy]|].
  destruct (edge_points s e) as (u & E & Q). destruct (S (length (k_mst (kr_edge s e))) =? n0); [exists u; auto|].
  destruct (IH (mkK (k_con (kr_edge s e)) (k_mst (kr_edge s e)) (k_piv (kr_edge s e)) (k_tab (kr_edge s e)) (S (k_ix s)))) as (u' & E' & Q').
  exists (u ++ u'). rewrite E'. cbn [k_tab]. rewrite E, app_assoc. split; auto. intros b Hb. apply in_app_iff in Hb as [Hb|Hb]; auto.
Qed.

(* A pivot that touches an earlier edge exists as soon as some vertex has two neighbours. *)
Lemma matching_conn (F : list wsimp) :
  (forall s w, In (s, w) F -> exists u v, s = [u; v] /\ u <> v) ->
  (forall s w s' w' x, In (s, w) F -> In (s', w') F -> In x s -> In x s' -> s = s') ->
  forall x y, connected F x y -> x = y \/ exists s w, In (s, w) F /\ In x s /\ In y s /\ x <> y.
Proof.
  intros G M x y H. induction H as [x y (w & Hw)|x|x y _ IH|x y z _ IH1 _ IH2].
  - right. exists [x; y], w. split; auto. destruct (G _ _ Hw) as (a & b & E & N). injection E as -> ->. cbn. auto.
  - now left.
  - destruct IH as [->|(s & w & H1 & H2 & H3 & H4)]; auto. right. exists s, w. auto.
  - destruct IH1 as [->|(s & w & H1 & H2 & H3 & H4)]; auto. destruct IH2 as [<-|(s' & w' & K1 & K2 & K3 & K4)]; [right; eauto 6|].
    assert (s = s') by (eapply M; eauto). subst s'. destruct (G _ _ H1) as (a & b & -> & N).
    cbn in H2, H3, K3. assert (x = z \/ x <> z) as [->|Nx] by lia; auto. right. exists [a; b], w. cbn. auto 6.
Qed.

Lemma path_touch V es piv a b c : graph_on V es -> ssorted piv -> (forall i, In i piv <-> joins es i) ->
  a <> b -> b <> c -> a <> c -> connected es a b -> connected es b c -> exists i, In i piv /\ touches es i = true.
Proof.
  intros G Sp Hp Nab Nbc Nac Cab Cbc.
  destruct (existsb (touches es) piv) eqn:Ex. { apply existsb_exists in Ex as (i & H1 & H2). eauto. }
  exfalso. assert (Nt : forall i, In i piv -> touches es i = false).
  { intros i Hi. destruct (touches es i) eqn:E; auto. assert (existsb (touches es) piv = true) by (apply existsb_exists; eauto). congruence. }
  set (F := edges_at es piv).
  assert (Gi : forall i, In i piv -> i < length es) by (intros i Hi; apply joins_lt; now apply Hp).
  assert (HF : forall s w, In (s, w) F -> exists i, In i piv /\ nth i es ([], 0%Z) = (s, w)).
  { intros s w H. apply in_map_iff in H as (i & E & Hi). eauto. }
  assert (G2 : forall s w, In (s, w) F -> exists u v, s = [u; v] /\ u <> v).
  { intros s w H. apply HF in H as (i & Hi & E). assert (Hin : In (s, w) es) by (rewrite <- E; apply nth_In, Gi, Hi).
    apply G in Hin as (u & v & -> & L & _). exists u, v. split; auto. lia. }
  assert (Dis : forall i j x, In i piv -> In j piv -> i < j -> In x (fst (nth i es ([], 0%Z))) -> In x (fst (nth j es ([], 0%Z))) -> False).
  { intros i j x Hi Hj L X1 X2. assert (T := Nt j Hj). unfold touches in T. apply not_true_iff_false in T. apply T.
    apply existsb_exists. exists (nth i es ([], 0%Z)). split.
    - assert (E : nth i es ([], 0%Z) = nth i (firstn j es) ([], 0%Z)).
      { rewrite <- (firstn_skipn j es) at 1. apply app_nth1. rewrite firstn_length. specialize (Gi j Hj). lia. }
      rewrite E. apply nth_In. rewrite firstn_length. specialize (Gi j Hj). lia.
    - apply existsb_exists. exists x. split; auto. now apply existsb_In. }
  assert (M : forall s w s' w' x, In (s, w) F -> In (s', w') F -> In x s -> In x s' -> s = s').
  { intros s w s' w' x H1 H2 X1 X2. apply HF in H1 as (i & Hi & Ei), H2 as (j & Hj & Ej).
    destruct (Nat.lt_trichotomy i j) as [L|[L|L]].
    - exfalso. apply (Dis i j x); auto; [now rewrite Ei|now rewrite Ej].
    - subst j. congruence.
    - exfalso. apply (Dis j i x); auto; [now rewrite Ej|now rewrite Ei]. }
  assert (Sp' := pivots_span V es G piv Sp Hp). rewrite <- Sp' in Cab, Cbc. fold F in Cab, Cbc.
  destruct (matching_conn F G2 M _ _ Cab) as [E|(s & w & H1 & A1 & B1 & _)]; [lia|].
  destruct (matching_conn F G2 M _ _ Cbc) as [E|(s' & w' & H2 & B2 & C2 & _)]; [lia|].
  assert (s = s') by (apply (M s w s' w' b); auto). subst s'. destruct (G2 _ _ H1) as (u & v & -> & Nuv).
  cbn in A1, B1, C2. lia.
Qed.

Section Recorded.
  Variable dist : list Z -> list Z -> Z.
  Variable g : list (list Z).
  Variables (eps : Z) (tp B : nat) (edges : wgraph).
  Hypothesis Htp : 1 <= tp.
  Hypothesis Sh : shifted (separation dist g) eps tp B (length g) edges.

  (* With a path of two edges, some entry of the table holds a vertex number of this group. *)
  Lemma recorded_point past_end dim tab lines tab' : some_path dist g eps ->
    fp_run past_end dim eps edges tab = Ok (Some (lines, tab')) ->
    exists b x, In b tab' /\ In x (boundaryPoints b) /\ B <= x.
  Proof.
    intros (a & b & c & Nac & Hab & Hbc) H. destruct (fp_any _ _ _ _ _ _ _ H) as (new & newt & L2 & E1 & E2 & E3 & E4). cbn zeta in *.
    rewrite (sh_level0 dist g eps tp B edges Htp Sh) in *.
    set (V := seq B (length g)). assert (NV : NoDup V) by apply seq_NoDup. assert (LV : length V = length g) by apply seq_length.
    rewrite <- LV in E2. assert (G := sh_graph dist g eps tp B edges Htp Sh). assert (K := kruskal_spec V (level edges 1) tab NV G). cbn zeta in K.
    set (k := kruskal (length V) (level edges 1) tab) in *.
    assert (Ad := sh_adjacent_all dist g eps tp B edges Htp Sh).
    assert (J : forall x y, joined dist g Tree eps eps x y \/ joined dist g Tree eps eps y x -> connected (level edges 1) (B + x) (B + y)).
    { intros x y [J|J]; [|apply rst_sym]; apply rst_step, Ad; eauto. }
    assert (Ne : forall x y, joined dist g Tree eps eps x y \/ joined dist g Tree eps eps y x -> x <> y).
    { intros x y [(L & _)|(L & _)]; lia. }
    destruct (path_touch V (level edges 1) (k_piv k) (B + a) (B + b) (B + c) G (kf_sorted _ _ _ _ _ _ K) (kf_piv _ _ _ _ _ _ K)) as (i & Hi & Ti); auto.
    { apply Ne in Hab. lia. } { apply Ne in Hbc. lia. } { lia. }
    destruct (kf_tab _ _ _ _ _ _ K) as (nt & Et & _ & Ed).
    assert (nt <> []). { intros ->. destruct (filter (touches (level edges 1)) (k_piv k)) eqn:Ef; [|discriminate].
      assert (In i []) by (rewrite <- Ef; apply filter_In; auto). easy. }
    assert (Hlast : exists e, In e nt). { destruct nt as [|e nt']; [easy|]. exists e. now left. }
    destruct Hlast as (e & He).
    assert (P : point_of (level edges 1) e).
    { destruct (loop_points (length V) (level edges 1) (mkK [] [] [] tab 0)) as (u & Eu & Pu). unfold k, kruskal in Et.
      rewrite Et in Eu. apply app_inv_head in Eu. subst u. auto. }
    destruct P as (x & s & w & Hs & Hx & Eb). exists e, x. split; [rewrite E2, Et; apply in_app_iff; left; apply in_app_iff; now right|].
    split; [rewrite Eb; now left|]. apply G in Hs as (u & v & -> & _ & Hu & Hv). apply in_seq in Hu, Hv. cbn in Hx. lia.
  Qed.
End Recorded.
