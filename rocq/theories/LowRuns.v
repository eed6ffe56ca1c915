(* LowRuns.v -- whole runs with a dimension that is not positive. *)
From Coq Require Import String Ascii List Arith ZArith Bool Lia Sorted Permutation Relations.
From Verif Require Import Base UtilsModel ArrayListModel TreeModel FastModel ArgModel IoModel PipeModel MainModel.
From Verif Require Import Spec SpecIo SpecComplex SpecTree SpecArgs SpecGraph SpecLinear SpecFast SpecPipe SpecMain.
From Verif Require Import ArrayListProofs ArgProofs IoProofs KruskalProofs ArrayListHist TreeHist FastProofs FastRuns PipeProofs PipeRuns MainProofs MainRuns.
Import ListNotations.
Local Open Scope nat_scope.
Local Open Scope list_scope.

(* ---- the tree: edges are stored whatever the dimension *)
Lemma tree_edges_any dm eps dim nc0 n srt : is_sort srt -> dm <> [] -> upper_triangle dm n ->
  exists t, st_run eps dim (Ok tt) srt (st_new dm nc0) (repeat TInsert n) = Ok t /\
    exists tp, 1 <= tp /\
    let edges := fst (st_getAllEdges srt t) in
    complex edges /\ filtered edges /\ lists_rips (dist_of dm) (fun d => (d < eps)%Z) n tp edges.
Proof.
  intros Hs Hd U. destruct (run_inv eps dim dm nc0 srt (repeat TInsert n) Hs) as (t & cb & E & V & _).
  { now apply legal_inserts. }
  destruct (tree_rips eps dim dm nc0 n srt Hs Hd U) as (t' & E' & Nd & Ch). rewrite E in E'. injection E' as <-.
  exists t. split; auto. unfold within in Ch. generalize dependent (dim mod 2 ^ 64)%Z. intros dm64 Ch.
  exists (Z.to_nat (Z.max 1 dm64)). split; [lia|]. cbv zeta.
  destruct (tree_filtered eps dim dm nc0 n srt t Hs Hd U E) as [C F]. split; auto. split; auto.
  assert (Lg := legal_inserts dm n U Hd).
  assert (NG : ~ In TGetAll (repeat TInsert n)) by (intros H; apply repeat_spec in H; discriminate).
  destruct (first_getAllEdges eps dim dm nc0 srt _ t Hs Lg NG E) as (G1 & _).
  split.
  - intros k s w. assert (Pk : In (s, w) (level (fst (st_getAllEdges srt t)) k) <-> In (s, w) (level (st_weg t) k)).
    { split; apply Permutation_in; [|apply Permutation_sym]; apply G1. }
    rewrite Pk, Ch. split.
    + intros (L & R & W & Dm). split; auto. split; auto. lia.
    + intros (L & K & R & Dm). split; auto. split; auto. split; auto. lia.
  - assert (Ln : length (fst (st_getAllEdges srt t)) = length (st_weg t)).
    { unfold st_getAllEdges. destruct (st_isSorted t); auto. cbn. apply map_length. }
    intros k. rewrite Ln. assert (P := proj1 (G1 k)). assert (N := v_ne _ _ _ _ _ _ _ V k). unfold level in *. split.
    + intros Hk Q. rewrite Q in P. apply Permutation_nil in P. now apply N.
    + intros Hk. destruct (Nat.le_gt_cases (length (st_weg t)) k) as [L|]; auto. rewrite <- Ln in L.
      rewrite nth_overflow in Hk by auto. easy.
Qed.

(* ---- the array list: no edge is stored *)
Lemma low_inserts dm eps md n : (md <= 0)%Z -> exists l, length l = S n /\
  foldr_ub (al_step dm eps md) [] (repeat (OpInsert false) (S n)) = Ok [l].
Proof.
  intros Hm. induction n as [|n (l & Ll & E)]; [exists [([0], 0%Z)]; auto|].
  replace (repeat (OpInsert false) (S (S n))) with (repeat (OpInsert false) (S n) ++ [OpInsert false]) by (symmetry; apply repeat_cons).
  rewrite foldr_ub_app, E. cbn [bind foldr_ub al_step al_insert]. destruct (Z.ltb_spec 0 md); [lia|]. cbn [bind upd].
  exists (l ++ [([length l], 0%Z)]). rewrite List.app_length, Ll. cbn. split; [lia|reflexivity].
Qed.
Lemma low_expand dim (l : list wsimp) : expandDimensions dim [l] = Ok [l].
Proof. unfold expandDimensions. generalize (to_unsigned dim - 1). now intros [|f]. Qed.

Section Run.
  Variable dist : list Z -> list Z -> Z.
  Variables atoi atof : string -> Z.
  Variable srt : list wsimp -> list wsimp.
  Variable past_end : list nat -> nat -> res nat.
  Variable nc0 : Z.
  Variable al_reduce : wgraph -> res wgraph.
  Variable other : pipe_kind -> amap -> packet -> res packet.
  Notation run_program := (run_program dist atoi atof srt past_end nc0 al_reduce other).
  Variables (args : amap) (c : cx_type) (d e : string) (data : list (list Z)).
  Hypothesis Hs : is_sort srt.
  Hypothesis Hr : default_run args c d e.
  Hypothesis Hne : forall x, In x data -> x <> [].
  Hypothesis Hpos : forall x y, (0 <= dist x y)%Z.
  Hypothesis Hd : (atoi d <= 0)%Z.
  Hypothesis Hdata : data <> [].

  Lemma matrix : exists dm ws,
    (forall args' p, mget args' "epsilon" = Some e -> pk_data p = data -> pk_weights p = [] ->
       run_distMatrix dist atof args' p = do c <- PipeModel.deref p; Ok (mkPacket (pk_data p) (pk_labels p) (pk_full p) ws (Some (cx_setDistanceMatrix dm c)) (pk_output p) (pk_table p) (pk_stats p))) /\
    dm <> [] /\ upper_triangle dm (length data) /\
    forall u v, u < v -> v < length data -> dist_of dm u v = separation dist data u v.
  Proof.
    destruct (distMatrix_spec (list Z) (fun v => match v with [] => true | _ => false end) dist (atof e) data [])
      as (dm & ws & E & L1 & L2 & V & _); [constructor|]. exists dm, ws.
    assert (Sep : forall u v, u < v -> v < length data -> dist_of dm u v = separation dist data u v).
    { intros u v Huv Hv. unfold dist_of, separation. destruct (nth_error data u) as [x|] eqn:Eu; [|apply nth_error_None in Eu; lia].
      destruct (nth_error data v) as [y|] eqn:Ev; [|apply nth_error_None in Ev; lia]. rewrite (V u v x y Eu Ev).
      destruct (Nat.ltb_spec u v); [|lia]. destruct x; [|reflexivity]. exfalso. apply nth_error_In in Eu. now apply (Hne []). }
    split; [|split; [|split]]; auto.
    - intros args' p He Hp Hw. unfold run_distMatrix, opt. rewrite He, Hp, Hw, E. reflexivity.
    - intros ->. destruct data; [easy|discriminate].
    - intros u v Huv Hv. rewrite (L2 u) by lia. split; auto. rewrite Sep by auto. unfold separation.
      destruct (nth_error data u), (nth_error data v); auto; lia.
  Qed.

  Lemma fast_low p cx0 edges c2 : mget args "dimensions" = Some d -> mget args "epsilon" = Some e ->
    pk_complex p = Some cx0 -> pk_output p = [] -> pk_table p = [] -> cx_getAllEdges srt (atof e) cx0 = (edges, c2) ->
    exists finish, (do p7 <- run_fast atoi atof srt past_end args p; do p8 <- add_stats KFastPersistence p7; Ok (Some (p8, @nil string))) =
      (do r <- fp_run past_end (atoi d) (atof e) edges []; Ok (Some (finish r, []))) /\
      forall r, (pk_output (finish r), pk_table (finish r)) = result r.
  Proof.
    intros H3 H4 Hc Ho Ht Eg.
    exists (fun r => mkPacket (pk_data p) (pk_labels p) (pk_full p) (pk_weights p) (Some c2) (fst (result r)) (snd (result r))
                       (pk_stats p ++ [(KFastPersistence, cx_vertexCount c2, cx_simplexCount c2)])).
    split; [|intros r; cbn; now destruct (result r)].
    unfold run_fast, opt. rewrite H3, H4. unfold PipeModel.deref at 1. rewrite Hc. cbn [bind].
    destruct (Z.ltb_spec 0 (atoi d)); [lia|]. cbn [bind]. rewrite Eg, Ht.
    destruct (fp_run past_end (atoi d) (atof e) edges []) as [[[lines tab]|]|]; cbn [bind]; auto.
    unfold add_stats, set_complex, PipeModel.deref. cbn. now rewrite Ho, Ht.
  Qed.

  Theorem low_array : c = ArrayList -> run_program args data = UB.
  Proof.
    intros Hc. destruct matrix as (dm & ws & M & Hdm & U & Sep).
    assert (Hr' := Hr). destruct Hr' as [H1 H2 H3 H4 H5 (col & H6 & H7 & H8)]. rewrite Hc in H2.
    assert (Col : (String.eqb col "true" || String.eqb col "1") = false).
    { now rewrite (proj2 (String.eqb_neq col "true") H7), (proj2 (String.eqb_neq col "1") H8). }
    unfold PipeModel.run_program, new_packet, newSimplex, opt. rewrite H2, H3, H4. cbn [cx_name].
    change (String.eqb "simplexArrayList" "simplexTree") with false. change (String.eqb "simplexArrayList" "simplexArrayList") with true. cbn [bind].
    rewrite (run_default dist atoi atof srt past_end al_reduce other args c d e _ Hr). rewrite M by auto.
    cbn [bind PipeModel.deref pk_complex cx_setDistanceMatrix].
    match goal with |- context [add_stats KDistMatrix ?p] => destruct (stats_ok KDistMatrix p _ eq_refl) as (p2 & -> & C2 & D2 & O2 & B2) end.
    cbn [bind pk_data pk_output pk_table] in *. unfold run_neighGraph. rewrite D2.
    rewrite (neigh_array _ _ _ _ _ _ C2 Hne).
    destruct (low_inserts dm (atof e) (atoi d) (length data - 1) Hd) as (l & Ll & El).
    replace (S (length data - 1)) with (length data) in El by (destruct data; [easy|cbn; lia]).
    rewrite El. cbn [rmap bind].
    match goal with |- context [add_stats KNeighGraph ?p] => destruct (stats_ok KNeighGraph p _ eq_refl) as (p4 & -> & C4 & D4 & O4 & B4) end.
    cbn [bind pk_data pk_output pk_table set_complex] in *.
    unfold run_rips, opt. rewrite H3, H6. unfold PipeModel.deref at 1. rewrite C4. cbn [bind cx_expand]. rewrite low_expand. cbn [bind rmap]. rewrite Col. cbn [bind].
    match goal with |- context [add_stats KRips ?p] => destruct (stats_ok KRips p _ eq_refl) as (p6 & -> & C6 & D6 & O6 & B6) end.
    cbn [bind pk_data pk_output pk_table set_complex] in *.
    destruct (fast_low p6 _ _ _ H3 H4 C6 ltac:(congruence) ltac:(congruence) eq_refl) as (finish & -> & _).
    unfold getAllEdges. cbn [fold_left]. destruct (map _ l) as [|x l'] eqn:El'; [destruct l; discriminate|]. reflexivity.
  Qed.

  Theorem low_tree_edges : c = Tree -> exists edges finish tp, 1 <= tp /\ complex edges /\ filtered edges /\
      lists_rips (separation dist data) (close Tree (atof e)) (length data) tp edges /\
      run_program args data = (do r <- fp_run past_end (atoi d) (atof e) edges []; Ok (Some (finish r, []))) /\
      forall r, (pk_output (finish r), pk_table (finish r)) = result r.
  Proof.
    intros Hc. destruct matrix as (dm & ws & M & Hdm & U & Sep).
    assert (Hr' := Hr). destruct Hr' as [H1 H2 H3 H4 H5 (col & H6 & H7 & H8)]. rewrite Hc in H2.
    assert (Col : (String.eqb col "true" || String.eqb col "1") = false).
    { now rewrite (proj2 (String.eqb_neq col "true") H7), (proj2 (String.eqb_neq col "1") H8). }
    unfold PipeModel.run_program, new_packet, newSimplex, opt. rewrite H2, H3, H4. cbn [cx_name].
    destruct (tree_edges_any dm (atof e) (atoi d) nc0 (length data) srt Hs Hdm U) as (t & T1 & tp & Tp & T2 & T3 & T4).
    destruct (st_getAllEdges srt t) as [edges t'] eqn:Eg. cbn [fst] in *. exists edges.
    change (String.eqb "simplexTree" "simplexTree") with true. cbn [bind].
    rewrite (run_default dist atoi atof srt past_end al_reduce other args c d e _ Hr). rewrite M by auto.
    cbn [bind PipeModel.deref pk_complex cx_setDistanceMatrix].
    change (st_setDistanceMatrix dm (st_new [] nc0)) with (st_new dm nc0).
    match goal with |- context [add_stats KDistMatrix ?p] => destruct (stats_ok KDistMatrix p _ eq_refl) as (p2 & -> & C2 & D2 & O2 & B2) end.
    cbn [bind pk_data pk_output pk_table] in *. unfold run_neighGraph. rewrite D2.
    rewrite (neigh_tree srt _ _ _ _ _ C2 Hne), T1. cbn [rmap bind].
    match goal with |- context [add_stats KNeighGraph ?p] => destruct (stats_ok KNeighGraph p _ eq_refl) as (p4 & -> & C4 & D4 & O4 & B4) end.
    cbn [bind pk_data pk_output pk_table set_complex] in *.
    unfold run_rips, opt. rewrite H3, H6. unfold PipeModel.deref at 1. rewrite C4. cbn [bind cx_expand]. rewrite Col. cbn [bind].
    match goal with |- context [add_stats KRips ?p] => destruct (stats_ok KRips p _ eq_refl) as (p6 & -> & C6 & D6 & O6 & B6) end.
    cbn [bind pk_data pk_output pk_table set_complex] in *.
    destruct (fast_low p6 _ edges (CTree (atof e) (atoi d) t') H3 H4 C6 ltac:(congruence) ltac:(congruence)) as (finish & Fi & Fo).
    { cbn. now rewrite Eg. }
    exists finish, tp. split; auto. split; [exact T2|]. split; [exact T3|].
    split; [eapply lists_rips_ext; [|exact T4]; exact Sep|]. split; [exact Fi|]. exact Fo.
  Qed.

  Definition some_close : Prop := exists u v, u < v /\ v < length data /\ close Tree (atof e) (separation dist data u v).

  Theorem low_tree : c = Tree ->
    (some_close -> exists q deaths, run_program args data = Ok (Some (q, [])) /\
       pk_output q = map (fun w => (0, 0%Z, w)) deaths ++ [(0, 0%Z, atof e)] /\
       forall t n, clusters dist data Tree (atof e) t n <-> count_le t deaths + n = length data) /\
    (~ some_close -> run_program args data = UB).
  Proof.
    intros Hc. destruct (low_tree_edges Hc) as (edges & finish & tp & Tp & C & F & L & E & O). rewrite E.
    destruct (rips_levels dist data Tree (atof e) tp Tp edges L C) as [L2 L0].
    destruct edges as [|e0 [|e1 edges]].
    - exfalso. now apply Hdata, L0.
    - split; [|reflexivity]. intros Hp. apply L2 in Hp. cbn in Hp. lia.
    - split; [|intros N; exfalso; apply N, L2; cbn; lia]. intros _. set (es := e0 :: e1 :: edges) in *.
      assert (Er : exists lines tab, fp_run past_end (atoi d) (atof e) es [] = Ok (Some (lines, tab)) /\ dim0 lines = lines).
      { unfold es, fp_run. cbn [at_ nth_error bind]. destruct (Z.ltb_spec 0 (atoi d)); [lia|]. cbn [bind].
        eexists _, _. split; [reflexivity|]. unfold dim0. rewrite filter_app. cbn. f_equal.
        generalize (k_mst (kruskal (length e0) e1 [])). intros ws. clear. induction ws as [|w ws IH]; cbn; [reflexivity|now rewrite IH]. }
      destruct Er as (lines & tab & Er & D0). rewrite Er. cbn [bind].
      destruct (dim0_components past_end (atoi d) (atof e) es [] lines tab C (fl_sorted _ F 1) Er) as (deaths & D1 & D2).
      exists (finish (Some (lines, tab))), deaths. split; auto.
      assert (Oq := O (Some (lines, tab))). cbn [result] in Oq. injection Oq as O1 O2. rewrite O1, <- D0. split; auto.
      intros t n. rewrite <- (rips_clusters dist data Tree (atof e) _ Tp es L C).
      destruct (complex_vertices _ C) as (_ & NV & _ & GV). assert (RC := rips_count dist data Tree (atof e) _ Tp es L C).
      assert (Gt : graph_on (vertices es) (up_to t (level es 1))).
      { intros s w Hw. apply filter_In in Hw. now apply (GV s w). }
      destruct (components_exist _ _ NV GV) as (c1 & C1). destruct (components_exist _ _ NV Gt) as (c0 & C0).
      split.
      + intros Hn. destruct (D2 t n c1 Hn C1) as (Q & _). lia.
      + intros Q. destruct (D2 t c0 c1 C0 C1) as (Q' & _). replace n with c0 by lia. exact C0.
  Qed.
End Run.
