(* IndRuns.v -- whole runs of the default pipeline on an indSimplexTree. *)
From Coq Require Import String Ascii List Arith ZArith Bool Lia Sorted Permutation Relations.
From Verif Require Import Base RunMonad UtilsModel ArrayListModel TreeModel FastModel ArgModel IndModel IndReduceModel PipeModel.
From Verif Require Import Spec SpecComplex SpecTree SpecArgs SpecGraph SpecLinear SpecFast SpecPipe SpecInd SpecIndRun.
From Verif Require Import ArgProofs KruskalProofs FastProofs FastRuns PipeProofs PipeRuns IndHist IndReduceProofs PropertiesInd.
Import ListNotations.
Local Open Scope nat_scope.
Local Open Scope list_scope.

Lemma ipast_inserts dm n : dm <> [] -> ipast_of dm (repeat IInsert n) = mkIpast dm n.
Proof.
  intros H. induction n as [|m IHm]; auto. rewrite <- (Nat.add_1_r m), repeat_app. cbn. rewrite ipast_snoc, IHm. cbn. destruct dm; [easy|]. f_equal. lia.
Qed.

(* The complex of n points. *)
Lemma ind_complex dm eps dim nc0 n srt : is_sort srt -> dm <> [] -> upper_triangle dm n -> (0 < dim < 2 ^ 31 - 1)%Z ->
  ilegal dm (repeat IInsert n) /\
  (((3 <= dim)%Z /\ (exists s, flag_simplex (fun u v => (dist_of dm u v < eps)%Z) n s /\ length s = 4)) ->
     ind_run eps dim srt (ind_new dm nc0) (repeat IInsert n) = UB) /\
  (~ ((3 <= dim)%Z /\ (exists s, flag_simplex (fun u v => (dist_of dm u v < eps)%Z) n s /\ length s = 4)) ->
     exists t, ind_run eps dim srt (ind_new dm nc0) (repeat IInsert n) = Ok t /\ i_sorted t = false /\
       lists_rips (dist_of dm) (fun d => (d < eps)%Z) n (Z.to_nat dim) (i_dims t) /\
       let edges := fst (ind_getAllEdges srt t) in
       complex edges /\ filtered edges /\ lists_rips (dist_of dm) (fun d => (d < eps)%Z) n (Z.to_nat dim) edges).
Proof.
  intros Hs Hdm U Hd. assert (Lg : ilegal dm (repeat IInsert n)).
  { apply ilegal_inserts; auto. intros m Hm j i Hj Hi. apply U; lia. }
  split; auto. destruct (ind_rips eps dim dm nc0 srt _ Lg) as [R1 R2]. rewrite ipast_inserts in R1, R2 by auto. cbn [q_dm q_points] in *.
  split.
  - intros (H3 & s & Fs & Ls). apply R2. exists s. split; [|lia]. split; [exact Fs|]. right. rewrite Z.mod_small by lia. lia.
  - intros Hn. destruct R1 as (t & E & Ch & Nd & Ne & L0).
    + intros s [Fs W]. destruct (Nat.le_gt_cases (length s) 3) as [|G]; auto. exfalso. apply Hn.
      destruct W as [W|W]; [lia|]. rewrite Z.mod_small in W by lia. split; [lia|]. exists (firstn 4 s).
      destruct Fs as (F1 & F2 & F3 & F4). assert (In4 : forall x, In x (firstn 4 s) -> In x s).
      { intros x Hx. rewrite <- (firstn_skipn 4 s). apply in_app_iff. auto. }
      split; [|rewrite firstn_length; lia]. repeat split; auto.
      * destruct s; [easy|]. discriminate.
      * rewrite <- (firstn_skipn 4 s) in F2. clear -F2. revert F2. generalize (firstn 4 s) (skipn 4 s). induction l as [|x l IH]; intros l' H; [constructor|].
        cbn in H. inversion H as [|? ? H1 H2]; subst. constructor; [now apply (IH l')|]. apply Forall_app in H2. apply H2.
    + exists t. split; auto. assert (NG : ~ In IGetAll (repeat IInsert n)) by (intros H; apply repeat_spec in H; discriminate).
      split; [apply (sorted_stays _ _ _ _ _ _ _ Lg E NG)|].
      destruct (ind_edges eps dim dm nc0 srt _ t Hs Lg NG E) as (G1 & G2 & G3 & G4 & G5 & _).
      assert (Ch' : forall k s w, In (s, w) (level (i_dims t) k) <-> length s = S k /\ k <= Z.to_nat dim /\ strict_rips dm eps n s /\ diameter (dist_of dm) s w).
      { intros k s w. rewrite Ch. unfold simplex_of, within. rewrite Z.mod_small by lia. split.
        + intros (L & [R W] & Dm). split; auto. split; auto. lia.
        + intros (L & K & R & Dm). split; auto. split; auto. split; auto. right. lia. }
      split; [split; auto|]. cbv zeta. split; auto. split; auto. split.
      * intros k s w. rewrite <- Ch'. split; apply Permutation_in; [|apply Permutation_sym]; apply G1.
      * intros k. rewrite G3, Ne. specialize (G1 k). split; intros N Q; apply N; rewrite Q in G1.
        -- now apply Permutation_nil in G1.
        -- apply Permutation_sym, Permutation_nil in G1. auto.
Qed.

Section Run.
  Variable dist : list Z -> list Z -> Z.
  Variables atoi atof : string -> Z.
  Variable srt : list wsimp -> list wsimp.
  Variable past_end : list nat -> nat -> res nat.
  Variable nc0 : Z.
  Variable al_reduce : wgraph -> res wgraph.
  Variable other : pipe_kind -> amap -> packet -> res packet.
  Notation run_program := (run_program dist atoi atof srt past_end nc0 al_reduce other).

  Lemma neigh_ind e d : forall data p t, pk_complex p = Some (CInd e d t) -> (forall x, In x data -> x <> []) ->
    foldr_ub (fun p v => match v with
                         | [] => Ok p
                         | _ => do c <- PipeModel.deref p; do c' <- cx_insert v c; Ok (set_complex p c')
                         end) p data =
    rmap (fun t' => set_complex p (CInd e d t')) (ind_run e d srt t (repeat IInsert (length data))).
  Proof.
    unfold ind_run. induction data as [|x data IH]; intros p t Hp N; cbn [foldr_ub length repeat].
    - cbn. now rewrite set_complex_same.
    - destruct x as [|z x]; [exfalso; now apply (N []); [left|]|]. unfold PipeModel.deref at 1. rewrite Hp. cbn [bind cx_insert ind_step].
      destruct (ind_insert e d t) as [t'|]; cbn [bind rmap]; auto.
      rewrite (IH (set_complex p (CInd e d t')) t'); auto. intros y Hy. apply N. now right.
  Qed.

  (* The run in terms of the calls on the complex. *)
  Theorem ind_program args d e col data : ind_options args d e col ->
    (forall x, In x data -> x <> []) -> (forall x y, (0 <= dist x y)%Z) -> (0 < atoi d < 2 ^ 31 - 1)%Z ->
    exists dm ws, distMatrix_run (list Z) (fun v => match v with [] => true | _ => false end) dist (atof e) data [] = Ok (dm, ws) /\
      length dm = length data /\ upper_triangle dm (length data) /\
      (forall u v, u < v -> v < length data -> dist_of dm u v = separation dist data u v) /\
      (ind_run (atof e) (atoi d) srt (ind_new dm nc0) (repeat IInsert (length data)) = UB -> run_program args data = UB) /\
      forall t t', ind_run (atof e) (atoi d) srt (ind_new dm nc0) (repeat IInsert (length data)) = Ok t ->
        (if col then ind_reduce (atoi d) t = Ok t' else t' = t) ->
        exists finish,
          run_program args data = (do r <- fp_run past_end (atoi d) (atof e) (fst (ind_getAllEdges srt t')) []; Ok (Some (finish r, []))) /\
          forall r, (pk_output (finish r), pk_table (finish r)) = result r /\ pk_data (finish r) = data.
  Proof.
    intros Hr Hne Hpos Hd. destruct (distMatrix_spec (list Z) (fun v => match v with [] => true | _ => false end) dist (atof e) data [])
      as (dm & ws & E & L1 & L2 & V & _); [constructor|].
    assert (Sep : forall u v, u < v -> v < length data -> dist_of dm u v = separation dist data u v).
    { intros u v Huv Hv. unfold dist_of, separation. destruct (nth_error data u) as [x|] eqn:Eu; [|apply nth_error_None in Eu; lia].
      destruct (nth_error data v) as [y|] eqn:Ev; [|apply nth_error_None in Ev; lia]. rewrite (V u v x y Eu Ev).
      destruct (Nat.ltb_spec u v); [|lia]. destruct x; [|reflexivity]. exfalso. apply nth_error_In in Eu. now apply (Hne []). }
    assert (U : upper_triangle dm (length data)).
    { intros u v Huv Hv. rewrite (L2 u) by lia. split; auto. rewrite Sep by auto. unfold separation.
      destruct (nth_error data u), (nth_error data v); auto; lia. }
    exists dm, ws. split; auto. split; auto. split; auto. split; auto.
    destruct Hr as [H1 H2 H3 H4 H5 (cv & H6 & H7)].
    assert (Col : (String.eqb cv "true" || String.eqb cv "1") = col).
    { destruct col; [destruct H7 as [->| ->]; reflexivity|]. destruct H7 as [H7 H8].
      now rewrite (proj2 (String.eqb_neq cv "true") H7), (proj2 (String.eqb_neq cv "1") H8). }
    unfold PipeModel.run_program, new_packet, newSimplex, opt. rewrite H2, H3, H4.
    change (String.eqb "indSimplexTree" "simplexTree") with false. change (String.eqb "indSimplexTree" "simplexArrayList") with false.
    change (String.eqb "indSimplexTree" "indSimplexTree") with true. cbn [bind].
    rewrite (run_four dist atoi atof srt past_end al_reduce other args d e _ H1 H3 H4 H5). unfold run_distMatrix, opt. rewrite H4. cbn [pk_data pk_weights pk_complex].
    rewrite E. cbn [bind fst snd PipeModel.deref pk_complex cx_setDistanceMatrix].
    change (ind_setDistanceMatrix dm (ind_new [] nc0)) with (ind_new dm nc0).
    match goal with |- context [add_stats KDistMatrix ?p] => destruct (stats_ok KDistMatrix p _ eq_refl) as (p2 & -> & C2 & D2 & O2 & B2) end.
    cbn [bind pk_data pk_output pk_table] in *. unfold run_neighGraph. rewrite D2.
    rewrite (neigh_ind _ _ _ _ _ C2 Hne). split; [intros ->; reflexivity|]. intros t t' -> Ht'. cbn [rmap bind].
    match goal with |- context [add_stats KNeighGraph ?p] => destruct (stats_ok KNeighGraph p _ eq_refl) as (p4 & -> & C4 & D4 & O4 & B4) end.
    cbn [bind pk_data pk_output pk_table set_complex] in *.
    unfold run_rips, opt. rewrite H3, H6. unfold PipeModel.deref at 1. rewrite C4. cbn [bind cx_expand]. rewrite Col.
    assert (R : (if col then rmap (CInd (atof e) (atoi d)) (ind_reduce (atoi d) t) else Ok (CInd (atof e) (atoi d) t)) = Ok (CInd (atof e) (atoi d) t')).
    { destruct col; [now rewrite Ht'|now subst]. }
    rewrite R. cbn [bind].
    match goal with |- context [add_stats KRips ?p] => destruct (stats_ok KRips p _ eq_refl) as (p6 & -> & C6 & D6 & O6 & B6) end.
    cbn [bind pk_data pk_output pk_table set_complex] in *.
    destruct (ind_getAllEdges srt t') as [edges t2] eqn:Eg.
    destruct (fast_finish atoi atof srt past_end args d e p6 _ _ edges (CInd (atof e) (atoi d) t2) H3 H4 C6 ltac:(congruence) ltac:(congruence) ltac:(lia) eq_refl) as (finish & Fi & Fo).
    { cbn. now rewrite Eg. }
    exists finish. split; [exact Fi|]. intros r. destruct (Fo r) as [F1 F2]. split; auto. congruence.
  Qed.
End Run.

Lemma empty_lists_rips D cl tp : lists_rips D cl 0 tp [].
Proof.
  split.
  - intros k s w. split; [destruct k; intros []|]. intros (_ & _ & (N & _ & Vv & _) & _). destruct s as [|a s]; [easy|].
    exfalso. specialize (Vv a (or_introl eq_refl)). lia.
  - intros k. destruct k; cbn; split; try easy; lia.
Qed.
Lemma empty_complex : complex [] /\ filtered [].
Proof. split; split; intros k; destruct k; cbn; try easy; try constructor. Qed.

Section Runs.
  Variable dist : list Z -> list Z -> Z.
  Variables atoi atof : string -> Z.
  Variable srt : list wsimp -> list wsimp.
  Variable past_end : list nat -> nat -> res nat.
  Variable nc0 : Z.
  Variable al_reduce : wgraph -> res wgraph.
  Variable other : pipe_kind -> amap -> packet -> res packet.
  Notation run_program pe := (run_program dist atoi atof srt pe nc0 al_reduce other).
  Variables (args : amap) (d e : string) (data : list (list Z)).
  Hypothesis Hs : is_sort srt.
  Hypothesis Hne : forall x, In x data -> x <> [].
  Hypothesis Hpos : forall x y, (0 <= dist x y)%Z.
  Hypothesis Hd : (0 < atoi d < 2 ^ 31 - 1)%Z.

  (* The object the pipes work on. *)
  Lemma ind_object col : ind_options args d e col ->
    (has_tetrahedron dist data (atoi d) (atof e) -> run_program past_end args data = UB) /\
    (~ has_tetrahedron dist data (atoi d) (atof e) ->
     exists dm t, ilegal dm (repeat IInsert (length data)) /\
       ind_run (atof e) (atoi d) srt (ind_new dm nc0) (repeat IInsert (length data)) = Ok t /\ i_sorted t = false /\
       lists_rips (separation dist data) (close Tree (atof e)) (length data) (Z.to_nat (atoi d)) (i_dims t) /\
       (let edges := fst (ind_getAllEdges srt t) in complex edges /\ filtered edges /\
          lists_rips (separation dist data) (close Tree (atof e)) (length data) (Z.to_nat (atoi d)) edges) /\
       forall t', (if col then ind_reduce (atoi d) t = Ok t' else t' = t) ->
        exists finish,
          run_program past_end args data = (do r <- fp_run past_end (atoi d) (atof e) (fst (ind_getAllEdges srt t')) []; Ok (Some (finish r, []))) /\
          forall r, (pk_output (finish r), pk_table (finish r)) = result r /\ pk_data (finish r) = data).
  Proof.
    intros Hr. destruct (ind_program dist atoi atof srt past_end nc0 al_reduce other args d e col data Hr Hne Hpos Hd) as (dm & ws & _ & L & U & Sep & P1 & P2).
    destruct data as [|x0 data0] eqn:Ed.
    - split.
      + intros (_ & s & (N & _ & V & _) & _). destruct s as [|a s]; [easy|]. exfalso. specialize (V a (or_introl eq_refl)). cbn in V. lia.
      + intros _. exists dm, (ind_new dm nc0). split; [intros [|? ?] o b Q; discriminate|]. split; [reflexivity|]. split; [reflexivity|].
        split; [apply empty_lists_rips|]. split; [cbn; split; [apply empty_complex|split; [apply empty_complex|apply empty_lists_rips]]|].
        intros t' Ht'. destruct (P2 (ind_new dm nc0) t' eq_refl Ht') as (finish & F1 & F2). exists finish. split; auto.
    - rewrite <- Ed in *. assert (Hdm : dm <> []) by (intros ->; rewrite Ed in L; discriminate).
      destruct (ind_complex dm (atof e) (atoi d) nc0 (length data) srt Hs Hdm U Hd) as (Lg & C1 & C2).
      assert (Tet : has_tetrahedron dist data (atoi d) (atof e) <->
        ((3 <= atoi d)%Z /\ (exists s, flag_simplex (fun u v => (dist_of dm u v < atof e)%Z) (length data) s /\ length s = 4))).
      { unfold has_tetrahedron, rips_simplex. cbn [close]. split; intros (H3 & s & F & L4); (split; [auto|]); exists s; (split; [|auto]);
          revert F; apply flag_mono; intros u v Huv Hv; now rewrite Sep. }
      split; [intros H; apply P1, C1, Tet, H|]. intros H. rewrite Tet in H. destruct (C2 H) as (t & T1 & T2 & T3 & T4 & T5 & T6).
      exists dm, t. split; auto. split; auto. split; auto. split; [eapply lists_rips_ext; [|exact T3]; exact Sep|].
      split; [split; auto; split; auto; eapply lists_rips_ext; [|exact T6]; exact Sep|].
      intros t' Ht'. exact (P2 t t' T1 Ht').
  Qed.

  Theorem ind_run_edges : ind_options args d e false ->
    (has_tetrahedron dist data (atoi d) (atof e) -> run_program past_end args data = UB) /\
    (~ has_tetrahedron dist data (atoi d) (atof e) ->
     exists edges finish, complex edges /\ filtered edges /\
      lists_rips (separation dist data) (close Tree (atof e)) (length data) (Z.to_nat (atoi d)) edges /\
      run_program past_end args data = (do r <- fp_run past_end (atoi d) (atof e) edges []; Ok (Some (finish r, []))) /\
      forall r, (pk_output (finish r), pk_table (finish r)) = result r /\ pk_data (finish r) = data).
  Proof.
    intros Hr. destruct (ind_object false Hr) as [A B]. split; auto. intros H. destruct (B H) as (dm & t & _ & _ & _ & _ & (T1 & T2 & T3) & R).
    destruct (R t eq_refl) as (finish & F). exists (fst (ind_getAllEdges srt t)), finish. tauto.
  Qed.

  Theorem ind_dim0 : ind_options args d e false -> forall p failed, run_program past_end args data = Ok (Some (p, failed)) -> data <> [] ->
    failed = [] /\ exists deaths, dim0 (pk_output p) = map (fun w => (0, 0%Z, w)) deaths ++ [(0, 0%Z, atof e)] /\
      forall t n, clusters dist data Tree (atof e) t n <-> count_le t deaths + n = length data.
  Proof.
    intros Hr p failed H Hdata. destruct (ind_run_edges Hr) as [A B].
    destruct B as (edges & finish & C & F & L & E & O). { intros T. rewrite (A T) in H. discriminate. }
    rewrite E in H. clear E.
    destruct (fp_run past_end (atoi d) (atof e) edges []) as [r|] eqn:Er; [|discriminate]. cbn [bind] in H. injection H as <- <-.
    split; auto. destruct (O r) as [O1 _]. clear O.
    assert (T : 1 <= Z.to_nat (atoi d)) by lia. destruct (rips_levels dist data Tree (atof e) _ T edges L C) as [_ L0].
    assert (Ne : edges <> []) by (intros ->; apply Hdata, L0; reflexivity).
    destruct r as [[lines tab]|]; [|now apply fp_none in Er].
    cbn [result] in O1. injection O1 as O1 O2. rewrite O1.
    destruct (dim0_components past_end (atoi d) (atof e) edges [] lines tab C (fl_sorted _ F 1) Er) as (deaths & D1 & D2).
    exists deaths. split; auto. intros t n. rewrite <- (rips_clusters dist data Tree (atof e) _ T edges L C).
    destruct (complex_vertices _ C) as (_ & NV & _ & GV). assert (RC := rips_count dist data Tree (atof e) _ T edges L C).
    assert (Gt : graph_on (vertices edges) (up_to t (level edges 1))).
    { intros s w Hw. apply filter_In in Hw. now apply (GV s w). }
    destruct (components_exist _ _ NV GV) as (c1 & C1). destruct (components_exist _ _ NV Gt) as (c0 & C0).
    split.
    - intros Hn. destruct (D2 t n c1 Hn C1) as (Q & _). lia.
    - intros Q. destruct (D2 t c0 c1 C0 C1) as (Q' & _). replace n with c0 by lia. exact C0.
  Qed.

  Theorem ind_defined : ind_options args d e false ->
    let some_pair := exists u v, u < v /\ v < length data /\ close Tree (atof e) (separation dist data u v) in
    (data <> [] -> ~ some_pair -> run_program past_end args data = UB) /\
    (has_tetrahedron dist data (atoi d) (atof e) -> run_program past_end args data = UB).
  Proof.
    intros Hr. cbv zeta. destruct (ind_run_edges Hr) as [A B]. split; auto. intros Hdata Hn.
    destruct B as (edges & finish & C & F & L & E & O).
    - intros (_ & s & (_ & Ss & V & Cl) & L4). apply Hn. destruct s as [|u [|v s]]; try discriminate. exists u, v.
      inversion Ss as [|? ? _ Hf]; subst. inversion Hf; subst. split; auto. split; [apply V; right; now left|]. apply Cl; auto; [now left|right; now left].
    - rewrite E. assert (T : 1 <= Z.to_nat (atoi d)) by lia. destruct (rips_levels dist data Tree (atof e) _ T edges L C) as [L2 L0].
      destruct edges as [|e0 [|e1 edges]]; [exfalso; apply Hdata, L0; reflexivity|reflexivity|exfalso; apply Hn, L2; cbn; lia].
  Qed.

  Theorem ind_collapsed : ind_options args d e true ->
    (has_tetrahedron dist data (atoi d) (atof e) -> run_program past_end args data = UB) /\
    (~ has_tetrahedron dist data (atoi d) (atof e) ->
     exists full edges finish,
      lists_rips (separation dist data) (close Tree (atof e)) (length data) (Z.to_nat (atoi d)) full /\
      run_program past_end args data = (do r <- fp_run past_end (atoi d) (atof e) edges []; Ok (Some (finish r, []))) /\
      (forall r, (pk_output (finish r), pk_table (finish r)) = result r /\ pk_data (finish r) = data) /\
      length edges = length full /\
      (forall k, 0 < k -> StronglySorted by_weight (level edges k)) /\
      (exists stays, forall k, Permutation (level edges k) (filter stays (level full k))) /\
      level edges 0 = level full 0 /\
      ((atoi d < 2)%Z -> forall k, Permutation (level edges k) (level full k)) /\
      ((2 <= atoi d)%Z ->
         (forall s z, In s (simplices full 2) -> facet z s ->
            (forall s', In s' (simplices full 2) -> incl z s' -> s' = s) -> ~ In s (simplices edges 2)) /\
         (forall s, In s (simplices full 2) -> ~ In s (simplices edges 2) -> exists z, facet z s /\ ~ In z (simplices edges 1)) /\
         (forall z, In z (simplices full 1) -> ~ In z (simplices edges 1) ->
            exists s, facet z s /\ In s (simplices full 2) /\ ~ In s (simplices edges 2)))).
  Proof.
    intros Hr. destruct (ind_object true Hr) as [A B]. split; auto. intros H. destruct (B H) as (dm & t & Lg & E & S0 & Ls & _ & R).
    destruct (reduce_theorem _ _ _ _ _ _ _ Lg E) as (t' & freed & Rd & (_ & _ & _ & _ & K1 & K2) & K3 & K4 & (stays & K5) & K6 & K7 & K8 & K9).
    destruct (R t') as (finish & F1 & F2). { assert (Q := Rd _ (Nat.lt_succ_diag_r _)). unfold ind_reduce, level in *. now rewrite Q. }
    exists (i_dims t), (fst (ind_getAllEdges srt t')), finish. split; auto. split; auto. split; auto.
    assert (G : forall k, Permutation (level (fst (ind_getAllEdges srt t')) k) (level (i_dims t') k) /\
       (0 < k -> StronglySorted by_weight (level (fst (ind_getAllEdges srt t')) k)) /\ length (fst (ind_getAllEdges srt t')) = length (i_dims t') /\
       level (fst (ind_getAllEdges srt t')) 0 = level (i_dims t') 0).
    { intros k. unfold ind_getAllEdges. rewrite K1, S0. destruct (i_dims t') as [|l0 ls] eqn:D'; cbn [fst].
      { unfold level. destruct k; cbn; (split; [reflexivity|split; [intros _; constructor|auto]]). }
      unfold sortAndBuildGraph. cbn [i_graph]. rewrite D'. split; [|split].
      - unfold level. destruct k as [|k]; cbn [nth]; [reflexivity|].
        destruct (Nat.lt_ge_cases k (length ls)) as [Hk|Hk].
        + rewrite (nth_indep _ [] (srt [])) by (now rewrite map_length). rewrite (map_nth srt). apply Hs.
        + rewrite !nth_overflow; [reflexivity|exact Hk|now rewrite map_length].
      - intros Hk. unfold level. destruct k as [|k]; cbn [nth]; [lia|].
        destruct (Nat.lt_ge_cases k (length ls)) as [Hk'|Hk'].
        + rewrite (nth_indep _ [] (srt [])) by (now rewrite map_length). rewrite (map_nth srt). apply Hs.
        + rewrite !nth_overflow; [constructor|now rewrite map_length].
      - cbn. now rewrite map_length. }
    split; [rewrite <- K3; apply (G 0)|]. split; [intros k; apply G|]. split; [exists stays; intros k; rewrite <- K5; apply G|].
    split; [rewrite <- K6; apply (G 0)|]. split; [intros Hlt k; destruct (K8 Hlt) as [-> _]; apply G|].
    assert (Sx : forall k s, In s (simplices (fst (ind_getAllEdges srt t')) k) <-> In s (map fst (level (i_dims t') k))).
    { intros k s. unfold simplices. split; apply Permutation_in, Permutation_map; [|apply Permutation_sym]; apply G. }
    intros H2. destruct (K9 H2) as (Q1 & Q2 & Q3). split; [|split].
    - intros s z Hs' Hz Hu. rewrite Sx. now apply (Q1 s z).
    - intros s Hs' Hn. rewrite Sx in Hn. destruct (Q2 s Hs' Hn) as (z & Z1 & Z2). exists z. now rewrite Sx.
    - intros z Hz Hn. rewrite Sx in Hn. destruct (Q3 z Hz Hn) as (s & Z1 & Z2 & Z3). exists s. now rewrite Sx.
  Qed.
End Runs.

(* With libstdc++'s list every run on close points without a tetrahedron ends. *)
Theorem ind_ends dist atoi atof srt nc0 al_reduce other args d e data : is_sort srt -> ind_options args d e false ->
  (forall x, In x data -> x <> []) -> (forall x y, (0 <= dist x y)%Z) -> (0 < atoi d < 2 ^ 31 - 1)%Z ->
  data = [] \/ (exists u v, u < v /\ v < length data /\ close Tree (atof e) (separation dist data u v)) ->
  ~ has_tetrahedron dist data (atoi d) (atof e) ->
  exists p, run_program dist atoi atof srt libstdcxx_past_end nc0 al_reduce other args data = Ok (Some (p, [])).
Proof.
  intros Hs Hr Hne Hpos Hd Hor Ht.
  destruct (ind_run_edges dist atoi atof srt libstdcxx_past_end nc0 al_reduce other args d e data Hs Hne Hpos Hd Hr) as [_ B].
  destruct (B Ht) as (edges & finish & C & F & L & E & O). rewrite E. clear E.
  assert (T : 1 <= Z.to_nat (atoi d)) by lia. destruct (rips_levels dist data Tree (atof e) _ T edges L C) as [L2 L0]. destruct Hor as [Hdata|Hp].
  - apply L0 in Hdata. destruct edges; [|discriminate]. cbn. eauto.
  - destruct (libstdcxx_run (atoi d) (atof e) edges [] C (proj2 L2 Hp)) as (ds & piv & ps & tab & -> & _). cbn [bind]. eauto.
Qed.
