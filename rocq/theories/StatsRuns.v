(* StatsRuns.v -- the statistics of whole runs. *)
From Coq Require Import String Ascii List Arith ZArith QArith Bool Lia Lqa Sorted Permutation Relations.
From Verif Require Import Base RunMonad UtilsModel ArrayListModel TreeModel FastModel ArgModel IndModel IndReduceModel PipeModel StatsModel.
From Verif Require Import Spec SpecComplex SpecTree SpecArgs SpecGraph SpecLinear SpecFast SpecPipe SpecDebug SpecIndRun SpecStats.
From Verif Require Import ArgProofs KruskalProofs FastProofs FastRuns PipeProofs PipeRuns IndRuns DebugRuns IndHist TreeHist ArrayListHist PropertiesTree.
Import ListNotations.
Local Open Scope nat_scope.
Local Open Scope list_scope.

Lemma shown_displays size : displays (fst (shown size)) (snd (shown size)) size.
Proof.
  unfold shown, displays, units. destruct (Z.ltb_spec 1000000000 size); [|destruct (Z.ltb_spec 1000000 size); [|destruct (Z.ltb_spec 1000 size)]]; cbn [fst snd].
  - exists 1000000000%Z. split; [cbn; auto|]. repeat split; try easy; intros; unfold Qeq, Qlt, Qle; cbn; lia.
  - exists 1000000%Z. split; [cbn; auto|]. repeat split; try easy; intros; unfold Qeq, Qlt, Qle; cbn; lia.
  - exists 1000%Z. split; [cbn; auto|]. repeat split; try easy; intros; unfold Qeq, Qlt, Qle; cbn; lia.
  - exists 1%Z. split; [cbn; auto|]. repeat split; try easy; intros; unfold Qeq, Qlt, Qle; cbn; lia.
Qed.

(* The program with its lines computes the packet of the program. *)
Section Lines.
  Variable run : pipe_kind -> amap -> packet -> res packet.
  Variable sz : sizes.
  Notation run' := (fun k a (pl : packet * list stat_line) => do p' <- run k a (fst pl); Ok (p', snd pl)).

  Lemma lines_of_steps args parts pl r : steps (packet * list stat_line) run' (stats_and_line sz) args parts pl r ->
    forall q lines failed, r = Ok (q, lines, failed) ->
    steps packet run add_stats args parts (fst pl) (Ok (q, failed)) /\
    exists new, lines = snd pl ++ new /\ line_per_pipe parts failed (map l_pipe new).
  Proof.
    induction 1 as [p|c cs p b H|c cs p p' b r H St IH]; intros q lines failed E.
    - injection E as -> <-. cbn. split; [constructor|]. exists []. rewrite app_nil_r. split; auto. constructor.
    - discriminate.
    - destruct r as [[[q' l'] f']|]; [|discriminate]. cbn in E. injection E as -> -> <-.
      destruct (IH q lines f' eq_refl) as (S1 & new & E1 & L1). inversion H; subst.
      + split.
        * apply (steps_cons packet run add_stats args c cs (fst p') (fst p') true (Ok (q, f'))); auto. now apply step_unknown.
        * exists new. split; auto. now constructor.
      + split.
        * apply (steps_cons packet run add_stats args c cs (fst p') (fst p') true (Ok (q, f'))); auto. eapply step_unconfigured; eauto.
        * exists new. split; auto. now constructor.
      + destruct p as [p0 l0]. cbn [fst snd] in *. destruct (run k args p0) as [p1|] eqn:E2; cbn [bind] in *; [|discriminate].
        match goal with E : stats_and_line _ _ _ = _ |- _ => unfold stats_and_line in E; cbn [fst snd] in E; rename E into E3 end.
        destruct (line_of sz k p1) as [l|] eqn:E4; cbn [bind] in E3; [|discriminate].
        destruct (add_stats k p1) as [p2|] eqn:E5; cbn [bind] in E3; [|discriminate]. injection E3 as <-. cbn [fst snd] in *.
        split.
        * apply (steps_cons packet run add_stats args c cs p0 p2 false (Ok (q, f'))); auto.
          replace (Ok p2) with (do p1 <- run k args p0; add_stats k p1) by (rewrite E2; exact E5). now apply step_runs.
        * exists (l :: new). split; [now rewrite <- app_assoc|]. cbn [map].
          assert (l_pipe l = pipe_type k) as ->.
          { unfold line_of in E4. destruct (packet_size sz p1); [|discriminate]. destruct (PipeModel.deref p1); [|discriminate]. cbn in E4. injection E4 as <-. reflexivity. }
          constructor; auto. match goal with X : newPipe _ _ = _ |- _ => rename X into N end. apply newPipe_spec in N. destruct N as [N|[-> N]].
          -- unfold pipe_names in N. cbn [In] in N. repeat (destruct N as [N|N]; [injection N as <- <-; cbn; tauto|]). destruct N.
          -- destruct N as [[_ ->]|[_ ->]]; cbn; tauto.
  Qed.
End Lines.

Lemma values_count (data : list (list Z)) : forall z, fold_left (fun size row => fold_left (fun size (_ : Z) => (size + 8)%Z) row size) data z = (z + 8 * Z.of_nat (length (concat data)))%Z.
Proof.
  assert (R : forall (row : list Z) z, fold_left (fun size (_ : Z) => (size + 8)%Z) row z = (z + 8 * Z.of_nat (length row))%Z).
  { induction row as [|x row IH]; intros z; cbn [fold_left length]; [lia|]. rewrite IH. lia. }
  induction data as [|row data IH]; intros z; cbn [fold_left concat]; [cbn; lia|]. rewrite IH, R, List.app_length. lia.
Qed.
Lemma entries_count k (wg : wgraph) : forall z, fold_left (fun size (l : list wsimp) => (size + Z.of_nat (length l) * k)%Z) wg z = (z + k * Z.of_nat (length (concat wg)))%Z.
Proof. induction wg as [|l wg IH]; intros z; cbn [fold_left concat]; [cbn; lia|]. rewrite IH, List.app_length. lia. Qed.

(* The number of simplices of a listing. *)
Lemma rips_counted dist data c eps hi (edges : wgraph) : (forall k, NoDup (map fst (level edges k))) ->
  lists_rips (separation dist data) (close c eps) (length data) hi edges -> counts_rips dist data c eps (S hi) (Z.of_nat (length (concat edges))).
Proof.
  intros Nd [L _]. exists (map fst (concat edges)). rewrite map_length.
  assert (Sh : forall k s w, In (s, w) (level edges k) -> length s = S k) by (intros k s w H; now apply L in H).
  assert (Hc : forall x, In x (concat edges) <-> exists k, In x (level edges k)).
  { intros x. rewrite in_concat. unfold level. split.
    - intros (l & Hl & Hx). apply (In_nth _ _ []) in Hl as (k & _ & <-). eauto.
    - intros (k & Hx). exists (nth k edges []). split; auto. apply nth_In. destruct (Nat.lt_ge_cases k (length edges)); auto. rewrite nth_overflow in Hx by auto. destruct Hx. }
  split; [|split; auto].
  - clear L Hc. assert (G : forall j, (forall k s w, In (s, w) (nth k edges []) -> length s = j + S k) -> NoDup (map fst (concat edges))).
    { assert (Nd' : forall k, NoDup (map fst (nth k edges []))) by exact Nd. clear Nd Sh. revert Nd'. induction edges as [|l g IH]; intros Nd j Sh; [constructor|].
      cbn [concat]. rewrite map_app. assert (N1 := Nd 0). cbn in N1.
      assert (N2 : NoDup (map fst (concat g))).
      { apply (IH (fun k => Nd (S k)) (S j)). intros k s w H. rewrite (Sh (S k) s w H). lia. }
      apply FastRuns.NoDup_app_intro; auto. intros s H1 H2. apply in_map_iff in H1 as ([s' w] & E & H1). cbn in E. subst s'.
      apply in_map_iff in H2 as ([s' w'] & E & H2). cbn in E. subst s'. apply in_concat in H2 as (l' & Hl' & H2). apply (In_nth _ _ []) in Hl' as (k & _ & <-).
      assert (Q1 := Sh 0 s w H1). assert (Q2 := Sh (S k) s w' H2). lia. }
    apply (G 0). exact Sh.
  - intros s. rewrite in_map_iff. unfold rips_simplex. split.
    + intros ([s' w] & E & H). cbn in E. subst s'. apply Hc in H as (k & H). apply L in H as (Ls & K & F & _). split; auto. lia.
    + intros [F Ls]. assert (Hn : s <> []) by apply F. assert (L1 : length s <> 0) by (destruct s; [easy|discriminate]).
      destruct (diameter_exists (separation dist data) s (proj1 (proj2 F))) as [w Hw]. exists (s, w). split; auto. apply Hc. exists (length s - 1). apply L. split; [lia|]. split; [lia|]. auto.
Qed.
Lemma simplexes_count (wg : wgraph) : forall n, fold_left (fun n (l : list wsimp) => n + length l) wg n = n + length (concat wg).
Proof. induction wg as [|l wg IH]; intros n; cbn [fold_left concat]; [cbn; lia|]. rewrite IH, List.app_length. lia. Qed.
Lemma counts_mono dist data c eps h1 h2 n1 n2 : counts_rips dist data c eps h1 n1 -> counts_rips dist data c eps h2 n2 -> h1 <= h2 -> (n1 <= n2)%Z.
Proof.
  intros (l1 & N1 & -> & H1) (l2 & N2 & -> & H2) L. apply inj_le, NoDup_incl_length; auto. intros s Hs. apply H2. apply H1 in Hs as [R K]. split; auto. lia.
Qed.

Section Runs.
  Variable sz : sizes.
  Variable dist : list Z -> list Z -> Z.
  Variables atoi atof : string -> Z.
  Variable srt : list wsimp -> list wsimp.
  Variable past_end : list nat -> nat -> res nat.
  Variable nc0 : Z.
  Variable al_reduce : wgraph -> res wgraph.
  Variable other : pipe_kind -> amap -> packet -> res packet.
  Notation run_program := (run_program dist atoi atof srt past_end nc0 al_reduce other).
  Notation run_program_stats := (run_program_stats sz dist atoi atof srt past_end nc0 al_reduce other).

  Theorem one_line_per_pipe args s parts data q lines failed : mget args "pipeline" = Some s -> components_of s parts ->
    run_program_stats args data = Ok (Some (q, lines, failed)) ->
    run_program args data = Ok (Some (q, failed)) /\ line_per_pipe parts failed (map l_pipe lines).
  Proof.
    intros Hp Hc. unfold StatsModel.run_program_stats, PipeModel.run_program. destruct (new_packet atoi atof nc0 args data) as [p|]; cbn [bind]; [|discriminate].
    intros E. set (rp := run_pipe dist atoi atof srt past_end al_reduce other) in *.
    destruct (pipeline_steps (packet * list stat_line) (fun k a pl => do p' <- rp k a (fst pl); Ok (p', snd pl)) (stats_and_line sz) args s parts (p, []) Hc Hp) as (r & Sr & Er).
    rewrite Er in E. destruct r as [[[q' l'] f']|]; [|discriminate]. cbn in E. injection E as -> -> ->.
    destruct (lines_of_steps rp sz args parts (p, []) _ Sr q lines failed eq_refl) as (S1 & new & E1 & L1). cbn [fst snd app] in *. subst new. split; auto.
    destruct (pipeline_steps packet rp add_stats args s parts p Hc Hp) as (r & Sr' & ->). now rewrite (steps_fun _ _ _ _ _ _ _ _ Sr' S1).
  Qed.

  (* The line of a packet whose data and complex are known. *)
  Lemma line_known k p c : pk_complex p = Some c -> (8 * Z.of_nat (length (concat (pk_data p))) + cx_size sz c < 2 ^ 64)%Z ->
    exists l, line_of sz k p = Ok l /\ says l (pipe_type k, 8 * Z.of_nat (length (concat (pk_data p))) + cx_size sz c, cx_vertexCount c, cx_simplexCount c)%Z.
  Proof.
    intros Hc L. unfold line_of, packet_size, PipeModel.deref. rewrite Hc. cbn [bind]. rewrite values_count. rewrite Z.add_0_l.
    destruct (Z.ltb_spec (8 * Z.of_nat (length (concat (pk_data p))) + cx_size sz c) (2 ^ 64)); [|lia]. cbn [bind].
    eexists. split; [reflexivity|]. cbn. repeat split; auto. apply shown_displays.
  Qed.

  (* The four stages of a default run. *)
  Lemma four_stages args d e p q failed : mget args "pipeline" = Some default_pipeline -> mget args "dimensions" = Some d ->
    mget args "epsilon" = Some e -> mget args "twist" <> None ->
    runPipeline packet (run_pipe dist atoi atof srt past_end al_reduce other) add_stats args p = Ok (Some (q, failed)) ->
    exists p1 p2 p3 p4 p5 p6 p7,
      run_distMatrix dist atof args p = Ok p1 /\ add_stats KDistMatrix p1 = Ok p2 /\ run_neighGraph args p2 = Ok p3 /\ add_stats KNeighGraph p3 = Ok p4 /\
      run_rips atoi al_reduce args p4 = Ok p5 /\ add_stats KRips p5 = Ok p6 /\ run_fast atoi atof srt past_end args p6 = Ok p7 /\ add_stats KFastPersistence p7 = Ok q /\ failed = [] /\
      forall l1 l2 l3 l4, line_of sz KDistMatrix p1 = Ok l1 -> line_of sz KNeighGraph p3 = Ok l2 -> line_of sz KRips p5 = Ok l3 -> line_of sz KFastPersistence p7 = Ok l4 ->
        runPipeline (packet * list stat_line)
          (fun k a pl => do p' <- run_pipe dist atoi atof srt past_end al_reduce other k a (fst pl); Ok (p', snd pl)) (stats_and_line sz) args (p, []) =
        Ok (Some (q, [l1; l2; l3; l4], failed)).
  Proof.
    intros H1 H3 H4 H5. rewrite (any_four packet _ _ args d e p H1 H3 H4 H5), (any_four (packet * list stat_line) _ _ args d e (p, []) H1 H3 H4 H5).
    cbn [run_pipe fst snd]. intros H.
    destruct (run_distMatrix dist atof args p) as [p1|] eqn:E1; cbn [bind] in H; [|discriminate].
    destruct (add_stats KDistMatrix p1) as [p2|] eqn:E2; cbn [bind] in H; [|discriminate].
    destruct (run_neighGraph args p2) as [p3|] eqn:E3; cbn [bind] in H; [|discriminate].
    destruct (add_stats KNeighGraph p3) as [p4|] eqn:E4; cbn [bind] in H; [|discriminate].
    destruct (run_rips atoi al_reduce args p4) as [p5|] eqn:E5; cbn [bind] in H; [|discriminate].
    destruct (add_stats KRips p5) as [p6|] eqn:E6; cbn [bind] in H; [|discriminate].
    destruct (run_fast atoi atof srt past_end args p6) as [p7|] eqn:E7; cbn [bind] in H; [|discriminate].
    destruct (add_stats KFastPersistence p7) as [p8|] eqn:E8; cbn [bind] in H; [|discriminate]. injection H as <- <-.
    exists p1, p2, p3, p4, p5, p6, p7. repeat (split; [assumption || reflexivity|]). intros l1 l2 l3 l4 L1 L2 L3 L4.
    unfold stats_and_line. cbn [bind fst snd]. rewrite L1, E2. cbn [bind fst snd]. rewrite E3. cbn [bind fst snd]. rewrite L2, E4. cbn [bind fst snd].
    rewrite E5. cbn [bind fst snd]. rewrite L3, E6. cbn [bind fst snd]. rewrite E7. cbn [bind fst snd]. rewrite L4, E8. reflexivity.
  Qed.
  Lemma stats_fields k p q : add_stats k p = Ok q -> pk_complex q = pk_complex p /\ pk_data q = pk_data p.
  Proof. unfold add_stats. destruct (PipeModel.deref p); [|discriminate]. cbn. intros H. injection H as <-. split; reflexivity. Qed.
  Lemma fast_fields args p q d e c : mget args "dimensions" = Some d -> mget args "epsilon" = Some e -> (0 < atoi d)%Z ->
    run_fast atoi atof srt past_end args p = Ok q -> pk_complex p = Some c ->
    pk_data q = pk_data p /\ exists c1, cx_expand (atoi d + 1) c = Ok c1 /\ pk_complex q = Some (snd (cx_getAllEdges srt (atof e) c1)).
  Proof.
    intros H3 H4 Pos H Hc. unfold run_fast, opt in H. rewrite H3, H4 in H. unfold PipeModel.deref in H. rewrite Hc in H. cbn [bind] in H.
    destruct (Z.ltb_spec 0 (atoi d)); [|lia]. destruct (cx_expand (atoi d + 1) c) as [c1|]; cbn [bind] in H; [|discriminate].
    destruct (cx_getAllEdges srt (atof e) c1) as [edges c2] eqn:Eg. destruct (fp_run _ _ _ _ _) as [r|]; cbn [bind] in H; [|discriminate].
    destruct r as [[lines tab]|]; injection H as <-; cbn; (split; [reflexivity|]); exists c1; rewrite Eg; auto.
  Qed.

  Variables (args : amap) (c : cx_type) (d e : string) (data : list (list Z)).
  Hypothesis Hs : is_sort srt.
  Hypothesis Hr : default_run args c d e.
  Hypothesis Hne : forall x, In x data -> x <> [].
  Hypothesis Hpos : forall x y, (0 <= dist x y)%Z.
  Hypothesis Hd : (0 < atoi d < 2 ^ 31 - 1)%Z.

  (* The bytes of a simplex, and the counter of an empty complex. *)
  Definition bytes_of : Z := match c with Tree => sz_node sz | ArrayList => sz_entry sz end.
  Definition start_of : Z := match c with Tree => nc0 | ArrayList => 0%Z end.

  Theorem default_lines q failed : run_program args data = Ok (Some (q, failed)) -> (0 <= nc0)%Z -> (0 <= sz_node sz)%Z -> (0 <= sz_entry sz)%Z ->
    exists n1 n2 n3, counts_rips dist data c (atof e) (match c with Tree => S (Z.to_nat (atoi d)) | ArrayList => 2 end) n1 /\
      counts_rips dist data c (atof e) (S (Z.to_nat (atoi d))) n2 /\
      counts_rips dist data c (atof e) (match c with Tree => S (Z.to_nat (atoi d)) | ArrayList => S (S (Z.to_nat (atoi d))) end) n3 /\
      let size n := (8 * Z.of_nat (length (concat data)) + bytes_of * (start_of + n))%Z in
      ((size n3 < 2 ^ 64)%Z -> exists lines,
         run_program_stats args data = Ok (Some (q, lines, failed)) /\
         Forall2 says lines [("DistMatrix"%string, size 0, 0, start_of); ("neighGraph"%string, size n1, Z.of_nat (length data), start_of + n1);
                             ("ripsPipe"%string, size n2, Z.of_nat (length data), start_of + n2);
                             ("FastPersistence"%string, size n3, Z.of_nat (length data), start_of + n3)]%Z).
  Proof.
    intros R P0 P1 P2.
    destruct (distMatrix_spec (list Z) (fun v => match v with [] => true | _ => false end) dist (atof e) data [])
      as (dm & ws & E & L1 & L2 & V & _); [constructor|].
    assert (Sep : forall u v, u < v -> v < length data -> dist_of dm u v = separation dist data u v).
    { intros u v Huv Hv. unfold dist_of, separation. destruct (nth_error data u) as [x|] eqn:Eu; [|apply nth_error_None in Eu; lia].
      destruct (nth_error data v) as [y|] eqn:Ev; [|apply nth_error_None in Ev; lia]. rewrite (V u v x y Eu Ev).
      destruct (Nat.ltb_spec u v); [|lia]. destruct x; [|reflexivity]. exfalso. apply nth_error_In in Eu. now apply (Hne []). }
    assert (U : upper_triangle dm (length data)).
    { intros u v Huv Hv. rewrite (L2 u) by lia. split; auto. rewrite Sep by auto. unfold separation.
      destruct (nth_error data u), (nth_error data v); auto; lia. }
    assert (Hr' := Hr). destruct Hr' as [H1 H2 H3 H4 H5 (col & H6 & H7 & H8)].
    assert (Hcol : (String.eqb (opt args "collapse") "true" || String.eqb (opt args "collapse") "1")%bool = false).
    { unfold opt. rewrite H6. now rewrite (proj2 (String.eqb_neq col "true") H7), (proj2 (String.eqb_neq col "1") H8). }
    unfold StatsModel.run_program_stats. unfold PipeModel.run_program in R. unfold new_packet, newSimplex in R |- *.
    assert (Ho : opt args "complexType" = cx_name c) by (unfold opt; now rewrite H2). rewrite Ho, H3, H4 in R. rewrite Ho, H3, H4. cbn [bind] in R |- *.
    set (c0 := match c with Tree => CTree (atof e) (atoi d) (st_new [] nc0) | ArrayList => CArray (atof e) (atoi d) [] [] end).
    set (p := mkPacket data [] data [] (Some c0) [] [] []).
    match type of R with runPipeline _ _ _ _ ?p' = _ => assert (Ep : p' = p) by (unfold p, c0; destruct c; reflexivity); rewrite Ep in R |- *; clear Ep end.
    destruct (four_stages args d e p q failed H1 H3 H4 H5 R) as (p1 & p2 & p3 & p4 & p5 & p6 & p7 & R1 & S1 & R2 & S2 & R3 & S3 & R4 & S4 & F0 & Fin).
    assert (Eo : opt args "epsilon" = e) by (unfold opt; now rewrite H4).
    unfold run_distMatrix in R1. rewrite Eo in R1. cbn [pk_data pk_weights p] in R1. rewrite E in R1. cbn [bind fst snd PipeModel.deref pk_complex] in R1.
    injection R1 as Ep1. set (c2 := cx_setDistanceMatrix dm c0) in Ep1.
    assert (C1 : pk_complex p1 = Some c2 /\ pk_data p1 = data) by (subst p1; split; reflexivity). clear Ep1. destruct C1 as [C1 D1].
    destruct (stats_fields _ _ _ S1) as [C2 D2]. rewrite C1 in C2. rewrite D1 in D2.
    unfold run_neighGraph in R2. rewrite D2 in R2.
    assert (Rips : forall c4, pk_complex p3 = Some c4 -> pk_data p3 = data -> pk_data p5 = data /\ pk_data p7 = data /\
      exists c6, cx_expand (atoi d) c4 = Ok c6 /\ pk_complex p5 = Some c6 /\ exists c8, cx_expand (atoi d + 1) c6 = Ok c8 /\ pk_complex p7 = Some (snd (cx_getAllEdges srt (atof e) c8))).
    { intros c4 C4 D4. destruct (stats_fields _ _ _ S2) as [C4' D4']. rewrite C4 in C4'. rewrite D4 in D4'.
      unfold run_rips in R3. rewrite H3 in R3. unfold PipeModel.deref in R3. rewrite C4' in R3. cbn [bind] in R3.
      destruct (cx_expand (atoi d) c4) as [c6|] eqn:X6; cbn [bind] in R3; [|discriminate]. rewrite Hcol in R3. cbn [bind] in R3. injection R3 as E5.
      assert (pk_complex p5 = Some c6 /\ pk_data p5 = data) as [C6 D6] by (subst p5; split; [reflexivity|exact D4']).
      destruct (stats_fields _ _ _ S3) as [C6' D6']. rewrite C6 in C6'. rewrite D6 in D6'.
      destruct (fast_fields args p6 p7 d e c6 H3 H4 ltac:(lia) R4 C6') as (D7 & c8 & X8 & C8). split; auto. split; [congruence|]. exists c6. split; auto. split; auto. eauto. }
    unfold bytes_of, start_of. cbv zeta.
    destruct c; cbn [c0 c2 cx_setDistanceMatrix] in *.
    - (* tree *)
      assert (Hc2 : c2 = CTree (atof e) (atoi d) (st_new dm nc0)) by reflexivity. assert (C1t : pk_complex p1 = Some (CTree (atof e) (atoi d) (st_new dm nc0))) by exact C1. assert (C2t : pk_complex p2 = Some (CTree (atof e) (atoi d) (st_new dm nc0))) by exact C2. clear C1 C2. rename C1t into C1. rename C2t into C2.
      rewrite (neigh_tree srt _ _ _ _ _ C2 Hne) in R2.
      assert (T : exists t, st_run (atof e) (atoi d) (Ok tt) srt (st_new dm nc0) (repeat TInsert (length data)) = Ok t /\ st_vertexCount t = length data /\
        exists n, counts_rips dist data Tree (atof e) (S (Z.to_nat (atoi d))) (Z.of_nat n) /\ st_count t = (nc0 + Z.of_nat n)%Z).
      { destruct data as [|x0 data0] eqn:Ed.
        - exists (st_new dm nc0). split; [reflexivity|]. split; [reflexivity|]. exists 0. split; [|cbn; lia]. exists []. split; [constructor|]. split; [reflexivity|].
          intros s. split; [intros []|]. intros [(N & _ & Vv & _) _]. destruct s as [|a s]; [easy|]. specialize (Vv a (or_introl eq_refl)). cbn in Vv. lia.
        - rewrite <- Ed in *. assert (Hdm : dm <> []) by (intros ->; rewrite Ed in L1; discriminate).
          destruct (tree_edges dm (atof e) (atoi d) nc0 (length data) srt Hs Hdm U Hd) as (t & T1 & T2 & T3 & T4). exists t. split; auto.
          destruct (C15_tree_counts (atof e) (atoi d) dm nc0 srt (repeat TInsert (length data)) t Hs (legal_inserts dm (length data) U Hdm) T1) as [Vc Sc].
          split; [|].
          { rewrite Vc, past_inserts by auto. reflexivity. }
          destruct Sc as (l & Sc & Nl & Hl); [intros H; apply repeat_spec in H; discriminate|].
          exists (length l). split; [|exact Sc]. assert (NG : ~ In TGetAll (repeat TInsert (length data))) by (intros H; apply repeat_spec in H; discriminate).
          destruct (first_getAllEdges (atof e) (atoi d) dm nc0 srt _ t Hs (legal_inserts dm (length data) U Hdm) NG T1) as (G1 & _).
          apply (lists_rips_ext _ (separation dist data)) in T4; auto. destruct T4 as [T4 _].
          exists l. split; auto. split; auto. intros s. rewrite Hl. unfold rips_simplex. split.
          + intros (k & w & H). apply (Permutation_in _ (Permutation_sym (proj1 (G1 k)))) in H. apply T4 in H as (Ls & K & F & _). split; auto. lia.
          + intros [F Ls]. assert (Hn : s <> []) by apply F. assert (s0 : length s <> 0) by (destruct s; [easy|discriminate]).
            destruct (diameter_exists (separation dist data) s (proj1 (proj2 F))) as [w Hw]. exists (length s - 1), w.
            apply (Permutation_in _ (proj1 (G1 _))), T4. split; [lia|]. split; [lia|]. auto. }
      destruct T as (t & T1 & Tv & n & Tn & Tc). rewrite T1 in R2. cbn [rmap bind] in R2. injection R2 as E3.
      destruct (Rips (CTree (atof e) (atoi d) t)) as (D5 & D7 & c6 & X6 & C6 & c8 & X8 & C8); [now subst p3|subst p3; exact D2|].
      cbn in X6. injection X6 as <-. cbn in X8. injection X8 as <-. cbn [cx_getAllEdges] in C8.
      assert (C8' : exists t', pk_complex p7 = Some (CTree (atof e) (atoi d) t') /\ st_vertexCount t' = length data /\ st_count t' = st_count t).
      { destruct (st_getAllEdges srt t) as [ed t'] eqn:Eg. exists t'. split; [exact C8|]. unfold st_getAllEdges in Eg. destruct (st_isSorted t); injection Eg as <- <-; auto. }
      destruct C8' as (t' & C8' & Tv' & Tc'). exists (Z.of_nat n), (Z.of_nat n), (Z.of_nat n). split; auto. split; auto. split; auto. intros Lim.
      assert (Nn : (0 <= Z.of_nat n)%Z) by lia. assert (C3 : pk_complex p3 = Some (CTree (atof e) (atoi d) t) /\ pk_data p3 = data) by (subst p3; auto). destruct C3 as [C3 D3].
      assert (M1 : ((nc0 * sz_node sz) mod 2 ^ 64 = sz_node sz * nc0)%Z) by (rewrite Z.mod_small; nia).
      assert (M2 : (((nc0 + Z.of_nat n) * sz_node sz) mod 2 ^ 64 = sz_node sz * (nc0 + Z.of_nat n))%Z) by (rewrite Z.mod_small; nia).
      destruct (line_known KDistMatrix p1 _ C1) as (l1 & K1 & Y1); [rewrite D1; cbn [cx_size st_new st_count]; nia|].
      destruct (line_known KNeighGraph p3 _ C3) as (l2 & K2 & Y2); [rewrite D3; cbn [cx_size]; rewrite Tc; nia|].
      destruct (line_known KRips p5 _ C6) as (l3 & K3 & Y3); [rewrite D5; cbn [cx_size]; rewrite Tc; nia|].
      destruct (line_known KFastPersistence p7 _ C8') as (l4 & K4 & Y4); [rewrite D7; cbn [cx_size]; rewrite Tc', Tc; nia|].
      exists [l1; l2; l3; l4]. split; [now apply Fin|].
      rewrite D1 in Y1. rewrite D3 in Y2. rewrite D5 in Y3. rewrite D7 in Y4. cbn [cx_size cx_vertexCount cx_simplexCount pipe_type st_new st_count] in Y1, Y2, Y3, Y4.
      unfold st_simplexCount in *. rewrite Tc in Y2, Y3. rewrite Tc', Tc in Y4. rewrite M2 in Y2, Y3, Y4. cbn [st_count] in Y1. rewrite M1 in Y1. rewrite Tv in Y2, Y3. rewrite Tv' in Y4.
      rewrite Z.add_0_r. apply Forall2_cons; [exact Y1|]. apply Forall2_cons; [exact Y2|]. apply Forall2_cons; [exact Y3|]. apply Forall2_cons; [exact Y4|]. apply Forall2_nil.
    - (* array list *)
      rewrite (neigh_array _ _ _ _ _ _ C2 Hne) in R2.
      destruct (foldr_ub (al_step dm (atof e) (atoi d)) [] (repeat (OpInsert false) (length data))) as [wg|] eqn:Ew; [|discriminate]. cbn [rmap bind] in R2.
      injection R2 as E3. assert (C3 : pk_complex p3 = Some (CArray (atof e) (atoi d) dm wg) /\ pk_data p3 = data) by (subst p3; auto). destruct C3 as [C3 D3].
      destruct (Rips _ C3 D3) as (D5 & D7 & c6 & X6 & C6 & c8 & X8 & C8). cbn [cx_expand] in X6.
      destruct (expandDimensions (atoi d) wg) as [wg2|] eqn:Ew2; [|discriminate]. injection X6 as <-. cbn [cx_expand] in X8.
      destruct (expandDimensions (atoi d + 1) wg2) as [wg3|] eqn:Ew3; [|discriminate]. injection X8 as <-. cbn [cx_getAllEdges snd] in C8.
      assert (W1 : al_run dm (atof e) (atoi d) (repeat (OpInsert false) (length data) ++ map OpExpand []) = Ok wg).
      { unfold al_run. rewrite foldr_ub_app, Ew. reflexivity. }
      assert (W2 : al_run dm (atof e) (atoi d) (repeat (OpInsert false) (length data) ++ map OpExpand [atoi d]) = Ok wg2).
      { unfold al_run. rewrite foldr_ub_app, Ew. cbn [bind map foldr_ub al_step]. now rewrite Ew2. }
      assert (W3 : al_run dm (atof e) (atoi d) (repeat (OpInsert false) (length data) ++ map OpExpand [atoi d; atoi d + 1]%Z) = Ok wg3).
      { unfold al_run. rewrite foldr_ub_app, Ew. cbn [bind map foldr_ub al_step]. rewrite Ew2. cbn [bind]. now rewrite Ew3. }
      assert (Stage : forall es T g, fold_left (fun k e => Nat.max k (to_unsigned e)) es 1 = T ->
        al_run dm (atof e) (atoi d) (repeat (OpInsert false) (length data) ++ map OpExpand es) = Ok g ->
        counts_rips dist data ArrayList (atof e) (S T) (Z.of_nat (length (concat g))) /\ al_vertexCount g = length data /\ al_simplexCount g = length (concat g)).
      { intros es T g HT Hg. destruct (array_list_raw dm (atof e) (atoi d) (length data) es T U ltac:(lia) HT) as (g' & Eg & Lg).
        assert (g' = g) by congruence. subst g'. apply (lists_rips_ext _ (separation dist data)) in Lg; auto.
        destruct (array_list_closed _ _ _ _ _ (PipeRuns.covers_inserts dm (length data) es U) Hg) as (Ng & _).
        destruct (array_list_counts _ _ _ _ _ (PipeRuns.covers_inserts dm (length data) es U) Hg) as (Vg & _). rewrite live_app_expand in Vg.
        split; [now apply rips_counted|]. split; auto. unfold al_simplexCount. now rewrite simplexes_count. }
      destruct (Stage [] 1 wg eq_refl W1) as (N1 & V1 & Y1).
      destruct (Stage [atoi d] (Z.to_nat (atoi d)) wg2) as (N2 & V2 & Y2); [cbn [fold_left]; unfold to_unsigned; rewrite !Z.mod_small by lia; lia|exact W2|].
      destruct (Stage [atoi d; atoi d + 1]%Z (S (Z.to_nat (atoi d))) wg3) as (N3 & V3 & Y3); [cbn [fold_left]; unfold to_unsigned; rewrite !Z.mod_small by lia; lia|exact W3|].
      exists (Z.of_nat (length (concat wg))), (Z.of_nat (length (concat wg2))), (Z.of_nat (length (concat wg3))). split; auto. split; auto. split; auto. intros Lim.
      assert (M1 := counts_mono _ _ _ _ _ _ _ _ N1 N2 ltac:(lia)). assert (M2 := counts_mono _ _ _ _ _ _ _ _ N2 N3 ltac:(lia)).
      assert (Sz : forall g, cx_size sz (CArray (atof e) (atoi d) dm g) = (sz_entry sz * (0 + Z.of_nat (length (concat g))))%Z).
      { intros g. cbn [cx_size]. rewrite entries_count. lia. }
      destruct (line_known KDistMatrix p1 _ C1) as (l1 & K1 & Q1); [rewrite D1, Sz; cbn [concat length]; nia|].
      destruct (line_known KNeighGraph p3 _ C3) as (l2 & K2 & Q2); [rewrite D3, Sz; nia|].
      destruct (line_known KRips p5 _ C6) as (l3 & K3 & Q3); [rewrite D5, Sz; nia|].
      destruct (line_known KFastPersistence p7 _ C8) as (l4 & K4 & Q4); [rewrite D7, Sz; nia|].
      exists [l1; l2; l3; l4]. split; [now apply Fin|].
      rewrite D1, Sz in Q1. rewrite D3, Sz in Q2. rewrite D5, Sz in Q3. rewrite D7, Sz in Q4. cbn [cx_vertexCount cx_simplexCount pipe_type] in Q1, Q2, Q3, Q4.
      rewrite V1, Y1 in Q2. rewrite V2, Y2 in Q3. rewrite V3, Y3 in Q4. cbn [concat length al_vertexCount al_simplexCount fold_left] in Q1.
      rewrite Z.add_0_l in *. apply Forall2_cons; [exact Q1|]. apply Forall2_cons; [exact Q2|]. apply Forall2_cons; [exact Q3|]. apply Forall2_cons; [exact Q4|]. apply Forall2_nil.
  Qed.
End Runs.

(* ---- an indexed tree ---- *)
Section IndRun.
  Variable sz : sizes.
  Variable dist : list Z -> list Z -> Z.
  Variables atoi atof : string -> Z.
  Variable srt : list wsimp -> list wsimp.
  Variable past_end : list nat -> nat -> res nat.
  Variable nc0 : Z.
  Variable al_reduce : wgraph -> res wgraph.
  Variable other : pipe_kind -> amap -> packet -> res packet.
  Notation run_program := (run_program dist atoi atof srt past_end nc0 al_reduce other).
  Notation run_program_stats := (run_program_stats sz dist atoi atof srt past_end nc0 al_reduce other).
  Variables (args : amap) (d e : string) (data : list (list Z)).
  Hypothesis Hs : is_sort srt.
  Hypothesis Hr : ind_options args d e false.
  Hypothesis Hne : forall x, In x data -> x <> [].
  Hypothesis Hpos : forall x y, (0 <= dist x y)%Z.
  Hypothesis Hd : (0 < atoi d < 2 ^ 31 - 1)%Z.

  Theorem ind_lines q failed : run_program args data = Ok (Some (q, failed)) -> (0 <= nc0)%Z -> (0 <= sz_ind sz)%Z ->
    exists n, counts_rips dist data Tree (atof e) (S (Z.to_nat (atoi d))) n /\
      let size n := (8 * Z.of_nat (length (concat data)) + sz_ind sz * (nc0 + n))%Z in
      ((size n < 2 ^ 64)%Z -> exists lines,
         run_program_stats args data = Ok (Some (q, lines, failed)) /\
         Forall2 says lines [("DistMatrix"%string, size 0, nc0, nc0); ("neighGraph"%string, size n, nc0 + n, nc0 + n);
                             ("ripsPipe"%string, size n, nc0 + n, nc0 + n); ("FastPersistence"%string, size n, nc0 + n, nc0 + n)]%Z).
  Proof.
    intros R P0 P1.
    destruct (ind_program dist atoi atof srt past_end nc0 al_reduce other args d e false data Hr Hne Hpos Hd) as (dm & ws & E & L1 & U & Sep & B & _).
    assert (Hr' := Hr). destruct Hr' as [H1 H2 H3 H4 H5 (col & H6 & H7 & H8)].
    assert (Hcol : (String.eqb (opt args "collapse") "true" || String.eqb (opt args "collapse") "1")%bool = false).
    { unfold opt. rewrite H6. now rewrite (proj2 (String.eqb_neq col "true") H7), (proj2 (String.eqb_neq col "1") H8). }
    (* the tree of the whole data *)
    assert (T : exists t n, ind_run (atof e) (atoi d) srt (ind_new dm nc0) (repeat IInsert (length data)) = Ok t /\
      counts_rips dist data Tree (atof e) (S (Z.to_nat (atoi d))) (Z.of_nat n) /\ i_count t = (nc0 + Z.of_nat n)%Z).
    { destruct data as [|x0 data0] eqn:Ed.
      - exists (ind_new dm nc0), 0. split; [reflexivity|]. split; [|cbn; lia]. exists []. split; [constructor|]. split; [reflexivity|].
        intros s. split; [intros []|]. intros [(N & _ & Vv & _) _]. destruct s as [|a s]; [easy|]. specialize (Vv a (or_introl eq_refl)). cbn in Vv. lia.
      - rewrite <- Ed in *. assert (Hdm : dm <> []) by (intros ->; rewrite Ed in L1; discriminate).
        destruct (ind_complex dm (atof e) (atoi d) nc0 (length data) srt Hs Hdm U Hd) as (Lg & C1 & C2).
        destruct (ind_run (atof e) (atoi d) srt (ind_new dm nc0) (repeat IInsert (length data))) as [t|] eqn:Et; [|rewrite (B eq_refl) in R; discriminate].
        exists t, (length (concat (i_dims t))). split; auto.
        destruct C2 as (t' & Et' & _ & Li & _); [intros H; discriminate (C1 H)|]. injection Et' as <-.
        apply (lists_rips_ext _ (separation dist data)) in Li; auto.
        destruct (reach _ _ _ _ _ _ _ Lg Et) as (st & V & _ & _ & Em & _).
        split; [apply rips_counted; [rewrite Em; apply V|exact Li]|].
        exact (proj1 (ind_counters _ _ _ _ _ _ _ Lg Et)). }
    destruct T as (t & n & T1 & Tn & Tc).
    unfold StatsModel.run_program_stats. unfold PipeModel.run_program in R. unfold new_packet, newSimplex in R |- *.
    assert (Ho : opt args "complexType" = "indSimplexTree"%string) by (unfold opt; now rewrite H2). rewrite Ho, H3, H4 in R. rewrite Ho, H3, H4. cbn [bind] in R |- *.
    set (p := mkPacket data [] data [] (Some (CInd (atof e) (atoi d) (ind_new [] nc0))) [] [] []).
    match type of R with runPipeline _ _ _ _ ?p' = _ => assert (Ep : p' = p) by reflexivity; rewrite Ep in R |- *; clear Ep end.
    destruct (four_stages sz dist atoi atof srt past_end al_reduce other args d e p q failed H1 H3 H4 H5 R) as (p1 & p2 & p3 & p4 & p5 & p6 & p7 & R1 & S1 & R2 & S2 & R3 & S3 & R4 & S4 & F0 & Fin).
    assert (Eo : opt args "epsilon" = e) by (unfold opt; now rewrite H4).
    unfold run_distMatrix in R1. rewrite Eo in R1. cbn [pk_data pk_weights p] in R1. rewrite E in R1. cbn [bind fst snd PipeModel.deref pk_complex] in R1.
    injection R1 as Ep1.
    assert (C1 : pk_complex p1 = Some (CInd (atof e) (atoi d) (ind_new dm nc0)) /\ pk_data p1 = data) by (subst p1; split; reflexivity). clear Ep1. destruct C1 as [C1 D1].
    destruct (stats_fields _ _ _ S1) as [C2 D2]. rewrite C1 in C2. rewrite D1 in D2.
    unfold run_neighGraph in R2. rewrite D2, (neigh_ind srt _ _ _ _ _ C2 Hne), T1 in R2. cbn [rmap bind] in R2. injection R2 as E3.
    assert (C3 : pk_complex p3 = Some (CInd (atof e) (atoi d) t) /\ pk_data p3 = data) by (subst p3; auto). destruct C3 as [C3 D3].
    destruct (stats_fields _ _ _ S2) as [C4 D4]. rewrite C3 in C4. rewrite D3 in D4.
    unfold run_rips in R3. rewrite H3 in R3. unfold PipeModel.deref in R3. rewrite C4 in R3. cbn [bind cx_expand] in R3. rewrite Hcol in R3. cbn [bind] in R3. injection R3 as E5.
    assert (C5 : pk_complex p5 = Some (CInd (atof e) (atoi d) t) /\ pk_data p5 = data) by (subst p5; split; [reflexivity|exact D4]). destruct C5 as [C5 D5].
    destruct (stats_fields _ _ _ S3) as [C6 D6]. rewrite C5 in C6. rewrite D5 in D6.
    destruct (fast_fields atoi atof srt past_end args p6 p7 d e _ H3 H4 ltac:(lia) R4 C6) as (D7 & c8 & X8 & C8). rewrite D6 in D7.
    cbn in X8. injection X8 as <-. cbn [cx_getAllEdges] in C8.
    assert (C7 : exists t', pk_complex p7 = Some (CInd (atof e) (atoi d) t') /\ i_count t' = i_count t).
    { destruct (ind_getAllEdges srt t) as [ed t'] eqn:Eg. exists t'. split; [exact C8|]. unfold ind_getAllEdges in Eg.
      destruct (i_dims t); [|destruct (i_sorted t)]; inversion Eg; reflexivity. }
    destruct C7 as (t' & C7 & Tc'). exists (Z.of_nat n). split; auto. cbv zeta. intros Lim.
    assert (Nn : (0 <= Z.of_nat n)%Z) by lia.
    assert (M1 : ((nc0 * sz_ind sz) mod 2 ^ 64 = sz_ind sz * nc0)%Z) by (rewrite Z.mod_small; nia).
    assert (M2 : (((nc0 + Z.of_nat n) * sz_ind sz) mod 2 ^ 64 = sz_ind sz * (nc0 + Z.of_nat n))%Z) by (rewrite Z.mod_small; nia).
    assert (I0 : i_count (ind_new dm nc0) = nc0) by reflexivity.
    destruct (line_known sz KDistMatrix p1 _ C1) as (l1 & K1 & Y1); [rewrite D1; cbn [cx_size]; unfold ind_simplexCount; rewrite I0; nia|].
    destruct (line_known sz KNeighGraph p3 _ C3) as (l2 & K2 & Y2); [rewrite D3; cbn [cx_size]; unfold ind_simplexCount; rewrite Tc; nia|].
    destruct (line_known sz KRips p5 _ C5) as (l3 & K3 & Y3); [rewrite D5; cbn [cx_size]; unfold ind_simplexCount; rewrite Tc; nia|].
    destruct (line_known sz KFastPersistence p7 _ C7) as (l4 & K4 & Y4); [rewrite D7; cbn [cx_size]; unfold ind_simplexCount; rewrite Tc', Tc; nia|].
    exists [l1; l2; l3; l4]. split; [now apply Fin|].
    rewrite D1 in Y1. rewrite D3 in Y2. rewrite D5 in Y3. rewrite D7 in Y4. cbn [cx_size cx_vertexCount cx_simplexCount pipe_type] in Y1, Y2, Y3, Y4.
    unfold ind_simplexCount, ind_vertexCount in *. rewrite I0, M1 in Y1. rewrite Tc, M2 in Y2, Y3. rewrite Tc', Tc, M2 in Y4.
    rewrite Z.add_0_r. apply Forall2_cons; [exact Y1|]. apply Forall2_cons; [exact Y2|]. apply Forall2_cons; [exact Y3|]. apply Forall2_cons; [exact Y4|]. apply Forall2_nil.
  Qed.
End IndRun.
