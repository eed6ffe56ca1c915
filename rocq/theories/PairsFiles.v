(* PairsFiles.v -- proofs about the debug output of the pair pipes. *)
From Coq Require Import Ascii String List Arith ZArith Bool Lia Sorted Permutation.
From Verif Require Import Base UtilsModel RunMonad ArrayListModel TreeModel FastModel ArgModel IoModel GaussModel IndModel TwistModel PipeModel WindowModel MainModel AllModel DebugModel PairsFilesModel SpecDebug SpecPairsFiles GaussRuns PipeRuns DebugRuns OwnRuns.
From Verif Require Import Spec SpecComplex SpecTree SpecArgs SpecGraph SpecFast SpecPipe SpecMain SpecAll FastProofs ArgProofs PipeProofs PipeRuns.
Import ListNotations.
Local Open Scope nat_scope.
Local Open Scope list_scope.

(* A simplex that is paired is paired with an entry beyond the end of tArray. *)
Lemma no_pairing opt ks st x st' : pair_simplex opt ks st x = Ok st' ->
  let '(ts, piv, cur, lines) := st in
  st' = (ts ++ [mkT true (snd (snd x)) (-1) (fst (snd x))], piv, cur, lines).
Proof.
  destruct st as [[[ts piv] cur] lines]. destruct x as [i [s w]]. unfold pair_simplex.
  destruct ((length s =? 1) || negb (match cur with Some c => i =? c | None => false end)); [intros H; now injection H as <-|].
  assert (Q : forall loose, pp_search loose (ts ++ [mkT false 0 (-1) s]) ks s (length (ts ++ [mkT false 0 (-1) s])) = UB).
  { intros loose. set (l := ts ++ _). assert (E : at_ l (length l) = UB) by (unfold at_; now rewrite (proj2 (nth_error_None l (length l)) (le_n _))).
    destruct (length l); cbn [pp_search]; rewrite E; reflexivity. }
  rewrite Q. discriminate.
Qed.
Definition fresh_entry (x : wsimp) : tentry := mkT true (snd x) (-1) (fst x).
Lemma no_pairings opt ks : forall l n ts piv cur lines st', foldr_ub (pair_simplex opt ks) (ts, piv, cur, lines) (enum n l) = Ok st' ->
  st' = (ts ++ map fresh_entry l, piv, cur, lines).
Proof.
  induction l as [|x l IH]; intros n ts piv cur lines st' H; cbn [enum foldr_ub map] in H |- *; [injection H as <-; now rewrite app_nil_r|].
  destruct (pair_simplex opt ks (ts, piv, cur, lines) (n, x)) as [st1|] eqn:E; [|discriminate]. cbn [bind] in H.
  apply no_pairing in E. cbn [snd] in E. subst st1. rewrite (IH _ _ _ _ _ _ H), <- app_assoc. reflexivity.
Qed.
Lemma table_fresh opt dim eps edges piv ts lines : pair_table opt dim eps edges piv = Ok (ts, lines) -> ts = map fresh_entry (concat edges).
Proof.
  unfold pair_table. destruct (foldr_ub (pair_simplex opt (concat edges)) _ _) as [st|] eqn:E; [|discriminate]. cbn [bind].
  apply no_pairings in E. subst st. destruct (foldr_ub _ _ _); [|discriminate]. cbn [bind]. intros H. now injection H as <- _.
Qed.
Lemma table_lines opt dim eps edges piv : pair_all opt dim eps edges piv = rmap snd (pair_table opt dim eps edges piv).
Proof.
  unfold pair_all, pair_table. destruct (foldr_ub (pair_simplex opt (concat edges)) _ _) as [[[[ts a] b] lines]|]; [|reflexivity]. cbn [bind].
  now destruct (foldr_ub _ _ _).
Qed.

Section Pipes.
  Variable dist : list Z -> list Z -> Z.
  Variables atoi atof : string -> Z.
  Variable srt : list wsimp -> list wsimp.
  Variable past_end : list nat -> nat -> res nat.
  Variable al_reduce : wgraph -> res wgraph.
  Variable one : Z.
  Variable stod : text -> option Z.
  Variable file : string -> option text.
  Notation pipes := (all_pipes dist atoi atof srt past_end al_reduce one stod file UB).
  Notation run_table := (run_table atoi atof srt UB).

  (* The tables next to the runs of AllModel. *)
  Lemma run_table_spec k args p c r : pk_complex p = Some c -> run_table k args p = Some r ->
    pipes k args p = rmap fst r /\ forall q ts, r = Ok (q, ts) -> ts = map fresh_entry (concat (listed atof srt k args c)).
  Proof.
    intros Hc. destruct k; try discriminate; cbn [PairsFilesModel.run_table all_pipes]; intros H; injection H as <-.
    - destruct (run_boundary atoi srt args p) as [q|]; split; try reflexivity; [|discriminate]. intros q' ts Q. injection Q as _ <-. now destruct c.
    - unfold pairs_table, run_pairs, PipeModel.deref. rewrite Hc. cbn [bind listed]. destruct (cx_getAllEdges srt _ c) as [edges c2]. cbn [fst].
      unfold pp_run. destruct (pp_pivots edges) as [piv|]; [|split; [reflexivity|discriminate]]. cbn [bind]. rewrite table_lines.
      destruct (pair_table _ _ _ _ _) as [[ts lines]|] eqn:E; [|split; [reflexivity|discriminate]]. cbn [bind rmap fst snd]. split; [reflexivity|].
      intros q ts' Q. injection Q as _ <-. eapply table_fresh; eauto.
    - unfold opt_table, run_opt, PipeModel.deref. rewrite Hc. cbn [bind listed]. destruct c as [e d dm wg|e d t|e d t].
      1, 2: destruct (String.eqb (opt args "twist") "true").
      1, 3: unfold opt_twist_other, rbind, lift; destruct (tw_pivots _ _ _) as [[piv|]|]; [|split; [reflexivity|discriminate]..]; cbn [bind]; rewrite table_lines;
        destruct (pair_table _ _ _ _ _) as [[ts lines]|] eqn:E; [|split; [reflexivity|discriminate]]; cbn [bind rmap fst snd]; split; [reflexivity|];
        intros q ts' Q; injection Q as _ <-; eapply table_fresh; eauto.
      1, 2: destruct (cx_getAllEdges srt _ _) as [edges c2]; cbn [fst]; unfold opt_run; destruct (opt_pivots _ edges) as [piv|]; [|split; [reflexivity|discriminate]];
        cbn [bind]; rewrite table_lines; destruct (pair_table _ _ _ _ _) as [[ts lines]|] eqn:E; [|split; [reflexivity|discriminate]]; cbn [bind rmap fst snd]; split; [reflexivity|];
        intros q ts' Q; injection Q as _ <-; eapply table_fresh; eauto.
      unfold opt_ind_run, rbind. destruct (ind_getAllEdges srt t) as [ge t']. cbn [fst snd].
      destruct (if String.eqb (opt args "twist") "true" then _ else _) as [[piv|]|]; [|split; [reflexivity|discriminate]..]. cbn [bind]. unfold lift. rewrite table_lines.
      destruct (pair_table _ _ _ _ _) as [[ts lines]|] eqn:E; [|split; [reflexivity|discriminate]]. cbn [bind rmap fst snd]. split; [reflexivity|].
      intros q ts' Q. injection Q as _ <-. eapply table_fresh; eauto.
  Qed.

  (* Without a complex. *)
  Lemma run_table_run k args p r : run_table k args p = Some r -> pipes k args p = rmap fst r.
  Proof.
    intros H. destruct (pk_complex p) as [c|] eqn:Hc; [now destruct (run_table_spec k args p c r Hc H)|].
    destruct k; try discriminate; cbn [PairsFilesModel.run_table all_pipes] in *; injection H as <-.
    - now destruct (run_boundary atoi srt args p).
    - unfold run_pairs, pairs_table, PipeModel.deref. now rewrite Hc.
    - unfold run_opt, opt_table, PipeModel.deref. now rewrite Hc.
  Qed.
  Lemma run_table_fresh k args p q ts : run_table k args p = Some (Ok (q, ts)) ->
    (exists l, ts = map fresh_entry l) /\ (k = KBoundary -> pk_output q = []).
  Proof.
    intros H. split.
    - destruct (pk_complex p) as [c|] eqn:Hc; [destruct (run_table_spec k args p c _ Hc H) as [_ E]; eauto|].
      destruct k; try discriminate; cbn [PairsFilesModel.run_table] in *.
      + destruct (run_boundary atoi srt args p); [|discriminate]. injection H as _ <-. now exists [].
      + unfold pairs_table, PipeModel.deref in H. rewrite Hc in H. discriminate.
      + unfold opt_table, PipeModel.deref in H. rewrite Hc in H. discriminate.
    - intros ->. cbn [PairsFilesModel.run_table] in H. unfold run_boundary in H. rewrite bd_run_spec in H.
      destruct (foldr_ub _ p (pk_weights p)) as [p1|]; [|discriminate]. cbn [bind] in H.
      destruct (_ =? 0)%Z; [|discriminate]. cbn [bind] in H. injection H as <- _. reflexivity.
  Qed.
  Lemma stats_output k p q : add_stats k p = Ok q -> pk_output q = pk_output p.
  Proof. unfold add_stats. destruct (deref p); [|discriminate]. cbn [bind]. intros H. now injection H as <-. Qed.
  Lemma entries_unpaired l : map entry_row (map fresh_entry l) = map unpaired l.
  Proof. rewrite map_map. reflexivity. Qed.
  Lemma pairs_name (fn : string) : (if Nat.ltb 0 (String.length fn) then "output/PersistencePairs_bettis_output" ++ fn ++ ".csv" else "output/PersistencePairs_bettis_output.csv")%string =
    ("output/PersistencePairs_bettis_output" ++ fn ++ ".csv")%string.
  Proof. now destruct fn. Qed.

  Notation table_and_output := (table_and_output atoi atof srt UB).
  Theorem one_pipe k args p c header : pk_complex p = Some c -> In (k, header) pair_pipes ->
    match (do p' <- pipes k args p; add_stats k p') with
    | UB => table_and_output k args p = UB
    | Ok q => table_and_output k args p = Ok (q, if debugging atoi args then
        [("output/PersistencePairs_bettis_output" ++ opt args "fn" ++ ".csv", PText header :: map PBar (pk_output q));
         ("output/tArray.csv", PText "ti,Dim,Marked,Birth,Death,Simplex" :: map unpaired (concat (listed atof srt k args c)))]%string else [])
    end.
  Proof.
    intros Hc Hk. unfold PairsFilesModel.table_and_output. destruct (run_table k args p) as [r|] eqn:E.
    2:{ destruct Hk as [Q|[Q|[]]]; injection Q as <- _; discriminate. }
    destruct (run_table_spec k args p c r Hc E) as [-> F]. destruct r as [[p' ts]|]; [|reflexivity]. cbn [rmap bind fst snd].
    destruct (add_stats k p') as [q|]; [|reflexivity]. cbn [bind]. rewrite (F _ _ eq_refl).
    destruct (debugging atoi args); [|reflexivity]. do 2 f_equal. rewrite <- entries_unpaired, <- pairs_name.
    destruct Hk as [Q|[Q|[]]]; injection Q as <- <-; reflexivity.
  Qed.
  Theorem boundary_files args p : 
    table_and_output KBoundary args p =
      do p' <- pipes KBoundary args p; do q <- add_stats KBoundary p';
      Ok (q, if debugging atoi args then [("output/Boundary_bettis_output.csv", [PText "Dim,Birth,Death"])]%string else []).
  Proof.
    unfold PairsFilesModel.table_and_output. destruct (run_table KBoundary args p) as [r|] eqn:E; [|discriminate].
    rewrite (run_table_run _ _ _ _ E). destruct r as [[p' ts]|]; [|reflexivity]. cbn [rmap bind fst snd].
    destruct (run_table_fresh _ _ _ _ _ E) as [_ B]. destruct (add_stats KBoundary p') as [q|] eqn:S; [|reflexivity]. cbn [bind table_output].
    rewrite (stats_output _ _ _ S), (B eq_refl). reflexivity.
  Qed.

  (* ---- the program *)
  Variable nc0 : Z.
  Notation run_state := (run_state dist atoi atof srt past_end al_reduce one stod file UB).
  Notation output_state := (output_state atoi atof srt UB).

  Section Invariant.
    Variable St : Type.
    Variable run : pipe_kind -> amap -> St -> res St.
    Variable add : pipe_kind -> St -> res St.
    Variable args : amap.
    Variable Inv : St -> Prop.
    Hypothesis step : forall k s s1 s2, Inv s -> run k args s = Ok s1 -> add k s1 = Ok s2 -> Inv s2.
    Lemma loop_inv : forall fuel functs s failed s' failed', Inv s ->
      pipeline_loop St run add fuel args functs s failed = Ok (s', failed') -> Inv s'.
    Proof.
      induction fuel as [|fuel IH]; intros functs s failed s' failed' I H; cbn [pipeline_loop] in H; [now injection H as <- _|].
      destruct (run_component St run add args (curFunct functs) s) as [[s1 b]|] eqn:E; [|discriminate]. cbn [bind fst snd] in H.
      refine (IH _ _ _ _ _ _ H). unfold run_component in E. destruct (newPipe _ _) as [k|]; [|now injection E as <- _].
      destruct (configPipe k args) as [[] conf]; [|now injection E as <- _]. unfold runPipeWrapper in E.
      destruct conf; cbn [negb] in E; [|now injection E as <- _].
      destruct (run k args s) as [s2|] eqn:R; [|discriminate]. cbn [bind] in E. destruct (add k s2) as [s3|] eqn:A; [|discriminate]. cbn [bind] in E.
      injection E as <- _. eauto.
    Qed.
    Lemma pipeline_inv s s' failed : Inv s -> runPipeline St run add args s = Ok (Some (s', failed)) -> Inv s'.
    Proof.
      intros I. unfold runPipeline. destruct (mget args "pipeline") as [f|]; [|discriminate].
      destruct (pipeline_loop _ _ _ _ _ _ _ _) as [[s1 l]|] eqn:E; [|discriminate]. cbn [rmap]. intros H. injection H as <- <-. eapply loop_inv; eauto.
    Qed.
  End Invariant.

  Definition good (args : amap) (s : state) : Prop :=
    let '(p, fs, pf) := s in
    (debugging atoi args = false -> fs = [] /\ pf = []) /\ forall f, In f pf -> pair_file (opt args "fn") f.
  Lemma good_files k args p q pf : table_and_output k args p = Ok (q, pf) ->
    (debugging atoi args = false -> pf = []) /\ forall f, In f pf -> pair_file (opt args "fn") f.
  Proof.
    unfold PairsFilesModel.table_and_output. destruct (run_table k args p) as [[[p1 ts]|]|] eqn:E; try discriminate. cbn [bind fst snd].
    destruct (add_stats k p1) as [q'|] eqn:S; [|discriminate]. cbn [bind]. intros H. injection H as -> <-.
    destruct (run_table_fresh _ _ _ _ _ E) as [[l ->] B]. split; [now intros ->|].
    destruct (debugging atoi args); [|intros f []]. intros f Hf. unfold table_output in Hf. destruct k; try contradiction.
    - destruct Hf as [<-|[]]. rewrite (stats_output _ _ _ S), (B eq_refl). apply written_boundary.
    - unfold pairs_output in Hf. rewrite pairs_name, entries_unpaired in Hf. destruct Hf as [<-|[<-|[]]]; [|apply written_table]. eapply written_bars. left. reflexivity.
    - unfold pairs_output in Hf. rewrite pairs_name, entries_unpaired in Hf. destruct Hf as [<-|[<-|[]]]; [|apply written_table]. eapply written_bars. right. left. reflexivity.
  Qed.
  Lemma good_step args k s s1 s2 : good args s -> run_state k args s = Ok s1 -> output_state args k s1 = Ok s2 -> good args s2.
  Proof.
    destruct s as [[p fs] pf]. intros [G1 G2]. unfold PairsFilesModel.run_state.
    destruct (run_table k args p) as [r|] eqn:E.
    - intros H. injection H as <-. unfold PairsFilesModel.output_state. rewrite E.
      destruct (table_and_output k args p) as [[q pf']|] eqn:T; [|discriminate]. cbn [bind fst snd]. intros H. injection H as <-.
      destruct (good_files _ _ _ _ _ T) as [T1 T2]. split.
      + intros D. destruct (G1 D) as [-> ->]. now rewrite (T1 D).
      + intros f. rewrite in_app_iff. intros [Hf|Hf]; auto.
    - destruct (run_pipe _ _ _ _ _ _ _ k args p) as [q|]; [|discriminate]. cbn [bind]. intros H. injection H as <-. unfold PairsFilesModel.output_state.
      destruct (run_table k args q) as [r'|] eqn:E'; [destruct k; discriminate|]. unfold stats_and_output. cbn [fst snd].
      destruct (add_stats k q) as [q2|]; [|discriminate]. cbn [bind]. destruct (debugging atoi args) eqn:D.
      + destruct (output_data _ _ _ _ _ _) as [[q3 fs3]|]; [|discriminate]. cbn [bind fst snd]. intros H. injection H as <-. split; [congruence|auto].
      + cbn [bind fst snd]. intros H. injection H as <-. split; auto.
  Qed.
  Theorem program_files args data q fs pf failed :
    run_program_tables dist atoi atof srt past_end nc0 al_reduce one stod file UB args data = Ok (Some (q, fs, pf, failed)) -> good args (q, fs, pf).
  Proof.
    unfold run_program_tables. destruct (new_packet atoi atof nc0 args data) as [p|]; [|discriminate]. cbn [bind]. intros H.
    refine (pipeline_inv _ _ _ args (good args) _ _ _ _ _ H).
    - intros k s s1 s2. apply good_step.
    - split; [auto|]. intros f [].
  Qed.

  (* Without debug output it is the program. *)
  Notation run := (run_pipe dist atoi atof srt past_end al_reduce pipes).
  Lemma table_and_output_run k args p : run_table k args p <> None ->
    (do p1 <- run k args p; add_stats k p1) = rmap fst (table_and_output k args p).
  Proof.
    intros N. unfold PairsFilesModel.table_and_output. destruct (run_table k args p) as [r|] eqn:E; [|easy].
    assert (R : run k args p = pipes k args p) by (destruct k; try discriminate; reflexivity). rewrite R, (run_table_run _ _ _ _ E).
    destruct r as [[p1 ts]|]; [|reflexivity]. cbn [rmap bind fst snd]. now destruct (add_stats k p1).
  Qed.
  Lemma quiet_step args k p : debugging atoi args = false ->
    (do s1 <- run_state k args (p, [], []); output_state args k s1) = do p1 <- run k args p; do q <- add_stats k p1; Ok (q, [], []).
  Proof.
    intros D. unfold PairsFilesModel.run_state. destruct (run_table k args p) as [r|] eqn:E.
    - cbn [bind]. unfold PairsFilesModel.output_state. rewrite E.
      transitivity (do q <- (do p1 <- run k args p; add_stats k p1); Ok (q, @nil (string * list DebugModel.row), @nil (string * list pair_row))); [|now destruct (run k args p)].
      rewrite table_and_output_run by congruence. destruct (table_and_output k args p) as [[q pf]|] eqn:T; [|reflexivity]. cbn [rmap bind fst snd].
      destruct (good_files _ _ _ _ _ T) as [T1 _]. now rewrite (T1 D).
    - change (rmap fst (@UB (packet * list tentry))) with (@UB packet). destruct (run k args p) as [p1|]; [|reflexivity]. cbn [bind]. unfold PairsFilesModel.output_state.
      destruct (run_table k args p1) as [r'|] eqn:E'; [destruct k; discriminate|]. unfold stats_and_output. cbn [fst snd]. rewrite D.
      now destruct (add_stats k p1).
  Qed.
  Lemma quiet_loop args : debugging atoi args = false -> forall fuel functs p failed,
    pipeline_loop state run_state (output_state args) fuel args functs (p, [], []) failed =
    rmap (fun r => (fst r, [], [], snd r)) (pipeline_loop packet run add_stats fuel args functs p failed).
  Proof.
    intros D. induction fuel as [|fuel IH]; intros functs p failed; cbn [pipeline_loop]; [reflexivity|].
    unfold run_component. destruct (newPipe _ _) as [k|]; [|apply IH].
    destruct (configPipe k args) as [[] conf]; [|apply IH]. unfold runPipeWrapper. destruct conf; cbn [negb]; [|apply IH].
    rewrite (quiet_step args k p D). destruct (run k args p) as [p1|]; [|reflexivity]. cbn [bind].
    destruct (add_stats k p1) as [q|]; [|reflexivity]. cbn [bind fst snd]. apply IH.
  Qed.
  Theorem quiet_program args data : debugging atoi args = false ->
    run_program_tables dist atoi atof srt past_end nc0 al_reduce one stod file UB args data =
    rmap (option_map (fun r => (fst r, [], [], snd r))) (run_program dist atoi atof srt past_end nc0 al_reduce pipes args data).
  Proof.
    intros D. unfold run_program, run_program_tables. destruct (new_packet atoi atof nc0 args data) as [p|]; [|reflexivity]. cbn [bind].
    unfold runPipeline. destruct (mget args "pipeline") as [f|]; [|reflexivity]. rewrite (quiet_loop args D). now destruct (pipeline_loop packet _ _ _ _ _ _ _).
  Qed.

  (* ---- a pipeline with all its output *)
  Section Line.
    Variables (args : amap) (d e : string).
    Hypothesis Hp : mget args "pipeline" = Some persistence_line.
    Hypothesis H3 : mget args "dimensions" = Some d.
    Hypothesis H4 : mget args "epsilon" = Some e.
    Hypothesis H5 : mget args "twist" <> None.
    Hypothesis Hk : newPipe "persistence" (fst (mread args "complexType")) = Some KPersistencePairs.
    Hypothesis Hd : debugging atoi args = true.
    Hypothesis Hcol : collapsing args = false.

    Lemma line_steps s : runPipeline state run_state (output_state args) args s =
      do s1 <- run_state KDistMatrix args s; do s2 <- output_state args KDistMatrix s1;
      do s3 <- run_state KNeighGraph args s2; do s4 <- output_state args KNeighGraph s3;
      do s5 <- run_state KRips args s4; do s6 <- output_state args KRips s5;
      do s7 <- run_state KPersistencePairs args s6; do s8 <- output_state args KPersistencePairs s7; Ok (Some (s8, [])).
    Proof.
      unfold runPipeline. rewrite Hp.
      change (count_char "."%char persistence_line + 1) with 4. cbn [pipeline_loop].
      change (curFunct persistence_line) with "distMatrix"%string.
      change (pipeRest persistence_line) with "neighGraph.rips.persistence"%string.
      change (curFunct "neighGraph.rips.persistence") with "neighGraph"%string.
      change (pipeRest "neighGraph.rips.persistence") with "rips.persistence"%string.
      change (curFunct "rips.persistence") with "rips"%string.
      change (pipeRest "rips.persistence") with "persistence"%string.
      change (curFunct "persistence") with "persistence"%string.
      rewrite (any_component state _ _ args "distMatrix" KDistMatrix) by (try reflexivity; intros o [<-|[]]; congruence).
      destruct (run_state KDistMatrix args s) as [s1|]; cbn [bind rmap]; auto.
      destruct (output_state args KDistMatrix s1) as [s2|]; cbn [bind rmap fst snd]; auto.
      rewrite (any_component state _ _ args "neighGraph" KNeighGraph) by (try reflexivity; intros o [<-|[<-|[]]]; congruence).
      destruct (run_state KNeighGraph args s2) as [s3|]; cbn [bind rmap]; auto.
      destruct (output_state args KNeighGraph s3) as [s4|]; cbn [bind rmap fst snd]; auto.
      rewrite (any_component state _ _ args "rips" KRips) by (try reflexivity; intros o []).
      destruct (run_state KRips args s4) as [s5|]; cbn [bind rmap]; auto.
      destruct (output_state args KRips s5) as [s6|]; cbn [bind rmap fst snd]; auto.
      rewrite (any_component state _ _ args "persistence" KPersistencePairs) by (auto; intros o [<-|[<-|[<-|[]]]]; congruence).
      destruct (run_state KPersistencePairs args s6) as [s7|]; cbn [bind rmap]; auto.
      destruct (output_state args KPersistencePairs s7) as [s8|]; cbn [bind rmap fst snd]; auto.
    Qed.

    Lemma line_three p c p6 : pk_complex p = Some c -> is_ind c = false -> three dist atoi atof al_reduce args p = Ok p6 ->
      exists x x' fs, pk_complex p6 = Some x /\ (forall eps, cx_getAllEdges srt eps x' = cx_getAllEdges srt eps x) /\
        (do s1 <- run_state KDistMatrix args (p, [], []); do s2 <- output_state args KDistMatrix s1;
         do s3 <- run_state KNeighGraph args s2; do s4 <- output_state args KNeighGraph s3;
         do s5 <- run_state KRips args s4; output_state args KRips s5) = Ok (set_complex p6 x', fs, []) /\
        map fst fs = ["output/DistMatrix_output.csv"; "output/neighGraph_output.csv"]%string ++ map fst (rips_files x).
    Proof.
      intros Hc Hi. unfold three. cbn [PairsFilesModel.run_state PairsFilesModel.run_table run_pipe].
      destruct (run_distMatrix dist atof args p) as [p1|] eqn:E1; cbn [bind]; [|discriminate].
      assert (C2 : exists c2, pk_complex p1 = Some c2 /\ is_ind c2 = is_ind c).
      { unfold run_distMatrix in E1. destruct (distMatrix_run _ _ _ _ _ _) as [mw|]; [|discriminate]. cbn [bind] in E1.
        unfold PipeModel.deref in E1. rewrite Hc in E1. cbn [bind] in E1. injection E1 as <-. cbn. eexists. split; [reflexivity|]. now destruct c. }
      destruct C2 as (c2 & C2 & K2). cbn [PairsFilesModel.output_state PairsFilesModel.run_table]. unfold stats_and_output at 1. cbn [fst snd].
      destruct (add_stats KDistMatrix p1) as [p2|] eqn:S1; cbn [bind]; [|discriminate].
      assert (P2 : pk_complex p2 = Some c2).
      { unfold add_stats, PipeModel.deref in S1. rewrite C2 in S1. injection S1 as <-. reflexivity. }
      rewrite Hd. cbn [output_data]. unfold output_distMatrix, PipeModel.deref. rewrite P2. cbn [bind fst snd app PairsFilesModel.run_state PairsFilesModel.run_table run_pipe].
      destruct (run_neighGraph args p2) as [p3|] eqn:E3; cbn [bind]; [|discriminate].
      destruct (neigh_kind _ _ _ _ P2 E3) as (c4 & C4 & K4). cbn [PairsFilesModel.output_state PairsFilesModel.run_table]. unfold stats_and_output at 1. cbn [fst snd].
      destruct (add_stats KNeighGraph p3) as [p4|] eqn:S3; cbn [bind]; [|discriminate].
      assert (P4 : pk_complex p4 = Some c4).
      { unfold add_stats, PipeModel.deref in S3. rewrite C4 in S3. injection S3 as <-. reflexivity. }
      rewrite Hd. cbn [output_data].
      assert (O2 : forall fs, output_neighGraph srt p4 fs = Ok (set_complex p4 (asked srt c4), fs ++ [("output/neighGraph_output.csv"%string, neigh_rows srt c4)])).
      { intros fs. unfold output_neighGraph, PipeModel.deref. rewrite P4. cbn [bind].
        unfold neigh_rows. destruct c4 as [x m dm wg|x m t|x m t]; cbn [asked]; [now rewrite set_complex_same| |];
          destruct (cx_getAllEdges srt 5 _) as [ed cc]; reflexivity. }
      rewrite O2. cbn [bind fst snd app PairsFilesModel.run_state PairsFilesModel.run_table run_pipe].
      assert (A4 := fun eps => asked_again srt eps c4). destruct (asked_counts srt c4) as [B4 B5].
      unfold run_rips. rewrite H3. assert (Hcol' := Hcol). unfold collapsing in Hcol'. rewrite Hcol'. unfold PipeModel.deref. rewrite P4. cbn [pk_complex set_complex bind].
      rewrite K2, Hi in K4. destruct c4 as [x m dm wg|x m t|x m t]; [| |discriminate].
      - cbn [asked]. destruct (cx_expand (atoi d) (CArray x m dm wg)) as [c5|] eqn:X; cbn [bind]; [|discriminate].
        cbn [PairsFilesModel.output_state PairsFilesModel.run_table]. unfold stats_and_output. cbn [fst snd]. intros H.
        replace (set_complex (set_complex p4 (CArray x m dm wg)) c5) with (set_complex p4 c5) by reflexivity. rewrite H. cbn [bind]. rewrite Hd. cbn [output_data].
        assert (P6 : pk_complex p6 = Some c5) by (unfold add_stats in H; cbn in H; injection H as <-; reflexivity).
        unfold output_rips, PipeModel.deref. rewrite P6. cbn [bind]. exists c5, c5.
        cbn [cx_expand] in X. destruct (expandDimensions (atoi d) wg) as [wg1|]; [|discriminate]. cbn [rmap] in X. injection X as <-.
        eexists. split; [reflexivity|]. split; [reflexivity|]. cbn [bind fst snd]. rewrite set_complex_same by exact P6. split; reflexivity.
      - cbn [cx_expand bind]. intros H.
        assert (K : exists t', asked srt (CTree x m t) = CTree x m t').
        { cbn [asked cx_getAllEdges]. destruct (st_getAllEdges srt t) as [a b]. cbn. eauto. }
        destruct K as (t' & K). rewrite K in *. cbn [cx_expand bind PairsFilesModel.output_state PairsFilesModel.run_table]. unfold stats_and_output, add_stats in *.
        cbn [fst snd PipeModel.deref pk_complex set_complex bind] in *. rewrite B4, B5. injection H as <-. rewrite Hd. cbn [output_data]. unfold output_rips. cbn [PipeModel.deref pk_complex bind fst snd].
        exists (CTree x m t), (CTree x m t'). eexists. split; [reflexivity|]. split; [exact A4|]. split; reflexivity.
    Qed.
  End Line.

  Theorem line_run args c d e data : is_sort srt -> (forall x y, (0 <= dist x y)%Z) -> (0 < atoi d < 2 ^ 31 - 1)%Z ->
    (forall x, In x data -> x <> []) -> data <> [] ->
    mget args "pipeline" = Some persistence_line -> mget args "complexType" = Some (cx_name c) -> mget args "dimensions" = Some d -> mget args "epsilon" = Some e ->
    mget args "twist" <> None -> (exists z, mget args "collapse" = Some z /\ z <> "true"%string /\ z <> "1"%string) -> debugging atoi args = true ->
    let program := run_program_tables dist atoi atof srt past_end nc0 al_reduce one stod file UB args data in
    let two_close := exists u v, u < v /\ v < length data /\ close c (atof e) (separation dist data u v) in
    (two_close -> program = UB) /\
    (~ two_close -> exists q fs rows, program = Ok (Some (q, fs,
       [("output/PersistencePairs_bettis_output" ++ opt args "fn" ++ ".csv", PText "dim,birth,death" :: map PBar (pk_output q));
        ("output/tArray.csv", PText "ti,Dim,Marked,Birth,Death,Simplex" :: rows)]%string, [])) /\
       pk_output q = (if (1 <? atoi d)%Z then repeat (0, 0%Z, atof e) (length data) else []) /\
       Permutation rows (map (fun v => PEntry (-1) 0 true 0 (-1) [v]) (seq 0 (length data))) /\
       firstn 2 (map fst fs) = ["output/DistMatrix_output.csv"; "output/neighGraph_output.csv"]%string).
  Proof.
    intros Hs Hpos Hd Hrow Hne Hp Hc Hdm He Tw Hcol Dbg program two_close.
    destruct (new_packet atoi atof nc0 args data) as [p0|] eqn:Np.
    2: { unfold new_packet, newSimplex, opt in Np. rewrite Hc, Hdm, He in Np. destruct c; discriminate. }
    assert (Col : collapsing args = false).
    { destruct Hcol as (z & Z1 & Z2 & Z3). unfold collapsing, opt. rewrite Z1, (proj2 (String.eqb_neq _ _) Z2), (proj2 (String.eqb_neq _ _) Z3). reflexivity. }
    assert (Hk : newPipe "persistence" (fst (mread args "complexType")) = Some KPersistencePairs) by (unfold mread; rewrite Hc; now destruct c).
    destruct (three_other dist atoi atof srt nc0 al_reduce args d e data Hs Hrow Hne Hpos Hd Hdm He Hcol c p0 Hc Np)
      as (p6 & cx6 & edges & cx7 & E6 & C6 & O6 & D6 & Eg & Cx & Lr).
    assert (C0 : exists c0, pk_complex p0 = Some c0 /\ is_ind c0 = false).
    { unfold new_packet, newSimplex, opt in Np. rewrite Hc, Hdm, He in Np. destruct c; cbn in Np; injection Np as <-; cbn; eauto. }
    destruct C0 as (c0 & C0 & I0).
    destruct (line_three args d Hdm Dbg Col p0 c0 p6 C0 I0 E6) as (x & x' & fs & X1 & X2 & X3 & X4).
    assert (x = cx6) by congruence. subst x.
    assert (Pr : program = do s8 <- output_state args KPersistencePairs (set_complex p6 x', fs, []); Ok (Some (s8, []))).
    { unfold program, run_program_tables. rewrite Np. cbn [bind]. rewrite (line_steps args d e Hp Hdm He Tw Hk).
      destruct (run_state KDistMatrix args (p0, [], [])) as [s1|]; cbn [bind] in X3 |- *; [|discriminate].
      destruct (output_state args KDistMatrix s1) as [s2|]; cbn [bind] in X3 |- *; [|discriminate].
      destruct (run_state KNeighGraph args s2) as [s3|]; cbn [bind] in X3 |- *; [|discriminate].
      destruct (output_state args KNeighGraph s3) as [s4|]; cbn [bind] in X3 |- *; [|discriminate].
      destruct (run_state KRips args s4) as [s5|]; cbn [bind] in X3 |- *; [|discriminate].
      rewrite X3. reflexivity. }
    cbn [PairsFilesModel.output_state PairsFilesModel.run_table] in Pr.
    assert (One := one_pipe KPersistencePairs args (set_complex p6 x') x' _ eq_refl (or_introl eq_refl)). rewrite Dbg in One.
    cbn [all_pipes] in One. unfold run_pairs, PipeModel.deref in One. cbn [pk_complex set_complex bind listed] in One.
    assert (Oe : opt args "epsilon" = e) by (unfold opt; now rewrite He). assert (Od : opt args "dimensions" = d) by (unfold opt; now rewrite Hdm).
    rewrite Oe, Od, X2, Eg in One. cbn [fst] in One.
    destruct (rips_levels dist data c (atof e) (Z.to_nat (atoi d)) ltac:(lia) edges Lr Cx) as [L2 L0].
    destruct (pp_run_spec (atoi d) (atof e) edges Cx ltac:(lia)) as [P1 P2].
    assert (Hl0 : forall y, In y (level edges 0) -> exists v, y = ([v], 0%Z)).
    { intros [s w] Hin. apply (proj1 Lr) in Hin as (Ls & _ & _ & Dm). destruct s as [|v [|]]; try discriminate. exists v. f_equal.
      destruct Dm as [_ [(u & v' & [<-|[]] & [<-|[]] & ? & _)|[_ ->]]]; [lia|auto]. }
    assert (Hl : level edges 0 = map (fun v => ([v], 0%Z)) (vertices edges)).
    { unfold vertices, simplices. clear -Hl0. induction (level edges 0) as [|y l IH]; auto. cbn [map concat].
      destruct (Hl0 y (or_introl eq_refl)) as [v ->]. cbn [fst app map]. f_equal. apply IH. intros z Hz. apply Hl0. now right. }
    assert (Hv : Permutation (vertices edges) (seq 0 (length data))).
    { destruct (complex_vertices _ Cx) as (_ & N & _). apply NoDup_Permutation; [auto|apply seq_NoDup|]. intros v.
      rewrite (rips_vertices dist data c (atof e) (Z.to_nat (atoi d)) ltac:(lia) edges Lr Cx), in_seq. lia. }
    split.
    - intros H. apply L2 in H. rewrite (P1 H) in One. cbn [bind] in One. rewrite Pr, One. reflexivity.
    - intros H. assert (Hlen : ~ 2 <= length edges) by (intros Q; apply H; now apply L2). rewrite P2 in One by lia. cbn [bind] in One.
      unfold add_stats, PipeModel.deref in One. cbn [pk_complex bind] in One. rewrite Pr, One. cbn [bind fst snd app].
      do 3 eexists. split; [reflexivity|]. split; [|split].
      + cbn [pk_output]. destruct (1 <? atoi d)%Z; [|reflexivity]. rewrite Hl, map_map. cbn [snd].
        rewrite (repeat_map _ _ _ (0, 0%Z, atof e)) by auto. f_equal. now rewrite (Permutation_length Hv), seq_length.
      + assert (Q : concat edges = level edges 0).
        { destruct edges as [|l [|l2 r]]; [reflexivity| |cbn [length] in Hlen; lia]. cbn. apply app_nil_r. }
        rewrite Q, Hl, map_map. cbn [unpaired fst snd length]. now apply Permutation_map.
      + rewrite X4. reflexivity.
  Qed.
End Pipes.
