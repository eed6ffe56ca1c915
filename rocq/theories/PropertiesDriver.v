(* PropertiesDriver.v -- property theorems for Utils/argParser.cpp, the factories and the driver functions. *)
From Coq Require Import String List Arith Bool Lia.
From Verif Require Import Base ArgModel SpecArgs ArgProofs.
Import ListNotations.
Local Open Scope string_scope.

(* C34 *)
(* parse reads outside argv exactly when the number of words is odd and the last word is a flag. *)
Theorem C34_parse_undefined_iff : forall argv, parse argv = UB <->
  Nat.Odd (List.length argv) /\ exists f k, nth_error argv (List.length argv - 1) = Some f /\ flag f k.
Proof. exact parse_ub. Qed.
Print Assumptions C34_parse_undefined_iff.
(* Every option has the value of the last pair that gives its short name; else of the last pair that gives its long
   name; else its default.  Short names do not survive; other names are kept with their last value. *)
Theorem C34_parse_options : forall argv m, parse argv = Ok m ->
  (forall l s d, In (l, s, d) options ->
     mget m s = None /\
     (forall v, last_given argv s v -> mget m l = Some v) /\
     (forall v, never_given argv s -> last_given argv l v -> mget m l = Some v) /\
     (never_given argv s -> never_given argv l -> mget m l = Some d)) /\
  (forall k, ~ is_long k -> ~ is_short k ->
     (forall v, last_given argv k v -> mget m k = Some v) /\ (never_given argv k -> mget m k = None)).
Proof. exact parse_options. Qed.
Print Assumptions C34_parse_options.
(* The long form, given later, does not override the short form. *)
Theorem C34_last_occurrence_wins_refuted : exists argv m, parse argv = Ok m /\
  given argv 0 "e" "3" /\ given argv 1 "epsilon" "7" /\ (forall i k v, given argv i k v -> i <= 1) /\ mget m "epsilon" = Some "3".
Proof.
  exists ["-e"; "3"; "--epsilon"; "7"]. eexists. split; [vm_compute; reflexivity|]. repeat split.
  - exists "-e". repeat split; auto. right. split; auto. intros r. discriminate.
  - exists "--epsilon". repeat split; auto. now left.
  - intros [|[|i]] k v (f & H & _); auto. exfalso. replace (2 * S (S i)) with (S (S (S (S (2 * i))))) in H by lia.
    cbn in H. destruct i; discriminate.
Qed.
Print Assumptions C34_last_occurrence_wins_refuted.
Example C34_ex :
  parse ["-d"; "2"; "stray"; "-p"; "--mode"; "fast"; "-d"; "3"; "tail"] <> UB /\
  (forall m, parse ["-d"; "2"; "stray"; "-p"; "--mode"; "fast"; "-d"; "3"; "tail"] = Ok m ->
     mget m "dimensions" = Some "3" /\ mget m "mode" = Some "fast" /\ mget m "pipeline" = Some "" /\ mget m "epsilon" = Some "5") /\
  parse ["-d"; "2"; "-e"] = UB.
Proof.
  repeat split.
  - vm_compute. discriminate.
  - vm_compute in H. injection H as <-. reflexivity.
  - vm_compute in H. injection H as <-. reflexivity.
  - vm_compute in H. injection H as <-. reflexivity.
  - vm_compute in H. injection H as <-. reflexivity.
Qed.

(* C35 *)
(* After parse exactly one plan (or none) applies, and setPipeline changes each option as that plan says. *)
Theorem C35_setPipeline_follows_the_plan : forall argv m, parse argv = Ok m ->
  exists pl, applies m pl /\ (forall pl', applies m pl' -> pl' = pl) /\
  forall k, mget (setPipeline m) k = match pl with Some p => planned p k (mget m k) | None => mget m k end.
Proof.
  intros argv m P. assert (H := parse_has_options argv m P : has_options m). destruct (applies_total m H) as [pl A].
  exists pl. split; auto. split; [|now apply setPipeline_spec].
  intros pl' A'. destruct A as [[A ->]|[(A & B & ->)|(A & B & mode & M & C)]], A' as [[A' ->]|[(A' & B' & ->)|(A' & B' & mode' & M' & C')]]; auto; try contradiction.
  assert (mode' = mode) by congruence. subst mode'.
  destruct C as [(q & Q & ->)|[N ->]], C' as [(q' & Q' & ->)|[N' ->]]; auto.
  - f_equal. cbn [In plans] in Q. repeat (destruct Q as [Q|Q]; [injection Q as <- <-; cbn [In plans] in Q';
      repeat (destruct Q' as [Q'|Q']; [first [discriminate|now injection Q' as <-]|]); destruct Q'|]). destruct Q.
  - exfalso. apply N'. apply (in_map fst _ _ Q).
  - exfalso. apply N. apply (in_map fst _ _ Q').
Qed.
Print Assumptions C35_setPipeline_follows_the_plan.
Theorem C35_setPipeline_twice : forall argv m, parse argv = Ok m ->
  forall k, mget (setPipeline (setPipeline m)) k = mget (setPipeline m) k.
Proof. intros argv m P. exact (setPipeline_twice m (parse_has_options argv m P)). Qed.
Print Assumptions C35_setPipeline_twice.
(* Every component of a planned pipeline is a pipe the factory knows, for the three complex types. *)
Theorem C35_planned_pipelines_exist : forall q, In q (mpi_plan :: map snd plans) ->
  forall parts, components_of (pl_pipeline q) parts ->
  forall c ct, In c parts -> In ct ["simplexTree"; "simplexArrayList"; "indSimplexTree"] -> newPipe c ct <> None.
Proof. exact planned_components. Qed.
Print Assumptions C35_planned_pipelines_exist.
Example C35_ex :
  forall m, parse ["-m"; "reduced"; "-c"; "simplexArrayList"; "--preprocessor"; "none"] = Ok m ->
  applies m (Some (mkPlan default_pipeline (Unless_given "kmeans++") (Always "false") (Always "simplexTree"))) /\
  mget (setPipeline m) "preprocessor" = Some "none" /\ mget (setPipeline m) "complexType" = Some "simplexTree" /\
  mget (setPipeline m) "pipeline" = Some "distMatrix.neighGraph.rips.fastPersistence".
Proof.
  intros m H. vm_compute in H. injection H as <-. repeat split. right. right. repeat split; [discriminate|].
  exists "reduced". split; [reflexivity|]. left. eexists. split; [right; left; reflexivity|reflexivity].
Qed.

(* C36 *)
Theorem C36_one_splitting : forall s, exists parts, components_of s parts /\ forall parts', components_of s parts' -> parts' = parts.
Proof.
  intros s. destruct (components_exist s) as [parts H]. exists parts. split; auto. intros p' H'. exact (components_unique s p' parts H' H).
Qed.
Print Assumptions C36_one_splitting.
(* Whatever the pipes do: the result r is that of running the components in order. *)
Theorem C36_pipeline_runs_its_components : forall packet run add_stats args s parts p,
  components_of s parts -> mget args "pipeline" = Some s ->
  forall r, runPipeline packet run add_stats args p = rmap Some r <-> steps packet run add_stats args parts p r.
Proof.
  intros packet run add_stats args s parts p C M r. destruct (pipeline_steps packet run add_stats args s parts p C M) as (r0 & S & E).
  rewrite E. split.
  - intros H. assert (r0 = r) by (destruct r0, r; cbn in H; congruence). now subst.
  - intros S'. now rewrite (steps_fun _ _ _ _ _ _ _ _ S S').
Qed.
Print Assumptions C36_pipeline_runs_its_components.
Theorem C36_no_pipeline_option : forall packet run add_stats args p, mget args "pipeline" = None ->
  runPipeline packet run add_stats args p = Ok None.
Proof. intros packet run add_stats args p M. unfold runPipeline. now rewrite M. Qed.
Print Assumptions C36_no_pipeline_option.
(* With options from the command line no known component is ever reported as failed. *)
Theorem C36_parsed_options_configure_every_pipe : forall argv m, parse argv = Ok m ->
  forall k, configPipe k (setPipeline m) = (true, true).
Proof. exact configs. Qed.
Print Assumptions C36_parsed_options_configure_every_pipe.
Example C36_ex :
  components_of "rips.nonsense..fast" ["rips"; "nonsense"; ""; "fast"] /\
  runPipeline (list pipe_kind) (fun k _ p => Ok (p ++ [k])%list) (fun _ p => Ok p)
    [("pipeline", "rips.nonsense..fast"); ("dimensions", "1"); ("epsilon", "5"); ("twist", "false")] [] =
  Ok (Some ([KRips; KFastPersistence], ["nonsense"; ""])).
Proof. repeat split; try discriminate. repeat constructor; discriminate. Qed.

(* C37 *)
Theorem C37_newPipe_iff : forall n ct k, newPipe n ct = Some k <->
  In (n, k) pipe_names \/ (n = "persistence" /\ persistence_for ct k).
Proof. exact newPipe_spec. Qed.
Print Assumptions C37_newPipe_iff.
Theorem C37_newPreprocessor_iff : forall n k, newPreprocessor n = Some k <-> In (n, k) pre_names.
Proof. exact newPreprocessor_spec. Qed.
Print Assumptions C37_newPreprocessor_iff.
Example C37_ex : newPipe "persistence" "simplexTree" = Some KPersistencePairs /\ newPipe "persistence" "x" = None /\
  newPipe "DistMatrix" "simplexTree" = None /\ newPreprocessor "kmeans++" = Some KKMeans /\ newPreprocessor "dbscan" = None.
Proof. repeat split. Qed.

(* C44 *)
(* The wrapper of a pipe without its configuration does not call the pipe, whatever the pipe does. *)
Theorem C44_unconfigured_pipe_returns_its_input : forall packet run add_stats k args p,
  runPipeWrapper packet run add_stats false k args p = Ok p.
Proof. reflexivity. Qed.
Print Assumptions C44_unconfigured_pipe_returns_its_input.
(* A component runs exactly if its pipe exists and its required options are present; else the packet is unchanged. *)
Theorem C44_component_runs_iff_configured : forall packet run add_stats args c p,
  (forall k, newPipe c (fst (mread args "complexType")) = Some k -> (forall o, In o (pipe_required k) -> mget args o <> None) ->
     run_component packet run add_stats args c p = do p1 <- run k args p; do p2 <- add_stats k p1; Ok (p2, false)) /\
  ((forall k, newPipe c (fst (mread args "complexType")) = Some k -> exists o, In o (pipe_required k) /\ mget args o = None) ->
     run_component packet run add_stats args c p = Ok (p, true)).
Proof.
  intros packet run add_stats args c p. unfold run_component. split.
  - intros k E R. rewrite E. unfold configPipe. rewrite (forallb_keys args _ R). unfold runPipeWrapper. cbn [negb].
    destruct (run k args p); reflexivity.
  - intros R. destruct (newPipe c (fst (mread args "complexType"))) as [k|]; auto. destruct (R k eq_refl) as (o & Ho & N).
    unfold configPipe. destruct (forallb (has_key args) (pipe_required k)) eqn:F; auto. rewrite forallb_forall in F.
    specialize (F o Ho). apply has_key_spec in F. congruence.
Qed.
Print Assumptions C44_component_runs_iff_configured.
(* The preprocessing stage: the named preprocessor runs if it exists, is not "none" and has its options. *)
Theorem C44_preprocessor_runs_iff_configured : forall packet pre_run pre_stats args name p, mget args "preprocessor" = Some name ->
  (forall k, In (name, k) pre_names -> k <> KNoPreprocessor -> (forall o, In o (pre_required k) -> mget args o <> None) ->
     preprocess packet pre_run pre_stats args p = do q <- pre_run k args p; pre_stats k q) /\
  ((forall k, In (name, k) pre_names -> k = KNoPreprocessor \/ exists o, In o (pre_required k) /\ mget args o = None) ->
     preprocess packet pre_run pre_stats args p = Ok p).
Proof. exact preprocess_spec. Qed.
Print Assumptions C44_preprocessor_runs_iff_configured.
Theorem C44_parsed_options_configure_every_preprocessor : forall argv m, parse argv = Ok m ->
  forall k, k <> KNoPreprocessor -> configPreprocessor k (setPipeline m) = (true, true).
Proof. exact pre_configs. Qed.
Print Assumptions C44_parsed_options_configure_every_preprocessor.
Example C44_ex :
  run_component nat (fun _ _ p => Ok (S p)) (fun _ p => Ok (10 + p)) [("epsilon", "5")] "neighGraph" 3 = Ok (3, true) /\
  run_component nat (fun _ _ p => Ok (S p)) (fun _ p => Ok (10 + p)) [("epsilon", "5")] "distMatrix" 3 = Ok (14, false) /\
  preprocess nat (fun _ _ p => UB) (fun _ p => UB) [("preprocessor", "none")] 3 = Ok 3.
Proof. repeat split. Qed.
