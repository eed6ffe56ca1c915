(* PropertiesLogDebug.v -- C108: the lines for debugging in the log of a run. *)
From Coq Require Import String Ascii List Arith ZArith QArith Bool Lia.
From Verif Require Import Base Spec ArgModel SpecArgs ArgProofs ArrayListModel TreeModel FastModel IndModel PipeModel StatsModel LogModel
  SpecComplex SpecPipe SpecStats SpecLog LogRuns PropertiesComplex PropertiesPipe PropertiesStats PropertiesLog SpecLogDebug LogDebug.
Import ListNotations.
Local Open Scope nat_scope.
Local Open Scope list_scope.

(* C108: whatever the messages of the pipes are: a line of the log that begins with [DEBUG] is the module and the message of
   one of them.  If debug is neither 0 nor false, a message that a pipe with a line of statistics writes on every packet is in
   the log. *)
Theorem C108_lines_for_debugging :
  forall opens sz show_q show_z seconds barcodes debug_before debug_after own dist atoi atof srt past_end nc0 al_reduce other
         args s parts data (d : disk) p lines log printed d' failed,
  mget args "pipeline" = Some s -> components_of s parts ->
  run_program_log opens sz show_q show_z seconds barcodes debug_before debug_after own dist atoi atof srt past_end nc0 al_reduce other
    args data d = Ok (Some (p, lines, log, printed, d', failed)) ->
  ((forall c, In c parts -> ~ In c window_names) -> forall x, In x log -> is_debug x = true ->
     exists k q m t, In (m, t) (debug_before k args q ++ debug_after k args q) /\ x = debug_line m t) /\
  (forall v l m t, mget args "debug" = Some v -> v <> "0"%string -> v <> "false"%string -> In l lines ->
     (forall k q, pipe_type k = l_pipe l -> In (m, t) (debug_before k args q)) \/
     (forall k q, pipe_type k = l_pipe l -> In (m, t) (debug_after k args q)) -> In (debug_line m t) log).
Proof.
  intros opens sz show_q show_z seconds barcodes debug_before debug_after own dist atoi atof srt past_end nc0 al_reduce other
         args s parts data d p lines log printed d' failed Hp Hc E.
  unfold run_program_log in E. destruct (new_packet atoi atof nc0 args data) as [start|]; cbn [bind] in *; [|discriminate].
  unfold pipeline_logged in E.
  match type of E with context [runPipeline lstate ?r ?w _ _] =>
    destruct (pipeline_steps lstate r w args s parts (start, [], []) Hc Hp) as (r0 & Sr & Er) end.
  rewrite Er in E. destruct r0 as [[[[q l1] g1] f1]|]; cbn [rmap bind] in E; [|discriminate].
  injection E as -> -> -> _ _ ->.
  destruct (debug_of_steps _ _ _ _ _ _ _ args parts _ _ Sr p lines log failed eq_refl) as (new & newlog & E1 & E2 & E3 & E4).
  cbn [fst snd app] in *. subst new newlog. split; [exact E3|exact E4].
Qed.
Print Assumptions C108_lines_for_debugging.

(* Two points and one pipe with debug set, with a message before and one after it. *)
Definition debug_log_ex (debug : string) : res (list string) :=
  do m <- parse (stats_argv "simplexArrayList" "1");
  do r <- run_program_log (fun _ => true) ex_sizes (fun _ => "size")%string (fun _ => "n"%string) (fun _ => "t"%string) (fun _ => "bars"%string)
    (fun k _ _ => [(pipe_type k, "ready")]%string) (fun k _ _ => [(pipe_type k, "done")]%string) (fun _ _ _ => [])
    line_dist digit digit wsort libstdcxx_past_end 0 (fun g => Ok g) (fun _ _ p => Ok p)
    (mset (mset (setPipeline m) "debug" debug) "pipeline" "distMatrix") [[0]; [3]]%Z (fun _ => None);
  match r with Some (_, _, log, _, _, _) => Ok log | None => UB end.
Example C108_debug_ex :
  components_of "distMatrix" ["distMatrix"%string] /\
  debug_log_ex "1" = Ok ["[DEBUG]" ++ TAB ++ "[DistMatrix]:" ++ TAB ++ "ready";
    "[DistMatrix]:" ++ TAB ++ TAB ++ "Pipeline DistMatrix executed in t seconds (physical time)";
    "[DistMatrix]:" ++ TAB ++ TAB ++ TAB ++ "Data size: size B" ++ LF;
    "[DEBUG]" ++ TAB ++ "[DistMatrix]:" ++ TAB ++ "done"]%string /\
  debug_log_ex "false" = Ok ["[DistMatrix]:" ++ TAB ++ TAB ++ "Pipeline DistMatrix executed in t seconds (physical time)";
    "[DistMatrix]:" ++ TAB ++ TAB ++ TAB ++ "Data size: size B" ++ LF]%string.
Proof.
  split; [|split; vm_compute; reflexivity].
  split; [discriminate|]. split; [|reflexivity]. repeat constructor; vm_compute; intuition discriminate.
Qed.
Print Assumptions C108_debug_ex.
