(* PropertiesLog.v -- property theorems about the log of a run and the files it leaves. *)
From Coq Require Import String Ascii List Arith ZArith QArith Bool Lia.
From Verif Require Import Base Spec ArgModel SpecArgs ArrayListModel TreeModel FastModel IndModel PipeModel StatsModel LogModel
  SpecComplex SpecPipe SpecStats SpecLog LogRuns PropertiesComplex PropertiesPipe PropertiesStats.
Import ListNotations.
Local Open Scope nat_scope.
Local Open Scope list_scope.

(* ---------------------------------------------------------------- C108 *)
(* Whatever the pipeline (without the two window pipes), the options, the points and the files there are: a run that ends
   has logged two lines for every component that did not fail, in their order, with the times and sizes that are also in
   the file of statistics, and besides them only lines that begin with [DEBUG]; none of those if debug is 0 or false.  The
   log goes to the console, or is added to the file named exactly as the option says; then two files are replaced, and no
   other file changes.  Without the option the log is lost and no file changes. *)
Theorem C108_log_and_files :
  forall opens sz show_q show_z seconds barcodes debug_before debug_after own dist atoi atof srt past_end nc0 al_reduce other
         args s parts data (d : disk) p lines failed,
  mget args "pipeline" = Some s -> components_of s parts -> (forall c, In c parts -> ~ In c window_names) ->
  run_program_stats sz dist atoi atof srt past_end nc0 al_reduce other args data = Ok (Some (p, lines, failed)) ->
  exists log printed d',
    run_program_log opens sz show_q show_z seconds barcodes debug_before debug_after own dist atoi atof srt past_end nc0 al_reduce other
      args data d = Ok (Some (p, lines, log, printed, d', failed)) /\
    let times := map seconds (seq 0 (length lines)) in
    filter (fun x => negb (is_debug x)) log = pipe_log show_q times lines /\
    (mget args "debug" = Some "0"%string \/ mget args "debug" = Some "false"%string -> log = pipe_log show_q times lines) /\
    match mget args "outputFile" with
    | None => printed = [] /\ forall name, d' name = d name
    | Some o =>
        if String.eqb o "console" then printed = log /\ forall name, d' name = d name
        else printed = [] /\ forall name, d' name =
          if negb (opens name) then d name
          else if String.eqb name (o ++ "_stats.csv") then Some (stat_file show_q show_z times lines)
          else if String.eqb name (o ++ ".csv") then Some (barcodes (pk_output p))
          else if String.eqb name o && negb (String.eqb o "") && negb (match log with [] => true | _ => false end)
          then Some ((match d o with Some t => t | None => "" end) ++ as_text log)%string
          else d name
    end.
Proof.
  intros opens sz show_q show_z seconds barcodes debug_before debug_after own dist atoi atof srt past_end nc0 al_reduce other
         args s parts data d p lines failed Hp Hc W E.
  unfold run_program_stats in E. unfold run_program_log. destruct (new_packet atoi atof nc0 args data) as [start|]; cbn [bind] in *; [|discriminate].
  destruct (logged_exists opens sz show_q show_z seconds barcodes debug_before debug_after own _ start args d p lines failed E) as (log & printed & d' & E').
  exists log, printed, d'. split; [exact E'|].
  exact (proj2 (log_of_a_run opens sz show_q show_z seconds barcodes debug_before debug_after own _ start args s parts d p lines log printed d' failed Hp Hc W E')).
Qed.
Print Assumptions C108_log_and_files.

(* Four points from the command line, with the log of an earlier run in the file out; the input file is called out.csv and
   holds the barcodes afterwards. *)
Definition log_ex (c : string) (d : disk) (names : list string) : res (list string * list (option string)) :=
  do m <- parse (stats_argv c "1");
  do r <- run_program_log (fun _ => true) ex_sizes (fun q => if Qle_bool q 400 then "small" else "large")%string (fun _ => "n"%string)
    (fun n => nth n ["t0"; "t1"; "t2"; "t3"]%string ""%string) (fun _ => "bars"%string)
    (fun _ _ _ => [("module", "message")]%string) (fun _ _ _ => [("module", "message")]%string) (fun _ _ _ => [])
    line_dist digit digit wsort libstdcxx_past_end 0 (fun g => Ok g) (fun _ _ p => Ok p) (setPipeline m) [[0]; [1]; [3]; [9]]%Z d;
  match r with Some (_, _, _, printed, d', _) => Ok (printed, map d' names) | None => UB end.
Example C108_ex :
  (exists m, parse (stats_argv "simplexArrayList" "1") = Ok m /\ mget (setPipeline m) "pipeline" = Some "distMatrix.neighGraph.rips.fastPersistence"%string /\
     components_of "distMatrix.neighGraph.rips.fastPersistence" ["distMatrix"; "neighGraph"; "rips"; "fastPersistence"]%string /\
     mget (setPipeline m) "debug" = Some "0"%string) /\
  (forall c, In c ["distMatrix"; "neighGraph"; "rips"; "fastPersistence"]%string -> ~ In c window_names) /\
  log_ex "simplexArrayList" (fun n => if String.eqb n "out" then Some "old"%string else if String.eqb n "out.csv" then Some "input"%string else None)
    ["out"; "out.csv"; "out_stats.csv"; "other"]%string =
  Ok ([], [Some ("old" ++ as_text
      ["[DistMatrix]:" ++ TAB ++ TAB ++ "Pipeline DistMatrix executed in t0 seconds (physical time)";
       "[DistMatrix]:" ++ TAB ++ TAB ++ TAB ++ "Data size: small B" ++ LF;
       "[neighGraph]:" ++ TAB ++ TAB ++ "Pipeline neighGraph executed in t1 seconds (physical time)";
       "[neighGraph]:" ++ TAB ++ TAB ++ TAB ++ "Data size: large B" ++ LF;
       "[ripsPipe]:" ++ TAB ++ TAB ++ "Pipeline ripsPipe executed in t2 seconds (physical time)";
       "[ripsPipe]:" ++ TAB ++ TAB ++ TAB ++ "Data size: large B" ++ LF;
       "[FastPersistence]:" ++ TAB ++ TAB ++ "Pipeline FastPersistence executed in t3 seconds (physical time)";
       "[FastPersistence]:" ++ TAB ++ TAB ++ TAB ++ "Data size: large B" ++ LF])%string;
     Some "bars"%string;
     Some (as_text ["PipeName,PhysExecutionTime,MemorySize,MemoryUnits,VertexCount,SimplexCount"; "DistMatrix,t0,small,B,n,n";
       "neighGraph,t1,large,B,n,n"; "ripsPipe,t2,large,B,n,n"; "FastPersistence,t3,large,B,n,n"])%string;
     None]).
Proof.
  split; [|split].
  - eexists. split; [vm_compute; reflexivity|]. split; [vm_compute; reflexivity|]. split; [|vm_compute; reflexivity].
    split; [discriminate|]. split; [|reflexivity]. repeat constructor; vm_compute; intuition discriminate.
  - intros c Hc. cbn in Hc. destruct Hc as [<-|[<-|[<-|[<-|[]]]]]; vm_compute; intuition discriminate.
  - vm_compute. reflexivity.
Qed.
