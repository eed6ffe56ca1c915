(* LogModel.v -- the log of a run and the files runPipeline leaves: /repo/Utils/utils.cpp (writeLog, writeDebug, writeFile),
   Pipes/basePipe.cpp (the wrapper), Utils/writeOutput.cpp (writeStats, writeBarcodes) and LHFmain/main.cpp (runPipeline);
   definitions only. *)
From Coq Require Import String Ascii List Arith ZArith QArith Bool.
From Verif Require Import Base UtilsModel ArrayListModel TreeModel FastModel ArgModel IndModel PipeModel StatsModel.
Import ListNotations.
Local Open Scope string_scope.
Local Open Scope list_scope.

Definition tab : string := String (ascii_of_nat 9) "".
Definition nl : string := String (ascii_of_nat 10) "".

(* The files: the text of each one that exists. *)
Definition disk : Type := string -> option string.
Definition put (d : disk) (name text : string) : disk := fun n => if String.eqb n name then Some text else d n.

Section Log.
  Variable opens : string -> bool.          (* can the file be opened for writing?  A file without a name cannot. *)
  Definition openable (name : string) : bool := negb (String.eqb name "") && opens name.

  (* Utils/utils.cpp:406-413 utils::writeLog: the line, without the end of line. *)
  Definition writeLog (module message : string) : list string := [("[" ++ module ++ "]:" ++ tab ++ message)%string].
  (* Utils/utils.cpp:415-425 utils::writeDebug; debug is the string the object was built with (11-18). *)
  Definition writeDebug (debug module message : string) : list string :=
    if String.eqb debug "0" || String.eqb debug "false" then []
    else [("[DEBUG]" ++ tab ++ "[" ++ module ++ "]:" ++ tab ++ message)%string].
  (* Utils/utils.cpp:427-433 utils::writeFile: the file is opened for appending, and nothing is said if that fails. *)
  Definition writeFile (outputFile : string) (d : disk) (line : string) : disk :=
    if openable outputFile
    then put d outputFile ((match d outputFile with Some t => t | None => "" end) ++ line ++ nl)
    else d.

  (* Utils/writeOutput.cpp:24-30, 86-94: the file is truncated. *)
  Definition overwrite (d : disk) (name text : string) : disk := if openable name then put d name text else d.

  Variable sz : sizes.
  Variable show_q : Q -> string.            (* std::to_string(double) *)
  Variable show_z : Z -> string.            (* std::to_string(int) *)
  Variable seconds : nat -> string.         (* the time the n-th pipe took, as std::to_string shows it *)
  Variable barcodes : list (nat * Z * Z) -> string.       (* the text of the barcode file (TextModel.v) *)
  (* What configPipe and runPipe pass to writeDebug, what outputData passes to it, and what the two window pipes pass to
     writeLog (slidingWindow.cpp:590, naiveWindow.cpp:109), as pairs of module and message; left open. *)
  Variables debug_before debug_after own : pipe_kind -> amap -> packet -> list (string * string).
  Variable run : pipe_kind -> amap -> packet -> res packet.

  (* The strDebug of every configPipe (e.g. Pipes/distMatrixPipe.cpp:65-76). *)
  Definition strDebug (args : amap) : string := opt args "debug".
  Definition debugs (args : amap) (l : list (string * string)) : list string :=
    concat (map (fun e => writeDebug (strDebug args) (fst e) (snd e)) l).

  (* The packet, the lines of statistics and the lines of the log, in the order they are written. *)
  Definition lstate : Type := packet * list stat_line * list string.
  Definition run_logged (k : pipe_kind) (args : amap) (st : lstate) : res lstate :=
    let '(p, lines, log) := st in
    do p' <- run k args p;
    Ok (p', lines, log ++ debugs args (debug_before k args p) ++
        match k with
        | KSlidingWindow | KNaiveWindow => concat (map (fun e => writeLog (fst e) (snd e)) (own k args p))
        | _ => []
        end).
  (* Pipes/basePipe.cpp:70-97; line 94 adds an end of line of its own. *)
  Definition wrapper_logged (args : amap) (k : pipe_kind) (st : lstate) : res lstate :=
    let '(p, lines, log) := st in
    do l <- line_of sz k p;
    do p' <- add_stats k p;
    Ok (p', lines ++ [l],
        log ++ writeLog (pipe_type k) (tab ++ "Pipeline " ++ pipe_type k ++ " executed in " ++ seconds (length lines) ++ " seconds (physical time)")
        ++ writeLog (pipe_type k) (tab ++ tab ++ "Data size: " ++ show_q (l_size l) ++ " " ++ l_unit l ++ nl)
        ++ debugs args (debug_after k args p')).

  (* Pipes/basePipe.cpp:91: the line of statistics of the n-th pipe. *)
  Definition stat_text (n : nat) (l : stat_line) : string :=
    (l_pipe l ++ "," ++ seconds n ++ "," ++ show_q (l_size l) ++ "," ++ l_unit l ++ "," ++ show_z (l_vertices l) ++ ","
     ++ show_z (l_simplices l) ++ nl)%string.
  Fixpoint stats_text (n : nat) (lines : list stat_line) : string :=
    match lines with [] => "" | l :: lines' => (stat_text n l ++ stats_text (S n) lines')%string end.

  (* Utils/writeOutput.cpp:24-30 writeOutput::writeStats: the text. *)
  Definition writeStats (lines : list stat_line) : string :=
    ("PipeName,PhysExecutionTime,MemorySize,MemoryUnits,VertexCount,SimplexCount" ++ nl ++ stats_text 0 lines)%string.

  (* LHFmain/main.cpp:18-66 runPipeline on an old disk: the lines of statistics, the log, the lines of it that are printed
     and the new disk.  outputFile of a pipe is empty without the option (basePipe.hpp:16).  That a line is written when it
     is reached and not at the end makes no difference: nothing modelled here reads these files.  The files that outputData
     writes when debug is set are left out (DebugModel.v). *)
  Definition pipeline_logged (start : packet) (args : amap) (d : disk)
    : res (option (packet * list stat_line * list string * list string * disk * list string)) :=
    do r <- runPipeline lstate run_logged (wrapper_logged args) args (start, [], []);
    match r with
    | None => Ok None
    | Some (p, lines, log, failed) =>
        let o := opt args "outputFile" in
        let printed := if String.eqb o "console" then log else [] in
        let d1 := if String.eqb o "console" then d else fold_left (writeFile o) log d in
        let d2 := if writes_output args
                  then overwrite (overwrite d1 (o ++ "_stats.csv") (writeStats lines))
                         (o ++ ".csv") (barcodes (pk_output p))
                  else d1 in
        Ok (Some (p, lines, log, printed, d2, failed))
    end.
End Log.

(* The program with its log, its files and what it prints of the log. *)
Definition run_program_log opens sz show_q show_z seconds barcodes debug_before debug_after own
  dist atoi atof srt past_end nc0 al_reduce other (args : amap) (data : list (list Z)) (d : disk) :=
  do p <- new_packet atoi atof nc0 args data;
  pipeline_logged opens sz show_q show_z seconds barcodes debug_before debug_after own
    (run_pipe dist atoi atof srt past_end al_reduce other) p args d.
