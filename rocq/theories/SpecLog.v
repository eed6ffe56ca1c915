(* SpecLog.v -- vocabulary for the statements about the log of a run. *)
From Coq Require Import String Ascii List Arith ZArith QArith Bool.
From Verif Require Import StatsModel.
Import ListNotations.
Local Open Scope string_scope.

Definition TAB : string := String (ascii_of_nat 9) "".
Definition LF : string := String (ascii_of_nat 10) "".

(* A line that was written for debugging. *)
Definition is_debug (line : string) : bool := String.prefix "[DEBUG]" line.

(* The two lines about a pipe: how long it took, and how large the data is after it. *)
Definition two_lines (show_q : Q -> string) (time : string) (l : stat_line) : list string :=
  ["[" ++ l_pipe l ++ "]:" ++ TAB ++ TAB ++ "Pipeline " ++ l_pipe l ++ " executed in " ++ time ++ " seconds (physical time)";
   "[" ++ l_pipe l ++ "]:" ++ TAB ++ TAB ++ TAB ++ "Data size: " ++ show_q (l_size l) ++ " " ++ l_unit l ++ LF].
Definition pipe_log (show_q : Q -> string) (times : list string) (lines : list stat_line) : list string :=
  concat (map (fun tl => two_lines show_q (fst tl) (snd tl)) (combine times lines)).

(* The text of the lines. *)
Definition as_text (lines : list string) : string := String.concat "" (map (fun l => l ++ LF) lines).

(* The row of a pipe in the file of statistics. *)
Definition stat_row (show_q : Q -> string) (show_z : Z -> string) (time : string) (l : stat_line) : string :=
  String.concat "," [l_pipe l; time; show_q (l_size l); l_unit l; show_z (l_vertices l); show_z (l_simplices l)].
Definition stat_file (show_q : Q -> string) (show_z : Z -> string) (times : list string) (lines : list stat_line) : string :=
  as_text ("PipeName,PhysExecutionTime,MemorySize,MemoryUnits,VertexCount,SimplexCount"
    :: map (fun tl => stat_row show_q show_z (fst tl) (snd tl)) (combine times lines)).

(* The pipes that read their input themselves. *)
Definition window_names : list string := ["slidingwindow"; "sliding"; "naivewindow"; "naive"].
