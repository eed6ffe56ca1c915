(* DebugModel.v -- the debug output of the pipes (outputData of /repo/Pipes; definitions only). *)
From Coq Require Import String List Arith ZArith Bool.
From Verif Require Import Base UtilsModel ArrayListModel TreeModel FastModel ArgModel IndModel PipeModel WindowModel.
Import ListNotations.
Open Scope string_scope.

(* A line of an output file, before the numbers are turned into text. *)
Inductive row : Type :=
| RNumbers (l : list Z)                (* numbers, each followed by a comma *)
| RSimplex (s : list nat) (w : Z)      (* the vertices and the weight of a simplex *)
| RBar (b : nat * Z * Z)               (* a line of bettiOutput *)
| RText (s : string).
(* The files: a later entry for the same name replaces an earlier one (std::ofstream truncates).  That opening a file
   fails, which the code does not check, is left out. *)
Notation files := (list (string * list row)).
Fixpoint content (fs : files) (name : string) : option (list row) :=
  match fs with
  | [] => None
  | (n, rows) :: fs' => match content fs' name with
                        | Some r => Some r
                        | None => if String.eqb n name then Some rows else None
                        end
  end.

(* The lines of a graph, one for each simplex. *)
Definition graph_rows (g : wgraph) : list row := map (fun x => RSimplex (fst x) (snd x)) (concat g).

Section Debug.
  Variable srt : list wsimp -> list wsimp.
  Variable atoi : string -> Z.
  Variable other_output : pipe_kind -> packet -> files -> res (packet * files).   (* the pipes not modelled here *)

  (* Pipes/neighGraphPipe.cpp:71-98: the edges of a simplexArrayList; otherwise everything getAllEdges(5) returns, which
     the packet, a copy that shares the complex, is asked for.  Line 93 adds an empty line. *)
  Definition output_neighGraph (p : packet) (fs : files) : res (packet * files) :=
    do c <- deref p;
    match c with
    | CArray _ _ _ wg =>
        Ok (p, (fs ++ [("output/neighGraph_output.csv", (if Nat.ltb 1 (length wg) then graph_rows [nth 1 wg []] else []) ++ [RText ""])])%list)
    | _ => let (edges, c') := cx_getAllEdges srt 5 c in
           Ok (set_complex p c', (fs ++ [("output/neighGraph_output.csv", graph_rows edges ++ [RText ""])])%list)
    end.
  (* Pipes/distMatrixPipe.cpp:90-103. *)
  Definition output_distMatrix (p : packet) (fs : files) : res (packet * files) :=
    do c <- deref p; Ok (p, (fs ++ [("output/DistMatrix_output.csv", map RNumbers (cx_distMatrix c))])%list).
  (* Pipes/ripsPipe.cpp:78-95: only a simplexArrayList. *)
  Definition output_rips (p : packet) (fs : files) : res (packet * files) :=
    do c <- deref p;
    match c with
    | CArray _ _ _ wg => Ok (p, (fs ++ [("output/ripsPipe_output.csv", graph_rows wg)])%list)
    | _ => Ok (p, fs)
    end.
  (* Pipes/fastPersistence.cpp:281-304; tArray is never filled by this pipe.  fn is the "fn" option. *)
  Definition output_fast (fn : string) (p : packet) (fs : files) : res (packet * files) :=
    Ok (p, (fs ++ [(if Nat.ltb 0 (String.length fn) then ("output/FastPersistence_bettis_output" ++ fn ++ ".csv")%string else "output/FastPersistence_bettis_output.csv",
                    map RBar (pk_output p)); ("output/tArray.csv", [RText "ti,Dim,Marked,Birth,Death,Simplex"])])%list).

  Definition output_data (args : amap) (k : pipe_kind) (p : packet) (fs : files) : res (packet * files) :=
    match k with
    | KDistMatrix => output_distMatrix p fs
    | KNeighGraph => output_neighGraph p fs
    | KRips => output_rips p fs
    | KFastPersistence => output_fast (opt args "fn") p fs
    | _ => other_output k p fs
    end.

  (* "debug" as every configPipe reads it (e.g. Pipes/distMatrixPipe.cpp:67-71); basePipe.hpp:15: 0 without the option. *)
  Definition debugging (args : amap) : bool :=
    match mget args "debug" with Some v => negb (Z.eqb (atoi v) 0) | None => false end.

  (* Pipes/basePipe.cpp:91-97: the statistics, then the output. *)
  Definition stats_and_output (args : amap) (k : pipe_kind) (pf : packet * files) : res (packet * files) :=
    do p <- add_stats k (fst pf);
    if debugging args then output_data args k p (snd pf) else Ok (p, snd pf).
End Debug.

(* The program with the files it writes. *)
Definition run_program_files dist atoi atof srt past_end nc0 al_reduce other other_output (args : amap) (data : list (list Z))
  : res (option (packet * files * list string)) :=
  do p <- new_packet atoi atof nc0 args data;
  runPipeline (packet * files)
    (fun k a pf => do p' <- run_pipe dist atoi atof srt past_end al_reduce other k a (fst pf); Ok (p', snd pf))
    (stats_and_output srt atoi other_output args) args (p, []).
