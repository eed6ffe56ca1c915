(* AllModel.v -- the program of MainModel.v with all its pipes (definitions only): persistencePairs, optPersistencePairs,
   boundaryPipe, upscalePipe and the two windows in the place left open by run_pipe. *)
From Coq Require Import String List Arith ZArith Bool.
From Verif Require Import Base UtilsModel RunMonad ArrayListModel TreeModel FastModel ArgModel IoModel GaussModel IndModel TwistModel PipeModel WindowModel MainModel.
Import ListNotations.
Local Open Scope string_scope. Local Open Scope nat_scope. Local Open Scope list_scope.

(* inData.bettiOutput = bettis; *)
Definition set_output (p : packet) (lines : list (nat * Z * Z)) : packet :=
  mkPacket (pk_data p) (pk_labels p) (pk_full p) (pk_weights p) (pk_complex p) lines (pk_table p) (pk_stats p).

Section All.
  Variable dist : list Z -> list Z -> Z.            (* utils::vectors_distance *)
  Variables atoi atof : string -> Z.
  Variable srt : list wsimp -> list wsimp.
  Variable past_end : list nat -> nat -> res nat.
  Variable nc0 : Z.
  Variable al_reduce : wgraph -> res wgraph.
  Variable one : Z.                                 (* the number 1.0 (EvalModel.v) *)
  Variable stod : text -> option Z.                 (* std::stod *)
  Variable file : string -> option text.            (* the files that can be opened *)
  (* Stands for a pipe that does not return: std::stod throws in a window, or a loop of optPersistencePairs does not end. *)
  Variable stopped : res packet.

  (* Pipes/optPersistencePairs.cpp:517-726 as a pipe; tArray is a member of the pipe, new for every call. *)
  Definition run_opt (args : amap) (p : packet) : res packet :=
    let dim := atoi (opt args "dimensions") in
    let eps := atof (opt args "epsilon") in
    let twist := String.eqb (opt args "twist") "true" in
    do c <- deref p;
    match c with
    | CInd e d t =>
        match opt_ind_run twist dim eps srt t with
        | None => stopped
        | Some r => do lines <- r; Ok (set_output (set_complex p (CInd e d (snd (ind_getAllEdges srt t)))) lines)
        end
    | _ =>
        if twist then
          match opt_twist_other dim eps with None => stopped | Some r => do lines <- r; Ok (set_output p lines) end
        else
          let (edges, c2) := cx_getAllEdges srt eps c in
          do lines <- opt_run dim eps edges; Ok (set_output (set_complex p c2) lines)
    end.

  (* Pipes/boundaryPipe.cpp:195-330 as a pipe: the complex is asked for its edges once per weight. *)
  Definition run_boundary (args : amap) (p : packet) : res packet :=
    do p1 <- foldr_ub (fun p w => do c <- deref p; Ok (set_complex p (snd (cx_getAllEdges srt w c)))) p (pk_weights p);
    do lines <- bd_run (atoi (opt args "dimensions")) (pk_weights p);
    Ok (set_output p1 lines).

  (* The vectors that a window reads from the file it is configured with (naiveWindow.cpp:48, 206-208,
     slidingWindow.cpp:516, 749-751): None if stod throws; Some None if the file cannot be opened. *)
  Definition stream_of_file (f : string) : option (option (list (list Z))) :=
    match file f with
    | None => Some None
    | Some t => option_map Some (stream_rows Z stod (S (length t)) t)
    end.

  (* Pipes/basePipe.cpp:24-50: the classes other than the four of run_pipe.  upscalePipe::runPipe (upscalePipe.cpp:38-47)
     returns its packet. *)
  Definition all_pipes (k : pipe_kind) (args : amap) (p : packet) : res packet :=
    match k with
    | KUpscale => Ok p
    | KBoundary => run_boundary args p
    | KPersistencePairs => run_pairs atoi atof srt args p
    | KOptPersistencePairs => run_opt args p
    | KNaiveWindow =>
        match stream_of_file (opt args "inputFile") with
        | None => stopped
        | Some rows => do r <- naive_run dist atoi atof srt past_end al_reduce args rows p; Ok (fst (fst r))
        end
    | KSlidingWindow =>
        match stream_of_file (opt args "inputFile") with
        | None => stopped
        | Some rows =>
            do r <- sliding_run dist atoi atof srt past_end al_reduce one args rows p;
            Ok (fst (fst (fst r)))
        end
    | _ => stopped                                  (* never asked: run_pipe runs these itself *)
    end.

  Variable pre_run : pre_kind -> amap -> packet -> res packet.
  Variable pre_stats : pre_kind -> packet -> res packet.
  Variable uaf : res unit.
  Definition lhf_all (argv : list string) : res outcome :=
    lhf dist atoi atof srt past_end nc0 al_reduce all_pipes pre_run pre_stats uaf stod file argv.
End All.
