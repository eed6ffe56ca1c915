(* PairsFilesModel.v -- the debug output of persistencePairs, optPersistencePairs and boundaryPipe (definitions only). *)
From Coq Require Import String List Arith ZArith Bool.
From Verif Require Import Base UtilsModel RunMonad ArrayListModel TreeModel FastModel ArgModel IoModel GaussModel IndModel TwistModel PipeModel WindowModel MainModel AllModel DebugModel.
Import ListNotations.
Local Open Scope string_scope. Local Open Scope nat_scope. Local Open Scope list_scope.

(* A line of a file that these pipes write: text, a line of bettiOutput, or an entry of tArray with its number of vertices
   less 1 (Pipes/persistencePairs.cpp:302-306: ti, which no code sets, simplex.size()-1, marked, birth, death, the
   vertices, each followed by a blank). *)
Inductive pair_row : Type :=
| PText (s : string)
| PBar (b : nat * Z * Z)
| PEntry (ti : Z) (dim : nat) (marked : bool) (birth death : Z) (s : list nat).
Notation pair_files := (list (string * list pair_row)).

(* Pipes/persistencePairs.cpp:219-264, Pipes/optPersistencePairs.cpp:655-709 as pair_all of GaussModel.v, but with tArray. *)
Definition pair_table (opt : bool) (dim eps : Z) (edges : wgraph) (piv : list nat) : res (list tentry * list (nat * Z * Z)) :=
  let ks := concat edges in
  do st <- foldr_ub (pair_simplex opt ks) ([], piv, hd_error piv, []) (enum 0 ks);
  let '(ts, _, _, lines) := st in
  do all <- foldr_ub (if opt then opt_left dim eps else pp_left dim eps) lines ts; Ok (ts, all).

(* Pipes/persistencePairs.cpp:302-306. *)
Definition entry_row (t : tentry) : pair_row := PEntry (-1) (length (t_simplex t) - 1) (t_marked t) (t_birth t) (t_death t) (t_simplex t).
(* Pipes/persistencePairs.cpp:287-311 and Pipes/optPersistencePairs.cpp:730-754 outputData; both have the pipeType "PersistencePairs". *)
Definition pairs_output (fn header : string) (ts : list tentry) (lines : list (nat * Z * Z)) : pair_files :=
  [(if Nat.ltb 0 (String.length fn) then "output/PersistencePairs_bettis_output" ++ fn ++ ".csv" else "output/PersistencePairs_bettis_output.csv",
    PText header :: map PBar lines);
   ("output/tArray.csv", PText "ti,Dim,Marked,Birth,Death,Simplex" :: map entry_row ts)]%string.
(* Pipes/boundaryPipe.cpp:332-341 outputData. *)
Definition boundary_output (lines : list (nat * Z * Z)) : pair_files :=
  [("output/Boundary_bettis_output.csv", PText "Dim,Birth,Death" :: map PBar lines)].

Section Pipes.
  Variable dist : list Z -> list Z -> Z.            (* utils::vectors_distance *)
  Variables atoi atof : string -> Z.
  Variable srt : list wsimp -> list wsimp.
  Variable past_end : list nat -> nat -> res nat.
  Variable nc0 : Z.
  Variable al_reduce : wgraph -> res wgraph.
  Variable one : Z.
  Variable stod : text -> option Z.
  Variable file : string -> option text.
  Variable stopped : res (packet * list tentry).    (* a pipe that does not return *)

  (* Pipes/persistencePairs.cpp:173-284, cf. run_pairs of WindowModel.v, with the tArray of the pipe. *)
  Definition pairs_table (args : amap) (p : packet) : res (packet * list tentry) :=
    let dim := atoi (opt args "dimensions") in
    let eps := atof (opt args "epsilon") in
    do c <- deref p;
    let (edges, c2) := cx_getAllEdges srt eps c in
    do piv <- pp_pivots edges;
    do r <- pair_table false dim eps edges piv; Ok (set_output (set_complex p c2) (snd r), fst r).
  (* Pipes/optPersistencePairs.cpp:517-726, cf. run_opt of AllModel.v. *)
  Definition opt_table (args : amap) (p : packet) : res (packet * list tentry) :=
    let dim := atoi (opt args "dimensions") in
    let eps := atof (opt args "epsilon") in
    let twist := String.eqb (opt args "twist") "true" in
    do c <- deref p;
    match c with
    | CInd e d t =>
        let '(ge, t') := ind_getAllEdges srt t in
        match (if twist then tw_pivots (ind_find t') (Z.to_nat dim) ge else lift (sets_pivots (ind_find t') (Z.to_nat dim) ge)) with
        | None => stopped
        | Some piv => do piv <- piv; do r <- pair_table true dim eps ge piv; Ok (set_output (set_complex p (CInd e d t')) (snd r), fst r)
        end
    | _ =>
        if twist then
          match tw_pivots (fun _ => Ok false) (Z.to_nat dim) [] with
          | None => stopped
          | Some piv => do piv <- piv; do r <- pair_table true dim eps [] piv; Ok (set_output p (snd r), fst r)
          end
        else
          let (edges, c2) := cx_getAllEdges srt eps c in
          do piv <- opt_pivots (Z.to_nat dim) edges;
          do r <- pair_table true dim eps edges piv; Ok (set_output (set_complex p c2) (snd r), fst r)
    end.

  (* runPipe with tArray, and outputData, of the three pipes; None: another pipe. *)
  Definition run_table (k : pipe_kind) (args : amap) (p : packet) : option (res (packet * list tentry)) :=
    match k with
    | KPersistencePairs => Some (pairs_table args p)
    | KOptPersistencePairs => Some (opt_table args p)
    | KBoundary => Some (do q <- run_boundary atoi srt args p; Ok (q, []))
    | _ => None
    end.
  Definition table_output (k : pipe_kind) (args : amap) (ts : list tentry) (lines : list (nat * Z * Z)) : pair_files :=
    match k with
    | KPersistencePairs => pairs_output (opt args "fn") "dim,birth,death" ts lines
    | KOptPersistencePairs => pairs_output (opt args "fn") "curIndex,index,dim,birth,death" ts lines
    | KBoundary => boundary_output lines
    | _ => []
    end.

  (* Pipes/basePipe.cpp:56-101 runPipeWrapper for one of these pipes: runPipe, the statistics, and the output if the number of
     the option "debug" is not 0. *)
  Definition table_and_output (k : pipe_kind) (args : amap) (p : packet) : res (packet * pair_files) :=
    match run_table k args p with
    | None => UB
    | Some r => do r <- r; do q <- add_stats k (fst r); Ok (q, if debugging atoi args then table_output k args (snd r) (pk_output q) else [])
    end.

  (* The program with the files of all its pipes: the packet, the files of DebugModel.v and those of this file.  tArray belongs
     to the pipe, which is made anew for every component (LHFmain/main.cpp:34), so the three pipes do all their work in one
     step.  The windows write their own files while they run, which are not modelled. *)
  Definition state : Type := (packet * files * pair_files)%type.
  Definition run_state (k : pipe_kind) (args : amap) (s : state) : res state :=
    let '(p, fs, pf) := s in
    match run_table k args p with
    | Some _ => Ok s
    | None => do q <- run_pipe dist atoi atof srt past_end al_reduce (all_pipes dist atoi atof srt past_end al_reduce one stod file (rmap fst stopped)) k args p; Ok (q, fs, pf)
    end.
  Definition output_state (args : amap) (k : pipe_kind) (s : state) : res state :=
    let '(p, fs, pf) := s in
    match run_table k args p with
    | Some _ => do r <- table_and_output k args p; Ok (fst r, fs, pf ++ snd r)
    | None => do r <- stats_and_output srt atoi (fun _ p fs => Ok (p, fs)) args k (p, fs); Ok (fst r, snd r, pf)
    end.
  Definition run_program_tables (args : amap) (data : list (list Z)) : res (option (state * list string)) :=
    do p <- new_packet atoi atof nc0 args data;
    runPipeline state run_state (output_state args) args (p, [], []).
End Pipes.
