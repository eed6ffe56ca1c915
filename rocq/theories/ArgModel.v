(* ArgModel.v -- model of /repo/Utils/argParser.cpp, of the factories in Pipes/basePipe.cpp and
   Preprocessing/preprocessor.cpp, of their wrappers, and of the driver functions of LHFmain/main.cpp
   (definitions only). *)
From Coq Require Import List Arith Bool String Ascii.
From Verif Require Import Base.
Import ListNotations.
Open Scope string_scope.

(* std::map<std::string, std::string> as an association list with at most one entry per key.  The order of the
   entries (std::map sorts them) is only observable in console output, which is not modelled. *)
Definition amap : Type := list (string * string).
Fixpoint mget (m : amap) (k : string) : option string :=
  match m with [] => None | (k', v) :: r => if String.eqb k k' then Some v else mget r k end.
Definition merase (m : amap) (k : string) : amap := filter (fun e => negb (String.eqb k (fst e))) m.
Definition mset (m : amap) (k v : string) : amap := (k, v) :: merase m k.
(* Reading with operator[]: an absent key is inserted with the value "". *)
Definition mread (m : amap) (k : string) : string * amap :=
  match mget m k with Some v => (v, m) | None => ("", mset m k "") end.

(* Utils/argParser.cpp:12 argMap (long name, short name), in the order of std::map (by long name). *)
Definition argMap : list (string * string) :=
  [("clusters","k"); ("collapse","z"); ("complexType","c"); ("debug","x"); ("dimensions","d"); ("epsilon","e");
   ("inputFile","i"); ("iterations","r"); ("lambda","l"); ("mode","m"); ("mpi","a"); ("outputFile","o");
   ("pipeline","p"); ("preprocessor","pre"); ("twist","t"); ("upscale","u")].

(* Utils/argParser.cpp:13 defaultMap. *)
Definition defaultMap : amap :=
  [("mpi","0"); ("mode","standard"); ("dimensions","1"); ("iterations","250"); ("pipeline",""); ("inputFile","None");
   ("outputFile","output.csv"); ("epsilon","5"); ("lambda",".25"); ("debug","0"); ("complexType","simplexTree");
   ("clusters","20"); ("preprocessor",""); ("upscale","false"); ("twist","false"); ("collapse","false")].

(* Utils/argParser.cpp:21-40 argParser::defaultArguments. *)
Definition defaultArguments (m : amap) : amap :=
  fold_left (fun m '(long, short) =>
    match mget m short with
    | Some v => merase (mset m long v) short
    | None => match mget m long with
              | Some _ => m
              | None => mset m long (fst (mread defaultMap long))
              end
    end) argMap m.

(* Utils/argParser.cpp:83-92: the loop over argv[1], argv[2], ... (the list does not contain argv[0]).  A flag in
   the last position reads argv[argc], a null pointer, into a std::string: undefined. *)
Fixpoint parse_loop (m : amap) (argv : list string) : res amap :=
  match argv with
  | [] => Ok m
  | f :: rest =>
      let store (k : string) : res amap := match rest with [] => UB | v :: _ => Ok (mset m k v) end in
      do m' <- (if String.eqb (substring 0 2 f) "--" then store (substring 2 (length f - 2) f)
                else if String.eqb (substring 0 1 f) "-" then store (substring 1 (length f - 1) f)
                else Ok m);
      match rest with [] => Ok m' | _ :: rest' => parse_loop m' rest' end
  end.

(* Utils/argParser.cpp:80-98 argParser::parse. *)
Definition parse (argv : list string) : res amap := rmap defaultArguments (parse_loop [] argv).

Definition std_pipeline : string := "distMatrix.neighGraph.rips.fastPersistence".

(* Utils/argParser.cpp:111-156 argParser::setPipeline. *)
Definition setPipeline (a : amap) : amap :=
  let (mpi, a) := mread a "mpi" in
  if String.eqb mpi "1" then
    let a := mset a "pipeline" std_pipeline in
    let (pre, a) := mread a "preprocessor" in
    let a := if String.eqb pre "" then mset a "preprocessor" "kmeans++" else a in
    mset a "upscale" "true"
  else
    let (pipeline, a) := mread a "pipeline" in
    if String.eqb pipeline "" then
      let (mode, a) := mread a "mode" in
      if String.eqb mode "standard" then mset a "pipeline" std_pipeline
      else if String.eqb mode "reduced" then
        let (pre, a) := mread a "preprocessor" in
        let a := if String.eqb pre "" then mset a "preprocessor" "kmeans++" else a in
        let a := mset a "pipeline" std_pipeline in
        let a := mset a "upscale" "false" in
        mset a "complexType" "simplexTree"
      else if String.eqb mode "upscaleBound" then
        let (pre, a) := mread a "preprocessor" in
        let a := if String.eqb pre "" then mset a "preprocessor" "kmeans++" else a in
        let a := mset a "upscale" "true" in
        mset a "pipeline" "distMatrix.neighGraph.rips.persistence.boundary.upscale"
      else if String.eqb mode "stream" then
        let (pre, a) := mread a "preprocessor" in
        let a := if String.eqb pre "" then mset a "preprocessor" "streamingkmeans" else a in
        mset a "pipeline" std_pipeline
      else if String.eqb mode "sw" || String.eqb mode "slidingwindow" then
        let a := mset a "preprocessor" "" in
        let a := mset a "pipeline" "slidingwindow" in
        let a := mset a "upscale" "false" in
        mset a "complexType" "simplexTree"
      else if String.eqb mode "fast" then
        let a := mset a "pipeline" std_pipeline in
        let a := mset a "upscale" "false" in
        mset a "complexType" "simplexTree"
      else if String.eqb mode "naive" || String.eqb mode "naivewindow" then
        let a := mset a "preprocessor" "" in
        let a := mset a "pipeline" "naivewindow" in
        let a := mset a "upscale" "false" in
        mset a "complexType" "simplexTree"
      else a
    else a.

(* The classes of pipes and preprocessors that the factories create. *)
Inductive pipe_kind : Type :=
| KDistMatrix | KNeighGraph | KRips | KUpscale | KBoundary | KPersistencePairs | KOptPersistencePairs
| KSlidingWindow | KFastPersistence | KNaiveWindow.
Inductive pre_kind : Type := KNoPreprocessor | KKMeans | KStreamingKMeans | KDenStream.

(* Pipes/basePipe.cpp:24-50 basePipe::newPipe. *)
Definition newPipe (pipeT complexType : string) : option pipe_kind :=
  if String.eqb pipeT "distMatrix" then Some KDistMatrix
  else if String.eqb pipeT "neighGraph" then Some KNeighGraph
  else if String.eqb pipeT "rips" then Some KRips
  else if String.eqb pipeT "upscale" then Some KUpscale
  else if String.eqb pipeT "boundary" then Some KBoundary
  else if String.eqb pipeT "persistence" && (String.eqb complexType "simplexArrayList" || String.eqb complexType "simplexTree")
       then Some KPersistencePairs
  else if String.eqb pipeT "persistence" && String.eqb complexType "indSimplexTree" then Some KOptPersistencePairs
  else if String.eqb pipeT "slidingwindow" || String.eqb pipeT "sliding" then Some KSlidingWindow
  else if String.eqb pipeT "fastPersistence" || String.eqb pipeT "fast" then Some KFastPersistence
  else if String.eqb pipeT "naivewindow" || String.eqb pipeT "naive" then Some KNaiveWindow
  else None.

(* Preprocessing/preprocessor.cpp:22-38 preprocessor::newPreprocessor. *)
Definition newPreprocessor (procName : string) : option pre_kind :=
  if String.eqb procName "none" then Some KNoPreprocessor
  else if String.eqb procName "kmeansplusplus" || String.eqb procName "kmeans++" || String.eqb procName "kmeans" then Some KKMeans
  else if String.eqb procName "streamingKmeans" || String.eqb procName "streamingkmeans" || String.eqb procName "streamKM" then Some KStreamingKMeans
  else if String.eqb procName "denStream" || String.eqb procName "denstream" || String.eqb procName "DenStream" then Some KDenStream
  else None.

(* Options that configPipe / configPreprocessor insist on: the "else return false" branches of
   Pipes/distMatrixPipe.cpp:78-81, neighGraphPipe.cpp:52-61, boundaryPipe.cpp:358-366, persistencePairs.cpp:329-342,
   optPersistencePairs.cpp:771-784, slidingWindow.cpp:753-763, naiveWindow.cpp:210-219, fastPersistence.cpp:322-335;
   ripsPipe.cpp:47-74 and upscalePipe.cpp:52-70 have none. *)
Definition pipe_required (k : pipe_kind) : list string :=
  match k with
  | KDistMatrix => ["epsilon"]
  | KNeighGraph | KBoundary | KSlidingWindow | KNaiveWindow => ["epsilon"; "dimensions"]
  | KPersistencePairs | KOptPersistencePairs | KFastPersistence => ["dimensions"; "epsilon"; "twist"]
  | KRips | KUpscale => []
  end.
(* Preprocessing/kMeansPlusPlus.cpp:180-188, streamingKmeans.cpp:316-324, denStream.cpp:246-254 (std::stod, which throws
   on a malformed number, is not modelled). *)
Definition pre_required (k : pre_kind) : list string :=
  match k with
  | KNoPreprocessor => []
  | KKMeans | KStreamingKMeans => ["clusters"; "iterations"]
  | KDenStream => ["epsilon"; "lambda"]
  end.
Definition has_key (m : amap) (k : string) : bool := match mget m k with Some _ => true | None => false end.

(* configPipe of every pipe class: (return value, the configured flag after the call).  The flag is set at the end of
   each function, right before "return true". *)
Definition configPipe (k : pipe_kind) (args : amap) : bool * bool :=
  let ok := forallb (has_key args) (pipe_required k) in (ok, ok).
(* configPreprocessor; the base class (Preprocessing/preprocessor.cpp:128-133) returns true without setting the flag. *)
Definition configPreprocessor (k : pre_kind) (args : amap) : bool * bool :=
  match k with
  | KNoPreprocessor => (true, false)
  | _ => let ok := forallb (has_key args) (pre_required k) in (ok, ok)
  end.

(* std::string::find(c): None is npos. *)
Fixpoint find_char (c : ascii) (s : string) : option nat :=
  match s with
  | EmptyString => None
  | String c' r => if Ascii.eqb c c' then Some 0 else option_map S (find_char c r)
  end.
(* std::count(s.begin(), s.end(), c) *)
Fixpoint count_char (c : ascii) (s : string) : nat :=
  match s with EmptyString => 0 | String c' r => (if Ascii.eqb c c' then 1 else 0) + count_char c r end.

(* LHFmain/main.cpp:31-32: substr(0, find('.')) and substr(find('.') + 1).  substr clips its length; npos + 1 is 0. *)
Definition curFunct (s : string) : string :=
  match find_char "." s with Some i => substring 0 i s | None => s end.
Definition pipeRest (s : string) : string :=
  match find_char "." s with Some i => substring (i + 1) (length s - (i + 1)) s | None => s end.

Section Driver.
  (* A packet, and what the pipes do to it: [run k args p] is runPipe of a pipe configured with args.  Everything a
     pipe does is left open. *)
  Variable packet : Type.
  Variable run : pipe_kind -> amap -> packet -> res packet.
  (* Adding a line of statistics to the packet (timing, sizes, counts), and the side outputs. *)
  Variable add_stats : pipe_kind -> packet -> res packet.

  (* Pipes/basePipe.cpp:53-100 basePipe::runPipeWrapper (for the log see LogModel.v, for the debug output DebugModel.v). *)
  Definition runPipeWrapper (configured : bool) (k : pipe_kind) (args : amap) (p : packet) : res packet :=
    if negb configured then Ok p
    else do p' <- run k args p; add_stats k p'.

  (* LHFmain/main.cpp:34-46: one component; the flag says whether it was reported as a failure. *)
  Definition run_component (args : amap) (funct : string) (p : packet) : res (packet * bool) :=
    match newPipe funct (fst (mread args "complexType")) with
    | Some k =>
        let (ok, configured) := configPipe k args in
        if ok then do p' <- runPipeWrapper configured k args p; Ok (p', false)
        else Ok (p, true)
    | None => Ok (p, true)
    end.

  (* LHFmain/main.cpp:28-47: the loop; [fuel] is the number of iterations left.  The components reported as failed
     are collected in order. *)
  Fixpoint pipeline_loop (fuel : nat) (args : amap) (functs : string) (p : packet) (failed : list string)
    : res (packet * list string) :=
    match fuel with
    | 0 => Ok (p, failed)
    | S fuel' =>
        let cur := curFunct functs in
        do r <- run_component args cur p;
        pipeline_loop fuel' args (pipeRest functs) (fst r) (if snd r then failed ++ [cur] else failed)
    end.

  (* LHFmain/main.cpp:18-66 runPipeline up to the output: None if there is no "pipeline" option. *)
  Definition runPipeline (args : amap) (p : packet) : res (option (packet * list string)) :=
    match mget args "pipeline" with
    | None => Ok None
    | Some functs => rmap Some (pipeline_loop (count_char "." functs + 1) args functs p [])
    end.

  (* LHFmain/main.cpp:56-64: is the output file (stats and barcodes) written after the loop? *)
  Definition writes_output (args : amap) : bool :=
    match mget args "pipeline", mget args "outputFile" with
    | Some _, Some o => negb (String.eqb o "console")
    | _, _ => false
    end.

  (* Preprocessors: as the pipes. *)
  Variable pre_run : pre_kind -> amap -> packet -> res packet.
  Variable pre_stats : pre_kind -> packet -> res packet.

  (* Preprocessing/preprocessor.cpp:41-89 preprocessor::runPreprocessorWrapper. *)
  Definition runPreprocessorWrapper (configured : bool) (k : pre_kind) (args : amap) (p : packet) : res packet :=
    if negb configured then Ok p
    else do p' <- pre_run k args p; pre_stats k p'.

  (* LHFmain/main.cpp:73-84 (and 95-106, 164-175): the preprocessing stage of the process*Wrapper functions. *)
  Definition preprocess (args : amap) (p : packet) : res packet :=
    let pre := fst (mread args "preprocessor") in
    if String.eqb pre "" then Ok p
    else match newPreprocessor pre with
         | Some k => let (ok, configured) := configPreprocessor k args in
                     if ok then runPreprocessorWrapper configured k args p else Ok p
         | None => Ok p
         end.

  (* LHFmain/main.cpp:70-88 processDataWrapper: the packet, the failed components, and whether the output is written. *)
  Definition processDataWrapper (args : amap) (p : packet) : res (packet * list string * bool) :=
    do p1 <- preprocess args p;
    do r <- runPipeline args p1;
    match r with
    | Some (p2, failed) => Ok (p2, failed, writes_output args)
    | None => Ok (p1, [], false)
    end.
End Driver.
