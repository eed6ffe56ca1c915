(* StatsModel.v -- the lines of statistics a run writes: /repo/Pipes/basePipe.cpp (the wrapper), pipePacket.cpp (getSize) and the
   getSize functions of the complexes (definitions only). *)
From Coq Require Import String List Arith ZArith QArith Bool.
From Verif Require Import Base UtilsModel ArrayListModel TreeModel FastModel ArgModel IndModel PipeModel.
Import ListNotations.
Local Open Scope Z_scope.
Local Open Scope list_scope.

(* The sizes of the C++ types: std::pair<std::set<unsigned>,double>, simplexTree::treeNode, and indSimplexTree::indTreeNode
   together with graphEntry. *)
Record sizes : Type := mkSizes { sz_entry : Z; sz_node : Z; sz_ind : Z }.

(* Complex/simplexArrayList.cpp:15-27, simplexTree.cpp:362-365, indSimplexTree.cpp:603-606: getSize.  nodeCount is an int
   that is multiplied with a size_t, so a negative one wraps around.  That the result is rounded to a double is left out:
   it is exact below 2^53. *)
Definition cx_size (sz : sizes) (c : cx) : Z :=
  match c with
  | CArray _ _ _ wg => fold_left (fun size l => size + Z.of_nat (length l) * sz_entry sz) wg 0
  | CTree _ _ t => (st_count t * sz_node sz) mod 2 ^ 64
  | CInd _ _ t => (ind_simplexCount t * sz_ind sz) mod 2 ^ 64
  end.
(* Pipes/pipePacket.cpp:23-38 pipePacket::getSize: sizeof(double) is 8; the sum is computed in double and converted back
   to size_t, which is undefined if it does not fit. *)
Definition packet_size (sz : sizes) (p : packet) : res Z :=
  let values := fold_left (fun size row => fold_left (fun size _ => size + 8) row size) (pk_data p) 0 in
  do c <- deref p;
  let size := values + cx_size sz c in
  if size <? 2 ^ 64 then Ok size else UB.

(* Pipes/basePipe.cpp:73-89: the number and the unit that are shown. *)
Definition shown (size : Z) : Q * string :=
  if 1000000000 <? size then (size # 1000000000, "GB"%string)
  else if 1000000 <? size then (size # 1000000, "MB"%string)
  else if 1000 <? size then (size # 1000, "KB"%string)
  else (inject_Z size, "B"%string).

(* The pipeType each constructor sets (e.g. Pipes/distMatrixPipe.cpp:22-25); persistencePairs.cpp:24 and
   optPersistencePairs.cpp:24 set the same. *)
Definition pipe_type (k : pipe_kind) : string :=
  match k with
  | KDistMatrix => "DistMatrix" | KNeighGraph => "neighGraph" | KRips => "ripsPipe" | KUpscale => "Upscale"
  | KBoundary => "Boundary" | KPersistencePairs => "PersistencePairs" | KOptPersistencePairs => "PersistencePairs"
  | KSlidingWindow => "SlidingWindow" | KFastPersistence => "FastPersistence" | KNaiveWindow => "NaiveWindow"
  end%string.

(* A line of statistics; the time is left out. *)
Record stat_line : Type := mkLine { l_pipe : string; l_size : Q; l_unit : string; l_vertices : Z; l_simplices : Z }.

(* Pipes/basePipe.cpp:73-91. *)
Definition line_of (sz : sizes) (k : pipe_kind) (p : packet) : res stat_line :=
  do size <- packet_size sz p;
  do c <- deref p;
  Ok (mkLine (pipe_type k) (fst (shown size)) (snd (shown size)) (cx_vertexCount c) (cx_simplexCount c)).
Definition stats_and_line (sz : sizes) (k : pipe_kind) (pl : packet * list stat_line) : res (packet * list stat_line) :=
  do l <- line_of sz k (fst pl);
  do p <- add_stats k (fst pl);
  Ok (p, snd pl ++ [l]).

(* The program with the lines it reports. *)
Definition run_program_stats sz dist atoi atof srt past_end nc0 al_reduce other (args : amap) (data : list (list Z))
  : res (option (packet * list stat_line * list string)) :=
  do p <- new_packet atoi atof nc0 args data;
  runPipeline (packet * list stat_line)
    (fun k a pl => do p' <- run_pipe dist atoi atof srt past_end al_reduce other k a (fst pl); Ok (p', snd pl))
    (stats_and_line sz) args (p, []).

(* Utils/writeOutput.cpp:24-30 writeStats, called from LHFmain/main.cpp:56-63: the name of the file, its first line and the
   others. *)
Definition stats_file (args : amap) (lines : list stat_line) : option (string * string * list stat_line) :=
  if writes_output args
  then Some ((opt args "outputFile" ++ "_stats.csv")%string,
             "PipeName,PhysExecutionTime,MemorySize,MemoryUnits,VertexCount,SimplexCount"%string, lines)
  else None.
