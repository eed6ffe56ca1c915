(* PipeModel.v -- the packet and the pipes of the default pipelines: /repo/Pipes/distMatrixPipe.cpp,
   neighGraphPipe.cpp, ripsPipe.cpp, fastPersistence.cpp (lines 33-41), pipePacket.cpp (definitions only). *)
From Coq Require Import String List Arith ZArith Bool.
From Verif Require Import Base UtilsModel ArrayListModel TreeModel FastModel ArgModel IndModel IndReduceModel.
Import ListNotations.

(* std::set<double, std::greater<double>>::insert on a strictly decreasing list. *)
Fixpoint dinsert (x : Z) (l : list Z) : list Z :=
  match l with
  | [] => [x]
  | y :: t => if (y <? x)%Z then x :: l else if (x <? y)%Z then y :: dinsert x t else l
  end.

(* m[i][j] = d *)
Definition set2 {A} (m : list (list A)) (i j : nat) (d : A) : res (list (list A)) :=
  do row <- at_ m i; do row' <- upd row j (fun _ => d); upd m i (fun _ => row').

Section DistMatrix.
  Variable P : Type.
  Variable is_empty : P -> bool.      (* std::vector<double>::empty *)
  Variable dist : P -> P -> Z.        (* utils::vectors_distance *)

  (* Pipes/distMatrixPipe.cpp:39-47: the inner loop for row i; the state is (distMatrix, weights). *)
  Definition dm_row (maxEpsilon : Z) (data : list P) (i : nat) (x : P) (st : list (list Z) * list Z)
    : res (list (list Z) * list Z) :=
    foldr_ub (fun '(m, ws) j =>
                do y <- at_ data j;
                let d := dist x y in
                let ws' := if (d <? maxEpsilon)%Z then dinsert d ws else ws in
                do m' <- set2 m i j d;
                Ok (m', ws'))
             st (seq (i + 1) (length data - (i + 1))).

  (* Pipes/distMatrixPipe.cpp:28-60 distMatrixPipe::runPipe: the matrix given to the complex, and the weights. *)
  Definition distMatrix_run (maxEpsilon : Z) (data : list P) (weights : list Z) : res (list (list Z) * list Z) :=
    do st <- foldr_ub (fun st '(i, x) => if is_empty x then Ok st else dm_row maxEpsilon data i x st)
                      (repeat (repeat 0%Z (length data)) (length data), weights) (enum 0 data);
    Ok (fst st, dinsert maxEpsilon (dinsert 0%Z (snd st))).
End DistMatrix.

(* The complex of a packet: a simplexArrayList, a simplexTree or an indSimplexTree with its maxEpsilon and maxDimension. *)
Inductive cx : Type :=
| CArray (eps maxDim : Z) (dm : list (list Z)) (wg : wgraph)
| CTree (eps maxDim : Z) (t : stree)
| CInd (eps maxDim : Z) (t : itree).

(* Pipes/pipePacket.hpp:10-30.  bettiOutput holds the lines (dimension, birth, death); stats holds for every line the
   pipe and the two counts (the times and sizes are left out); boundaries is left out.  complex may be null. *)
Record packet : Type := mkPacket {
  pk_data : list (list Z); pk_labels : list nat; pk_full : list (list Z);
  pk_weights : list Z; pk_complex : option cx;
  pk_output : list (nat * Z * Z); pk_table : list bettiEntry;
  pk_stats : list (pipe_kind * Z * Z) }.

Definition set_complex (p : packet) (c : cx) : packet :=
  mkPacket (pk_data p) (pk_labels p) (pk_full p) (pk_weights p) (Some c) (pk_output p) (pk_table p) (pk_stats p).

(* Reading through the pointer: null is undefined. *)
Definition deref (p : packet) : res cx := match pk_complex p with Some c => Ok c | None => UB end.

(* The virtual functions of the complex.  simplexTree::expandDimensions and indSimplexTree::expandDimensions are empty
   (simplexTree.hpp:49, indSimplexTree.hpp:54). *)
Definition cx_setDistanceMatrix (dm : list (list Z)) (c : cx) : cx :=
  match c with
  | CArray e d _ wg => CArray e d dm wg
  | CTree e d t => CTree e d (st_setDistanceMatrix dm t)
  | CInd e d t => CInd e d (ind_setDistanceMatrix dm t)
  end.
Definition cx_insert (v : list Z) (c : cx) : res cx :=
  match c with
  | CArray e d dm wg => rmap (CArray e d dm) (al_insert dm e d (match v with [] => true | _ => false end) wg)
  | CTree e d t => rmap (CTree e d) (st_insert e d t)
  | CInd e d t => rmap (CInd e d) (ind_insert e d t)
  end.
Definition cx_expand (dim : Z) (c : cx) : res cx :=
  match c with
  | CArray e d dm wg => rmap (CArray e d dm) (expandDimensions dim wg)
  | CTree e d t => Ok (CTree e d t)
  | CInd e d t => Ok (CInd e d t)
  end.
Definition cx_getAllEdges (srt : list wsimp -> list wsimp) (epsilon : Z) (c : cx) : wgraph * cx :=
  match c with
  | CArray e d dm wg => (getAllEdges srt wg epsilon, c)
  | CTree e d t => let (edges, t') := st_getAllEdges srt t in (edges, CTree e d t')
  | CInd e d t => let (edges, t') := ind_getAllEdges srt t in (edges, CInd e d t')
  end.
Definition cx_vertexCount (c : cx) : Z :=
  match c with
  | CArray _ _ _ wg => Z.of_nat (al_vertexCount wg)
  | CTree _ _ t => Z.of_nat (st_vertexCount t)
  | CInd _ _ t => ind_vertexCount t
  end.
Definition cx_simplexCount (c : cx) : Z :=
  match c with
  | CArray _ _ _ wg => Z.of_nat (al_simplexCount wg)
  | CTree _ _ t => st_simplexCount t
  | CInd _ _ t => ind_simplexCount t
  end.
(* indSimplexTree::reduceComplex with enough steps for its recursion (C81). *)
Definition ind_reduce (maxDim : Z) (t : itree) : res itree :=
  match ind_reduceComplex maxDim (S (length (nth 2 (i_dims t) []))) t with Some (Ok tf) => Ok (fst tf) | _ => UB end.

Open Scope string_scope.
Section Pipes.
  Variable dist : list Z -> list Z -> Z.            (* utils::vectors_distance *)
  Variables atoi atof : string -> Z.                (* std::atoi, std::atof *)
  Variable srt : list wsimp -> list wsimp.          (* std::sort by weight *)
  Variable past_end : list nat -> nat -> res nat.   (* what a list's end() reads (FastModel.v) *)
  Variable nc0 : Z.                                 (* the uninitialised nodeCount of a new simplexTree or indSimplexTree *)
  Variable al_reduce : wgraph -> res wgraph.        (* simplexArrayList::reduceComplex *)
  Variable other : pipe_kind -> amap -> packet -> res packet.   (* the pipes not modelled here *)

  (* Complex/simplexBase.cpp:13-47 (constructor, setConfig), 56-73 newSimplex, Pipes/pipePacket.cpp:15-19.  Without a
     "dimensions" or "epsilon" option the members stay uninitialised (UB); null for an unknown type. *)
  Definition newSimplex (complexType : string) (args : amap) : res (option cx) :=
    match mget args "dimensions", mget args "epsilon" with
    | Some d, Some e =>
        Ok (if String.eqb complexType "simplexTree" then Some (CTree (atof e) (atoi d) (st_new [] nc0))
            else if String.eqb complexType "simplexArrayList" then Some (CArray (atof e) (atoi d) [] [])
            else if String.eqb complexType "indSimplexTree" then Some (CInd (atof e) (atoi d) (ind_new [] nc0))
            else None)
    | _, _ => UB
    end.

  Definition opt (args : amap) (k : string) : string := match mget args k with Some v => v | None => "" end.

  (* Pipes/distMatrixPipe.cpp:28-60. *)
  Definition run_distMatrix (args : amap) (p : packet) : res packet :=
    do mw <- distMatrix_run (list Z) (fun v => match v with [] => true | _ => false end) dist (atof (opt args "epsilon")) (pk_data p) (pk_weights p);
    do c <- deref p;
    Ok (mkPacket (pk_data p) (pk_labels p) (pk_full p) (snd mw) (Some (cx_setDistanceMatrix (fst mw) c))
                 (pk_output p) (pk_table p) (pk_stats p)).

  (* Pipes/neighGraphPipe.cpp:24-35. *)
  Definition run_neighGraph (args : amap) (p : packet) : res packet :=
    foldr_ub (fun p v => match v with
                         | [] => Ok p
                         | _ => do c <- deref p; do c' <- cx_insert v c; Ok (set_complex p c')
                         end) p (pk_data p).

  (* Pipes/ripsPipe.cpp:29-43.  dim is uninitialised without a "dimensions" option (undefined). *)
  Definition run_rips (args : amap) (p : packet) : res packet :=
    match mget args "dimensions" with
    | None => UB
    | Some d =>
        do c <- deref p;
        do c1 <- cx_expand (atoi d) c;
        let collapse := opt args "collapse" in
        do c2 <- (if String.eqb collapse "true" || String.eqb collapse "1" then
                    match c1 with
                    | CArray e m dm wg => rmap (CArray e m dm) (al_reduce wg)
                    | CTree e m t => Ok c1          (* st_reduceComplex does nothing: C43 *)
                    | CInd e m t => rmap (CInd e m) (ind_reduce m t)
                    end
                  else Ok c1);
        Ok (set_complex p c2)
    end.

  (* Pipes/fastPersistence.cpp:33-276 (fp_run is the part after getAllEdges). *)
  Definition run_fast (args : amap) (p : packet) : res packet :=
    let dim := atoi (opt args "dimensions") in
    let eps := atof (opt args "epsilon") in
    do c <- deref p;
    do c1 <- (if (0 <? dim)%Z then cx_expand (dim + 1) c else Ok c);
    let (edges, c2) := cx_getAllEdges srt eps c1 in
    do r <- fp_run past_end dim eps edges (pk_table p);
    let p' := set_complex p c2 in
    match r with
    | None => Ok p'
    | Some (lines, tab) =>
        Ok (mkPacket (pk_data p') (pk_labels p') (pk_full p') (pk_weights p') (pk_complex p') lines tab (pk_stats p'))
    end.

  Definition run_pipe (k : pipe_kind) (args : amap) (p : packet) : res packet :=
    match k with
    | KDistMatrix => run_distMatrix args p
    | KNeighGraph => run_neighGraph args p
    | KRips => run_rips args p
    | KFastPersistence => run_fast args p
    | _ => other k args p
    end.

  (* Pipes/basePipe.cpp:91: the line of statistics. *)
  Definition add_stats (k : pipe_kind) (p : packet) : res packet :=
    do c <- deref p;
    Ok (mkPacket (pk_data p) (pk_labels p) (pk_full p) (pk_weights p) (pk_complex p) (pk_output p) (pk_table p)
                 (pk_stats p ++ [(k, cx_vertexCount c, cx_simplexCount c)])%list).

  (* LHFmain/main.cpp:264-272: the packet main starts with. *)
  Definition new_packet (args : amap) (data : list (list Z)) : res packet :=
    do c <- newSimplex (opt args "complexType") args;
    Ok (mkPacket data [] data [] c [] [] []).

  (* LHFmain/main.cpp: new packet, then runPipeline. *)
  Definition run_program (args : amap) (data : list (list Z)) : res (option (packet * list string)) :=
    do p <- new_packet args data;
    runPipeline packet run_pipe add_stats args p.
End Pipes.
