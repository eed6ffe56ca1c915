(* WindowModel.v -- /repo/Pipes/naiveWindow.cpp and Pipes/slidingWindow.cpp (definitions only).
   The text of the input file is read by IoModel.v; here [rows] are the vectors that the loop
   while(rp.streamRead(currentVector)) sees (stream_rows), and None stands for a file that cannot be opened. *)
From Coq Require Import Ascii String List Arith ZArith QArith Bool.
From Verif Require Import Base UtilsModel ArrayListModel TreeModel FastModel ArgModel GaussModel IndModel PipeModel.
From Verif Require Export EvalModel.
Import ListNotations.

(* A point printed on the console: pointCounter, simplexCount(), vertexCount(). *)
Definition report : Type := (nat * Z * Z)%type.

Definition set_data (p : packet) (d : list (list Z)) : packet :=
  mkPacket d (pk_labels p) (pk_full p) (pk_weights p) (pk_complex p) (pk_output p) (pk_table p) (pk_stats p).
Definition report_of (n : nat) (p : packet) : res report :=
  do c <- deref p; Ok (n, cx_simplexCount c, cx_vertexCount c).

Local Open Scope string_scope. Local Open Scope nat_scope. Local Open Scope list_scope.
Section Windows.
  Variable dist : list Z -> list Z -> Z.            (* utils::vectors_distance *)
  Variables atoi atof : string -> Z.
  Variable srt : list wsimp -> list wsimp.
  Variable past_end : list nat -> nat -> res nat.
  Variable al_reduce : wgraph -> res wgraph.

  (* Pipes/persistencePairs.cpp:173-284 as a pipe; bettis is a member of the pipe, new for every call. *)
  Definition run_pairs (args : amap) (p : packet) : res packet :=
    do c <- deref p;
    let (edges, c2) := cx_getAllEdges srt (atof (opt args "epsilon")) c in
    do lines <- pp_run (atoi (opt args "dimensions")) (atof (opt args "epsilon")) edges;
    let p' := set_complex p c2 in
    Ok (mkPacket (pk_data p') (pk_labels p') (pk_full p') (pk_weights p') (pk_complex p') lines (pk_table p') (pk_stats p')).

  (* The pipes of the sub-pipelines. *)
  Definition run_sub_pipe : pipe_kind -> amap -> packet -> res packet :=
    run_pipe dist atoi atof srt past_end al_reduce
      (fun k args p => match k with KPersistencePairs => run_pairs args p | _ => UB end).

  (* Pipes/naiveWindow.cpp:166-184 and slidingWindow.cpp:620-645: the loop over the components, all created for
     "simplexTree"; subConfigMap is the configuration of the window. *)
  Fixpoint sub_loop (fuel : nat) (args : amap) (functs : string) (p : packet) : res packet :=
    match fuel with
    | O => Ok p
    | S fuel' =>
        do p' <- match newPipe (curFunct functs) "simplexTree" with
                 | Some k => let (ok, configured) := configPipe k args in
                             if ok then runPipeWrapper packet run_sub_pipe add_stats configured k args p else Ok p
                 | None => Ok p
                 end;
        sub_loop fuel' args (pipeRest functs) p'
    end.
  Definition sub_pipeline (args : amap) (functs : string) (p : packet) : res packet :=
    match pk_data p with
    | [] => Ok p
    | _ => sub_loop (count_char "."%char functs + 1) args functs p
    end.

  (* ---- naiveWindow *)

  (* Complex/simplexTree.cpp:190-208 insertIterative (removedSimplices is read nowhere); the other complexes inherit
     Complex/simplexBase.cpp:101-104, which returns false.  streamEval is naiveWindow::sampleStreamEvaluator
     (Pipes/naiveWindow.cpp:25-28), always true. *)
  Definition naive_insertIterative (c : cx) : bool :=
    match c with CTree _ _ _ => true | CArray _ _ _ _ | CInd _ _ _ => false end.

  Record naive : Type := mkNaive { nw_window : list (list Z); nw_packet : packet; nw_counter : nat; nw_reports : list report }.

  (* Pipes/naiveWindow.cpp:57-98: the body of the loop for one vector. *)
  Definition naive_step (args : amap) (s : naive) (v : list Z) : res naive :=
    do wp <- (if length (nw_window s) <? 50 then
                let w := (nw_window s ++ [v])%list in
                if length w =? 50 then
                  do p <- sub_pipeline args "distMatrix.neighGraph" (set_data (nw_packet s) w);
                  do _ <- deref p;                       (* setStreamEvaluator *)
                  Ok (w, p)
                else Ok (w, nw_packet s)
              else
                do c <- deref (nw_packet s);
                if naive_insertIterative c then Ok ((tl (nw_window s) ++ [v])%list, nw_packet s)
                else Ok (nw_window s, nw_packet s));
    let (w, p) := wp in
    if (nw_counter s mod 100 =? 0) && (50 <? nw_counter s) then
      do r <- report_of (nw_counter s) p;
      Ok (mkNaive w (set_data p w) (S (nw_counter s)) (nw_reports s ++ [r])%list)
    else Ok (mkNaive w p (S (nw_counter s)) (nw_reports s)).

  (* Pipes/naiveWindow.cpp:31-115 naiveWindow::runPipe: the packet, the window and the reports. *)
  Definition naive_run (args : amap) (rows : option (list (list Z))) (p : packet) : res (packet * list (list Z) * list report) :=
    match rows with
    | None => Ok (p, [], [])
    | Some rows =>
        do s <- foldr_ub (naive_step args) (mkNaive [] p 1 []) rows;
        do reports <- (if negb ((nw_counter s - 1) mod 100 =? 0)
                       then do r <- report_of (nw_counter s) (nw_packet s); Ok (nw_reports s ++ [r])%list
                       else Ok (nw_reports s));
        do _ <- deref (nw_packet s);                     (* writeComplexStats *)
        Ok (nw_packet s, nw_window s, reports)
    end.

  (* ---- slidingWindow *)

  Variable one : Z.                                 (* the number 1.0, as in EvalModel.v *)

  (* Pipes/slidingWindow.cpp:495: the initial state, with windowMaxSize 200. *)
  Definition params0 : params := mkParams 0 0 [] [] [] [] [] [] [].
  Definition windowMaxSize : nat := 200.

  (* Pipes/slidingWindow.cpp:668-703: one row i of the distance matrix, and the nearest other point of i.  The state is
     the matrix and the weights. *)
  Definition nn_row (epsilon : Z) (data : list (list Z)) (i : nat) (x : list Z) (st : list (list Z) * list Z)
    : res (list (list Z) * list Z * list Z) :=
    foldr_ub (fun '(m, ws, ds) j =>
                if j <? i then do d <- dm_at m j i; Ok (m, ws, (ds ++ [d])%list)
                else if i <? j then
                  do y <- at_ data j;
                  let d := dist x y in
                  do m' <- set2 m i j d;
                  Ok (m', if (d <? epsilon)%Z then dinsert d ws else ws, (ds ++ [d])%list)
                else Ok (m, ws, ds))
             (fst st, snd st, []) (seq 0 (length data)).
  Definition nn_rows (epsilon : Z) (data : list (list Z)) (weights : list Z) (idx : list nat) (nnd : list Z)
    : res (list (list Z) * list Z * list nat * list Z) :=
    foldr_ub (fun '(m, ws, idx, nnd) '(i, x) =>
                match x with
                | [] => Ok (m, ws, idx, nnd)
                | _ =>
                    do r <- nn_row epsilon data i x (m, ws);
                    let '(m', ws', ds) := r in
                    match min_pos ds with
                    | None => UB
                    | Some (t, d) => Ok (m', ws', (idx ++ [if t <? i then t else t + 1])%list, (nnd ++ [d])%list)
                    end
                end)
             (repeat (repeat 0%Z (length data)) (length data), weights, idx, nnd) (enum 0 data).
  (* Pipes/slidingWindow.cpp:650-727 runComplexInitializer; the second part is the loop of neighGraphPipe. *)
  Definition initializer (args : amap) (p : packet) (idx : list nat) (nnd : list Z) : res (packet * list nat * list Z) :=
    let epsilon := atof (opt args "epsilon") in
    do r <- nn_rows epsilon (pk_data p) (pk_weights p) idx nnd;
    let '(m, ws, idx', nnd') := r in
    do c <- deref p;
    let p1 := mkPacket (pk_data p) (pk_labels p) (pk_full p) (dinsert epsilon (dinsert 0%Z ws))
                       (Some (cx_setDistanceMatrix m c)) (pk_output p) (pk_table p) (pk_stats p) in
    do p2 <- run_neighGraph args p1;
    Ok (p2, idx', nnd').

  Definition cx_distMatrix (c : cx) : list (list Z) := 
    match c with CArray _ _ dm _ => dm | CTree _ _ t => st_dm t | CInd _ _ t => i_dm t end.

  (* The evaluator that is set at Pipes/slidingWindow.cpp:540 is left open here; EvalModel.v has it with exact averages and
     SlideDoubleModel.v in double arithmetic. *)
  Definition evaluator_type : Type := list Z -> list (list Z) -> params -> list (list Z) -> res (bool * list (list Z) * params * list (list Z)).
  (* insertIterative with an evaluator (a window that is empty is accepted unseen). *)
  Definition insertIterative_with (evaluator : evaluator_type) (c : cx) (v : list Z) (window : list (list Z)) (st : params) (p : packet)
    : res (bool * list (list Z) * params * packet) :=
    match c with
    | CArray _ _ _ _ | CInd _ _ _ => Ok (false, window, st, p)
    | CTree _ _ _ =>
        match window with
        | [] => Ok (true, window, st, p)
        | _ => do r <- evaluator v window st (cx_distMatrix c);
               let '(accepted, w, st', m) := r in
               Ok (accepted, w, st', if accepted then set_complex p (cx_setDistanceMatrix m c) else p)
        end
    end.

  Record sliding : Type := mkSliding { sw_window : list (list Z); sw_params : params; sw_packet : packet; sw_counter : nat; sw_reports : list report }.

  (* Pipes/slidingWindow.cpp:611-648 runSubPipeline works on a copy of the packet, which shares the complex; what it
     leaves behind is the state of the complex. *)
  Definition sliding_sub (args : amap) (p : packet) : res packet :=
    do q <- sub_pipeline args "rips.persistence" p;
    Ok (match pk_complex q with Some c => set_complex p c | None => p end).

  (* Pipes/slidingWindow.cpp:519-577: the body of the loop for one vector. *)
  Definition sliding_step_with (evaluator : evaluator_type) (args : amap) (s : sliding) (v : list Z) : res sliding :=
    let st := sw_params s in
    do r <- (if length (sw_window s) <? windowMaxSize then
               let w := (sw_window s ++ [v])%list in
               let st1 := mkParams (S (sp_key st)) (sp_target st) (sp_keys st ++ [sp_key st])%list (sp_labels st ++ [sp_target st])%list
                                   (sp_nnIndices st) (sp_nnDists st) (sp_avg st) (sp_num st) (sp_maxKeys st) in
               if length w =? windowMaxSize then
                 do i <- initializer args (set_data (sw_packet s) w) [] (sp_nnDists st1);
                 let '(p, idx, nnd) := i in
                 do _ <- deref p;                        (* setStreamEvaluator *)
                 let t := sp_target st1 in
                 Ok (w, mkParams (sp_key st1) t (sp_keys st1) (sp_labels st1) (sp_nnIndices st1 ++ map Z.of_nat idx)%list nnd
                                 (zput (sp_avg st1) t (inject_Z (fold_left Z.add nnd 0%Z) / inject_Z (Z.of_nat (length nnd)))%Q)
                                 (zput (sp_num st1) t (Z.of_nat windowMaxSize)) (zput (sp_maxKeys st1) t (sp_key st1 - 1)), p)
               else Ok (w, st1, sw_packet s)
             else
               do c <- deref (sw_packet s);
               do e <- insertIterative_with evaluator c v (sw_window s) st (sw_packet s);
               let '(accepted, w, st1, p) := e in
               if accepted then
                 let t := sp_target st1 in
                 Ok ((w ++ [v])%list,
                     mkParams (S (sp_key st1)) t (sp_keys st1 ++ [sp_key st1])%list (sp_labels st1 ++ [t])%list (sp_nnIndices st1) (sp_nnDists st1)
                              (sp_avg st1) (sp_num st1) (zput (sp_maxKeys st1) t (sp_key st1)), p)
               else Ok (w, st1, p));
    let '(w, st', p) := r in
    if (sw_counter s mod 100 =? 0) && (windowMaxSize <? sw_counter s) then
      do rep <- report_of (sw_counter s) p;
      do p' <- sliding_sub args (set_data p w);
      Ok (mkSliding w st' p' (S (sw_counter s)) (sw_reports s ++ [rep])%list)
    else Ok (mkSliding w st' p (S (sw_counter s)) (sw_reports s)).

  (* Pipes/slidingWindow.cpp:499-596 slidingWindow::runPipe on the first call (defaultVals is static). *)
  Definition sliding_run_with (evaluator : evaluator_type) (args : amap) (rows : option (list (list Z))) (p : packet) : res (packet * list (list Z) * params * list report) :=
    match rows with
    | None => Ok (p, [], params0, [])
    | Some rows =>
        do s <- foldr_ub (sliding_step_with evaluator args) (mkSliding [] params0 p 1 []) rows;
        do e <- (if negb ((sw_counter s - 1) mod 100 =? 0)
                 then do rep <- report_of (sw_counter s) (sw_packet s);
                      do p' <- sliding_sub args (sw_packet s);
                      Ok (p', sw_reports s ++ [rep])%list
                 else Ok (sw_packet s, sw_reports s));
        let (p', reports) := e in
        do _ <- deref p';                                (* writeComplexStats *)
        Ok (p', sw_window s, sw_params s, reports)
    end.

  (* The same with the evaluator of Pipes/slidingWindow.cpp:306-451. *)
  Definition sliding_step : amap -> sliding -> list Z -> res sliding := sliding_step_with (nnBasedEvaluator dist one windowMaxSize).
  Definition sliding_run : amap -> option (list (list Z)) -> packet -> res (packet * list (list Z) * params * list report) :=
    sliding_run_with (nnBasedEvaluator dist one windowMaxSize).
End Windows.
