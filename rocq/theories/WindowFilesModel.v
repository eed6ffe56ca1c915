(* WindowFilesModel.v -- the files that the sliding window writes while it runs (definitions only). *)
From Coq Require Import String List Arith ZArith Bool DecimalString.
From Verif Require Import Base UtilsModel ArrayListModel TreeModel FastModel ArgModel PipeModel WindowModel DebugModel.
Import ListNotations.
Local Open Scope string_scope. Local Open Scope nat_scope. Local Open Scope list_scope.

(* Pipes/slidingWindow.cpp:776: the name; pipeType is "SlidingWindow" (line 24), repCounter is shown by std::to_string. *)
Definition window_file (rep : nat) : string := ("output/SlidingWindow_" ++ NilEmpty.string_of_uint (Nat.to_uint rep) ++ "_output.csv")%string.
(* Pipes/slidingWindow.cpp:774-790 outputData: a line for every vector, then an empty line (line 786). *)
Definition window_rows (data : list (list Z)) : list row := map RNumbers data ++ [RText ""%string].

Section Files.
  Variable dist : list Z -> list Z -> Z.
  Variables atoi atof : string -> Z.
  Variable srt : list wsimp -> list wsimp.
  Variable past_end : list nat -> nat -> res nat.
  Variable al_reduce : wgraph -> res wgraph.
  Variable one : Z.

  (* Pipes/slidingWindow.cpp:611-622, the beginning of runSubPipeline: nothing without data; otherwise outputData, whatever the
     option debug says, and the next number.  repCounter starts at 0 (slidingWindow.hpp:13); the state is the counter and the files.
     The pipes of the sub-pipeline write no files unless debug is set, which is left out here. *)
  Definition sub_output (data : list (list Z)) (st : nat * files) : nat * files :=
    match data with
    | [] => st
    | _ => (S (fst st), snd st ++ [(window_file (fst st), window_rows data)])
    end.

  (* Pipes/slidingWindow.cpp:519-577: the body of the loop; originalData is the window when runSubPipeline is called (line 570). *)
  Definition step_files (args : amap) (st : sliding * (nat * files)) (v : list Z) : res (sliding * (nat * files)) :=
    let (s, out) := st in
    do s' <- sliding_step dist atoi atof srt past_end al_reduce one args s v;
    Ok (s', if (sw_counter s mod 100 =? 0) && (windowMaxSize <? sw_counter s) then sub_output (sw_window s') out else out).

  (* Pipes/slidingWindow.cpp:499-596 runPipe; line 587 runs the sub-pipeline once more on the packet as it is. *)
  Definition sliding_run_files (args : amap) (rows : option (list (list Z))) (p : packet)
    : res (packet * list (list Z) * params * list report * files) :=
    match rows with
    | None => Ok (p, [], params0, [], [])
    | Some rows =>
        do t <- foldr_ub (step_files args) (mkSliding [] params0 p 1 [], (0, [])) rows;
        let (s, out) := t in
        do e <- (if negb ((sw_counter s - 1) mod 100 =? 0)
                 then do rep <- report_of (sw_counter s) (sw_packet s);
                      let out' := sub_output (pk_data (sw_packet s)) out in
                      do p' <- sliding_sub dist atoi atof srt past_end al_reduce args (sw_packet s);
                      Ok (p', sw_reports s ++ [rep], out')
                 else Ok (sw_packet s, sw_reports s, out));
        let '(p', reports, out') := e in
        do _ <- deref p';
        Ok (p', sw_window s, sw_params s, reports, snd out')
    end.
End Files.
