(* SlideDoubleModel.v -- the program in the mode sw (the sliding window) in double arithmetic, from the text of the input to the text of
   the barcode file (definitions only). *)
From Coq Require Import String Ascii List Arith ZArith Bool SpecFloat.
From Verif Require Import Base UtilsModel ArrayListModel FastModel ArgModel IoModel PipeModel EvalModel WindowModel MainModel AllModel.
From Verif Require Import DoubleModel SpecDouble DoubleRuns SpecText TextModel ReadModel NanModel EvalDoubleModel.
Import ListNotations.
Local Open Scope string_scope. Local Open Scope nat_scope. Local Open Scope list_scope.

Section Slide.
  Variable square : double -> double.               (* pow(x, 2) *)
  (* What the evaluator does after the window has several partitions, and after the loop at line 74 has read all its distances. *)
  Variable rest : evaluator_type.

  (* Pipes/slidingWindow.cpp:306-354 nnBasedEvaluator.  Vectors are coded as in DoubleRuns.v and nearest-neighbour distances by their
     rank.  A simplification: the average of line 545 is computed here from the stored distances, which change only after a vector
     has been admitted.  For an admitted vector deleteNNstats erases a distance (line 40; indexToBeDeleted is 0, line 336), and then the
     loop of updateStats (lines 74-76) reads a distance for every row of the matrix. *)
  Definition evaluator_doubles : evaluator_type := fun v window st m =>
    if negb (length (sp_avg st) =? 1) then rest v window st m
    else
      do dists <- d_distances square (map of_whole v) (map (map of_whole) window);
      match d_min dists with
      | None => UB
      | Some nearest =>
          if admits (d_average (map at_place (sp_nnDists st))) nearest then
            do dists' <- erase_at dists 0;
            do _ <- foldr_ub (fun _ i => do _ <- at_ dists' i; Ok tt) tt (seq 0 (length m));
            rest v window st m
          else Ok (false, window, st, m)
      end.

  Variable srt : list wsimp -> list wsimp.
  Variable past_end : list nat -> nat -> res nat.
  Variable nc0 : Z.
  Variable al_reduce : wgraph -> res wgraph.
  Variable other : pipe_kind -> amap -> packet -> res packet.
  Variable pre_run : pre_kind -> amap -> packet -> res packet.
  Variable pre_stats : pre_kind -> packet -> res packet.
  Variable uaf : res unit.
  Variable file : string -> option text.            (* the files that can be opened *)
  Variable stopped : res packet.                    (* std::stod throws in the window *)

  Definition d_atoi (s : string) : Z := ReadModel.atoi (list_ascii_of_string s).
  Definition d_atof (s : string) : Z := rank (ReadModel.atof (list_ascii_of_string s)).
  Definition d_stod (t : text) : option Z := option_map to_whole (ReadModel.stod t).
  (* Pipes/slidingWindow.cpp:499-596; the other pipes are left open. *)
  Definition pipes_doubles (dist : list Z -> list Z -> Z) (k : pipe_kind) (args : amap) (p : packet) : res packet :=
    match k with
    | KSlidingWindow =>
        match stream_of_file d_stod file (opt args "inputFile") with
        | None => stopped
        | Some rows =>
            do r <- sliding_run_with dist d_atoi d_atof srt past_end al_reduce evaluator_doubles args rows p;
            Ok (fst (fst (fst r)))
        end
    | _ => other k args p
    end.

  (* LHFmain/main.cpp:232-305 main: the names and texts of the barcode files. *)
  Definition lhf_stream (argv : list string) : res (list (string * text)) :=
    do m <- parse argv;
    let dist := coded_dist square (nan_place (opt (setPipeline m) "complexType")) in
    do r <- lhf dist d_atoi d_atof srt past_end nc0 al_reduce (pipes_doubles dist) pre_run pre_stats uaf d_stod file argv;
    match r with
    | Ran _ files => Ok (map (fun f => (fst f, barcode_text at_place (snd f))) files)
    | _ => Ok []
    end.
End Slide.
