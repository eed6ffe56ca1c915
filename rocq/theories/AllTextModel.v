(* AllTextModel.v -- the program with all its pipes in double arithmetic, from the text of the input to the text of the barcode
   file (definitions only). *)
From Coq Require Import String Ascii List Arith ZArith Bool SpecFloat.
From Verif Require Import Base UtilsModel ArrayListModel FastModel ArgModel IoModel PipeModel WindowModel MainModel AllModel.
From Verif Require Import DoubleModel SpecDouble DoubleRuns SpecText TextModel ReadModel NanModel SlideDoubleModel.
Import ListNotations.
Local Open Scope string_scope. Local Open Scope nat_scope. Local Open Scope list_scope.

(* Pipes/persistencePairs.cpp:249, 264, Pipes/optPersistencePairs.cpp:686, 703 and Pipes/boundaryPipe.cpp:296: one line of bettiOutput. *)
Definition pair_text (l : nat * Z * Z) : text :=
  show (Z.of_nat (fst (fst l))) ++ comma :: to_string (at_place (snd (fst l))) ++ comma :: to_string (at_place (snd l)) ++ [newline].
(* The bettiOutput that a pipe assigns, if it assigns it: Pipes/fastPersistence.cpp:38, 273, Pipes/persistencePairs.cpp:203, 281,
   Pipes/optPersistencePairs.cpp:522, 723 and Pipes/boundaryPipe.cpp:284, 327. *)
Definition betti_text (k : pipe_kind) (lines : list (nat * Z * Z)) : option text :=
  match k with
  | KFastPersistence => Some (concat (map (bar_text at_place) lines))
  | KPersistencePairs => Some (list_ascii_of_string "dim,birth,death" ++ newline :: concat (map pair_text lines))
  | KOptPersistencePairs => Some (list_ascii_of_string "curIndex,index,dim,birth,death" ++ newline :: concat (map pair_text lines))
  | KBoundary => Some (list_ascii_of_string "Dim,Birth,Death" ++ newline :: concat (map pair_text lines))
  | _ => None
  end.
(* bettiOutput at the end of a run: the last pipe that assigns it decides (the statistics have an entry for every pipe that was
   run, Pipes/basePipe.cpp:91).  It is empty before. *)
Definition output_text (stats : list (pipe_kind * Z * Z)) (lines : list (nat * Z * Z)) : text :=
  fold_left (fun t x => match betti_text (fst (fst x)) lines with Some t' => t' | None => t end) stats [].

Section Program.
  Variable square : double -> double.               (* pow(x, 2) *)
  Variable srt : list wsimp -> list wsimp.
  Variable past_end : list nat -> nat -> res nat.
  Variable nc0 : Z.
  Variable al_reduce : wgraph -> res wgraph.
  Variable one : Z.                                 (* see AllModel.v *)
  Variable file : string -> option text.            (* the files that can be opened *)
  Variable stopped : res packet.                    (* a pipe that does not return *)
  Variable pre_run : pre_kind -> amap -> packet -> res packet.
  Variable pre_stats : pre_kind -> packet -> res packet.
  Variable uaf : res unit.

  (* LHFmain/main.cpp:232-305 main, 53-63 and Utils/writeOutput.cpp:38-42: the names and texts of the barcode
     files of one run of a pipeline.  Not for the mode sw (SlideDoubleModel.v has its arithmetic), nor for the mode reduced. *)
  Definition lhf_texts (argv : list string) : res (list (string * text)) :=
    do m <- parse argv;
    let dist := coded_dist square (nan_place (opt (setPipeline m) "complexType")) in
    do r <- lhf_all dist d_atoi d_atof srt past_end nc0 al_reduce one d_stod file stopped pre_run pre_stats uaf argv;
    match r with
    | Ran q files => Ok (map (fun f => (fst f, barcode_header ++ output_text (pk_stats q) (snd f))) files)
    | _ => Ok []
    end.
End Program.
