(* ProgramModel.v -- the program from the text of its input to the text of its output (definitions only): main of
   MainModel.v with the doubles of DoubleModel.v, and std::stod, atof, atoi and std::to_string on text. *)
From Coq Require Import String Ascii List Arith ZArith Bool SpecFloat.
From Verif Require Import Base UtilsModel ArrayListModel FastModel ArgModel PipeModel IoModel MainModel DoubleModel SpecDouble DoubleRuns TextModel SpecText ReadModel.
Import ListNotations.
Local Open Scope list_scope.

Section Program.
  Variable square : double -> double.               (* pow(x, 2) *)
  Variable srt : list wsimp -> list wsimp.
  Variable past_end : list nat -> nat -> res nat.
  Variable nc0 : Z.
  Variable al_reduce : wgraph -> res wgraph.
  Variable other : pipe_kind -> amap -> packet -> res packet.
  Variable pre_run : pre_kind -> amap -> packet -> res packet.
  Variable pre_stats : pre_kind -> packet -> res packet.
  Variable uaf : res unit.
  Variable file : string -> option text.            (* the files that can be opened *)

  (* LHFmain/main.cpp:232-305 main: the names and texts of the barcode files written, in this order.  Inside the model a
     coordinate is a whole number that stands for a double (DoubleRuns.v), and a weight is its place in the order of the
     doubles (SpecDouble.v), as C91 justifies. *)
  Definition lhf_text (argv : list string) : res (list (string * text)) :=
    do r <- lhf (double_dist square of_whole) (fun s => ReadModel.atoi (list_ascii_of_string s)) (fun s => rank (ReadModel.atof (list_ascii_of_string s)))
              srt past_end nc0 al_reduce other pre_run pre_stats uaf (fun t => option_map to_whole (ReadModel.stod t)) file argv;
    Ok (match r with Ran _ files => map (fun w => (fst w, barcode_text at_place (snd w))) files | _ => [] end).
End Program.
