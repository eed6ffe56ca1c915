(* ReducedModel.v -- the reduced mode of /repo/LHFmain/main.cpp in double arithmetic, with k-means++ and the files of the
   preprocessor (definitions only). *)
From Coq Require Import String Ascii List Arith ZArith Bool SpecFloat.
From Verif Require Import Base UtilsModel ArrayListModel FastModel ArgModel PipeModel IoModel KmeansModel MainModel DoubleModel SpecDouble DoubleRuns TextModel SpecText ReadModel NanModel.
Import ListNotations.
Local Open Scope nat_scope.
Local Open Scope list_scope.

(* LHFmain/main.cpp:113: 2 * maxRadius, from and to the place in the order of the doubles. *)
Definition twice_place (z : Z) : Z := rank (d_mul (S754_finite false (2 ^ 52) (-51)) (at_place z)).

Section Program.
  Variable square : double -> double.               (* pow(x, 2) *)
  Variable index : nat.                             (* the random draws of k-means++ (KmeansModel.v) *)
  Variable picks : list (nat * (nat -> bool)).
  Variable pre_other : pre_kind -> amap -> packet -> res packet.     (* the other preprocessors *)
  Variable srt : list wsimp -> list wsimp.
  Variable past_end : list nat -> nat -> res nat.
  Variable nc0 : Z.
  Variable al_reduce : wgraph -> res wgraph.
  Variable other : pipe_kind -> amap -> packet -> res packet.
  Variable uaf : res unit.
  Variable file : string -> option text.            (* the files that can be opened *)

  (* LHFmain/main.cpp:232-305 main for a command line with the mode reduced: the names and texts of the files written by the
     preprocessor and of the barcode files, in this order.  A distance that is not a number: Utils/utils.cpp:27 does not take
     it for the maximum (place -1), and line 58 does not take it for less than the radius (place 2 ^ 65 + 1). *)
  Definition lhf_reduced (argv : list string) : res (list (string * text)) :=
    do m <- parse argv;
    let args := setPipeline m in
    let atoi := fun s => ReadModel.atoi (list_ascii_of_string s) in
    let atof := fun s => rank (ReadModel.atof (list_ascii_of_string s)) in
    do c <- newSimplex atoi atof nc0 (opt args "complexType") args;
    match readCSV Z (fun t => option_map to_whole (ReadModel.stod t)) (file (opt args "inputFile")) with
    | None => Ok []
    | Some data =>
        if 0 <? length data then
          let p := mkPacket data [] data [] c [] [] [] in
          do r <- reduced_with (coded_dist square (nan_place (opt args "complexType"))) atoi atof srt past_end al_reduce other
                    (pre_doubles square index picks pre_other) (fun _ q => Ok q) uaf
                    (coded_dist square (-1)) (coded_dist square (2 ^ 65 + 1)) twice_place args p;
          do w <- pre_written square index picks pre_other args p;
          Ok (w ++ map (fun f => (fst f, barcode_text at_place (snd f))) (snd r))
        else Ok []
    end.
End Program.
