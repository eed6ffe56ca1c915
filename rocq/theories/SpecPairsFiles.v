(* SpecPairsFiles.v -- what the files of the pair pipes hold (the vocabulary of C116). *)
From Coq Require Import String List ZArith Bool.
From Verif Require Import Base UtilsModel ArrayListModel TreeModel IndModel ArgModel PipeModel PairsFilesModel.
Import ListNotations.
Local Open Scope string_scope.
Local Open Scope list_scope.

(* The two pair pipes and the first line of their bar files. *)
Definition pair_pipes : list (pipe_kind * string) :=
  [(KPersistencePairs, "dim,birth,death"); (KOptPersistencePairs, "curIndex,index,dim,birth,death")].

(* The simplices one of them is given: what the complex lists, but nothing if optPersistencePairs is to use the twist on a
   complex that has no indexed listing. *)
Definition listed (atof : string -> Z) (srt : list wsimp -> list wsimp) (k : pipe_kind) (args : amap) (c : cx) : wgraph :=
  match k, c with
  | KOptPersistencePairs, CInd _ _ t => fst (ind_getAllEdges srt t)
  | KOptPersistencePairs, _ => if String.eqb (opt args "twist") "true" then [] else fst (cx_getAllEdges srt (atof (opt args "epsilon")) c)
  | KPersistencePairs, _ => fst (cx_getAllEdges srt (atof (opt args "epsilon")) c)
  | _, _ => []
  end.

(* A simplex that is paired with nothing: marked, born at its weight, dead at -1. *)
Definition unpaired (x : wsimp) : pair_row := PEntry (-1) (length (fst x) - 1) true (snd x) (-1) (fst x).

(* The files that the pair pipes and boundaryPipe can write. *)
Inductive pair_file (fn : string) : string * list pair_row -> Prop :=
| written_bars k header bars : In (k, header) pair_pipes ->
    pair_file fn ("output/PersistencePairs_bettis_output" ++ fn ++ ".csv", PText header :: map PBar bars)%string
| written_table l : pair_file fn ("output/tArray.csv", PText "ti,Dim,Marked,Birth,Death,Simplex" :: map unpaired l)
| written_boundary : pair_file fn ("output/Boundary_bettis_output.csv", [PText "Dim,Birth,Death"]).
