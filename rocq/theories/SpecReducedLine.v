(* SpecReducedLine.v -- the command line of the reduced mode with the default pipeline spelled out. *)
From Coq Require Import String List.
From Verif Require Import SpecArgs SpecMain.
Import ListNotations.

(* -m reduced with -p distMatrix.neighGraph.rips.fastPersistence: the mode no longer chooses the complex. *)
Record named_reduced_line (argv : list string) (pre complex d e f o : string) : Prop := {
  nl_complete : complete_line argv;
  nl_mode : value argv "mode" "reduced";
  nl_mpi : exists a, value argv "mpi" a /\ a <> "1"%string;
  nl_pipe : value argv "pipeline" "distMatrix.neighGraph.rips.fastPersistence";
  nl_pre : value argv "preprocessor" pre;
  nl_complex : value argv "complexType" complex;
  nl_upscale : exists u, value argv "upscale" u /\ u <> "true"%string;
  nl_collapse : exists z, value argv "collapse" z /\ z <> "true"%string /\ z <> "1"%string;
  nl_dim : value argv "dimensions" d;
  nl_eps : value argv "epsilon" e;
  nl_in : value argv "inputFile" f;
  nl_out : value argv "outputFile" o }.
