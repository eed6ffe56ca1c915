(* SpecAll.v -- vocabulary for the statements about the program with all its pipes. *)
From Coq Require Import Ascii String List Arith ZArith.
From Verif Require Import Base ArgModel IoModel SpecIo SpecArgs SpecPipe SpecMain.
Import ListNotations.
Local Open Scope nat_scope.
Local Open Scope list_scope.

(* A command line for one of the window modes: dimension d, epsilon e, input file f, output file o. *)
Record window_line (argv : list string) (modes : list string) (d e f o : string) : Prop := {
  wl_complete : complete_line argv;
  wl_mode : exists m, value argv "mode" m /\ In m modes;
  wl_mpi : exists a, value argv "mpi" a /\ a <> "1"%string;
  wl_pipe : value argv "pipeline" "";
  wl_dim : value argv "dimensions" d;
  wl_eps : value argv "epsilon" e;
  wl_in : value argv "inputFile" f;
  wl_out : value argv "outputFile" o }.
(* The file f is the stream of these rows: one line for each, and then the end of the stream. *)
Definition streams (stod : text -> option Z) (file : string -> option text) (f : string) (rows : list (list Z)) : Prop :=
  exists lines t, file f = Some (lines_of lines ++ t) /\ Forall2 (stream_line stod) lines rows /\ stream_end t.
(* The barcode file that a run with these bars writes. *)
Definition barcode_file (o : string) (bars : list (nat * Z * Z)) : list (string * list (nat * Z * Z)) :=
  if String.eqb o "console" then [] else [((o ++ ".csv")%string, bars)].

(* A command line that names its own pipeline P, for one run: complex c, dimension d, epsilon e, input file f, output file o,
   without preprocessor and without collapse. *)
Record own_line (argv : list string) (P c d e f o : string) : Prop := {
  ol_complete : complete_line argv;
  ol_pipe : value argv "pipeline" P;
  ol_named : P <> ""%string;
  ol_mode : exists m, value argv "mode" m /\ m <> "reduced"%string;
  ol_mpi : exists a, value argv "mpi" a /\ a <> "1"%string;
  ol_up : exists u, value argv "upscale" u /\ u <> "true"%string;
  ol_pre : value argv "preprocessor" "";
  ol_collapse : exists z, value argv "collapse" z /\ z <> "true"%string /\ z <> "1"%string;
  ol_complex : value argv "complexType" c;
  ol_dim : value argv "dimensions" d;
  ol_eps : value argv "epsilon" e;
  ol_in : value argv "inputFile" f;
  ol_out : value argv "outputFile" o }.

(* Exactly one pair of points is closer than eps, and point 0 does not belong to it. *)
Definition one_pair_off_zero (dist : list Z -> list Z -> Z) (data : list (list Z)) (eps : Z) : Prop :=
  exists u v, 0 < u /\ u < v /\ v < length data /\ (separation dist data u v < eps)%Z /\
    forall u' v', u' < v' -> v' < length data -> (separation dist data u' v' < eps)%Z -> u' = u /\ v' = v.
