(* SpecIndRun.v -- vocabulary for whole runs on an indSimplexTree. *)
From Coq Require Import String List Arith ZArith.
From Verif Require Import Base Spec ArgModel SpecArgs ArrayListModel SpecComplex SpecPipe.
Import ListNotations.

(* The options of a run of the default pipeline on an indSimplexTree, with or without collapse. *)
Record ind_options (args : amap) (dim eps : string) (collapse : bool) : Prop := {
  io_pipeline : mget args "pipeline" = Some default_pipeline;
  io_complex : mget args "complexType" = Some "indSimplexTree"%string;
  io_dim : mget args "dimensions" = Some dim;
  io_eps : mget args "epsilon" = Some eps;
  io_twist : mget args "twist" <> None;
  io_collapse : exists v, mget args "collapse" = Some v /\
    (if collapse then v = "true"%string \/ v = "1"%string else v <> "true"%string /\ v <> "1"%string) }.

(* Four points pairwise closer than epsilon, which a complex of dimension 3 or more would hold as a tetrahedron. *)
Definition has_tetrahedron (dist : list Z -> list Z -> Z) (data : list (list Z)) (dim eps : Z) : Prop :=
  (3 <= dim)%Z /\ exists s, rips_simplex dist data Tree eps s /\ length s = 4.
