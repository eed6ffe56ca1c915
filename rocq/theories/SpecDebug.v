(* SpecDebug.v -- vocabulary for the statements about the files of a debug run. *)
From Coq Require Import String List Arith ZArith.
From Verif Require Import Base Spec ArgModel SpecArgs ArrayListModel SpecComplex SpecPipe PipeModel DebugModel.
Import ListNotations.
Local Open Scope nat_scope.
Local Open Scope list_scope.

(* The options every run of the default pipeline has. *)
Record default_options (args : amap) (dim eps : string) : Prop := {
  do_pipeline : mget args "pipeline" = Some default_pipeline;
  do_dim : mget args "dimensions" = Some dim;
  do_eps : mget args "epsilon" = Some eps;
  do_twist : mget args "twist" <> None }.

(* Whether ripsPipe collapses the complex (Pipes/ripsPipe.cpp reads "true" or "1"). *)
Definition collapsing (args : amap) : bool := (String.eqb (opt args "collapse") "true" || String.eqb (opt args "collapse") "1")%bool.

(* The option "debug" is there and its number is not 0; or it is missing or 0. *)
Definition debug_on (atoi : string -> Z) (args : amap) : Prop := exists v, mget args "debug" = Some v /\ atoi v <> 0%Z.
Definition debug_off (atoi : string -> Z) (args : amap) : Prop := forall v, mget args "debug" = Some v -> atoi v = 0%Z.

(* The same options but for "debug". *)
Definition same_but_debug (args args' : amap) : Prop := forall o, o <> "debug"%string -> mget args' o = mget args o.

(* One line for each simplex with the property, and no other line. *)
Definition lists_simplices (rows : list row) (P : list nat -> Z -> Prop) : Prop :=
  NoDup rows /\ forall r, In r rows <-> exists s w, r = RSimplex s w /\ P s w.

(* The Rips simplices with lo to hi vertices, and their diameters. *)
Definition rips_between dist (data : list (list Z)) (c : cx_type) (eps : Z) (lo hi : nat) (s : list nat) (w : Z) : Prop :=
  rips_simplex dist data c eps s /\ lo <= length s <= hi /\ diameter (separation dist data) s w.
