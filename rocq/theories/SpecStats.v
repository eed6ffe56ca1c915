(* SpecStats.v -- vocabulary for the statements about the statistics of a run. *)
From Coq Require Import String List Arith ZArith QArith.
From Verif Require Import Base Spec ArgModel SpecArgs ArrayListModel SpecComplex SpecPipe PipeModel StatsModel.
Import ListNotations.
Local Open Scope list_scope.

(* The units of the memory column, in bytes. *)
Definition units : list (string * Z) := [("B", 1); ("KB", 1000); ("MB", 1000000); ("GB", 1000000000)]%string%Z.

(* The number and the unit together give the size; the unit is the largest with which the number stays above 1. *)
Definition displays (value : Q) (unit : string) (size : Z) : Prop :=
  exists u, In (unit, u) units /\ (value * inject_Z u == inject_Z size)%Q /\
    (unit <> "B"%string -> (1 < value)%Q) /\ (unit <> "GB"%string -> (value <= 1000)%Q).

(* What a line says. *)
Definition says (l : stat_line) (w : string * Z * Z * Z) : Prop :=
  let '(pipe, size, vertices, simplices) := w in
  l_pipe l = pipe /\ displays (l_size l) (l_unit l) size /\ l_vertices l = vertices /\ l_simplices l = simplices.

(* The number of Rips simplices with at most hi vertices. *)
Definition counts_rips dist (data : list (list Z)) (c : cx_type) (eps : Z) (hi : nat) (n : Z) : Prop :=
  exists l, NoDup l /\ n = Z.of_nat (length l) /\ forall s, In s l <-> rips_simplex dist data c eps s /\ (length s <= hi)%nat.

(* The name a pipe reports itself under, by the component of the pipeline that asks for it. *)
Definition reported_name : list (string * string) :=
  [("distMatrix", "DistMatrix"); ("neighGraph", "neighGraph"); ("rips", "ripsPipe"); ("upscale", "Upscale"); ("boundary", "Boundary");
   ("persistence", "PersistencePairs"); ("slidingwindow", "SlidingWindow"); ("sliding", "SlidingWindow");
   ("fastPersistence", "FastPersistence"); ("fast", "FastPersistence"); ("naivewindow", "NaiveWindow"); ("naive", "NaiveWindow")]%string.

(* The lines that belong to the components of a pipeline: one for each that did not fail. *)
Inductive line_per_pipe : list string -> list string -> list string -> Prop :=
| lpp_nil : line_per_pipe [] [] []
| lpp_failed c parts failed lines : line_per_pipe parts failed lines -> line_per_pipe (c :: parts) (c :: failed) lines
| lpp_ran c n parts failed lines : In (c, n) reported_name -> line_per_pipe parts failed lines -> line_per_pipe (c :: parts) failed (n :: lines).
