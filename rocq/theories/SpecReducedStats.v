(* SpecReducedStats.v -- vocabulary for the statistics of a run in the mode reduced. *)
From Coq Require Import String List ZArith.
From Verif Require Import Base ArgModel SpecArgs SpecComplex SpecPipe SpecStats.
Import ListNotations.

(* The component c of a pipeline names the pipe k, and every option the pipe asks for is set. *)
Definition starts (args : amap) (c : string) (k : pipe_kind) : Prop :=
  (In (c, k) pipe_names \/
   (c = "persistence"%string /\ exists ct, mget args "complexType" = Some ct /\ persistence_for ct k)) /\
  forall o, In o (pipe_required k) -> mget args o <> None.
(* The pipes of a pipeline that run, in order; the other components are reported and skipped. *)
Inductive running (args : amap) : list string -> list pipe_kind -> Prop :=
| running_nil : running args [] []
| running_pipe c k parts ks : starts args c k -> running args parts ks -> running args (c :: parts) (k :: ks)
| running_skip c parts ks : (forall k, ~ starts args c k) -> running args parts ks -> running args (c :: parts) ks.
(* The names of the two stream pipes, which run a pipeline of their own inside. *)
Definition stream_names : list string := ["sliding"; "slidingwindow"; "naive"; "naivewindow"]%string.

(* The four lines (pipe, vertices, simplices) about a group of points that starts from an empty simplexArrayList. *)
Definition lines_about dist (eps : Z) (d : nat) (g : list (list Z)) (block : list (pipe_kind * Z * Z)) : Prop :=
  let n := Z.of_nat (length g) in
  exists n1 n2 n3, counts_rips dist g ArrayList eps 2 n1 /\ counts_rips dist g ArrayList eps (d + 1) n2 /\
    counts_rips dist g ArrayList eps (d + 2) n3 /\
    block = [(KDistMatrix, 0%Z, 0%Z); (KNeighGraph, n, n1); (KRips, n, n2); (KFastPersistence, n, n3)].
