(* SpecRobust.v -- vocabulary for the statements that compare two runs. *)
From Coq Require Import String List Arith ZArith.
From Verif Require Import Base Spec ArgModel PipeModel SpecComplex SpecPipe SpecFast.
Import ListNotations.
Local Open Scope nat_scope.

(* A run of the default pipeline with complex c, dimension dim and threshold eps on at least one point reports [lines].
   The sort, the conversions of the option strings, the allocator and everything else the program leaves open may be any
   that the rest of the development allows. *)
Definition reports (dist : list Z -> list Z -> Z) (past_end : list nat -> nat -> res nat) (c : cx_type) (dim eps : Z)
    (data : list (list Z)) (lines : list (nat * Z * Z)) : Prop :=
  exists atoi atof srt nc0 al_reduce other args d e p failed,
    is_sort srt /\ default_run args c d e /\ atoi d = dim /\ atof e = eps /\ (0 < dim < 2 ^ 31 - 1)%Z /\
    (forall x, In x data -> x <> []) /\ data <> [] /\ (forall x y, (0 <= dist x y)%Z) /\
    run_program dist atoi atof srt past_end nc0 al_reduce other args data = Ok (Some (p, failed)) /\ lines = pk_output p.

(* f matches the points of one cloud with those of another one at the same distances. *)
Definition isometry (dist : list Z -> list Z -> Z) (data : list (list Z)) (dist' : list Z -> list Z -> Z) (data' : list (list Z))
    (f : nat -> nat) : Prop :=
  length data' = length data /\
  (forall u, u < length data -> f u < length data) /\
  (forall u v, u < length data -> v < length data -> f u = f v -> u = v) /\
  (forall u v, u < length data -> v < length data -> u <> v ->
     separation dist' data' (f u) (f v) = separation dist data u v).

(* The distance does not depend on the order of its arguments. *)
Definition symmetric (dist : list Z -> list Z -> Z) : Prop := forall x y, dist x y = dist y x.

(* The ends of the finite bars of dimension 0 that a run reports, in the order of the lines. *)
Definition deaths (lines : list (nat * Z * Z)) : list Z := map snd (removelast (dim0 lines)).

(* Whether two points at distance w are close, as a test. *)
Definition closeb (c : cx_type) (eps w : Z) : bool := match c with Tree => (w <? eps)%Z | ArrayList => (w <=? eps)%Z end.

(* No two pairs of points are at the same distance. *)
Definition distinct_distances (dist : list Z -> list Z -> Z) (data : list (list Z)) : Prop :=
  forall u v u' v', u < v -> v < length data -> u' < v' -> v' < length data ->
    separation dist data u v = separation dist data u' v' -> u = u' /\ v = v'.

(* The lines of dimension d. *)
Definition of_dim (d : nat) (lines : list (nat * Z * Z)) : list (nat * Z * Z) := filter (fun l => fst (fst l) =? d) lines.
