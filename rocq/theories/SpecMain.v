(* SpecMain.v -- vocabulary for the statements about the whole program. *)
From Coq Require Import String List Arith ZArith Relations.
From Verif Require Import Base Spec ArgModel IoModel SpecIo SpecArgs SpecGraph ArrayListModel SpecComplex SpecFast SpecPipe.
Import ListNotations.
Local Open Scope nat_scope.
Local Open Scope list_scope.

(* The pairs F are the edges of a spanning forest of the graph that joins the points of g closer than eps: they are
   such pairs, they connect whatever the graph connects, and there are as few of them as possible. *)
Definition spanning_forest (dist : list Z -> list Z -> Z) (g : list (list Z)) (eps : Z) (F : list (nat * nat)) : Prop :=
  (forall u v, In (u, v) F -> joined dist g Tree eps eps u v) /\
  (forall u v, clos_refl_sym_trans nat (fun a b => In (a, b) F) u v <->
               clos_refl_sym_trans nat (joined dist g Tree eps eps) u v) /\
  (forall c, clusters dist g Tree eps eps c -> length F + c = length g).

(* The bars [out] begin with those of dimension 0: they end at the lengths of the pairs F, and one more ends at eps.  The
   bars of higher dimensions follow; they have a length, and begin and end at distances of two points closer than eps. *)
Definition ends_at (dist : list Z -> list Z -> Z) (g : list (list Z)) (eps : Z) (F : list (nat * nat)) (out : list (nat * Z * Z)) : Prop :=
  exists more, out = map (fun e => (0, 0%Z, separation dist g (fst e) (snd e))) F ++ (0, 0%Z, eps) :: more /\
  forall k b w, In (k, b, w) more -> 1 <= k /\ b <> w /\
    (exists u v, u < v /\ v < length g /\ separation dist g u v = b /\ (b < eps)%Z) /\
    (exists u v, u < v /\ v < length g /\ separation dist g u v = w /\ (w < eps)%Z).

(* ... at the single-linkage heights: the number of clusters at any scale is the number of points minus the number of
   bars that have ended. *)
Definition single_linkage (dist : list Z -> list Z -> Z) (g : list (list Z)) (eps : Z) (F : list (nat * nat)) : Prop :=
  forall t n, clusters dist g Tree eps t n <-> count_le t (map (fun e => separation dist g (fst e) (snd e)) F) + n = length g.

(* Some two points of g are closer than eps; some point has two others closer than eps. *)
Definition some_pair (dist : list Z -> list Z -> Z) (g : list (list Z)) (eps : Z) : Prop :=
  exists u v, u < v /\ v < length g /\ (separation dist g u v < eps)%Z.
Definition some_path (dist : list Z -> list Z -> Z) (g : list (list Z)) (eps : Z) : Prop :=
  exists a b c, a <> c /\ (joined dist g Tree eps eps a b \/ joined dist g Tree eps eps b a) /\
                          (joined dist g Tree eps eps b c \/ joined dist g Tree eps eps c b).

Definition non_empty {A} (l : list A) : bool := match l with [] => false | _ => true end.
(* The number of points in a list of groups. *)
Definition points {A} (gs : list (list A)) : nat := list_sum (map (@length A) gs).

(* The option l of the command line has the value v: that of the last pair that gives its short name, else of the last
   pair that gives its long name, else the default. *)
Definition value (argv : list string) (l v : string) : Prop := exists s d, In (l, s, d) options /\
  (last_given argv s v \/ (never_given argv s /\ last_given argv l v) \/ (never_given argv s /\ never_given argv l /\ v = d)).
(* The command line does not end with a flag without its value. *)
Definition complete_line (argv : list string) : Prop :=
  ~ (Nat.Odd (length argv) /\ exists f k, nth_error argv (length argv - 1) = Some f /\ flag f k).
(* The points of the file f: what its lines read as; none if it cannot be opened. *)
Definition holds_points (stod : text -> option Z) (file : string -> option text) (f : string) (data : list (list Z)) : Prop :=
  (file f = None /\ data = []) \/
  (exists lines rs, lines <> [] /\ file f = Some (join newline lines) /\ Forall2 (line_reads stod) lines rs /\ data = kept rs).
(* A command line for one run of the default pipeline, without collapse: preprocessor pre, complex c, dimension d,
   epsilon e, input file f, output file o. *)
Record one_run_line (argv : list string) (pre : string) (c : cx_type) (d e f o : string) : Prop := {
  pl_complete : complete_line argv;
  pl_mode : (value argv "mode" "standard" /\ value argv "complexType" (cx_name c) /\ exists u, value argv "upscale" u /\ u <> "true"%string) \/
            (value argv "mode" "fast" /\ c = Tree) \/
            (value argv "mode" "stream" /\ pre <> ""%string /\ value argv "complexType" (cx_name c) /\ exists u, value argv "upscale" u /\ u <> "true"%string);
  pl_mpi : exists a, value argv "mpi" a /\ a <> "1"%string;
  pl_pipe : value argv "pipeline" "";
  pl_pre : value argv "preprocessor" pre;
  pl_collapse : exists z, value argv "collapse" z /\ z <> "true"%string /\ z <> "1"%string;
  pl_dim : value argv "dimensions" d;
  pl_eps : value argv "epsilon" e;
  pl_in : value argv "inputFile" f;
  pl_out : value argv "outputFile" o }.
(* ... and without preprocessor. *)
Definition plain_line (argv : list string) (c : cx_type) (d e f o : string) : Prop := one_run_line argv "" c d e f o.
