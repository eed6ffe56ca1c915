(* SpecGraph.v -- connectivity of weighted graphs, for the statements about dimension-0 persistence. *)
From Coq Require Import List Arith ZArith Relations Sorted.
From Verif Require Import Base Spec ArrayListModel SpecComplex.
Import ListNotations.

(* u and v are joined by a path of edges of E. *)
Definition adjacent (E : list wsimp) (u v : nat) : Prop := exists w, In ([u; v], w) E.
Definition connected (E : list wsimp) : nat -> nat -> Prop := clos_refl_sym_trans nat (adjacent E).

(* The vertices V fall into exactly c classes of R: c representatives, pairwise unrelated, one for every vertex. *)
Definition classes (V : list nat) (R : nat -> nat -> Prop) (c : nat) : Prop :=
  exists reps, length reps = c /\ NoDup reps /\ incl reps V /\
    (forall x y, In x reps -> In y reps -> R x y -> x = y) /\
    (forall v, In v V -> exists r, In r reps /\ R v r).
Definition components (V : list nat) (E : list wsimp) (c : nat) : Prop := classes V (connected E) c.

(* The edges of weight at most t. *)
Definition up_to (t : Z) (E : list wsimp) : list wsimp := filter (fun e => (snd e <=? t)%Z) E.
Definition count_le (t : Z) (ws : list Z) : nat := length (filter (fun w => (w <=? t)%Z) ws).

(* E is the list of edges of a graph on the vertices V. *)
Definition graph_on (V : list nat) (E : list wsimp) : Prop :=
  forall s w, In (s, w) E -> exists u v, s = [u; v] /\ u < v /\ In u V /\ In v V.

(* The i-th edge of E, its weight, and the weights of a list of edge numbers. *)
Definition edge_weight (E : list wsimp) (i : nat) : Z := snd (nth i E ([], 0%Z)).
Definition edges_at (E : list wsimp) (is : list nat) : list wsimp := map (fun i => nth i E ([], 0%Z)) is.
(* The i-th edge joins two vertices that the edges before it do not connect. *)
Definition joins (E : list wsimp) (i : nat) : Prop :=
  exists u v w, nth_error E i = Some ([u; v], w) /\ ~ connected (firstn i E) u v.
(* The i-th edge shares a vertex with an edge before it. *)
Definition touches (E : list wsimp) (i : nat) : bool :=
  existsb (fun e => existsb (fun x => existsb (Nat.eqb x) (fst (nth i E ([], 0%Z)))) (fst e)) (firstn i E).

Definition total_weight (ws : list Z) : Z := fold_right Z.add 0%Z ws.
(* F is a subset of the edges of E that connects whatever E connects. *)
Definition spans (E F : list wsimp) : Prop := incl F E /\ forall u v, connected E u v <-> connected F u v.
