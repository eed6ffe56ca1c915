(* Spec.v -- vocabulary used in the statements of the properties.
   Nothing here mentions the model of the code. *)
From Coq Require Import List Arith ZArith Bool Sorted Permutation.
Import ListNotations.

(* A strictly increasing list of vertex numbers: the canonical form of a finite set. *)
Notation increasing := (StronglySorted lt).

(* The elements that are in exactly one of the two lists. *)
Definition in_exactly_one (a b : list nat) (x : nat) : Prop :=
  (In x a /\ ~ In x b) \/ (In x b /\ ~ In x a).

(* Partition tables.  [idx_tab] and [pt_tab] have k rows; row j of idx_tab lists, in increasing
   order and once each, exactly the indices i with [R i j]; row j of pt_tab lists the
   data points with these indices, in the same order. *)
Definition partition_tables {P : Type} (k : nat) (data : list P) (R : nat -> nat -> Prop)
           (idx_tab : list (list nat)) (pt_tab : list (list P)) : Prop :=
  length idx_tab = k /\ length pt_tab = k /\
  forall j, j < k -> exists idx pts,
    nth_error idx_tab j = Some idx /\ nth_error pt_tab j = Some pts /\
    increasing idx /\ (forall i, In i idx <-> R i j) /\
    Forall2 (fun i x => nth_error data i = Some x) idx pts.

(* Pascal's triangle: the number of k-element subsets of an n-element set. *)
Fixpoint binom (n k : nat) : nat :=
  match n, k with
  | _, 0 => 1
  | 0, S _ => 0
  | S n', S k' => binom n' k' + binom n' k
  end.


(* Simplicial vocabulary.  A simplex is a non-empty increasing list of vertices. *)

(* Every two vertices of s are close; all vertices are < n: a simplex of the flag (Rips) complex. *)
Definition flag_simplex (close : nat -> nat -> Prop) (n : nat) (s : list nat) : Prop :=
  s <> [] /\ increasing s /\ (forall v, In v s -> v < n) /\
  (forall u v, In u s -> In v s -> u < v -> close u v).

(* w is the diameter of s: the largest distance between two vertices, 0 for a single vertex. *)
Definition diameter (D : nat -> nat -> Z) (s : list nat) (w : Z) : Prop :=
  (forall u v, In u s -> In v s -> u < v -> (D u v <= w)%Z) /\
  ((exists u v, In u s /\ In v s /\ u < v /\ D u v = w) \/ (length s <= 1 /\ w = 0%Z)).

(* f is a facet (codimension-one face) of s. *)
Definition facet (f s : list nat) : Prop :=
  increasing f /\ incl f s /\ S (length f) = length s.
