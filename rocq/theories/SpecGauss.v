(* SpecGauss.v -- vocabulary for the statements about 0/1 matrices given as lists of rows. *)
From Coq Require Import List Arith.
From Verif Require Import Base Spec ArrayListModel SpecLinear.
Import ListNotations.

(* A matrix of zeros and ones with n columns. *)
Definition binary_matrix (n : nat) (m : list (list nat)) : Prop :=
  forall r, In r m -> length r = n /\ forall x, In x r -> x = 0 \/ x = 1.
(* A row as the set of its non-zero coordinates. *)
Definition support (r : list nat) : list nat := filter (fun i => nth i r 0 =? 1) (seq 0 (length r)).
Definition supports (m : list (list nat)) : list (list nat) := map support m.
(* The rows of a and b generate the same vectors. *)
Definition same_row_space (a b : list (list nat)) : Prop :=
  (forall r, In r a -> combination (supports b) (support r)) /\ (forall r, In r b -> combination (supports a) (support r)).

(* Simplices are numbered level by level; the number of the first simplex of dimension d. *)
Definition first_number (edges : wgraph) (d : nat) : nat := length (concat (firstn d edges)).
