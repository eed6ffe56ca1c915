(* SpecComplex.v -- vocabulary for statements about histories of calls on a complex. *)
From Coq Require Import List Arith ZArith Lia.
From Verif Require Import Base Spec ArrayListModel.
Import ListNotations.

(* The k-dimensional simplices held by a complex (none if there is no such level). *)
Definition level (wg : wgraph) (k : nat) : list wsimp := nth k wg [].

(* The distance between points j < i as the complex sees it. *)
Definition dist_of (dm : list (list Z)) (j i : nat) : Z := nth i (nth j dm []) 0%Z.

(* The matrix has a non-negative entry for every pair j < i of the first n points. *)
Definition upper_triangle (dm : list (list Z)) (n : nat) : Prop :=
  forall j i, j < i -> i < n -> i < length (nth j dm []) /\ (0 <= dist_of dm j i)%Z.

(* Number of points inserted since the last clear (inserting an empty vector inserts nothing). *)
Fixpoint live_from (n : nat) (ops : list al_op) : nat :=
  match ops with
  | [] => n
  | OpInsert false :: r => live_from (S n) r
  | OpInsert true :: r => live_from n r
  | OpExpand _ :: r => live_from n r
  | OpClear :: r => live_from 0 r
  end.
Definition live := live_from 0.

(* Dimension up to which the complex has been expanded since the last change of its points (at least 1). *)
Fixpoint expanded_from (k : nat) (ops : list al_op) : nat :=
  match ops with
  | [] => k
  | OpInsert false :: r => expanded_from 1 r
  | OpInsert true :: r => expanded_from k r
  | OpExpand d :: r => expanded_from (Nat.max k (to_unsigned d)) r
  | OpClear :: r => expanded_from 1 r
  end.
Definition expanded := expanded_from 1.

(* Largest dimension of any expansion since the last clear (at least 1). *)
Fixpoint deepest_from (k : nat) (ops : list al_op) : nat :=
  match ops with
  | [] => k
  | OpExpand d :: r => deepest_from (Nat.max k (to_unsigned d)) r
  | OpInsert _ :: r => deepest_from k r
  | OpClear :: r => deepest_from 1 r
  end.
Definition deepest := deepest_from 1.

(* Every point inserted along the history has its distances in the matrix. *)
Definition matrix_covers (dm : list (list Z)) (ops : list al_op) : Prop :=
  forall p q, ops = p ++ q -> upper_triangle dm (live p).

(* Vietoris-Rips simplices of the first n points: all pairwise distances at most eps / below eps. *)
Definition rips (dm : list (list Z)) (eps : Z) (n : nat) (s : list nat) : Prop :=
  flag_simplex (fun u v => (dist_of dm u v <= eps)%Z) n s.
Definition strict_rips (dm : list (list Z)) (eps : Z) (n : nat) (s : list nat) : Prop :=
  flag_simplex (fun u v => (dist_of dm u v < eps)%Z) n s.

(* A sort (std::sort with sortBySecond): any function returning a permutation in order of weight. *)
Definition by_weight (a b : wsimp) : Prop := (snd a <= snd b)%Z.
Definition is_sort (srt : list wsimp -> list wsimp) : Prop :=
  forall l, Permutation.Permutation (srt l) l /\ Sorted.StronglySorted by_weight (srt l).
