(* Base.v -- shared vocabulary of the model: outcomes, checked indexing, the
   C++ standard-library pieces used all over the code base.
   These definitions model C++ itself rather than a particular file of /repo. *)
From Coq Require Import List Arith ZArith Bool Lia.
Import ListNotations.

#[global] Arguments Nat.ltb : simpl never.
#[global] Arguments Nat.leb : simpl never.
#[global] Arguments Nat.eqb : simpl never.
#[global] Arguments Z.ltb : simpl never.
#[global] Arguments Z.leb : simpl never.
#[global] Arguments Z.eqb : simpl never.

(* Outcome of a C++ fragment: a value, or undefined behaviour (out-of-range
   indexing, dereferencing end(), reading an uninitialised pointer, ...). *)
Inductive res (A : Type) : Type :=
| Ok (a : A)
| UB.
Arguments Ok {A} a.
Arguments UB {A}.

Definition bind {A B} (r : res A) (f : A -> res B) : res B :=
  match r with Ok a => f a | UB => UB end.
Definition rmap {A B} (f : A -> B) (r : res A) : res B :=
  bind r (fun a => Ok (f a)).

Notation "'do' x <- e ; f" := (bind e (fun x => f))
  (at level 200, x name, e at level 100, f at level 200).

(* v[i] on a std::vector: out of range is undefined behaviour. *)
Definition at_ {A} (l : list A) (i : nat) : res A :=
  match nth_error l i with Some a => Ok a | None => UB end.

(* v[i] = f(v[i]) on a std::vector: out of range is undefined behaviour. *)
Fixpoint upd {A} (l : list A) (i : nat) (f : A -> A) : res (list A) :=
  match l, i with
  | [], _ => UB
  | x :: t, O => Ok (f x :: t)
  | x :: t, S i => rmap (cons x) (upd t i f)
  end.

(* A C++ range-for whose body can be undefined. *)
Fixpoint foldr_ub {A S} (body : S -> A -> res S) (s : S) (l : list A) : res S :=
  match l with
  | [] => Ok s
  | x :: t => do s' <- body s x; foldr_ub body s' t
  end.

(* Indexed list: (start, x0), (start+1, x1), ... *)
Fixpoint enum {A} (i : nat) (l : list A) : list (nat * A) :=
  match l with [] => [] | x :: t => (i, x) :: enum (S i) t end.

(* std::sort on a vector<unsigned>: the result is the unique sorted
   permutation, computed here by insertion. *)
Fixpoint ninsert (x : nat) (l : list nat) : list nat :=
  match l with
  | [] => [x]
  | y :: t => if x <=? y then x :: l else y :: ninsert x t
  end.
Definition nsort (l : list nat) : list nat := fold_right ninsert [] l.

(* std::set<unsigned>::insert on the increasing-list representation. *)
Fixpoint sinsert (x : nat) (l : list nat) : list nat :=
  match l with
  | [] => [x]
  | y :: t => if x <? y then x :: l else if y <? x then y :: sinsert x t else l
  end.

(* operator== on vector<unsigned>, set<unsigned>. *)
Fixpoint nlist_eqb (a b : list nat) : bool :=
  match a, b with
  | [], [] => true
  | x :: a', y :: b' => (x =? y) && nlist_eqb a' b'
  | _, _ => false
  end.

(* std::set_union, set_intersection, set_symmetric_difference, includes:
   the two-pointer merges of the C++ standard (reference algorithms of
   libstdc++ bits/stl_algo.h).  They are total on any input, sorted or not. *)
Fixpoint set_union (a : list nat) : list nat -> list nat :=
  fix go (b : list nat) : list nat :=
    match a, b with
    | [], _ => b
    | _, [] => a
    | x :: a', y :: b' =>
        if x <? y then x :: set_union a' b
        else if y <? x then y :: go b'
        else x :: set_union a' b'
    end.

Fixpoint set_intersection (a : list nat) : list nat -> list nat :=
  fix go (b : list nat) : list nat :=
    match a, b with
    | [], _ => []
    | _, [] => []
    | x :: a', y :: b' =>
        if x <? y then set_intersection a' b
        else if y <? x then go b'
        else x :: set_intersection a' b'
    end.

Fixpoint set_symmetric_difference (a : list nat) : list nat -> list nat :=
  fix go (b : list nat) : list nat :=
    match a, b with
    | [], _ => b
    | _, [] => a
    | x :: a', y :: b' =>
        if x <? y then x :: set_symmetric_difference a' b
        else if y <? x then y :: go b'
        else set_symmetric_difference a' b'
    end.

(* std::includes(a, b): does the sorted range a contain the sorted range b. *)
Fixpoint includes (a : list nat) : list nat -> bool :=
  fix go (b : list nat) : bool :=
    match a, b with
    | _, [] => true
    | [], _ :: _ => false
    | x :: a', y :: b' =>
        if y <? x then false
        else if x <? y then includes a' b
        else includes a' b'
    end.
