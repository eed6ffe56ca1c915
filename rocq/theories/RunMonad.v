(* RunMonad.v -- programs that may be undefined or may not end (C++ itself, no particular file of /repo). *)
From Coq Require Import List.
From Verif Require Import Base.
Import ListNotations.

(* Undefined behaviour together with loops that may not end: None when the fuel runs out. *)
Definition run (A : Type) : Type := option (res A).
Definition rbind {A B} (r : run A) (f : A -> run B) : run B :=
  match r with None => None | Some UB => Some UB | Some (Ok a) => f a end.
Notation "'go' x <- e ; f" := (rbind e (fun x => f)) (at level 200, x name, e at level 100, f at level 200).
Definition ret {A} (a : A) : run A := Some (Ok a).
Fixpoint foldr_run {A S} (body : S -> A -> run S) (s : S) (l : list A) : run S :=
  match l with [] => ret s | x :: t => go s' <- body s x; foldr_run body s' t end.
(* A fragment without loops. *)
Definition lift {A} (r : res A) : run A := Some r.
