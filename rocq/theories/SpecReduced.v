(* SpecReduced.v -- vocabulary for the statement about the reduced mode in double arithmetic. *)
From Coq Require Import List Arith ZArith Relations SpecFloat.
From Verif Require Import Base SpecComplex SpecPipe DoubleModel SpecDouble SpecNan.
Import ListNotations.
Local Open Scope nat_scope.

(* Two points of g that the tree joins: closer than eps, where a distance that is not a number counts as 0. *)
Definition tree_pair (g : list (list double)) (eps : double) (u v : nat) : Prop :=
  u < v /\ exists w, seen_apart d_square g Tree u v w /\ SFltb w eps = true.
(* Some point is joined to two others. *)
Definition tree_path (g : list (list double)) (eps : double) : Prop :=
  exists a b c, a <> c /\ (tree_pair g eps a b \/ tree_pair g eps b a) /\ (tree_pair g eps b c \/ tree_pair g eps c b).
(* The pairs F, of lengths ds, are the edges of a spanning forest of the joined pairs. *)
Definition double_forest (g : list (list double)) (eps : double) (F : list (nat * nat)) (ds : list double) : Prop :=
  Forall2 (fun p w => seen_apart d_square g Tree (fst p) (snd p) w) F ds /\
  (forall u v, In (u, v) F -> tree_pair g eps u v) /\
  (forall u v, clos_refl_sym_trans nat (fun a b => In (a, b) F) u v <-> clos_refl_sym_trans nat (tree_pair g eps) u v) /\
  (forall n, seen_clusters d_square g Tree eps eps n -> length F + n = length g).
(* Bars of higher dimensions: they have a length, and begin and end at distances of two joined points. *)
Definition higher_bars (g : list (list double)) (eps : double) (bars : list (nat * double * double)) : Prop :=
  forall k b w, In (k, b, w) bars -> 1 <= k /\ SFeqb b w = false /\ near_pair d_square g Tree eps b /\ near_pair d_square g Tree eps w.
