(* SpecInd.v -- vocabulary for statements about histories of calls on an indSimplexTree. *)
From Coq Require Import List Arith ZArith.
From Verif Require Import Base Spec ArrayListModel SpecComplex TreeModel SpecTree IndModel.
Import ListNotations.

(* What a history leaves behind: the current matrix and the number of points inserted.  insert does nothing while the
   matrix is empty; clear does nothing at all. *)
Record ipast : Type := mkIpast { q_dm : list (list Z); q_points : nat }.
Definition ipast_step (p : ipast) (o : ind_op) : ipast :=
  match o with
  | IInsert => match q_dm p with [] => p | _ => mkIpast (q_dm p) (S (q_points p)) end
  | IMatrix dm => mkIpast dm (q_points p)
  | IClear | IGetAll => p
  end.
Definition ipast_of (dm : list (list Z)) (ops : list ind_op) : ipast := fold_left ipast_step ops (mkIpast dm 0).

(* Legal use: the matrix covers the points being inserted and is only exchanged while there are none. *)
Definition ilegal_step (p : ipast) (o : ind_op) : Prop :=
  match o with
  | IInsert => upper_triangle (q_dm p) (S (q_points p))
  | IMatrix _ => q_points p = 0
  | IClear | IGetAll => True
  end.
Definition ilegal (dm : list (list Z)) (ops : list ind_op) : Prop :=
  forall a o b, ops = a ++ o :: b -> ilegal_step (ipast_of dm a) o.

(* The simplices a tree over the first n points should hold. *)
Definition simplex_of (dm : list (list Z)) (eps maxDim : Z) (n : nat) (s : list nat) : Prop :=
  strict_rips dm eps n s /\ within maxDim s.

(* Vertices that can follow those of s in a simplex of the complex. *)
Definition extendable (dm : list (list Z)) (eps maxDim : Z) (n : nat) (s : list nat) : Prop :=
  exists v, simplex_of dm eps maxDim n (s ++ [v]).

(* Starting at vertex 0, each vertex is the largest one that can follow those before it. *)
Definition greedy (dm : list (list Z)) (eps maxDim : Z) (n : nat) (s : list nat) : Prop :=
  hd_error s = Some 0 /\
  forall a j b, s = a ++ j :: b -> a <> [] ->
    simplex_of dm eps maxDim n (a ++ [j]) /\ forall v, simplex_of dm eps maxDim n (a ++ [v]) -> v <= j.
