(* SpecTree.v -- vocabulary for statements about histories of calls on a simplexTree. *)
From Coq Require Import List Arith ZArith Lia.
From Verif Require Import Base Spec ArrayListModel SpecComplex TreeModel.
Import ListNotations.

(* The dimension bound of the tree: edges are always kept; a larger simplex is kept if its dimension is at
   most maxDimension, where a negative maxDimension counts as the huge number the comparison with a size_t
   turns it into. *)
Definition within (maxDimension : Z) (s : list nat) : Prop :=
  length s <= 2 \/ (Z.of_nat (length s) - 1 <= maxDimension mod 2 ^ 64)%Z.

(* What a history leaves behind: the current matrix, the number of points inserted before the last clear, and
   the number inserted since.  insert does nothing while the matrix is empty. *)
Record tpast : Type := mkPast { p_dm : list (list Z); p_before : nat; p_live : nat }.
Definition past_step (p : tpast) (o : st_op) : tpast :=
  match o with
  | TInsert => match p_dm p with [] => p | _ => mkPast (p_dm p) (p_before p) (S (p_live p)) end
  | TClear => mkPast (p_dm p) (p_before p + p_live p) 0
  | TMatrix dm => mkPast dm (p_before p) (p_live p)
  | TGetAll => p
  end.
Definition past (dm : list (list Z)) (ops : list st_op) : tpast := fold_left past_step ops (mkPast dm 0 0).

(* Legal use: the matrix covers the points being inserted and is only exchanged while the complex is empty;
   clear is called on a non-empty complex. *)
Definition legal_step (p : tpast) (o : st_op) : Prop :=
  match o with
  | TInsert => upper_triangle (p_dm p) (S (p_live p))
  | TClear => p_live p <> 0
  | TMatrix _ => p_live p = 0
  | TGetAll => True
  end.
Definition legal (dm : list (list Z)) (ops : list st_op) : Prop :=
  forall a o b, ops = a ++ o :: b -> legal_step (past dm a) o.
