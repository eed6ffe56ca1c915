(* MatrixModel.v -- a simplexArrayList whose distance matrix is exchanged between its calls (definitions only).
   The tree's counterpart is the operation TMatrix of TreeModel.v. *)
From Coq Require Import List Arith ZArith Bool.
From Verif Require Import Base UtilsModel ArrayListModel.
Import ListNotations.

(* Calls on one object: those of ArrayListModel.v, and Complex/simplexBase.cpp:50-53
   simplexBase::setDistanceMatrix (Pipes/distMatrixPipe.cpp:52 and Pipes/slidingWindow.cpp:701 call it). *)
Inductive am_op : Type :=
| ACall (o : al_op)
| AMatrix (dm : list (list Z)).

(* The object: simplexBase::distMatrix and weightedGraph. *)
Definition am_state : Type := (list (list Z) * wgraph)%type.

(* One call.  Only insert reads the matrix in force (Complex/simplexArrayList.cpp:34-82); setDistanceMatrix
   copies its argument and touches nothing else (Complex/simplexBase.cpp:50-53). *)
Definition am_step (eps maxDimension : Z) (st : am_state) (o : am_op) : res am_state :=
  match o with
  | ACall c => rmap (pair (fst st)) (al_step (fst st) eps maxDimension (snd st) c)
  | AMatrix dm => Ok (dm, snd st)
  end.

(* A history of calls on a new object given the matrix dm (Complex/simplexArrayList.cpp:11-17 constructor). *)
Definition am_run (eps maxDimension : Z) (dm : list (list Z)) (ops : list am_op) : res am_state :=
  foldr_ub (am_step eps maxDimension) (dm, []) ops.
