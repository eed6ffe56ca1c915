(* SpecMatrix.v -- vocabulary for statements about complexes whose distance matrix is exchanged between calls. *)
From Coq Require Import List Arith ZArith Lia.
From Verif Require Import Base Spec ArrayListModel SpecComplex TreeModel SpecTree MatrixModel.
Import ListNotations.

(* The matrix has an entry for the pair (j, n) for every point j before point n. *)
Definition has_column (dm : list (list Z)) (n : nat) : Prop := forall j, j < n -> n < length (nth j dm []).
(* ... and none of these entries is negative. *)
Definition good_column (dm : list (list Z)) (n : nat) : Prop :=
  forall j, j < n -> n < length (nth j dm []) /\ (0 <= dist_of dm j n)%Z.

(* The distance of the points u < v when point v was inserted while the v-th of the given matrices was in force. *)
Definition seen (ms : list (list (list Z))) (u v : nat) : Z := dist_of (nth v ms []) u v.

(* Vietoris-Rips simplices for these distances. *)
Definition seen_rips (ms : list (list (list Z))) (eps : Z) (s : list nat) : Prop :=
  flag_simplex (fun u v => (seen ms u v <= eps)%Z) (length ms) s.
Definition seen_strict_rips (ms : list (list (list Z))) (eps : Z) (s : list nat) : Prop :=
  flag_simplex (fun u v => (seen ms u v < eps)%Z) (length ms) s.

(* ---- simplexArrayList ---- *)
(* The calls other than setDistanceMatrix. *)
Fixpoint calls (ops : list am_op) : list al_op :=
  match ops with [] => [] | ACall o :: r => o :: calls r | AMatrix _ :: r => calls r end.

(* The matrix in force after a history, and the matrices that were in force when the points held now were
   inserted, in the order of the insertions. *)
Definition a_note (p : list (list Z) * list (list (list Z))) (o : am_op) : list (list Z) * list (list (list Z)) :=
  match o with
  | AMatrix dm => (dm, snd p)
  | ACall (OpInsert false) => (fst p, snd p ++ [fst p])
  | ACall OpClear => (fst p, [])
  | ACall _ => p
  end.
Definition a_matrix (dm : list (list Z)) (ops : list am_op) : list (list Z) := fst (fold_left a_note ops (dm, [])).
Definition a_seen (dm : list (list Z)) (ops : list am_op) : list (list (list Z)) := snd (fold_left a_note ops (dm, [])).

(* ---- simplexTree ---- *)
(* The same for the tree, with the number of points inserted before the last clear; insert does nothing while the
   matrix is empty. *)
Record mpast : Type := mkM { m_matrix : list (list Z); m_before : nat; m_seen : list (list (list Z)) }.
Definition m_note (p : mpast) (o : st_op) : mpast :=
  match o with
  | TInsert => match m_matrix p with
               | [] => p
               | _ => mkM (m_matrix p) (m_before p) (m_seen p ++ [m_matrix p])
               end
  | TClear => mkM (m_matrix p) (m_before p + length (m_seen p)) []
  | TMatrix dm => mkM dm (m_before p) (m_seen p)
  | TGetAll => p
  end.
Definition m_past (dm : list (list Z)) (ops : list st_op) : mpast := fold_left m_note ops (mkM dm 0 []).

(* Calls the tree accepts: an insertion finds an entry for every pair with an older point (or the matrix is empty),
   clear is called on a non-empty complex. *)
Definition t_allowed (p : mpast) (o : st_op) : Prop :=
  match o with
  | TInsert => m_matrix p = [] \/ has_column (m_matrix p) (length (m_seen p))
  | TClear => m_seen p <> []
  | TMatrix _ | TGetAll => True
  end.
(* The same with no negative entry in the column that is read. *)
Definition t_proper (p : mpast) (o : st_op) : Prop :=
  match o with
  | TInsert => m_matrix p = [] \/ good_column (m_matrix p) (length (m_seen p))
  | TClear => m_seen p <> []
  | TMatrix _ | TGetAll => True
  end.
