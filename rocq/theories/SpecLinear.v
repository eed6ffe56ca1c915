(* SpecLinear.v -- linear algebra over GF(2), for the statements about boundary matrices.
   A vector is the finite set of its non-zero coordinates. *)
From Coq Require Import List Arith ZArith Bool.
From Verif Require Import Base Spec ArrayListModel.
Import ListNotations.

(* Coordinate i of the vector s. *)
Definition coord (s : list nat) (i : nat) : bool := existsb (Nat.eqb i) s.
(* Coordinate i of the sum of the vectors in l. *)
Definition sum_coord (l : list (list nat)) (i : nat) : bool := fold_right (fun s b => xorb (coord s i) b) false l.
(* x is a sum of vectors of cs. *)
Definition combination (cs : list (list nat)) (x : list nat) : Prop :=
  exists l, incl l cs /\ forall i, coord x i = sum_coord l i.
(* The j-th vector is not a combination of the vectors before it. *)
Definition fresh (cs : list (list nat)) (j : nat) : Prop :=
  exists x, nth_error cs j = Some x /\ ~ combination (firstn j cs) x.
(* cs has rank r: some r of its vectors are independent and generate the others. *)
Definition independent (b : list (list nat)) : Prop := forall j, j < length b -> fresh b j.
Definition rank (cs : list (list nat)) (r : nat) : Prop :=
  exists b, length b = r /\ incl b cs /\ independent b /\ forall x, In x cs -> combination b x.

(* The boundary of the simplex s, as the set of numbers of the rows that are faces of s; the matrix of a list of columns. *)
Definition is_face (s t : list nat) : bool := forallb (fun v => existsb (Nat.eqb v) s) t.
Definition boundary (rows : list (list nat)) (s : list nat) : list nat :=
  filter (fun i => is_face s (nth i rows [])) (seq 0 (length rows)).
Definition boundary_matrix (rows cols : list (list nat)) : list (list nat) := map (boundary rows) cols.
