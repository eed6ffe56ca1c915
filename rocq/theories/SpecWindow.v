(* SpecWindow.v -- vocabulary for the statements about the two streaming windows. *)
From Coq Require Import String List Arith ZArith.
From Verif Require Import Base Spec ArgModel SpecGraph ArrayListModel SpecComplex PipeModel SpecPipe.
Import ListNotations.

(* The last n elements. *)
Definition lastn {A} (n : nat) (l : list A) : list A := skipn (length l - n) l.

(* The options of a run with a simplexTree. *)
Record tree_options (args : amap) (dim eps : string) : Prop := {
  to_complex : mget args "complexType" = Some "simplexTree"%string;
  to_dim : mget args "dimensions" = Some dim;
  to_eps : mget args "epsilon" = Some eps }.

(* The complex lists exactly the Vietoris-Rips simplices of the points (closer than eps, of dimension at most dim), with
   their diameters, and reports the number of points and, on top of its initial count, the number of simplices. *)
Definition holds_rips (srt : list wsimp -> list wsimp) (dist : list Z -> list Z -> Z) (points : list (list Z)) (eps dim count0 : Z)
  (c : cx) : Prop :=
  let edges := fst (cx_getAllEdges srt eps c) in
  lists_rips (separation dist points) (fun d => (d < eps)%Z) (length points) (Z.to_nat dim) edges /\
  cx_vertexCount c = Z.of_nat (length points) /\ cx_simplexCount c = (count0 + Z.of_nat (length (concat edges)))%Z.

(* The values of pointCounter at which the windows print a line, for m vectors read. *)
Definition printed (m : nat) : list nat :=
  (map (fun k => 100 * S k) (seq 0 (m / 100)) ++ (if (m mod 100 =? 0)%nat then [] else [m + 1]))%list.

Section Sliding.
  Variable dist : list Z -> list Z -> Z.
  Variable points : list (list Z).
  (* The distance between the points number i and j, in either order of the indices. *)
  Definition gap (i j : nat) : Z := separation dist points (Nat.min i j) (Nat.max i j).
  (* j is the smallest index of a point nearest to the point i, and d is its distance. *)
  Definition nearest_other (i j : nat) (d : Z) : Prop :=
    i < length points /\ j < length points /\ j <> i /\ d = gap i j /\
    forall k, k < length points -> k <> i -> (d <= gap i k)%Z /\ (gap i k = d -> j <= k).
  (* The distance from x to the nearest point. *)
  Definition nearest_distance (x : list Z) (d : Z) : Prop :=
    (exists p, In p points /\ dist x p = d) /\ forall p, In p points -> (d <= dist x p)%Z.
  (* x is not admitted: it is at distance 0 from a point; or the average A of the nearest-neighbour distances nn is at
     most 1/4 and x is within 1 of a point; or A is positive and the distance is at most 4 A. *)
  Definition turned_away (one : Z) (nn : list Z) (x : list Z) : Prop :=
    exists d, nearest_distance x d /\
      (d = 0 \/ (4 * total_weight nn <= Z.of_nat (length nn) * one /\ d <= one) \/
       (total_weight nn <> 0 /\ d * Z.of_nat (length nn) <= 4 * total_weight nn))%Z.
End Sliding.
