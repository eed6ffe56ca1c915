(* UtilsModel.v -- model of /repo/Utils/utils.cpp (definitions only). *)
From Coq Require Import List Arith ZArith Bool.
From Verif Require Import Base.
Import ListNotations.

(* Utils/utils.cpp:155-166 utils::setXOR (arguments are std::set, so increasing lists). *)
Definition setXOR (a b : list nat) : list nat := set_symmetric_difference a b.

(* Utils/utils.cpp:181-209 utils::setIntersect(vector, vector, isSorted). *)
Definition setIntersect (v1 v2 : list nat) (isSorted : bool) : list nat :=
  if nlist_eqb v1 v2 then v1
  else if isSorted then set_intersection v1 v2
  else set_intersection (nsort v1) (nsort v2).

(* Utils/utils.cpp:211-239 utils::setIntersect(set, set, isSorted); isSorted is ignored. *)
Definition setIntersect_set (v1 v2 : list nat) : list nat :=
  if nlist_eqb v1 v2 then v1 else set_intersection v1 v2.

(* Utils/utils.cpp:244-283 utils::intersect. *)
Definition intersect (v1 v2 : list nat) (isSorted : bool) : list nat * list nat :=
  if nlist_eqb v1 v2 then ([], [])
  else
    let a := if isSorted then v1 else nsort v1 in
    let b := if isSorted then v2 else nsort v2 in
    let un := set_union a b in
    let sd := set_symmetric_difference a b in
    if length sd =? 2 then (sd, un) else ([], []).

(* Utils/utils.cpp:286-313 utils::symmetricDiff(vector, vector, isSorted). *)
Definition symmetricDiff (v1 v2 : list nat) (isSorted : bool) : list nat :=
  if nlist_eqb v1 v2 then []
  else if isSorted then set_symmetric_difference v1 v2
  else set_symmetric_difference (nsort v1) (nsort v2).

(* Utils/utils.cpp:316-343 utils::symmetricDiff(set, set, isSorted); isSorted is ignored. *)
Definition symmetricDiff_set (v1 v2 : list nat) : list nat :=
  if nlist_eqb v1 v2 then [] else set_symmetric_difference v1 v2.

(* Utils/utils.cpp:377-404 utils::setUnion: equal arguments return the empty vector. *)
Definition setUnion (v1 v2 : list nat) (isSorted : bool) : list nat :=
  if nlist_eqb v1 v2 then []
  else if isSorted then set_union v1 v2
  else set_union (nsort v1) (nsort v2).

(* Utils/utils.cpp:351-365, 450-464, 481-495: the loop that doubles the list of subsets,
   common to the three getSubsets overloads; [ins] is set::insert or vector::push_back. *)
Definition subset_step (ins : nat -> list nat -> list nat)
           (subset : list (list nat)) (entry : nat) : list (list nat) :=
  subset ++ map (ins entry) subset.
Definition all_subsets (ins : nat -> list nat -> list nat) (s : list nat) : list (list nat) :=
  fold_left (subset_step ins) s [[]].

Definition push_back (x : nat) (l : list nat) : list nat := l ++ [x].

(* Utils/utils.cpp:346-374 utils::getSubsets(set, int dim).  z.size() == dim compares a
   size_t with an int: a negative dim converts to a huge value and never matches. *)
Definition getSubsets_dim (s : list nat) (dim : Z) : list (list nat) :=
  filter (fun z => (Z.of_nat (length z) =? dim)%Z) (all_subsets sinsert s).

(* Utils/utils.cpp:444-472 utils::getSubsets(set).  set.size() - 1 wraps to 2^64-1 for the
   empty set and never matches, hence the comparison S (size z) = size set. *)
Definition getSubsets_set (s : list nat) : list (list nat) :=
  filter (fun z => S (length z) =? length s) (all_subsets sinsert s).

(* Utils/utils.cpp:475-503 utils::getSubsets(vector). *)
Definition getSubsets (s : list nat) : list (list nat) :=
  filter (fun z => S (length z) =? length s) (all_subsets push_back s).

(* Utils/utils.cpp:436-438 utils::sortBySecond (weights are doubles embedded in Z). *)
Definition sortBySecond (a b : list nat * Z) : bool := (snd a <? snd b)%Z.

(* Utils/utils.hpp: struct bettiBoundaryTableEntry. *)
Record bettiEntry : Type := mkBetti {
  bettiDim : nat; birth : Z; death : Z; boundaryPoints : list nat }.

(* Utils/utils.cpp:85-100 utils::mapPartitionIndexing: "for(auto bet : bettiTable)" iterates
   over copies; convBound is computed (indexing partitionedLabels) and assigned to the copy. *)
Definition mapPartitionIndexing (partitionedLabels : list nat) (bettiTable : list bettiEntry)
  : res (list bettiEntry) :=
  do _ <- foldr_ub (fun (_ : unit) bet =>
            do convBound <- foldr_ub (fun conv ind =>
                              do l <- at_ partitionedLabels ind;
                              Ok (sinsert l conv)) [] (boundaryPoints bet);
            let bet' := mkBetti (bettiDim bet) (birth bet) (death bet) convBound in
            let _ := bet' in Ok tt) tt bettiTable;
  Ok bettiTable.

Section Partitions.
  (* A data point; its contents matter only through [dist]. *)
  Context {P : Type}.
  Variable dist : P -> P -> Z.   (* utils::vectors_distance on points *)

  (* Utils/utils.cpp:20-31 utils::computeMaxRadius (k is unused). *)
  Definition computeMaxRadius (centroids originalData : list P) (labels : list nat) : res Z :=
    foldr_ub (fun maxRadius '(i, lab) =>
                do x <- at_ originalData i;
                do c <- at_ centroids lab;
                let curRadius := dist x c in
                Ok (if (maxRadius <? curRadius)%Z then curRadius else maxRadius))
             0%Z (enum 0 labels).

  (* Utils/utils.cpp:33-45 utils::separatePartitions(int k, ...): (labres, res). *)
  Definition separatePartitions (k : nat) (originalData : list P) (labels : list nat)
    : res (list (list nat) * list (list P)) :=
    foldr_ub (fun '(labres, res) '(i, lab) =>
                do x <- at_ originalData i;
                do res' <- upd res lab (fun l => l ++ [x]);
                do labres' <- upd labres lab (fun l => l ++ [i]);
                Ok (labres', res'))
             (repeat [] k, repeat [] k) (enum 0 labels).

  (* Utils/utils.cpp:47-67 utils::separatePartitions(double rad, ...): strict "<". *)
  Definition separatePartitionsRad (rad : Z) (centroids originalData : list P) (labels : list nat)
    : res (list (list nat) * list (list P)) :=
    foldr_ub (fun st '(i, _) =>
      foldr_ub (fun '(labres, res) '(j, c) =>
                do x <- at_ originalData i;
                if (dist x c <? rad)%Z then
                  do res' <- upd res j (fun l => l ++ [x]);
                  do labres' <- upd labres j (fun l => l ++ [i]);
                  Ok (labres', res')
                else Ok (labres, res)) st (enum 0 centroids))
             (repeat [] (length centroids), repeat [] (length centroids)) (enum 0 labels).

  (* Utils/utils.cpp:69-83 utils::separateBoundaryPartitions. *)
  Definition separateBoundaryPartitions (boundaryLists : list (list nat))
             (originalData : list P) (labels : list nat) : res (list (list P)) :=
    foldr_ub (fun st '(i, x) =>
      foldr_ub (fun res '(j, bl) =>
                do lab <- at_ labels i;
                if existsb (Nat.eqb lab) bl then upd res j (fun l => l ++ [x]) else Ok res)
               st (enum 0 boundaryLists))
             (repeat [] (length boundaryLists)) (enum 0 originalData).

  (* Utils/utils.cpp:506-518 utils::nearestNeighbors: distances to every point of the cloud. *)
  Definition nearestNeighbors (point : P) (pointcloud : list P) : list Z :=
    map (fun currentPoint => dist point currentPoint) pointcloud.
End Partitions.

Section VectorsDistance.
  (* The floating-point operations are parameters: sq x y = pow(x-y, 2), add, sqrt. *)
  Context {N : Type}.
  Variables (sq : N -> N -> N) (add : N -> N -> N) (sqrt : N -> N) (zero : N).

  (* std::transform(a.begin(), a.end(), b.begin(), ...): reads b past its end if b is shorter. *)
  Fixpoint transform2 (a b : list N) : res (list N) :=
    match a, b with
    | [], _ => Ok []
    | _ :: _, [] => UB
    | x :: a', y :: b' => rmap (cons (sq x y)) (transform2 a' b')
    end.

  (* Utils/utils.cpp:168-179 utils::vectors_distance(vector, vector). *)
  Definition vectors_distance (a b : list N) : res N :=
    match b with
    | [] => Ok zero
    | _ => do temp <- transform2 a b; Ok (sqrt (fold_left add temp zero))
    end.

  (* Utils/utils.cpp:151-153 utils::vectors_distance(double, double). *)
  Definition scalar_distance (a b : N) : N := sq a b.
End VectorsDistance.
