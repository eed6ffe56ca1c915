(* KdModel.v -- Preprocessing/kdTree.cpp and Preprocessing/dbscan.cpp. *)
From Coq Require Import List Arith ZArith Bool.
From Verif Require Import Base.
Import ListNotations.

(* Preprocessing/kdTree.hpp:11-15: point and pointIndex. *)
Definition point : Type := list Z.
Definition pointIndex : Type := point * nat.
(* Preprocessing/kdTree.hpp:18-38 kdNode.  KNil is the node made by newKdNodePtr (kdTree.cpp:69-71): its point is empty. *)
Inductive kd : Type := KNil | KNode (x : point) (index : nat) (left right : kd).

Section Kd.
  Variable dist : point -> point -> Z.                           (* utils::vectors_distance *)
  Variable diff : Z -> Z -> Z.                                   (* subtraction of doubles *)
  Variable mag : Z -> Z.                                         (* abs: of double, or of int after truncation *)
  Variable srt : nat -> list pointIndex -> list pointIndex.      (* std::sort with sortByLevel *)

  (* Preprocessing/kdTree.cpp:78-116 kdTree::makeTree.  The calls work on disjoint parts of one array, so lists stand for
     the iterators.  The call with fuel 0 is only reached with an empty list when fuel starts at the length (the
     theorems about kd_build show that no point is lost).  Simplification: points all have the same dimension, so the
     comparison never reads out of range. *)
  Fixpoint makeTree (fuel : nat) (l : list pointIndex) (level : nat) : kd :=
    match fuel, l with
    | S fuel', first :: _ =>
        let n := length l in
        let dim := length (fst first) in
        let a := if 1 <? n then srt level l else l in
        let middle := n / 2 in
        let nl := n / 2 in
        let nr := n - nl - 1 in
        let lft := if (0 <? nl) && (0 <? dim) then makeTree fuel' (firstn middle a) ((level + 1) mod dim) else KNil in
        let rgt := if (0 <? nr) && (0 <? dim) then makeTree fuel' (skipn (middle + 1) a) ((level + 1) mod dim) else KNil in
        match nth_error a middle with
        | Some (x, i) => KNode x i lft rgt
        | None => KNil
        end
    | _, _ => KNil
    end.

  (* Preprocessing/kdTree.cpp:136-156 kdTree::kdTree(pointVec, int). *)
  Definition kd_build (data : list point) (size : nat) : res kd :=
    let size := if size =? 0 then length data else size in
    do arr <- foldr_ub (fun arr i => do x <- at_ data i; Ok (arr ++ [(x, i)])) [] (seq 0 size);
    Ok (makeTree (length arr) arr 0).

  (* Preprocessing/kdTree.cpp:63: operator bool. *)
  Definition kd_bool (t : kd) : bool := match t with KNode (_ :: _) _ _ _ => true | _ => false end.

  (* Preprocessing/kdTree.cpp:160-216 kdTree::findNearest; a node is represented by its point and index, None stands for
     the empty node.  vector::at throws when out of range; this is not distinguished from undefined behaviour. *)
  Fixpoint findNearest (branch : kd) (pt : point) (level : nat) (best : option pointIndex) (bestDist : Z) : res (option pointIndex) :=
    match branch with
    | KNil | KNode [] _ _ _ => Ok None
    | KNode x index lft rgt =>
        let dim := length x in
        let d := dist x pt in
        do bx <- at_ x level;
        do px <- at_ pt level;
        let dx := diff bx px in
        let '(bestL, bestDistL) := if (d <? bestDist)%Z then (Some (x, index), d) else (best, bestDist) in
        let nextLv := (level + 1) mod dim in
        do further <- (if (0 <? dx)%Z then findNearest lft pt nextLv bestL bestDistL else findNearest rgt pt nextLv bestL bestDistL);
        let '(bestL, bestDistL) :=
          match further with
          | Some (y, k) => if (dist y pt <? bestDistL)%Z then (further, dist y pt) else (bestL, bestDistL)
          | None => (bestL, bestDistL)
          end in
        if (mag dx <? bestDistL)%Z then
          do further <- (if (0 <? dx)%Z then findNearest rgt pt nextLv bestL bestDistL else findNearest lft pt nextLv bestL bestDistL);
          match further with
          | Some (y, k) => Ok (if (dist y pt <? bestDistL)%Z then further else bestL)
          | None => Ok bestL
          end
        else Ok bestL
    end.
  (* Preprocessing/kdTree.cpp:220-224 kdTree::nearest. *)
  Definition nearest (root : kd) (pt : point) : res (option pointIndex) :=
    let '(b, x) := match root with KNil => (None, []) | KNode x i _ _ => (Some (x, i), x) end in
    findNearest root pt 0 b (dist x pt).
  (* Preprocessing/kdTree.cpp:231-233 kdTree::nearestIndex; the index of the empty node is never initialised. *)
  Definition nearestIndex (root : kd) (pt : point) : res nat :=
    do n <- nearest root pt;
    match n with Some (_, i) => Ok i | None => UB end.

  (* Preprocessing/kdTree.cpp:240-278 kdTree::neighborhood. *)
  Fixpoint neighborhood (branch : kd) (pt : point) (rad : Z) (level : nat) : res (list pointIndex) :=
    match branch with
    | KNil | KNode [] _ _ _ => Ok []
    | KNode x index lft rgt =>
        let dim := length pt in
        let d := dist x pt in
        do bx <- at_ x level;
        do px <- at_ pt level;
        let dx := diff bx px in
        let here := if (d <=? rad)%Z then [(x, index)] else [] in
        do s <- (if (0 <? dx)%Z then neighborhood lft pt rad ((level + 1) mod dim) else neighborhood rgt pt rad ((level + 1) mod dim));
        if (mag dx <? rad)%Z then
          do o <- (if (0 <? dx)%Z then neighborhood rgt pt rad ((level + 1) mod dim) else neighborhood lft pt rad ((level + 1) mod dim));
          Ok (here ++ s ++ o)
        else Ok (here ++ s)
    end.
  (* Preprocessing/kdTree.cpp:281-283, 292-297 kdTree::neighborhoodIndices. *)
  Definition neighborhoodIndices (root : kd) (pt : point) (rad : Z) : res (list nat) :=
    rmap (map snd) (neighborhood root pt rad 0).
End Kd.

Section Dbscan.
  Variable nb : nat -> res (list nat).     (* tree.neighborhoodIndices(data[i], epsilon) *)
  Variable minPoints : Z.

  (* neighbors.size() < minPoints: an unsigned comparison, so a negative minPoints is larger than every size. *)
  Definition few (l : list nat) : bool := (minPoints <? 0)%Z || (Z.of_nat (length l) <? minPoints)%Z.

  (* Preprocessing/dbscan.cpp:45-66 dbscan::expandCluster; [queue] is the part of neighbors from index i on.  None: out
     of fuel (excluded by C28). *)
  Fixpoint expandCluster (fuel : nat) (queue : list nat) (clusterLabel : Z) (labels : list Z) : option (res (list Z)) :=
    match queue with
    | [] => Some (Ok labels)
    | pt :: rest =>
        match fuel with
        | O => None
        | S fuel' =>
            match at_ labels pt with
            | UB => Some UB
            | Ok v =>
                if (v =? -1)%Z then
                  match upd labels pt (fun _ => clusterLabel) with
                  | UB => Some UB
                  | Ok labels' => expandCluster fuel' rest clusterLabel labels'
                  end
                else if (v =? 0)%Z then
                  match upd labels pt (fun _ => clusterLabel), nb pt with
                  | Ok labels', Ok ptNeighbors =>
                      expandCluster fuel' (if few ptNeighbors then rest else rest ++ ptNeighbors) clusterLabel labels'
                  | _, _ => Some UB
                  end
                else expandCluster fuel' rest clusterLabel labels
            end
        end
    end.

  (* Preprocessing/dbscan.cpp:31-40: the body of the loop over the points; the state is (labels, clusterLabel). *)
  Definition cluster_step (fuel : nat) (st : list Z * Z) (i : nat) : option (res (list Z * Z)) :=
    let '(labels, clusterLabel) := st in
    match at_ labels i with
    | UB => Some UB
    | Ok v =>
        if negb (v =? 0)%Z then Some (Ok st)
        else
          match nb i with
          | UB => Some UB
          | Ok neighbors =>
              if few neighbors then
                Some (rmap (fun l => (l, clusterLabel)) (upd labels i (fun _ => -1)%Z))
              else
                match expandCluster fuel neighbors (clusterLabel + 1) labels with
                | None => None
                | Some UB => Some UB
                | Some (Ok labels') => Some (Ok (labels', (clusterLabel + 1)%Z))
                end
          end
    end.
  Fixpoint cluster_loop (fuel : nat) (st : list Z * Z) (is : list nat) : option (res (list Z * Z)) :=
    match is with
    | [] => Some (Ok st)
    | i :: is' =>
        match cluster_step fuel st i with
        | Some (Ok st') => cluster_loop fuel st' is'
        | r => r
        end
    end.
  (* Preprocessing/dbscan.cpp:21-43 dbscan::cluster on [size] points. *)
  Definition cluster (fuel size : nat) : option (res (list Z)) :=
    match cluster_loop fuel (repeat 0%Z size, 0%Z) (seq 0 size) with
    | None => None
    | Some UB => Some UB
    | Some (Ok (labels, _)) => Some (Ok labels)
    end.
End Dbscan.

(* Preprocessing/dbscan.cpp:21-43 with the tree; size 0 means all points. *)
Definition dbscan dist diff mag srt (fuel : nat) (data : list point) (minPoints epsilon : Z) (size : nat) : option (res (list Z)) :=
  let n := if size =? 0 then length data else size in
  match kd_build srt data n with
  | UB => Some UB
  | Ok tree => cluster (fun i => do x <- at_ data i; neighborhoodIndices dist diff mag tree x epsilon) minPoints fuel n
  end.
