(* TreeModel.v -- model of /repo/Complex/simplexTree.cpp (definitions only). *)
From Coq Require Import List Arith ZArith Bool.
From Verif Require Import Base UtilsModel ArrayListModel.
Import ListNotations.

(* Complex/simplexTree.hpp:17-24 struct treeNode.  The incremental insertion keeps the children of
   a node in the list headed by its "parent" pointer (simplexTree.cpp:60-75), newest first, linked by
   "sibling"; "child" stays null.  The "simplex" field is written but read only in the loop of
   reduceComplex that never runs (see st_reduceComplex), so it is left out. *)
Inductive tnode : Type := TN (index : nat) (weight : Z) (children : list tnode).

Definition t_index (t : tnode) : nat := match t with TN i _ _ => i end.
Definition t_children (t : tnode) : list tnode := match t with TN _ _ cs => cs end.

(* weightEdgeGraph and nodeCount, the two accumulators of recurseInsert. *)
Definition tacc : Type := (wgraph * Z)%type.

(* Complex/simplexTree.cpp:51-58: record a simplex in weightEdgeGraph[simp.size()-1]. *)
Definition record_simplex (weg : wgraph) (simp : list nat) (w : Z) : res wgraph :=
  if length weg <? length simp then Ok (weg ++ [[(simp, w)]])
  else match length simp with
       | 0 => UB
       | S k => upd weg k (fun l => l ++ [(simp, w)])
       end.

Section Insert.
  Variable eps : Z.                     (* maxEpsilon *)
  Variable maxDimension : Z.            (* int *)
  Variable dist : nat -> res Z.         (* distance of a node's index to the new vertex *)
  Variable curIndex : nat.

  (* simp.size() <= maxDimension compares a size_t with an int: a negative maxDimension becomes
     2^64 + maxDimension. *)
  Definition may_recurse (size : nat) : bool := (Z.of_nat size <=? maxDimension mod 2 ^ 64)%Z.

  (* Complex/simplexTree.cpp:20-79 simplexTree::recurseInsert.  Returns the node with its new
     descendants.  The do-while over temp, temp->sibling, ... visits the older children in list order;
     the node inserted in front of them is not visited. *)
  Fixpoint recurseInsert (node : tnode) (maxE : Z) (simp : list nat) (acc : tacc) : res (tnode * tacc) :=
    match node with
    | TN i w cs =>
        do d <- dist i;
        let curE := if (maxE <? d)%Z then d else maxE in
        if (curE <? eps)%Z then
          let simp' := sinsert i simp in
          let maxE' := if (w <? curE)%Z then curE else w in
          do weg' <- record_simplex (fst acc) simp' maxE';
          let acc' := (weg', snd acc + 1)%Z in
          let insNode := TN curIndex maxE' [] in
          match cs with
          | [] => Ok (TN i w [insNode], acc')
          | _ =>
              if may_recurse (length simp') then
                do r <- (fix go (cs : list tnode) (acc : tacc) : res (list tnode * tacc) :=
                           match cs with
                           | [] => Ok ([], acc)
                           | c :: cs' =>
                               do r1 <- recurseInsert c maxE' simp' acc;
                               do r2 <- go cs' (snd r1);
                               Ok (fst r1 :: fst r2, snd r2)
                           end) cs acc';
                Ok (TN i w (insNode :: fst r), snd r)
              else Ok (TN i w (insNode :: cs), acc')
          end
        else Ok (node, acc)
    end.

  (* Complex/simplexTree.cpp:327-330: the do-while over the vertices dimensions[0], sibling, ... *)
  Fixpoint insert_roots (roots : list tnode) (acc : tacc) : res (list tnode * tacc) :=
    match roots with
    | [] => Ok ([], acc)
    | r :: rs =>
        do r1 <- recurseInsert r 0%Z [curIndex] acc;
        do r2 <- insert_roots rs (snd r1);
        Ok (fst r1 :: fst r2, snd r2)
    end.
End Insert.

(* A simplexTree object.  [st_roots] is the sibling list from head = dimensions[0]; the head pointer
   is null iff it is empty.  [st_count] is nodeCount. *)
Record stree : Type := mkSt {
  st_dm : list (list Z);
  st_roots : list tnode;
  st_weg : wgraph;
  st_count : Z;
  st_indexCounter : nat;
  st_runningVectorCount : nat;
  st_runningVectorIndices : list nat;
  st_isSorted : bool }.

(* Complex/simplexTree.cpp:8-15: the constructor.  head and nodeCount are not initialised; this is the
   state when head happens to be null (any other value is read as a garbage pointer in insert), with
   nodeCount holding the arbitrary value nc0. *)
Definition st_new (dm : list (list Z)) (nc0 : Z) : stree := mkSt dm [] [] nc0 0 0 [] false.

Section Tree.
  Variable eps maxDimension : Z.

  (* Complex/simplexTree.cpp:28-36: the distance between a node and the vertex being inserted;
     [rvi] is runningVectorIndices.size().  The indices are unsigned: a negative difference is out of range. *)
  Definition tree_dist (dm : list (list Z)) (rvi rvc indexCounter : nat) (index : nat) : res Z :=
    if rvi <? rvc + 1 then
      let offset := rvc + 1 - rvi in
      if (index <? offset) || (indexCounter <? offset) then UB
      else dm_at dm (index - offset) (indexCounter - offset)
    else dm_at dm index indexCounter.

  (* Complex/simplexTree.cpp:273-347 simplexTree::insert (the vector is not used). *)
  Definition st_insert (t : stree) : res stree :=
    match st_dm t with
    | [] => Ok t
    | _ =>
        let cur := st_indexCounter t in
        let rvi := st_runningVectorIndices t ++ [st_runningVectorCount t] in
        match st_roots t with
        | [] =>
            Ok (mkSt (st_dm t) [TN cur 0 []] (st_weg t ++ [[([cur], 0%Z)]]) (st_count t + 1)
                     (S cur) (S (st_runningVectorCount t)) rvi (st_isSorted t))
        | _ =>
            do r <- insert_roots eps maxDimension
                      (tree_dist (st_dm t) (length rvi) (st_runningVectorCount t) cur) cur
                      (st_roots t) (st_weg t, st_count t);
            do weg <- upd (fst (snd r)) 0 (fun l => l ++ [([cur], 0%Z)]);
            Ok (mkSt (st_dm t) (fst r ++ [TN cur 0 []]) weg (snd (snd r) + 1)
                     (S cur) (S (st_runningVectorCount t)) rvi (st_isSorted t))
        end
    end.

  (* Complex/simplexTree.cpp:514-548 deletion(node pointer), called on head.  No node has a "child", so it
     recurses along the siblings and frees every vertex (not their descendants, which leak), counting each.
     After "delete curNode" it writes removalEntry->child with removalEntry == curNode, a write to freed
     memory; [uaf] is the outcome of that write (UB by the standard).  head == nullptr is dereferenced. *)
  Fixpoint st_deletion (uaf : res unit) (roots : list tnode) (count : Z) : res Z :=
    match roots with
    | [] => UB
    | [r] => do _ <- uaf; Ok (count - 1)%Z
    | r :: rs => do c <- st_deletion uaf rs count; do _ <- uaf; Ok (c - 1)%Z
    end.

  (* Complex/simplexTree.cpp:564-582 simplexTree::clear: runningVectorCount, indexCounter and isSorted are kept. *)
  Definition st_clear (uaf : res unit) (t : stree) : res stree :=
    do c <- st_deletion uaf (st_roots t) (st_count t);
    Ok (mkSt (st_dm t) [] [] c (st_indexCounter t) (st_runningVectorCount t) [] (st_isSorted t)).

  (* Complex/simplexBase.cpp:50-53 setDistanceMatrix. *)
  Definition st_setDistanceMatrix (dm : list (list Z)) (t : stree) : stree :=
    mkSt dm (st_roots t) (st_weg t) (st_count t) (st_indexCounter t) (st_runningVectorCount t)
         (st_runningVectorIndices t) (st_isSorted t).

  (* Complex/simplexTree.cpp:350-355 vertexCount, 357-360 simplexCount. *)
  Definition st_vertexCount (t : stree) : nat :=
    if length (st_runningVectorIndices t) <? st_runningVectorCount t + 1
    then length (st_runningVectorIndices t) else st_indexCounter t.
  Definition st_simplexCount (t : stree) : Z := st_count t.

  (* Complex/simplexTree.cpp:368-377 getAllEdges: sorts on the first call only. *)
  Definition st_getAllEdges (srt : list wsimp -> list wsimp) (t : stree) : wgraph * stree :=
    if st_isSorted t then (st_weg t, t)
    else let weg := map srt (st_weg t) in
         (weg, mkSt (st_dm t) (st_roots t) weg (st_count t) (st_indexCounter t) (st_runningVectorCount t)
                    (st_runningVectorIndices t) true).

  (* Complex/simplexTree.cpp:470-482 getDimEdges: tests size() >= d, then reads [d].  A negative d
     converts to a huge unsigned value in the comparison, so nothing is returned. *)
  Definition st_getDimEdges (t : stree) (d : Z) : res (list (list nat)) :=
    if (d mod 2 ^ 64 <=? Z.of_nat (length (st_weg t)))%Z then
      do l <- at_ (st_weg t) (Z.to_nat (d mod 2 ^ 64)); Ok (map fst l)
    else Ok [].

  (* Complex/simplexTree.cpp:379-417 reduceComplex.  "dimensions" is [head] (or empty), so the loop
     for(i = dimensions.size()-1; i > 1; i--) has no iterations; [loop_body] stands for its body. *)
  Definition st_dimensions (t : stree) : nat := match st_roots t with [] => 0 | _ => 1 end.
  Definition st_reduceComplex (loop_body : nat -> stree -> stree) (t : stree) : stree :=
    match st_weg t with
    | [] => t
    | _ => if 0 <? st_dimensions t
           then fold_left (fun t i => loop_body i t) (rev (seq 2 (st_dimensions t - 2))) t
           else t
    end.

  (* Histories of calls on one object. *)
  Inductive st_op : Type := TInsert | TClear | TMatrix (dm : list (list Z)) | TGetAll.
  Definition st_step (uaf : res unit) (srt : list wsimp -> list wsimp) (t : stree) (o : st_op) : res stree :=
    match o with
    | TInsert => st_insert t
    | TClear => st_clear uaf t
    | TMatrix dm => Ok (st_setDistanceMatrix dm t)
    | TGetAll => Ok (snd (st_getAllEdges srt t))
    end.
  Definition st_run (uaf : res unit) (srt : list wsimp -> list wsimp) (t : stree) (ops : list st_op) : res stree :=
    foldr_ub (st_step uaf srt) t ops.
End Tree.
