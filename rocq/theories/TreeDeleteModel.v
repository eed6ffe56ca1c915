(* TreeDeleteModel.v -- model of the deletion, the stream evaluation and the unimplemented queries of simplexTree
   (/repo/Complex/simplexTree.cpp, /repo/Complex/simplexBase.cpp; definitions only). *)
From Coq Require Import List Arith ZArith Bool.
From Verif Require Import Base UtilsModel ArrayListModel TreeModel.
Import ListNotations.

(* Where head and dimensions[0] point: both to the first vertex of the sibling list (or head is null and dimensions is
   empty); to a node that has been freed; or dimensions[0] is a null pointer that deleteIndexRecurse left there. *)
Inductive hstate : Type := Sound | Freed | Lost.
Record dtree : Type := mkD { d_tree : stree; d_head : hstate }.

(* The comparison of an unsigned index with the int key converts the key. *)
Definition key_is (key : Z) (t : tnode) : bool := (Z.of_nat (t_index t) =? key mod 2 ^ 32)%Z.

(* Complex/simplexTree.cpp:228-262 simplexTree::deleteIndexRecurse on the sibling list l.  The node behind the current one is
   unlinked (and not freed) when it has the key; then the list behind is handled; then the current node itself is freed
   with all its siblings if it has the key (deletion, :514-548).  [true] says that a node still linked has been freed.
   "child" is null in every node that insert made, so the branches that use it are left out. *)
Fixpoint deleteIndexRecurse (uaf : res unit) (key : Z) (l : list tnode) (count : Z) : res (list tnode * Z * bool) :=
  match l with
  | [] => Ok ([], count, false)
  | c :: rest =>
      do r <- match rest with
              | [] => Ok ([], count, false)
              | s :: rest' => if key_is key s then deleteIndexRecurse uaf key rest' count
                              else deleteIndexRecurse uaf key rest count
              end;
      let '(l', n, freed) := r in
      if key_is key c then
        if freed then UB
        else do n' <- st_deletion uaf (c :: l') n; Ok (c :: l', n', true)
      else Ok (c :: l', n, freed)
  end.

(* Complex/simplexTree.cpp:209-225 simplexTree::deleteIterative.  The row is erased from the matrix; the columns are erased
   from copies of the rows ("for(auto z : distMatrix)"), which changes nothing but is undefined for a row with exactly
   indexToBeDeleted entries (erase(end())). *)
Definition erase_row (dm : list (list Z)) (idx : Z) : res (list (list Z)) :=
  if (0 <=? idx)%Z && (idx <? Z.of_nat (length dm))%Z
  then Ok (firstn (Z.to_nat idx) dm ++ skipn (S (Z.to_nat idx)) dm) else UB.
Definition erase_columns (dm : list (list Z)) (idx : Z) : res unit :=
  if existsb (fun z => Nat.eqb (length z) (Z.to_nat idx)) dm then UB else Ok tt.

Definition with_rows (t : stree) (dm : list (list Z)) (roots : list tnode) (count : Z) : stree :=
  mkSt dm roots (st_weg t) count (st_indexCounter t) (st_runningVectorCount t) (st_runningVectorIndices t) (st_isSorted t).

Definition deleteIterative (uaf : res unit) (key idx : Z) (d : dtree) : res dtree :=
  let t := d_tree d in
  do dm <- erase_row (st_dm t) idx;
  do _ <- erase_columns dm idx;
  match d_head d with
  | Freed => UB
  | h =>
      do r <- deleteIndexRecurse uaf key (st_roots t) (st_count t);
      let '(l, count, freed) := r in
      match l with
      | [] => Ok (mkD (with_rows t dm [] count) h)
      | c :: l' =>
          if key_is key c then         (* curNode == head: head = curNode->sibling; dimensions[0] = head *)
            match l' with
            | [] => Ok (mkD (with_rows t dm [] count) Lost)
            | _ => Ok (mkD (with_rows t dm l' count) Freed)
            end
          else Ok (mkD (with_rows t dm l count) (if freed then Freed else h))
      end
  end.

(* insert, clear, setDistanceMatrix and getAllEdges (TreeModel) on such an object.  insert reads head and dimensions[0];
   with dimensions[0] null it can still start a new list (:283-299 pushes the head to the back of dimensions and a new level
   to weightEdgeGraph).  clear walks from head and empties dimensions. *)
Inductive dt_op : Type := DOp (o : st_op) | DDelete (key idx : Z).
Section Ops.
  Variables (eps maxDimension : Z) (uaf : res unit) (srt : list wsimp -> list wsimp).
  Definition d_step (d : dtree) (o : dt_op) : res dtree :=
    match o with
    | DDelete key idx => deleteIterative uaf key idx d
    | DOp o' =>
        let go h := do t <- st_step eps maxDimension uaf srt (d_tree d) o'; Ok (mkD t h) in
        match d_head d, o' with
        | Sound, _ => go Sound
        | h, TMatrix _ | h, TGetAll => go h
        | Freed, TInsert => match st_dm (d_tree d) with [] => go Freed | _ => UB end
        | Freed, TClear => UB
        | Lost, TInsert => match st_dm (d_tree d), st_roots (d_tree d) with
                           | [], _ | _, [] => go Lost
                           | _, _ => UB
                           end
        | Lost, TClear => go Sound
        end
    end.
  Definition d_run (d : dtree) (ops : list dt_op) : res dtree := foldr_ub d_step d ops.
End Ops.

(* Complex/simplexTree.cpp:483-488 find(set), :550-554 findWeight, :557-561 getd0Pairs: not implemented. *)
Definition st_find (t : stree) (s : list nat) : bool := false.
Definition st_findWeight (t : stree) (s : list nat) : Z := 1.
Definition st_getd0Pairs (t : stree) : list (Z * list nat) := [].
(* Complex/simplexTree.cpp:490-511 deletion(set): reads dimensions[0], then returns false. *)
Definition st_deletion_set (t : stree) (s : list nat) : res (bool * stree) :=
  match st_roots t with [] => UB | _ => Ok (false, t) end.

(* Complex/simplexBase.cpp:154-198 streamEvaluator over any number type, and utils.cpp:506-518 nearestNeighbors.
   What is appended to "stats" is the counter, mean and deviation of all distances, k, mean and deviation of the
   k smallest distances, and the verdict. *)
Section Stream.
  Variables (num : Type) (zero : num) (add sub mul div : num -> num -> num) (sqrt : num -> num) (of_nat : nat -> num).
  Variable distance : list num -> list num -> res num.    (* utils::vectors_distance *)
  Variable nsrt : list num -> list num.                   (* std::sort *)
  Fixpoint nearestNeighbors (p : list num) (cloud : list (list num)) : res (list num) :=
    match cloud with
    | [] => Ok []
    | q :: cloud' => do d <- distance p q; do ds <- nearestNeighbors p cloud'; Ok (d :: ds)
    end.
  Definition mean (l : list num) : num := div (fold_left add l zero) (of_nat (length l)).
  Definition deviation (l : list num) : num :=
    let m := mean l in
    sqrt (div (fold_left (fun s x => add s (mul (sub x m) (sub x m))) l zero) (of_nat (length l))).
  (* for(int i = 0; i < k; i++) kNN.push_back(reps[i]) *)
  Fixpoint take (reps : list num) (k : nat) : res (list num) :=
    match k with
    | 0 => Ok []
    | S k' => match reps with [] => UB | x :: reps' => do r <- take reps' k'; Ok (x :: r) end
    end.
  Record stat_line : Type := mkStat { sl_index : nat; sl_mean : num; sl_stdev : num; sl_k : nat; sl_kmean : num; sl_kstdev : num; sl_accept : bool }.
  Definition streamEvaluator (runningVectorCount : nat) (stats : list stat_line) (v : list num) (window : list (list num)) :
      res (bool * list stat_line) :=
    do reps <- nearestNeighbors v window;
    do kNN <- take (nsrt reps) 20;
    Ok (true, stats ++ [mkStat runningVectorCount (mean reps) (deviation reps) 20 (mean kNN) (deviation kNN) true]).

  (* Complex/simplexTree.cpp:189-206 insertIterative with the evaluator f that setStreamEvaluator stored (None: the
     pointer was never set); the new value of removedSimplices. *)
  Definition insertIterative (f : option (list num -> list (list num) -> res bool)) (removed : nat) (v : list num) (window : list (list num)) : res (bool * nat) :=
    match window with
    | [] => Ok (true, removed)
    | _ => match f with
           | None => UB
           | Some f => do b <- f v window; Ok (if b : bool then (true, S removed) else (false, removed))
           end
    end.
End Stream.
