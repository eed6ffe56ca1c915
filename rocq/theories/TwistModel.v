(* TwistModel.v -- the two branches of Pipes/optPersistencePairs.cpp that work on the indexed simplex tree: the reduction on
   sets (complexType "indSimplexTree") and the incremental reduction (twist "true"). *)
From Coq Require Import List Arith ZArith Bool.
From Verif Require Import Base RunMonad UtilsModel ArrayListModel TreeModel GaussModel IndModel.
Import ListNotations.

(* Complex/simplexBase.hpp:38-64 graphEntry::getAllSubsets on its own simplexSet (size() - 1 of the empty set matches no
   size). *)
Definition getAllSubsets (s : list nat) : list (list nat) :=
  filter (fun z => S (length z) =? length s) (all_subsets sinsert s).

(* Complex/simplexBase.hpp:67-77 graphEntry::getFaces; [find] is the virtual find of the complex, whose bool becomes an
   unsigned when it is inserted. *)
Definition getFaces (find : list nat -> res bool) (s : list nat) : res (list nat) :=
  foldr_ub (fun acc z => do b <- find z; Ok (sinsert (Nat.b2n b) acc)) [] (getAllSubsets s).

(* Pipes/optPersistencePairs.cpp:369-430 createBoundarySets for d > 0; the simplices numbered in [cleared] keep an empty
   set.  Simplification: the sweep of curPivot over the sorted set is a membership test. *)
Definition createBoundarySets (find : list nat -> res bool) (cleared : list nat) (pChain : list wsimp) : res (list (list nat)) :=
  foldr_ub (fun acc '(i, s) =>
              do b <- (if existsb (Nat.eqb i) cleared then Ok [] else getFaces find (fst s));
              Ok (acc ++ [b])) [] (enum 0 pChain).

(* Pipes/optPersistencePairs.cpp:555-580: one dimension of the branch alterPipe; ge[d-1] is copied in createBoundarySets.
   The state is (pivotOffset, allPivots, maxFaces). *)
Definition sets_dimension (find : list nat -> res bool) (ge : wgraph) (st : nat * list nat * list nat) (d : nat)
  : res (nat * list nat * list nat) :=
  let '(offset, pivots, faces) := st in
  do pChain <- at_ ge d;
  do _ <- at_ ge (d - 1);
  do m <- createBoundarySets find faces pChain;
  let r := opt_getRankNull_sets m in
  let offset' := offset - length pChain in
  Ok (offset', fold_left (fun s a => sinsert (offset' + a) s) (fst r) pivots, snd r).
Definition sets_pivots (find : list nat -> res bool) (dim : nat) (ge : wgraph) : res (list nat) :=
  do st <- foldr_ub (sets_dimension find ge) (total ge, [], []) (rev (seq 1 dim));
  Ok (snd (fst st)).

(* Pipes/optPersistencePairs.cpp:296-304: XOR with the pivots of earlier rows while the least element is below i; the
   first test reads *begin() of the set without looking whether it is empty.  None: the loop does not end. *)
Fixpoint tw_reduce (fuel : nat) (pivotXOR : list (list nat)) (i : nat) (s : list nat) : run (list nat) :=
  match s with
  | [] => ret []
  | x :: _ => if x <? i then
                match fuel with
                | O => None
                | S f => go p <- lift (at_ pivotXOR x); tw_reduce f pivotXOR i (setXOR s p)
                end
              else ret s
  end.

Section Twist.
  Variable faces_of : list nat -> res (list nat).    (* getFaces *)
  Variable cleared : list nat.                        (* curFaces *)

  (* Pipes/optPersistencePairs.cpp:276-324: the columns are taken one by one until one has its least element in row i.
     Simplification: the sweep of curFace over the sorted set is a membership test. *)
  Fixpoint tw_pop (fuel i : nat) (pivotXOR : list (list nat)) (rest : list (nat * wsimp)) (buf : list (nat * list nat))
    : run (option (nat * list nat) * list (nat * wsimp) * list (nat * list nat)) :=
    match rest with
    | [] => ret (None, [], buf)
    | (j, s) :: rest' =>
        if existsb (Nat.eqb j) cleared then tw_pop fuel i pivotXOR rest' buf
        else
          go f <- lift (faces_of (fst s));
          match f with
          | [] => Some UB
          | _ =>
              go v <- tw_reduce fuel pivotXOR i f;
              if starts_with i v then ret (Some (j, v), rest', buf)
              else tw_pop fuel i pivotXOR rest' (buf ++ [(j, v)])
          end
    end.

  (* Pipes/optPersistencePairs.cpp:237-239: the first buffered column with its least element in row i. *)
  Fixpoint tw_buffered (i : nat) (buf : list (nat * list nat)) : option (list (nat * list nat) * (nat * list nat) * list (nat * list nat)) :=
    match buf with
    | [] => None
    | x :: rest => if starts_with i (snd x) then Some ([], x, rest)
                   else match tw_buffered i rest with None => None | Some (b, p, a) => Some (x :: b, p, a) end
    end.

  (* Pipes/optPersistencePairs.cpp:228-331: one row.  The state is (columns not yet taken, tempBuffer, pivotXOR, numbers of
     the pivot columns, nextFaces); a maximal face is recorded only for a pivot found in the buffer. *)
  Definition tw_row (st : list (nat * wsimp) * list (nat * list nat) * list (list nat) * list nat * list nat) (i : nat)
    : run (list (nat * wsimp) * list (nat * list nat) * list (list nat) * list nat * list nat) :=
    let '(rest, buf, px, piv, faces) := st in
    match tw_buffered i buf with
    | Some (before, (j, v), after) =>
        go px' <- lift (upd px i (fun _ => v));
        let after' := map (fun x => if starts_with i (snd x) then (fst x, setXOR v (snd x)) else x) after in
        ret (rest, before ++ after', px', piv ++ [j],
             if last v 0 =? hd 0 v then faces else sinsert (last v 0) faces)
    | None =>
        go r <- tw_pop (S i) i px rest buf;
        let '(found, rest', buf') := r in
        match found with
        | Some (j, v) => go px' <- lift (upd px i (fun _ => v)); ret (rest', buf', px', piv ++ [j], faces)
        | None => ret (rest', buf', px, piv, faces)
        end
    end.

  (* Pipes/optPersistencePairs.cpp:193-331: one dimension: the numbers of the pivot columns and nextFaces. *)
  Definition tw_columns (rows : nat) (pChain : list wsimp) : run (list nat * list nat) :=
    go st <- foldr_run tw_row (enum 0 pChain, [], repeat [] rows, [], []) (seq 0 rows);
    let '(_, _, _, piv, faces) := st in ret (piv, faces).
End Twist.

(* Pipes/optPersistencePairs.cpp:171-366 getRankNull(graph, packet): the state is (pivotOffset, allPivots, curFaces).  The
   sets nextPivots and allPivots are built from the column numbers. *)
Definition tw_dimension (find : list nat -> res bool) (ge : wgraph) (st : nat * list nat * list nat) (d : nat)
  : run (nat * list nat * list nat) :=
  let '(offset, pivots, faces) := st in
  go nChain <- lift (at_ ge (d - 1));
  go pChain <- lift (at_ ge d);
  let offset' := offset - length pChain in
  go r <- tw_columns (getFaces find) faces (length nChain) pChain;
  ret (offset', fold_left (fun s a => sinsert (offset' + a) s) (fst r) pivots, snd r).
Definition tw_pivots (find : list nat -> res bool) (dim : nat) (ge : wgraph) : run (list nat) :=
  go st <- foldr_run (tw_dimension find ge) (total ge, [], []) (rev (seq 1 dim));
  ret (snd (fst st)).

(* Pipes/optPersistencePairs.cpp:517-726 optPersistencePairs::runPipe on a fresh object when the complex is an
   indSimplexTree. *)
Definition opt_ind_run (twist : bool) (dim eps : Z) (srt : list wsimp -> list wsimp) (t : itree) : run (list (nat * Z * Z)) :=
  let '(ge, t') := ind_getAllEdges srt t in
  go piv <- (if twist then tw_pivots (ind_find t') (Z.to_nat dim) ge else lift (sets_pivots (ind_find t') (Z.to_nat dim) ge));
  lift (pair_all true dim eps ge piv).

(* The same with twist "true" and another complex: Complex/simplexBase.cpp:88-92 getIndexEdges returns no levels and
   find (116-124) is not reached. *)
Definition opt_twist_other (dim eps : Z) : run (list (nat * Z * Z)) :=
  go piv <- tw_pivots (fun _ => Ok false) (Z.to_nat dim) [];
  lift (pair_all true dim eps [] piv).
