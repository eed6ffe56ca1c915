(* IndReduceModel.v -- model of indSimplexTree::reduceComplex (/repo/Complex/indSimplexTree.cpp; definitions only). *)
From Coq Require Import List Arith ZArith Bool.
From Verif Require Import Base RunMonad UtilsModel ArrayListModel TreeModel IndModel CollapseModel.
Import ListNotations.
Local Open Scope nat_scope.

(* Complex/indSimplexTree.cpp:29-58: the first simplex of dimensions[d] that is neither removed nor processed and has all
   but one of its vertices in the subset.  [among] is std::find (CollapseModel). *)
Definition neighbour (lev : list wsimp) (removal processed : list (list nat)) (subset : list nat) : option (list nat) :=
  option_map fst (List.find (fun z => negb (among (fst z) removal) && negb (among (fst z) processed) &&
                                      (length (setIntersect_set (fst z) subset) =? length (fst z) - 1)) lev).

(* localBuf and localFaces, as one list of pairs. *)
Definition local_faces (lev : list wsimp) (removal processed : list (list nat)) (subsets : list (list nat)) : list (list nat * list nat) :=
  flat_map (fun z => match neighbour lev removal processed z with Some f => [(z, f)] | None => [] end) subsets.

(* Lines 81-103: non_min over the subsets that are not in localBuf, with minVal. *)
Definition non_min_step (t : itree) (local : list (list nat)) (st : Z * list nat) (z : list nat) : res (Z * list nat) :=
  let '(minVal, non_min) := st in
  if among z local then Ok st
  else do w <- ind_getWeight t z;
       Ok (if (minVal <? 0)%Z then (w, z) else if (minVal <? w)%Z then (minVal, z) else (w, non_min)).
Definition non_min (t : itree) (local subsets : list (list nat)) : res (list nat) :=
  do st <- foldr_ub (non_min_step t local) ((-1)%Z, []) subsets; Ok (snd st).

(* Lines 18-119 recurseReduce (sourceSet and fc are not used); [lev] is dimensions[d].  The state is
   (removalSimplices, processedSimplices).  The lists that the call in lines 73-76 returns are dropped. *)
Fixpoint ind_recurseReduce (fuel : nat) (t : itree) (lev : list wsimp) (d : nat) (cur : list nat) (rp : lists) : run lists :=
  match fuel with
  | 0 => None
  | S fuel' =>
      let removal := fst rp in
      let processed := snd rp ++ [cur] in
      let subsets := getSubsets_dim cur (Z.of_nat d) in
      let local := local_faces lev removal processed subsets in
      if length local =? length subsets then
        go r <- foldr_run (fun st face =>
                             go rp' <- ind_recurseReduce fuel' t lev d face (snd st);
                             ret (fst st || (length (fst (snd st)) <? length (fst rp')), rp'))
                  (false, (removal, processed)) (map snd local);
        if fst r then go _ <- ind_recurseReduce fuel' t lev d cur (snd r); ret (snd r) else ret (snd r)
      else
        go nm <- lift (non_min t (map fst local) subsets);
        ret (match nm with [] => (removal, processed) | _ => (removal ++ [nm; cur], processed) end)
  end.

(* Lines 763-793: the loop over dimensions[d]. *)
Definition ind_reduce_level (fuel : nat) (t : itree) (lev : list wsimp) (d : nat) : run lists :=
  foldr_run (fun rp c => if among (fst c) (snd rp) then ret rp else ind_recurseReduce fuel t lev d (fst c) rp) ([], []) lev.

(* Lines 804-808: every entry equal to r is erased while the index goes on, so the entry behind an erased one is skipped. *)
Fixpoint erase_each (r : list nat) (lev : list wsimp) : list wsimp * Z :=
  match lev with
  | [] => ([], 0%Z)
  | c :: lev' =>
      if nlist_eqb r (fst c) then
        match lev' with
        | [] => ([], 1%Z)
        | c2 :: lev'' => let x := erase_each r lev'' in (c2 :: fst x, (snd x + 1)%Z)
        end
      else let x := erase_each r lev' in (c :: fst x, snd x)
  end.
Definition with_dims (t : itree) (dims : wgraph) (count : Z) : itree :=
  mkInd (i_dm t) (i_roots t) dims (i_counts t) count (i_next t) (i_sorted t) (i_graph t).
(* Lines 497-536 and 541-564 deletion: the first entry of the dimension of r is erased and its node freed; the node stays
   linked in the tree.  [freed] collects the simplices of the freed nodes. *)
Definition ind_deletion (r : list nat) (tf : itree * list (list nat)) : res (itree * list (list nat)) :=
  let '(t, freed) := tf in
  match length r with
  | 0 => UB
  | S k =>
      do lev <- at_ (i_dims t) k;
      if existsb (fun c => nlist_eqb (fst c) r) lev then
        do dims <- upd (i_dims t) k (erase_first r);
        Ok (with_dims t dims (i_count t - 1), freed ++ [r])
      else Ok tf
  end.
(* Lines 803-810. *)
Definition ind_remove (d : nat) (tf : itree * list (list nat)) (r : list nat) : res (itree * list (list nat)) :=
  do lev <- at_ (i_dims (fst tf)) d;
  let x := erase_each r lev in
  do dims <- upd (i_dims (fst tf)) d (fun _ => fst x);
  ind_deletion r (with_dims (fst tf) dims (i_count (fst tf) - snd x), snd tf).

(* Lines 756-813: for(d = dimensions.size() - 1; d > 1; d--). *)
Fixpoint ind_reduce_from (fuel : nat) (tf : itree * list (list nat)) (d : nat) : run (itree * list (list nat)) :=
  match d with
  | 0 => ret tf
  | S d' =>
      if 1 <? d then
        go lev <- lift (at_ (i_dims (fst tf)) d);
        go rp <- ind_reduce_level fuel (fst tf) lev d;
        go tf' <- lift (foldr_ub (ind_remove d) tf (fst rp));
        ind_reduce_from fuel tf' d'
      else ret tf
  end.

(* Lines 121-174 coreduction: bds and cbds are always empty, so the queue only shrinks; the graph it returns is a copy of
   indexedGraph and is not used. *)
Fixpoint coreduction (queue : list wsimp) (graph : wgraph) : wgraph :=
  match queue with [] => graph | _ :: queue' => coreduction queue' graph end.

(* Lines 716-838 reduceComplex: the object and the simplices of the freed nodes.  The calls of coreduction (lines 821-834)
   change nothing. *)
Definition ind_reduceComplex (maxDim : Z) (fuel : nat) (t : itree) : run (itree * list (list nat)) :=
  if (maxDim <? 2)%Z then ret (t, [])
  else ind_reduce_from fuel (t, []) (length (i_dims t) - 1).

(* Complex/indSimplexTree.cpp:576-601 find on a tree some of whose nodes have been freed: reading one is undefined.  The
   children are read from the newest on until the index is found. *)
Fixpoint find_among (freed : list (list nat)) (path : list nat) (i : nat) (cs : list tnode) : res (option tnode) :=
  match cs with
  | [] => Ok None
  | c :: cs' => if among (path ++ [t_index c]) freed then UB
                else if t_index c =? i then Ok (Some c) else find_among freed path i cs'
  end.
Fixpoint find_walk_after (freed : list (list nat)) (node : option tnode) (path : list nat) (s : list nat) : res (list nat) :=
  match node, s with
  | None, _ => UB
  | Some _, [] => Ok path
  | Some (TN _ _ []), _ :: s' => find_walk_after freed node path s'
  | Some (TN _ _ cs), i :: s' => do n <- find_among freed path i cs; find_walk_after freed n (path ++ [i]) s'
  end.
Definition ind_find_after (tf : itree * list (list nat)) (s : list nat) : res bool :=
  let '(t, freed) := tf in
  match i_dims t with
  | [] => Ok false
  | _ => match s with
         | [] => UB
         | v :: s' => do node <- at_ (i_roots t) v;
                      do path <- find_walk_after freed (Some node) [v] s';
                      do k <- sortedIndex t path; Ok (negb (k =? 0))
         end
  end.
(* Complex/indSimplexTree.cpp:840-844 getDimEdges: nothing, whatever the complex. *)
Definition ind_getDimEdges (t : itree) (d : Z) : list (list nat) := [].
