(* IndModel.v -- model of /repo/Complex/indSimplexTree.cpp (definitions only). *)
From Coq Require Import List Arith ZArith Bool.
From Verif Require Import Base UtilsModel ArrayListModel TreeModel.
Import ListNotations.

(* The nodes are TreeModel's: index, weight and the list of children headed by "child" and linked by "sibling", newest
   first (indSimplexTree.cpp:212-220).  "parent" is never read.  simplexSet is the set of the indices on the path from a
   vertex to the node; sortedIndex is modelled by [sortedIndex] below. *)

(* dimensions (every pointer as the simplexSet and the weight of its node, neither of which changes after insertion),
   dimCounts and nodeCount: what recurseInsert updates. *)
Definition iacc : Type := (wgraph * list Z * Z)%type.

(* Complex/indSimplexTree.cpp:201-209: a new node for a simplex with depth + 2 vertices. *)
Definition record_dim (dims : wgraph) (depth : nat) (s : list nat) (w : Z) : res wgraph :=
  if S depth =? length dims then Ok (dims ++ [[(s, w)]]) else upd dims (S depth) (fun l => l ++ [(s, w)]).

Section Insert.
  Variable eps : Z.                     (* maxEpsilon *)
  Variable maxDim : Z.                  (* int *)
  Variable dist : nat -> res Z.         (* distMatrix[node->index][indexCounter] *)
  Variable curIndex : nat.

  (* Complex/indSimplexTree.cpp:176-232 indSimplexTree::recurseInsert.  simp is never empty.  The counters are unsigned;
     they wrap only after 2^32 insertions, which is left out. *)
  Fixpoint ind_recurse (node : tnode) (maxE : Z) (simp : list nat) (acc : iacc) : res (tnode * iacc) :=
    match node with
    | TN i w cs =>
        do d <- dist i;
        let curE := if (maxE <? d)%Z then d else maxE in
        let depth := length simp - 1 in
        if (curE <? eps)%Z then
          let '(dims, counts, count) := acc in
          let newSimp := sinsert i simp in
          do counts' <- upd counts (S depth) (fun c => c + 1)%Z;
          let maxE' := if (w <? curE)%Z then curE else w in
          do dims' <- record_dim dims depth newSimp maxE';
          let acc' := (dims', counts', count + 1)%Z in
          let insNode := TN curIndex maxE' [] in
          match cs with
          | [] => Ok (TN i w [insNode], acc')
          | _ =>
              if may_recurse maxDim (length newSimp) then
                do r <- (fix go (cs : list tnode) (acc : iacc) : res (list tnode * iacc) :=
                           match cs with
                           | [] => Ok ([], acc)
                           | c :: cs' =>
                               do r1 <- ind_recurse c maxE' newSimp acc;
                               do r2 <- go cs' (snd r1);
                               Ok (fst r1 :: fst r2, snd r2)
                           end) cs acc';
                Ok (TN i w (insNode :: fst r), snd r)
              else Ok (TN i w (insNode :: cs), acc')
          end
        else Ok (node, acc)
    end.

  (* Complex/indSimplexTree.cpp:411-413: the do-while over the vertices. *)
  Fixpoint ind_roots (roots : list tnode) (acc : iacc) : res (list tnode * iacc) :=
    match roots with
    | [] => Ok ([], acc)
    | r :: rs =>
        do r1 <- ind_recurse r 0%Z [curIndex] acc;
        do r2 <- ind_roots rs (snd r1);
        Ok (fst r1 :: fst r2, snd r2)
    end.
End Insert.

(* An indSimplexTree object.  [i_roots] is the sibling list from head = dimensions[0][0] (head is null iff it is empty),
   which is also the list of pointers dimensions[0]. *)
Record itree : Type := mkInd {
  i_dm : list (list Z);
  i_roots : list tnode;
  i_dims : wgraph;          (* dimensions *)
  i_counts : list Z;        (* dimCounts *)
  i_count : Z;              (* nodeCount *)
  i_next : nat;             (* indexCounter *)
  i_sorted : bool;          (* isSorted *)
  i_graph : wgraph }.       (* indexedGraph, without the node pointers *)

(* Complex/indSimplexTree.cpp:9-16: the constructor; simplexBase.hpp:80: dimCounts = {6, 15, 20}.  head and nodeCount are
   not initialised; this is the state when head happens to be null, with nodeCount holding the arbitrary value nc0. *)
Definition ind_new (dm : list (list Z)) (nc0 : Z) : itree := mkInd dm [] [] [6; 15; 20]%Z nc0 0 false [].

Section Ind.
  Variable eps maxDim : Z.

  (* Complex/indSimplexTree.cpp:349-438 insert (the vector is not used). *)
  Definition ind_insert (t : itree) : res itree :=
    match i_dm t with
    | [] => Ok t
    | _ =>
        let cur := i_next t in
        match i_roots t with
        | [] =>
            do counts <- upd (i_counts t) 0 (fun c => c + 1)%Z;
            Ok (mkInd (i_dm t) [TN cur 0 []] (i_dims t ++ [[([cur], 0%Z)]]) counts (i_count t + 1) (S cur) (i_sorted t) (i_graph t))
        | _ =>
            do r <- ind_roots eps maxDim (fun i => dm_at (i_dm t) i cur) cur (i_roots t) (i_dims t, i_counts t, i_count t);
            let '(dims, counts, count) := snd r in
            do dims' <- upd dims 0 (fun l => l ++ [([cur], 0%Z)]);
            do counts' <- upd counts 0 (fun c => c + 1)%Z;
            Ok (mkInd (i_dm t) (fst r ++ [TN cur 0 []]) dims' counts' (count + 1) (S cur) (i_sorted t) (i_graph t))
        end
    end.

  (* Complex/simplexBase.cpp:50-53 setDistanceMatrix. *)
  Definition ind_setDistanceMatrix (dm : list (list Z)) (t : itree) : itree :=
    mkInd dm (i_roots t) (i_dims t) (i_counts t) (i_count t) (i_next t) (i_sorted t) (i_graph t).

  (* Complex/simplexBase.cpp:207-210 clear, which indSimplexTree does not override: it only writes to the log. *)
  Definition ind_clear (t : itree) : itree := t.

  (* Complex/indSimplexTree.cpp:612-667 sortAndBuildGraph: the vertices in order of insertion, every other dimension
     sorted by weight. *)
  Definition sortAndBuildGraph (srt : list wsimp -> list wsimp) (t : itree) : itree :=
    mkInd (i_dm t) (i_roots t) (i_dims t) (i_counts t) (i_count t) (i_next t) true
          (match i_dims t with [] => [] | l :: ls => l :: map srt ls end).

  (* Complex/indSimplexTree.cpp:670-697 getAllEdges, 701-714 getIndexEdges (which returns the same with the pointers):
     sorts on the first call on a non-empty complex only; epsilon is not used. *)
  Definition ind_getAllEdges (srt : list wsimp -> list wsimp) (t : itree) : wgraph * itree :=
    match i_dims t with
    | [] => ([], t)
    | _ => if i_sorted t then (i_graph t, t) else let t' := sortAndBuildGraph srt t in (i_graph t', t')
    end.

  (* Complex/indSimplexTree.cpp:455-466 getWeight: size() - 1 of the empty set is out of range. *)
  Definition ind_getWeight (t : itree) (s : list nat) : res Z :=
    match length s with
    | 0 => UB
    | S k => do l <- at_ (i_dims t) k;
             Ok (match List.find (fun c => nlist_eqb s (fst c)) l with Some c => snd c | None => 10000%Z end)
    end.

  (* sortedIndex of the node of a simplex: for a vertex its index (lines 367, 425); for any other its position in the
     sorted list of its dimension (lines 650-655), uninitialised if the simplex was not there when it was sorted. *)
  Fixpoint position (s : list nat) (l : list wsimp) : option nat :=
    match l with
    | [] => None
    | c :: l' => if nlist_eqb s (fst c) then Some 0 else option_map S (position s l')
    end.
  Definition sortedIndex (t : itree) (s : list nat) : res nat :=
    match s with
    | [v] => Ok v
    | _ => if i_sorted t then
             match position s (nth (length s - 1) (i_graph t) []) with Some k => Ok k | None => UB end
           else UB
    end.

  (* Complex/indSimplexTree.cpp:584-598: the walk.  A node without a child is kept; otherwise the next index is searched
     among the children, and if it is not there the pointer becomes null, which the next read dereferences. *)
  Fixpoint find_walk (node : option tnode) (path : list nat) (s : list nat) : res (list nat) :=
    match node, s with
    | None, _ => UB
    | Some _, [] => Ok path
    | Some (TN _ _ []), _ :: s' => find_walk node path s'
    | Some (TN _ _ cs), i :: s' => find_walk (List.find (fun c => t_index c =? i) cs) (path ++ [i]) s'
    end.

  (* Complex/indSimplexTree.cpp:576-601 find: sortedIndex converted to bool. *)
  Definition ind_find (t : itree) (s : list nat) : res bool :=
    match i_dims t with
    | [] => Ok false
    | _ => match s with
           | [] => UB
           | v :: s' => do node <- at_ (i_roots t) v;
                        do path <- find_walk (Some node) [v] s';
                        do k <- sortedIndex t path; Ok (negb (k =? 0))
           end
    end.

  (* Complex/indSimplexTree.cpp:443-452 search.  The inner while has no body: it does not end (None) if it is entered. *)
  Fixpoint search_walk (node : option tnode) (s : list nat) : option bool :=
    match s with
    | [] => Some true
    | i :: s' => match node with
                 | None => Some false
                 | Some (TN j _ cs) => if j =? i then search_walk (hd_error cs) s' else None
                 end
    end.
  Definition ind_search (t : itree) (s : list nat) : option (res bool) :=
    match i_roots t with [] => Some UB | r :: _ => option_map Ok (search_walk (Some r) s) end.

  (* Complex/indSimplexTree.cpp:566-574. *)
  Definition ind_vertexCount (t : itree) : Z := i_count t.
  Definition ind_simplexCount (t : itree) : Z := i_count t.

  (* Histories of calls on one object. *)
  Inductive ind_op : Type := IInsert | IClear | IMatrix (dm : list (list Z)) | IGetAll.
  Definition ind_step (srt : list wsimp -> list wsimp) (t : itree) (o : ind_op) : res itree :=
    match o with
    | IInsert => ind_insert t
    | IClear => Ok (ind_clear t)
    | IMatrix dm => Ok (ind_setDistanceMatrix dm t)
    | IGetAll => Ok (snd (ind_getAllEdges srt t))
    end.
  Definition ind_run (srt : list wsimp -> list wsimp) (t : itree) (ops : list ind_op) : res itree :=
    foldr_ub (ind_step srt) t ops.
End Ind.
