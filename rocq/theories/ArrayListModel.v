(* ArrayListModel.v -- model of /repo/Complex/simplexArrayList.cpp (definitions only). *)
From Coq Require Import List Arith ZArith Bool.
From Verif Require Import Base UtilsModel.
Import ListNotations.

(* A stored simplex: std::pair<std::vector<unsigned>, double>. *)
Notation wsimp := (list nat * Z)%type.
(* Complex/simplexBase.hpp: weightedGraph, one vector of simplices per dimension. *)
Definition wgraph : Type := list (list wsimp).

(* operator== on std::pair<std::vector<unsigned>, double>. *)
Definition wsimp_eqb (a b : wsimp) : bool := nlist_eqb (fst a) (fst b) && (snd a =? snd b)%Z.

Section ArrayList.
  Variable dm : list (list Z).    (* simplexBase::distMatrix *)
  Variable eps : Z.               (* simplexBase::maxEpsilon *)
  Variable maxDimension : Z.      (* simplexBase::maxDimension (int) *)

  (* distMatrix[j][i] *)
  Definition dm_at (j i : nat) : res Z := do row <- at_ dm j; at_ row i.

  (* Complex/simplexArrayList.cpp:66-71: append an edge, creating level 1 if needed. *)
  Definition insert_edge (wg : wgraph) (e : wsimp) : res wgraph :=
    if length wg =? 1 then Ok (wg ++ [[e]])
    else do l1 <- at_ wg 1;
         if existsb (wsimp_eqb e) l1 then Ok wg else upd wg 1 (fun l => l ++ [e]).

  (* Complex/simplexArrayList.cpp:56-73: the loop over the existing vertices. *)
  Definition insert_edges (wg : wgraph) (i : nat) : res wgraph :=
    foldr_ub (fun wg j =>
                do dist <- dm_at j i;
                if (dist <=? eps)%Z then insert_edge wg ([j; i], dist) else Ok wg)
             wg (seq 0 i).

  (* Complex/simplexArrayList.cpp:34-82 simplexArrayList::insert.  The vector's contents are not
     used, only whether it is empty. *)
  Definition al_insert (vector_empty : bool) (wg : wgraph) : res wgraph :=
    if vector_empty then Ok wg
    else match wg with
         | [] => Ok [[([0], 0%Z)]]
         | l0 :: _ =>
             let i := length l0 in
             do wg1 <- (if (0 <? maxDimension)%Z then insert_edges wg i else Ok wg);
             upd wg1 0 (fun l => l ++ [([i], 0%Z)])
         end.

  (* Complex/simplexArrayList.cpp:140-153 simplexArrayList::find.  weightedGraph[size-1] with an
     empty vector wraps to index 2^64-1: undefined. *)
  Definition al_find (wg : wgraph) (v : list nat) : res bool :=
    if length v <=? length wg then
      match length v with
      | 0 => UB
      | S k => do lev <- at_ wg k; Ok (existsb (fun s => nlist_eqb (fst s) v) lev)
      end
    else Ok false.

  (* Complex/simplexArrayList.cpp:157-167 simplexArrayList::findWeight (-1 when absent). *)
  Definition find_in_level (lev : list wsimp) (v : list nat) : Z :=
    match find (fun s => nlist_eqb (fst s) v) lev with Some s => snd s | None => (-1)%Z end.
  Definition findWeight (wg : wgraph) (v : list nat) : res Z :=
    match length v with
    | 0 => UB
    | S k => do lev <- at_ wg k; Ok (find_in_level lev v)
    end.

  (* Complex/simplexArrayList.cpp:245-263: the loop over the subsets z of the intersection m, with
     its break.  Result: (create, totalVector, maxWeight). *)
  Fixpoint check_faces (wg : wgraph) (simp : list nat) (zs : list (list nat))
           (totalVector : list nat) (maxWeight : Z) : res (bool * list nat * Z) :=
    match zs with
    | [] => Ok (true, totalVector, maxWeight)
    | z :: zs' =>
        let searchVector := simp ++ z in
        let totalVector' := setUnion totalVector searchVector true in
        do wt <- findWeight wg searchVector;
        if (wt <? 0)%Z then Ok (false, totalVector', maxWeight)
        else check_faces wg simp zs' totalVector' (if (maxWeight <? wt)%Z then wt else maxWeight)
    end.

  (* Complex/simplexArrayList.cpp:214-263: the candidate simplex spanned by two (d-1)-simplices;
     None when they do not differ in exactly two vertices or a face is missing. *)
  Definition candidate (wg : wgraph) (a b : wsimp) : res (option wsimp) :=
    let simp := symmetricDiff (fst a) (fst b) true in
    let maxWeight := if (snd b <? snd a)%Z then snd a else snd b in
    if length simp =? 2 then
      let m := setIntersect (fst a) (fst b) true in
      if length m =? 1 then
        let searchVector := nsort simp in
        let totalVector := nsort (searchVector ++ m) in
        do wt <- findWeight wg searchVector;
        if (wt <? 0)%Z then Ok None
        else Ok (Some (totalVector, if (maxWeight <? wt)%Z then wt else maxWeight))
      else if 1 <? length m then
        do r <- check_faces wg simp (getSubsets m) simp maxWeight;
        let '(create, totalVector, w) := r in
        Ok (if create then Some (totalVector, w) else None)
      else Ok (Some (simp, maxWeight))
    else Ok None.

  (* Complex/simplexArrayList.cpp:265-275: store the new simplex in level d unless present. *)
  Definition store (wg : wgraph) (d : nat) (c : wsimp) : res wgraph :=
    if length wg =? d then Ok (wg ++ [[c]])
    else do lev <- at_ wg d;
         if existsb (wsimp_eqb c) lev then Ok wg else upd wg d (fun l => l ++ [c]).

  (* Complex/simplexArrayList.cpp:208-280: the double loop j < t over level d-1.  Level d-1 is not
     modified by the loop, so iterating over a copy of it is the same. *)
  Fixpoint expand_inner (d : nat) (wg : wgraph) (a : wsimp) (rest : list wsimp) : res wgraph :=
    match rest with
    | [] => Ok wg
    | b :: rest' =>
        do c <- candidate wg a b;
        do wg' <- match c with None => Ok wg | Some s => store wg d s end;
        expand_inner d wg' a rest'
    end.
  Fixpoint expand_outer (d : nat) (wg : wgraph) (lev : list wsimp) : res wgraph :=
    match lev with
    | [] => Ok wg
    | a :: rest => do wg' <- expand_inner d wg a rest; expand_outer d wg' rest
    end.

  (* Complex/simplexArrayList.cpp:200-281: for(unsigned d = 2; d <= dim; d++), [fuel] iterations left. *)
  Fixpoint expand_loop (fuel d : nat) (wg : wgraph) : res wgraph :=
    match fuel with
    | 0 => Ok wg
    | S fuel' =>
        if length wg <? d then Ok wg
        else do lev <- at_ wg (d - 1);
             do wg' <- expand_outer d wg lev;
             expand_loop fuel' (S d) wg'
    end.

  (* The comparison "d <= dim" is between unsigned and int: dim is converted to unsigned (32 bits). *)
  Definition to_unsigned (dim : Z) : nat := Z.to_nat (dim mod 2 ^ 32).

  (* Complex/simplexArrayList.cpp:196-289 simplexArrayList::expandDimensions.  The final
     "for(auto a : weightedGraph) std::sort(a...)" sorts copies and has no effect. *)
  Definition expandDimensions (dim : Z) (wg : wgraph) : res wgraph :=
    expand_loop (to_unsigned dim - 1) 2 wg.

  (* Complex/simplexArrayList.cpp:389-397 simplexArrayList::clear. *)
  Definition al_clear (wg : wgraph) : wgraph := [].

  (* Complex/simplexArrayList.cpp:170-178, 181-185. *)
  Definition al_simplexCount (wg : wgraph) : nat := fold_left (fun n l => n + length l) wg 0.
  Definition al_vertexCount (wg : wgraph) : nat := match wg with [] => 0 | l0 :: _ => length l0 end.

  (* Complex/simplexArrayList.cpp:86-112 simplexArrayList::getDimEdges (the second distance test
     is on the full distance matrix). *)
  Definition getDimEdges (wg : wgraph) (dim : Z) (epsilon : Z) : res (list (list nat)) :=
    if (dim - 1 <? 0)%Z then Ok []
    else if (Z.of_nat (length wg) <? dim)%Z then Ok []
    else
      do lev <- at_ wg (Z.to_nat (dim - 1));
      foldr_ub (fun ret (a : wsimp) =>
        do isTrue <- foldr_ub (fun isTrue i =>
              rmap fst (foldr_ub (fun (st : bool * bool) j =>   (* (isTrue, broken out of the inner loop) *)
                  let '(isTrue, broken) := st in
                  if broken then Ok st
                  else
                    do vi <- at_ (fst a) i;
                    do vj <- at_ (fst a) j;
                    do d <- dm_at vi vj;
                    if (epsilon <? d)%Z then Ok (false, true) else Ok (isTrue, false))
                (isTrue, false) (seq (i + 1) (length (fst a) - (i + 1)))))
            true (seq 0 (length (fst a)));
        Ok (if isTrue : bool then ret ++ [fst a] else ret)) [] lev.

  Section Sorting.
    (* std::sort(..., sortBySecond): any function returning a permutation sorted by weight. *)
    Variable srt : list wsimp -> list wsimp.

    (* Complex/simplexArrayList.cpp:115-136 simplexArrayList::getAllEdges; epsilon is not used.
       Copying the vector into a std::set sorts and deduplicates it. *)
    Definition to_set (v : list nat) : list nat := fold_left (fun s x => sinsert x s) v [].
    Definition getAllEdges (wg : wgraph) (epsilon : Z) : list (list wsimp) :=
      fold_left (fun ret dim =>
        let dimGraph := map (fun edge : wsimp => (to_set (fst edge), snd edge)) dim in
        match dimGraph with [] => ret | _ => ret ++ [srt dimGraph] end) wg [].
  End Sorting.

  (* Histories of calls on one simplexArrayList object. *)
  Inductive al_op : Type :=
  | OpInsert (vector_empty : bool)
  | OpExpand (dim : Z)
  | OpClear.

  Definition al_step (wg : wgraph) (o : al_op) : res wgraph :=
    match o with
    | OpInsert e => al_insert e wg
    | OpExpand dim => expandDimensions dim wg
    | OpClear => Ok (al_clear wg)
    end.
  Definition al_run (ops : list al_op) : res wgraph := foldr_ub al_step [] ops.
End ArrayList.
