(* CollapseModel.v -- Complex/simplexArrayList.cpp:291-387: reduceComplex, recurseReduce, deletion. *)
From Coq Require Import List Arith ZArith Bool.
From Verif Require Import Base RunMonad UtilsModel ArrayListModel.
Import ListNotations.
Local Open Scope nat_scope.

(* std::find(l.begin(), l.end(), v) != l.end() *)
Definition among (v : list nat) (l : list (list nat)) : bool := existsb (nlist_eqb v) l.

(* weightedGraph[v.size() - 1]: the index wraps for an empty vector (undefined). *)
Definition level_of (wg : wgraph) (v : list nat) : res (list wsimp) :=
  match length v with 0 => UB | S k => at_ wg k end.

(* removals, checked *)
Definition lists : Type := (list (list nat) * list (list nat))%type.

(* Lines 338-356: the loop over the simplices of the dimension of [simplex] for one face; [rec] is the recursive call,
   the last case of the inner test is the break.  Result: canRemove, removals, checked. *)
Fixpoint neighbours (rec : wsimp -> lists -> run lists) (simplex : wsimp) (face : list nat) (lev : list wsimp)
         (canRemove : bool) (rc : lists) : run (bool * lists) :=
  match lev with
  | [] => ret (canRemove, rc)
  | simp :: lev' =>
      if negb (wsimp_eqb simp simplex) && negb (among (fst simp) (snd rc)) then
        if length (symmetricDiff (fst simp) face true) =? 1 then
          go rc' <- rec simp rc;
          if among (fst simp) (fst rc') then neighbours rec simplex face lev' canRemove rc'
          else ret (false, rc')
        else neighbours rec simplex face lev' canRemove rc
      else neighbours rec simplex face lev' canRemove rc
  end.

(* Lines 335-364: one face of [simplex]; state canRemove, maxFace, (removals, checked). *)
Definition reduce_face (rec : wsimp -> lists -> run lists) (wg : wgraph) (simplex : wsimp)
           (st : bool * list nat * lists) (face : list nat) : run (bool * list nat * lists) :=
  let '(canRemove, maxFace, rc) := st in
  go lev <- lift (level_of wg (fst simplex));
  go r <- neighbours rec simplex face lev canRemove rc;
  go wt <- lift (findWeight wg face);
  ret (fst r, if (wt =? snd simplex)%Z then face else maxFace, snd r).

(* Lines 327-374 recurseReduce. *)
Fixpoint recurseReduce (fuel : nat) (wg : wgraph) (simplex : wsimp) (rc : lists) : run lists :=
  match fuel with
  | 0 => None
  | S fuel' =>
      go r <- foldr_run (reduce_face (recurseReduce fuel' wg) wg simplex)
                (true, [], (fst rc, snd rc ++ [fst simplex])) (getSubsets (fst simplex));
      let '(canRemove, maxFace, rc') := r in
      ret (if canRemove then (fst rc' ++ [fst simplex; maxFace], snd rc') else rc')
  end.

(* Lines 306-312: one pass over the level. *)
Definition reduce_pass (fuel : nat) (wg : wgraph) (lev : list wsimp) (rc : lists) : run lists :=
  foldr_run (fun rc l => if among (fst l) (snd rc) then ret rc else recurseReduce fuel wg l rc) rc lev.

(* Lines 305-313: while(checked.size() != weightedGraph[i].size()). *)
Fixpoint reduce_level (fuel : nat) (wg : wgraph) (lev : list wsimp) (rc : lists) : run lists :=
  match fuel with
  | 0 => None
  | S fuel' =>
      if length (snd rc) =? length lev then ret rc
      else go rc' <- reduce_pass fuel wg lev rc; reduce_level fuel' wg lev rc'
  end.

(* Erase the first simplex with these vertices. *)
Fixpoint erase_first (v : list nat) (lev : list wsimp) : list wsimp :=
  match lev with
  | [] => []
  | s :: lev' => if nlist_eqb (fst s) v then lev' else s :: erase_first v lev'
  end.

(* Lines 376-387 deletion (its return value is not used). *)
Definition deletion (wg : wgraph) (v : list nat) : res wgraph :=
  match length v with 0 => UB | S k => upd wg k (erase_first v) end.

(* Lines 299-320: for(i = size - 1; i > 1; i--); [i] rounds down to 2. *)
Fixpoint reduce_from (fuel : nat) (wg : wgraph) (i : nat) : run wgraph :=
  match i with
  | 0 => ret wg
  | S i' =>
      if 1 <? i then
        go lev <- lift (at_ wg i);
        go rc <- reduce_level fuel wg lev ([], []);
        go wg' <- lift (foldr_ub deletion wg (fst rc));
        reduce_from fuel wg' i'
      else ret wg
  end.

(* Lines 291-325 reduceComplex. *)
Definition reduceComplex (fuel : nat) (wg : wgraph) : run wgraph :=
  match wg with [] => ret wg | _ => reduce_from fuel wg (length wg - 1) end.

(* simplexArrayList::reduceComplex as the rips pipe calls it, with enough steps for every complex the program builds
   (C42); running out of them would count as undefined. *)
Definition al_reduceComplex (wg : wgraph) : res wgraph :=
  match reduceComplex (2 + al_simplexCount wg) wg with Some r => r | None => UB end.
