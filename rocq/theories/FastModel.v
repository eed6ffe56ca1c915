(* FastModel.v -- model of /repo/Pipes/fastPersistence.cpp (definitions only). *)
From Coq Require Import List Arith ZArith Bool.
From Verif Require Import Base UtilsModel ArrayListModel.
Import ListNotations.

(* ---- dimension 0: Kruskal ---- *)

(* The variables of the loop over conSet for one edge: foundPivot, br, tempset, conSetTemp, mst, pivots
   and the packet's bettiTable. *)
Record kscan : Type := mkScan {
  ks_found : bool; ks_br : bool; ks_temp : list nat; ks_con : list (list nat);
  ks_mst : list Z; ks_piv : list nat; ks_tab : list bettiEntry }.

(* std::inserter(tempset, tempset.end()) fed with an increasing list. *)
Definition insert_all (xs s : list nat) : list nat := fold_left (fun s x => sinsert x s) xs s.

(* Pipes/fastPersistence.cpp:86-118: one connected set cSet against one edge.  In the second branch the two
   set_union calls write into the set they read from; elements inserted into a std::set go before the reading
   position (or at the end when it is exhausted), so the effect is tempset := tempset + cSet + edge. *)
Definition kr_scan1 (edge : wsimp) (pivotIndex : nat) (s : kscan) (cSet : list nat) : kscan :=
  let wset := setIntersect_set (fst edge) cSet in
  if negb (ks_found s) && (length wset =? 1) then
    mkScan true (ks_br s) (insert_all (set_union (fst edge) cSet) (ks_temp s)) (ks_con s)
           (ks_mst s ++ [snd edge]) (ks_piv s ++ [pivotIndex]) (ks_tab s ++ [mkBetti 0 0 (snd edge) wset])
  else if length wset =? 1 then
    let t1 := insert_all (set_union (ks_temp s) cSet) (ks_temp s) in
    mkScan (ks_found s) (ks_br s) (insert_all (set_union (fst edge) t1) t1) (ks_con s)
           (ks_mst s) (ks_piv s) (ks_tab s)
  else if length wset =? 2 then
    mkScan (ks_found s) true (ks_temp s) (ks_con s ++ [cSet]) (ks_mst s) (ks_piv s) (ks_tab s)
  else mkScan (ks_found s) (ks_br s) (ks_temp s) (ks_con s ++ [cSet]) (ks_mst s) (ks_piv s) (ks_tab s).

(* The variables that survive from one edge to the next (tempset is empty between edges). *)
Record kstate : Type := mkK {
  k_con : list (list nat); k_mst : list Z; k_piv : list nat; k_tab : list bettiEntry; k_ix : nat }.

(* Pipes/fastPersistence.cpp:81-129: one edge, up to the test for the break. *)
Definition kr_edge (s : kstate) (edge : wsimp) : kstate :=
  let r := fold_left (kr_scan1 edge (k_ix s)) (k_con s)
                     (mkScan false false [] [] (k_mst s) (k_piv s) (k_tab s)) in
  if ks_found r then mkK (ks_con r ++ [ks_temp r]) (ks_mst r) (ks_piv r) (ks_tab r) (k_ix s)
  else if ks_br r then mkK (ks_con r) (ks_mst r) (ks_piv r) (ks_tab r) (k_ix s)
  else mkK (ks_con r ++ [fst edge]) (ks_mst r ++ [snd edge]) (ks_piv r ++ [k_ix s]) (ks_tab r) (k_ix s).

(* Pipes/fastPersistence.cpp:81-140: the loop over edges[1] with its break.  n0 = edges[0].size();
   n0 - 1 wraps to 2^64-1 for n0 = 0, hence the comparison with S.  (conSet is not read after the break.) *)
Fixpoint kr_loop (n0 : nat) (s : kstate) (es : list wsimp) : kstate :=
  match es with
  | [] => s
  | e :: es' =>
      let s' := kr_edge s e in
      if S (length (k_mst s')) =? n0 then s'
      else kr_loop n0 (mkK (k_con s') (k_mst s') (k_piv s') (k_tab s') (S (k_ix s))) es'
  end.
Definition kruskal (n0 : nat) (es : list wsimp) (tab : list bettiEntry) : kstate :=
  kr_loop n0 (mkK [] [] [] tab 0) es.

(* ---- higher dimensions ---- *)
Section Reduction.
  (* What reading the list iterator gives k steps after end(): undefined by the standard. *)
  Variable past_end : list nat -> nat -> res nat.

  (* *pivotPointer after [pos] increments of pivots.begin(). *)
  Definition deref (pivots : list nat) (pos : nat) : res nat :=
    match nth_error pivots pos with Some v => Ok v | None => past_end pivots (pos - length pivots) end.

  (* Pipes/fastPersistence.cpp:195-217: the loop over the rows edges[d] for one column.
     State: (pivotPointer, pivotIndex, cofaceList). *)
  Definition row_step (pivots : list nat) (column : list nat) (st : nat * nat * list nat) (row : wsimp)
    : res (nat * nat * list nat) :=
    let '(pos, ix, cofaces) := st in
    do p <- deref pivots pos;
    if negb (p =? ix)
    then Ok (pos, S ix, if includes column (fst row) then sinsert ix cofaces else cofaces)
    else Ok (S pos, S ix, cofaces).
  Definition cofaceList (pivots : list nat) (rows : list wsimp) (column : list nat) : res (list nat) :=
    do st <- foldr_ub (row_step pivots column) (0, 0, []) rows; Ok (snd st).

  (* std::unordered_map<unsigned, std::set<unsigned>> v. *)
  Definition vmap : Type := list (nat * list nat).
  Fixpoint vfind (v : vmap) (k : nat) : option (list nat) :=
    match v with [] => None | (k', c) :: v' => if k =? k' then Some c else vfind v' k end.

  (* Pipes/fastPersistence.cpp:220-243: the while loop.  Outer None: out of fuel; inner None: the column is
     not paired; Some c: c is stored in v under its least element. *)
  Fixpoint reduce (fuel : nat) (v : vmap) (col : list nat) : option (option (list nat)) :=
    match fuel with
    | 0 => None
    | S fuel' =>
        match col with
        | [] => Some None
        | p :: _ =>
            match vfind v p with
            | None => Some (Some col)
            | Some c =>
                let old := setXOR c col in
                if nlist_eqb old col then Some None else reduce fuel' v old
            end
        end
    end.

  (* State of the loop over the columns: v, nextPivots, columnIndex, the output lines and the table. *)
  Record cstate : Type := mkC {
    c_v : vmap; c_next : list nat; c_ix : nat; c_lines : list (nat * Z * Z); c_tab : list bettiEntry }.

  (* Pipes/fastPersistence.cpp:183-248: one column.  The number of rows plus one iterations of the while
     loop always suffice (theorem C19); running out is reported as UB. *)
  Definition col_step (d : nat) (pivots : list nat) (rows : list wsimp) (s : cstate) (column : wsimp) : res cstate :=
    do cof <- cofaceList pivots rows (fst column);
    match reduce (S (S (length rows))) (c_v s) cof with
    | None => UB
    | Some None => Ok (mkC (c_v s) (c_next s) (S (c_ix s)) (c_lines s) (c_tab s))
    | Some (Some []) => UB
    | Some (Some (p :: r)) =>
        do row <- at_ rows p;
        let differ := negb (snd row =? snd column)%Z in
        Ok (mkC ((p, p :: r) :: c_v s) (c_next s ++ [c_ix s]) (S (c_ix s))
                (if differ then c_lines s ++ [(d, snd row, snd column)] else c_lines s)
                (if differ then c_tab s ++ [mkBetti d (snd row) (snd column) (p :: r)] else c_tab s))
    end.

  (* Pipes/fastPersistence.cpp:166-252: for(unsigned d = 1; d < dim && d < edges.size()-1; d++), [fuel]
     iterations left.  Carried: pivots, lines, table. *)
  Fixpoint dim_loop (fuel d : nat) (edges : wgraph) (st : list nat * list (nat * Z * Z) * list bettiEntry)
    : res (list nat * list (nat * Z * Z) * list bettiEntry) :=
    match fuel with
    | 0 => Ok st
    | S fuel' =>
        let '(pivots, lines, tab) := st in
        do rows <- at_ edges d;
        do cols <- at_ edges (S d);
        do s <- foldr_ub (col_step d pivots rows) (mkC [] [] 0 lines tab) cols;
        dim_loop fuel' (S d) edges (c_next s, c_lines s, c_tab s)
    end.

  (* Pipes/fastPersistence.cpp:33-276 fastPersistence::runPipe after expandDimensions and getAllEdges; [edges]
     is the result of getAllEdges and [tab] the packet's bettiTable.  None: the packet is returned
     unchanged.  Otherwise the lines of bettiOutput (dimension, birth, death) and the new bettiTable. *)
  Definition fp_run (dim : Z) (eps : Z) (edges : wgraph) (tab : list bettiEntry)
    : res (option (list (nat * Z * Z) * list bettiEntry)) :=
    match edges with
    | [] => Ok None
    | e0 :: _ =>
        do e1 <- at_ edges 1;
        let k := kruskal (length e0) e1 tab in
        let lines := map (fun w => (0, 0%Z, w)) (k_mst k) ++ [(0, 0%Z, eps)] in
        let tab' := k_tab k ++ [mkBetti 0 0 eps []] in
        do r <- (if (0 <? dim)%Z
                 then dim_loop (Nat.min (Z.to_nat dim) (length edges - 1) - 1) 1 edges (k_piv k, lines, tab')
                 else Ok (k_piv k, lines, tab'));
        let '(_, lines', tab'') := r in Ok (Some (lines', tab''))
    end.
End Reduction.

(* What libstdc++ gives: end() points to the list header, which holds the size where a node holds its
   element, and incrementing it leads back to the first element. *)
Definition libstdcxx_past_end (pivots : list nat) (k : nat) : res nat :=
  let m := length pivots in
  Ok (nth ((m + k) mod (S m)) pivots m).
