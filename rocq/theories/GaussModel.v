(* GaussModel.v -- the matrix reductions of Pipes/boundaryPipe.cpp, Pipes/persistencePairs.cpp and
   Pipes/optPersistencePairs.cpp, and the pairing of the latter two. *)
From Coq Require Import List Arith ZArith Bool.
From Verif Require Import Base UtilsModel ArrayListModel.
Import ListNotations.

(* Pipes/boundaryPipe.cpp:80-81, Pipes/persistencePairs.cpp:97-98, Pipes/optPersistencePairs.cpp:148-149: the loop
   row[d] = row[d] ^ temp[d] for d < n. *)
Definition xor_row (n : nat) (row temp : list nat) : res (list nat) :=
  foldr_ub (fun r d => do t <- at_ temp d; upd r d (fun x => Nat.lxor x t)) row (seq 0 n).

(* Pipes/boundaryPipe.cpp:63-66, Pipes/persistencePairs.cpp:80-83, Pipes/optPersistencePairs.cpp:122-125: the search for
   the first row with a 1 in column i; the rows before it, the row, the rows after it. *)
Fixpoint find_one (i : nat) (rows : list (list nat)) : res (option (list (list nat) * list nat * list (list nat))) :=
  match rows with
  | [] => Ok None
  | r :: rest =>
      do x <- at_ r i;
      if x =? 1 then Ok (Some ([], r, rest))
      else rmap (fun o => match o with None => None | Some (b, p, a) => Some (r :: b, p, a) end) (find_one i rest)
  end.

(* Pipes/boundaryPipe.cpp:77-84, Pipes/persistencePairs.cpp:94-101, Pipes/optPersistencePairs.cpp:144-152: the inner while
   loop; afterwards j is past the last row, so the row loop ends. *)
Definition clear_column (i n : nat) (temp : list nat) (rows : list (list nat)) : res (list (list nat)) :=
  foldr_ub (fun done r =>
              do x <- at_ r i;
              do r' <- (if x =? 1 then xor_row n r temp else Ok r);
              Ok (done ++ [r'])) [] rows.

(* Pipes/persistencePairs.cpp:77-105 and Pipes/optPersistencePairs.cpp:119-155: the loop over the columns of the first
   row; row lengths never change.  A pivot is recorded as (row number, column, row at that time). *)
Definition elim_column (n : nat) (st : list (list nat) * list (nat * nat * list nat)) (i : nat)
  : res (list (list nat) * list (nat * nat * list nat)) :=
  let '(m, piv) := st in
  do f <- find_one i m;
  match f with
  | None => Ok st
  | Some (before, row, after) =>
      do rest <- clear_column i n row (row :: after);
      Ok (before ++ rest, piv ++ [(length before, i, row)])
  end.
Definition eliminate (m : list (list nat)) : res (list (nat * nat * list nat)) :=
  do r0 <- at_ m 0;
  do st <- foldr_ub (elim_column (length r0)) (m, []) (seq 0 (length r0));
  Ok (snd st).

Definition to_set (l : list nat) : list nat := fold_left (fun s x => sinsert x s) l [].

(* Pipes/persistencePairs.cpp:69-109 persistencePairs::getRankNull (its second argument is not used). *)
Definition getRankNull (m : list (list nat)) : res (list nat) :=
  do piv <- eliminate m; Ok (to_set (map (fun t => fst (fst t)) piv)).

(* Pipes/optPersistencePairs.cpp:131-140: the last column after i with a 1 in the pivot row, else the row number. *)
Definition last_maximal (j i : nat) (row : list nat) : nat :=
  fold_left (fun l mf => if nth mf row 0 =? 1 then mf else l) (seq (i + 1) (length row - (i + 1))) j.
(* Pipes/optPersistencePairs.cpp:109-161 optPersistencePairs::getRankNull(vector<vector>). *)
Definition opt_getRankNull (m : list (list nat)) : res (list nat * list nat) :=
  do piv <- eliminate m;
  Ok (to_set (map (fun t => fst (fst t)) piv), to_set (map (fun t => last_maximal (fst (fst t)) (snd (fst t)) (snd t)) piv)).

(* Pipes/optPersistencePairs.cpp:65-107 optPersistencePairs::getRankNull(vector<set>): i runs over the number of
   columns; a pivot for i is a set whose least element is i. *)
Definition starts_with (i : nat) (s : list nat) : bool := match s with [] => false | x :: _ => x =? i end.
Fixpoint find_start (i : nat) (cols : list (list nat)) : option (list (list nat) * list nat * list (list nat)) :=
  match cols with
  | [] => None
  | c :: rest => if starts_with i c then Some ([], c, rest)
                 else match find_start i rest with None => None | Some (b, p, a) => Some (c :: b, p, a) end
  end.
Definition set_step (st : list (list nat) * list (nat * list nat)) (i : nat) : list (list nat) * list (nat * list nat) :=
  let '(m, piv) := st in
  match find_start i m with
  | None => st
  | Some (before, c, after) =>
      (before ++ map (fun x => if starts_with i x then setXOR c x else x) (c :: after), piv ++ [(length before, c)])
  end.
Definition opt_getRankNull_sets (m : list (list nat)) : list nat * list nat :=
  let piv := snd (fold_left set_step (seq 0 (length m)) (m, [])) in
  (to_set (map fst piv),
   to_set (flat_map (fun t => let l := last (snd t) 0 in if l =? hd 0 (snd t) then [] else [l]) piv)).

(* Pipes/boundaryPipe.cpp:85-90: copies of the returned rows are changed and dropped; only the accesses matter. *)
Definition copies (i : nat) (row : list nat) (ret : list (list nat)) : res unit :=
  foldr_ub (fun _ a => do x <- at_ a i; if x =? 1 then rmap (fun _ => tt) (xor_row (length ret) a row) else Ok tt) tt ret.
(* Pipes/boundaryPipe.cpp:61-93: one column.  boundaryMatrix[0] in the inner loop is read only if a row is left. *)
Definition rbm_column (i : nat) (m ret : list (list nat)) : res (list (list nat) * list (list nat)) :=
  do f <- find_one i m;
  match f with
  | None => Ok (m, ret)
  | Some (before, row, after) =>
      do after' <- clear_column i (length (hd [] (before ++ after))) row after;
      do _ <- copies i row (ret ++ [row]);
      Ok (before ++ after', ret ++ [row])
  end.
(* Pipes/boundaryPipe.cpp:61: the loop over the columns; its condition reads boundaryMatrix[0], also when every row has
   been erased.  None: the fuel ran out (excluded by C24). *)
Fixpoint rbm_loop (fuel i : nat) (m ret : list (list nat)) : option (res (list (list nat) * list (list nat))) :=
  match fuel with
  | O => None
  | S fuel' =>
      match m with
      | [] => Some UB
      | r0 :: _ =>
          if i <? length r0 then
            match rbm_column i m ret with
            | UB => Some UB
            | Ok (m', ret') => rbm_loop fuel' (S i) m' ret'
            end
          else Some (Ok (m, ret))
      end
  end.
(* Pipes/boundaryPipe.cpp:53-102 boundaryPipe::reduceBoundaryMatrix: the rows, the rank and the nullity. *)
Definition reduceBoundaryMatrix (m : list (list nat)) : option (res (list (list nat) * (Z * Z))) :=
  match m with
  | [] => Some (Ok ([], (0, 0)%Z))
  | _ =>
      match rbm_loop (S (list_max (map (@length nat) m))) 0 m [] with
      | None => None
      | Some UB => Some UB
      | Some (Ok (rest, ret)) =>
          let out := ret ++ rest in
          Some (do r0 <- at_ out 0;
                Ok (out, (Z.of_nat (length ret), Z.of_nat (length r0) - Z.of_nat (length ret))%Z))
      end
  end.

(* Pipes/persistencePairs.cpp:58-67 (and the same in boundaryPipe, optPersistencePairs): checkFace(set, set). *)
Definition checkFace (face simplex : list nat) : nat :=
  match simplex with
  | [] => 1
  | _ => if length (symmetricDiff_set face simplex) =? 1 then 1 else 0
  end.
(* Pipes/persistencePairs.cpp:131-139, Pipes/optPersistencePairs.cpp:448-486: one row per simplex of the higher
   dimension; the simplices numbered in [cleared] keep a zero row. *)
Definition face_matrix (cleared : list nat) (nChain pChain : list wsimp) : list (list nat) :=
  map (fun '(i, s) => if existsb (Nat.eqb i) cleared then repeat 0 (length nChain)
                      else map (fun f => checkFace (fst f) (fst s)) nChain) (enum 0 pChain).

(* Pipes/persistencePairs.cpp:111-166 persistencePairs::createBoundaryMatrix, the iteration for dimension d; the state is
   (lastCount, pivots).  lastCount never becomes negative, so nat stands for int. *)
Definition pp_dimension (edges : wgraph) (st : nat * list nat) (d : nat) : res (nat * list nat) :=
  do pChain <- at_ edges d;
  do nChain <- at_ edges (d - 1);
  do last <- getRankNull (face_matrix [] nChain pChain);
  let count := fst st - length pChain in
  Ok (count, fold_left (fun s a => sinsert (count + a) s) last (snd st)).
Definition total (edges : wgraph) : nat := length (concat edges).
Definition pp_pivots (edges : wgraph) : res (list nat) :=
  do st <- foldr_ub (pp_dimension edges) (total edges, []) (rev (seq 1 (length edges - 1)));
  Ok (snd st).

(* Pipes/optPersistencePairs.cpp:595-640: the branch for the array list and the simplex tree; createBoundaryMatrix
   (433-509) clears the rows numbered in maxFaces.  The state is (pivotOffset, allPivots, maxFaces).
   Simplification: the sweep of curPivot over the sorted set is a membership test. *)
Definition opt_dimension (edges : wgraph) (st : nat * list nat * list nat) (d : nat) : res (nat * list nat * list nat) :=
  let '(offset, pivots, faces) := st in
  do pChain <- at_ edges d;
  do nChain <- at_ edges (d - 1);
  do r <- opt_getRankNull (face_matrix faces nChain pChain);
  let offset' := offset - length pChain in
  Ok (offset', fold_left (fun s a => sinsert (offset' + a) s) (fst r) pivots, snd r).
Definition opt_pivots (dim : nat) (edges : wgraph) : res (list nat) :=
  do st <- foldr_ub (opt_dimension edges) (total edges, [], []) (rev (seq 1 dim));
  Ok (snd (fst st)).

(* Pipes/persistencePairs.hpp:17-23 tArrayEntry_t: marked, birth, death (-1 at first), simplex; ti is never used and
   birth is read only after it has been set. *)
Record tentry : Type := mkT { t_marked : bool; t_birth : Z; t_death : Z; t_simplex : list nat }.

(* Pipes/persistencePairs.cpp:234-238: the search starts at tArray[tArray.size()] and goes down to 0.  None: iter = -1.
   loose: Pipes/optPersistencePairs.cpp:672-679 does not compare vertices when the simplex is an edge. *)
Fixpoint pp_search (loose : bool) (ts : list tentry) (ks : list wsimp) (cur : list nat) (iter : nat) : res (option nat) :=
  do t <- at_ ts iter;
  do hit <- (if t_marked t && (t_death t <? 0)%Z then
               do k <- at_ ks iter;
               Ok (negb (length cur =? length (fst k)) && (loose || (length (setIntersect_set (fst k) cur) =? length cur - 1)))
             else Ok false);
  if hit then Ok (Some iter) else match iter with O => Ok None | S i => pp_search loose ts ks cur i end.
(* Pipes/persistencePairs.cpp:219-256, Pipes/optPersistencePairs.cpp:655-700: one simplex.  The state is (tArray, kPivots,
   curPivot, lines of bettis); curPivot None stands for unsigned(-1).  opt: the code of optPersistencePairs. *)
Definition pair_simplex (opt : bool) (ks : list wsimp) (st : list tentry * list nat * option nat * list (nat * Z * Z)) (x : nat * wsimp)
  : res (list tentry * list nat * option nat * list (nat * Z * Z)) :=
  let '(ts, piv, cur, lines) := st in
  let '(i, (s, w)) := x in
  if (length s =? 1) || negb (match cur with Some c => i =? c | None => false end)
  then Ok (ts ++ [mkT true w (-1) s], piv, cur, lines)
  else
    let ts' := ts ++ [mkT false 0 (-1) s] in
    do it <- pp_search (opt && (length s =? 2)) ts' ks s (length ts');
    do out <- (match it with
               | None => UB
               | Some O => Ok (ts', [])
               | Some k =>
                   do t <- at_ ts' k;
                   if (t_death t <? 0)%Z then
                     do ts'' <- upd ts' k (fun t => mkT (t_marked t) (t_birth t) w (t_simplex t));
                     Ok (ts'', if (w =? t_birth t)%Z then [] else [(length s - 2, t_birth t, w)])
                   else Ok (ts', [])
               end);
    match piv with
    | [] => Ok (fst out, piv, cur, lines ++ snd out)
    | [_] => if opt then Ok (fst out, [], cur, lines ++ snd out) else UB (* *kPivots.begin() of an empty set *)
    | _ :: c :: piv' => Ok (fst out, c :: piv', Some c, lines ++ snd out)
    end.
(* Pipes/persistencePairs.cpp:259-264, Pipes/optPersistencePairs.cpp:704-709: the simplices that are left; ret has dim
   entries, and a negative dim becomes a large unsigned number in the comparison. *)
Definition pp_left (dim eps : Z) (lines : list (nat * Z * Z)) (t : tentry) : res (list (nat * Z * Z)) :=
  let n := length (t_simplex t) in
  if t_marked t && (t_death t =? -1)%Z && ((dim <? 0)%Z || (Z.of_nat n <? dim)%Z)
  then do _ <- at_ (repeat tt (Z.to_nat dim)) n; Ok (lines ++ [(0, t_birth t, eps)])
  else Ok lines.
Definition opt_left (dim eps : Z) (lines : list (nat * Z * Z)) (t : tentry) : res (list (nat * Z * Z)) :=
  let n := length (t_simplex t) in
  if t_marked t && (t_death t =? -1)%Z && ((dim <? 0)%Z || (Z.of_nat n <=? dim)%Z)
  then do _ <- at_ (repeat tt (Z.to_nat dim)) (n - 1); Ok (lines ++ [(n - 1, t_birth t, eps)])
  else Ok lines.
Definition pair_all (opt : bool) (dim eps : Z) (edges : wgraph) (piv : list nat) : res (list (nat * Z * Z)) :=
  let ks := concat edges in
  do st <- foldr_ub (pair_simplex opt ks) ([], piv, hd_error piv, []) (enum 0 ks);
  let '(ts, _, _, lines) := st in
  foldr_ub (if opt then opt_left dim eps else pp_left dim eps) lines ts.
(* Pipes/persistencePairs.cpp:173-284 persistencePairs::runPipe on a fresh object; [edges] is the result of getAllEdges
   and the result holds the lines (dimension, birth, death) of bettiOutput. *)
Definition pp_run (dim eps : Z) (edges : wgraph) : res (list (nat * Z * Z)) :=
  do piv <- pp_pivots edges;
  pair_all false dim eps edges piv.
(* Pipes/optPersistencePairs.cpp:517-726 optPersistencePairs::runPipe on a fresh object, for twist other than "true" and a
   complex other than indSimplexTree. *)
Definition opt_run (dim eps : Z) (edges : wgraph) : res (list (nat * Z * Z)) :=
  do piv <- opt_pivots (Z.to_nat dim) edges;
  pair_all true dim eps edges piv.
(* Pipes/boundaryPipe.cpp:195-330 boundaryPipe::runPipe.  The boundary matrices are never computed (the calls at lines
   231-234 are commented out), so every rank and nullity is 0, and bettis gets one zero entry for every change of weight
   and every dimension below dim.  The last loop reads bettis[j] from j = bettis.size() down; what follows that read is
   not modelled.  A negative dim is a negative array bound at line 211. *)
Definition bd_run (dim : Z) (weights : list Z) : res (list (nat * Z * Z)) :=
  if (dim <? 0)%Z then UB
  else
    let changes := snd (fold_left (fun st w => if (w =? fst st)%Z then st else (w, snd st ++ [w])) weights (0%Z, [])) in
    let bettis := flat_map (fun w => map (fun d => (w, d, 0%Z)) (rev (seq 0 (Z.to_nat dim)))) changes in
    foldr_ub (fun lines _ => do _ <- at_ bettis (length bettis); Ok lines) [] (seq 0 (Z.to_nat dim)).
