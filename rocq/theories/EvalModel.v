(* EvalModel.v -- the stream evaluator of /repo/Pipes/slidingWindow.cpp: deleteNNstats, updateStats and nnBasedEvaluator
   (definitions only).  Distances are integers counted in a unit small enough to represent all of them; [one] is the number
   1.0.  Averages are exact rational numbers (rounding is left out). *)
From Coq Require Import List Arith ZArith QArith Bool.
From Verif Require Import Base.
Import ListNotations.
Local Open Scope nat_scope. Local Open Scope list_scope.

(* std::min_element over a range: the position of the first smallest element; None for an empty range (its end is
   dereferenced by every caller here). *)
Fixpoint min_pos (l : list Z) : option (nat * Z) :=
  match l with
  | [] => None
  | x :: t => match min_pos t with
              | None => Some (0, x)
              | Some (i, m) => if (m <? x)%Z then Some (S i, m) else Some (0, x)
              end
  end.

(* std::map<int, A> and std::unordered_map<int, A>: keys in ascending order, each once.  (No iteration over an unordered_map
   occurs.) *)
Definition zmap (A : Type) : Type := list (Z * A).
Fixpoint zget {A} (m : zmap A) (k : Z) : option A :=
  match m with [] => None | (k', a) :: m' => if (k =? k')%Z then Some a else zget m' k end.
Fixpoint zput {A} (m : zmap A) (k : Z) (a : A) : zmap A :=
  match m with
  | [] => [(k, a)]
  | (k', a') :: m' => if (k <? k')%Z then (k, a) :: m else if (k =? k')%Z then (k, a) :: m' else (k', a') :: zput m' k a
  end.
Definition zdel {A} (m : zmap A) (k : Z) : zmap A := filter (fun e => negb (fst e =? k)%Z) m.
(* m[k] read: a missing key is inserted with the value [zero]. *)
Definition zread {A} (zero : A) (m : zmap A) (k : Z) : A * zmap A :=
  match zget m k with Some a => (a, m) | None => (zero, zput m k zero) end.

(* v.erase(v.begin() + k). *)
Definition erase_at {A} (l : list A) (k : nat) : res (list A) :=
  if k <? length l then Ok (firstn k l ++ skipn (S k) l) else UB.
(* std::find(v.begin(), v.end(), x) - v.begin(). *)
Fixpoint find_pos (l : list Z) (x : Z) : nat :=
  match l with [] => 0 | y :: t => if (y =? x)%Z then 0 else S (find_pos t x) end.
(* v[i] = x. *)
Definition put_at {A} (l : list A) (i : nat) (x : A) : res (list A) := upd l i (fun _ => x).

(* Pipes/slidingWindow.hpp:22-41 struct EvalParams.  Of its other fields, windowMaxSize is a constant; distsFromCurrVec,
   labelToBeDeleted, indexToBeDeleted and nnDistToBeDeleted are set by every call of nnBasedEvaluator before they are read and
   are arguments and results here; keyToBeDeleted is never read; distMatLastRow is never written, so it stays empty. *)
Record params : Type := mkParams {
  sp_key : nat; sp_target : Z; sp_keys : list nat; sp_labels : list Z;
  sp_nnIndices : list Z; sp_nnDists : list Z;
  sp_avg : zmap Q; sp_num : zmap Z; sp_maxKeys : zmap nat }.
Definition set_target (st : params) (t : Z) : params :=
  mkParams (sp_key st) t (sp_keys st) (sp_labels st) (sp_nnIndices st) (sp_nnDists st) (sp_avg st) (sp_num st) (sp_maxKeys st).
Definition set_nn (st : params) (idx nnd : list Z) : params :=
  mkParams (sp_key st) (sp_target st) (sp_keys st) (sp_labels st) idx nnd (sp_avg st) (sp_num st) (sp_maxKeys st).
Definition set_maps (st : params) (avg : zmap Q) (num : zmap Z) : params :=
  mkParams (sp_key st) (sp_target st) (sp_keys st) (sp_labels st) (sp_nnIndices st) (sp_nnDists st) avg num (sp_maxKeys st).

(* Pipes/slidingWindow.cpp:28-54 deleteNNstats for labelToBeDeleted = label and indexToBeDeleted = k: the state,
   distsFromCurrVec and nnDistToBeDeleted afterwards. *)
Definition deleteNNstats (label : Z) (k : nat) (dists : list Z) (st : params) : res (params * list Z * Z) :=
  do keys <- erase_at (sp_keys st) k;
  do labels <- erase_at (sp_labels st) k;
  do idx <- erase_at (sp_nnIndices st) k;
  do gone <- at_ (sp_nnDists st) k;
  do nnd <- erase_at (sp_nnDists st) k;
  do dists' <- erase_at dists k;
  let n := (fst (zread 0%Z (sp_num st) label) - 1)%Z in
  let num := zput (sp_num st) label n in
  Ok (if (n =? 0)%Z
      then mkParams (sp_key st) (sp_target st) keys labels idx nnd (zdel (sp_avg st) label) (zdel num label) (zdel (sp_maxKeys st) label)
      else mkParams (sp_key st) (sp_target st) keys labels idx nnd (sp_avg st) num (sp_maxKeys st),
      dists', gone).

(* The local variables of updateStats (Pipes/slidingWindow.cpp:59-71). *)
Record sums : Type := mkSums {
  su_old : Z; su_new : Z; su_delOld : Z; su_delNew : Z; su_addOld : Z; su_addNew : Z; su_two : bool; su_tp : list (Z * nat) }.
Definition sums0 : sums := mkSums 0 0 0 0 0 0 false [].

Section Update.
  Variable one : Z.
  Variable windowMaxSize : nat.
  Definition newest : Z := (Z.of_nat windowMaxSize - 1)%Z.

  (* Pipes/slidingWindow.cpp:103-118 and 213-228: memberDistsFromVect with memberIndices for the point i, over the j below
     [bound]. *)
  Definition members (m : list (list Z)) (labels : list Z) (label : Z) (i bound : nat) : res (list (Z * nat)) :=
    foldr_ub (fun acc j =>
                do l <- at_ labels j;
                if (l =? label)%Z then
                  if j <? i then do row <- at_ m j; do d <- at_ row i; Ok (acc ++ [(d, j)])
                  else if i <? j then do row <- at_ m i; do d <- at_ row j; Ok (acc ++ [(d, j)])
                  else Ok acc
                else Ok acc)
             [] (seq 0 bound).
  (* The smallest distance of a list and the index that belongs to it (119-122, 229-232, 271-275, 289-293). *)
  Definition nearest_of (l : list (Z * nat)) : res (Z * nat) :=
    match min_pos (map fst l) with None => UB | Some (t, d) => do e <- at_ l t; Ok (d, snd e) end.

  (* Pipes/slidingWindow.cpp:76-240: one iteration of the loop. *)
  Definition update_entry (label : Z) (k : nat) (dists : list Z) (s : params * list (list Z) * sums) (i : nat)
    : res (params * list (list Z) * sums) :=
    let '(st, m0, su) := s in
    let target := sp_target st in
    do d <- at_ dists i;
    do m <- upd m0 i (fun row => row ++ [d]);
    do li <- at_ (sp_labels st) i;
    do case1 <- (if (li =? label)%Z && negb (li =? target)%Z
                 then do x <- at_ (sp_nnIndices st) i; Ok (x =? Z.of_nat k)%Z else Ok false);
    if case1 then
      let (n, num) := zread 0%Z (sp_num st) label in
      if (n =? 1)%Z then
        do idx <- put_at (sp_nnIndices st) i (-1)%Z;
        do nnd <- put_at (sp_nnDists st) i (- one)%Z;
        Ok (set_maps (set_nn st idx nnd) (zput (sp_avg st) label (inject_Z (- one))) num, m, su)
      else
        do old <- at_ (sp_nnDists st) i;
        do ms <- members m (sp_labels st) label i (length m);
        do near <- nearest_of ms;
        do idx <- put_at (sp_nnIndices st) i (Z.of_nat (snd near));
        do nnd <- put_at (sp_nnDists st) i (fst near);
        Ok (set_maps (set_nn st idx nnd) (sp_avg st) num, m,
            mkSums (su_old su) (su_new su) (su_delOld su + old) (su_delNew su + fst near) (su_addOld su) (su_addNew su) (su_two su) (su_tp su))
    else if negb (li =? label)%Z && (li =? target)%Z then
      let (n, num) := zread 0%Z (sp_num st) target in
      if (n =? 1)%Z then
        do idx <- put_at (sp_nnIndices st) i newest;
        do nnd <- put_at (sp_nnDists st) i d;
        Ok (set_maps (set_nn st (idx ++ [Z.of_nat i]) (nnd ++ [d])) (zput (sp_avg st) target (inject_Z d)) (zput num target 2%Z), m,
            mkSums (su_old su) (su_new su) (su_delOld su) (su_delNew su) (su_addOld su) (su_addNew su) true (su_tp su))
      else
        let tp := su_tp su ++ [(d, i)] in
        do old <- at_ (sp_nnDists st) i;
        if (d <? old)%Z then
          do nnd <- put_at (sp_nnDists st) i d;
          do idx <- put_at (sp_nnIndices st) i newest;
          Ok (set_maps (set_nn st idx nnd) (sp_avg st) num, m,
              mkSums (su_old su) (su_new su) (su_delOld su) (su_delNew su) (su_addOld su + old) (su_addNew su + d) (su_two su) tp)
        else Ok (set_maps st (sp_avg st) num, m,
                 mkSums (su_old su) (su_new su) (su_delOld su) (su_delNew su) (su_addOld su) (su_addNew su) (su_two su) tp)
    else if (label =? target)%Z && (li =? target)%Z then
      let (n, num) := zread 0%Z (sp_num st) target in
      if (n =? 1)%Z then
        do idx <- put_at (sp_nnIndices st) i newest;
        do nnd <- put_at (sp_nnDists st) i d;
        Ok (set_maps (set_nn st (idx ++ [Z.of_nat i]) (nnd ++ [d])) (zput (sp_avg st) target (inject_Z d)) (zput num target 2%Z), m,
            mkSums (su_old su) (su_new su) (su_delOld su) (su_delNew su) (su_addOld su) (su_addNew su) true (su_tp su))
      else
        let tp := su_tp su ++ [(d, i)] in
        do old <- at_ (sp_nnDists st) i;
        if (d <? old)%Z then
          do nnd <- put_at (sp_nnDists st) i d;
          do idx <- put_at (sp_nnIndices st) i newest;
          Ok (set_maps (set_nn st idx nnd) (sp_avg st) num, m,
              mkSums (su_old su + old) (su_new su + d) (su_delOld su) (su_delNew su) (su_addOld su) (su_addNew su) (su_two su) tp)
        else
          do x <- at_ (sp_nnIndices st) i;
          if (x =? Z.of_nat k)%Z then
            do ms <- members m (sp_labels st) label i windowMaxSize;
            do near <- nearest_of ms;
            do idx <- put_at (sp_nnIndices st) i (Z.of_nat (snd near));
            do nnd <- put_at (sp_nnDists st) i (fst near);
            Ok (set_maps (set_nn st idx nnd) (sp_avg st) num, m,
                mkSums (su_old su + old) (su_new su + fst near) (su_delOld su) (su_delNew su) (su_addOld su) (su_addNew su) (su_two su) tp)
          else Ok (set_maps st (sp_avg st) num, m,
                   mkSums (su_old su) (su_new su) (su_delOld su) (su_delNew su) (su_addOld su) (su_addNew su) (su_two su) tp)
    else Ok (st, m, su).

  (* Pipes/slidingWindow.cpp:245-254: a target partition that has no average. *)
  Definition new_partition (st : params) : params :=
    let target := sp_target st in
    match zget (sp_avg st) target with
    | Some _ => st
    | None => set_maps (set_nn st (sp_nnIndices st ++ [-1]%Z) (sp_nnDists st ++ [- one]%Z))
                       (zput (sp_avg st) target (inject_Z (- one))) (zput (sp_num st) target 1%Z)
    end.
  (* Pipes/slidingWindow.cpp:258-265: the average of the partition that lost a point. *)
  Definition shrink_average (label gone : Z) (su : sums) (st : params) : params :=
    let (n, num) := zread 0%Z (sp_num st) label in
    if (1 <? n)%Z then
      let a := fst (zread 0%Q (sp_avg st) label) in
      set_maps st (zput (sp_avg st) label
        (((inject_Z (n + 1) * a - inject_Z gone - inject_Z (su_delOld su) + inject_Z (su_delNew su)) / inject_Z n)%Q)) num
    else set_maps st (sp_avg st) num.
  (* Pipes/slidingWindow.cpp:268-282: the average of the partition that gets the point. *)
  Definition grow_average (su : sums) (st : params) : res params :=
    let target := sp_target st in
    let (n, num) := zread 0%Z (sp_num st) target in
    if (2 <=? n)%Z && negb (su_two su) then
      do near <- nearest_of (su_tp su);
      let a := fst (zread 0%Q (sp_avg st) target) in
      Ok (set_maps (set_nn st (sp_nnIndices st ++ [Z.of_nat (snd near)]) (sp_nnDists st ++ [fst near]))
            (zput (sp_avg st) target
              (((inject_Z n * a + inject_Z (fst near) - inject_Z (su_addOld su) + inject_Z (su_addNew su)) / inject_Z (n + 1))%Q))
            (zput num target (n + 1)%Z))
    else Ok (set_maps st (sp_avg st) num).
  (* Pipes/slidingWindow.cpp:284-301: the same partition lost a point and gets one. *)
  Definition same_average (gone : Z) (su : sums) (st : params) : res params :=
    let target := sp_target st in
    let (n0, num) := zread 0%Z (sp_num st) target in
    if (2 <=? n0)%Z && negb (su_two su) then
      do near <- nearest_of (su_tp su);
      let n := (n0 + 1)%Z in
      let a := fst (zread 0%Q (sp_avg st) target) in
      Ok (set_maps (set_nn st (sp_nnIndices st ++ [Z.of_nat (snd near)]) (sp_nnDists st ++ [fst near]))
            (zput (sp_avg st) target
              (((inject_Z n * a - inject_Z gone - inject_Z (su_old su) + inject_Z (su_new su) + inject_Z (fst near)) / inject_Z n)%Q))
            (zput num target n))
    else Ok (set_maps st (sp_avg st) num).

  (* Pipes/slidingWindow.cpp:56-304 updateStats: [dists] is distsFromCurrVec, [label], [k] and [gone] are labelToBeDeleted,
     indexToBeDeleted and nnDistToBeDeleted, [m] is the distance matrix of the complex. *)
  Definition updateStats (label : Z) (k : nat) (gone : Z) (dists : list Z) (st : params) (m : list (list Z))
    : res (params * list (list Z)) :=
    do r <- foldr_ub (update_entry label k dists) (st, m, sums0) (seq 0 (length m));
    let '(st1, m1, su) := r in
    let st2 := new_partition st1 in
    do st3 <- (if negb (label =? sp_target st2)%Z then grow_average su (shrink_average label gone su st2)
               else same_average gone su st2);
    Ok (st3, m1 ++ [[]]).
End Update.

Section Evaluator.
  Variable dist : list Z -> list Z -> Z.            (* utils::vectors_distance *)
  Variable one : Z.
  Variable windowMaxSize : nat.

  (* std::max_element of the labels. *)
  Definition max_label (labels : list Z) : option Z :=
    match labels with [] => None | l :: ls => Some (fold_left Z.max ls l) end.

  (* Pipes/slidingWindow.cpp:364-386: targetPartition, and the averages (operator[] can insert one). *)
  Definition choose_target (nn nearest top : Z) (avg : zmap Q) : Z * zmap Q :=
    let q := inject_Z in
    if (nn =? 0)%Z then (nearest, avg)
    else if (5 * one <? nn)%Z then ((top + 1)%Z, avg)
    else
      let (a, avg') := zread 0%Q avg nearest in
      if Qeq_bool a (q (- one)%Z) && (nn <=? 5 * one)%Z then (nearest, avg')
      else if Qle_bool (q 4%Z * a) (q one) && (nn <=? one)%Z then (nearest, avg')
      else if negb (Qle_bool a 0%Q) && Qle_bool (q nn / a) (q 4%Z) then (nearest, avg')
      else ((top + 1)%Z, avg').

  (* Pipes/slidingWindow.cpp:393-410: the loop over maxKeys; the state is numPointsPartn, numPtsSmallestOutdated and
     smallestOutdated. *)
  Definition outdated_step (key : nat) (s : zmap Z * Z * Z) (op : Z * nat) : zmap Z * Z * Z :=
    let '(num, size, label) := s in
    if (25 <? Z.of_nat key - Z.of_nat (snd op))%Z then
      let (n, num') := zread 0%Z num (fst op) in
      if (size =? -1)%Z then (num', n, fst op)
      else if (n <? size)%Z then (num', n, fst op)
      else (num', size, label)
    else s.

  (* Pipes/slidingWindow.cpp:306-452 nnBasedEvaluator: accepted, windowValues, the state and the distance matrix. *)
  Definition nnBasedEvaluator (v : list Z) (window : list (list Z)) (st : params) (m : list (list Z))
    : res (bool * list (list Z) * params * list (list Z)) :=
    let q := inject_Z in
    let dists := map (dist v) window in
    match min_pos dists with
    | None => UB
    | Some (pos, nn) =>
        if length (sp_avg st) =? 1 then
          (* 318-349: one partition *)
          if (nn =? 0)%Z then Ok (false, window, st, m)
          else
            do current <- at_ (sp_labels st) 0;
            let (a, avg) := zread 0%Q (sp_avg st) current in
            let st0 := set_maps st avg (sp_num st) in
            if Qle_bool (q 4%Z * a) (q one) && (nn <=? one)%Z then Ok (false, window, st0, m)
            else if Qeq_bool a 0%Q || negb (Qle_bool (q nn / a) (q 4%Z)) then
              do r <- deleteNNstats current 0 dists (set_target st0 (current + 1)%Z);
              let '(st1, dists', gone) := r in
              do w <- erase_at window 0;
              do r' <- updateStats one windowMaxSize current 0 gone dists' st1 m;
              Ok (true, w, fst r', snd r')
            else Ok (false, window, st0, m)
        else
          (* 352-449: other numbers of partitions *)
          do nearest <- at_ (sp_labels st) pos;
          match max_label (sp_labels st) with
          | None => UB
          | Some top =>
              let (target, avg) := choose_target nn nearest top (sp_avg st) in
              let '(num, _, outdated) := fold_left (outdated_step (sp_key st)) (sp_maxKeys st) (sp_num st, -1, -1)%Z in
              let st0 := set_target (set_maps st avg num) target in
              do victim <- (if negb (outdated =? -1)%Z then Ok (outdated, find_pos (sp_labels st) outdated)
                            else if negb (target =? nearest)%Z then do l <- at_ (sp_labels st) 0; Ok (l, 0)
                            else let k := find_pos (sp_labels st) (if (target =? 0)%Z then 1 else 0)%Z in
                                 do l <- at_ (sp_labels st) k; Ok (l, k));
              do r <- deleteNNstats (fst victim) (snd victim) dists st0;
              do w <- erase_at window (snd victim);
              Ok (true, w, fst (fst r), m)
          end
    end.
End Evaluator.
