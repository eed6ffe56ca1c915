(* DenStreamModel.v -- Preprocessing/denStream.cpp. *)
From Coq Require Import List Arith ZArith QArith Qcanon Bool.
From Verif Require Import Base KdModel.
Import ListNotations.
Open Scope nat_scope.

(* Doubles are exact rationals here (simplification: no rounding, no infinities). *)
Definition q_le (a b : Qc) : bool := Qle_bool (this a) (this b).
Definition q_lt (a b : Qc) : bool := negb (q_le b a).
Definition q_of (z : Z) : Qc := Q2Qc (inject_Z z).

(* Preprocessing/denStream.hpp:8-26 microCluster (lambda is a parameter of the section through [decay]). *)
Record micro : Type := mkMicro {
  mc_created : Z; mc_center : list Qc; mc_squares : list Qc; mc_weight : Qc; mc_edit : Z }.

Section DenStream.
  Variable decay : Z -> Qc.                        (* pow(2, -lambda * t) *)
  Variable root : Qc -> Qc.                        (* sqrt *)
  Variable distq : list Qc -> list Qc -> Qc.       (* utils::vectors_distance *)

  (* Preprocessing/denStream.cpp:21-28. *)
  Definition new_micro (t : Z) (dim : nat) : micro := mkMicro t (repeat 0%Qc dim) (repeat 0%Qc dim) 0%Qc 0%Z.

  (* Preprocessing/denStream.cpp:38-41: v[i] = v[i] + (x[i] - v[i]) / w for every i below x.size(). *)
  Fixpoint shift (w : Qc) (v x : list Qc) : res (list Qc) :=
    match x, v with
    | [], _ => Ok v
    | _ :: _, [] => UB
    | a :: x', b :: v' => rmap (cons (b + (a - b) / w)%Qc) (shift w v' x')
    end.
  (* Preprocessing/denStream.cpp:35-37: v[i] = x[i] for every i below x.size(). *)
  Fixpoint overwrite (v x : list Qc) : res (list Qc) :=
    match x, v with
    | [], _ => Ok v
    | _ :: _, [] => UB
    | a :: x', _ :: v' => rmap (cons a) (overwrite v' x')
    end.
  Definition squares (x : list Qc) : list Qc := map (fun a => (a * a)%Qc) x.

  (* Preprocessing/denStream.cpp:30-46. *)
  Definition insertPoint (m : micro) (point : list Qc) (timestamp : Z) : res micro :=
    let newWeight := (mc_weight m * decay (timestamp - mc_edit m) + 1)%Qc in
    if Qc_eq_bool (mc_weight m) 0 then
      do sq <- overwrite (mc_squares m) (squares point);
      Ok (mkMicro (mc_created m) point sq newWeight timestamp)
    else
      do c <- shift newWeight (mc_center m) point;
      do sq <- shift newWeight (mc_squares m) (squares point);
      Ok (mkMicro (mc_created m) c sq newWeight timestamp).

  (* Preprocessing/denStream.cpp:56-58. *)
  Definition getWeight (m : micro) (timestamp : Z) : Qc := (mc_weight m * decay (timestamp - mc_edit m))%Qc.

  (* Preprocessing/denStream.cpp:60-67 (avgSquares is read at every index of center). *)
  Fixpoint radius2 (c sq : list Qc) : res Qc :=
    match c, sq with
    | [], _ => Ok 0%Qc
    | _ :: _, [] => UB
    | a :: c', s :: sq' => rmap (fun r => (s - a * a + r)%Qc) (radius2 c' sq')
    end.
  Definition getRadius (m : micro) : res Qc := rmap root (radius2 (mc_center m) (mc_squares m)).

  (* Preprocessing/denStream.cpp:69-81. *)
  Fixpoint merge2 (w : Qc) (c sq x : list Qc) : res Qc :=
    match c, sq, x with
    | [], _, _ => Ok 0%Qc
    | a :: c', s :: sq', p :: x' =>
        let newCenter := (a + (p - a) / w)%Qc in
        let newAvgSquare := (s + (p * p - s) / w)%Qc in
        rmap (fun r => (newAvgSquare - newCenter * newCenter + r)%Qc) (merge2 w c' sq' x')
    | _, _, _ => UB
    end.
  Definition mergeRadius (m : micro) (point : list Qc) (timestamp : Z) : res Qc :=
    let newWeight := (mc_weight m * decay (timestamp - mc_edit m) + 1)%Qc in
    rmap root (merge2 newWeight (mc_center m) (mc_squares m) point).

  (* Preprocessing/denStream.cpp:167-182, 185-200: nearestPCluster and nearestOCluster (the same code on the two
     vectors). *)
  Definition nearestCluster (ms : list micro) (point : list Qc) : res nat :=
    do m0 <- at_ ms 0;
    let '(mn, _) :=
      fold_left (fun '(mn, minDist) '(i, m) =>
                   let d := distq (mc_center m) point in
                   if q_lt d minDist then (i, d) else (mn, minDist))
                (enum 1 (tl ms)) (0, distq (mc_center m0) point) in
    Ok mn.

  (* Erasing index i of a vector. *)
  Definition erase_at {A} (l : list A) (i : nat) : list A := firstn i l ++ skipn (S i) l.

  Variable epsilon : Qc.
  (* beta * mu = 0.2 * 10, Preprocessing/denStream.cpp:96-97. *)
  Definition beta_mu : Qc := q_of 2.

  (* Preprocessing/denStream.cpp:213-226 of merging: the part after the p-micro-clusters were tried.  The state is
     (pMicroClusters, oMicroClusters); dim is data[0].size(). *)
  Definition new_outlier (dim : nat) (st : list micro * list micro) (point : list Qc) (timestamp : Z) : res (list micro * list micro) :=
    do x <- insertPoint (new_micro timestamp dim) point timestamp;
    Ok (fst st, snd st ++ [x]).
  Definition merge_outlier (dim : nat) (st : list micro * list micro) (point : list Qc) (timestamp : Z) : res (list micro * list micro) :=
    let '(ps, os) := st in
    if 0 <? length os then
      do i <- nearestCluster os point;
      do m <- at_ os i;
      do r <- mergeRadius m point timestamp;
      if q_le r epsilon then
        do m' <- insertPoint m point timestamp;
        do os' <- upd os i (fun _ => m');
        if q_lt beta_mu (getWeight m' timestamp) then Ok (ps ++ [m'], erase_at os' i) else Ok (ps, os')
      else new_outlier dim st point timestamp
    else new_outlier dim st point timestamp.
  (* Preprocessing/denStream.cpp:203-227 merging. *)
  Definition merging (dim : nat) (st : list micro * list micro) (point : list Qc) (timestamp : Z) : res (list micro * list micro) :=
    let '(ps, os) := st in
    if 0 <? length ps then
      do i <- nearestCluster ps point;
      do m <- at_ ps i;
      do r <- mergeRadius m point timestamp;
      if q_le r epsilon then
        do m' <- insertPoint m point timestamp;
        do ps' <- upd ps i (fun _ => m');
        Ok (ps', os)
      else merge_outlier dim st point timestamp
    else merge_outlier dim st point timestamp.

  Variable Tp : Z.     (* ceil((1/lambda) * log(2)), Preprocessing/denStream.cpp:100 *)

  (* Preprocessing/denStream.cpp:132-155: the check every Tp units of time. *)
  Definition prune (st : list micro * list micro) (timestamp : Z) : list micro * list micro :=
    (filter (fun m => negb (q_lt (getWeight m timestamp) beta_mu)) (fst st),
     filter (fun m => negb (q_lt (getWeight m timestamp)
                                 ((decay (timestamp - mc_created m + Tp) - 1) / (decay Tp - 1))%Qc)) (snd st)).

  Definition streamSpeed : nat := 20.

  (* Preprocessing/denStream.cpp:123-156: the body of the loop over the points after the first initPoints; the state is
     (pMicroClusters, oMicroClusters), timestamp, numPerTime.  % by zero is undefined. *)
  Definition den_step (dim : nat) (s : (list micro * list micro) * nat * nat) (point : list Qc) : res ((list micro * list micro) * nat * nat) :=
    let '(st, timestamp, numPerTime) := s in
    let n1 := numPerTime + 1 in
    let '(timestamp, numPerTime) := if n1 =? streamSpeed then (timestamp + 1, 0) else (timestamp, n1) in
    do st1 <- merging dim st point (Z.of_nat timestamp);
    if (Tp =? 0)%Z then UB
    else
      let st2 := if (Z.rem (Z.of_nat timestamp) Tp =? 0)%Z && (numPerTime =? 0) then prune st1 (Z.of_nat timestamp) else st1 in
      Ok (st2, timestamp, numPerTime).

  (* Preprocessing/denStream.cpp:108: *std::max_element(labels); end() of no labels is undefined. *)
  Definition max_label (labels : list Z) : res Z :=
    match labels with [] => UB | l :: ls => Ok (fold_left Z.max ls l) end.
  (* pMicroClusters(n, ...) with an int converted to size_t: a negative number (other than -1, handled before) cannot be
     allocated; it throws std::length_error, not distinguished from undefined behaviour here. *)

  (* Preprocessing/denStream.cpp:108-121 and 123-163, for the labels DBSCAN gives to the first initPoints points. *)
  Definition den_init (initPoints : nat) (data : list (list Qc)) (labels : list Z) : res (list micro) :=
    do mx <- max_label labels;
    let timestamp := Z.of_nat (initPoints / streamSpeed) in
    let pClusters := if (mx =? -1)%Z then 1%Z else mx in
    do first <- at_ data 0;
    if (pClusters <? 0)%Z then UB
    else
      foldr_ub (fun ps i =>
                  do l <- at_ labels i;
                  if (l =? -1)%Z then Ok ps
                  else if (l <? 1)%Z then UB
                  else
                    do x <- at_ data i;
                    do m <- at_ ps (Z.to_nat (l - 1));
                    do m' <- insertPoint m x timestamp;
                    upd ps (Z.to_nat (l - 1)) (fun _ => m'))
               (repeat (new_micro timestamp (length first)) (Z.to_nat pClusters)) (seq 0 initPoints).
  Definition den_stream (initPoints : nat) (data : list (list Qc)) (labels : list Z) : res (list (list Qc)) :=
    do ps <- den_init initPoints data labels;
    do first <- at_ data 0;
    do s <- foldr_ub (den_step (length first)) ((ps, []), initPoints / streamSpeed, initPoints mod streamSpeed) (skipn initPoints data);
    Ok (map mc_center (fst (fst (fst s)))).
End DenStream.

(* Preprocessing/denStream.cpp:92-164 denStream::runPreprocessor: the new originalData.  The coordinates and epsilon are
   whole numbers, as in KdModel.v; None: DBSCAN out of fuel. *)
Definition denStream_run decay root distq dist diff mag srt (Tp : Z) (fuel initPoints : nat) (epsilon : Z) (data : list point) : option (res (list (list Qc))) :=
  match dbscan dist diff mag srt fuel data 20 epsilon initPoints with
  | None => None
  | Some UB => Some UB
  | Some (Ok labels) => Some (den_stream decay root distq (q_of epsilon) Tp initPoints (map (map q_of) data) labels)
  end.
(* The constant initPoints = 1000 of Preprocessing/denStream.cpp:94. *)
Definition denStream_preprocess decay root distq dist diff mag srt Tp fuel epsilon data :=
  denStream_run decay root distq dist diff mag srt Tp fuel 1000 epsilon data.
