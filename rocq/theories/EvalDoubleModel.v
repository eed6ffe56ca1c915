(* EvalDoubleModel.v -- the stream evaluator of /repo/Pipes/slidingWindow.cpp on a window with one partition, in double
   arithmetic (definitions only).  EvalModel.v has the whole evaluator with exact averages. *)
From Coq Require Import List Arith ZArith Bool SpecFloat.
From Verif Require Import Base UtilsModel DoubleModel.
Import ListNotations.

(* *std::min_element of doubles: the first element that no later one is below; None for an empty range. *)
Definition d_min (l : list double) : option double :=
  match l with [] => None | x :: l' => Some (fold_left (fun m y => if SFltb y m then y else m) l' x) end.

(* Pipes/slidingWindow.cpp:545: std::accumulate(begin, end, 0.0) / size(); the size is converted to a double. *)
Definition d_average (nnDists : list double) : double :=
  SFdiv 53 1024 (fold_left d_add nnDists d_zero) (binary_normalize 53 1024 (Z.of_nat (length nnDists)) 0 false).

(* Pipes/slidingWindow.cpp:309-310 and 326: the floats f1 and f2 and the number 1, all exact as doubles. *)
Definition f1 : double := S754_finite false (2 ^ 52) (-50).
Definition f2 : double := S754_finite false (2 ^ 52) (-54).
Definition d_one : double := S754_finite false (2 ^ 52) (-52).

(* Pipes/slidingWindow.cpp:318-349: is the vector admitted?  [average] is avgNNDistSinglePartition, [nearest] nnDistCurrVec. *)
Definition admits (average nearest : double) : bool :=
  if SFeqb nearest d_zero then false
  else if SFleb average f2 && SFleb nearest d_one then false
  else SFeqb average d_zero || SFltb f1 (SFdiv 53 1024 nearest average).

Section Evaluator.
  Variable square : double -> double.               (* pow(x, 2) *)
  (* Utils/utils.cpp:506-518 utils::nearestNeighbors. *)
  Definition d_distances (v : list double) (window : list (list double)) : res (list double) :=
    foldr_ub (fun acc x => do w <- d_distance square v x; Ok (acc ++ [w])) [] window.
  (* Pipes/slidingWindow.cpp:306-349 nnBasedEvaluator when avgNNDistPartitions has one entry, that of line 545. *)
  Definition pure_evaluator (window : list (list double)) (nnDists : list double) (v : list double) : res bool :=
    do dists <- d_distances v window;
    match d_min dists with
    | None => UB
    | Some nearest => Ok (admits (d_average nnDists) nearest)
    end.
End Evaluator.
