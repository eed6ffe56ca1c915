(* StreamUtilsModel.v -- Preprocessing/streamingUtils.cpp (definitions only). *)
From Coq Require Import List Arith Bool.
From Verif Require Import Base KmeansModel StreamKmModel.
Import ListNotations.

Section StreamUtils.
  Variable num : Type.                                  (* double *)
  Variable zero maxn : num.                             (* 0, std::numeric_limits<double>::max() *)
  Variable add : num -> num -> num.
  Variable divn : num -> nat -> num.                    (* division by a count; counts are whole numbers held in doubles *)
  Variable ltb : num -> num -> bool.                    (* <; false when an argument is not a number *)
  Variable dist : list num -> list num -> num.          (* utils::vectors_distance *)

  (* Preprocessing/streamingUtils.cpp:34-41: the first centroids; [draws] are the values of the generator.  They lie between 0
     and kHat[0].size(), which is the dimension and not the number of points. *)
  Definition su_start (numClusters : nat) (draws : list nat) (kHat : list (list num)) : res (list (list num)) :=
    do _ <- at_ kHat 0;
    all_res (at_ kHat) (firstn numClusters draws).
  (* Preprocessing/streamingUtils.cpp:46-85: one iteration: the sums, the new centroids and the labels.  summedClusters is
     written only and left out. *)
  Definition su_iteration (kHat : list (list num)) (numClusters : nat) (tempCentroids : list (list num))
    : res (list (list num) * list (list num) * list nat) :=
    do first <- at_ kHat 0;
    do st <- foldr_ub (classify num maxn add ltb dist tempCentroids)
               (repeat (repeat zero (length first)) numClusters, repeat 0 numClusters, []) (firstn (length kHat - 1) kHat);
    let '(sums, counts, labels) := st in
    Ok (sums, map (fun '(s, n) => map (fun v => divn v n) s) (combine sums counts), labels).
  (* Preprocessing/streamingUtils.cpp:45-97: the loop over the iterations; tempClusters is the state that is returned. *)
  Fixpoint su_loop (numIterations : nat) (kHat : list (list num)) (numClusters : nat) (tempCentroids tempClusters : list (list num))
                   (lastLabels : list nat) : res (list (list num)) :=
    match numIterations with
    | O => Ok tempClusters
    | S z =>
        do r <- su_iteration kHat numClusters tempCentroids;
        let '(sums, cents, curLabels) := r in
        if nlist_eqb curLabels lastLabels then Ok sums else su_loop z kHat numClusters cents sums curLabels
    end.
  (* Preprocessing/streamingUtils.cpp:25-99 streamingUtils::kMeans.  The locals numIterations and numClusters are not
     initialised: they are parameters here, as any two numbers that are not negative. *)
  Definition su_kMeans (numClusters numIterations : nat) (draws : list nat) (kHat : list (list num)) : res (list (list num)) :=
    do cents <- su_start numClusters draws kHat;
    su_loop numIterations kHat numClusters cents [] [].

  (* Preprocessing/streamingUtils.cpp:128-142: the body of the loop over the points.  summedCentroidVectors and counts start
     empty and are never resized; the state is summedCentroidVectors and counts. *)
  Definition ball_point (near : list num -> bool) (clusters : list (list num)) (st : list (list num) * list nat) (i : nat)
    : res (list (list num) * list nat) :=
    let '(sums, counts) := st in
    do x <- at_ clusters i;
    let clusterIndex := if near x then 1 else 0 in
    do sums' <- foldr_ub (fun s j => upd_res s clusterIndex (fun v => do a <- at_ x j; upd v j (fun b => add b a))) sums (seq 0 (length clusters));
    do counts' <- upd counts clusterIndex S;
    Ok (sums', counts').
  (* Preprocessing/streamingUtils.cpp:103-162 streamingUtils::ballKmeans.  The draws lie between 0 and clusters.size();
     [third] divides the radius by 3.  The two rounds of lines 130-136 do the same test, so the last one decides. *)
  Variable third : num -> num.
  Definition su_ballKmeans (draw1 draw2 : nat) (clusters : list (list num)) : res (list (list num)) :=
    do c1 <- at_ clusters draw1;
    do c2 <- at_ clusters draw2;
    let ballRadius := third (dist c1 c2) in
    do st <- foldr_ub (ball_point (fun x => ltb (dist x [ballRadius]) ballRadius) clusters) ([], []) (seq 0 (length clusters - 1));
    Ok (map (fun '(s, n) => map (fun v => divn v n) s) (combine (fst st) (snd st))).
End StreamUtils.
