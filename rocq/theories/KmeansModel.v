(* KmeansModel.v -- Preprocessing/kMeansPlusPlus.cpp. *)
From Coq Require Import List Arith Bool.
From Verif Require Import Base.
Import ListNotations.

Section Kmeans.
  Variable num : Type.                                  (* double *)
  Variable zero maxn : num.                             (* 0, std::numeric_limits<double>::max() *)
  Variable add : num -> num -> num.
  Variable divn : num -> nat -> num.                    (* division by a count; counts are whole numbers held in doubles *)
  Variable ltb : num -> num -> bool.                    (* <; false when an argument is not a number *)
  Variable dist : list num -> list num -> num.          (* utils::vectors_distance *)
  Variable eqb : list num -> list num -> bool.          (* == of vectors, used by std::find *)

  (* Preprocessing/kMeansPlusPlus.cpp:116-128: the centroid of one point; (clusterIndex, minDist). *)
  Definition nearest_centroid (x : list num) (cents : list (list num)) : nat * num :=
    fold_left (fun '(clusterIndex, minDist) '(c, cent) =>
      if ltb (dist x cent) minDist then (c, dist x cent) else (clusterIndex, minDist)) (enum 0 cents) (0, maxn).

  (* Preprocessing/kMeansPlusPlus.cpp:130-132: += of one point; a point longer than the first point of the data writes out
     of range. *)
  Fixpoint addv (s x : list num) : res (list num) :=
    match x, s with
    | [], _ => Ok s
    | _ :: _, [] => UB
    | a :: x', b :: s' => rmap (cons (add b a)) (addv s' x')
    end.
  (* v[i] = f(v[i]) where f can be undefined. *)
  Definition upd_res {A} (l : list A) (i : nat) (f : A -> res A) : res (list A) :=
    do a <- at_ l i; do b <- f a; upd l i (fun _ => b).

  (* Preprocessing/kMeansPlusPlus.cpp:115-137: the body of the loop over the points; the state is summedCentroidVectors,
     counts and curLabels.  summedClusters is written only and left out. *)
  Definition classify (cents : list (list num)) (st : list (list num) * list nat * list nat) (x : list num) : res (list (list num) * list nat * list nat) :=
    let '(sums, counts, labels) := st in
    let '(clusterIndex, _) := nearest_centroid x cents in
    do sums' <- upd_res sums clusterIndex (fun s => addv s x);
    do counts' <- upd counts clusterIndex S;
    Ok (sums', counts', labels ++ [clusterIndex]).

  (* Preprocessing/kMeansPlusPlus.cpp:109-147: one iteration: the new centroids and the labels.  The bound size() - 1 of the
     loop leaves the last point out. *)
  Definition km_iteration (data : list (list num)) (num_clusters : nat) (cents : list (list num)) : res (list (list num) * list nat) :=
    do first <- at_ data 0;
    do st <- foldr_ub (classify cents) (repeat (repeat zero (length first)) num_clusters, repeat 0 num_clusters, []) (firstn (length data - 1) data);
    let '(sums, counts, labels) := st in
    Ok (map (fun '(s, n) => map (fun v => divn v n) s) (combine sums counts), labels).

  (* Preprocessing/kMeansPlusPlus.cpp:107-157: the loop over the iterations. *)
  Fixpoint km_loop (num_iterations : nat) (data : list (list num)) (num_clusters : nat) (cents : list (list num)) (lastLabels : list nat) : res (list (list num) * list nat) :=
    match num_iterations with
    | O => Ok (cents, lastLabels)
    | S z =>
        do r <- km_iteration data num_clusters cents;
        let '(cents', curLabels) := r in
        if nlist_eqb curLabels lastLabels then Ok (cents', lastLabels) else km_loop z data num_clusters cents' curLabels
    end.

  (* Preprocessing/kMeansPlusPlus.cpp:63-81: one attempt to add a random centroid.  [valid j] is the outcome of the random
     test for j. *)
  Definition try_pick (data : list (list num)) (temp : list (list num)) (pick : nat * (nat -> bool)) : res (list (list num)) :=
    let '(index_next, valid) := pick in
    do c <- at_ data index_next;
    Ok (if existsb (fun j => valid j && negb (existsb (eqb c) temp)) (seq 0 (length data - 1)) then temp ++ [c] else temp).
  (* Preprocessing/kMeansPlusPlus.cpp:83-89: complete the centroids from the front of the data. *)
  Fixpoint fill (num_clusters : nat) (temp rest : list (list num)) : res (list (list num)) :=
    if length temp <? num_clusters then
      match rest with
      | [] => UB
      | x :: rest' => fill num_clusters (if existsb (eqb x) temp then temp else temp ++ [x]) rest'
      end
    else Ok temp.
  (* Preprocessing/kMeansPlusPlus.cpp:48-89: the initial centroids; num_clusters >= 1.  [index] and [picks] are the random
     draws; there are num_clusters - 1 attempts. *)
  Definition km_init (data : list (list num)) (num_clusters index : nat) (picks : list (nat * (nat -> bool))) : res (list (list num)) :=
    do c <- at_ data index;
    do temp <- foldr_ub (try_pick data) [c] (firstn (num_clusters - 1) picks);
    fill num_clusters temp data.
  (* Preprocessing/kMeansPlusPlus.cpp:28-164 kMeansPlusPlus::runPreprocessor: the new originalData and originalLabels. *)
  Definition km_run (data : list (list num)) (num_clusters num_iterations index : nat) (picks : list (nat * (nat -> bool))) : res (list (list num) * list nat) :=
    do cents <- km_init data num_clusters index picks;
    km_loop num_iterations data num_clusters cents [].
End Kmeans.
