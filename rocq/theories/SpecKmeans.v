(* SpecKmeans.v -- vocabulary for the statements about k-means. *)
From Coq Require Import List Arith Bool.
From Verif Require Import Base KmeansModel.
Import ListNotations.

(* < on numbers: irreflexive, transitive, and incomparable numbers are equivalent. *)
Definition number_order {num} (ltb : num -> num -> bool) : Prop :=
  (forall a, ltb a a = false) /\ (forall a b c, ltb a b = true -> ltb b c = true -> ltb a c = true) /\
  (forall a b c, ltb a b = false -> ltb b c = false -> ltb a c = false).
(* i is the first of the nearest centroids of x. *)
Definition first_nearest {num} (ltb : num -> num -> bool) (dist : list num -> list num -> num) (x : list num) (cents : list (list num)) (i : nat) : Prop :=
  exists c, nth_error cents i = Some c /\
    forall j c', nth_error cents j = Some c' -> ltb (dist x c') (dist x c) = false /\ (j < i -> ltb (dist x c) (dist x c') = true).
(* The points with a given label, and the mean of points of dimension dim (summed from the front). *)
Definition members {num} (points : list (list num)) (labels : list nat) (c : nat) : list (list num) :=
  map snd (filter (fun p => fst p =? c) (combine labels points)).
Definition mean {num} (zero : num) (add : num -> num -> num) (divn : num -> nat -> num) (dim : nat) (points : list (list num)) : list num :=
  map (fun d => divn (fold_left add (map (fun x => nth d x zero) points) zero) (length points)) (seq 0 dim).
(* The data has fewer than k different points: fewer than k points cover it. *)
Definition fewer_than {A} (k : nat) (data : list A) : Prop := exists t, length t < k /\ incl data t.
(* The label of a point: the first of its nearest centroids, or 0 if no centroid is nearer than maxn. *)
Definition label_of {num} (maxn : num) (ltb : num -> num -> bool) (dist : list num -> list num -> num) (x : list num) (cents : list (list num)) (i : nat) : Prop :=
  ((exists c, In c cents /\ ltb (dist x c) maxn = true) -> first_nearest ltb dist x cents i) /\
  ((forall c, In c cents -> ltb (dist x c) maxn = false) -> i = 0).
Definition labelling {num} (maxn : num) (ltb : num -> num -> bool) (dist : list num -> list num -> num) (points cents : list (list num)) (labels : list nat) : Prop :=
  Forall2 (fun x i => label_of maxn ltb dist x cents i) points labels.
(* The means of k clusters of points. *)
Definition cluster_means {num} (zero : num) (add : num -> num -> num) (divn : num -> nat -> num) (dim k : nat) (points : list (list num)) (labels : list nat) : list (list num) :=
  map (fun c => mean zero add divn dim (members points labels c)) (seq 0 k).
(* n rounds of k-means: label the points by the centroids, then move every centroid to the mean of its points. *)
Inductive rounds {num} (zero maxn : num) add divn ltb dist (dim k : nat) (points : list (list num)) : nat -> list (list num) -> list (list num) -> Prop :=
| no_round cents : rounds zero maxn add divn ltb dist dim k points 0 cents cents
| one_round n cents labels cents' : labelling maxn ltb dist points cents labels ->
    rounds zero maxn add divn ltb dist dim k points n (cluster_means zero add divn dim k points labels) cents' ->
    rounds zero maxn add divn ltb dist dim k points (S n) cents cents'.
(* What z iterations from cents end with: the labels by the centroids after fewer than z rounds, and the means of the
   clusters; if not all iterations are used, the labels are also those by these means. *)
Definition lloyd {num} (zero maxn : num) add divn ltb dist (dim k : nat) (points : list (list num)) (z : nat) (cents cents' : list (list num)) (labels : list nat) : Prop :=
  cents' = cluster_means zero add divn dim k points labels /\
  (number_order ltb -> exists n prev, n < z /\ rounds zero maxn add divn ltb dist dim k points n cents prev /\
     labelling maxn ltb dist points prev labels /\ (S n = z \/ labelling maxn ltb dist points cents' labels)).
