(* LinkModel.v -- the whole program with its own preprocessor k-means++ (definitions only): Preprocessing/kMeansPlusPlus.cpp
   in the place of the parameter pre_run of MainModel.v. *)
From Coq Require Import String List Arith ZArith Bool.
From Verif Require Import Base UtilsModel ArrayListModel TreeModel FastModel ArgModel IoModel IndModel PipeModel KmeansModel MainModel.
Import ListNotations.
Open Scope string_scope.
Local Open Scope nat_scope.
Open Scope list_scope.

(* A double that may be "not a number": k-means divides 0 by 0 for a cluster without points. *)
Definition dbl : Type := option Z.
Definition d_add (a b : dbl) : dbl := match a, b with Some x, Some y => Some (x + y)%Z | _, _ => None end.
(* < is false if an argument is not a number. *)
Definition d_ltb (a b : dbl) : bool := match a, b with Some x, Some y => Z.ltb x y | _, _ => false end.
(* The coordinates, if all of them are numbers. *)
Definition numbers (v : list dbl) : option (list Z) :=
  fold_right (fun a acc => match a, acc with Some x, Some l => Some (x :: l) | _, _ => None end) (Some []) v.
(* == of vectors of numbers. *)
Fixpoint zlist_eqb (a b : list Z) : bool :=
  match a, b with
  | [], [] => true
  | x :: a', y :: b' => Z.eqb x y && zlist_eqb a' b'
  | _, _ => false
  end.

Section Link.
  Variable dist : list Z -> list Z -> Z.            (* utils::vectors_distance *)
  Variable maxn : Z.                                (* std::numeric_limits<double>::max() *)
  Variable quo : Z -> nat -> Z.                     (* the quotient of a sum and a positive count *)
  Variable nanz : Z.                                (* what stands for "not a number" in the data after the preprocessor *)
  Variables atoi atof : string -> Z.

  (* a / n where n counts the terms of the sum a: 0 / 0 is not a number. *)
  Definition d_div (a : dbl) (n : nat) : dbl := match n, a with S _, Some x => Some (quo x n) | _, _ => None end.
  (* A distance with a coordinate that is not a number is not a number. *)
  Definition d_dist (x y : list dbl) : dbl :=
    match numbers x, numbers y with Some a, Some b => Some (dist a b) | _, _ => None end.

  (* Preprocessing/kMeansPlusPlus.cpp:28-164 on points that are numbers.  num_clusters and num_iterations are ints.  For a
     negative num_clusters the comparison of line 84 is one of unsigned numbers, always true: the loop runs off the data.
     For num_clusters 0 the 2^32 - 1 attempts of line 62 are left out: without iterations they could add centroids. *)
  Definition kmeans_run (num_clusters num_iterations : Z) (index : nat) (picks : list (nat * (nat -> bool))) (data : list (list Z))
    : res (list (list dbl) * list nat) :=
    if (num_clusters <? 0)%Z then UB
    else
      do cents <- km_init Z zlist_eqb data (Z.to_nat num_clusters) index picks;
      km_loop dbl (Some 0%Z) (Some maxn) d_add d_div d_ltb d_dist (Z.to_nat num_iterations) (map (map Some) data)
              (Z.to_nat num_clusters) (map (map Some) cents) [].

  (* The random draws: the index of the first centroid and the attempts (KmeansModel.v). *)
  Variable index : nat.
  Variable picks : list (nat * (nat -> bool)).
  Variable pre_other : pre_kind -> amap -> packet -> res packet.     (* the other preprocessors *)

  Definition stored (v : list dbl) : list Z := map (fun a => match a with Some x => x | None => nanz end) v.
  (* runPreprocessor: kMeansPlusPlus.cpp:159-163 assigns originalData and originalLabels and leaves fullData alone. *)
  Definition pre_linked (k : pre_kind) (args : amap) (p : packet) : res packet :=
    match k with
    | KKMeans =>
        do r <- kmeans_run (atoi (opt args "clusters")) (atoi (opt args "iterations")) index picks (pk_data p);
        Ok (mkPacket (map stored (fst r)) (snd r) (pk_full p) (pk_weights p) (pk_complex p) (pk_output p) (pk_table p) (pk_stats p))
    | _ => pre_other k args p
    end.

  Variable srt : list wsimp -> list wsimp.
  Variable past_end : list nat -> nat -> res nat.
  Variable nc0 : Z.
  Variable al_reduce : wgraph -> res wgraph.
  Variable other : pipe_kind -> amap -> packet -> res packet.
  Variable uaf : res unit.
  Variable stod : text -> option Z.
  Variable file : string -> option text.

  (* main with pre_linked; the statistics line of the preprocessor (preprocessor.cpp:78) is left out. *)
  Definition lhf_linked (argv : list string) : res outcome :=
    lhf dist atoi atof srt past_end nc0 al_reduce other pre_linked (fun _ p => Ok p) uaf stod file argv.
End Link.
