(* SpecStreamLink.v -- vocabulary for the statements about the program with streaming k-means and DenStream. *)
From Coq Require Import String List Arith ZArith Qcanon.
From Verif Require Import Base KdModel ArgModel SpecArgs SpecMain SpecKd SpecDenStream.
Import ListNotations.
Local Open Scope nat_scope.
Local Open Scope list_scope.

Definition names_streaming (pre : string) : Prop := In (pre, KStreamingKMeans) pre_names.
Definition names_denstream (pre : string) : Prop := In (pre, KDenStream) pre_names.
(* The option l is given, or left at its default, with another value than v. *)
Definition value_not (argv : list string) (l v : string) : Prop := exists w, value argv l w /\ w <> v.
(* The preprocessor that a command line ends up with: the one that is given, unless the mode overrides it or fills it in. *)
Definition preprocessor_of (argv : list string) (pre : string) : Prop := exists given, value argv "preprocessor" given /\
  ((value argv "mpi" "1" /\ chosen (pl_preprocessor mpi_plan) (Some given) = Some pre) \/
   (value_not argv "mpi" "1" /\ value_not argv "pipeline" "" /\ pre = given) \/
   (value_not argv "mpi" "1" /\ value argv "pipeline" "" /\ exists mode, value argv "mode" mode /\
      ((exists q, In (mode, q) plans /\ chosen (pl_preprocessor q) (Some given) = Some pre) \/
       (~ In mode (map fst plans) /\ pre = given)))).
(* What the theorems about DenStream (C67) ask for: at least 1000 points of k coordinates, no two of them exactly epsilon
   apart, a fading function, sound number operations and enough room for DBSCAN. *)
Record denstream_setting (decay : Z -> Qc) (dist : point -> point -> Z) (diff : Z -> Z -> Z) (mag : Z -> Z)
                         (lsrt : nat -> list pointIndex -> list pointIndex) (Tp : Z) (fuel : nat) (epsilon : Z) (k : nat) (data : list point) : Prop := {
  ds_fading : fading decay;
  ds_numbers : sound_numbers dist diff mag;
  ds_sort : level_sort lsrt;
  ds_uniform : uniform k data;
  ds_many : 1000 <= length data;
  ds_sym : forall x y, dist x y = dist y x;
  ds_self : forall x, In x data -> (dist x x < epsilon)%Z;
  ds_ties : forall x y, In x data -> In y data -> dist x y <> epsilon;
  ds_fuel : 1000 + 1000 * 1000 <= fuel;
  ds_check : Tp <> 0%Z }.
