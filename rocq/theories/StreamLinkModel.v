(* StreamLinkModel.v -- the whole program with its preprocessors streaming k-means and DenStream (definitions only):
   Preprocessing/streamingKmeans.cpp and denStream.cpp in the place of the parameter pre_run of MainModel.v. *)
From Coq Require Import String List Arith ZArith Qcanon Bool.
From Verif Require Import Base UtilsModel ArrayListModel TreeModel FastModel ArgModel IoModel IndModel PipeModel KdModel DenStreamModel StreamKmModel MainModel.
Import ListNotations.
Open Scope string_scope.
Local Open Scope nat_scope.
Open Scope list_scope.

(* inData.originalData = data; *)
Definition new_data (p : packet) (data : list (list Z)) : packet :=
  mkPacket data (pk_labels p) (pk_full p) (pk_weights p) (pk_complex p) (pk_output p) (pk_table p) (pk_stats p).
(* A loop that does not end has no result; here it counts as undefined. *)
Definition result_of {A} (r : option (res A)) : res A := match r with Some x => x | None => UB end.

Section StreamLink.
  Variable dist : list Z -> list Z -> Z.            (* utils::vectors_distance *)
  Variables atoi atof : string -> Z.

  (* The numbers and random choices of streaming k-means (StreamKmModel.v); of_num and to_num go between the numbers of
     the program and these. *)
  Variable num : Type.
  Variables (to_num : Z -> num) (of_num : num -> Z).
  Variables zero beta f0 maxd : num.
  Variables add mul divn : num -> num -> num.
  Variable divc : num -> nat -> num.
  Variable succn : num -> num.
  Variables leb ltb : num -> num -> bool.
  Variable ndist : list num -> list num -> num.
  Variable nsrt : list (num * nat) -> list (num * nat).
  Variable omega : list num.
  Variable prob1 : nat -> num -> bool.
  Variable prob2 : nat -> nat -> num -> bool.
  Variable small : num -> bool.
  Variable sfuel : nat.

  (* The numbers of DenStream (DenStreamModel.v); decay and Tp come from the option lambda, stored is the number of the
     program that stands for a coordinate of a centre. *)
  Variable decay : Z -> Qc.
  Variable root : Qc -> Qc.
  Variable distq : list Qc -> list Qc -> Qc.
  Variable diff : Z -> Z -> Z.
  Variable mag : Z -> Z.
  Variable lsrt : nat -> list pointIndex -> list pointIndex.
  Variable Tp : Z.
  Variable dfuel : nat.
  Variable rounded : Qc -> Z.

  Variable pre_kmeans : amap -> packet -> res packet.                (* k-means++ (LinkModel.v) *)

  (* runPreprocessor of the configured class.  Preprocessing/streamingKmeans.cpp:31-296 and denStream.cpp:92-164 assign
     originalData only; denStream.cpp:248 reads epsilon with std::stod, which throws on a text that is no number (left out);
     preprocessor.cpp:118-123 leaves the packet alone (never called: the base class is not configured). *)
  Definition pre_streams (k : pre_kind) (args : amap) (p : packet) : res packet :=
    match k with
    | KNoPreprocessor => Ok p
    | KKMeans => pre_kmeans args p
    | KStreamingKMeans =>
        do r <- result_of (streamingKmeans_run num zero beta f0 maxd add mul divn divc succn leb ltb ndist nsrt omega prob1 prob2 sfuel small
                             true (map (map to_num) (pk_data p)));
        Ok (new_data p (map (map of_num) r))
    | KDenStream =>
        do r <- result_of (denStream_preprocess decay root distq dist diff mag lsrt Tp dfuel (atof (opt args "epsilon")) (pk_data p));
        Ok (new_data p (map (map rounded) r))
    end.

  Variable srt : list wsimp -> list wsimp.
  Variable past_end : list nat -> nat -> res nat.
  Variable nc0 : Z.
  Variable al_reduce : wgraph -> res wgraph.
  Variable other : pipe_kind -> amap -> packet -> res packet.
  Variable uaf : res unit.
  Variable stod : text -> option Z.
  Variable file : string -> option text.

  (* main with pre_streams; the statistics line of the preprocessor (preprocessor.cpp:78) is left out. *)
  Definition lhf_streams (argv : list string) : res outcome :=
    lhf dist atoi atof srt past_end nc0 al_reduce other pre_streams (fun _ p => Ok p) uaf stod file argv.
End StreamLink.
