(* MainModel.v -- the rest of /repo/LHFmain/main.cpp (definitions only): processReducedWrapper, processUpscaleWrapper and
   main, on the packets of PipeModel.v.  Console output is not modelled except for the counts of processUpscaleWrapper. *)
From Coq Require Import String List Arith ZArith Bool.
From Verif Require Import Base UtilsModel ArrayListModel TreeModel FastModel ArgModel IoModel IndModel PipeModel.
Import ListNotations.
Open Scope string_scope.
Local Open Scope nat_scope.
Open Scope list_scope.

(* wD->originalData = data; *)
Definition with_data (p : packet) (data : list (list Z)) : packet :=
  mkPacket data (pk_labels p) (pk_full p) (pk_weights p) (pk_complex p) (pk_output p) (pk_table p) (pk_stats p).

(* A barcode file that was written: its name and the lines (dimension, birth, death) below the header. *)
Definition written : Type := string * list (nat * Z * Z).

(* What the program did: printed the usage text; stopped with an uncaught exception; printed the sizes of the partitions;
   or ran the pipeline (once, or once per partition) with the barcode files written in this order.  A later file of the
   same name replaces the earlier one (std::ofstream truncates). *)
Inductive outcome : Type :=
| Usage
| Threw
| Counted (p : packet) (counts : list nat)
| Ran (p : packet) (files : list written).

Section Main.
  Variable dist : list Z -> list Z -> Z.            (* utils::vectors_distance *)
  Variables atoi atof : string -> Z.
  Variable srt : list wsimp -> list wsimp.
  Variable past_end : list nat -> nat -> res nat.
  Variable nc0 : Z.
  Variable al_reduce : wgraph -> res wgraph.
  Variable other : pipe_kind -> amap -> packet -> res packet.
  Variable pre_run : pre_kind -> amap -> packet -> res packet.       (* runPreprocessor of the configured class *)
  Variable pre_stats : pre_kind -> packet -> res packet.             (* the statistics line of the wrapper *)
  Variable uaf : res unit.                          (* the write to freed memory in simplexTree::clear (TreeModel.v) *)
  Notation pipeline := (runPipeline packet (run_pipe dist atoi atof srt past_end al_reduce other) add_stats).

  (* wD->complex->clear(); *)
  Definition clear_complex (p : packet) : res packet :=
    do c <- deref p;
    match c with
    | CArray e d dm wg => Ok (set_complex p (CArray e d dm (al_clear wg)))
    | CTree e d t => do t' <- st_clear uaf t; Ok (set_complex p (CTree e d t'))
    | CInd e d t => Ok (set_complex p (CInd e d (ind_clear t)))
    end.

  (* LHFmain/main.cpp:18-66 runPipeline with its output (53-63): writeStats writes outputFile + "_stats.csv" (left out),
     writeBarcodes outputFile + ".csv" (Utils/writeOutput.cpp:24-43, 86-94). *)
  Definition run_and_write (args : amap) (p : packet) : res (packet * list written) :=
    do r <- pipeline args p;
    match r with
    | None => Ok (p, [])
    | Some (p', _) =>
        Ok (p', if writes_output args then [((opt args "outputFile" ++ ".csv")%string, pk_output p')] else [])
    end.

  (* LHFmain/main.cpp:116-134: one iteration of the loop over the partitions; lab and part are partitionedData.first[z]
     and .second[z].  mergedBettiTable is never read and left out. *)
  Definition reduced_step (args : amap) (st : packet * list written) (z : list nat * list (list Z)) : res (packet * list written) :=
    let '(p, files) := st in
    let '(lab, part) := z in
    match part with
    | [] => Ok (p, files)
    | _ =>
        do r <- run_and_write args (with_data p part);
        do p1 <- clear_complex (fst r);
        do _ <- mapPartitionIndexing lab (pk_table p1);
        Ok (p1, files ++ snd r)
    end.

  (* LHFmain/main.cpp:90-155 processReducedWrapper, for any way to compare distances with one another (max_dist) and with
     2 * maxRadius (part_dist), and to compute 2 * maxRadius (two_times). *)
  Definition reduced_with (max_dist part_dist : list Z -> list Z -> Z) (two_times : Z -> Z) (args : amap) (p : packet) : res (packet * list written) :=
    do p1 <- preprocess packet pre_run pre_stats args p;
    let centroids := pk_data p1 in
    do maxRadius <- computeMaxRadius max_dist centroids (pk_full p1) (pk_labels p1);
    do parts <- separatePartitionsRad part_dist (two_times maxRadius) centroids (pk_full p1) (pk_labels p1);
    do st <- foldr_ub (reduced_step args) (p1, []) (combine (fst parts) (snd parts));
    match centroids with
    | [] => Ok st
    | _ =>
        do r <- run_and_write args (with_data (fst st) centroids);
        do p3 <- clear_complex (fst r);
        Ok (p3, snd st ++ snd r)
    end.
  (* LHFmain/main.cpp:90-155 processReducedWrapper with whole numbers; ReducedModel.v has it with doubles. *)
  Definition processReducedWrapper (args : amap) (p : packet) : res (packet * list written) := reduced_with dist dist (Z.mul 2) args p.

  (* LHFmain/main.cpp:161-230 processUpscaleWrapper: the packet and the counts printed.  A negative number of clusters
     throws std::length_error in the constructor of the vectors; nothing catches it (None). *)
  Definition processUpscaleWrapper (args : amap) (p : packet) : res (option (packet * list nat)) :=
    do p1 <- preprocess packet pre_run pre_stats args p;
    let k := atoi (opt args "clusters") in
    if (k <? 0)%Z then Ok None
    else do parts <- separatePartitions (Z.to_nat k) (pk_full p1) (pk_labels p1);
         Ok (Some (p1, map (@length _) (snd parts))).

  (* LHFmain/main.cpp:70-88 processDataWrapper with the output. *)
  Definition processData (args : amap) (p : packet) : res (packet * list written) :=
    do p1 <- preprocess packet pre_run pre_stats args p; run_and_write args p1.

  Variable stod : text -> option Z.                 (* std::stod *)
  Variable file : string -> option text.            (* the files that can be opened *)

  (* LHFmain/main.cpp:232-305 main; argv without the program name. *)
  Definition lhf (argv : list string) : res outcome :=
    do m <- parse argv;
    let args := setPipeline m in
    do c <- newSimplex atoi atof nc0 (opt args "complexType") args;
    let sliding := String.eqb (opt args "pipeline") "slidingwindow" in
    match (if sliding then Some [] else readCSV Z stod (file (opt args "inputFile"))) with
    | None => Ok Threw
    | Some data =>
        let p := mkPacket data [] data [] c [] [] [] in
        if (0 <? length data) || sliding then
          if String.eqb (opt args "upscale") "true" then
            do r <- processUpscaleWrapper args p;
            Ok (match r with Some (q, counts) => Counted q counts | None => Threw end)
          else if String.eqb (opt args "mode") "reduced" then
            do r <- processReducedWrapper args p; Ok (Ran (fst r) (snd r))
          else
            do r <- processData args p; Ok (Ran (fst r) (snd r))
        else Ok Usage
    end.
End Main.
