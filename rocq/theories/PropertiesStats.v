(* PropertiesStats.v -- property theorems about the statistics of a run. *)
From Coq Require Import String List Arith ZArith QArith Bool Lia Sorted Permutation.
From Verif Require Import Base Spec ArgModel SpecArgs ArrayListModel TreeModel FastModel IndModel PipeModel StatsModel
  SpecComplex SpecTree SpecGraph SpecFast SpecPipe SpecIndRun SpecStats PipeRuns StatsRuns PropertiesComplex PropertiesPipe.
Import ListNotations.
Local Open Scope nat_scope.
Local Open Scope list_scope.

(* ---------------------------------------------------------------- C84 *)
(* Whatever the pipeline: reporting does not change the run, and there is one line for each component that did not fail, in
   their order, under the name of the pipe. *)
Theorem C84_one_line_per_pipe :
  forall sz dist atoi atof srt past_end nc0 al_reduce other args s parts data p lines failed,
  mget args "pipeline" = Some s -> components_of s parts ->
  run_program_stats sz dist atoi atof srt past_end nc0 al_reduce other args data = Ok (Some (p, lines, failed)) ->
  run_program dist atoi atof srt past_end nc0 al_reduce other args data = Ok (Some (p, failed)) /\
  line_per_pipe parts failed (map l_pipe lines).
Proof. exact one_line_per_pipe. Qed.
Print Assumptions C84_one_line_per_pipe.

(* The memory column: the number times its unit is the size, and the unit is the right one. *)
Theorem C84_units : forall size, displays (fst (shown size)) (snd (shown size)) size.
Proof. exact shown_displays. Qed.
Print Assumptions C84_units.

(* The lines of a default run without collapse.  A simplexArrayList reports the pairs after neighGraph, the complex up to the
   dimension of the option after rips and one dimension further at the end; a simplexTree reports the whole complex three
   times, on top of what its uninitialised counter held.  The memory is 8 bytes for every coordinate and a constant for
   every simplex. *)
Theorem C84_lines_of_a_default_run :
  forall sz dist atoi atof srt past_end nc0 al_reduce other args c d e data,
  is_sort srt -> default_run args c d e -> (forall x, In x data -> x <> []) -> (forall x y, (0 <= dist x y)%Z) ->
  (0 < atoi d < 2 ^ 31 - 1)%Z ->
  forall p failed, run_program dist atoi atof srt past_end nc0 al_reduce other args data = Ok (Some (p, failed)) ->
  (0 <= nc0)%Z -> (0 <= sz_node sz)%Z -> (0 <= sz_entry sz)%Z ->
  let top := Z.to_nat (atoi d) in
  let start := match c with Tree => nc0 | ArrayList => 0%Z end in
  exists n1 n2 n3,
    counts_rips dist data c (atof e) (match c with Tree => top + 1 | ArrayList => 2 end) n1 /\
    counts_rips dist data c (atof e) (top + 1) n2 /\
    counts_rips dist data c (atof e) (match c with Tree => top + 1 | ArrayList => top + 2 end) n3 /\
    let size n := (8 * Z.of_nat (length (concat data)) + (match c with Tree => sz_node sz | ArrayList => sz_entry sz end) * (start + n))%Z in
    ((size n3 < 2 ^ 64)%Z -> exists lines,
       run_program_stats sz dist atoi atof srt past_end nc0 al_reduce other args data = Ok (Some (p, lines, failed)) /\
       Forall2 says lines
         [("DistMatrix"%string, size 0, 0, start);
          ("neighGraph"%string, size n1, Z.of_nat (length data), start + n1);
          ("ripsPipe"%string, size n2, Z.of_nat (length data), start + n2);
          ("FastPersistence"%string, size n3, Z.of_nat (length data), start + n3)]%Z /\
       stats_file args lines =
         match mget args "outputFile" with
         | Some o => if String.eqb o "console" then None
                     else Some ((o ++ "_stats.csv")%string, "PipeName,PhysExecutionTime,MemorySize,MemoryUnits,VertexCount,SimplexCount"%string, lines)
         | None => None
         end).
Proof.
  intros sz dist atoi atof srt past_end nc0 al_reduce other args c d e data Hs Hr Hne Hpos Hd p failed R P0 P1 P2. cbv zeta.
  destruct (default_lines sz dist atoi atof srt past_end nc0 al_reduce other args c d e data Hs Hr Hne Hpos Hd p failed R P0 P1 P2) as (n1 & n2 & n3 & N1 & N2 & N3 & H).
  exists n1, n2, n3. replace (Z.to_nat (atoi d) + 1) with (S (Z.to_nat (atoi d))) by lia. replace (Z.to_nat (atoi d) + 2) with (S (S (Z.to_nat (atoi d)))) by lia.
  split; [destruct c; exact N1|]. split; auto. split; [destruct c; exact N3|]. intros L. destruct (H L) as (lines & E & F). exists lines. split; auto. split; [exact F|].
  unfold stats_file, writes_output. rewrite (dr_pipeline _ _ _ _ Hr). unfold opt. destruct (mget args "outputFile") as [o|]; [|reflexivity].
  destruct (String.eqb o "console"); reflexivity.
Qed.
Print Assumptions C84_lines_of_a_default_run.

(* The same on an indSimplexTree: its vertex column is the number of simplices too, on top of the uninitialised counter. *)
Theorem C84_lines_of_an_indexed_run :
  forall sz dist atoi atof srt past_end nc0 al_reduce other args d e data,
  is_sort srt -> ind_options args d e false -> (forall x, In x data -> x <> []) -> (forall x y, (0 <= dist x y)%Z) ->
  (0 < atoi d < 2 ^ 31 - 1)%Z ->
  forall p failed, run_program dist atoi atof srt past_end nc0 al_reduce other args data = Ok (Some (p, failed)) ->
  (0 <= nc0)%Z -> (0 <= sz_ind sz)%Z ->
  exists n, counts_rips dist data Tree (atof e) (Z.to_nat (atoi d) + 1) n /\
    let size n := (8 * Z.of_nat (length (concat data)) + sz_ind sz * (nc0 + n))%Z in
    ((size n < 2 ^ 64)%Z -> exists lines,
       run_program_stats sz dist atoi atof srt past_end nc0 al_reduce other args data = Ok (Some (p, lines, failed)) /\
       Forall2 says lines
         [("DistMatrix"%string, size 0, nc0, nc0);
          ("neighGraph"%string, size n, nc0 + n, nc0 + n);
          ("ripsPipe"%string, size n, nc0 + n, nc0 + n);
          ("FastPersistence"%string, size n, nc0 + n, nc0 + n)]%Z).
Proof.
  intros sz dist atoi atof srt past_end nc0 al_reduce other args d e data Hs Hr Hne Hpos Hd p failed R P0 P1.
  rewrite Nat.add_1_r. exact (ind_lines sz dist atoi atof srt past_end nc0 al_reduce other args d e data Hs Hr Hne Hpos Hd p failed R P0 P1).
Qed.
Print Assumptions C84_lines_of_an_indexed_run.

(* A run from the command line: four points on a line, epsilon 5. *)
Definition ex_sizes : sizes := mkSizes 56 40 200.
Definition stats_argv (c d : string) : list string := ["-c"; c; "-d"; d; "-o"; "out"]%string.
Definition stats_lines (c d : string) (data : list (list Z)) : res (list stat_line * option string) :=
  do m <- parse (stats_argv c d);
  do r <- run_program_stats ex_sizes line_dist digit digit wsort libstdcxx_past_end 0 (fun g => Ok g) (fun _ _ p => Ok p) (setPipeline m) data;
  match r with Some (_, lines, _) => Ok (lines, option_map (fun f => fst (fst f)) (stats_file (setPipeline m) lines)) | None => Ok ([], None) end.
Example C84_ex :
  is_sort wsort /\ (forall x y, (0 <= line_dist x y)%Z) /\
  (exists m, parse (stats_argv "simplexArrayList" "1") = Ok m /\ default_run (setPipeline m) ArrayList "1" "5" /\
     mget (setPipeline m) "outputFile" = Some "out"%string) /\
  stats_lines "simplexArrayList" "1" [[0]; [1]; [3]; [9]]%Z =
    Ok ([mkLine "DistMatrix" 32 "B" 0 0; mkLine "neighGraph" 424 "B" 4 7; mkLine "ripsPipe" 424 "B" 4 7; mkLine "FastPersistence" 480 "B" 4 8]%Q%Z,
        Some "out_stats.csv"%string) /\
  stats_lines "simplexTree" "2" [[0]; [1]; [3]; [2]; [1]]%Z =
    Ok ([mkLine "DistMatrix" 40 "B" 0 0; mkLine "neighGraph" (1040 # 1000) "KB" 5 25; mkLine "ripsPipe" (1040 # 1000) "KB" 5 25;
         mkLine "FastPersistence" (1040 # 1000) "KB" 5 25]%Q%Z, Some "out_stats.csv"%string).
Proof.
  split; [apply wsort_is_sort|]. split; [intros; apply Z.abs_nonneg|]. split; [|split; vm_compute; reflexivity].
  eexists. split; [vm_compute; reflexivity|]. split; [constructor; try (vm_compute; (reflexivity || discriminate))|vm_compute; reflexivity].
  eexists. split; [vm_compute; reflexivity|]. split; discriminate.
Qed.

(* The line of a failed component is missing, and the two classes behind "persistence" report the same name. *)
Example C84_pipeline_ex :
  components_of "distMatrix.nonsense.upscale" ["distMatrix"; "nonsense"; "upscale"]%string /\
  exists p lines, run_program_stats ex_sizes line_dist digit digit wsort libstdcxx_past_end 0 (fun g => Ok g) (fun _ _ p => Ok p)
    [("pipeline", "distMatrix.nonsense.upscale"); ("complexType", "simplexArrayList"); ("dimensions", "1"); ("epsilon", "5")]%string [[0]; [1]]%Z =
    Ok (Some (p, lines, ["nonsense"%string])) /\ map l_pipe lines = ["DistMatrix"; "Upscale"]%string.
Proof.
  split; [repeat split; try discriminate; repeat constructor; discriminate|]. do 2 eexists. split; vm_compute; reflexivity.
Qed.

(* An indexed run from the command line: three of the four points are within epsilon 5 of each other. *)
Example C84_indexed_ex :
  (exists m, parse (stats_argv "indSimplexTree" "2") = Ok m /\ ind_options (setPipeline m) "2" "5" false) /\
  stats_lines "indSimplexTree" "2" [[0]; [1]; [3]; [9]]%Z =
    Ok ([mkLine "DistMatrix" 32 "B" 0 0; mkLine "neighGraph" (1632 # 1000) "KB" 8 8; mkLine "ripsPipe" (1632 # 1000) "KB" 8 8;
         mkLine "FastPersistence" (1632 # 1000) "KB" 8 8]%Q%Z, Some "out_stats.csv"%string).
Proof.
  split; [|vm_compute; reflexivity].
  eexists. split; [vm_compute; reflexivity|]. constructor; try (vm_compute; (reflexivity || discriminate)).
  eexists. split; [vm_compute; reflexivity|]. split; discriminate.
Qed.
