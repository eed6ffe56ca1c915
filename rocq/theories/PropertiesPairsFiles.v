(* PropertiesPairsFiles.v -- the debug output of the pair pipes and of boundaryPipe. *)
From Coq Require Import String List Arith ZArith Bool Lia Permutation.
From Verif Require Import Base UtilsModel RunMonad ArrayListModel TreeModel FastModel ArgModel IoModel GaussModel IndModel TwistModel PipeModel WindowModel MainModel AllModel DebugModel PairsFilesModel SpecComplex SpecPipe SpecMain SpecDebug SpecPairsFiles PairsFiles PropertiesComplex PropertiesPipe PropertiesDebug.
Import ListNotations.
Local Open Scope nat_scope.
Local Open Scope list_scope.

(* ---------------------------------------------------------------- C116 *)
(* What persistencePairs and optPersistencePairs write.  The run is that of the pipe without output.  Without debug output no file
   is written.  With it there are two: the bars the run returns, below a header, and a table with one row per simplex the
   complex lists, in that order -- and every row says that the simplex is paired with nothing. *)
Theorem C116_files_of_the_pair_pipes :
  forall dist atoi atof srt past_end al_reduce one stod file k header args p c,
  pk_complex p = Some c -> In (k, header) pair_pipes ->
  match (do p' <- all_pipes dist atoi atof srt past_end al_reduce one stod file UB k args p; add_stats k p') with
  | UB => table_and_output atoi atof srt UB k args p = UB
  | Ok q => exists fs, table_and_output atoi atof srt UB k args p = Ok (q, fs) /\
      (debug_off atoi args -> fs = []) /\
      (debug_on atoi args -> fs =
         [("output/PersistencePairs_bettis_output" ++ opt args "fn" ++ ".csv", PText header :: map PBar (pk_output q));
          ("output/tArray.csv", PText "ti,Dim,Marked,Birth,Death,Simplex" :: map unpaired (concat (listed atof srt k args c)))]%string)
  end.
Proof.
  intros dist atoi atof srt past_end al_reduce one stod file k header args p c Hc Hk.
  assert (H := one_pipe dist atoi atof srt past_end al_reduce one stod file k args p c header Hc Hk).
  destruct (bind _ _) as [q|]; [|exact H]. eexists. split; [exact H|]. split; intros D.
  - now rewrite (debug_is_off _ _ D).
  - now rewrite (debug_is_on _ _ D).
Qed.
Print Assumptions C116_files_of_the_pair_pipes.

(* The file of boundaryPipe: where its run is defined it holds the header only. *)
Theorem C116_file_of_the_boundary_pipe :
  forall dist atoi atof srt past_end al_reduce one stod file args p,
  match (do p' <- all_pipes dist atoi atof srt past_end al_reduce one stod file UB KBoundary args p; add_stats KBoundary p') with
  | UB => table_and_output atoi atof srt UB KBoundary args p = UB
  | Ok q => exists fs, table_and_output atoi atof srt UB KBoundary args p = Ok (q, fs) /\
      (debug_off atoi args -> fs = []) /\
      (debug_on atoi args -> fs = [("output/Boundary_bettis_output.csv", [PText "Dim,Birth,Death"])]%string) /\
      atoi (opt args "dimensions") = 0%Z
  end.
Proof.
  intros dist atoi atof srt past_end al_reduce one stod file args p.
  assert (H := boundary_files dist atoi atof srt past_end al_reduce one stod file args p). rewrite H. cbn [all_pipes].
  unfold run_boundary. rewrite GaussRuns.bd_run_spec.
  destruct (foldr_ub _ p (pk_weights p)) as [p1|]; [|reflexivity]. cbn [bind]. destruct (Z.eqb_spec (atoi (opt args "dimensions")) 0) as [Z0|]; [|reflexivity].
  cbn [bind]. destruct (add_stats KBoundary _) as [q|]; [|reflexivity]. cbn [bind]. eexists. split; [reflexivity|]. split; [|split; auto]; intros D.
  - now rewrite (debug_is_off _ _ D).
  - now rewrite (debug_is_on _ _ D).
Qed.
Print Assumptions C116_file_of_the_boundary_pipe.

(* Whatever the pipeline, the options and the data: in no run that ends does a table record a pairing, nor does boundaryPipe write a bar; and without
   debug output there is no file. *)
Theorem C116_no_run_writes_a_pairing :
  forall dist atoi atof srt past_end nc0 al_reduce one stod file args data q fs pf failed,
  run_program_tables dist atoi atof srt past_end nc0 al_reduce one stod file UB args data = Ok (Some (q, fs, pf, failed)) ->
  (debug_off atoi args -> fs = [] /\ pf = []) /\
  (forall f, In f pf -> pair_file (opt args "fn") f) /\
  (forall rows ti dim marked birth death s, In ("output/tArray.csv"%string, rows) pf -> In (PEntry ti dim marked birth death s) rows ->
     ti = (-1)%Z /\ death = (-1)%Z /\ marked = true /\ dim = length s - 1).
Proof.
  intros dist atoi atof srt past_end nc0 al_reduce one stod file args data q fs pf failed H.
  destruct (program_files _ _ _ _ _ _ _ _ _ _ _ _ _ _ _ _ H) as [G1 G2]. split; [|split; [exact G2|]].
  - intros D. apply G1. now apply debug_is_off.
  - intros rows ti dim marked birth death s Hf Hr. assert (F := G2 _ Hf). inversion F as [k header bars K E1|l E1|E1]; subst.
    destruct Hr as [Q|Hr]; [discriminate|]. apply in_map_iff in Hr. destruct Hr as (x & Q & _). unfold unpaired in Q.
    injection Q as <- <- <- <- <- <-. auto.
Qed.
Print Assumptions C116_no_run_writes_a_pairing.

(* Without debug output this is the run of the program. *)
Theorem C116_without_output_the_run_is_the_same :
  forall dist atoi atof srt past_end nc0 al_reduce one stod file args data, debug_off atoi args ->
  match run_program dist atoi atof srt past_end nc0 al_reduce (all_pipes dist atoi atof srt past_end al_reduce one stod file UB) args data with
  | UB => run_program_tables dist atoi atof srt past_end nc0 al_reduce one stod file UB args data = UB
  | Ok None => run_program_tables dist atoi atof srt past_end nc0 al_reduce one stod file UB args data = Ok None
  | Ok (Some (q, failed)) => run_program_tables dist atoi atof srt past_end nc0 al_reduce one stod file UB args data = Ok (Some (q, [], [], failed))
  end.
Proof.
  intros dist atoi atof srt past_end nc0 al_reduce one stod file args data D. rewrite quiet_program by now apply debug_is_off.
  now destruct (run_program _ _ _ _ _ _ _ _ _ _) as [[[q failed]|]|].
Qed.
Print Assumptions C116_without_output_the_run_is_the_same.

(* A whole run with debug output of distMatrix.neighGraph.rips.persistence on a simplexArrayList or a simplexTree: undefined if
   two points are close; otherwise the table has one row for each point, and the bars are those of the run. *)
Theorem C116_files_of_a_pipeline :
  forall dist atoi atof srt past_end nc0 al_reduce one stod file args c d e data,
  is_sort srt -> (forall x y, (0 <= dist x y)%Z) -> (0 < atoi d < 2 ^ 31 - 1)%Z -> (forall x, In x data -> x <> []) -> data <> [] ->
  mget args "pipeline" = Some "distMatrix.neighGraph.rips.persistence"%string -> mget args "complexType" = Some (cx_name c) ->
  mget args "dimensions" = Some d -> mget args "epsilon" = Some e -> mget args "twist" <> None ->
  (exists z, mget args "collapse" = Some z /\ z <> "true"%string /\ z <> "1"%string) -> debug_on atoi args ->
  let program := run_program_tables dist atoi atof srt past_end nc0 al_reduce one stod file UB args data in
  let two_close := exists u v, u < v /\ v < length data /\ close c (atof e) (separation dist data u v) in
  (two_close -> program = UB) /\
  (~ two_close -> exists q fs rows, program = Ok (Some (q, fs,
     [("output/PersistencePairs_bettis_output" ++ opt args "fn" ++ ".csv", PText "dim,birth,death" :: map PBar (pk_output q));
      ("output/tArray.csv", PText "ti,Dim,Marked,Birth,Death,Simplex" :: rows)]%string, [])) /\
     pk_output q = (if (1 <? atoi d)%Z then repeat (0, 0%Z, atof e) (length data) else []) /\
     Permutation rows (map (fun v => PEntry (-1) 0 true 0 (-1) [v]) (seq 0 (length data))) /\
     firstn 2 (map fst fs) = ["output/DistMatrix_output.csv"; "output/neighGraph_output.csv"]%string).
Proof.
  intros dist atoi atof srt past_end nc0 al_reduce one stod file args c d e data Hs Hpos Hd Hrow Hne H1 H2 H3 H4 H5 H6 D.
  apply debug_is_on in D. exact (line_run dist atoi atof srt past_end al_reduce one stod file nc0 args c d e data Hs Hpos Hd Hrow Hne H1 H2 H3 H4 H5 H6 D).
Qed.
Print Assumptions C116_files_of_a_pipeline.

(* Points too far apart to be joined, from the command line. *)
Definition table_argv (pipeline debug : string) : list string := ["-c"; "simplexTree"; "-d"; "2"; "-e"; "5"; "-p"; pipeline; "-x"; debug]%string.
Definition table_files (pipeline debug : string) (data : list (list Z)) : res (list (nat * Z * Z) * list (string * nat) * list (string * list pair_row)) :=
  do m <- parse (table_argv pipeline debug);
  do r <- run_program_tables line_dist digit digit wsort libstdcxx_past_end 0 (fun g => Ok g) 1 (fun _ => None) (fun _ => None) UB (setPipeline m) data;
  match r with
  | Some (p, fs, pf, _) => Ok (pk_output p, map (fun f => (fst f, length (snd f))) fs, pf)
  | None => UB
  end.
Example C116_ex :
  is_sort wsort /\ (forall x y, (0 <= line_dist x y)%Z) /\
  (exists m, parse (table_argv "distMatrix.neighGraph.rips.persistence" "1") = Ok m /\ let args := setPipeline m in
     mget args "pipeline" = Some "distMatrix.neighGraph.rips.persistence"%string /\ mget args "complexType" = Some (cx_name Tree) /\
     mget args "dimensions" = Some "2"%string /\ mget args "epsilon" = Some "5"%string /\ mget args "twist" <> None /\
     (exists z, mget args "collapse" = Some z /\ z <> "true"%string /\ z <> "1"%string) /\ debug_on digit args) /\
  table_files "distMatrix.neighGraph.rips.persistence" "1" [[0]; [9]]%Z =
    Ok ([(0, 0%Z, 5%Z); (0, 0%Z, 5%Z)],
        [("output/DistMatrix_output.csv", 2); ("output/neighGraph_output.csv", 3)]%string,
        [("output/PersistencePairs_bettis_output.csv", [PText "dim,birth,death"; PBar (0, 0%Z, 5%Z); PBar (0, 0%Z, 5%Z)]);
         ("output/tArray.csv", [PText "ti,Dim,Marked,Birth,Death,Simplex"; PEntry (-1) 0 true 0 (-1) [0]; PEntry (-1) 0 true 0 (-1) [1]])]%string) /\
  table_files "distMatrix.neighGraph.rips.persistence" "0" [[0]; [9]]%Z = Ok ([(0, 0%Z, 5%Z); (0, 0%Z, 5%Z)], [], []) /\
  table_files "distMatrix.neighGraph.rips.persistence" "1" [[0]; [1]]%Z = UB.
Proof.
  split; [exact wsort_is_sort|]. split; [intros; apply Z.abs_nonneg|]. split; [|repeat split; vm_compute; reflexivity].
  eexists. split; [vm_compute; reflexivity|]. repeat split; try discriminate; try (vm_compute; reflexivity).
  - exists "false"%string. split; [vm_compute; reflexivity|]. split; discriminate.
  - exists "1"%string. split; [vm_compute; reflexivity|]. discriminate.
Qed.
