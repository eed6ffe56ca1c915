(* PropertiesReducedStats.v -- C117: the statistics of a run in the mode reduced. *)
From Coq Require Import String Ascii List Arith ZArith Bool Lia.
From Verif Require Import Base UtilsModel ArrayListModel TreeModel FastModel ArgModel IoModel PipeModel MainModel AllModel.
From Verif Require Import Spec SpecIo SpecComplex SpecArgs SpecPipe SpecStats SpecMain SpecReducedStats.
From Verif Require Import ReducedStats PropertiesComplex PropertiesPipe PropertiesMain PropertiesLink.
Import ListNotations.
Local Open Scope nat_scope.
Local Open Scope list_scope.

(* ---------------------------------------------------------------- C117 *)
(* Whatever the pipeline, short of the two stream pipes: nothing empties the statistics between two groups.  They end as
   what the preprocessor left, followed by one block for each non-empty group and one for the centroids, in this order;
   each block has one line for each pipe that runs.  There are as many barcode files written as there are blocks. *)
Theorem C117_every_group_adds_its_lines :
  forall dist atoi atof srt past_end al_reduce one stod file pre_run pre_stats uaf args P parts ks,
  mget args "pipeline" = Some P -> components_of P parts -> running args parts ks ->
  (forall c, In c parts -> ~ In c stream_names) ->
  forall p p1 r it pt q files, preprocess packet pre_run pre_stats args p = Ok p1 ->
  computeMaxRadius dist (pk_data p1) (pk_full p1) (pk_labels p1) = Ok r ->
  separatePartitionsRad dist (2 * r) (pk_data p1) (pk_full p1) (pk_labels p1) = Ok (it, pt) ->
  let groups := filter non_empty (pt ++ [pk_data p1]) in
  processReducedWrapper dist atoi atof srt past_end al_reduce
    (all_pipes dist atoi atof srt past_end al_reduce one stod file UB) pre_run pre_stats uaf args p = Ok (q, files) ->
  exists blocks, pk_stats q = pk_stats p1 ++ concat blocks /\ length blocks = length groups /\
    (forall b, In b blocks -> map (fun line => fst (fst line)) b = ks) /\
    (forall o, mget args "outputFile" = Some o -> o <> "console"%string -> length files = length blocks).
Proof.
  intros dist atoi atof srt past_end al_reduce one stod file pre_run pre_stats uaf args P parts ks HP HC HR HN p p1 r it pt q files E1 E2 E3 groups H.
  destruct (reduced_blocks dist atoi atof srt past_end al_reduce one stod file pre_run pre_stats uaf args P parts ks HP HC HR HN p p1 r it pt q files E1 E2 E3 H) as (bs & B1 & B2 & B3).
  exists bs. split; [exact B1|]. split; [clear - B2; induction B2; cbn; auto|]. split.
  - clear - B2. induction B2; intros b []; subst; auto.
  - intros o Ho N. apply B3. unfold writes_output. rewrite HP, Ho. now rewrite (proj2 (String.eqb_neq o "console") N).
Qed.
Print Assumptions C117_every_group_adds_its_lines.

(* Every pipeline has such a list of running pipes. *)
Theorem C117_the_running_pipes_exist : forall args parts, exists ks, running args parts ks.
Proof. exact running_total. Qed.
Print Assumptions C117_the_running_pipes_exist.

(* From the command line, with a preprocessor that writes no line of its own: the statistics are the blocks alone. *)
Theorem C117_from_the_command_line :
  forall dist atoi atof srt past_end nc0 al_reduce one stod file pre_run pre_stats uaf argv m P parts ks q files,
  (forall k a p p1, pre_run k a p = Ok p1 -> pk_stats p1 = pk_stats p) -> (forall k p p1, pre_stats k p = Ok p1 -> pk_stats p1 = pk_stats p) ->
  parse argv = Ok m -> let args := setPipeline m in
  mget args "mode" = Some "reduced"%string -> mget args "pipeline" = Some P -> components_of P parts -> running args parts ks ->
  (forall c, In c parts -> ~ In c stream_names) ->
  lhf_all dist atoi atof srt past_end nc0 al_reduce one stod file UB pre_run pre_stats uaf argv = Ok (Ran q files) ->
  exists blocks, pk_stats q = concat blocks /\ (forall b, In b blocks -> map (fun line => fst (fst line)) b = ks) /\
    (forall o, mget args "outputFile" = Some o -> o <> "console"%string -> length files = length blocks).
Proof.
  intros dist atoi atof srt past_end nc0 al_reduce one stod file pre_run pre_stats uaf argv m P parts ks q files Kr Ks Pm args Hm HP HC HR HN H.
  destruct (line_blocks dist atoi atof srt past_end nc0 al_reduce one stod file pre_run pre_stats uaf Kr Ks argv m P parts ks q files Pm Hm HP HC HR HN H) as (bs & B1 & B2 & B3).
  exists bs. split; [exact B1|]. split; [exact B2|]. intros o Ho N. apply B3. unfold writes_output. fold args. rewrite HP, Ho.
  now rewrite (proj2 (String.eqb_neq o "console") N).
Qed.
Print Assumptions C117_from_the_command_line.

(* With the default pipeline on a simplexArrayList each block is about its own group alone: no vertices before the group
   is inserted, then the group's points, and its Rips simplices up to the three stages.  The counts of the groups before do
   not leak into it. *)
Theorem C117_lines_on_array_lists :
  forall dist atoi atof srt past_end al_reduce other pre_run pre_stats uaf args d e,
  is_sort srt -> default_run args ArrayList d e -> (forall x y, (0 <= dist x y)%Z) -> (0 < atoi d < 2 ^ 31 - 1)%Z ->
  forall p p1 r it pt q files, preprocess packet pre_run pre_stats args p = Ok p1 ->
  pk_complex p1 = Some (CArray (atof e) (atoi d) [] []) -> pk_weights p1 = [] ->
  (forall x, In x (pk_data p1) \/ In x (pk_full p1) -> x <> []) ->
  computeMaxRadius dist (pk_data p1) (pk_full p1) (pk_labels p1) = Ok r ->
  separatePartitionsRad dist (2 * r) (pk_data p1) (pk_full p1) (pk_labels p1) = Ok (it, pt) ->
  let groups := filter non_empty (pt ++ [pk_data p1]) in
  processReducedWrapper dist atoi atof srt past_end al_reduce other pre_run pre_stats uaf args p = Ok (q, files) ->
  exists blocks, pk_stats q = pk_stats p1 ++ concat blocks /\
    Forall2 (lines_about dist (atof e) (Z.to_nat (atoi d))) groups blocks.
Proof.
  intros dist atoi atof srt past_end al_reduce other pre_run pre_stats uaf args d e Hs Hr Hpos Hd p p1 r it pt q files E1 Ec Ew Hrow E2 E3 groups H.
  exact (array_lines_groups dist atoi atof srt past_end al_reduce other pre_run pre_stats uaf args d e Hs Hr Hpos Hd p p1 r it pt q files E1 Ec Ew Hrow E2 E3 H).
Qed.
Print Assumptions C117_lines_on_array_lists.

(* Five points, two centroids; the point 50 has no label.  The second pipeline has a component nobody knows. *)
Definition stats_words (P : string) : list string :=
  ["-i"; "pts"; "-m"; "reduced"; "-p"; P; "-pre"; "kmeans"; "-c"; "simplexArrayList"; "-e"; "11"; "-o"; "res"]%string.
Definition two_centroids (_ : pre_kind) (_ : amap) (p : packet) : res packet :=
  Ok (mkPacket [[1]; [11]]%Z [0; 0; 1; 1] (pk_full p) (pk_weights p) (pk_complex p) (pk_output p) (pk_table p) (pk_stats p)).
Definition stats_program (P : string) : res outcome :=
  lhf_all near_dist number number wsort libstdcxx_past_end 0 (fun g => Ok g) 1 decimal (the_file five) UB two_centroids (fun _ p => Ok p) (Ok tt) (stats_words P).
Definition odd_pipeline : string := "distMatrix.nonsense.neighGraph.rips.fast".
Example C117_ex :
  is_sort wsort /\ (forall x y, (0 <= near_dist x y)%Z) /\ (0 < number "1" < 2 ^ 31 - 1)%Z /\
  (exists m, parse (stats_words default_pipeline) = Ok m /\ default_run (setPipeline m) ArrayList "1" "11") /\
  (exists m, parse (stats_words odd_pipeline) = Ok m /\ let args := setPipeline m in
     mget args "mode" = Some "reduced"%string /\ mget args "pipeline" = Some odd_pipeline /\ mget args "outputFile" = Some "res"%string /\
     components_of odd_pipeline ["distMatrix"; "nonsense"; "neighGraph"; "rips"; "fast"]%string /\
     running args ["distMatrix"; "nonsense"; "neighGraph"; "rips"; "fast"]%string [KDistMatrix; KNeighGraph; KRips; KFastPersistence]) /\
  (exists q files, stats_program default_pipeline = Ok (Ran q files) /\ length files = 3 /\
     pk_stats q = [(KDistMatrix, 0, 0); (KNeighGraph, 2, 3); (KRips, 2, 3); (KFastPersistence, 2, 3);
                   (KDistMatrix, 0, 0); (KNeighGraph, 2, 3); (KRips, 2, 3); (KFastPersistence, 2, 3);
                   (KDistMatrix, 0, 0); (KNeighGraph, 2, 3); (KRips, 2, 3); (KFastPersistence, 2, 3)]%Z) /\
  (exists q files, stats_program odd_pipeline = Ok (Ran q files) /\ length files = 3 /\ length (pk_stats q) = 12).
Proof.
  split; [apply wsort_is_sort|]. split; [intros; unfold near_dist, line_dist; lia|]. split; [vm_compute; split; reflexivity|].
  split. { eexists. split; [vm_compute; reflexivity|]. constructor; try (vm_compute; (reflexivity || discriminate)).
    eexists. split; [vm_compute; reflexivity|]. split; discriminate. }
  split. { eexists. split; [vm_compute; reflexivity|]. cbv zeta. split; [vm_compute; reflexivity|]. split; [vm_compute; reflexivity|]. split; [vm_compute; reflexivity|].
    split; [split; [discriminate|split; [repeat constructor; discriminate|reflexivity]]|].
    apply running_pipe. { apply starts_new. split; [vm_compute; reflexivity|]. intros o Io. cbn in Io. repeat (destruct Io as [<-|Io]; [vm_compute; discriminate|]). destruct Io. }
    apply running_skip. { intros k S. apply starts_new in S as (S & _). vm_compute in S. discriminate. }
    repeat (apply running_pipe; [apply starts_new; split; [vm_compute; reflexivity|]; intros o Io; cbn in Io; repeat (destruct Io as [<-|Io]; [vm_compute; discriminate|]); destruct Io|]).
    apply running_nil. }
  split; do 2 eexists; (split; [vm_compute; reflexivity|]); (split; [reflexivity|]); reflexivity.
Qed.
