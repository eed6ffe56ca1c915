(* PropertiesReducedArray.v -- C115: the reduced mode on a simplexArrayList and on an indSimplexTree. *)
From Coq Require Import String Ascii List Arith ZArith Bool Lia.
From Verif Require Import Base UtilsModel ArrayListModel TreeModel FastModel IndModel ArgModel IoModel PipeModel KmeansModel MainModel LinkModel.
From Verif Require Import Spec SpecIo SpecKmeans SpecComplex SpecArgs SpecGraph SpecFast SpecPipe SpecIndRun SpecMain SpecLink SpecReducedLine.
From Verif Require Import MainProofs MainRuns ReducedArray ReducedLine PropertiesComplex PropertiesPipe PropertiesMain PropertiesLink.
Import ListNotations.
Local Open Scope nat_scope.
Local Open Scope list_scope.

(* ---------------------------------------------------------------- C115 *)
(* On a simplexArrayList the complex is really emptied between two groups.  So in every group, not only in the first
   (C73), the bars of dimension 0 are the single-linkage heights of that group's points. *)
Theorem C115_reduced_mode_on_array_lists :
  forall dist atoi atof srt past_end al_reduce other pre_run pre_stats uaf args d e,
  is_sort srt -> default_run args ArrayList d e -> (forall x y, (0 <= dist x y)%Z) -> (0 < atoi d < 2 ^ 31 - 1)%Z ->
  forall p p1 r it pt, preprocess packet pre_run pre_stats args p = Ok p1 ->
  pk_complex p1 = Some (CArray (atof e) (atoi d) [] []) -> pk_weights p1 = [] -> pk_table p1 = [] ->
  (forall x, In x (pk_data p1) \/ In x (pk_full p1) -> x <> []) ->
  computeMaxRadius dist (pk_data p1) (pk_full p1) (pk_labels p1) = Ok r ->
  separatePartitionsRad dist (2 * r) (pk_data p1) (pk_full p1) (pk_labels p1) = Ok (it, pt) ->
  let groups := filter non_empty (pt ++ [pk_data p1]) in
  let program := processReducedWrapper dist atoi atof srt past_end al_reduce other pre_run pre_stats uaf args p in
  (forall q files, program = Ok (q, files) ->
     exists outs, files = match mget args "outputFile" with
                          | Some o => if String.eqb o "console" then [] else map (fun out => ((o ++ ".csv")%string, out)) outs
                          | None => []
                          end /\
       Forall2 (fun g out => exists deaths, dim0 out = map (fun w => (0, 0%Z, w)) deaths ++ [(0, 0%Z, atof e)] /\
                  forall t n, clusters dist g ArrayList (atof e) t n <-> count_le t deaths + n = length g) groups outs /\
       (pk_data p1 <> [] -> exists outs', outs = outs' ++ [pk_output q])) /\
  ((exists g, In g groups /\ ~ exists u v, u < v /\ v < length g /\ close ArrayList (atof e) (separation dist g u v)) -> program = UB) /\
  (atoi d = 1%Z ->
   (forall g, In g groups -> exists u v, u < v /\ v < length g /\ close ArrayList (atof e) (separation dist g u v)) ->
   (forall gs1 g gs2, filter non_empty pt = gs1 ++ g :: gs2 -> forall h, In h gs2 -> length g <= length h) ->
   exists q files, program = Ok (q, files)).
Proof.
  intros dist atoi atof srt past_end al_reduce other pre_run pre_stats uaf args d e Hs Hr Hpos Hd p p1 r it pt Pr Ec Ew Et Hrow Er Es groups program.
  destruct (array_groups dist atoi atof srt past_end al_reduce other pre_run pre_stats uaf args d e Hs Hr Hpos Hd p p1 r it pt Pr Ec Ew Et Hrow Er Es) as [A B].
  fold program in A, B. split; [|split; [|exact B]].
  - intros q files H. destruct (A q files H) as (outs & O1 & O2 & O3 & _). exists outs. split; [|split; [exact O2|exact O3]].
    rewrite O1. unfold names, writes_output, opt. rewrite (dr_pipeline _ _ _ _ Hr). destruct (mget args "outputFile") as [o|]; [|reflexivity].
    now destruct (String.eqb o "console").
  - intros (g & Hg & Hn). destruct program as [[q files]|]; [|reflexivity]. exfalso. destruct (A q files eq_refl) as (_ & _ & _ & _ & O). exact (Hn (O g Hg)).
Qed.
Print Assumptions C115_reduced_mode_on_array_lists.

(* An indSimplexTree is not emptied: the points of the second group are inserted behind those of the first, and the
   program reads beyond the second group's distances.  Two non-empty groups make the run undefined. *)
Theorem C115_reduced_mode_on_indexed_trees :
  forall dist atoi atof srt past_end nc0 al_reduce other pre_run pre_stats uaf args d e collapse,
  ind_options args d e collapse ->
  forall p p1 r it pt, preprocess packet pre_run pre_stats args p = Ok p1 ->
  pk_complex p1 = Some (CInd (atof e) (atoi d) (ind_new [] nc0)) -> pk_weights p1 = [] ->
  (forall x, In x (pk_data p1) \/ In x (pk_full p1) -> x <> []) ->
  computeMaxRadius dist (pk_data p1) (pk_full p1) (pk_labels p1) = Ok r ->
  separatePartitionsRad dist (2 * r) (pk_data p1) (pk_full p1) (pk_labels p1) = Ok (it, pt) ->
  2 <= length (filter non_empty (pt ++ [pk_data p1])) ->
  processReducedWrapper dist atoi atof srt past_end al_reduce other pre_run pre_stats uaf args p = UB.
Proof.
  intros dist atoi atof srt past_end nc0 al_reduce other pre_run pre_stats uaf args d e col Hr p p1 r it pt Pr Ec Ew Hrow Er Es L.
  destruct (filter non_empty (pt ++ [pk_data p1])) as [|g [|h gs]] eqn:Eg; try (cbn in L; lia).
  exact (ind_groups dist atoi atof srt past_end al_reduce other pre_run pre_stats uaf args d e col Hr p p1 nc0 r it pt g h gs Pr Ec Ew Hrow Er Es Eg).
Qed.
Print Assumptions C115_reduced_mode_on_indexed_trees.

(* From the command line, with k-means++: the pipeline is named, so the mode reduced does not choose the complex.  The
   groups and the texts are those of C85; now the bars of every group are its single-linkage heights. *)
Theorem C115_named_pipeline_on_array_lists :
  forall dist maxn quo nanz atoi atof index picks pre_other srt past_end nc0 al_reduce other uaf stod file argv pre kk rr d e f o data dim,
  is_sort srt -> (forall x y, (0 <= dist x y)%Z) -> (0 < atoi d < 2 ^ 31 - 1)%Z ->
  named_reduced_line argv pre "simplexArrayList" d e f o -> names_kmeans pre -> value argv "clusters" kk -> value argv "iterations" rr ->
  holds_points stod file f data -> kmeans_setting dist maxn index picks (atoi kk) (atoi rr) dim data ->
  let program := lhf_linked dist maxn quo nanz atoi atof index picks pre_other srt past_end nc0 al_reduce other uaf stod file argv in
  (fewer_than (Z.to_nat (atoi kk)) data -> program = UB) /\
  (~ fewer_than (Z.to_nat (atoi kk)) data -> exists cents labels,
     kmeans_run dist maxn quo (atoi kk) (atoi rr) index picks data = Ok (cents, labels) /\ let centroids := map (stored nanz) cents in
     clustering dist quo (repeat nanz dim) (Z.to_nat (atoi kk)) dim data labels centroids /\
     (all_used (Z.to_nat (atoi kk)) labels -> forall r, program = Ok r ->
        exists q radius groups outs outs',
          r = Ran q (if String.eqb o "console" then [] else map (fun out => ((o ++ ".csv")%string, out)) outs) /\
          farthest dist data labels centroids radius /\
          length groups = Z.to_nat (atoi kk) /\
          (forall j c g, nth_error centroids j = Some c -> nth_error groups j = Some g ->
             forall x, In x g <-> In x (removelast data) /\ (dist x c < 2 * radius)%Z) /\
          Forall2 (fun g out => exists deaths, dim0 out = map (fun w => (0, 0%Z, w)) deaths ++ [(0, 0%Z, atof e)] /\
                     forall t n, clusters dist g ArrayList (atof e) t n <-> count_le t deaths + n = length g)
                  (filter non_empty (groups ++ [centroids])) outs /\
          outs = outs' ++ [pk_output q])).
Proof. intros. unfold program. eapply named_array; eauto. Qed.
Print Assumptions C115_named_pipeline_on_array_lists.

(* On an indSimplexTree the program is undefined as soon as one point but the last lies off the centroid of its cluster. *)
Theorem C115_named_pipeline_on_indexed_trees :
  forall dist maxn quo nanz atoi atof index picks pre_other srt past_end nc0 al_reduce other uaf stod file argv pre kk rr d e f o data dim cents labels,
  named_reduced_line argv pre "indSimplexTree" d e f o -> names_kmeans pre -> value argv "clusters" kk -> value argv "iterations" rr ->
  holds_points stod file f data -> kmeans_setting dist maxn index picks (atoi kk) (atoi rr) dim data ->
  kmeans_run dist maxn quo (atoi kk) (atoi rr) index picks data = Ok (cents, labels) ->
  (exists i l x c, nth_error labels i = Some l /\ nth_error data i = Some x /\ nth_error (map (stored nanz) cents) l = Some c /\ (0 < dist x c)%Z) ->
  lhf_linked dist maxn quo nanz atoi atof index picks pre_other srt past_end nc0 al_reduce other uaf stod file argv = UB.
Proof.
  intros dist maxn quo nanz atoi atof index picks pre_other srt past_end nc0 al_reduce other uaf stod file argv pre kk rr d e f o data dim cents labels
    H1 H2 H3 H4 H5 H6 H7 (i & l & x & c & K1 & K2 & K3 & K4). eapply named_indexed; eauto.
Qed.
Print Assumptions C115_named_pipeline_on_indexed_trees.

Definition on_complex (c : string) : list string :=
  ["-i"; "pts"; "-m"; "reduced"; "-p"; "distMatrix.neighGraph.rips.fastPersistence"; "-pre"; "kmeans"; "-c"; c; "-k"; "2"; "-e"; "11"; "-o"; "res"]%string.
Ltac complex_line := constructor; try line_value;
  [even_line|exists "0"%string; split; [line_value|discriminate]|exists "false"%string; split; [line_value|discriminate]
  |exists "false"%string; split; [line_value|split; discriminate]].
Example C115_ex :
  is_sort wsort /\ (forall x y, (0 <= near_dist x y)%Z) /\ (0 < number "1" < 2 ^ 31 - 1)%Z /\
  named_reduced_line (on_complex "simplexArrayList") "kmeans" "simplexArrayList" "1" "11" "pts" "res" /\
  named_reduced_line (on_complex "indSimplexTree") "kmeans" "indSimplexTree" "1" "11" "pts" "res" /\ names_kmeans "kmeans" /\
  value (on_complex "simplexArrayList") "clusters" "2" /\ value (on_complex "simplexArrayList") "iterations" "250" /\
  value (on_complex "indSimplexTree") "clusters" "2" /\ value (on_complex "indSimplexTree") "iterations" "250" /\
  (exists m, parse (on_complex "simplexArrayList") = Ok m /\ default_run (setPipeline m) ArrayList "1" "11") /\
  (exists m, parse (on_complex "indSimplexTree") = Ok m /\ ind_options (setPipeline m) "1" "11" false) /\
  computeMaxRadius near_dist [[1]; [11]]%Z [[0]; [2]; [10]; [12]; [50]]%Z [0; 0; 1; 1] = Ok 1%Z /\
  separatePartitionsRad near_dist 2 [[1]; [11]]%Z [[0]; [2]; [10]; [12]; [50]]%Z [0; 0; 1; 1] = Ok ([[0; 1]; [2; 3]], [[[0]; [2]]; [[10]; [12]]]%Z) /\
  bars (linked 0 [(2, fun _ => true)] five (on_complex "simplexArrayList")) =
    Some (map (fun out => ("res.csv"%string, out)) [[(0, 0%Z, 2%Z); (0, 0%Z, 11%Z)]; [(0, 0%Z, 2%Z); (0, 0%Z, 11%Z)]; [(0, 0%Z, 10%Z); (0, 0%Z, 11%Z)]]) /\
  linked 0 [(2, fun _ => true)] five (on_complex "indSimplexTree") = UB.
Proof.
  split; [apply wsort_is_sort|]. split; [intros; unfold near_dist, line_dist; lia|]. split; [vm_compute; split; reflexivity|].
  split; [complex_line|]. split; [complex_line|]. split; [unfold names_kmeans, pre_names; cbn; auto|].
  split; [line_value|]. split; [line_value|]. split; [line_value|]. split; [line_value|].
  split. { eexists. split; [vm_compute; reflexivity|]. constructor; try (vm_compute; (reflexivity || discriminate)).
    eexists. split; [vm_compute; reflexivity|]. split; discriminate. }
  split. { eexists. split; [vm_compute; reflexivity|]. constructor; try (vm_compute; (reflexivity || discriminate)).
    eexists. split; [vm_compute; reflexivity|]. split; discriminate. }
  split; [reflexivity|]. split; [reflexivity|]. split; vm_compute; reflexivity.
Qed.
