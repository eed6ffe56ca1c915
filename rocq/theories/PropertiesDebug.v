(* PropertiesDebug.v -- property theorems about the debug output of the pipes. *)
From Coq Require Import String List Arith ZArith Bool Lia Sorted Permutation.
From Verif Require Import Base Spec ArgModel SpecArgs ArrayListModel TreeModel FastModel IndModel PipeModel WindowModel DebugModel
  SpecComplex SpecTree SpecGraph SpecFast SpecPipe SpecIndRun SpecDebug PipeRuns IndRuns DebugRuns PropertiesComplex PropertiesPipe.
Import ListNotations.
Local Open Scope nat_scope.
Local Open Scope list_scope.

Lemma debug_is_on atoi args : debug_on atoi args -> debugging atoi args = true.
Proof. intros (v & E & N). unfold debugging. rewrite E. now apply negb_true_iff, Z.eqb_neq. Qed.
Lemma debug_is_off atoi args : debug_off atoi args -> debugging atoi args = false.
Proof. intros H. unfold debugging. destruct (mget args "debug") as [v|] eqn:E; [|reflexivity]. rewrite (H v E). reflexivity. Qed.

(* ---------------------------------------------------------------- C83 *)
(* Debug output does not change what a run computes, unless an indSimplexTree is collapsed: with the option set or not,
   the packet at the end is the one of the run without output.  Without the option no file is written. *)
Theorem C83_debug_output_keeps_the_result :
  forall dist atoi atof srt past_end nc0 al_reduce other other_output args args' d e data,
  default_options args d e -> same_but_debug args args' ->
  (opt args "complexType" = "indSimplexTree"%string -> collapsing args = false) ->
  match run_program dist atoi atof srt past_end nc0 al_reduce other args data with
  | UB => run_program_files dist atoi atof srt past_end nc0 al_reduce other other_output args' data = UB
  | Ok None => False
  | Ok (Some (p, failed)) => exists fs,
      run_program_files dist atoi atof srt past_end nc0 al_reduce other other_output args' data = Ok (Some (p, fs, failed)) /\
      (debug_off atoi args' -> fs = [])
  end.
Proof.
  intros dist atoi atof srt past_end nc0 al_reduce other other_output args args' d e data Ho Sd Hc.
  rewrite <- (plain_ignores_debug dist atoi atof srt past_end nc0 al_reduce other args args' d e data Ho Sd).
  assert (Q : forall o, o <> "debug"%string -> mget args' o = mget args o) by exact Sd.
  assert (Ho' : default_options args' d e) by (destruct Ho as [H1 H2 H3 H4]; constructor; rewrite Q; auto; discriminate).
  assert (Hc' : opt args' "complexType" = "indSimplexTree"%string -> collapsing args' = false) by (unfold collapsing, opt in *; rewrite !Q by discriminate; exact Hc).
  assert (G := debug_same dist atoi atof srt past_end nc0 al_reduce other other_output args' d e data Ho' Hc').
  destruct (run_program _ _ _ _ _ _ _ _ args' data) as [[[p failed]|]|]; auto.
  destruct G as (fs & G1 & G2). exists fs. split; [exact G1|]. intros Off. apply G2, debug_is_off, Off.
Qed.
Print Assumptions C83_debug_output_keeps_the_result.

(* The files of a run without collapse.  The matrix is upper triangular.  neighGraph writes the pairs of close points of a
   simplexArrayList, but of a simplexTree the whole complex; rips writes the complex of a simplexArrayList, up to the
   dimension of the option and not one further; the bars are those the run returns; tArray.csv holds its header only. *)
Theorem C83_files_written :
  forall dist atoi atof srt past_end nc0 al_reduce other other_output args c d e data,
  is_sort srt -> default_run args c d e -> (forall x, In x data -> x <> []) -> (forall x y, (0 <= dist x y)%Z) ->
  (0 < atoi d < 2 ^ 31 - 1)%Z ->
  forall p failed, debug_on atoi args ->
  run_program dist atoi atof srt past_end nc0 al_reduce other args data = Ok (Some (p, failed)) ->
  exists fs, run_program_files dist atoi atof srt past_end nc0 al_reduce other other_output args data = Ok (Some (p, fs, failed)) /\
    (exists dm, content fs "output/DistMatrix_output.csv" = Some (map RNumbers dm) /\ length dm = length data /\
       (forall u, u < length data -> length (nth u dm []) = length data) /\
       (forall u v, u < length data -> v < length data -> nth v (nth u dm []) 0%Z = if u <? v then separation dist data u v else 0%Z)) /\
    (exists rows, content fs "output/neighGraph_output.csv" = Some (rows ++ [RText ""]) /\
       lists_simplices rows (match c with
                             | Tree => rips_between dist data c (atof e) 1 (S (Z.to_nat (atoi d)))
                             | ArrayList => rips_between dist data c (atof e) 2 2
                             end)) /\
    match c with
    | Tree => content fs "output/ripsPipe_output.csv" = None
    | ArrayList => exists rows, content fs "output/ripsPipe_output.csv" = Some rows /\
                     lists_simplices rows (rips_between dist data c (atof e) 1 (S (Z.to_nat (atoi d))))
    end /\
    content fs ("output/FastPersistence_bettis_output" ++ opt args "fn" ++ ".csv")%string = Some (map RBar (pk_output p)) /\
    content fs "output/tArray.csv" = Some [RText "ti,Dim,Marked,Birth,Death,Simplex"] /\
    (forall name, content fs name <> None ->
       In name ["output/DistMatrix_output.csv"; "output/neighGraph_output.csv"; "output/ripsPipe_output.csv";
                "output/FastPersistence_bettis_output" ++ opt args "fn" ++ ".csv"; "output/tArray.csv"]%string).
Proof. intros until 5. intros p failed On. apply debug_files; auto. now apply debug_is_on. Qed.
Print Assumptions C83_files_written.

(* On an indSimplexTree debug output undoes collapse: the listing is frozen when neighGraph writes it, so the bars are
   those of the run without collapse. *)
Theorem C83_debug_output_undoes_collapse :
  forall dist atoi atof srt past_end nc0 al_reduce other other_output args args0 d e data,
  ind_options args d e true -> ind_options args0 d e false -> debug_on atoi args ->
  (forall x, In x data -> x <> []) -> (forall x y, (0 <= dist x y)%Z) -> (0 < atoi d < 2 ^ 31 - 1)%Z ->
  match run_program dist atoi atof srt past_end nc0 al_reduce other args0 data with
  | UB => run_program_files dist atoi atof srt past_end nc0 al_reduce other other_output args data = UB
  | Ok None => False
  | Ok (Some (p0, failed)) => exists p fs,
      run_program_files dist atoi atof srt past_end nc0 al_reduce other other_output args data = Ok (Some (p, fs, failed)) /\
      pk_output p = pk_output p0 /\ pk_table p = pk_table p0
  end.
Proof. intros. apply ind_debug with d e; auto. now apply debug_is_on. Qed.
Print Assumptions C83_debug_output_undoes_collapse.

(* A run from the command line: the bars, the counts every pipe reports, and the files. *)
Definition debug_argv (c d collapse debug : string) : list string := ["-c"; c; "-d"; d; "-z"; collapse; "-x"; debug]%string.
Definition debug_bars dist (c d collapse debug : string) (data : list (list Z)) : res (list (nat * Z * Z) * list (Z * Z) * list (string * nat)) :=
  do m <- parse (debug_argv c d collapse debug);
  do r <- run_program_files dist digit digit wsort libstdcxx_past_end 0 (fun g => Ok g) (fun _ _ p => Ok p) (fun _ p fs => Ok (p, fs)) (setPipeline m) data;
  match r with
  | Some (p, fs, _) => Ok (pk_output p, map (fun x => (snd (fst x), snd x)) (pk_stats p), map (fun f => (fst f, length (snd f))) fs)
  | None => Ok ([], [], [])
  end.
Example C83_ex :
  is_sort wsort /\ (forall x y, (0 <= line_dist x y)%Z) /\
  (exists m, parse (debug_argv "simplexArrayList" "1" "false" "1") = Ok m /\ default_run (setPipeline m) ArrayList "1" "5" /\
     default_options (setPipeline m) "1" "5" /\ debug_on digit (setPipeline m) /\
     (opt (setPipeline m) "complexType" = "indSimplexTree"%string -> collapsing (setPipeline m) = false)) /\
  (exists m, parse (debug_argv "indSimplexTree" "2" "true" "1") = Ok m /\ ind_options (setPipeline m) "2" "5" true /\ debug_on digit (setPipeline m)) /\
  debug_bars line_dist "simplexArrayList" "1" "false" "1" [[0]; [1]; [3]; [9]]%Z =
    Ok ([(0, 0%Z, 1%Z); (0, 0%Z, 2%Z); (0, 0%Z, 5%Z)], [(0, 0); (4, 7); (4, 7); (4, 8)]%Z,
        [("output/DistMatrix_output.csv", 4); ("output/neighGraph_output.csv", 4); ("output/ripsPipe_output.csv", 7);
         ("output/FastPersistence_bettis_output.csv", 3); ("output/tArray.csv", 1)]%string) /\
  debug_bars line_dist "simplexArrayList" "1" "false" "0" [[0]; [1]; [3]; [9]]%Z =
    Ok ([(0, 0%Z, 1%Z); (0, 0%Z, 2%Z); (0, 0%Z, 5%Z)], [(0, 0); (4, 7); (4, 7); (4, 8)]%Z, []).
Proof.
  split; [apply wsort_is_sort|]. split; [intros; apply Z.abs_nonneg|]. split; [|split].
  - eexists. split; [vm_compute; reflexivity|]. split; [constructor; try (vm_compute; (reflexivity || discriminate))|].
    { eexists. split; [vm_compute; reflexivity|]. split; discriminate. }
    split; [constructor; vm_compute; (reflexivity || discriminate)|]. split; [|vm_compute; reflexivity].
    eexists. split; [vm_compute; reflexivity|discriminate].
  - eexists. split; [vm_compute; reflexivity|]. split; [constructor; try (vm_compute; (reflexivity || discriminate))|].
    { eexists. split; [vm_compute; reflexivity|]. now left. }
    eexists. split; [vm_compute; reflexivity|discriminate].
  - split; vm_compute; reflexivity.
Qed.

(* So the result can depend on the option. *)
Theorem C83_debug_output_never_changes_the_bars_refuted :
  exists data,
  (exists counts, debug_bars line_dist "indSimplexTree" "2" "true" "0" data = Ok ([(0, 0%Z, 1%Z); (0, 0%Z, 3%Z); (0, 0%Z, 5%Z)], counts, [])) /\
  (exists counts files, debug_bars line_dist "indSimplexTree" "2" "true" "1" data = Ok ([(0, 0%Z, 1%Z); (0, 0%Z, 2%Z); (0, 0%Z, 5%Z)], counts, files)).
Proof. exists [[0]; [1]; [3]]%Z. split; [eexists; vm_compute; reflexivity|]. do 2 eexists. vm_compute. reflexivity. Qed.
Print Assumptions C83_debug_output_never_changes_the_bars_refuted.
