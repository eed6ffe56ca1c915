(* PropertiesLastText.v -- C114: which pipe decides about the text of the barcode file. *)
From Coq Require Import String Ascii List Arith ZArith Bool Lia SpecFloat.
From Verif Require Import Base Spec ArgModel IoModel PipeModel MainModel AllModel DoubleModel DoubleRuns ReadModel NanModel AllTextModel.
From Verif Require Import SpecArgs SpecText SpecAllText SpecReducedStats SpecLastText ReducedStats LastText PropertiesAllText.
Import ListNotations.
Local Open Scope nat_scope.
Local Open Scope list_scope.

(* Whatever the pipeline, short of the two stream pipes: a run that ends and writes leaves one file.  Below the file's own
   header stands what the last of the running pipes that assign bars assigned, and nothing of the pipes before it: its own
   header, if it has one, and a line per bar.  If no running pipe assigns bars there is nothing below the header. *)
Theorem C114_the_last_pipe_decides :
  forall srt past_end nc0 al_reduce one file pre_run pre_stats uaf argv m P parts ks o texts,
  (forall k a p p1, pre_run k a p = Ok p1 -> pk_stats p1 = pk_stats p) -> (forall k p p1, pre_stats k p = Ok p1 -> pk_stats p1 = pk_stats p) ->
  parse argv = Ok m -> let args := setPipeline m in
  mget args "mode" <> Some "reduced"%string -> mget args "pipeline" = Some P -> components_of P parts -> running args parts ks ->
  (forall c, In c parts -> ~ In c stream_names) -> mget args "outputFile" = Some o -> o <> "console"%string ->
  lhf_texts d_square srt past_end nc0 al_reduce one file UB pre_run pre_stats uaf argv = Ok texts -> texts <> [] ->
  exists bars body, texts = [((o ++ ".csv")%string, line "dimension,birth,death" ++ body)] /\
    ((forall k h, In (k, h) own_headers -> ~ In k ks) -> body = []) /\
    (forall before k after h, ks = before ++ k :: after -> In (k, h) own_headers -> (forall j h', In (j, h') own_headers -> ~ In j after) ->
       exists rows, body = h ++ concat rows /\ Forall2 (row_of k) bars rows).
Proof.
  intros srt past_end nc0 al_reduce one file pre_run pre_stats uaf argv m P parts ks o texts Kr Ks Pm args Hm HP HC HR HN Ho No H Ne.
  destruct (last_text srt past_end nc0 al_reduce one file pre_run pre_stats uaf Kr Ks argv m P parts ks o texts Pm Hm HP HC HR HN Ho No H Ne) as (bars & body & E & L1 & L2).
  exists bars, body. split; [exact E|]. split; [exact L1|exact L2].
Qed.
Print Assumptions C114_the_last_pipe_decides.

Definition last_words (P c d : string) : list string := ["-i"; "pts"; "-p"; P; "-c"; c; "-d"; d; "-e"; "5."; "-o"; "res"]%string.
Definition both_ways : string := "distMatrix.neighGraph.rips.fast.persistence".
(* The points 9, 1 and 1.5 on an indSimplexTree: both orders of the two pipes; and the component boundary with dimension 0. *)
Example C114_last_ex :
  (exists m, parse (last_words both_ways "indSimplexTree" "1") = Ok m /\ let args := setPipeline m in
     mget args "mode" <> Some "reduced"%string /\ mget args "pipeline" = Some both_ways /\ mget args "outputFile" = Some "res"%string /\
     components_of both_ways ["distMatrix"; "neighGraph"; "rips"; "fast"; "persistence"]%string /\
     running args ["distMatrix"; "neighGraph"; "rips"; "fast"; "persistence"]%string [KDistMatrix; KNeighGraph; KRips; KFastPersistence; KOptPersistencePairs]) /\
  text_run three_points (last_words both_ways "indSimplexTree" "1") =
    Ok [("res.csv"%string, line "dimension,birth,death" ++ line "curIndex,index,dim,birth,death" ++
         line "0,0.000000,5.000000" ++ line "0,0.000000,5.000000" ++ line "0,0.000000,5.000000")] /\
  text_run three_points (last_words "distMatrix.neighGraph.rips.persistence.fast" "indSimplexTree" "1") =
    Ok [("res.csv"%string, line "dimension,birth,death" ++ line "0,0,0.500000" ++ line "0,0,5.000000")] /\
  text_run two_points (last_words "distMatrix.neighGraph.rips.persistence.boundary" "simplexTree" "0") =
    Ok [("res.csv"%string, line "dimension,birth,death" ++ line "Dim,Birth,Death")] /\
  text_run two_points (last_words "distMatrix.neighGraph.boundary.persistence.upscale" "simplexArrayList" "0") =
    Ok [("res.csv"%string, line "dimension,birth,death" ++ line "dim,birth,death")] /\
  text_run two_points (last_words "distMatrix.neighGraph.upscale" "simplexArrayList" "0") = Ok [("res.csv"%string, line "dimension,birth,death")].
Proof.
  split. { eexists. split; [vm_compute; reflexivity|]. cbv zeta. split; [vm_compute; discriminate|]. split; [vm_compute; reflexivity|]. split; [vm_compute; reflexivity|].
    split; [split; [discriminate|split; [repeat constructor; discriminate|reflexivity]]|].
    repeat (apply running_pipe; [apply starts_new; split; [vm_compute; reflexivity|]; intros o Io; cbn in Io; repeat (destruct Io as [<-|Io]; [vm_compute; discriminate|]); destruct Io|]).
    apply running_nil. }
  repeat split; vm_compute; reflexivity.
Qed.
