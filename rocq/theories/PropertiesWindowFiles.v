(* PropertiesWindowFiles.v -- C110: the files that the sliding window writes. *)
From Coq Require Import String List Arith ZArith Bool Lia.
From Verif Require Import Base ArrayListModel TreeModel FastModel ArgModel PipeModel WindowModel DebugModel WindowFilesModel.
From Verif Require Import Spec SpecComplex SpecGraph SpecArgs SpecPipe SpecWindow SpecWindowFiles WindowFilesRuns PropertiesComplex PropertiesPipe PropertiesWindow.
Import ListNotations.
Local Open Scope string_scope. Local Open Scope nat_scope. Local Open Scope list_scope.

(* C110: the sliding window over a stream of vectors, with a simplexTree.  Writing files does not change the run.  A run that ends leaves
   no file for fewer than 200 vectors and for exactly 200; from 201 on it leaves one file for every full hundred above 200 and one for the rest, numbered from
   0.  Every one of them holds the first 200 vectors of the stream: no file ever shows a later vector. *)
Theorem C110_every_window_file_is_the_first_window :
  forall dist atoi atof srt past_end al_reduce, is_sort srt -> (forall x y, (0 <= dist x y)%Z) ->
  forall one args d e nc0 p,
  tree_options args d e -> mget args "twist" <> None -> (0 < atoi d < 2 ^ 31 - 1)%Z -> new_packet atoi atof nc0 args [] = Ok p ->
  forall rows, (forall x, In x rows -> x <> []) ->
  match sliding_run dist atoi atof srt past_end al_reduce one args (Some rows) p with
  | UB => sliding_run_files dist atoi atof srt past_end al_reduce one args (Some rows) p = UB
  | Ok result => sliding_run_files dist atoi atof srt past_end al_reduce one args (Some rows) p =
      Ok (result, map (fun k => vectors_file k (firstn 200 rows)) (seq 0 (window_files (length rows))))
  end.
Proof.
  intros dist atoi atof srt past_end al_reduce Hs Hpos one args d e nc0 p O Ht Hd Hp rows Hne.
  destruct (window_files_of dist atoi atof srt past_end al_reduce Hs Hpos one args d e nc0 p O Ht Hd Hp rows Hne) as [U G].
  destruct (sliding_run _ _ _ _ _ _ _ _ (Some rows) p) as [[[[p' w] st] reports]|]; [now apply G|now apply U].
Qed.
Print Assumptions C110_every_window_file_is_the_first_window.

Lemma line_runs rows w p : new_packet digit digit 7 tree_args [] = Ok p -> sliding_line rows = Ok w ->
  exists result, sliding_run line_dist digit digit wsort libstdcxx_past_end (fun g => Ok g) 1 tree_args (Some rows) p = Ok result.
Proof. intros E R. unfold sliding_line in R. rewrite E in R. cbn [bind] in R. destruct (sliding_run _ _ _ _ _ _ _ _ (Some rows) p) as [result|]; [eauto|discriminate R]. Qed.
Lemma line_files rows first n w p : new_packet digit digit 7 tree_args [] = Ok p -> sliding_line rows = Ok w -> (forall x, In x rows -> x <> []) -> firstn 200 rows = first -> length rows = n ->
  exists result, sliding_run_files line_dist digit digit wsort libstdcxx_past_end (fun g => Ok g) 1 tree_args (Some rows) p = Ok (result, map (fun k => vectors_file k first) (seq 0 (window_files n))).
Proof.
  intros E R Hne <- <-. destruct (line_runs rows w p E R) as (result & Er).
  assert (T := C110_every_window_file_is_the_first_window line_dist digit digit wsort libstdcxx_past_end (fun g => Ok g) wsort_is_sort
     (fun x y => Z.abs_nonneg _) 1 tree_args "1" "5" 7 p tree_args_ok ltac:(discriminate) ltac:(cbn; lia) E rows Hne).
  rewrite Er in T. now exists result.
Qed.
(* 200 points at distance 6 and two later ones: one file, with the first 200 points. *)
Example C110_ex :
  is_sort wsort /\ (forall x y, (0 <= line_dist x y)%Z) /\ tree_options tree_args "1" "5" /\ mget tree_args "twist" <> None /\
  window_files 202 = 1 /\ window_files 199 = 0 /\ window_files 200 = 0 /\ window_files 300 = 1 /\ window_files 450 = 3 /\
  exists p result, new_packet digit digit 7 tree_args [] = Ok p /\
    sliding_run_files line_dist digit digit wsort libstdcxx_past_end (fun g => Ok g) 1 tree_args (Some (stream_of 200 0 6 ++ [[1218]; [3]]%Z)) p =
      Ok (result, [("output/SlidingWindow_0_output.csv"%string, map RNumbers (stream_of 200 0 6) ++ [RText ""])]).
Proof.
  split; [apply wsort_is_sort|]. split; [intros; apply Z.abs_nonneg|]. split; [apply tree_args_ok|]. split; [discriminate|].
  do 5 (split; [reflexivity|]). destruct (new_packet digit digit 7 tree_args []) as [p|] eqn:E; [|discriminate]. exists p.
  destruct (line_files (stream_of 200 0 6 ++ [[1218]; [3]]%Z) (stream_of 200 0 6) 202 (stream_of 200 0 6) p E (proj1 C39_ex)) as (result & T).
  - intros x Hx. apply in_app_iff in Hx as [Hx|Hx]; [unfold stream_of in Hx; apply in_map_iff in Hx as (i & <- & _); discriminate|]. destruct Hx as [<-|[<-|[]]]; discriminate.
  - rewrite firstn_app, stream_length. rewrite Nat.sub_diag, firstn_O, app_nil_r. apply firstn_all2. rewrite stream_length. apply le_n.
  - rewrite app_length, stream_length. reflexivity.
  - exists result. split; [reflexivity|exact T].
Qed.
