(* PropertiesAll.v -- C86 and C87: the program from its command line with all its pipes. *)
From Coq Require Import String Ascii List Arith ZArith Bool Lia.
From Verif Require Import Base UtilsModel RunMonad ArrayListModel TreeModel FastModel ArgModel IoModel GaussModel IndModel TwistModel PipeModel WindowModel MainModel AllModel.
From Verif Require Import Spec SpecIo SpecComplex SpecTree SpecArgs SpecGraph SpecFast SpecPipe SpecInd SpecIndRun SpecWindow SpecMain SpecAll.
From Verif Require Import ArgProofs AllRuns OwnRuns UpscaleRuns PropertiesComplex PropertiesPipe PropertiesMain.
Import ListNotations.
Local Open Scope nat_scope.
Local Open Scope list_scope.

(* ---------------------------------------------------------------- C86 *)
(* The mode naive: the run ends and the barcode file holds no bars, whatever the stream.  The packet is left with the last
   window of 50 that was processed; the complex is that of the first 50 vectors of the stream. *)
Theorem C86_naive_window_mode :
  forall dist atoi atof srt past_end nc0 al_reduce one stod file stopped pre_run pre_stats uaf argv d e f o data rows,
  is_sort srt -> (forall x y, (0 <= dist x y)%Z) -> (0 < atoi d < 2 ^ 31 - 1)%Z -> stod_ignores_newline stod ->
  window_line argv ["naive"; "naivewindow"]%string d e f o -> holds_points stod file f data -> data <> [] -> streams stod file f rows ->
  let program := lhf_all dist atoi atof srt past_end nc0 al_reduce one stod file stopped pre_run pre_stats uaf argv in
  exists q, program = Ok (Ran q (barcode_file o [])) /\
    (length rows < 50 -> pk_data q = data /\ pk_stats q = [(KNaiveWindow, 0%Z, nc0)]) /\
    (50 <= length rows -> pk_data q = firstn 50 (skipn (100 * (length rows / 100) - 50) rows) /\
       exists c, pk_complex q = Some c /\ holds_rips srt dist (firstn 50 rows) (atof e) (atoi d) nc0 c /\
         exists before, pk_stats q = before ++ [(KNaiveWindow, 50%Z, cx_simplexCount c)] /\ map (fun x => fst (fst x)) before = [KDistMatrix; KNeighGraph]).
Proof. intros. eapply naive_mode; eauto. Qed.
Print Assumptions C86_naive_window_mode.

(* The mode sw: without a file, or with a stream of fewer than 200 vectors, the run ends with no bars.  With exactly 200 it
   ends with no bars on the complex of these.  With more it ends, again with no bars, if every later vector is turned away
   and no two of the first 200 are close, and otherwise it is undefined. *)
Theorem C86_sliding_window_mode :
  forall dist atoi atof srt past_end nc0 al_reduce one stod file stopped pre_run pre_stats uaf argv d e f o,
  stod_ignores_newline stod -> window_line argv ["sw"; "slidingwindow"]%string d e f o ->
  let program := lhf_all dist atoi atof srt past_end nc0 al_reduce one stod file stopped pre_run pre_stats uaf argv in
  (file f = None -> exists q, program = Ok (Ran q (barcode_file o [])) /\ pk_stats q = [(KSlidingWindow, 0%Z, nc0)]) /\
  (forall rows, streams stod file f rows ->
    (length rows < 200 -> exists q, program = Ok (Ran q (barcode_file o [])) /\ pk_stats q = [(KSlidingWindow, 0%Z, nc0)]) /\
    (200 <= length rows -> is_sort srt -> (forall x y, (0 <= dist x y)%Z) -> (0 < atoi d < 2 ^ 31 - 1)%Z ->
     let first := firstn 200 rows in
     let close_pair := exists u v, u < v /\ v < 200 /\ (separation dist first u v < atof e)%Z in
     exists idx nn, length idx = 200 /\ length nn = 200 /\ (forall i, i < 200 -> nearest_other dist first i (nth i idx 0) (nth i nn 0%Z)) /\
       let quiet := forall x, In x (skipn 200 rows) -> turned_away dist first one nn x in
       (length rows = 200 \/ (quiet /\ ~ close_pair) ->
          exists q c, program = Ok (Ran q (barcode_file o [])) /\ pk_data q = first /\
            pk_complex q = Some c /\ holds_rips srt dist first (atof e) (atoi d) nc0 c) /\
       (200 < length rows -> ~ (quiet /\ ~ close_pair) -> program = UB))).
Proof. intros. eapply sliding_mode; eauto. Qed.
Print Assumptions C86_sliding_window_mode.

(* ---------------------------------------------------------------- C87 *)
(* A pipeline of one's own that has the component boundary, anywhere and among any others but the windows: the run is
   undefined for every dimension other than 0. *)
Theorem C87_boundary_is_undefined :
  forall dist atoi atof srt past_end nc0 al_reduce one stod file stopped pre_run pre_stats uaf argv P parts c d e f o data,
  own_line argv P (cx_name c) d e f o -> components_of P parts -> In "boundary"%string parts ->
  (forall w, In w parts -> ~ In w ["sliding"; "slidingwindow"; "naive"; "naivewindow"]%string) ->
  holds_points stod file f data -> data <> [] -> atoi d <> 0%Z ->
  lhf_all dist atoi atof srt past_end nc0 al_reduce one stod file stopped pre_run pre_stats uaf argv = UB.
Proof.
  intros dist atoi atof srt past_end nc0 al_reduce one stod file stopped pre_run pre_stats uaf argv P parts c d e f o data Hl Hc Ib Nw Hf Hne Nz.
  eapply boundary_pipeline; eauto. intros ->. 
  assert (E : parts = ["slidingwindow"%string]).
  { eapply components_unique; [exact Hc|]. split; [discriminate|]. split; [repeat constructor; discriminate|reflexivity]. }
  subst parts. apply (Nw "slidingwindow"%string); cbn; auto.
Qed.
Print Assumptions C87_boundary_is_undefined.

(* The pipeline with the pipe persistence in the place of fastPersistence, on the default complexes: undefined as soon as two
   points are close.  Otherwise the file has a bar from 0 to epsilon for every point if the dimension is above 1, and no bars
   for dimension 1. *)
Theorem C87_persistence_pipeline :
  forall dist atoi atof srt past_end nc0 al_reduce one stod file stopped pre_run pre_stats uaf argv c d e f o data,
  is_sort srt -> (forall x y, (0 <= dist x y)%Z) -> (0 < atoi d < 2 ^ 31 - 1)%Z ->
  own_line argv "distMatrix.neighGraph.rips.persistence" (cx_name c) d e f o -> holds_points stod file f data -> data <> [] ->
  let program := lhf_all dist atoi atof srt past_end nc0 al_reduce one stod file stopped pre_run pre_stats uaf argv in
  let two_close := exists u v, u < v /\ v < length data /\ close c (atof e) (separation dist data u v) in
  (two_close -> program = UB) /\
  (~ two_close -> exists q, pk_data q = data /\ map (fun x => fst (fst x)) (pk_stats q) = [KDistMatrix; KNeighGraph; KRips; KPersistencePairs] /\
     program = Ok (Ran q (barcode_file o (if (1 <? atoi d)%Z then repeat (0, 0%Z, atof e) (length data) else [])))).
Proof. intros. eapply persistence_pipeline; eauto. Qed.
Print Assumptions C87_persistence_pipeline.

(* The same pipeline on an indSimplexTree: undefined, with one exception.  For dimension 1, without twist, and with exactly one
   close pair that does not contain the first point, the file has a bar from 0 to epsilon for every point. *)
Theorem C87_persistence_on_indexed_tree :
  forall dist atoi atof srt past_end nc0 al_reduce one stod file stopped pre_run pre_stats uaf argv d e f o t data,
  is_sort srt -> (forall x y, (0 <= dist x y)%Z) -> (0 < atoi d < 2 ^ 31 - 1)%Z ->
  own_line argv "distMatrix.neighGraph.rips.persistence" "indSimplexTree" d e f o -> value argv "twist" t ->
  holds_points stod file f data -> data <> [] ->
  let program := lhf_all dist atoi atof srt past_end nc0 al_reduce one stod file stopped pre_run pre_stats uaf argv in
  let single := atoi d = 1%Z /\ t <> "true"%string /\ one_pair_off_zero dist data (atof e) in
  (single -> exists q, pk_data q = data /\ map (fun x => fst (fst x)) (pk_stats q) = [KDistMatrix; KNeighGraph; KRips; KOptPersistencePairs] /\
     program = Ok (Ran q (barcode_file o (repeat (0, 0%Z, atof e) (length data))))) /\
  (~ single -> program = UB).
Proof. intros. eapply persistence_indexed; eauto. Qed.
Print Assumptions C87_persistence_on_indexed_tree.

(* A component upscale changes nothing but the statistics, which get a line for it: the run with it and the run without it write
   the same file and leave the same packet.  A pipe that does not return is taken as undefined here. *)
Theorem C87_upscale_component_only_adds_statistics :
  forall dist atoi atof srt past_end nc0 al_reduce one stod file pre_run pre_stats uaf argv argv' P P' before after c d e f o data,
  own_line argv P c d e f o -> In c ["simplexTree"; "simplexArrayList"; "indSimplexTree"]%string ->
  complete_line argv' -> value argv' "pipeline" P' -> (forall k v, k <> "pipeline"%string -> value argv k v -> value argv' k v) ->
  components_of P (before ++ after) -> components_of P' (before ++ "upscale"%string :: after) ->
  (forall w, In w (before ++ after) -> ~ In w ["sliding"; "slidingwindow"; "naive"; "naivewindow"]%string) ->
  holds_points stod file f data -> data <> [] ->
  let program := lhf_all dist atoi atof srt past_end nc0 al_reduce one stod file UB pre_run pre_stats uaf in
  match program argv with
  | UB => program argv' = UB
  | Ok (Ran q files) => exists q' s1 x s2, program argv' = Ok (Ran q' files) /\
      pk_data q' = pk_data q /\ pk_labels q' = pk_labels q /\ pk_complex q' = pk_complex q /\ pk_output q' = pk_output q /\ pk_table q' = pk_table q /\
      pk_stats q = s1 ++ s2 /\ pk_stats q' = s1 ++ x :: s2 /\ fst (fst x) = KUpscale
  | Ok _ => False
  end.
Proof. intros. eapply upscale_component; eauto. Qed.
Print Assumptions C87_upscale_component_only_adds_statistics.

(* ---------------------------------------------------------------- examples *)
(* A stod that ignores newlines. *)
Definition dec (t : text) : option Z := decimal (filter (fun c => negb (Ascii.eqb c newline)) t).
Lemma dec_newline : stod_ignores_newline dec.
Proof.
  intros t _. unfold dec. f_equal. induction t as [|c t IH]; [reflexivity|]. cbn [app filter].
  destruct (negb (Ascii.eqb c newline)); [f_equal|]; exact IH.
Qed.
(* A file of n lines "05", each ended by a newline. *)
Definition fives (n : nat) (f : string) : option text :=
  if String.eqb f "pts" then Some (lines_of (repeat (list_ascii_of_string "05") n)) else None.
Lemma fives_stream n : streams dec (fives n) "pts" (repeat [5%Z] n).
Proof.
  exists (repeat (list_ascii_of_string "05") n), []. split; [rewrite app_nil_r; reflexivity|]. split; [|now left].
  induction n as [|n IH]; cbn [repeat]; constructor; auto.
  exists [list_ascii_of_string "05"]. split; [no_char|]. split; [no_char|]. split; [cbn; lia|]. split; [discriminate|].
  split; [constructor; [split; [discriminate|repeat split; no_char]|constructor]|]. split; reflexivity.
Qed.
Lemma fives_points n : holds_points dec (fives n) "pts" (repeat [5%Z] n).
Proof.
  right. exists (repeat (list_ascii_of_string "05") n ++ [[]]), (repeat (Some [5%Z]) n ++ [None]).
  split; [destruct n; discriminate|]. split.
  - change (fives n "pts") with (Some (lines_of (repeat (list_ascii_of_string "05") n))). f_equal.
    induction n as [|n IH]; [reflexivity|]. change (lines_of (repeat (list_ascii_of_string "05") (S n))) with
      ((list_ascii_of_string "05" ++ [newline]) ++ lines_of (repeat (list_ascii_of_string "05") n)). rewrite IH.
    cbn [repeat app]. now destruct n.
  - split.
    + induction n as [|n IH]; cbn [repeat app].
      * apply Forall2_cons; [split; [no_char|cbn; lia]|constructor].
      * apply Forall2_cons; [exists [list_ascii_of_string "05"]; row|exact IH].
    + unfold kept. rewrite flat_map_app. cbn. rewrite app_nil_r. induction n as [|n IH]; cbn; [reflexivity|now rewrite <- IH].
Qed.
Definition all_program (file : string -> option text) (argv : list string) : res outcome :=
  lhf_all line_dist number number wsort libstdcxx_past_end 0 (fun g => Ok g) 1 dec file UB
    (fun _ _ p => Ok p) (fun _ p => Ok p) (Ok tt) argv.
Definition naive_line : list string := ["-i"; "pts"; "-m"; "naive"; "-e"; "3"; "-o"; "res"]%string.
Definition sliding_line : list string := ["-i"; "pts"; "-m"; "sw"; "-e"; "3"; "-o"; "res"]%string.
Lemma window_example m modes : In m modes -> In m ["naive"; "sw"]%string ->
  window_line ["-i"; "pts"; "-m"; m; "-e"; "3"; "-o"; "res"]%string modes "1" "3" "pts" "res".
Proof.
  intros H [<-|[<-|[]]]; constructor; try line_value; try (intros [[k K] _]; cbn in K; lia).
  1, 3: eexists; split; [line_value|exact H].
  all: exists "0"%string; split; [line_value|discriminate].
Qed.
(* 120 equal points in the mode naive: the window that remains is made of vectors 50 to 99.  199 in the mode sw: nothing.  201
   in the mode sw with epsilon 0: no two are close and the last is turned away; with epsilon 3: undefined. *)
Example C86_ex :
  (exists q, all_program (fives 120) naive_line = Ok (Ran q [("res.csv"%string, [])]) /\ pk_data q = repeat [5%Z] 50) /\
  (exists q, all_program (fives 7) naive_line = Ok (Ran q [("res.csv"%string, [])]) /\ pk_data q = repeat [5%Z] 7) /\
  (exists q, all_program (fives 199) sliding_line = Ok (Ran q [("res.csv"%string, [])])) /\
  (exists q, all_program (fun _ => None) sliding_line = Ok (Ran q [("res.csv"%string, [])])) /\
  (exists q, all_program (fives 200) sliding_line = Ok (Ran q [("res.csv"%string, [])]) /\ pk_data q = repeat [5%Z] 200) /\
  all_program (fives 201) sliding_line = UB /\
  all_program (fun _ => None) naive_line = Ok Usage.
Proof.
  assert (Nl : window_line naive_line ["naive"; "naivewindow"]%string "1" "3" "pts" "res") by (apply window_example; cbn; auto).
  assert (Sl : window_line sliding_line ["sw"; "slidingwindow"]%string "1" "3" "pts" "res") by (apply window_example; cbn; auto).
  assert (D : (0 < number "1" < 2 ^ 31 - 1)%Z) by (vm_compute; split; reflexivity).
  assert (Pos : forall x y, (0 <= line_dist x y)%Z) by (intros; apply Z.abs_nonneg).
  assert (Fs : forall k n (x : list Z), k <= n -> firstn k (repeat x n) = repeat x k).
  { induction k as [|k IH]; intros n x L; [reflexivity|]. destruct n; [lia|]. cbn. f_equal. apply IH. lia. }
  assert (Sk : forall k n (x : list Z), skipn k (repeat x n) = repeat x (n - k)).
  { induction k as [|k IH]; intros n x; [cbn; now rewrite Nat.sub_0_r|]. destruct n; [reflexivity|]. cbn. apply IH. }
  split.
  { destruct (C86_naive_window_mode line_dist number number wsort libstdcxx_past_end 0 (fun g => Ok g) 1 dec (fives 120) UB
      (fun _ _ p => Ok p) (fun _ p => Ok p) (Ok tt) naive_line "1" "3" "pts" "res" _ _ wsort_is_sort Pos D dec_newline Nl (fives_points 120) ltac:(discriminate) (fives_stream 120)) as (q & E & _ & L).
    exists q. split; [exact E|]. rewrite repeat_length in L. destruct (L ltac:(lia)) as [-> _].
    change (100 * (120 / 100) - 50) with 50. rewrite Sk. apply Fs. lia. }
  split.
  { destruct (C86_naive_window_mode line_dist number number wsort libstdcxx_past_end 0 (fun g => Ok g) 1 dec (fives 7) UB
      (fun _ _ p => Ok p) (fun _ p => Ok p) (Ok tt) naive_line "1" "3" "pts" "res" _ _ wsort_is_sort Pos D dec_newline Nl (fives_points 7) ltac:(discriminate) (fives_stream 7)) as (q & E & L & _).
    exists q. split; [exact E|]. apply L. cbn. lia. }
  assert (Sw : forall file, _) by (intros file; exact (C86_sliding_window_mode line_dist number number wsort libstdcxx_past_end 0 (fun g => Ok g) 1 dec file UB
      (fun _ _ p => Ok p) (fun _ p => Ok p) (Ok tt) sliding_line "1" "3" "pts" "res" dec_newline Sl)). cbv zeta in Sw.
  split; [destruct (proj2 (Sw (fives 199)) _ (fives_stream 199)) as [H _]; destruct H as (q & E & _); [rewrite repeat_length; lia|]; exists q; exact E|].
  split; [destruct (proj1 (Sw (fun _ => None)) eq_refl) as (q & E & _); exists q; exact E|].
  split.
  { destruct (proj2 (Sw (fives 200)) _ (fives_stream 200)) as [_ H]. rewrite repeat_length in H.
    destruct (H ltac:(lia) wsort_is_sort Pos D) as (idx & nn & _ & _ & _ & G & _). destruct (G (or_introl eq_refl)) as (q & c & E & Dq & _).
    exists q. split; [exact E|]. rewrite Dq. apply Fs. lia. }
  split; [|vm_compute; reflexivity].
  destruct (proj2 (Sw (fives 201)) _ (fives_stream 201)) as [_ H]. rewrite repeat_length in H.
  destruct (H ltac:(lia) wsort_is_sort Pos D) as (idx & nn & _ & _ & _ & _ & G). apply G; [lia|]. intros [_ N]. apply N.
  exists 0, 1. split; [lia|]. split; [lia|]. rewrite Fs by lia. vm_compute. reflexivity.
Qed.

Definition own_words (P c d : string) : list string := ["-i"; "pts"; "-p"; P; "-c"; c; "-d"; d; "-e"; "5"; "-o"; "res"]%string.
Definition some_file (lines : list string) (f : string) : option text := if String.eqb f "pts" then Some (lines_file lines) else None.
(* Points 0, 9 and 18 with epsilon 5: no two are close; 0, 20 and 22: the pair of the last two is the only one. *)
Example C87_ex :
  own_line (own_words "neighGraph.boundary.upscale" "simplexTree" "2") "neighGraph.boundary.upscale" (cx_name Tree) "2" "5" "pts" "res" /\
  components_of "neighGraph.boundary.upscale" ["neighGraph"; "boundary"; "upscale"]%string /\
  own_line (own_words "distMatrix.neighGraph.rips.persistence" "simplexArrayList" "2") "distMatrix.neighGraph.rips.persistence" (cx_name ArrayList) "2" "5" "pts" "res" /\
  own_line (own_words "distMatrix.neighGraph.rips.persistence" "indSimplexTree" "1") "distMatrix.neighGraph.rips.persistence" "indSimplexTree" "1" "5" "pts" "res" /\
  value (own_words "distMatrix.neighGraph.rips.persistence" "indSimplexTree" "1") "twist" "false" /\
  holds_points dec (some_file ["00"; "20"; "22"]%string) "pts" [[0]; [20]; [22]]%Z /\
  one_pair_off_zero line_dist [[0]; [20]; [22]]%Z 5 /\
  all_program (some_file ["00"; "20"; "22"]%string) (own_words "distMatrix.boundary.upscale" "simplexTree" "2") = UB /\
  bars (all_program (some_file ["00"; "09"; "18"]%string) (own_words "distMatrix.neighGraph.rips.persistence" "simplexArrayList" "2")) =
    Some [("res.csv"%string, [(0, 0%Z, 5%Z); (0, 0%Z, 5%Z); (0, 0%Z, 5%Z)])] /\
  bars (all_program (some_file ["00"; "09"; "18"]%string) (own_words "distMatrix.neighGraph.rips.persistence" "simplexTree" "1")) = Some [("res.csv"%string, [])] /\
  all_program (some_file ["00"; "20"; "22"]%string) (own_words "distMatrix.neighGraph.rips.persistence" "simplexTree" "1") = UB /\
  bars (all_program (some_file ["00"; "20"; "22"]%string) (own_words "distMatrix.neighGraph.rips.persistence" "indSimplexTree" "1")) =
    Some [("res.csv"%string, [(0, 0%Z, 5%Z); (0, 0%Z, 5%Z); (0, 0%Z, 5%Z)])] /\
  all_program (some_file ["00"; "02"; "22"]%string) (own_words "distMatrix.neighGraph.rips.persistence" "indSimplexTree" "1") = UB.
Proof.
  assert (Ow : forall P c d, In (P, c, d) [("neighGraph.boundary.upscale", "simplexTree", "2"); ("distMatrix.neighGraph.rips.persistence", "simplexArrayList", "2");
      ("distMatrix.neighGraph.rips.persistence", "indSimplexTree", "1")]%string -> own_line (own_words P c d) P c d "5" "pts" "res").
  { intros P c d [[= <- <- <-]|[[= <- <- <-]|[[= <- <- <-]|[]]]]; constructor; try line_value; try (intros [[k K] _]; cbn in K; lia); try discriminate.
    all: eexists; split; [line_value|first [discriminate|split; discriminate]]. }
  split; [apply Ow; cbn; auto|]. split; [split; [discriminate|split; [repeat constructor; discriminate|reflexivity]]|].
  split; [apply Ow; cbn; auto|]. split; [apply Ow; cbn; auto|]. split; [line_value|].
  split. { right. exists (map list_ascii_of_string ["00"; "20"; "22"]%string), [Some [0]; Some [20]; Some [22]]%Z. split; [discriminate|]. split; [reflexivity|].
    split; [|reflexivity]. cbn [map]. apply Forall2_cons; [exists [list_ascii_of_string "00"]; row|]. apply Forall2_cons; [exists [list_ascii_of_string "20"]; row|].
    apply Forall2_cons; [exists [list_ascii_of_string "22"]; row|]. constructor. }
  split. { exists 1, 2. do 3 (split; [cbn; lia|]). split; [vm_compute; reflexivity|]. intros u v Huv Hv. cbn in Hv.
    destruct v as [|[|[|v]]]; try lia; destruct u as [|[|u]]; try lia; cbn; try lia; auto. }
  repeat split; vm_compute; reflexivity.
Qed.

Lemma own_words_given P P' c d i k v : k <> "p"%string -> given (own_words P c d) i k v -> given (own_words P' c d) i k v.
Proof.
  intros N (f & A & B & F). exists f. destruct i as [|[|i]]; [auto| |].
  - cbn in A. injection A as <-. exfalso. destruct F as [F|[F _]]; cbn in F; [discriminate|]. injection F as F. congruence.
  - unfold own_words in *. replace (2 * S (S i)) with (4 + 2 * i) in * by lia. replace (4 + 2 * i + 1) with (4 + (2 * i + 1)) in * by lia. auto.
Qed.
Lemma own_words_value P P' c d k v : k <> "pipeline"%string -> value (own_words P c d) k v -> value (own_words P' c d) k v.
Proof.
  intros N (s & df & I & H). exists s, df. split; [exact I|].
  assert (Q : s <> "p"%string /\ k <> "p"%string).
  { unfold options in I. cbn [In] in I. repeat (destruct I as [[= <- <- <-]|I]; [split; discriminate || congruence|]). destruct I. }
  destruct Q as [Ns Nk]. clear I.
  assert (Gv : forall o w, o <> "p"%string -> last_given (own_words P c d) o w -> last_given (own_words P' c d) o w).
  { intros o w No (i & G1 & G2). exists i. split; [now apply own_words_given with P|]. intros j w' G. apply (G2 j w'). now apply own_words_given with P'. }
  assert (Nv : forall o, o <> "p"%string -> never_given (own_words P c d) o -> never_given (own_words P' c d) o).
  { intros o No G i w Gw. apply (G i w). now apply own_words_given with P'. }
  destruct H as [H|[[H1 H2]|(H1 & H2 & ->)]]; [left; auto|right; left; auto|]. right. right. auto.
Qed.
(* The default pipeline with an upscale component in the middle: the same bars. *)
Example C87_ex_upscale :
  let P := "distMatrix.neighGraph.rips.fastPersistence"%string in let P' := "distMatrix.neighGraph.upscale.rips.fastPersistence"%string in
  own_line (own_words P "simplexTree" "1") P "simplexTree" "1" "5" "pts" "res" /\
  complete_line (own_words P' "simplexTree" "1") /\ value (own_words P' "simplexTree" "1") "pipeline" P' /\
  (forall k v, k <> "pipeline"%string -> value (own_words P "simplexTree" "1") k v -> value (own_words P' "simplexTree" "1") k v) /\
  components_of P (["distMatrix"; "neighGraph"]%string ++ ["rips"; "fastPersistence"]%string) /\
  components_of P' (["distMatrix"; "neighGraph"]%string ++ "upscale"%string :: ["rips"; "fastPersistence"]%string) /\
  bars (all_program (some_file ["00"; "20"; "22"]%string) (own_words P' "simplexTree" "1")) =
    bars (all_program (some_file ["00"; "20"; "22"]%string) (own_words P "simplexTree" "1")) /\
  bars (all_program (some_file ["00"; "20"; "22"]%string) (own_words P "simplexTree" "1")) = Some [("res.csv"%string, [(0, 0%Z, 2%Z); (0, 0%Z, 5%Z)])].
Proof.
  split. { constructor; try line_value; try (intros [[k K] _]; cbn in K; lia); try discriminate.
    all: eexists; split; [line_value|first [discriminate|split; discriminate]]. }
  split; [intros [[k K] _]; cbn in K; lia|]. split; [line_value|]. split; [intros k v; apply own_words_value|].
  split; [split; [discriminate|split; [repeat constructor; discriminate|reflexivity]]|].
  split; [split; [discriminate|split; [repeat constructor; discriminate|reflexivity]]|].
  split; vm_compute; reflexivity.
Qed.
