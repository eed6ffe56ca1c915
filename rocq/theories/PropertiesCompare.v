(* PropertiesCompare.v -- C96: how the output text changes with the input text. *)
From Coq Require Import String Ascii List Arith ZArith Bool Lia Sorted Permutation Relations SpecFloat.
From Verif Require Import Base Spec SpecComplex FastModel SpecFast ArgModel SpecArgs PipeModel SpecPipe MainModel SpecMain SpecLink PropertiesComplex PropertiesPipe PropertiesMain.
From Verif Require Import DoubleModel SpecDouble DoubleProofs DoubleRuns PropertiesDouble.
From Verif Require Import IoModel SpecIo TextModel SpecText ReadModel SpecRead ReadProofs SpecProgram ProgramModel ProgramRuns PropertiesProgram NanModel SpecNan PropertiesNan SpecCompare CompareRuns.
Import ListNotations.
Local Open Scope nat_scope.
Local Open Scope list_scope.

(* C96: if the lines of the input file are shuffled, the lines of dimension 0 in the output stay as they are, and the run is
   undefined for one order if and only if it is for the other. *)
Theorem C96_shuffled_lines_keep_dimension_0 :
  forall square past_end past_end' c dim dim' eps cloud cloud' o o' r r',
  squares square -> Permutation cloud cloud' ->
  results square past_end c dim eps cloud o r -> results square past_end' c dim' eps cloud' o' r' ->
  (forall files files', r = Ok files -> r' = Ok files' ->
     exists deaths bars bars', shows square c eps cloud o files deaths bars /\ shows square c eps cloud' o' files' deaths bars') /\
  (past_end = libstdcxx_past_end -> past_end' = libstdcxx_past_end -> (r = UB <-> r' = UB)).
Proof. intros square pe pe' c dim dim' eps cloud cloud' o o' r r' Sq. now apply shuffled_rows. Qed.
Print Assumptions C96_shuffled_lines_keep_dimension_0.

(* C96: the bars of dimension 1 are then the same, too, if no two distances are equal. *)
Theorem C96_shuffled_lines_keep_dimension_1_if_distances_differ :
  forall square c dim dim' eps cloud cloud' o o' files files',
  squares square -> Permutation cloud cloud' -> all_distances_differ square cloud c -> (2 <= dim)%Z -> (2 <= dim')%Z ->
  results square libstdcxx_past_end c dim eps cloud o (Ok files) -> results square libstdcxx_past_end c dim' eps cloud' o' (Ok files') ->
  exists deaths bars bars', shows square c eps cloud o files deaths bars /\ shows square c eps cloud' o' files' deaths bars' /\
    Permutation (bars_in 1 bars) (bars_in 1 bars').
Proof. intros square c dim dim' eps cloud cloud' o o' files files' Sq. now apply shuffled_dim1. Qed.
Print Assumptions C96_shuffled_lines_keep_dimension_1_if_distances_differ.

(* C96: a smaller epsilon only removes the deaths that are not within it. *)
Theorem C96_smaller_epsilon_only_removes_deaths :
  forall square past_end past_end' c dim dim' eps eps' cloud o o' files files',
  squares square -> SFleb eps eps' = true ->
  results square past_end c dim eps cloud o (Ok files) -> results square past_end' c dim' eps' cloud o' (Ok files') ->
  exists deaths bars deaths' bars', shows square c eps cloud o files deaths bars /\ shows square c eps' cloud o' files' deaths' bars' /\
    deaths = filter (withinb c eps) deaths'.
Proof. intros square pe pe' c dim dim' eps eps' cloud o o' files files' Sq. now apply larger_epsilon. Qed.
Print Assumptions C96_smaller_epsilon_only_removes_deaths.

(* C96: further lines, at any place of the input file, make no death later. *)
Theorem C96_further_lines_do_not_delay_deaths :
  forall square past_end past_end' c dim dim' eps cloud extra cloud' o o' files files',
  squares square -> Permutation cloud' (cloud ++ extra) ->
  results square past_end c dim eps cloud o (Ok files) -> results square past_end' c dim' eps cloud' o' (Ok files') ->
  exists deaths bars deaths' bars', shows square c eps cloud o files deaths bars /\ shows square c eps cloud' o' files' deaths' bars' /\
    forall k w, nth_error deaths k = Some w -> exists w', nth_error deaths' k = Some w' /\ SFleb w' w = true.
Proof. intros square pe pe' c dim dim' eps cloud extra cloud' o o' files files' Sq. now apply more_rows. Qed.
Print Assumptions C96_further_lines_do_not_delay_deaths.

(* C96: a further copy of a line adds one death 0 and changes no other death. *)
Theorem C96_repeated_line_adds_a_death_zero :
  forall square past_end past_end' c dim dim' eps cloud p cloud' o o' files files',
  squares square -> Permutation cloud' (p :: cloud) -> In p cloud -> Forall is_finite p -> within c eps (S754_zero false) ->
  results square past_end c dim eps cloud o (Ok files) -> results square past_end' c dim' eps cloud' o' (Ok files') ->
  exists deaths bars bars', shows square c eps cloud o files deaths bars /\ shows square c eps cloud' o' files' (S754_zero false :: deaths) bars'.
Proof. intros square pe pe' c dim dim' eps cloud p cloud' o o' files files' Sq. now apply repeated_row. Qed.
Print Assumptions C96_repeated_line_adds_a_death_zero.

Local Notation txt s := (list_ascii_of_string s).
(* A row of whole numbers written with a point. *)
Lemma whole_cell a y : Forall is_digit a -> a <> [] -> number_of_digits a = 0%Z \/ in_range (numerator (number_of_digits a) 0) (denominator 0) ->
  stod (a ++ ["."%char]) = Some y -> reads_as (a ++ ["."%char]) y.
Proof.
  intros D N R E. left. assert (P := plain_decimal a [] D (Forall_nil _)). rewrite app_nil_r in P. refine (stands_by_reading _ _ _ _ _ (P N) R E).
Qed.
Ltac cell a := apply (whole_cell (txt a)); [repeat constructor|discriminate|first [left; reflexivity|right; split; vm_compute; discriminate]|vm_compute; reflexivity].
Ltac row cs := exists cs; split; [split; [no_char|]; split; [discriminate|]; split;
  [repeat (apply Forall_cons; [split; [discriminate|repeat split; no_char]|]); apply Forall_nil|left; reflexivity]|split; [cbn; lia|]].
Lemma run_results c d e f o dim eps lines argv ls rs cloud r : plain_line argv c d e f o -> o <> "console"%string ->
  reads_number (txt d) dim -> (0 < dim < 2 ^ 31 - 1)%Z -> reads_as (txt e) eps -> non_negative eps ->
  the_file lines f = Some (join newline ls) -> Forall2 line_gives ls rs -> kept rs = cloud -> cloud <> [] -> (forall p q, In p cloud -> In q cloud -> length p = length q) ->
  run_files 0 [] lines argv = r -> results d_square libstdcxx_past_end c dim eps cloud o r.
Proof.
  intros Hl Ho Hd Hk He Pe Hf Hr <- Ne Len <-. do 15 eexists. split; [apply wsort_is_sort|]. do 5 (split; [eassumption|]). split; [exact Pe|]. do 5 (split; [eassumption || reflexivity|]). reflexivity.
Qed.
(* The options -i pts -e E -d D -o res. *)
Definition options (d e : string) : list string := ["-i"; "pts"; "-e"; e; "-d"; d; "-o"; "res"]%string.
Ltac options_line := constructor; try line_value; [intros [[k H] _]; cbn in H; lia|left; split; [line_value|split; [line_value|exists "false"%string; split; [line_value|discriminate]]]
    |exists "0"%string; split; [line_value|discriminate]|exists "false"%string; split; [line_value|split; discriminate]].
Ltac dim_text := split; [discriminate|split; [repeat constructor|split; [reflexivity|discriminate]]].
Ltac same_length := cbn [In]; intros p q Hp Hq; repeat (destruct Hp as [<-|Hp]; [repeat (destruct Hq as [<-|Hq]; [reflexivity|]); destruct Hq|]); destruct Hp.
Ltac a_run d e rows values ec tac :=
  apply (run_results Tree d e "pts" "res" _ _ rows (options d e) (map (fun s => list_ascii_of_string s) rows) (map Some values));
  [options_line|discriminate|dim_text|lia|cell ec|reflexivity|reflexivity|tac|reflexivity|discriminate|same_length|vm_compute; reflexivity].
Definition bar_file (lines : list string) : list (string * text) := [("res.csv"%string, flat_map (fun l => txt l ++ [newline]) ("dimension,birth,death" :: lines)%string)].

(* C96: if the columns of the input file are shuffled, the output can change, because the sums are rounded. *)
Theorem C96_shuffled_columns_refuted :
  exists cloud cloud' files files', Forall2 (@Permutation double) cloud cloud' /\
    (exists f, forall p p', In (p, p') (combine cloud cloud') -> p' = map (fun j => nth j p d_zero) f) /\
    results d_square libstdcxx_past_end Tree 1 (whole 20000000000) cloud "res" (Ok files) /\
    results d_square libstdcxx_past_end Tree 1 (whole 20000000000) cloud' "res" (Ok files') /\
    files = bar_file ["0,0,17179869184.000000"; "0,0,20000000000.000000"]%string /\
    files' = bar_file ["0,0,17179869184.000004"; "0,0,20000000000.000000"]%string.
Proof.
  exists [repeat d_zero 5; whole 17179869184 :: repeat (whole 181) 4], [repeat d_zero 5; repeat (whole 181) 4 ++ [whole 17179869184]]. do 2 eexists.
  split; [apply Forall2_cons; [reflexivity|apply Forall2_cons; [|apply Forall2_nil]]; apply Permutation_cons_append|].
  split; [exists (seq 1 4 ++ [0]); cbn [combine In]; intros p p' [H|[H|[]]]; injection H as <- <-; reflexivity|].
  split; [|split; [|split; reflexivity]].
  - a_run "1"%string "20000000000."%string ["0.,0.,0.,0.,0."; "17179869184.,181.,181.,181.,181."]%string [repeat d_zero 5; whole 17179869184 :: repeat (whole 181) 4] "20000000000"%string
      ltac:(apply Forall2_cons; [row (repeat (txt "0.") 5); repeat (apply Forall2_cons; [cell "0"%string|]); apply Forall2_nil|
            apply Forall2_cons; [row (txt "17179869184." :: repeat (txt "181.") 4); apply Forall2_cons; [cell "17179869184"%string|]; repeat (apply Forall2_cons; [cell "181"%string|]); apply Forall2_nil|apply Forall2_nil]]).
  - a_run "1"%string "20000000000."%string ["0.,0.,0.,0.,0."; "181.,181.,181.,181.,17179869184."]%string [repeat d_zero 5; repeat (whole 181) 4 ++ [whole 17179869184]] "20000000000"%string
      ltac:(apply Forall2_cons; [row (repeat (txt "0.") 5); repeat (apply Forall2_cons; [cell "0"%string|]); apply Forall2_nil|
            apply Forall2_cons; [row (repeat (txt "181.") 4 ++ [txt "17179869184."]); do 4 (apply Forall2_cons; [cell "181"%string|]); apply Forall2_cons; [cell "17179869184"%string|]; apply Forall2_nil|apply Forall2_nil]]).
Qed.
Print Assumptions C96_shuffled_columns_refuted.

(* C96: if the same number is added to a column of the input file, the output can change, because the coordinates are rounded. *)
Theorem C96_moved_points_refuted :
  exists files files',
    (exists file argv f, plain_line argv Tree "1" "5." f "res" /\ file f = Some (join newline [txt "0."; txt "1."]) /\
       lhf_files d_square 0 [] (fun _ _ p => Ok p) wsort libstdcxx_past_end 0%Z (fun g => Ok g) (fun _ _ p => Ok p) (Ok tt) file argv = Ok files) /\
    (exists file argv f, plain_line argv Tree "1" "5." f "res" /\ file f = Some (join newline [txt "9007199254740992."; txt "9007199254740993."]) /\
       lhf_files d_square 0 [] (fun _ _ p => Ok p) wsort libstdcxx_past_end 0%Z (fun g => Ok g) (fun _ _ p => Ok p) (Ok tt) file argv = Ok files') /\
    files = bar_file ["0,0,1.000000"; "0,0,5.000000"]%string /\ files' = bar_file ["0,0,0.000000"; "0,0,5.000000"]%string.
Proof.
  do 2 eexists. split; [|split; [|split; reflexivity]].
  - exists (the_file ["0."; "1."]%string), (options "1" "5."), "pts"%string. split; [options_line|]. split; [reflexivity|]. vm_compute; reflexivity.
  - exists (the_file ["9007199254740992."; "9007199254740993."]%string), (options "1" "5."), "pts"%string. split; [options_line|]. split; [reflexivity|]. vm_compute; reflexivity.
Qed.
Print Assumptions C96_moved_points_refuted.

(* The points 0, 3 and 7; shuffled; with a smaller epsilon; with a point more; with a point twice. *)
Ltac three a b c := apply Forall2_cons; [row [txt (a ++ ".")]; apply Forall2_cons; [cell a|apply Forall2_nil]|
  apply Forall2_cons; [row [txt (b ++ ".")]; apply Forall2_cons; [cell b|apply Forall2_nil]|apply Forall2_cons; [row [txt (c ++ ".")]; apply Forall2_cons; [cell c|apply Forall2_nil]|apply Forall2_nil]]].
Ltac four a b c d := apply Forall2_cons; [row [txt (a ++ ".")]; apply Forall2_cons; [cell a|apply Forall2_nil]|three b c d].
Example C96_ex :
  results d_square libstdcxx_past_end Tree 1 (whole 5) [[d_zero]; [whole 3]; [whole 7]] "res" (Ok (bar_file ["0,0,3.000000"; "0,0,4.000000"; "0,0,5.000000"]%string)) /\
  results d_square libstdcxx_past_end Tree 1 (whole 5) [[whole 7]; [d_zero]; [whole 3]] "res" (Ok (bar_file ["0,0,3.000000"; "0,0,4.000000"; "0,0,5.000000"]%string)) /\
  results d_square libstdcxx_past_end Tree 1 (whole 4) [[d_zero]; [whole 3]; [whole 7]] "res" (Ok (bar_file ["0,0,3.000000"; "0,0,4.000000"]%string)) /\
  results d_square libstdcxx_past_end Tree 1 (whole 5) [[d_zero]; [whole 1]; [whole 3]; [whole 7]] "res" (Ok (bar_file ["0,0,1.000000"; "0,0,2.000000"; "0,0,4.000000"; "0,0,5.000000"]%string)) /\
  results d_square libstdcxx_past_end Tree 1 (whole 5) [[d_zero]; [whole 3]; [whole 7]; [whole 3]] "res" (Ok (bar_file ["0,0,0.000000"; "0,0,3.000000"; "0,0,4.000000"; "0,0,5.000000"]%string)) /\
  SFleb (whole 4) (whole 5) = true /\ within Tree (whole 5) (S754_zero false) /\ Permutation [[d_zero]; [whole 3]; [whole 7]; [whole 3]] ([whole 3] :: [[d_zero]; [whole 3]; [whole 7]]) /\
  Permutation [[d_zero]; [whole 1]; [whole 3]; [whole 7]] ([[d_zero]; [whole 3]; [whole 7]] ++ [[whole 1]]).
Proof.
  split; [a_run "1"%string "5."%string ["0."; "3."; "7."]%string [[d_zero]; [whole 3]; [whole 7]] "5"%string ltac:(three "0"%string "3"%string "7"%string)|].
  split; [a_run "1"%string "5."%string ["7."; "0."; "3."]%string [[whole 7]; [d_zero]; [whole 3]] "5"%string ltac:(three "7"%string "0"%string "3"%string)|].
  split; [a_run "1"%string "4."%string ["0."; "3."; "7."]%string [[d_zero]; [whole 3]; [whole 7]] "4"%string ltac:(three "0"%string "3"%string "7"%string)|].
  split; [a_run "1"%string "5."%string ["0."; "1."; "3."; "7."]%string [[d_zero]; [whole 1]; [whole 3]; [whole 7]] "5"%string ltac:(four "0"%string "1"%string "3"%string "7"%string)|].
  split; [a_run "1"%string "5."%string ["0."; "3."; "7."; "3."]%string [[d_zero]; [whole 3]; [whole 7]; [whole 3]] "5"%string ltac:(four "0"%string "3"%string "7"%string "3"%string)|].
  split; [reflexivity|]. split; [reflexivity|]. split; [apply (Permutation_sym (Permutation_cons_append [[d_zero]; [whole 3]; [whole 7]] [whole 3]))|].
  apply Permutation_cons; [reflexivity|]. apply (Permutation_cons_append [[whole 3]; [whole 7]] [whole 1]).
Qed.

(* Five points in the plane at different distances, in two orders, with bars of dimension 1. *)
Definition five : list (list double) := [[whole 3; whole 1]; [d_zero; d_zero]; [whole 10; d_zero]; [whole 10; whole 11]; [d_zero; whole 12]].
Lemma five_differ : all_distances_differ d_square five Tree.
Proof.
  assert (T : forall u v w, u < v -> seen_apart d_square five Tree u v w -> In (u, v, w) (map (fun p : nat * nat => (fst p, snd p,
    match d_distance d_square (nth (fst p) five []) (nth (snd p) five []) with Ok x => x | UB => S754_nan end)) [(0,1); (0,2); (0,3); (0,4); (1,2); (1,3); (1,4); (2,3); (2,4); (3,4)])).
  { intros u v w Huv (x & (a & b & A & B & D) & ->). assert (Hv : v < length five) by (apply nth_error_Some; rewrite B; discriminate). cbn [length five] in Hv.
    do 5 (destruct u as [|u]; [do 5 (destruct v as [|v]; [try lia; cbn in A, B; injection A as <-; injection B as <-; vm_compute in D; injection D as <-; vm_compute; auto 12|]); lia|]). lia. }
  intros u v u' v' w H1 H2 A A'. apply T in A; [|exact H1]. apply T in A'; [|exact H2]. clear T. vm_compute in A, A'.
  repeat (destruct A as [A|A]; [injection A as <- <- <-; repeat (destruct A' as [A'|A']; [try discriminate A'; injection A' as <- <-; split; reflexivity|]); destruct A'|]). destruct A.
Qed.
Ltac pair a b := row [txt (a ++ "."); txt (b ++ ".")]; apply Forall2_cons; [cell a|apply Forall2_cons; [cell b|apply Forall2_nil]].
Lemma five_ends rows values ls : the_file rows "pts" = Some (join newline ls) -> Forall2 line_gives ls (map Some values) -> kept (map Some values) = values ->
  values <> [] -> (forall p q, In p values -> In q values -> length p = length q) -> (exists w, near_pair d_square values Tree (whole 15) w) ->
  exists files, results d_square libstdcxx_past_end Tree 2 (whole 15) values "res" (Ok files).
Proof.
  intros Hf Hr Hv Ne Len N.
  assert (R : results d_square libstdcxx_past_end Tree 2 (whole 15) values "res" (run_files 0 [] rows (options "2" "15."))).
  { apply (run_results Tree "2" "15." "pts" "res" 2 (whole 15) rows (options "2" "15.") ls (map Some values)); auto; [options_line|discriminate|dim_text|lia|cell "15"%string|reflexivity]. }
  destruct (run_files 0 [] rows (options "2" "15.")) as [files|]; [eauto|]. destruct (proj1 (result_undefined d_square square_squares _ _ _ _ _ _ R) eq_refl N).
Qed.
Definition five' : list (list double) := [[d_zero; d_zero]; [whole 10; d_zero]; [whole 10; whole 11]; [whole 3; whole 1]; [d_zero; whole 12]].
Example C96_ex_dim1 :
  all_distances_differ d_square five Tree /\ Permutation five five' /\
  exists files files', results d_square libstdcxx_past_end Tree 2 (whole 15) five "res" (Ok files) /\ results d_square libstdcxx_past_end Tree 2 (whole 15) five' "res" (Ok files').
Proof.
  split; [exact five_differ|]. split; [apply (Permutation_cons_app [[d_zero; d_zero]; [whole 10; d_zero]; [whole 10; whole 11]] [[d_zero; whole 12]]); reflexivity|].
  destruct (five_ends ["3.,1."; "0.,0."; "10.,0."; "10.,11."; "0.,12."]%string five (map (fun s => list_ascii_of_string s) ["3.,1."; "0.,0."; "10.,0."; "10.,11."; "0.,12."]%string)) as (files & R);
    [reflexivity| |reflexivity|discriminate|same_length| |].
  - apply Forall2_cons; [pair "3"%string "1"%string|apply Forall2_cons; [pair "0"%string "0"%string|apply Forall2_cons; [pair "10"%string "0"%string|apply Forall2_cons; [pair "10"%string "11"%string|apply Forall2_cons; [pair "0"%string "12"%string|apply Forall2_nil]]]]].
  - eexists. split; [|exists 0, 1; split; [lia|]; eexists; split; [exists [whole 3; whole 1], [d_zero; d_zero]; split; [reflexivity|]; split; [reflexivity|]; vm_compute; reflexivity|reflexivity]]. vm_compute. reflexivity.
  - destruct (five_ends ["0.,0."; "10.,0."; "10.,11."; "3.,1."; "0.,12."]%string five'
      (map (fun s => list_ascii_of_string s) ["0.,0."; "10.,0."; "10.,11."; "3.,1."; "0.,12."]%string)) as (files' & R'); [reflexivity| |reflexivity|discriminate|same_length| |].
    + apply Forall2_cons; [pair "0"%string "0"%string|apply Forall2_cons; [pair "10"%string "0"%string|apply Forall2_cons; [pair "10"%string "11"%string|apply Forall2_cons; [pair "3"%string "1"%string|apply Forall2_cons; [pair "0"%string "12"%string|apply Forall2_nil]]]]].
    + eexists. split; [|exists 0, 3; split; [lia|]; eexists; split; [exists [d_zero; d_zero], [whole 3; whole 1]; split; [reflexivity|]; split; [reflexivity|]; vm_compute; reflexivity|reflexivity]]. vm_compute. reflexivity.
    + eauto.
Qed.
