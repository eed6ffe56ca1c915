(* PropertiesProgram.v -- C94: the program from the text of its input to the text of its output. *)
From Coq Require Import String Ascii List Arith ZArith Bool Lia Sorted SpecFloat.
From Verif Require Import Base Spec SpecComplex FastModel SpecFast ArgModel SpecArgs PipeModel SpecPipe MainModel SpecMain PropertiesComplex PropertiesPipe PropertiesMain.
From Verif Require Import DoubleModel SpecDouble DoubleProofs DoubleRuns PropertiesDouble.
From Verif Require Import IoModel SpecIo TextModel SpecText ReadModel SpecRead ReadProofs SpecProgram ProgramModel ProgramRuns.
Import ListNotations.
Local Open Scope nat_scope.
Local Open Scope list_scope.

(* C94: what the program writes for a command line and an input file of decimal numbers.  The points are the rows of the
   doubles the numbers stand for (blank lines hold no point), epsilon is the double its text stands for, and the dimension is
   the number its text reads as.  If the run ends, one file is written: the header, a line 0,0,w for each height w at which
   clusters of the points merge, in ascending order, the line 0,0,epsilon, and a line for each bar of a higher dimension.
   The run is undefined if no two points are within epsilon; otherwise it ends with libstdc++'s list. *)
Theorem C94_from_text_to_text :
  forall square srt past_end nc0 al_reduce other pre_run pre_stats uaf file argv c d e f o k eps lines rs,
  is_sort srt -> squares square ->
  plain_line argv c d e f o -> o <> "console"%string ->
  reads_number (list_ascii_of_string d) k -> (0 < k < 2 ^ 31 - 1)%Z ->
  stands_for (list_ascii_of_string e) eps -> non_negative eps ->
  file f = Some (join newline lines) -> Forall2 line_holds lines rs ->
  let cloud := kept rs in
  (forall p q, In p cloud -> In q cloud -> length p = length q) -> cloud <> [] ->
  let program := lhf_text square srt past_end nc0 al_reduce other pre_run pre_stats uaf file argv in
  let two_close := exists u v w, u < v /\ apart square cloud u v w /\ within c eps w in
  (forall files, program = Ok files ->
     exists deaths bars,
       files = [((o ++ ".csv")%string,
         list_ascii_of_string "dimension,birth,death" ++ newline ::
         concat (map (fun w => list_ascii_of_string "0,0," ++ to_string w ++ [newline]) (deaths ++ [eps])) ++
         concat (map (fun l : nat * double * double => show (Z.of_nat (fst (fst l))) ++ comma :: to_string (snd (fst l)) ++ comma :: to_string (snd l) ++ [newline]) bars))] /\
       StronglySorted (fun x y => SFleb x y = true) deaths /\
       (forall w, In w deaths -> within c eps w /\ exists u v, u < v /\ apart square cloud u v w) /\
       (forall t n, is_number t -> fits t ->
         (double_clusters square cloud c eps t n <-> length (filter (fun w => SFleb w t) deaths) + n = length cloud)) /\
       (forall k b w, In (k, b, w) bars -> 1 <= k /\ SFeqb b w = false /\
          (within c eps b /\ exists u v, u < v /\ apart square cloud u v b) /\ (within c eps w /\ exists u v, u < v /\ apart square cloud u v w))) /\
  (~ two_close -> program = UB) /\
  (two_close -> past_end = libstdcxx_past_end -> exists files, program = Ok files).
Proof. intros. eapply program_text; eassumption. Qed.
Print Assumptions C94_from_text_to_text.

(* C94: a number beyond the doubles, at any place of the file behind rows that can be read, ends the program with an
   exception before any file is written. *)
Theorem C94_number_out_of_range_throws :
  forall square srt past_end nc0 al_reduce other pre_run pre_stats uaf file argv c d e f o lines rs line cells row bad more rest,
  plain_line argv c d e f o -> Forall2 line_holds lines rs -> one_line line -> 2 <= length (strip line) ->
  strip line = flat_map (fun t => t ++ [comma]) cells ++ bad ++ more -> Forall plain cells -> Forall2 stands_for cells row -> ~ In comma bad ->
  (more = [] \/ exists more', more = comma :: more') -> out_of_range bad ->
  file f = Some (lines_of lines ++ line ++ rest) -> (rest = [] \/ exists rest', rest = newline :: rest') ->
  lhf_text square srt past_end nc0 al_reduce other pre_run pre_stats uaf file argv = Ok [].
Proof. exact program_throws. Qed.
Print Assumptions C94_number_out_of_range_throws.

Local Notation txt s := (list_ascii_of_string s).
Lemma stands_by_reading t neg n x y : decimal_text t neg n x -> n = 0%Z \/ in_range (numerator n x) (denominator x) -> stod t = Some y -> stands_for t y.
Proof. intros T R E. destruct (stod_decimal _ _ _ _ T R) as (z & E' & N & S). rewrite E in E'. injection E' as <-. exists neg, n, x. auto. Qed.
(* A decimal without sign and exponent. *)
Lemma plain_decimal a b : Forall is_digit a -> Forall is_digit b -> a ++ b <> [] ->
  decimal_text (a ++ "."%char :: b) false (number_of_digits (a ++ b)) (0 - Z.of_nat (length b)).
Proof.
  intros A B N. exists [], a, ["."%char], b, [], 0%Z. rewrite app_nil_r. split; [reflexivity|]. split; [now left|]. do 3 (split; [assumption|]). split; [now left|]. split; [left; auto|]. auto.
Qed.
Ltac one_cell := split; [split; [no_char|]; split; [discriminate|]; split;
  [apply Forall_cons; [split; [discriminate|repeat split; no_char]|apply Forall_nil]|cbn; auto]|split; [cbn; lia|]].
Definition run_text (lines : list string) (argv : list string) : res (list (string * text)) :=
  lhf_text d_square wsort libstdcxx_past_end 0%Z (fun g => Ok g) (fun _ _ p => Ok p) three_centres (fun _ p => Ok p) (Ok tt) (the_file lines) argv.
Definition the_line : list string := ["-i"; "pts"; "-e"; "5."; "-d"; "1"; "-o"; "res"]%string.
(* The points 0, 3 and 7 and epsilon 5. *)
Example C94_ex :
  plain_line the_line Tree "1" "5." "pts" "res" /\ reads_number (txt "1") 1 /\ stands_for (txt "5.") (whole 5) /\ non_negative (whole 5) /\
  Forall2 line_holds [txt " 0."; txt "3.0"; txt " "; txt "7.,"] [Some [d_zero]; Some [whole 3]; None; Some [whole 7]] /\
  the_file [" 0."; "3.0"; " "; "7.,"]%string "pts" = Some (join newline [txt " 0."; txt "3.0"; txt " "; txt "7.,"]) /\
  run_text [" 0."; "3.0"; " "; "7.,"]%string the_line =
    Ok [("res.csv"%string, txt "dimension,birth,death" ++ newline :: txt "0,0,3.000000" ++ newline :: txt "0,0,4.000000" ++ newline :: txt "0,0,5.000000" ++ [newline])].
Proof.
  split; [constructor; try line_value; [intros [[k H] _]; cbn in H; lia|left; split; [line_value|split; [line_value|exists "false"%string; split; [line_value|discriminate]]]
    |exists "0"%string; split; [line_value|discriminate]|exists "false"%string; split; [line_value|split; discriminate]]|].
  split; [split; [discriminate|split; [repeat constructor|split; [reflexivity|discriminate]]]|].
  split; [refine (stands_by_reading _ _ _ _ _ (plain_decimal (txt "5") [] _ _ _) _ _); [repeat constructor|constructor|discriminate|right; split; vm_compute; discriminate|vm_compute; reflexivity]|].
  split; [reflexivity|]. split; [|split; [reflexivity|vm_compute; reflexivity]].
  apply Forall2_cons; [exists [txt "0."]; one_cell; constructor; [|constructor]|apply Forall2_cons; [exists [txt "3.0"]; one_cell; constructor; [|constructor]|apply Forall2_cons; [|apply Forall2_cons; [exists [txt "7."]; one_cell; constructor; [|constructor]|constructor]]]].
  - refine (stands_by_reading _ _ _ _ _ (plain_decimal (txt "0") [] _ _ _) _ _); [repeat constructor|constructor|discriminate|left; reflexivity|vm_compute; reflexivity].
  - refine (stands_by_reading _ _ _ _ _ (plain_decimal (txt "3") (txt "0") _ _ _) _ _); [repeat constructor|repeat constructor|discriminate|right; split; vm_compute; discriminate|vm_compute; reflexivity].
  - split; [unfold one_line; cbn; intuition discriminate|vm_compute; auto].
  - refine (stands_by_reading _ _ _ _ _ (plain_decimal (txt "7") [] _ _ _) _ _); [repeat constructor|constructor|discriminate|right; split; vm_compute; discriminate|vm_compute; reflexivity].
Qed.
Example C94_ex_throws :
  out_of_range (txt "1e310") /\ strip (txt "2., 1e310,4.") = flat_map (fun t => t ++ [comma]) [txt "2."] ++ txt "1e310" ++ comma :: txt "4." /\
  run_text ["3.0"; "2., 1e310,4."]%string the_line = Ok [].
Proof.
  split; [|split; [reflexivity|vm_compute; reflexivity]]. exists false, 1%Z, 310%Z. split.
  - exists [], (txt "1"), [], [], (txt "e310"), 310%Z. split; [reflexivity|]. split; [now left|]. split; [repeat constructor|]. split; [constructor|]. split; [discriminate|].
    split; [right; auto|]. split; [|split; reflexivity]. right. exists "e"%char, [], false, (txt "310"). split; [reflexivity|]. split; [now left|]. split; [now left|].
    split; [discriminate|]. split; [repeat constructor|reflexivity].
  - left. vm_compute. discriminate.
Qed.
