(* PropertiesLow.v -- C103: runs with a dimension that is not positive. *)
From Coq Require Import String Ascii List Arith ZArith Bool Lia Sorted Permutation Relations.
From Verif Require Import Base UtilsModel ArrayListModel TreeModel FastModel ArgModel IoModel PipeModel MainModel.
From Verif Require Import Spec SpecIo SpecComplex SpecTree SpecArgs SpecGraph SpecLinear SpecFast SpecPipe SpecMain.
From Verif Require Import IoProofs PipeRuns MainRuns LowRuns PropertiesComplex PropertiesPipe PropertiesMain.
Import ListNotations.
Local Open Scope nat_scope.
Local Open Scope list_scope.

(* ---------------------------------------------------------------- C103 *)
(* A plain command line whose dimension is 0 or negative, on a file with points.  With the simplex tree the run ends
   exactly if two points are close, and the barcode file then holds the single-linkage heights, one bar that lasts until
   epsilon and nothing else; the unspecified behaviour of the list of pivots plays no part.  With the array list the run
   is always undefined: it reads the edges of a complex that has none. *)
Theorem C103_dimension_not_positive :
  forall dist atoi atof srt past_end nc0 al_reduce other pre_run pre_stats uaf stod file argv c d e f o data,
  is_sort srt -> (forall x y, (0 <= dist x y)%Z) -> (atoi d <= 0)%Z ->
  plain_line argv c d e f o -> holds_points stod file f data -> data <> [] ->
  let program := lhf dist atoi atof srt past_end nc0 al_reduce other pre_run pre_stats uaf stod file argv in
  let two_close := exists u v, u < v /\ v < length data /\ (separation dist data u v < atof e)%Z in
  match c with
  | Tree =>
      (two_close -> exists q deaths,
         program = Ok (Ran q (if String.eqb o "console" then [] else [((o ++ ".csv")%string, pk_output q)])) /\
         pk_output q = map (fun w => (0, 0%Z, w)) deaths ++ [(0, 0%Z, atof e)] /\
         forall t n, clusters dist data Tree (atof e) t n <-> count_le t deaths + n = length data) /\
      (~ two_close -> program = UB)
  | ArrayList => program = UB
  end.
Proof.
  intros dist atoi atof srt past_end nc0 al_reduce other pre_run pre_stats uaf stod file argv c d e f o data Hs Hpos Hd Hl Hf Hne. cbv zeta.
  destruct (plain_lhf dist atoi atof srt past_end nc0 al_reduce other pre_run pre_stats uaf stod file _ _ _ _ _ _ _ Hl Hf Hne) as (args & Dr & ->).
  assert (Hrow := readCSV_ne _ _ _ _ (holds_reads _ _ _ _ Hf)). destruct c.
  - destruct (low_tree dist atoi atof srt past_end nc0 al_reduce other args Tree d e data Hs Dr Hrow Hpos Hd Hne eq_refl) as [A B]. split.
    + intros Hp. destruct (A Hp) as (q & deaths & -> & D). exists q, deaths. split; auto.
    + intros Hn. now rewrite (B Hn).
  - now rewrite (low_array dist atoi atof srt past_end nc0 al_reduce other args ArrayList d e data Dr Hrow Hpos Hd Hne eq_refl).
Qed.
Print Assumptions C103_dimension_not_positive.

Lemma low_example c : plain_line ["-i"; "pts"; "-e"; "5"; "-d"; "0"; "-c"; cx_name c; "-o"; "res"]%string c "0" "5" "pts" "res".
Proof.
  destruct c; (constructor; try line_value; [intros [[k H] _]; cbn in H; lia|
    first [left; split; [line_value|]; split; [line_value|]; exists "false"%string; split; [line_value|discriminate]|right; line_value]|
    exists "0"%string; split; [line_value|discriminate]|exists "false"%string; split; [line_value|split; discriminate]]).
Qed.

(* Four points 0, 1, 4, 10: with the tree and dimension 0 the bars end at 1, 3 and epsilon; 10 is joined to nothing. *)
Example C103_ex :
  (number "0" <= 0)%Z /\
  holds_points decimal (the_file ["00"; "01"; "04"; "10"]%string) "pts" [[0]; [1]; [4]; [10]]%Z /\
  (forall c, plain_line ["-i"; "pts"; "-e"; "5"; "-d"; "0"; "-c"; cx_name c; "-o"; "res"]%string c "0" "5" "pts" "res") /\
  bars (program ["00"; "01"; "04"; "10"]%string ["-i"; "pts"; "-e"; "5"; "-d"; "0"; "-c"; "simplexTree"; "-o"; "res"]%string) =
    Some [("res.csv"%string, [(0, 0%Z, 1%Z); (0, 0%Z, 3%Z); (0, 0%Z, 5%Z)])] /\
  program ["00"; "01"; "04"; "10"]%string ["-i"; "pts"; "-e"; "5"; "-d"; "0"; "-c"; "simplexArrayList"; "-o"; "res"]%string = UB /\
  program ["00"; "10"]%string ["-i"; "pts"; "-e"; "5"; "-d"; "0"; "-c"; "simplexTree"; "-o"; "res"]%string = UB.
Proof.
  split; [vm_compute; discriminate|].
  split.
  { right. exists (map list_ascii_of_string ["00"; "01"; "04"; "10"]%string), [Some [0]; Some [1]; Some [4]; Some [10]]%Z.
    split; [discriminate|]. split; [reflexivity|]. split; [|reflexivity]. cbn [map].
    apply Forall2_cons; [exists [list_ascii_of_string "00"]; row|]. apply Forall2_cons; [exists [list_ascii_of_string "01"]; row|].
    apply Forall2_cons; [exists [list_ascii_of_string "04"]; row|]. apply Forall2_cons; [exists [list_ascii_of_string "10"]; row|]. constructor. }
  split; [exact low_example|].
  split; [vm_compute; reflexivity|]. split; vm_compute; reflexivity.
Qed.
