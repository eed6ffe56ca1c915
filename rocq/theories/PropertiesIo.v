(* PropertiesIo.v -- C30 to C33, C61, C62: reading and writing files. *)
From Coq Require Import Ascii String List Arith ZArith Bool Lia.
From Verif Require Import Base IoModel SpecIo IoProofs IoTotal MatTotal.
Import ListNotations.
Local Open Scope nat_scope.
Local Open Scope list_scope.

(* C30: a CSV file written from rows reads back as the rows that are not empty, with the printed precision. *)
Theorem C30_csv_roundtrip : forall num (stod : text -> option num) to_string rnd, printable stod to_string rnd ->
  forall data, readCSV num stod (Some (writeCSV num to_string data)) = Some (map (map rnd) (filter (fun row => negb (length row =? 0)) data)).
Proof. exact readCSV_writeCSV. Qed.
Print Assumptions C30_csv_roundtrip.

(* C30: a file written with the barcode header cannot be read back: the reader throws on the header. *)
Theorem C30_barcode_file_throws : forall num (stod : text -> option num) to_string,
  stod (list_ascii_of_string "dimension") = None ->
  forall data, readCSV num stod (Some (writeCSV_header num to_string data barcode_header)) = None.
Proof.
  intros num stod to_string D data. set (bad := list_ascii_of_string "dimension,birth,death").
  change (writeCSV_header num to_string data barcode_header) with (lines_of [] ++ bad ++ newline :: writeCSV num to_string data).
  apply (readCSV_throw num stod [] [] bad); [constructor| |].
  - unfold one_line. cbn. intuition discriminate.
  - assert (E : commas num stod (length (strip bad)) (flat_map (fun c => c ++ [comma]) [] ++ list_ascii_of_string "dimension" ++ comma :: list_ascii_of_string "birth,death") [] = None).
    { apply (commas_throw num stod [] [] (list_ascii_of_string "dimension")); auto. cbn. intuition discriminate. }
    change (option_map (pair true) (commas num stod (length (strip bad)) (flat_map (fun c => c ++ [comma]) [] ++ list_ascii_of_string "dimension" ++ comma :: list_ascii_of_string "birth,death") []) = None).
    now rewrite E.
Qed.
Print Assumptions C30_barcode_file_throws.

(* C31: what reading a CSV file gives, line by line: lines with fewer than two characters besides spaces are dropped. *)
Theorem C31_csv_lines : forall num (stod : text -> option num) lines rs, lines <> [] ->
  Forall2 (line_reads stod) lines rs -> readCSV num stod (Some (join newline lines)) = Some (kept rs).
Proof. exact readCSV_lines. Qed.
Print Assumptions C31_csv_lines.
(* C31: every file: its lines are the pieces between newlines, and the reader gives the rows of the lines that have any,
   or throws exactly if some line of at least two characters besides spaces has a cell that is no number. *)
Theorem C31_every_file : forall num (stod : text -> option num) t, exists lines, lines <> [] /\ Forall one_line lines /\ t = join newline lines /\
  (forall data, readCSV num stod (Some t) = Some data <-> exists rs, Forall2 (row_of stod) lines rs /\ data = kept rs) /\
  (readCSV num stod (Some t) = None <-> exists line, In line lines /\ bad_line stod line).
Proof. exact readCSV_total. Qed.
Print Assumptions C31_every_file.
(* C31: a file that cannot be opened reads as no rows, in either format: the readers do not throw. *)
Theorem C31_missing_file : forall num (stod : text -> option num) stoi, readCSV num stod None = Some [] /\ readMAT num stod stoi None = Some [].
Proof. intros. split; reflexivity. Qed.
Print Assumptions C31_missing_file.
(* C31: in particular a file of one-character rows reads as no data, whatever the characters. *)
Theorem C31_one_character_rows_lost : forall num (stod : text -> option num) (cells : list ascii), cells <> [] -> ~ In newline cells ->
  readCSV num stod (Some (join newline (map (fun c => [c]) cells))) = Some [].
Proof.
  intros num stod cells N H. rewrite (readCSV_lines num stod _ (map (fun _ => None) cells)).
  - f_equal. clear. induction cells; cbn; auto.
  - destruct cells; [easy|discriminate].
  - clear N. induction cells as [|c cells IH]; cbn [map]; constructor; [|apply IH; intros K; apply H; now right]. split.
    + intros [K|[]]. apply H. now left.
    + unfold strip. cbn. destruct (Ascii.eqb c space); cbn; lia.
Qed.
Print Assumptions C31_one_character_rows_lost.
(* C31: an empty cell before a comma makes the whole read throw. *)
Theorem C31_empty_cell_throws : forall num (stod : text -> option num) lines rs cells vs line more rest, stod [] = None ->
  Forall2 (line_reads stod) lines rs -> Forall plain cells -> map stod cells = map Some vs ->
  one_line line -> strip line = flat_map (fun c => c ++ [comma]) cells ++ comma :: more -> 2 <= length (strip line) ->
  readCSV num stod (Some (lines_of lines ++ line ++ newline :: rest)) = None.
Proof.
  intros num stod lines rs cells vs line more rest E0 F P M O S2 L. apply (readCSV_throw num stod lines rs line rest F O).
  unfold parseDoubleVector. replace (1 <? length (strip line)) with true by (symmetry; apply Nat.ltb_lt; lia). rewrite S2 at 2.
  assert (C := commas_throw num stod cells vs [] more (length (strip line)) [] P M ltac:(intros []) E0). cbn [app] in C. rewrite C. reflexivity.
Qed.
Print Assumptions C31_empty_cell_throws.

(* C32: a MAT file written from a rectangular matrix reads back as the matrix; *)
Theorem C32_mat_roundtrip : forall num (stod : text -> option num) to_string rnd, printable stod to_string rnd ->
  forall stoi show data d, count_printable stoi show (length data) -> count_printable stoi show d ->
  data <> [] -> Forall (fun row => length row = d) data ->
  exists t, writeMAT num to_string show data = Ok t /\ readMAT num stod stoi (Some t) = Some (map (map rnd) data).
Proof. exact readMAT_writeMAT_rect. Qed.
Print Assumptions C32_mat_roundtrip.
(* C32: for any matrix the values are cut into rows of the width of the first one; writing no rows is undefined. *)
Theorem C32_mat_any_matrix : forall num (stod : text -> option num) to_string rnd, printable stod to_string rnd ->
  forall stoi show data, count_printable stoi show (length data) -> count_printable stoi show (length (hd [] data)) ->
  (data <> [] -> exists t, writeMAT num to_string show data = Ok t /\
     readMAT num stod stoi (Some t) = Some (map (fun i => chunk (length (hd [] data)) i (map rnd (concat data))) (seq 0 (length data)))) /\
  (data = [] -> writeMAT num to_string show data = UB).
Proof. intros. split; [now apply readMAT_writeMAT|now intros ->]. Qed.
Print Assumptions C32_mat_any_matrix.

(* C61: a MAT file with too few values: missing values are left out if the file ends with a newline, and the last value
   is repeated if it does not. *)
Theorem C61_short_mat_file : forall num (stod : text -> option num) to_string rnd, printable stod to_string rnd ->
  forall stoi show r d vs last, count_printable stoi show r -> count_printable stoi show d ->
  readMAT num stod stoi (Some (show r ++ newline :: show d ++ newline :: lines_of (map to_string (vs ++ [last])))) =
    Some (map (fun i => chunk d i (map rnd (vs ++ [last]))) (seq 0 r)) /\
  readMAT num stod stoi (Some (show r ++ newline :: show d ++ newline :: join newline (map to_string (vs ++ [last])))) =
    Some (map (fun i => map (fun j => nth (i * d + j) (map rnd (vs ++ [last])) (rnd last)) (seq 0 d)) (seq 0 r)).
Proof. intros. split; [now apply readMAT_newline|now apply readMAT_no_newline]. Qed.
Print Assumptions C61_short_mat_file.
(* C61: every MAT file: no rows if a count is missing, an exception if a count is no number; else as many rows as the
   first count says, the values taken from the lines one by one, and from the last line again and again when there are
   no more lines; a cell that is no number makes the reader throw. *)
Theorem C61_every_mat_file : forall num (stod : text -> option num) stoi t, exists lines, lines <> [] /\ Forall one_line lines /\ t = join newline lines /\
  (t = [] -> readMAT num stod stoi (Some t) = Some []) /\
  (t <> [] -> stoi (strip (nth 0 lines [])) = None -> readMAT num stod stoi (Some t) = None) /\
  (forall r, t <> [] -> stoi (strip (nth 0 lines [])) = Some r ->
     (tl lines = [] \/ tl lines = [[]] -> readMAT num stod stoi (Some t) = Some []) /\
     (tl lines <> [] -> tl lines <> [[]] -> stoi (strip (nth 1 lines [])) = None -> readMAT num stod stoi (Some t) = None) /\
     (forall d, tl lines <> [] -> tl lines <> [[]] -> stoi (strip (nth 1 lines [])) = Some d ->
        (forall data, readMAT num stod stoi (Some t) = Some data <->
           length data = Z.to_nat r /\ forall i row, nth_error data i = Some row ->
             cells_give stod (map (fun j => mat_cell lines (i * Z.to_nat d + j)) (seq 0 (Z.to_nat d))) row) /\
        (readMAT num stod stoi (Some t) = None <->
           exists k, k < Z.to_nat r * Z.to_nat d /\ strip (mat_cell lines k) <> [] /\ stod (strip (mat_cell lines k)) = None))).
Proof. exact readMAT_total. Qed.
Print Assumptions C61_every_mat_file.

(* C33: the rows a stream delivers: one for each line, until a line of spaces, the end of the file, or a last line of at
   most one character. *)
Theorem C33_stream_rows : forall num (stod : text -> option num), stod_ignores_newline stod ->
  forall lines rows t fuel, Forall2 (stream_line stod) lines rows -> stream_end t -> length lines < fuel ->
  stream_rows num stod fuel (lines_of lines ++ t) = Some rows.
Proof. exact stream_rows_spec. Qed.
Print Assumptions C33_stream_rows.
(* C33: every file: the buffer gets its pieces of at most 999 characters; the rows are those of the pieces before the
   first piece with at most one character besides spaces; a cell that is no number before that makes the reader throw. *)
Theorem C33_every_stream : forall num (stod : text -> option num) t, exists pieces, chunked t pieces /\ forall fuel, length t < fuel ->
  (forall rows, stream_rows num stod fuel t = Some rows <-> exists read rest, pieces = read ++ rest /\
     Forall2 (buffer_row stod) read rows /\ (rest = [] \/ exists b more, rest = b :: more /\ buffer_blank b)) /\
  (stream_rows num stod fuel t = None <-> exists read rows b more, pieces = read ++ b :: more /\
     Forall2 (buffer_row stod) read rows /\ buffer_bad stod b).
Proof. exact stream_total. Qed.
Print Assumptions C33_every_stream.
(* C33: a line that does not fit the buffer is cut after 999 characters; the rest is read as a line of its own. *)
Theorem C33_long_line_is_cut : forall num (stod : text -> option num) t row, 999 <= length t -> one_line (firstn 999 t) ->
  streamRead num stod t row =
  match parseDoubleVector num stod (cstring (firstn 999 t)) row with None => None | Some (b, row') => Some (skipn 999 t, b, row') end.
Proof. exact streamRead_long. Qed.
Print Assumptions C33_long_line_is_cut.

(* C62: a file written by writeCSV cannot be streamed: the comma at the end of its first line makes the reader throw. *)
Theorem C62_written_csv_cannot_be_streamed : forall num (stod : text -> option num) to_string rnd, printable stod to_string rnd -> stod [newline] = None ->
  forall row data fuel, row <> [] -> length (flat_map (fun c => to_string c ++ [comma]) row) <= 998 ->
  stream_rows num stod fuel (writeCSV num to_string (row :: data)) = None.
Proof. exact stream_of_csv_throws. Qed.
Print Assumptions C62_written_csv_cannot_be_streamed.

(* A small number format: one digit, perhaps followed by more. *)
Definition dig (n : nat) : text := [ascii_of_nat (48 + n mod 10)].
Definition rdig (t : text) : option nat :=
  match t with c :: _ => let k := nat_of_ascii c in if (48 <=? k) && (k <=? 57) then Some (k - 48) else None | [] => None end.
Definition tally (n : nat) : text := repeat "1"%char (S n).
Definition untally (t : text) : option Z := Some (Z.of_nat (length t - 1)).
Lemma dig_printable : printable rdig dig (fun n => n mod 10).
Proof.
  intros x. assert (L : x mod 10 < 10) by (apply Nat.mod_upper_bound; lia). unfold dig. generalize dependent (x mod 10). intros y L.
  do 10 (destruct y as [|y]; [split; [split; [discriminate|cbn; repeat split; intros [K|[]]; discriminate]|reflexivity]|]). lia.
Qed.
Lemma rdig_newline : stod_ignores_newline rdig.
Proof. intros [|c t] [N _]; [easy|reflexivity]. Qed.
Lemma tally_printable n : count_printable untally tally n.
Proof.
  split.
  - split; [discriminate|]. assert (K : forall c, In c (tally n) -> c = "1"%char) by (intros c Hc; now apply repeat_spec in Hc). repeat split; intros H; apply K in H; discriminate.
  - unfold untally, tally. rewrite repeat_length. f_equal. f_equal. lia.
Qed.
Example C30_ex : readCSV nat rdig (Some (writeCSV nat dig [[1; 2]; []; [3; 14]])) = Some [[1; 2]; [3; 4]].
Proof. exact (C30_csv_roundtrip nat rdig dig (fun n => n mod 10) dig_printable [[1; 2]; []; [3; 14]]). Qed.
Example C31_ex : readCSV nat rdig (Some (list_ascii_of_string "7" ++ newline :: list_ascii_of_string "1, 2," ++ newline :: list_ascii_of_string "  ")) = Some [[1; 2]].
Proof. reflexivity. Qed.
Example C31_ex_lines : Forall2 (line_reads rdig) [list_ascii_of_string "7"; list_ascii_of_string "1, 2,"; list_ascii_of_string "  "] [None; Some [1; 2]; None].
Proof.
  constructor; [split; [intros [K|[]]; discriminate|cbn; lia]|]. constructor.
  - exists [["1"%char]; ["2"%char]]. split; [|split; [cbn; lia|reflexivity]]. split; [unfold one_line; cbn; intuition discriminate|]. split; [discriminate|]. split; [|now right].
    repeat constructor; try discriminate; cbn; intuition discriminate.
  - constructor; [split; [unfold one_line; cbn; intuition discriminate|cbn; lia]|constructor].
Qed.
(* The second line has a bad cell: the file is not read, and the reader throws. *)
Example C31_ex_bad : readCSV nat rdig (Some (list_ascii_of_string "1,2" ++ newline :: list_ascii_of_string "3,,4")) = None /\
  bad_line rdig (list_ascii_of_string "3,,4") /\ row_of rdig (list_ascii_of_string "1,2") (Some [1; 2]).
Proof.
  split; [reflexivity|]. split.
  - split; [cbn; lia|]. exists [["3"%char]; []; ["4"%char]], []. split; [split; [discriminate|split; [repeat constructor; cbn; intuition discriminate|left; split; [reflexivity|discriminate]]]|].
    split; [right; left; reflexivity|reflexivity].
  - split; [cbn; lia|]. exists [["1"%char]; ["2"%char]]. split; [split; [discriminate|split; [repeat constructor; cbn; intuition discriminate|left; split; [reflexivity|discriminate]]]|reflexivity].
Qed.
Example C32_ex : exists t, writeMAT nat dig tally [[1; 2]; [3; 4]; [5; 6]] = Ok t /\ readMAT nat rdig untally (Some t) = Some [[1; 2]; [3; 4]; [5; 6]].
Proof. exact (C32_mat_roundtrip nat rdig dig _ dig_printable untally tally [[1; 2]; [3; 4]; [5; 6]] 2 (tally_printable _) (tally_printable _) ltac:(discriminate) ltac:(repeat constructor)). Qed.
Example C61_ex : readMAT nat rdig untally (Some (tally 2 ++ newline :: tally 2 ++ newline :: join newline (map dig [1; 2; 3]))) = Some [[1; 2]; [3; 3]].
Proof. exact (proj2 (C61_short_mat_file nat rdig dig _ dig_printable untally tally 2 2 [1; 2] 3 (tally_printable _) (tally_printable _))). Qed.
(* Two rows of two values and only one value: it is read again for the other three places. *)
Example C61_ex_lines : mat_cell [tally 2; tally 2; dig 7] 3 = dig 7 /\ cells_give rdig (map (fun j => mat_cell [tally 2; tally 2; dig 7] (1 * 2 + j)) (seq 0 2)) [7; 7].
Proof.
  split; [reflexivity|]. exists [[7]; [7]]. split; [|reflexivity].
  constructor; [|constructor; [|constructor]]; right; (split; [discriminate|exists 7; split; reflexivity]).
Qed.
Example C33_ex : stream_rows nat rdig 4 (list_ascii_of_string "7" ++ newline :: list_ascii_of_string "1, 2" ++ newline :: newline :: list_ascii_of_string "3,4") = Some [[7]; [1; 2]].
Proof. reflexivity. Qed.
Example C33_ex_pieces : chunked (list_ascii_of_string "7" ++ newline :: newline :: list_ascii_of_string "3,4") [list_ascii_of_string "7" ++ [newline]; [newline]; list_ascii_of_string "3,4"] /\
  buffer_row rdig (list_ascii_of_string "7" ++ [newline]) [7] /\ buffer_blank [newline].
Proof.
  split; [|split].
  - apply (chunked_line ["7"%char]); [unfold one_line; cbn; intuition discriminate|cbn; lia|].
    apply (chunked_line []); [intros []|cbn; lia|]. apply chunked_last; [unfold one_line; cbn; intuition discriminate|discriminate|cbn; lia].
  - exists (list_ascii_of_string "7" ++ [newline]). split; [split; [cbn; intuition discriminate|now left]|]. split; [cbn; lia|].
    exists [["7"%char; newline]]. split; [split; [discriminate|split; [repeat constructor; cbn; intuition discriminate|left; split; [reflexivity|discriminate]]]|reflexivity].
  - exists [newline]. split; [split; [cbn; intuition discriminate|now left]|cbn; lia].
Qed.
Example C62_ex : stream_rows nat rdig 9 (writeCSV nat dig [[1; 2]; [3]]) = None.
Proof. exact (C62_written_csv_cannot_be_streamed nat rdig dig _ dig_printable eq_refl [1; 2] [[3]] 9 ltac:(discriminate) ltac:(cbn; lia)). Qed.
