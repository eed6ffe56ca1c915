(* SpecIo.v -- vocabulary for the statements about reading and writing files. *)
From Coq Require Import Ascii List Arith ZArith.
From Verif Require Import Base IoModel.
Import ListNotations.
Local Open Scope nat_scope.
Local Open Scope list_scope.

(* Pieces joined by a separator. *)
Fixpoint join (sep : ascii) (l : list text) : text :=
  match l with [] => [] | [x] => x | x :: l' => x ++ sep :: join sep l' end.
(* A cell: not empty, without space, comma, newline or NUL. *)
Definition plain (t : text) : Prop := t <> [] /\ ~ In space t /\ ~ In comma t /\ ~ In newline t /\ ~ In nul t.
Definition one_line (t : text) : Prop := ~ In newline t.
(* A printed number is a cell, and reads back as a number (rounded to six digits by std::to_string, hence rnd). *)
Definition printable {num} (stod : text -> option num) (to_string : num -> text) (rnd : num -> num) : Prop :=
  forall x, plain (to_string x) /\ stod (to_string x) = Some (rnd x).
(* std::stod ignores what follows the number, here a newline. *)
Definition stod_ignores_newline {num} (stod : text -> option num) : Prop := forall t, plain t -> stod (t ++ [newline]) = stod t.
(* A printed count is a cell, and reads back (std::stoi throws from 2^31 on). *)
Definition count_printable (stoi : text -> option Z) (show : nat -> text) (n : nat) : Prop :=
  plain (show n) /\ stoi (show n) = Some (Z.of_nat n).
(* The line is a row of cells: what is left without its spaces is the cells separated by commas, perhaps with a comma at
   the end. *)
Definition is_row (line : text) (cells : list text) : Prop :=
  one_line line /\ cells <> [] /\ Forall plain cells /\ (strip line = join comma cells \/ strip line = join comma cells ++ [comma]).
Definition blank (line : text) : Prop := one_line line /\ length (strip line) <= 1.
(* What a CSV line stands for: nothing, or a row of numbers. *)
Definition line_reads {num} (stod : text -> option num) (line : text) (r : option (list num)) : Prop :=
  match r with
  | None => blank line
  | Some vs => exists cells, is_row line cells /\ 2 <= length (strip line) /\ map stod cells = map Some vs
  end.
Definition kept {A} (l : list (option A)) : list A := flat_map (fun r => match r with Some a => [a] | None => [] end) l.
(* The same for a line of a stream: a row must not end with a comma and must fit the buffer; one character is enough. *)
Definition stream_line {num} (stod : text -> option num) (line : text) (vs : list num) : Prop :=
  exists cells, one_line line /\ ~ In nul line /\ length line <= 998 /\ cells <> [] /\ Forall plain cells /\ strip line = join comma cells /\ map stod cells = map Some vs.
(* How the part of the file that is read as a stream can end: at the end of the file, at a line of spaces, whatever
   follows, or at a last line without newline that has at most one character besides spaces. *)
Definition stream_end (t : text) : Prop :=
  t = [] \/
  (exists line rest, t = line ++ newline :: rest /\ one_line line /\ ~ In nul line /\ strip line = [] /\ length line <= 998) \/
  (one_line t /\ ~ In nul t /\ length t <= 999 /\ length (strip t) <= 1).
(* The file with these lines, each ended by a newline. *)
Definition lines_of (l : list text) : text := flat_map (fun t => t ++ [newline]) l.
(* i-th row of width d of a sequence. *)
Definition chunk {A} (d i : nat) (l : list A) : list A := firstn d (skipn (i * d) l).

(* ---- every file *)
(* The cells of a line that is not empty: the pieces between its commas; nothing behind a comma at the end. *)
Definition splits (line : text) (cells : list text) : Prop :=
  cells <> [] /\ Forall (fun c => ~ In comma c) cells /\
  ((line = join comma cells /\ last cells [] <> []) \/ line = join comma cells ++ [comma]).
(* The line holds no row, or a row of numbers. *)
Definition row_of {num} (stod : text -> option num) (line : text) (r : option (list num)) : Prop :=
  match r with
  | None => length (strip line) <= 1
  | Some vs => 2 <= length (strip line) /\ exists cells, splits (strip line) cells /\ map stod cells = map Some vs
  end.
(* The line has a cell that is no number. *)
Definition bad_line {num} (stod : text -> option num) (line : text) : Prop :=
  2 <= length (strip line) /\ exists cells c, splits (strip line) cells /\ In c cells /\ stod c = None.
(* What a buffer of at most 999 characters gets from a stream, one call after the other: the characters up to and
   including the next newline, or 999 characters, or the rest of the file. *)
Inductive chunked : text -> list text -> Prop :=
| chunked_end : chunked [] []
| chunked_line a t l : one_line a -> length a <= 998 -> chunked t l -> chunked (a ++ newline :: t) ((a ++ [newline]) :: l)
| chunked_full a t l : one_line a -> length a = 999 -> chunked t l -> chunked (a ++ t) (a :: l)
| chunked_last a : one_line a -> a <> [] -> length a < 999 -> chunked a [a].
(* A C string ends at the first NUL. *)
Definition c_string (buffer s : text) : Prop :=
  ~ In nul s /\ (s = buffer \/ exists rest, buffer = s ++ nul :: rest).
(* The buffer holds a row; no row; a cell that is no number. *)
Definition buffer_row {num} (stod : text -> option num) (buffer : text) (vs : list num) : Prop := exists s, c_string buffer s /\ row_of stod s (Some vs).
Definition buffer_blank (buffer : text) : Prop := exists s, c_string buffer s /\ length (strip s) <= 1.
Definition buffer_bad {num} (stod : text -> option num) (buffer : text) : Prop := exists s, c_string buffer s /\ bad_line stod s.
(* ---- every MAT file *)
(* A cell gives its number, a cell without characters besides spaces nothing. *)
Definition cell_gives {num} (stod : text -> option num) (cell : text) (part : list num) : Prop :=
  (strip cell = [] /\ part = []) \/ (strip cell <> [] /\ exists v, stod (strip cell) = Some v /\ part = [v]).
Definition cells_give {num} (stod : text -> option num) (cells : list text) (vs : list num) : Prop :=
  exists parts, Forall2 (cell_gives stod) cells parts /\ vs = concat parts.
(* The k-th value of the file is taken from line k + 2, or from the last line if there are not so many lines. *)
Definition mat_cell (lines : list text) (k : nat) : text := nth (2 + k) lines (last lines []).
