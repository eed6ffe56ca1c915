(* IoModel.v -- Utils/readInput.cpp and the file writers of Utils/writeOutput.cpp. *)
From Coq Require Import Ascii String List Arith ZArith Bool.
From Verif Require Import Base.
Import ListNotations.
Local Open Scope nat_scope.
Local Open Scope list_scope.

(* The contents of a file, a line, a cell. *)
Definition text : Type := list ascii.
Definition comma : ascii := ","%char.
Definition space : ascii := " "%char.
Definition newline : ascii := "010"%char.
Definition nul : ascii := "000"%char.

(* line.find_first_of(c), substr(0, pos) and erase(0, pos + 1): the part before the first c, and the part after it. *)
Fixpoint cut (c : ascii) (t : text) : text * option text :=
  match t with
  | [] => ([], None)
  | x :: t' => if Ascii.eqb x c then ([], Some t') else let '(a, b) := cut c t' in (x :: a, b)
  end.
(* regex_replace(line, regex(" "), ""). *)
Definition strip (t : text) : text := filter (fun c => negb (Ascii.eqb c space)) t.

(* An ifstream: the text still to be read, or the state after the end of the file was met. *)
Inductive stream : Type := Open (rest : text) | Eof.
(* std::getline(file, line): after the end of the file the sentry fails and line keeps its old value.  The boolean is
   the success of the call: it fails when nothing at all could be extracted. *)
Definition getline (st : stream) (line : text) : stream * text * bool :=
  match st with
  | Eof => (Eof, line, false)
  | Open rest =>
      match cut newline rest with
      | (a, Some rest') => (Open rest', a, true)
      | (a, None) => (Eof, a, 0 <? length a)
      end
  end.

Section Io.
  Variable num : Type.                    (* double *)
  Variable stod : text -> option num.     (* std::stod; None: an exception is thrown *)
  Variable stoi : text -> option Z.       (* std::stoi; None: an exception is thrown *)
  Variable to_string : num -> text.       (* std::to_string(double) *)
  Variable show : nat -> text.            (* std::to_string(size_t) *)

  (* Utils/readInput.cpp:71-79: the loop over the commas and the last value.  The fuel is the length of the line (the
     theorems about whole files show that it suffices).  None: an exception escapes. *)
  Fixpoint commas (fuel : nat) (line : text) (row : list num) : option (list num) :=
    match cut comma line with
    | (a, Some rest) =>
        match fuel with
        | O => None
        | S fuel' => match stod a with Some v => commas fuel' rest (row ++ [v]) | None => None end
        end
    | (_, None) =>
        if 0 <? length line then match stod line with Some v => Some (row ++ [v]) | None => None end else Some row
    end.
  (* Utils/readInput.cpp:61-85 readInput::parseDoubleVector; row is appended to. *)
  Definition parseDoubleVector (line : text) (row : list num) : option (bool * list num) :=
    let line := strip line in
    if 1 <? length line then option_map (pair true) (commas (length line) line row) else Some (false, row).

  (* Utils/readInput.cpp:46-55: while(!file.eof()). *)
  Fixpoint csv_loop (fuel : nat) (st : stream) (result : list (list num)) : option (list (list num)) :=
    match st, fuel with
    | Eof, _ => Some result
    | Open _, O => None
    | Open _, S fuel' =>
        let '(st', line, _) := getline st [] in
        match parseDoubleVector line [] with
        | None => None
        | Some (true, tmp) => csv_loop fuel' st' (result ++ [tmp])
        | Some (false, _) => csv_loop fuel' st' result
        end
    end.
  (* Utils/readInput.cpp:36-58 readInput::readCSV; None as file: it cannot be opened. *)
  Definition readCSV (file : option text) : option (list (list num)) :=
    match file with
    | None => Some []
    | Some t => csv_loop (S (length t)) (Open t) []
    end.

  (* Utils/readInput.cpp:128-141: the values of one vector. *)
  Fixpoint mat_row (dims : nat) (st : stream) (line : text) (tmp : list num) : option (stream * text * list num) :=
    match dims with
    | O => Some (st, line, tmp)
    | S dims' =>
        let '(st', line', _) := getline st line in
        let line' := strip line' in
        if 0 <? length line' then
          match stod line' with Some v => mat_row dims' st' line' (tmp ++ [v]) | None => None end
        else mat_row dims' st' line' tmp
    end.
  (* Utils/readInput.cpp:125-144: the vectors. *)
  Fixpoint mat_rows (vects dims : nat) (st : stream) (line : text) (result : list (list num)) : option (list (list num)) :=
    match vects with
    | O => Some result
    | S vects' =>
        match mat_row dims st line [] with
        | Some (st', line', tmp) => mat_rows vects' dims st' line' (result ++ [tmp])
        | None => None
        end
    end.
  (* Utils/readInput.cpp:102-146 readInput::readMAT. *)
  Definition readMAT (file : option text) : option (list (list num)) :=
    match file with
    | None => Some []
    | Some t =>
        let '(st, line, ok) := getline (Open t) [] in
        if negb ok then Some []
        else
          let line := strip line in
          match stoi line with
          | None => None
          | Some vectors =>
              let '(st, line, ok) := getline st line in
              if negb ok then Some []
              else
                let line := strip line in
                match stoi line with
                | None => None
                | Some dimensions => mat_rows (Z.to_nat vectors) (Z.to_nat dimensions) st line []
                end
          end
    end.

  (* fgets(streamBuffer, n, pFile): at most n-1 characters, up to and including a newline; None at the end of the file. *)
  Fixpoint fgets_take (n : nat) (t : text) : text * text :=
    match n, t with
    | O, _ | _, [] => ([], t)
    | S n', x :: t' => if Ascii.eqb x newline then ([x], t') else let '(a, b) := fgets_take n' t' in (x :: a, b)
    end.
  Definition fgets (n : nat) (t : text) : option (text * text) :=
    match t with [] => None | _ => Some (fgets_take (n - 1) t) end.
  (* The conversion of the buffer to std::string stops at the first NUL. *)
  Definition cstring (t : text) : text := fst (cut nul t).
  (* Utils/readInput.cpp:160-173 readInput::streamRead on an opened file; the state is the rest of the file.  The result
     is the new state, the returned boolean and the row.  None: an exception escapes. *)
  Definition streamRead (t : text) (row : list num) : option (text * bool * list num) :=
    match fgets 1000 t with
    | None => Some (t, false, row)
    | Some (buffer, t') =>
        match parseDoubleVector (cstring buffer) row with
        | None => None
        | Some (b, row') => Some (t', b, row')
        end
    end.
  (* Pipes/naiveWindow.cpp:52, 100 and Pipes/slidingWindow.cpp: while(rp.streamRead(currentVector)){ ...;
     currentVector.clear(); }: the vectors that the loop body sees. *)
  Fixpoint stream_rows (fuel : nat) (t : text) : option (list (list num)) :=
    match fuel with
    | O => None
    | S fuel' =>
        match streamRead t [] with
        | None => None
        | Some (_, false, _) => Some []
        | Some (t', true, row) => option_map (cons row) (stream_rows fuel' t')
        end
    end.

  (* Utils/writeOutput.cpp:45-57 writeOutput::writeCSV(vector, filename): the text written. *)
  Definition writeCSV (data : list (list num)) : text :=
    flat_map (fun row => flat_map (fun column => to_string column ++ [comma]) row ++ [newline]) data.
  (* Utils/writeOutput.cpp:68-83 writeOutput::writeCSV(vector, filename, header). *)
  Definition writeCSV_header (data : list (list num)) (header : text) : text := header ++ writeCSV data.
  (* Utils/writeOutput.cpp:97-109 writeOutput::writeMAT; data[0] of no data is undefined. *)
  Definition writeMAT (data : list (list num)) : res text :=
    do row <- at_ data 0;
    Ok (show (length data) ++ [newline] ++ show (length row) ++ [newline] ++
        flat_map (fun row => flat_map (fun column => to_string column ++ [newline]) row) data).
End Io.

(* Utils/writeOutput.cpp:33: the header of writeBarcodes. *)
Definition barcode_header : text := list_ascii_of_string "dimension,birth,death" ++ [newline].
