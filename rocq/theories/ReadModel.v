(* ReadModel.v -- text as numbers: std::stod, std::atof, std::atoi and std::stoi as the program uses them (definitions only).
   Reading is glibc's strtod, correctly rounded.  Left out: hexadecimal numbers (here "0x1" reads as 0), the sign and the
   payload of NaN, and locales.  The definitions up to strtod are parts of strtod, which Utils/readInput.cpp:73, 79 and 138
   reach through std::stod. *)
From Coq Require Import String Ascii List Arith ZArith Bool SpecFloat.
From Verif Require Import Base IoModel DoubleModel TextModel.
Import ListNotations.
Local Open Scope Z_scope.
Local Open Scope list_scope.

(* isspace: tab, newline, vertical tab, form feed, carriage return and the space. *)
Definition is_blank (c : ascii) : bool := let k := nat_of_ascii c in ((9 <=? k) && (k <=? 13) || (k =? 32))%nat.
Fixpoint skip_blanks (t : text) : text := match t with c :: r => if is_blank c then skip_blanks r else t | [] => [] end.
Definition take_sign (t : text) : bool * text :=
  match t with
  | c :: r => if Ascii.eqb c "-" then (true, r) else if Ascii.eqb c "+" then (false, r) else (false, t)
  | [] => (false, [])
  end.
Definition digit_of (c : ascii) : option Z :=
  let k := nat_of_ascii c in if ((48 <=? k) && (k <=? 57))%nat then Some (Z.of_nat k - 48) else None.
(* The digits at the front, and the rest. *)
Fixpoint take_digits (t : text) : list Z * text :=
  match t with
  | c :: r => match digit_of c with Some d => let (ds, rest) := take_digits r in (d :: ds, rest) | None => ([], t) end
  | [] => ([], [])
  end.
Definition number (ds : list Z) : Z := fold_left (fun n d => 10 * n + d) ds 0.
(* The exponent behind e or E; without digits the e belongs to what follows the number. *)
Definition take_exponent (t : text) : Z :=
  match t with
  | c :: r =>
      if Ascii.eqb c "e" || Ascii.eqb c "E" then
        let (s, r1) := take_sign r in
        match take_digits r1 with ([], _) => 0 | (ds, _) => if s then - number ds else number ds end
      else 0
  | [] => 0
  end.
(* n and x of the number n * 10 ^ x at the front; None without a digit. *)
Definition take_number (t : text) : option (Z * Z) :=
  let (a, r1) := take_digits t in
  let (b, r2) := match r1 with c :: r => if Ascii.eqb c "." then take_digits r else ([], r1) | [] => ([], []) end in
  match a ++ b with
  | [] => None
  | ds => Some (number ds, take_exponent r2 - Z.of_nat (length b))
  end.
Definition lower (c : ascii) : ascii := let k := nat_of_ascii c in if ((65 <=? k) && (k <=? 90))%nat then ascii_of_nat (k + 32) else c.
Definition starts (w t : text) : bool := if list_eq_dec ascii_dec (map lower (firstn (length w) t)) w then true else false.

(* The double nearest to num / den, to the even one in the middle, and whether errno is set to ERANGE: the number is beyond
   the doubles, or the result is below 2 ^ -1022 and inexact.  E counts from 2 ^ -1074. *)
Definition round_to_double (s : bool) (num den : Z) : double * bool :=
  let W := num * 2 ^ 1074 in
  let E := Z.max 0 (Z.log2 (W / den) - 52) in
  let m := round_div W (den * 2 ^ E) in
  if m =? 0 then (S754_zero s, negb (num =? 0))
  else
    let '(m', E') := if m =? 2 ^ 53 then (2 ^ 52, E + 1) else (m, E) in
    if 2045 <? E' then (S754_infinity s, true)
    else (S754_finite s (Z.to_pos m') (E' - 1074), (m' <? 2 ^ 52) && negb (m * (den * 2 ^ E) =? W)).

(* strtod: None if there is no number at the front. *)
Definition strtod (t : text) : option (double * bool) :=
  let (s, r) := take_sign (skip_blanks t) in
  if starts (list_ascii_of_string "inf") r then Some (S754_infinity s, false)
  else if starts (list_ascii_of_string "nan") r then Some (S754_nan, false)
  else
    match take_number r with
    | None => None
    | Some (n, x) => Some (round_to_double s (n * 10 ^ Z.max 0 x) (10 ^ Z.max 0 (- x)))
    end.
(* Utils/readInput.cpp:73, 79, 138: std::stod throws std::invalid_argument without a number, and std::out_of_range if
   errno is ERANGE. *)
Definition stod (t : text) : option double :=
  match strtod t with Some (x, false) => Some x | _ => None end.
(* Complex/simplexBase.cpp:40, Pipes/fastPersistence.cpp:329 and the like: std::atof; 0 without a number. *)
Definition atof (t : text) : double := match strtod t with Some (x, _) => x | None => d_zero end.
(* Pipes/fastPersistence.cpp:324, Pipes/ripsPipe.cpp:63 and the like: std::atoi, for numbers in the range of int; 0 without a number. *)
Definition atoi (t : text) : Z :=
  let (s, r) := take_sign (skip_blanks t) in let n := number (fst (take_digits r)) in if s then - n else n.
(* Utils/readInput.cpp:115, 121: std::stoi throws without digits and outside the range of int. *)
Definition stoi (t : text) : option Z :=
  let (s, r) := take_sign (skip_blanks t) in
  match fst (take_digits r) with
  | [] => None
  | ds => let v := if s then - number ds else number ds in if (- 2 ^ 31 <=? v) && (v <? 2 ^ 31) then Some v else None
  end.
