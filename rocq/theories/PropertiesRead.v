(* PropertiesRead.v -- C93: text as numbers, and files of doubles. *)
From Coq Require Import String Ascii List Arith ZArith Bool Lia SpecFloat.
From Verif Require Import Base IoModel SpecIo IoProofs PropertiesIo DoubleModel SpecDouble PropertiesDouble TextModel SpecText TextProofs.
From Verif Require Import ReadModel SpecRead ReadProofs ReadFileProofs ReadUnique ReadRest.
Import ListNotations.
Local Open Scope Z_scope.
Local Open Scope list_scope.

(* C93: a decimal number in the range of the doubles with 53 bits is read as the nearest double, to the even one in the
   middle; above it std::stod throws and std::atof gives an infinity, and for a number that is too small std::stod throws
   and std::atof gives zero. *)
Theorem C93_reads_the_nearest_double : forall t neg n x, decimal_text t neg n x ->
  (n = 0 \/ in_range (numerator n x) (denominator x) ->
     exists y, stod t = Some y /\ atof t = y /\ nearest_double (numerator n x) (denominator x) y /\ negative y = neg) /\
  (2 ^ 1024 * denominator x <= numerator n x -> stod t = None /\ atof t = S754_infinity neg) /\
  (0 < n -> numerator n x * 2 ^ 1075 < denominator x -> stod t = None /\ atof t = S754_zero neg).
Proof.
  intros t neg n x T. split; [|split].
  - intros H. destruct (stod_decimal _ _ _ _ T H) as (y & E & N & S). exists y. split; [exact E|]. split; [|auto].
    unfold stod in E. unfold atof. destruct (strtod t) as [[z [|]]|]; [discriminate| |discriminate]. now injection E.
  - now apply stod_large.
  - now apply stod_small.
Qed.
Print Assumptions C93_reads_the_nearest_double.

(* C93: there is no other double with that sign that is nearest in this sense. *)
Theorem C93_one_nearest_double : forall num den y y', 0 < den -> nearest_double num den y -> nearest_double num den y' -> negative y = negative y' -> y = y'.
Proof. exact nearest_double_unique. Qed.
Print Assumptions C93_one_nearest_double.

(* C93: blanks before a decimal, and what follows it and cannot go on it, do not matter. *)
Theorem C93_blanks_before_and_rest_behind : forall bl t rest neg n x, Forall is_space bl -> decimal_text t neg n x -> ends_number rest ->
  stod (bl ++ t ++ rest) = stod t /\ atof (bl ++ t ++ rest) = atof t.
Proof. intros. unfold stod, atof. now rewrite (strtod_around bl t rest neg n x). Qed.
Print Assumptions C93_blanks_before_and_rest_behind.
(* C93: whole numbers: blanks, a sign, digits, and whatever does not start with a digit. *)
Theorem C93_whole_numbers : forall bl s neg ds rest, Forall is_space bl -> sign_text s neg -> ds <> [] -> Forall is_digit ds ->
  match rest with c :: _ => ~ is_digit c | [] => True end ->
  let v := if neg then - number_of_digits ds else number_of_digits ds in
  atoi (bl ++ s ++ ds ++ rest) = v /\
  (- 2 ^ 31 <= v < 2 ^ 31 -> stoi (bl ++ s ++ ds ++ rest) = Some v) /\ (~ (- 2 ^ 31 <= v < 2 ^ 31) -> stoi (bl ++ s ++ ds ++ rest) = None).
Proof.
  intros bl s neg ds rest B S N F R v. destruct (atoi_around bl s neg ds rest B S N F R) as [A ->]. fold v. split; [exact A|].
  destruct (Z.leb_spec (- 2 ^ 31) v); destruct (Z.ltb_spec v (2 ^ 31)); cbn [andb]; split; intros; try reflexivity; lia.
Qed.
Print Assumptions C93_whole_numbers.
(* C93: a text without a number: std::stod and std::stoi throw, std::atof and std::atoi give 0. *)
Theorem C93_no_number : forall t, no_number t -> stod t = None /\ atof t = S754_zero false /\ atoi t = 0 /\ stoi t = None.
Proof. intros t H. destruct (none_around t H) as (E & A & S). unfold stod, atof. rewrite E. auto. Qed.
Print Assumptions C93_no_number.

(* C93: what a printed number is read as: the double nearest to the printed decimal.  It has the sign of the first number
   and is printed as the same text again. *)
Theorem C93_printed_number_reads_back : forall x n, is_finite x -> canonical x -> nearest_millionths x n ->
  exists y, stod (to_string x) = Some y /\ nearest_double n (10 ^ 6) y /\ negative y = negative x /\ to_string y = to_string x.
Proof.
  intros x n F C N. destruct (to_string_spec x F (canonical_fits _ C)) as [_ N']. rewrite (nearest_unique _ _ _ N N'). now apply read_back.
Qed.
Print Assumptions C93_printed_number_reads_back.
(* C93: multiples of 1/64 and numbers from 2^34 on survive; so do the infinities and NaN. *)
Theorem C93_exact_numbers : forall x, canonical x -> (is_finite x -> (2 ^ 1068 | units x) \/ 2 ^ 34 * 2 ^ 1074 <= units x) ->
  stod (to_string x) = Some x.
Proof.
  intros [s|s| |s m e] C H.
  - apply read_back_exact; [exact I|exact C|apply H; exact I].
  - destruct s; vm_compute; reflexivity.
  - vm_compute. reflexivity.
  - apply read_back_exact; [exact I|exact C|apply H; exact I].
Qed.
Print Assumptions C93_exact_numbers.
Theorem C93_reading_back_is_exact_refuted : exists x, is_finite x /\ canonical x /\ stod (to_string x) <> Some x.
Proof. exists (power (-22)). split; [exact I|]. split; [vm_compute; repeat split; first [discriminate|right; discriminate]|]. vm_compute. discriminate. Qed.
Print Assumptions C93_reading_back_is_exact_refuted.

(* C93: a CSV file of doubles: the rows that are not empty come back, with every number read as in the theorem before, and
   writing them once more gives the same file without the empty rows.  If the numbers survive, so does the file. *)
Theorem C93_csv_file_of_doubles : forall data, (forall row x, In row data -> In x row -> canonical x) ->
  exists rows, readCSV double stod (Some (writeCSV double to_string data)) = Some rows /\
    Forall2 (Forall2 (fun x y => stod (to_string x) = Some y)) (filter (fun row => negb (length row =? 0)%nat) data) rows /\
    writeCSV double to_string rows = writeCSV double to_string (filter (fun row => negb (length row =? 0)%nat) data).
Proof. exact csv_doubles. Qed.
Print Assumptions C93_csv_file_of_doubles.
(* C93: the same for a MAT file; its counts must be in the range of int. *)
Theorem C93_mat_file_of_doubles : forall data d, (forall row x, In row data -> In x row -> canonical x) -> data <> [] ->
  Forall (fun row => length row = d) data -> Z.of_nat (length data) < 2 ^ 31 -> Z.of_nat d < 2 ^ 31 ->
  exists t rows, writeMAT double to_string (fun n => show (Z.of_nat n)) data = Ok t /\ readMAT double stod stoi (Some t) = Some rows /\
    Forall2 (Forall2 (fun x y => stod (to_string x) = Some y)) data rows.
Proof. exact mat_doubles. Qed.
Print Assumptions C93_mat_file_of_doubles.
(* C93: the barcode file of a run is not a CSV file of numbers: reading it throws. *)
Theorem C93_barcode_file_cannot_be_read : forall lines, readCSV double stod (Some (barcode_text at_place lines)) = None.
Proof. intros lines. apply header_throws. vm_compute. reflexivity. Qed.
Print Assumptions C93_barcode_file_cannot_be_read.
(* C93: what C30, C31, C33 and C62 ask of std::stod holds of it. *)
Theorem C93_stod_is_as_assumed : stod_ignores_newline stod /\ stod [] = None /\ stod [newline] = None /\ stod (list_ascii_of_string "dimension") = None.
Proof. split; [exact stod_newline|]. vm_compute. auto. Qed.
Print Assumptions C93_stod_is_as_assumed.

Local Notation txt s := (list_ascii_of_string s).
(* 0.1 is not a double; 2.5e-1 is; 2^53 + 1 is in the middle of two doubles; 1e310 and 1e-330 are out of range; a file. *)
Example C93_ex :
  decimal_text (txt "-0.1") true 1 (-1) /\ in_range (numerator 1 (-1)) (denominator (-1)) /\
  stod (txt "-0.1") = Some (S754_finite true 7205759403792794 (-56)) /\
  stod (txt "  2.5e-1,") = Some (power (-2)) /\ stod (txt "9007199254740993") = Some (whole 9007199254740992) /\
  stod (txt "1e310") = None /\ atof (txt "-1e310") = S754_infinity true /\ stod (txt "1e-330") = None /\ stod (txt "-nan") = Some S754_nan /\
  stod (txt "abc") = None /\ atof (txt "abc") = d_zero /\ atoi (txt "12x") = 12 /\ stoi (txt "3000000000") = None /\
  readCSV double stod (Some (writeCSV double to_string [[power (-3)]; []; [power (-22); S754_infinity true]])) =
    Some [[power (-3)]; [d_zero; S754_infinity true]].
Proof.
  split.
  { exists (txt "-"), (txt "0"), (txt "."), (txt "1"), [], 0. split; [reflexivity|]. split; [right; right; auto|]. split; [repeat constructor|]. split; [repeat constructor|].
    split; [discriminate|]. split; [now left|]. split; [left; auto|]. split; reflexivity. }
  split; [split; vm_compute; discriminate|]. repeat (split; [vm_compute; reflexivity|]). vm_compute. reflexivity.
Qed.
Example C93_ex_hypotheses : canonical (power (-7)) /\ nearest_millionths (power (-7)) 7812 /\ stod (to_string (power (-7))) = Some (S754_finite false 9006622793988689 (-60)) /\
  (2 ^ 1068 | units (whole 5)) /\ 2 ^ 34 * 2 ^ 1074 <= units (power 40) /\
  (exists t, writeMAT double to_string (fun n => show (Z.of_nat n)) [[whole 3]; [power (-3)]] = Ok t /\ readMAT double stod stoi (Some t) = Some [[whole 3]; [power (-3)]]).
Proof.
  split; [vm_compute; repeat split; first [discriminate|right; discriminate]|]. split; [vm_compute; split; [discriminate|reflexivity]|]. split; [vm_compute; reflexivity|].
  split; [exists (5 * 2 ^ 6); vm_compute; reflexivity|]. split; [vm_compute; discriminate|]. eexists. split; [reflexivity|]. vm_compute. reflexivity.
Qed.
Example C93_ex_rest :
  Forall is_space (txt "  ") /\ ends_number (txt ",4") /\ decimal_text (txt "+.5E1") false 5 0 /\ stod (txt "  +.5E1,4") = Some (whole 5) /\
  atoi (txt " -12.5") = -12 /\ no_number (txt " -x1") /\ no_number (txt "e5") /\ no_number (txt "").
Proof.
  split; [repeat constructor; right; reflexivity|]. split; [cbn; repeat split; try discriminate; intros [A B]; cbn in A; lia|]. split.
  { exists (txt "+"), [], (txt "."), (txt "5"), (txt "E1"), 1. split; [reflexivity|]. split; [right; left; auto|]. split; [constructor|]. split; [repeat constructor|]. split; [discriminate|].
    split; [now left|]. split; [|split; reflexivity]. right. exists "E"%char, [], false, (txt "1"). split; [reflexivity|]. split; [now right|]. split; [now left|].
    split; [discriminate|]. split; [repeat constructor|reflexivity]. }
  split; [vm_compute; reflexivity|]. split; [reflexivity|]. split; [|split].
  - exists (txt " "), (txt "-"), true, (txt "x1"). split; [reflexivity|]. split; [repeat constructor; right; reflexivity|]. split; [right; right; auto|].
    split; [intros [A B]; cbn in B; lia|]. split; [discriminate|]. split; [cbn; intuition discriminate|discriminate].
  - exists [], [], false, (txt "e5"). split; [reflexivity|]. split; [constructor|]. split; [now left|]. split; [intros [A B]; cbn in B; lia|]. split; [discriminate|].
    split; [cbn; intuition discriminate|]. intros _. split; [intros [[A B]|A]; cbn in *; lia|split; discriminate].
  - exists [], [], false, []. split; [reflexivity|]. split; [constructor|]. split; [now left|exact I].
Qed.
