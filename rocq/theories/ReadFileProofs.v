(* ReadFileProofs.v -- proofs about files of doubles (C93). *)
From Coq Require Import String Ascii List Arith ZArith Bool Lia SpecFloat.
From Verif Require Import Base IoModel SpecIo IoProofs DoubleModel SpecDouble DoubleProofs TextModel SpecText TextProofs ReadModel SpecRead ReadProofs.
Import ListNotations.
Local Open Scope Z_scope.
Local Open Scope list_scope.

(* ---- what follows the number *)
Lemma skip_blanks_newline t : (skip_blanks t = [] /\ skip_blanks (t ++ [newline]) = []) \/ (skip_blanks t <> [] /\ skip_blanks (t ++ [newline]) = skip_blanks t ++ [newline]).
Proof.
  induction t as [|c t IH]; [left; split; reflexivity|]. cbn [app skip_blanks]. destruct (is_blank c); [exact IH|]. right. split; [discriminate|reflexivity].
Qed.
Lemma take_sign_newline t : t <> [] -> take_sign (t ++ [newline]) = (fst (take_sign t), snd (take_sign t) ++ [newline]).
Proof. destruct t as [|c t]; [easy|]. intros _. cbn [app take_sign]. destruct (Ascii.eqb c "-"); [reflexivity|]. destruct (Ascii.eqb c "+"); reflexivity. Qed.
Lemma take_digits_newline t : take_digits (t ++ [newline]) = (fst (take_digits t), snd (take_digits t) ++ [newline]).
Proof.
  induction t as [|c t IH]; [reflexivity|]. cbn [app take_digits]. destruct (digit_of c); [|reflexivity]. rewrite IH. now destruct (take_digits t).
Qed.
Lemma take_exponent_newline t : take_exponent (t ++ [newline]) = take_exponent t.
Proof.
  destruct t as [|c t]; [reflexivity|]. cbn [app take_exponent]. destruct (Ascii.eqb c "e" || Ascii.eqb c "E")%bool; [|reflexivity].
  destruct t as [|c' t]; [reflexivity|]. rewrite take_sign_newline by discriminate. destruct (take_sign (c' :: t)) as [s r]. cbn [fst snd]. rewrite take_digits_newline.
  now destruct (take_digits r) as [[|d ds] rest].
Qed.
Lemma take_number_newline t : take_number (t ++ [newline]) = take_number t.
Proof.
  unfold take_number. rewrite take_digits_newline. destruct (take_digits t) as [a [|c r]]; cbn [fst snd app]; [reflexivity|].
  destruct (Ascii.eqb c ".").
  - rewrite take_digits_newline. destruct (take_digits r) as [b r2]. cbn [fst snd]. now rewrite take_exponent_newline.
  - change (c :: r ++ [newline]) with ((c :: r) ++ [newline]). now rewrite take_exponent_newline.
Qed.
Lemma starts_newline a b c t : a <> newline -> b <> newline -> c <> newline -> starts [a; b; c] (t ++ [newline]) = starts [a; b; c] t.
Proof.
  intros A B C. unfold starts. destruct t as [|x [|y [|z t]]]; cbn [firstn app map length]; [| | |reflexivity]; change (lower newline) with newline;
  (destruct list_eq_dec as [K|K]; [exfalso; inversion K; congruence|]); (destruct list_eq_dec as [K'|K']; [exfalso; inversion K'|reflexivity]).
Qed.
Lemma strtod_newline t : strtod (t ++ [newline]) = strtod t.
Proof.
  unfold strtod. destruct (skip_blanks_newline t) as [[E ->]|[E ->]]; [now rewrite E|]. rewrite take_sign_newline by auto. destruct (take_sign (skip_blanks t)) as [s r]. cbn [fst snd].
  cbn [list_ascii_of_string]. rewrite !starts_newline by discriminate. now rewrite take_number_newline.
Qed.
Lemma stod_newline : stod_ignores_newline stod.
Proof. intros t _. unfold stod. now rewrite strtod_newline. Qed.

(* ---- counts *)
Lemma digits_plain t : t <> [] -> Forall is_digit t -> plain t.
Proof.
  intros N F. rewrite Forall_forall in F. assert (K : forall c, In c t -> is_digit c) by auto. unfold is_digit in K.
  split; [exact N|]. repeat split; intros H; apply K in H; vm_compute in H; lia.
Qed.
Lemma stoi_show n : (Z.of_nat n < 2 ^ 31) -> count_printable stoi (fun n => show (Z.of_nat n)) n.
Proof.
  intros L. destruct (show_spec (Z.of_nat n) ltac:(lia)) as (N & F & V & _). split; [now apply digits_plain|].
  unfold stoi. assert (S : skip_blanks (show (Z.of_nat n)) = show (Z.of_nat n) /\ take_sign (show (Z.of_nat n)) = (false, show (Z.of_nat n))).
  { destruct (show (Z.of_nat n)) as [|c t]; [easy|]. inversion F as [|? ? D _]; subst. assert (D' := digit_in c D). cbn in D'.
    split; cbn [skip_blanks take_sign]; (repeat (destruct D' as [<-|D']; [reflexivity|])); destruct D'. }
  destruct S as [-> ->]. rewrite <- (app_nil_r (show (Z.of_nat n))), take_digits_app by (auto; exact I). cbn [fst].
  destruct (vals (show (Z.of_nat n))) as [|d ds] eqn:E; [destruct (show (Z.of_nat n)); [easy|discriminate]|]. rewrite <- E, number_vals, V.
  replace (- 2 ^ 31 <=? Z.of_nat n) with true by (symmetry; apply Z.leb_le; lia). now replace (Z.of_nat n <? 2 ^ 31) with true by (symmetry; apply Z.ltb_lt; lia).
Qed.

(* ---- files of doubles *)
Lemma to_string_plain x : canonical x -> plain (to_string x).
Proof.
  intros C. destruct x as [s|s| |s m e].
  2: destruct s; vm_compute; intuition discriminate.
  2: vm_compute; intuition discriminate.
  all: (match goal with |- plain (to_string ?x) => assert (R := proj1 (to_string_spec x I (canonical_fits x C))) end);
    destruct R as (whole & frac & -> & Lf & (Nw & Fw & _) & Ff & _); rewrite Forall_forall in Fw, Ff; unfold is_digit in *;
    (split; [destruct whole, s; discriminate|]); repeat split; intros H; apply in_app_iff in H as [H|H];
    try solve [cbn [negative] in H; destruct s; [destruct H as [H|[]]; discriminate|destruct H]];
    apply in_app_iff in H as [H|[H|H]]; try discriminate; first [apply Fw in H|apply Ff in H]; vm_compute in H; lia.
Qed.
Lemma read_back_any x : canonical x -> exists y, stod (to_string x) = Some y /\ canonical y /\ to_string y = to_string x.
Proof.
  intros C. destruct x as [s|s| |s m e].
  2: exists (S754_infinity s); split; [destruct s; vm_compute; reflexivity|split; [exact I|reflexivity]].
  2: exists S754_nan; split; [vm_compute; reflexivity|split; [exact I|reflexivity]].
  all: match goal with |- context [to_string ?x] => destruct (read_back x I C) as (y & E & (_ & Cy & _) & _ & T) end; exists y; split; [exact E|split; [exact Cy|exact T]].
Qed.
Definition canonicalb (x : double) : bool :=
  match x with S754_finite _ m e => (Zpos m <? 2 ^ 53) && ((-1074 <=? e) && (e <=? 971)) && ((e =? -1074) || (2 ^ 52 <=? Zpos m)) | _ => true end.
Lemma canonicalb_spec x : canonicalb x = true <-> canonical x.
Proof.
  destruct x as [s|s| |s m e]; try (split; [intros _; exact I|reflexivity]). unfold canonicalb, canonical.
  rewrite !andb_true_iff, orb_true_iff, Z.ltb_lt, !Z.leb_le, Z.eqb_eq. tauto.
Qed.
Definition printer (x : double) : text := if canonicalb x then to_string x else to_string d_zero.
Definition reread (x : double) : double := match stod (printer x) with Some y => y | None => x end.
Lemma printer_printable : printable stod printer reread.
Proof.
  intros x. unfold reread. assert (K : exists z, canonical z /\ printer x = to_string z).
  { unfold printer. destruct (canonicalb x) eqn:E; [exists x; split; [now apply canonicalb_spec|reflexivity]|exists d_zero; split; [exact I|reflexivity]]. }
  destruct K as (z & C & ->). split; [now apply to_string_plain|]. destruct (read_back_any z C) as (y & -> & _). reflexivity.
Qed.
Lemma printer_eq x : canonical x -> printer x = to_string x.
Proof. intros C. unfold printer. now rewrite (proj2 (canonicalb_spec x) C). Qed.
Lemma flat_map_eq {A B} (f g : A -> list B) l : (forall x, In x l -> f x = g x) -> flat_map f l = flat_map g l.
Proof. induction l as [|x l IH]; intros H; [reflexivity|]. cbn [flat_map]. f_equal; [apply H; now left|apply IH; intros; apply H; now right]. Qed.
Lemma writeCSV_printer data : (forall row x, In row data -> In x row -> canonical x) -> writeCSV double to_string data = writeCSV double printer data.
Proof.
  intros C. unfold writeCSV. apply flat_map_eq. intros row Hr. f_equal. apply flat_map_eq. intros x Hx. now rewrite printer_eq by eauto.
Qed.
Lemma writeMAT_printer sh data : (forall row x, In row data -> In x row -> canonical x) -> writeMAT double to_string sh data = writeMAT double printer sh data.
Proof.
  intros C. unfold writeMAT. destruct (at_ data 0) as [row|]; [|reflexivity]. cbn [bind]. do 5 f_equal. apply flat_map_eq. intros row' Hr. apply flat_map_eq. intros x Hx. now rewrite printer_eq by eauto.
Qed.
Lemma reread_spec x : canonical x -> stod (to_string x) = Some (reread x) /\ canonical (reread x) /\ to_string (reread x) = to_string x.
Proof. intros C. unfold reread. rewrite printer_eq by auto. destruct (read_back_any x C) as (y & -> & Cy & T). auto. Qed.
Lemma Forall2_self {A B} (f : A -> B) (R : A -> B -> Prop) l : (forall x, In x l -> R x (f x)) -> Forall2 R l (map f l).
Proof. induction l as [|x l IH]; intros H; constructor; [apply H; now left|apply IH; intros; apply H; now right]. Qed.
Lemma rows_reread data : (forall row x, In row data -> In x row -> canonical x) -> Forall2 (Forall2 (fun x y => stod (to_string x) = Some y)) data (map (map reread) data).
Proof. intros C. apply Forall2_self. intros row Hr. apply Forall2_self. intros x Hx. now apply reread_spec; eauto. Qed.
Lemma rewrite_same data : (forall row x, In row data -> In x row -> canonical x) -> writeCSV double to_string (map (map reread) data) = writeCSV double to_string data.
Proof.
  intros C. unfold writeCSV. rewrite !flat_map_concat_map, map_map. f_equal. apply map_ext_in. intros row Hr. f_equal. rewrite !flat_map_concat_map, map_map. f_equal.
  apply map_ext_in. intros x Hx. f_equal. apply reread_spec; eauto.
Qed.
Lemma csv_doubles data : (forall row x, In row data -> In x row -> canonical x) ->
  exists rows, readCSV double stod (Some (writeCSV double to_string data)) = Some rows /\
    Forall2 (Forall2 (fun x y => stod (to_string x) = Some y)) (filter (fun row => negb (length row =? 0)%nat) data) rows /\
    writeCSV double to_string rows = writeCSV double to_string (filter (fun row => negb (length row =? 0)%nat) data).
Proof.
  intros C. rewrite writeCSV_printer by auto. rewrite (readCSV_writeCSV double stod printer reread printer_printable).
  assert (C' : forall row x, In row (filter (fun row => negb (length row =? 0)%nat) data) -> In x row -> canonical x) by (intros row x Hr; apply filter_In in Hr as [Hr _]; eauto).
  eexists. split; [reflexivity|]. split; [now apply rows_reread|now apply rewrite_same].
Qed.
Lemma mat_doubles data d : (forall row x, In row data -> In x row -> canonical x) -> data <> [] -> Forall (fun row => length row = d) data ->
  Z.of_nat (length data) < 2 ^ 31 -> Z.of_nat d < 2 ^ 31 ->
  exists t rows, writeMAT double to_string (fun n => show (Z.of_nat n)) data = Ok t /\ readMAT double stod stoi (Some t) = Some rows /\
    Forall2 (Forall2 (fun x y => stod (to_string x) = Some y)) data rows.
Proof.
  intros C N F L1 L2. rewrite writeMAT_printer by auto.
  destruct (readMAT_writeMAT_rect double stod printer reread printer_printable stoi (fun n => show (Z.of_nat n)) data d (stoi_show _ L1) (stoi_show _ L2) N F) as (t & E & R).
  exists t. eexists. split; [exact E|]. split; [exact R|]. now apply rows_reread.
Qed.

Lemma header_throws num (sd : text -> option num) rest : sd (list_ascii_of_string "dimension") = None -> readCSV num sd (Some (barcode_header ++ rest)) = None.
Proof.
  intros D. set (bad := list_ascii_of_string "dimension,birth,death").
  change (barcode_header ++ rest) with (lines_of [] ++ bad ++ newline :: rest). apply (readCSV_throw num sd [] [] bad); [constructor| |].
  - unfold one_line. cbn. intuition discriminate.
  - assert (E : commas num sd (length (strip bad)) (flat_map (fun c => c ++ [comma]) [] ++ list_ascii_of_string "dimension" ++ comma :: list_ascii_of_string "birth,death") [] = None).
    { apply (commas_throw num sd [] [] (list_ascii_of_string "dimension")); auto. cbn. intuition discriminate. }
    change (option_map (pair true) (commas num sd (length (strip bad)) (flat_map (fun c => c ++ [comma]) [] ++ list_ascii_of_string "dimension" ++ comma :: list_ascii_of_string "birth,death") []) = None).
    now rewrite E.
Qed.
