(* ReadRest.v -- blanks before a number and text behind it; texts without a number (C93). *)
From Coq Require Import String Ascii List Arith ZArith Bool Lia SpecFloat.
From Verif Require Import Base IoModel DoubleModel SpecDouble DoubleProofs TextModel SpecText TextProofs ReadModel SpecRead ReadProofs.
Import ListNotations.
Local Open Scope Z_scope.
Local Open Scope list_scope.

Lemma is_blank_space c : is_blank c = true <-> is_space c.
Proof.
  unfold is_blank, is_space. cbv zeta. rewrite orb_true_iff, andb_true_iff, !Nat.leb_le, Nat.eqb_eq. tauto.
Qed.
Lemma skip_blanks_app bl t : Forall is_space bl -> skip_blanks (bl ++ t) = skip_blanks t.
Proof. induction 1 as [|c bl H _ IH]; [reflexivity|]. cbn [app skip_blanks]. now rewrite (proj2 (is_blank_space c) H). Qed.
Lemma ends_no_digit t : ends_number t -> no_digit t.
Proof. destruct t; cbn; tauto. Qed.
Lemma exponent_rest_no_digit ex y rest : exponent_text ex y -> ends_number rest -> no_digit (ex ++ rest).
Proof.
  intros [[-> _]|(c & s & neg & ds & -> & H)] R; [now apply ends_no_digit|]. cbn. apply (exponent_no_digit (c :: s ++ ds) y). right. exists c, s, neg, ds. tauto.
Qed.
Lemma exponent_take_rest ex y rest : exponent_text ex y -> ends_number rest -> take_exponent (ex ++ rest) = y.
Proof.
  intros [[-> ->]|(c & s & neg & ds & -> & Hc & Hs & N & F & ->)] R.
  - destruct rest as [|c rest]; [reflexivity|]. destruct R as (_ & _ & A & B). cbn [app take_exponent]. apply Ascii.eqb_neq in A, B. now rewrite A, B.
  - cbn [app]. unfold take_exponent. replace (Ascii.eqb c "e" || Ascii.eqb c "E")%bool with true by (destruct Hc as [-> | ->]; reflexivity). rewrite <- app_assoc.
    rewrite (sign_take s neg (ds ++ rest) Hs) by (destruct F as [|c' ds' D _]; [congruence|now apply digit_no_sign]).
    rewrite (take_digits_app ds rest F (ends_no_digit _ R)), number_vals. destruct ds as [|c0 ds]; [congruence|]. reflexivity.
Qed.
Lemma take_number_rest a p b ex y rest : Forall is_digit a -> Forall is_digit b -> a ++ b <> [] -> (p = ["."%char] \/ (p = [] /\ b = [])) -> exponent_text ex y -> ends_number rest ->
  take_number (a ++ p ++ b ++ ex ++ rest) = Some (number_of_digits (a ++ b), y - Z.of_nat (length b)).
Proof.
  intros Fa Fb Ne Hp Hx R. assert (Nx := exponent_rest_no_digit _ _ _ Hx R). assert (Tx := exponent_take_rest _ _ _ Hx R). unfold take_number.
  assert (G : forall ds : list Z, ds = vals (a ++ b) -> match ds with [] => None | d :: l => Some (number (d :: l), take_exponent (ex ++ rest) - Z.of_nat (length (vals b))) end
    = Some (number_of_digits (a ++ b), y - Z.of_nat (length b))).
  { intros ds ->. rewrite Tx, vals_length. rewrite <- (number_vals (a ++ b)). destruct (a ++ b); [congruence|reflexivity]. }
  destruct Hp as [->|[-> ->]].
  - change (["."%char] ++ b ++ ex ++ rest) with ("."%char :: b ++ ex ++ rest). rewrite (take_digits_app a _ Fa (point_no_digit (b ++ ex ++ rest))). replace (Ascii.eqb "." ".") with true by reflexivity.
    rewrite (take_digits_app b (ex ++ rest) Fb Nx). apply (G (vals a ++ vals b)). now rewrite vals_app.
  - cbn [app]. assert (X : match ex ++ rest with c :: _ => c <> "."%char | [] => True end).
    { destruct Hx as [[-> _]|(c & s & neg & ds & -> & [-> | ->] & _)]; [|discriminate|discriminate]. cbn [app]. destruct rest as [|c rest]; [exact I|]. now destruct R as (_ & P & _). }
    clear Tx R Hx. generalize dependent (ex ++ rest). intros q Nx G X. rewrite (take_digits_app a q Fa Nx).
    cbv beta iota. destruct q as [|c q]; [|apply Ascii.eqb_neq in X; rewrite X]; apply (G (vals a ++ [])); now rewrite vals_app.
Qed.
Lemma strtod_around bl t rest neg n x : Forall is_space bl -> decimal_text t neg n x -> ends_number rest -> strtod (bl ++ t ++ rest) = strtod t.
Proof.
  intros Bl D R. rewrite (strtod_decimal _ _ _ _ D). destruct D as (s & a & p & b & ex & y & -> & Hs & Fa & Fb & Ne & Hp & Hx & -> & ->). unfold strtod. rewrite skip_blanks_app by exact Bl.
  rewrite <- !app_assoc. set (r := a ++ p ++ b ++ ex ++ rest).
  assert (First : exists c r', r = c :: r' /\ (is_digit c \/ c = "."%char)).
  { unfold r. destruct Fa as [|c a Dc Fa]; [|exists c, (a ++ p ++ b ++ ex ++ rest); auto]. destruct Hp as [-> | [-> ->]]; [|cbn in Ne; congruence]. cbn [app]. eauto. }
  destruct First as (c & r' & Er & Hc).
  assert (Nb : is_blank c = false /\ c <> "-"%char /\ c <> "+"%char /\ Ascii.eqb (lower c) "i" = false /\ Ascii.eqb (lower c) "n" = false).
  { destruct Hc as [Hc | ->]; [|repeat split; try reflexivity; discriminate]. apply digit_in in Hc. unfold ten in Hc. cbn [In] in Hc.
    repeat (destruct Hc as [<-|Hc]; [repeat split; try reflexivity; discriminate|]). destruct Hc. }
  destruct Nb as (B1 & B2 & B3 & B4 & B5).
  assert (Sk : skip_blanks (s ++ r) = s ++ r).
  { destruct Hs as [[-> ->]|[[-> ->]|[-> ->]]]; cbn [app]; try reflexivity. rewrite Er. cbn [skip_blanks]. now rewrite B1. }
  rewrite Sk, (sign_take s neg r Hs) by (rewrite Er; auto).
  assert (St : forall w0 w, Ascii.eqb (lower c) w0 = false -> starts (w0 :: w) r = false).
  { intros w0 w H. unfold starts. rewrite Er. cbn [length firstn map]. destruct (list_eq_dec ascii_dec _ _) as [E|]; [|reflexivity].
    injection E as E _. apply Ascii.eqb_neq in H. congruence. }
  cbn [list_ascii_of_string]. rewrite !St by assumption. unfold r.
  now rewrite (take_number_rest a p b ex y rest Fa Fb Ne Hp Hx R).
Qed.

(* std::atoi and std::stoi: blanks, a sign, digits, and anything that is no digit. *)
Lemma sign_no_blank s neg r : sign_text s neg -> (s = [] -> match r with c :: _ => is_blank c = false | [] => True end) -> skip_blanks (s ++ r) = s ++ r.
Proof.
  intros [[-> ->]|[[-> ->]|[-> ->]]] H; cbn [app]; try reflexivity. destruct r as [|c r]; [reflexivity|]. cbn [skip_blanks]. now rewrite (H eq_refl).
Qed.
Lemma atoi_around bl s neg ds rest : Forall is_space bl -> sign_text s neg -> ds <> [] -> Forall is_digit ds -> no_digit rest ->
  let v := if neg then - number_of_digits ds else number_of_digits ds in
  atoi (bl ++ s ++ ds ++ rest) = v /\ stoi (bl ++ s ++ ds ++ rest) = if (- 2 ^ 31 <=? v) && (v <? 2 ^ 31) then Some v else None.
Proof.
  intros Bl Hs N F R v. unfold atoi, stoi. rewrite skip_blanks_app by exact Bl.
  destruct ds as [|c ds]; [congruence|]. assert (D : is_digit c) by now inversion F.
  rewrite (sign_no_blank s neg) by (auto; intros _; cbn [app]; apply digit_in in D; cbn in D; repeat (destruct D as [<-|D]; [reflexivity|]); destruct D).
  rewrite (sign_take s neg ((c :: ds) ++ rest) Hs) by (cbn [app]; now apply digit_no_sign).
  rewrite (take_digits_app (c :: ds) rest F R). cbn [fst]. rewrite number_vals. split; [reflexivity|]. unfold v. rewrite <- number_vals. reflexivity.
Qed.
Lemma lower_cases c w : lower c = w -> (w = "i"%char -> In c ["i"; "I"]%char) /\ (w = "n"%char -> In c ["n"; "N"]%char).
Proof.
  intros <-. destruct c as [[] [] [] [] [] [] [] []]; vm_compute; split; intros H; try discriminate H; auto.
Qed.
Lemma none_around t : no_number t -> strtod t = None /\ atoi t = 0 /\ stoi t = None.
Proof.
  intros (bl & s & neg & r & -> & Bl & Hs & H). unfold strtod, atoi, stoi. rewrite skip_blanks_app by exact Bl.
  assert (B : s = [] -> match r with c :: _ => is_blank c = false | [] => True end).
  { intros E. destruct r as [|c r]; [exact I|]. destruct H as (_ & _ & _ & H). destruct (H E) as [H1 _]. destruct (is_blank c) eqn:K; [|reflexivity]. exfalso. now apply H1, is_blank_space. }
  rewrite (sign_no_blank s neg r Hs B).
  assert (T : take_sign (s ++ r) = (neg, r)).
  { destruct Hs as [[-> ->]|[[-> ->]|[-> ->]]]; [|reflexivity|reflexivity]. cbn [app]. destruct r as [|c r]; [reflexivity|]. destruct H as (_ & _ & _ & H). destruct (H eq_refl) as (_ & P & Q).
    unfold take_sign. apply Ascii.eqb_neq in P, Q. now rewrite P, Q. }
  rewrite T. destruct r as [|c r]; [destruct neg; repeat split; reflexivity|]. destruct H as (D & P & W & _).
  assert (St : forall w0 w, (w0 = "i"%char \/ w0 = "n"%char) -> starts (w0 :: w) (c :: r) = false).
  { intros w0 w K. unfold starts. cbn [length firstn map]. destruct (list_eq_dec ascii_dec _ _) as [E|]; [|reflexivity]. exfalso. injection E as E _.
    destruct (lower_cases c w0 E) as [L1 L2]. apply W. destruct K as [K|K]; [apply L1 in K|apply L2 in K]; cbn in K |- *; tauto. }
  assert (Tn : take_number (c :: r) = None).
  { unfold take_number. cbn [take_digits]. rewrite (digit_of_other c D). apply Ascii.eqb_neq in P. now rewrite P. }
  cbn [list_ascii_of_string]. rewrite !St by auto. rewrite Tn. cbn [take_digits]. rewrite (digit_of_other c D). cbn [fst]. destruct neg; repeat split; reflexivity.
Qed.
