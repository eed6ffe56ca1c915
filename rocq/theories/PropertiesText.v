(* PropertiesText.v -- C92: numbers as text, and the text of the barcode file. *)
From Coq Require Import String Ascii List Arith ZArith Bool Lia Sorted SpecFloat.
From Verif Require Import Spec SpecIo SpecComplex SpecFast FastModel SpecArgs ArgModel PipeModel SpecPipe MainModel SpecMain TextRuns.
From Verif Require Import DoubleRuns PropertiesComplex PropertiesPipe PropertiesMain PropertiesDouble.
From Verif Require Import Base IoModel DoubleModel SpecDouble DoubleProofs TextModel SpecText TextProofs.
Import ListNotations.
Local Open Scope nat_scope.
Local Open Scope list_scope.

(* C92: a finite double is printed with six digits after the point, rounded to the nearest number of that kind. *)
Theorem C92_printed_to_six_decimals : forall x, is_finite x -> fits x ->
  exists n, reads_millionths (to_string x) (negative x) n /\ nearest_millionths x n.
Proof. intros x F T. exists (printed x). now apply to_string_spec. Qed.
Print Assumptions C92_printed_to_six_decimals.

(* C92: printing keeps the order, but not strictly: two numbers have the same text exactly if the same millionth is nearest
   to both. *)
Theorem C92_printing_keeps_the_order : forall x y n n', is_finite x -> is_finite y -> canonical x -> canonical y -> non_negative x -> non_negative y ->
  SFleb x y = true -> reads_millionths (to_string x) false n -> reads_millionths (to_string y) false n' -> (n <= n')%Z.
Proof.
  intros x y n n' Fx Fy Cx Cy Nx Ny H R R'. destruct (to_string_spec x Fx (canonical_fits _ Cx)) as [S1 _]. destruct (to_string_spec y Fy (canonical_fits _ Cy)) as [S2 _].
  rewrite (reads_unique _ _ _ _ _ R S1), (reads_unique _ _ _ _ _ R' S2). now apply printed_le.
Qed.
Print Assumptions C92_printing_keeps_the_order.
Theorem C92_same_text : forall x y, is_finite x -> is_finite y -> canonical x -> canonical y -> non_negative x -> non_negative y ->
  (to_string x = to_string y <-> exists n, nearest_millionths x n /\ nearest_millionths y n).
Proof.
  intros x y Fx Fy Cx Cy Nx Ny. destruct (to_string_spec x Fx (canonical_fits _ Cx)) as [S1 T1]. destruct (to_string_spec y Fy (canonical_fits _ Cy)) as [S2 T2]. split.
  - intros E. rewrite E in S1. rewrite (reads_unique _ _ _ _ _ S1 S2) in T1. eauto.
  - intros (n & A & B). assert (E1 := nearest_unique _ _ _ A T1). assert (E2 := nearest_unique _ _ _ B T2).
    assert (K : forall x, is_finite x -> non_negative x -> to_string x = fixed (printed x)).
    { clear. intros [s|s| |s m e] F N; try (now destruct F); cbn [non_negative] in N; subst; reflexivity. }
    rewrite !K by auto. congruence.
Qed.
Print Assumptions C92_same_text.
(* The distances of points are stored like this. *)
Theorem C92_distances_are_canonical : forall square a b v, length a = length b -> d_distance square a b = Ok v -> canonical v.
Proof. intros square a b v L E. rewrite distance_value in E by auto. injection E as <-. apply sqrt_canonical. Qed.
Print Assumptions C92_distances_are_canonical.

(* C92: the text of the barcode file of a run.  First the lines of dimension 0: the distances of C91 in ascending order and
   epsilon; then a line for each bar of a higher dimension, from one distance to another. *)
Theorem C92_text_of_the_barcode_file :
  forall square code decode atoi atof srt past_end nc0 al_reduce other pre_run pre_stats uaf stod file argv c d e f o cloud eps,
  is_sort srt -> squares square -> (0 < atoi d < 2 ^ 31 - 1)%Z ->
  (forall p x, In p cloud -> In x p -> is_finite x /\ decode (code x) = x) ->
  (forall p q, In p cloud -> In q cloud -> length p = length q) ->
  non_negative eps -> fits eps -> atof e = rank eps ->
  plain_line argv c d e f o -> o <> "console"%string -> holds_points stod file f (map (map code) cloud) -> cloud <> [] ->
  forall r, lhf (double_dist square decode) atoi atof srt past_end nc0 al_reduce other pre_run pre_stats uaf stod file argv = Ok r ->
  exists q deaths bars, r = Ran q [((o ++ ".csv")%string, pk_output q)] /\
    barcode_text at_place (pk_output q) =
      list_ascii_of_string "dimension,birth,death" ++ newline ::
      concat (map (fun w => list_ascii_of_string "0,0," ++ to_string w ++ [newline]) (deaths ++ [eps])) ++
      concat (map (fun l : nat * double * double => show (Z.of_nat (fst (fst l))) ++ comma :: to_string (snd (fst l)) ++ comma :: to_string (snd l) ++ [newline]) bars) /\
    StronglySorted (fun x y => SFleb x y = true) deaths /\
    (forall w, In w deaths -> within c eps w /\ exists u v, u < v /\ apart square cloud u v w) /\
    (forall t n, is_number t -> fits t ->
      (double_clusters square cloud c eps t n <-> length (filter (fun w => SFleb w t) deaths) + n = length cloud)) /\
    (forall k b w, In (k, b, w) bars -> 1 <= k /\ SFeqb b w = false /\
       (within c eps b /\ exists u v, u < v /\ apart square cloud u v b) /\ (within c eps w /\ exists u v, u < v /\ apart square cloud u v w)).
Proof. exact text_run. Qed.
Print Assumptions C92_text_of_the_barcode_file.

(* C92: what does not hold: different numbers have different texts; a positive number is not printed as 0. *)
Theorem C92_different_numbers_differ_in_text_refuted : exists x y, is_finite x /\ is_finite y /\ canonical x /\ canonical y /\ SFltb x y = true /\ to_string x = to_string y.
Proof. exists (power (-22)), (power (-21)). vm_compute. repeat split; first [discriminate|reflexivity|right; discriminate]. Qed.
Print Assumptions C92_different_numbers_differ_in_text_refuted.
Theorem C92_positive_numbers_are_not_printed_as_zero_refuted : exists x, is_finite x /\ canonical x /\ SFltb d_zero x = true /\ to_string x = list_ascii_of_string "0.000000".
Proof. exists (power (-22)). vm_compute. repeat split; first [discriminate|reflexivity|right; discriminate]. Qed.
Print Assumptions C92_positive_numbers_are_not_printed_as_zero_refuted.

(* 0.5, 2^-7 (in the middle: to even), -2^-20, and the file of the run of C91. *)
Example C92_ex :
  to_string (power (-1)) = list_ascii_of_string "0.500000" /\ to_string (power (-7)) = list_ascii_of_string "0.007812" /\
  to_string (SFopp (power (-20))) = list_ascii_of_string "-0.000001" /\ to_string (whole 1234567) = list_ascii_of_string "1234567.000000" /\
  canonical (power (-7)) /\ non_negative (whole 5) /\
  barcode_text at_place [(0, 0%Z, rank (whole 3)); (0, 0%Z, rank (whole 5)); (1, rank (whole 3), rank (whole 4))] =
    list_ascii_of_string "dimension,birth,death" ++ newline :: list_ascii_of_string "0,0,3.000000" ++ newline :: list_ascii_of_string "0,0,5.000000" ++
    newline :: list_ascii_of_string "1,3.000000,4.000000" ++ [newline].
Proof. vm_compute. repeat split; first [reflexivity|discriminate|right; discriminate]. Qed.
