(* PropertiesDouble.v -- C90, C91: the distance between points, and a run of the program, in double arithmetic. *)
From Coq Require Import String Ascii List Arith ZArith Bool Lia Sorted SpecFloat.
From Verif Require Import Base UtilsModel DoubleModel SpecDouble DoubleProofs.
From Verif Require Import Spec SpecIo SpecComplex SpecFast FastModel IoModel SpecArgs ArgModel PipeModel SpecPipe PipeProofs MainModel SpecMain DoubleRuns PropertiesComplex PropertiesPipe PropertiesMain.
Import ListNotations.
Local Open Scope nat_scope.
Local Open Scope list_scope.

(* C90: the distance of two points with finite coordinates is a number from 0 on (or infinity); it is infinity or a double. *)
Theorem C90_distance_is_not_negative : forall square a b, squares square -> length a = length b -> Forall is_finite a -> Forall is_finite b ->
  exists v, d_distance square a b = Ok v /\ non_negative v /\ fits v.
Proof.
  intros square a b Sq L Fa Fb. eexists. split; [now apply distance_value|]. split; [|apply sqrt_fits].
  apply sqrt_non_negative, sum_non_negative; [reflexivity|]. apply diffs_non_negative; auto. now apply finite_numbers.
Qed.
Print Assumptions C90_distance_is_not_negative.

(* C90: it is the same in both directions, whatever the coordinates, and 0 from a point with finite coordinates to itself. *)
Theorem C90_distance_is_symmetric : forall square a b, squares square -> length a = length b ->
  d_distance square a b = d_distance square b a.
Proof. intros square a b Sq L. rewrite !distance_value by auto. now rewrite (sq_diffs_sym square Sq). Qed.
Print Assumptions C90_distance_is_symmetric.
Theorem C90_distance_to_itself : forall square a, squares square -> Forall is_finite a -> d_distance square a a = Ok (S754_zero false).
Proof.
  intros square a Sq F. rewrite distance_value by auto. rewrite (sq_diffs_self square Sq a F). f_equal.
  assert (E : fold_left d_add (repeat (S754_zero false) (length a)) d_zero = S754_zero false); [|now rewrite E]. induction (length a) as [|n IH]; [reflexivity|exact IH].
Qed.
Print Assumptions C90_distance_to_itself.

(* C90: it is 0 exactly if the squares of all differences are rounded to 0. *)
Theorem C90_distance_zero : forall square a b v, squares square -> length a = length b -> Forall is_finite a -> Forall is_finite b ->
  d_distance square a b = Ok v -> (is_zero v <-> Forall2 (fun x y => is_zero (square (SFsub 53 1024 x y))) a b).
Proof.
  intros square a b v Sq L Fa Fb E. rewrite distance_value in E by auto. injection E as <-.
  assert (N := diffs_non_negative square Sq a b (finite_numbers a b Fa Fb)). assert (T := diffs_fit square Sq a b).
  assert (K : Forall2 (fun x y => is_zero (square (SFsub 53 1024 x y))) a b <-> Forall is_zero (sq_diffs square a b)).
  { unfold sq_diffs. clear - L. revert b L. induction a as [|x a IH]; intros [|y b] L; try discriminate; cbn [combine map]; [split; constructor|].
    injection L as L. split; intros H; inversion H; subst; constructor; auto; now apply IH. }
  rewrite K. split.
  - intros Z1. apply sqrt_zero in Z1; [|apply sum_fits; [exact I|exact T]]. apply sum_zero in Z1; auto; [apply Z1|exact I|reflexivity].
  - intros F. assert (G : forall x, x = S754_zero false -> fold_left d_add (sq_diffs square a b) x = S754_zero false).
    { clear - N F. induction (sq_diffs square a b) as [|y l IH]; intros x ->; [reflexivity|]. inversion N; subst. inversion F; subst. cbn [fold_left]. apply IH; auto.
      destruct y; cbn in *; try easy. now subst. }
    rewrite G by reflexivity. exact I.
Qed.
Print Assumptions C90_distance_zero.

(* C90: it is not a number exactly if a difference of coordinates is not a number; then it is below no threshold. *)
Theorem C90_distance_not_a_number : forall square a b v, squares square -> length a = length b -> d_distance square a b = Ok v ->
  (v = S754_nan <-> exists i x y, nth_error a i = Some x /\ nth_error b i = Some y /\ SFsub 53 1024 x y = S754_nan) /\
  (v = S754_nan -> forall t, SFltb v t = false /\ SFleb v t = false).
Proof.
  intros square a b v Sq L E. rewrite distance_value in E by auto. injection E as <-. split; [|intros -> t; split; reflexivity].
  assert (K : (exists i x y, nth_error a i = Some x /\ nth_error b i = Some y /\ SFsub 53 1024 x y = S754_nan) <-> exists x y, In (x, y) (combine a b) /\ SFsub 53 1024 x y = S754_nan).
  { clear - L. split.
    - intros (i & x & y & Ha & Hb & Q). exists x, y. split; [|exact Q]. revert a b L Ha Hb. induction i as [|i IH]; intros [|x' a] [|y' b] L Ha Hb; try discriminate; cbn in *.
      + injection Ha as ->. injection Hb as ->. now left.
      + right. injection L as L. now apply IH.
    - intros (x & y & H & Q). apply In_nth_error in H as (i & H). exists i, x, y. revert a b L H. induction i as [|i IH]; intros [|x' a] [|y' b] L H; try discriminate; cbn in *.
      + injection H as -> ->. auto.
      + injection L as L. now apply IH. }
  rewrite K. split.
  - intros Q.
    assert (D : forall l, (forall x y : double, In (x, y) l -> SFsub 53 1024 x y <> S754_nan) \/ exists x y : double, In (x, y) l /\ SFsub 53 1024 x y = S754_nan).
    { induction l as [|[x y] l IH]; [left; intros x y []|]. destruct IH as [IH|(x1 & y1 & H1 & H2)]; [|right; exists x1, y1; split; [now right|exact H2]].
      destruct (SFsub 53 1024 x y) eqn:Es; try (left; intros x1 y1 [H1|H1]; [injection H1 as <- <-; congruence|now apply IH]). right. exists x, y. split; [now left|exact Es]. }
    destruct (D (combine a b)) as [H|H]; [|exact H]. exfalso.
    assert (N := sqrt_non_negative _ (sum_non_negative _ d_zero eq_refl (diffs_non_negative square Sq a b H))). rewrite Q in N. destruct N.
  - intros (x & y & H & Q). rewrite sum_nan_in; [reflexivity|]. unfold sq_diffs. apply in_map_iff. exists (x, y). split; [|exact H]. cbn [fst snd]. unfold d_sub. rewrite Q. apply (sq_nan _ Sq).
Qed.
Print Assumptions C90_distance_not_a_number.

(* 2 ^ e as a double, for e from -1074 to 1023. *)
Definition power (e : Z) : double := binary_round 53 1024 false 1 e.

(* C90: what does not hold: different points can be at distance 0, points with finite coordinates infinitely far apart, and
   0, x, 2 x can have distances 0 from the first to the second and from the second to the third but not from the first to
   the third, against the triangle inequality. *)
Theorem C90_different_points_are_apart_refuted : exists x y, is_finite x /\ is_finite y /\ SFeqb x y = false /\ d_distance d_square [x] [y] = Ok d_zero.
Proof. exists (power (-538)), d_zero. vm_compute. auto. Qed.
Print Assumptions C90_different_points_are_apart_refuted.
Theorem C90_finite_points_have_finite_distance_refuted : exists x y, is_finite x /\ is_finite y /\ d_distance d_square [x] [y] = Ok (S754_infinity false).
Proof. exists (power 512), d_zero. vm_compute. auto. Qed.
Print Assumptions C90_finite_points_have_finite_distance_refuted.
Theorem C90_triangle_inequality_refuted : exists a b c u v w, d_distance d_square [a] [b] = Ok u /\ d_distance d_square [b] [c] = Ok v /\
  d_distance d_square [a] [c] = Ok w /\ SFltb (d_add u v) w = true.
Proof. exists d_zero, (power (-538)), (power (-537)). do 3 eexists. do 3 (split; [vm_compute; reflexivity|]). vm_compute. reflexivity. Qed.
Print Assumptions C90_triangle_inequality_refuted.

(* x * x is such a square; the points (0, 3) and (4, 0) are at distance 5. *)
Definition whole (n : positive) : double := binary_round 53 1024 false n 0.
Example C90_ex : squares d_square /\ Forall is_finite [d_zero; whole 3] /\
  d_distance d_square [d_zero; whole 3] [whole 4; d_zero] = Ok (whole 5) /\ d_distance d_square [S754_nan] [d_zero] = Ok S754_nan.
Proof. split; [exact square_squares|]. split; [repeat constructor|]. split; vm_compute; reflexivity. Qed.

(* C91: the model compares whole numbers where the program compares doubles.  Replacing every double by its place in the
   order of the doubles changes no comparison of numbers. *)
Theorem C91_places_compare_as_doubles : forall x y, is_number x -> is_number y -> fits x -> fits y ->
  SFltb x y = (rank x <? rank y)%Z /\ SFleb x y = (rank x <=? rank y)%Z /\ SFeqb x y = (rank x =? rank y)%Z.
Proof. intros. split; [now apply rank_ltb|split; [now apply rank_leb|now apply rank_eqb]]. Qed.
Print Assumptions C91_places_compare_as_doubles.

(* C91: a run of the program on a file of points with finite coordinates, with distances and comparisons in double
   arithmetic, for any way to write doubles as whole numbers.  The bars of dimension 0 end at computed distances of pairs
   of points, in ascending order, and one more ends at epsilon; by any double t as many have ended as there are clusters
   less than points.  If no distance is within epsilon, the run is undefined. *)
Theorem C91_run_in_double_arithmetic :
  forall square code decode atoi atof srt past_end nc0 al_reduce other pre_run pre_stats uaf stod file argv c d e f o cloud eps,
  is_sort srt -> squares square -> (0 < atoi d < 2 ^ 31 - 1)%Z ->
  (forall p x, In p cloud -> In x p -> is_finite x /\ decode (code x) = x) ->
  (forall p q, In p cloud -> In q cloud -> length p = length q) ->
  is_number eps -> fits eps -> atof e = rank eps ->
  plain_line argv c d e f o -> holds_points stod file f (map (map code) cloud) -> cloud <> [] ->
  let program := lhf (double_dist square decode) atoi atof srt past_end nc0 al_reduce other pre_run pre_stats uaf stod file argv in
  (forall r, program = Ok r ->
     exists q deaths, r = Ran q (if String.eqb o "console" then [] else [((o ++ ".csv")%string, pk_output q)]) /\
       dim0 (pk_output q) = map (fun w => (0, 0%Z, rank w)) deaths ++ [(0, 0%Z, rank eps)] /\
       StronglySorted (fun x y => SFleb x y = true) deaths /\
       (forall w, In w deaths -> within c eps w /\ exists u v, u < v /\ apart square cloud u v w) /\
       forall t n, is_number t -> fits t ->
         (double_clusters square cloud c eps t n <-> length (filter (fun w => SFleb w t) deaths) + n = length cloud)) /\
  (~ (exists u v w, u < v /\ apart square cloud u v w /\ within c eps w) -> program = UB).
Proof. exact double_run. Qed.
Print Assumptions C91_run_in_double_arithmetic.

(* Doubles written as whole numbers; the program on a file of the points 0, 3 and 7 with epsilon 5. *)
Definition of_digits (z : Z) : double := match z with Zpos p => whole p | _ => d_zero end.
Definition digits (t : text) : option Z := option_map (fun z => to_whole (of_digits z)) (decimal t).
Example C91_ex :
  (forall x, fits x -> of_whole (to_whole x) = x) /\ is_number (whole 5) /\ fits (whole 5) /\
  plain_line ["-i"; "pts"; "-e"; "5"; "-d"; "1"; "-o"; "res"]%string Tree "1" "5" "pts" "res" /\
  holds_points digits (the_file ["00"; "03"; "07"]%string) "pts" (map (map to_whole) [[d_zero]; [whole 3]; [whole 7]]) /\
  bars (lhf (double_dist d_square of_whole) number (fun s => rank (of_digits (number s))) wsort libstdcxx_past_end 0%Z
      (fun g => Ok g) (fun _ _ p => Ok p) three_centres (fun _ p => Ok p) (Ok tt)
      digits (the_file ["00"; "03"; "07"]%string) ["-i"; "pts"; "-e"; "5"; "-d"; "1"; "-o"; "res"]%string) =
    Some [("res.csv"%string, [(0, 0%Z, rank (whole 3)); (0, 0%Z, rank (whole 4)); (0, 0%Z, rank (whole 5))])].
Proof.
  split; [exact of_to_whole|]. split; [vm_compute; discriminate|]. split; [vm_compute; repeat split; discriminate|]. split; [exact plain_example|]. split; [|vm_compute; reflexivity].
  right. exists (map list_ascii_of_string ["00"; "03"; "07"]%string), (map (fun p => Some (map to_whole p)) [[d_zero]; [whole 3]; [whole 7]]).
  split; [discriminate|]. split; [reflexivity|]. split; [|reflexivity].
  cbn [map]. apply Forall2_cons; [exists [list_ascii_of_string "00"]; row|]. apply Forall2_cons; [exists [list_ascii_of_string "03"]; row|].
  apply Forall2_cons; [exists [list_ascii_of_string "07"]; row|]. constructor.
Qed.
