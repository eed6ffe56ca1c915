(* SpecNan.v -- vocabulary for the statements about coordinates that are not numbers and about k-means in double arithmetic. *)
From Coq Require Import String Ascii List Arith ZArith Bool Relations Sorted SpecFloat.
From Verif Require Import Base SpecGraph SpecPipe IoModel SpecIo DoubleModel SpecDouble SpecText TextModel SpecRead.
Import ListNotations.
Local Open Scope nat_scope.
Local Open Scope list_scope.

(* The name in small letters, or with some of them capital. *)
Definition spells (t : text) (name : string) : Prop :=
  Forall2 (fun a b => nat_of_ascii a = nat_of_ascii b \/ nat_of_ascii a + 32 = nat_of_ascii b) t (list_ascii_of_string name).
(* The text stands for a double: a decimal in range, or an infinity, or something that is not a number. *)
Definition reads_as (t : text) (y : double) : Prop :=
  stands_for t y \/
  exists s neg name, t = s ++ name /\ sign_text s neg /\
    (((spells name "inf" \/ spells name "infinity") /\ y = S754_infinity neg) \/ (spells name "nan" /\ y = S754_nan)).
(* A line of the input file: blank, or such texts separated by commas. *)
Definition line_gives (line : text) (r : option (list double)) : Prop :=
  match r with
  | None => blank line
  | Some row => exists cells, is_row line cells /\ 2 <= length (strip line) /\ Forall2 reads_as cells row
  end.

Section Points.
  Variable square : double -> double.
  Variable cloud : list (list double).
  (* The distance as the complex takes it: the tree takes 0 for a distance that is not a number. *)
  Definition seen (c : cx_type) (w : double) : double := match c, w with Tree, S754_nan => S754_zero false | _, _ => w end.
  Definition seen_apart (c : cx_type) (u v : nat) (w : double) : Prop := exists x, apart square cloud u v x /\ w = seen c x.
  (* Two points have such a distance within epsilon. *)
  Definition near_pair (c : cx_type) (eps : double) (w : double) : Prop := within c eps w /\ exists u v, u < v /\ seen_apart c u v w.
  (* The points fall into n clusters at scale t, if points at such distances within epsilon and at most t are joined. *)
  Definition seen_clusters (c : cx_type) (eps t : double) (n : nat) : Prop :=
    classes (seq 0 (length cloud))
      (clos_refl_sym_trans nat (fun u v => u < v /\ exists w, seen_apart c u v w /\ within c eps w /\ SFleb w t = true)) n.
End Points.

(* The text of a barcode file: the header, a line for each death in dimension 0 and for epsilon, and the other bars. *)
Definition barcodes (deaths : list double) (eps : double) (bars : list (nat * double * double)) : text :=
  list_ascii_of_string "dimension,birth,death" ++ newline ::
  concat (map (fun w => list_ascii_of_string "0,0," ++ to_string w ++ [newline]) (deaths ++ [eps])) ++
  concat (map (fun l : nat * double * double => show (Z.of_nat (fst (fst l))) ++ comma :: to_string (snd (fst l)) ++ comma :: to_string (snd l) ++ [newline]) bars).
(* The bars of a cloud: the deaths of dimension 0 are the heights at which clusters merge, in ascending order, and the other
   bars run between distances. *)
Record bars_of (square : double -> double) (cloud : list (list double)) (c : cx_type) (eps : double)
               (deaths : list double) (bars : list (nat * double * double)) : Prop := {
  bo_sorted : StronglySorted (fun x y => SFleb x y = true) deaths;
  bo_real : forall w, In w deaths -> near_pair square cloud c eps w;
  bo_count : forall t n, is_number t -> fits t ->
    (seen_clusters square cloud c eps t n <-> length (filter (fun w => SFleb w t) deaths) + n = length cloud);
  bo_bars : forall k b w, In (k, b, w) bars -> 1 <= k /\ SFeqb b w = false /\ near_pair square cloud c eps b /\ near_pair square cloud c eps w }.

(* ---- k-means in double arithmetic *)
(* The two points are equal as ==: zeros of either sign are equal. *)
Definition same_point (x y : list double) : Prop := Forall2 (fun a b => SFeqb a b = true) x y.
(* The points have fewer than k different ones. *)
Definition fewer_points (k : nat) (data : list (list double)) : Prop :=
  exists t, length t < k /\ incl t data /\ forall x, In x data -> exists y, In y t /\ same_point x y.
(* k different points of the data. *)
Definition some_points (k : nat) (data start : list (list double)) : Prop :=
  length start = k /\ incl start data /\
  forall i j x y, i <> j -> nth_error start i = Some x -> nth_error start j = Some y -> ~ same_point x y.
(* The points with label j. *)
Definition labelled (points : list (list double)) (labels : list nat) (j : nat) : list (list double) :=
  map snd (filter (fun p : nat * list double => fst p =? j) (combine labels points)).
(* The mean of points of a dimension: the sums are rounded from point to point, the count is a double, and 0 / 0 is not a number. *)
Definition double_mean (dim : nat) (points : list (list double)) : list double :=
  map (fun d => SFdiv 53 1024 (fold_left (SFadd 53 1024) (map (fun x => nth d x (S754_zero false)) points) (S754_zero false))
                              (binary_normalize 53 1024 (Z.of_nat (length points)) 0 false)) (seq 0 dim).
Definition double_means (dim k : nat) (points : list (list double)) (labels : list nat) : list (list double) :=
  map (fun j => double_mean dim (labelled points labels j)) (seq 0 k).
Section Kmeans.
  Variable square : double -> double.
  (* The largest double. *)
  Definition largest : double := S754_finite false (2 ^ 53 - 1) 971.
  (* The label of a point: the first of the nearest centroids; a centroid at a distance that is not a number is not nearest;
     0 if no distance is below the largest double. *)
  Definition double_label (cents : list (list double)) (x : list double) (i : nat) : Prop :=
    (exists c w, nth_error cents i = Some c /\ d_distance square x c = Ok w /\ SFltb w largest = true /\
       forall j c' w', nth_error cents j = Some c' -> d_distance square x c' = Ok w' -> SFltb w' w = false /\ (j < i -> SFleb w' w = false)) \/
    (i = 0 /\ forall c w, In c cents -> d_distance square x c = Ok w -> SFltb w largest = false).
  Definition double_labels (cents points : list (list double)) (labels : list nat) : Prop := Forall2 (double_label cents) points labels.
  (* n rounds: label the points, move every centroid to the mean of its points. *)
  Inductive double_rounds (dim k : nat) (points : list (list double)) : nat -> list (list double) -> list (list double) -> Prop :=
  | double_no_round cents : double_rounds dim k points 0 cents cents
  | double_round n cents labels cents' : double_labels cents points labels ->
      double_rounds dim k points n (double_means dim k points labels) cents' -> double_rounds dim k points (S n) cents cents'.
  (* At most z iterations of k-means: the labels are by the centroids after fewer than z rounds, and by the new centroids too if
     not all iterations were used; the new centroids are the means. *)
  Definition double_kmeans (dim k : nat) (points : list (list double)) (z : nat) (start cents : list (list double)) (labels : list nat) : Prop :=
    cents = double_means dim k points labels /\
    exists n prev, n < z /\ double_rounds dim k points n start prev /\ double_labels prev points labels /\
      (S n = z \/ double_labels cents points labels).
End Kmeans.
(* The text of the files of k-means: a row of numbers, each with a comma behind it, for each centroid; a line for each label. *)
Definition centroid_text (cents : list (list double)) : text := concat (map (fun row => concat (map (fun x => to_string x ++ [comma]) row) ++ [newline]) cents).
Definition label_text (labels : list nat) : text := concat (map (fun a => show (Z.of_nat a) ++ [newline]) labels).
