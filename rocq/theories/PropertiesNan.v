(* PropertiesNan.v -- C95: coordinates that are not numbers, and k-means in double arithmetic, from text to text. *)
From Coq Require Import String Ascii List Arith ZArith Bool Lia Sorted Relations SpecFloat.
From Verif Require Import Base Spec SpecComplex FastModel SpecFast ArgModel SpecArgs PipeModel SpecPipe MainModel SpecMain SpecLink PropertiesComplex PropertiesPipe PropertiesMain.
From Verif Require Import DoubleModel SpecDouble DoubleProofs DoubleRuns PropertiesDouble.
From Verif Require Import IoModel SpecIo TextModel SpecText ReadModel SpecRead ReadProofs SpecProgram ProgramModel ProgramRuns PropertiesProgram NanModel SpecNan NanRuns NanKmeans NanProgram.
Import ListNotations.
Local Open Scope nat_scope.
Local Open Scope list_scope.

(* C95: what the program writes for an input file whose numbers may be infinite or not numbers.  The bars of dimension 0 are the
   heights at which clusters of the points merge, where the tree takes a distance that is not a number for 0 and the array list takes
   it for no distance at all.  The run is undefined if no two points are within epsilon by these distances. *)
Theorem C95_text_of_any_doubles :
  forall square index picks pre_other srt past_end nc0 al_reduce other uaf file argv c d e f o k eps lines rs,
  is_sort srt -> squares square ->
  plain_line argv c d e f o -> o <> "console"%string ->
  reads_number (list_ascii_of_string d) k -> (0 < k < 2 ^ 31 - 1)%Z ->
  reads_as (list_ascii_of_string e) eps -> non_negative eps ->
  file f = Some (join newline lines) -> Forall2 line_gives lines rs ->
  let cloud := kept rs in
  (forall p q, In p cloud -> In q cloud -> length p = length q) -> cloud <> [] ->
  let program := lhf_files square index picks pre_other srt past_end nc0 al_reduce other uaf file argv in
  (forall files, program = Ok files ->
     exists deaths bars, files = [((o ++ ".csv")%string, barcodes deaths eps bars)] /\ bars_of square cloud c eps deaths bars) /\
  (~ (exists w, near_pair square cloud c eps w) -> program = UB) /\
  ((exists w, near_pair square cloud c eps w) -> past_end = libstdcxx_past_end -> exists files, program = Ok files).
Proof. intros. eapply plain_files; eassumption. Qed.
Print Assumptions C95_text_of_any_doubles.

(* C95: with the tree, one coordinate that is not a number joins all points at height 0: all bars of dimension 0 but the last
   are 0,0,0.000000, whatever the other points are. *)
Theorem C95_one_coordinate_that_is_no_number :
  forall square index picks pre_other srt past_end nc0 al_reduce other uaf file argv d e f o k eps lines rs,
  is_sort srt -> squares square ->
  plain_line argv Tree d e f o -> o <> "console"%string ->
  reads_number (list_ascii_of_string d) k -> (0 < k < 2 ^ 31 - 1)%Z ->
  reads_as (list_ascii_of_string e) eps -> non_negative eps -> SFltb (S754_zero false) eps = true ->
  file f = Some (join newline lines) -> Forall2 line_gives lines rs ->
  let cloud := kept rs in
  (forall p q, In p cloud -> In q cloud -> length p = length q) -> 2 <= length cloud -> (exists p, In p cloud /\ In S754_nan p) ->
  let program := lhf_files square index picks pre_other srt past_end nc0 al_reduce other uaf file argv in
  (forall files, program = Ok files ->
     exists bars, files = [((o ++ ".csv")%string, barcodes (repeat (S754_zero false) (length cloud - 1)) eps bars)]) /\
  (past_end = libstdcxx_past_end -> exists files, program = Ok files).
Proof.
  intros square index picks pre_other srt past_end nc0 al_reduce other uaf file argv d e f o k eps lines rs Hs Sq Hl Ho Hd Hk He Pe Ps Hf Hr cloud Len L2 Nan program.
  assert (Ne : cloud <> []) by (intros Q; rewrite Q in L2; cbn in L2; lia).
  destruct (C95_text_of_any_doubles square index picks pre_other srt past_end nc0 al_reduce other uaf file argv Tree d e f o k eps lines rs Hs Sq Hl Ho Hd Hk He Pe Hf Hr Len Ne) as (A & _ & C).
  destruct (input_rows file f lines rs Hf Hr Ne) as (_ & _ & Fit & _). destruct (reads_stod _ _ He) as (_ & _ & Fe). split.
  - intros files E. destruct (A files E) as (deaths & bars & -> & B). exists bars. now rewrite (nan_deaths square cloud eps deaths bars Sq Len Fit Fe Ps Nan B).
  - intros Pa. apply C; [|exact Pa]. now apply nan_near.
Qed.
Print Assumptions C95_one_coordinate_that_is_no_number.

(* C95: the program with k-means++ in double arithmetic.  It is undefined if the points have fewer than k different ones.
   Otherwise k different points are chosen, k-means labels all points but the last and ends with k centroids, the centroids and
   the labels are written to two files, and the barcodes are those of the centroids. *)
Theorem C95_kmeans_from_text_to_text :
  forall square index picks pre_other srt past_end nc0 al_reduce other uaf file argv c d e f o dd eps lines rs pre kk rr k r dim,
  is_sort srt -> squares square ->
  one_run_line argv pre c d e f o -> names_kmeans pre -> value argv "clusters" kk -> value argv "iterations" rr -> o <> "console"%string ->
  reads_number (list_ascii_of_string kk) k -> (0 < k)%Z -> reads_number (list_ascii_of_string rr) r -> (0 < r)%Z ->
  reads_number (list_ascii_of_string d) dd -> (0 < dd < 2 ^ 31 - 1)%Z ->
  reads_as (list_ascii_of_string e) eps -> non_negative eps ->
  file f = Some (join newline lines) -> Forall2 line_gives lines rs ->
  let cloud := kept rs in
  (forall p, In p cloud -> length p = dim /\ forall x, In x p -> is_number x) ->
  index < length cloud -> (forall i valid, In (i, valid) picks -> i < length cloud) ->
  let program := lhf_files square index picks pre_other srt past_end nc0 al_reduce other uaf file argv in
  let n := Z.to_nat k in
  (fewer_points n cloud -> program = UB) /\
  (~ fewer_points n cloud -> exists start cents labels, some_points n cloud start /\
     double_kmeans square dim n (removelast cloud) (Z.to_nat r) start cents labels /\
     (forall files, program = Ok files -> exists deaths bars,
        files = [("output/k-means++_centroid_output.csv"%string, centroid_text cents); ("output/k-means++_label_output.csv"%string, label_text labels);
                 ((o ++ ".csv")%string, barcodes deaths eps bars)] /\ bars_of square cents c eps deaths bars) /\
     (~ (exists w, near_pair square cents c eps w) -> program = UB) /\
     ((exists w, near_pair square cents c eps w) -> past_end = libstdcxx_past_end -> exists files, program = Ok files)).
Proof.
  intros square index picks pre_other srt past_end nc0 al_reduce other uaf file argv c d e f o dd eps lines rs pre kk rr k r dim Hs Sq Hl Hn Vk Vr Ho Rk Kp Rr Rp Hd Hk He Pe Hf Hr cloud Hc Hi Hp program n.
  assert (Ne : cloud <> []) by (intros Q; rewrite Q in Hi; cbn in Hi; lia).
  assert (Len : forall p q, In p cloud -> In q cloud -> length p = length q) by (intros p q H1 H2; rewrite (proj1 (Hc p H1)); symmetry; apply Hc, H2).
  apply (kmeans_files square index picks pre_other srt past_end nc0 al_reduce other uaf file argv c d e f o dd eps lines rs Hs Sq Hd Hk He Pe Ho Hf Hr Ne Len pre kk rr k r dim Hl Hn Vk Vr Rk Rr Kp Rp Hi Hp).
  - intros p x H1 H2. now apply (Hc p).
  - intros p H1. now apply (Hc p).
Qed.
Print Assumptions C95_kmeans_from_text_to_text.

(* C95: with as many clusters as points (all different) and the tree, the result has nothing to do with the points: one cluster
   is always without points, its centroid is not a number, and all bars of dimension 0 but the last are 0,0,0.000000. *)
Theorem C95_as_many_clusters_as_points :
  forall square index picks pre_other srt past_end nc0 al_reduce other uaf file argv d e f o dd eps lines rs pre kk rr r dim,
  is_sort srt -> squares square ->
  one_run_line argv pre Tree d e f o -> names_kmeans pre -> value argv "clusters" kk -> value argv "iterations" rr -> o <> "console"%string ->
  let cloud := kept rs in
  reads_number (list_ascii_of_string kk) (Z.of_nat (length cloud)) -> 2 <= length cloud -> reads_number (list_ascii_of_string rr) r -> (0 < r)%Z ->
  reads_number (list_ascii_of_string d) dd -> (0 < dd < 2 ^ 31 - 1)%Z ->
  reads_as (list_ascii_of_string e) eps -> non_negative eps -> SFltb (S754_zero false) eps = true ->
  file f = Some (join newline lines) -> Forall2 line_gives lines rs ->
  (forall p, In p cloud -> length p = dim /\ forall x, In x p -> is_number x) ->
  index < length cloud -> (forall i valid, In (i, valid) picks -> i < length cloud) -> ~ fewer_points (length cloud) cloud ->
  let program := lhf_files square index picks pre_other srt past_end nc0 al_reduce other uaf file argv in
  (forall files, program = Ok files -> exists cents labels bars,
     files = [("output/k-means++_centroid_output.csv"%string, centroid_text cents); ("output/k-means++_label_output.csv"%string, label_text labels);
              ((o ++ ".csv")%string, barcodes (repeat (S754_zero false) (length cloud - 1)) eps bars)] /\
     length labels + 1 = length cloud /\ length cents = length cloud /\ In (repeat S754_nan dim) cents) /\
  (past_end = libstdcxx_past_end -> exists files, program = Ok files).
Proof.
  intros square index picks pre_other srt past_end nc0 al_reduce other uaf file argv d e f o dd eps lines rs pre kk rr r dim Hs Sq Hl Hn Vk Vr Ho cloud Rk L2 Rr Rp Hd Hk He Pe Ps Hf Hr Hc Hi Hp Nf program.
  destruct (C95_kmeans_from_text_to_text square index picks pre_other srt past_end nc0 al_reduce other uaf file argv Tree d e f o dd eps lines rs pre kk rr (Z.of_nat (length cloud)) r dim
    Hs Sq Hl Hn Vk Vr Ho Rk ltac:(lia) Rr Rp Hd Hk He Pe Hf Hr Hc Hi Hp) as [_ B]. rewrite Nat2Z.id in B. destruct (B Nf) as (start & cents & labels & _ & K & F & _ & En). clear B.
  assert (Ne : cloud <> []) by (intros Q; rewrite Q in L2; cbn in L2; lia).
  assert (Ll : length labels + 1 = length cloud).
  { rewrite (kmeans_labels _ _ _ _ _ _ _ _ K). fold cloud. clear - Ne. destruct cloud as [|y l] using rev_ind; [easy|]. rewrite removelast_last, List.app_length. cbn. lia. }
  destruct (unused_label (length cloud) labels ltac:(lia)) as (j & Hj & Nj). destruct (empty_cluster _ _ _ _ _ _ _ _ j K Hj Nj) as [Ej Lc]. assert (Ic := nth_error_In _ _ Ej).
  destruct (input_rows file f lines rs Hf Hr Ne) as (_ & _ & _ & Row). destruct (reads_stod _ _ He) as (_ & _ & Fe).
  assert (Pd : 0 < dim). { fold cloud in Row. clear - Hc Row Ne. destruct cloud as [|p l]; [easy|]. destruct (Hc p (or_introl eq_refl)) as [<- _]. assert (R := Row p (or_introl eq_refl)). destruct p; [easy|cbn; lia]. }
  assert (Nan : exists p, In p cents /\ In S754_nan p). { exists (repeat S754_nan dim). split; [exact Ic|]. clear - Pd. destruct dim; [lia|now left]. }
  assert (Ec := proj1 K). assert (Fit : forall p x, In p cents -> In x p -> fits x) by (rewrite Ec; apply means_fit).
  assert (Len : forall p q, In p cents -> In q cents -> length p = length q).
  { assert (M := means_dim dim (length cloud) (removelast cloud) labels). rewrite Forall_forall in M. change (kept rs) with cloud in Ec. rewrite <- Ec in M. intros p q H1 H2. rewrite (M p H1). symmetry. now apply M. }
  split.
  - intros files E. destruct (F files E) as (deaths & bars & -> & Bo). exists cents, labels, bars. rewrite (nan_deaths square cents eps deaths bars Sq Len Fit Fe Ps Nan Bo), Lc. auto.
  - intros Pa. apply En; [|exact Pa]. apply nan_near; auto. rewrite Lc. exact L2.
Qed.
Print Assumptions C95_as_many_clusters_as_points.

Local Notation txt s := (list_ascii_of_string s).
Definition run_files (index : nat) (picks : list (nat * (nat -> bool))) (lines argv : list string) : res (list (string * text)) :=
  lhf_files d_square index picks (fun _ _ p => Ok p) wsort libstdcxx_past_end 0%Z (fun g => Ok g) (fun _ _ p => Ok p) (Ok tt) (the_file lines) argv.
(* The points 0, nan and 7 with the tree and with the array list. *)
Definition list_line : list string := ["-i"; "pts"; "-e"; "9."; "-d"; "1"; "-o"; "res"; "-c"; "simplexArrayList"]%string.
Example C95_ex_nan :
  plain_line the_line Tree "1" "5." "pts" "res" /\
  Forall2 line_gives [txt "0."; txt "-NaN"; txt "7."] [Some [d_zero]; Some [S754_nan]; Some [whole 7]] /\
  the_file ["0."; "-NaN"; "7."]%string "pts" = Some (join newline [txt "0."; txt "-NaN"; txt "7."]) /\
  run_files 0 [] ["0."; "-NaN"; "7."]%string the_line =
    Ok [("res.csv"%string, txt "dimension,birth,death" ++ newline :: txt "0,0,0.000000" ++ newline :: txt "0,0,0.000000" ++ newline :: txt "0,0,5.000000" ++ [newline])] /\
  run_files 0 [] ["0."; "-NaN"; "7."]%string list_line =
    Ok [("res.csv"%string, txt "dimension,birth,death" ++ newline :: txt "0,0,7.000000" ++ newline :: txt "0,0,9.000000" ++ [newline])].
Proof.
  split; [exact (proj1 C94_ex)|]. split; [|split; [reflexivity|split; vm_compute; reflexivity]].
  apply Forall2_cons; [exists [txt "0."]; one_cell; constructor; [left|constructor]|apply Forall2_cons; [exists [txt "-NaN"]; one_cell; constructor; [right|constructor]|apply Forall2_cons; [exists [txt "7."]; one_cell; constructor; [left|constructor]|constructor]]].
  - refine (stands_by_reading _ _ _ _ _ (plain_decimal (txt "0") [] _ _ _) _ _); [repeat constructor|constructor|discriminate|left; reflexivity|vm_compute; reflexivity].
  - exists ["-"%char], true, (txt "NaN"). split; [reflexivity|]. split; [right; right; auto|]. right. split; [|reflexivity]. apply Forall2_cons; [right; reflexivity|apply Forall2_cons; [left; reflexivity|apply Forall2_cons; [right; reflexivity|apply Forall2_nil]]].
  - refine (stands_by_reading _ _ _ _ _ (plain_decimal (txt "7") [] _ _ _) _ _); [repeat constructor|constructor|discriminate|right; split; vm_compute; discriminate|vm_compute; reflexivity].
Qed.
(* The points 0, 3 and 7 with three clusters. *)
Definition km_line : list string := ["-i"; "pts"; "-e"; "5."; "-d"; "1"; "-o"; "res"; "-pre"; "kmeans++"; "-k"; "3"; "-r"; "10"]%string.
Example C95_ex_kmeans :
  one_run_line km_line "kmeans++" Tree "1" "5." "pts" "res" /\ names_kmeans "kmeans++" /\ value km_line "clusters" "3" /\ value km_line "iterations" "10" /\
  reads_number (txt "3") (Z.of_nat 3) /\ reads_number (txt "10") 10 /\ SFltb (S754_zero false) (whole 5) = true /\
  ~ fewer_points 3 [[d_zero]; [whole 3]; [whole 7]] /\
  run_files 1 [(0, fun _ => true); (0, fun _ => true)] ["0."; "3.0"; "7."]%string km_line =
    Ok [("output/k-means++_centroid_output.csv"%string, txt "3.000000," ++ newline :: txt "0.000000," ++ newline :: txt "nan," ++ [newline]);
        ("output/k-means++_label_output.csv"%string, txt "1" ++ newline :: txt "0" ++ [newline]);
        ("res.csv"%string, txt "dimension,birth,death" ++ newline :: txt "0,0,0.000000" ++ newline :: txt "0,0,0.000000" ++ newline :: txt "0,0,5.000000" ++ [newline])].
Proof.
  split; [constructor; try line_value; [intros [[k H] _]; cbn in H; lia|left; split; [line_value|split; [line_value|exists "false"%string; split; [line_value|discriminate]]]
    |exists "0"%string; split; [line_value|discriminate]|exists "false"%string; split; [line_value|split; discriminate]]|].
  split; [unfold names_kmeans, pre_names; cbn; auto|]. split; [line_value|]. split; [line_value|].
  split; [split; [discriminate|split; [repeat constructor|split; [reflexivity|discriminate]]]|].
  split; [split; [discriminate|split; [repeat constructor|split; [reflexivity|discriminate]]]|]. split; [reflexivity|]. split; [|vm_compute; reflexivity].
  intros (t & L & I & C). assert (J : incl [[d_zero]; [whole 3]; [whole 7]] t).
  { intros x Hx. destruct (C x Hx) as (y & Hy & S). assert (Iy := I y Hy). destruct Hx as [<-|[<-|[<-|[]]]]; destruct Iy as [<-|[<-|[<-|[]]]]; try exact Hy; inversion S as [|? ? ? ? E _]; discriminate E. }
  apply NoDup_incl_length in J; [cbn in J; lia|]. repeat constructor; cbn; intuition discriminate.
Qed.
