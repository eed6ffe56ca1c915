(* PropertiesReduced.v -- C111: the reduced mode in double arithmetic, from text to text. *)
From Coq Require Import String Ascii List Arith ZArith Bool Lia Sorted Relations SpecFloat Reals Lra.
From Verif Require Import Base Spec SpecComplex FastModel SpecFast ArgModel SpecArgs PipeModel SpecPipe MainModel SpecMain SpecLink PropertiesComplex PropertiesPipe PropertiesMain.
From Verif Require Import DoubleModel SpecDouble DoubleProofs DoubleRuns PropertiesDouble.
From Verif Require Import IoModel SpecIo TextModel SpecText ReadModel SpecRead ReadProofs SpecProgram ProgramModel ProgramRuns PropertiesProgram NanModel SpecNan PropertiesNan.
From Verif Require Import SpecKdDouble SpecError FloatError SpecMean SpecRadius ReducedModel SpecReduced ReducedRuns.
Import ListNotations.
Local Open Scope nat_scope.
Local Open Scope list_scope.

(* C111: the program in the reduced mode with k-means++ (its default), all in double arithmetic.  It is undefined if the points have
   fewer than k different ones, and if the write to freed memory (uaf) is.  Otherwise k-means runs as in C95, and the rows are the balls
   of twice the radius around the centroids as in C109, if no sum of coordinates comes near 2 ^ 1024.  The pipeline runs on every row that
   is not empty, and then on the centroids.  Every run writes the same file, so the last text, that of the centroids, is what stays.
   In every text the bars of dimension 0 end at the lengths of a spanning forest of the group, and one more ends at epsilon.  The run is
   undefined if a group has no two points within epsilon, or if a row after (or with) one that has a path of two short edges is not larger
   than all rows before that one together. *)
Theorem C111_reduced_mode_from_text_to_text :
  forall index picks pre_other srt past_end nc0 al_reduce other uaf file argv pre d e f o kk rr dd k r eps lines rs dim,
  is_sort srt ->
  reduced_line argv pre d e f o -> pre = ""%string \/ names_kmeans pre -> value argv "clusters" kk -> value argv "iterations" rr -> o <> "console"%string ->
  reads_number (list_ascii_of_string kk) k -> (0 < k)%Z -> reads_number (list_ascii_of_string rr) r -> (0 < r)%Z ->
  reads_number (list_ascii_of_string d) dd -> (0 < dd < 2 ^ 31 - 1)%Z ->
  reads_as (list_ascii_of_string e) eps -> non_negative eps ->
  file f = Some (join newline lines) -> Forall2 line_gives lines rs ->
  let cloud := kept rs in
  (forall p, In p cloud -> length p = dim /\ Forall coordinate_ok p) ->
  index < length cloud -> (forall i valid, In (i, valid) picks -> i < length cloud) -> (Z.of_nat (length cloud) < 2 ^ 53)%Z ->
  let program := lhf_reduced d_square index picks pre_other srt past_end nc0 al_reduce other uaf file argv in
  let n := Z.to_nat k in
  (fewer_points n cloud -> program = UB) /\
  (~ fewer_points n cloud -> exists start cents labels, some_points n cloud start /\
     double_kmeans d_square dim n (removelast cloud) (Z.to_nat r) start cents labels /\
     (uaf = UB -> program = UB) /\
     ((forall c j, c < n -> j < dim -> let points := labelled (removelast cloud) labels c in
         ((1 + unit_error) ^ length points * (mean_size j points * INR (length points)) < powerRZ 2 1024)%R) ->
      exists rad idx rows, radius_and_rows cloud cents labels rad idx rows /\
        let groups := filter non_empty (rows ++ [cents]) in
        (forall files, program = Ok files -> exists texts,
           files = ("output/k-means++_centroid_output.csv"%string, centroid_text cents) :: ("output/k-means++_label_output.csv"%string, label_text labels) ::
                   map (fun t => ((o ++ ".csv")%string, t)) texts /\
           Forall2 (fun g t => exists F ds bars, t = barcodes ds eps bars /\ double_forest g eps F ds /\ higher_bars g eps bars) groups texts) /\
        (forall g, In g groups -> ~ (exists w, near_pair d_square g Tree eps w) -> program = UB) /\
        (forall gs1 g gs2 h, filter non_empty rows = gs1 ++ g :: gs2 -> tree_path g eps -> In h (g :: gs2) -> length h <= points gs1 -> program = UB))).
Proof.
  intros index picks pre_other srt past_end nc0 al_reduce other uaf file argv pre d e f o kk rr dd k r eps lines rs dim Hs Hl Hn Vk Vr Ho Rk Kp Rr Rp Hd Hk He Pe Hf Hr cloud Hc Hi Hpk Few program n.
  exact (reduced_files index picks pre_other srt past_end nc0 al_reduce other uaf file argv pre d e f o kk rr dd k r eps lines rs dim Hs Hl Hn Vk Vr Ho Rk Kp Rr Rp Hd Hk He Pe Hf Hr Hc Hi Hpk Few).
Qed.
Print Assumptions C111_reduced_mode_from_text_to_text.

Local Notation txt s := (list_ascii_of_string s).
(* The points 1, 2, 9, 10 and 0, two clusters with the centroids 1.5 and 9.5; the last point has no label and is in no group. *)
Definition rd_line : list string := ["-i"; "pts"; "-e"; "20."; "-d"; "1"; "-o"; "res"; "-m"; "reduced"; "-k"; "2"; "-r"; "5"]%string.
Definition rd_points : list (list double) := [[whole 1]; [whole 2]; [whole 9]; [whole 10]; [d_zero]].
Definition rd_files (uaf : res unit) (lines : list string) : res (list (string * text)) :=
  lhf_reduced d_square 0 [(2, fun _ => true)] (fun _ _ p => Ok p) wsort libstdcxx_past_end 0%Z (fun g => Ok g) (fun _ _ p => Ok p) uaf (the_file lines) rd_line.
Definition bars_text (deaths : list string) : text := txt "dimension,birth,death" ++ newline :: concat (map (fun w => txt "0,0," ++ txt w ++ [newline]) deaths).
Example C111_ex :
  reduced_line rd_line "" "1" "20." "pts" "res" /\ value rd_line "clusters" "2" /\ value rd_line "iterations" "5" /\
  Forall2 line_gives [txt "1."; txt "2."; txt "9."; txt "10."; txt "0."] (map Some rd_points) /\
  (forall p, In p rd_points -> length p = 1 /\ Forall coordinate_ok p) /\
  ~ fewer_points 2 rd_points /\
  (forall c j, c < 2 -> j < 1 -> let points := labelled (removelast rd_points) [0; 0; 1; 1] c in
     ((1 + unit_error) ^ length points * (mean_size j points * INR (length points)) < powerRZ 2 1024)%R) /\
  rd_files (Ok tt) ["1."; "2."; "9."; "10."; "0."]%string =
    Ok [("output/k-means++_centroid_output.csv"%string, txt "1.500000," ++ newline :: txt "9.500000," ++ [newline]);
        ("output/k-means++_label_output.csv"%string, txt "0" ++ newline :: txt "0" ++ newline :: txt "1" ++ newline :: txt "1" ++ [newline]);
        ("res.csv"%string, bars_text ["1.000000"; "20.000000"]%string); ("res.csv"%string, bars_text ["1.000000"; "20.000000"]%string);
        ("res.csv"%string, bars_text ["8.000000"; "20.000000"]%string)] /\
  (* with a third point in each row the second row, which has a path, is not larger than the first *)
  rd_files (Ok tt) ["1."; "2."; "9."; "3."; "10."; "11."; "0."]%string = UB.
Proof.
  split; [|split; [line_value|split; [line_value|split; [|split; [|split; [|split; [|split]]]]]]].
  - constructor; try line_value; [intros [[k H] _]; cbn in H; lia|exists "0"%string; split; [line_value|discriminate]|exists "false"%string; split; [line_value|split; discriminate]].
  - apply Forall2_cons; [exists [txt "1."]; one_cell; constructor; [left|constructor]|apply Forall2_cons; [exists [txt "2."]; one_cell; constructor; [left|constructor]|apply Forall2_cons; [exists [txt "9."]; one_cell; constructor; [left|constructor]|apply Forall2_cons; [exists [txt "10."]; one_cell; constructor; [left|constructor]|apply Forall2_cons; [exists [txt "0."]; one_cell; constructor; [left|constructor]|constructor]]]]].
    + refine (stands_by_reading _ _ _ _ _ (plain_decimal (txt "1") [] _ _ _) _ _); [repeat constructor|constructor|discriminate|right; split; vm_compute; discriminate|vm_compute; reflexivity].
    + refine (stands_by_reading _ _ _ _ _ (plain_decimal (txt "2") [] _ _ _) _ _); [repeat constructor|constructor|discriminate|right; split; vm_compute; discriminate|vm_compute; reflexivity].
    + refine (stands_by_reading _ _ _ _ _ (plain_decimal (txt "9") [] _ _ _) _ _); [repeat constructor|constructor|discriminate|right; split; vm_compute; discriminate|vm_compute; reflexivity].
    + refine (stands_by_reading _ _ _ _ _ (plain_decimal (txt "10") [] _ _ _) _ _); [repeat constructor|constructor|discriminate|right; split; vm_compute; discriminate|vm_compute; reflexivity].
    + refine (stands_by_reading _ _ _ _ _ (plain_decimal (txt "0") [] _ _ _) _ _); [repeat constructor|constructor|discriminate|left; reflexivity|vm_compute; reflexivity].
  - intros p Hp. assert (Q : forall x, In x rd_points -> length x = 1 /\ forall y, In y x -> y = whole 1 \/ y = whole 2 \/ y = whole 9 \/ y = whole 10 \/ y = d_zero).
    { intros x Hx. repeat (destruct Hx as [<-|Hx]; [split; [reflexivity|intros y [<-|[]]; tauto]|]). destruct Hx. }
    destruct (Q p Hp) as [L Y]. split; [exact L|]. apply Forall_forall. intros y Hy.
    destruct (Y y Hy) as [->|[->|[->|[->| ->]]]]; (split; [|exact I]); try exact I; repeat split; try (vm_compute; congruence); right; vm_compute; congruence.
  - intros (t & L & I1 & C). destruct (C [whole 1]) as (y & Hy & S1); [now left|]. destruct (C [whole 2]) as (z & Hz & S2); [right; now left|].
    destruct t as [|a [|b t]]; cbn in L; try lia; [destruct Hy|]. destruct Hy as [<-|[]], Hz as [<-|[]].
    assert (Ia := I1 a (or_introl eq_refl)). repeat (destruct Ia as [<-|Ia]; [inversion S1 as [|? ? ? ? E1 _]; inversion S2 as [|? ? ? ? E2 _]; try discriminate E1; discriminate E2|]). destruct Ia.
  - assert (V : forall n, In n [1; 2; 9; 10]%positive -> (0 <= real_value (whole n) <= 10)%R).
    { intros n H. assert (W : exists a b, whole n = S754_finite false a (- Z.of_nat b) /\ (Zpos a <= 10 * 2 ^ Z.of_nat b)%Z).
      { destruct H as [<-|[<-|[<-|[<-|[]]]]]; [exists (2 ^ 52)%positive, 52|exists (2 ^ 52)%positive, 51|exists (9 * 2 ^ 49)%positive, 49|exists (10 * 2 ^ 49)%positive, 49]; split; vm_compute; congruence. }
      destruct W as (a & b & -> & Hab). cbn [real_value]. rewrite powerRZ_neg', <- pow_powerRZ. assert (B : (0 < 2 ^ b)%R) by (apply pow_lt; lra).
      apply IZR_le in Hab. rewrite mult_IZR, <- pow_IZR in Hab. assert (A0 : (0 < IZR (Zpos a))%R) by (apply IZR_lt; lia).
      split; [apply Rmult_le_pos; [lra|now apply Rlt_le, Rinv_0_lt_compat]|]. apply Rmult_le_reg_r with (2 ^ b)%R; [exact B|]. rewrite Rmult_assoc, Rinv_l by lra. lra. }
    assert (Two : forall a b, (0 <= real_value a <= 10)%R -> (0 <= real_value b <= 10)%R ->
      ((1 + unit_error) ^ length [[a]; [b]] * (mean_size 0 [[a]; [b]] * INR (length [[a]; [b]])) < powerRZ 2 1024)%R).
    { intros a b Ha Hb. unfold mean_size, coordinates, total. cbn [map fold_right nth length]. rewrite !Rabs_pos_eq by apply Ha || apply Hb. cbn [INR]. assert (U := u_pos).
      apply Rle_lt_trans with ((1 + / 2) ^ 2 * 20)%R.
      - replace ((real_value a + (real_value b + 0)) / (1 + 1) * (1 + 1))%R with (real_value a + real_value b)%R by field. apply Rmult_le_compat; [apply pow_le; lra|lra|apply pow_incr; lra|lra].
      - change 1024%Z with (Z.of_nat 1024). rewrite <- pow_powerRZ. apply Rlt_le_trans with (2 ^ 6)%R; [cbn; lra|]. apply Rle_pow; [lra|]. apply Nat.leb_le. vm_compute. reflexivity. }
    intros c j Hc Hj. assert (j = 0) by lia. subst j. assert (Q : c = 0 \/ c = 1) by lia. destruct Q as [-> | ->].
    + change (labelled (removelast rd_points) [0; 0; 1; 1] 0) with [[whole 1]; [whole 2]]. apply Two; apply V; cbn; auto.
    + change (labelled (removelast rd_points) [0; 0; 1; 1] 1) with [[whole 9]; [whole 10]]. apply Two; apply V; cbn; auto.
  - vm_compute. reflexivity.
  - vm_compute. reflexivity.
Qed.
