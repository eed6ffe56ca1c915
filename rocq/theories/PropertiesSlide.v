(* PropertiesSlide.v -- C113: the mode sw (the sliding window) in double arithmetic, from text to text. *)
From Coq Require Import String Ascii List Arith ZArith Bool Lia SpecFloat Reals Lra.
From Verif Require Import PropertiesEval.
From Verif Require Import Base Spec ArrayListModel SpecComplex FastModel SpecFast ArgModel SpecArgs IoModel SpecIo PipeModel SpecPipe WindowModel MainModel SpecMain AllModel SpecAll PropertiesPipe PropertiesMain PropertiesAll.
From Verif Require Import DoubleModel SpecDouble DoubleProofs DoubleRuns PropertiesDouble SpecText TextModel ReadModel SpecRead ReadProofs PropertiesRead PropertiesProgram NanModel SpecNan PropertiesNan.
From Verif Require Import FloatFacts SpecKdDouble KdDouble SpecError FloatError EvalDoubleModel SpecEvalDouble EvalDouble SlideDoubleModel SpecSlide SlideDouble PropertiesComplex.
Import ListNotations.
Local Open Scope nat_scope.
Local Open Scope list_scope.

(* C113: the program in the mode sw on a stream of vectors of doubles, if all computed distances are finite.  It writes a barcode file
   without bars, or it is undefined.  It ends on at most 200 vectors.  On more it is undefined if two of the first 200 are closer than
   epsilon, and if a later vector is admitted to the window by the rule of C112; it ends if no two are and every later vector is turned
   away.  A vector at a threshold of the rule, within a relative error of 2 ^ (-43), may be admitted or not. *)
Theorem C113_sliding_window_from_text_to_text :
  forall rest srt past_end nc0 al_reduce other pre_run pre_stats uaf file stopped argv d e f o dd eps lines t rows dim,
  is_sort srt -> window_line argv ["sw"; "slidingwindow"]%string d e f o -> o <> "console"%string ->
  reads_number (list_ascii_of_string d) dd -> (0 < dd < 2 ^ 31 - 1)%Z -> reads_as (list_ascii_of_string e) eps -> non_negative eps ->
  file f = Some (lines_of lines ++ t) -> Forall2 stream_vector lines rows -> stream_end t ->
  (forall x, In x rows -> length x = dim) ->
  (forall x y, In x rows -> In y rows -> exists w, d_distance d_square x y = Ok w /\ coordinate_ok w) ->
  let program := lhf_stream d_square rest srt past_end nc0 al_reduce other pre_run pre_stats uaf file stopped argv in
  let no_bars := Ok [((o ++ ".csv")%string, list_ascii_of_string "dimension,birth,death" ++ [newline])] in
  let first := firstn 200 rows in
  let later := skipn 200 rows in
  let close_pair := exists w, near_pair d_square first Tree eps w in
  (length rows < 200 -> program = no_bars) /\
  (200 <= length rows -> exists nn, length nn = 200 /\ (forall i, i < 200 -> nearest_gap first i (nth i nn d_zero)) /\
    (length rows = 200 -> program = no_bars) /\
    (program = no_bars \/ program = UB) /\
    (200 < length rows -> close_pair -> program = UB) /\
    ((exact_average nn < powerRZ 2 1016)%R ->
       (~ close_pair -> (forall x, In x later -> at_distance first nn x (clearly_turned_away (powerRZ 2 (-43)) (powerRZ 2 (-1073)))) -> program = no_bars) /\
       ((exists x, In x later /\ at_distance first nn x (clearly_admitted (powerRZ 2 (-43)) (powerRZ 2 (-1073)))) -> program = UB))).
Proof.
  intros. split.
  - eapply slide_short; eauto.
  - intros L. eapply slide_long; eauto.
Qed.
Print Assumptions C113_sliding_window_from_text_to_text.

Local Notation txt s := (list_ascii_of_string s).
Definition half : double := S754_finite false (2 ^ 52) (-53).
Definition three_halves : double := S754_finite false (3 * 2 ^ 51) (-52).
Definition fifteen_halves : double := S754_finite false (15 * 2 ^ 49) (-50).
Definition cells : list (string * double) := [("1.", whole 1); ("9.", whole 9); ("1.5", three_halves); ("5.", whole 5)]%string.
Lemma cell_line c v : In (c, v) cells -> stream_vector (txt c) [v].
Proof.
  intros H. assert (R : reads_as (txt c) v).
  { left. repeat (destruct H as [H|H]; [injection H as <- <-|]); try destruct H.
    - refine (stands_by_reading _ _ _ _ _ (plain_decimal (txt "1") [] _ _ _) _ _); [repeat constructor|constructor|discriminate|right; split; vm_compute; discriminate|vm_compute; reflexivity].
    - refine (stands_by_reading _ _ _ _ _ (plain_decimal (txt "9") [] _ _ _) _ _); [repeat constructor|constructor|discriminate|right; split; vm_compute; discriminate|vm_compute; reflexivity].
    - refine (stands_by_reading _ _ _ _ _ (plain_decimal (txt "1") (txt "5") _ _ _) _ _); [repeat constructor|repeat constructor|discriminate|right; split; vm_compute; discriminate|vm_compute; reflexivity].
    - refine (stands_by_reading _ _ _ _ _ (plain_decimal (txt "5") [] _ _ _) _ _); [repeat constructor|constructor|discriminate|right; split; vm_compute; discriminate|vm_compute; reflexivity]. }
  exists [txt c]. repeat (destruct H as [H|H]; [injection H as <- <-|]); try destruct H;
    (split; [no_char|]; split; [no_char|]; split; [cbn; lia|]; split; [discriminate|]; split; [constructor; [split; [discriminate|repeat split; no_char]|constructor]|]; split; [reflexivity|]; constructor; [exact R|constructor]).
Qed.
Lemma cell_distance x y : In x (map snd cells) -> In y (map snd cells) -> exists w, d_distance d_square [x] [y] = Ok w /\ coordinate_ok w.
Proof.
  intros Hx Hy. repeat (destruct Hx as [<-|Hx]; [repeat (destruct Hy as [<-|Hy]; [eexists; split; [vm_compute; reflexivity|]; split; [|exact I]; try exact I; repeat split; try (vm_compute; congruence); right; vm_compute; congruence|]); destruct Hy|]). destruct Hx.
Qed.

(* 199 times the number 1, then 9, and then these cells. *)
Definition sw_line (e : string) : list string := ["-i"; "pts"; "-m"; "sw"; "-e"; e; "-d"; "1"; "-o"; "res"]%string.
Definition sw_cells (later : list (string * double)) : list (string * double) := repeat ("1."%string, whole 1) 199 ++ ("9."%string, whole 9) :: later.
Definition sw_rows (later : list (string * double)) : list (list double) := map (fun c => [snd c]) (sw_cells later).
Definition sw_run (e : string) (later : list (string * double)) : res (list (string * text)) :=
  lhf_stream d_square (fun _ _ _ _ => UB) wsort libstdcxx_past_end 0%Z (fun g => Ok g) (fun _ _ p => Ok p) (fun _ _ p => Ok p) (fun _ p => Ok p) (Ok tt)
    (fun _ => Some (lines_of (map (fun c => txt (fst c)) (sw_cells later)) ++ [])) UB (sw_line e).
Lemma sw_window e : In e ["0."; "20."]%string -> window_line (sw_line e) ["sw"; "slidingwindow"]%string "1" e "pts" "res".
Proof.
  intros [<-|[<-|[]]]; constructor; try line_value; try (intros [[k K] _]; cbn in K; lia).
  1, 3: eexists; split; [line_value|now left].
  all: exists "0"%string; split; [line_value|discriminate].
Qed.
Lemma sw_in later x : (forall c, In c later -> In c cells) -> In x (sw_rows later) -> exists v, x = [v] /\ In v (map snd cells).
Proof.
  intros H Hx. apply in_map_iff in Hx as (c & <- & Hc). exists (snd c). split; [reflexivity|]. apply in_map. unfold sw_cells in Hc. apply in_app_or in Hc as [Hc|[<-|Hc]]; [|cbn; auto|auto].
  apply repeat_spec in Hc as ->. now left.
Qed.
Lemma sw_facts later : (forall c, In c later -> In c cells) ->
  Forall2 stream_vector (map (fun c => txt (fst c)) (sw_cells later)) (sw_rows later) /\ (forall x, In x (sw_rows later) -> length x = 1) /\
  (forall x y, In x (sw_rows later) -> In y (sw_rows later) -> exists w, d_distance d_square x y = Ok w /\ coordinate_ok w).
Proof.
  intros H. split; [|split].
  - assert (G : forall c, In c (sw_cells later) -> In c cells).
    { intros c Hc. unfold sw_cells in Hc. apply in_app_or in Hc as [Hc|[<-|Hc]]; [apply repeat_spec in Hc as ->; now left|right; now left|auto]. }
    unfold sw_rows. revert G. generalize (sw_cells later). induction l as [|[c v] l IH]; intros G; cbn [map fst snd]; [constructor|]. constructor; [apply cell_line, G; now left|apply IH; intros; apply G; now right].
  - intros x Hx. destruct (sw_in later x H Hx) as (v & -> & _). reflexivity.
  - intros x y Hx Hy. destruct (sw_in later x H Hx) as (v & -> & Hv), (sw_in later y H Hy) as (w & -> & Hw). now apply cell_distance.
Qed.
Definition sw_first : list (list double) := repeat [whole 1] 199 ++ [[whole 9]].
Lemma sw_split later : firstn 200 (sw_rows later) = sw_first /\ skipn 200 (sw_rows later) = map (fun c => [snd c]) later /\ length (sw_rows later) = 200 + length later.
Proof.
  assert (E : sw_rows later = sw_first ++ map (fun c => [snd c]) later).
  { unfold sw_rows, sw_cells, sw_first. rewrite map_app. replace (map (fun c : string * double => [snd c]) (repeat ("1."%string, whole 1) 199)) with (repeat [whole 1] 199) by reflexivity.
    rewrite <- app_assoc. reflexivity. }
  rewrite E. change 200 with (length sw_first + 0) at 1 2. rewrite firstn_app_2, skipn_app, skipn_all2 by (cbn [length]; lia). cbn [firstn]. rewrite app_nil_r. split; [reflexivity|]. split.
  - replace (length sw_first + 0 - length sw_first) with 0 by lia. reflexivity.
  - rewrite List.app_length, map_length. reflexivity.
Qed.
Lemma sw_nth i x : nth_error sw_first i = Some x -> (i < 199 /\ x = [whole 1]) \/ (i = 199 /\ x = [whole 9]).
Proof.
  unfold sw_first. intros H. destruct (Nat.lt_ge_cases i 199) as [L|L].
  - left. split; [exact L|]. rewrite nth_error_app1 in H by (rewrite repeat_length; exact L). apply nth_error_In, repeat_spec in H. exact H.
  - right. rewrite nth_error_app2 in H by (rewrite repeat_length; exact L). rewrite repeat_length in H. destruct (i - 199) as [|k] eqn:E; [|destruct k; discriminate]. injection H as <-. split; [lia|reflexivity].
Qed.
Definition sw_gaps : list double := repeat d_zero 199 ++ [whole 8].
Lemma sw_gap i w : i < 200 -> nearest_gap sw_first i w -> w = nth i sw_gaps d_zero.
Proof.
  intros Hi ((j & Nj & x & y & A & B & D) & M). destruct (sw_nth i x A) as [[H ->]|[-> ->]].
  - unfold sw_gaps. rewrite app_nth1 by (rewrite repeat_length; exact H). rewrite nth_repeat.
    assert (K : SFleb w d_zero = true).
    { apply (M (if i =? 0 then 1 else 0)); [destruct (Nat.eqb_spec i 0); lia|]. exists [whole 1], [whole 1]. split; [exact A|]. split; [now destruct (i =? 0)|]. vm_compute. reflexivity. }
    destruct (sw_nth j y B) as [[_ ->]|[_ ->]]; vm_compute in D; injection D as <-; [reflexivity|discriminate K].
  - destruct (sw_nth j y B) as [[_ ->]|[-> _]]; [|lia]. vm_compute in D. injection D as <-. reflexivity.
Qed.
Lemma sum_zeros n l : fold_right Rplus 0%R (map real_value (repeat d_zero n ++ l)) = fold_right Rplus 0%R (map real_value l).
Proof. induction n as [|n IH]; cbn [repeat app map fold_right]; [reflexivity|]. rewrite IH. cbn [real_value d_zero]. lra. Qed.
Lemma sw_average nn : length nn = 200 -> (forall i, i < 200 -> nearest_gap sw_first i (nth i nn d_zero)) -> exact_average nn = (1 / 25)%R.
Proof.
  intros L H. assert (nn = sw_gaps) as ->.
  { apply (nth_ext _ _ d_zero d_zero); [exact L|]. intros i Hi. apply sw_gap; [lia|]. apply H. lia. }
  unfold exact_average, sw_gaps. rewrite sum_zeros. replace (length (repeat d_zero 199 ++ [whole 8])) with 200 by reflexivity. cbn [map fold_right].
  replace (whole 8) with (S754_finite false (2 ^ 52) (-49)) by reflexivity. rewrite (value_of _ _ 49) by lia || reflexivity. rewrite INR_IZR_INZ. change (Z.of_nat 200) with 200%Z. change (IZR (Zpos (2 ^ 52))) with (IZR (8 * 2 ^ 49)).
  rewrite mult_IZR. field. apply not_0_IZR. discriminate.
Qed.
Lemma sw_distances x a b w1 w9 : d_distance d_square [x] [whole 1] = Ok w1 -> d_distance d_square [x] [whole 9] = Ok w9 -> real_value w1 = a -> real_value w9 = b ->
  coordinate_ok w1 /\ non_negative w1 -> coordinate_ok w9 /\ non_negative w9 ->
  exists ws, distances_from d_square [x] sw_first ws /\ smallest ws (Rmin a b).
Proof.
  intros E1 E9 <- <- F1 F9. exists (repeat w1 199 ++ [w9]). split.
  - apply Forall2_app; [|constructor; [auto|constructor]]. unfold distances_from. generalize 199. induction n as [|n IH]; cbn [repeat]; constructor; auto.
  - assert (In w1 (repeat w1 199 ++ [w9])) by (apply in_or_app; left; now left). assert (In w9 (repeat w1 199 ++ [w9])) by (apply in_or_app; right; now left). split.
    + unfold Rmin. destruct (Rle_dec _ _); eauto.
    + intros w Hw. apply in_app_or in Hw as [Hw|[<-|[]]]; [apply repeat_spec in Hw as ->; apply Rmin_l|apply Rmin_r].
Qed.

Lemma thresholds : (0 < powerRZ 2 (-43) <= 1 / 1024)%R /\ (0 < powerRZ 2 (-1073) <= 1 / 1024)%R.
Proof. rewrite u_1024, eta_4. assert (A := u_pos). assert (B := eta_pos). assert (C := u_small). assert (D := eta_below_unit). split; lra. Qed.

(* With epsilon 0 no two of the first 200 vectors are close.  Their average gap is 1 / 25.  The vectors 1.5 and 9 are turned away, and the
   program ends; the vector 5 is admitted, and the program is undefined.  So it is with epsilon 20 whatever comes next. *)
Example C113_ex :
  sw_run "0." [("1.5", three_halves); ("9.", whole 9)]%string = Ok [("res.csv"%string, txt "dimension,birth,death" ++ [newline])] /\
  sw_run "0." [("1.5", three_halves); ("5.", whole 5)]%string = UB /\
  sw_run "20." [("1.5", three_halves)]%string = UB.
Proof.
  assert (Z0 : reads_as (txt "0.") d_zero).
  { left. refine (stands_by_reading _ _ _ _ _ (plain_decimal (txt "0") [] _ _ _) _ _); [repeat constructor|constructor|discriminate|now left|vm_compute; reflexivity]. }
  assert (Z20 : reads_as (txt "20.") (whole 20)).
  { left. refine (stands_by_reading _ _ _ _ _ (plain_decimal (txt "20") [] _ _ _) _ _); [repeat constructor|constructor|discriminate|right; split; vm_compute; discriminate|vm_compute; reflexivity]. }
  assert (G : forall e eps later, In e ["0."; "20."]%string -> reads_as (txt e) eps -> non_negative eps -> (forall c, In c later -> In c cells) -> later <> [] ->
    let no_bars := Ok [("res.csv"%string, txt "dimension,birth,death" ++ [newline])] in let close_pair := exists w, near_pair d_square sw_first Tree eps w in
    (close_pair -> sw_run e later = UB) /\ exists nn, exact_average nn = (1 / 25)%R /\
    (~ close_pair -> (forall c, In c later -> at_distance sw_first nn [snd c] (clearly_turned_away (powerRZ 2 (-43)) (powerRZ 2 (-1073)))) -> sw_run e later = no_bars) /\
    ((exists c, In c later /\ at_distance sw_first nn [snd c] (clearly_admitted (powerRZ 2 (-43)) (powerRZ 2 (-1073)))) -> sw_run e later = UB)).
  { intros e eps later He Re Ne Hl Nl no_bars close_pair. destruct (sw_facts later Hl) as (F1 & F2 & F3). destruct (sw_split later) as (S1 & S2 & S3).
    assert (Ll : length later <> 0) by (destruct later; [contradiction|discriminate]).
    destruct (C113_sliding_window_from_text_to_text (fun _ _ _ _ => UB) wsort libstdcxx_past_end 0%Z (fun g => Ok g) (fun _ _ p => Ok p) (fun _ _ p => Ok p) (fun _ p => Ok p) (Ok tt)
      (fun _ => Some (lines_of (map (fun c => txt (fst c)) (sw_cells later)) ++ [])) UB (sw_line e) "1" e "pts" "res" 1%Z eps (map (fun c => txt (fst c)) (sw_cells later)) [] (sw_rows later) 1
      wsort_is_sort (sw_window e He) ltac:(discriminate) ltac:(repeat split; [discriminate|repeat constructor|discriminate]) ltac:(lia) Re Ne eq_refl F1 ltac:(now left) F2 F3)
      as (_ & K). destruct (K ltac:(lia)) as (nn & N1 & N2 & _ & _ & K1 & K2). rewrite S1 in *. rewrite S2 in K2. pose proof (sw_average nn N1 N2) as A. destruct K2 as [K2 K3].
    { rewrite A. apply Rlt_le_trans with (powerRZ 2 1); [rewrite powerRZ_1; lra|]. change 2%R with (IZR (Zaux.radix_val Zaux.radix2)). rewrite <- !Raux.bpow_powerRZ. apply Raux.bpow_le. lia. }
    split; [intros C; apply K1; [lia|exact C]|]. exists nn. split; [exact A|]. split.
    - intros C D. apply K2; [exact C|]. intros x Hx. apply in_map_iff in Hx as (c & <- & Hc). auto.
    - intros (c & Hc & D). apply K3. exists [snd c]. split; [now apply (in_map (fun c => [snd c]))|exact D]. }
  assert (N : ~ exists w, near_pair d_square sw_first Tree d_zero w).
  { intros (w & W & u & v & L & x & (a & b & A & B & D) & ->).
    destruct (sw_nth u a A) as [[_ ->]|[_ ->]], (sw_nth v b B) as [[_ ->]|[_ ->]]; vm_compute in D; injection D as <-; discriminate W. }
  destruct thresholds as [T1 T2]. assert (NZ : non_negative d_zero) by reflexivity.
  assert (P : forall n, IZR (2 ^ Z.of_nat n) <> 0%R) by (intros n; apply not_0_IZR; assert (0 < 2 ^ Z.of_nat n)%Z by (apply Z.pow_pos_nonneg; lia); lia).
  assert (V1 : real_value half = (1 / 2)%R).
  { unfold half. rewrite (value_of _ _ 53) by lia || reflexivity. change (2 ^ 53)%Z with (2 * 2 ^ 52)%Z. rewrite mult_IZR. change (IZR (Zpos (2 ^ 52))) with (IZR (2 ^ 52)). field. exact (P 52). }
  assert (V2 : real_value fifteen_halves = (15 / 2)%R).
  { unfold fifteen_halves. rewrite (value_of _ _ 50) by lia || reflexivity. change (2 ^ 50)%Z with (2 * 2 ^ 49)%Z. rewrite mult_IZR. change (IZR (Zpos (15 * 2 ^ 49))) with (IZR (15 * 2 ^ 49)). rewrite mult_IZR. field. exact (P 49). }
  assert (V3 : real_value (whole 8) = 8%R).
  { replace (whole 8) with (S754_finite false (2 ^ 52) (-49)) by reflexivity. rewrite (value_of _ _ 49) by lia || reflexivity. change (IZR (Zpos (2 ^ 52))) with (IZR (8 * 2 ^ 49)). rewrite mult_IZR. field. exact (P 49). }
  assert (V4 : real_value (whole 4) = 4%R).
  { replace (whole 4) with (S754_finite false (2 ^ 52) (-50)) by reflexivity. rewrite (value_of _ _ 50) by lia || reflexivity. change (IZR (Zpos (2 ^ 52))) with (IZR (4 * 2 ^ 50)). rewrite mult_IZR. field. exact (P 50). }
  assert (O : forall w, In w [half; fifteen_halves; whole 8; whole 4; d_zero] -> coordinate_ok w /\ non_negative w).
  { intros w Hw. split; [|repeat (destruct Hw as [<-|Hw]; [reflexivity|]); destruct Hw].
    repeat (destruct Hw as [<-|Hw]; [split; [|exact I]; try exact I; repeat split; try (vm_compute; congruence); right; vm_compute; congruence|]). destruct Hw. }
  split; [|split].
  - destruct (G "0."%string d_zero [("1.5", three_halves); ("9.", whole 9)]%string) as (_ & nn & A & K & _); [now left|exact Z0|exact NZ|cbn; intuition|discriminate|].
    apply K; [exact N|]. intros c [<-|[<-|[]]]; cbn [snd].
    + assert (D := sw_distances three_halves (1 / 2)%R (15 / 2)%R half fifteen_halves); destruct D as (ws & W & M); [vm_compute; reflexivity|vm_compute; reflexivity|exact V1|exact V2|apply O; cbn; auto 8|apply O; cbn; auto 8|].
      exists ws, (Rmin (1 / 2) (15 / 2)). split; [exact W|]. split; [exact M|]. rewrite Rmin_left by lra. rewrite A. right. left. split; lra.
    + assert (D := sw_distances (whole 9) 8%R 0%R (whole 8) d_zero); destruct D as (ws & W & M); [vm_compute; reflexivity|vm_compute; reflexivity|exact V3|reflexivity|apply O; cbn; auto 8|apply O; cbn; auto 8|].
      exists ws, (Rmin 8 0). split; [exact W|]. split; [exact M|]. rewrite Rmin_right by lra. left. reflexivity.
  - destruct (G "0."%string d_zero [("1.5", three_halves); ("5.", whole 5)]%string) as (_ & nn & A & _ & K); [now left|exact Z0|exact NZ|cbn; intuition|discriminate|].
    apply K. exists ("5."%string, whole 5). split; [cbn; auto|]. cbn [snd].
    assert (D := sw_distances (whole 5) 4%R 4%R (whole 4) (whole 4)); destruct D as (ws & W & M); [vm_compute; reflexivity|vm_compute; reflexivity|exact V4|exact V4|apply O; cbn; auto 8|apply O; cbn; auto 8|].
    exists ws, (Rmin 4 4). split; [exact W|]. split; [exact M|]. rewrite Rmin_left by lra. rewrite A. split; [lra|]. split; [right|]; lra.
  - destruct (G "20."%string (whole 20) [("1.5", three_halves)]%string) as (K & _); [right; now left|exact Z20|reflexivity|cbn; intuition|discriminate|].
    apply K. exists d_zero. split; [reflexivity|]. exists 0, 1. split; [lia|]. exists d_zero. split; [|reflexivity]. exists [whole 1], [whole 1]. repeat split.
Qed.
