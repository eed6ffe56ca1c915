(* PropertiesStreamLink.v -- C89: the whole program with streaming k-means and DenStream. *)
From Coq Require Import String Ascii List Arith ZArith QArith Qcanon Bool Lia.
From Verif Require Import Base UtilsModel ArrayListModel TreeModel FastModel ArgModel IoModel IndModel PipeModel KdModel DenStreamModel StreamKmModel MainModel StreamLinkModel.
From Verif Require Import Spec SpecIo SpecComplex SpecArgs SpecGraph SpecLinear SpecFast SpecPipe SpecMain SpecLink SpecKd SpecDenStream SpecStreamKm SpecStreamLink.
From Verif Require Import PipeProofs PipeRuns MainRuns LinkRuns DenStreamRuns StreamKmProofs StreamLinkRuns PropertiesComplex PropertiesPipe PropertiesKd PropertiesStream PropertiesMain PropertiesLink.
Import ListNotations.
Local Open Scope nat_scope.
Local Open Scope list_scope.

Section Program.
  Variable dist : list Z -> list Z -> Z.
  Variables atoi atof : string -> Z.
  Variable num : Type.
  Variables (to_num : Z -> num) (of_num : num -> Z).
  Variables zero beta f0 maxd : num.
  Variables add mul divn : num -> num -> num.
  Variable divc : num -> nat -> num.
  Variable succn : num -> num.
  Variables leb ltb : num -> num -> bool.
  Variable ndist : list num -> list num -> num.
  Variable nsrt : list (num * nat) -> list (num * nat).
  Variable omega : list num.
  Variable prob1 : nat -> num -> bool.
  Variable prob2 : nat -> nat -> num -> bool.
  Variable small : num -> bool.
  Variable sfuel : nat.
  Variable decay : Z -> Qc.
  Variable root : Qc -> Qc.
  Variable distq : list Qc -> list Qc -> Qc.
  Variable diff : Z -> Z -> Z.
  Variable mag : Z -> Z.
  Variable lsrt : nat -> list pointIndex -> list pointIndex.
  Variable Tp : Z.
  Variable dfuel : nat.
  Variable rounded : Qc -> Z.
  Variable pre_kmeans : amap -> packet -> res packet.
  Variable srt : list wsimp -> list wsimp.
  Variable past_end : list nat -> nat -> res nat.
  Variable nc0 : Z.
  Variable al_reduce : wgraph -> res wgraph.
  Variable other : pipe_kind -> amap -> packet -> res packet.
  Variable uaf : res unit.
  Variable stod : text -> option Z.
  Variable file : string -> option text.
  Notation program := (lhf_streams dist atoi atof num to_num of_num zero beta f0 maxd add mul divn divc succn leb ltb ndist nsrt omega prob1 prob2 small sfuel
                         decay root distq diff mag lsrt Tp dfuel rounded pre_kmeans srt past_end nc0 al_reduce other uaf stod file).
  Notation denstream := (denStream_preprocess decay root distq dist diff mag lsrt Tp dfuel).

  (* C89: with streaming k-means the program never has a result, whatever the mode, the options, the numbers and the points:
     it ends in undefined behaviour or does not end. *)
  Theorem C89_streaming_has_no_result argv pre f data :
    complete_line argv -> preprocessor_of argv pre -> names_streaming pre -> value argv "inputFile" f -> holds_points stod file f data -> data <> [] ->
    program argv = UB.
  Proof.
    intros Hc Hp Hn Hi Hf Hne. apply (no_result dist atoi atof srt past_end nc0 al_reduce other _ _ uaf stod file argv pre KStreamingKMeans f data Hc Hp Hn ltac:(discriminate) Hi Hf Hne).
    intros args p _. cbn [pre_streams].
    destruct (streamingKmeans_run num zero beta f0 maxd add mul divn divc succn leb ltb ndist nsrt omega prob1 prob2 sfuel small true (map (map to_num) (pk_data p))) as [[r|]|] eqn:E; [|reflexivity|reflexivity].
    exfalso. exact (C69_streaming_kmeans_never_returns _ _ _ _ _ _ _ _ _ _ _ _ _ _ _ _ _ _ _ _ _ E).
  Qed.

  (* C89: with DenStream and fewer than 1000 points it is undefined, whatever the mode and the options. *)
  Theorem C89_denstream_needs_1000_points argv pre f data :
    complete_line argv -> preprocessor_of argv pre -> names_denstream pre -> value argv "inputFile" f -> holds_points stod file f data -> data <> [] ->
    length data < 1000 -> program argv = UB.
  Proof.
    intros Hc Hp Hn Hi Hf Hne Hl. apply (no_result dist atoi atof srt past_end nc0 al_reduce other _ _ uaf stod file argv pre KDenStream f data Hc Hp Hn ltac:(discriminate) Hi Hf Hne).
    intros args p Hd. cbn [pre_streams]. rewrite C67_denstream_needs_1000_points; [reflexivity|]. destruct Hd as [->| ->]; [exact Hl|cbn; lia].
  Qed.

  (* C89: with DenStream and at least 1000 points, one run of the default pipeline writes the single-linkage bars of the
     faded means of disjoint groups of points.  Without two means closer than epsilon it is undefined; without groups the
     file has no bars. *)
  Theorem C89_denstream_run_writes_bars_of_means argv pre c d e f o k data :
    is_sort srt -> (forall x y, (0 <= dist x y)%Z) -> (0 < atoi d < 2 ^ 31 - 1)%Z ->
    one_run_line argv pre c d e f o -> names_denstream pre -> holds_points stod file f data ->
    denstream_setting decay dist diff mag lsrt Tp dfuel (atof e) k data ->
    exists groups, NoDup (concat groups) /\ (forall i, In i (concat groups) -> i < length data) /\
      (forall T, denstream (atof e) data = Some (Ok (map (fun g => faded_center decay T (history_of 1000 data g) k) groups))) /\
      let means := map (map rounded) (map (fun g => faded_center decay 0 (history_of 1000 data g) k) groups) in
      (groups <> [] -> forall r, program argv = Ok r ->
         exists q deaths, r = Ran q (if String.eqb o "console" then [] else [((o ++ ".csv")%string, pk_output q)]) /\
           dim0 (pk_output q) = map (fun w => (0, 0%Z, w)) deaths ++ [(0, 0%Z, atof e)] /\
           forall t n, clusters dist means c (atof e) t n <-> count_le t deaths + n = length groups) /\
      (groups <> [] -> ~ (exists u v, u < v /\ v < length groups /\ close c (atof e) (separation dist means u v)) -> program argv = UB) /\
      ((exists u v, u < v /\ v < length groups /\ close c (atof e) (separation dist means u v)) -> past_end = libstdcxx_past_end ->
         exists r, program argv = Ok r) /\
      (groups = [] -> exists q, program argv = Ok (Ran q (if String.eqb o "console" then [] else [((o ++ ".csv")%string, [])]))).
  Proof.
    intros Hs Hpos Hd Hl Hn Hf [S1 S2 S3 S4 S5 S6 S7 S8 S9 S10].
    destruct (C67_denstream decay root distq dist diff mag lsrt Tp (atof e) dfuel k data S1 S2 S3 S4 S5 S6 S7 S8 S9 S10) as (labels & groups & _ & Ed & N & R & _).
    exists groups. split; [exact N|]. split; [exact R|]. split; [exact Ed|]. intros means.
    assert (Hk : 0 < k) by apply S4. assert (Hne : data <> []) by apply S4.
    assert (Lm : length means = length groups) by (unfold means; now rewrite !map_length).
    assert (Nm : groups <> [] -> means <> []) by (intros H Q; apply H; rewrite Q in Lm; cbn in Lm; now destruct groups).
    assert (G := run_after dist atoi atof srt past_end nc0 al_reduce other
                   (pre_streams dist atof num to_num of_num zero beta f0 maxd add mul divn divc succn leb ltb ndist nsrt omega prob1 prob2 small sfuel decay root distq diff mag lsrt Tp dfuel rounded pre_kmeans)
                   (fun _ p => Ok p) uaf stod file argv pre KDenStream c d e f o data [] means Hs Hpos Hd Hl Hn ltac:(discriminate) Hf Hne).
    destruct G as (G1 & G2 & G3 & G4).
    - intros args cx He. cbn [pre_streams pk_data]. rewrite He, (Ed 0%Z). reflexivity.
    - unfold means. now apply den_rows.
    - rewrite Lm in *. split; [|split; [|split]].
      + intros H. exact (G1 (Nm H)).
      + intros H. exact (G2 (Nm H)).
      + exact G3.
      + intros ->. now apply G4.
  Qed.

  (* C89: 1000 points without a dense place become one point, the origin, and the program is undefined. *)
  Theorem C89_denstream_on_noise_is_undefined argv pre c d e f o k data :
    is_sort srt -> (forall x y, (0 <= dist x y)%Z) -> (0 < atoi d < 2 ^ 31 - 1)%Z ->
    one_run_line argv pre c d e f o -> names_denstream pre -> holds_points stod file f data ->
    denstream_setting decay dist diff mag lsrt Tp dfuel (atof e) k data -> length data = 1000 ->
    (forall i, i < 1000 -> length (ball dist data (atof e) 1000 i) < 20) -> program argv = UB.
  Proof.
    intros Hs Hpos Hd Hl Hn Hf [S1 S2 S3 S4 S5 S6 S7 S8 S9 S10] L Few.
    assert (Ed := C68_noise_becomes_the_origin decay root distq dist diff mag lsrt Tp (atof e) dfuel k data S1 S2 S3 S4 L S6 S7 S8 S9 Few).
    assert (Hk : 0 < k) by apply S4. assert (Hne : data <> []) by apply S4.
    assert (G := run_after dist atoi atof srt past_end nc0 al_reduce other
                   (pre_streams dist atof num to_num of_num zero beta f0 maxd add mul divn divc succn leb ltb ndist nsrt omega prob1 prob2 small sfuel decay root distq diff mag lsrt Tp dfuel rounded pre_kmeans)
                   (fun _ p => Ok p) uaf stod file argv pre KDenStream c d e f o data [] [map rounded (repeat 0%Qc k)] Hs Hpos Hd Hl Hn ltac:(discriminate) Hf Hne).
    destruct G as (_ & G2 & _).
    - intros args cx He. cbn [pre_streams pk_data]. rewrite He, Ed. reflexivity.
    - intros x [<-|[]]. destruct k; [lia|discriminate].
    - apply G2; [discriminate|]. intros (u & v & H1 & H2 & _). cbn in H2. lia.
  Qed.

  (* C89: DenStream gives no labels, so the reduced mode runs the pipeline once, on the means only. *)
  Theorem C89_reduced_mode_with_denstream argv pre d e f o k data :
    is_sort srt -> (forall x y, (0 <= dist x y)%Z) -> (0 < atoi d < 2 ^ 31 - 1)%Z ->
    reduced_line argv pre d e f o -> names_denstream pre -> holds_points stod file f data ->
    denstream_setting decay dist diff mag lsrt Tp dfuel (atof e) k data ->
    exists groups, (forall T, denstream (atof e) data = Some (Ok (map (fun g => faded_center decay T (history_of 1000 data g) k) groups))) /\
      (groups <> [] ->
       let means := map (map rounded) (map (fun g => faded_center decay 0 (history_of 1000 data g) k) groups) in
       (uaf = UB -> program argv = UB) /\
       (forall r, program argv = Ok r -> exists q F, r = Ran q (if String.eqb o "console" then [] else [((o ++ ".csv")%string, pk_output q)]) /\
          spanning_forest dist means (atof e) F /\ ends_at dist means (atof e) F (pk_output q) /\ single_linkage dist means (atof e) F /\ some_pair dist means (atof e))).
  Proof.
    intros Hs Hpos Hd Hl Hn Hf [S1 S2 S3 S4 S5 S6 S7 S8 S9 S10].
    destruct (C67_denstream decay root distq dist diff mag lsrt Tp (atof e) dfuel k data S1 S2 S3 S4 S5 S6 S7 S8 S9 S10) as (labels & groups & _ & Ed & N & R & _).
    exists groups. split; [exact Ed|]. intros Hg means. assert (Hk : 0 < k) by apply S4. assert (Hne : data <> []) by apply S4.
    apply (reduced_after dist atoi atof srt past_end nc0 al_reduce other _ (fun _ p => Ok p) uaf stod file argv pre KDenStream d e f o data means Hs Hpos Hd Hl Hn ltac:(discriminate) Hf Hne).
    - intros args cx He. cbn [pre_streams pk_data]. rewrite He, (Ed 0%Z). reflexivity.
    - unfold means. now apply den_rows.
    - unfold means. now destruct groups.
  Qed.

  (* C89: ... and the upscale mode counts nothing in every cluster. *)
  Theorem C89_upscale_mode_with_denstream argv pre e f k kk data :
    complete_line argv -> (value argv "mpi" "1" \/ (value argv "pipeline" "" /\ value argv "mode" "upscaleBound")) ->
    value argv "preprocessor" pre -> names_denstream pre -> value argv "inputFile" f -> value argv "epsilon" e -> value argv "clusters" kk ->
    holds_points stod file f data ->
    denstream_setting decay dist diff mag lsrt Tp dfuel (atof e) k data ->
    ((atoi kk < 0)%Z -> program argv = Ok Threw) /\
    ((0 <= atoi kk)%Z -> exists q, program argv = Ok (Counted q (repeat 0 (Z.to_nat (atoi kk)))) /\ pk_full q = data).
  Proof.
    intros Hc Hu Hpre Hn Hi He Hkk Hf [S1 S2 S3 S4 S5 S6 S7 S8 S9 S10]. destruct (complete_parse argv Hc) as (m & P).
    destruct (C67_denstream decay root distq dist diff mag lsrt Tp (atof e) dfuel k data S1 S2 S3 S4 S5 S6 S7 S8 S9 S10) as (labels & groups & _ & Ed & N & R & _).
    assert (Hne : data <> []) by apply S4. assert (HO := ArgProofs.parse_has_options argv m P : ArgProofs.has_options m).
    assert (Ke : mget (setPipeline m) "epsilon" = Some e).
    { rewrite args_keep; [exact (value_mget argv m _ _ P He)|exact HO|]. cbn. intros K. repeat (destruct K as [K|K]; [discriminate|]). exact K. }
    assert (Kd : mget (setPipeline m) "dimensions" <> None).
    { rewrite args_keep; [apply HO; do 2 eexists; unfold options; cbn; tauto|exact HO|]. cbn. intros K. repeat (destruct K as [K|K]; [discriminate|]). exact K. }
    assert (exists cx, newSimplex atoi atof nc0 (opt (setPipeline m) "complexType") (setPipeline m) = Ok cx) as (cx & Cx).
    { unfold newSimplex. rewrite Ke. destruct (mget (setPipeline m) "dimensions") as [dd|]; [|easy].
      repeat match goal with |- context [if ?b then _ else _] => destruct b end; eauto. }
    set (p1 := mkPacket (map (map rounded) (map (fun g => faded_center decay 0 (history_of 1000 data g) k) groups)) [] data [] cx [] [] []).
    assert (G := upscale_after dist atoi atof srt past_end nc0 al_reduce other
                   (pre_streams dist atof num to_num of_num zero beta f0 maxd add mul divn divc succn leb ltb ndist nsrt omega prob1 prob2 small sfuel decay root distq diff mag lsrt Tp dfuel rounded pre_kmeans)
                   (fun _ p => Ok p) uaf stod file argv pre KDenStream kk f data p1 m P Hu Hpre Hn ltac:(discriminate) Hi Hkk Hf Hne cx Cx).
    assert (E : program argv = if (atoi kk <? 0)%Z then Ok Threw else Ok (Counted p1 (repeat 0 (Z.to_nat (atoi kk))))).
    { apply G; [|reflexivity]. cbn [pre_streams pk_data]. replace (opt (setPipeline m) "epsilon") with e by (unfold opt; now rewrite Ke). rewrite (Ed 0%Z). reflexivity. }
    rewrite E. destruct (Z.ltb_spec (atoi kk) 0) as [L|L]; split; try lia; [reflexivity|]. intros _. exists p1. split; reflexivity.
  Qed.
End Program.
Print Assumptions C89_streaming_has_no_result.
Print Assumptions C89_denstream_needs_1000_points.
Print Assumptions C89_denstream_run_writes_bars_of_means.
Print Assumptions C89_denstream_on_noise_is_undefined.
Print Assumptions C89_reduced_mode_with_denstream.
Print Assumptions C89_upscale_mode_with_denstream.

(* 1040 points in 40 places, one line of three digits each; distances are multiples of 3. *)
Definition digits3 (n : nat) : text := map (fun k => ascii_of_nat (48 + k)) [n / 100; n / 10 mod 10; n mod 10].
Definition places_file (n : nat) (f : string) : option text :=
  if String.eqb f "pts" then Some (join newline (map (fun i => digits3 (3 * (i mod 40) + 1)) (seq 0 n))) else None.
Lemma place_reads i : i < 40 -> line_reads decimal (digits3 (3 * i + 1)) (Some [3 * Z.of_nat i + 1]%Z).
Proof. intros H. exists [digits3 (3 * i + 1)]. do 40 (destruct i as [|i]; [row|]). lia. Qed.
Lemma places_points n : n <> 0 -> holds_points decimal (places_file n) "pts" (places n).
Proof.
  intros Hn. right. exists (map (fun i => digits3 (3 * (i mod 40) + 1)) (seq 0 n)), (map (fun i => Some [3 * Z.of_nat (i mod 40) + 1]%Z) (seq 0 n)).
  split; [destruct n; [easy|discriminate]|]. split; [reflexivity|]. split.
  - assert (G : forall l, Forall2 (line_reads decimal) (map (fun i => digits3 (3 * (i mod 40) + 1)) l) (map (fun i => Some [3 * Z.of_nat (i mod 40) + 1]%Z) l)); [|apply G].
    induction l as [|i l IH]; cbn [map]; [constructor|]. apply Forall2_cons; [|exact IH]. apply place_reads. apply Nat.mod_upper_bound. discriminate.
  - unfold places. generalize (seq 0 n). induction l as [|i l IH]; [reflexivity|]. cbn [map kept flat_map app]. f_equal. exact IH.
Qed.
Lemma cheb_pos x y : (0 <= cheb x y)%Z.
Proof. revert y. induction x as [|a x IH]; intros [|b y]; cbn [cheb]; try lia. Qed.
Lemma places_setting fuel n : 1000 <= n -> 1000 + 1000 * 1000 <= fuel -> denstream_setting halving cheb Z.sub Z.abs psort 4 fuel 2 1 (places n).
Proof.
  intros Hn Hf. destruct (places_ok n ltac:(lia)) as (A & B & C & D). 
  constructor; [exact halving_fades|exact cheb_sound|exact psort_sort|exact A|rewrite B; exact Hn|exact cheb_sym|exact C|exact D|exact Hf|discriminate].
Qed.
(* The noise of C68 as the points of a file: any stod and file with 1000 such lines. *)
Lemma apart_setting fuel : 1000 + 1000 * 1000 <= fuel -> denstream_setting halving cheb Z.sub Z.abs psort 4 fuel 2 1 (apart 1000) /\
  length (apart 1000) = 1000 /\ (forall i, i < 1000 -> length (ball cheb (apart 1000) 2 1000 i) < 20).
Proof.
  intros Hf. destruct (apart_ok 1000 ltac:(discriminate)) as (A & B & C & D & E & _). split; [|split; [exact B|exact E]].
  constructor; [exact halving_fades|exact cheb_sound|exact psort_sort|exact A|rewrite B; apply Nat.le_refl|exact cheb_sym|exact C|exact D|exact Hf|discriminate].
Qed.
Definition den_line : list string := ["-i"; "pts"; "-m"; "stream"; "-pre"; "denStream"; "-e"; "2"; "-o"; "res"]%string.
Definition den_reduced : list string := ["-i"; "pts"; "-m"; "reduced"; "-pre"; "denStream"; "-e"; "2"; "-o"; "res"]%string.
Definition den_upscale : list string := ["-i"; "pts"; "-a"; "1"; "-pre"; "denStream"; "-e"; "2"; "-k"; "3"]%string.
Definition stream_line : list string := ["-i"; "pts"; "-m"; "stream"]%string.
Example C89_ex :
  is_sort wsort /\ (forall x y, (0 <= cheb x y)%Z) /\ (0 < number "1" < 2 ^ 31 - 1)%Z /\
  holds_points decimal (places_file 1040) "pts" (places 1040) /\ number "2" = 2%Z /\
  (one_run_line den_line "denStream" Tree "1" "2" "pts" "res" /\ preprocessor_of den_line "denStream" /\ names_denstream "denStream") /\
  reduced_line den_reduced "denStream" "1" "2" "pts" "res" /\
  (complete_line den_upscale /\ value den_upscale "mpi" "1" /\ value den_upscale "preprocessor" "denStream" /\ value den_upscale "clusters" "3") /\
  (complete_line stream_line /\ preprocessor_of stream_line "streamingkmeans" /\ names_streaming "streamingkmeans" /\ value stream_line "inputFile" "pts").
Proof.
  split; [apply wsort_is_sort|]. split; [exact cheb_pos|]. split; [vm_compute; split; reflexivity|]. split; [apply places_points; discriminate|]. split; [reflexivity|].
  split. { split; [|split].
    - constructor; try line_value.
      + even_line.
      + right. right. split; [line_value|]. split; [discriminate|]. split; [line_value|]. exists "false"%string. split; [line_value|discriminate].
      + exists "0"%string. split; [line_value|discriminate].
      + exists "false"%string. split; [line_value|split; discriminate].
    - exists "denStream"%string. split; [line_value|]. right. right. split; [exists "0"%string; split; [line_value|discriminate]|]. split; [line_value|]. exists "stream"%string. split; [line_value|].
      left. eexists. split; [do 3 right; left; reflexivity|reflexivity].
    - unfold names_denstream, pre_names. cbn. tauto. }
  split. { constructor; try line_value.
    - even_line.
    - exists "0"%string. split; [line_value|discriminate].
    - exists "false"%string. split; [line_value|split; discriminate]. }
  split. { split; [even_line|]. repeat split; line_value. }
  split; [even_line|]. split; [|split; [unfold names_streaming, pre_names; cbn; tauto|line_value]].
  exists ""%string. split; [line_value|]. right. right. split; [exists "0"%string; split; [line_value|discriminate]|]. split; [line_value|]. exists "stream"%string. split; [line_value|].
  left. eexists. split; [do 3 right; left; reflexivity|reflexivity].
Qed.
