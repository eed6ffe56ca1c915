(* PropertiesMain.v -- C72 and C73: the program from its command line, and its reduced and upscale modes. *)
From Coq Require Import String Ascii List Arith ZArith Bool Lia Sorted Permutation Relations.
From Verif Require Import Base UtilsModel ArrayListModel TreeModel FastModel ArgModel IoModel PipeModel MainModel.
From Verif Require Import Spec SpecIo SpecComplex SpecTree SpecArgs SpecGraph SpecLinear SpecFast SpecPipe SpecMain.
From Verif Require Import ArgProofs PartitionProofs PipeRuns MainProofs MainRuns PropertiesComplex PropertiesPipe.
Import ListNotations.
Local Open Scope nat_scope.
Local Open Scope list_scope.

(* ---------------------------------------------------------------- C72 *)
(* A plain command line on a file of points: the bars of dimension 0 that the barcode file holds are the single-linkage
   heights of the points; "console" writes no file.  If no two points are close, the run is undefined. *)
Theorem C72_plain_run_writes_single_linkage_bars :
  forall dist atoi atof srt past_end nc0 al_reduce other pre_run pre_stats uaf stod file argv c d e f o data,
  is_sort srt -> (forall x y, (0 <= dist x y)%Z) -> (0 < atoi d < 2 ^ 31 - 1)%Z ->
  plain_line argv c d e f o -> holds_points stod file f data -> data <> [] ->
  let program := lhf dist atoi atof srt past_end nc0 al_reduce other pre_run pre_stats uaf stod file argv in
  (forall r, program = Ok r ->
     exists q deaths, r = Ran q (if String.eqb o "console" then [] else [((o ++ ".csv")%string, pk_output q)]) /\
       dim0 (pk_output q) = map (fun w => (0, 0%Z, w)) deaths ++ [(0, 0%Z, atof e)] /\
       forall t n, clusters dist data c (atof e) t n <-> count_le t deaths + n = length data) /\
  (~ (exists u v, u < v /\ v < length data /\ close c (atof e) (separation dist data u v)) -> program = UB).
Proof. exact plain_run. Qed.
Print Assumptions C72_plain_run_writes_single_linkage_bars.

(* With libstdc++'s list the run of a file with two close points ends. *)
Theorem C72_plain_run_ends :
  forall dist atoi atof srt nc0 al_reduce other pre_run pre_stats uaf stod file argv c d e f o data,
  is_sort srt -> (forall x y, (0 <= dist x y)%Z) -> (0 < atoi d < 2 ^ 31 - 1)%Z ->
  plain_line argv c d e f o -> holds_points stod file f data ->
  (exists u v, u < v /\ v < length data /\ close c (atof e) (separation dist data u v)) ->
  exists r, lhf dist atoi atof srt libstdcxx_past_end nc0 al_reduce other pre_run pre_stats uaf stod file argv = Ok r.
Proof.
  intros dist atoi atof srt nc0 al_reduce other pre_run pre_stats uaf stod file argv c d e f o data Hs Hpos Hd Hl Hf Hp.
  assert (Hne : data <> []) by (destruct Hp as (u & v & _ & H & _); intros ->; cbn in H; lia).
  destruct (plain_lhf dist atoi atof srt libstdcxx_past_end nc0 al_reduce other pre_run pre_stats uaf stod file _ _ _ _ _ _ _ Hl Hf Hne) as (args & Dr & ->).
  assert (Hrow := readCSV_ne _ _ _ _ (holds_reads _ _ _ _ Hf)).
  destruct (proj2 (default_undefined dist atoi atof srt libstdcxx_past_end nc0 al_reduce other args c d e data Hs Dr Hrow Hpos Hd) (or_intror Hp)) as (q & ->).
  cbn [bind]. eauto.
Qed.
Print Assumptions C72_plain_run_ends.

(* Without points (no such file, or only dropped lines) the program prints its usage and writes nothing; a cell that is no
   number ends it with an exception.  This holds in every mode that reads the file. *)
Theorem C72_no_points_prints_usage :
  forall dist atoi atof srt past_end nc0 al_reduce other pre_run pre_stats uaf stod file argv m f,
  parse argv = Ok m -> mget (setPipeline m) "pipeline" <> Some "slidingwindow"%string -> value argv "inputFile" f ->
  let program := lhf dist atoi atof srt past_end nc0 al_reduce other pre_run pre_stats uaf stod file argv in
  (holds_points stod file f [] -> program = Ok Usage) /\
  (readCSV Z stod (file f) = None -> program = Ok Threw).
Proof.
  intros dist atoi atof srt past_end nc0 al_reduce other pre_run pre_stats uaf stod file argv m f P Np V.
  apply (no_points dist atoi atof srt past_end nc0 al_reduce other pre_run pre_stats uaf stod file argv m f P Np (value_mget _ _ _ _ P V)).
Qed.
Print Assumptions C72_no_points_prints_usage.

(* With mpi 1, and in the mode upscaleBound, the program computes no bars and writes no file: it counts how many points
   have each label.  p0 is the packet with the points read, p1 what the preprocessor makes of it. *)
Theorem C72_upscale_only_counts_labels :
  forall dist atoi atof srt past_end nc0 al_reduce other pre_run pre_stats uaf stod file argv m f data p0 p1 k,
  parse argv = Ok m -> value argv "mpi" "1" \/ (value argv "pipeline" "" /\ value argv "mode" "upscaleBound") ->
  value argv "inputFile" f -> holds_points stod file f data -> data <> [] ->
  new_packet atoi atof nc0 (setPipeline m) data = Ok p0 -> preprocess packet pre_run pre_stats (setPipeline m) p0 = Ok p1 ->
  value argv "clusters" k ->
  let program := lhf dist atoi atof srt past_end nc0 al_reduce other pre_run pre_stats uaf stod file argv in
  let fits := length (pk_labels p1) <= length (pk_full p1) /\ (forall l, In l (pk_labels p1) -> (Z.of_nat l < atoi k)%Z) in
  ((0 <= atoi k)%Z /\ fits ->
     exists counts, program = Ok (Counted p1 counts) /\ list_sum counts = length (pk_labels p1) /\
       length counts = Z.to_nat (atoi k) /\
       forall j c, nth_error counts j = Some c -> c = count_occ Nat.eq_dec (pk_labels p1) j) /\
  ((atoi k < 0)%Z -> program = Ok Threw) /\
  ((0 <= atoi k)%Z -> ~ fits -> program = UB).
Proof.
  intros dist atoi atof srt past_end nc0 al_reduce other pre_run pre_stats uaf stod file argv m f data p0 p1 k P Hu Hi Hf Hne N Pr Hk.
  destruct (upscale_lines argv m P Hu) as [U1 U2].
  assert (HO := parse_has_options argv m P : has_options m). destruct (applies_total m HO) as [pl Ap]. assert (S1 := setPipeline_spec m pl HO Ap).
  assert (Fi : mget (setPipeline m) "inputFile" = Some f) by (rewrite S1, (value_mget _ _ _ _ P Hi); now destruct pl).
  assert (Fk : opt (setPipeline m) "clusters" = k) by (unfold opt; rewrite S1, (value_mget _ _ _ _ P Hk); now destruct pl).
  destruct (upscale_counts dist atoi atof srt past_end nc0 al_reduce other pre_run pre_stats uaf stod file argv m f data p0 p1 (atoi k) P U1 U2 Fi Hf Hne N Pr
    ltac:(now rewrite Fk)) as (A & B & C).
  split; [|split; auto].
  intros (H1 & H2 & H3). destruct (A (conj H1 (conj H2 H3))) as [A1 A2]. eexists. split; [exact A1|]. split; [exact A2|].
  split; [now rewrite map_length, seq_length|]. intros j c Hj. rewrite nth_error_map in Hj.
  destruct (nth_error (seq 0 (Z.to_nat (atoi k))) j) as [j'|] eqn:Ej; [|discriminate]. injection Hj as <-.
  assert (j < length (seq 0 (Z.to_nat (atoi k)))) by (apply nth_error_Some; congruence). rewrite seq_length in *.
  apply nth_error_nth with (d := 0) in Ej. rewrite seq_nth in Ej by auto. now subst j'.
Qed.
Print Assumptions C72_upscale_only_counts_labels.

(* Decimal numbers; one file; a preprocessor that replaces the points by 0, 10, 4 and labels the points read. *)
Definition decimal (t : text) : option Z :=
  fold_left (fun acc c => match acc with
                          | None => None
                          | Some n => let k := nat_of_ascii c in if (48 <=? k) && (k <? 58) then Some (10 * n + Z.of_nat (k - 48))%Z else None
                          end) t (match t with [] => None | _ => Some 0%Z end).
Definition number (s : string) : Z := match decimal (list_ascii_of_string s) with Some z => z | None => 0%Z end.
Definition lines_file (lines : list string) : text := join newline (map list_ascii_of_string lines).
Definition the_file (lines : list string) (f : string) : option text := if String.eqb f "pts" then Some (lines_file lines) else None.
Definition three_centres (_ : pre_kind) (_ : amap) (p : packet) : res packet :=
  Ok (mkPacket [[0]; [10]; [4]]%Z [0; 0; 1; 1; 2; 2] (pk_full p) (pk_weights p) (pk_complex p) (pk_output p) (pk_table p) (pk_stats p)).
Definition program lines argv : res outcome :=
  lhf line_dist number number wsort libstdcxx_past_end 0 (fun g => Ok g) (fun _ _ p => Ok p) three_centres (fun _ p => Ok p) (Ok tt) decimal (the_file lines) argv.
Definition bars (o : res outcome) : option (list (string * list (nat * Z * Z))) :=
  match o with Ok (Ran _ files) => Some files | _ => None end.


(* The value of an option, computed. *)
Lemma value_computed argv l s d v : In (l, s, d) options ->
  match last_val argv s with Some w => w | None => match last_val argv l with Some w => w | None => d end end = v -> value argv l v.
Proof.
  intros I E. exists s, d. split; auto. assert (S1 := last_val_spec argv s). assert (S2 := last_val_spec argv l).
  destruct (last_val argv s); [subst; now left|]. destruct (last_val argv l); subst; auto.
Qed.
Ltac option_in := unfold options; repeat (first [left; reflexivity|right]).
Ltac line_value := eapply value_computed; [option_in|vm_compute; reflexivity].
Lemma plain_example : plain_line ["-i"; "pts"; "-e"; "5"; "-d"; "1"; "-o"; "res"]%string Tree "1" "5" "pts" "res".
Proof.
  constructor; try line_value.
  - intros [[k H] _]. cbn in H. lia.
  - left. split; [line_value|]. split; [line_value|]. exists "false"%string. split; [line_value|discriminate].
  - exists "0"%string. split; [line_value|discriminate].
  - exists "false"%string. split; [line_value|split; discriminate].
Qed.

Ltac no_char := let H := fresh in intros H; cbn in H; repeat (destruct H as [H|H]; [discriminate|]); exact H.
Ltac row := split; [split; [no_char|]; split; [discriminate|]; split;
  [constructor; [split; [discriminate|repeat split; no_char]|constructor]|cbn; auto]|split; [cbn; lia|reflexivity]].

Example C72_ex :
  is_sort wsort /\ (forall x y, (0 <= line_dist x y)%Z) /\ (0 < number "1" < 2 ^ 31 - 1)%Z /\
  plain_line ["-i"; "pts"; "-e"; "5"; "-d"; "1"; "-o"; "res"]%string Tree "1" "5" "pts" "res" /\
  holds_points decimal (the_file ["00"; "01"; "7"; "04, "; "10"; "12"; ""]%string) "pts" [[0]; [1]; [4]; [10]; [12]]%Z /\
  bars (program ["00"; "01"; "7"; "04, "; "10"; "12"; ""]%string ["-i"; "pts"; "-e"; "5"; "-d"; "1"; "-o"; "res"]%string) =
    Some [("res.csv"%string, [(0, 0%Z, 1%Z); (0, 0%Z, 2%Z); (0, 0%Z, 3%Z); (0, 0%Z, 5%Z)])] /\
  bars (program ["00"; "01"]%string ["-i"; "pts"; "-o"; "console"]%string) = Some [] /\
  program ["00"; "05"]%string ["-i"; "pts"]%string = UB /\
  program ["00"; "05"]%string [] = Ok Usage /\ program ["00"; "x5"]%string ["-i"; "pts"]%string = Ok Threw /\
  (exists q, program ["00"; "01"; "10"; "11"; "04"; "05"]%string ["-i"; "pts"; "-a"; "1"; "-k"; "4"]%string = Ok (Counted q [2; 2; 2; 0])) /\
  program ["00"; "01"; "10"; "11"; "04"; "05"]%string ["-i"; "pts"; "-m"; "upscaleBound"; "-k"; "2"]%string = UB.
Proof.
  split; [apply wsort_is_sort|]. split; [intros; apply Z.abs_nonneg|]. split; [vm_compute; split; reflexivity|]. split; [exact plain_example|].
  split.
  - right. exists (map list_ascii_of_string ["00"; "01"; "7"; "04, "; "10"; "12"; ""]%string),
      [Some [0]; Some [1]; None; Some [4]; Some [10]; Some [12]; None]%Z. split; [discriminate|]. split; [reflexivity|]. split; [|reflexivity].
    cbn [map]. apply Forall2_cons; [exists [list_ascii_of_string "00"]; row|]. apply Forall2_cons; [exists [list_ascii_of_string "01"]; row|].
    apply Forall2_cons; [split; [no_char|cbn; lia]|]. apply Forall2_cons; [exists [list_ascii_of_string "04"]; row|].
    apply Forall2_cons; [exists [list_ascii_of_string "10"]; row|]. apply Forall2_cons; [exists [list_ascii_of_string "12"]; row|].
    apply Forall2_cons; [split; [no_char|cbn; lia]|]. constructor.
  - split; [vm_compute; reflexivity|]. split; [vm_compute; reflexivity|]. split; [vm_compute; reflexivity|]. split; [vm_compute; reflexivity|].
    split; [vm_compute; reflexivity|]. split; [eexists; vm_compute; reflexivity|vm_compute; reflexivity].
Qed.

(* ---------------------------------------------------------------- C73 *)
(* The reduced mode, when it is defined.  p1 is the packet after the preprocessor: its points are the centroids, and
   every point was given a label.  r is the largest distance of a point to its centroid; row j of pt holds the points
   closer than 2 r to the centroid j.  The pipeline runs on every non-empty row and then on the centroids, and every
   run writes the same file: the bars that remain are those of the centroids.  In every group the bars of dimension 0
   end at the lengths of a spanning forest; only in the first group are these known to be the single-linkage heights.
   A run that ends has met two close points in every group, and its rows are larger than what earlier rows took. *)
Theorem C73_reduced_mode_runs_every_group :
  forall dist atoi atof srt past_end nc0 al_reduce other pre_run pre_stats uaf args d e,
  is_sort srt -> default_run args Tree d e -> (forall x y, (0 <= dist x y)%Z) -> (0 < atoi d < 2 ^ 31 - 1)%Z ->
  forall p p1, preprocess packet pre_run pre_stats args p = Ok p1 ->
  pk_complex p1 = Some (CTree (atof e) (atoi d) (st_new [] nc0)) -> pk_weights p1 = [] ->
  (forall x, In x (pk_data p1) \/ In x (pk_full p1) -> x <> []) ->
  forall q files, processReducedWrapper dist atoi atof srt past_end al_reduce other pre_run pre_stats uaf args p = Ok (q, files) ->
  exists r it pt outs, computeMaxRadius dist (pk_data p1) (pk_full p1) (pk_labels p1) = Ok r /\
    separatePartitionsRad dist (2 * r) (pk_data p1) (pk_full p1) (pk_labels p1) = Ok (it, pt) /\
    let parts := filter non_empty pt in
    let groups := filter non_empty (pt ++ [pk_data p1]) in
    files = match mget args "outputFile" with
            | Some o => if String.eqb o "console" then [] else map (fun out => ((o ++ ".csv")%string, out)) outs
            | None => []
            end /\
    Forall2 (fun g out => exists F, spanning_forest dist g (atof e) F /\ ends_at dist g (atof e) F out) groups outs /\
    (forall g gs out outs', groups = g :: gs -> outs = out :: outs' ->
       exists F, spanning_forest dist g (atof e) F /\ ends_at dist g (atof e) F out /\ single_linkage dist g (atof e) F) /\
    (pk_data p1 <> [] -> exists outs', outs = outs' ++ [pk_output q]) /\
    (groups <> [] -> uaf = Ok tt) /\
    (forall g, In g groups -> some_pair dist g (atof e)) /\
    (forall gs1 g gs2, parts = gs1 ++ g :: gs2 -> some_path dist g (atof e) -> forall h, In h (g :: gs2) -> points gs1 < length h).
Proof.
  intros dist atoi atof srt past_end nc0 al_reduce other pre_run pre_stats uaf args d e Hs Hr Hpos Hd p p1 Pr Ec Ew Hrow q files H.
  destruct (reduced_groups dist atoi atof srt past_end nc0 al_reduce other pre_run pre_stats uaf dist dist (Z.mul 2) args d e Hs Hr Hpos Hd p p1 Pr Ec Ew Hrow q files H)
    as (r & it & pt & outs & G1 & G2 & G3 & G4).
  exists r, it, pt, outs. split; [exact G1|]. split; [exact G2|]. split; [|exact G4].
  rewrite G3. unfold names, writes_output, opt. rewrite (dr_pipeline _ _ _ _ Hr). destruct (mget args "outputFile") as [o|]; [|reflexivity].
  now destruct (String.eqb o "console").
Qed.
Print Assumptions C73_reduced_mode_runs_every_group.

(* The reduced mode runs on one group after the other, with either complex, but leaves the points read and their labels
   alone, and ends with the centroids as its points. *)
Theorem C73_reduced_mode_keeps_points :
  forall dist atoi atof srt past_end al_reduce other pre_run pre_stats uaf args c d e,
  default_run args c d e -> forall p p1 q files, preprocess packet pre_run pre_stats args p = Ok p1 ->
  processReducedWrapper dist atoi atof srt past_end al_reduce other pre_run pre_stats uaf args p = Ok (q, files) ->
  pk_full q = pk_full p1 /\ pk_labels q = pk_labels p1 /\ (pk_data p1 <> [] -> pk_data q = pk_data p1).
Proof. exact reduced_keeps. Qed.
Print Assumptions C73_reduced_mode_keeps_points.

(* The other way round: when the reduced mode is undefined.  The write to freed memory (uaf) alone is enough.  So is a
   group without two close points, and so is a later row with a path of two short edges that is not larger than all rows
   before it together: mapPartitionIndexing then reads past the end of the row's labels. *)
Theorem C73_reduced_mode_undefined :
  forall dist atoi atof srt past_end nc0 al_reduce other pre_run pre_stats uaf args d e,
  is_sort srt -> default_run args Tree d e -> (forall x y, (0 <= dist x y)%Z) -> (0 < atoi d < 2 ^ 31 - 1)%Z ->
  forall p p1, preprocess packet pre_run pre_stats args p = Ok p1 ->
  pk_complex p1 = Some (CTree (atof e) (atoi d) (st_new [] nc0)) -> pk_weights p1 = [] ->
  (forall x, In x (pk_data p1) \/ In x (pk_full p1) -> x <> []) ->
  forall r it pt, computeMaxRadius dist (pk_data p1) (pk_full p1) (pk_labels p1) = Ok r ->
    separatePartitionsRad dist (2 * r) (pk_data p1) (pk_full p1) (pk_labels p1) = Ok (it, pt) ->
  let groups := filter non_empty (pt ++ [pk_data p1]) in
  (groups <> [] /\ uaf = UB) \/
  (exists g, In g groups /\ ~ some_pair dist g (atof e)) \/
  (exists gs1 g gs2 h, filter non_empty pt = gs1 ++ g :: gs2 /\ some_path dist g (atof e) /\ In h (g :: gs2) /\ length h <= points gs1) ->
  processReducedWrapper dist atoi atof srt past_end al_reduce other pre_run pre_stats uaf args p = UB.
Proof.
  intros dist atoi atof srt past_end nc0 al_reduce other pre_run pre_stats uaf args d e Hs Hr Hpos Hd p p1 Pr Ec Ew Hrow r it pt Er Es groups H.
  destruct (processReducedWrapper _ _ _ _ _ _ _ _ _ _ _ _) as [[q files]|] eqn:E; auto. exfalso.
  destruct (reduced_groups dist atoi atof srt past_end nc0 al_reduce other pre_run pre_stats uaf dist dist (Z.mul 2) args d e Hs Hr Hpos Hd p p1 Pr Ec Ew Hrow q files E)
    as (r' & it' & pt' & outs & Er' & Es' & _ & _ & _ & _ & G1 & G2 & G3).
  rewrite Er in Er'. injection Er' as <-. rewrite Es in Es'. injection Es' as <- <-. fold groups in G1, G2.
  destruct H as [[H1 H2]|[(g & H1 & H2)|(gs1 & g & gs2 & h & H1 & H2 & H3 & H4)]].
  - specialize (G1 H1). congruence.
  - apply H2, G2, H1.
  - specialize (G3 gs1 g gs2 H1 H2 h H3). lia.
Qed.
Print Assumptions C73_reduced_mode_undefined.

(* The bars of the centroids, the only ones left in the file, need not be single-linkage heights: the tree is sorted only
   once.  The centroids 0, 10, 4 merge at the scales 4 and 6, but the file says 10 and 4. *)
Theorem C73_centroid_bars_are_single_linkage_refuted : exists q files,
  program ["00"; "01"; "10"; "11"; "04"; "05"]%string ["-i"; "pts"; "-m"; "reduced"; "-e"; "11"; "-o"; "res"]%string = Ok (Ran q files) /\
  last files (""%string, []) = ("res.csv"%string, [(0, 0%Z, 10%Z); (0, 0%Z, 4%Z); (0, 0%Z, 11%Z)]) /\
  clusters line_dist [[0]; [10]; [4]]%Z Tree 11 6 1.
Proof.
  eexists. eexists. split; [vm_compute; reflexivity|]. split; [reflexivity|].
  assert (J : forall u v, u < v -> v < 3 -> (separation line_dist [[0]; [10]; [4]]%Z u v <= 6)%Z -> joined line_dist [[0]; [10]; [4]]%Z Tree 11 6 u v).
  { intros u v H1 H2 H3. split; auto. split; auto. split; auto. cbn. lia. }
  exists [2]. split; auto. split; [repeat constructor; intros []|]. split; [intros x [<-|[]]; cbn; auto|].
  split; [intros x y [<-|[]] [<-|[]]; auto|]. intros v Hv. exists 2. split; [now left|].
  cbn in Hv. destruct Hv as [<-|[<-|[<-|[]]]]; [| |apply rst_refl]; apply rst_step, J; try lia; vm_compute; discriminate.
Qed.
Print Assumptions C73_centroid_bars_are_single_linkage_refuted.


(* Three points around each of two centroids: the second row has three points and a path, the first row took three. *)
Definition two_centres (_ : pre_kind) (_ : amap) (p : packet) : res packet :=
  Ok (mkPacket [[1]; [11]]%Z [0; 0; 0; 1; 1; 1] (pk_full p) (pk_weights p) (pk_complex p) (pk_output p) (pk_table p) (pk_stats p)).
Example C73_ex :
  has_default_options ["-m"; "reduced"; "-e"; "11"]%string Tree "1" "11" /\
  (exists m, parse ["-m"; "reduced"; "-e"; "11"]%string = Ok m /\ forall p, preprocess packet three_centres (fun _ p => Ok p) (setPipeline m) p = three_centres KKMeans (setPipeline m) p) /\
  computeMaxRadius line_dist [[0]; [10]; [4]]%Z [[0]; [1]; [10]; [11]; [4]; [5]]%Z [0; 0; 1; 1; 2; 2] = Ok 1%Z /\
  separatePartitionsRad line_dist 2 [[0]; [10]; [4]]%Z [[0]; [1]; [10]; [11]; [4]; [5]]%Z [0; 0; 1; 1; 2; 2] =
    Ok ([[0; 1]; [2; 3]; [4; 5]], [[[0]; [1]]; [[10]; [11]]; [[4]; [5]]]%Z) /\
  bars (program ["00"; "01"; "10"; "11"; "04"; "05"]%string ["-i"; "pts"; "-m"; "reduced"; "-e"; "11"]%string) =
    Some (map (fun out => ("output.csv.csv"%string, out))
      [[(0, 0%Z, 1%Z); (0, 0%Z, 11%Z)]; [(0, 0%Z, 1%Z); (0, 0%Z, 11%Z)]; [(0, 0%Z, 1%Z); (0, 0%Z, 11%Z)]; [(0, 0%Z, 10%Z); (0, 0%Z, 4%Z); (0, 0%Z, 11%Z)]]) /\
  (let groups := [[[0]; [1]; [2]]; [[10]; [11]; [12]]]%Z in some_path line_dist (nth 1 groups []) 11 /\ points (firstn 1 groups) = 3) /\
  lhf line_dist number number wsort libstdcxx_past_end 0 (fun g => Ok g) (fun _ _ p => Ok p) two_centres (fun _ p => Ok p) (Ok tt) decimal
    (the_file ["00"; "01"; "02"; "10"; "11"; "12"]%string) ["-i"; "pts"; "-m"; "reduced"; "-e"; "11"]%string = UB.
Proof.
  split; [|split; [|split; [reflexivity|]; split; [reflexivity|]; split; [vm_compute; reflexivity|]; split; [|vm_compute; reflexivity]]].
  - eexists. split; [vm_compute; reflexivity|]. constructor; try (vm_compute; (reflexivity || discriminate)).
    eexists. split; [vm_compute; reflexivity|]. split; discriminate.
  - eexists. split; [vm_compute; reflexivity|]. intros p. reflexivity.
  - split; [|reflexivity]. exists 0, 1, 2. split; [lia|]. split; left; (split; [lia|split; [cbn; lia|split; vm_compute; [reflexivity|discriminate]]]).
Qed.
