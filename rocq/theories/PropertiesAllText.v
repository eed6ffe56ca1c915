(* PropertiesAllText.v -- C114: the naive window and the persistence components in double arithmetic, from text to text. *)
From Coq Require Import String Ascii List Arith ZArith Bool Lia SpecFloat.
From Verif Require Import Base Spec ArrayListModel SpecComplex FastModel SpecFast ArgModel SpecArgs IoModel SpecIo PipeModel SpecPipe WindowModel MainModel SpecMain AllModel SpecAll PropertiesPipe PropertiesMain PropertiesAll.
From Verif Require Import DoubleModel SpecDouble DoubleProofs DoubleRuns PropertiesDouble SpecText TextModel ReadModel SpecRead ReadProofs PropertiesRead PropertiesProgram NanModel SpecNan PropertiesNan.
From Verif Require Import SlideDoubleModel SpecSlide PropertiesSlide PropertiesComplex SpecAllText AllTextModel OwnRuns AllText.
Import ListNotations.
Local Open Scope nat_scope.
Local Open Scope list_scope.
Local Notation txt s := (list_ascii_of_string s).

(* C114, the mode naive on any file of lines of doubles, each of at least two characters besides spaces: the barcode file has its
   header and no bars. *)
Theorem C114_naive_window_from_text_to_text :
  forall srt past_end nc0 al_reduce one file stopped pre_run pre_stats uaf argv d e f o dd lines rows,
  is_sort srt -> window_line argv ["naive"; "naivewindow"]%string d e f o -> o <> "console"%string ->
  reads_number (txt d) dd -> (0 < dd < 2 ^ 31 - 1)%Z ->
  file f = Some (lines_of lines) -> Forall2 stream_vector lines rows -> lines <> [] -> (forall l, In l lines -> 2 <= length (strip l)) ->
  lhf_texts d_square srt past_end nc0 al_reduce one file stopped pre_run pre_stats uaf argv = Ok [((o ++ ".csv")%string, line "dimension,birth,death")].
Proof. intros. eapply naive_text; eauto. Qed.
Print Assumptions C114_naive_window_from_text_to_text.

(* The default pipeline with the component persistence in the place of fastPersistence, on the default complexes: undefined if two
   points are close.  Otherwise the file has two headers and, from dimension 2 on, a line for every point. *)
Theorem C114_persistence_from_text_to_text :
  forall srt past_end nc0 al_reduce one file stopped pre_run pre_stats uaf argv c d e f o dd eps lines rs,
  is_sort srt -> own_line argv "distMatrix.neighGraph.rips.persistence" (cx_name c) d e f o -> o <> "console"%string ->
  reads_number (txt d) dd -> (0 < dd < 2 ^ 31 - 1)%Z -> reads_as (txt e) eps -> non_negative eps ->
  file f = Some (join newline lines) -> Forall2 line_gives lines rs -> let cloud := kept rs in cloud <> [] ->
  (forall p q, In p cloud -> In q cloud -> length p = length q) ->
  let program := lhf_texts d_square srt past_end nc0 al_reduce one file stopped pre_run pre_stats uaf argv in
  let close_pair := exists w, near_pair d_square cloud c eps w in
  (close_pair -> program = UB) /\
  (~ close_pair -> program = Ok [((o ++ ".csv")%string,
     line "dimension,birth,death" ++ line "dim,birth,death" ++ whole_lives (if (1 <? dd)%Z then length cloud else 0) eps)]).
Proof. intros. eapply persistence_text; eauto. Qed.
Print Assumptions C114_persistence_from_text_to_text.

(* The same pipeline on an indSimplexTree, if all distances are numbers: undefined but for dimension 1, without twist, and with
   exactly one pair of points closer than epsilon, which does not contain the first point. *)
Theorem C114_persistence_on_indexed_tree_from_text_to_text :
  forall srt past_end nc0 al_reduce one file stopped pre_run pre_stats uaf argv d e f o t dd eps lines rs,
  is_sort srt -> own_line argv "distMatrix.neighGraph.rips.persistence" "indSimplexTree" d e f o -> value argv "twist" t -> o <> "console"%string ->
  reads_number (txt d) dd -> (0 < dd < 2 ^ 31 - 1)%Z -> reads_as (txt e) eps -> non_negative eps ->
  file f = Some (join newline lines) -> Forall2 line_gives lines rs -> let cloud := kept rs in cloud <> [] ->
  (forall p q, In p cloud -> In q cloud -> length p = length q) -> (forall u v w, apart d_square cloud u v w -> is_number w) ->
  let program := lhf_texts d_square srt past_end nc0 al_reduce one file stopped pre_run pre_stats uaf argv in
  let single := dd = 1%Z /\ t <> "true"%string /\ one_closer_pair cloud eps in
  (single -> program = Ok [((o ++ ".csv")%string, line "dimension,birth,death" ++ line "curIndex,index,dim,birth,death" ++ whole_lives (length cloud) eps)]) /\
  (~ single -> program = UB).
Proof. intros. eapply indexed_text; eauto. Qed.
Print Assumptions C114_persistence_on_indexed_tree_from_text_to_text.

(* A pipeline with the component boundary is undefined for every dimension that does not read as 0. *)
Theorem C114_boundary_from_text_to_text :
  forall srt past_end nc0 al_reduce one file stopped pre_run pre_stats uaf argv P parts c d e f o dd lines rs,
  own_line argv P (cx_name c) d e f o -> components_of P parts -> In "boundary"%string parts ->
  (forall w, In w parts -> ~ In w ["sliding"; "slidingwindow"; "naive"; "naivewindow"]%string) ->
  reads_number (txt d) dd -> dd <> 0%Z -> file f = Some (join newline lines) -> Forall2 line_gives lines rs -> kept rs <> [] ->
  lhf_texts d_square srt past_end nc0 al_reduce one file stopped pre_run pre_stats uaf argv = UB.
Proof. intros. eapply boundary_text; eauto. Qed.
Print Assumptions C114_boundary_from_text_to_text.

(* ---- examples *)
Definition text_file (points : list (string * double)) : text := lines_of (map (fun c => txt (fst c)) points).
Definition text_run (points : list (string * double)) (argv : list string) : res (list (string * text)) :=
  lhf_texts d_square wsort libstdcxx_past_end 0%Z (fun g => Ok g) 1%Z (fun f => if String.eqb f "pts" then Some (text_file points) else None) UB
    (fun _ _ p => Ok p) (fun _ p => Ok p) (Ok tt) argv.
Definition text_words (c d : string) : list string := ["-i"; "pts"; "-p"; "distMatrix.neighGraph.rips.persistence"; "-c"; c; "-d"; d; "-e"; "5."; "-o"; "res"]%string.
Lemma text_words_own c d : In c ["simplexTree"; "simplexArrayList"; "indSimplexTree"]%string -> In d ["1"; "2"]%string ->
  own_line (text_words c d) "distMatrix.neighGraph.rips.persistence" c d "5." "pts" "res".
Proof.
  intros Hc Hd. cbn in Hc, Hd. repeat destruct Hc as [<-|Hc]; try destruct Hc; repeat destruct Hd as [<-|Hd]; try destruct Hd;
  (constructor; try line_value; try (intros [[k K] _]; cbn in K; lia); try discriminate; eexists; (split; [line_value|first [discriminate|split; discriminate]])).
Qed.
Lemma text_points points : (forall c, In c points -> In c cells) ->
  Forall2 stream_vector (map (fun c => txt (fst c)) points) (map (fun c => [snd c]) points) /\ (forall l, In l (map (fun c => txt (fst c)) points) -> 2 <= length (strip l)) /\
  text_file points = join newline (map (fun c => txt (fst c)) points ++ [[]]) /\
  Forall2 line_gives (map (fun c => txt (fst c)) points ++ [[]]) (map Some (map (fun c => [snd c]) points) ++ [None]).
Proof.
  intros H.
  assert (A : Forall2 stream_vector (map (fun c => txt (fst c)) points) (map (fun c => [snd c]) points)).
  { induction points as [|[c v] l IH]; cbn [map fst snd]; constructor; [apply cell_line, H; now left|apply IH; intros; apply H; now right]. }
  assert (B : forall l, In l (map (fun c => txt (fst c)) points) -> 2 <= length (strip l)).
  { intros l Hl. apply in_map_iff in Hl as (c & <- & Hc). apply H in Hc. repeat (destruct Hc as [<-|Hc]; [cbn; lia|]). destruct Hc. }
  split; [exact A|]. split; [exact B|]. split; [symmetry; apply file_lines|]. now apply lines_give.
Qed.
(* Points 1 and 9 with epsilon 5 are not close.  Of 9, 1 and 1.5 the last two are. *)
Definition two_points : list (string * double) := [("1.", whole 1); ("9.", whole 9)]%string.
Definition three_points : list (string * double) := [("9.", whole 9); ("1.", whole 1); ("1.5", three_halves)]%string.
Example C114_ex :
  text_run (repeat ("1.5"%string, three_halves) 60) ["-i"; "pts"; "-m"; "naive"; "-e"; "5."; "-o"; "res"]%string = Ok [("res.csv"%string, line "dimension,birth,death")] /\
  text_run two_points (text_words "simplexArrayList" "2") =
    Ok [("res.csv"%string, line "dimension,birth,death" ++ line "dim,birth,death" ++ line "0,0.000000,5.000000" ++ line "0,0.000000,5.000000")] /\
  text_run two_points (text_words "simplexTree" "1") = Ok [("res.csv"%string, line "dimension,birth,death" ++ line "dim,birth,death")] /\
  text_run three_points (text_words "simplexTree" "2") = UB /\
  text_run three_points (text_words "indSimplexTree" "1") =
    Ok [("res.csv"%string, line "dimension,birth,death" ++ line "curIndex,index,dim,birth,death" ++
         line "0,0.000000,5.000000" ++ line "0,0.000000,5.000000" ++ line "0,0.000000,5.000000")] /\
  text_run two_points (text_words "indSimplexTree" "1") = UB /\
  text_run two_points ["-i"; "pts"; "-p"; "neighGraph.boundary.upscale"; "-e"; "5."; "-d"; "2"; "-o"; "res"]%string = UB.
Proof.
  assert (E : reads_as (txt "5.") (whole 5)).
  { left. refine (stands_by_reading _ _ _ _ _ (plain_decimal (txt "5") [] _ _ _) _ _); [repeat constructor|constructor|discriminate|right; split; vm_compute; discriminate|vm_compute; reflexivity]. }
  assert (N1 : reads_number (txt "1") 1) by (repeat split; [discriminate|repeat constructor|discriminate]).
  assert (N2 : reads_number (txt "2") 2) by (repeat split; [discriminate|repeat constructor|discriminate]).
  assert (C2 : forall c, In c two_points -> In c cells) by (intros c [<-|[<-|[]]]; cbn; auto 8).
  assert (C3 : forall c, In c three_points -> In c cells) by (intros c [<-|[<-|[<-|[]]]]; cbn; auto 8).
  assert (Ln : forall points p q, In p (map (fun c : string * double => [snd c]) points) -> In q (map (fun c : string * double => [snd c]) points) -> length p = length q).
  { intros points p q Hp Hq. apply in_map_iff in Hp as (? & <- & _), Hq as (? & <- & _). reflexivity. }
  assert (Far : forall c, ~ exists w, near_pair d_square [[whole 1]; [whole 9]] c (whole 5) w).
  { intros c (w & W & u & v & H & x & (a & b & Ha & Hb & D) & ->). destruct v as [|[|v]]; [lia| |destruct v; discriminate]. destruct u as [|u]; [|lia]. injection Ha as <-. injection Hb as <-. vm_compute in D. injection D as <-.
    destruct c; vm_compute in W; discriminate. }
  split.
  - destruct (text_points (repeat ("1.5"%string, three_halves) 60)) as (A & B & _ & _); [intros c Hc; apply repeat_spec in Hc as ->; cbn; auto|].
    refine (C114_naive_window_from_text_to_text wsort libstdcxx_past_end 0%Z (fun g => Ok g) 1%Z _ UB (fun _ _ p => Ok p) (fun _ p => Ok p) (Ok tt) _ "1" "5." "pts" "res" 1 _ _ wsort_is_sort _ _ N1 _ _ A _ B);
      [|discriminate|lia|reflexivity|discriminate].
    constructor; try line_value; try (intros [[k K] _]; cbn in K; lia); [eexists; split; [line_value|now left]|exists "0"%string; split; [line_value|discriminate]].
  - destruct (text_points two_points C2) as (_ & _ & F2 & G2). destruct (text_points three_points C3) as (_ & _ & F3 & G3).
    split; [|split; [|split; [|split; [|split]]]].
    + refine (proj2 (C114_persistence_from_text_to_text wsort libstdcxx_past_end 0%Z (fun g => Ok g) 1%Z _ UB (fun _ _ p => Ok p) (fun _ p => Ok p) (Ok tt) _ ArrayList "2" "5." "pts" "res" 2 (whole 5) _ _
        wsort_is_sort (text_words_own _ _ _ _) _ N2 _ E _ _ G2 _ _) _); cbn [cx_name]; cbn [In]; auto; try discriminate; try lia; try reflexivity.
      all: first [exact (Ln two_points)|exact (f_equal Some F2)|apply Far].
    + refine (proj2 (C114_persistence_from_text_to_text wsort libstdcxx_past_end 0%Z (fun g => Ok g) 1%Z _ UB (fun _ _ p => Ok p) (fun _ p => Ok p) (Ok tt) _ Tree "1" "5." "pts" "res" 1 (whole 5) _ _
        wsort_is_sort (text_words_own _ _ _ _) _ N1 _ E _ _ G2 _ _) _); cbn [cx_name]; cbn [In]; auto; try discriminate; try lia; try reflexivity.
      all: first [exact (Ln two_points)|exact (f_equal Some F2)|apply Far].
    + vm_compute. reflexivity.
    + assert (Ap : forall u v w, apart d_square [[whole 9]; [whole 1]; [three_halves]] u v w -> u < 3 /\ v < 3).
      { intros u v w (x & y & A & B & _). split; [change 3 with (length [[whole 9]; [whole 1]; [three_halves]])..]; apply nth_error_Some; congruence. }
      refine (proj1 (C114_persistence_on_indexed_tree_from_text_to_text wsort libstdcxx_past_end 0%Z (fun g => Ok g) 1%Z _ UB (fun _ _ p => Ok p) (fun _ p => Ok p) (Ok tt) _ "1" "5." "pts" "res" "false" 1 (whole 5) _ _
        wsort_is_sort (text_words_own _ _ _ _) _ _ N1 _ E _ _ G3 _ (Ln three_points) _) _); cbn [In]; auto; try discriminate; try lia; try reflexivity; [line_value| |].
      * intros u v w A. destruct (Ap u v w A) as [Hu Hv]. destruct A as (x & y & A & B & D).
        destruct u as [|[|[|u]]]; [..|lia]; injection A as <-; (destruct v as [|[|[|v]]]; [..|lia]); injection B as <-; vm_compute in D; injection D as <-; discriminate.
      * split; [reflexivity|]. split; [discriminate|]. exists 1, 2. split; [lia|]. split.
        -- split; [lia|]. eexists. split; [do 2 eexists; split; [reflexivity|]; split; [reflexivity|]; vm_compute; reflexivity|vm_compute; reflexivity].
        -- intros u v (H & w & A & L). destruct (Ap u v w A) as [Hu Hv]. destruct A as (x & y & A & B & D).
           destruct u as [|[|[|u]]]; [..|lia]; injection A as <-; (destruct v as [|[|[|v]]]; [..|lia]); try lia; injection B as <-; vm_compute in D; injection D as <-; try discriminate L; auto.
    + vm_compute. reflexivity.
    + vm_compute. reflexivity.
Qed.
