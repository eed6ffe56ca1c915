(* AllText.v -- proofs for C114. *)
From Coq Require Import String Ascii List Arith ZArith Bool Lia SpecFloat.
From Verif Require Import Base Spec UtilsModel RunMonad ArrayListModel TreeModel FastModel ArgModel IoModel GaussModel IndModel TwistModel PipeModel WindowModel MainModel AllModel.
From Verif Require Import SpecIo SpecComplex SpecTree SpecArgs SpecGraph SpecFast SpecPipe SpecWindow SpecMain SpecAll ArgProofs IoProofs MainProofs MainRuns AllRuns OwnRuns.
From Verif Require Import DoubleModel SpecDouble DoubleProofs DoubleRuns SpecText TextModel TextProofs TextRuns ReadModel SpecRead ReadProofs ReadFileProofs ProgramRuns NanModel SpecNan NanRuns NanProgram CompareRuns.
From Verif Require Import SlideDoubleModel SpecSlide SlideDouble SpecAllText AllTextModel PropertiesAll.
Import ListNotations.
Local Open Scope nat_scope.
Local Open Scope list_scope.

Lemma file_lines lines : join newline (lines ++ [[]]) = lines_of lines.
Proof.
  induction lines as [|x l IH]; [reflexivity|]. unfold lines_of. cbn [flat_map app]. rewrite <- List.app_assoc. cbn [app]. unfold lines_of in IH. rewrite <- IH.
  cbn [join]. destruct (l ++ [[]]) eqn:E; [destruct l; discriminate|reflexivity].
Qed.
Lemma kept_some {A} (rows : list A) : kept (map Some rows ++ [None]) = rows.
Proof. unfold kept. rewrite flat_map_app. cbn [flat_map]. rewrite app_nil_r. induction rows as [|x l IH]; [reflexivity|]. cbn [map flat_map app]. now rewrite IH. Qed.
Lemma lines_give lines rows : Forall2 stream_vector lines rows -> (forall l, In l lines -> 2 <= length (strip l)) ->
  Forall2 line_gives (lines ++ [[]]) (map Some rows ++ [None]).
Proof.
  intros F L. apply Forall2_app; [|constructor; [split; [intros []|cbn; lia]|constructor]].
  induction F as [|l v lines rows H _ IH]; [constructor|]. cbn [map]. constructor; [|apply IH; intros; apply L; now right].
  destruct H as (cells & H1 & H2 & H3 & H4 & H5 & H6 & H7). exists cells. split; [repeat split; auto|]. split; [apply L; now left|exact H7].
Qed.

Section Run.
  Variable srt : list wsimp -> list wsimp.
  Variable past_end : list nat -> nat -> res nat.
  Variable nc0 : Z.
  Variable al_reduce : wgraph -> res wgraph.
  Variable one : Z.
  Variable file : string -> option text.
  Variable stopped : res packet.
  Variable pre_run : pre_kind -> amap -> packet -> res packet.
  Variable pre_stats : pre_kind -> packet -> res packet.
  Variable uaf : res unit.
  Hypothesis Hs : is_sort srt.
  Variables (argv : list string) (d e f o : string) (dd : Z) (eps : double).
  Hypothesis Ho : o <> "console"%string.
  Hypothesis Hd : reads_number (list_ascii_of_string d) dd.
  Hypothesis Hdd : (0 < dd < 2 ^ 31 - 1)%Z.
  Notation program := (lhf_texts d_square srt past_end nc0 al_reduce one file stopped pre_run pre_stats uaf argv).
  Notation run dist := (lhf_all dist d_atoi d_atof srt past_end nc0 al_reduce one d_stod file stopped pre_run pre_stats uaf argv).

  Lemma dims : d_atoi d = dd.
  Proof. unfold d_atoi. now apply atoi_number. Qed.

  Theorem naive_text lines rows : window_line argv ["naive"; "naivewindow"]%string d e f o ->
    file f = Some (lines_of lines) -> Forall2 stream_vector lines rows -> lines <> [] -> (forall l, In l lines -> 2 <= length (strip l)) ->
    program = Ok [((o ++ ".csv")%string, line "dimension,birth,death")].
  Proof.
    intros Hl Hf Hr Ne H2. destruct (window_args argv _ "naivewindow" d e f o (or_introl eq_refl) Hl) as (m & Pa & To & _).
    unfold lhf_texts. rewrite Pa. cbn [bind]. replace (nan_place (opt (setPipeline m) "complexType")) with (nan_at Tree) by (unfold opt; now rewrite (to_complex _ _ _ To)).
    destruct (vector_lines _ _ Hr) as [Ls _].
    assert (St : streams d_stod file f (map (map to_whole) rows)). { exists lines, []. rewrite app_nil_r. split; [exact Hf|]. split; [exact Ls|now left]. }
    rewrite <- file_lines in Hf. assert (G := lines_give _ _ Hr H2). destruct (rows_reads _ _ G) as [R _].
    assert (Hp : holds_points d_stod file f (map (map to_whole) rows)).
    { right. exists (lines ++ [[]]), (map (option_map (map to_whole)) (map Some rows ++ [None])). split; [destruct lines; discriminate|]. split; [exact Hf|]. split; [exact R|].
      rewrite kept_map, kept_some. reflexivity. }
    assert (Hne : map (map to_whole) rows <> []) by (destruct Hr; [easy|discriminate]).
    destruct (C86_naive_window_mode (coded_dist d_square (nan_at Tree)) d_atoi d_atof srt past_end nc0 al_reduce one d_stod file stopped pre_run pre_stats uaf
      argv d e f o _ _ Hs (coded_dist_pos d_square Tree square_squares) ltac:(now rewrite dims) stod_coded Hl Hp Hne St) as (q & -> & S1 & S2).
    cbn [bind]. unfold barcode_file. rewrite (proj2 (String.eqb_neq _ _) Ho). cbn [map fst snd].
    enough (T : output_text (pk_stats q) [] = []) by (rewrite T, app_nil_r; reflexivity).
    destruct (Nat.lt_ge_cases (length (map (map to_whole) rows)) 50) as [L|L].
    - destruct (S1 L) as [_ ->]. reflexivity.
    - destruct (S2 L) as (_ & c & _ & _ & before & -> & K). unfold output_text. rewrite fold_left_app.
      destruct before as [|[[k1 a1] b1] [|[[k2 a2] b2] [|? ?]]]; try discriminate. cbn in K. injection K as -> ->. reflexivity.
  Qed.

  Hypothesis He : reads_as (list_ascii_of_string e) eps.
  Hypothesis Pe : non_negative eps.
  Variables (lines : list text) (rs : list (option (list double))).
  Hypothesis Hf : file f = Some (join newline lines).
  Hypothesis Hr : Forall2 line_gives lines rs.
  Hypothesis Hne : kept rs <> [].
  Hypothesis Hlen : forall p q, In p (kept rs) -> In q (kept rs) -> length p = length q.
  Notation cloud := (kept rs).
  Notation data := (map (map to_whole) cloud).

  Lemma eps_rank : d_atof e = rank eps /\ fits eps.
  Proof. destruct (reads_stod _ _ He) as (_ & A & F). unfold d_atof. now rewrite A. Qed.
  Lemma points : holds_points d_stod file f data /\ data <> [] /\ (forall p x, In p cloud -> In x p -> fits x).
  Proof.
    destruct (rows_reads _ _ Hr) as [R F]. split; [|split; [intros K; apply Hne; exact (map_eq_nil _ _ K)|exact F]].
    right. exists lines, (map (option_map (map to_whole)) rs). split; [|split; [exact Hf|split; [exact R|symmetry; apply kept_map]]].
    clear - Hr Hne. intros E. rewrite E in Hr. destruct rs; [now apply Hne|inversion Hr].
  Qed.
  Lemma near_close c : (exists u v, u < v /\ v < length data /\ close c (d_atof e) (separation (coded_dist d_square (nan_at c)) data u v)) <-> exists w, near_pair d_square cloud c eps w.
  Proof.
    destruct eps_rank as [-> Fe]. destruct points as (_ & _ & Fin). assert (Ne : is_number eps) by now apply DoubleRuns.number_of. split.
    - intros (u & v & H1 & H2 & H3). destruct (real_weight d_square square_squares c cloud Fin Hlen eps (separation (coded_dist d_square (nan_at c)) data u v) Ne Fe) as (w & _ & _ & _ & W); eauto 8.
    - intros (w & Wi & u & v & H1 & A). destruct (seen_range _ _ _ _ _ _ A) as [Hu Hv]. exists u, v. rewrite map_length. split; [exact H1|]. split; [exact Hv|].
      destruct (seen_value d_square square_squares c cloud Fin Hlen u v Hu Hv) as (w' & A' & F' & _ & ->). rewrite <- (seen_unique _ _ _ _ _ _ _ A A') in *. now apply within_place.
  Qed.
  Lemma pair_lines n : concat (map pair_text (repeat (0, 0%Z, rank eps) n)) = whole_lives n eps.
  Proof.
    unfold whole_lives. f_equal. induction n as [|n IH]; [reflexivity|]. cbn [repeat map]. f_equal; [|exact IH].
    unfold pair_text. cbn [fst snd]. rewrite (at_place_rank eps Pe (proj2 eps_rank)). reflexivity.
  Qed.

  Theorem persistence_text c : own_line argv "distMatrix.neighGraph.rips.persistence" (cx_name c) d e f o ->
    let close_pair := exists w, near_pair d_square cloud c eps w in
    (close_pair -> program = UB) /\
    (~ close_pair -> program = Ok [((o ++ ".csv")%string, line "dimension,birth,death" ++ line "dim,birth,death" ++ whole_lives (if (1 <? dd)%Z then length cloud else 0) eps)]).
  Proof.
    intros Hl close_pair. destruct (own_args _ _ _ _ _ _ _ Hl) as (m & Pa & V & _). destruct points as (Hp & Hn & Fin).
    unfold lhf_texts. rewrite Pa. cbn [bind]. replace (nan_place (opt (setPipeline m) "complexType")) with (nan_at c) by (unfold opt; rewrite (V _ _ (ol_complex _ _ _ _ _ _ _ Hl)); now destruct c).
    destruct (C87_persistence_pipeline (coded_dist d_square (nan_at c)) d_atoi d_atof srt past_end nc0 al_reduce one d_stod file stopped pre_run pre_stats uaf
      argv c d e f o _ Hs (coded_dist_pos d_square c square_squares) ltac:(now rewrite dims) Hl Hp Hn) as [B G]. rewrite near_close in B, G. split.
    - intros H. now rewrite (B H).
    - intros H. destruct (G H) as (q & _ & K & ->). cbn [bind]. unfold barcode_file. rewrite (proj2 (String.eqb_neq _ _) Ho). cbn [map fst snd]. rewrite dims, (proj1 eps_rank), map_length.
      destruct (pk_stats q) as [|[[k1 a1] b1] [|[[k2 a2] b2] [|[[k3 a3] b3] [|[[k4 a4] b4] [|? ?]]]]]; try discriminate. cbn in K. injection K as -> -> -> ->.
      unfold output_text. cbn [fold_left betti_text fst]. do 3 f_equal. unfold barcode_header, line. f_equal. rewrite <- List.app_assoc. cbn [app]. do 2 f_equal.
      destruct (1 <? dd)%Z; [apply pair_lines|reflexivity].
  Qed.

  Theorem boundary_text P parts c : own_line argv P (cx_name c) d e f o -> components_of P parts -> In "boundary"%string parts ->
    (forall w, In w parts -> ~ In w ["sliding"; "slidingwindow"; "naive"; "naivewindow"]%string) -> dd <> 0%Z -> program = UB.
  Proof.
    intros Hl Hp Hb Hw Hz. destruct (own_args _ _ _ _ _ _ _ Hl) as (m & Pa & _). destruct points as (Hpo & Hn & _). unfold lhf_texts. rewrite Pa. cbn [bind].
    rewrite (C87_boundary_is_undefined _ d_atoi d_atof srt past_end nc0 al_reduce one d_stod file stopped pre_run pre_stats uaf argv P parts c d e f o _ Hl Hp Hb Hw Hpo Hn); [reflexivity|].
    rewrite dims. exact Hz.
  Qed.

  Hypothesis Num : forall u v w, apart d_square cloud u v w -> is_number w.
  Lemma closer_place u v : closer cloud eps u v <-> u < v /\ v < length data /\ (separation (coded_dist d_square (nan_at Tree)) data u v < rank eps)%Z.
  Proof.
    destruct eps_rank as [_ Fe]. destruct points as (_ & _ & Fin). assert (Ne : is_number eps) by now apply DoubleRuns.number_of. rewrite map_length.
    assert (S : forall w, is_number w -> seen Tree w = w) by (intros w N; destruct w; auto; elim N; reflexivity). split.
    - intros (H & w & A & L). destruct (apart_range _ _ _ _ _ A) as [Hu Hv]. split; [exact H|]. split; [exact Hv|].
      destruct (seen_value d_square square_squares Tree cloud Fin Hlen u v Hu Hv) as (w' & (x & A' & E) & F' & _ & ->). rewrite <- (apart_unique _ _ _ _ _ _ A A'), (S w (Num _ _ _ A)) in E. subst w'.
      rewrite place_number by (now apply (Num u v)). rewrite rank_ltb in L; auto; [now apply Z.ltb_lt|now apply (Num u v)].
    - intros (H & Hv & L). split; [exact H|]. destruct (seen_value d_square square_squares Tree cloud Fin Hlen u v ltac:(lia) Hv) as (w & (x & A & ->) & F' & _ & E). rewrite E in L.
      assert (N := Num _ _ _ A). rewrite (S x N) in *. exists x. split; [exact A|]. rewrite place_number in L by exact N. rewrite rank_ltb; auto. now apply Z.ltb_lt.
  Qed.
  Theorem indexed_text t : own_line argv "distMatrix.neighGraph.rips.persistence" "indSimplexTree" d e f o -> value argv "twist" t ->
    let single := dd = 1%Z /\ t <> "true"%string /\ one_closer_pair cloud eps in
    (single -> program = Ok [((o ++ ".csv")%string, line "dimension,birth,death" ++ line "curIndex,index,dim,birth,death" ++ whole_lives (length cloud) eps)]) /\
    (~ single -> program = UB).
  Proof.
    intros Hl Ht single. destruct (own_args _ _ _ _ _ _ _ Hl) as (m & Pa & V & _). destruct points as (Hp & Hn & Fin).
    unfold lhf_texts. rewrite Pa. cbn [bind]. replace (nan_place (opt (setPipeline m) "complexType")) with (nan_at Tree) by (unfold opt; now rewrite (V _ _ (ol_complex _ _ _ _ _ _ _ Hl))).
    destruct (C87_persistence_on_indexed_tree (coded_dist d_square (nan_at Tree)) d_atoi d_atof srt past_end nc0 al_reduce one d_stod file stopped pre_run pre_stats uaf
      argv d e f o t _ Hs (coded_dist_pos d_square Tree square_squares) ltac:(now rewrite dims) Hl Ht Hp Hn) as [G B]. rewrite dims, (proj1 eps_rank) in *.
    assert (I : one_pair_off_zero (coded_dist d_square (nan_at Tree)) data (rank eps) <-> one_closer_pair cloud eps).
    { unfold one_pair_off_zero, one_closer_pair. split.
      - intros (u & v & H0 & H1 & H2 & H3 & U). exists u, v. split; [exact H0|]. split; [now apply closer_place|]. intros u' v' C. apply closer_place in C as (C1 & C2 & C3). auto.
      - intros (u & v & H0 & C & U). apply closer_place in C as (C1 & C2 & C3). exists u, v. do 4 (split; [assumption|]). intros u' v' D1 D2 D3. apply U, closer_place. auto. }
    unfold single. rewrite <- I. split.
    - intros H. destruct (G H) as (q & _ & K & ->). cbn [bind]. unfold barcode_file. rewrite (proj2 (String.eqb_neq _ _) Ho). cbn [map fst snd]. rewrite map_length.
      destruct (pk_stats q) as [|[[k1 a1] b1] [|[[k2 a2] b2] [|[[k3 a3] b3] [|[[k4 a4] b4] [|? ?]]]]]; try discriminate. cbn in K. injection K as -> -> -> ->.
      unfold output_text. cbn [fold_left betti_text fst]. do 3 f_equal. unfold barcode_header, line. f_equal. rewrite <- List.app_assoc. cbn [app]. do 2 f_equal. apply pair_lines.
    - intros H. now rewrite (B H).
  Qed.
End Run.
