(* AllRuns.v -- runs of the program with all its pipes. *)
From Coq Require Import String Ascii List Arith ZArith Bool Lia.
From Verif Require Import Base UtilsModel RunMonad ArrayListModel TreeModel FastModel ArgModel IoModel GaussModel IndModel TwistModel PipeModel WindowModel MainModel AllModel.
From Verif Require Import Spec SpecIo SpecComplex SpecTree SpecArgs SpecGraph SpecFast SpecPipe SpecWindow SpecMain SpecAll.
From Verif Require Import ArgProofs IoProofs WindowProofs SlidingProofs MainProofs MainRuns.
Import ListNotations.
Local Open Scope nat_scope.
Local Open Scope list_scope.

Lemma window_args argv modes P d e f o :
  In (modes, P) [(["naive"; "naivewindow"], "naivewindow"); (["sw"; "slidingwindow"], "slidingwindow")]%string ->
  window_line argv modes d e f o -> exists m, parse argv = Ok m /\
  let args := setPipeline m in tree_options args d e /\ mget args "pipeline" = Some P /\ mget args "preprocessor" = Some ""%string /\
  mget args "inputFile" = Some f /\ mget args "outputFile" = Some o /\ mget args "twist" <> None /\
  opt args "upscale" <> "true"%string /\ opt args "mode" <> "reduced"%string.
Proof.
  intros HP [Hc (mode & Hm & Im) (a & Ha & Na) Hp Hd He Hi Ho]. destruct (complete_parse argv Hc) as (m & Pa). exists m. split; auto. intros args.
  assert (Vm := fun l v => value_mget argv m l v Pa). assert (HO := parse_has_options argv m Pa : has_options m).
  assert (G : exists q, applies m (Some q) /\ q = mkPlan P (Always "") (Always "false") (Always "simplexTree")).
  { exists (mkPlan P (Always "") (Always "false") (Always "simplexTree")). split; [|reflexivity].
    right. right. split; [rewrite (Vm _ _ Ha); congruence|]. split; [now apply Vm|]. exists mode. split; [now apply Vm|]. left.
    eexists. split; [|reflexivity]. cbn in HP. destruct HP as [HP|[HP|[]]]; inversion HP; subst modes P; cbn in Im; destruct Im as [<-|[<-|[]]]; cbn; auto 12. }
  destruct G as (q & Ap & ->). assert (S1 := setPipeline_spec m _ HO Ap). cbn beta iota in S1. fold args in S1.
  assert (Md : mget m "mode" <> Some "reduced"%string).
  { rewrite (Vm _ _ Hm). cbn in HP. destruct HP as [HP|[HP|[]]]; inversion HP; subst modes P; cbn in Im; destruct Im as [<-|[<-|[]]]; discriminate. }
  unfold opt. rewrite !S1. unfold planned. cbn. rewrite (Vm _ _ Hi), (Vm _ _ Ho).
  split; [constructor; rewrite ?S1; unfold planned; cbn; auto|]. repeat split; auto; try discriminate.
  - apply HO. do 2 eexists. unfold options. do 14 right. left. reflexivity.
  - destruct (mget m "mode"); congruence.
Qed.

Section Program.
  Variable dist : list Z -> list Z -> Z.
  Variables atoi atof : string -> Z.
  Variable srt : list wsimp -> list wsimp.
  Variable past_end : list nat -> nat -> res nat.
  Variable nc0 : Z.
  Variable al_reduce : wgraph -> res wgraph.
  Variable pipes : pipe_kind -> amap -> packet -> res packet.
  Variable pre_run : pre_kind -> amap -> packet -> res packet.
  Variable pre_stats : pre_kind -> packet -> res packet.
  Variable uaf : res unit.
  Variable stod : text -> option Z.
  Variable file : string -> option text.
  Notation pipeline := (runPipeline packet (run_pipe dist atoi atof srt past_end al_reduce pipes) add_stats).
  Notation program := (lhf dist atoi atof srt past_end nc0 al_reduce pipes pre_run pre_stats uaf stod file).
  (* The program on a command line that leads to one run without preprocessor. *)
  Lemma one_run_of argv m P f o data : parse argv = Ok m -> let args := setPipeline m in
    mget args "pipeline" = Some P -> mget args "preprocessor" = Some ""%string -> mget args "inputFile" = Some f -> mget args "outputFile" = Some o ->
    opt args "upscale" <> "true"%string -> opt args "mode" <> "reduced"%string ->
    (if String.eqb P "slidingwindow" then data = [] else readCSV Z stod (file f) = Some data /\ data <> []) ->
    program argv = do p <- new_packet atoi atof nc0 args data; do r <- pipeline args p;
      match r with Some (q, _) => Ok (Ran q (barcode_file o (pk_output q))) | None => UB end.
  Proof.
    intros Pa args Pl Pre Fi Fo Up Md Hdata. unfold lhf. rewrite Pa. cbn [bind]. fold args. unfold new_packet.
    destruct (newSimplex atoi atof nc0 (opt args "complexType") args) as [cx0|]; [|reflexivity]. cbn [bind].
    replace (opt args "pipeline") with P by (unfold opt; now rewrite Pl). replace (opt args "inputFile") with f by (unfold opt; now rewrite Fi).
    assert (X : (if String.eqb P "slidingwindow" then Some [] else readCSV Z stod (file f)) = Some data /\ ((0 <? length data) || String.eqb P "slidingwindow")%bool = true).
    { destruct (String.eqb P "slidingwindow"); [subst data; auto|]. destruct Hdata as [R N]. split; auto. destruct data; [easy|reflexivity]. }
    destruct X as [-> ->]. rewrite (proj2 (String.eqb_neq _ _) Up), (proj2 (String.eqb_neq _ _) Md). unfold processData, preprocess, mread. rewrite Pre. cbn [fst].
    change (String.eqb "" "") with true. cbn [bind]. unfold run_and_write.
    assert (W : writes_output args = negb (String.eqb o "console")). { unfold writes_output. now rewrite Pl, Fo. }
    rewrite W. replace (opt args "outputFile") with o by (unfold opt; now rewrite Fo).
    destruct (pipeline args _) as [[[q fl]|]|] eqn:E; cbn [bind fst snd]; auto.
    - unfold barcode_file. now destruct (String.eqb o "console").
    - exfalso. unfold runPipeline in E. rewrite Pl in E. destruct (pipeline_loop _ _ _ _ _ _ _ _); discriminate.
  Qed.

  (* A pipeline of one component. *)
  Lemma single_pipe_of args P k p : mget args "pipeline" = Some P -> count_char "." P = 0 -> newPipe P (fst (mread args "complexType")) = Some k ->
    (forall o, In o (pipe_required k) -> mget args o <> None) -> find_char "." P = None ->
    pipeline args p = do q <- run_pipe dist atoi atof srt past_end al_reduce pipes k args p; do q' <- add_stats k q; Ok (Some (q', [])).
  Proof.
    intros Pl C K R F. unfold runPipeline. rewrite Pl, C. cbn [Nat.add pipeline_loop]. unfold curFunct. rewrite F. unfold run_component. rewrite K.
    assert (Q : forallb (has_key args) (pipe_required k) = true).
    { apply forallb_forall. intros o Ho. specialize (R o Ho). unfold has_key. now destruct (mget args o). }
    unfold configPipe. rewrite Q. unfold runPipeWrapper. cbn [negb].
    destruct (run_pipe _ _ _ _ _ _ _ k args p) as [q|]; [|reflexivity]. cbn [bind]. destruct (add_stats k q) as [q'|]; reflexivity.
  Qed.
End Program.

Section All.
  Variable dist : list Z -> list Z -> Z.
  Variables atoi atof : string -> Z.
  Variable srt : list wsimp -> list wsimp.
  Variable past_end : list nat -> nat -> res nat.
  Variable nc0 : Z.
  Variable al_reduce : wgraph -> res wgraph.
  Variable one : Z.
  Variable stod : text -> option Z.
  Variable file : string -> option text.
  Variable stopped : res packet.
  Variable pre_run : pre_kind -> amap -> packet -> res packet.
  Variable pre_stats : pre_kind -> packet -> res packet.
  Variable uaf : res unit.
  Notation pipes := (all_pipes dist atoi atof srt past_end al_reduce one stod file stopped).
  Notation pipeline := (runPipeline packet (run_pipe dist atoi atof srt past_end al_reduce pipes) add_stats).
  Notation program := (lhf_all dist atoi atof srt past_end nc0 al_reduce one stod file stopped pre_run pre_stats uaf).

  Lemma streams_file f rows : stod_ignores_newline stod -> streams stod file f rows ->
    stream_of_file stod file f = Some (Some rows) /\ (forall x, In x rows -> x <> []).
  Proof.
    intros Hn (lines & t & E & F & En).
    assert (St : stream_rows Z stod (S (length (lines_of lines ++ t))) (lines_of lines ++ t) = Some rows).
    { apply (stream_rows_spec Z stod Hn); auto. rewrite List.app_length.
      assert (L : length lines <= length (lines_of lines)); [|lia].
      clear. induction lines as [|x l IH]; [auto|]. unfold lines_of in *. cbn [flat_map]. rewrite !List.app_length. cbn [length]. lia. }
    unfold stream_of_file. rewrite E, St. split; [reflexivity|]. intros x. apply (stream_rows_nonempty Z stod _ _ _ St).
  Qed.

  (* The program on a command line that leads to one run without preprocessor. *)
  Lemma one_run argv m P f o data : parse argv = Ok m -> let args := setPipeline m in
    mget args "pipeline" = Some P -> mget args "preprocessor" = Some ""%string -> mget args "inputFile" = Some f -> mget args "outputFile" = Some o ->
    opt args "upscale" <> "true"%string -> opt args "mode" <> "reduced"%string ->
    (if String.eqb P "slidingwindow" then data = [] else readCSV Z stod (file f) = Some data /\ data <> []) ->
    program argv = do p <- new_packet atoi atof nc0 args data; do r <- pipeline args p;
      match r with Some (q, _) => Ok (Ran q (barcode_file o (pk_output q))) | None => UB end.
  Proof. exact (one_run_of dist atoi atof srt past_end nc0 al_reduce pipes pre_run pre_stats uaf stod file argv m P f o data). Qed.

  (* A pipeline of one component. *)
  Lemma single_pipe args P k p : mget args "pipeline" = Some P -> count_char "." P = 0 -> newPipe P (fst (mread args "complexType")) = Some k ->
    (forall o, In o (pipe_required k) -> mget args o <> None) -> find_char "." P = None ->
    pipeline args p = do q <- run_pipe dist atoi atof srt past_end al_reduce pipes k args p; do q' <- add_stats k q; Ok (Some (q', [])).
  Proof. exact (single_pipe_of dist atoi atof srt past_end al_reduce pipes args P k p). Qed.

  (* The pipes that the mode naive runs on the way: one complex is built, from the first 50 vectors. *)
  Notation kinds p := (map (fun x => fst (fst x)) (pk_stats p)).
  Lemma add_stats_kinds k p q : add_stats k p = Ok q -> kinds q = kinds p ++ [k].
  Proof. unfold add_stats. destruct (deref p); cbn [bind]; [|discriminate]. intros [= <-]. cbn [pk_stats]. now rewrite map_app. Qed.
  Lemma distMatrix_stats args p q : run_distMatrix dist atof args p = Ok q -> pk_stats q = pk_stats p /\ pk_data q = pk_data p.
  Proof.
    unfold run_distMatrix. destruct (distMatrix_run _ _ _ _ _ _); cbn [bind]; [|discriminate]. destruct (deref p); cbn [bind]; [|discriminate].
    intros [= <-]. split; reflexivity.
  Qed.
  Lemma neighGraph_stats args p q : run_neighGraph args p = Ok q -> pk_stats q = pk_stats p.
  Proof.
    unfold run_neighGraph. generalize (pk_data p) at 1. intros l. revert p. induction l as [|v l IH]; intros p; cbn [foldr_ub]; [intros [= ->]; reflexivity|].
    destruct v as [|a v]; cbn [bind]; [apply IH|]. destruct (deref p) as [c|]; cbn [bind]; [|discriminate].
    destruct (cx_insert (a :: v) c) as [c'|]; cbn [bind]; [|discriminate]. intros H. now rewrite (IH _ H).
  Qed.
  Lemma naive_kinds args d e rows : mget args "dimensions" = Some d -> mget args "epsilon" = Some e -> forall s n s',
    foldr_ub (naive_step dist atoi atof srt past_end al_reduce args) s rows = Ok s' ->
    length (nw_window s) = Nat.min 50 n -> kinds (nw_packet s) = (if n <? 50 then [] else [KDistMatrix; KNeighGraph]) ->
    kinds (nw_packet s') = (if n + length rows <? 50 then [] else [KDistMatrix; KNeighGraph]).
  Proof.
    intros Hd He. induction rows as [|v rows IH]; intros s n s'; cbn [foldr_ub].
    - intros [= <-] _ K. now rewrite Nat.add_0_r.
    - destruct (naive_step _ _ _ _ _ _ args s v) as [s1|] eqn:E; cbn [bind]; [|discriminate]. intros H L K.
      replace (n + length (v :: rows)) with (S n + length rows) by (cbn [length]; lia). apply (IH s1 (S n) s' H); clear H IH.
      + unfold naive_step in E. revert E. destruct (length (nw_window s) <? 50) eqn:B.
        * apply Nat.ltb_lt in B. destruct (length (nw_window s ++ [v]) =? 50).
          -- destruct (sub_pipeline _ _ _ _ _ _ _ _ _) as [p|]; cbn [bind]; [|discriminate]. destruct (deref p); cbn [bind]; [|discriminate].
             destruct (_ && _); [destruct (report_of _ _); cbn [bind]; [|discriminate]|]; intros [= <-]; cbn [nw_window]; rewrite List.app_length; cbn [length]; lia.
          -- cbn [bind]. destruct (_ && _); [destruct (report_of _ _); cbn [bind]; [|discriminate]|]; intros [= <-]; cbn [nw_window]; rewrite List.app_length; cbn [length]; lia.
        * apply Nat.ltb_ge in B. destruct (deref (nw_packet s)) as [c|]; cbn [bind]; [|discriminate].
          destruct (naive_insertIterative c); cbn [bind]; (destruct (_ && _); [destruct (report_of _ _); cbn [bind]; [|discriminate]|]); intros [= <-]; cbn [nw_window];
            [| |lia|lia]; (destruct (nw_window s) as [|w0 w]; [cbn in *; lia|]); cbn [tl length] in *; rewrite List.app_length; cbn [length]; lia.
      + unfold naive_step in E. revert E. destruct (length (nw_window s) <? 50) eqn:B.
        * apply Nat.ltb_lt in B. assert (N : n < 50) by lia. rewrite (proj2 (Nat.ltb_lt n 50) N) in K. rewrite List.app_length. cbn [length].
          destruct (length (nw_window s) + 1 =? 50) eqn:C.
          -- apply Nat.eqb_eq in C. replace (S n <? 50) with false by (symmetry; apply Nat.ltb_ge; lia).
             rewrite (build_parts dist atoi atof srt past_end al_reduce args d e Hd He) by (cbn [set_data pk_data]; destruct (nw_window s); discriminate).
             destruct (run_distMatrix dist atof args _) as [p1|] eqn:E1; cbn [bind]; [|discriminate]. destruct (distMatrix_stats _ _ _ E1) as [S1 _].
             destruct (add_stats KDistMatrix p1) as [p2|] eqn:E2; cbn [bind]; [|discriminate]. apply add_stats_kinds in E2.
             destruct (run_neighGraph args p2) as [p3|] eqn:E3; cbn [bind]; [|discriminate]. apply neighGraph_stats in E3.
             destruct (add_stats KNeighGraph p3) as [p4|] eqn:E4; cbn [bind]; [|discriminate]. apply add_stats_kinds in E4.
             assert (Q : kinds p4 = [KDistMatrix; KNeighGraph]) by (rewrite E4, E3, E2, S1; cbn [set_data pk_stats]; now rewrite K).
             destruct (deref p4); cbn [bind]; [|discriminate].
             destruct (_ && _); [destruct (report_of _ _); cbn [bind]; [|discriminate]|]; intros [= <-]; exact Q.
          -- apply Nat.eqb_neq in C. replace (S n <? 50) with true by (symmetry; apply Nat.ltb_lt; lia). cbn [bind].
             destruct (_ && _); [destruct (report_of _ _); cbn [bind]; [|discriminate]|]; intros [= <-]; exact K.
        * apply Nat.ltb_ge in B. replace (n <? 50) with false in K by (symmetry; apply Nat.ltb_ge; lia). replace (S n <? 50) with false by (symmetry; apply Nat.ltb_ge; lia).
          destruct (deref (nw_packet s)) as [c|]; cbn [bind]; [|discriminate].
          destruct (naive_insertIterative c); cbn [bind]; (destruct (_ && _); [destruct (report_of _ _); cbn [bind]; [|discriminate]|]); intros [= <-]; exact K.
  Qed.
  Lemma naive_run_kinds args d e rows p p' w reps : mget args "dimensions" = Some d -> mget args "epsilon" = Some e -> pk_stats p = [] -> 50 <= length rows ->
    naive_run dist atoi atof srt past_end al_reduce args (Some rows) p = Ok (p', w, reps) -> kinds p' = [KDistMatrix; KNeighGraph].
  Proof.
    intros Hd He S0 L. unfold naive_run. destruct (foldr_ub _ _ rows) as [s|] eqn:E; cbn [bind]; [|discriminate].
    apply (naive_kinds args d e rows Hd He _ 0) in E; [|reflexivity|cbn [nw_packet]; now rewrite S0].
    replace (0 + length rows <? 50) with false in E by (symmetry; apply Nat.ltb_ge; lia).
    destruct (negb _); [destruct (report_of _ _); cbn [bind]; [|discriminate]|cbn [bind]];
      (destruct (deref (nw_packet s)); cbn [bind]; [|discriminate]); intros [= <- _ _]; exact E.
  Qed.

  Theorem naive_mode argv d e f o data rows :
    is_sort srt -> (forall x y, (0 <= dist x y)%Z) -> (0 < atoi d < 2 ^ 31 - 1)%Z -> stod_ignores_newline stod ->
    window_line argv ["naive"; "naivewindow"]%string d e f o -> holds_points stod file f data -> data <> [] -> streams stod file f rows ->
    exists q, program argv = Ok (Ran q (barcode_file o [])) /\
      (length rows < 50 -> pk_data q = data /\ pk_stats q = [(KNaiveWindow, 0%Z, nc0)]) /\
      (50 <= length rows -> pk_data q = firstn 50 (skipn (100 * (length rows / 100) - 50) rows) /\
         exists c, pk_complex q = Some c /\ holds_rips srt dist (firstn 50 rows) (atof e) (atoi d) nc0 c /\
           exists before, pk_stats q = before ++ [(KNaiveWindow, 50%Z, cx_simplexCount c)] /\ map (fun x => fst (fst x)) before = [KDistMatrix; KNeighGraph]).
  Proof.
    intros Hs Hpos Hd Hn Hl Hf Hne St. destruct (window_args argv _ "naivewindow" d e f o (or_introl eq_refl) Hl) as (m & Pa & To & Pl & Pre & Fi & Fo & Tw & Up & Md).
    rewrite (one_run argv m "naivewindow" f o data Pa Pl Pre Fi Fo Up Md (conj (holds_reads _ _ _ _ Hf) Hne)). set (args := setPipeline m) in *.
    destruct (streams_file f rows Hn St) as [Sf Nr]. assert (To' := To). destruct To' as [T1 T2 T3].
    assert (Np : exists p, new_packet atoi atof nc0 args data = Ok p /\ pk_stats p = [] /\ pk_data p = data /\ pk_complex p = Some (CTree (atof e) (atoi d) (st_new [] nc0))).
    { unfold new_packet, newSimplex, opt. rewrite T1, T2, T3. eexists. split; [reflexivity|]. repeat split. }
    destruct Np as (p & Np & Sp & Dp & Cp). rewrite Np. cbn [bind].
    rewrite (single_pipe args "naivewindow" KNaiveWindow p Pl eq_refl ltac:(unfold mread; rewrite T1; reflexivity)); [|intros k [<-|[<-|[]]]; congruence|reflexivity].
    cbn [run_pipe all_pipes]. replace (opt args "inputFile") with f by (unfold opt; now rewrite Fi). rewrite Sf.
    destruct (naive_tree dist atoi atof srt past_end al_reduce Hs Hpos args d e nc0 data p rows To Hd Np Nr) as (p' & reps & E & Oq & _ & S1 & S2).
    rewrite E. cbn [bind fst]. unfold add_stats. 
    assert (C : exists c, pk_complex p' = Some c).
    { destruct (Nat.lt_ge_cases (length rows) 50) as [L|L]; [rewrite (S1 L); eauto|destruct (S2 L) as (_ & c & Ec & _); eauto]. }
    destruct C as (c & C). unfold deref. rewrite C. cbn [bind]. eexists. split; [rewrite <- Oq at 1; cbn [pk_output]; reflexivity|].
    split.
    - intros L. assert (p' = p) by auto. subst p'. rewrite Cp in C. injection C as <-. cbn [pk_data pk_stats]. rewrite Sp, Dp. split; reflexivity.
    - intros L. destruct (S2 L) as (D & c' & C' & H & _). rewrite C in C'. injection C' as <-. cbn [pk_data pk_complex pk_stats]. split; [exact D|].
      exists c. split; [first [exact C|reflexivity]|]. split; [exact H|]. exists (pk_stats p'). split; [destruct H as (_ & -> & _); rewrite firstn_length_le by auto; reflexivity|].
      exact (naive_run_kinds args d e rows p p' _ _ T2 T3 Sp L E).
  Qed.

  Theorem sliding_mode argv d e f o : stod_ignores_newline stod ->
    window_line argv ["sw"; "slidingwindow"]%string d e f o ->
    (file f = None -> exists q, program argv = Ok (Ran q (barcode_file o [])) /\ pk_stats q = [(KSlidingWindow, 0%Z, nc0)]) /\
    (forall rows, streams stod file f rows ->
      (length rows < 200 -> exists q, program argv = Ok (Ran q (barcode_file o [])) /\ pk_stats q = [(KSlidingWindow, 0%Z, nc0)]) /\
      (200 <= length rows -> is_sort srt -> (forall x y, (0 <= dist x y)%Z) -> (0 < atoi d < 2 ^ 31 - 1)%Z ->
       let first := firstn 200 rows in
       let close_pair := exists u v, u < v /\ v < 200 /\ (separation dist first u v < atof e)%Z in
       exists idx nn, length idx = 200 /\ length nn = 200 /\ (forall i, i < 200 -> nearest_other dist first i (nth i idx 0) (nth i nn 0%Z)) /\
         let quiet := forall x, In x (skipn 200 rows) -> turned_away dist first one nn x in
         (length rows = 200 \/ (quiet /\ ~ close_pair) ->
            exists q c, program argv = Ok (Ran q (barcode_file o [])) /\ pk_data q = first /\
              pk_complex q = Some c /\ holds_rips srt dist first (atof e) (atoi d) nc0 c) /\
         (200 < length rows -> ~ (quiet /\ ~ close_pair) -> program argv = UB))).
  Proof.
    intros Hn Hl. destruct (window_args argv _ "slidingwindow" d e f o (or_intror (or_introl eq_refl)) Hl) as (m & Pa & To & Pl & Pre & Fi & Fo & Tw & Up & Md).
    rewrite (one_run argv m "slidingwindow" f o [] Pa Pl Pre Fi Fo Up Md eq_refl). set (args := setPipeline m) in *.
    assert (To' := To). destruct To' as [T1 T2 T3].
    assert (Np : exists p, new_packet atoi atof nc0 args [] = Ok p /\ pk_stats p = [] /\ pk_output p = [] /\ pk_complex p = Some (CTree (atof e) (atoi d) (st_new [] nc0))).
    { unfold new_packet, newSimplex, opt. rewrite T1, T2, T3. eexists. split; [reflexivity|]. repeat split. }
    destruct Np as (p & Np & Sp & Op & Cp). rewrite Np. cbn [bind].
    rewrite (single_pipe args "slidingwindow" KSlidingWindow p Pl eq_refl ltac:(unfold mread; rewrite T1; reflexivity)); [|intros k [<-|[<-|[]]]; congruence|reflexivity].
    cbn [run_pipe all_pipes]. replace (opt args "inputFile") with f by (unfold opt; now rewrite Fi).
    assert (Same : exists q, (do q <- Ok p; do q' <- add_stats KSlidingWindow q; Ok (Some (q', @nil string))) = Ok (Some (q, [])) /\ pk_output q = [] /\ pk_stats q = [(KSlidingWindow, 0%Z, nc0)]).
    { cbn [bind]. unfold add_stats, deref. rewrite Cp. cbn [bind]. eexists. split; [reflexivity|]. cbn [pk_output pk_stats]. rewrite Sp. split; [exact Op|reflexivity]. }
    destruct Same as (q0 & Eq0 & Oq0 & Sq0). cbn [bind] in Eq0. split.
    - intros F. unfold stream_of_file. rewrite F. unfold sliding_run, sliding_run_with. cbn [bind fst]. rewrite Eq0. cbn [bind]. rewrite Oq0. eauto.
    - intros rows St. destruct (streams_file f rows Hn St) as [Sf Nr]. rewrite Sf. split.
      + intros L. destruct (sliding_short dist atoi atof srt past_end al_reduce one args d e nc0 To p Np rows L) as (st & ->).
        cbn [bind fst]. rewrite Eq0. cbn [bind]. rewrite Oq0. eauto.
      + intros L Hs Hpos Hd.
        destruct (sliding_long dist atoi atof srt past_end al_reduce Hs Hpos one args d e nc0 To Tw Hd p Np rows Nr L)
          as (idx & nn & L1 & L2 & N & G & B).
        exists idx, nn. split; [exact L1|]. split; [exact L2|]. split; [exact N|]. split.
        * intros H. destruct (G H) as (p' & st & reports & c & E & C & R & O & D & _). rewrite E. cbn [bind fst]. unfold add_stats, deref. rewrite C. cbn [bind].
          do 2 eexists. split; [rewrite <- O; reflexivity|]. cbn [pk_data pk_complex]. auto.
        * intros L3 H. rewrite (B L3 H). reflexivity.
  Qed.
End All.
