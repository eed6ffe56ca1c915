(* StreamLinkRuns.v -- the whole program with streaming k-means and DenStream. *)
From Coq Require Import String Ascii List Arith ZArith Qcanon Bool Lia Sorted Permutation Relations.
From Verif Require Import Base UtilsModel ArrayListModel TreeModel FastModel ArgModel IoModel PipeModel KdModel DenStreamModel StreamKmModel MainModel StreamLinkModel.
From Verif Require Import Spec SpecIo SpecComplex SpecTree SpecArgs SpecGraph SpecLinear SpecFast SpecPipe SpecMain SpecLink SpecStreamLink.
From Verif Require Import PartitionProofs ArgProofs IoProofs PipeProofs PipeRuns MainProofs MainRuns LinkProofs LinkRuns.
From Verif Require Import SpecKd SpecDenStream DenStreamProofs DenStreamRuns StreamKmProofs.
Import ListNotations.
Local Open Scope nat_scope.
Local Open Scope list_scope.

(* ---- the options *)
Lemma preprocessor_args argv pre m : parse argv = Ok m -> preprocessor_of argv pre -> mget (setPipeline m) "preprocessor" = Some pre.
Proof.
  intros P (given & Hg & H). assert (HO := parse_has_options argv m P : has_options m). assert (Vm := fun l v => value_mget argv m l v P).
  assert (G : exists pl, applies m pl /\ match pl with Some q => chosen (pl_preprocessor q) (Some given) = Some pre | None => pre = given end).
  { destruct H as [(H1 & H2)|[((a & Ha & Na) & (b & Hb & Nb) & H2)|((a & Ha & Na) & Hp & mode & Hm & H2)]].
    - exists (Some mpi_plan). split; [|exact H2]. left. split; [now apply Vm|reflexivity].
    - exists None. split; [|exact H2]. right. left. rewrite (Vm _ _ Ha), (Vm _ _ Hb). repeat split; congruence.
    - destruct H2 as [(q & Hq & H2)|(Nm & H2)].
      + exists (Some q). split; [|exact H2]. right. right. rewrite (Vm _ _ Ha), (Vm _ _ Hp). split; [congruence|]. split; [reflexivity|]. exists mode. split; [now apply Vm|]. left. eauto.
      + exists None. split; [|exact H2]. right. right. rewrite (Vm _ _ Ha), (Vm _ _ Hp). split; [congruence|]. split; [reflexivity|]. exists mode. split; [now apply Vm|]. right. auto. }
  destruct G as (pl & Ap & C). assert (S1 := setPipeline_spec m pl HO Ap). destruct pl as [q|]; cbn beta iota in S1; rewrite S1.
  - unfold planned. cbn. rewrite (Vm _ _ Hg). exact C.
  - rewrite (Vm _ _ Hg). now subst.
Qed.
Lemma option_kept argv m k : parse argv = Ok m -> In k ["clusters"; "iterations"; "epsilon"; "lambda"]%string -> mget (setPipeline m) k <> None.
Proof.
  intros P H. assert (HO := parse_has_options argv m P : has_options m). rewrite args_keep; auto.
  - apply HO. cbn in H. repeat (destruct H as [<-|H]; [do 2 eexists; unfold options; cbn; tauto|]). destruct H.
  - cbn in H |- *. intros K. repeat (destruct H as [<-|H]; [repeat (destruct K as [K|K]; [discriminate|]); exact K|]). exact H.
Qed.
Lemma chosen_preprocess pre_run pre_stats argv m pre k p : parse argv = Ok m -> mget (setPipeline m) "preprocessor" = Some pre -> In (pre, k) pre_names -> k <> KNoPreprocessor ->
  preprocess packet pre_run pre_stats (setPipeline m) p = do q <- pre_run k (setPipeline m) p; pre_stats k q.
Proof.
  intros P Hp Hn Hk. unfold preprocess, mread. rewrite Hp. cbn [fst]. rewrite (proj2 (newPreprocessor_spec pre k) Hn).
  assert (pre <> ""%string) by (intros ->; cbn in Hn; repeat (destruct Hn as [Hn|Hn]; [discriminate|]); exact Hn).
  rewrite (proj2 (String.eqb_neq pre "") H).
  assert (C : configPreprocessor k (setPipeline m) = (true, true)).
  { unfold configPreprocessor. assert (F : forallb (has_key (setPipeline m)) (pre_required k) = true).
    { apply forallb_forall. intros o Ho. unfold has_key. assert (mget (setPipeline m) o <> None); [|now destruct (mget (setPipeline m) o)].
      apply (option_kept argv m o P). destruct k; cbn in Ho |- *; intuition. }
    rewrite F. destruct k; easy. }
  rewrite C. reflexivity.
Qed.

Section Whole.
  Variable dist : list Z -> list Z -> Z.
  Variables atoi atof : string -> Z.
  Variable srt : list wsimp -> list wsimp.
  Variable past_end : list nat -> nat -> res nat.
  Variable nc0 : Z.
  Variable al_reduce : wgraph -> res wgraph.
  Variable other : pipe_kind -> amap -> packet -> res packet.
  Variable pre_run : pre_kind -> amap -> packet -> res packet.
  Variable pre_stats : pre_kind -> packet -> res packet.
  Variable uaf : res unit.
  Variable stod : text -> option Z.
  Variable file : string -> option text.
  Notation lhf := (lhf dist atoi atof srt past_end nc0 al_reduce other pre_run pre_stats uaf stod file).

  (* a preprocessor without result *)
  Lemma no_result argv pre k f data : complete_line argv -> preprocessor_of argv pre -> In (pre, k) pre_names -> k <> KNoPreprocessor ->
    value argv "inputFile" f -> holds_points stod file f data -> data <> [] ->
    (forall args p, pk_data p = data \/ pk_data p = [] -> pre_run k args p = UB) -> lhf argv = UB.
  Proof.
    intros Hc Hp Hn Hk Hi Hf Hne U. destruct (complete_parse argv Hc) as (m & P). assert (Pp := fun p => chosen_preprocess pre_run pre_stats argv m pre k p P (preprocessor_args argv pre m P Hp) Hn Hk).
    assert (Fi : mget (setPipeline m) "inputFile" = Some f). { rewrite args_keep; [exact (value_mget argv m _ _ P Hi)|exact (parse_has_options argv m P : has_options m)|]. cbn. intros K. repeat (destruct K as [K|K]; [discriminate|]). exact K. }
    unfold MainModel.lhf. rewrite P. cbn [bind]. set (args := setPipeline m) in *.
    destruct (newSimplex atoi atof nc0 (opt args "complexType") args) as [cx0|]; [|reflexivity]. cbn [bind].
    replace (opt args "inputFile") with f by (unfold opt; now rewrite Fi). rewrite (holds_reads _ _ _ _ Hf).
    destruct (String.eqb (opt args "pipeline") "slidingwindow").
    - cbn [length orb]. change (0 <? 0) with false. cbn [orb].
      assert (E : preprocess packet pre_run pre_stats args (mkPacket [] [] [] [] cx0 [] [] []) = UB) by (rewrite Pp, U; [reflexivity|now right]).
      unfold processUpscaleWrapper, processReducedWrapper, reduced_with, processData. rewrite E. cbn [bind].
      destruct (String.eqb (opt args "upscale") "true"); [reflexivity|]. destruct (String.eqb (opt args "mode") "reduced"); reflexivity.
    - replace (0 <? length data) with true by (symmetry; apply Nat.ltb_lt; destruct data; [easy|cbn; lia]). cbn [orb].
      assert (E : preprocess packet pre_run pre_stats args (mkPacket data [] data [] cx0 [] [] []) = UB) by (rewrite Pp, U; [reflexivity|now left]).
      unfold processUpscaleWrapper, processReducedWrapper, reduced_with, processData. rewrite E. cbn [bind].
      destruct (String.eqb (opt args "upscale") "true"); [reflexivity|]. destruct (String.eqb (opt args "mode") "reduced"); reflexivity.
  Qed.

  (* one run of the default pipeline on what the preprocessor leaves *)
  Lemma run_after argv pre k c d e f o data labels cs : is_sort srt -> (forall x y, (0 <= dist x y)%Z) -> (0 < atoi d < 2 ^ 31 - 1)%Z ->
    one_run_line argv pre c d e f o -> In (pre, k) pre_names -> k <> KNoPreprocessor -> holds_points stod file f data -> data <> [] ->
    (forall args cx, opt args "epsilon" = e -> (do q <- pre_run k args (mkPacket data [] data [] cx [] [] []); pre_stats k q) = Ok (mkPacket cs labels data [] cx [] [] [])) ->
    (forall x, In x cs -> x <> []) ->
    (cs <> [] -> forall r, lhf argv = Ok r ->
       exists q deaths, r = Ran q (if String.eqb o "console" then [] else [((o ++ ".csv")%string, pk_output q)]) /\
         dim0 (pk_output q) = map (fun w => (0, 0%Z, w)) deaths ++ [(0, 0%Z, atof e)] /\
         forall t n, clusters dist cs c (atof e) t n <-> count_le t deaths + n = length cs) /\
    (cs <> [] -> ~ (exists u v, u < v /\ v < length cs /\ close c (atof e) (separation dist cs u v)) -> lhf argv = UB) /\
    ((exists u v, u < v /\ v < length cs /\ close c (atof e) (separation dist cs u v)) -> past_end = libstdcxx_past_end ->
       exists r, lhf argv = Ok r) /\
    (cs = [] -> exists q, lhf argv = Ok (Ran q (if String.eqb o "console" then [] else [((o ++ ".csv")%string, [])]))).
  Proof.
    intros Hs Hpos Hd Hl Hn Hk Hf Hne Pr Hrow. destruct (line_args _ _ _ _ _ _ _ Hl) as (m & P & Dr & Pre & Fi & Fo & Up & Md).
    assert (Pp := fun p => chosen_preprocess pre_run pre_stats argv m pre k p P Pre Hn Hk). set (args := setPipeline m) in *. assert (Pl := dr_pipeline _ _ _ _ Dr).
    assert (Ee : opt args "epsilon" = e) by (unfold opt; now rewrite (dr_eps _ _ _ _ Dr)).
    assert (W : writes_output args = negb (String.eqb o "console")). { unfold writes_output. now rewrite Pl, Fo. }
    assert (E : lhf argv =
                  do r <- run_program dist atoi atof srt past_end nc0 al_reduce other args cs;
                  match r with
                  | Some (q, _) => Ok (Ran (relabel labels data q) (if String.eqb o "console" then [] else [((o ++ ".csv")%string, pk_output q)]))
                  | None => UB
                  end).
    { unfold MainModel.lhf. rewrite P. cbn [bind]. fold args. unfold run_program, new_packet. destruct (newSimplex atoi atof nc0 (opt args "complexType") args) as [cx0|]; [|reflexivity]. cbn [bind].
      replace (String.eqb (opt args "pipeline") "slidingwindow") with false by (unfold opt; rewrite Pl; reflexivity).
      replace (opt args "inputFile") with f by (unfold opt; now rewrite Fi). rewrite (holds_reads _ _ _ _ Hf).
      replace (0 <? length data) with true by (symmetry; apply Nat.ltb_lt; destruct data; [easy|cbn; lia]). cbn [orb].
      rewrite (proj2 (String.eqb_neq _ _) Up), (proj2 (String.eqb_neq _ _) Md). unfold processData. rewrite Pp, (Pr args cx0 Ee). cbn [bind]. unfold run_and_write.
      change (mkPacket cs labels data [] cx0 [] [] []) with (relabel labels data (mkPacket cs [] cs [] cx0 [] [] [])).
      rewrite (relabel_pipeline dist atoi atof srt past_end al_reduce other labels data args c d e _ Dr), W. replace (opt args "outputFile") with o by (unfold opt; now rewrite Fo).
      destruct (runPipeline _ _ _ args _) as [[[q fl]|]|] eqn:Ep; cbn [bind option_map fst snd]; auto.
      - now destruct (String.eqb o "console").
      - exfalso. unfold runPipeline in Ep. rewrite Pl in Ep. destruct (pipeline_loop _ _ _ _ _ _ _ _); discriminate. }
    rewrite E. clear E. split; [|split; [|split]].
    - intros Hcs r H. destruct (run_program dist atoi atof srt past_end nc0 al_reduce other args cs) as [[[q fl]|]|] eqn:Ep; try discriminate. cbn [bind] in H.
      injection H as <-. destruct (default_dim0 dist atoi atof srt past_end nc0 al_reduce other args c d e cs Hs Dr Hrow Hpos Hd q fl Ep Hcs) as (_ & deaths & D1 & D2).
      exists (relabel labels data q), deaths. auto.
    - intros Hcs H. rewrite (proj1 (default_undefined dist atoi atof srt past_end nc0 al_reduce other args c d e cs Hs Dr Hrow Hpos Hd) Hcs H). reflexivity.
    - intros H ->. destruct (proj2 (default_undefined dist atoi atof srt libstdcxx_past_end nc0 al_reduce other args c d e cs Hs Dr Hrow Hpos Hd) (or_intror H)) as (q & ->). cbn [bind]. eauto.
    - intros ->. destruct (default_run_edges dist atoi atof srt past_end nc0 al_reduce other args c d e [] Hs Dr Hrow Hpos Hd) as (edges & finish & C & F & L & E & O). rewrite E.
      assert (T : 1 <= Z.to_nat (top c (atoi d))) by (destruct c; cbn; lia).
      destruct (rips_levels dist [] c (atof e) _ T edges L C) as [_ L0]. assert (L1 := proj2 L0 eq_refl). destruct edges; [|discriminate]. cbn [fp_run bind].
      destruct (O None) as [O1 _]. cbn [result] in O1. injection O1 as O1 _. rewrite O1. eauto.
  Qed.

  (* the reduced mode after a preprocessor that gives no labels *)
  Lemma reduced_after argv pre k d e f o data cs : is_sort srt -> (forall x y, (0 <= dist x y)%Z) -> (0 < atoi d < 2 ^ 31 - 1)%Z ->
    reduced_line argv pre d e f o -> In (pre, k) pre_names -> k <> KNoPreprocessor -> holds_points stod file f data -> data <> [] ->
    (forall args cx, opt args "epsilon" = e -> (do q <- pre_run k args (mkPacket data [] data [] cx [] [] []); pre_stats k q) = Ok (mkPacket cs [] data [] cx [] [] [])) ->
    (forall x, In x cs -> x <> []) -> cs <> [] ->
    (uaf = UB -> lhf argv = UB) /\
    (forall r, lhf argv = Ok r -> exists q F, r = Ran q (if String.eqb o "console" then [] else [((o ++ ".csv")%string, pk_output q)]) /\
       spanning_forest dist cs (atof e) F /\ ends_at dist cs (atof e) F (pk_output q) /\ single_linkage dist cs (atof e) F /\ some_pair dist cs (atof e)).
  Proof.
    intros Hs Hpos Hd Hl Hn Hk Hf Hne Pr Hrow Hcs.
    assert (Np : pre <> ""%string) by (intros ->; cbn in Hn; repeat (destruct Hn as [Hn|Hn]; [discriminate|]); exact Hn).
    assert (exists m, parse argv = Ok m /\ let args := setPipeline m in default_run args Tree d e /\ mget args "preprocessor" = Some pre /\
      mget args "inputFile" = Some f /\ mget args "outputFile" = Some o /\ opt args "upscale" <> "true"%string /\ opt args "mode" = "reduced"%string) as (m & P & Dr & Pre & Fi & Fo & Up & Md).
    { destruct Hl as [Hc Hm (a & Ha & Na) Hp Hpre (z & Hz & Nz) Hdd He Hi Ho]. destruct (complete_parse argv Hc) as (m & P). exists m. split; auto. intros args.
      assert (Vm := fun l v => value_mget argv m l v P). assert (HO := parse_has_options argv m P : has_options m).
      assert (Ap : applies m (Some (mkPlan default_pipeline (Unless_given "kmeans++") (Always "false") (Always "simplexTree")))).
      { right. right. split; [rewrite (Vm _ _ Ha); congruence|]. split; [now apply Vm|]. exists "reduced"%string. split; [now apply Vm|]. left. eexists. split; [right; left; reflexivity|reflexivity]. }
      assert (S1 := setPipeline_spec m _ HO Ap). cbn beta iota in S1. fold args in S1.
      unfold opt. rewrite !S1. unfold planned. cbn. rewrite (Vm _ _ Hpre), (Vm _ _ Hi), (Vm _ _ Ho), (Vm _ _ Hm).
      split; [|repeat split; auto; try discriminate].
      - constructor; rewrite ?S1; unfold planned; cbn; auto; [apply HO; do 2 eexists; unfold options; do 14 right; left; reflexivity|]. exists z. auto.
      - destruct pre; [easy|reflexivity]. }
    assert (Pp := fun p => chosen_preprocess pre_run pre_stats argv m pre k p P Pre Hn Hk). set (args := setPipeline m) in *. assert (Pl := dr_pipeline _ _ _ _ Dr).
    assert (Ee : opt args "epsilon" = e) by (unfold opt; now rewrite (dr_eps _ _ _ _ Dr)).
    set (cx := Some (CTree (atof e) (atoi d) (st_new [] nc0))).
    assert (Cx : newSimplex atoi atof nc0 (opt args "complexType") args = Ok cx).
    { unfold newSimplex, opt. rewrite (dr_dim _ _ _ _ Dr), (dr_eps _ _ _ _ Dr), (dr_complex _ _ _ _ Dr). reflexivity. }
    set (p0 := mkPacket data [] data [] cx [] [] []). set (p1 := mkPacket cs [] data [] cx [] [] []).
    assert (Pe : preprocess packet pre_run pre_stats args p0 = Ok p1) by (rewrite Pp; apply (Pr args cx Ee)).
    assert (E : lhf argv = do r <- processReducedWrapper dist atoi atof srt past_end al_reduce other pre_run pre_stats uaf args p0; Ok (Ran (fst r) (snd r))).
    { unfold MainModel.lhf. rewrite P. cbn [bind]. fold args. rewrite Cx. cbn [bind].
      replace (String.eqb (opt args "pipeline") "slidingwindow") with false by (unfold opt; rewrite Pl; reflexivity).
      replace (opt args "inputFile") with f by (unfold opt; now rewrite Fi). rewrite (holds_reads _ _ _ _ Hf).
      replace (0 <? length data) with true by (symmetry; apply Nat.ltb_lt; destruct data; [easy|cbn; lia]). cbn [orb].
      rewrite (proj2 (String.eqb_neq _ _) Up), Md. reflexivity. }
    rewrite E. clear E.
    assert (G := reduced_groups dist atoi atof srt past_end nc0 al_reduce other pre_run pre_stats uaf dist dist (Z.mul 2) args d e Hs Dr Hpos Hd p0 p1 Pe eq_refl eq_refl).
    assert (Hrows : forall x, In x (pk_data p1) \/ In x (pk_full p1) -> x <> []). { intros x [H|H]; [now apply Hrow|]. now apply (readCSV_ne _ _ _ _ (holds_reads _ _ _ _ Hf)). }
    specialize (G Hrows).
    destruct (processReducedWrapper _ _ _ _ _ _ _ _ _ _ _ _) as [[q files]|] eqn:Ew; [|split; [reflexivity|discriminate]]. cbn [bind fst snd].
    destruct (G q files Ew) as (rad & it & pt & outs & Rr & Rs & Rf & R1 & Rh & R2 & R3 & R4 & _). clear G. cbn [pk_data pk_full pk_labels p1] in *.
    assert (Ept : filter non_empty (pt ++ [cs]) = [cs]).
    { unfold separatePartitionsRad in Rs. cbn [enum foldr_ub] in Rs. injection Rs as _ <-. rewrite filter_app. replace (filter non_empty (repeat [] (length cs))) with (@nil (list (list Z))).
      - destruct cs; [easy|reflexivity].
      - clear. induction (length cs) as [|n IH]; [reflexivity|exact IH]. }
    rewrite Ept in *. split.
    - intros Hu. exfalso. rewrite R3 in Hu by discriminate. discriminate.
    - intros r H. injection H as <-. destruct (R2 Hcs) as (outs' & Eo). assert (L := Forall2_len _ _ _ R1). rewrite Eo, List.app_length in L. cbn in L.
      assert (outs' = []) by (destruct outs'; [reflexivity|cbn in L; lia]). subst outs'. cbn [app] in Eo. subst outs.
      destruct (Rh cs [] (pk_output q) [] eq_refl eq_refl) as (F' & A1 & A2 & A3).
      exists q, F'. split; [|split; [exact A1|split; [exact A2|split; [exact A3|apply R4; now left]]]].
      f_equal. rewrite Rf. unfold names, writes_output, opt. rewrite Pl, Fo. now destruct (String.eqb o "console").
  Qed.

  (* the counts of the upscale mode after a preprocessor that gives no labels *)
  Lemma upscale_after argv pre k kk f data p1 m : parse argv = Ok m -> (value argv "mpi" "1" \/ (value argv "pipeline" "" /\ value argv "mode" "upscaleBound")) ->
    value argv "preprocessor" pre -> In (pre, k) pre_names -> k <> KNoPreprocessor -> value argv "inputFile" f -> value argv "clusters" kk -> holds_points stod file f data -> data <> [] ->
    forall cx, newSimplex atoi atof nc0 (opt (setPipeline m) "complexType") (setPipeline m) = Ok cx ->
    (do q <- pre_run k (setPipeline m) (mkPacket data [] data [] cx [] [] []); pre_stats k q) = Ok p1 -> pk_labels p1 = [] ->
    lhf argv = if (atoi kk <? 0)%Z then Ok Threw else Ok (Counted p1 (repeat 0 (Z.to_nat (atoi kk)))).
  Proof.
    intros P Hu Hpre Hn Hk Hi Hkk Hf Hne cx Cx Pr Hl. destruct (upscale_lines argv m P Hu) as [Up Nsl].
    assert (Np : pre <> ""%string) by (intros ->; cbn in Hn; repeat (destruct Hn as [Hn|Hn]; [discriminate|]); exact Hn).
    assert (Pof : mget (setPipeline m) "preprocessor" = Some pre).
    { assert (HO := parse_has_options argv m P : has_options m). destruct (applies_total m HO) as [pl Ap].
      assert (S1 := setPipeline_spec m pl HO Ap). assert (Vm := fun l v => value_mget argv m l v P).
      assert (G : exists q, pl = Some q /\ pl_preprocessor q = Unless_given "kmeans++").
      { destruct Ap as [[_ ->]|[(N & B & ->)|(N & B & mode & M & C)]].
        - exists mpi_plan. repeat split.
        - destruct Hu as [H|[H _]]; apply Vm in H; congruence.
        - destruct Hu as [H|[H1 H2]]; [apply Vm in H; congruence|]. apply Vm in H2. assert (mode = "upscaleBound"%string) by congruence. subst mode.
          destruct C as [(q & Q & ->)|[Q _]]; [|exfalso; apply Q; cbn; auto]. exists q. split; auto.
          cbn in Q. repeat (destruct Q as [Q|Q]; [first [discriminate|inversion Q; subst q; cbn; reflexivity]|]). destruct Q. }
      destruct G as (q & -> & U). rewrite S1. unfold planned. cbn. rewrite U. cbn. rewrite (Vm _ _ Hpre). destruct pre; [easy|reflexivity]. }
    assert (Pp := fun p => chosen_preprocess pre_run pre_stats argv m pre k p P Pof Hn Hk).
    assert (Kp : forall o v, value argv o v -> ~ In o ["pipeline"; "preprocessor"; "upscale"; "complexType"]%string -> mget (setPipeline m) o = Some v).
    { intros o v Hv No. rewrite args_keep; [exact (value_mget argv m _ _ P Hv)|exact (parse_has_options argv m P : has_options m)|exact No]. }
    assert (Fi := Kp _ _ Hi ltac:(cbn; intros K; repeat (destruct K as [K|K]; [discriminate|]); exact K)).
    assert (Fk := Kp _ _ Hkk ltac:(cbn; intros K; repeat (destruct K as [K|K]; [discriminate|]); exact K)).
    assert (N : new_packet atoi atof nc0 (setPipeline m) data = Ok (mkPacket data [] data [] cx [] [] [])) by (unfold new_packet; rewrite Cx; reflexivity).
    assert (Ek : atoi (opt (setPipeline m) "clusters") = atoi kk) by (unfold opt; now rewrite Fk).
    destruct (upscale_counts dist atoi atof srt past_end nc0 al_reduce other pre_run pre_stats uaf stod file argv m f data _ p1 (atoi kk) P Up Nsl Fi Hf Hne N ltac:(rewrite Pp; exact Pr) Ek) as (A & B & _).
    destruct (Z.ltb_spec (atoi kk) 0) as [L|L]; [now apply B|]. destruct A as [A _].
    - rewrite Hl. split; [exact L|]. split; [cbn; lia|intros l []].
    - rewrite A, Hl. do 2 f_equal. clear. generalize 0 at 1 as s. induction (Z.to_nat (atoi kk)) as [|n IH]; intros s; [reflexivity|]. cbn [seq map repeat]. f_equal; auto.
  Qed.
End Whole.

Lemma den_rows (rounded : Qc -> Z) (groups : list (list nat)) decay T data k : 0 < k ->
  forall x, In x (map (map rounded) (map (fun g => faded_center decay T (history_of 1000 data g) k) groups)) -> x <> [].
Proof. intros Hk x Hx. apply in_map_iff in Hx as (y & <- & Hy). apply in_map_iff in Hy as (g & <- & _). unfold faded_center. destruct k; [lia|discriminate]. Qed.
