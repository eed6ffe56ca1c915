(* DebugRuns.v -- what the debug output does to a run of the default pipeline. *)
From Coq Require Import String Ascii List Arith ZArith Bool Lia Sorted Permutation Relations.
From Verif Require Import Base RunMonad UtilsModel ArrayListModel TreeModel FastModel ArgModel IndModel IndReduceModel PipeModel WindowModel DebugModel.
From Verif Require Import Spec SpecComplex SpecTree SpecArgs SpecGraph SpecLinear SpecFast SpecPipe SpecInd SpecIndRun SpecDebug.
From Verif Require Import ArgProofs KruskalProofs FastProofs FastRuns PipeProofs PipeRuns IndHist IndReduceProofs PropertiesInd IndRuns.
Import ListNotations.
Local Open Scope nat_scope.
Local Open Scope list_scope.

Section Component.
  Variable packet : Type.
  Variable run : pipe_kind -> amap -> packet -> res packet.
  Variable add : pipe_kind -> packet -> res packet.
  Lemma any_component args c k p : newPipe c (fst (mread args "complexType")) = Some k ->
    (forall o, In o (pipe_required k) -> mget args o <> None) ->
    run_component packet run add args c p = do p1 <- run k args p; do p2 <- add k p1; Ok (p2, false).
  Proof.
    intros E R. unfold run_component. rewrite E. unfold configPipe. rewrite (forallb_keys args _ R).
    unfold runPipeWrapper. cbn [negb]. now destruct (run k args p).
  Qed.
  Lemma any_four args d e p : mget args "pipeline" = Some default_pipeline -> mget args "dimensions" = Some d ->
    mget args "epsilon" = Some e -> mget args "twist" <> None ->
    runPipeline packet run add args p =
      do p1 <- run KDistMatrix args p; do p2 <- add KDistMatrix p1;
      do p3 <- run KNeighGraph args p2; do p4 <- add KNeighGraph p3;
      do p5 <- run KRips args p4; do p6 <- add KRips p5;
      do p7 <- run KFastPersistence args p6; do p8 <- add KFastPersistence p7;
      Ok (Some (p8, [])).
  Proof.
    intros H1 H3 H4 H5. unfold runPipeline. rewrite H1.
    change (count_char "."%char default_pipeline + 1) with 4. cbn [pipeline_loop].
    change (curFunct default_pipeline) with "distMatrix"%string.
    change (pipeRest default_pipeline) with "neighGraph.rips.fastPersistence"%string.
    change (curFunct "neighGraph.rips.fastPersistence") with "neighGraph"%string.
    change (pipeRest "neighGraph.rips.fastPersistence") with "rips.fastPersistence"%string.
    change (curFunct "rips.fastPersistence") with "rips"%string.
    change (pipeRest "rips.fastPersistence") with "fastPersistence"%string.
    change (curFunct "fastPersistence") with "fastPersistence"%string.
    rewrite (any_component args "distMatrix" KDistMatrix) by (try reflexivity; intros o [<-|[]]; congruence).
    destruct (run KDistMatrix args p) as [p1|]; cbn [bind rmap]; auto.
    destruct (add KDistMatrix p1) as [p2|]; cbn [bind rmap fst snd]; auto.
    rewrite (any_component args "neighGraph" KNeighGraph) by (try reflexivity; intros o [<-|[<-|[]]]; congruence).
    destruct (run KNeighGraph args p2) as [p3|]; cbn [bind rmap]; auto.
    destruct (add KNeighGraph p3) as [p4|]; cbn [bind rmap fst snd]; auto.
    rewrite (any_component args "rips" KRips) by (try reflexivity; intros o []).
    destruct (run KRips args p4) as [p5|]; cbn [bind rmap]; auto.
    destruct (add KRips p5) as [p6|]; cbn [bind rmap fst snd]; auto.
    rewrite (any_component args "fastPersistence" KFastPersistence) by (try reflexivity; intros o [<-|[<-|[<-|[]]]]; congruence).
    destruct (run KFastPersistence args p6) as [p7|]; cbn [bind rmap]; auto.
    destruct (add KFastPersistence p7) as [p8|]; cbn [bind rmap fst snd]; auto.
  Qed.
End Component.

(* Asking a complex for its edges twice. *)
Definition asked (srt : list wsimp -> list wsimp) (c : cx) : cx := match c with CArray _ _ _ _ => c | _ => snd (cx_getAllEdges srt 5 c) end.
Lemma asked_again srt eps c : cx_getAllEdges srt eps (asked srt c) = cx_getAllEdges srt eps c.
Proof.
  destruct c as [e m dm wg|e m t|e m t]; cbn [asked cx_getAllEdges]; auto.
  - unfold st_getAllEdges at 1 2. destruct (st_isSorted t) eqn:E; cbn [snd cx_getAllEdges]; unfold st_getAllEdges; rewrite ?E; reflexivity.
  - unfold ind_getAllEdges at 1 2. destruct (i_dims t) eqn:D; cbn [snd cx_getAllEdges].
    + unfold ind_getAllEdges. rewrite ?D. reflexivity.
    + destruct (i_sorted t) eqn:E; cbn [snd cx_getAllEdges]; unfold ind_getAllEdges; cbn; rewrite ?D, ?E; reflexivity.
Qed.
Lemma asked_counts srt c : cx_vertexCount (asked srt c) = cx_vertexCount c /\ cx_simplexCount (asked srt c) = cx_simplexCount c.
Proof.
  destruct c as [e m dm wg|e m t|e m t]; cbn [asked]; auto.
  - cbn. unfold st_getAllEdges. destruct (st_isSorted t) eqn:E; cbn; auto.
  - cbn. unfold ind_getAllEdges. destruct (i_dims t) eqn:D; cbn; auto. destruct (i_sorted t) eqn:E; cbn; auto.
Qed.

Section Same.
  Variable dist : list Z -> list Z -> Z.
  Variables atoi atof : string -> Z.
  Variable srt : list wsimp -> list wsimp.
  Variable past_end : list nat -> nat -> res nat.
  Variable nc0 : Z.
  Variable al_reduce : wgraph -> res wgraph.
  Variable other : pipe_kind -> amap -> packet -> res packet.
  Variable other_output : pipe_kind -> packet -> files -> res (packet * files).

  (* What neighGraph and rips write. *)
  Definition neigh_rows (c : cx) : list row :=
    match c with
    | CArray _ _ _ wg => (if Nat.ltb 1 (length wg) then graph_rows [nth 1 wg []] else []) ++ [RText ""]
    | _ => graph_rows (fst (cx_getAllEdges srt 5 c)) ++ [RText ""]
    end.
  Definition rips_files (c : cx) : files :=
    match c with CArray _ _ _ wg => [("output/ripsPipe_output.csv"%string, graph_rows wg)] | _ => [] end.
  Definition fast_name (args : amap) : string :=
    if Nat.ltb 0 (String.length (opt args "fn")) then ("output/FastPersistence_bettis_output" ++ opt args "fn" ++ ".csv")%string
    else "output/FastPersistence_bettis_output.csv"%string.
  Definition all_files (args : amap) (c2 c4 c6 : cx) (q : packet) : files :=
    if debugging atoi args then
      [("output/DistMatrix_output.csv"%string, map RNumbers (cx_distMatrix c2)); ("output/neighGraph_output.csv"%string, neigh_rows c4)] ++
      rips_files c6 ++ [(fast_name args, map RBar (pk_output q)); ("output/tArray.csv"%string, [RText "ti,Dim,Marked,Birth,Death,Simplex"])]
    else [].

  Definition is_ind (c : cx) : bool := match c with CInd _ _ _ => true | _ => false end.

  (* The kinds of complex do not change on the way. *)
  Lemma neigh_kind : forall data p q c, pk_complex p = Some c ->
    foldr_ub (fun p v => match v with
                         | [] => Ok p
                         | _ => do c <- PipeModel.deref p; do c' <- cx_insert v c; Ok (set_complex p c')
                         end) p data = Ok q ->
    exists c', pk_complex q = Some c' /\ is_ind c' = is_ind c.
  Proof.
    induction data as [|v data IH]; intros p q c Hp H; cbn [foldr_ub] in H; [injection H as <-; eauto|].
    destruct v as [|z v]; [cbn [bind] in H; eauto|].
    unfold PipeModel.deref at 1 in H. rewrite Hp in H. cbn [bind] in H. destruct (cx_insert (z :: v) c) as [c1|] eqn:E; [|discriminate]. cbn [bind] in H.
    destruct (IH (set_complex p c1) q c1 eq_refl H) as (c' & H1 & H2). exists c'. split; auto. rewrite H2.
    destruct c as [e m dm wg|e m t|e m t]; cbn [cx_insert] in E.
    - destruct (al_insert _ _ _ _ _); [|discriminate]. injection E as <-. reflexivity.
    - destruct (st_insert _ _ _); [|discriminate]. injection E as <-. reflexivity.
    - destruct (ind_insert _ _ _); [|discriminate]. injection E as <-. reflexivity.
  Qed.

  Notation plain args := (runPipeline packet (run_pipe dist atoi atof srt past_end al_reduce other) add_stats args).
  Notation noisy args := (runPipeline (packet * files)
    (fun k a pf => do p' <- run_pipe dist atoi atof srt past_end al_reduce other k a (fst pf); Ok (p', snd pf))
    (stats_and_output srt atoi other_output args) args).

  Lemma set_set p a b : set_complex (set_complex p a) b = set_complex p b.
  Proof. reflexivity. Qed.

  Lemma so_eq args k p f : stats_and_output srt atoi other_output args k (p, f) =
    do p <- add_stats k p; if debugging atoi args then output_data srt other_output args k p f else Ok (p, f).
  Proof. reflexivity. Qed.

  Theorem noisy_plain args d e p c : mget args "pipeline" = Some default_pipeline -> mget args "dimensions" = Some d ->
    mget args "epsilon" = Some e -> mget args "twist" <> None -> pk_complex p = Some c -> (is_ind c && collapsing args = false) ->
    match plain args p with
    | UB => noisy args (p, []) = UB
    | Ok None => False
    | Ok (Some (q, failed)) => exists p1 p2 p3 p4 p5 c2 c4 c6, noisy args (p, []) = Ok (Some (q, all_files args c2 c4 c6 q, failed)) /\
        run_distMatrix dist atof args p = Ok p1 /\ pk_complex p1 = Some c2 /\ add_stats KDistMatrix p1 = Ok p2 /\
        run_neighGraph args p2 = Ok p3 /\ pk_complex p3 = Some c4 /\ add_stats KNeighGraph p3 = Ok p4 /\
        run_rips atoi al_reduce args p4 = Ok p5 /\ pk_complex p5 = Some c6
    end.
  Proof.
    intros H1 H3 H4 H5 Hc Hi. remember (noisy args (p, [])) as N eqn:HN. rewrite (any_four (packet * files) _ _ args d e (p, []) H1 H3 H4 H5) in HN. rewrite (any_four _ _ _ args d e p H1 H3 H4 H5). cbn [run_pipe fst snd] in HN |- *.
    destruct (run_distMatrix dist atof args p) as [p1|] eqn:E1; cbn [bind] in HN |- *; [|exact HN].
    assert (C2 : exists c2, pk_complex p1 = Some c2 /\ is_ind c2 = is_ind c).
    { unfold run_distMatrix in E1. destruct (distMatrix_run _ _ _ _ _ _) as [mw|]; [|discriminate]. cbn [bind] in E1.
      unfold PipeModel.deref in E1. rewrite Hc in E1. cbn [bind] in E1. injection E1 as <-. cbn. eexists. split; [reflexivity|]. now destruct c. }
    destruct C2 as (c2 & C2 & K2).
    rewrite (so_eq args KDistMatrix) in HN. destruct (add_stats KDistMatrix p1) as [p2|] eqn:S1; cbn [bind] in HN |- *.
    2:{ unfold add_stats, PipeModel.deref in S1. rewrite C2 in S1. discriminate. }
    assert (P2 : pk_complex p2 = Some c2).
    { unfold add_stats, PipeModel.deref in S1. rewrite C2 in S1. injection S1 as <-. reflexivity. }
    set (f1 := if debugging atoi args then [("output/DistMatrix_output.csv"%string, map RNumbers (cx_distMatrix c2))] else []).
    assert (O1 : (if debugging atoi args then output_data srt other_output args KDistMatrix p2 [] else Ok (p2, [])) = Ok (p2, f1)).
    { unfold f1. destruct (debugging atoi args); auto. cbn [output_data]. unfold output_distMatrix, PipeModel.deref. rewrite P2. reflexivity. }
    rewrite O1 in HN. cbn [bind fst snd] in HN.
    destruct (run_neighGraph args p2) as [p3|] eqn:E3; cbn [bind] in HN |- *; [|exact HN].
    destruct (neigh_kind _ _ _ _ P2 E3) as (c4 & C4 & K4).
    rewrite (so_eq args KNeighGraph) in HN. destruct (add_stats KNeighGraph p3) as [p4|] eqn:S3; cbn [bind] in HN |- *.
    2:{ unfold add_stats, PipeModel.deref in S3. rewrite C4 in S3. discriminate. }
    assert (P4 : pk_complex p4 = Some c4).
    { unfold add_stats, PipeModel.deref in S3. rewrite C4 in S3. injection S3 as <-. reflexivity. }
    set (f2 := if debugging atoi args then f1 ++ [("output/neighGraph_output.csv"%string, neigh_rows c4)] else f1).
    set (c4' := if debugging atoi args then asked srt c4 else c4).
    assert (O2 : (if debugging atoi args then output_data srt other_output args KNeighGraph p4 f1 else Ok (p4, f1)) = Ok (set_complex p4 c4', f2)).
    { unfold f2, c4'. destruct (debugging atoi args); [|now rewrite set_complex_same]. cbn [output_data]. unfold output_neighGraph, PipeModel.deref. rewrite P4. cbn [bind].
      unfold neigh_rows. destruct c4 as [x m dm wg|x m t|x m t]; cbn [asked]; [now rewrite set_complex_same| |];
        destruct (cx_getAllEdges srt 5 _) as [ed cc]; reflexivity. }
    rewrite O2 in HN. cbn [bind fst snd] in HN.
    assert (A4 : forall eps, cx_getAllEdges srt eps c4' = cx_getAllEdges srt eps c4).
    { intros eps. unfold c4'. destruct (debugging atoi args); auto. apply asked_again. }
    assert (B4 : cx_vertexCount c4' = cx_vertexCount c4 /\ cx_simplexCount c4' = cx_simplexCount c4).
    { unfold c4'. destruct (debugging atoi args); auto. apply asked_counts. }
    assert (K4' : match c4 with CArray _ _ _ _ => c4' = c4 | CTree x m _ => exists t', c4' = CTree x m t' | CInd x m _ => exists t', c4' = CInd x m t' end).
    { unfold c4'. destruct c4 as [x m dm wg|x m t|x m t]; destruct (debugging atoi args); cbn [asked cx_getAllEdges]; eauto;
        [destruct (st_getAllEdges srt t)|destruct (ind_getAllEdges srt t)]; cbn; eauto. }
    clearbody c4'.
    (* rips *)
    set (post := fun c1 => (if collapsing args then match c1 with
                    | CArray e m dm wg => rmap (CArray e m dm) (al_reduce wg) | CTree e m t => Ok c1 | CInd e m t => rmap (CInd e m) (ind_reduce m t) end else Ok c1)).
    assert (R : exists r, (do c1 <- cx_expand (atoi d) c4; do c3 <- post c1; Ok c3) = r /\
      (do c1 <- cx_expand (atoi d) c4'; do c3 <- post c1; Ok c3) =
      match c4 with CArray _ _ _ _ => r | _ => Ok c4' end /\ match c4 with CArray _ _ _ _ => forall x, r = Ok x -> is_ind x = false /\ match x with CArray _ _ _ _ => True | _ => False end | _ => r = Ok c4 end).
    { assert (Ki : is_ind c4 = is_ind c) by congruence. rewrite <- Ki in Hi. destruct c4 as [x m dm wg|x m t|x m t].
      - subst c4'. eexists. split; [reflexivity|]. split; [reflexivity|]. intros y Hy. cbn [cx_expand] in Hy.
        destruct (expandDimensions (atoi d) wg) as [wg1|]; [|discriminate]. cbn [rmap bind] in Hy.
        unfold post in Hy. destruct (collapsing args); [destruct (al_reduce wg1); [|discriminate]|]; cbn in Hy; injection Hy as <-; auto.
      - destruct K4' as (t' & ->). eexists. split; [reflexivity|]. cbn [cx_expand bind]. unfold post. destruct (collapsing args); cbn; auto.
      - destruct K4' as (t' & ->). cbn [is_ind] in Hi. cbn [andb] in Hi. unfold post. rewrite Hi. eexists. split; [reflexivity|]. cbn. auto. }
    destruct R as (r & R1 & R2 & R3).
    assert (Bd : forall (A B : Type) (m : res A) (f : A -> B), (do x <- m; Ok (f x)) = rmap f m) by (intros A B m f; now destruct m).
    assert (R1' : (do c1 <- cx_expand (atoi d) c4; do c3 <- post c1; Ok (set_complex p4 c3)) = rmap (set_complex p4) r).
    { rewrite <- R1. destruct (cx_expand (atoi d) c4); cbn [bind rmap]; auto. now destruct (post a). }
    assert (R2' : (do c1 <- cx_expand (atoi d) c4'; do c3 <- post c1; Ok (set_complex (set_complex p4 c4') c3)) =
       rmap (set_complex p4) (match c4 with CArray _ _ _ _ => r | _ => Ok c4' end)).
    { rewrite <- R2. destruct (cx_expand (atoi d) c4'); cbn [bind rmap]; auto. now destruct (post a). }
    assert (Q1 : run_rips atoi al_reduce args p4 = rmap (set_complex p4) r).
    { rewrite <- R1'. unfold run_rips. rewrite H3. unfold PipeModel.deref. rewrite P4. reflexivity. }
    assert (Q2 : run_rips atoi al_reduce args (set_complex p4 c4') = rmap (set_complex p4) (match c4 with CArray _ _ _ _ => r | _ => Ok c4' end)).
    { rewrite <- R2'. unfold run_rips. rewrite H3. unfold PipeModel.deref. reflexivity. }
    rewrite Q2 in HN. rewrite Q1. clear R1' R2' R1 R2 post Q2.
    assert (X : exists x x', r = UB /\ (match c4 with CArray _ _ _ _ => r | _ => Ok c4' end) = UB \/
      r = Ok x /\ (match c4 with CArray _ _ _ _ => r | _ => Ok c4' end) = Ok x' /\
      (forall eps, cx_getAllEdges srt eps x' = cx_getAllEdges srt eps x) /\ cx_vertexCount x' = cx_vertexCount x /\ cx_simplexCount x' = cx_simplexCount x /\
      rips_files x' = rips_files x /\ (forall n, match x with CArray _ _ _ _ => x' = x | _ => cx_expand n x = Ok x /\ cx_expand n x' = Ok x' end)).
    { destruct c4 as [x m dm wg|x m t|x m t].
      - destruct r as [x1|]; [|exists (CArray 0 0 [] []), (CArray 0 0 [] []); now left]. destruct (R3 x1 eq_refl) as [_ Q].
        exists x1, x1. right. destruct x1; try easy; repeat split; auto.
      - destruct K4' as (t' & ->). rewrite R3. do 2 eexists. right. split; [reflexivity|]; split; [reflexivity|]. repeat split; auto; try apply B4.
      - destruct K4' as (t' & ->). rewrite R3. do 2 eexists. right. split; [reflexivity|]. split; [reflexivity|]. repeat split; auto; apply B4. }
    destruct X as (x & x' & [[E5 E5']|(E5 & E5' & X1 & X2 & X3 & X4 & X5)]); rewrite E5' in HN; rewrite E5 in Q1 |- *; cbn [rmap bind] in HN, Q1 |- *; [exact HN|].
    rewrite (so_eq args KRips) in HN.
    assert (S5 : forall y, add_stats KRips (set_complex p4 y) = Ok (mkPacket (pk_data p4) (pk_labels p4) (pk_full p4) (pk_weights p4) (Some y) (pk_output p4) (pk_table p4) (pk_stats p4 ++ [(KRips, cx_vertexCount y, cx_simplexCount y)]))) by reflexivity.
    rewrite S5 in HN. rewrite S5. clear S5. cbn [bind] in HN |- *. rewrite X2, X3 in HN.
    set (p6 := mkPacket (pk_data p4) (pk_labels p4) (pk_full p4) (pk_weights p4) (Some x) (pk_output p4) (pk_table p4) (pk_stats p4 ++ [(KRips, cx_vertexCount x, cx_simplexCount x)])).
    set (f3 := if debugging atoi args then f2 ++ rips_files x else f2).
    match type of HN with context [if debugging atoi args then output_data srt other_output args KRips ?q f2 else Ok (?q, f2)] =>
      assert (O3 : (if debugging atoi args then output_data srt other_output args KRips q f2 else Ok (q, f2)) = Ok (set_complex p6 x', f3)) end.
    { unfold f3. destruct (debugging atoi args); auto. cbn [output_data]. unfold output_rips, PipeModel.deref. cbn [pk_complex bind]. rewrite <- X4.
      destruct x'; cbn [rips_files]; rewrite ?app_nil_r; reflexivity. }
    rewrite O3 in HN. cbn [bind fst snd] in HN. clear O3.
    (* fast *)
    fold p6. unfold run_fast in HN |- *. unfold PipeModel.deref in HN |- *. cbn [pk_complex set_complex bind p6] in HN |- *. assert (HO : opt args "dimensions" = d) by (unfold opt; rewrite H3; reflexivity). rewrite !HO in HN. rewrite !HO.
    assert (Y : exists y y', (if (0 <? atoi d)%Z then cx_expand (atoi d + 1) x else Ok x) = UB /\ (if (0 <? atoi d)%Z then cx_expand (atoi d + 1) x' else Ok x') = UB \/
      (if (0 <? atoi d)%Z then cx_expand (atoi d + 1) x else Ok x) = Ok y /\ (if (0 <? atoi d)%Z then cx_expand (atoi d + 1) x' else Ok x') = Ok y' /\
      (forall eps, cx_getAllEdges srt eps y' = cx_getAllEdges srt eps y)).
    { destruct (0 <? atoi d)%Z; [|exists x, x'; right; auto]. specialize (X5 (atoi d + 1)%Z). destruct x as [a b1 b2 b3|a b1 b2|a b1 b2].
      - subst x'. destruct (cx_expand (atoi d + 1) (CArray a b1 b2 b3)) as [y|]; [exists y, y; right; auto|]. exists (CArray 0 0 [] []), (CArray 0 0 [] []). now left.
      - destruct X5 as [-> ->]. do 2 eexists. right. split; [reflexivity|]. split; [reflexivity|]. exact X1.
      - destruct X5 as [-> ->]. do 2 eexists. right. split; [reflexivity|]. split; [reflexivity|]. exact X1. }
    destruct Y as (y & y' & [[Z1 Z2]|(Z1 & Z2 & Y1)]); rewrite Z2 in HN; rewrite Z1; cbn [bind] in HN |- *; [exact HN|]. rewrite Y1 in HN.
    destruct (cx_getAllEdges srt (atof (opt args "epsilon")) y) as [edges c8]. cbn [pk_table p6 set_complex] in HN |- *.
    destruct (fp_run past_end (atoi d) (atof (opt args "epsilon")) edges (pk_table p4)) as [r8|]; cbn [bind] in HN |- *; [|exact HN].
    assert (Fin : forall q, pk_complex q = Some c8 ->
      match (do p8 <- add_stats KFastPersistence q; Ok (Some (p8, @nil string))) with
      | Ok (Some (q', failed)) => (do p8 <- stats_and_output srt atoi other_output args KFastPersistence (q, f3); Ok (Some (p8, @nil string))) =
           Ok (Some (q', all_files args c2 c4 x q', failed))
      | _ => False end).
    { intros q Hq. rewrite so_eq. unfold add_stats, PipeModel.deref. rewrite Hq. cbn [bind].
      unfold all_files, f3, f2, f1. destruct (debugging atoi args); [|reflexivity]. cbn [output_data]. unfold output_fast, fast_name. cbn [bind fst snd pk_output].
      rewrite <- !app_assoc. reflexivity. }
    assert (Done : forall q, pk_complex q = Some c8 ->
      N = (do p8 <- stats_and_output srt atoi other_output args KFastPersistence (q, f3); Ok (Some (p8, @nil string))) ->
      match (do p8 <- add_stats KFastPersistence q; Ok (Some (p8, @nil string))) with
      | UB => N = UB
      | Ok None => False
      | Ok (Some (q, failed)) => exists p1' p2 p3 p4 p5 c2 c4 c6, N = Ok (Some (q, all_files args c2 c4 c6 q, failed)) /\
          Ok p1 = Ok p1' /\ pk_complex p1' = Some c2 /\ add_stats KDistMatrix p1' = Ok p2 /\
          run_neighGraph args p2 = Ok p3 /\ pk_complex p3 = Some c4 /\ add_stats KNeighGraph p3 = Ok p4 /\
          run_rips atoi al_reduce args p4 = Ok p5 /\ pk_complex p5 = Some c6
      end).
    { intros q Hq EN. specialize (Fin q Hq). destruct (do p8 <- add_stats KFastPersistence q; Ok (Some (p8, @nil string))) as [[[q' fl]|]|]; try easy.
      exists p1, p2, p3, p4, (set_complex p4 x), c2, c4, x. repeat split; auto. congruence. }
    destruct r8 as [[lines tab]|]; apply Done; auto.
  Qed.
End Same.

(* The lines of a graph. *)
Lemma graph_rows_lists g (P : list nat -> Z -> Prop) :
  (forall k, NoDup (map fst (level g k))) -> (forall k s w, In (s, w) (level g k) -> length s = S k) ->
  (forall s w, (exists k, In (s, w) (level g k)) <-> P s w) -> lists_simplices (graph_rows g) P.
Proof.
  intros Nd Sh HP. unfold graph_rows.
  assert (Hc : forall x, In x (concat g) <-> exists k, In x (level g k)).
  { intros x. rewrite in_concat. unfold level. split.
    - intros (l & Hl & Hx). apply (In_nth _ _ []) in Hl as (k & _ & <-). eauto.
    - intros (k & Hx). exists (nth k g []). split; auto. apply nth_In. destruct (Nat.lt_ge_cases k (length g)); auto. rewrite nth_overflow in Hx by auto. destruct Hx. }
  split.
  - apply FinFun.Injective_map_NoDup; [intros [a b] [a' b'] Q; now injection Q as -> ->|].
    assert (G : forall j, (forall k s w, In (s, w) (nth k g []) -> length s = j + S k) -> NoDup (concat g)).
    { clear Sh HP Hc. assert (Nd' : forall k, NoDup (map fst (nth k g []))) by exact Nd. clear Nd. revert Nd'. induction g as [|l g IH]; intros Nd j Sh; [constructor|].
      cbn [concat]. assert (N1 := Nd 0). cbn in N1. apply NoDup_map_inv in N1.
      assert (N2 : NoDup (concat g)).
      { apply (IH (fun k => Nd (S k)) (S j)). intros k s w H. rewrite (Sh (S k) s w H). lia. }
      apply FastRuns.NoDup_app_intro; auto. intros [s w] H1 H2. apply in_concat in H2 as (l' & Hl' & H2). apply (In_nth _ _ []) in Hl' as (k & _ & <-).
      assert (Q1 := Sh 0 s w H1). assert (Q2 := Sh (S k) s w H2). lia. }
    apply (G 0). exact Sh.
  - intros r. rewrite in_map_iff. split.
    + intros ([s w] & <- & Hx). exists s, w. split; auto. apply HP, Hc, Hx.
    + intros (s & w & -> & Hx). exists (s, w). split; auto. apply Hc, HP, Hx.
Qed.

Section Files.
  Variable dist : list Z -> list Z -> Z.
  Variables atoi atof : string -> Z.
  Variable srt : list wsimp -> list wsimp.
  Variable past_end : list nat -> nat -> res nat.
  Variable nc0 : Z.
  Variable al_reduce : wgraph -> res wgraph.
  Variable other : pipe_kind -> amap -> packet -> res packet.
  Variable other_output : pipe_kind -> packet -> files -> res (packet * files).
  Notation run_program := (run_program dist atoi atof srt past_end nc0 al_reduce other).
  Notation run_program_files := (run_program_files dist atoi atof srt past_end nc0 al_reduce other other_output).

  (* Debug output leaves the result alone. *)
  Theorem debug_same args d e data : default_options args d e ->
    (opt args "complexType" = "indSimplexTree"%string -> collapsing args = false) ->
    match run_program args data with
    | UB => run_program_files args data = UB
    | Ok None => False
    | Ok (Some (q, failed)) => exists fs, run_program_files args data = Ok (Some (q, fs, failed)) /\ (debugging atoi args = false -> fs = [])
    end.
  Proof.
    intros [H1 H3 H4 H5] Hi. unfold PipeModel.run_program, DebugModel.run_program_files.
    destruct (new_packet atoi atof nc0 args data) as [p|] eqn:Ep; cbn [bind]; auto.
    destruct (pk_complex p) as [c|] eqn:Ec.
    - assert (Hc : is_ind c && collapsing args = false).
      { unfold new_packet, newSimplex in Ep. rewrite H3, H4 in Ep. cbn [bind] in Ep. injection Ep as <-. cbn [pk_complex] in Ec.
        destruct (String.eqb (opt args "complexType") "simplexTree"); [injection Ec as <-; reflexivity|].
        destruct (String.eqb (opt args "complexType") "simplexArrayList"); [injection Ec as <-; reflexivity|].
        destruct (String.eqb_spec (opt args "complexType") "indSimplexTree") as [Q|Q]; [|discriminate].
        rewrite (Hi Q). apply andb_false_r. }
      assert (N := noisy_plain dist atoi atof srt past_end al_reduce other other_output args d e p c H1 H3 H4 H5 Ec Hc).
      destruct (runPipeline packet _ _ args p) as [[[q failed]|]|]; auto.
      destruct N as (p1 & p2 & p3 & p4 & p5 & c2 & c4 & c6 & -> & _). eexists. split; [reflexivity|]. unfold all_files. intros ->. reflexivity.
    - rewrite (any_four _ _ _ args d e p H1 H3 H4 H5), (any_four (packet * files) _ _ args d e (p, []) H1 H3 H4 H5). cbn [run_pipe fst snd].
      unfold run_distMatrix. destruct (distMatrix_run _ _ _ _ _ _); cbn [bind]; auto. unfold PipeModel.deref. rewrite Ec. reflexivity.
  Qed.

  (* The run itself does not read "debug". *)
  Theorem plain_ignores_debug args args' d e data : default_options args d e -> same_but_debug args args' -> run_program args' data = run_program args data.
  Proof.
    intros [H1 H3 H4 H5] Sd.
    assert (Q : forall o, o <> "debug"%string -> mget args' o = mget args o) by exact Sd.
    assert (Qo : forall o, o <> "debug"%string -> opt args' o = opt args o) by (intros o Ho; unfold opt; now rewrite Q).
    unfold PipeModel.run_program, new_packet, newSimplex. rewrite !Q, !Qo by discriminate.
    match goal with |- (do p <- ?m; _) = _ => destruct m as [p|]; cbn [bind]; [|reflexivity] end.
    assert (H1' : mget args' "pipeline" = Some default_pipeline) by (rewrite Q; [auto|discriminate]).
    assert (H3' : mget args' "dimensions" = Some d) by (rewrite Q; [auto|discriminate]).
    assert (H4' : mget args' "epsilon" = Some e) by (rewrite Q; [auto|discriminate]).
    assert (H5' : mget args' "twist" <> None) by (rewrite Q; [auto|discriminate]).
    rewrite (run_four dist atoi atof srt past_end al_reduce other args d e p H1 H3 H4 H5), (run_four dist atoi atof srt past_end al_reduce other args' d e p H1' H3' H4' H5').
    unfold run_distMatrix, run_neighGraph, run_rips, run_fast. rewrite !Q, !Qo by discriminate. reflexivity.
  Qed.

  Lemma app_inj_name (fn : string) : fast_name [("fn"%string, fn)] = ("output/FastPersistence_bettis_output" ++ fn ++ ".csv")%string.
  Proof. unfold fast_name. cbn. destruct fn; reflexivity. Qed.
  Lemma fast_name_eq args : fast_name args = ("output/FastPersistence_bettis_output" ++ opt args "fn" ++ ".csv")%string.
  Proof. unfold fast_name. destruct (opt args "fn"); reflexivity. Qed.

  Variables (args : amap) (c : cx_type) (d e : string) (data : list (list Z)).
  Hypothesis Hs : is_sort srt.
  Hypothesis Hr : default_run args c d e.
  Hypothesis Hne : forall x, In x data -> x <> [].
  Hypothesis Hpos : forall x y, (0 <= dist x y)%Z.
  Hypothesis Hd : (0 < atoi d < 2 ^ 31 - 1)%Z.

  Lemma rips_rows c' edges lo hi : complex edges -> lists_rips (separation dist data) (close c' (atof e)) (length data) hi edges -> lo = 1 ->
    lists_simplices (graph_rows edges) (rips_between dist data c' (atof e) lo (S hi)).
  Proof.
    intros C [L _] ->. apply graph_rows_lists; [apply C|intros k s w H; now apply C in H|]. intros s w. unfold rips_between, rips_simplex. split.
    - intros (k & H). apply L in H as (Ls & K & F & Dm). split; auto. split; auto. lia.
    - intros (F & Ls & Dm). exists (length s - 1). apply L. split; [lia|]. split; [lia|]. split; auto.
  Qed.

  Lemma tree_built dm : length dm = length data -> upper_triangle dm (length data) ->
    exists t, st_run (atof e) (atoi d) (Ok tt) srt (st_new dm nc0) (repeat TInsert (length data)) = Ok t /\
      complex (fst (st_getAllEdges srt t)) /\ lists_rips (dist_of dm) (fun x => (x < atof e)%Z) (length data) (Z.to_nat (atoi d)) (fst (st_getAllEdges srt t)).
  Proof.
    intros L1 U. destruct data as [|x0 data0] eqn:Ed.
    - exists (st_new dm nc0). split; [reflexivity|]. cbn. split; [apply empty_complex|apply empty_lists_rips].
    - rewrite <- Ed in *. assert (Hdm : dm <> []) by (intros ->; rewrite Ed in L1; discriminate).
      destruct (tree_edges dm (atof e) (atoi d) nc0 (length data) srt Hs Hdm U Hd) as (t & T1 & T2 & T3 & T4). eauto 8.
  Qed.

  Theorem debug_files q failed : debugging atoi args = true -> run_program args data = Ok (Some (q, failed)) ->
    exists fs, run_program_files args data = Ok (Some (q, fs, failed)) /\
      (exists dm, content fs "output/DistMatrix_output.csv" = Some (map RNumbers dm) /\ length dm = length data /\
         (forall u, u < length data -> length (nth u dm []) = length data) /\
         (forall u v, u < length data -> v < length data -> nth v (nth u dm []) 0%Z = if u <? v then separation dist data u v else 0%Z)) /\
      (exists rows, content fs "output/neighGraph_output.csv" = Some (rows ++ [RText ""]) /\
         lists_simplices rows (match c with
                               | Tree => rips_between dist data c (atof e) 1 (S (Z.to_nat (atoi d)))
                               | ArrayList => rips_between dist data c (atof e) 2 2
                               end)) /\
      match c with
      | Tree => content fs "output/ripsPipe_output.csv" = None
      | ArrayList => exists rows, content fs "output/ripsPipe_output.csv" = Some rows /\
                       lists_simplices rows (rips_between dist data c (atof e) 1 (S (Z.to_nat (atoi d))))
      end /\
      content fs ("output/FastPersistence_bettis_output" ++ opt args "fn" ++ ".csv")%string = Some (map RBar (pk_output q)) /\
      content fs "output/tArray.csv" = Some [RText "ti,Dim,Marked,Birth,Death,Simplex"] /\
      (forall name, content fs name <> None ->
         In name ["output/DistMatrix_output.csv"; "output/neighGraph_output.csv"; "output/ripsPipe_output.csv";
                  "output/FastPersistence_bettis_output" ++ opt args "fn" ++ ".csv"; "output/tArray.csv"]%string).
  Proof.
    intros Dbg R.
    destruct (distMatrix_spec (list Z) (fun v => match v with [] => true | _ => false end) dist (atof e) data [])
      as (dm & ws & E & L1 & L2 & V & _); [constructor|].
    assert (Sep : forall u v, u < v -> v < length data -> dist_of dm u v = separation dist data u v).
    { intros u v Huv Hv. unfold dist_of, separation. destruct (nth_error data u) as [x|] eqn:Eu; [|apply nth_error_None in Eu; lia].
      destruct (nth_error data v) as [y|] eqn:Ev; [|apply nth_error_None in Ev; lia]. rewrite (V u v x y Eu Ev).
      destruct (Nat.ltb_spec u v); [|lia]. destruct x; [|reflexivity]. exfalso. apply nth_error_In in Eu. now apply (Hne []). }
    assert (U : upper_triangle dm (length data)).
    { intros u v Huv Hv. rewrite (L2 u) by lia. split; auto. rewrite Sep by auto. unfold separation.
      destruct (nth_error data u), (nth_error data v); auto; lia. }
    assert (Ent : forall u v, u < length data -> v < length data -> nth v (nth u dm []) 0%Z = if u <? v then separation dist data u v else 0%Z).
    { intros u v Hu Hv. destruct (nth_error data u) as [x|] eqn:Eu; [|apply nth_error_None in Eu; lia].
      destruct (nth_error data v) as [y|] eqn:Ev; [|apply nth_error_None in Ev; lia]. rewrite (V u v x y Eu Ev).
      unfold separation. rewrite Eu, Ev. destruct (u <? v); auto. destruct x; [|reflexivity]. exfalso. apply nth_error_In in Eu. now apply (Hne []). }
    assert (Hr' := Hr). destruct Hr' as [H1 H2 H3 H4 H5 (col & H6 & H7 & H8)].
    assert (Col : (String.eqb col "true" || String.eqb col "1") = false).
    { now rewrite (proj2 (String.eqb_neq col "true") H7), (proj2 (String.eqb_neq col "1") H8). }
    assert (Hcol : collapsing args = false) by (unfold collapsing, opt; now rewrite H6).
    unfold DebugModel.run_program_files. unfold PipeModel.run_program in R. unfold new_packet, newSimplex in R |- *.
    assert (Ho : opt args "complexType" = cx_name c) by (unfold opt; now rewrite H2). rewrite Ho, H3, H4 in R. rewrite Ho, H3, H4. cbn [bind] in R |- *.
    set (c0 := match c with Tree => CTree (atof e) (atoi d) (st_new [] nc0) | ArrayList => CArray (atof e) (atoi d) [] [] end).
    set (p := mkPacket data [] data [] (Some c0) [] [] []).
    match type of R with runPipeline _ _ _ _ ?p' = _ => assert (Ep : p' = p) by (unfold p, c0; destruct c; reflexivity); rewrite Ep in R end.
    match goal with |- context [runPipeline _ _ _ _ (?p', [])] => change p' with p || replace p' with p by (unfold p, c0; destruct c; reflexivity) end.
    assert (Hc : is_ind c0 && collapsing args = false) by (rewrite Hcol; apply andb_false_r).
    assert (N := noisy_plain dist atoi atof srt past_end al_reduce other other_output args d e p c0 H1 H3 H4 H5 eq_refl Hc).
    rewrite R in N. destruct N as (p1 & p2 & p3 & p4 & p5 & c2 & c4 & c6 & -> & R1 & C2 & S1 & R2 & C4 & S3 & R3 & C6).
    unfold all_files. rewrite Dbg, fast_name_eq. eexists. split; [reflexivity|].
    (* the complex on the way *)
    assert (Eo : opt args "epsilon" = e) by (unfold opt; now rewrite H4).
    unfold run_distMatrix in R1. rewrite Eo in R1. cbn [pk_data pk_weights p] in R1. rewrite E in R1. cbn [bind fst snd PipeModel.deref pk_complex] in R1.
    injection R1 as <-. cbn [pk_complex] in C2. injection C2 as <-.
    match type of S1 with add_stats KDistMatrix ?p = _ => destruct (stats_ok KDistMatrix p _ eq_refl) as (p2' & Q & D2 & D3 & _) end.
    assert (p2' = p2) by congruence. subst p2'. clear Q S1. cbn [pk_data] in D3.
    unfold run_neighGraph in R2. rewrite D3 in R2.
    assert (Dm : cx_distMatrix (cx_setDistanceMatrix dm c0) = dm) by (unfold c0; destruct c; reflexivity).
    assert (Cx : match c with
      | Tree => exists t, c4 = CTree (atof e) (atoi d) t /\ c6 = c4 /\ complex (fst (st_getAllEdges srt t)) /\
          lists_rips (separation dist data) (close Tree (atof e)) (length data) (Z.to_nat (atoi d)) (fst (st_getAllEdges srt t))
      | ArrayList => exists wg wg', c4 = CArray (atof e) (atoi d) dm wg /\ c6 = CArray (atof e) (atoi d) dm wg' /\
          al_run dm (atof e) (atoi d) (repeat (OpInsert false) (length data) ++ map OpExpand []) = Ok wg /\
          al_run dm (atof e) (atoi d) (repeat (OpInsert false) (length data) ++ map OpExpand [atoi d]) = Ok wg'
      end).
    { unfold run_rips in R3. rewrite H3 in R3. 
      match type of S3 with add_stats KNeighGraph ?p = _ => destruct (stats_ok KNeighGraph p _ C4) as (p4' & Q & D4 & _) end.
      assert (p4' = p4) by congruence. subst p4'. clear Q S3.
      unfold PipeModel.deref in R3. rewrite D4 in R3. fold (collapsing args) in R3. rewrite Hcol in R3. cbn [bind] in R3.
      destruct c; cbn [c0 cx_setDistanceMatrix] in D2.
      - change (st_setDistanceMatrix dm (st_new [] nc0)) with (st_new dm nc0) in D2.
        rewrite (neigh_tree srt _ _ _ _ _ D2 Hne) in R2.
        destruct (tree_built dm) as (t & T1 & T2 & T4); auto.
        rewrite T1 in R2. cbn [rmap bind] in R2. injection R2 as <-. cbn [pk_complex set_complex] in C4. injection C4 as <-.
        exists t. split; auto. cbn [cx_expand bind] in R3. injection R3 as <-. cbn in C6. injection C6 as <-. split; auto. split; auto.
        eapply lists_rips_ext; [|exact T4]; exact Sep.
      - rewrite (neigh_array _ _ _ _ _ _ D2 Hne) in R2. unfold al_run. rewrite !foldr_ub_app.
        destruct (foldr_ub (al_step dm (atof e) (atoi d)) [] (repeat (OpInsert false) (length data))) as [wg|] eqn:Ew; [|discriminate]. cbn [rmap bind] in R2.
        injection R2 as <-. cbn [pk_complex set_complex] in C4. injection C4 as <-. cbn [cx_expand] in R3.
        destruct (expandDimensions (atoi d) wg) as [wg'|] eqn:Ew'; [|discriminate]. cbn [rmap bind] in R3. injection R3 as <-. cbn in C6. injection C6 as <-.
        exists wg, wg'. cbn [map foldr_ub bind al_step]. rewrite Ew'. auto. }
    clear R2 C4 S3 R3 C6 D2 D3.
    set (nm := ("output/FastPersistence_bettis_output" ++ opt args "fn" ++ ".csv")%string).
    assert (B1 : String.eqb nm "output/DistMatrix_output.csv" = false) by reflexivity.
    assert (B2 : String.eqb nm "output/neighGraph_output.csv" = false) by reflexivity.
    assert (B3 : String.eqb nm "output/ripsPipe_output.csv" = false) by reflexivity.
    assert (B4 : String.eqb nm "output/tArray.csv" = false) by reflexivity.
    assert (B5 : String.eqb "output/tArray.csv" nm = false) by reflexivity.
    assert (B0 : String.eqb nm nm = true) by apply String.eqb_refl.
    assert (Nm : forall (fs : files) name, content fs name <> None -> In name (map fst fs)).
    { clear. induction fs as [|[n rows] fs IH]; cbn; intros name H; [easy|]. destruct (content fs name) eqn:Q; [right; apply IH; congruence|].
      destruct (String.eqb_spec n name); [now left|easy]. }
    rewrite Dm. clearbody nm. clear Dm.
    match goal with |- _ /\ _ /\ _ /\ _ /\ _ /\ ?P => assert (Last : P) end.
    { intros name H. apply Nm in H. destruct c6; cbn [map fst app rips_files In] in H |- *; tauto. }
    match goal with |- _ /\ _ /\ _ /\ _ /\ _ /\ ?P => set (LastP := P) in * end. clearbody LastP. destruct c.
    - destruct Cx as (t & -> & -> & T2 & T4). cbn [rips_files neigh_rows app]. cbn [content fst snd]. rewrite ?B0, ?B1, ?B2, ?B3, ?B4, ?B5. cbn.
      split; [exists dm; auto|]. split; [eexists; split; [reflexivity|]|].
      { destruct (st_getAllEdges srt t) as [edges t']. cbn [fst] in *. now apply rips_rows. }
      split; auto.
    - destruct Cx as (wg & wg' & -> & -> & W1 & W2). cbn [rips_files neigh_rows app]. remember (if 1 <? length wg then graph_rows [nth 1 wg []] else []) as g1 eqn:Hg1. cbn [content fst snd]. rewrite ?B0, ?B1, ?B2, ?B3, ?B4, ?B5. cbn.
      assert (T1 : fold_left (fun k e => Nat.max k (to_unsigned e)) [] 1 = 1) by reflexivity.
      assert (T2 : fold_left (fun k e => Nat.max k (to_unsigned e)) [atoi d] 1 = Z.to_nat (atoi d)).
      { cbn [fold_left]. unfold to_unsigned. rewrite !Z.mod_small by lia. lia. }
      destruct (array_list_raw dm (atof e) (atoi d) (length data) [] 1 U ltac:(lia) T1) as (x & Q & X1). assert (x = wg) by congruence. subst x. clear Q.
      destruct (array_list_raw dm (atof e) (atoi d) (length data) _ _ U ltac:(lia) T2) as (x & Q & X2). assert (x = wg') by congruence. subst x. clear Q.
      apply (lists_rips_ext _ (separation dist data)) in X1, X2; auto.
      destruct (ArrayListHist.array_list_closed _ _ _ _ _ (covers_inserts dm (length data) [] U) W1) as (N1 & _).
      destruct (ArrayListHist.array_list_closed _ _ _ _ _ (covers_inserts dm (length data) [atoi d] U) W2) as (N2 & _).
      split; [exists dm; auto|]. split; [|split; [|split; [|split]]]; auto.
      + eexists. split; [reflexivity|]. destruct X1 as [X1 Xn].
        assert (Q : g1 = graph_rows [[]; level wg 1]).
        { rewrite Hg1. destruct (Nat.ltb_spec 1 (length wg)); [reflexivity|]. unfold level. rewrite nth_overflow by auto. reflexivity. }
        rewrite Q. apply graph_rows_lists.
        * intros [|[|[|k]]]; try constructor. apply (N1 1).
        * intros [|[|[|k]]] s w H; try destruct H. now apply X1 in H.
        * intros s w. unfold rips_between, rips_simplex. split.
          -- intros ([|[|[|k]]] & H); try destruct H. apply X1 in H as (Ls & _ & F & Dm). split; auto. split; auto. lia.
          -- intros (F & Ls & Dm). exists 1. apply X1. split; [lia|]. auto.
      + eexists. split; [reflexivity|]. destruct X2 as [X2 Xn]. apply graph_rows_lists; auto; [intros k s w H; now apply X2 in H|].
        intros s w. unfold rips_between, rips_simplex. split.
        * intros (k & H). apply X2 in H as (Ls & K & F & Dm). split; auto. split; auto. lia.
        * intros (F & Ls & Dm). exists (length s - 1). apply X2. split; [lia|]. split; [lia|]. auto.
  Qed.
End Files.

(* An indSimplexTree that has been asked for its edges answers the same after reduceComplex. *)
Lemma frozen eps md dm nc0 srt ops t edges t1 : ilegal dm ops -> ind_run eps md srt (ind_new dm nc0) ops = Ok t ->
  ind_getAllEdges srt t = (edges, t1) ->
  exists t2, ind_reduce md t1 = Ok t2 /\ ind_getAllEdges srt t2 = (edges, t2).
Proof.
  intros Lg E G.
  assert (Lg1 : ilegal dm (ops ++ [IGetAll])).
  { intros a o b Q. destruct b as [|x b] using rev_ind.
    - apply app_inj_tail in Q as [-> <-]. exact I.
    - clear IHb. rewrite app_comm_cons, app_assoc in Q. apply app_inj_tail in Q as [-> <-]. now apply (Lg a o b). }
  assert (E1 : ind_run eps md srt (ind_new dm nc0) (ops ++ [IGetAll]) = Ok t1).
  { unfold ind_run in *. rewrite foldr_ub_app, E. cbn [bind foldr_ub ind_step]. rewrite G. reflexivity. }
  destruct (reduce_theorem eps md dm nc0 srt _ t1 Lg1 E1) as (t2 & freed & R & (_ & _ & _ & _ & Hsd & Hg) & Ld & _).
  exists t2. split.
  - unfold ind_reduce. rewrite R; [reflexivity|]. unfold level. lia.
  - unfold ind_getAllEdges in G |- *. destruct (i_dims t) as [|l0 dims] eqn:D.
    + injection G as <- <-. rewrite D in Ld. destruct (i_dims t2); [reflexivity|discriminate].
    + assert (S1 : i_sorted t1 = true /\ i_graph t1 = edges /\ i_dims t1 <> []).
      { destruct (i_sorted t) eqn:Es; injection G as <- <-; [rewrite D; easy|]. cbn. repeat split. destruct (i_dims t) eqn:D'; [easy|]. cbn. easy. }
      destruct S1 as (S1 & S2 & S3). destruct (i_dims t2) as [|? ?]; [destruct (i_dims t1); [easy|discriminate]|].
      rewrite Hsd, S1, Hg, S2. reflexivity.
Qed.

Section IndDebug.
  Variable dist : list Z -> list Z -> Z.
  Variables atoi atof : string -> Z.
  Variable srt : list wsimp -> list wsimp.
  Variable past_end : list nat -> nat -> res nat.
  Variable nc0 : Z.
  Variable al_reduce : wgraph -> res wgraph.
  Variable other : pipe_kind -> amap -> packet -> res packet.
  Variable other_output : pipe_kind -> packet -> files -> res (packet * files).
  Notation run_program := (run_program dist atoi atof srt past_end nc0 al_reduce other).
  Notation run_program_files := (run_program_files dist atoi atof srt past_end nc0 al_reduce other other_output).

  (* With debug output collapse is without effect on the bars. *)
  Theorem ind_debug args args0 d e data : ind_options args d e true -> ind_options args0 d e false -> debugging atoi args = true ->
    (forall x, In x data -> x <> []) -> (forall x y, (0 <= dist x y)%Z) -> (0 < atoi d < 2 ^ 31 - 1)%Z ->
    match run_program args0 data with
    | UB => run_program_files args data = UB
    | Ok None => False
    | Ok (Some (q, failed)) => exists p fs, run_program_files args data = Ok (Some (p, fs, failed)) /\ pk_output p = pk_output q /\ pk_table p = pk_table q
    end.
  Proof.
    intros Hr H0 Dbg Hne Hpos Hd.
    destruct (ind_program dist atoi atof srt past_end nc0 al_reduce other args0 d e false data H0 Hne Hpos Hd) as (dm & ws & E & L & U & Sep & P1 & P2).
    assert (Lg : ilegal dm (repeat IInsert (length data))).
    { destruct data as [|x0 data0] eqn:Ed; [intros [|? ?] o b Q; discriminate|]. rewrite <- Ed in *.
      assert (Hdm : dm <> []) by (intros ->; rewrite Ed in L; discriminate).
      apply ilegal_inserts; auto. intros m Hm j i Hj Hi. apply U; lia. }
    destruct Hr as [H1 H2 H3 H4 H5 (cv & H6 & H7)].
    assert (Col : (String.eqb cv "true" || String.eqb cv "1") = true) by (destruct H7 as [->| ->]; reflexivity).
    assert (Files : forall t edges t1 t2, ind_run (atof e) (atoi d) srt (ind_new dm nc0) (repeat IInsert (length data)) = Ok t ->
      ind_getAllEdges srt t = (edges, t1) -> ind_reduce (atoi d) t1 = Ok t2 -> ind_getAllEdges srt t2 = (edges, t2) ->
      exists fin files, run_program_files args data = (do r <- fp_run past_end (atoi d) (atof e) edges []; Ok (Some (fin r, files r, []))) /\
        forall r, (pk_output (fin r), pk_table (fin r)) = result r).
    { intros t edges t1 t2 T1 G1 Rd G2. 
      unfold DebugModel.run_program_files, new_packet, newSimplex, opt. rewrite H2, H3, H4.
      change (String.eqb "indSimplexTree" "simplexTree") with false. change (String.eqb "indSimplexTree" "simplexArrayList") with false.
      change (String.eqb "indSimplexTree" "indSimplexTree") with true. cbn [bind].
      rewrite (any_four (packet * files) _ _ args d e _ H1 H3 H4 H5). cbn [run_pipe fst snd].
      unfold run_distMatrix, opt. rewrite H4. cbn [pk_data pk_weights pk_complex].
      rewrite E. cbn [bind fst snd PipeModel.deref pk_complex cx_setDistanceMatrix].
      change (ind_setDistanceMatrix dm (ind_new [] nc0)) with (ind_new dm nc0).
      rewrite (so_eq atoi srt other_output args KDistMatrix).
      match goal with |- context [add_stats KDistMatrix ?p] => destruct (stats_ok KDistMatrix p _ eq_refl) as (p2 & -> & C2 & D2 & O2 & B2) end.
      cbn [bind pk_data pk_output pk_table] in *. rewrite Dbg. cbn [output_data]. unfold output_distMatrix at 1, PipeModel.deref at 1. rewrite C2. cbn [bind fst snd].
      unfold run_neighGraph. rewrite D2. rewrite (neigh_ind srt _ _ _ _ _ C2 Hne). rewrite T1. cbn [rmap bind fst snd].
      rewrite (so_eq atoi srt other_output args KNeighGraph).
      match goal with |- context [add_stats KNeighGraph ?p] => destruct (stats_ok KNeighGraph p _ eq_refl) as (p4 & -> & C4 & D4 & O4 & B4) end.
      cbn [bind pk_data pk_output pk_table set_complex] in *. rewrite Dbg. cbn [output_data]. unfold output_neighGraph at 1, PipeModel.deref at 1. rewrite C4.
      cbn [bind fst snd cx_getAllEdges]. rewrite G1. cbn [bind fst snd].
      unfold run_rips, opt. rewrite H3, H6. unfold PipeModel.deref at 1. cbn [pk_complex set_complex bind cx_expand]. rewrite Col, Rd. cbn [rmap bind fst snd].
      rewrite (so_eq atoi srt other_output args KRips).
      match goal with |- context [add_stats KRips ?p] => destruct (stats_ok KRips p _ eq_refl) as (p6 & -> & C6 & D6 & O6 & B6) end.
      cbn [bind pk_data pk_output pk_table set_complex] in *. rewrite Dbg. cbn [output_data]. unfold output_rips at 1, PipeModel.deref at 1. rewrite C6. cbn [bind fst snd].
      unfold run_fast, opt. rewrite H3, H4. unfold PipeModel.deref at 1. rewrite C6. cbn [bind fst snd cx_expand].
      assert (Pos : (0 <? atoi d)%Z = true) by (apply Z.ltb_lt; lia). rewrite Pos. cbn [bind cx_getAllEdges]. rewrite G2.
      assert (Tab : pk_table p6 = []) by congruence. assert (Out : pk_output p6 = []) by congruence. rewrite Tab.
      eexists (fun r => mkPacket (pk_data p6) (pk_labels p6) (pk_full p6) (pk_weights p6) (Some (CInd (atof e) (atoi d) t2)) (fst (result r)) (snd (result r))
                       (pk_stats p6 ++ [(KFastPersistence, cx_vertexCount (CInd (atof e) (atoi d) t2), cx_simplexCount (CInd (atof e) (atoi d) t2))])).
      exists (fun r => (([] ++ [("output/DistMatrix_output.csv"%string, map RNumbers dm)]) ++ [("output/neighGraph_output.csv"%string, graph_rows edges ++ [RText ""])]) ++
        [(fast_name args, map RBar (fst (result r))); ("output/tArray.csv"%string, [RText "ti,Dim,Marked,Birth,Death,Simplex"])]). split; [|intros r; cbn; now destruct (result r)].
      destruct (fp_run past_end (atoi d) (atof e) edges []) as [r|]; cbn [bind]; [|reflexivity].
      destruct r as [[lines tab]|]; cbn [bind].
      - rewrite (so_eq atoi srt other_output args KFastPersistence). unfold add_stats at 1, PipeModel.deref at 1. cbn [pk_complex set_complex bind]. rewrite Dbg. cbn [output_data].
        reflexivity.
      - rewrite (so_eq atoi srt other_output args KFastPersistence). unfold add_stats at 1, PipeModel.deref at 1. cbn [pk_complex set_complex bind]. rewrite Dbg. cbn [output_data].
        unfold output_fast. cbn [bind pk_output set_complex pk_table pk_data pk_labels pk_full pk_weights pk_stats]. rewrite Out, Tab. reflexivity. }
    destruct (ind_run (atof e) (atoi d) srt (ind_new dm nc0) (repeat IInsert (length data))) as [t|] eqn:T1.
    - destruct (P2 t t eq_refl eq_refl) as (finish & F1 & F2). rewrite F1.
      destruct (ind_getAllEdges srt t) as [edges t1] eqn:G1. cbn [fst].
      destruct (frozen _ _ _ _ _ _ _ _ _ Lg T1 G1) as (t2 & Rd & G2).
      destruct (Files t edges t1 t2 eq_refl G1 Rd G2) as (fin & fls & -> & F3).
      destruct (fp_run past_end (atoi d) (atof e) edges []) as [r|]; cbn [bind]; [|reflexivity].
      exists (fin r), (fls r). split; auto. destruct (F2 r) as [F4 _]. rewrite <- F3 in F4. now injection F4 as -> ->.
    - rewrite (P1 eq_refl).
      unfold DebugModel.run_program_files, new_packet, newSimplex, opt. rewrite H2, H3, H4.
      change (String.eqb "indSimplexTree" "simplexTree") with false. change (String.eqb "indSimplexTree" "simplexArrayList") with false.
      change (String.eqb "indSimplexTree" "indSimplexTree") with true. cbn [bind].
      rewrite (any_four (packet * files) _ _ args d e _ H1 H3 H4 H5). cbn [run_pipe fst snd].
      unfold run_distMatrix, opt. rewrite H4. cbn [pk_data pk_weights pk_complex].
      rewrite E. cbn [bind fst snd PipeModel.deref pk_complex cx_setDistanceMatrix].
      change (ind_setDistanceMatrix dm (ind_new [] nc0)) with (ind_new dm nc0).
      rewrite (so_eq atoi srt other_output args KDistMatrix).
      match goal with |- context [add_stats KDistMatrix ?p] => destruct (stats_ok KDistMatrix p _ eq_refl) as (p2 & -> & C2 & D2 & O2 & B2) end.
      cbn [bind pk_data pk_output pk_table] in *. rewrite Dbg. cbn [output_data]. unfold output_distMatrix at 1, PipeModel.deref at 1. rewrite C2. cbn [bind fst snd].
      unfold run_neighGraph. rewrite D2. rewrite (neigh_ind srt _ _ _ _ _ C2 Hne). rewrite T1. reflexivity.
  Qed.
End IndDebug.
