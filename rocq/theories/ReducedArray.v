(* ReducedArray.v -- the reduced mode on the two complexes other than the simplexTree. *)
From Coq Require Import String Ascii List Arith ZArith Bool Lia Sorted Permutation Relations.
From Verif Require Import Base RunMonad UtilsModel ArrayListModel TreeModel FastModel ArgModel IoModel IndModel IndReduceModel PipeModel MainModel.
From Verif Require Import Spec SpecIo SpecComplex SpecTree SpecArgs SpecGraph SpecLinear SpecFast SpecPipe SpecIndRun SpecMain.
From Verif Require Import PartitionProofs UtilsProofs ArrayListProofs ArgProofs IoProofs KruskalProofs ArrayListHist TreeHist FastProofs FastRuns PipeProofs PipeRuns MainProofs MainRuns IndRuns.
Import ListNotations.
Local Open Scope nat_scope.
Local Open Scope list_scope.

Section Array.
  Variable dist : list Z -> list Z -> Z.
  Variables atoi atof : string -> Z.
  Variable srt : list wsimp -> list wsimp.
  Variable past_end : list nat -> nat -> res nat.
  Variable al_reduce : wgraph -> res wgraph.
  Variable other : pipe_kind -> amap -> packet -> res packet.
  Variable uaf : res unit.
  Variables (args : amap) (d e : string).
  Hypothesis Hs : is_sort srt.
  Hypothesis Hr : default_run args ArrayList d e.
  Hypothesis Hpos : forall x y, (0 <= dist x y)%Z.
  Hypothesis Hd : (0 < atoi d < 2 ^ 31 - 1)%Z.
  Notation eps := (atof e).
  Notation md := (atoi d).
  Notation pipeline := (runPipeline packet (run_pipe dist atoi atof srt past_end al_reduce other) add_stats).
  Notation run_and_write := (run_and_write dist atoi atof srt past_end al_reduce other args).
  Notation reduced_step := (reduced_step dist atoi atof srt past_end al_reduce other uaf args).
  Definition two_close (g : list (list Z)) : Prop := exists u v, u < v /\ v < length g /\ close ArrayList eps (separation dist g u v).
  Definition linkage_bars (g : list (list Z)) (out : list (nat * Z * Z)) : Prop :=
    exists deaths, dim0 out = map (fun w => (0, 0%Z, w)) deaths ++ [(0, 0%Z, eps)] /\
      forall t n, clusters dist g ArrayList eps t n <-> count_le t deaths + n = length g.

  Lemma array_run p dm0 : pk_complex p = Some (CArray eps md dm0 []) -> decreasing (pk_weights p) ->
    pk_data p <> [] -> (forall x, In x (pk_data p) -> x <> []) ->
    exists edges dm wg ws stats, complex edges /\ filtered edges /\
      lists_rips (separation dist (pk_data p)) (close ArrayList eps) (length (pk_data p)) (Z.to_nat (top ArrayList md)) edges /\ decreasing ws /\
      pipeline args p = match fp_run past_end md eps edges (pk_table p) with
        | Ok (Some (l, tab)) => Ok (Some (mkPacket (pk_data p) (pk_labels p) (pk_full p) ws (Some (CArray eps md dm wg)) l tab stats, []))
        | _ => UB
        end.
  Proof.
    intros Hc Dw Hne Hrow. set (data := pk_data p) in *.
    destruct (distMatrix_spec (list Z) (fun v => match v with [] => true | _ => false end) dist eps data (pk_weights p) Dw)
      as (dm & ws & E & L1 & L2 & Vd & Dw' & _).
    assert (Sep : forall u v, u < v -> v < length data -> dist_of dm u v = separation dist data u v).
    { intros u v Huv Hv. unfold dist_of, separation. destruct (nth_error data u) as [x|] eqn:Eu; [|apply nth_error_None in Eu; lia].
      destruct (nth_error data v) as [y|] eqn:Ev; [|apply nth_error_None in Ev; lia]. rewrite (Vd u v x y Eu Ev).
      destruct (Nat.ltb_spec u v); [|lia]. destruct x; [|reflexivity]. exfalso. apply nth_error_In in Eu. now apply (Hrow []). }
    assert (U : upper_triangle dm (length data)).
    { intros u v Huv Hv. rewrite (L2 u) by lia. split; auto. rewrite Sep by auto. unfold separation.
      destruct (nth_error data u), (nth_error data v); auto; lia. }
    destruct (array_list_edges dm eps md (length data) srt eps Hs U Hd) as (wg & W1 & W2 & W3 & W4). cbv zeta in W2, W3, W4.
    assert (W5 := lists_rips_ext _ _ _ _ _ _ Sep W4).
    set (edges := getAllEdges srt wg eps) in *.
    unfold al_run in W1. rewrite foldr_ub_app in W1.
    destruct (foldr_ub (al_step dm eps md) [] (repeat (OpInsert false) (length data))) as [wg1|] eqn:E1; [|discriminate].
    cbn [bind map foldr_ub al_step] in W1.
    destruct (expandDimensions md wg1) as [wg2|] eqn:E2; [|discriminate]. cbn [bind] in W1.
    destruct (expandDimensions (md + 1) wg2) as [wg3|] eqn:E3; [|discriminate]. cbn [bind] in W1. injection W1 as ->.
    assert (Hr' := Hr). destruct Hr' as [H1 H2 H3 H4 H5 (col & H6 & H7 & H8)].
    assert (Col : (String.eqb col "true" || String.eqb col "1") = false).
    { now rewrite (proj2 (String.eqb_neq col "true") H7), (proj2 (String.eqb_neq col "1") H8). }
    exists edges, dm, wg, ws. eexists. split; [exact W2|]. split; [exact W3|]. split; [exact W5|]. split; [exact Dw'|].
    rewrite (run_default dist atoi atof srt past_end al_reduce other args ArrayList d e p Hr).
    unfold run_distMatrix, opt. rewrite H4. fold data. rewrite E. cbn [bind fst snd]. unfold PipeModel.deref at 1. rewrite Hc. cbn [bind cx_setDistanceMatrix].
    unfold add_stats at 1. unfold PipeModel.deref at 1. cbn [pk_complex bind pk_data pk_labels pk_full pk_weights pk_output pk_table pk_stats].
    unfold run_neighGraph. cbn [pk_data].
    rewrite (neigh_array eps md dm data _ []) by auto. rewrite E1. cbn [rmap bind].
    unfold add_stats at 1. unfold PipeModel.deref at 1. unfold set_complex at 1 2 3 4 5 6 7 8 9. cbn [pk_complex bind pk_data pk_labels pk_full pk_weights pk_output pk_table pk_stats].
    unfold run_rips, opt. rewrite H3, H6. unfold PipeModel.deref at 1. cbn [pk_complex bind cx_expand]. rewrite E2. cbn [rmap bind]. rewrite Col. cbn [bind].
    unfold add_stats at 1. unfold PipeModel.deref at 1. unfold set_complex at 1 2 3 4 5 6 7 8 9. cbn [pk_complex bind pk_data pk_labels pk_full pk_weights pk_output pk_table pk_stats].
    unfold run_fast, opt. rewrite H3, H4. unfold PipeModel.deref at 1. cbn [pk_complex bind].
    destruct (Z.ltb_spec 0 md); [|lia]. cbn [cx_expand]. rewrite E3. cbn [rmap bind cx_getAllEdges]. fold edges. cbn [pk_table].
    destruct (fp_run past_end md eps edges (pk_table p)) as [[[lines tab]|]|] eqn:Ef; cbn [bind].
    - unfold add_stats, PipeModel.deref. cbn [pk_complex bind]. unfold set_complex. cbn [pk_data pk_labels pk_full pk_weights pk_output pk_table pk_stats pk_complex]. reflexivity.
    - exfalso. apply fp_none in Ef. destruct (rips_levels dist data ArrayList eps (Z.to_nat (top ArrayList md)) ltac:(cbn; lia) edges W5 W2) as [_ L0]. apply Hne, L0. now rewrite Ef.
    - reflexivity.
  Qed.

  Definition ainv (p : packet) : Prop := exists dm, pk_complex p = Some (CArray eps md dm []) /\ decreasing (pk_weights p).

  Lemma array_step p g p' fs p'' : ainv p -> g <> [] -> (forall x, In x g -> x <> []) ->
    run_and_write (with_data p g) = Ok (p', fs) -> clear_complex uaf p' = Ok p'' ->
    ainv p'' /\ fs = names args [pk_output p''] /\ linkage_bars g (pk_output p'') /\ two_close g.
  Proof.
    intros (dm0 & Ec & Dw) Hne Hrow H1 H2.
    destruct (array_run (with_data p g) dm0 Ec Dw Hne Hrow) as (edges & dm & wg & ws & stats & C & F & L & Dw' & E).
    cbn [pk_data with_data pk_table pk_labels pk_full] in *. unfold MainModel.run_and_write in H1. rewrite E in H1. clear E.
    destruct (fp_run past_end md eps edges (pk_table p)) as [[[lines tab]|]|] eqn:Ef; try discriminate. cbn [bind] in H1. injection H1 as <- <-.
    unfold clear_complex, PipeModel.deref in H2. cbn [pk_complex bind] in H2. injection H2 as <-. unfold set_complex. cbn [pk_output pk_table].
    assert (T : 1 <= Z.to_nat (top ArrayList md)) by (cbn; lia).
    split; [exists dm; split; [reflexivity|exact Dw']|]. split; [unfold names; destruct (writes_output args); reflexivity|]. split.
    - destruct (dim0_components past_end md eps edges _ lines tab C (fl_sorted _ F 1) Ef) as (deaths & D1 & D2).
      exists deaths. split; auto. intros t n. rewrite <- (rips_clusters dist g ArrayList eps _ T edges L C).
      destruct (complex_vertices _ C) as (_ & NV & _ & GV). assert (RC := rips_count dist g ArrayList eps _ T edges L C).
      assert (Gt : graph_on (vertices edges) (up_to t (level edges 1))).
      { intros s w Hw. apply filter_In in Hw. now apply (GV s w). }
      destruct (components_exist _ _ NV GV) as (c1 & C1). destruct (components_exist _ _ NV Gt) as (c0 & C0).
      split.
      + intros Hn. destruct (D2 t n c1 Hn C1) as (Q & _). lia.
      + intros Q. destruct (D2 t c0 c1 C0 C1) as (Q' & _). replace n with c0 by lia. exact C0.
    - apply (rips_levels dist g ArrayList eps _ T edges L C). apply fp_any in Ef as (new & newt & L2 & _). exact L2.
  Qed.

  Lemma array_step_ok p g : (md = 1)%Z -> ainv p -> g <> [] -> (forall x, In x g -> x <> []) -> two_close g ->
    exists p' fs p'', run_and_write (with_data p g) = Ok (p', fs) /\ clear_complex uaf p' = Ok p'' /\
      forall b x, In b (pk_table p'') -> In x (boundaryPoints b) -> In b (pk_table p) \/ x < length g.
  Proof.
    intros D1 (dm0 & Ec & Dw) Hne Hrow Htwo.
    destruct (array_run (with_data p g) dm0 Ec Dw Hne Hrow) as (edges & dm & wg & ws & stats & C & F & L & Dw' & E).
    cbn [pk_data with_data pk_table pk_labels pk_full] in *. unfold MainModel.run_and_write. rewrite E. clear E.
    assert (T : 1 <= Z.to_nat (top ArrayList md)) by (cbn; lia).
    assert (L2 := proj2 (proj1 (rips_levels dist g ArrayList eps _ T edges L C)) Htwo).
    destruct (complex_vertices _ C) as (EV & NV & LV & GV).
    assert (Ef : fp_run past_end md eps edges (pk_table p) =
      let k := kruskal (length (level edges 0)) (level edges 1) (pk_table p) in
      Ok (Some (map (fun w => (0, 0%Z, w)) (k_mst k) ++ [(0, 0%Z, eps)], k_tab k ++ [mkBetti 0 0 eps []]))).
    { rewrite D1. destruct edges as [|e0 [|e1 edges']]; [cbn in L2; lia|cbn in L2; lia|]. reflexivity. }
    rewrite Ef. cbv zeta. cbn [bind]. do 3 eexists. split; [reflexivity|]. split; [reflexivity|].
    unfold set_complex. cbn [pk_table]. intros b x Hb Hx. apply in_app_iff in Hb as [Hb|[<-|[]]]; [|destruct Hx].
    unfold kruskal in Hb. destruct (loop_points (length (level edges 0)) (level edges 1) (mkK [] [] [] (pk_table p) 0)) as (u & Eu & Pu).
    rewrite Eu in Hb. cbn [k_tab] in Hb. apply in_app_iff in Hb as [Hb|Hb]; [now left|]. right. destruct (Pu b Hb) as (y & s & w & I1 & I2 & I3).
    rewrite I3 in Hx. destruct Hx as [<-|[]]. apply (rips_vertices dist g ArrayList eps _ T edges L C).
    destruct (GV s w I1) as (v1 & v2 & -> & _ & V1 & V2). destruct I2 as [<-|[<-|[]]]; auto.
  Qed.

  Lemma array_fold zs : (forall lab part, In (lab, part) zs -> length lab = length part /\ forall x, In x part -> x <> []) ->
    forall p files q files', ainv p -> foldr_ub reduced_step (p, files) zs = Ok (q, files') ->
    let gs := filter non_empty (map snd zs) in
    exists outs, files' = files ++ names args outs /\ Forall2 linkage_bars gs outs /\ ainv q /\ (forall g, In g gs -> two_close g).
  Proof.
    induction zs as [|(lab, part) zs IH]; intros Hz p files q files' V H gs.
    - cbn in H. injection H as <- <-. subst gs. cbn. exists []. unfold names.
      split; [destruct (writes_output args); now rewrite app_nil_r|]. split; [constructor|]. split; [exact V|easy].
    - cbn [foldr_ub] in H. unfold MainModel.reduced_step in H at 1. cbn [map snd filter] in gs.
      destruct (Hz lab part (or_introl eq_refl)) as [Lz Rz]. assert (Hz' := fun l q Q => Hz l q (or_intror Q)). clear Hz.
      destruct part as [|x0 part0].
      + cbn [non_empty] in gs. cbn [bind] in H. apply IH with (1 := Hz') (2 := V) (3 := H).
      + cbv beta iota in H. cbn [non_empty] in gs. set (part := x0 :: part0) in *.
        destruct (run_and_write (with_data p part)) as [[p' fs]|] eqn:E1; [|discriminate]. cbn [bind fst snd] in H.
        destruct (clear_complex uaf p') as [p''|] eqn:E2; [|discriminate]. cbn [bind] in H.
        destruct (mapPartitionIndexing lab (pk_table p'')) as [tb|] eqn:E3; [|discriminate]. cbn [bind] in H.
        destruct (array_step p part p' fs p'' V ltac:(easy) Rz E1 E2) as (V1 & Hf & Hb & Hp).
        destruct (IH Hz' _ _ _ _ V1 H) as (outs & O1 & O2 & O3 & O4). clear IH. cbn zeta in *.
        exists (pk_output p'' :: outs). split; [|split; [|split]].
        * rewrite O1, Hf. unfold names. destruct (writes_output args); cbn; now rewrite <- ?app_assoc.
        * constructor; auto.
        * exact O3.
        * intros g [<-|Hg]; auto.
  Qed.

  Lemma array_fold_ok zs : (md = 1)%Z -> (forall lab part, In (lab, part) zs -> length lab = length part /\ forall x, In x part -> x <> []) ->
    let gs := filter non_empty (map snd zs) in
    (forall g, In g gs -> two_close g) -> (forall gs1 g gs2, gs = gs1 ++ g :: gs2 -> forall h, In h gs2 -> length g <= length h) ->
    forall p files, ainv p -> (forall b x, In b (pk_table p) -> In x (boundaryPoints b) -> forall h, In h gs -> x < length h) ->
    exists q files', foldr_ub reduced_step (p, files) zs = Ok (q, files').
  Proof.
    intros D1. induction zs as [|(lab, part) zs IH]; intros Hz gs Tw Or p files V Tb; [exists p, files; reflexivity|].
    cbn [foldr_ub]. unfold MainModel.reduced_step at 1. cbn [map snd filter] in gs.
    destruct (Hz lab part (or_introl eq_refl)) as [Lz Rz]. assert (Hz' := fun l q Q => Hz l q (or_intror Q)). clear Hz.
    destruct part as [|x0 part0]; [cbn [bind]; apply IH; auto|].
    cbv beta iota. cbn [non_empty] in gs. set (part := x0 :: part0) in *.
    destruct (array_step_ok p part D1 V ltac:(easy) Rz (Tw part (or_introl eq_refl))) as (p' & fs & p'' & E1 & E2 & Ht).
    rewrite E1. cbn [bind fst snd]. rewrite E2. cbn [bind].
    destruct (array_step p part p' fs p'' V ltac:(easy) Rz E1 E2) as (V1 & _).
    rewrite (proj1 (mapPartitionIndexing_noop lab (pk_table p''))).
    - cbn [bind]. apply IH; auto.
      + intros g Hg. apply Tw. now right.
      + intros gs1 g gs2 Q. apply (Or (part :: gs1)). cbn. now rewrite <- Q.
      + intros b x Hb Hx h Hh. destruct (Ht b x Hb Hx) as [K|K].
        * apply (Tb b x K Hx). now right.
        * apply Nat.lt_le_trans with (1 := K). exact (Or [] part _ eq_refl h Hh).
    - intros b x Hb Hx. rewrite Lz. destruct (Ht b x Hb Hx) as [K|K]; auto. apply (Tb b x K Hx). now left.
  Qed.
End Array.

(* ---- the groups of the wrapper *)
Lemma group_rows dist rad (cs data : list (list Z)) labels it pt : length labels <= length data -> separatePartitionsRad dist rad cs data labels = Ok (it, pt) ->
  (forall x, In x data -> x <> []) ->
  map snd (combine it pt) = pt /\ forall lab part, In (lab, part) (combine it pt) -> length lab = length part /\ forall x, In x part -> x <> [].
Proof.
  intros Ll Es Hrow. destruct (separatePartitionsRad_ok dist rad cs data labels Ll) as (it' & pt' & Es' & T).
  rewrite Es in Es'. injection Es' as <- <-. destruct T as (T1 & T2 & T3). split.
  - clear - T1 T2. revert pt T2. rewrite <- T1. clear T1. induction it as [|a it IH]; intros [|b pt] L; try easy. cbn. f_equal. apply IH. cbn in L. lia.
  - intros lab part Hi. apply In_nth_error in Hi as (j & Hj). assert (Lj : j < length (combine it pt)) by (apply nth_error_Some; congruence).
    rewrite combine_length in Lj. destruct (T3 j ltac:(lia)) as (idx & pts & J1 & J2 & _ & _ & F).
    assert (Q : nth_error (combine it pt) j = Some (idx, pts)).
    { clear - J1 J2. revert pt j J1 J2. induction it as [|a it IH]; intros [|b pt] [|j] J1 J2; try discriminate; cbn in *; [congruence|auto]. }
    rewrite Q in Hj. injection Hj as <- <-. split; [now apply Forall2_len in F|]. intros x Hx. apply Hrow.
    clear - F Hx. induction F as [|i y idx pts Hy F IH]; [easy|]. destruct Hx as [<-|Hx]; auto. now apply nth_error_In in Hy.
Qed.

Section Wrapper.
  Variable dist : list Z -> list Z -> Z.
  Variables atoi atof : string -> Z.
  Variable srt : list wsimp -> list wsimp.
  Variable past_end : list nat -> nat -> res nat.
  Variable al_reduce : wgraph -> res wgraph.
  Variable other : pipe_kind -> amap -> packet -> res packet.
  Variable pre_run : pre_kind -> amap -> packet -> res packet.
  Variable pre_stats : pre_kind -> packet -> res packet.
  Variable uaf : res unit.
  Variables (args : amap) (d e : string).
  Hypothesis Hs : is_sort srt.
  Hypothesis Hr : default_run args ArrayList d e.
  Hypothesis Hpos : forall x y, (0 <= dist x y)%Z.
  Hypothesis Hd : (0 < atoi d < 2 ^ 31 - 1)%Z.
  Notation eps := (atof e).
  Notation md := (atoi d).
  Notation wrapper := (processReducedWrapper dist atoi atof srt past_end al_reduce other pre_run pre_stats uaf args).
  Notation two_close := (two_close dist atof e).
  Notation linkage_bars := (linkage_bars dist atof e).

  Theorem array_groups p p1 r it pt : preprocess packet pre_run pre_stats args p = Ok p1 ->
    pk_complex p1 = Some (CArray eps md [] []) -> pk_weights p1 = [] -> pk_table p1 = [] ->
    (forall x, In x (pk_data p1) \/ In x (pk_full p1) -> x <> []) ->
    computeMaxRadius dist (pk_data p1) (pk_full p1) (pk_labels p1) = Ok r ->
    separatePartitionsRad dist (2 * r) (pk_data p1) (pk_full p1) (pk_labels p1) = Ok (it, pt) ->
    let parts := filter non_empty pt in
    let groups := filter non_empty (pt ++ [pk_data p1]) in
    (forall q files, wrapper p = Ok (q, files) ->
       exists outs, files = names args outs /\ Forall2 linkage_bars groups outs /\
         (pk_data p1 <> [] -> exists outs', outs = outs' ++ [pk_output q]) /\ forall g, In g groups -> two_close g) /\
    ((md = 1)%Z -> (forall g, In g groups -> two_close g) ->
     (forall gs1 g gs2, parts = gs1 ++ g :: gs2 -> forall h, In h gs2 -> length g <= length h) ->
     exists q files, wrapper p = Ok (q, files)).
  Proof.
    intros Pr Ec Ew Et Hrow Er Es parts groups.
    assert (Ll : length (pk_labels p1) <= length (pk_full p1)) by (eapply radius_length; eauto).
    destruct (group_rows dist _ _ _ _ it pt Ll Es (fun x Hx => Hrow x (or_intror Hx))) as [Sn Hz].
    assert (V0 : ainv atoi atof d e p1) by (exists []; split; [exact Ec|rewrite Ew; constructor]).
    assert (Eg : forall c0 cs, pk_data p1 = c0 :: cs -> groups = parts ++ [pk_data p1]).
    { intros c0 cs Q. unfold groups, parts. rewrite filter_app. f_equal. rewrite Q. reflexivity. }
    assert (Eg0 : pk_data p1 = [] -> groups = parts).
    { intros Q. unfold groups, parts. rewrite filter_app, Q. cbn. apply app_nil_r. }
    unfold processReducedWrapper, reduced_with. rewrite Pr. cbn [bind]. rewrite Er. cbn [bind]. rewrite Es. cbn [bind fst snd]. split.
    - intros q files H.
      destruct (foldr_ub _ (p1, []) (combine it pt)) as [[q1 f1]|] eqn:Ef; [|discriminate]. cbn [bind fst snd] in H.
      destruct (array_fold dist atoi atof srt past_end al_reduce other uaf args d e Hs Hr Hpos Hd (combine it pt) Hz p1 [] q1 f1 V0 Ef) as (outs & O1 & O2 & O3 & O4).
      cbn zeta in *. rewrite Sn in *. cbn [app] in O1. fold parts in O2, O4.
      destruct (pk_data p1) as [|c0 cs] eqn:Ed.
      + injection H as <- <-. rewrite (Eg0 eq_refl). exists outs. split; [exact O1|]. split; [exact O2|]. split; [intros K; now destruct K|exact O4].
      + cbv beta iota in H. rewrite (Eg c0 cs eq_refl). set (g := c0 :: cs) in *.
        destruct (run_and_write _ _ _ _ _ _ _ args (with_data q1 g)) as [[p2 f2]|] eqn:E2; [|discriminate]. cbn [bind fst snd] in H.
        destruct (clear_complex uaf p2) as [p3|] eqn:E3; [|discriminate]. cbn [bind] in H. injection H as <- <-.
        destruct (array_step dist atoi atof srt past_end al_reduce other uaf args d e Hs Hr Hpos Hd q1 g p2 f2 p3 O3 ltac:(easy) (fun x Hx => Hrow x (or_introl Hx)) E2 E3)
          as (_ & Hf & Hb & Hp).
        exists (outs ++ [pk_output p3]). split; [|split; [|split]].
        * rewrite O1, Hf. unfold names. destruct (writes_output args); auto. now rewrite map_app.
        * apply Forall2_app; auto.
        * eauto.
        * intros g0 Hg. apply in_app_iff in Hg as [Hg|[<-|[]]]; auto.
    - intros D1 Tw Or.
      assert (Tw' : forall g, In g (filter non_empty (map snd (combine it pt))) -> two_close g).
      { rewrite Sn. intros g Hg. apply Tw. unfold groups. rewrite filter_app. apply in_app_iff. now left. }
      destruct (array_fold_ok dist atoi atof srt past_end al_reduce other uaf args d e Hs Hr Hpos Hd (combine it pt) D1 Hz Tw' ltac:(rewrite Sn; exact Or) p1 [] V0) as (q1 & f1 & Ef).
      { rewrite Et. intros b x []. }
      rewrite Ef. cbn [bind fst snd].
      destruct (array_fold dist atoi atof srt past_end al_reduce other uaf args d e Hs Hr Hpos Hd (combine it pt) Hz p1 [] q1 f1 V0 Ef) as (outs & _ & _ & O3 & _).
      destruct (pk_data p1) as [|c0 cs] eqn:Ed; [eauto|]. cbv beta iota. set (g := c0 :: cs) in *.
      assert (Tg : two_close g) by (apply Tw; rewrite (Eg c0 cs eq_refl); apply in_app_iff; right; now left).
      destruct (array_step_ok dist atoi atof srt past_end al_reduce other uaf args d e Hs Hr Hpos Hd q1 g D1 O3 ltac:(easy) (fun x Hx => Hrow x (or_introl Hx)) Tg)
        as (p' & fs & p'' & E1 & E2 & _).
      rewrite E1. cbn [bind fst snd]. rewrite E2. cbn [bind]. eauto.
  Qed.
End Wrapper.

(* ---- the indexed tree *)
Lemma insert_reads eps md t t' r rs : ind_insert eps md t = Ok t' -> i_dm t <> [] -> i_roots t = r :: rs ->
  (exists z, dm_at (i_dm t) (t_index r) (i_next t) = Ok z) /\ i_dm t' = i_dm t /\ i_next t' = S (i_next t) /\
  exists r' rs', i_roots t' = r' :: rs' /\ t_index r' = t_index r.
Proof.
  intros H Hdm Hroots. unfold ind_insert in H. destruct (i_dm t) as [|row dm] eqn:Ed; [easy|]. rewrite Hroots in H.
  apply bind_inv in H as (x & H1 & H). destruct x as [roots' [[dims counts] count]]. cbn [fst snd] in H.
  apply bind_inv in H as (dims' & H2 & H). apply bind_inv in H as (counts' & H3 & H). injection H as <-. cbn [i_dm i_roots i_next].
  cbn [ind_roots] in H1. apply bind_inv in H1 as (r1 & R1 & H1). apply bind_inv in H1 as (r2 & R2 & H1). injection H1 as <- _.
  assert (K : (exists z, dm_at (row :: dm) (t_index r) (i_next t) = Ok z) /\ t_index (fst r1) = t_index r).
  { destruct r as [i w cs]. cbn [ind_recurse t_index] in *. apply bind_inv in R1 as (z & Z1 & R1). split; [eauto|].
    revert R1. match goal with |- (if ?b then _ else _) = _ -> _ => destruct b end; [|intros R1; injection R1 as <-; reflexivity].
    intros R1. apply bind_inv in R1 as (a & _ & R1). apply bind_inv in R1 as (b & _ & R1). destruct cs as [|c cs]; [injection R1 as <-; reflexivity|].
    destruct (may_recurse md _); [|injection R1 as <-; reflexivity]. apply bind_inv in R1 as (x & _ & R1). injection R1 as <-. reflexivity. }
  destruct K as [K1 K2]. split; auto. split; auto. split; auto. exists (fst r1), (fst r2 ++ [TN (i_next t) 0 []]). split; auto.
Qed.
Lemma inserts_read eps md srt : forall k t t' r rs, ind_run eps md srt t (repeat IInsert k) = Ok t' -> i_dm t <> [] -> i_roots t = r :: rs ->
  (k <> 0 -> exists z, dm_at (i_dm t) (t_index r) (i_next t + k - 1) = Ok z) /\ i_dm t' = i_dm t /\ i_next t' = i_next t + k /\
  exists r' rs', i_roots t' = r' :: rs' /\ t_index r' = t_index r.
Proof.
  induction k as [|k IH]; intros t t' r rs H Hdm Hroots.
  - injection H as <-. split; [easy|]. split; auto. split; [lia|]. eauto.
  - cbn [repeat] in H. unfold ind_run in H. cbn [foldr_ub ind_step] in H. apply bind_inv in H as (t1 & H1 & H).
    destruct (insert_reads eps md t t1 r rs H1 Hdm Hroots) as (Z1 & D1 & N1 & r1 & rs1 & R1 & I1).
    destruct (IH t1 t' r1 rs1 H ltac:(congruence) R1) as (Z2 & D2 & N2 & r2 & rs2 & R2 & I2).
    split; [|split; [congruence|split; [lia|exists r2, rs2; split; [auto|congruence]]]].
    intros _. destruct k as [|k]; [replace (i_next t + 1 - 1) with (i_next t) by lia; exact Z1|].
    destruct Z2 as (z & Z2); [easy|]. exists z. rewrite <- D1, <- I1, <- Z2. f_equal. lia.
Qed.

Lemma reduce_keeps md t t' : ind_reduce md t = Ok t' -> i_roots t' = i_roots t /\ i_next t' = i_next t.
Proof.
  unfold ind_reduce, ind_reduceComplex. generalize (S (length (nth 2 (i_dims t) []))). intros fuel.
  destruct (md <? 2)%Z; [cbn; intros H; injection H as <-; auto|]. set (K := fun tf : itree * list (list nat) => i_roots (fst tf) = i_roots t /\ i_next (fst tf) = i_next t).
  assert (Rm : forall d tf r tf', K tf -> ind_remove d tf r = Ok tf' -> K tf').
  { intros d tf r tf' Hk H. unfold ind_remove in H. apply bind_inv in H as (lev & _ & H). apply bind_inv in H as (dims & _ & H).
    unfold ind_deletion in H. destruct (length r) as [|k]; [discriminate|]. apply bind_inv in H as (lev' & _ & H).
    destruct (existsb _ lev'); [apply bind_inv in H as (dims' & _ & H)|]; injection H as <-; exact Hk. }
  assert (Rf : forall d rs tf tf', K tf -> foldr_ub (ind_remove d) tf rs = Ok tf' -> K tf').
  { intros d rs. induction rs as [|r rs IH]; intros tf tf' Hk H; [injection H as <-; exact Hk|]. cbn in H. apply bind_inv in H as (x & H1 & H). eauto. }
  assert (Rd : forall d tf tf', K tf -> ind_reduce_from fuel tf d = Some (Ok tf') -> K tf').
  { induction d as [|d IH]; intros tf tf' Hk H; [injection H as <-; exact Hk|]. cbn [ind_reduce_from] in H.
    destruct (1 <? S d); [|injection H as <-; exact Hk]. unfold lift in H. unfold rbind at 1 in H.
    destruct (at_ (i_dims (fst tf)) (S d)) as [lev|]; [|discriminate]. unfold rbind at 1 in H.
    destruct (ind_reduce_level fuel (fst tf) lev (S d)) as [[rp|]|]; try discriminate. unfold rbind in H.
    destruct (foldr_ub (ind_remove (S d)) tf (fst rp)) as [tf1|] eqn:E1; [|discriminate]. eapply IH; [|exact H]. eapply Rf; eauto. }
  destruct (ind_reduce_from fuel (t, []) (length (i_dims t) - 1)) as [[tf|]|] eqn:E; try discriminate.
  intros H. injection H as <-. exact (Rd _ (t, []) tf (conj eq_refl eq_refl) E).
Qed.

Section Indexed.
  Variable dist : list Z -> list Z -> Z.
  Variables atoi atof : string -> Z.
  Variable srt : list wsimp -> list wsimp.
  Variable past_end : list nat -> nat -> res nat.
  Variable al_reduce : wgraph -> res wgraph.
  Variable other : pipe_kind -> amap -> packet -> res packet.
  Variable pre_run : pre_kind -> amap -> packet -> res packet.
  Variable pre_stats : pre_kind -> packet -> res packet.
  Variable uaf : res unit.
  Variables (args : amap) (d e : string) (col : bool).
  Hypothesis Hr : ind_options args d e col.
  Notation eps := (atof e).
  Notation md := (atoi d).
  Notation run_and_write := (run_and_write dist atoi atof srt past_end al_reduce other args).
  Notation reduced_step := (reduced_step dist atoi atof srt past_end al_reduce other uaf args).
  Notation wrapper := (processReducedWrapper dist atoi atof srt past_end al_reduce other pre_run pre_stats uaf args).

  Definition fresh (p : packet) : Prop := exists t, pk_complex p = Some (CInd eps md t) /\ decreasing (pk_weights p) /\ i_roots t = [] /\ i_next t = 0.
  Definition used (p : packet) : Prop := exists t r rs, pk_complex p = Some (CInd eps md t) /\ decreasing (pk_weights p) /\
    i_roots t = r :: rs /\ t_index r = 0 /\ 1 <= i_next t.

  Lemma stats_same k p q : add_stats k p = Ok q -> pk_complex q = pk_complex p /\ pk_data q = pk_data p /\ pk_weights q = pk_weights p.
  Proof. unfold add_stats. destruct (PipeModel.deref p); [|discriminate]. cbn. intros H. injection H as <-. repeat split. Qed.

  (* A run on n points inserts n times, and the later pipes leave the vertices alone. *)
  Lemma run_inserts p t p' fs : pk_complex p = Some (CInd eps md t) -> decreasing (pk_weights p) ->
    (forall x, In x (pk_data p) -> x <> []) -> run_and_write p = Ok (p', fs) ->
    exists dm t1 t2, length dm = length (pk_data p) /\ (forall u, u < length dm -> exists row, nth_error dm u = Some row /\ length row = length dm) /\
      ind_run eps md srt (ind_setDistanceMatrix dm t) (repeat IInsert (length (pk_data p))) = Ok t1 /\
      i_roots t2 = i_roots t1 /\ i_next t2 = i_next t1 /\ pk_complex p' = Some (CInd eps md t2) /\ decreasing (pk_weights p').
  Proof.
    intros Hc Dw Hrow H. set (data := pk_data p) in *.
    destruct (distMatrix_spec (list Z) (fun v => match v with [] => true | _ => false end) dist eps data (pk_weights p) Dw)
      as (dm & ws & E & L1 & L2 & _ & Dw' & _).
    assert (Hr' := Hr). destruct Hr' as [H1 H2 H3 H4 H5 (cv & H6 & H7)].
    unfold MainModel.run_and_write in H. rewrite (run_four dist atoi atof srt past_end al_reduce other args d e p H1 H3 H4 H5) in H.
    apply bind_inv in H as (x & H & Hx). apply bind_inv in H as (p1 & R1 & H). apply bind_inv in H as (p2 & S1 & H). apply bind_inv in H as (p3 & R2 & H).
    apply bind_inv in H as (p4 & S2 & H). apply bind_inv in H as (p5 & R3 & H). apply bind_inv in H as (p6 & S3 & H). apply bind_inv in H as (p7 & R4 & H).
    apply bind_inv in H as (p8 & S4 & H). injection H as <-. injection Hx as <- _.
    assert (Eo : opt args "epsilon" = e) by (unfold opt; now rewrite H4).
    unfold run_distMatrix in R1. rewrite Eo in R1. fold data in R1. rewrite E in R1. cbn [bind fst snd] in R1. unfold PipeModel.deref in R1. rewrite Hc in R1.
    cbn [bind cx_setDistanceMatrix] in R1. injection R1 as <-.
    apply stats_same in S1 as (C2 & D2 & W2). cbn [pk_complex pk_data pk_weights] in C2, D2, W2.
    unfold run_neighGraph in R2. rewrite D2, (neigh_ind srt eps md data p2 _ C2 Hrow) in R2.
    destruct (ind_run eps md srt (ind_setDistanceMatrix dm t) (repeat IInsert (length data))) as [t1|] eqn:E1; [|discriminate]. cbn [rmap] in R2. injection R2 as <-.
    apply stats_same in S2 as (C4 & D4 & W4). cbn [pk_complex pk_data pk_weights set_complex] in C4, D4, W4.
    unfold run_rips in R3. rewrite H3 in R3. unfold PipeModel.deref in R3. rewrite C4 in R3. cbn [bind cx_expand] in R3. 
    assert (T : exists t', i_roots t' = i_roots t1 /\ i_next t' = i_next t1 /\ p5 = set_complex p4 (CInd eps md t')).
    { destruct (String.eqb (opt args "collapse") "true" || String.eqb (opt args "collapse") "1").
      - apply bind_inv in R3 as (c & Q & R3). destruct (ind_reduce md t1) as [t'|] eqn:Er; [|discriminate]. injection Q as <-. injection R3 as <-.
        apply reduce_keeps in Er as [K1 K2]. eauto.
      - cbn [bind] in R3. injection R3 as <-. exists t1. auto. }
    destruct T as (t' & T1 & T2 & ->). apply stats_same in S3 as (C6 & D6 & W6). cbn [pk_complex pk_data pk_weights set_complex] in C6, D6, W6.
    apply stats_same in S4 as (C8 & _ & W8).
    assert (F : exists t2, i_roots t2 = i_roots t' /\ i_next t2 = i_next t' /\ pk_complex p7 = Some (CInd eps md t2) /\ pk_weights p7 = pk_weights p6).
    { unfold run_fast, opt in R4. rewrite H3, H4 in R4. unfold PipeModel.deref in R4. rewrite C6 in R4. cbn [bind] in R4.
      assert (X : (if (0 <? md)%Z then cx_expand (md + 1) (CInd eps md t') else Ok (CInd eps md t')) = Ok (CInd eps md t')) by (destruct (0 <? md)%Z; reflexivity).
      rewrite X in R4. cbn [bind cx_getAllEdges] in R4. destruct (ind_getAllEdges srt t') as [ed t2] eqn:Eg. exists t2.
      assert (K : i_roots t2 = i_roots t' /\ i_next t2 = i_next t').
      { unfold ind_getAllEdges in Eg. destruct (i_dims t'); [injection Eg as _ <-; auto|]. destruct (i_sorted t'); injection Eg as _ <-; auto. }
      destruct K as [K1 K2]. split; auto. split; auto.
      apply bind_inv in R4 as (rr & _ & R4). destruct rr as [[lines tab]|]; injection R4 as <-; split; reflexivity. }
    destruct F as (t2 & F1 & F2 & F3 & F4). exists dm, t1, t2. split; auto. split.
    { intros u Hu. destruct (nth_error dm u) as [row|] eqn:En; [|apply nth_error_None in En; lia]. exists row. split; auto.
      rewrite L1 in Hu |- *. assert (Q := L2 u Hu). erewrite nth_error_nth in Q by exact En. exact Q. }
    split; [exact E1|]. split; [congruence|]. split; [congruence|]. split; [congruence|]. congruence.
  Qed.

  Lemma used_again p g p' fs : used p -> g <> [] -> (forall x, In x g -> x <> []) -> run_and_write (with_data p g) = Ok (p', fs) -> False.
  Proof.
    intros (t & r & rs & Ec & Dw & Hro & I0 & Nx) Hne Hrow H.
    destruct (run_inserts (with_data p g) t p' fs Ec Dw Hrow H) as (dm & t1 & t2 & L1 & L2 & E & _). cbn [pk_data with_data] in *.
    assert (Lg : length g <> 0) by (destruct g; [easy|discriminate]).
    assert (Hdm : dm <> []) by (intros ->; cbn in L1; lia).
    destruct (inserts_read eps md srt (length g) (ind_setDistanceMatrix dm t) t1 r rs E Hdm Hro) as (Z1 & _). destruct (Z1 Lg) as (z & Z2). clear Z1.
    cbn [i_dm i_next ind_setDistanceMatrix] in Z2. rewrite I0 in Z2. unfold dm_at in Z2. apply bind_inv in Z2 as (row & R1 & R2).
    destruct (L2 0 ltac:(lia)) as (row' & N1 & N2). unfold at_ in R1, R2. rewrite N1 in R1. injection R1 as <-.
    destruct (nth_error row' (i_next t + length g - 1)) eqn:En; [|discriminate].
    assert (i_next t + length g - 1 < length row') by (apply nth_error_Some; congruence). lia.
  Qed.

  Lemma fresh_run p g p' fs : fresh p -> g <> [] -> (forall x, In x g -> x <> []) -> run_and_write (with_data p g) = Ok (p', fs) -> used p'.
  Proof.
    intros (t & Ec & Dw & Hro & Nx) Hne Hrow H.
    destruct (run_inserts (with_data p g) t p' fs Ec Dw Hrow H) as (dm & t1 & t2 & L1 & L2 & E & R1 & N1 & C1 & W1). cbn [pk_data with_data] in *.
    destruct g as [|x g]; [easy|]. assert (Hdm : dm <> []) by (intros ->; discriminate).
    cbn [length repeat] in E. unfold ind_run in E. cbn [foldr_ub ind_step] in E. apply bind_inv in E as (t3 & E3 & E).
    unfold ind_insert in E3. cbn [i_dm ind_setDistanceMatrix i_roots i_next i_counts] in E3. destruct dm as [|row dm']; [easy|]. rewrite Hro in E3.
    apply bind_inv in E3 as (cs & _ & E3). injection E3 as <-.
    destruct (inserts_read eps md srt (length g) _ t1 _ _ E ltac:(discriminate) eq_refl) as (_ & _ & N2 & r' & rs' & R2 & I2).
    cbn [i_next t_index] in N2, I2. exists t2, r', rs'. split; auto. split; auto. split; [congruence|]. split; [congruence|]. lia.
  Qed.

  Lemma clear_ind p q : clear_complex uaf p = Ok q -> (used p -> used q) /\ (fresh p -> fresh q).
  Proof.
    intros H. split.
    - intros (t & r & rs & Ec & K). unfold clear_complex, PipeModel.deref in H. rewrite Ec in H. cbn [bind] in H. injection H as <-. exists t, r, rs. split; auto.
    - intros (t & Ec & K). unfold clear_complex, PipeModel.deref in H. rewrite Ec in H. cbn [bind] in H. injection H as <-. exists t. split; auto.
  Qed.

  Lemma ind_fold zs : (forall lab part, In (lab, part) zs -> forall x, In x part -> x <> []) ->
    forall p files q files', foldr_ub reduced_step (p, files) zs = Ok (q, files') ->
    let gs := filter non_empty (map snd zs) in
    (used p -> gs = [] /\ used q) /\ (fresh p -> (gs = [] /\ fresh q) \/ (length gs = 1 /\ used q)).
  Proof.
    induction zs as [|(lab, part) zs IH]; intros Hz p files q files' H gs.
    - cbn in H. injection H as <- <-. split; auto.
    - cbn [foldr_ub] in H. unfold MainModel.reduced_step in H at 1. cbn [map snd filter] in gs.
      assert (Rz := Hz lab part (or_introl eq_refl)). assert (Hz' := fun l q Q => Hz l q (or_intror Q)). clear Hz.
      destruct part as [|x0 part0]; [cbn [bind] in H; exact (IH Hz' _ _ _ _ H)|].
      cbv beta iota in H. cbn [non_empty] in gs. set (part := x0 :: part0) in *.
      destruct (run_and_write (with_data p part)) as [[p' fs]|] eqn:E1; [|discriminate]. cbn [bind fst snd] in H.
      destruct (clear_complex uaf p') as [p''|] eqn:E2; [|discriminate]. cbn [bind] in H.
      destruct (mapPartitionIndexing lab (pk_table p'')) as [tb|] eqn:E3; [|discriminate]. cbn [bind] in H.
      destruct (IH Hz' _ _ _ _ H) as [I1 _]. split.
      + intros U. exfalso. exact (used_again p part p' fs U ltac:(easy) Rz E1).
      + intros F. right. assert (U := fresh_run p part p' fs F ltac:(easy) Rz E1). apply (proj1 (clear_ind _ _ E2)) in U. destruct (I1 U) as [G U'].
        split; auto. unfold gs. cbn [length]. now rewrite G.
  Qed.

  Theorem ind_groups p p1 nc0 r it pt g h gs : preprocess packet pre_run pre_stats args p = Ok p1 ->
    pk_complex p1 = Some (CInd eps md (ind_new [] nc0)) -> pk_weights p1 = [] ->
    (forall x, In x (pk_data p1) \/ In x (pk_full p1) -> x <> []) ->
    computeMaxRadius dist (pk_data p1) (pk_full p1) (pk_labels p1) = Ok r ->
    separatePartitionsRad dist (2 * r) (pk_data p1) (pk_full p1) (pk_labels p1) = Ok (it, pt) ->
    filter non_empty (pt ++ [pk_data p1]) = g :: h :: gs -> wrapper p = UB.
  Proof.
    intros Pr Ec Ew Hrow Er Es Eg.
    assert (Ll : length (pk_labels p1) <= length (pk_full p1)) by (eapply radius_length; eauto).
    destruct (group_rows dist _ _ _ _ it pt Ll Es (fun x Hx => Hrow x (or_intror Hx))) as [Sn Hz].
    assert (V0 : fresh p1) by (exists (ind_new [] nc0); split; [exact Ec|split; [rewrite Ew; constructor|split; reflexivity]]).
    unfold processReducedWrapper, reduced_with. rewrite Pr. cbn [bind]. rewrite Er. cbn [bind]. rewrite Es. cbn [bind fst snd].
    destruct (foldr_ub _ (p1, []) (combine it pt)) as [[q1 f1]|] eqn:Ef; [|reflexivity]. cbn [bind fst snd].
    destruct (ind_fold (combine it pt) (fun l q Q => proj2 (Hz l q Q)) p1 [] q1 f1 Ef) as [_ F]. rewrite Sn in F. specialize (F V0).
    rewrite filter_app in Eg. destruct (pk_data p1) as [|c0 cs] eqn:Ed.
    - exfalso. cbn [filter non_empty] in Eg. rewrite app_nil_r in Eg. rewrite Eg in F. destruct F as [[F _]|[F _]]; discriminate.
    - cbv beta iota. set (c := c0 :: cs) in *. destruct (run_and_write (with_data q1 c)) as [[p2 f2]|] eqn:E2; [|reflexivity]. exfalso.
      change (filter non_empty [c]) with [c] in Eg.
      destruct F as [[F _]|[F U]]; [rewrite F in Eg; discriminate|]. exact (used_again q1 c p2 f2 U ltac:(easy) (fun x Hx => Hrow x (or_introl Hx)) E2).
  Qed.
End Indexed.
