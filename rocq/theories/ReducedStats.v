(* ReducedStats.v -- the statistics of the runs of the mode reduced, one block after the other. *)
From Coq Require Import String Ascii List Arith ZArith Bool Lia Sorted Permutation Relations.
From Verif Require Import Base RunMonad UtilsModel ArrayListModel TreeModel FastModel ArgModel IoModel IndModel PipeModel StatsModel MainModel AllModel.
From Verif Require Import Spec SpecIo SpecComplex SpecTree SpecArgs SpecGraph SpecLinear SpecFast SpecPipe SpecStats SpecMain SpecReducedStats.
From Verif Require Import PartitionProofs UtilsProofs ArrayListProofs ArgProofs IoProofs ArrayListHist FastProofs FastRuns PipeProofs PipeRuns StatsRuns MainProofs MainRuns ReducedArray UpscaleRuns.
Import ListNotations.
Local Open Scope nat_scope.
Local Open Scope list_scope.

Notation kind := (fun x : pipe_kind * Z * Z => fst (fst x)).

Lemma starts_new args c k : starts args c k <->
  newPipe c (fst (mread args "complexType")) = Some k /\ forall o, In o (pipe_required k) -> mget args o <> None.
Proof.
  unfold starts. rewrite newPipe_spec. unfold mread. split; intros [A B]; split; auto.
  - destruct A as [A|(A & ct & E & P)]; [auto|]. right. now rewrite E.
  - destruct A as [A|(A & P)]; [auto|]. right. split; [exact A|]. destruct (mget args "complexType") as [ct|]; cbn [fst] in P; [eauto|].
    destruct P as [[[P|P] _]|[P _]]; discriminate.
Qed.

Lemma running_total args parts : exists ks, running args parts ks.
Proof.
  induction parts as [|c parts (ks & IH)]; [exists []; constructor|].
  destruct (newPipe c (fst (mread args "complexType"))) as [k|] eqn:E.
  - destruct (forallb (fun o => match mget args o with Some _ => true | None => false end) (pipe_required k)) eqn:R.
    + exists (k :: ks). apply running_pipe; auto. apply starts_new. split; auto. intros o Io.
      assert (Q := proj1 (forallb_forall _ _) R o Io). cbn in Q. destruct (mget args o); discriminate.
    + exists ks. apply running_skip; auto. intros k' S. apply starts_new in S as (S & T). rewrite E in S. injection S as <-.
      enough (forallb (fun o => match mget args o with Some _ => true | None => false end) (pipe_required k) = true) by congruence.
      apply forallb_forall. intros o Io. specialize (T o Io). now destruct (mget args o).
  - exists ks. apply running_skip; auto. intros k S. apply starts_new in S as (S & _). congruence.
Qed.

Lemma same_length dist rad (cs data : list (list Z)) labels it pt : length labels <= length data ->
  separatePartitionsRad dist rad cs data labels = Ok (it, pt) -> length it = length pt.
Proof.
  intros Ll Es. destruct (separatePartitionsRad_ok dist rad cs data labels Ll) as (it' & pt' & Es' & T).
  rewrite Es in Es'. injection Es' as <- <-. destruct T as (T1 & T2 & _). congruence.
Qed.

Section Red.
  Variable dist : list Z -> list Z -> Z.
  Variables atoi atof : string -> Z.
  Variable srt : list wsimp -> list wsimp.
  Variable past_end : list nat -> nat -> res nat.
  Variable al_reduce : wgraph -> res wgraph.
  Variable one : Z.
  Variable stod : text -> option Z.
  Variable file : string -> option text.
  Variable pre_run : pre_kind -> amap -> packet -> res packet.
  Variable pre_stats : pre_kind -> packet -> res packet.
  Variable uaf : res unit.
  Variable args : amap.
  Notation pipes := (all_pipes dist atoi atof srt past_end al_reduce one stod file UB).
  Notation run := (run_pipe dist atoi atof srt past_end al_reduce pipes).
  Notation steps := (steps packet run add_stats).
  Notation step := (step packet run add_stats).
  Notation run_and_write := (run_and_write dist atoi atof srt past_end al_reduce pipes args).
  Notation reduced_step := (reduced_step dist atoi atof srt past_end al_reduce pipes uaf args).

  Lemma add_line k p q : add_stats k p = Ok q -> exists a b, pk_stats q = pk_stats p ++ [(k, a, b)].
  Proof. unfold add_stats, deref. destruct (pk_complex p); [|discriminate]. intros [= <-]. cbn. eauto. Qed.

  Lemma steps_block parts ks : running args parts ks -> (forall w, In w parts -> ~ In w stream_names) ->
    forall p q failed, steps args parts p (Ok (q, failed)) -> exists b, pk_stats q = pk_stats p ++ b /\ map kind b = ks.
  Proof.
    induction 1 as [|c k parts ks S R IH|c parts ks S R IH]; intros Nw p q failed H.
    - inversion H; subst. exists []. now rewrite app_nil_r.
    - inversion H as [| |? ? ? p' b r St Rest Ec Ep Eq]; clear H. destruct r as [[q1 f1]|]; [|discriminate]. cbn [rmap] in Eq. injection Eq as <- _.
      destruct (IH (fun w I => Nw w (or_intror I)) _ _ _ Rest) as (bl & B1 & B2).
      apply starts_new in S as (S1 & S2).
      inversion St as [N1 N2|k' K (o & Io & No)|k' K Rq].
      + exfalso. apply newPipe_spec in S1 as [S1|(-> & S1)]; [now apply (N1 k)|].
        unfold mread in S1. destruct (mget args "complexType") as [ct|] eqn:Ect; cbn [fst] in S1.
        * now apply (N2 eq_refl ct k).
        * destruct S1 as [[[P|P] _]|[P _]]; discriminate.
      + exfalso. rewrite S1 in K. injection K as <-. now apply (S2 o).
      + rewrite S1 in K. injection K as <-.
        destruct (run k args p) as [p1|] eqn:E1; [|discriminate]. cbn [bind] in *.
        assert (Q := run_stats dist atoi atof srt past_end al_reduce one stod file args k p p1
                       (not_window _ _ _ (Nw c (or_introl eq_refl)) S1) E1).
        match goal with HH : add_stats k p1 = Ok p' |- _ => destruct (add_line _ _ _ HH) as (a & b0 & A) end.
        exists ((k, a, b0) :: bl). split; [|cbn; now rewrite B2]. rewrite B1, A, Q, <- app_assoc. reflexivity.
    - inversion H as [| |? ? ? p' b r St Rest Ec Ep Eq]; clear H. destruct r as [[q1 f1]|]; [|discriminate]. cbn [rmap] in Eq. injection Eq as <- _.
      destruct (IH (fun w I => Nw w (or_intror I)) _ _ _ Rest) as (bl & B1 & B2).
      inversion St as [N1 N2|k' K Rq|k' K Rq]; subst; eauto.
      exfalso. apply (S k'). apply starts_new. auto.
  Qed.

  Variables (P : string) (parts : list string) (ks : list pipe_kind).
  Hypothesis HP : mget args "pipeline" = Some P.
  Hypothesis HC : components_of P parts.
  Hypothesis HR : running args parts ks.
  Hypothesis HN : forall w, In w parts -> ~ In w stream_names.

  Lemma write_block p q fs : run_and_write p = Ok (q, fs) -> exists b, pk_stats q = pk_stats p ++ b /\ map kind b = ks.
  Proof.
    unfold MainModel.run_and_write. destruct (pipeline_steps packet run add_stats args P parts p HC HP) as (r & S & E). rewrite E.
    destruct r as [[q1 f1]|]; [|discriminate]. cbn [rmap bind]. intros [= <- _]. eapply steps_block; eauto.
  Qed.
  Lemma write_one p q fs : writes_output args = true -> run_and_write p = Ok (q, fs) -> length fs = 1.
  Proof.
    unfold MainModel.run_and_write. destruct (pipeline_steps packet run add_stats args P parts p HC HP) as (r & S & E). rewrite E.
    intros Wo. rewrite Wo. destruct r as [[q1 f1]|]; [|discriminate]. cbn [rmap bind]. intros [= _ <-]. reflexivity.
  Qed.
  Lemma clear_stats p q : clear_complex uaf p = Ok q -> pk_stats q = pk_stats p.
  Proof.
    unfold clear_complex, deref. destruct (pk_complex p) as [[e d dm wg|e d t|e d t]|]; [|  |  |discriminate]; cbn [bind].
    - intros [= <-]. reflexivity.
    - destruct (st_clear uaf t); [|discriminate]. intros [= <-]. reflexivity.
    - intros [= <-]. reflexivity.
  Qed.

  Lemma fold_blocks zs : forall p files q files', foldr_ub reduced_step (p, files) zs = Ok (q, files') ->
    exists bs, pk_stats q = pk_stats p ++ concat bs /\ Forall2 (fun (_ : list (list Z)) b => map kind b = ks) (filter non_empty (map snd zs)) bs /\
      (writes_output args = true -> length files' = length files + length bs).
  Proof.
    induction zs as [|(lab, part) zs IH]; intros p files q files' H.
    - injection H as <- <-. exists []. cbn. rewrite app_nil_r. auto.
    - cbn [foldr_ub] in H. unfold MainModel.reduced_step in H at 1. cbn [map snd filter]. destruct part as [|x0 part0]; [apply IH with (1 := H)|].
      cbv beta iota in H. cbn [non_empty]. set (part := x0 :: part0) in *.
      destruct (run_and_write (with_data p part)) as [[p' fs]|] eqn:E1; [|discriminate]. cbn [bind fst snd] in H.
      destruct (clear_complex uaf p') as [p1|] eqn:E2; [|discriminate]. cbn [bind] in H.
      destruct (mapPartitionIndexing lab (pk_table p1)); [|discriminate]. cbn [bind] in H.
      destruct (IH _ _ _ _ H) as (bs & B1 & B2 & B3). destruct (write_block _ _ _ E1) as (b & W1 & W2). rewrite (clear_stats _ _ E2), W1 in B1.
      exists (b :: bs). split; [rewrite B1; cbn; now rewrite app_assoc|]. split; [constructor; auto|]. intros Wo.
      rewrite (B3 Wo), List.app_length, (write_one _ _ _ Wo E1). cbn. lia.
  Qed.

  Theorem reduced_blocks p p1 r it pt q files : preprocess packet pre_run pre_stats args p = Ok p1 ->
    computeMaxRadius dist (pk_data p1) (pk_full p1) (pk_labels p1) = Ok r ->
    separatePartitionsRad dist (2 * r) (pk_data p1) (pk_full p1) (pk_labels p1) = Ok (it, pt) ->
    processReducedWrapper dist atoi atof srt past_end al_reduce pipes pre_run pre_stats uaf args p = Ok (q, files) ->
    exists bs, pk_stats q = pk_stats p1 ++ concat bs /\
      Forall2 (fun (_ : list (list Z)) b => map kind b = ks) (filter non_empty (pt ++ [pk_data p1])) bs /\
      (writes_output args = true -> length files = length bs).
  Proof.
    intros E1 E2 E3 H. assert (L := same_length _ _ _ _ _ _ _ (radius_length _ _ _ _ _ E2) E3). unfold processReducedWrapper, reduced_with in H. rewrite E1 in H. cbn [bind] in H. rewrite E2 in H. cbn [bind] in H.
    rewrite E3 in H. cbn [bind fst snd] in H.
    destruct (foldr_ub reduced_step (p1, []) (combine it pt)) as [[p2 fs]|] eqn:E4; [|discriminate]. cbn [bind fst snd] in H.
    destruct (fold_blocks _ _ _ _ _ E4) as (bs & B1 & B2 & B3). cbn [length plus] in B3.
    assert (M : map snd (combine it pt) = pt) by (clear - L; revert pt L; induction it; destruct pt; cbn; intros; try discriminate; auto; f_equal; auto).
    rewrite M in B2. rewrite filter_app. destruct (pk_data p1) as [|x0 cs] eqn:Ed.
    - injection H as <- <-. exists bs. split; auto. split; [cbn; now rewrite app_nil_r|exact B3].
    - cbn [filter non_empty]. destruct (run_and_write (with_data p2 (x0 :: cs))) as [[p3 fs3]|] eqn:E5; [|discriminate]. cbn [bind fst snd] in H.
      destruct (clear_complex uaf p3) as [p4|] eqn:E6; [|discriminate]. cbn [bind] in H. injection H as <- <-.
      destruct (write_block _ _ _ E5) as (b & W1 & W2). exists (bs ++ [b]). split.
      + rewrite (clear_stats _ _ E6), W1. cbn [pk_stats with_data]. rewrite B1, concat_app. cbn. now rewrite app_nil_r, app_assoc.
      + split; [apply Forall2_app; auto|]. intros Wo. rewrite !List.app_length, (B3 Wo), (write_one _ _ _ Wo E5). reflexivity.
  Qed.
End Red.

Section Array.
  Variable dist : list Z -> list Z -> Z.
  Variables atoi atof : string -> Z.
  Variable srt : list wsimp -> list wsimp.
  Variable past_end : list nat -> nat -> res nat.
  Variable al_reduce : wgraph -> res wgraph.
  Variable other : pipe_kind -> amap -> packet -> res packet.
  Variable pre_run : pre_kind -> amap -> packet -> res packet.
  Variable pre_stats : pre_kind -> packet -> res packet.
  Variable uaf : res unit.
  Variables (args : amap) (d e : string).
  Hypothesis Hs : is_sort srt.
  Hypothesis Hr : default_run args ArrayList d e.
  Hypothesis Hpos : forall x y, (0 <= dist x y)%Z.
  Hypothesis Hd : (0 < atoi d < 2 ^ 31 - 1)%Z.
  Notation eps := (atof e).
  Notation md := (atoi d).
  Notation run_and_write := (run_and_write dist atoi atof srt past_end al_reduce other args).
  Notation reduced_step := (reduced_step dist atoi atof srt past_end al_reduce other uaf args).
  Notation about := (lines_about dist eps (Z.to_nat md)).
  Notation ainv := (ainv atoi atof d e).

  Lemma array_lines p dm0 q fs : pk_complex p = Some (CArray eps md dm0 []) -> decreasing (pk_weights p) ->
    pk_data p <> [] -> (forall x, In x (pk_data p) -> x <> []) -> run_and_write p = Ok (q, fs) -> exists b, pk_stats q = pk_stats p ++ b /\ about (pk_data p) b.
  Proof.
    intros Hc Dw Hne Hrow Hrun. set (data := pk_data p) in *.
    destruct (distMatrix_spec (list Z) (fun v => match v with [] => true | _ => false end) dist eps data (pk_weights p) Dw)
      as (dm & ws & E & L1 & L2 & Vd & Dw' & _).
    assert (Sep : forall u v, u < v -> v < length data -> dist_of dm u v = separation dist data u v).
    { intros u v Huv Hv. unfold dist_of, separation. destruct (nth_error data u) as [x|] eqn:Eu; [|apply nth_error_None in Eu; lia].
      destruct (nth_error data v) as [y|] eqn:Ev; [|apply nth_error_None in Ev; lia]. rewrite (Vd u v x y Eu Ev).
      destruct (Nat.ltb_spec u v); [|lia]. destruct x; [|reflexivity]. exfalso. apply nth_error_In in Eu. now apply (Hrow []). }
    assert (U : upper_triangle dm (length data)).
    { intros u v Huv Hv. rewrite (L2 u) by lia. split; auto. rewrite Sep by auto. unfold separation.
      destruct (nth_error data u), (nth_error data v); auto; lia. }
    assert (Hr' := Hr). destruct Hr' as [H1 H2 H3 H4 H5 (col & H6 & H7 & H8)].
    assert (Col : (String.eqb col "true" || String.eqb col "1") = false).
    { now rewrite (proj2 (String.eqb_neq col "true") H7), (proj2 (String.eqb_neq col "1") H8). }
    unfold MainModel.run_and_write in Hrun.
    rewrite (run_default dist atoi atof srt past_end al_reduce other args ArrayList d e p Hr) in Hrun.
    unfold run_distMatrix, opt in Hrun. rewrite H4 in Hrun. fold data in Hrun. rewrite E in Hrun. cbn [bind fst snd] in Hrun. unfold PipeModel.deref at 1 in Hrun. rewrite Hc in Hrun. cbn [bind cx_setDistanceMatrix] in Hrun.
    unfold add_stats at 1 in Hrun. unfold PipeModel.deref at 1 in Hrun. cbn [pk_complex bind pk_data pk_labels pk_full pk_weights pk_output pk_table pk_stats] in Hrun.
    unfold run_neighGraph in Hrun. cbn [pk_data] in Hrun.
    rewrite (neigh_array eps md dm data _ []) in Hrun by auto.
    destruct (foldr_ub (al_step dm eps md) [] (repeat (OpInsert false) (length data))) as [wg|] eqn:Ew; [|discriminate]. cbn [rmap bind] in Hrun.
    unfold add_stats at 1 in Hrun. unfold PipeModel.deref at 1 in Hrun. unfold set_complex at 1 2 3 4 5 6 7 8 9 in Hrun. cbn [pk_complex bind pk_data pk_labels pk_full pk_weights pk_output pk_table pk_stats] in Hrun.
    unfold run_rips, opt in Hrun. rewrite H3, H6 in Hrun. unfold PipeModel.deref at 1 in Hrun. cbn [pk_complex bind cx_expand] in Hrun.
    destruct (expandDimensions md wg) as [wg2|] eqn:Ew2; [|discriminate]. cbn [rmap bind] in Hrun. rewrite Col in Hrun. cbn [bind] in Hrun.
    unfold add_stats at 1 in Hrun. unfold PipeModel.deref at 1 in Hrun. unfold set_complex at 1 2 3 4 5 6 7 8 9 in Hrun. cbn [pk_complex bind pk_data pk_labels pk_full pk_weights pk_output pk_table pk_stats] in Hrun.
    unfold run_fast, opt in Hrun. rewrite H3, H4 in Hrun. unfold PipeModel.deref at 1 in Hrun. cbn [pk_complex bind] in Hrun.
    destruct (Z.ltb_spec 0 md); [|lia]. cbn [cx_expand] in Hrun.
    destruct (expandDimensions (md + 1) wg2) as [wg3|] eqn:Ew3; [|discriminate]. cbn [rmap bind cx_getAllEdges] in Hrun.
    match type of Hrun with context [fp_run ?a ?b ?c ?ed ?t] => destruct (fp_run a b c ed t) as [[[lines tab]|]|] eqn:Ef; cbn [bind] in Hrun; [| |discriminate] end.
    2: { exfalso. apply fp_none in Ef. destruct (array_list_edges dm eps md (length data) srt eps Hs U Hd) as (wg4 & W1 & W2 & W3 & W4). cbv zeta in W2, W3, W4.
      assert (W5 := lists_rips_ext _ _ _ _ _ _ Sep W4). unfold al_run in W1. rewrite foldr_ub_app, Ew in W1. cbn [bind map foldr_ub al_step] in W1.
      rewrite Ew2 in W1. cbn [bind] in W1. rewrite Ew3 in W1. injection W1 as <-.
      destruct (rips_levels dist data ArrayList eps (Z.to_nat (top ArrayList md)) ltac:(cbn; lia) _ W5 W2) as [_ L0]. apply Hne, L0. now rewrite Ef. }
    unfold add_stats, PipeModel.deref in Hrun. cbn [pk_complex bind] in Hrun. unfold set_complex in Hrun. cbn [pk_data pk_labels pk_full pk_weights pk_output pk_table pk_stats pk_complex] in Hrun.
    cbn [bind] in Hrun. injection Hrun as <- _. cbn [pk_stats]. rewrite <- !app_assoc. eexists. split; [reflexivity|].
    cbn [cx_vertexCount cx_simplexCount app].
    assert (W1 : al_run dm eps md (repeat (OpInsert false) (length data) ++ map OpExpand []) = Ok wg).
    { unfold al_run. rewrite foldr_ub_app, Ew. reflexivity. }
    assert (W2 : al_run dm eps md (repeat (OpInsert false) (length data) ++ map OpExpand [md]) = Ok wg2).
    { unfold al_run. rewrite foldr_ub_app, Ew. cbn [bind map foldr_ub al_step]. now rewrite Ew2. }
    assert (W3 : al_run dm eps md (repeat (OpInsert false) (length data) ++ map OpExpand [md; md + 1]%Z) = Ok wg3).
    { unfold al_run. rewrite foldr_ub_app, Ew. cbn [bind map foldr_ub al_step]. rewrite Ew2. cbn [bind]. now rewrite Ew3. }
    assert (Stage : forall es T g, fold_left (fun k e => Nat.max k (to_unsigned e)) es 1 = T ->
      al_run dm eps md (repeat (OpInsert false) (length data) ++ map OpExpand es) = Ok g ->
      counts_rips dist data ArrayList eps (S T) (Z.of_nat (length (concat g))) /\ al_vertexCount g = length data /\ al_simplexCount g = length (concat g)).
    { intros es T g HT Hg. destruct (array_list_raw dm eps md (length data) es T U ltac:(lia) HT) as (g' & Eg & Lg).
      assert (g' = g) by congruence. subst g'. apply (lists_rips_ext _ (separation dist data)) in Lg; auto.
      destruct (array_list_closed _ _ _ _ _ (PipeRuns.covers_inserts dm (length data) es U) Hg) as (Ng & _).
      destruct (array_list_counts _ _ _ _ _ (PipeRuns.covers_inserts dm (length data) es U) Hg) as (Vg & _). rewrite live_app_expand in Vg.
      split; [now apply rips_counted|]. split; auto. unfold al_simplexCount. now rewrite simplexes_count. }
    destruct (Stage [] 1 wg eq_refl W1) as (N1 & V1 & Y1).
    destruct (Stage [md] (Z.to_nat md) wg2) as (N2 & V2 & Y2); [cbn [fold_left]; unfold to_unsigned; rewrite !Z.mod_small by lia; lia|exact W2|].
    destruct (Stage [md; md + 1]%Z (S (Z.to_nat md)) wg3) as (N3 & V3 & Y3); [cbn [fold_left]; unfold to_unsigned; rewrite !Z.mod_small by lia; lia|exact W3|].
    unfold lines_about. cbv zeta. rewrite V1, V2, V3, Y1, Y2, Y3.
    exists (Z.of_nat (length (concat wg))), (Z.of_nat (length (concat wg2))), (Z.of_nat (length (concat wg3))).
    split; [exact N1|]. split; [now rewrite Nat.add_1_r|]. split; [replace (Z.to_nat md + 2) with (S (S (Z.to_nat md))) by lia; exact N3|]. reflexivity.
  Qed.

  Lemma array_lines_fold zs : (forall lab part, In (lab, part) zs -> length lab = length part /\ forall x, In x part -> x <> []) ->
    forall p files q files', ainv p -> foldr_ub reduced_step (p, files) zs = Ok (q, files') ->
    ainv q /\ exists bs, pk_stats q = pk_stats p ++ concat bs /\ Forall2 about (filter non_empty (map snd zs)) bs.
  Proof.
    induction zs as [|(lab, part) zs IH]; intros Hz p files q files' V H.
    - injection H as <- <-. split; [exact V|]. exists []. cbn. rewrite app_nil_r. auto.
    - cbn [foldr_ub] in H. unfold MainModel.reduced_step in H at 1. cbn [map snd filter].
      destruct (Hz lab part (or_introl eq_refl)) as [Lz Rz]. assert (Hz' := fun l q Q => Hz l q (or_intror Q)). clear Hz.
      destruct part as [|x0 part0]; [apply IH with (1 := Hz') (2 := V) (3 := H)|].
      cbv beta iota in H. cbn [non_empty]. set (part := x0 :: part0) in *.
      destruct (run_and_write (with_data p part)) as [[p' fs]|] eqn:E1; [|discriminate]. cbn [bind fst snd] in H.
      destruct (clear_complex uaf p') as [p1|] eqn:E2; [|discriminate]. cbn [bind] in H.
      destruct (mapPartitionIndexing lab (pk_table p1)); [|discriminate]. cbn [bind] in H.
      destruct (array_step dist atoi atof srt past_end al_reduce other uaf args d e Hs Hr Hpos Hd p part p' fs p1 V ltac:(discriminate) Rz E1 E2) as (V1 & _).
      destruct (IH Hz' _ _ _ _ V1 H) as (Vq & bs & B1 & B2). split; [exact Vq|].
      destruct V as (dm0 & Ec & Dw). destruct (array_lines (with_data p part) dm0 p' fs Ec Dw ltac:(discriminate) Rz E1) as (b & W1 & W2).
      rewrite (clear_stats _ _ _ E2), W1 in B1. exists (b :: bs). split; [rewrite B1; cbn; now rewrite app_assoc|]. constructor; auto.
  Qed.

  Theorem array_lines_groups p p1 r it pt q files : preprocess packet pre_run pre_stats args p = Ok p1 ->
    pk_complex p1 = Some (CArray eps md [] []) -> pk_weights p1 = [] ->
    (forall x, In x (pk_data p1) \/ In x (pk_full p1) -> x <> []) ->
    computeMaxRadius dist (pk_data p1) (pk_full p1) (pk_labels p1) = Ok r ->
    separatePartitionsRad dist (2 * r) (pk_data p1) (pk_full p1) (pk_labels p1) = Ok (it, pt) ->
    processReducedWrapper dist atoi atof srt past_end al_reduce other pre_run pre_stats uaf args p = Ok (q, files) ->
    exists bs, pk_stats q = pk_stats p1 ++ concat bs /\ Forall2 about (filter non_empty (pt ++ [pk_data p1])) bs.
  Proof.
    intros Pr Ec Ew Hrow Er Es H.
    destruct (group_rows dist _ _ _ _ it pt (radius_length _ _ _ _ _ Er) Es (fun x Hx => Hrow x (or_intror Hx))) as [Sn Hz].
    assert (V0 : ainv p1) by (exists []; split; [exact Ec|rewrite Ew; constructor]).
    unfold processReducedWrapper, reduced_with in H. rewrite Pr in H. cbn [bind] in H. rewrite Er in H. cbn [bind] in H. rewrite Es in H. cbn [bind fst snd] in H.
    destruct (foldr_ub reduced_step (p1, []) (combine it pt)) as [[p2 fs]|] eqn:E4; [|discriminate]. cbn [bind fst snd] in H.
    destruct (array_lines_fold _ Hz _ _ _ _ V0 E4) as ((dm0 & Ec2 & Dw2) & bs & B1 & B2). rewrite Sn in B2. rewrite filter_app.
    destruct (pk_data p1) as [|x0 cs] eqn:Ed.
    - injection H as <- <-. exists bs. split; auto. cbn. now rewrite app_nil_r.
    - cbn [filter non_empty]. destruct (run_and_write (with_data p2 (x0 :: cs))) as [[p3 fs3]|] eqn:E5; [|discriminate]. cbn [bind fst snd] in H.
      destruct (clear_complex uaf p3) as [p4|] eqn:E6; [|discriminate]. cbn [bind] in H. injection H as <- <-.
      destruct (array_lines (with_data p2 (x0 :: cs)) dm0 p3 fs3 Ec2 Dw2 ltac:(discriminate) (fun x Hx => Hrow x (or_introl Hx)) E5) as (b & W1 & W2). exists (bs ++ [b]). split.
      + rewrite (clear_stats _ _ _ E6), W1. cbn [pk_stats with_data]. rewrite B1, concat_app. cbn. now rewrite app_nil_r, app_assoc.
      + apply Forall2_app; auto.
  Qed.
End Array.

Section Line.
  Variable dist : list Z -> list Z -> Z.
  Variables atoi atof : string -> Z.
  Variable srt : list wsimp -> list wsimp.
  Variable past_end : list nat -> nat -> res nat.
  Variable nc0 : Z.
  Variable al_reduce : wgraph -> res wgraph.
  Variable one : Z.
  Variable stod : text -> option Z.
  Variable file : string -> option text.
  Variable pre_run : pre_kind -> amap -> packet -> res packet.
  Variable pre_stats : pre_kind -> packet -> res packet.
  Variable uaf : res unit.
  Hypothesis Kr : forall k a p q, pre_run k a p = Ok q -> pk_stats q = pk_stats p.
  Hypothesis Ks : forall k p q, pre_stats k p = Ok q -> pk_stats q = pk_stats p.

  Lemma preprocess_keeps args p q : preprocess packet pre_run pre_stats args p = Ok q -> pk_stats q = pk_stats p.
  Proof.
    unfold preprocess. cbv zeta. destruct (String.eqb _ ""); [intros H; now injection H as <-|].
    destruct (newPreprocessor _) as [k|]; [|intros H; now injection H as <-].
    destruct (configPreprocessor k args) as [ok a]. destruct ok; [|intros H; now injection H as <-].
    unfold runPreprocessorWrapper. destruct a; [|intros H; now injection H as <-].
    destruct (pre_run k args p) as [p1|] eqn:E; [|discriminate]. cbn [bind]. intros F. rewrite (Ks _ _ _ F). eauto.
  Qed.

  Theorem line_blocks argv m P parts ks q files : parse argv = Ok m -> let args := setPipeline m in
    mget args "mode" = Some "reduced"%string -> mget args "pipeline" = Some P -> components_of P parts -> running args parts ks ->
    (forall w, In w parts -> ~ In w stream_names) ->
    lhf_all dist atoi atof srt past_end nc0 al_reduce one stod file UB pre_run pre_stats uaf argv = Ok (Ran q files) ->
    exists bs, pk_stats q = concat bs /\ (forall b, In b bs -> map kind b = ks) /\ (writes_output args = true -> length files = length bs).
  Proof.
    intros Pm args Hm HP HC HR HN H. unfold lhf_all, lhf in H. rewrite Pm in H. cbn [bind] in H. fold args in H.
    destruct (newSimplex atoi atof nc0 (opt args "complexType") args) as [c|]; [|discriminate]. cbn [bind] in H.
    match type of H with match ?x with _ => _ end = _ => destruct x as [data|]; [|discriminate] end.
    match type of H with (if ?x then _ else _) = _ => destruct x; [|discriminate] end.
    destruct (String.eqb (opt args "upscale") "true").
    { match type of H with bind ?x _ = _ => destruct x as [[[? ?]|]|]; discriminate end. }
    assert (Om : opt args "mode" = "reduced"%string) by (unfold opt; now rewrite Hm). rewrite Om in H. cbn [String.eqb Ascii.eqb Bool.eqb] in H.
    set (p := mkPacket data [] data [] c [] [] []) in H.
    destruct (processReducedWrapper dist atoi atof srt past_end al_reduce (all_pipes dist atoi atof srt past_end al_reduce one stod file UB) pre_run pre_stats uaf args p)
      as [[q1 f1]|] eqn:E; [|discriminate]. cbn [bind fst snd] in H. injection H as -> ->.
    assert (E' := E). unfold processReducedWrapper, reduced_with in E'.
    destruct (preprocess packet pre_run pre_stats args p) as [p1|] eqn:E1; [|discriminate]. cbn [bind] in E'.
    destruct (computeMaxRadius dist (pk_data p1) (pk_full p1) (pk_labels p1)) as [r|] eqn:E2; [|discriminate]. cbn [bind] in E'.
    destruct (separatePartitionsRad dist (2 * r) (pk_data p1) (pk_full p1) (pk_labels p1)) as [[it pt]|] eqn:E3; [|discriminate]. clear E'.
    destruct (reduced_blocks dist atoi atof srt past_end al_reduce one stod file pre_run pre_stats uaf args P parts ks HP HC HR HN p p1 r it pt q files E1 E2 E3 E) as (bs & B1 & B2 & B3).
    exists bs. rewrite (preprocess_keeps _ _ _ E1) in B1. split; [exact B1|]. split; [|exact B3].
    clear - B2. induction B2; intros b []; subst; auto.
  Qed.
End Line.
