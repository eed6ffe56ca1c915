(* MainRuns.v -- the reduced mode: one run per group of points on the same packet. *)
From Coq Require Import String Ascii List Arith ZArith Bool Lia Sorted Permutation Relations.
From Verif Require Import Base UtilsModel ArrayListModel TreeModel FastModel ArgModel IoModel PipeModel MainModel.
From Verif Require Import Spec SpecIo SpecComplex SpecTree SpecArgs SpecGraph SpecLinear SpecFast SpecPipe SpecMain.
From Verif Require Import PartitionProofs UtilsProofs ArrayListProofs ArgProofs IoProofs KruskalProofs ArrayListHist TreeHist FastProofs FastRuns PipeProofs PipeRuns MainProofs.
Import ListNotations.
Local Open Scope nat_scope.
Local Open Scope list_scope.

(* ---- the tree *)
Section Tree.
  Variables (eps md : Z).
  Variable srt : list wsimp -> list wsimp.
  Hypothesis Hs : is_sort srt.
  Hypothesis Hmd : (0 < md < 2 ^ 31 - 1)%Z.

  Lemma inserts_step dm b cb n : dm <> [] -> upper_triangle dm n -> forall t, tinv eps md dm b 0 cb t ->
    exists t', st_run eps md (Ok tt) srt t (repeat TInsert n) = Ok t' /\ tinv eps md dm b n cb t' /\ st_isSorted t' = st_isSorted t.
  Proof.
    intros Hd U t V. unfold st_run. revert U. induction n as [|n IH]; intros U; [exists t; auto|].
    destruct IH as (t1 & E1 & V1 & S1). { intros j i Hj Hi. apply U; lia. }
    replace (S n) with (n + 1) by lia. rewrite repeat_app, foldr_ub_app, E1. cbn [bind repeat foldr_ub st_step].
    destruct (insert_step eps md dm b n cb t1 V1 Hd U) as (t2 & E2 & V2 & S2). exists t2. rewrite E2. cbn [bind].
    split; auto. split; [now rewrite Nat.add_1_r|congruence].
  Qed.

  Lemma edges_shifted dm b n cb t : tinv eps md dm b n cb t ->
    shifted (dist_of dm) eps (Z.to_nat md) b n (fst (st_getAllEdges srt t)) /\
    (st_isSorted t = false -> forall k, StronglySorted by_weight (level (fst (st_getAllEdges srt t)) k)) /\
    tinv eps md dm b n cb (snd (st_getAllEdges srt t)) /\ st_isSorted (snd (st_getAllEdges srt t)) = true.
  Proof.
    intros V. assert (V' := sort_step eps md dm b n cb t srt Hs V).
    assert (E : st_weg (snd (st_getAllEdges srt t)) = fst (st_getAllEdges srt t)) by (unfold st_getAllEdges; destruct (st_isSorted t); auto).
    assert (E2 : st_isSorted (snd (st_getAllEdges srt t)) = true) by (unfold st_getAllEdges; destruct (st_isSorted t) eqn:F; auto).
    split; [|split; [|auto]].
    - rewrite <- E. constructor.
      + intros k s w. unfold level. rewrite (spec_shift _ _ _ _ _ _ _ _ _ _ V'). unfold within, strict_rips. rewrite Z.mod_small by lia. split.
        * intros (s0 & E0 & L & R & W & D). exists s0. split; auto. split; auto. split; [lia|]. auto.
        * intros (s0 & E0 & L & K & R & D). exists s0. split; auto. split; auto. split; auto. split; auto. right. lia.
      + apply V'.
      + intros k. split; [apply V'|]. intros H. destruct (Nat.le_gt_cases (length (st_weg (snd (st_getAllEdges srt t)))) k) as [L|]; auto.
        unfold level in H. now rewrite nth_overflow in H.
    - intros F k. unfold st_getAllEdges. rewrite F. unfold level. cbn [fst]. rewrite map_lev by now apply sort_nil. apply Hs.
  Qed.
End Tree.

Lemma shifted_ext D E eps tp B n edges : (forall u v, u < v -> v < n -> D u v = E u v) -> shifted D eps tp B n edges -> shifted E eps tp B n edges.
Proof.
  intros H [A B1 C]. split; auto. intros k s w. rewrite A. split; intros (s0 & E0 & L & K & F & W); exists s0; (split; [auto|]); (split; [auto|]); (split; [auto|]).
  - assert (V : forall v, In v s0 -> v < n) by apply F. split; [|now apply diameter_ext with (D := D) (n := n)].
    revert F. apply flag_mono. intros u v Huv Hv. now rewrite H.
  - assert (V : forall v, In v s0 -> v < n) by apply F. split.
    + revert F. apply flag_mono. intros u v Huv Hv. now rewrite H.
    + apply diameter_ext with (D := E) (n := n); auto. intros. symmetry. auto.
Qed.

Section Runs.
  Variable dist : list Z -> list Z -> Z.
  Variables atoi atof : string -> Z.
  Variable srt : list wsimp -> list wsimp.
  Variable past_end : list nat -> nat -> res nat.
  Variable al_reduce : wgraph -> res wgraph.
  Variable other : pipe_kind -> amap -> packet -> res packet.
  Variables (args : amap) (d e : string).
  Notation pipeline := (runPipeline packet (run_pipe dist atoi atof srt past_end al_reduce other) add_stats).
  Hypothesis Hs : is_sort srt.
  Hypothesis Hr : default_run args Tree d e.
  Hypothesis Hpos : forall x y, (0 <= dist x y)%Z.
  Hypothesis Hd : (0 < atoi d < 2 ^ 31 - 1)%Z.
  Notation eps := (atof e).
  Notation md := (atoi d).

  Lemma later_run p t dm0 b cb : tinv eps md dm0 b 0 cb t -> pk_complex p = Some (CTree eps md t) -> decreasing (pk_weights p) ->
    pk_data p <> [] -> (forall x, In x (pk_data p) -> x <> []) ->
    exists edges dm t2 ws stats,
      shifted (separation dist (pk_data p)) eps (Z.to_nat md) b (length (pk_data p)) edges /\
      (st_isSorted t = false -> StronglySorted by_weight (level edges 1)) /\
      tinv eps md dm b (length (pk_data p)) cb t2 /\ st_isSorted t2 = true /\ decreasing ws /\
      pipeline args p = match fp_run past_end md eps edges (pk_table p) with
        | Ok (Some (l, tab)) => Ok (Some (mkPacket (pk_data p) (pk_labels p) (pk_full p) ws (Some (CTree eps md t2)) l tab stats, []))
        | _ => UB
        end.
  Proof.
    intros V Hc Dw Hne Hrow. set (data := pk_data p) in *.
    destruct (distMatrix_spec (list Z) (fun v => match v with [] => true | _ => false end) dist eps data (pk_weights p) Dw)
      as (dm & ws & E & L1 & L2 & Vd & Dw' & _).
    assert (Sep : forall u v, u < v -> v < length data -> dist_of dm u v = separation dist data u v).
    { intros u v Huv Hv. unfold dist_of, separation. destruct (nth_error data u) as [x|] eqn:Eu; [|apply nth_error_None in Eu; lia].
      destruct (nth_error data v) as [y|] eqn:Ev; [|apply nth_error_None in Ev; lia]. rewrite (Vd u v x y Eu Ev).
      destruct (Nat.ltb_spec u v); [|lia]. destruct x; [|reflexivity]. exfalso. apply nth_error_In in Eu. now apply (Hrow []). }
    assert (U : upper_triangle dm (length data)).
    { intros u v Huv Hv. rewrite (L2 u) by lia. split; auto. rewrite Sep by auto. unfold separation.
      destruct (nth_error data u), (nth_error data v); auto; lia. }
    assert (Hdm : dm <> []) by (intros ->; destruct data; [easy|discriminate]).
    assert (V0 := matrix_step eps md dm0 dm b cb t V).
    destruct (inserts_step eps md srt dm b cb (length data) Hdm U _ V0) as (t1 & E1 & V1 & S1).
    destruct (edges_shifted eps md srt Hs Hd dm b (length data) cb t1 V1) as (Sh & So & V2 & S2).
    destruct (st_getAllEdges srt t1) as [edges t2] eqn:Eg. cbn [fst snd] in *.
    assert (Hr' := Hr). destruct Hr' as [H1 H2 H3 H4 H5 (col & H6 & H7 & H8)].
    assert (Col : (String.eqb col "true" || String.eqb col "1") = false).
    { now rewrite (proj2 (String.eqb_neq col "true") H7), (proj2 (String.eqb_neq col "1") H8). }
    exists edges, dm, t2, ws, (((((pk_stats p ++ [(KDistMatrix, cx_vertexCount (CTree eps md (st_setDistanceMatrix dm t)), cx_simplexCount (CTree eps md (st_setDistanceMatrix dm t)))])
        ++ [(KNeighGraph, cx_vertexCount (CTree eps md t1), cx_simplexCount (CTree eps md t1))])
        ++ [(KRips, cx_vertexCount (CTree eps md t1), cx_simplexCount (CTree eps md t1))])
        ++ [(KFastPersistence, cx_vertexCount (CTree eps md t2), cx_simplexCount (CTree eps md t2))])).
    split; [now apply (shifted_ext (dist_of dm))|]. split; [intros F; apply So; cbn in S1; congruence|]. split; auto. split; auto. split; auto.
    rewrite (run_default dist atoi atof srt past_end al_reduce other args Tree d e p Hr).
    unfold run_distMatrix, opt. rewrite H4. fold data. rewrite E. cbn [bind fst snd]. unfold PipeModel.deref at 1. rewrite Hc. cbn [bind cx_setDistanceMatrix].
    unfold add_stats at 1. unfold PipeModel.deref at 1. cbn [pk_complex bind pk_data pk_labels pk_full pk_weights pk_output pk_table pk_stats].
    unfold run_neighGraph. cbn [pk_data].
    rewrite (neigh_tree srt eps md data _ (st_setDistanceMatrix dm t)) by auto. rewrite E1. cbn [rmap bind].
    unfold add_stats at 1. unfold PipeModel.deref at 1. unfold set_complex at 1 2 3 4 5 6 7 8 9. cbn [pk_complex bind pk_data pk_labels pk_full pk_weights pk_output pk_table pk_stats].
    unfold run_rips, opt. rewrite H3, H6. unfold PipeModel.deref at 1. cbn [pk_complex bind cx_expand]. rewrite Col. cbn [bind].
    unfold add_stats at 1. unfold PipeModel.deref at 1. unfold set_complex at 1 2 3 4 5 6 7 8 9. cbn [pk_complex bind pk_data pk_labels pk_full pk_weights pk_output pk_table pk_stats].
    unfold run_fast, opt. rewrite H3, H4. unfold PipeModel.deref at 1. cbn [pk_complex bind].
    destruct (Z.ltb_spec 0 md); [|lia]. cbn [cx_expand bind cx_getAllEdges]. rewrite Eg. cbn [pk_table].
    destruct (fp_run past_end md eps edges (pk_table p)) as [[[lines tab]|]|] eqn:Ef; cbn [bind]; auto.
    apply fp_none in Ef. exfalso. assert (K := proj2 (sh_len _ _ _ _ _ _ Sh 0)). rewrite Ef in K. cbn in K.
    assert (0 < 0); [|lia]. apply K. clear K. intros K. assert (Z0 := sh_level0 dist data eps (Z.to_nat md) b edges ltac:(lia) ltac:(now apply (shifted_ext (dist_of dm)))).
    rewrite Ef in Z0. cbn in Z0. destruct data; [easy|discriminate].
  Qed.
End Runs.

Lemma deletion_needs uaf roots : forall c x, st_deletion uaf roots c = Ok x -> uaf = Ok tt.
Proof. destruct roots as [|r rs]; intros c x; [discriminate|]. destruct uaf as [[]|]; auto. cbn. destruct rs; [discriminate|]. destruct (st_deletion UB (t :: rs) c); discriminate. Qed.

Lemma noop_points lab tab x : mapPartitionIndexing lab tab = Ok x ->
  forall b y, In b tab -> In y (boundaryPoints b) -> y < length lab.
Proof.
  intros H b y Hb Hy. destruct (Nat.lt_ge_cases y (length lab)); auto. exfalso.
  rewrite (proj2 (mapPartitionIndexing_noop lab tab)) in H; [discriminate|]. intros A. specialize (A b y Hb Hy). lia.
Qed.

Section Reduced.
  Variable dist : list Z -> list Z -> Z.
  Variables atoi atof : string -> Z.
  Variable srt : list wsimp -> list wsimp.
  Variable past_end : list nat -> nat -> res nat.
  Variable al_reduce : wgraph -> res wgraph.
  Variable other : pipe_kind -> amap -> packet -> res packet.
  Variable uaf : res unit.
  Variables (args : amap) (d e : string).
  Hypothesis Hs : is_sort srt.
  Hypothesis Hr : default_run args Tree d e.
  Hypothesis Hpos : forall x y, (0 <= dist x y)%Z.
  Hypothesis Hd : (0 < atoi d < 2 ^ 31 - 1)%Z.
  Notation eps := (atof e).
  Notation md := (atoi d).
  Notation run_and_write := (run_and_write dist atoi atof srt past_end al_reduce other args).
  Notation reduced_step := (reduced_step dist atoi atof srt past_end al_reduce other uaf args).
  Definition names (outs : list (list (nat * Z * Z))) : list written :=
    if writes_output args then map (fun o => ((opt args "outputFile" ++ ".csv")%string, o)) outs else [].

  (* The packet between two groups; b vertices were numbered so far. *)
  Definition rinv (p : packet) (b : nat) (first : bool) : Prop := exists t dm cb,
    pk_complex p = Some (CTree eps md t) /\ tinv eps md dm b 0 cb t /\ decreasing (pk_weights p) /\
    (first = true -> st_isSorted t = false).

  Lemma group_step p b first g p' fs p'' : rinv p b first -> g <> [] -> (forall x, In x g -> x <> []) ->
    run_and_write (with_data p g) = Ok (p', fs) -> clear_complex uaf p' = Ok p'' ->
    rinv p'' (b + length g) false /\ uaf = Ok tt /\ fs = names [pk_output p''] /\ incl (pk_table p) (pk_table p'') /\
    (exists F, spanning_forest dist g eps F /\ ends_at dist g eps F (pk_output p'') /\ (first = true -> single_linkage dist g eps F)) /\
    some_pair dist g eps /\
    (some_path dist g eps -> exists en x, In en (pk_table p'') /\ In x (boundaryPoints en) /\ b <= x).
  Proof.
    intros (t & dm0 & cb & Ec & V & Dw & Fi) Hne Hrow H1 H2.
    destruct (later_run dist atoi atof srt past_end al_reduce other args d e Hs Hr Hpos Hd (with_data p g) t dm0 b cb V Ec Dw Hne Hrow)
      as (edges & dm & t2 & ws & stats & Sh & So & V2 & S2 & Dw' & E).
    cbn [pk_data with_data pk_table pk_labels pk_full] in *. unfold MainModel.run_and_write in H1. rewrite E in H1. clear E.
    destruct (fp_run past_end md eps edges (pk_table p)) as [[[lines tab]|]|] eqn:Ef; try discriminate. cbn [bind] in H1. injection H1 as <- <-.
    unfold clear_complex, PipeModel.deref in H2. cbn [pk_complex bind] in H2.
    destruct (st_clear uaf t2) as [t3|] eqn:E3; [|discriminate]. cbn [bind] in H2. injection H2 as <-. unfold set_complex. cbn [pk_output pk_table].
    assert (Hu : uaf = Ok tt). { unfold st_clear in E3. destruct (st_deletion uaf (st_roots t2) (st_count t2)) eqn:Q; [|discriminate]. now apply deletion_needs in Q. }
    assert (Lg : length g <> 0) by (destruct g; [easy|discriminate]).
    destruct (clear_step eps md dm b (length g) cb t2 V2 Lg) as (t3' & E3' & V3). rewrite <- Hu, E3 in E3'. injection E3' as <-.
    assert (Htp : 1 <= Z.to_nat md) by lia.
    split; [|split; [auto|split; [|split; [|split; [|split]]]]].
    - eexists _, _, _. cbn [pk_complex pk_weights]. split; [reflexivity|]. split; [exact V3|]. split; auto. discriminate.
    - unfold names. destruct (writes_output args); reflexivity.
    - destruct (fp_any _ _ _ _ _ _ _ Ef) as (new & newt & L2 & E1 & E2 & _). cbn zeta in *.
      destruct (loop_points (length (level edges 0)) (level edges 1) (mkK [] [] [] (pk_table p) 0)) as (u & Eu & _).
      intros x Hx. rewrite E2. apply in_app_iff. left. unfold kruskal. rewrite Eu. apply in_app_iff. now left.
    - destruct (group_bars dist g eps (Z.to_nat md) b edges Htp Sh _ _ _ _ _ Ef) as (F & F1 & F2 & F3). exists F. split; auto.
    - apply (sh_two dist g eps (Z.to_nat md) b edges Htp Sh). apply fp_any in Ef as (new & newt & L2 & _). exact L2.
    - intros Hp. apply (recorded_point dist g eps (Z.to_nat md) b edges Htp Sh _ _ _ _ _ Hp Ef).
  Qed.

  Lemma reduced_fold zs : (forall lab part, In (lab, part) zs -> length lab = length part /\ forall x, In x part -> x <> []) ->
    forall p files b first q files', rinv p b first -> foldr_ub reduced_step (p, files) zs = Ok (q, files') ->
    let gs := filter non_empty (map snd zs) in
    exists outs, files' = files ++ names outs /\
      Forall2 (fun g o => exists F, spanning_forest dist g eps F /\ ends_at dist g eps F o) gs outs /\
      (first = true -> forall g gs' o outs', gs = g :: gs' -> outs = o :: outs' ->
         exists F, spanning_forest dist g eps F /\ ends_at dist g eps F o /\ single_linkage dist g eps F) /\
      rinv q (b + points gs) (first && negb (non_empty gs)) /\
      (gs <> [] -> uaf = Ok tt) /\ (forall g, In g gs -> some_pair dist g eps) /\
      (forall en x, In en (pk_table p) -> In x (boundaryPoints en) -> forall h, In h gs -> x < length h) /\
      (forall gs1 g gs2, gs = gs1 ++ g :: gs2 -> some_path dist g eps -> forall h, In h (g :: gs2) -> b + points gs1 < length h).
  Proof.
    induction zs as [|(lab, part) zs IH]; intros Hz p files b first q files' V H gs.
    - cbn in H. injection H as <- <-. subst gs. cbn. exists []. unfold names. 
      split; [destruct (writes_output args); now rewrite app_nil_r|]. split; [constructor|]. split; [discriminate|].
      split; [rewrite Nat.add_0_r, andb_true_r; exact V|]. split; [easy|]. split; [easy|]. split; [easy|]. intros gs1 g gs2 Q. now destruct gs1.
    - cbn [foldr_ub] in H. unfold MainModel.reduced_step in H at 1. cbn [map snd filter] in gs.
      destruct (Hz lab part (or_introl eq_refl)) as [Lz Rz]. assert (Hz' := fun l q Q => Hz l q (or_intror Q)). clear Hz.
      destruct part as [|x0 part0].
      + cbn [non_empty] in gs. cbn [bind] in H. apply IH with (1 := Hz') (2 := V) (3 := H).
      + cbv beta iota in H. cbn [non_empty] in gs. set (part := x0 :: part0) in *.
        destruct (run_and_write (with_data p part)) as [[p' fs]|] eqn:E1; [|discriminate]. cbn [bind fst snd] in H.
        destruct (clear_complex uaf p') as [p''|] eqn:E2; [|discriminate]. cbn [bind] in H.
        destruct (mapPartitionIndexing lab (pk_table p'')) as [tb|] eqn:E3; [|discriminate]. cbn [bind] in H.
        destruct (group_step p b first part p' fs p'' V ltac:(easy) Rz E1 E2) as (V1 & Hu & Hf & Ht & (F & F1 & F2 & F3) & Hp & Hq).
        assert (N := noop_points _ _ _ E3). rewrite Lz in N.
        destruct (IH Hz' _ _ _ _ _ _ V1 H) as (outs & O1 & O2 & O3 & O4 & O5 & O6 & O7 & O8). clear IH. cbn zeta in *.
        exists (pk_output p'' :: outs). split; [|split; [|split; [|split; [|split; [|split; [|split]]]]]].
        * rewrite O1, Hf. unfold names. destruct (writes_output args); cbn; now rewrite <- ?app_assoc.
        * constructor; eauto.
        * intros Q g gs' o outs' [= <- <-] [= <- <-]. eauto 6.
        * subst gs. rewrite andb_false_r. unfold points in *. cbn [map list_sum fold_right]. rewrite Nat.add_assoc. exact O4.
        * auto.
        * intros g [<-|Hg]; auto.
        * intros en x Hen Hx h [<-|Hh]; [eapply N; eauto|eapply O7; eauto].
        * intros gs1 g gs2 Q Hpath h Hh. destruct gs1 as [|g1 gs1]; cbn in Q; injection Q as Q1 Q2.
          -- rewrite <- Q1, <- Q2 in *. destruct (Hq Hpath) as (en & x & I1 & I2 & I3). cbn. rewrite Nat.add_0_r.
             apply Nat.le_lt_trans with x; auto. destruct Hh as [<-|Hh]; [eapply N; eauto|eapply O7; eauto].
          -- rewrite <- Q1. unfold points. cbn [map list_sum fold_right]. rewrite Nat.add_assoc. exact (O8 gs1 g gs2 Q2 Hpath h Hh).
  Qed.
End Reduced.

(* ---- the whole program *)
Lemma value_mget argv m l v : parse argv = Ok m -> value argv l v -> mget m l = Some v.
Proof.
  intros P (s & d & I & H). destruct (parse_options argv m P) as [O _]. destruct (O l s d I) as (_ & A & B & C).
  destruct H as [H|[[H1 H2]|(H1 & H2 & ->)]]; auto.
Qed.
Lemma complete_parse argv : complete_line argv -> exists m, parse argv = Ok m.
Proof. intros H. destruct (parse argv) as [m|] eqn:E; eauto. exfalso. apply H. now apply parse_ub. Qed.

Lemma line_args argv pre c d e f o : one_run_line argv pre c d e f o -> exists m, parse argv = Ok m /\
  let args := setPipeline m in default_run args c d e /\ mget args "preprocessor" = Some pre /\ mget args "inputFile" = Some f /\ mget args "outputFile" = Some o /\
  opt args "upscale" <> "true"%string /\ opt args "mode" <> "reduced"%string.
Proof.
  intros [Hc Hm (a & Ha & Na) Hp Hpre (z & Hz & Nz) Hd He Hi Ho]. destruct (complete_parse argv Hc) as (m & P). exists m. split; auto. intros args.
  assert (Vm := fun l v => value_mget argv m l v P). assert (HO := parse_has_options argv m P : has_options m).
  assert (G : exists q, applies m (Some q) /\ pl_pipeline q = default_pipeline /\ chosen (pl_preprocessor q) (mget m "preprocessor") = Some pre /\
     chosen (pl_upscale q) (mget m "upscale") <> Some "true"%string /\ chosen (pl_complexType q) (mget m "complexType") = Some (cx_name c)).
  { destruct Hm as [(H1 & H2 & u & H3 & H4)|[(H1 & ->)|(H1 & Np & H2 & u & H3 & H4)]].
    - eexists. split; [right; right; split; [rewrite (Vm _ _ Ha); congruence|]; split; [now apply Vm|]; exists "standard"%string; split; [now apply Vm|]; left; eexists; split; [left; reflexivity|reflexivity]|].
      cbn [pl_pipeline pl_preprocessor pl_upscale pl_complexType chosen]. rewrite (Vm _ _ Hpre), (Vm _ _ H2), (Vm _ _ H3). repeat split; auto. congruence.
    - eexists. split; [right; right; split; [rewrite (Vm _ _ Ha); congruence|]; split; [now apply Vm|]; exists "fast"%string; split; [now apply Vm|]; left; eexists; split; [do 6 right; left; reflexivity|reflexivity]|].
      cbn [pl_pipeline pl_preprocessor pl_upscale pl_complexType chosen]. rewrite (Vm _ _ Hpre). repeat split; auto. congruence.
    - eexists. split; [right; right; split; [rewrite (Vm _ _ Ha); congruence|]; split; [now apply Vm|]; exists "stream"%string; split; [now apply Vm|]; left; eexists; split; [do 3 right; left; reflexivity|reflexivity]|].
      cbn [pl_pipeline pl_preprocessor pl_upscale pl_complexType chosen]. rewrite (Vm _ _ Hpre), (Vm _ _ H2), (Vm _ _ H3).
      repeat split; auto; [destruct pre; [easy|reflexivity]|congruence]. }
  destruct G as (q & Ap & Q1 & Q2 & Q3 & Q4). assert (S1 := setPipeline_spec m (Some q) HO Ap). cbn beta iota in S1. fold args in S1.
  assert (Md : mget m "mode" <> Some "reduced"%string) by (destruct Hm as [(H1 & _)|[(H1 & _)|(H1 & _)]]; rewrite (Vm _ _ H1); discriminate).
  unfold opt. rewrite !S1. unfold planned. cbn. rewrite Q2, (Vm _ _ Hi), (Vm _ _ Ho).
  split; [|repeat split; auto].
  - constructor; rewrite ?S1; unfold planned; cbn; auto; [now rewrite Q1|apply HO; do 2 eexists; unfold options; do 14 right; left; reflexivity|].
    exists z. auto.
  - destruct (chosen (pl_upscale q) (mget m "upscale")); congruence.
  - destruct (mget m "mode"); congruence.
Qed.

Lemma commas_ne num (stod : text -> option num) : forall fuel line row r, commas num stod fuel line row = Some r -> (row <> [] \/ line <> []) -> r <> [].
Proof.
  induction fuel as [|fuel IH]; intros line row r; cbn; destruct (IoModel.cut comma line) as [a [rest|]] eqn:E; try discriminate; intros H Hn.
  - destruct line as [|x line]; cbn in H; [injection H as <-; now destruct Hn|]. destruct (stod (x :: line)); [|discriminate]. injection H as <-. now destruct row.
  - destruct (stod a); [|discriminate]. apply (IH _ _ _ H). left. now destruct row.
  - destruct line as [|x line]; cbn in H; [injection H as <-; now destruct Hn|]. destruct (stod (x :: line)); [|discriminate]. injection H as <-. now destruct row.
Qed.
Lemma csv_loop_ne num (stod : text -> option num) : forall fuel st result r, csv_loop num stod fuel st result = Some r ->
  (forall x, In x result -> x <> []) -> forall x, In x r -> x <> [].
Proof.
  induction fuel as [|fuel IH]; intros st result r; cbn; [destruct st; [discriminate|]; now intros [= <-]|].
  destruct st as [rest|]; [|now intros [= <-]]. destruct (getline (Open rest) []) as [[st' line] ok] eqn:Eg. cbn [fst snd] in *.
  destruct (parseDoubleVector num stod line []) as [[b tmp]|] eqn:E; [|discriminate]. intros H Hn. destruct b.
  - apply (IH _ _ _ H). intros x Hx. apply in_app_iff in Hx as [Hx|[<-|[]]]; auto.
    unfold parseDoubleVector in E. destruct (1 <? length (strip line)) eqn:L; [|discriminate]. apply Nat.ltb_lt in L.
    destruct (commas num stod (length (strip line)) (strip line) []) eqn:Ec; [|discriminate]. cbn in E. injection E as <-.
    apply (commas_ne _ _ _ _ _ _ Ec). right. intros Q. rewrite Q in L. cbn in L. lia.
  - apply (IH _ _ _ H Hn).
Qed.
Lemma readCSV_ne num (stod : text -> option num) file data : readCSV num stod file = Some data -> forall x, In x data -> x <> [].
Proof. destruct file as [t|]; cbn [readCSV]; [|now intros [= <-]]. intros H. apply (csv_loop_ne _ _ _ _ _ _ H). easy. Qed.

Lemma holds_reads stod file f data : holds_points stod file f data -> readCSV Z stod (file f) = Some data.
Proof. intros [[-> ->]|(lines & rs & N & -> & F & ->)]; [reflexivity|]. now apply readCSV_lines. Qed.

Section Whole.
  Variable dist : list Z -> list Z -> Z.
  Variables atoi atof : string -> Z.
  Variable srt : list wsimp -> list wsimp.
  Variable past_end : list nat -> nat -> res nat.
  Variable nc0 : Z.
  Variable al_reduce : wgraph -> res wgraph.
  Variable other : pipe_kind -> amap -> packet -> res packet.
  Variable pre_run : pre_kind -> amap -> packet -> res packet.
  Variable pre_stats : pre_kind -> packet -> res packet.
  Variable uaf : res unit.
  Variable stod : text -> option Z.
  Variable file : string -> option text.
  Notation lhf := (lhf dist atoi atof srt past_end nc0 al_reduce other pre_run pre_stats uaf stod file).
  Notation run_program := (run_program dist atoi atof srt past_end nc0 al_reduce other).

  Lemma plain_lhf argv c d e f o data : plain_line argv c d e f o -> holds_points stod file f data -> data <> [] ->
    exists args, default_run args c d e /\ lhf argv = 
      do r <- run_program args data;
      match r with
      | Some (q, _) => Ok (Ran q (if String.eqb o "console" then [] else [((o ++ ".csv")%string, pk_output q)]))
      | None => UB
      end.
  Proof.
    intros Hl Hf Hne. destruct (line_args _ _ _ _ _ _ _ Hl) as (m & P & Dr & Pre & Fi & Fo & Up & Md). exists (setPipeline m). split; auto.
    unfold MainModel.lhf. rewrite P. cbn [bind]. set (args := setPipeline m) in *.
    assert (Pl := dr_pipeline _ _ _ _ Dr). unfold PipeModel.run_program, new_packet.
    destruct (newSimplex atoi atof nc0 (opt args "complexType") args) as [cx0|]; [|reflexivity]. cbn [bind].
    replace (String.eqb (opt args "pipeline") "slidingwindow") with false by (unfold opt; rewrite Pl; reflexivity).
    replace (opt args "inputFile") with f by (unfold opt; now rewrite Fi). rewrite (holds_reads _ _ _ _ Hf).
    replace (0 <? length data) with true by (symmetry; apply Nat.ltb_lt; destruct data; [easy|cbn; lia]). cbn [orb].
    rewrite (proj2 (String.eqb_neq _ _) Up), (proj2 (String.eqb_neq _ _) Md). unfold processData, preprocess, mread. rewrite Pre. cbn [fst]. 
    change (String.eqb "" "") with true. cbn [bind]. unfold run_and_write.
    assert (W : writes_output args = negb (String.eqb o "console")). { unfold writes_output. now rewrite Pl, Fo. }
    rewrite W. replace (opt args "outputFile") with o by (unfold opt; now rewrite Fo).
    destruct (runPipeline _ _ _ args _) as [[[q fl]|]|] eqn:E; cbn [bind fst snd]; auto.
    - now destruct (String.eqb o "console").
    - exfalso. unfold runPipeline in E. rewrite Pl in E. destruct (pipeline_loop _ _ _ _ _ _ _ _); discriminate.
  Qed.

  Theorem plain_run argv c d e f o data : is_sort srt -> (forall x y, (0 <= dist x y)%Z) -> (0 < atoi d < 2 ^ 31 - 1)%Z ->
    plain_line argv c d e f o -> holds_points stod file f data -> data <> [] ->
    (forall r, lhf argv = Ok r ->
       exists q deaths, r = Ran q (if String.eqb o "console" then [] else [((o ++ ".csv")%string, pk_output q)]) /\
         dim0 (pk_output q) = map (fun w => (0, 0%Z, w)) deaths ++ [(0, 0%Z, atof e)] /\
         forall t n, clusters dist data c (atof e) t n <-> count_le t deaths + n = length data) /\
    (~ (exists u v, u < v /\ v < length data /\ close c (atof e) (separation dist data u v)) -> lhf argv = UB).
  Proof.
    intros Hs Hpos Hd Hl Hf Hne. destruct (plain_lhf _ _ _ _ _ _ _ Hl Hf Hne) as (args & Dr & E).
    assert (Hrow := readCSV_ne _ _ _ _ (holds_reads _ _ _ _ Hf)).
    split.
    - intros r H. rewrite E in H. destruct (run_program args data) as [[[q fl]|]|] eqn:Er; try discriminate. cbn [bind] in H.
      injection H as <-. destruct (default_dim0 dist atoi atof srt past_end nc0 al_reduce other args c d e data Hs Dr Hrow Hpos Hd q fl Er Hne) as (_ & deaths & D1 & D2).
      exists q, deaths. auto.
    - intros N. rewrite E. rewrite (proj1 (default_undefined dist atoi atof srt past_end nc0 al_reduce other args c d e data Hs Dr Hrow Hpos Hd) Hne N). reflexivity.
  Qed.

  (* No points *)
  Theorem no_points argv m f : parse argv = Ok m -> mget (setPipeline m) "pipeline" <> Some "slidingwindow"%string ->
    mget m "inputFile" = Some f ->
    (holds_points stod file f [] -> lhf argv = Ok Usage) /\
    (readCSV Z stod (file f) = None -> lhf argv = Ok Threw).
  Proof.
    intros P Np Fi. assert (HO := parse_has_options argv m P : has_options m).
    destruct (applies_total m HO) as [pl Ap]. assert (S1 := setPipeline_spec m pl HO Ap).
    assert (Keep0 : forall k, k <> "pipeline"%string -> k <> "preprocessor"%string -> k <> "upscale"%string -> k <> "complexType"%string -> mget (setPipeline m) k = mget m k).
    { intros k K1 K2 K3 K4. rewrite S1. destruct pl; auto. unfold planned.
      now rewrite (proj2 (String.eqb_neq _ _) K1), (proj2 (String.eqb_neq _ _) K2), (proj2 (String.eqb_neq _ _) K3), (proj2 (String.eqb_neq _ _) K4). }
    assert (Hdm : exists d e, mget (setPipeline m) "dimensions" = Some d /\ mget (setPipeline m) "epsilon" = Some e).
    { rewrite !Keep0 by discriminate.
      assert (A : mget m "dimensions" <> None) by (apply HO; do 2 eexists; unfold options; do 2 right; left; reflexivity).
      assert (B : mget m "epsilon" <> None) by (apply HO; do 2 eexists; unfold options; do 7 right; left; reflexivity).
      destruct (mget m "dimensions"), (mget m "epsilon"); try easy. eauto. }
    destruct Hdm as (d & e & E1 & E2). unfold MainModel.lhf. rewrite P. cbn [bind]. unfold newSimplex. rewrite E1, E2. cbn [bind].
    replace (String.eqb (opt (setPipeline m) "pipeline") "slidingwindow") with false.
    2:{ symmetry. apply String.eqb_neq. unfold opt. destruct (mget (setPipeline m) "pipeline"); congruence. }
    unfold opt. rewrite (Keep0 "inputFile"%string) by discriminate. rewrite Fi. split.
    - intros H. rewrite (holds_reads _ _ _ _ H). reflexivity.
    - intros ->. reflexivity.
  Qed.
End Whole.

(* ---- the counts of the upscale mode *)
Lemma Forall2_len {A B} (R : A -> B -> Prop) l m : Forall2 R l m -> length l = length m.
Proof. induction 1; cbn; auto. Qed.
Lemma increasing_nodup l : increasing l -> NoDup l.
Proof. induction 1 as [|x l S1 IH F]; constructor; auto. intros Hi. rewrite Forall_forall in F. specialize (F _ Hi). lia. Qed.
Lemma nth_error_same {A} (a : list A) : forall b, (forall j, nth_error a j = nth_error b j) -> a = b.
Proof.
  induction a as [|x a IH]; intros [|y b] H; auto; try (specialize (H 0); discriminate).
  assert (H0 := H 0). injection H0 as <-. f_equal. apply IH. intros j. exact (H (S j)).
Qed.
Lemma radius_length (dist : list Z -> list Z -> Z) cs data labels r : computeMaxRadius dist cs data labels = Ok r -> length labels <= length data.
Proof.
  revert r. induction labels as [|l labels IH] using rev_ind; intros r H; [cbn; lia|]. unfold computeMaxRadius in *.
  rewrite enum_snoc, PartitionProofs.foldr_ub_app in H. rewrite List.app_length. cbn [length].
  destruct (foldr_ub _ 0%Z (enum 0 labels)) as [r0|] eqn:E; [|discriminate]. specialize (IH _ eq_refl). cbn [bind foldr_ub] in H.
  unfold at_ in H at 1. destruct (nth_error data (0 + length labels)) eqn:En; [|discriminate].
  assert (0 + length labels < length data) by (apply nth_error_Some; congruence). lia.
Qed.
Lemma filter_count labels j : forall b, length (filter (fun i => match nth_error labels (i - b) with Some l => l =? j | None => false end) (seq b (length labels))) = count_occ Nat.eq_dec labels j.
Proof.
  induction labels as [|l labels IH]; intros b; [reflexivity|]. cbn [length seq filter]. rewrite Nat.sub_diag. cbn [nth_error].
  assert (IH' := IH (S b)). replace (filter (fun i => match nth_error (l :: labels) (i - b) with Some l0 => l0 =? j | None => false end) (seq (S b) (length labels)))
    with (filter (fun i => match nth_error labels (i - S b) with Some l0 => l0 =? j | None => false end) (seq (S b) (length labels))).
  - cbn [count_occ]. destruct (Nat.eqb_spec l j), (Nat.eq_dec l j); try easy; cbn [length]; now rewrite IH'.
  - apply filter_ext_in. intros i Hi. apply in_seq in Hi. replace (i - b) with (S (i - S b)) by lia. reflexivity.
Qed.
Lemma row_count (labels idx : list nat) j : increasing idx -> (forall i, In i idx <-> nth_error labels i = Some j) -> length idx = count_occ Nat.eq_dec labels j.
Proof.
  intros Hi H. rewrite <- (filter_count labels j 0). apply Permutation_length, NoDup_Permutation; [now apply increasing_nodup| |].
  - apply NoDup_filter, seq_NoDup.
  - intros i. rewrite filter_In, in_seq, Nat.sub_0_r, H. split.
    + intros E. rewrite E, Nat.eqb_refl. split; auto. assert (i < length labels) by (apply nth_error_Some; congruence). lia.
    + intros [_ E]. destruct (nth_error labels i); [|easy]. apply Nat.eqb_eq in E. now subst.
Qed.
Lemma sum_counts k labels : (forall l, In l labels -> l < k) -> list_sum (map (count_occ Nat.eq_dec labels) (seq 0 k)) = length labels.
Proof.
  induction labels as [|l labels IH]; intros H.
  - cbn [length]. assert (G : forall n b, list_sum (map (count_occ Nat.eq_dec []) (seq b n)) = 0) by (induction n; intros; cbn; auto; apply IHn). apply G.
  - cbn [length]. rewrite <- IH by (intros; apply H; now right). clear IH. assert (L := H l (or_introl eq_refl)). clear H.
    assert (G : forall n b, list_sum (map (count_occ Nat.eq_dec (l :: labels)) (seq b n)) = list_sum (map (count_occ Nat.eq_dec labels) (seq b n)) + (if (b <=? l) && (l <? b + n) then 1 else 0)).
    { induction n as [|n IH]; intros b. - cbn. destruct (Nat.leb_spec b l), (Nat.ltb_spec l (b + 0)); cbn; lia.
      - cbn [seq map list_sum fold_right]. unfold list_sum in IH. rewrite IH. cbn [count_occ].
        destruct (Nat.eq_dec l b), (Nat.leb_spec b l), (Nat.ltb_spec l (b + S n)), (Nat.leb_spec (S b) l), (Nat.ltb_spec l (S b + n)); cbn; lia. }
    rewrite G. destruct (Nat.leb_spec 0 l), (Nat.ltb_spec l (0 + k)); cbn; lia.
Qed.

Section Upscale.
  Variable dist : list Z -> list Z -> Z.
  Variables atoi atof : string -> Z.
  Variable srt : list wsimp -> list wsimp.
  Variable past_end : list nat -> nat -> res nat.
  Variable nc0 : Z.
  Variable al_reduce : wgraph -> res wgraph.
  Variable other : pipe_kind -> amap -> packet -> res packet.
  Variable pre_run : pre_kind -> amap -> packet -> res packet.
  Variable pre_stats : pre_kind -> packet -> res packet.
  Variable uaf : res unit.
  Variable stod : text -> option Z.
  Variable file : string -> option text.
  Notation lhf := (lhf dist atoi atof srt past_end nc0 al_reduce other pre_run pre_stats uaf stod file).

  Theorem upscale_counts argv m f data p0 p1 k : parse argv = Ok m -> let args := setPipeline m in
    mget args "upscale" = Some "true"%string -> mget args "pipeline" <> Some "slidingwindow"%string -> mget args "inputFile" = Some f ->
    holds_points stod file f data -> data <> [] -> new_packet atoi atof nc0 args data = Ok p0 ->
    preprocess packet pre_run pre_stats args p0 = Ok p1 -> atoi (opt args "clusters") = k ->
    (((0 <= k)%Z /\ length (pk_labels p1) <= length (pk_full p1) /\ (forall l, In l (pk_labels p1) -> (Z.of_nat l < k)%Z)) ->
       lhf argv = Ok (Counted p1 (map (count_occ Nat.eq_dec (pk_labels p1)) (seq 0 (Z.to_nat k)))) /\
       list_sum (map (count_occ Nat.eq_dec (pk_labels p1)) (seq 0 (Z.to_nat k))) = length (pk_labels p1)) /\
    ((k < 0)%Z -> lhf argv = Ok Threw) /\
    ((0 <= k)%Z -> ~ (length (pk_labels p1) <= length (pk_full p1) /\ (forall l, In l (pk_labels p1) -> (Z.of_nat l < k)%Z)) -> lhf argv = UB).
  Proof.
    intros P args Up Np Fi Hf Hne N Pr Hk. unfold new_packet in N.
    assert (E : lhf argv = (do r <- processUpscaleWrapper atoi pre_run pre_stats args p0; Ok match r with Some (q, counts) => Counted q counts | None => Threw end)).
    { unfold MainModel.lhf. rewrite P. cbn [bind]. fold args. destruct (newSimplex atoi atof nc0 (opt args "complexType") args) as [cx0|]; [|discriminate].
      cbn [bind] in N |- *. injection N as <-. rewrite (proj2 (String.eqb_neq (opt args "pipeline") "slidingwindow")) by (unfold opt; destruct (mget args "pipeline"); congruence).
      replace (opt args "inputFile") with f by (unfold opt; now rewrite Fi). rewrite (holds_reads _ _ _ _ Hf).
      replace (0 <? length data) with true by (symmetry; apply Nat.ltb_lt; destruct data; [easy|cbn; lia]). cbn [orb].
      replace (opt args "upscale") with "true"%string by (unfold opt; now rewrite Up). reflexivity. }
    rewrite E. clear E N. unfold processUpscaleWrapper. rewrite Pr. cbn [bind]. rewrite Hk. split; [|split].
    - intros (H0 & H1 & H2). rewrite (proj2 (Z.ltb_ge k 0) H0).
      assert (H3 : forall l, In l (pk_labels p1) -> l < Z.to_nat k) by (intros l Hl; specialize (H2 l Hl); lia).
      destruct (separatePartitions_ok (Z.to_nat k) (pk_full p1) (pk_labels p1) H1 H3) as (it & pt & -> & T). cbn [bind snd].
      split; [|now apply sum_counts]. do 2 f_equal. destruct T as (T1 & T2 & T3). clear - T2 T3.
      assert (G : forall j, j < Z.to_nat k -> nth_error (map (@length _) pt) j = Some (count_occ Nat.eq_dec (pk_labels p1) j)).
      { intros j Hj. destruct (T3 j Hj) as (idx & pts & _ & E & I1 & I2 & F). rewrite nth_error_map, E. cbn. f_equal.
        rewrite <- (Forall2_len _ _ _ F). now apply row_count. }
      apply nth_error_same. intros j. destruct (Nat.lt_ge_cases j (Z.to_nat k)) as [L|L].
      + rewrite G by auto. rewrite nth_error_map, (nth_error_nth' _ 0) by (now rewrite seq_length). rewrite seq_nth by auto. reflexivity.
      + transitivity (@None nat); [|symmetry]; apply nth_error_None; rewrite map_length, ?seq_length; lia.
    - intros H0. apply Z.ltb_lt in H0. now rewrite H0.
    - intros H0 H. rewrite (proj2 (Z.ltb_ge k 0) H0). rewrite separatePartitions_ub; [reflexivity|]. intros [A B]. apply H. split; auto. intros l Hl. specialize (B l Hl). lia.
  Qed.
End Upscale.

Lemma upscale_lines argv m : parse argv = Ok m ->
  (value argv "mpi" "1" \/ (value argv "pipeline" "" /\ value argv "mode" "upscaleBound")) ->
  mget (setPipeline m) "upscale" = Some "true"%string /\ mget (setPipeline m) "pipeline" <> Some "slidingwindow"%string.
Proof.
  intros P H. assert (HO := parse_has_options argv m P : has_options m). destruct (applies_total m HO) as [pl Ap].
  assert (S1 := setPipeline_spec m pl HO Ap). assert (Vm := fun l v => value_mget argv m l v P).
  assert (G : exists q, pl = Some q /\ pl_upscale q = Always "true" /\ pl_pipeline q <> "slidingwindow"%string).
  { destruct Ap as [[_ ->]|[(N & B & ->)|(N & B & mode & M & C)]].
    - exists mpi_plan. repeat split. discriminate.
    - destruct H as [H|[H _]]; apply Vm in H; congruence.
    - destruct H as [H|[H1 H2]]; [apply Vm in H; congruence|]. apply Vm in H2. assert (mode = "upscaleBound"%string) by congruence. subst mode.
      destruct C as [(q & Q & ->)|[Q _]]; [|exfalso; apply Q; cbn; auto]. exists q. split; auto.
      cbn in Q. repeat (destruct Q as [Q|Q]; [first [discriminate|inversion Q; subst q; cbn; split; [reflexivity|discriminate]]|]). destruct Q. }
  destruct G as (q & -> & U & N). rewrite !S1. unfold planned. cbn. rewrite U. cbn. split; auto. congruence.
Qed.

(* ---- the reduced mode *)
Section Wrapper.
  Variable dist : list Z -> list Z -> Z.
  Variables atoi atof : string -> Z.
  Variable srt : list wsimp -> list wsimp.
  Variable past_end : list nat -> nat -> res nat.
  Variable nc0 : Z.
  Variable al_reduce : wgraph -> res wgraph.
  Variable other : pipe_kind -> amap -> packet -> res packet.
  Variable pre_run : pre_kind -> amap -> packet -> res packet.
  Variable pre_stats : pre_kind -> packet -> res packet.
  Variable uaf : res unit.
  Variables max_dist part_dist : list Z -> list Z -> Z.
  Variable two_times : Z -> Z.
  Variables (args : amap) (d e : string).
  Hypothesis Hs : is_sort srt.
  Hypothesis Hr : default_run args Tree d e.
  Hypothesis Hpos : forall x y, (0 <= dist x y)%Z.
  Hypothesis Hd : (0 < atoi d < 2 ^ 31 - 1)%Z.
  Notation eps := (atof e).
  Notation md := (atoi d).
  Notation wrapper := (reduced_with dist atoi atof srt past_end al_reduce other pre_run pre_stats uaf max_dist part_dist two_times args).

  Theorem reduced_groups p p1 : preprocess packet pre_run pre_stats args p = Ok p1 ->
    pk_complex p1 = Some (CTree eps md (st_new [] nc0)) -> pk_weights p1 = [] ->
    (forall x, In x (pk_data p1) \/ In x (pk_full p1) -> x <> []) ->
    forall q files, wrapper p = Ok (q, files) ->
    exists r it pt outs, computeMaxRadius max_dist (pk_data p1) (pk_full p1) (pk_labels p1) = Ok r /\
      separatePartitionsRad part_dist (two_times r) (pk_data p1) (pk_full p1) (pk_labels p1) = Ok (it, pt) /\
      let parts := filter non_empty pt in
      let groups := filter non_empty (pt ++ [pk_data p1]) in
      files = names args outs /\
      Forall2 (fun g o => exists F, spanning_forest dist g eps F /\ ends_at dist g eps F o) groups outs /\
      (forall g gs o outs', groups = g :: gs -> outs = o :: outs' ->
         exists F, spanning_forest dist g eps F /\ ends_at dist g eps F o /\ single_linkage dist g eps F) /\
      (pk_data p1 <> [] -> exists outs', outs = outs' ++ [pk_output q]) /\
      (groups <> [] -> uaf = Ok tt) /\
      (forall g, In g groups -> some_pair dist g eps) /\
      (forall gs1 g gs2, parts = gs1 ++ g :: gs2 -> some_path dist g eps -> forall h, In h (g :: gs2) -> points gs1 < length h).
  Proof.
    intros Pr Ec Ew Hrow q files H. unfold reduced_with in H. rewrite Pr in H. cbn [bind] in H.
    destruct (computeMaxRadius max_dist (pk_data p1) (pk_full p1) (pk_labels p1)) as [r|] eqn:Er; [|discriminate]. cbn [bind] in H.
    destruct (separatePartitionsRad part_dist (two_times r) (pk_data p1) (pk_full p1) (pk_labels p1)) as [[it pt]|] eqn:Es; [|discriminate]. cbn [bind fst snd] in H.
    destruct (foldr_ub _ (p1, []) (combine it pt)) as [[q1 f1]|] eqn:Ef; [|discriminate]. cbn [bind fst snd] in H.
    assert (Ll : length (pk_labels p1) <= length (pk_full p1)) by (eapply radius_length; eauto).
    destruct (separatePartitionsRad_ok part_dist (two_times r) (pk_data p1) (pk_full p1) (pk_labels p1) Ll) as (it' & pt' & Es' & T).
    rewrite Es in Es'. injection Es' as <- <-. destruct T as (T1 & T2 & T3).
    assert (Sn : map snd (combine it pt) = pt). { clear - T1 T2. revert pt T2. rewrite <- T1. clear T1. induction it as [|a it IH]; intros [|b pt] L; try easy. cbn. f_equal. apply IH. cbn in L. lia. }
    assert (Hz : forall lab part, In (lab, part) (combine it pt) -> length lab = length part /\ forall x, In x part -> x <> []).
    { intros lab part Hi. apply In_nth_error in Hi as (j & Hj). assert (Lj : j < length (combine it pt)) by (apply nth_error_Some; congruence).
      rewrite combine_length in Lj. destruct (T3 j ltac:(lia)) as (idx & pts & J1 & J2 & _ & _ & F).
      assert (Q : nth_error (combine it pt) j = Some (idx, pts)).
      { clear - J1 J2. revert pt j J1 J2. induction it as [|a it IH]; intros [|b pt] [|j] J1 J2; try discriminate; cbn in *; [congruence|auto]. }
      rewrite Q in Hj. injection Hj as <- <-. split; [now apply Forall2_len in F|]. intros x Hx. apply Hrow. right.
      clear - F Hx. induction F as [|i y idx pts Hy F IH]; [easy|]. destruct Hx as [<-|Hx]; auto. now apply nth_error_In in Hy. }
    assert (V0 : rinv atoi atof d e p1 0 true).
    { exists (st_new [] nc0), [], nc0. split; auto. split; [apply tinv_new|]. rewrite Ew. split; [constructor|reflexivity]. }
    destruct (reduced_fold dist atoi atof srt past_end al_reduce other uaf args d e Hs Hr Hpos Hd (combine it pt) Hz p1 [] 0 true q1 f1 V0 Ef) as (outs & O1 & O2 & O3 & O4 & O5 & O6 & O7 & O8).
    cbn zeta in *. rewrite Sn in *. exists r, it, pt. cbn [app] in O1.
    destruct (pk_data p1) as [|c0 cs] eqn:Ed.
    - exists outs. injection H as <- <-. split; auto. split; auto. rewrite filter_app. cbn [filter non_empty]. rewrite app_nil_r.
      split; [exact O1|]. split; [exact O2|]. split; [exact (O3 eq_refl)|]. split; [intros K; now destruct K|]. split; [exact O5|]. split; [exact O6|exact O8].
    - cbv beta iota in H. rewrite <- Ed in *. set (g := pk_data p1) in *. 
      destruct (run_and_write _ _ _ _ _ _ _ args (with_data q1 g)) as [[p2 f2]|] eqn:E2; [|discriminate]. cbn [bind fst snd] in H.
      destruct (clear_complex uaf p2) as [p3|] eqn:E3; [|discriminate]. cbn [bind] in H. injection H as <- <-.
      assert (Gne : g <> []) by (rewrite Ed; discriminate).
      destruct (group_step dist atoi atof srt past_end al_reduce other uaf args d e Hs Hr Hpos Hd q1 _ _ g p2 f2 p3 O4 Gne (fun x Hx => Hrow x (or_introl Hx)) E2 E3)
        as (_ & Hu & Hf & _ & (F & F1 & F2 & F3) & Hp & _).
      exists (outs ++ [pk_output p3]). split; auto. split; auto.
      assert (Eg : filter non_empty (pt ++ [g]) = filter non_empty pt ++ [g]). { rewrite filter_app. f_equal. rewrite Ed. reflexivity. }
      rewrite Eg. split; [|split; [|split; [|split; [|split; [|split]]]]]; auto.
      + rewrite O1, Hf. unfold names. destruct (writes_output args); auto. now rewrite map_app.
      + apply Forall2_app; auto. repeat constructor. eauto.
      + intros g0 gs o outs' Q1 Q2. destruct (filter non_empty pt) as [|a l] eqn:Q.
        * inversion O2; subst. cbn in *. injection Q1 as <- <-. injection Q2 as <- <-. eauto.
        * inversion O2; subst. cbn in Q1, Q2. injection Q1 as <- <-. injection Q2 as <- <-. eapply O3; eauto.
      + eauto.
      + intros g0 Hg. apply in_app_iff in Hg as [Hg|[<-|[]]]; auto.
  Qed.
End Wrapper.

(* ---- what the runs leave alone *)
Section Kept.
  Variable dist : list Z -> list Z -> Z.
  Variables atoi atof : string -> Z.
  Variable srt : list wsimp -> list wsimp.
  Variable past_end : list nat -> nat -> res nat.
  Variable al_reduce : wgraph -> res wgraph.
  Variable other : pipe_kind -> amap -> packet -> res packet.
  Variable pre_run : pre_kind -> amap -> packet -> res packet.
  Variable pre_stats : pre_kind -> packet -> res packet.
  Variable uaf : res unit.
  Variables (args : amap) (c : cx_type) (d e : string).
  Hypothesis Hr : default_run args c d e.
  Notation pipeline := (runPipeline packet (run_pipe dist atoi atof srt past_end al_reduce other) add_stats).
  Notation run_and_write := (run_and_write dist atoi atof srt past_end al_reduce other args).

  Definition keeps (p q : packet) : Prop := pk_data q = pk_data p /\ pk_full q = pk_full p /\ pk_labels q = pk_labels p.
  Lemma keeps_trans p q r : keeps p q -> keeps q r -> keeps p r.
  Proof. unfold keeps. intros (A & B & C) (D & E & F). repeat split; congruence. Qed.
  Lemma bind_inv {A B} (x : res A) (f : A -> res B) y : bind x f = Ok y -> exists a, x = Ok a /\ f a = Ok y.
  Proof. destruct x as [a|]; [eauto|discriminate]. Qed.
  Lemma stats_keep k p q : add_stats k p = Ok q -> keeps p q.
  Proof. intros H. apply bind_inv in H as (x & _ & H). injection H as <-. repeat split. Qed.
  Lemma neigh_keep p q : run_neighGraph args p = Ok q -> keeps p q.
  Proof.
    unfold run_neighGraph. generalize (pk_data p) at 1. intros l. revert p. induction l as [|v l IH]; intros p H.
    - injection H as <-. repeat split.
    - cbn [foldr_ub] in H. apply bind_inv in H as (p1 & H1 & H). apply keeps_trans with p1; [|now apply IH].
      destruct v; [injection H1 as <-; repeat split|]. apply bind_inv in H1 as (x & _ & H1). apply bind_inv in H1 as (y & _ & H1). injection H1 as <-. repeat split.
  Qed.
  Lemma pipeline_keeps p q fl : pipeline args p = Ok (Some (q, fl)) -> keeps p q.
  Proof.
    rewrite (run_default dist atoi atof srt past_end al_reduce other args c d e p Hr). intros H.
    apply bind_inv in H as (p1 & H1 & H). apply bind_inv in H as (p2 & H2 & H). apply bind_inv in H as (p3 & H3 & H). apply bind_inv in H as (p4 & H4 & H).
    apply bind_inv in H as (p5 & H5 & H). apply bind_inv in H as (p6 & H6 & H). apply bind_inv in H as (p7 & H7 & H). apply bind_inv in H as (p8 & H8 & H).
    injection H as <- <-. apply stats_keep in H2, H4, H6, H8. apply neigh_keep in H3.
    assert (K1 : keeps p p1). { apply bind_inv in H1 as (x & _ & H1). apply bind_inv in H1 as (y & _ & H1). injection H1 as <-. repeat split. }
    assert (K5 : keeps p4 p5).
    { unfold run_rips in H5. destruct (mget args "dimensions"); [|discriminate]. apply bind_inv in H5 as (x & _ & H5). apply bind_inv in H5 as (y & _ & H5).
      apply bind_inv in H5 as (z & _ & H5). injection H5 as <-. repeat split. }
    assert (K7 : keeps p6 p7).
    { unfold run_fast in H7. apply bind_inv in H7 as (x & _ & H7). apply bind_inv in H7 as (y & _ & H7). destruct (cx_getAllEdges _ _ y) as [edges z].
      apply bind_inv in H7 as ([[lines tab]|] & _ & H7); injection H7 as <-; repeat split. }
    eapply keeps_trans; [exact K1|]. eapply keeps_trans; [exact H2|]. eapply keeps_trans; [exact H3|]. eapply keeps_trans; [exact H4|].
    eapply keeps_trans; [exact K5|]. eapply keeps_trans; [exact H6|]. eapply keeps_trans; [exact K7|exact H8].
  Qed.
  Lemma write_keeps p q fs : run_and_write p = Ok (q, fs) -> keeps p q.
  Proof.
    intros H. apply bind_inv in H as ([[q' fl]|] & E & H); injection H as <- _; [now apply pipeline_keeps in E|repeat split].
  Qed.
  Lemma clear_keeps p q : clear_complex uaf p = Ok q -> keeps p q.
  Proof.
    intros H. apply bind_inv in H as (x & _ & H). destruct x; [injection H as <-; repeat split| |injection H as <-; repeat split].
    apply bind_inv in H as (y & _ & H). injection H as <-. repeat split.
  Qed.
  (* The reduced mode replaces the points by those of a group, but leaves the points read and their labels alone. *)
  Theorem reduced_keeps p p1 q files : preprocess packet pre_run pre_stats args p = Ok p1 ->
    processReducedWrapper dist atoi atof srt past_end al_reduce other pre_run pre_stats uaf args p = Ok (q, files) ->
    pk_full q = pk_full p1 /\ pk_labels q = pk_labels p1 /\ (pk_data p1 <> [] -> pk_data q = pk_data p1).
  Proof.
    intros Pr H. unfold processReducedWrapper, reduced_with in H. rewrite Pr in H. cbn [bind] in H.
    apply bind_inv in H as (r & _ & H). apply bind_inv in H as (parts & _ & H). apply bind_inv in H as (st & Ef & H).
    assert (K : pk_full (fst st) = pk_full p1 /\ pk_labels (fst st) = pk_labels p1).
    { revert Ef. generalize (combine (fst parts) (snd parts)). generalize (@nil written). generalize p1. clear - Hr.
      intros p fs l. revert p fs. induction l as [|[lab part] l IH]; intros p fs Ef; [injection Ef as <-; auto|].
      cbn [foldr_ub] in Ef. apply bind_inv in Ef as ([p' fs'] & E1 & Ef). apply IH in Ef as [F1 F2]. rewrite F1, F2. clear IH F1 F2.
      unfold reduced_step in E1. destruct part as [|x part]; [injection E1 as <- <-; auto|]. 
      apply bind_inv in E1 as ([a b] & W & E1). apply bind_inv in E1 as (p2 & C & E1). apply bind_inv in E1 as (m & _ & E1). injection E1 as <- <-.
      apply write_keeps in W. apply clear_keeps in C. destruct W as (_ & W1 & W2), C as (_ & C1 & C2). cbn in *. split; congruence. }
    destruct (pk_data p1) as [|x0 cs] eqn:Ed; [injection H as ->; cbn in *; tauto|]. 
    apply bind_inv in H as ([a b] & W & H). apply bind_inv in H as (p2 & C & H). injection H as <- <-.
    apply write_keeps in W. apply clear_keeps in C. destruct W as (W0 & W1 & W2), C as (C0 & C1 & C2), K as [K1 K2]. cbn in *. repeat split; congruence.
  Qed.
End Kept.
