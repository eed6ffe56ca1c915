(* ReducedLine.v -- the reduced mode on the other complexes, from the command line with k-means++. *)
From Coq Require Import String Ascii List Arith ZArith Bool Lia Sorted Permutation Relations.
From Verif Require Import Base UtilsModel ArrayListModel TreeModel FastModel ArgModel IoModel IndModel PipeModel KmeansModel MainModel LinkModel.
From Verif Require Import Spec SpecIo SpecKmeans SpecComplex SpecTree SpecArgs SpecGraph SpecLinear SpecFast SpecPipe SpecIndRun SpecMain SpecLink SpecReducedLine.
From Verif Require Import PartitionProofs ArgProofs IoProofs PipeProofs PipeRuns MainProofs MainRuns LinkProofs LinkRuns ReducedArray.
Import ListNotations.
Local Open Scope nat_scope.
Local Open Scope list_scope.

Lemma named_args argv pre c d e f o : named_reduced_line argv pre c d e f o -> names_kmeans pre -> exists m, parse argv = Ok m /\
  let args := setPipeline m in
  mget args "pipeline" = Some default_pipeline /\ mget args "complexType" = Some c /\ mget args "dimensions" = Some d /\ mget args "epsilon" = Some e /\
  mget args "twist" <> None /\ (exists z, mget args "collapse" = Some z /\ z <> "true"%string /\ z <> "1"%string) /\
  (exists pre', mget args "preprocessor" = Some pre' /\ names_kmeans pre') /\
  mget args "inputFile" = Some f /\ mget args "outputFile" = Some o /\ opt args "upscale" <> "true"%string /\ opt args "mode" = "reduced"%string.
Proof.
  intros [Hc Hm (a & Ha & Na) Hp Hpre Hcx (u & Hu & Nu) (z & Hz & Nz) Hd He Hi Ho] Hk. destruct (complete_parse argv Hc) as (m & P). exists m. split; auto. intros args.
  assert (Vm := fun l v => value_mget argv m l v P). assert (HO := parse_has_options argv m P : has_options m).
  assert (Ap : applies m None). { right. left. split; [rewrite (Vm _ _ Ha); congruence|]. split; [rewrite (Vm _ _ Hp); discriminate|reflexivity]. }
  assert (S1 := setPipeline_spec m _ HO Ap). cbn beta iota in S1. fold args in S1.
  unfold opt. rewrite !S1, (Vm _ _ Hpre), (Vm _ _ Hi), (Vm _ _ Ho), (Vm _ _ Hm), (Vm _ _ Hu), (Vm _ _ Hp), (Vm _ _ Hcx), (Vm _ _ Hd), (Vm _ _ He), (Vm _ _ Hz).
  split; [reflexivity|]. split; [reflexivity|]. split; [reflexivity|]. split; [reflexivity|].
  split; [apply HO; do 2 eexists; unfold options; do 14 right; left; reflexivity|]. split; [eauto|]. split; [eauto|]. repeat split; auto.
Qed.

Section Program.
  Variable dist : list Z -> list Z -> Z.
  Variable maxn : Z.
  Variable quo : Z -> nat -> Z.
  Variable nanz : Z.
  Variables atoi atof : string -> Z.
  Variable index : nat.
  Variable picks : list (nat * (nat -> bool)).
  Variable pre_other : pre_kind -> amap -> packet -> res packet.
  Variable srt : list wsimp -> list wsimp.
  Variable past_end : list nat -> nat -> res nat.
  Variable nc0 : Z.
  Variable al_reduce : wgraph -> res wgraph.
  Variable other : pipe_kind -> amap -> packet -> res packet.
  Variable uaf : res unit.
  Variable stod : text -> option Z.
  Variable file : string -> option text.
  Notation program := (lhf_linked dist maxn quo nanz atoi atof index picks pre_other srt past_end nc0 al_reduce other uaf stod file).
  Notation pre := (pre_linked dist maxn quo nanz atoi index picks pre_other).
  Notation run := (kmeans_run dist maxn quo).
  Notation pre_eq := (pre_eq dist maxn quo nanz atoi index picks pre_other).
  Notation setting_dim := (setting_dim dist maxn index picks stod file).
  Notation cents_rows := (cents_rows dist quo nanz).

  (* What k-means++ hands to the groups. *)
  Lemma named_start argv pr c kk rr d e f o data dim cx : named_reduced_line argv pr c d e f o -> names_kmeans pr ->
    value argv "clusters" kk -> value argv "iterations" rr -> holds_points stod file f data ->
    kmeans_setting dist maxn index picks (atoi kk) (atoi rr) dim data ->
    (forall args, mget args "complexType" = Some c -> mget args "dimensions" = Some d -> mget args "epsilon" = Some e ->
       newSimplex atoi atof nc0 c args = Ok (Some cx)) ->
    exists m, parse argv = Ok m /\ let args := setPipeline m in let p0 := mkPacket data [] data [] (Some cx) [] [] [] in
    program argv = (do r <- processReducedWrapper dist atoi atof srt past_end al_reduce other pre (fun _ p => Ok p) uaf args p0; Ok (Ran (fst r) (snd r))) /\
    (fewer_than (Z.to_nat (atoi kk)) data -> program argv = UB) /\
    (~ fewer_than (Z.to_nat (atoi kk)) data -> exists cents labels rad it pt,
       run (atoi kk) (atoi rr) index picks data = Ok (cents, labels) /\ let cs := map (stored nanz) cents in
       let p1 := mkPacket cs labels data [] (Some cx) [] [] [] in
       clustering dist quo (repeat nanz dim) (Z.to_nat (atoi kk)) dim data labels cs /\ cs <> [] /\
       preprocess packet pre (fun _ p => Ok p) args p0 = Ok p1 /\
       (forall x, In x (pk_data p1) \/ In x (pk_full p1) -> x <> []) /\
       computeMaxRadius dist cs data labels = Ok rad /\ farthest dist data labels cs rad /\
       separatePartitionsRad dist (2 * rad) cs data labels = Ok (it, pt) /\ length pt = Z.to_nat (atoi kk) /\
       (forall j c g, nth_error cs j = Some c -> nth_error pt j = Some g -> forall x, In x g <-> In x (removelast data) /\ (dist x c < 2 * rad)%Z)).
  Proof.
    intros Hl Hn Vk Vr Hf S Hcx. destruct (named_args _ _ _ _ _ _ _ Hl Hn) as (m & P & A1 & A2 & A3 & A4 & A5 & A6 & Pre & Fi & Fo & Up & Md). exists m. split; auto. intros args p0.
    assert (Pe := fun p => pre_eq argv m kk rr P Vk Vr p Pre). fold args in Pe, A1, A2, A3, A4, A5, A6, Pre, Fi, Fo, Up, Md.
    destruct (setting_dim f data dim Hf _ _ S) as [Hne Hdim]. destruct (kmeans_clusters dist maxn quo nanz index picks _ _ dim data S Hdim) as [A B].
    assert (E : program argv = do r <- processReducedWrapper dist atoi atof srt past_end al_reduce other pre (fun _ p => Ok p) uaf args p0; Ok (Ran (fst r) (snd r))).
    { unfold lhf_linked, lhf. rewrite P. cbn [bind]. fold args. replace (opt args "complexType") with c by (unfold opt; now rewrite A2).
      rewrite (Hcx args A2 A3 A4). cbn [bind].
      replace (String.eqb (opt args "pipeline") "slidingwindow") with false by (unfold opt; rewrite A1; reflexivity).
      replace (opt args "inputFile") with f by (unfold opt; now rewrite Fi). rewrite (holds_reads _ _ _ _ Hf).
      replace (0 <? length data) with true by (symmetry; apply Nat.ltb_lt; destruct data; [easy|cbn; lia]). cbn [orb].
      rewrite (proj2 (String.eqb_neq _ _) Up), Md. reflexivity. }
    split; [exact E|]. split.
    - intros F. rewrite E. unfold processReducedWrapper, reduced_with. rewrite Pe. subst p0. cbn [pk_data]. now rewrite (A F).
    - intros N. destruct (B N) as (cents & labels & Er & C).
      assert (Hrow := cents_rows _ _ _ _ _ Hdim C). assert (Lc := cl_count _ _ _ _ _ _ _ _ C). set (cs := map (stored nanz) cents) in *.
      assert (Hk := ks_clusters _ _ _ _ _ _ _ _ S). assert (Hcs : cs <> []) by (intros Q; rewrite Q in Lc; cbn in Lc; lia).
      assert (C1 := cl_all_but_one _ _ _ _ _ _ _ _ C).
      destruct (computeMaxRadius_ok dist cs data labels ltac:(lia)) as (rad & Rr & M1 & M2 & M3). { intros l Hll. rewrite Lc. now apply (cl_range _ _ _ _ _ _ _ _ C). }
      destruct (separatePartitionsRad_ok dist (2 * rad) cs data labels ltac:(lia)) as (it & pt & Rs & (T1 & T2 & T3)).
      exists cents, labels, rad, it, pt. fold cs. split; [exact Er|]. split; [exact C|]. split; [exact Hcs|].
      split. { rewrite Pe. subst p0. cbn [pk_data pk_full pk_weights pk_complex pk_output pk_table pk_stats]. rewrite Er. reflexivity. }
      split. { intros x [H|H]; [now apply Hrow|]. now apply (rows stod file f data Hf). }
      split; [exact Rr|]. split; [split; [exact M1|split; [exact M2|exact M3]]|]. split; [exact Rs|]. split; [congruence|].
      intros j c0 g Hj Hg x. assert (Lj : j < length cs) by (apply nth_error_Some; congruence). destruct (T3 j Lj) as (idx & pts & _ & J2 & _ & J4 & J5).
      rewrite Hg in J2. injection J2 as <-. split.
      + intros Hx. apply In_nth_error in Hx as (n & Hx).
        assert (exists i, In i idx /\ nth_error data i = Some x) as (i & Hi & Hix).
        { clear - J5 Hx. revert n Hx. induction J5; intros [|n] Hx; cbn in Hx; try discriminate; [injection Hx as <-; exists x0; split; [now left|auto]|].
          destruct (IHJ5 n Hx) as (i & I1 & I2). exists i. split; [now right|auto]. }
        apply J4 in Hi as (I1 & x' & c' & I2 & I3 & I4). split; [|congruence]. apply nth_error_In with i. apply removelast_nth. split; [auto|lia].
      + intros [Hx Hxd]. apply In_nth_error in Hx as (i & Hi). apply removelast_nth in Hi as [Hi Li].
        assert (I : In i idx) by (apply J4; split; [lia|eauto]). clear - J5 I Hi. induction J5; [easy|]. destruct I as [->|I]; [left; congruence|right; auto].
  Qed.

  Theorem named_array argv pr kk rr d e f o data dim : is_sort srt -> (forall x y, (0 <= dist x y)%Z) -> (0 < atoi d < 2 ^ 31 - 1)%Z ->
    named_reduced_line argv pr "simplexArrayList" d e f o -> names_kmeans pr -> value argv "clusters" kk -> value argv "iterations" rr ->
    holds_points stod file f data -> kmeans_setting dist maxn index picks (atoi kk) (atoi rr) dim data ->
    (fewer_than (Z.to_nat (atoi kk)) data -> program argv = UB) /\
    (~ fewer_than (Z.to_nat (atoi kk)) data -> exists cents labels,
       run (atoi kk) (atoi rr) index picks data = Ok (cents, labels) /\ let centroids := map (stored nanz) cents in
       clustering dist quo (repeat nanz dim) (Z.to_nat (atoi kk)) dim data labels centroids /\
       (all_used (Z.to_nat (atoi kk)) labels -> forall r, program argv = Ok r ->
          exists q radius groups outs outs',
            r = Ran q (if String.eqb o "console" then [] else map (fun out => ((o ++ ".csv")%string, out)) outs) /\
            farthest dist data labels centroids radius /\
            length groups = Z.to_nat (atoi kk) /\
            (forall j c g, nth_error centroids j = Some c -> nth_error groups j = Some g ->
               forall x, In x g <-> In x (removelast data) /\ (dist x c < 2 * radius)%Z) /\
            Forall2 (fun g out => exists deaths, dim0 out = map (fun w => (0, 0%Z, w)) deaths ++ [(0, 0%Z, atof e)] /\
                       forall t n, clusters dist g ArrayList (atof e) t n <-> count_le t deaths + n = length g)
                    (filter non_empty (groups ++ [centroids])) outs /\
            outs = outs' ++ [pk_output q])).
  Proof.
    intros Hs Hpos Hd Hl Hn Vk Vr Hf S.
    destruct (named_start argv pr _ kk rr d e f o data dim (CArray (atof e) (atoi d) [] []) Hl Hn Vk Vr Hf S) as (m & P & E & A & B).
    { intros args A2 A3 A4. unfold newSimplex, opt. now rewrite A3, A4. }
    split; [exact A|]. intros N. destruct (B N) as (cents & labels & rad & it & pt & B1 & B2 & B3 & B4 & B5 & B6 & B7 & B8 & B9 & B10). clear A B.
    exists cents, labels. split; [exact B1|]. cbv zeta. split; [exact B2|]. intros _ r H.
    destruct (named_args _ _ _ _ _ _ _ Hl Hn) as (m' & P' & A1 & A2 & A3 & A4 & A5 & A6 & Pre & Fi & Fo & Up & Md). rewrite P in P'. injection P' as <-.
    assert (Dr : default_run (setPipeline m) ArrayList d e) by (constructor; auto).
    rewrite E in H. destruct (processReducedWrapper _ _ _ _ _ _ _ _ _ _ _ _) as [[q files]|] eqn:Ew; [|discriminate]. cbn [bind fst snd] in H. injection H as <-.
    destruct (array_groups dist atoi atof srt past_end al_reduce other pre (fun _ p => Ok p) uaf (setPipeline m) d e Hs Dr Hpos Hd _ _ rad it pt B4 eq_refl eq_refl eq_refl B5 B6 B8) as [G _].
    destruct (G q files Ew) as (outs & O1 & O2 & O3 & _). destruct (O3 B3) as (outs' & Eo).
    exists q, rad, pt, outs, outs'. split; [|split; [exact B7|split; [exact B9|split; [exact B10|split; [exact O2|exact Eo]]]]].
    f_equal. rewrite O1. unfold names, writes_output, opt. rewrite A1, Fo. now destruct (String.eqb o "console").
  Qed.

  Theorem named_indexed argv pr kk rr d e f o data dim cents labels i l x c : 
    named_reduced_line argv pr "indSimplexTree" d e f o -> names_kmeans pr -> value argv "clusters" kk -> value argv "iterations" rr ->
    holds_points stod file f data -> kmeans_setting dist maxn index picks (atoi kk) (atoi rr) dim data ->
    run (atoi kk) (atoi rr) index picks data = Ok (cents, labels) ->
    nth_error labels i = Some l -> nth_error data i = Some x -> nth_error (map (stored nanz) cents) l = Some c -> (0 < dist x c)%Z ->
    program argv = UB.
  Proof.
    intros Hl Hn Vk Vr Hf S Rn Hi Hx Hc Hp.
    destruct (named_start argv pr _ kk rr d e f o data dim (CInd (atof e) (atoi d) (ind_new [] nc0)) Hl Hn Vk Vr Hf S) as (m & P & E & A & B).
    { intros args A2 A3 A4. unfold newSimplex, opt. now rewrite A3, A4. }
    assert (Dec : fewer_than (Z.to_nat (atoi kk)) data \/ ~ fewer_than (Z.to_nat (atoi kk)) data).
    { destruct (setting_dim f data dim Hf _ _ S) as [_ Hdim]. destruct (kmeans_clusters dist maxn quo nanz index picks _ _ dim data S Hdim) as [A' _].
      right. intros F. rewrite (A' F) in Rn. discriminate. }
    destruct Dec as [F|N]; [exact (A F)|]. destruct (B N) as (cents' & labels' & rad & it & pt & B1 & B2 & B3 & B4 & B5 & B6 & B7 & B8 & B9 & B10). clear A B.
    rewrite Rn in B1. injection B1 as <- <-.
    destruct (named_args _ _ _ _ _ _ _ Hl Hn) as (m' & P' & A1 & A2 & A3 & A4 & A5 & A6 & _). rewrite P in P'. injection P' as <-.
    assert (Dr : ind_options (setPipeline m) d e false) by (constructor; auto).
    assert (Lc := cl_count _ _ _ _ _ _ _ _ B2). assert (C1 := cl_all_but_one _ _ _ _ _ _ _ _ B2).
    assert (Ll : l < length pt) by (rewrite B9, <- Lc; apply nth_error_Some; congruence).
    destruct (nth_error pt l) as [g|] eqn:Eg; [|apply nth_error_None in Eg; lia].
    assert (Hg : In x g).
    { apply (B10 l c g Hc Eg). split.
      - apply nth_error_In with i. apply removelast_nth. split; [auto|]. assert (i < length labels) by (apply nth_error_Some; congruence). lia.
      - destruct B7 as (_ & M & _). specialize (M i l x c Hi Hx Hc). lia. }
    assert (L2 : 2 <= length (filter non_empty (pt ++ [map (stored nanz) cents]))).
    { rewrite filter_app, List.app_length.
      assert (1 <= length (filter non_empty pt)).
      { assert (Q : In g (filter non_empty pt)) by (apply filter_In; split; [eapply nth_error_In; eauto|destruct g; [easy|reflexivity]]). destruct (filter non_empty pt); [easy|cbn; lia]. }
      destruct (map (stored nanz) cents); [easy|]. cbn. lia. }
    destruct (filter non_empty (pt ++ [map (stored nanz) cents])) as [|g0 [|h gs]] eqn:Ef; try (cbn in L2; lia).
    rewrite E, (ind_groups dist atoi atof srt past_end al_reduce other pre (fun _ p => Ok p) uaf (setPipeline m) d e false Dr _ _ nc0 rad it pt g0 h gs B4 eq_refl eq_refl B5 B6 B8 Ef). reflexivity.
  Qed.
End Program.
