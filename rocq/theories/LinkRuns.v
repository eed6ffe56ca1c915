(* LinkRuns.v -- the whole program with k-means++. *)
From Coq Require Import String Ascii List Arith ZArith Bool Lia Sorted Permutation Relations.
From Verif Require Import Base UtilsModel ArrayListModel TreeModel FastModel ArgModel IoModel PipeModel KmeansModel MainModel LinkModel.
From Verif Require Import Spec SpecIo SpecKmeans SpecComplex SpecTree SpecArgs SpecGraph SpecLinear SpecFast SpecPipe SpecMain SpecLink.
From Verif Require Import PartitionProofs ArgProofs IoProofs PipeProofs PipeRuns MainProofs MainRuns LinkProofs.
Import ListNotations.
Local Open Scope nat_scope.
Local Open Scope list_scope.

(* ---- the pipes leave the labels and the full data alone and do not read them *)
Definition relabel (l : list nat) (f : list (list Z)) (p : packet) : packet :=
  mkPacket (pk_data p) l f (pk_weights p) (pk_complex p) (pk_output p) (pk_table p) (pk_stats p).
Section Relabel.
  Variable dist : list Z -> list Z -> Z.
  Variables atoi atof : string -> Z.
  Variable srt : list wsimp -> list wsimp.
  Variable past_end : list nat -> nat -> res nat.
  Variable al_reduce : wgraph -> res wgraph.
  Variable other : pipe_kind -> amap -> packet -> res packet.
  Variables (l : list nat) (f : list (list Z)).
  Notation relabel := (relabel l f).
  Notation pipeline := (runPipeline packet (run_pipe dist atoi atof srt past_end al_reduce other) add_stats).

  Lemma relabel_stats k p : add_stats k (relabel p) = rmap relabel (add_stats k p).
  Proof. unfold add_stats, PipeModel.deref. cbn [pk_complex LinkRuns.relabel]. destruct (pk_complex p); reflexivity. Qed.
  Lemma relabel_dist args p : run_distMatrix dist atof args (relabel p) = rmap relabel (run_distMatrix dist atof args p).
  Proof.
    unfold run_distMatrix, PipeModel.deref. cbn [pk_data pk_weights pk_complex LinkRuns.relabel]. destruct (distMatrix_run _ _ _ _ _ _); [|reflexivity].
    cbn [bind]. destruct (pk_complex p); reflexivity.
  Qed.
  Lemma relabel_neigh args p : run_neighGraph args (relabel p) = rmap relabel (run_neighGraph args p).
  Proof.
    unfold run_neighGraph. cbn [pk_data LinkRuns.relabel]. remember (pk_data p) as data eqn:Hdata. clear Hdata. revert p.
    induction data as [|v data IH]; intros p; [reflexivity|]. cbn [foldr_ub]. destruct v as [|a v]; [cbn [bind]; apply IH|].
    unfold PipeModel.deref. cbn [pk_complex LinkRuns.relabel]. destruct (pk_complex p) as [c|]; [|reflexivity]. cbn [bind].
    destruct (cx_insert (a :: v) c) as [c'|]; [|reflexivity]. cbn [bind]. rewrite <- IH. reflexivity.
  Qed.
  Lemma relabel_rips args p : run_rips atoi al_reduce args (relabel p) = rmap relabel (run_rips atoi al_reduce args p).
  Proof.
    unfold run_rips, PipeModel.deref. cbn [pk_complex LinkRuns.relabel]. destruct (mget args "dimensions"); [|reflexivity].
    destruct (pk_complex p); [|reflexivity]. cbn [bind]. destruct (cx_expand _ _) as [c1|]; [|reflexivity]. cbn [bind].
    match goal with |- context [bind (if ?b then ?x else ?y) _] => destruct (if b then x else y); reflexivity end.
  Qed.
  Lemma relabel_fast args p : run_fast atoi atof srt past_end args (relabel p) = rmap relabel (run_fast atoi atof srt past_end args p).
  Proof.
    unfold run_fast, PipeModel.deref. cbn [pk_complex pk_table LinkRuns.relabel]. destruct (pk_complex p); [|reflexivity]. cbn [bind].
    match goal with |- context [bind (if ?b then ?x else ?y) _] => destruct (if b then x else y) as [c1|]; [|reflexivity] end. cbn [bind]. destruct (cx_getAllEdges _ _ _) as [edges c2].
    destruct (fp_run _ _ _ _ _) as [[[lines tab]|]|]; reflexivity.
  Qed.
  Lemma relabel_pipeline args c d e p : default_run args c d e ->
    pipeline args (relabel p) = do r <- pipeline args p; Ok (option_map (fun x => (relabel (fst x), snd x)) r).
  Proof.
    intros H. rewrite !(run_default dist atoi atof srt past_end al_reduce other args c d e _ H).
    rewrite relabel_dist. destruct (run_distMatrix dist atof args p) as [p1|]; [|reflexivity]. cbn [bind rmap].
    rewrite relabel_stats. destruct (add_stats KDistMatrix p1) as [p2|]; [|reflexivity]. cbn [bind rmap].
    rewrite relabel_neigh. destruct (run_neighGraph args p2) as [p3|]; [|reflexivity]. cbn [bind rmap].
    rewrite relabel_stats. destruct (add_stats KNeighGraph p3) as [p4|]; [|reflexivity]. cbn [bind rmap].
    rewrite relabel_rips. destruct (run_rips atoi al_reduce args p4) as [p5|]; [|reflexivity]. cbn [bind rmap].
    rewrite relabel_stats. destruct (add_stats KRips p5) as [p6|]; [|reflexivity]. cbn [bind rmap].
    rewrite relabel_fast. destruct (run_fast atoi atof srt past_end args p6) as [p7|]; [|reflexivity]. cbn [bind rmap].
    rewrite relabel_stats. destruct (add_stats KFastPersistence p7) as [p8|]; reflexivity.
  Qed.
End Relabel.

(* ---- the options *)
Lemma args_keep m k : has_options m -> ~ In k ["pipeline"; "preprocessor"; "upscale"; "complexType"]%string -> mget (setPipeline m) k = mget m k.
Proof.
  intros HO N. destruct (applies_total m HO) as [pl Ap]. rewrite (setPipeline_spec m pl HO Ap). destruct pl; auto. unfold planned.
  rewrite !(proj2 (String.eqb_neq _ _)); auto; intros ->; apply N; cbn; auto.
Qed.
Lemma kmeans_preprocess pre_run args pre p : mget args "preprocessor" = Some pre -> names_kmeans pre ->
  mget args "clusters" <> None -> mget args "iterations" <> None ->
  preprocess packet pre_run (fun _ p => Ok p) args p = pre_run KKMeans args p.
Proof.
  intros Hp Hn Hc Hi. unfold preprocess, mread. rewrite Hp. cbn [fst]. rewrite (proj2 (newPreprocessor_spec pre KKMeans) Hn).
  assert (pre <> ""%string) by (intros ->; cbn in Hn; repeat (destruct Hn as [Hn|Hn]; [discriminate|]); exact Hn).
  rewrite (proj2 (String.eqb_neq pre "") H). unfold configPreprocessor, pre_required. cbn [forallb]. unfold has_key.
  destruct (mget args "clusters"); [|easy]. destruct (mget args "iterations"); [|easy]. cbn [andb]. unfold runPreprocessorWrapper. cbn [negb].
  destruct (pre_run KKMeans args p); reflexivity.
Qed.

Lemma reduced_args argv pre d e f o : reduced_line argv pre d e f o -> pre = ""%string \/ names_kmeans pre -> exists m, parse argv = Ok m /\
  let args := setPipeline m in default_run args Tree d e /\ (exists pre', mget args "preprocessor" = Some pre' /\ names_kmeans pre') /\
  mget args "inputFile" = Some f /\ mget args "outputFile" = Some o /\ opt args "upscale" <> "true"%string /\ opt args "mode" = "reduced"%string.
Proof.
  intros [Hc Hm (a & Ha & Na) Hp Hpre (z & Hz & Nz) Hd He Hi Ho] Hk. destruct (complete_parse argv Hc) as (m & P). exists m. split; auto. intros args.
  assert (Vm := fun l v => value_mget argv m l v P). assert (HO := parse_has_options argv m P : has_options m).
  assert (Ap : applies m (Some (mkPlan default_pipeline (Unless_given "kmeans++") (Always "false") (Always "simplexTree")))).
  { right. right. split; [rewrite (Vm _ _ Ha); congruence|]. split; [now apply Vm|]. exists "reduced"%string. split; [now apply Vm|]. left. eexists. split; [right; left; reflexivity|reflexivity]. }
  assert (S1 := setPipeline_spec m _ HO Ap). cbn beta iota in S1. fold args in S1.
  unfold opt. rewrite !S1. unfold planned. cbn. rewrite (Vm _ _ Hpre), (Vm _ _ Hi), (Vm _ _ Ho), (Vm _ _ Hm).
  split; [|repeat split; auto; try discriminate].
  - constructor; rewrite ?S1; unfold planned; cbn; auto; [apply HO; do 2 eexists; unfold options; do 14 right; left; reflexivity|].
    exists z. auto.
  - destruct Hk as [->|Hk]; [exists "kmeans++"%string; split; [reflexivity|]; unfold names_kmeans, pre_names; cbn; auto|].
    exists pre. split; auto. destruct pre; auto. exfalso. cbn in Hk. repeat (destruct Hk as [Hk|Hk]; [discriminate|]). exact Hk.
Qed.
Lemma upscale_args argv pre m : parse argv = Ok m -> value argv "mpi" "1" \/ (value argv "pipeline" "" /\ value argv "mode" "upscaleBound") ->
  value argv "preprocessor" pre -> pre = ""%string \/ names_kmeans pre ->
  exists pre', mget (setPipeline m) "preprocessor" = Some pre' /\ names_kmeans pre'.
Proof.
  intros P H Hpre Hk. assert (HO := parse_has_options argv m P : has_options m). destruct (applies_total m HO) as [pl Ap].
  assert (S1 := setPipeline_spec m pl HO Ap). assert (Vm := fun l v => value_mget argv m l v P).
  assert (G : exists q, pl = Some q /\ pl_preprocessor q = Unless_given "kmeans++").
  { destruct Ap as [[_ ->]|[(N & B & ->)|(N & B & mode & M & C)]].
    - exists mpi_plan. repeat split.
    - destruct H as [H|[H _]]; apply Vm in H; congruence.
    - destruct H as [H|[H1 H2]]; [apply Vm in H; congruence|]. apply Vm in H2. assert (mode = "upscaleBound"%string) by congruence. subst mode.
      destruct C as [(q & Q & ->)|[Q _]]; [|exfalso; apply Q; cbn; auto]. exists q. split; auto.
      cbn in Q. repeat (destruct Q as [Q|Q]; [first [discriminate|inversion Q; subst q; cbn; reflexivity]|]). destruct Q. }
  destruct G as (q & -> & U). rewrite S1. unfold planned. cbn. rewrite U. cbn. rewrite (Vm _ _ Hpre).
  destruct Hk as [->|Hk]; [exists "kmeans++"%string; split; [reflexivity|]; unfold names_kmeans, pre_names; cbn; auto|].
  exists pre. split; auto. destruct pre; auto. exfalso. cbn in Hk. repeat (destruct Hk as [Hk|Hk]; [discriminate|]). exact Hk.
Qed.

(* ---- the program *)
Lemma removelast_nth {A} (l : list A) i x : nth_error (removelast l) i = Some x <-> nth_error l i = Some x /\ i + 1 < length l.
Proof.
  destruct l as [|y l] using rev_ind; [destruct i; cbn; split; [discriminate|intros []; discriminate|discriminate|intros []; discriminate]|].
  rewrite removelast_last, List.app_length. cbn [length]. clear IHl. split.
  - intros H. assert (i < length l) by (apply nth_error_Some; congruence). rewrite nth_error_app1 by auto. split; auto. lia.
  - intros [H L]. rewrite nth_error_app1 in H by lia. exact H.
Qed.
Lemma members_count (pts : list (list Z)) labels j : length labels = length pts -> length (members pts labels j) = count_occ Nat.eq_dec labels j.
Proof.
  revert pts. unfold members. induction labels as [|l labels IH]; intros [|x pts] L; try discriminate; [reflexivity|].
  cbn [combine filter fst count_occ]. destruct (Nat.eqb_spec l j), (Nat.eq_dec l j); try easy; cbn [map length]; rewrite IH; cbn in L; lia.
Qed.

Section Program.
  Variable dist : list Z -> list Z -> Z.
  Variable maxn : Z.
  Variable quo : Z -> nat -> Z.
  Variable nanz : Z.
  Variables atoi atof : string -> Z.
  Variable index : nat.
  Variable picks : list (nat * (nat -> bool)).
  Variable pre_other : pre_kind -> amap -> packet -> res packet.
  Variable srt : list wsimp -> list wsimp.
  Variable past_end : list nat -> nat -> res nat.
  Variable nc0 : Z.
  Variable al_reduce : wgraph -> res wgraph.
  Variable other : pipe_kind -> amap -> packet -> res packet.
  Variable uaf : res unit.
  Variable stod : text -> option Z.
  Variable file : string -> option text.
  Notation program := (lhf_linked dist maxn quo nanz atoi atof index picks pre_other srt past_end nc0 al_reduce other uaf stod file).
  Notation pre := (pre_linked dist maxn quo nanz atoi index picks pre_other).
  Notation run := (kmeans_run dist maxn quo).

  Section Line.
    Variables (argv : list string) (m : amap) (kk rr f : string) (data : list (list Z)) (dim : nat).
    Hypothesis P : parse argv = Ok m.
    Hypothesis Vk : value argv "clusters" kk.
    Hypothesis Vr : value argv "iterations" rr.
    Hypothesis Vf : value argv "inputFile" f.
    Hypothesis Hf : holds_points stod file f data.
    Let args := setPipeline m.
    Lemma keeps k v : value argv k v -> ~ In k ["pipeline"; "preprocessor"; "upscale"; "complexType"]%string -> mget args k = Some v.
    Proof. intros V N. unfold args. rewrite args_keep; [now apply (value_mget argv)|exact (parse_has_options argv m P)|exact N]. Qed.
    Ltac not_set := cbn; intros N; repeat (destruct N as [N|N]; [discriminate|]); exact N.

    Lemma pre_eq p : (exists pre', mget args "preprocessor" = Some pre' /\ names_kmeans pre') -> 
      preprocess packet pre (fun _ p => Ok p) args p =
      do r <- run (atoi kk) (atoi rr) index picks (pk_data p);
      Ok (mkPacket (map (stored nanz) (fst r)) (snd r) (pk_full p) (pk_weights p) (pk_complex p) (pk_output p) (pk_table p) (pk_stats p)).
    Proof.
      intros (pre' & A & B). assert (K := keeps _ _ Vk ltac:(not_set)). assert (R := keeps _ _ Vr ltac:(not_set)).
      rewrite (kmeans_preprocess pre args pre' p A B) by congruence. cbn [pre_linked]. unfold opt. now rewrite K, R.
    Qed.
    Lemma rows x : In x data -> x <> [].
    Proof. exact (readCSV_ne _ _ _ _ (holds_reads _ _ _ _ Hf) x). Qed.
    Lemma setting_dim k r : kmeans_setting dist maxn index picks k r dim data -> data <> [] /\ 0 < dim.
    Proof.
      intros S. assert (R := rows). assert (H := ks_index _ _ _ _ _ _ _ _ S). assert (D := ks_dim _ _ _ _ _ _ _ _ S). clear S Hf. destruct data as [|x l]; [cbn in H; lia|]. split; [discriminate|].
      rewrite <- (D x) by now left. destruct x; [|cbn; lia]. exfalso. apply (R []); [now left|reflexivity].
    Qed.
  End Line.

  Theorem linked_upscale argv pr kk rr f data dim : complete_line argv ->
    value argv "mpi" "1" \/ (value argv "pipeline" "" /\ value argv "mode" "upscaleBound") ->
    value argv "preprocessor" pr -> pr = ""%string \/ names_kmeans pr ->
    value argv "clusters" kk -> value argv "iterations" rr -> value argv "inputFile" f -> holds_points stod file f data ->
    (kmeans_setting dist maxn index picks (atoi kk) (atoi rr) dim data ->
      (fewer_than (Z.to_nat (atoi kk)) data -> program argv = UB) /\
      (~ fewer_than (Z.to_nat (atoi kk)) data -> exists q labels centroids counts, program argv = Ok (Counted q counts) /\
         pk_labels q = labels /\ pk_data q = centroids /\
         clustering dist quo (repeat nanz dim) (Z.to_nat (atoi kk)) dim data labels centroids /\
         length counts = Z.to_nat (atoi kk) /\ list_sum counts + 1 = length data /\
         forall j c, nth_error counts j = Some c -> c = length (members (removelast data) labels j))) /\
    ((atoi kk <= 0)%Z -> (0 < atoi rr)%Z -> 2 <= length data -> index < length data -> program argv = UB).
  Proof.
    intros Hc Hm Vp Hp Vk Vr Vf Hf. destruct (complete_parse argv Hc) as (m & P).
    assert (Pe := pre_eq argv m kk rr P Vk Vr). destruct (upscale_lines argv m P Hm) as [U1 U2]. specialize (fun p => Pe p (upscale_args argv pr m P Hm Vp Hp)).
    assert (Fi : mget (setPipeline m) "inputFile" = Some f) by (apply (keeps argv m P _ _ Vf); cbn; intuition discriminate).
    assert (Fk : opt (setPipeline m) "clusters" = kk) by (unfold opt; now rewrite (keeps argv m P _ _ Vk) by (cbn; intuition discriminate)).
    assert (HO := parse_has_options argv m P : has_options m).
    assert (Hdm : exists d e, mget (setPipeline m) "dimensions" = Some d /\ mget (setPipeline m) "epsilon" = Some e).
    { rewrite !args_keep by (auto; cbn; intuition discriminate).
      assert (A : mget m "dimensions" <> None) by (apply HO; do 2 eexists; unfold options; do 2 right; left; reflexivity).
      assert (B : mget m "epsilon" <> None) by (apply HO; do 2 eexists; unfold options; do 7 right; left; reflexivity).
      destruct (mget m "dimensions"), (mget m "epsilon"); try easy. eauto. }
    destruct Hdm as (d & e & E1 & E2).
    assert (Np : exists cx0, new_packet atoi atof nc0 (setPipeline m) data = Ok (mkPacket data [] data [] cx0 [] [] [])).
    { unfold new_packet, newSimplex. rewrite E1, E2. cbn [bind]. eauto. }
    destruct Np as (cx0 & Np).
    assert (Ub : data <> [] -> run (atoi kk) (atoi rr) index picks data = UB -> program argv = UB).
    { intros Hne Er. unfold lhf_linked, lhf. rewrite P. cbn [bind]. unfold new_packet in Np.
      destruct (newSimplex atoi atof nc0 (opt (setPipeline m) "complexType") (setPipeline m)) as [c0|]; [|reflexivity]. cbn [bind].
      rewrite (proj2 (String.eqb_neq (opt (setPipeline m) "pipeline") "slidingwindow")) by (unfold opt; destruct (mget (setPipeline m) "pipeline"); congruence).
      replace (opt (setPipeline m) "inputFile") with f by (unfold opt; now rewrite Fi). rewrite (holds_reads _ _ _ _ Hf).
      replace (0 <? length data) with true by (symmetry; apply Nat.ltb_lt; destruct data; [easy|cbn; lia]). cbn [orb].
      replace (opt (setPipeline m) "upscale") with "true"%string by (unfold opt; now rewrite U1). cbn [String.eqb Ascii.eqb Bool.eqb].
      unfold processUpscaleWrapper. rewrite Pe. cbn [pk_data]. now rewrite Er. }
    split.
    - intros S. destruct (setting_dim f data dim Hf _ _ S) as [Hne Hdim].
      destruct (kmeans_clusters dist maxn quo nanz index picks _ _ dim data S Hdim) as [A B]. split; [auto|].
      intros N. destruct (B N) as (cents & labels & Er & C).
      specialize (Pe (mkPacket data [] data [] cx0 [] [] [])). cbn [pk_data pk_full pk_weights pk_complex pk_output pk_table pk_stats] in Pe. rewrite Er in Pe. cbn [bind fst snd] in Pe.
      assert (Sk := ks_clusters _ _ _ _ _ _ _ _ S). assert (C1 := cl_all_but_one _ _ _ _ _ _ _ _ C). assert (C2 := cl_range _ _ _ _ _ _ _ _ C).
      destruct (upscale_counts dist atoi atof srt past_end nc0 al_reduce other pre (fun _ p => Ok p) uaf stod file argv m f data _ _ (atoi kk) P U1 U2 Fi Hf Hne Np Pe ltac:(now rewrite Fk)) as (R & _ & _).
      cbn [pk_labels pk_full] in R. destruct R as [R1 R2]. { split; [lia|]. split; [lia|]. intros l Hl. specialize (C2 l Hl). lia. }
      eexists _, labels, _, _. split; [exact R1|]. split; [reflexivity|]. split; [reflexivity|]. split; [exact C|]. split; [now rewrite map_length, seq_length|]. split; [lia|].
      intros j c Hj. rewrite nth_error_map in Hj. destruct (nth_error (seq 0 (Z.to_nat (atoi kk))) j) as [j'|] eqn:Ej; [|discriminate]. cbn in Hj. injection Hj as <-.
      assert (j < length (seq 0 (Z.to_nat (atoi kk)))) by (apply nth_error_Some; congruence). rewrite seq_length in *.
      apply nth_error_nth with (d := 0) in Ej. rewrite seq_nth in Ej by auto. subst j'. symmetry. apply members_count.
      clear - C1 Hne. destruct data as [|y l] using rev_ind; [easy|]. rewrite removelast_last. rewrite List.app_length in C1. cbn in C1. lia.
    - intros K1 K2 K3 K4. apply Ub; [intros ->; cbn in K3; lia|]. apply kmeans_no_clusters; auto. now apply rows with (f := f).
  Qed.

  Lemma cents_rows k dim data labels centroids : 0 < dim -> clustering dist quo (repeat nanz dim) k dim data labels centroids -> forall x, In x centroids -> x <> [].
  Proof.
    intros Hdim C x Hx. apply In_nth_error in Hx as (j & Hj). assert (j < k) by (rewrite <- (cl_count _ _ _ _ _ _ _ _ C); apply nth_error_Some; congruence).
    rewrite (cl_means _ _ _ _ _ _ _ _ C j H) in Hj. injection Hj as <-. destruct dim as [|dm]; [lia|]. destruct (members _ _ _); discriminate.
  Qed.

  Theorem linked_run argv pr kk rr c d e f o data dim : is_sort srt -> (forall x y, (0 <= dist x y)%Z) -> (0 < atoi d < 2 ^ 31 - 1)%Z ->
    one_run_line argv pr c d e f o -> names_kmeans pr -> value argv "clusters" kk -> value argv "iterations" rr -> holds_points stod file f data ->
    kmeans_setting dist maxn index picks (atoi kk) (atoi rr) dim data ->
    (fewer_than (Z.to_nat (atoi kk)) data -> program argv = UB) /\
    (~ fewer_than (Z.to_nat (atoi kk)) data -> exists cents labels,
       run (atoi kk) (atoi rr) index picks data = Ok (cents, labels) /\ let centroids := map (stored nanz) cents in
       clustering dist quo (repeat nanz dim) (Z.to_nat (atoi kk)) dim data labels centroids /\
       (all_used (Z.to_nat (atoi kk)) labels ->
          (forall r, program argv = Ok r ->
             exists q deaths, r = Ran q (if String.eqb o "console" then [] else [((o ++ ".csv")%string, pk_output q)]) /\ pk_labels q = labels /\
               dim0 (pk_output q) = map (fun w => (0, 0%Z, w)) deaths ++ [(0, 0%Z, atof e)] /\
               forall t n, clusters dist centroids c (atof e) t n <-> count_le t deaths + n = Z.to_nat (atoi kk)) /\
          (~ (exists u v, u < v /\ v < Z.to_nat (atoi kk) /\ close c (atof e) (separation dist centroids u v)) -> program argv = UB) /\
          ((exists u v, u < v /\ v < Z.to_nat (atoi kk) /\ close c (atof e) (separation dist centroids u v)) -> past_end = libstdcxx_past_end ->
             exists r, program argv = Ok r))).
  Proof.
    intros Hs Hpos Hd Hl Hn Vk Vr Hf S. destruct (line_args _ _ _ _ _ _ _ Hl) as (m & P & Dr & Pre & Fi & Fo & Up & Md).
    assert (Pe := fun p => pre_eq argv m kk rr P Vk Vr p (ex_intro _ pr (conj Pre Hn))). set (args := setPipeline m) in *.
    destruct (setting_dim f data dim Hf _ _ S) as [Hne Hdim]. destruct (kmeans_clusters dist maxn quo nanz index picks _ _ dim data S Hdim) as [A B].
    assert (Pl := dr_pipeline _ _ _ _ Dr).
    assert (E : program argv = do cx0 <- newSimplex atoi atof nc0 (opt args "complexType") args;
                               do p1 <- preprocess packet pre (fun _ p => Ok p) args (mkPacket data [] data [] cx0 [] [] []);
                               do r <- run_and_write dist atoi atof srt past_end al_reduce other args p1; Ok (Ran (fst r) (snd r))).
    { unfold lhf_linked, lhf. rewrite P. cbn [bind]. fold args. destruct (newSimplex atoi atof nc0 (opt args "complexType") args) as [cx0|]; [|reflexivity]. cbn [bind].
      replace (String.eqb (opt args "pipeline") "slidingwindow") with false by (unfold opt; rewrite Pl; reflexivity).
      replace (opt args "inputFile") with f by (unfold opt; now rewrite Fi). rewrite (holds_reads _ _ _ _ Hf).
      replace (0 <? length data) with true by (symmetry; apply Nat.ltb_lt; destruct data; [easy|cbn; lia]). cbn [orb].
      rewrite (proj2 (String.eqb_neq _ _) Up), (proj2 (String.eqb_neq _ _) Md). unfold processData. 
      destruct (preprocess packet pre (fun _ p => Ok p) args (mkPacket data [] data [] cx0 [] [] [])); reflexivity. }
    rewrite E. clear E. split.
    - intros F. destruct (newSimplex _ _ _ _ _); [|reflexivity]. cbn [bind]. rewrite Pe. cbn [pk_data]. now rewrite (A F).
    - intros N. destruct (B N) as (cents & labels & Er & C). exists cents, labels. split; [exact Er|]. cbv zeta. split; [exact C|]. intros _.
      assert (Hrow := cents_rows _ _ _ _ _ Hdim C). assert (Lc := cl_count _ _ _ _ _ _ _ _ C). set (cs := map (stored nanz) cents) in *.
      assert (Hk := ks_clusters _ _ _ _ _ _ _ _ S). assert (Hcs : cs <> []) by (intros Q; rewrite Q in Lc; cbn in Lc; lia).
      assert (W : writes_output args = negb (String.eqb o "console")). { unfold writes_output. now rewrite Pl, Fo. }
      assert (E : (do cx0 <- newSimplex atoi atof nc0 (opt args "complexType") args;
                   do p1 <- preprocess packet pre (fun _ p => Ok p) args (mkPacket data [] data [] cx0 [] [] []);
                   do r <- run_and_write dist atoi atof srt past_end al_reduce other args p1; Ok (Ran (fst r) (snd r))) =
                  do r <- run_program dist atoi atof srt past_end nc0 al_reduce other args cs;
                  match r with
                  | Some (q, _) => Ok (Ran (relabel labels data q) (if String.eqb o "console" then [] else [((o ++ ".csv")%string, pk_output q)]))
                  | None => UB
                  end).
      { unfold run_program, new_packet. destruct (newSimplex atoi atof nc0 (opt args "complexType") args) as [cx0|]; [|reflexivity]. cbn [bind]. rewrite Pe. cbn [pk_data]. rewrite Er.
        cbn [bind fst snd pk_full pk_weights pk_complex pk_output pk_table pk_stats]. unfold run_and_write.
        change (mkPacket (map (stored nanz) cents) labels data [] cx0 [] [] []) with (relabel labels data (mkPacket cs [] cs [] cx0 [] [] [])).
        rewrite (relabel_pipeline dist atoi atof srt past_end al_reduce other labels data args c d e _ Dr), W. replace (opt args "outputFile") with o by (unfold opt; now rewrite Fo).
        destruct (runPipeline _ _ _ args _) as [[[q fl]|]|] eqn:Ep; cbn [bind option_map fst snd]; auto.
        - now destruct (String.eqb o "console").
        - exfalso. unfold runPipeline in Ep. rewrite Pl in Ep. destruct (pipeline_loop _ _ _ _ _ _ _ _); discriminate. }
      rewrite E. clear E. rewrite <- Lc. split; [|split].
      + intros r H. destruct (run_program dist atoi atof srt past_end nc0 al_reduce other args cs) as [[[q fl]|]|] eqn:Ep; try discriminate. cbn [bind] in H.
        injection H as <-. destruct (default_dim0 dist atoi atof srt past_end nc0 al_reduce other args c d e cs Hs Dr Hrow Hpos Hd q fl Ep Hcs) as (_ & deaths & D1 & D2).
        exists (relabel labels data q), deaths. auto.
      + intros H. rewrite (proj1 (default_undefined dist atoi atof srt past_end nc0 al_reduce other args c d e cs Hs Dr Hrow Hpos Hd) Hcs H). reflexivity.
      + intros H ->. destruct (proj2 (default_undefined dist atoi atof srt libstdcxx_past_end nc0 al_reduce other args c d e cs Hs Dr Hrow Hpos Hd) (or_intror H)) as (q & ->). cbn [bind]. eauto.
  Qed.

  Theorem linked_reduced argv pr kk rr d e f o data dim : is_sort srt -> (forall x y, (0 <= dist x y)%Z) -> (0 < atoi d < 2 ^ 31 - 1)%Z ->
    reduced_line argv pr d e f o -> pr = ""%string \/ names_kmeans pr -> value argv "clusters" kk -> value argv "iterations" rr -> holds_points stod file f data ->
    kmeans_setting dist maxn index picks (atoi kk) (atoi rr) dim data ->
    (fewer_than (Z.to_nat (atoi kk)) data -> program argv = UB) /\
    (~ fewer_than (Z.to_nat (atoi kk)) data -> exists cents labels,
       run (atoi kk) (atoi rr) index picks data = Ok (cents, labels) /\ let centroids := map (stored nanz) cents in
       clustering dist quo (repeat nanz dim) (Z.to_nat (atoi kk)) dim data labels centroids /\
       (uaf = UB -> program argv = UB) /\
       (all_used (Z.to_nat (atoi kk)) labels -> forall r, program argv = Ok r ->
          exists q radius groups outs outs',
            r = Ran q (if String.eqb o "console" then [] else map (fun out => ((o ++ ".csv")%string, out)) outs) /\
            farthest dist data labels centroids radius /\
            length groups = Z.to_nat (atoi kk) /\
            (forall j c g, nth_error centroids j = Some c -> nth_error groups j = Some g ->
               forall x, In x g <-> In x (removelast data) /\ (dist x c < 2 * radius)%Z) /\
            Forall2 (fun g out => exists F, spanning_forest dist g (atof e) F /\ ends_at dist g (atof e) F out /\ some_pair dist g (atof e))
                    (filter non_empty (groups ++ [centroids])) outs /\
            outs = outs' ++ [pk_output q])).
  Proof.
    intros Hs Hpos Hd Hl Hn Vk Vr Hf S. destruct (reduced_args _ _ _ _ _ _ Hl Hn) as (m & P & Dr & Pre & Fi & Fo & Up & Md).
    assert (Pe := fun p => pre_eq argv m kk rr P Vk Vr p Pre). set (args := setPipeline m) in *.
    destruct (setting_dim f data dim Hf _ _ S) as [Hne Hdim]. destruct (kmeans_clusters dist maxn quo nanz index picks _ _ dim data S Hdim) as [A B].
    assert (Pl := dr_pipeline _ _ _ _ Dr).
    assert (Cx : newSimplex atoi atof nc0 (opt args "complexType") args = Ok (Some (CTree (atof e) (atoi d) (st_new [] nc0)))).
    { unfold newSimplex, opt. rewrite (dr_dim _ _ _ _ Dr), (dr_eps _ _ _ _ Dr), (dr_complex _ _ _ _ Dr). reflexivity. }
    set (p0 := mkPacket data [] data [] (Some (CTree (atof e) (atoi d) (st_new [] nc0))) [] [] []).
    assert (E : program argv = do r <- processReducedWrapper dist atoi atof srt past_end al_reduce other pre (fun _ p => Ok p) uaf args p0; Ok (Ran (fst r) (snd r))).
    { unfold lhf_linked, lhf. rewrite P. cbn [bind]. fold args. rewrite Cx. cbn [bind].
      replace (String.eqb (opt args "pipeline") "slidingwindow") with false by (unfold opt; rewrite Pl; reflexivity).
      replace (opt args "inputFile") with f by (unfold opt; now rewrite Fi). rewrite (holds_reads _ _ _ _ Hf).
      replace (0 <? length data) with true by (symmetry; apply Nat.ltb_lt; destruct data; [easy|cbn; lia]). cbn [orb].
      rewrite (proj2 (String.eqb_neq _ _) Up), Md. reflexivity. }
    rewrite E. clear E. split.
    - intros F. unfold processReducedWrapper, reduced_with. rewrite Pe. subst p0. cbn [pk_data]. now rewrite (A F).
    - intros N. destruct (B N) as (cents & labels & Er & C). exists cents, labels. split; [exact Er|]. cbv zeta. split; [exact C|].
      assert (Hrow := cents_rows _ _ _ _ _ Hdim C). assert (Lc := cl_count _ _ _ _ _ _ _ _ C). set (cs := map (stored nanz) cents) in *.
      assert (Hk := ks_clusters _ _ _ _ _ _ _ _ S). assert (Hcs : cs <> []) by (intros Q; rewrite Q in Lc; cbn in Lc; lia).
      specialize (Pe p0). subst p0. cbn [pk_data pk_full pk_weights pk_complex pk_output pk_table pk_stats] in Pe. rewrite Er in Pe. cbn [bind fst snd] in Pe. fold cs in Pe.
      set (p0 := mkPacket data [] data [] _ [] [] []) in *. set (p1 := mkPacket cs labels data [] _ [] [] []) in *.
      assert (G := reduced_groups dist atoi atof srt past_end nc0 al_reduce other pre (fun _ p => Ok p) uaf dist dist (Z.mul 2) args d e Hs Dr Hpos Hd p0 p1 Pe eq_refl eq_refl).
      assert (Hrows : forall x, In x (pk_data p1) \/ In x (pk_full p1) -> x <> []). { intros x [H|H]; [now apply Hrow|]. now apply (rows f data Hf). }
      specialize (G Hrows).
      destruct (processReducedWrapper _ _ _ _ _ _ _ _ _ _ _ _) as [[q files]|] eqn:Ew; [|split; [reflexivity|discriminate]]. cbn [bind fst snd].
      destruct (G q files Ew) as (rad & it & pt & outs & Rr & Rs & Rf & R1 & _ & R2 & R3 & R4 & _). clear G. cbn [pk_data pk_full pk_labels p1] in *.
      assert (Cen : In cs (filter non_empty (pt ++ [cs]))). { apply filter_In. split; [apply in_app_iff; right; now left|destruct cs; [easy|reflexivity]]. }
      split; [intros Hu; exfalso; rewrite R3 in Hu; [discriminate|intros Q; rewrite Q in Cen; exact Cen]|].
      intros _ r H. injection H as <-. destruct (R2 Hcs) as (outs' & Eo).
      assert (C1 := cl_all_but_one _ _ _ _ _ _ _ _ C).
      destruct (computeMaxRadius_ok dist cs data labels ltac:(lia)) as (rad' & Rr' & M1 & M2 & M3). { intros l Hll. rewrite Lc. now apply (cl_range _ _ _ _ _ _ _ _ C). }
      rewrite Rr in Rr'. injection Rr' as <-.
      destruct (separatePartitionsRad_ok dist (2 * rad) cs data labels ltac:(lia)) as (it' & pt' & Rs' & (T1 & T2 & T3)).
      rewrite Rs in Rs'. injection Rs' as <- <-.
      exists q, rad, pt, outs, outs'. split; [|split; [|split; [congruence|split; [|split; [|exact Eo]]]]].
      + f_equal. rewrite Rf. unfold names, writes_output, opt. rewrite Pl, Fo. now destruct (String.eqb o "console").
      + split; [exact M1|]. split; [exact M2|exact M3].
      + intros j c0 g Hj Hg x. assert (Lj : j < length cs) by (apply nth_error_Some; congruence). destruct (T3 j Lj) as (idx & pts & _ & J2 & _ & J4 & J5).
        rewrite Hg in J2. injection J2 as <-. split.
        * intros Hx. apply In_nth_error in Hx as (n & Hx).
          assert (exists i, In i idx /\ nth_error data i = Some x) as (i & Hi & Hix).
          { clear - J5 Hx. revert n Hx. induction J5; intros [|n] Hx; cbn in Hx; try discriminate; [injection Hx as <-; exists x0; split; [now left|auto]|].
            destruct (IHJ5 n Hx) as (i & I1 & I2). exists i. split; [now right|auto]. }
          apply J4 in Hi as (I1 & x' & c' & I2 & I3 & I4). split; [|congruence]. apply nth_error_In with i. apply removelast_nth. split; [auto|lia].
        * intros [Hx Hxd]. apply In_nth_error in Hx as (i & Hi). apply removelast_nth in Hi as [Hi Li].
          assert (I : In i idx) by (apply J4; split; [lia|eauto]). clear - J5 I Hi. induction J5; [easy|]. destruct I as [->|I]; [left; congruence|right; auto].
      + clear - R1 R4. induction R1 as [|g out gs outs (F & F1 & F2) _ IH]; [constructor|]. apply Forall2_cons.
        * exists F. split; [exact F1|]. split; [exact F2|]. apply R4. now left.
        * apply IH. intros g' Hg'. apply R4. now right.
  Qed.
End Program.
