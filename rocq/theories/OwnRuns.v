(* OwnRuns.v -- runs of the program on command lines that name their own pipeline. *)
From Coq Require Import String Ascii List Arith ZArith Bool Lia.
From Verif Require Import Base UtilsModel RunMonad ArrayListModel TreeModel FastModel ArgModel IoModel GaussModel IndModel TwistModel PipeModel WindowModel MainModel AllModel.
From Verif Require Import Spec SpecIo SpecComplex SpecTree SpecArgs SpecGraph SpecFast SpecPipe SpecInd SpecIndRun SpecMain SpecAll.
From Verif Require Import ArgProofs IoProofs PipeProofs PipeRuns IndHist IndRuns GaussProofs GaussRuns TwistProofs TwistRuns MainProofs MainRuns AllRuns.
Import ListNotations.
Local Open Scope nat_scope.
Local Open Scope list_scope.

Lemma own_args argv P c d e f o : own_line argv P c d e f o -> exists m, parse argv = Ok m /\
  let args := setPipeline m in (forall k v, value argv k v -> mget args k = Some v) /\ has_options args.
Proof.
  intros [Hc Hp Np _ (a & Ha & Na) _ _ _ _ _ _ _ _]. destruct (complete_parse argv Hc) as (m & Pa). exists m. split; auto. intros args.
  assert (Vm := fun l v => value_mget argv m l v Pa). assert (HO := parse_has_options argv m Pa : has_options m).
  assert (Ap : applies m None). { right. left. rewrite (Vm _ _ Ha), (Vm _ _ Hp). repeat split; congruence. }
  assert (S1 := setPipeline_spec m _ HO Ap). cbn beta iota in S1. fold args in S1.
  split; [|now apply setPipeline_has]. intros k v H. rewrite S1. auto.
Qed.

Section Own.
  Variable dist : list Z -> list Z -> Z.
  Variables atoi atof : string -> Z.
  Variable srt : list wsimp -> list wsimp.
  Variable past_end : list nat -> nat -> res nat.
  Variable nc0 : Z.
  Variable al_reduce : wgraph -> res wgraph.
  Variable one : Z.
  Variable stod : text -> option Z.
  Variable file : string -> option text.
  Variable stopped : res packet.
  Variable pre_run : pre_kind -> amap -> packet -> res packet.
  Variable pre_stats : pre_kind -> packet -> res packet.
  Variable uaf : res unit.
  Notation pipes := (all_pipes dist atoi atof srt past_end al_reduce one stod file stopped).
  Notation run := (run_pipe dist atoi atof srt past_end al_reduce pipes).
  Notation pipeline := (runPipeline packet run add_stats).
  Notation program := (lhf_all dist atoi atof srt past_end nc0 al_reduce one stod file stopped pre_run pre_stats uaf).

  (* ---- boundary *)
  Lemma run_boundary_ub args d p : mget args "dimensions" = Some d -> atoi d <> 0%Z -> run_boundary atoi srt args p = UB.
  Proof.
    intros Hd Nz. unfold run_boundary, opt. rewrite Hd, bd_run_spec, (proj2 (Z.eqb_neq _ _) Nz).
    destruct (foldr_ub _ p (pk_weights p)); reflexivity.
  Qed.
  Lemma boundary_steps args d : mget args "dimensions" = Some d -> atoi d <> 0%Z -> (forall k, is_long k -> mget args k <> None) ->
    forall parts p r, In "boundary"%string parts -> steps packet run add_stats args parts p r -> r = UB.
  Proof.
    intros Hd Nz HO. induction parts as [|c cs IH]; intros p r []; intros St; inversion St as [|? ? ? b S|? ? ? p1 b r1 S T]; subst; auto.
    - exfalso. inversion S as [N _|k K (o & Io & No)|k K R E]; subst.
      + apply (N KBoundary). cbn. tauto.
      + cbn in K. injection K as <-. apply (HO o); auto. cbn in Io. destruct Io as [<-|[<-|[]]]; unfold is_long, options; do 2 eexists; [do 7 right; left; reflexivity|do 2 right; left; reflexivity].
      + cbn in K. injection K as <-. cbn [run_pipe all_pipes] in *. rewrite (run_boundary_ub args d) in * by auto. discriminate.
    - rewrite (IH p1 r1); auto.
  Qed.

  (* ---- the run in terms of the pipeline *)
  Lemma own_run argv P c d e f o data : own_line argv P c d e f o -> P <> "slidingwindow"%string -> holds_points stod file f data -> data <> [] ->
    exists args, (forall k v, value argv k v -> mget args k = Some v) /\ has_options args /\
      program argv = do p <- new_packet atoi atof nc0 args data; do r <- pipeline args p;
        match r with Some (q, _) => Ok (Ran q (barcode_file o (pk_output q))) | None => UB end.
  Proof.
    intros Hl Ns Hf Hne. destruct (own_args _ _ _ _ _ _ _ Hl) as (m & Pa & V & HO). exists (setPipeline m). split; auto. split; auto.
    destruct Hl as [_ Hp _ (mo & Hm & Nm) _ (u & Hu & Nu) Hpre _ _ _ _ Hi Ho].
    apply (one_run dist atoi atof srt past_end nc0 al_reduce one stod file stopped pre_run pre_stats uaf argv m P f o data Pa); auto.
    - unfold opt. now rewrite (V _ _ Hu).
    - unfold opt. now rewrite (V _ _ Hm).
    - rewrite (proj2 (String.eqb_neq _ _) Ns). split; auto. now apply holds_reads.
  Qed.

  Theorem boundary_pipeline argv P parts c d e f o data :
    own_line argv P (cx_name c) d e f o -> components_of P parts -> In "boundary"%string parts -> P <> "slidingwindow"%string ->
    holds_points stod file f data -> data <> [] -> atoi d <> 0%Z -> program argv = UB.
  Proof.
    intros Hl Hc Ib Ns Hf Hne Nz. destruct (own_run _ _ _ _ _ _ _ _ Hl Ns Hf Hne) as (args & V & HO & ->).
    destruct (new_packet atoi atof nc0 args data) as [p|]; [|reflexivity]. cbn [bind].
    destruct (pipeline_steps packet run add_stats args P parts p Hc (V _ _ (ol_pipe _ _ _ _ _ _ _ Hl))) as (r & St & ->).
    rewrite (boundary_steps args d (V _ _ (ol_dim _ _ _ _ _ _ _ Hl)) Nz HO parts p r Ib St). reflexivity.
  Qed.

  (* ---- the first three pipes *)
  Definition three (args : amap) (p : packet) : res packet :=
    do p1 <- run_distMatrix dist atof args p; do p2 <- add_stats KDistMatrix p1;
    do p3 <- run_neighGraph args p2; do p4 <- add_stats KNeighGraph p3;
    do p5 <- run_rips atoi al_reduce args p4; add_stats KRips p5.

  Lemma rips_stats args p q : run_rips atoi al_reduce args p = Ok q -> pk_stats q = pk_stats p.
  Proof.
    unfold run_rips. destruct (mget args "dimensions"); [|discriminate]. destruct (PipeModel.deref p) as [c|]; cbn [bind]; [|discriminate].
    destruct (cx_expand _ c) as [c1|]; cbn [bind]; [|discriminate].
    match goal with |- bind ?x _ = _ -> _ => destruct x as [c2|]; cbn [bind]; [|discriminate] end. intros [= <-]. reflexivity.
  Qed.
  Lemma three_kinds args p q : three args p = Ok q ->
    map (fun x => fst (fst x)) (pk_stats q) = map (fun x => fst (fst x)) (pk_stats p) ++ [KDistMatrix; KNeighGraph; KRips].
  Proof.
    unfold three. destruct (run_distMatrix dist atof args p) as [p1|] eqn:E1; cbn [bind]; [|discriminate]. apply distMatrix_stats in E1 as [E1 _].
    destruct (add_stats KDistMatrix p1) as [p2|] eqn:E2; cbn [bind]; [|discriminate]. apply add_stats_kinds in E2.
    destruct (run_neighGraph args p2) as [p3|] eqn:E3; cbn [bind]; [|discriminate]. apply neighGraph_stats in E3.
    destruct (add_stats KNeighGraph p3) as [p4|] eqn:E4; cbn [bind]; [|discriminate]. apply add_stats_kinds in E4.
    destruct (run_rips atoi al_reduce args p4) as [p5|] eqn:E5; cbn [bind]; [|discriminate]. apply rips_stats in E5.
    intros E6. apply add_stats_kinds in E6. rewrite E6, E5, E4, E3, E2, E1. now rewrite <- !List.app_assoc.
  Qed.
  Lemma fresh_stats args data p : new_packet atoi atof nc0 args data = Ok p -> pk_stats p = [].
  Proof. unfold new_packet. destruct (newSimplex _ _ _ _ _); cbn [bind]; [|discriminate]. intros [= <-]. reflexivity. Qed.

  Definition persistence_line : string := "distMatrix.neighGraph.rips.persistence".
  Lemma run_persistence args d e k p : mget args "pipeline" = Some persistence_line -> mget args "dimensions" = Some d -> mget args "epsilon" = Some e ->
    mget args "twist" <> None -> newPipe "persistence" (fst (mread args "complexType")) = Some k -> k = KPersistencePairs \/ k = KOptPersistencePairs ->
    pipeline args p = do p6 <- three args p; do p7 <- pipes k args p6; do p8 <- add_stats k p7; Ok (Some (p8, [])).
  Proof.
    intros H1 H3 H4 H5 K Hk. unfold runPipeline. rewrite H1.
    change (count_char "."%char persistence_line + 1) with 4. cbn [pipeline_loop].
    change (curFunct persistence_line) with "distMatrix"%string.
    change (pipeRest persistence_line) with "neighGraph.rips.persistence"%string.
    change (curFunct "neighGraph.rips.persistence") with "neighGraph"%string.
    change (pipeRest "neighGraph.rips.persistence") with "rips.persistence"%string.
    change (curFunct "rips.persistence") with "rips"%string.
    change (pipeRest "rips.persistence") with "persistence"%string.
    change (curFunct "persistence") with "persistence"%string. unfold three.
    rewrite (component_ok dist atoi atof srt past_end al_reduce pipes args "distMatrix" KDistMatrix) by (try reflexivity; intros o [<-|[]]; congruence).
    cbn [run_pipe]. destruct (run_distMatrix dist atof args p) as [p1|]; cbn [bind rmap]; auto.
    destruct (add_stats KDistMatrix p1) as [p2|]; cbn [bind rmap fst snd]; auto.
    rewrite (component_ok dist atoi atof srt past_end al_reduce pipes args "neighGraph" KNeighGraph) by (try reflexivity; intros o [<-|[<-|[]]]; congruence).
    cbn [run_pipe]. destruct (run_neighGraph args p2) as [p3|]; cbn [bind rmap]; auto.
    destruct (add_stats KNeighGraph p3) as [p4|]; cbn [bind rmap fst snd]; auto.
    rewrite (component_ok dist atoi atof srt past_end al_reduce pipes args "rips" KRips) by (try reflexivity; intros o []).
    cbn [run_pipe]. destruct (run_rips atoi al_reduce args p4) as [p5|]; cbn [bind rmap]; auto.
    destruct (add_stats KRips p5) as [p6|]; cbn [bind rmap fst snd]; auto.
    rewrite (component_ok dist atoi atof srt past_end al_reduce pipes args "persistence" k) by (auto; destruct Hk as [-> | ->]; intros o [<-|[<-|[<-|[]]]]; congruence).
    assert (Kp : run k args p6 = pipes k args p6) by (destruct Hk as [-> | ->]; reflexivity). rewrite Kp.
    destruct (pipes k args p6) as [p7|]; cbn [bind rmap]; auto.
    destruct (add_stats k p7) as [p8|]; cbn [bind rmap fst snd]; auto.
  Qed.

  Section Points.
    Variables (args : amap) (d e : string) (data : list (list Z)).
    Hypothesis Hs : is_sort srt.
    Hypothesis Hne : forall x, In x data -> x <> [].
    Hypothesis Hdata : data <> [].
    Hypothesis Hpos : forall x y, (0 <= dist x y)%Z.
    Hypothesis Hd : (0 < atoi d < 2 ^ 31 - 1)%Z.
    Hypothesis H3 : mget args "dimensions" = Some d.
    Hypothesis H4 : mget args "epsilon" = Some e.
    Hypothesis H6 : exists z, mget args "collapse" = Some z /\ z <> "true"%string /\ z <> "1"%string.

    Lemma matrix : exists dm ws, distMatrix_run (list Z) (fun v => match v with [] => true | _ => false end) dist (atof e) data [] = Ok (dm, ws) /\
      dm <> [] /\ upper_triangle dm (length data) /\ forall u v, u < v -> v < length data -> dist_of dm u v = separation dist data u v.
    Proof.
      destruct (distMatrix_spec (list Z) (fun v => match v with [] => true | _ => false end) dist (atof e) data [])
        as (dm & ws & E & L1 & L2 & V & _); [constructor|].
      assert (Sep : forall u v, u < v -> v < length data -> dist_of dm u v = separation dist data u v).
      { intros u v Huv Hv. unfold dist_of, separation. destruct (nth_error data u) as [x|] eqn:Eu; [|apply nth_error_None in Eu; lia].
        destruct (nth_error data v) as [y|] eqn:Ev; [|apply nth_error_None in Ev; lia]. rewrite (V u v x y Eu Ev).
        destruct (Nat.ltb_spec u v); [|lia]. destruct x; [|reflexivity]. exfalso. apply nth_error_In in Eu. now apply (Hne []). }
      exists dm, ws. split; auto. split; [intros ->; destruct data; [now apply Hdata|discriminate]|]. split; auto.
      intros u v Huv Hv. rewrite (L2 u) by lia. split; auto. rewrite Sep by auto. unfold separation.
      destruct (nth_error data u), (nth_error data v); auto; lia.
    Qed.

    (* The complex after the first three pipes, and the edges it lists. *)
    Lemma three_other c p0 : mget args "complexType" = Some (cx_name c) -> new_packet atoi atof nc0 args data = Ok p0 ->
      exists p6 cx6 edges cx7, three args p0 = Ok p6 /\ pk_complex p6 = Some cx6 /\ pk_output p6 = [] /\ pk_data p6 = data /\
        cx_getAllEdges srt (atof e) cx6 = (edges, cx7) /\ complex edges /\
        lists_rips (separation dist data) (close c (atof e)) (length data) (Z.to_nat (atoi d)) edges.
    Proof.
      intros H2. destruct matrix as (dm & ws & E & Nd & U & Sep). destruct H6 as (col & H6' & H7 & H8).
      assert (Col : (String.eqb col "true" || String.eqb col "1") = false).
      { now rewrite (proj2 (String.eqb_neq col "true") H7), (proj2 (String.eqb_neq col "1") H8). }
      unfold new_packet, newSimplex, opt. rewrite H2, H3, H4. unfold three. destruct c; cbn [cx_name close].
      - destruct (tree_edges dm (atof e) (atoi d) nc0 (length data) srt Hs Nd U Hd) as (t & T1 & T2 & T3 & T4).
        destruct (st_getAllEdges srt t) as [edges t'] eqn:Eg. cbn [fst] in *.
        change (String.eqb "simplexTree" "simplexTree") with true. cbn [bind]. intros [= <-].
        unfold run_distMatrix, opt. rewrite H4. cbn [pk_data pk_weights pk_complex].
        rewrite E. cbn [bind fst snd PipeModel.deref pk_complex cx_setDistanceMatrix].
        change (st_setDistanceMatrix dm (st_new [] nc0)) with (st_new dm nc0).
        match goal with |- context [add_stats KDistMatrix ?p] => destruct (stats_ok KDistMatrix p _ eq_refl) as (p2 & -> & C2 & D2 & O2 & B2) end.
        cbn [bind pk_data pk_output pk_table] in *. unfold run_neighGraph. rewrite D2.
        rewrite (neigh_tree srt _ _ _ _ _ C2 Hne), T1. cbn [rmap bind].
        match goal with |- context [add_stats KNeighGraph ?p] => destruct (stats_ok KNeighGraph p _ eq_refl) as (p4 & -> & C4 & D4 & O4 & B4) end.
        cbn [bind pk_data pk_output pk_table set_complex] in *.
        unfold run_rips, opt. rewrite H3, H6'. unfold PipeModel.deref at 1. rewrite C4. cbn [bind cx_expand]. rewrite Col. cbn [bind].
        match goal with |- context [add_stats KRips ?p] => destruct (stats_ok KRips p _ eq_refl) as (p6 & -> & C6 & D6 & O6 & B6) end.
        cbn [bind pk_data pk_output pk_table set_complex] in *.
        exists p6. do 3 eexists. split; [reflexivity|]. split; [exact C6|]. split; [congruence|]. split; [congruence|].
        split; [cbn; now rewrite Eg|]. split; [exact T2|]. eapply lists_rips_ext; [|exact T4]; exact Sep.
      - assert (T : fold_left (fun k x => Nat.max k (to_unsigned x)) [atoi d] 1 = Z.to_nat (atoi d)).
        { cbn [fold_left]. unfold to_unsigned. rewrite Z.mod_small by lia. lia. }
        destruct (array_list_raw dm (atof e) (atoi d) (length data) [atoi d] _ U ltac:(lia) T) as (wg & W1 & _).
        destruct (array_list_sorted dm (atof e) (atoi d) (length data) [atoi d] _ srt (atof e) wg Hs U ltac:(lia) T W1) as (W2 & W3 & W4).
        unfold al_run in W1. rewrite foldr_ub_app in W1.
        destruct (foldr_ub (al_step dm (atof e) (atoi d)) [] (repeat (OpInsert false) (length data))) as [wg1|] eqn:E1; [|discriminate].
        cbn [bind map foldr_ub al_step] in W1.
        destruct (expandDimensions (atoi d) wg1) as [wg2|] eqn:E2; [|discriminate]. cbn [bind] in W1. injection W1 as ->.
        change (String.eqb "simplexArrayList" "simplexTree") with false. change (String.eqb "simplexArrayList" "simplexArrayList") with true. cbn [bind]. intros [= <-].
        unfold run_distMatrix, opt. rewrite H4. cbn [pk_data pk_weights pk_complex].
        rewrite E. cbn [bind fst snd PipeModel.deref pk_complex cx_setDistanceMatrix].
        match goal with |- context [add_stats KDistMatrix ?p] => destruct (stats_ok KDistMatrix p _ eq_refl) as (p2 & -> & C2 & D2 & O2 & B2) end.
        cbn [bind pk_data pk_output pk_table] in *. unfold run_neighGraph. rewrite D2.
        rewrite (neigh_array _ _ _ _ _ _ C2 Hne), E1. cbn [rmap bind].
        match goal with |- context [add_stats KNeighGraph ?p] => destruct (stats_ok KNeighGraph p _ eq_refl) as (p4 & -> & C4 & D4 & O4 & B4) end.
        cbn [bind pk_data pk_output pk_table set_complex] in *.
        unfold run_rips, opt. rewrite H3, H6'. unfold PipeModel.deref at 1. rewrite C4. cbn [bind cx_expand]. rewrite E2. cbn [bind rmap]. rewrite Col. cbn [bind].
        match goal with |- context [add_stats KRips ?p] => destruct (stats_ok KRips p _ eq_refl) as (p6 & -> & C6 & D6 & O6 & B6) end.
        cbn [bind pk_data pk_output pk_table set_complex] in *.
        exists p6. do 3 eexists. split; [reflexivity|]. split; [exact C6|]. split; [congruence|]. split; [congruence|].
        split; [reflexivity|]. split; [exact W2|]. eapply lists_rips_ext; [|exact W4]; exact Sep.
    Qed.

    Lemma three_ind p0 : mget args "complexType" = Some "indSimplexTree"%string -> new_packet atoi atof nc0 args data = Ok p0 ->
      (has_tetrahedron dist data (atoi d) (atof e) -> three args p0 = UB) /\
      (~ has_tetrahedron dist data (atoi d) (atof e) -> exists p6 dm t, three args p0 = Ok p6 /\ pk_complex p6 = Some (CInd (atof e) (atoi d) t) /\
        pk_data p6 = data /\ dm <> [] /\ (forall u v, u < v -> v < length data -> dist_of dm u v = separation dist data u v) /\
        ilegal dm (repeat IInsert (length data)) /\ ind_run (atof e) (atoi d) srt (ind_new dm nc0) (repeat IInsert (length data)) = Ok t).
    Proof.
      intros H2. destruct matrix as (dm & ws & E & Nd & U & Sep). destruct H6 as (col & H6' & H7 & H8).
      assert (Col : (String.eqb col "true" || String.eqb col "1") = false).
      { now rewrite (proj2 (String.eqb_neq col "true") H7), (proj2 (String.eqb_neq col "1") H8). }
      destruct (ind_complex dm (atof e) (atoi d) nc0 (length data) srt Hs Nd U Hd) as (Lg & C1 & C2').
      assert (Tet : has_tetrahedron dist data (atoi d) (atof e) <->
        ((3 <= atoi d)%Z /\ (exists s, flag_simplex (fun u v => (dist_of dm u v < atof e)%Z) (length data) s /\ length s = 4))).
      { unfold has_tetrahedron, rips_simplex. cbn [close]. split; intros (T3 & s & F & L4); (split; [auto|]); exists s; (split; [|auto]);
          revert F; apply flag_mono; intros u v Huv Hv; now rewrite Sep. }
      unfold new_packet, newSimplex, opt. rewrite H2, H3, H4. unfold three.
      change (String.eqb "indSimplexTree" "simplexTree") with false. change (String.eqb "indSimplexTree" "simplexArrayList") with false.
      change (String.eqb "indSimplexTree" "indSimplexTree") with true. cbn [bind]. intros [= <-].
      unfold run_distMatrix, opt. rewrite H4. cbn [pk_data pk_weights pk_complex].
      rewrite E. cbn [bind fst snd PipeModel.deref pk_complex cx_setDistanceMatrix].
      change (ind_setDistanceMatrix dm (ind_new [] nc0)) with (ind_new dm nc0).
      match goal with |- context [add_stats KDistMatrix ?p] => destruct (stats_ok KDistMatrix p _ eq_refl) as (p2 & -> & C2 & D2 & O2 & B2) end.
      cbn [bind pk_data pk_output pk_table] in *. unfold run_neighGraph. rewrite D2.
      rewrite (neigh_ind srt _ _ _ _ _ C2 Hne). split.
      - intros H. rewrite C1 by (now apply Tet). reflexivity.
      - intros H. rewrite Tet in H. destruct (C2' H) as (t & T1 & _). rewrite T1. cbn [rmap bind].
        match goal with |- context [add_stats KNeighGraph ?p] => destruct (stats_ok KNeighGraph p _ eq_refl) as (p4 & -> & C4 & D4 & O4 & B4) end.
        cbn [bind pk_data pk_output pk_table set_complex] in *.
        unfold run_rips, opt. rewrite H3, H6'. unfold PipeModel.deref at 1. rewrite C4. cbn [bind cx_expand]. rewrite Col. cbn [bind].
        match goal with |- context [add_stats KRips ?p] => destruct (stats_ok KRips p _ eq_refl) as (p6 & -> & C6 & D6 & O6 & B6) end.
        cbn [bind pk_data pk_output pk_table set_complex] in *.
        exists p6, dm, t. split; [reflexivity|]. split; [exact C6|]. split; [congruence|]. auto.
    Qed.
  End Points.

  (* ---- the persistence pipe after the first three *)
  Lemma repeat_map A B (f : A -> B) b l : (forall x, In x l -> f x = b) -> map f l = repeat b (length l).
  Proof. induction l as [|x l IH]; intros H; cbn; auto. rewrite (H x (or_introl eq_refl)), IH; auto. intros y Hy. apply H. now right. Qed.

  Theorem persistence_pipeline argv c d e f o data : is_sort srt -> (forall x y, (0 <= dist x y)%Z) -> (0 < atoi d < 2 ^ 31 - 1)%Z ->
    own_line argv persistence_line (cx_name c) d e f o -> holds_points stod file f data -> data <> [] ->
    let two_close := exists u v, u < v /\ v < length data /\ close c (atof e) (separation dist data u v) in
    (two_close -> program argv = UB) /\
    (~ two_close -> exists q, pk_data q = data /\ map (fun x => fst (fst x)) (pk_stats q) = [KDistMatrix; KNeighGraph; KRips; KPersistencePairs] /\
       program argv = Ok (Ran q (barcode_file o (if (1 <? atoi d)%Z then repeat (0, 0%Z, atof e) (length data) else [])))).
  Proof.
    intros Hs Hpos Hd Hl Hf Hne. assert (Hrow := readCSV_ne _ _ _ _ (holds_reads _ _ _ _ Hf)).
    destruct (own_run _ _ _ _ _ _ _ _ Hl ltac:(discriminate) Hf Hne) as (args & V & HO & ->).
    destruct Hl as [_ Hp _ _ _ _ _ (z & Hz & Hz1 & Hz2) Hc Hdm He _ _].
    apply V in Hp, Hz, Hc, Hdm, He.
    assert (Tw : mget args "twist" <> None). { apply HO. do 2 eexists. unfold options. do 14 right. left. reflexivity. }
    destruct (new_packet atoi atof nc0 args data) as [p0|] eqn:Np.
    2: { unfold new_packet, newSimplex, opt in Np. rewrite Hc, Hdm, He in Np. destruct c; discriminate. }
    cbn [bind]. rewrite (run_persistence args d e KPersistencePairs p0 Hp Hdm He Tw); [|unfold mread; rewrite Hc; now destruct c|auto].
    destruct (three_other args d e data Hs Hrow Hne Hpos Hd Hdm He (ex_intro _ z (conj Hz (conj Hz1 Hz2))) c p0 Hc Np)
      as (p6 & cx6 & edges & cx7 & E6 & C6 & O6 & D6 & Eg & Cx & Lr). assert (K6 := three_kinds _ _ _ E6). rewrite (fresh_stats _ _ _ Np) in K6. rewrite E6. cbn [bind all_pipes].
    unfold run_pairs, PipeModel.deref, opt. rewrite C6, He, Hdm. cbn [bind]. rewrite Eg.
    destruct (rips_levels dist data c (atof e) (Z.to_nat (atoi d)) ltac:(lia) edges Lr Cx) as [L2 _].
    destruct (pp_run_spec (atoi d) (atof e) edges Cx ltac:(lia)) as [P1 P2]. rewrite <- L2. split.
    - intros H. rewrite (P1 H). reflexivity.
    - intros H. rewrite P2 by lia. cbn [bind set_complex pk_data pk_labels pk_full pk_weights pk_complex pk_table pk_stats].
      unfold add_stats, PipeModel.deref. cbn [pk_complex bind]. eexists. split; [|split; [|cbn [pk_output]; do 3 f_equal]].
      + exact D6.
      + cbn [pk_stats]. rewrite map_app, K6. reflexivity.
      + destruct (1 <? atoi d)%Z; [|reflexivity]. rewrite (repeat_map _ _ _ (0, 0%Z, atof e)).
        * f_equal. rewrite <- (rips_count dist data c (atof e) (Z.to_nat (atoi d)) ltac:(lia) edges Lr Cx). unfold vertices, simplices.
          assert (V1 : forall x, In x (level edges 0) -> length (fst x) = 1) by (intros [s w] Hin; now destruct (proj1 (proj1 Lr 0 s w) Hin)).
          clear -V1. induction (level edges 0) as [|x l IH]; cbn [map concat length]; auto. rewrite List.app_length, (V1 x (or_introl eq_refl)), <- IH; [reflexivity|]. intros y Hy. apply V1. now right.
        * intros [s w] Hin. cbn [snd]. apply (proj1 Lr) in Hin as (Ls & _ & _ & Dm). destruct s as [|v [|]]; try discriminate.
          destruct Dm as [_ [(u & v' & [<-|[]] & [<-|[]] & ? & _)|[_ ->]]]; [lia|auto].
  Qed.

  Lemma lone_edge_points dm n data eps md : dm <> [] -> n = length data -> (0 < md < 2 ^ 31 - 1)%Z ->
    (forall u v, u < v -> v < n -> dist_of dm u v = separation dist data u v) ->
    (lone_edge eps md dm (repeat IInsert n) <-> one_pair_off_zero dist data eps).
  Proof.
    intros Nd En Hmd Sep. unfold lone_edge, one_pair_off_zero. rewrite ipast_inserts by auto. cbn [q_dm q_points].
    assert (Two : forall s, length s = 2 -> (simplex_of dm eps md n s <-> exists u v, s = [u; v] /\ u < v /\ v < n /\ (separation dist data u v < eps)%Z)).
    { intros s Ls. destruct s as [|u [|v [|]]]; try discriminate. unfold simplex_of, strict_rips, flag_simplex. split.
      - intros [(_ & Ss & B & Cl) _]. inversion Ss as [|? ? _ Hf]; subst. inversion Hf as [|? ? Huv _]; subst.
        exists u, v. assert (Hv : v < length data) by (apply B; right; now left). repeat split; auto. rewrite <- Sep by auto. apply Cl; auto; [now left|right; now left].
      - intros (a & b & [= -> ->] & Hab & Hb & Cl). split.
        + split; [discriminate|]. split; [repeat constructor; auto|]. split; [intros x [<-|[<-|[]]]; lia|].
          intros x y [<-|[<-|[]]] [<-|[<-|[]]] L; try lia. rewrite Sep by auto. exact Cl.
        + unfold within. cbn [length]. right. rewrite Z.mod_small by lia. lia. }
    split.
    - intros (u & v & Hu & H). destruct (proj1 (Two [u; v] eq_refl)) as (a & b & [= <- <-] & Huv & Hv & Cl); [now apply H|].
      exists u, v. rewrite <- En. do 4 (split; [assumption|]). intros a b Hab Hb Cab.
      assert (E : [a; b] = [u; v]); [|injection E; auto]. apply H; auto. apply Two; auto. exists a, b. auto.
    - intros (u & v & Hu & Huv & Hv & Cl & O). exists u, v. split; auto. intros s Ls. rewrite (Two s Ls). rewrite <- En in *. split.
      + intros (a & b & -> & Hab & Hb & Cab). destruct (O a b Hab Hb Cab). congruence.
      + intros ->. exists u, v. auto.
  Qed.

  Theorem persistence_indexed argv d e f o t data : is_sort srt -> (forall x y, (0 <= dist x y)%Z) -> (0 < atoi d < 2 ^ 31 - 1)%Z ->
    own_line argv persistence_line "indSimplexTree" d e f o -> value argv "twist" t -> holds_points stod file f data -> data <> [] ->
    let single := atoi d = 1%Z /\ t <> "true"%string /\ one_pair_off_zero dist data (atof e) in
    (single -> exists q, pk_data q = data /\ map (fun x => fst (fst x)) (pk_stats q) = [KDistMatrix; KNeighGraph; KRips; KOptPersistencePairs] /\
       program argv = Ok (Ran q (barcode_file o (repeat (0, 0%Z, atof e) (length data))))) /\
    (~ single -> program argv = UB).
  Proof.
    intros Hs Hpos Hd Hl Ht Hf Hne. assert (Hrow := readCSV_ne _ _ _ _ (holds_reads _ _ _ _ Hf)).
    destruct (own_run _ _ _ _ _ _ _ _ Hl ltac:(discriminate) Hf Hne) as (args & V & HO & ->).
    destruct Hl as [_ Hp _ _ _ _ _ (z & Hz & Hz1 & Hz2) Hc Hdm He _ _].
    apply V in Hp, Hz, Hc, Hdm, He, Ht.
    destruct (new_packet atoi atof nc0 args data) as [p0|] eqn:Np.
    2: { unfold new_packet, newSimplex, opt in Np. rewrite Hc, Hdm, He in Np. discriminate. }
    cbn [bind]. rewrite (run_persistence args d e KOptPersistencePairs p0 Hp Hdm He ltac:(congruence)); [|unfold mread; rewrite Hc; reflexivity|auto].
    destruct (three_ind args d e data Hs Hrow Hne Hpos Hd Hdm He (ex_intro _ z (conj Hz (conj Hz1 Hz2))) p0 Hc Np) as [T1 T2].
    assert (Dt : ~ (atoi d = 1%Z) \/ ~ has_tetrahedron dist data (atoi d) (atof e)).
    { destruct (Z.eq_dec (atoi d) 1) as [E|]; [right; intros [? _]; lia|now left]. }
    assert (Q : {three args p0 = UB} + {three args p0 <> UB}) by (destruct (three args p0); [right; discriminate|now left]).
    destruct Q as [Q|Q].
    - rewrite Q. cbn [bind]. split; auto. intros (D1 & _ & _). destruct Dt as [Dt|Dt]; [easy|]. destruct (T2 Dt) as (p6 & _ & _ & E & _). congruence.
    - assert (Nt : ~ has_tetrahedron dist data (atoi d) (atof e)) by (intros K; apply Q, T1, K).
      destruct (T2 Nt) as (p6 & dm & tr & E6 & C6 & D6 & Nd & Sep & Lg & Er). assert (K6 := three_kinds _ _ _ E6). rewrite (fresh_stats _ _ _ Np) in K6. rewrite E6. cbn [bind all_pipes].
      assert (Ng : ~ In IGetAll (repeat IInsert (length data))) by (intros K; apply repeat_spec in K; discriminate).
      unfold run_opt, PipeModel.deref, opt. rewrite C6, He, Hdm, Ht. cbn [bind].
      destruct (ind_sets_run (atof e) (atoi d) dm nc0 srt _ tr Hs Lg Ng Er (atoi d) (atof e) ltac:(lia)) as [S1 S2].
      rewrite (lone_edge_points dm (length data) data (atof e) (atoi d) Nd eq_refl Hd Sep) in S1, S2. rewrite ipast_inserts in S1 by auto. cbn [q_points] in S1.
      destruct (String.eqb_spec t "true") as [-> | Nt'].
      + rewrite (ind_twist_run (atof e) (atoi d) dm nc0 srt _ tr Hs Lg Ng Er) by lia. cbn [bind]. split; [intros (_ & K & _); now elim K|reflexivity].
      + split.
        * intros (D1 & _ & O). rewrite (S1 (conj D1 O)). cbn [RunMonad.ret bind set_output set_complex pk_data pk_labels pk_full pk_weights pk_complex pk_table pk_stats].
          unfold add_stats, PipeModel.deref. cbn [pk_complex bind]. eexists. split; [|split; [|reflexivity]]; [exact D6|].
          cbn [pk_stats]. rewrite map_app. unfold set_output, set_complex. cbn [pk_stats]. rewrite K6. reflexivity.
        * intros K. rewrite S2 by tauto. reflexivity.
  Qed.
End Own.
