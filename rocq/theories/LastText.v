(* LastText.v -- the last pipe that assigns the bars decides what the barcode file holds. *)
From Coq Require Import String Ascii List Arith ZArith Bool Lia SpecFloat.
From Verif Require Import Base UtilsModel ArrayListModel FastModel ArgModel IoModel PipeModel WindowModel MainModel AllModel.
From Verif Require Import SpecArgs SpecMain SpecReducedStats ReducedStats.
From Verif Require Import DoubleModel SpecDouble DoubleRuns SpecText TextModel TextProofs ReadModel NanModel SlideDoubleModel SpecAllText AllTextModel SpecLastText.
Import ListNotations.
Local Open Scope nat_scope.
Local Open Scope list_scope.

Lemma no_text k lines : (forall h, ~ In (k, h) own_headers) -> betti_text k lines = None.
Proof. intros H. destruct k; try reflexivity; exfalso; eapply H; cbn; auto. Qed.
Lemma some_text k h lines : In (k, h) own_headers -> exists rows, betti_text k lines = Some (h ++ concat rows) /\ Forall2 (row_of k) lines rows.
Proof.
  assert (F : forall (f : nat * Z * Z -> text), (forall l, row_of k l (f l)) -> Forall2 (row_of k) lines (map f lines)).
  { intros f H. induction lines; cbn; constructor; auto. }
  assert (P : k <> KFastPersistence -> forall l, row_of k l (pair_text l)).
  { intros N [[d b] x]. exists (show (Z.of_nat d)), (to_string (at_place b)). split; [apply show_spec; lia|].
    split; [intros [Q _]; contradiction|]. split; [reflexivity|]. unfold pair_text. reflexivity. }
  intros [E|[E|[E|[E|[]]]]]; injection E as <- <-; unfold betti_text.
  - exists (map (bar_text at_place) lines). split; [reflexivity|]. apply F. intros [[d b] x]. unfold bar_text. cbn [fst snd]. destruct d as [|d].
    + exists (list_ascii_of_string "0"), (list_ascii_of_string "0"). split; [exact (show_spec 0 ltac:(lia))|]. split; [reflexivity|]. split; [intros Q; exfalso; apply Q; auto|]. reflexivity.
    + exists (show (Z.of_nat (S d))), (to_string (at_place b)). split; [apply show_spec; lia|]. split; [intros [_ Q]; discriminate|]. split; reflexivity.
  - exists (map pair_text lines). split; [unfold line; now rewrite <- app_assoc|]. apply F, P. discriminate.
  - exists (map pair_text lines). split; [unfold line; now rewrite <- app_assoc|]. apply F, P. discriminate.
  - exists (map pair_text lines). split; [unfold line; now rewrite <- app_assoc|]. apply F, P. discriminate.
Qed.

Notation kind := (fun x : pipe_kind * Z * Z => fst (fst x)).
Lemma text_of_kinds stats lines t : fold_left (fun t x => match betti_text (fst (fst x)) lines with Some t' => t' | None => t end) stats t =
  fold_left (fun t k => match betti_text k lines with Some t' => t' | None => t end) (map kind stats) t.
Proof. revert t. induction stats as [|x stats IH]; intros t; [reflexivity|]. cbn. apply IH. Qed.
Lemma none_assign ks lines : (forall k h, In (k, h) own_headers -> ~ In k ks) ->
  forall t, fold_left (fun t k => match betti_text k lines with Some t' => t' | None => t end) ks t = t.
Proof.
  induction ks as [|k ks IH]; intros H t; [reflexivity|]. cbn [fold_left]. rewrite no_text by (intros h I; exact (H k h I (or_introl eq_refl))).
  apply IH. intros j h I J. exact (H j h I (or_intror J)).
Qed.

Definition left_by (ks : list pipe_kind) (bars : list (nat * Z * Z)) (body : text) : Prop :=
  ((forall k h, In (k, h) own_headers -> ~ In k ks) -> body = []) /\
  (forall k1 k k2 h, ks = k1 ++ k :: k2 -> In (k, h) own_headers -> (forall j h', In (j, h') own_headers -> ~ In j k2) ->
     exists rows, body = h ++ concat rows /\ Forall2 (row_of k) bars rows).
Lemma output_left stats lines : left_by (map kind stats) lines (output_text stats lines).
Proof.
  unfold output_text. rewrite text_of_kinds. split.
  - intros H. now apply none_assign.
  - intros k1 k k2 h E I N. rewrite E, fold_left_app. cbn [fold_left]. destruct (some_text k h lines I) as (rows & R1 & R2).
    rewrite R1. exists rows. split; [|exact R2]. now apply none_assign.
Qed.

Section Last.
  Variable srt : list wsimp -> list wsimp.
  Variable past_end : list nat -> nat -> res nat.
  Variable nc0 : Z.
  Variable al_reduce : wgraph -> res wgraph.
  Variable one : Z.
  Variable file : string -> option text.
  Variable pre_run : pre_kind -> amap -> packet -> res packet.
  Variable pre_stats : pre_kind -> packet -> res packet.
  Variable uaf : res unit.
  Hypothesis Kr : forall k a p q, pre_run k a p = Ok q -> pk_stats q = pk_stats p.
  Hypothesis Ks : forall k p q, pre_stats k p = Ok q -> pk_stats q = pk_stats p.

  Theorem last_text argv m P parts ks o texts : parse argv = Ok m -> let args := setPipeline m in
    mget args "mode" <> Some "reduced"%string -> mget args "pipeline" = Some P -> components_of P parts -> running args parts ks ->
    (forall w, In w parts -> ~ In w stream_names) -> mget args "outputFile" = Some o -> o <> "console"%string ->
    lhf_texts d_square srt past_end nc0 al_reduce one file UB pre_run pre_stats uaf argv = Ok texts -> texts <> [] ->
    exists bars body, texts = [((o ++ ".csv")%string, line "dimension,birth,death" ++ body)] /\ left_by ks bars body.
  Proof.
    intros Pm args Hm HP HC HR HN Ho No H Ne. unfold lhf_texts in H. rewrite Pm in H. cbn [bind] in H. fold args in H.
    set (dist := coded_dist d_square (nan_place (opt args "complexType"))) in H.
    unfold lhf_all, lhf in H. rewrite Pm in H. cbn [bind] in H. fold args in H.
    destruct (newSimplex d_atoi d_atof nc0 (opt args "complexType") args) as [c|]; [|discriminate]. cbn [bind] in H.
    match type of H with context [match (if ?b then ?x else ?y) with Some _ => _ | None => _ end] => destruct (if b then x else y) as [data|]; [|cbn [bind] in H; exfalso; apply Ne; now injection H as <-] end.
    match type of H with context [if (0 <? length data) || ?b then _ else _] => destruct ((0 <? length data) || b); [|cbn [bind] in H; exfalso; apply Ne; now injection H as <-] end.
    destruct (String.eqb (opt args "upscale") "true").
    { match type of H with context [processUpscaleWrapper ?a ?b ?c ?d ?e] => destruct (processUpscaleWrapper a b c d e) as [[[? ?]|]|]; cbn [bind] in H; try discriminate; exfalso; apply Ne; now injection H as <- end. }
    assert (Om : String.eqb (opt args "mode") "reduced" = false).
    { apply String.eqb_neq. unfold opt. destruct (mget args "mode"); [intros ->; auto|discriminate]. }
    rewrite Om in H. set (p := mkPacket data [] data [] c [] [] []) in H. unfold processData in H.
    destruct (preprocess packet pre_run pre_stats args p) as [p1|] eqn:E1; [|discriminate]. cbn [bind] in H.
    match type of H with context [run_and_write ?a ?b ?c ?d ?e ?f ?g ?h ?i] => destruct (run_and_write a b c d e f g h i) as [[q fs]|] eqn:E2; [|discriminate] end.
    cbn [bind fst snd] in H. injection H as <-.
    destruct (write_block dist d_atoi d_atof srt past_end al_reduce one d_stod file args P parts ks HP HC HR HN p1 q fs E2) as (b & B1 & B2).
    assert (Wo : writes_output args = true). { unfold writes_output. rewrite HP, Ho. now rewrite (proj2 (String.eqb_neq o "console") No). }
    unfold run_and_write in E2.
    match type of E2 with bind ?x _ = _ => destruct x as [[[q1 f1]|]|]; [| |discriminate] end; cbn [bind] in E2; injection E2 as Eq Ef.
    2: { subst fs. now contradiction Ne. }
    subst q1. rewrite Wo in Ef. subst fs. cbn [map fst snd]. exists (pk_output q), (output_text (pk_stats q) (pk_output q)).
    assert (Oo : opt args "outputFile" = o) by (unfold opt; now rewrite Ho). rewrite Oo. split; [reflexivity|].
    rewrite (preprocess_keeps pre_run pre_stats Kr Ks _ _ _ E1) in B1. cbn [pk_stats p app] in B1. rewrite <- B2, <- B1. apply output_left.
  Qed.
End Last.
