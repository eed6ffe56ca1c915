(* LogRuns.v -- the log of whole runs. *)
From Coq Require Import String Ascii List Arith ZArith QArith Bool Lia.
From Verif Require Import Base UtilsModel ArrayListModel TreeModel FastModel ArgModel IndModel PipeModel StatsModel LogModel.
From Verif Require Import Spec SpecArgs SpecLog ArgProofs.
Import ListNotations.
Local Open Scope nat_scope.
Local Open Scope list_scope.

Lemma app_assoc' (a b c : string) : ((a ++ b) ++ c)%string = (a ++ b ++ c)%string.
Proof. induction a as [|x a IH]; cbn; [reflexivity|]. now rewrite IH. Qed.
Lemma app_nil' (a : string) : (a ++ "")%string = a.
Proof. induction a as [|x a IH]; cbn; [reflexivity|]. now rewrite IH. Qed.
Lemma concat_cons (a : string) l : String.concat "" (a :: l) = (a ++ String.concat "" l)%string.
Proof. destruct l as [|b l]; cbn [String.concat]; [now rewrite app_nil'|reflexivity]. Qed.
Lemma as_text_cons a l : as_text (a :: l) = (a ++ LF ++ as_text l)%string.
Proof. unfold as_text. cbn [map]. now rewrite concat_cons, app_assoc'. Qed.

Section Log.
  Variable opens : string -> bool.
  Variable sz : sizes.
  Variable show_q : Q -> string.
  Variable show_z : Z -> string.
  Variable seconds : nat -> string.
  Variable barcodes : list (nat * Z * Z) -> string.
  Variables debug_before debug_after own : pipe_kind -> amap -> packet -> list (string * string).
  Variable run : pipe_kind -> amap -> packet -> res packet.
  Notation logged := (run_logged debug_before own run).
  Notation wrapped args := (wrapper_logged sz show_q seconds debug_after args).
  Notation run' := (fun k a (pl : packet * list stat_line) => do p' <- run k a (fst pl); Ok (p', snd pl)).

  Lemma debugs_debug args l x : In x (debugs args l) -> is_debug x = true.
  Proof.
    unfold debugs. rewrite in_concat. intros (ls & Hl & Hx). apply in_map_iff in Hl as ([m s] & <- & _). unfold writeDebug in Hx.
    destruct (_ || _)%bool; [easy|]. destruct Hx as [<-|[]]. reflexivity.
  Qed.
  Lemma debugs_off args l : mget args "debug" = Some "0"%string \/ mget args "debug" = Some "false"%string -> debugs args l = [].
  Proof.
    intros H. unfold debugs, strDebug, opt. assert (E : (String.eqb (match mget args "debug" with Some v => v | None => ""%string end) "0" || String.eqb (match mget args "debug" with Some v => v | None => ""%string end) "false")%bool = true)
      by (destruct H as [-> | ->]; reflexivity).
    induction l as [|e l IH]; cbn [map concat]; [reflexivity|]. rewrite IH. unfold writeDebug. now rewrite E.
  Qed.
  Lemma filter_debugs args l : filter (fun x => negb (is_debug x)) (debugs args l) = [].
  Proof.
    assert (H := debugs_debug args l). induction (debugs args l) as [|x r IH]; [reflexivity|]. cbn [filter].
    rewrite (H x (or_introl eq_refl)). cbn. apply IH. intros y Hy. apply H. now right.
  Qed.

  Definition pairs n lines := concat (map (fun tl => two_lines show_q (fst tl) (snd tl)) (combine (map seconds (seq n (length lines))) lines)).

  Lemma two_lines_kept time (l : stat_line) k : l_pipe l = pipe_type k ->
    filter (fun x => negb (is_debug x)) (two_lines show_q time l) = two_lines show_q time l.
  Proof. intros E. unfold two_lines. rewrite E. destruct k; reflexivity. Qed.

  Lemma log_of_steps args parts st r : steps lstate logged (wrapped args) args parts st r ->
    (forall c, In c parts -> ~ In c window_names) ->
    forall q lines log failed, r = Ok (q, lines, log, failed) ->
    steps (packet * list stat_line) run' (stats_and_line sz) args parts (fst st) (Ok (q, lines, failed)) /\
    exists new newlog, lines = snd (fst st) ++ new /\ log = snd st ++ newlog /\
      filter (fun x => negb (is_debug x)) newlog = pairs (length (snd (fst st))) new /\
      (mget args "debug" = Some "0"%string \/ mget args "debug" = Some "false"%string -> newlog = pairs (length (snd (fst st))) new).
  Proof.
    induction 1 as [p|c cs p b H|c cs p p' b r H St IH]; intros W q lines log failed E.
    - injection E as -> <-. cbn [fst snd]. split; [constructor|]. exists [], []. now rewrite !app_nil_r.
    - discriminate.
    - destruct r as [[[[q' l'] g'] f']|]; [|discriminate]. cbn in E. injection E as -> -> -> <-.
      destruct (IH (fun c' Hc => W c' (or_intror Hc)) q lines log f' eq_refl) as (S1 & new & newlog & E1 & E2 & E3 & E4). inversion H; subst.
      + split; [|exists new, newlog; auto].
        apply (steps_cons _ run' (stats_and_line sz) args c cs (fst p') (fst p') true (Ok (q, snd (fst p') ++ new, f'))); auto. now apply step_unknown.
      + split; [|exists new, newlog; auto].
        apply (steps_cons _ run' (stats_and_line sz) args c cs (fst p') (fst p') true (Ok (q, snd (fst p') ++ new, f'))); auto. eapply step_unconfigured; eauto.
      + destruct p as [[p0 l0] g0]. cbn [fst snd] in *.
        match goal with X : newPipe _ _ = Some _ |- _ => rename X into N end.
        match goal with E : bind _ _ = Ok p' |- _ => rename E into E0 end.
        unfold run_logged in E0. destruct (run k args p0) as [p1|] eqn:R; cbn [bind] in E0; [|discriminate].
        unfold wrapper_logged in E0. destruct (line_of sz k p1) as [l|] eqn:L; cbn [bind] in E0; [|discriminate].
        destruct (add_stats k p1) as [p2|] eqn:A; cbn [bind] in E0; [|discriminate]. injection E0 as <-. cbn [fst snd] in *.
        assert (P : l_pipe l = pipe_type k).
        { unfold line_of in L. destruct (packet_size sz p1); [|discriminate]. destruct (PipeModel.deref p1); [|discriminate]. cbn in L. injection L as <-. reflexivity. }
        split.
        * apply (steps_cons _ run' (stats_and_line sz) args c cs (p0, l0) (p2, l0 ++ [l]) false (Ok (q, (l0 ++ [l]) ++ new, f'))); auto.
          replace (Ok (p2, l0 ++ [l])) with (do p1' <- run' k args (p0, l0); stats_and_line sz k p1'); [exact (step_runs (packet * list stat_line) run' (stats_and_line sz) args c (p0, l0) k N H2)|].
          cbn [fst snd]. rewrite R. cbn [bind]. unfold stats_and_line. cbn [fst snd]. rewrite L. cbn [bind]. now rewrite A.
        * assert (K : match k with KSlidingWindow | KNaiveWindow => concat (map (fun e => writeLog (fst e) (snd e)) (own k args p0)) | _ => [] end = []).
          { assert (Wc := W c (or_introl eq_refl)). apply newPipe_spec in N. destruct N as [N|[-> N]].
            - unfold pipe_names in N. cbn [In] in N. repeat (destruct N as [N|N]; [injection N as <- <-; try reflexivity; exfalso; apply Wc; cbn; tauto|]). destruct N.
            - destruct N as [[_ ->]|[_ ->]]; reflexivity. }
          rewrite K in *. rewrite app_nil_r in *.
          exists (l :: new), (debugs args (debug_before k args p0) ++ two_lines show_q (seconds (length l0)) l ++ debugs args (debug_after k args p2) ++ newlog).
          split; [now rewrite <- app_assoc|]. split; [unfold two_lines; rewrite P; rewrite <- !app_assoc; reflexivity|].
          rewrite List.app_length in E3, E4. cbn [length] in E3, E4. rewrite Nat.add_1_r in E3, E4.
          assert (T : pairs (length l0) (l :: new) = two_lines show_q (seconds (length l0)) l ++ pairs (S (length l0)) new) by reflexivity.
          rewrite T. split.
          -- rewrite filter_app, filter_debugs. cbn [app]. rewrite filter_app, (two_lines_kept _ _ k P). f_equal. rewrite filter_app, filter_debugs. exact E3.
          -- intros O. rewrite !(debugs_off _ _ O). cbn [app]. f_equal. auto.
  Qed.

  Lemma stats_text_rows lines : forall n, stats_text show_q show_z seconds n lines =
    as_text (map (fun tl => stat_row show_q show_z (fst tl) (snd tl)) (combine (map seconds (seq n (length lines))) lines)).
  Proof.
    induction lines as [|l lines IH]; intros n; [reflexivity|]. cbn [length seq map combine stats_text fst snd]. rewrite as_text_cons, IH.
    unfold stat_text, stat_row. cbn [String.concat]. change LF with nl. now rewrite !app_assoc'.
  Qed.

  Lemma appended o lines : forall d n, fold_left (writeFile opens o) lines d n =
    if (String.eqb n o && openable opens o && negb (match lines with [] => true | _ => false end))%bool
    then Some ((match d o with Some t => t | None => "" end) ++ as_text lines)%string else d n.
  Proof.
    induction lines as [|l lines IH]; intros d n; cbn [fold_left].
    - now rewrite Bool.andb_false_r.
    - rewrite IH. unfold writeFile, put. destruct (openable opens o) eqn:O; [|now rewrite !Bool.andb_false_r].
      rewrite String.eqb_refl, !Bool.andb_true_r. destruct (String.eqb_spec n o) as [->|Hn]; cbn [andb negb]; [|now destruct lines].
      rewrite as_text_cons. destruct lines as [|l' lines]; cbn [negb].
      + change LF with nl. change (as_text []) with ""%string. now rewrite app_nil'.
      + change LF with nl. now rewrite !app_assoc'.
  Qed.

  Theorem log_of_a_run start args s parts d p lines log printed d' failed :
    mget args "pipeline" = Some s -> components_of s parts -> (forall c, In c parts -> ~ In c window_names) ->
    pipeline_logged opens sz show_q show_z seconds barcodes debug_before debug_after own run start args d = Ok (Some (p, lines, log, printed, d', failed)) ->
    runPipeline (packet * list stat_line) run' (stats_and_line sz) args (start, []) = Ok (Some (p, lines, failed)) /\
    let times := map seconds (seq 0 (length lines)) in
    filter (fun x => negb (is_debug x)) log = pipe_log show_q times lines /\
    (mget args "debug" = Some "0"%string \/ mget args "debug" = Some "false"%string -> log = pipe_log show_q times lines) /\
    match mget args "outputFile" with
    | None => printed = [] /\ forall n, d' n = d n
    | Some o =>
        if String.eqb o "console" then printed = log /\ (forall n, d' n = d n)
        else printed = [] /\ forall n, d' n =
          if negb (opens n) then d n
          else if String.eqb n (o ++ "_stats.csv") then Some (stat_file show_q show_z times lines)
          else if String.eqb n (o ++ ".csv") then Some (barcodes (pk_output p))
          else if String.eqb n o && negb (String.eqb o "") && negb (match log with [] => true | _ => false end) then Some ((match d o with Some t => t | None => "" end) ++ as_text log)%string
          else d n
    end.
  Proof.
    intros Hp Hc W. unfold pipeline_logged. intros E.
    destruct (pipeline_steps lstate logged (wrapped args) args s parts (start, [], []) Hc Hp) as (r & Sr & Er).
    rewrite Er in E. destruct r as [[[[q l1] g1] f1]|]; cbn [rmap bind] in E; [|discriminate].
    injection E as -> -> -> <- <- ->.
    destruct (log_of_steps args parts _ _ Sr W p lines log failed eq_refl) as (S1 & new & newlog & E1 & E2 & E3 & E4). cbn [fst snd app length] in *. subst new newlog.
    split.
    { destruct (pipeline_steps (packet * list stat_line) run' (stats_and_line sz) args s parts (start, []) Hc Hp) as (r & Sr' & ->).
      now rewrite (steps_fun _ _ _ _ _ _ _ _ Sr' S1). }
    cbv zeta. split; [exact E3|]. split; [exact E4|]. unfold writes_output, opt. rewrite Hp.
    destruct (mget args "outputFile") as [o|].
    - destruct (String.eqb_spec o "console") as [->|Ho].
      + cbn [negb]. auto.
      + cbn [negb]. split; [reflexivity|]. intros n.
        assert (N1 : forall a (b : string), a <> ""%string -> openable opens (b ++ a) = opens (b ++ a)).
        { intros a b Ha. unfold openable. destruct b as [|x b]; cbn [append String.eqb negb andb]; [|reflexivity]. destruct a; [easy|reflexivity]. }
        unfold overwrite. rewrite !N1 by discriminate.
        assert (G : forall D n', (if opens (o ++ ".csv")%string then put D (o ++ ".csv") (barcodes (pk_output p)) else D) n' =
                      if (String.eqb n' (o ++ ".csv") && opens (o ++ ".csv")%string)%bool then Some (barcodes (pk_output p)) else D n').
        { intros D n'. destruct (opens _); [|now rewrite Bool.andb_false_r]. rewrite Bool.andb_true_r. reflexivity. }
        rewrite G. clear G.
        assert (Est : writeStats show_q show_z seconds lines = stat_file show_q show_z (map seconds (seq 0 (length lines))) lines).
        { unfold writeStats, stat_file. rewrite as_text_cons, stats_text_rows. reflexivity. }
        rewrite Est.
        assert (G : forall D n' t, (if opens (o ++ "_stats.csv")%string then put D (o ++ "_stats.csv") t else D) n' =
                      if (String.eqb n' (o ++ "_stats.csv") && opens (o ++ "_stats.csv")%string)%bool then Some t else D n').
        { intros D n' t. destruct (opens _); [|now rewrite Bool.andb_false_r]. rewrite Bool.andb_true_r. reflexivity. }
        rewrite G. clear G. rewrite appended.
        assert (C : (o ++ ".csv")%string <> (o ++ "_stats.csv")%string).
        { clear. induction o as [|x o IH]; cbn; [discriminate|]. intros E. injection E as E. auto. }
        destruct (String.eqb_spec n (o ++ "_stats.csv")) as [->|H1].
        * destruct (String.eqb_spec (o ++ "_stats.csv") (o ++ ".csv")) as [E|_]; [congruence|]. cbn [andb].
          destruct (opens (o ++ "_stats.csv")) eqn:O; cbn [negb]; [reflexivity|].
          assert (X : (o ++ "_stats.csv")%string <> o).
          { clear. induction o as [|x o IH]; cbn; [discriminate|]. intros E. injection E as E. auto. }
          apply String.eqb_neq in X. now rewrite X.
        * cbn [andb]. destruct (String.eqb_spec n (o ++ ".csv")) as [->|H2].
          -- cbn [andb]. destruct (opens (o ++ ".csv")) eqn:O; cbn [negb]; [reflexivity|].
             assert (X : (o ++ ".csv")%string <> o).
             { clear. induction o as [|x o IH]; cbn; [discriminate|]. intros E. injection E as E. auto. }
             apply String.eqb_neq in X. now rewrite X.
          -- cbn [andb]. unfold openable. destruct (String.eqb_spec n o) as [->|Hn]; cbn [andb]; [|now destruct (opens n)].
             destruct (opens o); cbn [negb]; [|now rewrite Bool.andb_false_r]. now rewrite Bool.andb_true_r.
    - cbn. split; [reflexivity|]. intros n. rewrite appended. unfold openable. cbn [String.eqb negb andb]. now rewrite Bool.andb_false_r.
  Qed.

  Lemma loop_proj args : forall fuel functs st failed,
    pipeline_loop (packet * list stat_line) run' (stats_and_line sz) fuel args functs (fst st) failed =
    rmap (fun r => (fst (fst r), snd r)) (pipeline_loop lstate logged (wrapped args) fuel args functs st failed).
  Proof.
    induction fuel as [|fuel IH]; intros functs st failed; [reflexivity|]. cbn [pipeline_loop].
    assert (G : run_component (packet * list stat_line) run' (stats_and_line sz) args (curFunct functs) (fst st) =
                rmap (fun r => (fst (fst r), snd r)) (run_component lstate logged (wrapped args) args (curFunct functs) st)).
    { unfold run_component. destruct (newPipe _ _) as [k|]; [|reflexivity]. unfold configPipe. destruct (forallb _ _); [|reflexivity].
      unfold runPipeWrapper. cbn [negb]. destruct st as [[p l] g]. cbn [fst snd]. unfold run_logged. destruct (run k args p) as [p1|]; [|reflexivity]. cbn [bind].
      unfold stats_and_line, wrapper_logged. cbn [fst snd]. destruct (line_of sz k p1) as [x|]; [|reflexivity]. cbn [bind].
      destruct (add_stats k p1) as [p2|]; reflexivity. }
    rewrite G. destruct (run_component lstate _ _ _ _ _) as [[[[p l] g] b]|]; [|reflexivity]. cbn [rmap bind fst snd]. apply (IH _ (p, l, g)).
  Qed.
  Lemma logged_exists start args d p lines failed :
    runPipeline (packet * list stat_line) run' (stats_and_line sz) args (start, []) = Ok (Some (p, lines, failed)) ->
    exists log printed d', pipeline_logged opens sz show_q show_z seconds barcodes debug_before debug_after own run start args d = Ok (Some (p, lines, log, printed, d', failed)).
  Proof.
    unfold pipeline_logged, runPipeline. destruct (mget args "pipeline") as [s|]; [|discriminate]. rewrite (loop_proj args _ _ (start, [], [])).
    destruct (pipeline_loop lstate _ _ _ _ _ _ _) as [[[[q l] g] f]|]; cbn [rmap fst snd]; [|discriminate]. intros E. injection E as -> -> ->. cbn [bind rmap].
    eexists. eexists. eexists. reflexivity.
  Qed.
End Log.
