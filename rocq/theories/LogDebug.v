(* LogDebug.v -- the lines for debugging in the log of whole runs. *)
From Coq Require Import String Ascii List Arith ZArith QArith Bool Lia.
From Verif Require Import Base UtilsModel ArrayListModel TreeModel FastModel ArgModel IndModel PipeModel StatsModel LogModel.
From Verif Require Import Spec SpecArgs SpecLog ArgProofs LogRuns SpecLogDebug.
Import ListNotations.
Local Open Scope nat_scope.
Local Open Scope list_scope.

Section Log.
  Variable sz : sizes.
  Variable show_q : Q -> string.
  Variable seconds : nat -> string.
  Variables debug_before debug_after own : pipe_kind -> amap -> packet -> list (string * string).
  Variable run : pipe_kind -> amap -> packet -> res packet.
  Notation logged := (run_logged debug_before own run).
  Notation wrapped args := (wrapper_logged sz show_q seconds debug_after args).

  Lemma debugs_from args l x : In x (debugs args l) -> exists m t, In (m, t) l /\ x = debug_line m t.
  Proof.
    unfold debugs. rewrite in_concat. intros (ls & Hl & Hx). apply in_map_iff in Hl as ([m t] & <- & I). unfold writeDebug in Hx.
    destruct (_ || _)%bool; [easy|]. destruct Hx as [<-|[]]. exists m, t. now split.
  Qed.
  Lemma debugs_on args l m t v : mget args "debug" = Some v -> v <> "0"%string -> v <> "false"%string ->
    In (m, t) l -> In (debug_line m t) (debugs args l).
  Proof.
    intros D V0 V1 I. unfold debugs. apply in_concat. exists [debug_line m t]. split; [|now left].
    apply in_map_iff. exists (m, t). split; [|exact I]. cbn [fst snd]. unfold writeDebug, strDebug, opt. rewrite D.
    apply String.eqb_neq in V0, V1. now rewrite V0, V1.
  Qed.

  Lemma debug_of_steps args parts st r : steps lstate logged (wrapped args) args parts st r ->
    forall q lines log failed, r = Ok (q, lines, log, failed) ->
    exists new newlog, lines = snd (fst st) ++ new /\ log = snd st ++ newlog /\
      ((forall c, In c parts -> ~ In c window_names) -> forall x, In x newlog -> is_debug x = true ->
         exists k q' m t, In (m, t) (debug_before k args q' ++ debug_after k args q') /\ x = debug_line m t) /\
      (forall v l m t, mget args "debug" = Some v -> v <> "0"%string -> v <> "false"%string -> In l new ->
         (forall k q', pipe_type k = l_pipe l -> In (m, t) (debug_before k args q')) \/
         (forall k q', pipe_type k = l_pipe l -> In (m, t) (debug_after k args q')) -> In (debug_line m t) newlog).
  Proof.
    induction 1 as [p|c cs p b H|c cs p p' b r H St IH]; intros q lines log failed E.
    - injection E as -> <-. cbn [fst snd]. exists [], []. rewrite !app_nil_r. repeat split; intros; easy.
    - discriminate.
    - destruct r as [[[[q' l'] g'] f']|]; [|discriminate]. cbn in E. injection E as -> -> -> <-.
      destruct (IH q lines log f' eq_refl) as (new & newlog & E1 & E2 & E3 & E4).
      assert (E3' : (forall c0, In c0 (c :: cs) -> ~ In c0 window_names) -> forall x, In x newlog -> is_debug x = true ->
         exists k q' m t, In (m, t) (debug_before k args q' ++ debug_after k args q') /\ x = debug_line m t)
        by (intros W; apply E3; intros c' Hc; apply W; now right).
      inversion H; subst.
      + exists new, newlog; auto.
      + exists new, newlog; auto.
      + destruct p as [[p0 l0] g0]. cbn [fst snd] in *.
        match goal with X : newPipe _ _ = Some _ |- _ => rename X into N end.
        match goal with E : bind _ _ = Ok p' |- _ => rename E into E0 end.
        unfold run_logged in E0. destruct (run k args p0) as [p1|] eqn:R; cbn [bind] in E0; [|discriminate].
        unfold wrapper_logged in E0. destruct (line_of sz k p1) as [l|] eqn:L; cbn [bind] in E0; [|discriminate].
        destruct (add_stats k p1) as [p2|] eqn:A; cbn [bind] in E0; [|discriminate]. injection E0 as <-. cbn [fst snd] in *.
        assert (P : l_pipe l = pipe_type k).
        { unfold line_of in L. destruct (packet_size sz p1); [|discriminate]. destruct (PipeModel.deref p1); [|discriminate]. cbn in L. injection L as <-. reflexivity. }
        set (O := match k with KSlidingWindow | KNaiveWindow => concat (map (fun e => writeLog (fst e) (snd e)) (own k args p0)) | _ => [] end) in *.
        exists (l :: new), (debugs args (debug_before k args p0) ++ O ++ two_lines show_q (seconds (length l0)) l ++ debugs args (debug_after k args p2) ++ newlog).
        split; [now rewrite <- app_assoc|].
        split; [unfold two_lines; rewrite P; rewrite <- !app_assoc; reflexivity|]. split.
        * intros W x Ix Dx.
          assert (K : O = []).
          { assert (Wc := W c (or_introl eq_refl)). unfold O. apply newPipe_spec in N. destruct N as [N|[-> N]].
            - unfold pipe_names in N. cbn [In] in N. repeat (destruct N as [N|N]; [injection N as <- <-; try reflexivity; exfalso; apply Wc; cbn; tauto|]). destruct N.
            - destruct N as [[_ ->]|[_ ->]]; reflexivity. }
          rewrite K in Ix. cbn [app] in Ix. apply in_app_or in Ix as [Ix|Ix].
          { apply debugs_from in Ix as (m & t & I & ->). exists k, p0, m, t. split; [apply in_or_app; now left|reflexivity]. }
          apply in_app_or in Ix as [Ix|Ix].
          { exfalso. rewrite <- (two_lines_kept show_q _ l k P) in Ix. apply filter_In in Ix as [_ Ix]. now rewrite Dx in Ix. }
          apply in_app_or in Ix as [Ix|Ix]; [|now apply E3'].
          apply debugs_from in Ix as (m & t & I & ->). exists k, p2, m, t. split; [apply in_or_app; now right|reflexivity].
        * intros v l1 m t D V0 V1 [->|Il] M.
          -- destruct M as [M|M].
             ++ apply in_or_app. left. apply (debugs_on _ _ _ _ v); auto.
             ++ do 3 (apply in_or_app; right). apply in_or_app. left. apply (debugs_on _ _ _ _ v); auto.
          -- do 4 (apply in_or_app; right). now apply (E4 v l1).
  Qed.
End Log.
