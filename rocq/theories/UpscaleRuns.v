(* UpscaleRuns.v -- an upscale component changes nothing but the statistics. *)
From Coq Require Import String Ascii List Arith ZArith Bool Lia.
From Verif Require Import Base UtilsModel RunMonad ArrayListModel TreeModel FastModel ArgModel IoModel GaussModel IndModel TwistModel PipeModel WindowModel MainModel AllModel.
From Verif Require Import SpecIo SpecArgs SpecPipe SpecMain SpecAll.
From Verif Require Import ArgProofs MainRuns OwnRuns.
Import ListNotations.
Local Open Scope nat_scope.
Local Open Scope list_scope.

Lemma value_total argv l : is_long l -> exists v, value argv l v.
Proof.
  intros (s & d & I). assert (S1 := last_val_spec argv s). assert (S2 := last_val_spec argv l).
  destruct (last_val argv s) as [v|]; [exists v, s, d; split; [exact I|left; exact S1]|].
  destruct (last_val argv l) as [v|]; [exists v, s, d; split; [exact I|right; left; split; [exact S1|exact S2]]|].
  exists d, s, d. split; [exact I|]. right. right. auto.
Qed.

(* The packet with other statistics. *)
Definition ws (p : packet) (s : list (pipe_kind * Z * Z)) : packet :=
  mkPacket (pk_data p) (pk_labels p) (pk_full p) (pk_weights p) (pk_complex p) (pk_output p) (pk_table p) s.
Definition windows : list string := ["sliding"; "slidingwindow"; "naive"; "naivewindow"]%string.
Definition is_window (k : pipe_kind) : Prop := k = KNaiveWindow \/ k = KSlidingWindow.

Lemma fold_ws {B} (f : packet -> B -> res packet) s :
  (forall p b, f (ws p s) b = rmap (fun q => ws q s) (f p b)) ->
  forall l p, foldr_ub f (ws p s) l = rmap (fun q => ws q s) (foldr_ub f p l).
Proof.
  intros H. induction l as [|b l IH]; intros p; [reflexivity|]. cbn [foldr_ub]. rewrite H. destruct (f p b) as [q|]; cbn [rmap bind]; auto.
Qed.
Lemma fold_stats {B} (f : packet -> B -> res packet) :
  (forall p b q, f p b = Ok q -> pk_stats q = pk_stats p) -> forall l p q, foldr_ub f p l = Ok q -> pk_stats q = pk_stats p.
Proof.
  intros H. induction l as [|b l IH]; intros p q E; [now injection E as <-|]. cbn [foldr_ub] in E.
  destruct (f p b) as [q1|] eqn:F; [|discriminate]. cbn [bind] in E. rewrite (IH _ _ E). eauto.
Qed.

Section Up.
  Variable dist : list Z -> list Z -> Z.
  Variables atoi atof : string -> Z.
  Variable srt : list wsimp -> list wsimp.
  Variable past_end : list nat -> nat -> res nat.
  Variable nc0 : Z.
  Variable al_reduce : wgraph -> res wgraph.
  Variable one : Z.
  Variable stod : text -> option Z.
  Variable file : string -> option text.
  Variable pre_run : pre_kind -> amap -> packet -> res packet.
  Variable pre_stats : pre_kind -> packet -> res packet.
  Variable uaf : res unit.
  Notation pipes := (all_pipes dist atoi atof srt past_end al_reduce one stod file UB).
  Notation run := (run_pipe dist atoi atof srt past_end al_reduce pipes).
  Notation program := (lhf_all dist atoi atof srt past_end nc0 al_reduce one stod file UB pre_run pre_stats uaf).

  Section Args.
    Variables args args' : amap.
    Hypothesis Same : forall k, is_long k -> k <> "pipeline"%string -> mget args' k = mget args k.
    Lemma same_opt k : is_long k -> k <> "pipeline"%string -> opt args' k = opt args k.
    Proof. intros H N. unfold opt. now rewrite Same. Qed.
    Lemma same_get k : In k ["epsilon"; "dimensions"; "collapse"; "twist"; "complexType"]%string -> mget args' k = mget args k.
    Proof.
      intros H. apply Same; [|intros ->; cbn in H; intuition discriminate].
      assert (C : existsb (fun o => String.eqb (fst (fst o)) k) options = true) by (cbn in H; intuition (subst; reflexivity)).
      apply existsb_exists in C. destruct C as ([[l s] d] & I & E). apply String.eqb_eq in E. cbn in E. subst. exists s, d. exact I.
    Qed.
    Ltac args_same := rewrite ?(same_get "epsilon"), ?(same_get "dimensions"), ?(same_get "collapse"), ?(same_get "twist"), ?(same_get "complexType") by (cbn; tauto).

    (* A pipe that is no window does not look at the statistics nor at the name of the pipeline. *)
    Lemma run_ws k p s : ~ is_window k -> run k args' (ws p s) = rmap (fun q => ws q s) (run k args p).
    Proof.
      intros Nw. destruct k; cbn [run_pipe all_pipes]; try reflexivity; try (exfalso; apply Nw; unfold is_window; auto; fail).
      - unfold run_distMatrix, opt, deref. args_same. cbn [ws pk_data pk_weights pk_complex].
        match goal with |- context [distMatrix_run ?a ?b ?c ?d ?e ?f] => destruct (distMatrix_run a b c d e f) as [mw|]; [|reflexivity] end. cbn [bind].
        destruct (pk_complex p); reflexivity.
      - unfold run_neighGraph. cbn [ws pk_data]. apply fold_ws. intros q [|z v]; [reflexivity|]. unfold deref. cbn [ws pk_complex].
        destruct (pk_complex q) as [c|]; [|reflexivity]. cbn [bind]. destruct (cx_insert (z :: v) c); reflexivity.
      - unfold run_rips, opt, deref. args_same. destruct (mget args "dimensions") as [d|]; [|reflexivity]. cbn [ws pk_complex].
        destruct (pk_complex p) as [c|]; [|reflexivity]. cbn [bind]. destruct (cx_expand (atoi d) c) as [c1|]; [|reflexivity]. cbn [bind].
        match goal with |- bind ?x _ = _ => destruct x as [c2|]; reflexivity end.
      - unfold run_boundary, opt. args_same. cbn [ws pk_weights].
        rewrite (fold_ws (fun p0 w => do c <- deref p0; Ok (set_complex p0 (snd (cx_getAllEdges srt w c)))) s).
        + destruct (foldr_ub _ p (pk_weights p)) as [q|]; [|reflexivity]. cbn [rmap bind]. destruct (bd_run _ _); reflexivity.
        + intros q w. unfold deref. cbn [ws pk_complex]. destruct (pk_complex q); reflexivity.
      - unfold run_pairs, opt, deref. args_same. cbn [ws pk_complex]. destruct (pk_complex p) as [c|]; [|reflexivity]. cbn [bind].
        destruct (cx_getAllEdges srt _ c) as [edges c2]. destruct (pp_run _ _ edges); reflexivity.
      - unfold run_opt, opt, deref. args_same. cbn [ws pk_complex]. destruct (pk_complex p) as [c|]; [|reflexivity]. cbn [bind].
        destruct c as [e d dm wg|e d t|e d t].
        1, 2: destruct (String.eqb _ "true"); [destruct (opt_twist_other _ _) as [[l|]|]; reflexivity|];
          match goal with |- context [cx_getAllEdges srt ?w ?c] => destruct (cx_getAllEdges srt w c) as [edges c2] end;
          destruct (opt_run _ _ edges); reflexivity.
        destruct (opt_ind_run _ _ _ srt t) as [[l|]|]; reflexivity.
      - unfold run_fast, opt, deref. args_same. cbn [ws pk_complex pk_table]. destruct (pk_complex p) as [c|]; [|reflexivity]. cbn [bind].
        match goal with |- bind ?x _ = _ => destruct x as [c1|]; [|reflexivity] end. cbn [bind].
        destruct (cx_getAllEdges srt _ c1) as [edges c2]. destruct (fp_run _ _ _ edges (pk_table p)) as [[[lines tab]|]|]; reflexivity.
    Qed.
    Lemma run_stats k p q : ~ is_window k -> run k args p = Ok q -> pk_stats q = pk_stats p.
    Proof.
      intros Nw. destruct k; cbn [run_pipe all_pipes]; try (intros [= <-]; reflexivity); try discriminate; try (exfalso; apply Nw; unfold is_window; auto; fail).
      - unfold run_distMatrix, deref. match goal with |- context [distMatrix_run ?a ?b ?c ?d ?e ?f] => destruct (distMatrix_run a b c d e f) as [mw|]; [|discriminate] end. cbn [bind].
        destruct (pk_complex p); [|discriminate]. intros [= <-]. reflexivity.
      - unfold run_neighGraph. apply fold_stats. intros p1 [|z v] q1; [intros [= <-]; reflexivity|]. unfold deref.
        destruct (pk_complex p1) as [c|]; [|discriminate]. cbn [bind]. destruct (cx_insert (z :: v) c); [|discriminate]. intros [= <-]. reflexivity.
      - unfold run_rips, deref. destruct (mget args "dimensions") as [d|]; [|discriminate].
        destruct (pk_complex p) as [c|]; [|discriminate]. cbn [bind]. destruct (cx_expand (atoi d) c) as [c1|]; [|discriminate]. cbn [bind].
        match goal with |- bind ?x _ = _ -> _ => destruct x as [c2|]; [|discriminate] end. intros [= <-]. reflexivity.
      - unfold run_boundary. destruct (foldr_ub _ p (pk_weights p)) as [q1|] eqn:F; [|discriminate]. cbn [bind]. destruct (bd_run _ _); [|discriminate].
        intros [= <-]. cbn. revert F. apply fold_stats. intros p1 w q2. unfold deref. destruct (pk_complex p1); [|discriminate]. intros [= <-]. reflexivity.
      - unfold run_pairs, deref. destruct (pk_complex p) as [c|]; [|discriminate]. cbn [bind].
        destruct (cx_getAllEdges srt _ c) as [edges c2]. destruct (pp_run _ _ edges); [|discriminate]. intros [= <-]. reflexivity.
      - unfold run_opt, deref. destruct (pk_complex p) as [c|]; [|discriminate]. cbn [bind].
        destruct c as [e d dm wg|e d t|e d t].
        1, 2: destruct (String.eqb _ "true"); [destruct (opt_twist_other _ _) as [[l|]|]; try discriminate; intros [= <-]; reflexivity|];
          match goal with |- context [cx_getAllEdges srt ?w ?c] => destruct (cx_getAllEdges srt w c) as [edges c2] end;
          destruct (opt_run _ _ edges); [|discriminate]; intros [= <-]; reflexivity.
        destruct (opt_ind_run _ _ _ srt t) as [[l|]|]; try discriminate; intros [= <-]; reflexivity.
      - unfold run_fast, deref. destruct (pk_complex p) as [c|]; [|discriminate]. cbn [bind].
        match goal with |- bind ?x _ = _ -> _ => destruct x as [c1|]; [|discriminate] end. cbn [bind].
        destruct (cx_getAllEdges srt _ c1) as [edges c2]. destruct (fp_run _ _ _ edges (pk_table p)) as [[[lines tab]|]|]; try discriminate; intros [= <-]; reflexivity.
    Qed.
    Lemma add_stats_ws k p s : match add_stats k p with
                               | UB => add_stats k (ws p s) = UB
                               | Ok q => exists x, pk_stats q = pk_stats p ++ [x] /\ pk_complex q <> None /\ add_stats k (ws p s) = Ok (ws q (s ++ [x]))
                               end.
    Proof.
      unfold add_stats, deref. cbn [ws pk_complex]. destruct (pk_complex p) as [c|]; [|reflexivity]. cbn [bind].
      eexists. split; [reflexivity|]. split; [cbn; discriminate|reflexivity].
    Qed.

    Lemma not_window c ct k : ~ In c windows -> newPipe c ct = Some k -> ~ is_window k.
    Proof.
      intros N K W. apply N. unfold newPipe in K.
      repeat match type of K with context [if ?b then _ else _] => destruct b eqn:? in K; [try (injection K as <-; destruct W; discriminate)|] end; try discriminate;
      match goal with H : (_ || _)%bool = true |- _ => apply orb_prop in H; destruct H as [H|H]; apply String.eqb_eq in H; subst; cbn; auto end.
    Qed.
    Lemma same_type : fst (mread args' "complexType") = fst (mread args "complexType").
    Proof. unfold mread. rewrite (same_get "complexType") by (cbn; tauto). destruct (mget args "complexType"); reflexivity. Qed.

    Notation steps := (steps packet run add_stats).
    Notation step := (step packet run add_stats).
    Lemma required_same k o : In o (pipe_required k) -> mget args' o = mget args o.
    Proof. intros H. apply same_get. destruct k; cbn in H |- *; intuition (subst; auto). Qed.

    Lemma step_same c p r b s : ~ In c windows -> pk_complex p <> None -> step args c p r b ->
      match r with
      | UB => step args' c (ws p s) UB b
      | Ok q => exists t, pk_stats q = pk_stats p ++ t /\ pk_complex q <> None /\ step args' c (ws p s) (Ok (ws q (s ++ t))) b
      end.
    Proof.
      intros Nw Np [N1 N2|k K (o & Io & No)|k K R].
      - exists []. rewrite !app_nil_r. split; auto. split; auto. apply step_unknown; auto. intros E ct k. rewrite (same_get "complexType") by (cbn; tauto). auto.
      - exists []. rewrite !app_nil_r. split; auto. split; auto. apply step_unconfigured with k; [now rewrite same_type|]. exists o. split; auto. now rewrite (required_same k).
      - assert (Nk := not_window _ _ _ Nw K).
        assert (G : step args' c (ws p s) (do p1 <- run k args' (ws p s); add_stats k p1) false).
        { apply step_runs; [now rewrite same_type|]. intros o Io. rewrite (required_same k o Io). auto. }
        rewrite run_ws in G by exact Nk. destruct (run k args p) as [p1|] eqn:E; [|exact G]. cbn [rmap bind] in *.
        assert (A := add_stats_ws k p1 s). destruct (add_stats k p1) as [q|]; [|now rewrite A in G].
        destruct A as (x & A1 & A2 & A3). exists [x]. rewrite A3 in G. rewrite A1, (run_stats k p p1 Nk E). auto.
    Qed.

    Lemma steps_same parts : (forall w, In w parts -> ~ In w windows) -> forall p r s, pk_complex p <> None -> steps args parts p r ->
      match r with
      | UB => steps args' parts (ws p s) UB
      | Ok (q, failed) => exists t, pk_stats q = pk_stats p ++ t /\ steps args' parts (ws p s) (Ok (ws q (s ++ t), failed))
      end.
    Proof.
      induction parts as [|c cs IH]; intros Nw p r s Np H; inversion H as [|? ? ? b S|? ? ? p1 b r1 S T]; subst.
      - exists []. rewrite !app_nil_r. split; auto. constructor.
      - assert (G := step_same c p UB b s (Nw c (or_introl eq_refl)) Np S). cbn in G. eapply steps_ub. exact G.
      - destruct (step_same c p (Ok p1) b s (Nw c (or_introl eq_refl)) Np S) as (t & T1 & T2 & T3).
        assert (G := IH (fun w Hw => Nw w (or_intror Hw)) p1 r1 (s ++ t) T2 T).
        destruct r1 as [[q failed]|]; cbn [rmap].
        + destruct G as (t' & U1 & U2). exists (t ++ t'). split; [rewrite U1, T1; now rewrite app_assoc|].
          assert (V := steps_cons packet run add_stats args' c cs _ _ b _ T3 U2). cbn [rmap] in V. now rewrite <- app_assoc in V.
        + exact (steps_cons packet run add_stats args' c cs _ _ b _ T3 G).
    Qed.

    (* An upscale component between A and B. *)
    Lemma steps_upscale B : (forall w, In w B -> ~ In w windows) -> forall A, (forall w, In w A -> ~ In w windows) ->
      forall p r s, pk_complex p <> None -> steps args (A ++ B) p r ->
      match r with
      | UB => steps args' (A ++ "upscale"%string :: B) (ws p s) UB
      | Ok (q, failed) => exists t1 x t2, pk_stats q = pk_stats p ++ t1 ++ t2 /\ fst (fst x) = KUpscale /\
          steps args' (A ++ "upscale"%string :: B) (ws p s) (Ok (ws q (s ++ t1 ++ x :: t2), failed))
      end.
    Proof.
      intros NB. induction A as [|c cs IH]; intros NA p r s Np H.
      - cbn [app] in *. destruct (pk_complex p) as [cx0|] eqn:Ec; [|congruence].
        set (x := (KUpscale, cx_vertexCount cx0, cx_simplexCount cx0)).
        assert (S : step args' "upscale" (ws p s) (Ok (ws p (s ++ [x]))) false).
        { replace (Ok (ws p (s ++ [x]))) with (do p1 <- run KUpscale args' (ws p s); add_stats KUpscale p1).
          - apply step_runs; [reflexivity|]. intros o [].
          - cbn [run_pipe all_pipes bind]. unfold add_stats, deref. cbn [ws pk_complex]. rewrite Ec. cbn [bind]. unfold ws. cbn [pk_data pk_labels pk_full pk_weights pk_complex pk_output pk_table pk_stats]. rewrite Ec. reflexivity. }
        assert (G := steps_same B NB p r (s ++ [x]) ltac:(rewrite Ec; discriminate) H).
        destruct r as [[q failed]|].
        + destruct G as (t & T1 & T2). exists [], x, t. split; [exact T1|]. split; [reflexivity|].
          assert (V := steps_cons packet run add_stats args' "upscale" B _ _ false _ S T2). cbn [rmap] in V. now rewrite <- app_assoc in V.
        + exact (steps_cons packet run add_stats args' "upscale" B _ _ false _ S G).
      - cbn [app] in *. inversion H as [|? ? ? b S|? ? ? p1 b r1 S T]; subst.
        + assert (G := step_same c p UB b s (NA c (or_introl eq_refl)) Np S). cbn in G. eapply steps_ub. exact G.
        + destruct (step_same c p (Ok p1) b s (NA c (or_introl eq_refl)) Np S) as (t & T1 & T2 & T3).
          assert (G := IH (fun w Hw => NA w (or_intror Hw)) p1 r1 (s ++ t) T2 T).
          destruct r1 as [[q failed]|]; cbn [rmap].
          * destruct G as (t1 & x & t2 & U1 & U2 & U3). exists (t ++ t1), x, t2. split; [rewrite U1, T1; now rewrite !app_assoc|]. split; [exact U2|].
            assert (V := steps_cons packet run add_stats args' c _ _ _ b _ T3 U3). cbn [rmap] in V. rewrite <- !app_assoc in V. rewrite <- app_assoc. exact V.
          * exact (steps_cons packet run add_stats args' c _ _ _ b _ T3 G).
    Qed.
  End Args.

  Theorem upscale_component argv argv' P P' A B ct d e f o data :
    own_line argv P ct d e f o -> In ct ["simplexTree"; "simplexArrayList"; "indSimplexTree"]%string ->
    complete_line argv' -> value argv' "pipeline" P' -> (forall k v, k <> "pipeline"%string -> value argv k v -> value argv' k v) ->
    components_of P (A ++ B) -> components_of P' (A ++ "upscale"%string :: B) -> (forall w, In w (A ++ B) -> ~ In w windows) ->
    holds_points stod file f data -> data <> [] ->
    match program argv with
    | UB => program argv' = UB
    | Ok (Ran q files) => exists q' before x after, program argv' = Ok (Ran q' files) /\
        pk_data q' = pk_data q /\ pk_labels q' = pk_labels q /\ pk_complex q' = pk_complex q /\ pk_output q' = pk_output q /\ pk_table q' = pk_table q /\
        pk_stats q = before ++ after /\ pk_stats q' = before ++ x :: after /\ fst (fst x) = KUpscale
    | Ok _ => False
    end.
  Proof.
    intros Hl Hct Hc' HP' Hs HA HB Nw Hf Hne.
    assert (Hl' : own_line argv' P' ct d e f o).
    { destruct Hl as [_ _ _ (m & M1 & M2) (a & A1 & A2) (u & U1 & U2) H7 (z & Z1 & Z2) H9 H10 H11 H12 H13].
      constructor; auto; try (apply Hs; [discriminate|assumption]).
      - destruct HB as (_ & _ & E). intros EP. rewrite EP in E. destruct A as [|a0 A0]; cbn in E; [destruct B; discriminate E|].
        destruct A0, a0; discriminate E.
      - exists m. split; auto. apply Hs; [discriminate|assumption].
      - exists a. split; auto. apply Hs; [discriminate|assumption].
      - exists u. split; auto. apply Hs; [discriminate|assumption].
      - exists z. split; auto. apply Hs; [discriminate|assumption]. }
    assert (Ns : P <> "slidingwindow"%string).
    { intros ->. assert (E : A ++ B = ["slidingwindow"%string]).
      { eapply components_unique; [exact HA|]. split; [discriminate|]. split; [repeat constructor; discriminate|reflexivity]. }
      apply (Nw "slidingwindow"%string); [rewrite E; left; reflexivity|cbn; auto]. }
    assert (Ns' : P' <> "slidingwindow"%string).
    { intros ->. assert (E : A ++ "upscale"%string :: B = ["slidingwindow"%string]).
      { eapply components_unique; [exact HB|]. split; [discriminate|]. split; [repeat constructor; discriminate|reflexivity]. }
      destruct A as [|a0 A0]; [discriminate|]. destruct A0; discriminate. }
    destruct (own_run dist atoi atof srt past_end nc0 al_reduce one stod file UB pre_run pre_stats uaf _ _ _ _ _ _ _ _ Hl Ns Hf Hne) as (args & V & HO & ->).
    destruct (own_run dist atoi atof srt past_end nc0 al_reduce one stod file UB pre_run pre_stats uaf _ _ _ _ _ _ _ _ Hl' Ns' Hf Hne) as (args' & V' & HO' & ->).
    assert (Same : forall k, is_long k -> k <> "pipeline"%string -> mget args' k = mget args k).
    { intros k Lk Nk. destruct (value_total argv k Lk) as (v & Hv). rewrite (V _ _ Hv). apply V'. auto. }
    assert (Np : exists c0, new_packet atoi atof nc0 args data = Ok (mkPacket data [] data [] (Some c0) [] [] []) /\
                            new_packet atoi atof nc0 args' data = Ok (mkPacket data [] data [] (Some c0) [] [] [])).
    { unfold new_packet, newSimplex, opt. rewrite !(same_get args args' Same) by (cbn; tauto).
      rewrite (V _ _ (ol_complex _ _ _ _ _ _ _ Hl)), (V _ _ (ol_dim _ _ _ _ _ _ _ Hl)), (V _ _ (ol_eps _ _ _ _ _ _ _ Hl)).
      destruct Hct as [<-|[<-|[<-|[]]]]; eexists; split; reflexivity. }
    destruct Np as (c0 & -> & ->). cbn [bind]. set (p0 := mkPacket data [] data [] (Some c0) [] [] []).
    destruct (pipeline_steps packet run add_stats args P (A ++ B) p0 HA (V _ _ (ol_pipe _ _ _ _ _ _ _ Hl))) as (r & St & ->).
    destruct (pipeline_steps packet run add_stats args' P' (A ++ "upscale"%string :: B) p0 HB (V' _ _ HP')) as (r' & St' & ->).
    assert (G := steps_upscale args args' Same B (fun w Hw => Nw w (in_or_app _ _ _ (or_intror Hw))) A (fun w Hw => Nw w (in_or_app _ _ _ (or_introl Hw))) p0 r [] ltac:(discriminate) St).
    change (ws p0 []) with p0 in G.
    destruct r as [[q failed]|]; cbn [rmap bind].
    - destruct G as (t1 & x & t2 & G1 & G2 & G3). rewrite (steps_fun packet run add_stats args' _ _ _ _ St' G3). cbn [rmap bind].
      exists (ws q (t1 ++ x :: t2)), t1, x, t2. cbn in G1 |- *. repeat (split; [reflexivity|]). split; [exact G1|]. split; [reflexivity|exact G2].
    - rewrite (steps_fun packet run add_stats args' _ _ _ _ St' G). reflexivity.
  Qed.
End Up.
