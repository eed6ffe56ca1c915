(* ArgProofs.v -- lemmas about the argument parser, the factories and the driver. *)
From Coq Require Import List Arith Bool String Ascii Lia.
From Verif Require Import Base ArgModel SpecArgs.
Import ListNotations.
Open Scope string_scope.

(* ---- maps *)
Lemma eqb_neq k k' : k <> k' -> String.eqb k k' = false.
Proof. apply String.eqb_neq. Qed.
Lemma merase_cons a v m k : merase ((a, v) :: m) k = if String.eqb k a then merase m k else (a, v) :: merase m k.
Proof. unfold merase. cbn. now destruct (String.eqb k a). Qed.
Lemma mget_erase m k k' : mget (merase m k) k' = if String.eqb k' k then None else mget m k'.
Proof.
  induction m as [|[a v] m IH]; [cbn; now destruct (String.eqb k' k)|]. rewrite merase_cons.
  destruct (String.eqb_spec k a) as [->|N]; cbn [mget].
  - rewrite IH. destruct (String.eqb_spec k' a); auto.
  - rewrite IH. destruct (String.eqb_spec k' a) as [->|N']; auto.
    now rewrite (eqb_neq a k) by congruence.
Qed.
Lemma mget_set m k v k' : mget (mset m k v) k' = if String.eqb k' k then Some v else mget m k'.
Proof. unfold mset. cbn [mget]. destruct (String.eqb k' k) eqn:E; auto. now rewrite mget_erase, E. Qed.

(* ---- parse *)
Fixpoint last_val (argv : list string) (k : string) : option string :=
  match argv with
  | f :: v :: rest =>
      match last_val rest k with
      | Some w => Some w
      | None => if String.eqb (substring 0 2 f) "--"
                then (if String.eqb k (substring 2 (length f - 2) f) then Some v else None)
                else if String.eqb (substring 0 1 f) "-"
                then (if String.eqb k (substring 1 (length f - 1) f) then Some v else None)
                else None
      end
  | _ => None
  end.

Lemma pair_ind (P : list string -> Prop) :
  P [] -> (forall f, P [f]) -> (forall f v r, P r -> P (f :: v :: r)) -> forall l, P l.
Proof.
  intros H0 H1 H2 l. assert (H : forall n l, List.length l <= n -> P l).
  { induction n as [|n IH]; intros l'; destruct l' as [|f [|v r]]; cbn; auto; try lia. intros L. apply H2, IH. lia. }
  now apply (H (List.length l)).
Qed.

Lemma substring_all s : substring 0 (length s) s = s.
Proof. induction s; cbn; congruence. Qed.
Lemma substring_short n s : length s <= n -> substring 0 n s = s.
Proof. revert n. induction s as [|c s IH]; intros [|n] L; cbn in *; auto; try lia. now rewrite IH by lia. Qed.

(* Classification of a word. *)
Lemma flag_dashes f k : flag f k <->
  (if String.eqb (substring 0 2 f) "--" then k = substring 2 (length f - 2) f
   else String.eqb (substring 0 1 f) "-" = true /\ k = substring 1 (length f - 1) f).
Proof.
  unfold flag. destruct f as [|a [|b f]].
  - cbn. split; [|intros []; discriminate]. intros [H|[H _]]; discriminate.
  - cbn [substring length Nat.sub]. rewrite (eqb_neq (String a "") "--") by discriminate.
    split.
    + intros [H|[H N]]; [discriminate|]. cbn in H. injection H as -> <-. split; reflexivity.
    + intros [H ->]. apply String.eqb_eq in H. injection H as ->. right. split; auto. intros r; discriminate.
  - cbn [substring length Nat.sub]. rewrite substring_all.
    replace (substring 0 0 f) with "" by (now destruct f).
    destruct (String.eqb_spec (String a (String b "")) "--") as [E|N].
    + injection E as -> ->. cbn. rewrite ?Nat.sub_0_r, ?substring_all. split.
      * intros [H|[H N]]; [injection H as ->; auto|]. injection H as <-. now destruct (N f).
      * intros ->. now left.
    + split.
      * intros [H|[H N']]; cbn in H.
        { injection H as -> -> ->. now destruct N. }
        injection H as -> <-. split; auto.
      * intros [H ->]. apply String.eqb_eq in H. injection H as ->. right. split; auto.
        intros r Hr. cbn in Hr. injection Hr as -> ->. now apply N.
Qed.

Lemma flag_dec f : (exists k, flag f k) \/ (forall k, ~ flag f k).
Proof.
  destruct (String.eqb (substring 0 2 f) "--") eqn:E.
  - left. eexists. apply flag_dashes. rewrite E. reflexivity.
  - destruct (String.eqb (substring 0 1 f) "-") eqn:E'.
    + left. eexists. apply flag_dashes. rewrite E. split; [auto|reflexivity].
    + right. intros k H. apply flag_dashes in H. rewrite E in H. destruct H. congruence.
Qed.

Lemma parse_loop_val argv : forall m m', parse_loop m argv = Ok m' ->
  forall k, mget m' k = match last_val argv k with Some v => Some v | None => mget m k end.
Proof.
  induction argv as [|f|f v r IH] using pair_ind; intros m m' H k; cbn -[substring] in H.
  - injection H as <-. reflexivity.
  - destruct (String.eqb (substring 0 2 f) "--"); [discriminate|].
    destruct (String.eqb (substring 0 1 f) "-"); [discriminate|]. injection H as <-. reflexivity.
  - cbn -[substring].
    destruct (String.eqb (substring 0 2 f) "--") eqn:E2; [|destruct (String.eqb (substring 0 1 f) "-") eqn:E1];
      cbn [bind] in H; rewrite (IH _ _ H k); destruct (last_val r k); auto; rewrite mget_set; destruct (String.eqb k _); reflexivity.
Qed.

Lemma given_cons f v r i k w : given (f :: v :: r) (S i) k w <-> given r i k w.
Proof.
  unfold given. replace (2 * S i) with (S (S (2 * i))) by lia. replace (S (S (2 * i)) + 1) with (S (S (2 * i + 1))) by lia.
  reflexivity.
Qed.

Lemma last_val_spec argv k :
  match last_val argv k with Some v => last_given argv k v | None => never_given argv k end.
Proof.
  induction argv as [|f|f v r IH] using pair_ind.
  - intros i v (g & H & _). now destruct i.
  - intros i v (g & _ & H & _). destruct i; [discriminate|]. replace (2 * S i + 1) with (S (S (2 * i + 1))) in H by lia. discriminate.
  - assert (G0 : forall w, given (f :: v :: r) 0 k w <-> (flag f k /\ w = v)).
    { intros w. unfold given. cbn. split.
      - intros (g & E & E' & F). injection E as <-. injection E' as <-. auto.
      - intros [F ->]. exists f. auto. }
    cbn -[substring]. destruct (last_val r k) as [w|].
    + destruct IH as (i & G & M). exists (S i). split; [now apply given_cons|].
      intros [|j] w' G'; [lia|]. apply (proj1 (given_cons _ _ _ _ _ _)), M in G'. lia.
    + assert (D : (flag f k /\ (if String.eqb (substring 0 2 f) "--"
        then if String.eqb k (substring 2 (length f - 2) f) then Some v else None
        else if String.eqb (substring 0 1 f) "-"
             then if String.eqb k (substring 1 (length f - 1) f) then Some v else None
             else None) = Some v) \/ (~ flag f k /\ (if String.eqb (substring 0 2 f) "--"
        then if String.eqb k (substring 2 (length f - 2) f) then Some v else None
        else if String.eqb (substring 0 1 f) "-"
             then if String.eqb k (substring 1 (length f - 1) f) then Some v else None
             else None) = None)).
      { rewrite flag_dashes. destruct (String.eqb (substring 0 2 f) "--"); [|destruct (String.eqb (substring 0 1 f) "-")].
        - destruct (String.eqb_spec k (substring 2 (length f - 2) f)); auto.
        - destruct (String.eqb_spec k (substring 1 (length f - 1) f)); auto. right. split; auto. intros []; auto.
        - right. split; auto. intros []; discriminate. }
      destruct D as [[F ->]|[F ->]].
      * exists 0. split; [now apply G0|]. intros [|j] w' G'; [lia|]. exact (False_ind _ (IH _ _ (proj1 (given_cons _ _ _ _ _ _) G'))).
      * intros [|i] w' G'; [now apply G0 in G'|]. exact (False_ind _ (IH _ _ (proj1 (given_cons _ _ _ _ _ _) G'))).
Qed.

Lemma last_given_fun argv k v w : last_given argv k v -> last_given argv k w -> v = w.
Proof.
  intros (i & (f & F1 & F2 & F3) & M) (j & (g & G1 & G2 & G3) & M').
  assert (i = j).
  { apply Nat.le_antisymm; [apply (M' i v)|apply (M j w)]; [exists f|exists g]; auto. }
  subst j. congruence.
Qed.
Lemma last_given_val argv k v : last_given argv k v -> last_val argv k = Some v.
Proof.
  intros H. assert (S := last_val_spec argv k). destruct (last_val argv k) as [w|].
  - f_equal. eapply last_given_fun; eauto.
  - destruct H as (i & G & _). exact (False_ind _ (S _ _ G)).
Qed.
Lemma never_given_val argv k : never_given argv k -> last_val argv k = None.
Proof.
  intros H. assert (S := last_val_spec argv k). destruct (last_val argv k) as [w|]; auto.
  destruct S as (i & G & _). exact (False_ind _ (H _ _ G)).
Qed.

Lemma parse_ub argv : parse argv = UB <->
  Nat.Odd (List.length argv) /\ exists f k, nth_error argv (List.length argv - 1) = Some f /\ flag f k.
Proof.
  assert (R : forall m, parse_loop m argv = UB <->
    Nat.Odd (List.length argv) /\ exists f k, nth_error argv (List.length argv - 1) = Some f /\ flag f k).
  { induction argv as [|f|f v r IH] using pair_ind; intros m.
    - cbn. split; [discriminate|]. intros [[k H] _]. lia.
    - cbn -[substring]. split.
      + intros H. split; [exists 0; lia|]. destruct (flag_dec f) as [[k F]|F]; [exists f, k; auto|].
        exfalso. destruct (String.eqb (substring 0 2 f) "--") eqn:E2.
        { apply (F (substring 2 (length f - 2) f)), flag_dashes. now rewrite E2. }
        destruct (String.eqb (substring 0 1 f) "-") eqn:E1; [|discriminate].
        apply (F (substring 1 (length f - 1) f)), flag_dashes. rewrite E2. auto.
      + intros (_ & g & k & E & F). injection E as <-. apply flag_dashes in F.
        destruct (String.eqb (substring 0 2 f) "--"); [reflexivity|]. destruct F as [-> _]. reflexivity.
    - assert (L : (Nat.Odd (List.length (f :: v :: r)) /\ exists g k, nth_error (f :: v :: r) (List.length (f :: v :: r) - 1) = Some g /\ flag g k) <->
        (Nat.Odd (List.length r) /\ exists g k, nth_error r (List.length r - 1) = Some g /\ flag g k)).
      { cbn [List.length]. rewrite Nat.Odd_succ, Nat.Even_succ. split; intros [O (g & k & E & F)]; (split; [exact O|]); exists g, k; (split; [|exact F]).
        - destruct r; [now destruct O; cbn in *; lia|]. cbn in *. rewrite Nat.sub_0_r in *. exact E.
        - destruct r; [now destruct O; cbn in *; lia|]. cbn in *. rewrite Nat.sub_0_r in *. exact E. }
      rewrite L. cbn -[substring].
      destruct (String.eqb (substring 0 2 f) "--"); [|destruct (String.eqb (substring 0 1 f) "-")]; cbn [bind]; apply IH. }
  unfold parse, rmap. destruct (parse_loop [] argv) eqn:E; cbn [bind].
  - split; [discriminate|]. intros H. apply (R []) in H. congruence.
  - split; auto. intros _. now apply (R []).
Qed.

(* ---- defaults *)
Definition dstep (m : amap) (e : string * string) : amap :=
  let '(long, short) := e in
  match mget m short with
  | Some v => merase (mset m long v) short
  | None => match mget m long with
            | Some _ => m
            | None => mset m long (fst (mread defaultMap long))
            end
  end.
Lemma dstep_other m l s k : k <> l -> k <> s -> mget (dstep m (l, s)) k = mget m k.
Proof.
  intros Nl Ns. unfold dstep. destruct (mget m s); [|destruct (mget m l)]; auto; rewrite ?mget_erase, ?mget_set.
  - now rewrite (eqb_neq k s), (eqb_neq k l).
  - now rewrite (eqb_neq k l).
Qed.
Lemma dstep_long m l s : l <> s -> mget (dstep m (l, s)) l =
  match mget m s with Some v => Some v | None => match mget m l with Some v => Some v | None => Some (fst (mread defaultMap l)) end end.
Proof.
  intros N. unfold dstep. destruct (mget m s); [|destruct (mget m l) eqn:E]; auto; rewrite ?mget_erase, ?mget_set, ?String.eqb_refl; auto.
  now rewrite (eqb_neq l s).
Qed.
Lemma dstep_short m l s : l <> s -> mget (dstep m (l, s)) s = None.
Proof.
  intros N. unfold dstep. destruct (mget m s) eqn:E; [|destruct (mget m l)]; auto; rewrite ?mget_erase, ?mget_set, ?String.eqb_refl; auto.
  rewrite (eqb_neq s l); congruence.
Qed.

Lemma dfold L : forall m, NoDup (map fst L ++ map snd L) ->
  (forall k, ~ In k (map fst L) -> ~ In k (map snd L) -> mget (fold_left dstep L m) k = mget m k) /\
  (forall l s, In (l, s) L -> mget (fold_left dstep L m) s = None /\ mget (fold_left dstep L m) l =
     match mget m s with Some v => Some v | None => match mget m l with Some v => Some v | None => Some (fst (mread defaultMap l)) end end).
Proof.
  induction L as [|[l s] L IH]; intros m N; [split; [auto|intros ? ? []]|].
  cbn [map fst snd] in N. cbn [app] in N. inversion N as [|? ? N1 N2]; subst.
  apply NoDup_remove in N2 as [N2 N3].
  assert (Nls : l <> s). { intros ->. apply N1, in_app_iff. right. now left. }
  destruct (IH (dstep m (l, s)) N2) as [I1 I2]. cbn [fold_left map fst snd].
  assert (Nl : ~ In l (map fst L) /\ ~ In l (map snd L)).
  { split; intros H; apply N1, in_app_iff; [left|right; right]; auto. }
  assert (Ns : ~ In s (map fst L) /\ ~ In s (map snd L)).
  { split; intros H; apply N3, in_app_iff; auto. }
  split.
  - intros k K1 K2. cbn in K1, K2. rewrite I1 by tauto. apply dstep_other; intros ->; tauto.
  - intros l' s' [E|H].
    + injection E as <- <-. rewrite !I1 by tauto. split; [now apply dstep_short|now apply dstep_long].
    + destruct (I2 l' s' H) as [-> ->]. split; auto.
      assert (Hl := in_map fst _ _ H). assert (Hs := in_map snd _ _ H). cbn in Hl, Hs.
      assert (l' <> l /\ l' <> s /\ s' <> l /\ s' <> s) as (Ll & Ls & Sl & Ss) by (repeat split; intros ->; tauto).
      now rewrite !dstep_other.
Qed.

Fixpoint nodupb (l : list string) : bool :=
  match l with [] => true | x :: r => negb (existsb (String.eqb x) r) && nodupb r end.
Lemma nodupb_sound l : nodupb l = true -> NoDup l.
Proof.
  induction l as [|x l IH]; cbn; [constructor|]. intros H. apply andb_true_iff in H as [H1 H2]. constructor; auto.
  intros Hi. apply negb_true_iff in H1. assert (E : existsb (String.eqb x) l = true).
  { apply existsb_exists. exists x. split; auto. apply String.eqb_refl. }
  congruence.
Qed.

Lemma argMap_nodup : NoDup (map fst argMap ++ map snd argMap).
Proof. apply nodupb_sound. vm_compute. reflexivity. Qed.

Ltac find_in := repeat (first [left; reflexivity | right]).
Lemma options_argMap l s : (exists d, In (l, s, d) options) <-> In (l, s) argMap.
Proof.
  split.
  - intros [d H]. cbn in H. repeat (destruct H as [H|H]; [injection H as <- <- <-; find_in|]). destruct H.
  - intros H. cbn in H. repeat (destruct H as [H|H]; [injection H as <- <-; eexists; find_in|]). destruct H.
Qed.
Lemma options_default l s d : In (l, s, d) options -> fst (mread defaultMap l) = d.
Proof. intros H. cbn in H. repeat (destruct H as [H|H]; [injection H as <- <- <-; reflexivity|]). destruct H. Qed.

Lemma defaults_dstep m : defaultArguments m = fold_left dstep argMap m.
Proof. unfold defaultArguments, dstep. reflexivity. Qed.

Theorem parse_options argv m : parse argv = Ok m ->
  (forall l s d, In (l, s, d) options ->
     mget m s = None /\
     (forall v, last_given argv s v -> mget m l = Some v) /\
     (forall v, never_given argv s -> last_given argv l v -> mget m l = Some v) /\
     (never_given argv s -> never_given argv l -> mget m l = Some d)) /\
  (forall k, ~ is_long k -> ~ is_short k ->
     (forall v, last_given argv k v -> mget m k = Some v) /\ (never_given argv k -> mget m k = None)).
Proof.
  unfold parse, rmap. intros H. destruct (parse_loop [] argv) as [m0|] eqn:E; cbn [bind] in H; [|discriminate]. injection H as <-.
  assert (V := parse_loop_val _ _ _ E). destruct (dfold argMap m0 argMap_nodup) as [D1 D2].
  rewrite <- defaults_dstep in D1, D2. split.
  - intros l s d H. destruct (D2 l s) as [Sh L]; [apply options_argMap; eauto|]. split; [exact Sh|]. split; [|split].
    + intros v G. rewrite L, V, (last_given_val _ _ _ G). auto.
    + intros v N G. rewrite L, !V, (last_given_val _ _ _ G), (never_given_val _ _ N). auto.
    + intros N1 N2. rewrite L, !V, (never_given_val _ _ N1), (never_given_val _ _ N2). cbn. f_equal. eapply options_default; eauto.
  - intros k Nl Ns. assert (K : mget (defaultArguments m0) k = mget m0 k).
    { apply D1; intros H; apply in_map_iff in H as ([l s] & <- & H); apply options_argMap in H as [d H]; [apply Nl|apply Ns]; red; eauto. }
    split; [intros v G|intros N]; rewrite K, V; [now rewrite (last_given_val _ _ _ G)|now rewrite (never_given_val _ _ N)].
Qed.

Lemma parse_has_options argv m : parse argv = Ok m -> forall l, is_long l -> mget m l <> None.
Proof.
  intros H l (s & d & Hl). destruct (parse_options argv m H) as [O _]. destruct (O l s d Hl) as (_ & A & B & C).
  assert (S1 := last_val_spec argv s). assert (S2 := last_val_spec argv l).
  destruct (last_val argv s); [erewrite A; [discriminate|eauto]|]. destruct (last_val argv l).
  - erewrite B; [discriminate|auto|eauto].
  - rewrite C; auto. discriminate.
Qed.

(* ---- setPipeline *)
Lemma mread_some m k v : mget m k = Some v -> mread m k = (v, m).
Proof. unfold mread. now intros ->. Qed.
Lemma mget_set_other m k v k' : k' <> k -> mget (mset m k v) k' = mget m k'.
Proof. intros N. now rewrite mget_set, (eqb_neq k' k). Qed.

Definition has_options (m : amap) : Prop := forall l, is_long l -> mget m l <> None.

Ltac eqb_case k s :=
  destruct (String.eqb_spec k s) as [->|].

Theorem setPipeline_spec m pl : has_options m -> applies m pl ->
  forall k, mget (setPipeline m) k = match pl with Some p => planned p k (mget m k) | None => mget m k end.
Proof.
  intros H A k.
  assert (O : forall l, is_long l -> exists v, mget m l = Some v).
  { intros l Hl. specialize (H l Hl). destruct (mget m l); [eauto|easy]. }
  destruct (O "mpi") as [mpi Empi]; [do 2 eexists; find_in|].
  destruct (O "pipeline") as [pipe Epipe]; [do 2 eexists; find_in|].
  destruct (O "mode") as [mode Emode]; [do 2 eexists; find_in|].
  destruct (O "preprocessor") as [pre Epre]; [do 2 eexists; find_in|].
  assert (P1 : forall v, mget (mset m "pipeline" v) "preprocessor" = Some pre).
  { intros v. rewrite mget_set_other; [auto|discriminate]. }
  unfold setPipeline. rewrite (mread_some _ _ _ Empi).
  destruct A as [[A ->]|[(A & B & ->)|(A & B & mode' & C & D)]].
  - rewrite Empi in A. injection A as ->. cbn [String.eqb Ascii.eqb Bool.eqb].
    rewrite (mread_some _ _ _ (P1 _)). unfold planned, mpi_plan; cbn [pl_pipeline pl_preprocessor pl_upscale pl_complexType chosen].
    eqb_case pre ""; rewrite ?mget_set.
    + eqb_case k "upscale"; [reflexivity|]. eqb_case k "preprocessor"; [rewrite Epre; reflexivity|].
      eqb_case k "pipeline"; [reflexivity|]. now destruct (String.eqb k "complexType").
    + eqb_case k "upscale"; [reflexivity|]. eqb_case k "pipeline"; [reflexivity|].
      eqb_case k "preprocessor"; [rewrite Epre; now destruct pre|]. now destruct (String.eqb k "complexType").
  - rewrite Empi in A. rewrite (eqb_neq mpi "1") by congruence. rewrite (mread_some _ _ _ Epipe).
    rewrite (eqb_neq pipe "") by congruence. reflexivity.
  - rewrite Empi in A. rewrite (eqb_neq mpi "1") by congruence. rewrite (mread_some _ _ _ Epipe).
    rewrite Epipe in B. injection B as ->. rewrite Emode in C. injection C as <-. cbn [String.eqb].
    rewrite (mread_some _ _ _ Emode). destruct D as [(q & Q & ->)|[N ->]].
    + assert (Fin : forall p, (forall k, mget (if String.eqb pre "" then mset m "preprocessor" p else m) k =
                       if String.eqb k "preprocessor" then chosen (Unless_given p) (mget m k) else mget m k)).
      { intros p k'. eqb_case pre ""; rewrite ?mget_set; eqb_case k' "preprocessor"; auto; rewrite Epre; auto. now destruct pre. }
      cbn [In plans] in Q.
      repeat (destruct Q as [Q|Q];
        [injection Q as <- <-; cbn [String.eqb Ascii.eqb Bool.eqb orb]; rewrite ?(mread_some _ _ _ Epre);
         unfold planned; cbn [pl_pipeline pl_preprocessor pl_upscale pl_complexType]; rewrite ?mget_set, ?Fin;
         eqb_case k "pipeline"; [reflexivity|]; eqb_case k "preprocessor"; [reflexivity|]; eqb_case k "upscale"; [reflexivity|];
         eqb_case k "complexType"; reflexivity|]).
      destruct Q.
    + assert (M : forall s, In s (map fst plans) -> String.eqb mode s = false).
      { intros s Hs. apply eqb_neq. intros ->. now apply N. }
      rewrite !M by find_in. reflexivity.
Qed.

Lemma applies_total m : has_options m -> exists pl, applies m pl.
Proof.
  intros H. destruct (mget m "mpi") as [v|] eqn:E; [|exfalso; revert E; apply H; do 2 eexists; find_in].
  destruct (mget m "mode") as [mode|] eqn:Em; [|exfalso; revert Em; apply H; do 2 eexists; find_in].
  destruct (string_dec v "1") as [->|N]; [exists (Some mpi_plan); now left|].
  destruct (mget m "pipeline") as [p|] eqn:Ep; [|exfalso; revert Ep; apply H; do 2 eexists; find_in].
  destruct (string_dec p "") as [->|Np].
  - destruct (in_dec string_dec mode (map fst plans)) as [I|I].
    + apply in_map_iff in I as ([mode' q] & E' & I). cbn in E'. subst mode'. exists (Some q). right. right.
      split; [congruence|]. split; [auto|]. exists mode. split; auto. left. eauto.
    + exists None. right. right. split; [congruence|]. split; [auto|]. exists mode. split; auto.
  - exists None. right. left. split; [congruence|]. split; [congruence|auto].
Qed.

(* ---- pipelines *)
Lemma app_length a b : length (a ++ b) = length a + length b.
Proof. induction a; cbn; auto. Qed.
Lemma substring_app a b : substring 0 (length a) (a ++ b) = a.
Proof. induction a; cbn; [now destruct b|congruence]. Qed.
Lemma substring_skip a b n : substring (length a) n (a ++ b) = substring 0 n b.
Proof. induction a; cbn; auto. Qed.

Lemma find_dot_free p : dot_free p -> find_char "." p = None /\ count_char "." p = 0.
Proof.
  induction p as [|c p IH]; intros H; [easy|]. destruct H as [N H]. destruct (IH H) as [I1 I2].
  cbn -[Ascii.eqb]. destruct (Ascii.eqb_spec "." c) as [E|_]; [congruence|]. now rewrite I1, I2.
Qed.
Lemma find_dot p r : dot_free p -> find_char "." (p ++ "." ++ r) = Some (length p) /\
  count_char "." (p ++ "." ++ r) = S (count_char "." r).
Proof.
  induction p as [|c p IH]; intros H; [easy|]. destruct H as [N H]. destruct (IH H) as [I1 I2].
  cbn -[Ascii.eqb] in *.
  destruct (Ascii.eqb_spec "." c) as [E|_]; [congruence|]. now rewrite I1, I2.
Qed.

Lemma pipe_split p r : dot_free p -> curFunct (p ++ "." ++ r) = p /\ pipeRest (p ++ "." ++ r) = r.
Proof.
  intros H. destruct (find_dot p r H) as [F _]. unfold curFunct, pipeRest. rewrite F. split; [apply substring_app|].
  rewrite app_length. cbn [length append].
  replace (length p + S (length r) - (length p + 1)) with (length r) by lia.
  replace (p ++ String "." r) with ((p ++ ".") ++ r).
  - replace (length p + 1) with (length (p ++ ".")) by (rewrite app_length; cbn; lia). rewrite substring_skip. apply substring_all.
  - clear. induction p; cbn; congruence.
Qed.

Lemma components_exist s : exists parts, components_of s parts.
Proof.
  assert (R : forall s, exists parts, parts <> [] /\ Forall dot_free parts /\ String.concat "." parts = s).
  { clear s. induction s as [|c s (parts & N & F & E)].
    - exists [""]. repeat split; [discriminate|repeat constructor].
    - destruct (Ascii.ascii_dec c ".") as [->|Nc].
      + exists ("" :: parts). split; [discriminate|]. split; [constructor; [exact I|auto]|].
        cbn. destruct parts; [easy|]. now rewrite E.
      + destruct parts as [|p parts]; [easy|]. inversion F; subst. exists (String c p :: parts).
        split; [discriminate|]. split; [constructor; [split|]; auto|]. cbn. now destruct parts. }
  apply R.
Qed.
Lemma components_unique s p q : components_of s p -> components_of s q -> p = q.
Proof.
  intros (Np & Fp & Ep) (Nq & Fq & Eq). subst s. revert q Nq Fq Eq.
  induction p as [|x p IH]; [easy|]. intros q Nq Fq Eq. destruct q as [|y q]; [easy|].
  inversion Fp as [|? ? X Fp']; subst. inversion Fq as [|? ? Y Fq']; subst.
  destruct p as [|x' p], q as [|y' q]; cbn -[append String.concat] in Eq.
  - cbn in Eq. congruence.
  - cbn [String.concat] in Eq. exfalso. destruct (find_dot y (String.concat "." (y' :: q)) Y) as [H _].
    destruct (find_dot_free x X) as [H' _]. cbn [String.concat] in H. rewrite Eq in H. congruence.
  - cbn [String.concat] in Eq. exfalso. destruct (find_dot x (String.concat "." (x' :: p)) X) as [H _].
    destruct (find_dot_free y Y) as [H' _]. cbn [String.concat] in H. rewrite <- Eq in H. congruence.
  - change (y ++ "." ++ String.concat "." (y' :: q) = x ++ "." ++ String.concat "." (x' :: p)) in Eq.
    destruct (pipe_split x (String.concat "." (x' :: p)) X) as [A1 A2].
    destruct (pipe_split y (String.concat "." (y' :: q)) Y) as [B1 B2].
    rewrite Eq in B1, B2. f_equal; [congruence|]. apply IH; auto; [discriminate|discriminate|congruence].
Qed.

(* ---- factories *)
Lemma newPipe_spec n ct k : newPipe n ct = Some k <->
  In (n, k) pipe_names \/ (n = "persistence" /\ persistence_for ct k).
Proof.
  unfold newPipe, persistence_for. split.
  - repeat (match goal with |- context [String.eqb n ?s] => destruct (String.eqb_spec n s) as [->|] end; cbn [orb andb];
      [try (intros H; injection H as <-; left; find_in)|]).
    + destruct (String.eqb_spec ct "simplexArrayList"); [intros H; injection H as <-; right; auto|].
      destruct (String.eqb_spec ct "simplexTree"); cbn [orb]; [intros H; injection H as <-; right; auto|].
      destruct (String.eqb_spec ct "indSimplexTree"); cbn; [intros H; injection H as <-; right; auto|discriminate].
    + discriminate.
  - intros [H|(-> & [[[->| ->] ->]|[-> ->]])]; try reflexivity.
    cbn [In pipe_names] in H. repeat (destruct H as [H|H]; [injection H as <- <-; reflexivity|]). destruct H.
Qed.
Lemma newPreprocessor_spec n k : newPreprocessor n = Some k <-> In (n, k) pre_names.
Proof.
  unfold newPreprocessor. split.
  - repeat (match goal with |- context [String.eqb n ?s] => destruct (String.eqb_spec n s) as [->|] end; cbn [orb];
      [try (intros H; injection H as <-; find_in)|]). discriminate.
  - intros H. cbn [In pre_names] in H. repeat (destruct H as [H|H]; [injection H as <- <-; reflexivity|]). destruct H.
Qed.

(* ---- the driver *)
Lemma has_key_spec m k : has_key m k = true <-> mget m k <> None.
Proof. unfold has_key. destruct (mget m k); split; congruence. Qed.

Section Driver.
  Variable packet : Type.
  Variable run : pipe_kind -> amap -> packet -> res packet.
  Variable add_stats : pipe_kind -> packet -> res packet.
  Notation step := (step packet run add_stats).
  Notation steps := (steps packet run add_stats).

  Lemma component_step args c p :
    match run_component packet run add_stats args c p with
    | Ok (p', b) => step args c p (Ok p') b
    | UB => exists b, step args c p UB b
    end.
  Proof.
    unfold run_component. destruct (newPipe c (fst (mread args "complexType"))) as [k|] eqn:E.
    - unfold configPipe. destruct (forallb (has_key args) (pipe_required k)) eqn:F.
      + assert (G : forall o, In o (pipe_required k) -> mget args o <> None).
        { intros o Ho. apply has_key_spec. rewrite forallb_forall in F. auto. }
        assert (S := step_runs packet run add_stats args c p k E G). unfold runPipeWrapper. cbn [negb].
        destruct (do p1 <- run k args p; add_stats k p1); cbn [bind]; eauto.
      + eapply step_unconfigured; eauto. clear E. induction (pipe_required k) as [|o l IH]; [discriminate|].
        cbn in F. apply andb_false_iff in F as [F|F].
        * exists o. split; [now left|]. unfold has_key in F. now destruct (mget args o).
        * destruct (IH F) as (o' & I & N). exists o'. split; [now right|auto].
    - constructor.
      + intros k Hk. assert (newPipe c (fst (mread args "complexType")) = Some k) by (apply newPipe_spec; auto). congruence.
      + intros -> ct k Hct Hk. assert (newPipe "persistence" (fst (mread args "complexType")) = Some k).
        { apply newPipe_spec. right. split; auto. unfold mread. now rewrite Hct. } congruence.
  Qed.

  Lemma step_fun args c p r b r' b' : step args c p r b -> step args c p r' b' -> r = r' /\ b = b'.
  Proof.
    assert (X : forall k, (forall k, ~ In (c, k) pipe_names) ->
      (c = "persistence" -> forall ct k, mget args "complexType" = Some ct -> ~ persistence_for ct k) ->
      newPipe c (fst (mread args "complexType")) = Some k -> False).
    { intros k A B E. apply newPipe_spec in E as [E|[-> E]]; [now apply (A k)|].
      unfold mread in E. destruct (mget args "complexType") as [ct|] eqn:F; cbn in E.
      - now apply (B eq_refl ct k).
      - destruct E as [[[E|E] _]|[E _]]; discriminate. }
    intros H H'. inversion H; inversion H'; subst; auto; try (exfalso; eapply X; eassumption).
    all: assert (k = k0) by congruence; subst; auto; exfalso.
    all: match goal with A : exists o, In o (pipe_required _) /\ _, B : forall o, In o (pipe_required _) -> _ |- _ =>
           destruct A as (o & I & N); exact (B o I N) end.
  Qed.

  Lemma loop_failed : forall fuel args s p failed,
    pipeline_loop packet run add_stats fuel args s p failed =
    rmap (fun '(q, f) => (q, (failed ++ f)%list)) (pipeline_loop packet run add_stats fuel args s p []).
  Proof.
    induction fuel as [|fuel IH]; intros args s p failed; cbn -[curFunct pipeRest].
    - now rewrite app_nil_r.
    - destruct (run_component packet run add_stats args (curFunct s) p) as [[p' b]|]; cbn -[curFunct pipeRest]; auto.
      rewrite IH. rewrite (IH _ _ _ (if b then [curFunct s] else [])).
      destruct (pipeline_loop packet run add_stats fuel args (pipeRest s) p' []) as [[q f]|]; cbn -[curFunct pipeRest]; auto.
      destruct b; cbn -[curFunct]; auto. now rewrite <- app_assoc.
  Qed.

  Theorem pipeline_steps args s parts p : components_of s parts -> mget args "pipeline" = Some s ->
    exists r, steps args parts p r /\ runPipeline packet run add_stats args p = rmap Some r.
  Proof.
    intros (N & F & E) M. unfold runPipeline. rewrite M. subst s. clear M.
    eexists. split; [|reflexivity]. revert p. induction parts as [|x parts IH]; [easy|]. intros p.
    inversion F as [|? ? X F']; subst. clear N F.
    assert (G : exists rest, count_char "." (String.concat "." (x :: parts)) = List.length parts /\
      curFunct (String.concat "." (x :: parts)) = x /\
      (parts <> [] -> pipeRest (String.concat "." (x :: parts)) = String.concat "." parts) /\
      rest = count_char "." (String.concat "." parts) /\ (parts <> [] -> List.length parts = S rest)).
    { exists (count_char "." (String.concat "." parts)). clear IH. revert x X. induction parts as [|y parts IH]; intros x X.
      - destruct (find_dot_free x X) as [A B]. cbn [String.concat List.length]. rewrite B. unfold curFunct. rewrite A. repeat split; easy.
      - inversion F' as [|? ? Y F'']; subst. destruct (IH F'' y Y) as (I1 & _).
        change (String.concat "." (x :: y :: parts)) with (x ++ "." ++ String.concat "." (y :: parts)).
        destruct (find_dot x (String.concat "." (y :: parts)) X) as [_ B].
        destruct (pipe_split x (String.concat "." (y :: parts)) X) as [C D].
        rewrite B, I1, C, D. repeat split; auto. }
    destruct G as (rest & G1 & G2 & G3 & G4 & G5). rewrite G1, Nat.add_1_r. cbn [pipeline_loop]. rewrite G2.
    assert (S := component_step args x p). destruct (run_component packet run add_stats args x p) as [[p' b]|]; cbn [bind fst snd].
    - rewrite loop_failed. destruct parts as [|y parts].
      + cbn. replace (Ok (p', ((if b then [x] else []) ++ [])%list)) with
          (rmap (fun '(q, failed) => (q, if b then x :: failed else failed)) (Ok (p', @nil string))).
        * econstructor; [exact S|constructor].
        * cbn. now destruct b.
      + rewrite G3 by discriminate. specialize (IH ltac:(discriminate) F' p').
        rewrite <- G4, Nat.add_1_r, <- G5 in IH by discriminate.
        match goal with |- steps _ _ _ ?t => replace t with
          (rmap (fun '(q, failed) => (q, if b then x :: failed else failed))
             (pipeline_loop packet run add_stats (List.length (y :: parts)) args (String.concat "." (y :: parts)) p' [])) end.
        * econstructor; [exact S|exact IH].
        * destruct (pipeline_loop _ _ _ (List.length (y :: parts)) args _ p' []) as [[q f]|]; cbn -[app]; auto. now destruct b.
    - destruct S as [b S]. eapply steps_ub; eauto.
  Qed.

  Lemma steps_fun args : forall parts p r r', steps args parts p r -> steps args parts p r' -> r = r'.
  Proof.
    induction parts as [|c cs IH]; intros p r r' H H'; inversion H as [|? ? ? b S|? ? ? p1 b r1 S T]; inversion H' as [|? ? ? b' S'|? ? ? p2 b' r2 S' T']; subst; auto;
      destruct (step_fun _ _ _ _ _ _ _ S S') as [E Eb]; try discriminate.
    injection E as <-. subst b'. now rewrite (IH _ _ _ T T').
  Qed.
End Driver.

(* ---- consequences *)
Lemma setPipeline_has m : has_options m -> has_options (setPipeline m).
Proof.
  intros H l Hl. destruct (applies_total m H) as [pl A]. rewrite (setPipeline_spec m pl H A).
  specialize (H l Hl). destruct pl as [p|]; auto. unfold planned, chosen.
  repeat match goal with |- context [if String.eqb l ?s then _ else _] => destruct (String.eqb l s) end; try discriminate; auto.
  all: match goal with |- context [match ?c with Keep => _ | _ => _ end] => destruct c end; try discriminate; auto.
  all: destruct (mget m l) as [[|]|]; try discriminate; auto.
Qed.

Lemma plans_pipeline q mode : In (mode, q) plans -> pl_pipeline q <> "".
Proof. intros H. cbn [In plans] in H. repeat (destruct H as [H|H]; [injection H as <- <-; discriminate|]). destruct H. Qed.

Lemma setPipeline_twice m : has_options m -> forall k, mget (setPipeline (setPipeline m)) k = mget (setPipeline m) k.
Proof.
  intros H k. destruct (applies_total m H) as [pl A]. assert (H' := setPipeline_has m H).
  assert (Sp := setPipeline_spec m pl H A).
  destruct A as [[A ->]|[(A & B & ->)|(A & B & mode & M & [(q & Q & ->)|[N ->]])]].
  - assert (A' : applies (setPipeline m) (Some mpi_plan)) by (left; split; auto; rewrite Sp; exact A).
    rewrite (setPipeline_spec _ _ H' A' k), (Sp k). unfold planned, chosen, mpi_plan; cbn [pl_pipeline pl_preprocessor pl_upscale pl_complexType].
    destruct (String.eqb k "pipeline"); auto. destruct (String.eqb k "preprocessor").
    + destruct (mget m k) as [[|]|]; auto.
    + destruct (String.eqb k "upscale"); auto. now destruct (String.eqb k "complexType").
  - assert (A' : applies (setPipeline m) None) by (right; left; rewrite !Sp; auto).
    now rewrite (setPipeline_spec _ _ H' A' k).
  - assert (A' : applies (setPipeline m) None).
    { right; left. rewrite !Sp. repeat split; auto. unfold planned. cbn. intros E. injection E. apply (plans_pipeline q mode Q). }
    now rewrite (setPipeline_spec _ _ H' A' k).
  - assert (A' : applies (setPipeline m) None).
    { right; right. rewrite !Sp. repeat split; auto. exists mode. auto. }
    now rewrite (setPipeline_spec _ _ H' A' k).
Qed.

Lemma forallb_keys m l : (forall o, In o l -> mget m o <> None) -> forallb (has_key m) l = true.
Proof. intros H. apply forallb_forall. intros o Ho. apply has_key_spec. auto. Qed.

Lemma pipe_required_long k o : In o (pipe_required k) -> is_long o.
Proof. destruct k; intros H; cbn in H; repeat (destruct H as [<-|H]; [do 2 eexists; find_in|]); destruct H. Qed.
Lemma pre_required_long k o : In o (pre_required k) -> is_long o.
Proof. destruct k; intros H; cbn in H; repeat (destruct H as [<-|H]; [do 2 eexists; find_in|]); destruct H. Qed.

Lemma configs argv m : parse argv = Ok m -> forall k, configPipe k (setPipeline m) = (true, true).
Proof.
  intros P k. unfold configPipe. rewrite forallb_keys; auto. intros o Ho.
  exact (setPipeline_has m (parse_has_options argv m P) o (pipe_required_long k o Ho)).
Qed.
Lemma pre_configs argv m : parse argv = Ok m -> forall k, k <> KNoPreprocessor -> configPreprocessor k (setPipeline m) = (true, true).
Proof.
  intros P k N. assert (E : forallb (has_key (setPipeline m)) (pre_required k) = true).
  { apply forallb_keys. intros o Ho. exact (setPipeline_has m (parse_has_options argv m P) o (pre_required_long k o Ho)). }
  destruct k; cbn [configPreprocessor]; [easy| | |]; now rewrite E.
Qed.

(* What the preprocessing stage does. *)
Lemma preprocess_spec packet pre_run pre_stats args name p : mget args "preprocessor" = Some name ->
  (forall k, In (name, k) pre_names -> k <> KNoPreprocessor -> (forall o, In o (pre_required k) -> mget args o <> None) ->
     preprocess packet pre_run pre_stats args p = do q <- pre_run k args p; pre_stats k q) /\
  ((forall k, In (name, k) pre_names -> k = KNoPreprocessor \/ exists o, In o (pre_required k) /\ mget args o = None) ->
     preprocess packet pre_run pre_stats args p = Ok p).
Proof.
  intros M. unfold preprocess, mread. rewrite M. cbn [fst]. split.
  - intros k I N R. assert (E := proj2 (newPreprocessor_spec name k) I).
    destruct (String.eqb_spec name "") as [->|_]; [discriminate|]. rewrite E.
    assert (F := forallb_keys args _ R). unfold configPreprocessor. destruct k; try easy; now rewrite F.
  - intros R. destruct (String.eqb name ""); auto. destruct (newPreprocessor name) as [k|] eqn:E; auto.
    apply newPreprocessor_spec in E. destruct (R k E) as [->|(o & Ho & N)]; [reflexivity|].
    assert (F : forallb (has_key args) (pre_required k) = false).
    { destruct (forallb (has_key args) (pre_required k)) eqn:F; auto. rewrite forallb_forall in F. specialize (F o Ho).
      apply has_key_spec in F. congruence. }
    unfold configPreprocessor. destruct k; rewrite ?F; auto.
Qed.

Lemma planned_components q : In q (mpi_plan :: map snd plans) -> forall parts, components_of (pl_pipeline q) parts ->
  forall c ct, In c parts -> In ct ["simplexTree"; "simplexArrayList"; "indSimplexTree"] -> newPipe c ct <> None.
Proof.
  intros Hq parts Hp c ct Hc Hct.
  assert (E : parts = match pl_pipeline q with
    | "slidingwindow" => ["slidingwindow"] | "naivewindow" => ["naivewindow"]
    | "distMatrix.neighGraph.rips.persistence.boundary.upscale" => ["distMatrix"; "neighGraph"; "rips"; "persistence"; "boundary"; "upscale"]
    | _ => ["distMatrix"; "neighGraph"; "rips"; "fastPersistence"] end).
  { eapply components_unique; [exact Hp|]. cbn [In map snd plans] in Hq.
    repeat (destruct Hq as [<-|Hq]; [split; [discriminate|split; [repeat constructor; discriminate|reflexivity]]|]). destruct Hq. }
  subst parts. clear Hp. cbn [In map snd plans] in Hq.
  repeat (destruct Hq as [<-|Hq];
    [cbn -[newPipe] in Hc; cbn in Hct; repeat (destruct Hc as [<-|Hc]; [repeat (destruct Hct as [<-|Hct]; [discriminate|]); destruct Hct|]); destruct Hc|]).
  destruct Hq.
Qed.
