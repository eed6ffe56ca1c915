(* DbscanProofs.v -- lemmas about dbscan::cluster (C28). *)
From Coq Require Import List Arith ZArith Bool Lia.
From Verif Require Import Base KdModel SpecKd KdProofs.
Import ListNotations.

Definition lab (l : list Z) (p : nat) : Z := nth p l 0%Z.

Lemma upd_lab (l : list Z) p v : p < length l ->
  exists l', upd l p (fun _ => v) = Ok l' /\ length l' = length l /\ forall q, lab l' q = if q =? p then v else lab l q.
Proof.
  revert p. induction l as [|x l IH]; intros p H; [cbn in H; lia|]. destruct p as [|p]; cbn [upd].
  - exists (v :: l). split; [reflexivity|]. split; [reflexivity|]. intros [|q]; reflexivity.
  - destruct (IH p) as (l' & E & L & N); [cbn in H; lia|]. rewrite E. exists (x :: l'). split; [reflexivity|]. split; [cbn; now rewrite L|].
    intros [|q]; [reflexivity|]. exact (N q).
Qed.
Lemma at_lab (l : list Z) p : p < length l -> at_ l p = Ok (lab l p).
Proof. intros H. unfold at_, lab. now rewrite (nth_error_nth' l 0%Z H). Qed.

Section Dbscan.
  Variable nb : nat -> list nat.
  Variable nbr : nat -> res (list nat).
  Variable minPoints : Z.
  Variable n : nat.
  Hypothesis Nbr : forall i, i < n -> nbr i = Ok (nb i).
  Hypothesis Bound : forall i j, i < n -> In j (nb i) -> j < n.
  Hypothesis Self : forall i, i < n -> core nb minPoints i -> In i (nb i).
  Hypothesis Sym : forall i j, i < n -> j < n -> core nb minPoints i -> core nb minPoints j -> In j (nb i) -> In i (nb j).
  Let core := core nb minPoints.
  Let dr := density_reachable nb minPoints.

  Lemma few_core i : few minPoints (nb i) = false <-> core i.
  Proof. unfold few, core, SpecKd.core. rewrite orb_false_iff, !Z.ltb_ge. tauto. Qed.
  Lemma few_core' i : few minPoints (nb i) = true <-> ~ core i.
  Proof. rewrite <- few_core. destruct (few minPoints (nb i)); split; congruence. Qed.
  Lemma dr_core i j : dr i j -> core i /\ core j.
  Proof. induction 1; tauto. Qed.
  Lemma dr_lt i j : dr i j -> i < n -> j < n.
  Proof. induction 1; eauto. Qed.
  Lemma dr_trans i j k : dr i j -> dr j k -> dr i k.
  Proof. intros H K. revert H. induction K as [a C|a b c K IH Hk C]; intros H; [exact H|]. exact (dr_step _ _ i b c (IH H) Hk C). Qed.
  Lemma dr_sym i j : i < n -> dr i j -> dr j i.
  Proof.
    intros Hi. induction 1 as [i C|i j k H IH Hk C]; [now constructor|]. assert (Hj := dr_lt _ _ H Hi). destruct (dr_core _ _ H) as [_ Cj].
    apply dr_trans with j; [|auto]. eapply dr_step; [now constructor|apply Sym; eauto|exact Cj].
  Qed.

  Definition mass (l : list Z) : nat := list_sum (map (fun p => if (lab l p =? 0)%Z then length (nb p) else 0) (seq 0 n)).
  Lemma list_sum_le (f g : nat -> nat) l : (forall x, In x l -> f x <= g x) -> list_sum (map f l) <= list_sum (map g l).
  Proof. induction l as [|x l IH]; intros H; [cbn; lia|]. cbn [map list_sum fold_right]. assert (f x <= g x) by (apply H; now left). assert (list_sum (map f l) <= list_sum (map g l)) by (apply IH; intros; apply H; now right). unfold list_sum in *. lia. Qed.
  Lemma list_sum_drop (f g : nat -> nat) l p d : NoDup l -> In p l -> (forall x, In x l -> f x <= g x) -> f p + d <= g p -> list_sum (map f l) + d <= list_sum (map g l).
  Proof.
    induction l as [|x l IH]; intros N I H D; [destruct I|]. cbn [map]. inversion N; subst. change (f x + list_sum (map f l) + d <= g x + list_sum (map g l)).
    destruct I as [->|I].
    - assert (list_sum (map f l) <= list_sum (map g l)) by (apply list_sum_le; intros; apply H; now right). lia.
    - assert (f x <= g x) by (apply H; now left). assert (list_sum (map f l) + d <= list_sum (map g l)) by (apply IH; auto; intros; apply H; now right). lia.
  Qed.
  Lemma mass_le l l' : (forall p, lab l' p = 0%Z -> lab l p = 0%Z) -> mass l' <= mass l.
  Proof. intros H. apply list_sum_le. intros p _. destruct (Z.eqb_spec (lab l' p) 0); [|apply Nat.le_0_l]. rewrite (H p e). reflexivity. Qed.
  Lemma mass_drop l l' p : p < n -> lab l p = 0%Z -> lab l' p <> 0%Z -> (forall p, lab l' p = 0%Z -> lab l p = 0%Z) -> mass l' + length (nb p) <= mass l.
  Proof.
    intros Hp E E' H. apply list_sum_drop with p; [apply seq_NoDup|apply in_seq; lia| |].
    - intros q _. destruct (Z.eqb_spec (lab l' q) 0); [|apply Nat.le_0_l]. rewrite (H q e). reflexivity.
    - rewrite E. destruct (Z.eqb_spec (lab l' p) 0); [congruence|]. apply Nat.le_refl.
  Qed.
  Lemma mass_start l s : s < n -> length (nb s) + mass l <= enough_fuel nb n.
  Proof.
    intros Hs. unfold enough_fuel. apply Nat.add_le_mono.
    - assert (F := proj1 (list_max_le (map (fun i => length (nb i)) (seq 0 n)) _) (Nat.le_refl _)). rewrite Forall_forall in F. apply F, in_map_iff. exists s. split; [reflexivity|apply in_seq; lia].
    - apply list_sum_le. intros p _. destruct (lab l p =? 0)%Z; lia.
  Qed.

  (* the state between two clusters *)
  Record between (l : list Z) (c : Z) : Prop := {
    b_len : length l = n;
    b_pos : (0 <= c)%Z;
    b_range : forall p, p < n -> (-1 <= lab l p <= c)%Z;
    b_core : forall p, p < n -> core p -> lab l p <> (-1)%Z;
    b_closed : forall p q, p < n -> core p -> (0 < lab l p)%Z -> In q (nb p) -> (0 < lab l q)%Z /\ (core q -> lab l q = lab l p);
    b_just : forall p, p < n -> (0 < lab l p)%Z -> exists t, t < n /\ core t /\ lab l t = lab l p /\ In p (nb t);
    b_seed : forall p q, p < n -> q < n -> core p -> core q -> (0 < lab l p)%Z -> lab l p = lab l q -> dr p q;
    b_used : forall v, (1 <= v <= c)%Z -> exists p, p < n /\ core p /\ lab l p = v
  }.
  (* the state inside expandCluster for the label c + 1, begun with labels l0 at the core point s *)
  Record within (l0 : list Z) (c : Z) (s : nat) (queue : list nat) (l : list Z) : Prop := {
    w_len : length l = n;
    w_old : forall p, p < n -> lab l p = lab l0 p \/ (lab l p = (c + 1)%Z /\ (lab l0 p <= 0)%Z);
    w_queue : forall q, In q queue -> exists t, dr s t /\ In q (nb t);
    w_just : forall p, p < n -> lab l p = (c + 1)%Z -> exists t, dr s t /\ In p (nb t);
    w_closed : forall p q, p < n -> core p -> lab l p = (c + 1)%Z \/ p = s -> In q (nb p) -> In q queue \/ ((0 < lab l q)%Z /\ (core q -> lab l q = (c + 1)%Z))
  }.
  Lemma closed_dr l c : between l c -> forall p q, p < n -> dr p q -> (0 < lab l p)%Z -> lab l q = lab l p.
  Proof.
    intros B p q Hp H. induction H as [p C|p j k H IH Hk C]; intros P; [reflexivity|]. specialize (IH Hp P). rewrite <- IH.
    apply (b_closed l c B j k); auto; [exact (dr_lt _ _ H Hp)|apply (dr_core _ _ H)|lia].
  Qed.

  Section Expand.
    Variables (l0 : list Z) (c : Z) (s : nat).
    Hypothesis B0 : between l0 c.
    Hypothesis Hs : s < n.
    Hypothesis Cs : core s.
    Hypothesis Zs : lab l0 s = 0%Z.

    Lemma fresh_core q t : dr s t -> In q (nb t) -> core q -> lab l0 q = 0%Z.
    Proof.
      intros D I C. assert (Dq : dr s q) by (eapply dr_step; eauto). assert (Hq := dr_lt _ _ Dq Hs).
      destruct (Z_lt_dec 0 (lab l0 q)) as [P|P].
      - assert (E := closed_dr l0 c B0 q s Hq (dr_sym s q Hs Dq) P). lia.
      - assert (R := b_range l0 c B0 q Hq). assert (K := b_core l0 c B0 q Hq C). lia.
    Qed.
    Lemma expand_spec : forall fuel queue l, within l0 c s queue l -> length queue + mass l <= fuel ->
      exists l', expandCluster nbr minPoints fuel queue (c + 1) l = Some (Ok l') /\ within l0 c s [] l'.
    Proof.
      assert (Cp := b_pos l0 c B0).
      induction fuel as [|fuel IH]; intros queue l W F; (destruct queue as [|p rest]; [exists l; split; [reflexivity|exact W]|cbn [length] in F]); [lia|].
      cbn [expandCluster]. destruct (w_queue _ _ _ _ _ W p (or_introl eq_refl)) as (t & Dt & It). assert (Ht := dr_lt _ _ Dt Hs). assert (Hp := Bound t p Ht It).
      assert (Len := w_len _ _ _ _ _ W). rewrite at_lab by lia. assert (R := b_range l0 c B0 p Hp). assert (O := w_old _ _ _ _ _ W p Hp).
      assert (Qr : forall q, In q rest -> exists t, dr s t /\ In q (nb t)) by (intros q Hq; apply (w_queue _ _ _ _ _ W); now right).
      destruct (upd_lab l p (c + 1) ltac:(lia)) as (l' & El & Ll & Nl).
      assert (Old' : (lab l p <= 0)%Z -> forall q, q < n -> lab l' q = lab l0 q \/ (lab l' q = (c + 1)%Z /\ (lab l0 q <= 0)%Z)).
      { intros P q Hq. rewrite Nl. destruct (Nat.eqb_spec q p) as [->|N]; [right; split; [reflexivity|lia]|exact (w_old _ _ _ _ _ W q Hq)]. }
      assert (Just' : forall q, q < n -> lab l' q = (c + 1)%Z -> exists t, dr s t /\ In q (nb t)).
      { intros q Hq. rewrite Nl. destruct (Nat.eqb_spec q p) as [->|N]; [intros _; exists t; auto|exact (w_just _ _ _ _ _ W q Hq)]. }
      assert (Zero' : forall q, lab l' q = 0%Z -> lab l q = 0%Z) by (intros q; rewrite Nl; destruct (q =? p); [lia|auto]).
      assert (Carry : forall u q, u < n -> core u -> lab l u = (c + 1)%Z \/ u = s -> In q (nb u) -> In q rest \/ ((0 < lab l' q)%Z /\ (core q -> lab l' q = (c + 1)%Z))).
      { intros u q Hu Cu P I. destruct (w_closed _ _ _ _ _ W u q Hu Cu P I) as [[->|H]|[H1 H2]]; [right|now left|right].
        - rewrite Nl, Nat.eqb_refl. split; [lia|reflexivity].
        - rewrite Nl. destruct (q =? p); [split; [lia|reflexivity]|auto]. }
      destruct (Z.eqb_spec (lab l p) (-1)) as [E1|E1].
      - rewrite El. apply IH.
        + constructor; [lia|apply Old'; lia|exact Qr|exact Just'|]. intros u q Hu Cu P. apply Carry; auto. rewrite Nl in P. destruct (Nat.eqb_spec u p) as [->|N]; [|exact P].
          assert (K := b_core l0 c B0 p Hp Cu). destruct O as [O|[O _]]; lia.
        + assert (M := mass_le l l' Zero'). lia.
      - destruct (Z.eqb_spec (lab l p) 0) as [E0|E0].
        + rewrite El, (Nbr p Hp). assert (M := mass_drop l l' p Hp E0 ltac:(rewrite Nl, Nat.eqb_refl; lia) Zero'). destruct (few minPoints (nb p)) eqn:Fw; apply IH; try (rewrite ?app_length; lia).
          * apply few_core' in Fw. constructor; [lia|apply Old'; lia|exact Qr|exact Just'|]. intros u q Hu Cu P. apply Carry; auto. rewrite Nl in P. destruct (Nat.eqb_spec u p) as [->|N]; [easy|exact P].
          * apply few_core in Fw. assert (Dp : dr s p) by (eapply dr_step; eauto).
            constructor; [lia|apply Old'; lia| |exact Just'|].
            -- intros q Hq. apply in_app_iff in Hq as [Hq|Hq]; [auto|exists p; auto].
            -- intros u q Hu Cu P I. rewrite in_app_iff. rewrite Nl in P. destruct (Nat.eqb_spec u p) as [->|N]; [auto|]. destruct (Carry u q Hu Cu P I); auto.
        + apply IH; [|lia]. constructor; [lia|exact (w_old _ _ _ _ _ W)|exact Qr|exact (w_just _ _ _ _ _ W)|]. intros u q Hu Cu P I.
          destruct (w_closed _ _ _ _ _ W u q Hu Cu P I) as [[->|H]|H]; [right|now left|now right].
          assert (lab l q = lab l0 q \/ lab l q = (c + 1)%Z) by tauto. split; [lia|]. intros Cq. assert (Z0 := fresh_core q t Dt It Cq). destruct O as [O|[O _]]; lia.
    Qed.
    Lemma expand_between fuel : enough_fuel nb n <= fuel ->
      exists l', expandCluster nbr minPoints fuel (nb s) (c + 1) l0 = Some (Ok l') /\ between l' (c + 1) /\ (forall p, p < n -> lab l0 p <> 0%Z -> lab l' p <> 0%Z) /\ lab l' s = (c + 1)%Z.
    Proof.
      intros F. assert (Cp := b_pos l0 c B0). assert (R0 := b_range l0 c B0).
      destruct (expand_spec fuel (nb s) l0) as (l' & E & W).
      { constructor; [apply (b_len l0 c B0)|intros p Hp; now left| | |].
        - intros q Hq. exists s. split; [now constructor|exact Hq].
        - intros p Hp P. specialize (R0 p Hp). lia.
        - intros p q Hp Cpp [P| ->] I; [specialize (R0 p Hp); lia|now left]. }
      { assert (M := mass_start l0 s Hs). lia. }
      exists l'. split; [exact E|].
      assert (Old := w_old _ _ _ _ _ W). assert (Ls : lab l' s = (c + 1)%Z).
      { destruct (w_closed _ _ _ _ _ W s s Hs Cs (or_intror eq_refl) (Self s Hs Cs)) as [[]|[_ H]]; auto. }
      assert (Reach : forall t, dr s t -> lab l' t = (c + 1)%Z).
      { intros t D. assert (G : forall a b, dr a b -> a = s -> lab l' b = (c + 1)%Z); [|eapply G; eauto].
        induction 1 as [a C|a j k H IH Hk C]; intros ->; [exact Ls|]. specialize (IH eq_refl). assert (Hj := dr_lt _ _ H Hs).
        destruct (w_closed _ _ _ _ _ W j k Hj ltac:(apply (dr_core _ _ H)) (or_introl IH) Hk) as [[]|[_ K]]; auto. }
      assert (CoreIn : forall p, p < n -> core p -> lab l' p = (c + 1)%Z -> dr s p).
      { intros p Hp Cpp P. destruct (w_just _ _ _ _ _ W p Hp P) as (t & D & I). eapply dr_step; eauto. }
      assert (Same : forall p, p < n -> (0 < lab l0 p)%Z -> lab l' p = lab l0 p) by (intros p Hp P; destruct (Old p Hp) as [|[_ K]]; [auto|lia]).
      split; [|split; [|exact Ls]].
      - constructor.
        + apply (w_len _ _ _ _ _ W).
        + lia.
        + intros p Hp. specialize (R0 p Hp). destruct (Old p Hp) as [H|[H _]]; lia.
        + intros p Hp Cpp. assert (K := b_core l0 c B0 p Hp Cpp). destruct (Old p Hp) as [H|[H _]]; lia.
        + intros p q Hp Cpp P I. destruct (Z.eq_dec (lab l' p) (c + 1)) as [Ep|Np].
          * destruct (w_closed _ _ _ _ _ W p q Hp Cpp (or_introl Ep) I) as [[]|K]. now rewrite Ep.
          * destruct (Old p Hp) as [H|[H _]]; [|lia]. rewrite H in P |- *. destruct (b_closed l0 c B0 p q Hp Cpp P I) as [K1 K2].
            assert (Hq := Bound p q Hp I). rewrite (Same q Hq K1). auto.
        + intros p Hp P. destruct (Z.eq_dec (lab l' p) (c + 1)) as [Ep|Np].
          * destruct (w_just _ _ _ _ _ W p Hp Ep) as (t & D & I). exists t. split; [exact (dr_lt _ _ D Hs)|]. split; [apply (dr_core _ _ D)|]. split; [rewrite Ep; now apply Reach|exact I].
          * destruct (Old p Hp) as [H|[H _]]; [|lia]. rewrite H in P |- *. destruct (b_just l0 c B0 p Hp P) as (t & Ht & Ct & Et & I). exists t. repeat (split; [auto|]); [|exact I].
            rewrite (Same t Ht); lia.
        + intros p q Hp Hq Cpp Cq P E'. destruct (Z.eq_dec (lab l' p) (c + 1)) as [Ep|Np].
          * apply dr_trans with s; [apply dr_sym; auto|]; apply CoreIn; auto. lia.
          * destruct (Old p Hp) as [H|[H _]]; [|lia]. destruct (Old q Hq) as [H'|[H' _]]; [|lia]. apply (b_seed l0 c B0); auto; [lia|congruence].
        + intros v Hv. destruct (Z.eq_dec v (c + 1)) as [->|N]; [exists s; auto|]. destruct (b_used l0 c B0 v ltac:(lia)) as (p & Hp & Cpp & Ep). exists p. repeat (split; [auto|]). rewrite (Same p Hp); lia.
      - intros p Hp P. destruct (Old p Hp) as [H|[H _]]; lia.
    Qed.
  End Expand.

  Lemma step_between fuel l c i : enough_fuel nb n <= fuel -> between l c -> i < n ->
    exists l' c', cluster_step nbr minPoints fuel (l, c) i = Some (Ok (l', c')) /\ between l' c' /\
      (forall p, p < n -> lab l p <> 0%Z -> lab l' p <> 0%Z) /\ lab l' i <> 0%Z.
  Proof.
    intros F B Hi. assert (Len := b_len l c B). assert (R := b_range l c B). assert (Cp := b_pos l c B). unfold cluster_step. rewrite at_lab by lia.
    destruct (Z.eqb_spec (lab l i) 0) as [E|E]; cbn [negb]; [|exists l, c; auto]. rewrite (Nbr i Hi). destruct (few minPoints (nb i)) eqn:Fw.
    - apply few_core' in Fw. destruct (upd_lab l i (-1) ltac:(lia)) as (l' & El & Ll & Nl). rewrite El. exists l', c. split; [reflexivity|].
      assert (Pos : forall p, (0 < lab l' p)%Z -> p <> i /\ lab l' p = lab l p) by (intros p P; rewrite Nl in *; destruct (Nat.eqb_spec p i); [lia|auto]).
      assert (Pos' : forall p, (0 < lab l p)%Z -> lab l' p = lab l p) by (intros p P; rewrite Nl; destruct (Nat.eqb_spec p i) as [->|]; [lia|auto]).
      split; [|split].
      + constructor.
        * lia.
        * auto.
        * intros p Hp. rewrite Nl. specialize (R p Hp). destruct (p =? i); lia.
        * intros p Hp Cpp. rewrite Nl. destruct (Nat.eqb_spec p i) as [->|N]; [easy|now apply (b_core l c B)].
        * intros p q Hp Cpp P I. destruct (Pos p P) as [_ Ep]. rewrite Ep in *. destruct (b_closed l c B p q Hp Cpp P I) as [K1 K2]. rewrite (Pos' q K1). auto.
        * intros p Hp P. destruct (Pos p P) as [_ Ep]. rewrite Ep in *. destruct (b_just l c B p Hp P) as (t & Ht & Ct & Et & I). exists t. repeat (split; [auto|]); [|exact I]. rewrite (Pos' t); lia.
        * intros p q Hp Hq Cpp Cq P E'. destruct (Pos p P) as [_ Ep]. destruct (Pos q ltac:(lia)) as [_ Eq]. apply (b_seed l c B); auto; [lia|congruence].
        * intros v Hv. destruct (b_used l c B v Hv) as (p & Hp & Cpp & Ep). exists p. repeat (split; [auto|]). rewrite (Pos' p); lia.
      + intros p Hp P. rewrite Nl. destruct (p =? i); [lia|exact P].
      + rewrite Nl, Nat.eqb_refl. lia.
    - apply few_core in Fw. destruct (expand_between l c i B Hi Fw E fuel F) as (l' & El & B' & M & Ls). rewrite El. exists l', (c + 1)%Z. split; [reflexivity|]. split; [exact B'|]. split; [exact M|lia].
  Qed.
  Lemma loop_between fuel : enough_fuel nb n <= fuel -> forall is l c, between l c -> (forall i, In i is -> i < n) ->
    exists l' c', cluster_loop nbr minPoints fuel (l, c) is = Some (Ok (l', c')) /\ between l' c' /\
      (forall p, p < n -> lab l p <> 0%Z -> lab l' p <> 0%Z) /\ forall p, In p is -> lab l' p <> 0%Z.
  Proof.
    intros F. induction is as [|i is IH]; intros l c B H; cbn [cluster_loop].
    - exists l, c. split; [reflexivity|]. split; [exact B|]. split; [auto|intros p []].
    - destruct (step_between fuel l c i F B (H i (or_introl eq_refl))) as (l1 & c1 & E1 & B1 & M1 & L1). rewrite E1.
      destruct (IH l1 c1 B1 ltac:(intros; apply H; now right)) as (l2 & c2 & E2 & B2 & M2 & L2). exists l2, c2. split; [exact E2|]. split; [exact B2|]. split; [auto|].
      intros p [<-|Hp]; [apply M2; [apply H; now left|exact L1]|auto].
  Qed.

  Lemma cluster_spec fuel : enough_fuel nb n <= fuel ->
    exists l c, cluster nbr minPoints fuel n = Some (Ok l) /\ length l = n /\
      (forall p, p < n -> lab l p = (-1)%Z \/ (1 <= lab l p <= c)%Z) /\
      (forall p, p < n -> core p -> (0 < lab l p)%Z) /\
      (forall p q, p < n -> q < n -> core p -> core q -> (lab l p = lab l q <-> dr p q)) /\
      (forall p, p < n -> (lab l p = (-1)%Z <-> forall t, t < n -> core t -> t <> p /\ ~ In p (nb t))) /\
      (forall p, p < n -> (0 < lab l p)%Z -> exists t, t < n /\ core t /\ In p (nb t) /\ lab l t = lab l p) /\
      (forall v, (1 <= v <= c)%Z -> exists p, p < n /\ core p /\ lab l p = v).
  Proof.
    intros F. unfold cluster. assert (B0 : between (repeat 0%Z n) 0).
    { assert (Z0 : forall p, lab (repeat 0%Z n) p = 0%Z) by (intros p; unfold lab; apply nth_repeat).
      constructor; [apply repeat_length|lia| | | | | |intros v Hv; lia]; intros p; rewrite Z0; intros; lia. }
    destruct (loop_between fuel F (seq 0 n) _ _ B0 ltac:(intros i Hi; apply in_seq in Hi; lia)) as (l & c & E & B & _ & Lb). rewrite E. exists l, c.
    assert (NZ : forall p, p < n -> lab l p <> 0%Z) by (intros p Hp; apply Lb, in_seq; lia).
    assert (R := b_range l c B). assert (Pos : forall p, p < n -> core p -> (0 < lab l p)%Z).
    { intros p Hp C. specialize (R p Hp). specialize (NZ p Hp). assert (K := b_core l c B p Hp C). lia. }
    split; [reflexivity|]. split; [apply (b_len l c B)|]. split; [|split; [exact Pos|split; [|split; [|split]]]].
    - intros p Hp. specialize (R p Hp). specialize (NZ p Hp). lia.
    - intros p q Hp Hq Cp Cq. split; [intros H; apply (b_seed l c B); auto|]. intros D. symmetry. apply (closed_dr l c B); auto.
    - intros p Hp. split.
      + intros P t Ht Ct. specialize (Pos t Ht Ct). split; [intros ->; lia|]. intros I. destruct (b_closed l c B t p Ht Ct Pos I) as [K _]. lia.
      + intros H. specialize (R p Hp). specialize (NZ p Hp). destruct (Z_lt_dec 0 (lab l p)) as [P|P]; [|lia].
        destruct (b_just l c B p Hp P) as (t & Ht & Ct & _ & I). now destruct (H t Ht Ct).
    - intros p Hp P. destruct (b_just l c B p Hp P) as (t & Ht & Ct & Et & I). exists t. auto.
    - exact (b_used l c B).
  Qed.
End Dbscan.

(* C28 *)
Theorem cluster_labels nb nbr minPoints n fuel : (forall i, i < n -> nbr i = Ok (nb i)) -> (forall i j, i < n -> In j (nb i) -> j < n) ->
  (forall i, i < n -> core nb minPoints i -> In i (nb i)) ->
  (forall i j, i < n -> j < n -> core nb minPoints i -> core nb minPoints j -> In j (nb i) -> In i (nb j)) ->
  enough_fuel nb n <= fuel ->
  exists l, cluster nbr minPoints fuel n = Some (Ok l) /\ length l = n /\ dbscan_labels nb minPoints n (fun p => nth p l 0%Z).
Proof.
  intros H1 H2 H3 H4 F. destruct (cluster_spec nb nbr minPoints n H1 H2 H3 H4 fuel F) as (l & c & E & L & R & C & S & N & B & U). exists l. split; [exact E|]. split; [exact L|]. fold (lab l).
  change (fun p => nth p l 0%Z) with (lab l). constructor; auto.
  - intros p Hp. destruct (R p Hp) as [|]; [now left|right; lia].
  - intros p v Hp Hv. apply U. destruct (R p Hp) as [|]; lia.
  - intros p Hp. rewrite (N p Hp). split.
    + intros H. split; [intros Cp; now destruct (H p Hp Cp)|]. intros t Ht Ct. now destruct (H t Ht Ct).
    + intros [Cp H] t Ht Ct. split; [congruence|auto].
Qed.

Lemma core_ext nb nb' m i : length (nb i) = length (nb' i) -> core nb m i <-> core nb' m i.
Proof. unfold core. now intros ->. Qed.
Lemma dr_ext nb nb' m n : (forall i j, i < n -> In j (nb i) -> j < n) -> (forall i, i < n -> length (nb i) = length (nb' i)) -> (forall i j, i < n -> In j (nb i) <-> In j (nb' i)) ->
  forall p q, p < n -> density_reachable nb m p q -> q < n /\ density_reachable nb' m p q.
Proof.
  intros Bd Ln Mem p q Hp. induction 1 as [i C|i j k H IH Hk C].
  - split; [auto|]. constructor. now apply (core_ext nb nb' m i (Ln i Hp)).
  - destruct (IH Hp) as [Hj D]. assert (Hk' := Bd _ _ Hj Hk). split; [exact Hk'|]. eapply dr_step; [exact D|now apply Mem|]. now apply (core_ext nb nb' m k (Ln k Hk')).
Qed.
Lemma labels_ext nb nb' m n f : (forall i j, i < n -> In j (nb i) -> j < n) -> (forall i, i < n -> length (nb i) = length (nb' i)) -> (forall i j, i < n -> In j (nb i) <-> In j (nb' i)) ->
  dbscan_labels nb m n f -> dbscan_labels nb' m n f.
Proof.
  intros Bd Ln Mem [T Nu C Sa No Bo].
  assert (CE : forall i, i < n -> core nb m i <-> core nb' m i) by (intros i Hi; now apply core_ext, Ln).
  constructor.
  - exact T.
  - intros p v Hp Hv. destruct (Nu p v Hp Hv) as (q & Hq & Cq & E). exists q. rewrite <- CE by auto. auto.
  - intros p Hp H. apply CE in H; auto.
  - intros p q Hp Hq Cp Cq. apply CE in Cp, Cq; auto. rewrite Sa by auto. split; intros D; [eapply dr_ext; eauto|].
    apply (dr_ext nb' nb m n) with (p := p) (q := q); auto.
    + intros i j Hi Hj. apply (Bd i j Hi). now apply Mem.
    + intros i Hi. now rewrite Ln.
    + intros i j Hi. now rewrite Mem.
  - intros p Hp. rewrite (No p Hp). rewrite (CE p Hp). split; intros [H1 H2]; (split; [exact H1|]); intros t Ht Ct I; (apply CE in Ct; [|exact Ht]); (apply Mem in I; [|exact Ht]); apply (H2 t Ht Ct I).
  - intros p Hp P. destruct (Bo p Hp P) as (t & Ht & Ct & I & E). exists t. rewrite <- CE by auto. rewrite <- Mem by auto. auto.
Qed.
Lemma fuel_bound nb n : (forall i, i < n -> length (nb i) <= n) -> enough_fuel nb n <= n + n * n.
Proof.
  intros H. unfold enough_fuel. apply Nat.add_le_mono.
  - apply list_max_le, Forall_forall. intros x Hx. apply in_map_iff in Hx as (i & <- & Hi). apply in_seq in Hi. apply H. lia.
  - assert (G : forall s m, s + m <= n -> list_sum (map (fun i => length (nb i)) (seq s m)) <= m * n).
    { intros s m. revert s. induction m as [|m IH]; intros s L; [cbn; lia|]. change (length (nb s) + list_sum (map (fun i => length (nb i)) (seq (S s) m)) <= n + m * n).
      assert (length (nb s) <= n) by (apply H; lia). specialize (IH (S s)). lia. }
    apply (G 0 n). lia.
Qed.

Theorem dbscan_on dom good dist diff mag srt k data minPoints epsilon size fuel : sound_on dom good dist diff mag -> level_sort srt -> uniform k data -> size <= length data ->
  Forall (Forall dom) data -> good epsilon -> (forall x y, In x data -> In y data -> dist x y = dist y x) -> (forall x, In x data -> dist x x < epsilon)%Z -> (forall x y, In x data -> In y data -> dist x y <> epsilon) ->
  let n := if size =? 0 then length data else size in
  n + n * n <= fuel ->
  exists l, dbscan dist diff mag srt fuel data minPoints epsilon size = Some (Ok l) /\ length l = n /\
    dbscan_labels (ball dist data epsilon n) minPoints n (fun p => nth p l 0%Z).
Proof.
  intros Num Srt U Hsz Fd Gr Sy Refl Tie n F.
  assert (Hn : n <= length data) by (unfold n; destruct (size =? 0); lia).
  assert (Hn0 : (if n =? 0 then length data else n) = n).
  { unfold n. destruct (size =? 0) eqn:E; [destruct (length data =? 0); reflexivity|now rewrite E]. }
  destruct (kd_build_spec srt k data n Srt U Hn) as (t & E & O & N & _ & El). unfold dbscan. fold n. rewrite E. cbv zeta in El. rewrite Hn0 in El. assert (Kp : 0 < k) by apply U.
  assert (Da : alldom dom t). { intros [z j] Hz. apply El in Hz as [_ Hz]. apply nth_error_In in Hz. rewrite Forall_forall in Fd. now apply Fd. }
  set (nbr := fun i => do x <- at_ data i; neighborhoodIndices dist diff mag t x epsilon).
  set (nb := fun i => match nbr i with Ok l => l | UB => [] end).
  assert (InD : forall i, i < n -> In (nth i data []) data) by (intros; apply nth_In; lia).
  assert (Nb : forall i, i < n -> nbr i = Ok (nb i) /\ NoDup (nb i) /\ forall j, In j (nb i) <-> In j (ball dist data epsilon n i)).
  { intros i Hi. unfold nb, nbr, at_. destruct (nth_error data i) as [x|] eqn:Ex; [|apply nth_error_None in Ex; lia]. cbn [bind].
    assert (Ix : nth i data [] = x) by now apply nth_error_nth.
    assert (Lx : length x = k) by (apply U; rewrite <- Ix; auto).
    assert (Fx : Forall dom x) by (rewrite Forall_forall in Fd; apply Fd; rewrite <- Ix; auto).
    destruct (neighborhood_spec dom good dist diff mag Num k Kp x Lx Fx epsilon Gr t 0 O Kp Da N) as (l & Q & Nd & S1 & S2). unfold neighborhoodIndices. rewrite Q. split; [reflexivity|].
    split; [exact Nd|]. intros j. unfold ball. rewrite filter_In, in_seq, Z.leb_le, Ix. split.
    - intros Hj. apply in_map_iff in Hj as ([y j'] & <- & Hq). apply S1 in Hq as [Hq D]. apply El in Hq as [Hq Hy]. cbn [snd fst] in *. rewrite (nth_error_nth _ _ _ Hy). split; [lia|exact D].
    - intros [Hj D]. assert (j < n) by lia. destruct (nth_error data j) as [y|] eqn:Ey; [|apply nth_error_None in Ey; lia]. rewrite (nth_error_nth _ _ _ Ey) in D.
      apply in_map_iff. exists (y, j). split; [reflexivity|]. apply S2; [now apply El|]. cbn [fst]. assert (K := Tie y x ltac:(eapply nth_error_In; eauto) ltac:(eapply nth_error_In; eauto)). lia. }
  assert (Ln : forall i, i < n -> length (nb i) = length (ball dist data epsilon n i)).
  { intros i Hi. destruct (Nb i Hi) as (_ & Nd & M). apply Permutation.Permutation_length, Permutation.NoDup_Permutation; auto. apply NoDup_filter, seq_NoDup. }
  assert (Bd : forall i j, i < n -> In j (nb i) -> j < n) by (intros i j Hi Hj; apply Nb in Hj; auto; apply filter_In in Hj as [Hj _]; apply in_seq in Hj; lia).
  destruct (cluster_labels nb nbr minPoints n fuel) as (l & Ec & Ll & DL).
  - intros i Hi. now apply Nb.
  - exact Bd.
  - intros i Hi _. apply Nb; auto. apply filter_In. split; [apply in_seq; lia|]. apply Z.leb_le. specialize (Refl _ (InD i Hi)). lia.
  - intros i j Hi Hj _ _ H. apply Nb in H; auto. apply Nb; auto. apply filter_In in H as [_ H]. apply filter_In. split; [apply in_seq; lia|]. rewrite Sy by auto. exact H.
  - assert (G := fuel_bound nb n). assert (enough_fuel nb n <= n + n * n); [|lia]. apply G. intros i Hi. rewrite Ln by auto. unfold ball. rewrite <- (seq_length n 0) at 2. clear. induction (seq 0 n) as [|a l IH]; cbn; [lia|]. destruct (_ <=? _)%Z; cbn; lia.
  - exists l. split; [exact Ec|]. split; [exact Ll|]. apply (labels_ext nb); auto. intros i j Hi. now apply Nb.
Qed.
Theorem dbscan_spec dist diff mag srt k data minPoints epsilon size fuel : sound_numbers dist diff mag -> level_sort srt -> uniform k data -> size <= length data ->
  (forall x y, dist x y = dist y x) -> (forall x, In x data -> dist x x < epsilon)%Z -> (forall x y, In x data -> In y data -> dist x y <> epsilon) ->
  let n := if size =? 0 then length data else size in
  n + n * n <= fuel ->
  exists l, dbscan dist diff mag srt fuel data minPoints epsilon size = Some (Ok l) /\ length l = n /\
    dbscan_labels (ball dist data epsilon n) minPoints n (fun p => nth p l 0%Z).
Proof.
  intros Num Srt U Hsz Sy Refl Tie. apply (dbscan_on (fun _ => True) (fun _ => True) dist diff mag srt k); auto using sound_everywhere.
  apply Forall_forall. intros; apply all_true.
Qed.
