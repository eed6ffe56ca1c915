(* DenStreamRuns.v -- proofs about whole runs of DenStream. *)
From Coq Require Import List Arith ZArith QArith Qcanon Bool Lia Permutation.
From Verif Require Import Base KdModel SpecKd KdProofs DbscanProofs DenStreamModel SpecDenStream DenStreamProofs.
Import ListNotations.
Open Scope nat_scope.

Lemma at_some {A} (l : list A) i a : nth_error l i = Some a -> at_ l i = Ok a.
Proof. unfold at_. now intros ->. Qed.
Lemma upd_split {A} (l1 l2 : list A) a f : upd (l1 ++ a :: l2) (length l1) f = Ok (l1 ++ f a :: l2).
Proof. induction l1 as [|b l1 IH]; cbn; [reflexivity|]. now rewrite IH. Qed.
Lemma erase_split {A} (l1 l2 : list A) a : erase_at (l1 ++ a :: l2) (length l1) = l1 ++ l2.
Proof. unfold erase_at. f_equal. { rewrite firstn_app, Nat.sub_diag, firstn_all. apply app_nil_r. } induction l1 as [|b l1 IH]; [reflexivity|exact IH]. Qed.
Lemma filter_map_fst {A B} (f : A -> bool) (l : list (A * B)) : filter f (map fst l) = map fst (filter (fun e => f (fst e)) l).
Proof. induction l as [|[a b] l IH]; cbn; [reflexivity|]. destruct (f a); cbn; now rewrite IH. Qed.
Lemma NoDup_app_parts {A} (l1 l2 : list A) : NoDup (l1 ++ l2) <-> NoDup l1 /\ NoDup l2 /\ forall x, In x l1 -> ~ In x l2.
Proof.
  induction l1 as [|a l1 IH]; cbn.
  - split; [intros H; repeat split; auto; constructor|tauto].
  - rewrite !NoDup_cons_iff, IH, in_app_iff. split.
    + intros (H & H1 & H2 & H3). repeat split; auto. intros x [<-|I]; auto.
    + intros ((H & H1) & H2 & H3). repeat split; auto. intros [I|I]; [auto|]. exact (H3 a (or_introl eq_refl) I).
Qed.
Lemma in_concat_filter {A B} (f : A * list B -> bool) l x : In x (concat (map snd (filter f l))) -> In x (concat (map snd l)).
Proof.
  induction l as [|a l IH]; cbn; [auto|]. destruct (f a); cbn; rewrite !in_app_iff; intuition.
Qed.
Lemma NoDup_concat_filter {A B} (f : A * list B -> bool) l : NoDup (concat (map snd l)) -> NoDup (concat (map snd (filter f l))).
Proof.
  induction l as [|a l IH]; cbn; [auto|]. rewrite NoDup_app_parts. intros (H1 & H2 & H3). destruct (f a); cbn; [|auto].
  apply NoDup_app_parts. split; [auto|]. split; [auto|]. intros x I I'. apply in_concat_filter in I'. exact (H3 x I I').
Qed.
Lemma foldr_ub_map {A B S} (body : S -> B -> res S) (f : A -> B) l : forall s, foldr_ub body s (map f l) = foldr_ub (fun s a => body s (f a)) s l.
Proof. induction l as [|a l IH]; intros s; cbn; [reflexivity|]. destruct (body s (f a)); cbn; auto. Qed.
Lemma foldr_ub_seq {S} (body : S -> nat -> res S) (I : nat -> S -> Prop) n : forall s0 st,
  I s0 st -> (forall i st, s0 <= i < s0 + n -> I i st -> exists st', body st i = Ok st' /\ I (Datatypes.S i) st') ->
  exists st', foldr_ub body st (seq s0 n) = Ok st' /\ I (s0 + n) st'.
Proof.
  induction n as [|n IH]; intros s0 st H Hs; cbn [seq foldr_ub].
  - exists st. rewrite Nat.add_0_r. auto.
  - destruct (Hs s0 st) as (st1 & E & I1); [lia|exact H|]. rewrite E. cbn [bind]. destruct (IH (Datatypes.S s0) st1 I1) as (st' & E' & I'); [intros; apply Hs; [lia|assumption]|].
    exists st'. split; [exact E'|]. now rewrite Nat.add_succ_r.
Qed.
Lemma skipn_seq {A} (d : A) l n : skipn n l = map (fun i => nth i l d) (seq n (length l - n)).
Proof.
  revert n. induction l as [|a l IH]; intros n; [now destruct n|]. destruct n as [|n].
  - cbn [skipn length]. rewrite Nat.sub_0_r. cbn [seq map nth]. f_equal. rewrite <- seq_shift, map_map. specialize (IH 0). cbn [skipn] in IH. rewrite Nat.sub_0_r in IH. exact IH.
  - cbn [skipn length]. rewrite IH. change (Datatypes.S (length l) - Datatypes.S n) with (length l - n). rewrite <- seq_shift, map_map. reflexivity.
Qed.
Lemma Forall_split_replace {A} (Q : A -> Prop) l1 l2 a b : Forall Q (l1 ++ a :: l2) -> Q b -> Forall Q (l1 ++ b :: l2).
Proof. rewrite !Forall_app. intros [H1 H2] Hb. split; [exact H1|]. inversion H2; subst. now constructor. Qed.

Section Runs.
  Variable decay : Z -> Qc.
  Variable root : Qc -> Qc.
  Variable distq : list Qc -> list Qc -> Qc.
  Variable eps : Qc.
  Variable Tp : Z.
  Variable Fad : fading decay.
  Variable TpN : Tp <> 0%Z.
  Variable k : nat.
  Variable data : list point.
  Variable Dim : forall x, In x data -> length x = k.
  Variable N0 : nat.
  Let qdata := map (map q_of) data.
  Let hist (g : list nat) := history_of N0 data g.
  Let tracked (e : micro * list nat) : Prop := summary decay k (fst e) (hist (snd e)).
  Variable start : list nat -> Prop.        (* groups of the initial clusters *)
  Variable noise : Prop.                    (* no cluster was found *)
  Definition tight (g : list nat) : Prop := forall T, q_le (root (faded_spread decay T (hist g) k)) eps = true.
  (* The group grew out of an initial cluster, or out of an outlier group when its weight exceeded 2. *)
  Definition heavy (g : list nat) : Prop := exists g0 j, g = g0 ++ [j] /\ (beta_mu < faded_weight decay (arrival N0 j) (hist g))%Qc.
  Definition rooted (g : list nat) : Prop := exists g1 g2, g = g1 ++ g2 /\ (start g1 \/ heavy g1).
  Let pgood (e : micro * list nat) : Prop := (start (snd e) \/ tight (snd e)) /\ (snd e = [] -> noise) /\ rooted (snd e).
  Let groups (l : list (micro * list nat)) : list nat := concat (map snd l).

  Record inv (i : nat) (P O : list (micro * list nat)) : Prop := {
    iv_sum : Forall tracked (P ++ O);
    iv_nodup : NoDup (groups (P ++ O));
    iv_bound : forall j, In j (groups (P ++ O)) -> j < i;
    iv_p : Forall pgood P }.

  Lemma inv_perm i P O P' O' : inv i P O -> Forall tracked (P' ++ O') -> Forall pgood P' ->
    Permutation (groups (P' ++ O')) (i :: groups (P ++ O)) -> inv (S i) P' O'.
  Proof.
    intros [Su N B Pg] Su' Pg' Pm. split; [exact Su'| | |exact Pg'].
    - apply (Permutation_NoDup (Permutation_sym Pm)). constructor; [intros I; apply B in I; lia|exact N].
    - intros j I. apply (Permutation_in _ Pm) in I. destruct I as [<-|I]; [lia|]. apply B in I. lia.
  Qed.
  Lemma nth_pairs (l : list (micro * list nat)) j m : nth_error (map fst l) j = Some m -> exists l1 l2 g, l = l1 ++ (m, g) :: l2 /\ length l1 = j.
  Proof.
    intros E. rewrite nth_error_map in E. destruct (nth_error l j) as [[m' g]|] eqn:N; [|discriminate]. inversion E; subst.
    apply nth_error_split in N as (l1 & l2 & -> & L). exists l1, l2, g. auto.
  Qed.
  Lemma hist_snoc g i : hist (g ++ [i]) = hist g ++ [(arrival N0 i, map q_of (nth i data []))].
  Proof. unfold hist, history_of. now rewrite map_app. Qed.
  Lemma qpoint i : i < length data -> nth i qdata [] = map q_of (nth i data []) /\ length (map q_of (nth i data [])) = k.
  Proof. intros L. split; [unfold qdata; now rewrite <- (map_nth (map q_of))|]. rewrite map_length. apply Dim, nth_In, L. Qed.
  Lemma groups_mid l1 l2 O m m' g i : Permutation (groups ((l1 ++ (m', g ++ [i]) :: l2) ++ O)) (i :: groups ((l1 ++ (m, g) :: l2) ++ O)).
  Proof.
    unfold groups. rewrite <- !app_assoc. cbn [app]. rewrite !map_app, !concat_app. cbn [map snd concat]. rewrite <- !app_assoc.
    cbn [app]. symmetry. rewrite (app_assoc _ g), (app_assoc _ g (i :: _)). apply Permutation_middle.
  Qed.
  Lemma tight_ext (g : list nat) T : q_le (root (faded_spread decay T (hist g) k)) eps = true -> tight g.
  Proof. intros H T'. now rewrite (spread_later decay Fad k T T'). Qed.
  Lemma snoc_nonempty {A} (l : list A) a : l ++ [a] <> [].
  Proof. now destruct l. Qed.

  Lemma outlier_step i P O : inv i P O -> i < length data ->
    exists P' O', new_outlier decay k (map fst P, map fst O) (map q_of (nth i data [])) (arrival N0 i) = Ok (map fst P', map fst O') /\ inv (S i) P' O' /\ incl (groups P) (groups P').
  Proof.
    intros I L. destruct (qpoint i L) as [_ Lq]. unfold new_outlier.
    destruct (insert_spec decay Fad k (new_micro (arrival N0 i) k) [] (map q_of (nth i data [])) (arrival N0 i)) as (m' & E & S' & _); [apply summary_new|exact Lq|].
    rewrite E. cbn [bind]. exists P, (O ++ [(m', [i])]). split; [cbn [fst snd]; now rewrite map_app|]. split; [|apply incl_refl]. destruct I as [Su N B Pg]. apply (inv_perm i P O); [now split| |exact Pg|].
    - rewrite app_assoc. apply Forall_app. split; [exact Su|]. constructor; [exact S'|constructor].
    - unfold groups. rewrite app_assoc, map_app, concat_app. cbn [map snd concat app]. symmetry. apply Permutation_cons_append.
  Qed.
  Lemma merge_outlier_step i P O : inv i P O -> i < length data ->
    exists P' O', merge_outlier decay root distq eps k (map fst P, map fst O) (map q_of (nth i data [])) (arrival N0 i) = Ok (map fst P', map fst O') /\ inv (S i) P' O' /\ incl (groups P) (groups P').
  Proof.
    intros I L. destruct (qpoint i L) as [_ Lq]. unfold merge_outlier. destruct (Nat.ltb_spec 0 (length (map fst O))) as [L0|_]; [|now apply outlier_step].
    destruct (nearest_spec distq (map q_of (nth i data [])) (map fst O)) as (j & m & En & Nm & _); [intros E; rewrite E in L0; cbn in L0; lia|].
    rewrite En. cbn [bind]. rewrite (at_some _ _ _ Nm). cbn [bind]. destruct (nth_pairs O j m Nm) as (l1 & l2 & g & -> & Lj). destruct I as [Su N B Pg].
    assert (Sm : summary decay k m (hist g)).
    { rewrite Forall_forall in Su. apply (Su (m, g)). apply in_or_app. right. apply in_elt. }
    rewrite (mergeRadius_spec decay root Fad k m (hist g) _ _ (arrival N0 i) Sm Lq). cbn [bind]. rewrite <- hist_snoc.
    destruct (q_le _ eps) eqn:Q; [|apply outlier_step; [now split|exact L]].
    destruct (insert_spec decay Fad k m (hist g) (map q_of (nth i data [])) (arrival N0 i) Sm Lq) as (m' & E & S' & _). rewrite <- hist_snoc in S'.
    rewrite E. cbn [bind]. rewrite map_app. cbn [map fst]. rewrite <- Lj, <- (map_length fst l1), upd_split. cbn [bind].
    assert (Su2 : Forall tracked (P ++ l1 ++ (m', g ++ [i]) :: l2)).
    { rewrite app_assoc in Su |- *. eapply Forall_split_replace; [exact Su|exact S']. }
    assert (Pm : Permutation (groups (P ++ l1 ++ (m', g ++ [i]) :: l2)) (i :: groups (P ++ l1 ++ (m, g) :: l2))).
    { assert (K := groups_mid (P ++ l1) l2 [] m m' g i). rewrite !app_nil_r, <- !app_assoc in K. exact K. }
    destruct (q_lt beta_mu _) eqn:W.
    - exists (P ++ [(m', g ++ [i])]), (l1 ++ l2). split; [rewrite erase_split, !map_app; reflexivity|].
      split; [|intros x X; unfold groups; rewrite map_app, concat_app; apply in_or_app; now left].
      assert (Pm0 : Permutation ((P ++ [(m', g ++ [i])]) ++ l1 ++ l2) (P ++ l1 ++ (m', g ++ [i]) :: l2)).
      { rewrite <- app_assoc. apply Permutation_app_head. cbn [app]. apply Permutation_middle. }
      apply (inv_perm i P (l1 ++ (m, g) :: l2)); [now split| | |].
      + rewrite Forall_forall in *. intros x X. apply Su2, (Permutation_in _ Pm0), X.
      + apply Forall_app. split; [exact Pg|]. constructor; [|constructor]. split; [right; eapply tight_ext; exact Q|]. split; [intros X; exfalso; exact (snoc_nonempty _ _ X)|].
        exists (g ++ [i]), []. split; [symmetry; apply app_nil_r|]. right. exists g, i. split; [reflexivity|]. apply q_lt_iff in W.
        now rewrite (weight_spec decay Fad k m' _ _ S') in W.
      + etransitivity; [|exact Pm]. unfold groups. rewrite <- !flat_map_concat_map. now apply Permutation_flat_map.
    - exists P, (l1 ++ (m', g ++ [i]) :: l2). split; [now rewrite map_app|]. split; [|apply incl_refl]. apply (inv_perm i P (l1 ++ (m, g) :: l2)); [now split|exact Su2|exact Pg|exact Pm].
  Qed.
  Lemma merging_step i P O : inv i P O -> i < length data ->
    exists P' O', merging decay root distq eps k (map fst P, map fst O) (map q_of (nth i data [])) (arrival N0 i) = Ok (map fst P', map fst O') /\ inv (S i) P' O' /\ incl (groups P) (groups P').
  Proof.
    intros I L. destruct (qpoint i L) as [_ Lq]. unfold merging. destruct (Nat.ltb_spec 0 (length (map fst P))) as [L0|_]; [|now apply merge_outlier_step].
    destruct (nearest_spec distq (map q_of (nth i data [])) (map fst P)) as (j & m & En & Nm & _); [intros E; rewrite E in L0; cbn in L0; lia|].
    rewrite En. cbn [bind]. rewrite (at_some _ _ _ Nm). cbn [bind]. destruct (nth_pairs P j m Nm) as (l1 & l2 & g & -> & Lj). destruct I as [Su N B Pg].
    assert (Sm : summary decay k m (hist g)).
    { rewrite Forall_forall in Su. apply (Su (m, g)). apply in_or_app. left. apply in_elt. }
    rewrite (mergeRadius_spec decay root Fad k m (hist g) _ _ (arrival N0 i) Sm Lq). cbn [bind]. rewrite <- hist_snoc.
    destruct (q_le _ eps) eqn:Q; [|apply merge_outlier_step; [now split|exact L]].
    destruct (insert_spec decay Fad k m (hist g) (map q_of (nth i data [])) (arrival N0 i) Sm Lq) as (m' & E & S' & _). rewrite <- hist_snoc in S'.
    rewrite E. cbn [bind]. rewrite map_app. cbn [map fst]. rewrite <- Lj, <- (map_length fst l1), upd_split. cbn [bind].
    assert (Pgm : pgood (m, g)) by (rewrite Forall_forall in Pg; apply Pg, in_elt).
    exists (l1 ++ (m', g ++ [i]) :: l2), O. split; [now rewrite map_app|].
    split; [|intros x; unfold groups; rewrite !map_app, !concat_app; cbn [map concat snd]; rewrite !in_app_iff; tauto]. apply (inv_perm i (l1 ++ (m, g) :: l2) O); [now split| | |apply groups_mid].
    - rewrite <- app_assoc in Su |- *. cbn [app] in Su |- *. eapply Forall_split_replace; [exact Su|exact S'].
    - eapply Forall_split_replace; [exact Pg|]. split; [right; eapply tight_ext; exact Q|]. split; [intros X; exfalso; exact (snoc_nonempty _ _ X)|].
      destruct Pgm as (_ & _ & g1 & g2 & Eg & Hg). cbn [snd] in Eg. exists g1, (g2 ++ [i]). split; [cbn [snd]; rewrite Eg; symmetry; apply app_assoc|exact Hg].
  Qed.

  Lemma inv_filter i P O f g : inv i P O -> inv i (filter f P) (filter g O).
  Proof.
    intros [Su N B Pg]. rewrite Forall_forall in Su, Pg.
    assert (Sub : forall x, In x (groups (filter f P ++ filter g O)) -> In x (groups (P ++ O))).
    { intros x. unfold groups. rewrite !map_app, !concat_app, !in_app_iff. intros [H|H]; [left|right]; eapply in_concat_filter; exact H. }
    split.
    - apply Forall_forall. intros x X. apply Su. apply in_app_iff. apply in_app_iff in X as [X|X]; apply filter_In in X; tauto.
    - unfold groups in *. rewrite map_app, concat_app in N |- *. apply NoDup_app_parts in N as (N1 & N2 & N3). apply NoDup_app_parts.
      split; [now apply NoDup_concat_filter|]. split; [now apply NoDup_concat_filter|]. intros x X X'. apply in_concat_filter in X, X'. exact (N3 x X X').
    - intros j J. apply B, Sub, J.
    - apply Forall_forall. intros x X. apply Pg. now apply filter_In in X.
  Qed.

  (* A check takes place after the point that arrives as number i. *)
  Definition check_after (i : nat) : Prop := S i mod 20 = 0 /\ Z.rem (Z.of_nat (S i / 20)) Tp = 0%Z.
  Definition all_heavy (i : nat) (P : list (micro * list nat)) : Prop :=
    check_after i -> forall e, In e P -> (beta_mu <= faded_weight decay (arrival N0 i) (hist (snd e)))%Qc.

  Lemma den_step_ok i ts npt P O : inv i P O -> N0 <= i < length data -> 20 * ts + npt = i -> npt < 20 ->
    exists P' O' ts' npt', den_step decay root distq eps Tp k ((map fst P, map fst O), ts, npt) (nth i qdata []) = Ok ((map fst P', map fst O'), ts', npt') /\
      inv (S i) P' O' /\ 20 * ts' + npt' = S i /\ npt' < 20 /\ all_heavy i P' /\ (~ check_after i -> incl (groups P) (groups P')).
  Proof.
    intros I L E Ln. destruct (qpoint i ltac:(lia)) as [Eq Lq]. unfold den_step. rewrite Eq.
    destruct (if npt + 1 =? streamSpeed then (ts + 1, 0) else (ts, npt + 1)) as [ts' npt'] eqn:T.
    assert (H : 20 * ts' + npt' = S i /\ npt' < 20).
    { unfold streamSpeed in T. destruct (Nat.eqb_spec (npt + 1) 20); inversion T; subst; lia. }
    destruct H as [H1 H2]. assert (Hd : ts' = S i / 20) by (apply Nat.div_unique with npt'; lia). assert (Hm : npt' = S i mod 20) by (apply Nat.mod_unique with ts'; lia).
    assert (A : Z.of_nat ts' = arrival N0 i).
    { unfold arrival. destruct (Nat.ltb_spec i N0); [lia|]. f_equal. rewrite Hd. f_equal. lia. }
    assert (C : ((Z.rem (Z.of_nat ts') Tp =? 0)%Z && (npt' =? 0) = true) <-> check_after i).
    { unfold check_after. rewrite andb_true_iff, Z.eqb_eq, Nat.eqb_eq, Hd, Hm. tauto. }
    rewrite A in C |- *. destruct (merging_step i P O I ltac:(lia)) as (P' & O' & Em & I' & Inc). rewrite Em. cbn [bind].
    destruct (Z.eqb_spec Tp 0); [contradiction|]. destruct (_ && _).
    - unfold prune. cbn [fst snd]. rewrite !filter_map_fst. do 4 eexists. split; [reflexivity|]. split; [apply inv_filter; exact I'|]. split; [exact H1|]. split; [exact H2|].
      split; [|intros X; exfalso; apply X; now apply C]. intros _ e He. apply filter_In in He as [He W]. apply negb_true_iff, q_lt_false in W.
      rewrite (weight_spec decay Fad k (fst e) (hist (snd e))) in W; [exact W|]. destruct I' as [Su _ _ _]. rewrite Forall_forall in Su. apply (Su e). apply in_or_app. now left.
    - do 4 eexists. split; [reflexivity|]. split; [exact I'|]. split; [exact H1|]. split; [exact H2|]. split; [|auto]. intros X. apply C in X. discriminate.
  Qed.
  Lemma den_loop P : inv N0 P [] -> N0 <= length data ->
    exists P' O' ts npt, foldr_ub (den_step decay root distq eps Tp k) ((map fst P, []), N0 / streamSpeed, N0 mod streamSpeed) (skipn N0 qdata) = Ok ((map fst P', map fst O'), ts, npt) /\
      inv (length data) P' O' /\ (forall i, N0 <= i -> S i = length data -> all_heavy i P') /\
      ((forall i, N0 <= i < length data -> ~ check_after i) -> incl (groups P) (groups P')).
  Proof.
    intros I L. assert (Lqd : length qdata = length data) by apply map_length. rewrite (skipn_seq []), foldr_ub_map, Lqd.
    destruct (foldr_ub_seq (fun s a => den_step decay root distq eps Tp k s (nth a qdata []))
      (fun i st => exists P' O' ts npt, st = ((map fst P', map fst O'), ts, npt) /\ inv i P' O' /\ 20 * ts + npt = i /\ npt < 20 /\
         (forall j, N0 <= j -> S j = i -> all_heavy j P') /\ ((forall j, N0 <= j < i -> ~ check_after j) -> incl (groups P) (groups P')))
      (length data - N0) N0 ((map fst P, []), N0 / streamSpeed, N0 mod streamSpeed)) as (st & E & P' & O' & ts & npt & -> & I' & _ & _ & Hv & Hk).
    - exists P, [], (N0 / streamSpeed), (N0 mod streamSpeed). split; [reflexivity|]. split; [exact I|]. unfold streamSpeed. split; [|split; [apply Nat.mod_upper_bound; discriminate|]].
      + symmetry. apply Nat.div_mod. discriminate.
      + split; [intros; lia|intros _; apply incl_refl].
    - intros i st Hi (P1 & O1 & ts & npt & -> & I1 & E1 & L1 & _ & K1).
      destruct (den_step_ok i ts npt P1 O1 I1 ltac:(lia) E1 L1) as (P2 & O2 & ts2 & npt2 & E2 & I2 & E3 & L3 & V2 & K2). eexists. split; [exact E2|].
      exists P2, O2, ts2, npt2. split; [reflexivity|]. split; [exact I2|]. split; [exact E3|]. split; [exact L3|]. split.
      + intros j _ Ej. injection Ej as ->. exact V2.
      + intros H. eapply incl_tran; [apply K1; intros j Hj; apply H; lia|]. apply K2, H. lia.
    - replace (N0 + (length data - N0)) with (length data) in * by lia. exists P', O', ts, npt. auto.
  Qed.
End Runs.

Section Init.
  Variable decay : Z -> Qc.
  Variable Fad : fading decay.
  Variable k : nat.
  Variable data : list point.
  Variable Dim : forall x, In x data -> length x = k.
  Variable N0 : nat.
  Variable labels : list Z.
  Variable Len : length labels = N0.
  Variable LenD : N0 <= length data.
  Variable Pos : 0 < N0.
  Variable Lab : forall p, p < N0 -> nth p labels 0%Z = (-1)%Z \/ (0 < nth p labels 0%Z)%Z.
  Let qdata := map (map q_of) data.
  Let hist (g : list nat) := history_of N0 data g.
  (* The points of cluster c. *)
  Local Notation class := (labelled labels).

  Lemma fold_max l a : (a <= fold_left Z.max l a)%Z /\ (forall x, In x l -> x <= fold_left Z.max l a)%Z /\ (fold_left Z.max l a = a \/ In (fold_left Z.max l a) l).
  Proof.
    revert a. induction l as [|b l IH]; intros a; cbn [fold_left]; [split; [lia|]; split; [intros x []|auto]|].
    destruct (IH (Z.max a b)) as (H1 & H2 & H3). split; [lia|]. split.
    - intros x [<-|I]; [lia|auto].
    - destruct H3 as [E|I]; [|right; now right]. rewrite E. destruct (Z.max_spec a b) as [[_ ->]|[_ ->]]; [right; now left|now left].
  Qed.
  Lemma max_label_spec : exists mx, max_label labels = Ok mx /\ (forall p, p < N0 -> (nth p labels 0 <= mx)%Z) /\ (mx = -1 \/ 0 < mx)%Z /\
    (exists q, q < N0 /\ nth q labels 0%Z = mx).
  Proof.
    assert (E : exists l ls, labels = l :: ls) by (destruct labels as [|l ls]; [cbn in Len; lia|eauto]). destruct E as (l & ls & E).
    exists (fold_left Z.max ls l). split; [now rewrite E|]. destruct (fold_max ls l) as (H1 & H2 & H3).
    assert (Q : exists q, q < N0 /\ nth q labels 0%Z = fold_left Z.max ls l).
    { destruct H3 as [H3|H3].
      - exists 0. split; [lia|]. rewrite E, H3. reflexivity.
      - destruct (In_nth _ _ 0%Z H3) as (q & Hq & Eq). exists (S q). split; [rewrite <- Len, E; cbn; lia|]. rewrite E. exact Eq. }
    split; [|split; [|exact Q]].
    - intros p Hp. assert (I : In (nth p labels 0%Z) labels) by (apply nth_In; lia). rewrite E in I at 2. destruct I as [<-|I]; auto.
    - destruct Q as (q & Hq & <-). now apply Lab.
  Qed.
  Lemma class_snoc n c : class (S n) c = class n c ++ (if (nth n labels 0 =? c)%Z then [n] else []).
  Proof. unfold labelled. rewrite seq_S, filter_app. cbn [filter Nat.add]. reflexivity. Qed.
  Lemma class_nodup n c : NoDup (class n c).
  Proof. apply NoDup_filter, seq_NoDup. Qed.
  Lemma classes_nodup n C : forall s, NoDup (concat (map (fun c => class n (Z.of_nat c + 1)) (seq s C))).
  Proof.
    induction C as [|C IH]; intros s; cbn [seq map concat]; [constructor|]. apply NoDup_app_parts. split; [apply class_nodup|]. split; [apply IH|].
    intros x X X'. apply in_concat in X' as (l & Hl & Ix). apply in_map_iff in Hl as (c & <- & Hc). apply in_seq in Hc.
    unfold labelled in X, Ix. apply filter_In in X as [_ X], Ix as [_ Ix]. apply Z.eqb_eq in X, Ix. lia.
  Qed.

  Lemma init_spec : exists mx ms, max_label labels = Ok mx /\ (mx = -1 \/ 0 < mx)%Z /\ (exists q, q < N0 /\ nth q labels 0%Z = mx) /\ (forall p, p < N0 -> (nth p labels 0 <= mx)%Z) /\
    den_init decay N0 qdata labels = Ok ms /\ length ms = (if (mx =? -1)%Z then 1 else Z.to_nat mx) /\
    forall c m, nth_error ms c = Some m -> summary decay k m (hist (class N0 (Z.of_nat c + 1))).
  Proof.
    assert (LenD' : N0 <= @length (list Z) data) by exact LenD. destruct max_label_spec as (mx & Em & Mx & Sg & Q). set (C := if (mx =? -1)%Z then 1 else Z.to_nat mx).
    unfold den_init. rewrite Em. cbn [bind].
    assert (Hd : exists f, at_ qdata 0 = Ok f /\ length f = k).
    { exists (map q_of (nth 0 data [])). split; [|rewrite map_length; apply Dim, nth_In; lia]. apply at_some. unfold qdata. rewrite nth_error_map, (nth_error_nth' _ []) by lia. reflexivity. }
    destruct Hd as (f & Ef & Lf). rewrite Ef. cbn [bind].
    assert (EC : Z.to_nat (if (mx =? -1)%Z then 1%Z else mx) = C) by (unfold C; destruct (mx =? -1)%Z; reflexivity).
    assert (NC : ((if (mx =? -1)%Z then 1%Z else mx) <? 0)%Z = false) by (apply Z.ltb_ge; destruct (Z.eqb_spec mx (-1)); lia).
    rewrite EC, NC, Lf. set (ts := Z.of_nat (N0 / streamSpeed)).
    set (body := fun ps i => _).
    destruct (foldr_ub_seq body (fun n ms => length ms = C /\ forall c m, nth_error ms c = Some m -> summary decay k m (hist (class n (Z.of_nat c + 1)))) N0 0 (repeat (new_micro ts k) C)) as (ms & E & Lm & Hm).
    - split; [apply repeat_length|]. intros c m Hc. apply nth_error_In, repeat_spec in Hc. subst m. unfold labelled. cbn [seq filter]. apply summary_new.
    - intros i ms Hi (Lm & Hm). unfold body. rewrite (at_some labels i (nth i labels 0%Z)) by (apply nth_error_nth'; lia). cbn [bind].
      set (l := nth i labels 0%Z). destruct (Z.eqb_spec l (-1)) as [El|Nl].
      + exists ms. split; [reflexivity|]. split; [exact Lm|]. intros c m Hc. rewrite class_snoc. fold l. destruct (Z.eqb_spec l (Z.of_nat c + 1)); [lia|]. rewrite app_nil_r. now apply Hm.
      + assert (Lp : (0 < l)%Z) by (destruct (Lab i ltac:(lia)) as [K|K]; [contradiction|exact K]). destruct (Z.ltb_spec l 1); [lia|].
        assert (Lx : (l <= mx)%Z) by (apply Mx; lia).
        assert (Cx : Z.to_nat (l - 1) < C) by (unfold C; destruct (Z.eqb_spec mx (-1)); lia).
        assert (Xi : nth_error qdata i = Some (map q_of (nth i data []))) by (unfold qdata; rewrite nth_error_map, (nth_error_nth' _ []) by lia; reflexivity).
        rewrite (at_some _ _ _ Xi). cbn [bind]. destruct (nth_error ms (Z.to_nat (l - 1))) as [m|] eqn:Nm; [|apply nth_error_None in Nm; lia].
        rewrite (at_some _ _ _ Nm). cbn [bind].
        destruct (insert_spec decay Fad k m (hist (class i (Z.of_nat (Z.to_nat (l - 1)) + 1))) (map q_of (nth i data [])) ts) as (m' & Ei & S' & _).
        { now apply Hm. } { rewrite map_length. apply Dim, nth_In. lia. }
        rewrite Ei. cbn [bind]. apply nth_error_split in Nm as (l1 & l2 & -> & L1). rewrite <- L1, upd_split. eexists. split; [reflexivity|].
        split; [rewrite app_length in *; cbn [length] in *; lia|].
        assert (El : (Z.of_nat (length l1) + 1 = l)%Z) by lia. rewrite <- L1, El in S'. clear Cx Ei. intros c mc Hc. rewrite class_snoc. fold l. destruct (Nat.eq_dec c (length l1)) as [->|Nc].
        * rewrite nth_error_app2, Nat.sub_diag in Hc by lia. cbn in Hc. inversion Hc; subst mc. rewrite El, Z.eqb_refl. unfold hist, history_of in *. rewrite map_app. cbn [map].
          replace (arrival N0 i) with ts; [exact S'|]. unfold arrival, ts. destruct (Nat.ltb_spec i N0); [reflexivity|lia].
        * assert (Hc' : nth_error (l1 ++ m :: l2) c = Some mc).
          { destruct (Nat.lt_ge_cases c (length l1)); [rewrite nth_error_app1 in Hc |- * by lia; exact Hc|]. rewrite nth_error_app2 in Hc |- * by lia. destruct (c - length l1) eqn:D; [lia|exact Hc]. }
          destruct (Z.eqb_spec l (Z.of_nat c + 1)); [lia|]. rewrite app_nil_r. now apply Hm.
    - exists mx, ms. cbn [Nat.add] in Hm. auto 10.
  Qed.
End Init.

Lemma combine_fst {A B} (a : list A) : forall b : list B, length a = length b -> map fst (combine a b) = a.
Proof. induction a as [|x a IH]; intros [|y b] H; cbn in *; try discriminate; [reflexivity|]. rewrite IH; [reflexivity|now inversion H]. Qed.
Lemma combine_snd {A B} (a : list A) : forall b : list B, length a = length b -> map snd (combine a b) = b.
Proof. induction a as [|x a IH]; intros [|y b] H; cbn in *; try discriminate; [reflexivity|]. rewrite IH; [reflexivity|now inversion H]. Qed.

Section Whole.
  Variables (decay : Z -> Qc) (root : Qc -> Qc) (distq : list Qc -> list Qc -> Qc).
  Variables (dist : point -> point -> Z) (diff : Z -> Z -> Z) (mag : Z -> Z) (srt : nat -> list pointIndex -> list pointIndex).
  Variables (Tp epsilon : Z) (fuel N0 k : nat) (data : list point).
  Hypothesis Fad : fading decay.
  Hypothesis Num : sound_numbers dist diff mag.
  Hypothesis Srt : level_sort srt.
  Hypothesis U : uniform k data.
  Hypothesis Pos : 0 < N0.
  Hypothesis Len : N0 <= length data.
  Hypothesis Sym : forall x y, dist x y = dist y x.
  Hypothesis Self : forall x, In x data -> (dist x x < epsilon)%Z.
  Hypothesis Ties : forall x y, In x data -> In y data -> dist x y <> epsilon.
  Hypothesis Fuel : N0 + N0 * N0 <= fuel.

  Lemma labels_spec : exists labels, dbscan dist diff mag srt fuel data 20 epsilon N0 = Some (Ok labels) /\ length labels = N0 /\
    dbscan_labels (ball dist data epsilon N0) 20 N0 (fun p => nth p labels 0%Z).
  Proof.
    assert (H := dbscan_spec dist diff mag srt k data 20 epsilon N0 fuel Num Srt U Len Sym Self Ties). cbv zeta in H.
    destruct (Nat.eqb_spec N0 0); [lia|]. exact (H Fuel).
  Qed.
  Let Dim : forall x, In x data -> length x = k := proj2 (proj2 U).
  Lemma first_point : exists f, at_ (map (map q_of) data) 0 = Ok f /\ length f = k.
  Proof.
    assert (L : 0 < @length (list Z) data) by (assert (K : N0 <= @length (list Z) data) by exact Len; lia).
    exists (map q_of (nth 0 data [])). split; [|rewrite map_length; apply Dim, nth_In; exact L]. apply at_some. rewrite nth_error_map, (nth_error_nth' _ []) by exact L. reflexivity.
  Qed.

  Theorem denStream_spec : Tp <> 0%Z -> exists labels groups, dbscan dist diff mag srt fuel data 20 epsilon N0 = Some (Ok labels) /\
    (forall T, denStream_run decay root distq dist diff mag srt Tp fuel N0 epsilon data =
      Some (Ok (map (fun g => faded_center decay T (history_of N0 data g) k) groups))) /\
    NoDup (concat groups) /\ (forall i, In i (concat groups) -> i < length data) /\
    (forall g, In g groups ->
      ((exists c, (0 < c)%Z /\ g = labelled labels N0 c) \/
       (forall T, (root (faded_spread decay T (history_of N0 data g) k) <= q_of epsilon)%Qc)) /\
      (g = [] -> forall p, p < N0 -> nth p labels 0%Z = (-1)%Z) /\
      (exists g1 g2, g = g1 ++ g2 /\
         ((exists c, (0 < c)%Z /\ g1 = labelled labels N0 c) \/
          (exists g0 j, g1 = g0 ++ [j] /\ (q_of 2 < faded_weight decay (arrival N0 j) (history_of N0 data g1))%Qc))) /\
      (forall i, N0 <= i -> S i = length data -> S i mod 20 = 0 /\ Z.rem (Z.of_nat (S i / 20)) Tp = 0%Z ->
         (q_of 2 <= faded_weight decay (arrival N0 i) (history_of N0 data g))%Qc)) /\
    ((forall i, N0 <= i < length data -> ~ (S i mod 20 = 0 /\ Z.rem (Z.of_nat (S i / 20)) Tp = 0%Z)) ->
       forall p, p < N0 -> (0 < nth p labels 0)%Z -> In p (concat groups)).
  Proof.
    intros TpN. destruct labels_spec as (labels & E & Ll & [Dt Dn _ _ _ _]).
    destruct (init_spec decay Fad k data Dim N0 labels Ll Len Pos Dt) as (mx & ms & Em & Sg & (q & Hq & Eq) & Mx & Ei & Lm & Hm).
    destruct first_point as (f & Ef & Lf).
    set (start := fun g => exists c, (0 < c)%Z /\ g = labelled labels N0 c). set (noise := forall p, p < N0 -> nth p labels 0%Z = (-1)%Z).
    set (P := combine ms (map (fun c => labelled labels N0 (Z.of_nat c + 1)) (seq 0 (length ms)))).
    assert (PF : map fst P = ms).
    { apply combine_fst. now rewrite map_length, seq_length. }
    assert (PS : map snd P = map (fun c => labelled labels N0 (Z.of_nat c + 1)) (seq 0 (length ms))).
    { apply combine_snd. now rewrite map_length, seq_length. }
    assert (PN : forall c e, nth_error P c = Some e -> nth_error ms c = Some (fst e) /\ snd e = labelled labels N0 (Z.of_nat c + 1)).
    { intros c e Hc. split; [rewrite <- PF, nth_error_map, Hc; reflexivity|]. assert (K : nth_error (map snd P) c = Some (snd e)) by (rewrite nth_error_map, Hc; reflexivity).
      rewrite PS, nth_error_map in K. destruct (nth_error (seq 0 (length ms)) c) as [c'|] eqn:Hs; [|discriminate]. inversion K. f_equal. f_equal. f_equal.
      assert (c < length ms) by (assert (H : nth_error (seq 0 (length ms)) c <> None) by congruence; apply nth_error_Some in H; now rewrite seq_length in H).
      rewrite (nth_error_nth' _ 0) in Hs by (now rewrite seq_length). rewrite seq_nth in Hs by assumption. now inversion Hs. }
    assert (I0 : inv decay root (q_of epsilon) k data N0 start noise N0 P []).
    { split.
      - rewrite app_nil_r. apply Forall_forall. intros e He. apply In_nth_error in He as (c & Hc). destruct (PN c e Hc) as [H1 H2]. rewrite H2. now apply Hm.
      - rewrite app_nil_r, PS. exact (classes_nodup data N0 labels Ll Len Pos N0 _ 0).
      - rewrite app_nil_r, PS. intros j J. apply in_concat in J as (l & Hl & Ij). apply in_map_iff in Hl as (c & <- & _). unfold labelled in Ij. apply filter_In in Ij as [Ij _]. apply in_seq in Ij. lia.
      - apply Forall_forall. intros e He. apply In_nth_error in He as (c & Hc). destruct (PN c e Hc) as [H1 H2]. split; [left; exists (Z.of_nat c + 1)%Z; split; [lia|exact H2]|].
        split; [|exists (snd e), []; split; [symmetry; apply app_nil_r|left; exists (Z.of_nat c + 1)%Z; split; [lia|exact H2]]].
        intros Hn. destruct Sg as [->|Pm].
        + intros p Hp. assert (K := Mx p Hp). destruct (Dt p Hp); lia.
        + exfalso. assert (Lc : c < length ms) by (apply nth_error_Some; congruence). destruct (Z.eqb_spec mx (-1)) as [|_]; [lia|].
          destruct (Dn q (Z.of_nat c + 1)%Z Hq) as (p & Hp & _ & Ep); [lia|]. rewrite H2 in Hn.
          assert (Ip : In p (labelled labels N0 (Z.of_nat c + 1))) by (unfold labelled; apply filter_In; split; [apply in_seq; lia|now apply Z.eqb_eq]). rewrite Hn in Ip. destruct Ip. }
    destruct (den_loop decay root distq (q_of epsilon) Tp Fad TpN k data Dim N0 start noise P I0 Len) as (P' & O' & ts & npt & Er & [Su N B Pg] & Hv & Hk).
    exists labels, (map snd P'). split; [exact E|]. split; [|split; [|split; [|split]]].
    - intros T. unfold denStream_run. rewrite E. f_equal. unfold den_stream. rewrite Ei. cbn [bind]. rewrite Ef. cbn [bind]. rewrite Lf. rewrite PF in Er. rewrite Er. cbn [bind fst].
      f_equal. rewrite !map_map. apply map_ext_in. intros e He. apply (center_spec decay Fad k). rewrite Forall_forall in Su. apply Su. apply in_or_app. now left.
    - rewrite map_app, concat_app in N. now apply NoDup_app_parts in N.
    - intros i Hi. apply B. rewrite map_app, concat_app. apply in_or_app. now left.
    - intros g Hg. apply in_map_iff in Hg as (e & <- & He). rewrite Forall_forall in Pg. destruct (Pg e He) as (K & K' & K2).
      split; [destruct K as [K|K]; [left; exact K|right; intros T; apply q_le_iff; apply K]|]. split; [exact K'|]. split; [exact K2|].
      intros i Hi Si Ch. exact (Hv i Hi Si Ch e He).
    - intros Nc p Hp Lp. apply (Hk Nc). rewrite PS. apply in_concat. exists (labelled labels N0 (nth p labels 0%Z)). split.
      + apply in_map_iff. exists (Z.to_nat (nth p labels 0%Z - 1)). split; [f_equal; lia|]. apply in_seq. split; [lia|]. assert (K := Mx p Hp).
        rewrite Lm. destruct (Z.eqb_spec mx (-1)); lia.
      + unfold labelled. apply filter_In. split; [apply in_seq; lia|apply Z.eqb_refl].
  Qed.

  Theorem denStream_noise : length data = N0 -> (forall i, i < N0 -> ~ core (ball dist data epsilon N0) 20 i) ->
    denStream_run decay root distq dist diff mag srt Tp fuel N0 epsilon data = Some (Ok [repeat 0%Qc k]).
  Proof.
    intros Ln Nc. destruct labels_spec as (labels & E & Ll & D).
    assert (No : forall p, p < N0 -> nth p labels 0%Z = (-1)%Z).
    { intros p Hp. apply (dl_noise _ _ _ _ D p Hp). split; [now apply Nc|]. intros t Ht C. now apply Nc in C. }
    destruct (init_spec decay Fad k data Dim N0 labels Ll Len Pos (dl_total _ _ _ _ D)) as (mx & ms & Em & Sg & (q & Hq & Eq) & Mx & Ei & Lm & Hm).
    rewrite (No q Hq) in Eq. subst mx. rewrite Z.eqb_refl in Lm. destruct ms as [|m [|? ?]]; try discriminate. specialize (Hm 0 m eq_refl).
    destruct first_point as (f & Ef & Lf). unfold denStream_run. rewrite E. f_equal. unfold den_stream. rewrite Ei. cbn [bind]. rewrite Ef. cbn [bind].
    rewrite skipn_all2 by (rewrite map_length; assert (K : @length (list Z) data = N0) by exact Ln; lia). cbn [foldr_ub bind fst map]. f_equal. f_equal.
    rewrite (sm_center _ _ _ _ Hm).
    assert (En : labelled labels N0 (Z.of_nat 0 + 1) = []).
    { unfold labelled. assert (G : forall l, (forall p, In p l -> p < N0) -> filter (fun i => (nth i labels 0 =? Z.of_nat 0 + 1)%Z) l = []).
      { induction l as [|p l IH]; cbn [filter]; intros H; [reflexivity|]. rewrite (No p) by (apply H; now left). cbn. apply IH. intros; apply H; now right. }
      apply G. intros p Hp. apply in_seq in Hp. lia. }
    rewrite En. rewrite map_const with (b := 0%Qc); [now rewrite seq_length|]. intros d. unfold faded_mean, total, Qcdiv. cbn [history_of map fold_right]. ring.
  Qed.
End Whole.

Theorem denStream_short decay root distq dist diff mag srt Tp fuel N0 epsilon data : length data < N0 ->
  denStream_run decay root distq dist diff mag srt Tp fuel N0 epsilon data = Some UB.
Proof.
  intros L. unfold denStream_run, dbscan. destruct (Nat.eqb_spec N0 0); [lia|]. unfold kd_build. destruct (Nat.eqb_spec N0 0); [lia|]. now rewrite build_out.
Qed.

(* A check on groups given by their histories. *)
Lemma grown_spec decay (Fad : fading decay) dim t0 h m : (forall x, In x h -> length (snd x) = dim) ->
  foldr_ub (fun m x => insertPoint decay m (snd x) (fst x)) (new_micro t0 dim) h = Ok m -> summary decay dim m h /\ mc_created m = t0.
Proof.
  intros Hd E. assert (G : forall h h0 m0, summary decay dim m0 h0 -> (forall x, In x h -> length (snd x) = dim) ->
    foldr_ub (fun m x => insertPoint decay m (snd x) (fst x)) m0 h = Ok m -> summary decay dim m (h0 ++ h) /\ mc_created m = mc_created m0).
  { clear -Fad. induction h as [|[t x] h IH]; intros h0 m0 S H E; cbn [foldr_ub] in E.
    - injection E as <-. rewrite app_nil_r. auto.
    - cbn [fst snd] in E. destruct (insert_spec decay Fad dim m0 h0 x t S) as (m' & E1 & S' & _ & C); [apply (H (t, x)); now left|].
      rewrite E1 in E. cbn [bind] in E. destruct (IH (h0 ++ [(t, x)]) m' S') as [S2 C2]; [intros; apply H; now right|exact E|]. rewrite <- app_assoc in S2. split; [exact S2|congruence]. }
  exact (G h [] _ (summary_new decay dim t0) Hd E).
Qed.
Lemma prune_spec decay Tp dim (hp ho : list (Z * history)) ps os T : fading decay -> (forall e x, In e (hp ++ ho) -> In x (snd e) -> length (snd x) = dim) ->
  let grown e m := foldr_ub (fun m x => insertPoint decay m (snd x) (fst x)) (new_micro (fst e) dim) (snd e) = Ok m in
  Forall2 grown hp ps -> Forall2 grown ho os ->
  Forall2 grown (filter (fun e => q_le (q_of 2) (faded_weight decay T (snd e))) hp) (fst (prune decay Tp (ps, os) T)) /\
  Forall2 grown
    (filter (fun e => q_le ((decay (T - fst e + Tp)%Z - 1) / (decay Tp - 1))%Qc (faded_weight decay T (snd e))) ho) (snd (prune decay Tp (ps, os) T)).
Proof.
  intros Fad Hd grown Fp Fo. unfold prune. cbn [fst snd].
  assert (G : forall (f : Z -> Qc) hs ms, (forall e x, In e hs -> In x (snd e) -> length (snd x) = dim) -> Forall2 grown hs ms ->
    Forall2 grown (filter (fun e => q_le (f (fst e)) (faded_weight decay T (snd e))) hs) (filter (fun m => negb (q_lt (getWeight decay m T) (f (mc_created m)))) ms)).
  { intros f hs ms H F. induction F as [|e m hs ms E F IH]; [constructor|]. cbn [filter].
    destruct (grown_spec decay Fad dim (fst e) (snd e) m) as [S C]; [intros x; apply H; now left|exact E|].
    rewrite (weight_spec decay Fad dim m (snd e) T S), C. unfold q_lt. rewrite negb_involutive.
    specialize (IH (fun e x He => H e x (or_intror He))). destruct (q_le _ _); [constructor; [exact E|exact IH]|exact IH]. }
  split; [apply (G (fun _ => q_of 2))|apply (G (fun c => ((decay (T - c + Tp)%Z - 1) / (decay Tp - 1))%Qc))]; auto; intros e x He; apply Hd, in_or_app; auto.
Qed.
