(* NearRuns.v -- the loop of updateStats: its state after every iteration. *)
From Coq Require Import List Arith ZArith QArith Bool Lia Sorted.
From Verif Require Import Base EvalModel SpecNear NearProofs.
Import ListNotations.
Local Open Scope nat_scope. Local Open Scope list_scope.

Section Loop.
  Variable one : Z.
  Variables (lab X old D : list Z) (rows : list (list Z)) (aw : nat -> nat -> Z).
  Variables (l t : Z) (k : nat) (st1 : params).
  Let n := length lab.
  Let L j := nth j lab 0%Z.
  Let Nl := size lab l.
  Let Nt := size lab t.
  Hypothesis LX : length X = n.
  Hypothesis Lold : length old = n.
  Hypothesis LD : length D = n.
  Hypothesis Lrows : length rows = n.
  Hypothesis Sym : forall i j, aw i j = aw j i.
  Hypothesis Row : forall i, i < n -> length (nth i rows []) = n.
  Hypothesis Cell : forall i j, i < j < n -> nth j (nth i rows []) 0%Z = aw i j.
  Hypothesis T1 : sp_target st1 = t.
  Hypothesis Lab1 : sp_labels st1 = lab.
  Hypothesis X1 : sp_nnIndices st1 = X.
  Hypothesis Old1 : sp_nnDists st1 = old.
  Hypothesis Onum : zok (sp_num st1).
  Hypothesis Oavg : zok (sp_avg st1).
  Hypothesis Num1 : forall p, 0 < size lab p -> zget (sp_num st1) p = Some (Z.of_nat (size lab p)).

  Definition mem (i : nat) : list (Z * nat) :=
    map (fun j => (aw i j, j)) (filter (fun j => (L j =? l)%Z && negb (j =? i)) (seq 0 n)).
  Definition near (i : nat) : Z * nat := match nearest_of (mem i) with Ok r => r | UB => (0%Z, 0) end.
  Definition dn j := nth j D 0%Z.
  Definition od j := nth j old 0%Z.
  Definition ix j := nth j X 0%Z.
  Definition nd (j : nat) : Z :=
    if (L j =? l)%Z && negb (L j =? t)%Z then
      if (ix j =? Z.of_nat k)%Z then if Nl =? 1 then (- one)%Z else fst (near j) else od j
    else if (L j =? t)%Z then if Nt =? 1 then dn j else if (dn j <? od j)%Z then dn j else od j
    else od j.
  Definition nx (j : nat) : Z :=
    if (L j =? l)%Z && negb (L j =? t)%Z then
      if (ix j =? Z.of_nat k)%Z then if Nl =? 1 then (-1)%Z else Z.of_nat (snd (near j)) else ix j
    else if (L j =? t)%Z then if Nt =? 1 then Z.of_nat n else if (dn j <? od j)%Z then Z.of_nat n else ix j
    else ix j.

  Definition grown (i : nat) (m : list (list Z)) : Prop :=
    length m = n /\ forall j, j < n -> nth j m [] = nth j rows [] ++ (if j <? i then [dn j] else []).
  Definition lists (i : nat) (idx nnd : list Z) (e : nat) : Prop :=
    length idx = n + e /\ length nnd = n + e /\
    forall j, j < n -> nth j nnd 0%Z = (if j <? i then nd j else od j) /\ nth j idx 0%Z = (if j <? i then nx j else ix j).
  Definition maps (i : nat) (num : zmap Z) (avg : zmap Q) (two : bool) (idx nnd : list Z) : Prop :=
    zok num /\ zok avg /\
    (forall p, zget num p = if two && (p =? t)%Z then Some 2%Z else zget (sp_num st1) p) /\
    (two = true -> Nt = 1 /\ exists j, j < i /\ L j = t /\ nth n nnd 0%Z = dn j /\ nth n idx 0%Z = Z.of_nat j /\ zget avg t = Some (inject_Z (dn j))) /\
    (two = false -> (Nt = 1 -> forall j, j < i -> L j <> t) /\ zget avg t = zget (sp_avg st1) t) /\
    (forall p, p <> t -> p <> l -> zget avg p = zget (sp_avg st1) p) /\
    (l <> t -> (Nl <> 1 -> zget avg l = zget (sp_avg st1) l) /\
               (Nl = 1 -> forall j, j < i -> L j = l -> ix j = Z.of_nat k -> zget avg l = Some (inject_Z (- one)))).
  Definition change (p : Z) (j : nat) : Z := if (L j =? p)%Z then (nd j - od j)%Z else 0%Z.
  Definition totals (i : nat) (su : sums) : Prop :=
    (l <> t -> 2 <= Nl -> (su_delNew su - su_delOld su)%Z = zsum (change l) (seq 0 i)) /\
    (l <> t -> 2 <= Nt -> (su_addNew su - su_addOld su)%Z = zsum (change t) (seq 0 i)) /\
    (l = t -> 2 <= Nt -> (su_new su - su_old su)%Z = zsum (change t) (seq 0 i)) /\
    (2 <= Nt -> su_tp su = map (fun j => (dn j, j)) (filter (fun j => (L j =? t)%Z) (seq 0 i))).
  Definition inv (i : nat) (s : params * list (list Z) * sums) : Prop :=
    let '(st, m, su) := s in
    sp_key st = sp_key st1 /\ sp_target st = t /\ sp_keys st = sp_keys st1 /\ sp_labels st = lab /\ sp_maxKeys st = sp_maxKeys st1 /\
    grown i m /\ lists i (sp_nnIndices st) (sp_nnDists st) (if su_two su then 1 else 0) /\
    maps i (sp_num st) (sp_avg st) (su_two su) (sp_nnIndices st) (sp_nnDists st) /\ totals i su.

  Lemma grown_step i m : i < n -> grown i m -> exists m', upd m i (fun row => row ++ [dn i]) = Ok m' /\ grown (S i) m'.
  Proof.
    intros H [E G]. destruct (upd_nth m i (fun row => row ++ [dn i]) [] ltac:(lia)) as (m' & U & E' & N).
    exists m'. split; [exact U|]. split; [lia|]. intros j J. rewrite N. destruct (Nat.eqb_spec j i) as [->|Q].
    - rewrite (G i H). rewrite Nat.ltb_irrefl, app_nil_r. now rewrite (proj2 (Nat.ltb_lt i (S i)) ltac:(lia)).
    - rewrite (G j J). destruct (Nat.ltb_spec j i), (Nat.ltb_spec j (S i)); auto; lia.
  Qed.
  Lemma grown_cell i m a b : grown i m -> a < b < n -> (do row <- at_ m a; at_ row b) = Ok (aw a b).
  Proof.
    intros [E G] H. rewrite (at_nth m a []) by lia. cbn [bind]. rewrite (G a) by lia.
    rewrite (at_nth _ b 0%Z) by (rewrite app_length, Row; lia). rewrite app_nth1 by (rewrite Row; lia). now rewrite Cell.
  Qed.
  Lemma members_ok i m : i < n -> grown (S i) m -> members m lab l i (length m) = Ok (mem i).
  Proof.
    intros H G. unfold members. rewrite (proj1 G).
    rewrite (fold_collect _ (fun j => if (L j =? l)%Z && negb (j =? i) then [(aw i j, j)] else [])).
    - cbn [app]. f_equal. unfold mem. induction (seq 0 n) as [|j s IH]; [reflexivity|]. cbn [map concat filter].
      destruct ((L j =? l)%Z && negb (j =? i)); cbn [map app]; now rewrite IH.
    - intros a j J. apply in_seq in J. rewrite (at_nth lab j 0%Z) by (fold n; lia). cbn [bind]. fold (L j). destruct (L j =? l)%Z; cbn [andb]; [|now rewrite app_nil_r].
      destruct (Nat.eqb_spec j i) as [->|Q]; cbn [negb].
      + rewrite Nat.ltb_irrefl. now rewrite app_nil_r.
      + destruct (Nat.ltb_spec j i) as [B|B].
        * assert (C := grown_cell _ _ j i G ltac:(lia)). destruct (at_ m j) as [row|]; [|discriminate]. cbn [bind] in *. rewrite C. cbn [bind]. now rewrite Sym.
        * assert (C := grown_cell _ _ i j G ltac:(lia)). rewrite (proj2 (Nat.ltb_lt i j)) by lia. destruct (at_ m i) as [row|]; [|discriminate]. cbn [bind] in *. now rewrite C.
  Qed.
  Lemma fold_ub_end {A St} (f : St -> A -> res St) x : (forall acc, f acc x = UB) -> forall s acc, foldr_ub f acc (s ++ [x]) = UB.
  Proof.
    intros H s. induction s as [|j s IH]; intros acc; cbn [app foldr_ub]; [now rewrite H|]. destruct (f acc j); [apply IH|reflexivity].
  Qed.
  Lemma members_beyond i m : members m lab l i (S n) = UB.
  Proof. unfold members. rewrite seq_S. apply fold_ub_end. intros acc. cbn [Nat.add]. rewrite at_out by (fold n; lia). reflexivity. Qed.
  Lemma mem_nonempty i : i < n -> L i = l -> 2 <= Nl -> mem i <> [].
  Proof.
    intros H E G. apply (size_other lab l i H E) in G. destruct G as (j & J & B & Q). intros Z.
    assert (I : In (aw i j, j) (mem i)); [|rewrite Z in I; contradiction].
    unfold mem. apply (in_map (fun j => (aw i j, j))). apply filter_In. split; [apply in_seq; fold n in B; lia|].
    unfold L. rewrite Q, Z.eqb_refl. destruct (Nat.eqb_spec j i); [lia|reflexivity].
  Qed.
  Lemma near_ok i : i < n -> L i = l -> 2 <= Nl -> nearest_of (mem i) = Ok (near i).
  Proof. intros H E G. destruct (nearest_of_least _ (mem_nonempty i H E G)) as (d & j & Q & _). unfold near. now rewrite Q. Qed.

  Lemma lists_put i idx nnd e : i < n -> lists i idx nnd e -> exists idx' nnd',
    put_at idx i (nx i) = Ok idx' /\ put_at nnd i (nd i) = Ok nnd' /\ lists (S i) idx' nnd' e /\ nth n idx' 0%Z = nth n idx 0%Z /\ nth n nnd' 0%Z = nth n nnd 0%Z.
  Proof.
    intros H (E1 & E2 & G). destruct (put_nth idx i (nx i) 0%Z ltac:(lia)) as (idx' & P1 & L1 & N1).
    destruct (put_nth nnd i (nd i) 0%Z ltac:(lia)) as (nnd' & P2 & L2 & N2). exists idx', nnd'. split; [exact P1|]. split; [exact P2|].
    split; [|rewrite N1, N2; destruct (Nat.eqb_spec n i); [lia|auto]].
    split; [lia|]. split; [lia|]. intros j J. rewrite N1, N2. destruct (G j J) as [G1 G2]. destruct (Nat.eqb_spec j i) as [->|Q].
    - rewrite (proj2 (Nat.ltb_lt i (S i))) by lia. auto.
    - rewrite G1, G2. destruct (Nat.ltb_spec j i), (Nat.ltb_spec j (S i)); auto; lia.
  Qed.
  Lemma lists_keep i idx nnd e : i < n -> nx i = ix i -> nd i = od i -> lists i idx nnd e -> lists (S i) idx nnd e.
  Proof.
    intros H Ex Ed (E1 & E2 & G). split; [auto|]. split; [auto|]. intros j J. destruct (G j J) as [G1 G2]. rewrite G1, G2.
    destruct (Nat.eq_dec j i) as [->|]; [rewrite Nat.ltb_irrefl, (proj2 (Nat.ltb_lt i (S i))) by lia; auto|].
    destruct (Nat.ltb_spec j i), (Nat.ltb_spec j (S i)); auto; lia.
  Qed.
  Lemma lists_more i idx nnd x d : lists i idx nnd 0 -> lists i (idx ++ [x]) (nnd ++ [d]) 1 /\ nth n (idx ++ [x]) 0%Z = x /\ nth n (nnd ++ [d]) 0%Z = d.
  Proof.
    intros (E1 & E2 & G). rewrite Nat.add_0_r in *. repeat split.
    - rewrite app_length. cbn. lia.
    - rewrite app_length. cbn. lia.
    - rewrite app_nth1 by lia. now apply G.
    - rewrite app_nth1 by lia. now apply G.
    - rewrite app_nth2, E1, Nat.sub_diag by lia. reflexivity.
    - rewrite app_nth2, E2, Nat.sub_diag by lia. reflexivity.
  Qed.
  Lemma lists_at i idx nnd e : i < n -> lists i idx nnd e -> at_ idx i = Ok (ix i) /\ at_ nnd i = Ok (od i).
  Proof.
    intros H (E1 & E2 & G). destruct (G i H) as [G1 G2]. rewrite Nat.ltb_irrefl in *. rewrite (at_nth idx i 0%Z), (at_nth nnd i 0%Z) by lia. now rewrite G1, G2.
  Qed.
  (* The maps after an iteration that leaves them alone. *)
  Lemma maps_keep i num avg two idx nnd idx' nnd' : i < n -> maps i num avg two idx nnd -> nth n idx' 0%Z = nth n idx 0%Z -> nth n nnd' 0%Z = nth n nnd 0%Z ->
    (L i = t -> Nt <> 1) -> (l <> t -> Nl = 1 -> L i = l -> ix i <> Z.of_nat k) -> maps (S i) num avg two idx' nnd'.
  Proof.
    intros H (O1 & O2 & N & A & B & C & E) Ei En Nt1 Nl1. split; [auto|]. split; [auto|]. split; [auto|]. split; [|split; [|split]].
    - intros T. destruct (A T) as (A1 & j & A2 & A3). split; auto. exists j. rewrite Ei, En. split; [lia|exact A3].
    - intros T. destruct (B T) as [B1 B2]. split; [|auto]. intros Q j J. destruct (Nat.eq_dec j i) as [->|]; [intros Z; now apply Nt1|apply B1; auto; lia].
    - auto.
    - intros D0. destruct (E D0) as [E1 E2]. split; [auto|]. intros Q j J Lj Xj. destruct (Nat.eq_dec j i) as [->|]; [now apply Nl1 in Xj|]. apply (E2 Q j); auto. lia.
  Qed.
  Lemma totals_keep i su : change l i = 0%Z \/ l = t \/ Nl < 2 -> change t i = 0%Z \/ Nt < 2 -> L i <> t -> totals i su -> totals (S i) su.
  Proof.
    intros C1 C2 N (A & B & C & E). unfold totals. rewrite !zsum_S. split; [|split; [|split]].
    - intros Q G. rewrite (A Q G). destruct C1 as [->|[?|?]]; [lia|easy|lia].
    - intros Q G. rewrite (B Q G). destruct C2 as [->|?]; lia.
    - intros Q G. rewrite (C Q G). destruct C2 as [->|?]; lia.
    - intros G. rewrite (E G), seq_S, filter_app. cbn [filter Nat.add]. destruct (Z.eqb_spec (L i) t); [easy|]. now rewrite app_nil_r.
  Qed.
  Definition bad (i : nat) : Prop := l = t /\ L i = t /\ 2 <= Nt /\ ix i = Z.of_nat k /\ (od i <= dn i)%Z.

  Lemma unique_two i j p : i < n -> j < n -> L i = p -> L j = p -> size lab p = 1 -> i = j.
  Proof.
    intros Hi Hj Ei Ej E. destruct (Nat.eq_dec i j) as [|Q]; [auto|]. exfalso.
    assert (2 <= size lab p) by (apply (size_other lab p i Hi Ei); exists j; auto). lia.
  Qed.

  Lemma step i s : i < n -> inv i s ->
    (bad i /\ update_entry one (S n) l k D s i = UB) \/ (~ bad i /\ exists s', update_entry one (S n) l k D s i = Ok s' /\ inv (S i) s').
  Proof.
    destruct s as [[st m] su]. intros H (K & T & Ks & Lb & Mk & G & Li & Mp & To). unfold update_entry.
    rewrite (at_nth D i 0%Z) by (fold n; lia). cbn [bind]. fold (dn i).
    destruct (grown_step i m H G) as (m' & Um & G'). rewrite Um, Lb, T. cbn [bind]. rewrite (at_nth lab i 0%Z) by (fold n; auto). cbn [bind]. fold (L i).
    destruct (lists_at _ _ _ _ H Li) as [Ai Ad]. rewrite Ai, Ad.
    assert (Nn : newest (S n) = Z.of_nat n) by (unfold newest; lia). rewrite Nn.
    assert (Hp : forall p, L i = p -> 0 < size lab p) by (intros p E; apply size_pos; exists i; auto).
    destruct Mp as (O1 & O2 & N & A & B & C & E). assert (Mp : maps i (sp_num st) (sp_avg st) (su_two su) (sp_nnIndices st) (sp_nnDists st)) by (unfold maps; auto 10).
    destruct (lists_put _ _ _ _ H Li) as (idx' & nnd' & P1 & P2 & Lp & En1 & En2).
    destruct (Z.eqb_spec (L i) l) as [El|El]; destruct (Z.eqb_spec (L i) t) as [Et|Et]; cbn [andb negb bind].
    - (* case 3 *)
      assert (Q : l = t) by congruence. rewrite (proj2 (Z.eqb_eq l t) Q). cbn [andb].
      assert (Tw : su_two su = false).
      { destruct (su_two su); [|reflexivity]. destruct (A eq_refl) as (N1 & j & J & Lj & _). exfalso. assert (i = j); [|lia]. apply (unique_two i j t); auto. lia. }
      assert (Gn : zget (sp_num st) t = Some (Z.of_nat Nt)) by (rewrite N, Tw; cbn [andb]; apply Num1; auto).
      rewrite (zread_some _ _ _ _ Gn). assert (P0 := Hp t Et). fold Nt in P0. destruct (Z.eqb_spec (Z.of_nat Nt) 1) as [N1|N1].
      + right. split; [intros (_ & _ & Q2 & _); lia|].
        assert (Vx : nx i = Z.of_nat n) by (unfold nx; rewrite Et, <- Q, Z.eqb_refl; cbn [andb negb]; destruct (Nat.eqb_spec Nt 1); [auto|lia]).
        assert (Vd : nd i = dn i) by (unfold nd; rewrite Et, <- Q, Z.eqb_refl; cbn [andb negb]; destruct (Nat.eqb_spec Nt 1); [auto|lia]).
        rewrite Vx in P1. rewrite Vd in P2. rewrite P1, P2. cbn [bind]. eexists. split; [reflexivity|].
        rewrite Tw in Lp. destruct (lists_more _ _ _ (Z.of_nat i) (dn i) Lp) as (Lm & M1 & M2).
        unfold inv, set_maps, set_nn. cbn [sp_key sp_target sp_keys sp_labels sp_maxKeys sp_nnIndices sp_nnDists sp_num sp_avg su_two].
        do 7 (split; [now auto|]). split; [|unfold totals; cbn [su_delNew su_delOld su_addNew su_addOld su_new su_old su_tp]; repeat split; intros; lia].
        split; [now apply zput_ok|]. split; [now apply zput_ok|]. split; [|split; [|split; [|split]]].
        * intros p. rewrite zput_get by auto. cbn [andb]. destruct (Z.eqb_spec p t); [auto|]. rewrite N, Tw. reflexivity.
        * intros _. split; [lia|]. exists i. split; [lia|]. split; [auto|]. split; [auto|]. split; [auto|]. rewrite zput_get, Z.eqb_refl by auto. reflexivity.
        * discriminate.
        * intros p Q1 Q2. rewrite zput_get by auto. destruct (Z.eqb_spec p t); [easy|]. auto.
        * intros Q1. now destruct Q1.
      + assert (N2 : 2 <= Nt) by lia.
        assert (V0 : nd i = (if (dn i <? od i)%Z then dn i else od i) /\ nx i = (if (dn i <? od i)%Z then Z.of_nat n else ix i)).
        { unfold nx, nd; rewrite Et, <- Q, Z.eqb_refl; cbn [andb negb]; destruct (Nat.eqb_spec Nt 1); [lia|]. destruct (dn i <? od i)%Z; auto. }
        assert (Vt : change t i = (nd i - od i)%Z) by (unfold change; now rewrite Et, Z.eqb_refl).
        assert (Tp : su_tp su ++ [(dn i, i)] = map (fun j => (dn j, j)) (filter (fun j => (L j =? t)%Z) (seq 0 (S i)))).
        { destruct To as (_ & _ & _ & E4). rewrite seq_S, filter_app, map_app. cbn [filter Nat.add]. rewrite Et, Z.eqb_refl. cbn [map]. now rewrite <- E4. }
        destruct To as (To1 & To2 & To3 & To4).
        assert (Mkeep : forall idx'' nnd'', nth n idx'' 0%Z = nth n (sp_nnIndices st) 0%Z -> nth n nnd'' 0%Z = nth n (sp_nnDists st) 0%Z ->
          maps (S i) (sp_num st) (sp_avg st) (su_two su) idx'' nnd'').
        { intros. eapply maps_keep; eauto; intros; solve [lia|congruence]. }
        destruct (Z.ltb_spec (dn i) (od i)) as [Lt|Lt].
        * right. split; [intros (_ & _ & _ & _ & Q5); lia|]. destruct V0 as [V1 V2]. rewrite V2 in P1. rewrite V1 in P2. rewrite P2. cbn [bind]. rewrite P1. cbn [bind].
          eexists. split; [reflexivity|]. unfold inv, set_maps, set_nn. cbn [sp_key sp_target sp_keys sp_labels sp_maxKeys sp_nnIndices sp_nnDists sp_num sp_avg su_two].
          do 7 (split; [now auto|]). split; [now apply Mkeep|].
          unfold totals; cbn [su_delNew su_delOld su_addNew su_addOld su_new su_old su_tp]. rewrite !zsum_S.
          split; [congruence|]. split; [congruence|]. split; [|auto]. intros _ G2. specialize (To3 Q G2). rewrite Vt, V1. lia.
        * destruct (Z.eqb_spec (ix i) (Z.of_nat k)) as [Ek|Ek].
          -- left. split; [repeat split; auto|]. rewrite members_beyond. reflexivity.
          -- right. split; [intros (_ & _ & _ & Q4 & _); auto|]. destruct V0 as [V1 V2]. eexists. split; [reflexivity|].
             unfold inv, set_maps, set_nn. cbn [sp_key sp_target sp_keys sp_labels sp_maxKeys sp_nnIndices sp_nnDists sp_num sp_avg su_two].
             do 7 (split; [now auto using lists_keep|]). split; [now apply Mkeep|].
             unfold totals; cbn [su_delNew su_delOld su_addNew su_addOld su_new su_old su_tp]. rewrite !zsum_S.
             split; [congruence|]. split; [congruence|]. split; [|auto]. intros _ G2. specialize (To3 Q G2). rewrite Vt, V1. lia.
    - (* case 1 *)
      right. split; [intros (Q & Q2 & _); auto|].
      assert (Q : l <> t) by congruence.
      assert (Ct : change t i = 0%Z) by (unfold change; destruct (Z.eqb_spec (L i) t); [easy|auto]).
      assert (Cl : change l i = (nd i - od i)%Z) by (unfold change; now rewrite El, Z.eqb_refl).
      assert (V0 : nd i = (if (ix i =? Z.of_nat k)%Z then if Nl =? 1 then (- one)%Z else fst (near i) else od i) /\
                   nx i = (if (ix i =? Z.of_nat k)%Z then if Nl =? 1 then (-1)%Z else Z.of_nat (snd (near i)) else ix i)).
      { unfold nd, nx. rewrite El, Z.eqb_refl. destruct (Z.eqb_spec l t); [easy|]. auto. }
      destruct V0 as [V1 V2]. destruct (Z.eqb_spec (ix i) (Z.of_nat k)) as [Ek|Ek].
      + assert (Gn : zget (sp_num st) l = Some (Z.of_nat Nl)).
        { rewrite N. rewrite (proj2 (Z.eqb_neq l t) Q), andb_false_r. apply Num1. auto. }
        rewrite (zread_some _ _ _ _ Gn). assert (P0 := Hp l El). fold Nl in P0. destruct (Z.eqb_spec (Z.of_nat Nl) 1) as [N1|N1].
        * destruct (Nat.eqb_spec Nl 1) as [N1'|]; [|lia]. rewrite V2 in P1. rewrite V1 in P2. rewrite P1, P2. cbn [bind]. eexists. split; [reflexivity|].
          unfold inv, set_maps, set_nn. cbn [sp_key sp_target sp_keys sp_labels sp_maxKeys sp_nnIndices sp_nnDists sp_num sp_avg su_two].
          do 7 (split; [now auto|]). split; [|apply totals_keep; auto; right; right; lia].
          split; [auto|]. split; [now apply zput_ok|]. split; [auto|]. split; [|split; [|split]].
          -- intros Tw. destruct (A Tw) as (A1 & j & A2 & A3 & A4 & A5 & A6). split; [auto|]. exists j. split; [lia|]. rewrite En1, En2.
             rewrite zput_get by auto. destruct (Z.eqb_spec t l); [congruence|]. auto.
          -- intros Tw. destruct (B Tw) as [B1 B2]. split.
             ++ intros Q1 j J. destruct (Nat.eq_dec j i) as [->|]; [auto|apply B1; auto; lia].
             ++ rewrite zput_get by auto. destruct (Z.eqb_spec t l); [congruence|]. auto.
          -- intros p Q1 Q2. rewrite zput_get by auto. destruct (Z.eqb_spec p l); [easy|]. auto.
          -- intros _. split; [intros; lia|]. intros. rewrite zput_get, Z.eqb_refl by auto. reflexivity.
        * destruct (Nat.eqb_spec Nl 1) as [N1'|_]; [lia|]. rewrite members_ok by auto. cbn [bind]. rewrite near_ok by (auto; lia). cbn [bind].
          rewrite V2 in P1. rewrite V1 in P2. rewrite P1, P2. cbn [bind]. eexists. split; [reflexivity|].
          unfold inv, set_maps, set_nn. cbn [sp_key sp_target sp_keys sp_labels sp_maxKeys sp_nnIndices sp_nnDists sp_num sp_avg su_two].
          do 7 (split; [now auto|]). split; [eapply maps_keep; eauto; intros; solve [lia|congruence]|].
          destruct To as (To1 & To2 & To3 & To4). unfold totals; cbn [su_delNew su_delOld su_addNew su_addOld su_new su_old su_tp]. rewrite !zsum_S, Ct, Cl, V1.
          split; [intros; specialize (To1 ltac:(auto) ltac:(auto)); lia|]. split; [intros; rewrite (To2 ltac:(auto) ltac:(auto)); lia|]. split; [congruence|].
          intros G2. rewrite (To4 G2), seq_S, filter_app. cbn [filter Nat.add]. destruct (Z.eqb_spec (L i) t); [easy|]. now rewrite app_nil_r.
      + rewrite andb_false_r. eexists. split; [reflexivity|]. unfold inv. do 7 (split; [now auto using lists_keep|]).
        split; [eapply maps_keep; eauto; intros; solve [lia|congruence]|]. apply totals_keep; auto. left. rewrite Cl, V1. lia.
    - (* case 2 *)
      right. split; [intros (Q & Q2 & _); congruence|].
      assert (Q : l <> t) by congruence.
      assert (Cl : change l i = 0%Z) by (unfold change; destruct (Z.eqb_spec (L i) l); [easy|auto]).
      assert (Tw : su_two su = false).
      { destruct (su_two su); [|reflexivity]. destruct (A eq_refl) as (N1 & j & J & Lj & _). exfalso. assert (i = j); [|lia]. apply (unique_two i j t); auto. lia. }
      assert (Gn : zget (sp_num st) t = Some (Z.of_nat Nt)) by (rewrite N, Tw; cbn [andb]; apply Num1; auto).
      rewrite (zread_some _ _ _ _ Gn). assert (P0 := Hp t Et). fold Nt in P0. destruct (Z.eqb_spec (Z.of_nat Nt) 1) as [N1|N1].
      + assert (Vx : nx i = Z.of_nat n) by (unfold nx; rewrite Et, Z.eqb_refl; cbn [negb]; rewrite andb_false_r; destruct (Nat.eqb_spec Nt 1); [auto|lia]).
        assert (Vd : nd i = dn i) by (unfold nd; rewrite Et, Z.eqb_refl; cbn [negb]; rewrite andb_false_r; destruct (Nat.eqb_spec Nt 1); [auto|lia]).
        rewrite Vx in P1. rewrite Vd in P2. rewrite P1, P2. cbn [bind]. eexists. split; [reflexivity|].
        rewrite Tw in Lp. destruct (lists_more _ _ _ (Z.of_nat i) (dn i) Lp) as (Lm & M1 & M2).
        unfold inv, set_maps, set_nn. cbn [sp_key sp_target sp_keys sp_labels sp_maxKeys sp_nnIndices sp_nnDists sp_num sp_avg su_two].
        do 7 (split; [now auto|]). split; [|destruct To as (To1 & _); unfold totals; cbn [su_delNew su_delOld su_addNew su_addOld su_new su_old su_tp]; rewrite zsum_S, Cl; split; [intros Q1 Q2; rewrite (To1 Q1 Q2); lia|]; repeat split; intros; lia].
        split; [now apply zput_ok|]. split; [now apply zput_ok|]. split; [|split; [|split; [|split]]].
        * intros p. rewrite zput_get by auto. cbn [andb]. destruct (Z.eqb_spec p t); [auto|]. rewrite N, Tw. reflexivity.
        * intros _. split; [lia|]. exists i. split; [lia|]. split; [auto|]. split; [auto|]. split; [auto|]. rewrite zput_get, Z.eqb_refl by auto. reflexivity.
        * discriminate.
        * intros p Q1 Q2. rewrite zput_get by auto. destruct (Z.eqb_spec p t); [easy|]. auto.
        * intros _. destruct (E Q) as [E1 E2]. split.
          -- intros Q1. rewrite zput_get by auto. destruct (Z.eqb_spec l t); [easy|]. auto.
          -- intros Q1 j J Lj Xj. rewrite zput_get by auto. destruct (Z.eqb_spec l t); [easy|]. apply (E2 Q1 j); auto. destruct (Nat.eq_dec j i) as [->|]; [congruence|lia].
      + assert (N2 : 2 <= Nt) by lia.
        assert (V0 : nd i = (if (dn i <? od i)%Z then dn i else od i) /\ nx i = (if (dn i <? od i)%Z then Z.of_nat n else ix i)).
        { unfold nx, nd; rewrite Et, Z.eqb_refl; cbn [negb]; rewrite andb_false_r; destruct (Nat.eqb_spec Nt 1); [lia|]. destruct (dn i <? od i)%Z; auto. }
        assert (Vt : change t i = (nd i - od i)%Z) by (unfold change; now rewrite Et, Z.eqb_refl).
        assert (Tp : su_tp su ++ [(dn i, i)] = map (fun j => (dn j, j)) (filter (fun j => (L j =? t)%Z) (seq 0 (S i)))).
        { destruct To as (_ & _ & _ & E4). rewrite seq_S, filter_app, map_app. cbn [filter Nat.add]. rewrite Et, Z.eqb_refl. cbn [map]. now rewrite <- E4. }
        destruct To as (To1 & To2 & To3 & To4).
        assert (Mkeep : forall idx'' nnd'', nth n idx'' 0%Z = nth n (sp_nnIndices st) 0%Z -> nth n nnd'' 0%Z = nth n (sp_nnDists st) 0%Z ->
          maps (S i) (sp_num st) (sp_avg st) (su_two su) idx'' nnd'').
        { intros. eapply maps_keep; eauto; intros; solve [lia|congruence]. }
        destruct V0 as [V1 V2]. destruct (Z.ltb_spec (dn i) (od i)) as [Lt|Lt].
        * rewrite V2 in P1. rewrite V1 in P2. cbn [bind]. rewrite P2. cbn [bind]. rewrite P1. cbn [bind].
          eexists. split; [reflexivity|]. unfold inv, set_maps, set_nn. cbn [sp_key sp_target sp_keys sp_labels sp_maxKeys sp_nnIndices sp_nnDists sp_num sp_avg su_two].
          do 7 (split; [now auto|]). split; [now apply Mkeep|].
          unfold totals; cbn [su_delNew su_delOld su_addNew su_addOld su_new su_old su_tp]. rewrite !zsum_S, Cl, Vt, V1.
          split; [intros Q1 Q2; rewrite (To1 Q1 Q2); lia|]. split; [intros Q1 Q2; specialize (To2 Q1 Q2); lia|]. split; [congruence|auto].
        * cbn [bind]. eexists. split; [reflexivity|]. unfold inv, set_maps, set_nn. cbn [sp_key sp_target sp_keys sp_labels sp_maxKeys sp_nnIndices sp_nnDists sp_num sp_avg su_two].
          do 7 (split; [now auto using lists_keep|]). split; [now apply Mkeep|].
          unfold totals; cbn [su_delNew su_delOld su_addNew su_addOld su_new su_old su_tp]. rewrite !zsum_S, Cl, Vt, V1.
          split; [intros Q1 Q2; rewrite (To1 Q1 Q2); lia|]. split; [intros Q1 Q2; specialize (To2 Q1 Q2); lia|]. split; [congruence|auto].
    - (* another partition *)
      rewrite andb_false_r. right. split; [intros (Q & Q2 & _); congruence|]. eexists. split; [reflexivity|].
      assert (V : nd i = od i /\ nx i = ix i). { unfold nd, nx. rewrite (proj2 (Z.eqb_neq _ _) El), (proj2 (Z.eqb_neq _ _) Et). auto. } destruct V as [V1 V2].
      unfold inv. do 7 (split; [now auto using lists_keep|]). split; [eapply maps_keep; eauto; intros; solve [lia|congruence]|].
      apply totals_keep; auto; left; unfold change; [rewrite (proj2 (Z.eqb_neq _ _) El)|rewrite (proj2 (Z.eqb_neq _ _) Et)]; reflexivity.
  Qed.

  Lemma inv_0 : inv 0 (st1, rows, sums0).
  Proof.
    unfold inv. do 5 (split; [now auto|]). cbn [su_two sums0]. split; [|split; [|split]].
    - split; [auto|]. intros j _. now rewrite app_nil_r.
    - rewrite X1, Old1. split; [lia|]. split; [lia|]. intros j J. split; reflexivity.
    - split; [auto|]. split; [auto|]. split; [auto|]. split; [discriminate|]. split; [split; [intros; lia|auto]|]. split; [auto|]. intros _. split; [auto|]. intros; lia.
    - unfold totals. repeat split.
  Qed.
  Lemma loop : ((exists i, i < n /\ bad i) /\ foldr_ub (update_entry one (S n) l k D) (st1, rows, sums0) (seq 0 n) = UB) \/
    ((forall i, i < n -> ~ bad i) /\ exists s, foldr_ub (update_entry one (S n) l k D) (st1, rows, sums0) (seq 0 n) = Ok s /\ inv n s).
  Proof. apply fold_seq; [apply step|apply inv_0]. Qed.

  (* After the loop. *)
  Definition newcomer (d x : Z) : Prop :=
    (Nt = 0 -> d = (- one)%Z /\ x = (-1)%Z) /\
    (0 < Nt -> (exists j, j < n /\ L j = t /\ d = dn j /\ x = Z.of_nat j) /\ forall j, j < n -> L j = t -> (d <= dn j)%Z).
  Definition ended (gone : Z) (st : params) : Prop :=
    sp_key st = sp_key st1 /\ sp_target st = t /\ sp_keys st = sp_keys st1 /\ sp_labels st = lab /\ sp_maxKeys st = sp_maxKeys st1 /\
    lists n (sp_nnIndices st) (sp_nnDists st) 1 /\ newcomer (nth n (sp_nnDists st) 0%Z) (nth n (sp_nnIndices st) 0%Z) /\
    zok (sp_num st) /\ zok (sp_avg st) /\
    (forall p c, zget (sp_num st) p = Some c -> c = Z.of_nat (size (lab ++ [t]) p)) /\
    (forall p, 0 < size (lab ++ [t]) p -> zget (sp_num st) p <> None) /\
    (forall p, p <> t -> p <> l -> zget (sp_avg st) p = zget (sp_avg st1) p) /\
    (l <> t -> (Nl = 0 -> zget (sp_avg st) l = None) /\
               (Nl = 1 -> (forall j, j < n -> L j = l -> ix j = Z.of_nat k) -> zget (sp_avg st) l = Some (inject_Z (- one))) /\
               (2 <= Nl -> exists a a', zget (sp_avg st1) l = Some a /\ zget (sp_avg st) l = Some a' /\
                  (a' * inject_Z (Z.of_nat Nl) == inject_Z (Z.of_nat Nl + 1) * a - inject_Z gone + inject_Z (zsum (change l) (seq 0 n)))%Q)) /\
    (Nt = 0 -> zget (sp_avg st) t = Some (inject_Z (- one))) /\
    (Nt = 1 -> exists j, j < n /\ L j = t /\ zget (sp_avg st) t = Some (inject_Z (dn j))) /\
    (2 <= Nt -> exists a a', zget (sp_avg st1) t = Some a /\ zget (sp_avg st) t = Some a' /\
       (l <> t -> (a' * inject_Z (Z.of_nat Nt + 1) == inject_Z (Z.of_nat Nt) * a + inject_Z (zsum (change t) (seq 0 n)) + inject_Z (nth n (sp_nnDists st) 0%Z))%Q) /\
       (l = t -> (a' * inject_Z (Z.of_nat Nt + 1) == inject_Z (Z.of_nat Nt + 1) * a - inject_Z gone + inject_Z (zsum (change t) (seq 0 n)) + inject_Z (nth n (sp_nnDists st) 0%Z))%Q)).

  Hypothesis Num1' : forall p c, zget (sp_num st1) p = Some c -> c = Z.of_nat (size lab p).
  Hypothesis Avg1 : forall p, 0 < size lab p <-> zget (sp_avg st1) p <> None.

  Lemma inject_neq z : (0 < z)%Z -> ~ (inject_Z z == 0)%Q.
  Proof. intros H E. unfold Qeq, inject_Z in E. cbn in E. lia. Qed.
  Lemma Qdiv_back a z : (0 < z)%Z -> (a / inject_Z z * inject_Z z == a)%Q.
  Proof. intros H. field. now apply inject_neq. Qed.

  Lemma nearest_tp su : totals n su -> 2 <= Nt -> exists d j, nearest_of (su_tp su) = Ok (d, j) /\ newcomer d (Z.of_nat j).
  Proof.
    intros (_ & _ & _ & Tp) G. rewrite (Tp G). assert (P : 0 < size lab t) by (fold Nt; lia). apply size_pos in P. destruct P as (j0 & J0 & E0).
    set (f := filter (fun j => (L j =? t)%Z) (seq 0 n)).
    assert (In_f : forall j, In j f <-> j < n /\ L j = t). { intros j. unfold f. rewrite filter_In, in_seq, Z.eqb_eq. intuition lia. }
    destruct (nearest_of_least (map (fun j => (dn j, j)) f)) as (d & j & E & I & M).
    { intros Z. apply map_eq_nil in Z. assert (In j0 f) by (apply In_f; auto). now rewrite Z in H. }
    exists d, j. split; [exact E|]. apply in_map_iff in I. destruct I as (j' & [= <- <-] & I). apply In_f in I.
    split; [intros; lia|]. intros _. split; [exists j'; tauto|]. intros i Hi Li. apply (M (dn i, i)). apply in_map_iff. exists i. split; [auto|]. now apply In_f.
  Qed.

  Lemma shrink_spec gone su st : sp_target st = t -> l <> t -> zok (sp_num st) -> zok (sp_avg st) ->
    zget (sp_num st) l = zget (sp_num st1) l ->
    (Nl <> 1 -> zget (sp_avg st) l = zget (sp_avg st1) l) ->
    (2 <= Nl -> (su_delNew su - su_delOld su)%Z = zsum (change l) (seq 0 n)) ->
    exists num avg, shrink_average l gone su st = set_maps st avg num /\ zok num /\ zok avg /\
      (forall p, p <> l -> zget num p = zget (sp_num st) p /\ zget avg p = zget (sp_avg st) p) /\ (forall c, zget num l = Some c -> c = Z.of_nat Nl) /\ (0 < Nl -> zget num l <> None) /\
      (Nl < 2 -> zget avg l = zget (sp_avg st) l) /\
      (2 <= Nl -> exists a a', zget (sp_avg st1) l = Some a /\ zget avg l = Some a' /\
                  (a' * inject_Z (Z.of_nat Nl) == inject_Z (Z.of_nat Nl + 1) * a - inject_Z gone + inject_Z (zsum (change l) (seq 0 n)))%Q).
  Proof.
    intros T Q O1 O2 Gn Ga Su. unfold shrink_average. destruct (le_lt_dec Nl 0) as [Z0|P].
    - destruct (zget (sp_num st1) l) as [c|] eqn:E.
      + rewrite (zread_some _ _ _ _ Gn). assert (c = 0%Z) as -> by (rewrite (Num1' _ _ E); fold Nl; lia). cbn [Z.ltb]. change (1 <? 0)%Z with false. cbv iota.
        exists (sp_num st), (sp_avg st). split; [reflexivity|]. split; [auto|]. split; [auto|]. split; [auto|]. split; [intros c; rewrite Gn; intros [= <-]; lia|]. split; [lia|]. split; [auto|lia].
      + rewrite (zread_none _ _ _ Gn). change (1 <? 0)%Z with false. cbv iota. exists (zput (sp_num st) l 0%Z), (sp_avg st).
        split; [reflexivity|]. split; [now apply zput_ok|]. split; [auto|]. split; [|split; [|split; [lia|split; [auto|lia]]]].
        * intros p Np. rewrite zput_get by auto. destruct (Z.eqb_spec p l); [easy|auto].
        * intros c. rewrite zput_get, Z.eqb_refl by auto. intros [= <-]. lia.
    - assert (E : zget (sp_num st1) l = Some (Z.of_nat Nl)) by (apply Num1; auto). rewrite E in Gn. rewrite (zread_some _ _ _ _ Gn).
      destruct (Z.ltb_spec 1 (Z.of_nat Nl)) as [B|B].
      + destruct (zget (sp_avg st1) l) as [a|] eqn:Ea; [|exfalso; apply (Avg1 l); auto]. rewrite (zread_some 0%Q (sp_avg st) l a) by (rewrite Ga by lia; auto). cbn [fst].
        eexists (sp_num st), _. split; [reflexivity|]. split; [auto|]. split; [now apply zput_ok|]. split; [|split; [|split; [|split; [lia|]]]].
        * intros p Np. rewrite zput_get by auto. destruct (Z.eqb_spec p l); [easy|auto].
        * intros c. rewrite Gn. intros [= <-]. reflexivity.
        * congruence.
        * intros G. exists a. eexists. split; [reflexivity|]. split; [rewrite zput_get, Z.eqb_refl by auto; reflexivity|].
          rewrite Qdiv_back by lia. rewrite <- (Su G). unfold Z.sub. rewrite (inject_Z_plus (su_delNew su)), inject_Z_opp. ring.
      + exists (sp_num st), (sp_avg st). split; [reflexivity|]. split; [auto|]. split; [auto|]. split; [auto|]. split; [intros c; rewrite Gn; intros [= <-]; lia|]. split; [congruence|]. split; [auto|lia].
  Qed.

  Lemma finish gone st m su : inv n (st, m, su) -> let st2 := new_partition one st in
    exists st3, (if negb (l =? sp_target st2)%Z then grow_average su (shrink_average l gone su st2) else same_average gone su st2) = Ok st3 /\ ended gone st3.
  Proof.
    intros (K & T & Ks & Lb & Mk & G & Li & Mp & To). destruct Mp as (O1 & O2 & N & A & B & C & E). cbv zeta.
    assert (Ht : zget (sp_avg st1) t = None <-> Nt = 0).
    { destruct (zget (sp_avg st1) t) eqn:Q; split; try discriminate; try easy.
      - intros Z. exfalso. assert (0 < size lab t) by (apply Avg1; congruence). fold Nt in H. lia.
      - intros _. destruct (le_lt_dec Nt 0) as [|P]; [lia|]. apply (Avg1 t) in P. easy. }
    assert (Sz : forall p, size (lab ++ [t]) p = size lab p + if (t =? p)%Z then 1 else 0) by (intros; apply size_app).
    assert (Cases : Nt = 0 \/ Nt = 1 \/ 2 <= Nt) by lia. destruct Cases as [N0|[N1|N2]].
    - (* the target partition is new *)
      assert (Tw : su_two su = false). { destruct (su_two su); [|reflexivity]. destruct (A eq_refl) as [A1 _]. lia. } rewrite Tw in *.
      destruct (B eq_refl) as [B1 B2]. assert (Gt : zget (sp_avg st) t = None) by (rewrite B2; now apply Ht).
      unfold new_partition. rewrite T, Gt. unfold set_maps, set_nn. cbn [sp_target]. rewrite T.
      cbn [sp_key sp_target sp_keys sp_labels sp_nnIndices sp_nnDists sp_avg sp_num sp_maxKeys].
      destruct (lists_more _ _ _ (-1)%Z (- one)%Z Li) as (Lm & M1 & M2).
      set (stn := mkParams (sp_key st) t (sp_keys st) (sp_labels st) (sp_nnIndices st ++ [(-1)%Z]) (sp_nnDists st ++ [(- one)%Z])
                           (zput (sp_avg st) t (inject_Z (- one))) (zput (sp_num st) t 1%Z) (sp_maxKeys st)).
      assert (Gn : zget (sp_num stn) t = Some 1%Z) by (cbn [stn sp_num]; rewrite zput_get, Z.eqb_refl by auto; reflexivity).
      assert (Nc : newcomer (nth n (sp_nnDists stn) 0%Z) (nth n (sp_nnIndices stn) 0%Z)) by (cbn [stn sp_nnDists sp_nnIndices]; rewrite M1, M2; split; [auto|intros; lia]).
      destruct (Z.eqb_spec l t) as [Q|Q]; cbn [negb].
      + unfold same_average. change (sp_target stn) with t. rewrite (zread_some _ _ _ _ Gn). change (2 <=? 1)%Z with false. cbn [andb].
        eexists. split; [reflexivity|]. unfold ended, set_maps. cbn [sp_key sp_target sp_keys sp_labels sp_maxKeys sp_nnIndices sp_nnDists sp_num sp_avg stn].
        do 7 (split; [now auto|]). split; [now apply zput_ok|]. split; [now apply zput_ok|]. split; [|split; [|split; [|split; [congruence|split; [|split; intros; lia]]]]].
        * intros p c. rewrite zput_get by auto. rewrite Sz. destruct (Z.eqb_spec p t) as [->|Np].
          -- rewrite Z.eqb_refl. intros [= <-]. fold Nt. lia.
          -- rewrite N. cbn [andb]. intros H. rewrite (Num1' _ _ H). destruct (Z.eqb_spec t p); [congruence|]. lia.
        * intros p. rewrite zput_get by auto. rewrite Sz. destruct (Z.eqb_spec p t) as [->|Np]; [discriminate|].
          rewrite N. cbn [andb]. destruct (Z.eqb_spec t p); [congruence|]. rewrite Nat.add_0_r. intros H. rewrite Num1 by auto. discriminate.
        * intros p P1 P2. rewrite zput_get by auto. destruct (Z.eqb_spec p t); [easy|auto].
        * intros _. rewrite zput_get, Z.eqb_refl by auto. reflexivity.
      + destruct (E Q) as [E1 E2]. destruct To as (To1 & _).
        destruct (shrink_spec gone su stn) as (num & avg & Es & S1 & S2 & S3 & S4 & S5 & S6 & S7); auto.
        { cbn [stn sp_num]. now apply zput_ok. } { cbn [stn sp_avg]. now apply zput_ok. }
        { cbn [stn sp_num]. rewrite zput_get by auto. destruct (Z.eqb_spec l t); [easy|]. rewrite N. reflexivity. }
        { intros H. cbn [stn sp_avg]. rewrite zput_get by auto. destruct (Z.eqb_spec l t); [easy|]. auto. }
        rewrite Es. unfold grow_average, set_maps. cbn [sp_target sp_num stn]. assert (Gn' : zget num t = Some 1%Z) by (rewrite (proj1 (S3 t ltac:(auto))); exact Gn).
        rewrite (zread_some _ _ _ _ Gn'). change (2 <=? 1)%Z with false. cbn [andb].
        eexists. split; [reflexivity|]. unfold ended. cbn [sp_key sp_target sp_keys sp_labels sp_maxKeys sp_nnIndices sp_nnDists sp_num sp_avg stn].
        do 7 (split; [now auto|]). split; [auto|]. split; [auto|]. split; [|split; [|split; [|split; [|split; [|split; intros; lia]]]]].
        * intros p c. rewrite Sz. destruct (Z.eqb_spec t p) as [<-|Np].
          -- rewrite Gn'. intros [= <-]. fold Nt. lia.
          -- destruct (Z.eq_dec p l) as [->|Np']; [intros H; rewrite (S4 _ H); fold Nl; lia|]. rewrite (proj1 (S3 p Np')). cbn [stn sp_num]. rewrite zput_get by auto. destruct (Z.eqb_spec p t); [congruence|].
             rewrite N. cbn [andb]. intros H. rewrite (Num1' _ _ H). lia.
        * intros p. rewrite Sz. destruct (Z.eqb_spec t p) as [<-|Np]; [congruence|]. rewrite Nat.add_0_r. intros H.
          destruct (Z.eq_dec p l) as [->|Np']; [auto|]. rewrite (proj1 (S3 p Np')). cbn [stn sp_num]. rewrite zput_get by auto. destruct (Z.eqb_spec p t); [congruence|].
          rewrite N. cbn [andb]. rewrite Num1 by auto. discriminate.
        * intros p P1 P2. rewrite (proj2 (S3 p P2)). cbn [stn sp_avg]. rewrite zput_get by auto. destruct (Z.eqb_spec p t); [easy|auto].
        * intros _. split; [|split; [|auto]].
          -- intros Z. rewrite (S6 ltac:(lia)). cbn [stn sp_avg]. rewrite zput_get by auto. destruct (Z.eqb_spec l t); [easy|]. rewrite E1 by lia.
             destruct (zget (sp_avg st1) l) eqn:Q1; [|auto]. assert (0 < size lab l) by (apply Avg1; congruence). fold Nl in H. lia.
          -- intros Z All. rewrite (S6 ltac:(lia)). cbn [stn sp_avg]. rewrite zput_get by auto. destruct (Z.eqb_spec l t); [easy|].
             assert (P : 0 < size lab l) by (fold Nl; lia). apply size_pos in P. destruct P as (j & J & Lj). apply (E2 Z j); auto.
        * intros _. rewrite (proj2 (S3 t ltac:(auto))). cbn [stn sp_avg]. rewrite zput_get, Z.eqb_refl by auto. reflexivity.
    - (* one point there *)
      assert (P : 0 < size lab t) by (fold Nt; lia). assert (P' := P). apply size_pos in P'. destruct P' as (j0 & J0 & E0).
      assert (Tw : su_two su = true). { destruct (su_two su); [reflexivity|]. exfalso. apply (proj1 (B eq_refl) N1 j0); auto. } rewrite Tw in *.
      destruct (A eq_refl) as (_ & j & J & Lj & M2 & M1 & Gt). unfold new_partition. rewrite T, Gt. rewrite T.
      assert (Gn : zget (sp_num st) t = Some 2%Z) by (rewrite N, Z.eqb_refl; reflexivity).
      assert (Nc : newcomer (nth n (sp_nnDists st) 0%Z) (nth n (sp_nnIndices st) 0%Z)).
      { rewrite M1, M2. split; [intros; lia|]. intros _. split; [exists j; auto|]. intros i Hi Li'. assert (i = j) as -> by (apply (unique_two i j t); auto). lia. }
      destruct (Z.eqb_spec l t) as [Q|Q]; cbn [negb].
      + unfold same_average. rewrite T, (zread_some _ _ _ _ Gn), Tw. rewrite andb_false_r.
        eexists. split; [reflexivity|]. unfold ended, set_maps. cbn [sp_key sp_target sp_keys sp_labels sp_maxKeys sp_nnIndices sp_nnDists sp_num sp_avg].
        do 9 (split; [now auto|]). split; [|split; [|split; [|split; [congruence|split; [intros; lia|split; [|intros; lia]]]]]].
        * intros p c. rewrite N, Sz. cbn [andb]. destruct (Z.eqb_spec p t) as [->|Np].
          -- rewrite Z.eqb_refl. intros [= <-]. fold Nt. lia.
          -- intros H. rewrite (Num1' _ _ H). destruct (Z.eqb_spec t p); [congruence|]. lia.
        * intros p. rewrite N, Sz. cbn [andb]. destruct (Z.eqb_spec p t) as [->|Np]; [discriminate|].
          destruct (Z.eqb_spec t p); [congruence|]. rewrite Nat.add_0_r. intros H. rewrite Num1 by auto. discriminate.
        * auto.
        * intros _. exists j. auto.
      + destruct (E Q) as [E1 E2]. destruct To as (To1 & _).
        destruct (shrink_spec gone su st) as (num & avg & Es & S1 & S2 & S3 & S4 & S5 & S6 & S7); auto.
        { rewrite N. rewrite (proj2 (Z.eqb_neq l t) Q). reflexivity. }
        rewrite Es. unfold grow_average, set_maps. cbn [sp_target sp_num]. assert (Gn' : zget num t = Some 2%Z) by (rewrite (proj1 (S3 t ltac:(auto))); exact Gn).
        rewrite T, (zread_some _ _ _ _ Gn'), Tw, andb_false_r.
        eexists. split; [reflexivity|]. unfold ended. cbn [sp_key sp_target sp_keys sp_labels sp_maxKeys sp_nnIndices sp_nnDists sp_num sp_avg].
        do 7 (split; [now auto|]). split; [auto|]. split; [auto|]. split; [|split; [|split; [|split; [|split; [intros; lia|split; [|intros; lia]]]]]].
        * intros p c. rewrite Sz. destruct (Z.eqb_spec t p) as [<-|Np].
          -- rewrite Gn'. intros [= <-]. fold Nt. lia.
          -- destruct (Z.eq_dec p l) as [->|Np']; [intros H; rewrite (S4 _ H); fold Nl; lia|]. rewrite (proj1 (S3 p Np')), N. cbn [andb]. destruct (Z.eqb_spec p t); [congruence|].
             intros H. rewrite (Num1' _ _ H). lia.
        * intros p. rewrite Sz. destruct (Z.eqb_spec t p) as [<-|Np]; [congruence|]. rewrite Nat.add_0_r. intros H.
          destruct (Z.eq_dec p l) as [->|Np']; [auto|]. rewrite (proj1 (S3 p Np')), N. cbn [andb]. destruct (Z.eqb_spec p t); [congruence|].
          rewrite Num1 by auto. discriminate.
        * intros p P1 P2. rewrite (proj2 (S3 p P2)). auto.
        * intros _. split; [|split; [|auto]].
          -- intros Z. rewrite (S6 ltac:(lia)). rewrite E1 by lia.
             destruct (zget (sp_avg st1) l) eqn:Q1; [|auto]. assert (0 < size lab l) by (apply Avg1; congruence). fold Nl in H. lia.
          -- intros Z All. rewrite (S6 ltac:(lia)).
             assert (Pl : 0 < size lab l) by (fold Nl; lia). apply size_pos in Pl. destruct Pl as (j' & J' & Lj'). apply (E2 Z j'); auto.
        * intros _. exists j. split; [auto|]. split; [auto|]. rewrite (proj2 (S3 t ltac:(auto))). auto.
    - (* two or more *)
      assert (Tw : su_two su = false). { destruct (su_two su); [|reflexivity]. destruct (A eq_refl) as [A1 _]. lia. } rewrite Tw in *.
      destruct (B eq_refl) as [B1 B2]. destruct (zget (sp_avg st1) t) as [a|] eqn:Ea; [|assert (Nt = 0) by (now apply Ht); lia].
      unfold new_partition. rewrite T, B2. rewrite T.
      assert (Gn : zget (sp_num st) t = Some (Z.of_nat Nt)) by (rewrite N; apply Num1; fold Nt; lia).
      destruct (nearest_tp su To N2) as (d & j & Ne & Nc).
      destruct (lists_more _ _ _ (Z.of_nat j) d Li) as (Lm & M1 & M2). 
      assert (Nc' : newcomer (nth n (sp_nnDists st ++ [d]) 0%Z) (nth n (sp_nnIndices st ++ [Z.of_nat j]) 0%Z)) by (now rewrite M1, M2).
      destruct (Z.eqb_spec l t) as [Q|Q]; cbn [negb].
      + unfold same_average. rewrite T, (zread_some _ _ _ _ Gn), Tw. rewrite (proj2 (Z.leb_le 2 (Z.of_nat Nt))) by lia. cbn [negb andb]. rewrite Ne. cbn [bind].
        rewrite (zread_some _ _ _ _ B2). cbn [fst snd].
        eexists. split; [reflexivity|]. unfold ended, set_maps, set_nn. cbn [sp_key sp_target sp_keys sp_labels sp_maxKeys sp_nnIndices sp_nnDists sp_num sp_avg].
        do 7 (split; [now auto|]). split; [now apply zput_ok|]. split; [now apply zput_ok|]. split; [|split; [|split; [|split; [congruence|split; [intros; lia|split; [intros; lia|]]]]]].
        * intros p c. rewrite zput_get by auto. rewrite Sz. destruct (Z.eqb_spec p t) as [->|Np].
          -- rewrite Z.eqb_refl. intros [= <-]. fold Nt. lia.
          -- rewrite N. cbn [andb]. intros H. rewrite (Num1' _ _ H). destruct (Z.eqb_spec t p); [congruence|]. lia.
        * intros p. rewrite zput_get by auto. rewrite Sz. destruct (Z.eqb_spec p t) as [->|Np]; [discriminate|].
          rewrite N. cbn [andb]. destruct (Z.eqb_spec t p); [congruence|]. rewrite Nat.add_0_r. intros H. rewrite Num1 by auto. discriminate.
        * intros p P1 P2. rewrite zput_get by auto. destruct (Z.eqb_spec p t); [easy|auto].
        * intros _. exists a. eexists. split; [auto|]. split; [rewrite zput_get, Z.eqb_refl by auto; reflexivity|]. split; [congruence|].
          intros _. rewrite Qdiv_back by lia. rewrite M2. destruct To as (_ & _ & To3 & _). rewrite <- (To3 Q N2). unfold Z.sub. rewrite (inject_Z_plus (su_new su)), inject_Z_opp. ring.
      + destruct (E Q) as [E1 E2]. destruct To as (To1 & To2 & _).
        destruct (shrink_spec gone su st) as (num & avg & Es & S1 & S2 & S3 & S4 & S5 & S6 & S7); auto.
        { rewrite N. reflexivity. }
        rewrite Es. unfold grow_average, set_maps, set_nn. cbn [sp_target sp_num sp_avg sp_nnIndices sp_nnDists sp_key sp_keys sp_labels sp_maxKeys].
        assert (Gn' : zget num t = Some (Z.of_nat Nt)) by (rewrite (proj1 (S3 t ltac:(auto))); exact Gn).
        assert (Ga' : zget avg t = Some a) by (rewrite (proj2 (S3 t ltac:(auto))); exact B2).
        rewrite T, (zread_some _ _ _ _ Gn'), Tw. rewrite (proj2 (Z.leb_le 2 (Z.of_nat Nt))) by lia. cbn [negb andb]. rewrite Ne. cbn [bind].
        rewrite (zread_some _ _ _ _ Ga'). cbn [fst snd].
        eexists. split; [reflexivity|]. unfold ended. cbn [sp_key sp_target sp_keys sp_labels sp_maxKeys sp_nnIndices sp_nnDists sp_num sp_avg].
        do 7 (split; [now auto|]). split; [now apply zput_ok|]. split; [now apply zput_ok|]. split; [|split; [|split; [|split; [|split; [intros; lia|split; [intros; lia|]]]]]].
        * intros p c. rewrite zput_get by auto. rewrite Sz. destruct (Z.eqb_spec p t) as [->|Np].
          -- rewrite Z.eqb_refl. intros [= <-]. fold Nt. lia.
          -- destruct (Z.eqb_spec t p); [congruence|]. destruct (Z.eq_dec p l) as [->|Np']; [intros H; rewrite (S4 _ H); fold Nl; lia|]. rewrite (proj1 (S3 p Np')), N. cbn [andb].
             intros H. rewrite (Num1' _ _ H). lia.
        * intros p. rewrite zput_get by auto. rewrite Sz. destruct (Z.eqb_spec p t) as [->|Np]; [discriminate|]. destruct (Z.eqb_spec t p); [congruence|]. rewrite Nat.add_0_r. intros H.
          destruct (Z.eq_dec p l) as [->|Np']; [auto|]. rewrite (proj1 (S3 p Np')), N. cbn [andb]. rewrite Num1 by auto. discriminate.
        * intros p P1 P2. rewrite zput_get by auto. destruct (Z.eqb_spec p t); [easy|]. rewrite (proj2 (S3 p P2)). auto.
        * intros _. assert (Gl : forall x, zget (zput avg t x) l = zget avg l) by (intros x; rewrite zput_get by auto; destruct (Z.eqb_spec l t); [easy|auto]).
          split; [|split].
          -- intros Z. rewrite Gl, (S6 ltac:(lia)). rewrite E1 by lia.
             destruct (zget (sp_avg st1) l) eqn:Q1; [|auto]. assert (0 < size lab l) by (apply Avg1; congruence). fold Nl in H. lia.
          -- intros Z All. rewrite Gl, (S6 ltac:(lia)).
             assert (Pl : 0 < size lab l) by (fold Nl; lia). apply size_pos in Pl. destruct Pl as (j' & J' & Lj'). apply (E2 Z j'); auto.
          -- intros Z. destruct (S7 Z) as (b & b' & Q1 & Q2 & Q3). exists b, b'. rewrite Gl. auto.
        * intros _. exists a. eexists. split; [auto|]. split; [rewrite zput_get, Z.eqb_refl by auto; reflexivity|]. split; [|congruence].
          intros _. rewrite Qdiv_back by lia. rewrite M2. rewrite <- (To2 Q N2). unfold Z.sub. rewrite (inject_Z_plus (su_addNew su)), inject_Z_opp. ring.
  Qed.

  Lemma update_spec gone : 
    ((exists i, i < n /\ bad i) /\ updateStats one (S n) l k gone D st1 rows = UB) \/
    ((forall i, i < n -> ~ bad i) /\ exists st m, updateStats one (S n) l k gone D st1 rows = Ok (st, m ++ [[]]) /\ ended gone st /\ grown n m).
  Proof.
    unfold updateStats. rewrite Lrows. destruct loop as [[B U]|[B ([[st m] su] & O & I)]].
    - left. rewrite U. auto.
    - right. split; [auto|]. rewrite O. cbn [bind]. destruct (finish gone st m su I) as (st3 & F & En). cbv zeta in F. rewrite F. cbn [bind].
      exists st3, m. split; [reflexivity|]. split; [auto|]. apply I.
  Qed.
End Loop.
