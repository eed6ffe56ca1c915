(* TreeDeleteProofs.v -- what deleteIterative, the stream evaluator and the unimplemented queries of simplexTree do. *)
From Coq Require Import List Arith ZArith Bool Lia Sorted Permutation.
From Verif Require Import Base Spec ArrayListModel SpecComplex TreeModel SpecTree TreeHist TreeDeleteModel.
Import ListNotations.

Lemma unlink_absent uaf key l count : (forall c, In c l -> key_is key c = false) -> deleteIndexRecurse uaf key l count = Ok (l, count, false).
Proof.
  revert count. induction l as [|c l IH]; intros count H; [reflexivity|]. cbn [deleteIndexRecurse].
  assert (E : match l with [] => Ok ([], count, false) | s :: rest' => if key_is key s then deleteIndexRecurse uaf key rest' count else deleteIndexRecurse uaf key l count end = Ok (l, count, false)).
  { destruct l as [|s l']; auto. rewrite (H s) by (cbn; auto). apply IH. intros x Hx. apply H. now right. }
  rewrite E. cbn [bind]. rewrite (H c) by (cbn; auto). reflexivity.
Qed.
Lemma unlink_later uaf key c a x b count : (forall y, In y (c :: a ++ b) -> key_is key y = false) -> key_is key x = true ->
  deleteIndexRecurse uaf key (c :: a ++ x :: b) count = Ok (c :: a ++ b, count, false).
Proof.
  revert c count. induction a as [|y a IH]; intros c count H Hx; cbn [app] in *.
  - cbn [deleteIndexRecurse]. rewrite Hx, unlink_absent by (intros z Hz; apply H; now right). cbn [bind]. rewrite (H c) by (cbn; auto). reflexivity.
  - assert (D : deleteIndexRecurse uaf key (y :: a ++ x :: b) count = Ok (y :: a ++ b, count, false)) by (apply IH; auto; intros z Hz; apply H; now right).
    remember (y :: a ++ x :: b) as l eqn:El. cbn [deleteIndexRecurse]. rewrite El at 1. rewrite (H y) by (cbn; auto). rewrite D. cbn [bind].
    rewrite (H c) by (cbn; auto). reflexivity.
Qed.
Lemma unlink_first key c l count : key_is key c = true -> (forall y, In y l -> key_is key y = false) ->
  deleteIndexRecurse (Ok tt) key (c :: l) count = Ok (c :: l, (count - Z.of_nat (S (length l)))%Z, true).
Proof.
  intros Hc H. cbn [deleteIndexRecurse].
  assert (E : match l with [] => Ok ([], count, false) | s :: rest' => if key_is key s then deleteIndexRecurse (Ok tt) key rest' count else deleteIndexRecurse (Ok tt) key l count end = Ok (l, count, false)).
  { destruct l as [|s l']; auto. rewrite (H s) by (cbn; auto). apply unlink_absent. intros x Hx. apply H. auto. }
  rewrite E. cbn [bind]. rewrite Hc, deletion_spec. reflexivity.
Qed.

Definition without (l : list (list Z)) (i : nat) : list (list Z) := firstn i l ++ skipn (S i) l.
Lemma erase_row_ok dm i : i < length dm -> erase_row dm (Z.of_nat i) = Ok (without dm i).
Proof.
  intros H. unfold erase_row. rewrite (proj2 (Z.leb_le _ _)), (proj2 (Z.ltb_lt _ _)) by lia. cbn. now rewrite Nat2Z.id.
Qed.
Lemma erase_columns_ok dm i : (forall r, In r dm -> length r <> i) -> erase_columns dm (Z.of_nat i) = Ok tt.
Proof.
  intros H. unfold erase_columns. rewrite Nat2Z.id. destruct (existsb _ dm) eqn:E; auto. apply existsb_exists in E as (r & Hr & E).
  apply Nat.eqb_eq in E. now apply H in Hr.
Qed.
Lemma key_is_spec v t : (Z.of_nat v < 2 ^ 31)%Z -> key_is (Z.of_nat v) t = (t_index t =? v).
Proof.
  intros H. unfold key_is. rewrite Z.mod_small by lia. apply eq_true_iff_eq. rewrite Z.eqb_eq, Nat.eqb_eq. lia.
Qed.
Lemma erase_defined dm idx dm' : erase_row dm idx = Ok dm' -> erase_columns dm' idx = Ok tt -> exists i, idx = Z.of_nat i /\ i < length dm /\ dm' = without dm i /\ forall r, In r dm' -> length r <> i.
Proof.
  unfold erase_row. destruct (Z.leb_spec 0 idx); [|discriminate]. destruct (Z.ltb_spec idx (Z.of_nat (length dm))); [|discriminate].
  cbn. intros [= <-] E. exists (Z.to_nat idx). split; [lia|]. split; [lia|]. split; auto. intros r Hr Hl.
  unfold erase_columns in E. rewrite (proj2 (existsb_exists _ _)) in E; [discriminate|]. exists r. split; auto. now apply Nat.eqb_eq.
Qed.

Section Delete.
  Variables (eps md : Z) (dm : list (list Z)) (nc0 : Z) (srt : list wsimp -> list wsimp) (ops : list st_op) (t : stree).
  Hypothesis Hs : is_sort srt.
  Hypothesis L : legal dm ops.
  Hypothesis R : st_run eps md (Ok tt) srt (st_new dm nc0) ops = Ok t.
  Notation b := (p_before (past dm ops)).
  Notation n := (p_live (past dm ops)).

  Lemma roots_ix : map t_index (st_roots t) = seq b n.
  Proof. destruct (run_inv eps md dm nc0 srt ops Hs L) as (t' & cb & E & V & _). rewrite R in E. injection E as <-. apply V. Qed.
  Lemma run_dm : st_dm t = p_dm (past dm ops).
  Proof. destruct (run_inv eps md dm nc0 srt ops Hs L) as (t' & cb & E & V & _). rewrite R in E. injection E as <-. apply V. Qed.

  (* The four cases of a deletion that does not read or erase out of range. *)
  Lemma delete_cases v i : (Z.of_nat v < 2 ^ 31)%Z -> i < length (st_dm t) -> (forall r, In r (without (st_dm t) i) -> length r <> i) ->
    exists roots count h, deleteIterative (Ok tt) (Z.of_nat v) (Z.of_nat i) (mkD t Sound) = Ok (mkD (with_rows t (without (st_dm t) i) roots count) h) /\
      (v = b /\ 0 < n ->
         map t_index roots = seq (S b) (n - 1) /\ count = (st_count t - Z.of_nat n)%Z /\ h = (if n =? 1 then Lost else Freed)) /\
      (~ (v = b /\ 0 < n) -> map t_index roots = filter (fun x => negb (x =? v)) (seq b n) /\ count = st_count t /\ h = Sound).
  Proof.
    intros Hv Hi Hr. unfold deleteIterative. cbn [d_tree d_head]. rewrite erase_row_ok by auto. cbn [bind]. rewrite erase_columns_ok by auto. cbn [bind].
    assert (IX := roots_ix). set (c0 := st_count t). set (dm' := without (st_dm t) i) in *.
    assert (K := fun x => key_is_spec v x Hv). destruct (st_roots t) as [|c rest] eqn:Er.
    { cbn [deleteIndexRecurse bind]. exists [], c0, Sound. assert (n = 0) by (rewrite <- (seq_length n b), <- IX; reflexivity).
      rewrite H. cbn. split; auto. split; [lia|]. auto. }
    assert (En : n = S (length rest)) by (rewrite <- (seq_length n b), <- IX; cbn; now rewrite map_length).
    rewrite En in *. cbn [seq map] in IX. injection IX as Ic Irest.
    assert (Low : forall y, In y rest -> b < t_index y).
    { intros y Hy. apply (in_map t_index) in Hy. rewrite Irest in Hy. apply in_seq in Hy. lia. }
    destruct (Nat.eq_dec v b) as [E|E].
    - rewrite (unlink_first (Z.of_nat v) c rest c0).
      + cbn [bind]. rewrite K, Ic, E, Nat.eqb_refl. exists rest, (c0 - Z.of_nat (S (length rest)))%Z, (if S (length rest) =? 1 then Lost else Freed).
        destruct rest as [|c' rest']; cbn [length Nat.eqb]; (split; [reflexivity|]); (split; [|intros H; exfalso; apply H; lia]); intros _;
          (split; [rewrite Irest; f_equal; cbn; lia|auto]).
      + rewrite K, Ic, E. apply Nat.eqb_refl.
      + intros y Hy. rewrite K. apply Nat.eqb_neq. specialize (Low y Hy). lia.
    - assert (Hc : key_is (Z.of_nat v) c = false) by (rewrite K, Ic; apply Nat.eqb_neq; auto).
      assert (Ex : In v (map t_index rest) \/ ~ In v (map t_index rest)) by (destruct (in_dec Nat.eq_dec v (map t_index rest)); auto).
      cbn [filter seq]. destruct (Nat.eqb_spec b v) as [X|_]; [lia|]. cbn [negb].
      destruct Ex as [Ex|Ex].
      + apply in_map_iff in Ex as (x & Ix & Hx). apply in_split in Hx as (l1 & l2 & ->).
        assert (Nd : NoDup (map t_index (l1 ++ x :: l2))) by (rewrite Irest; apply seq_NoDup).
        rewrite map_app in Nd. cbn [map] in Nd. assert (Nx := NoDup_remove_2 _ _ _ Nd). rewrite Ix in Nx.
        assert (Z0 : forall y, In y (c :: l1 ++ l2) -> key_is (Z.of_nat v) y = false).
        { intros y [<-|Hy]; auto. rewrite K. apply Nat.eqb_neq. intros Hyv. apply Nx. apply (in_map t_index) in Hy. rewrite map_app, Hyv in Hy. exact Hy. }
        assert (D := unlink_later (Ok tt) (Z.of_nat v) c l1 x l2 c0 Z0 ltac:(rewrite K, Ix; apply Nat.eqb_refl)).
        rewrite D. cbn [bind]. rewrite Hc. exists (c :: l1 ++ l2), c0, Sound. split; auto. split; [lia|]. intros _. split; auto. cbn [map]. rewrite Ic. f_equal.
        rewrite <- Irest, !map_app. cbn [map]. rewrite !filter_app. cbn [filter]. rewrite Ix, Nat.eqb_refl. cbn [negb].
        assert (Fl : forall l, ~ In v l -> filter (fun x => negb (x =? v)) l = l).
        { induction l as [|y l IH]; intros H; cbn; auto. destruct (Nat.eqb_spec y v) as [->|_]; [exfalso; apply H; now left|]. cbn. rewrite IH; auto. intros H'. apply H. now right. }
        rewrite !Fl; auto; intros H; apply Nx; apply in_app_iff; auto.
      + assert (Z0 : forall y, In y (c :: rest) -> key_is (Z.of_nat v) y = false).
        { intros y [<-|Hy]; auto. rewrite K. apply Nat.eqb_neq. intros H. apply Ex. rewrite <- H. now apply in_map. }
        rewrite unlink_absent by exact Z0. cbn [bind]. rewrite Hc. exists (c :: rest), c0, Sound. split; auto. split; [lia|]. intros _. split; auto.
        cbn [map]. rewrite Ic, Irest. f_equal. rewrite Irest in Ex. revert Ex. clear. intros Ex. induction (seq (S b) (length rest)) as [|y l IH]; cbn; auto.
        destruct (Nat.eqb_spec y v) as [->|_]; [exfalso; apply Ex; now left|]. cbn. f_equal. apply IH. intros H. apply Ex. now right.
  Qed.
End Delete.

Lemma delete_any uaf key idx t h d : deleteIterative uaf key idx (mkD t h) = Ok d ->
  exists dm roots count h', d = mkD (with_rows t dm roots count) h'.
Proof.
  unfold deleteIterative. cbn [d_tree d_head]. destruct (erase_row (st_dm t) idx) as [dm'|]; [|discriminate]. cbn [bind].
  destruct (erase_columns dm' idx); [|discriminate]. cbn [bind].
  assert (Go : forall h0, match deleteIndexRecurse uaf key (st_roots t) (st_count t) with UB => UB | Ok r => let '(l, count, freed) := r in
      match l with
      | [] => Ok (mkD (with_rows t dm' [] count) h0)
      | c :: l' => if key_is key c then match l' with [] => Ok (mkD (with_rows t dm' [] count) Lost) | _ => Ok (mkD (with_rows t dm' l' count) Freed) end
                   else Ok (mkD (with_rows t dm' l count) (if freed then Freed else h0))
      end end = Ok d -> exists dm roots count h', d = mkD (with_rows t dm roots count) h').
  { intros h0. destruct (deleteIndexRecurse uaf key (st_roots t) (st_count t)) as [[[l c] f]|]; [|discriminate].
    destruct l as [|x l]; [intros E; inversion E; subst; eauto 6|]. destruct (key_is key x); [destruct l|]; intros E; inversion E; subst; eauto 6. }
  destruct h; [exact (Go Sound)|discriminate|exact (Go Lost)].
Qed.
Lemma delete_lists_the_same uaf key idx t h d : deleteIterative uaf key idx (mkD t h) = Ok d ->
  (forall srt, fst (st_getAllEdges srt (d_tree d)) = fst (st_getAllEdges srt t)) /\ st_vertexCount (d_tree d) = st_vertexCount t.
Proof.
  intros H. destruct (delete_any _ _ _ _ _ _ H) as (dm & roots & count & h' & ->). cbn [d_tree]. split; auto.
  intros srt. unfold st_getAllEdges, with_rows. cbn. destruct (st_isSorted t); reflexivity.
Qed.
Lemma freed_undefined eps md uaf srt t o : st_dm t <> [] ->
  (o = DOp TInsert \/ o = DOp TClear \/ exists key idx, o = DDelete key idx) -> d_step eps md uaf srt (mkD t Freed) o = UB.
Proof.
  intros Hd [->|[->|(key & idx & ->)]]; cbn; auto.
  - destruct (st_dm t); [contradiction|reflexivity].
  - unfold deleteIterative. cbn. destruct (erase_row _ _); auto. cbn. destruct (erase_columns _ _); auto.
Qed.

(* ---- the stream evaluator ---- *)
Section Stream.
  Variables (num : Type) (zero : num) (add sub mul div : num -> num -> num) (sqrt : num -> num) (of_nat : nat -> num).
  Variable distance : list num -> list num -> res num.
  Variable nsrt : list num -> list num.
  Lemma neighbours_ok p cloud ds : nearestNeighbors num distance p cloud = Ok ds <-> Forall2 (fun q d => distance p q = Ok d) cloud ds.
  Proof.
    revert ds. induction cloud as [|q cloud IH]; intros ds; cbn [nearestNeighbors].
    - split; [intros [= <-]; constructor|inversion 1; auto].
    - destruct (distance p q) as [d|] eqn:E; cbn [bind].
      + destruct (nearestNeighbors num distance p cloud) as [ds'|]; cbn [bind].
        * split; [intros [= <-]; constructor; auto; now apply IH|]. inversion 1 as [|? d' ? ds'' E1 E2]; subst. apply IH in E2. congruence.
        * split; [discriminate|]. inversion 1 as [|? d' ? ds'' E1 E2]; subst. apply IH in E2. discriminate.
      + split; [discriminate|]. inversion 1 as [|? d' ? ds'' E1 E2]; subst. congruence.
  Qed.
  Lemma take_ok l k : take num l k = if k <=? length l then Ok (firstn k l) else UB.
  Proof.
    revert l. induction k as [|k IH]; intros l; [destruct l; reflexivity|]. destruct l as [|x l]; [reflexivity|].
    change (take num (x :: l) (S k)) with (bind (take num l k) (fun r => Ok (x :: r))). rewrite IH. cbn [length firstn].
    destruct (Nat.leb_spec k (length l)), (Nat.leb_spec (S k) (S (length l))); try lia; reflexivity.
  Qed.
  Lemma evaluator_spec le rvc stats v window : (forall l, Permutation l (nsrt l) /\ StronglySorted le (nsrt l)) ->
    (length window < 20 \/ (exists q, In q window /\ distance v q = UB) ->
       streamEvaluator num zero add sub mul div sqrt of_nat distance nsrt rvc stats v window = UB) /\
    (forall ds, 20 <= length window -> Forall2 (fun q d => distance v q = Ok d) window ds ->
       exists near far, Permutation ds (near ++ far) /\ length near = 20 /\ (forall x y, In x near -> In y far -> le x y) /\
         streamEvaluator num zero add sub mul div sqrt of_nat distance nsrt rvc stats v window =
           Ok (true, stats ++ [mkStat num rvc (mean num zero add div of_nat ds) (deviation num zero add sub mul div sqrt of_nat ds) 20
                                 (mean num zero add div of_nat near) (deviation num zero add sub mul div sqrt of_nat near) true])).
  Proof.
    intros Hs. unfold streamEvaluator. split.
    - intros [H|(q & Hq & E)].
      + destruct (nearestNeighbors num distance v window) as [ds|] eqn:En; auto. cbn [bind]. apply neighbours_ok in En.
        assert (Ln : length ds = length window) by (clear - En; induction En; cbn; congruence).
        rewrite take_ok, <- (Permutation_length (proj1 (Hs ds))). destruct (Nat.leb_spec 20 (length ds)); [lia|reflexivity].
      + destruct (nearestNeighbors num distance v window) as [ds|] eqn:En; auto. exfalso. apply neighbours_ok in En.
        clear - Hq E En. induction En as [|x d l l' H F IH]; [easy|]. destruct Hq as [->|Hq]; [congruence|auto].
    - intros ds Hl F. apply neighbours_ok in F as En. rewrite En. cbn [bind].
      assert (Ln : length ds = length window) by (clear - F; induction F; cbn; congruence).
      destruct (Hs ds) as [P S]. assert (Lp := Permutation_length P).
      exists (firstn 20 (nsrt ds)), (skipn 20 (nsrt ds)). split; [now rewrite firstn_skipn|]. split; [rewrite firstn_length; lia|]. split.
      + rewrite <- (firstn_skipn 20 (nsrt ds)) in S. clear - S. induction (firstn 20 (nsrt ds)) as [|a l IH]; [easy|].
        cbn [app] in S. apply StronglySorted_inv in S as [S1 S2]. intros x y [<-|Hx] Hy; auto. rewrite Forall_forall in S2. apply S2, in_app_iff. auto.
      + rewrite take_ok. destruct (Nat.leb_spec 20 (length (nsrt ds))); [|lia]. reflexivity.
  Qed.
  Lemma insert_iterative_spec f removed v window :
    (window = [] -> insertIterative num f removed v window = Ok (true, removed)) /\
    (window <> [] -> f = None -> insertIterative num f removed v window = UB) /\
    (window <> [] -> forall g, f = Some g ->
       (g v window = UB -> insertIterative num f removed v window = UB) /\
       (g v window = Ok true -> insertIterative num f removed v window = Ok (true, S removed)) /\
       (g v window = Ok false -> insertIterative num f removed v window = Ok (false, removed))).
  Proof.
    unfold insertIterative. split; [intros ->; auto|]. split.
    - intros H ->. destruct window; [contradiction|auto].
    - intros H g ->. destruct window; [contradiction|]. repeat split; intros ->; reflexivity.
  Qed.
End Stream.
