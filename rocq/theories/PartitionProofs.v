(* PartitionProofs.v -- lemmas about the partition helpers of UtilsModel.v. *)
From Coq Require Import List Arith ZArith Bool Lia Sorted Permutation.
From Verif Require Import Base Spec UtilsModel UtilsProofs.
Import ListNotations.

(* ------------------------------------------------------------------ *)
(* loops and checked updates *)

Lemma foldr_ub_app {A S} (body : S -> A -> res S) s l1 l2 :
  foldr_ub body s (l1 ++ l2) = bind (foldr_ub body s l1) (fun s' => foldr_ub body s' l2).
Proof.
  revert s; induction l1 as [|x l1 IH]; intros s; cbn; auto.
  destruct (body s x); cbn; auto.
Qed.

Lemma enum_snoc {A} i (l : list A) x : enum i (l ++ [x]) = enum i l ++ [(i + length l, x)].
Proof.
  revert i; induction l as [|y l IH]; intros i; cbn.
  - now rewrite Nat.add_0_r.
  - rewrite IH. cbn. do 3 f_equal. f_equal. lia.
Qed.

Lemma enum_In {A} i (l : list A) j x : In (j, x) (enum i l) <-> i <= j /\ nth_error l (j - i) = Some x.
Proof.
  revert i; induction l as [|y l IH]; intros i; cbn.
  - split; [easy|]. intros [_ H]. destruct (j - i); easy.
  - rewrite IH. split.
    + intros [H|[H1 H2]].
      * injection H as -> ->. rewrite Nat.sub_diag. cbn. auto.
      * split; [lia|]. replace (j - i) with (S (j - S i)) by lia. auto.
    + intros [H1 H2]. destruct (j - i) eqn:E.
      * cbn in H2. injection H2 as ->. left. f_equal. lia.
      * right. split; [lia|]. replace (j - S i) with n by lia. auto.
Qed.

Lemma upd_UB {A} (l : list A) i f : upd l i f = UB <-> length l <= i.
Proof.
  revert i; induction l as [|x l IH]; intros i; cbn.
  - destruct i; split; auto; lia.
  - destruct i; cbn. + split; [easy|lia].
    + specialize (IH i). unfold rmap. destruct (upd l i f); cbn.
      * split; [easy|]. intros H. assert (length l <= i) by lia. now apply IH in H0.
      * split; auto. intros _. assert (length l <= i) by now apply IH. lia.
Qed.

Lemma upd_Ok {A} (l : list A) i f :
  i < length l -> exists l', upd l i f = Ok l' /\ length l' = length l /\
    forall j, nth_error l' j = if j =? i then option_map f (nth_error l j) else nth_error l j.
Proof.
  revert i; induction l as [|x l IH]; intros i; cbn; [lia|]. intros Hi. destruct i.
  - exists (f x :: l). repeat split; auto. intros [|j]; auto.
  - destruct (IH i) as (l' & E & L & H); [lia|]. rewrite E. cbn. exists (x :: l'). repeat split; cbn; auto.
    intros [|j]; cbn; auto. rewrite H. now change (S j =? S i) with (j =? i).
Qed.

Lemma at_Ok {A} (l : list A) i x : at_ l i = Ok x <-> nth_error l i = Some x.
Proof. unfold at_. destruct (nth_error l i); split; congruence. Qed.

Lemma at_UB {A} (l : list A) i : at_ l i = UB <-> length l <= i.
Proof. unfold at_. rewrite <- nth_error_None. destruct (nth_error l i); split; congruence. Qed.

Lemma nth_error_repeat_nil {A} k j (x : A) : nth_error (repeat x k) j = if j <? k then Some x else None.
Proof.
  revert j; induction k as [|k IH]; intros j; cbn.
  - now destruct j.
  - destruct j; cbn; auto. rewrite IH. now change (S j <? S k) with (j <? k).
Qed.

(* ------------------------------------------------------------------ *)
(* partition tables *)

Section Tables.
  Context {P : Type}.
  Implicit Types (data : list P).

  Lemma tables_nil k data : partition_tables k data (fun _ _ => False) (repeat [] k) (repeat [] k).
  Proof.
    split; [apply repeat_length|]. split; [apply repeat_length|]. intros j Hj.
    exists [], []. rewrite !nth_error_repeat_nil. destruct (Nat.ltb_spec j k); [|lia].
    repeat split; auto; try constructor; easy.
  Qed.

  Lemma tables_ext k data (R R' : nat -> nat -> Prop) it pt :
    (forall i j, j < k -> (R i j <-> R' i j)) ->
    partition_tables k data R it pt -> partition_tables k data R' it pt.
  Proof.
    intros HR (L1 & L2 & H). repeat split; auto. intros j Hj.
    destruct (H j Hj) as (idx & pts & H1 & H2 & H3 & H4 & H5). exists idx, pts.
    repeat split; auto; intros Hi; [apply HR; auto; now apply H4|apply H4; apply HR; auto].
  Qed.

  Lemma tables_step k data (R : nat -> nat -> Prop) it pt i0 j0 x :
    partition_tables k data R it pt -> j0 < k -> nth_error data i0 = Some x ->
    (forall i, R i j0 -> i < i0) ->
    exists it' pt', upd it j0 (fun l => l ++ [i0]) = Ok it' /\ upd pt j0 (fun l => l ++ [x]) = Ok pt' /\
      partition_tables k data (fun i j => R i j \/ (i = i0 /\ j = j0)) it' pt'.
  Proof.
    intros (L1 & L2 & H) Hj Hx Hlt.
    destruct (upd_Ok it j0 (fun l => l ++ [i0])) as (it' & E1 & L1' & N1); [lia|].
    destruct (upd_Ok pt j0 (fun l => l ++ [x])) as (pt' & E2 & L2' & N2); [lia|].
    exists it', pt'. split; auto. split; auto. split; [lia|]. split; [lia|].
    intros j Hj'. rewrite N1, N2. destruct (H j Hj') as (idx & pts & H1 & H2 & H3 & H4 & H5).
    destruct (Nat.eqb_spec j j0) as [->|Hne].
    - rewrite H1, H2. cbn. exists (idx ++ [i0]), (pts ++ [x]). repeat split; auto.
      + apply ssorted_app. repeat split; auto. { repeat constructor. }
        intros u v Hu [<-|[]]. apply Hlt. now apply H4.
      + rewrite in_app_iff. cbn. rewrite H4. intuition.
      + rewrite in_app_iff. cbn. rewrite H4. intuition.
      + apply Forall2_app; auto.
    - exists idx, pts. repeat split; auto.
      + intros Hi. left. now apply H4. + rewrite H4. intuition.
  Qed.

  (* Utils/utils.cpp:33-45 *)
  Lemma separatePartitions_ok k data labels :
    length labels <= length data -> (forall l, In l labels -> l < k) ->
    exists it pt, separatePartitions k data labels = Ok (it, pt) /\
      partition_tables k data (fun i j => nth_error labels i = Some j) it pt.
  Proof.
    induction labels as [|lab labels IH] using rev_ind; intros HL Hk.
    - exists (repeat [] k), (repeat [] k). split; auto. eapply tables_ext; [|apply tables_nil].
      intros i j _. destruct i; cbn; split; easy.
    - rewrite app_length in HL; cbn in HL. destruct IH as (it & pt & E & T).
      { lia. } { intros l Hl. apply Hk. rewrite in_app_iff; auto. }
      unfold separatePartitions in *. rewrite enum_snoc, foldr_ub_app, E. cbn.
      destruct (nth_error data (length labels)) as [x|] eqn:Ex.
      2:{ apply nth_error_None in Ex. lia. }
      unfold at_. rewrite Ex. cbn.
      destruct (tables_step k data _ it pt (length labels) lab x T) as (it' & pt' & E1 & E2 & T'); auto.
      { apply Hk. rewrite in_app_iff; cbn; auto. }
      { intros i Hi. apply nth_error_Some. congruence. }
      rewrite E2. cbn. rewrite E1. cbn. exists it', pt'. split; auto. eapply tables_ext; [|exact T'].
      intros i j _. cbn. destruct (Nat.lt_ge_cases i (length labels)) as [Hi|Hi].
      + rewrite nth_error_app1 by auto. split; [|auto]. intros [H|[-> _]]; auto. lia.
      + rewrite nth_error_app2 by auto. split.
        * intros [H|[-> ->]]. -- apply nth_error_None in Hi. congruence.
          -- now rewrite Nat.sub_diag.
        * intros H. right. destruct (i - length labels) as [|m] eqn:Em; cbn in H.
          -- injection H as ->. split; auto. lia. -- destruct m; easy.
  Qed.

  Lemma separatePartitions_ub k data labels :
    ~ (length labels <= length data /\ (forall l, In l labels -> l < k)) ->
    separatePartitions k data labels = UB.
  Proof.
    induction labels as [|lab labels IH] using rev_ind; intros HN.
    - exfalso. apply HN. cbn. split; [lia|easy].
    - unfold separatePartitions in *. rewrite enum_snoc, foldr_ub_app.
      destruct (le_lt_dec (length labels) (length data)) as [HL|HL].
      2:{ rewrite IH; auto. lia. }
      destruct (Forall_dec (fun l => l < k) (fun l => lt_dec l k) labels) as [HF|HF].
      2:{ rewrite IH; auto. intros [_ HF']. apply HF. now apply Forall_forall. }
      rewrite Forall_forall in HF.
      destruct (separatePartitions_ok k data labels HL HF) as (it & pt & E & T).
      unfold separatePartitions in E. rewrite E. cbn. unfold at_.
      destruct (nth_error data (length labels)) as [x|] eqn:Ex; cbn; auto.
      destruct T as (L1 & L2 & _).
      assert (U : upd pt lab (fun l => l ++ [x]) = UB).
      { apply upd_UB. destruct (le_lt_dec k lab) as [|Hlt]; [lia|]. exfalso. apply HN.
        rewrite app_length; cbn. split.
        - assert (length labels < length data) by (apply nth_error_Some; congruence). lia.
        - intros l Hl. apply in_app_iff in Hl as [Hl|[->|[]]]; auto. }
      now rewrite U.
  Qed.

  Variable dist : P -> P -> Z.

  (* Utils/utils.cpp:47-67 *)
  Lemma radInner_ok rad centroids data k (R : nat -> nat -> Prop) it pt i x :
    k = length centroids ->
    partition_tables k data R it pt -> nth_error data i = Some x ->
    (forall i' j, R i' j -> i' < i) ->
    forall cs, (exists rest, centroids = cs ++ rest) ->
    exists it' pt',
      foldr_ub (fun '(labres, res) '(j, c) =>
                do x <- at_ data i;
                if (dist x c <? rad)%Z then
                  do res' <- upd res j (fun l => l ++ [x]);
                  do labres' <- upd labres j (fun l => l ++ [i]);
                  Ok (labres', res')
                else Ok (labres, res)) (it, pt) (enum 0 cs) = Ok (it', pt') /\
      partition_tables k data
        (fun i' j => R i' j \/ (i' = i /\ j < length cs /\ exists c, nth_error centroids j = Some c /\ (dist x c < rad)%Z)) it' pt'.
  Proof.
    intros Hk T Hx Hlt. induction cs as [|c cs IH] using rev_ind; intros (rest & Hr).
    - exists it, pt. split; auto. eapply tables_ext; [|exact T]. cbn. intros. intuition lia.
    - destruct IH as (it1 & pt1 & E & T1). { exists (c :: rest). now rewrite Hr, <- app_assoc. }
      rewrite enum_snoc, foldr_ub_app, E. cbn. unfold at_ at 1. rewrite Hx. cbn.
      assert (Hc : nth_error centroids (length cs) = Some c).
      { rewrite Hr, <- app_assoc, nth_error_app2, Nat.sub_diag by lia. reflexivity. }
      destruct (Z.ltb_spec (dist x c) rad) as [Hd|Hd].
      + destruct (tables_step k data _ it1 pt1 i (length cs) x T1) as (it' & pt' & E1 & E2 & T'); auto.
        { rewrite Hk, Hr, !app_length. cbn. lia. }
        { intros i' [H|(-> & H & _)]; eauto. lia. }
        rewrite E2. cbn. rewrite E1. cbn. exists it', pt'. split; auto.
        eapply tables_ext; [|exact T']. intros i' j _. cbn. rewrite app_length. cbn. split.
        * intros [[H|(-> & H1 & H2)]|[-> ->]]; auto; right; repeat split; auto; [lia|lia|]. eauto.
        * intros [H|(-> & H1 & H2)]; auto. destruct (Nat.eq_dec j (length cs)); auto.
          left. right. repeat split; auto. lia.
      + exists it1, pt1. split; auto. eapply tables_ext; [|exact T1]. intros i' j _. cbn. rewrite app_length. cbn. split.
        * intros [H|(-> & H1 & H2)]; auto. right; repeat split; auto. lia.
        * intros [H|(-> & H1 & (c' & H2 & H3))]; auto. right. repeat split; eauto.
          assert (j <> length cs); [|lia]. intros ->. rewrite Hc in H2. injection H2 as <-. lia.
  Qed.

  Lemma separatePartitionsRad_ok rad centroids data labels :
    length labels <= length data ->
    exists it pt, separatePartitionsRad dist rad centroids data labels = Ok (it, pt) /\
      partition_tables (length centroids) data
        (fun i j => i < length labels /\ exists x c, nth_error data i = Some x /\
                    nth_error centroids j = Some c /\ (dist x c < rad)%Z) it pt.
  Proof.
    induction labels as [|lab labels IH] using rev_ind; intros HL.
    - eexists _, _. split; [reflexivity|]. eapply tables_ext; [|apply tables_nil]. cbn. intros; split; [easy|lia].
    - rewrite app_length in HL; cbn in HL. destruct IH as (it & pt & E & T); [lia|].
      unfold separatePartitionsRad in *. rewrite enum_snoc, foldr_ub_app, E. cbn [bind plus foldr_ub].
      destruct (nth_error data (length labels)) as [x|] eqn:Ex. 2:{ apply nth_error_None in Ex. lia. }
      destruct (radInner_ok rad centroids data (length centroids) _ it pt (length labels) x eq_refl T Ex
                 (fun i' j H => proj1 H) centroids) as (it' & pt' & E' & T').
      { exists []. now rewrite app_nil_r. }
      rewrite E'. cbn. exists it', pt'. split; auto. eapply tables_ext; [|exact T'].
      intros i j Hj. cbn. rewrite app_length. cbn. split.
      + intros [(H1 & H2)|(-> & H1 & (c & H2 & H3))]; split; auto; [lia|lia|]. exists x, c. auto.
      + intros [H1 (y & c & H2 & H3 & H4)]. destruct (Nat.eq_dec i (length labels)) as [->|Hne].
        * right. repeat split; auto. exists c. rewrite Ex in H2. injection H2 as ->. auto.
        * left. split; [lia|]. eauto.
  Qed.

  (* UB as soon as a label has no data row (and there is at least one centroid). *)
  Lemma separatePartitionsRad_ub rad centroids data labels :
    centroids <> [] -> length data < length labels ->
    separatePartitionsRad dist rad centroids data labels = UB.
  Proof.
    intros Hc. induction labels as [|lab labels IH] using rev_ind; cbn; [lia|].
    rewrite app_length; cbn. intros HL. unfold separatePartitionsRad in *.
    rewrite enum_snoc, foldr_ub_app. cbn [plus].
    destruct (Nat.eq_dec (length data) (length labels)) as [E|E].
    - destruct (separatePartitionsRad_ok rad centroids data labels) as (it & pt & E' & _); [lia|].
      unfold separatePartitionsRad in E'. rewrite E'. cbn [bind foldr_ub].
      destruct centroids as [|c cs]; [easy|]. cbn [enum foldr_ub].
      replace (at_ data (length labels)) with (@UB P); auto. symmetry. apply at_UB. lia.
    - rewrite IH by lia. reflexivity.
  Qed.

  (* Utils/utils.cpp:20-31 *)
  Lemma computeMaxRadius_ok centroids data labels :
    length labels <= length data -> (forall l, In l labels -> l < length centroids) ->
    exists r, computeMaxRadius dist centroids data labels = Ok r /\ (0 <= r)%Z /\
      (forall i lab x c, nth_error labels i = Some lab -> nth_error data i = Some x ->
                     nth_error centroids lab = Some c -> (dist x c <= r)%Z) /\
      (r = 0%Z \/ exists i lab x c, nth_error labels i = Some lab /\ nth_error data i = Some x /\
                     nth_error centroids lab = Some c /\ dist x c = r).
  Proof.
    induction labels as [|lab labels IH] using rev_ind; intros HL Hk.
    - exists 0%Z. repeat split; auto; try lia. intros [|i]; easy.
    - rewrite app_length in HL; cbn in HL. destruct IH as (r & E & H0 & H1 & H2).
      { lia. } { intros l Hl. apply Hk. rewrite in_app_iff; auto. }
      unfold computeMaxRadius in *. rewrite enum_snoc, foldr_ub_app, E. cbn.
      destruct (nth_error data (length labels)) as [x|] eqn:Ex. 2:{ apply nth_error_None in Ex. lia. }
      destruct (nth_error centroids lab) as [c|] eqn:Ec.
      2:{ apply nth_error_None in Ec. assert (lab < length centroids) by (apply Hk; rewrite in_app_iff; cbn; auto). lia. }
      unfold at_. rewrite Ex, Ec. cbn.
      assert (Hnew : nth_error (labels ++ [lab]) (length labels) = Some lab).
      { rewrite nth_error_app2, Nat.sub_diag by lia. reflexivity. }
      assert (Hold : forall i, i < length labels -> nth_error (labels ++ [lab]) i = nth_error labels i).
      { intros. now rewrite nth_error_app1. }
      assert (Hcase : forall i l, nth_error (labels ++ [lab]) i = Some l -> nth_error labels i = Some l \/ (i = length labels /\ l = lab)).
      { intros i l Hi. destruct (Nat.lt_ge_cases i (length labels)) as [Hl|Hl].
        - left. rewrite Hold in Hi; auto.
        - right. assert (i < length (labels ++ [lab])) by (apply nth_error_Some; congruence).
          rewrite app_length in H; cbn in H. assert (i = length labels) by lia. subst. rewrite Hnew in Hi. split; congruence. }
      assert (Hlift : forall i l, nth_error labels i = Some l -> nth_error (labels ++ [lab]) i = Some l).
      { intros i l Hi. rewrite Hold; auto. apply nth_error_Some. congruence. }
      destruct (Z.ltb_spec r (dist x c)) as [Hd|Hd].
      + exists (dist x c). repeat split; auto; [lia| |].
        * intros i l y d Hi Hy Hdd. destruct (Hcase _ _ Hi) as [Hi'|[-> ->]].
          -- specialize (H1 i l y d Hi' Hy Hdd). lia.
          -- rewrite Ex in Hy. rewrite Ec in Hdd. injection Hy as <-. injection Hdd as <-. lia.
        * right. exists (length labels), lab, x, c. auto.
      + exists r. repeat split; auto.
        * intros i l y d Hi Hy Hdd. destruct (Hcase _ _ Hi) as [Hi'|[-> ->]]; eauto.
          rewrite Ex in Hy. rewrite Ec in Hdd. injection Hy as <-. injection Hdd as <-. lia.
        * destruct H2 as [H2|(i & l & y & d & A & B & C & D)]; auto. right. exists i, l, y, d. auto.
  Qed.

  (* Utils/utils.cpp:69-83 *)
  Lemma boundInner_ok bls data labels k (R : nat -> nat -> Prop) it pt i x lab :
    k = length bls -> nth_error labels i = Some lab ->
    partition_tables k data R it pt -> nth_error data i = Some x ->
    (forall i' j, R i' j -> i' < i) ->
    forall cs, (exists rest, bls = cs ++ rest) ->
    exists it' pt',
      foldr_ub (fun res '(j, bl) =>
                do lab <- at_ labels i;
                if existsb (Nat.eqb lab) bl then upd res j (fun l => l ++ [x]) else Ok res)
               pt (enum 0 cs) = Ok pt' /\
      partition_tables k data
        (fun i' j => R i' j \/ (i' = i /\ j < length cs /\ exists bl, nth_error bls j = Some bl /\ In lab bl)) it' pt'.
  Proof.
    intros Hk Hlab T Hx Hlt. induction cs as [|c cs IH] using rev_ind; intros (rest & Hr).
    - exists it, pt. split; auto. eapply tables_ext; [|exact T]. cbn. intros. intuition lia.
    - destruct IH as (it1 & pt1 & E & T1). { exists (c :: rest). now rewrite Hr, <- app_assoc. }
      rewrite enum_snoc, foldr_ub_app, E. cbn. unfold at_ at 1. rewrite Hlab. cbn.
      assert (Hc : nth_error bls (length cs) = Some c).
      { rewrite Hr, <- app_assoc, nth_error_app2, Nat.sub_diag by lia. reflexivity. }
      destruct (existsb (Nat.eqb lab) c) eqn:Eb.
      + assert (Hin : In lab c). { apply existsb_exists in Eb as (y & Hy & Ey). apply Nat.eqb_eq in Ey. now subst. }
        destruct (tables_step k data _ it1 pt1 i (length cs) x T1) as (it' & pt' & E1 & E2 & T'); auto.
        { rewrite Hk, Hr, !app_length. cbn. lia. }
        { intros i' [H|(-> & H & _)]; eauto. lia. }
        rewrite E2. cbn. exists it', pt'. split; auto.
        eapply tables_ext; [|exact T']. intros i' j _. cbn. rewrite app_length. cbn. split.
        * intros [[H|(-> & H1 & H2)]|[-> ->]]; auto; right; repeat split; auto; [lia|lia|]. eauto.
        * intros [H|(-> & H1 & H2)]; auto. destruct (Nat.eq_dec j (length cs)); auto.
          left. right. repeat split; auto. lia.
      + assert (Hin : ~ In lab c). { intros Hin. assert (existsb (Nat.eqb lab) c = true); [|congruence].
          apply existsb_exists. exists lab. split; auto. apply Nat.eqb_refl. }
        exists it1, pt1. split; auto. eapply tables_ext; [|exact T1]. intros i' j _. cbn. rewrite app_length. cbn. split.
        * intros [H|(-> & H1 & H2)]; auto. right; repeat split; auto. lia.
        * intros [H|(-> & H1 & (c' & H2 & H3))]; auto. right. repeat split; eauto.
          assert (j <> length cs); [|lia]. intros ->. rewrite Hc in H2. injection H2 as <-. tauto.
  Qed.

  Lemma separateBoundaryPartitions_ok bls data labels :
    length data <= length labels ->
    exists it pt, separateBoundaryPartitions bls data labels = Ok pt /\
      partition_tables (length bls) data
        (fun i j => i < length data /\ exists lab bl, nth_error labels i = Some lab /\
                    nth_error bls j = Some bl /\ In lab bl) it pt.
  Proof.
    intros HL. unfold separateBoundaryPartitions.
    assert (G : forall pre, (exists rest, data = pre ++ rest) ->
      exists it pt,
        foldr_ub (fun st '(i, x) =>
          foldr_ub (fun res '(j, bl) =>
                do lab <- at_ labels i;
                if existsb (Nat.eqb lab) bl then upd res j (fun l => l ++ [x]) else Ok res)
               st (enum 0 bls)) (repeat [] (length bls)) (enum 0 pre) = Ok pt /\
        partition_tables (length bls) data
          (fun i j => i < length pre /\ exists lab bl, nth_error labels i = Some lab /\
                      nth_error bls j = Some bl /\ In lab bl) it pt).
    { induction pre as [|x pre IH] using rev_ind; intros (rest & Hr).
      - eexists _, _. split; [reflexivity|]. eapply tables_ext; [|apply tables_nil]. cbn. intros; split; [easy|lia].
      - destruct IH as (it & pt & E & T). { exists (x :: rest). now rewrite Hr, <- app_assoc. }
        rewrite enum_snoc, foldr_ub_app, E. cbn [bind plus foldr_ub].
        assert (Ex : nth_error data (length pre) = Some x).
        { rewrite Hr, <- app_assoc, nth_error_app2, Nat.sub_diag by lia. reflexivity. }
        destruct (nth_error labels (length pre)) as [lab|] eqn:El.
        2:{ apply nth_error_None in El. rewrite Hr, !app_length in HL. cbn in HL. lia. }
        destruct (boundInner_ok bls data labels (length bls) _ it pt (length pre) x lab eq_refl El T Ex
                   (fun i' j H => proj1 H) bls) as (it' & pt' & E' & T').
        { exists []. now rewrite app_nil_r. }
        rewrite E'. cbn. exists it', pt'. split; auto. eapply tables_ext; [|exact T'].
        intros i j Hj. cbn. rewrite app_length. cbn. split.
        + intros [(H1 & H2)|(-> & H1 & (c & H2 & H3))]; split; auto; [lia|lia|]. exists lab, c. auto.
        + intros [H1 (y & c & H2 & H3 & H4)]. destruct (Nat.eq_dec i (length pre)) as [->|Hne].
          * right. repeat split; auto. exists c. rewrite El in H2. injection H2 as ->. auto.
          * left. split; [lia|]. eauto. }
    apply G. exists []. now rewrite app_nil_r.
  Qed.
End Tables.

Lemma nth_error_skipn {A} (l : list A) n m : nth_error (skipn n l) m = nth_error l (n + m).
Proof. revert n; induction l as [|x l IH]; intros [|n]; cbn; auto. now destruct m. Qed.

(* sizes of the partitions add up *)
Lemma tables_total {P} k (data : list P) labels it pt :
  (forall l, In l labels -> l < k) ->
  partition_tables k data (fun i j => nth_error labels i = Some j) it pt ->
  Permutation (concat it) (seq 0 (length labels)).
Proof.
  intros Hk (L1 & L2 & H).
  apply NoDup_Permutation.
  - assert (G : forall n, n <= k -> NoDup (concat (skipn (k - n) it))).
    { induction n as [|n IH]; intros Hn.
      - replace (k - 0) with (length it) by lia. rewrite skipn_all. constructor.
      - destruct (H (k - S n)) as (idx & pts & H1 & _ & H3 & H4 & _); [lia|].
        assert (E : skipn (k - S n) it = idx :: skipn (k - n) it).
        { replace (k - n) with (S (k - S n)) by lia. clear -H1. revert H1. generalize (k - S n) as m.
          induction it as [|a it IH]; intros m Hm; destruct m; cbn in *; try easy.
          - injection Hm as ->. reflexivity. - now apply IH. }
        rewrite E. cbn. specialize (IH ltac:(lia)).
        assert (G : forall a b : list nat, NoDup a -> NoDup b -> (forall z, In z a -> ~ In z b) -> NoDup (a ++ b)).
        { induction a as [|z a IHa]; cbn; auto. intros b Na Nb Hd. inversion Na; subst. constructor.
          - rewrite in_app_iff. intros [HH|HH]; auto. apply (Hd z); auto. - apply IHa; auto. }
        apply G; auto. + now apply ssorted_NoDup.
        + intros z Hz Hc. apply H4 in Hz. apply in_concat in Hc as (row & Hrow & Hzr).
          apply In_nth_error in Hrow as (m & Hm). rewrite nth_error_skipn in Hm.
          assert (Hlt : k - n + m < k) by (rewrite <- L1; apply nth_error_Some; congruence).
          destruct (H _ Hlt) as (idx' & _ & H1' & _ & _ & H4' & _). rewrite H1' in Hm. injection Hm as ->.
          apply H4' in Hzr. assert (k - S n = k - n + m) by congruence. lia. }
    specialize (G k (le_n _)). now rewrite Nat.sub_diag in G.
  - apply seq_NoDup.
  - intros x. rewrite in_seq, in_concat. split.
    + intros (row & Hrow & Hx). apply In_nth_error in Hrow as (j & Hj).
      assert (Hlt : j < k) by (rewrite <- L1; apply nth_error_Some; congruence).
      destruct (H _ Hlt) as (idx & _ & H1 & _ & _ & H4 & _). rewrite H1 in Hj. injection Hj as ->.
      apply H4 in Hx. split; [lia|]. cbn. apply nth_error_Some. congruence.
    + intros [_ Hx]. cbn in Hx. destruct (nth_error labels x) as [j|] eqn:E.
      2:{ apply nth_error_None in E. lia. }
      destruct (H j) as (idx & _ & H1 & _ & _ & H4 & _). { apply Hk. eapply nth_error_In; eauto. }
      exists idx. split. * eapply nth_error_In; eauto. * now apply H4.
Qed.

(* mapPartitionIndexing *)
Lemma mapPartitionIndexing_inner labels pts acc :
  (forall p, In p pts -> p < length labels) ->
  exists c, foldr_ub (fun conv ind => do l <- at_ labels ind; Ok (sinsert l conv)) acc pts = Ok c.
Proof.
  revert acc; induction pts as [|p pts IH]; intros acc H; cbn; eauto.
  destruct (at_ labels p) eqn:E; cbn. - apply IH. intros; apply H; now right.
  - apply at_UB in E. assert (p < length labels) by (apply H; now left). lia.
Qed.

Lemma mapPartitionIndexing_inner_ub labels pts acc :
  ~ (forall p, In p pts -> p < length labels) ->
  foldr_ub (fun conv ind => do l <- at_ labels ind; Ok (sinsert l conv)) acc pts = UB.
Proof.
  revert acc; induction pts as [|p pts IH]; intros acc H; cbn.
  - exfalso. apply H. easy.
  - destruct (at_ labels p) eqn:E; cbn; auto. apply IH. intros H'. apply H. intros q [<-|Hq]; auto.
    destruct (le_lt_dec (length labels) p) as [Hle|]; auto. apply at_UB in Hle. congruence.
Qed.

Lemma mapPartitionIndexing_noop labels table :
  ((forall b p, In b table -> In p (boundaryPoints b) -> p < length labels) ->
     mapPartitionIndexing labels table = Ok table) /\
  (~ (forall b p, In b table -> In p (boundaryPoints b) -> p < length labels) ->
     mapPartitionIndexing labels table = UB).
Proof.
  unfold mapPartitionIndexing.
  match goal with |- context [foldr_ub ?b tt table] => set (body := b) end.
  assert (G : ((forall b p, In b table -> In p (boundaryPoints b) -> p < length labels) ->
                foldr_ub body tt table = Ok tt) /\
              (~ (forall b p, In b table -> In p (boundaryPoints b) -> p < length labels) ->
                foldr_ub body tt table = UB)).
  { induction table as [|b table IH]; cbn.
    - split; auto. intros H. exfalso. apply H. easy.
    - destruct (Forall_dec (fun p => p < length labels) (fun p => lt_dec p (length labels)) (boundaryPoints b)) as [HF|HF].
      + rewrite Forall_forall in HF. destruct (mapPartitionIndexing_inner labels (boundaryPoints b) [] HF) as (c & Ec).
        unfold body at 1 3. rewrite Ec. cbn. destruct IH as [IH1 IH2]. split; intros H.
        * apply IH1. intros. eapply H; eauto.
        * apply IH2. intros H'. apply H. intros b' p [<-|Hb] Hp; eauto.
      + split; intros H.
        * exfalso. apply HF. apply Forall_forall. intros p Hp. eapply H; eauto.
        * unfold body at 1. rewrite mapPartitionIndexing_inner_ub; auto. intros H'. apply HF. now apply Forall_forall. }
  destruct G as [G1 G2]. split; intros H. - now rewrite G1. - now rewrite G2.
Qed.

(* vectors_distance *)
Section VD.
  Context {N : Type}.
  Variables (sq : N -> N -> N) (add : N -> N -> N) (sqrt : N -> N) (zero : N).

  Lemma transform2_ok a b : length a <= length b ->
    transform2 sq a b = Ok (map (fun '(x, y) => sq x y) (combine a b)).
  Proof.
    revert b; induction a as [|x a IH]; intros [|y b]; cbn; intros H; auto; try lia.
    rewrite IH by lia. reflexivity.
  Qed.

  Lemma transform2_ub a b : length b < length a -> transform2 sq a b = UB.
  Proof.
    revert b; induction a as [|x a IH]; intros [|y b]; cbn; intros H; auto; try lia.
    rewrite IH by lia. reflexivity.
  Qed.
End VD.

(* C06: what happens at the maximum radius *)
Lemma max_radius_own_partition {P} (dist : P -> P -> Z) centroids data labels :
  length labels <= length data -> (forall l, In l labels -> l < length centroids) ->
  exists r it pt,
    computeMaxRadius dist centroids data labels = Ok r /\
    separatePartitionsRad dist r centroids data labels = Ok (it, pt) /\
    (forall i lab x c, nth_error labels i = Some lab -> nth_error data i = Some x ->
       nth_error centroids lab = Some c ->
       exists row, nth_error it lab = Some row /\ (In i row <-> (dist x c < r)%Z) /\ (dist x c <= r)%Z) /\
    (labels <> [] -> (forall x y, (0 <= dist x y)%Z) ->
       exists i lab row, nth_error labels i = Some lab /\ nth_error it lab = Some row /\ ~ In i row).
Proof.
  intros HL Hk. destruct (computeMaxRadius_ok dist centroids data labels HL Hk) as (r & Er & H0 & Hmax & Hatt).
  destruct (separatePartitionsRad_ok dist r centroids data labels HL) as (it & pt & Es & (L1 & L2 & T)).
  exists r, it, pt. split; auto. split; auto.
  assert (Own : forall i lab x c, nth_error labels i = Some lab -> nth_error data i = Some x ->
       nth_error centroids lab = Some c ->
       exists row, nth_error it lab = Some row /\ (In i row <-> (dist x c < r)%Z) /\ (dist x c <= r)%Z).
  { intros i lab x c Hi Hx Hc.
    assert (Hlab : lab < length centroids) by (apply nth_error_Some; congruence).
    destruct (T lab Hlab) as (row & _ & R1 & _ & _ & R4 & _). exists row. split; auto. split; [|eauto].
    rewrite R4. split.
    - intros [_ (x' & c' & A & B & C)]. congruence.
    - intros Hd. split. + apply nth_error_Some. congruence. + exists x, c. auto. }
  split; auto. intros Hne Hpos.
  assert (Ex : exists i lab x c, nth_error labels i = Some lab /\ nth_error data i = Some x /\
                     nth_error centroids lab = Some c /\ dist x c = r).
  { destruct Hatt as [Hz|Hz]; auto. destruct labels as [|lab labels]; [easy|].
    cbn in HL. destruct data as [|x data]; [cbn in HL; lia|].
    destruct (nth_error centroids lab) as [c|] eqn:Ec.
    2:{ apply nth_error_None in Ec. assert (lab < length centroids) by (apply Hk; now left). lia. }
    exists 0, lab, x, c. repeat split; auto. specialize (Hmax 0 lab x c eq_refl eq_refl Ec).
    specialize (Hpos x c). lia. }
  destruct Ex as (i & lab & x & c & A & B & C & D).
  destruct (Own i lab x c A B C) as (row & R1 & R2 & _).
  exists i, lab, row. repeat split; auto. rewrite R2. lia.
Qed.

Section VD2.
  Context {N : Type}.
  Variables (sq : N -> N -> N) (add : N -> N -> N) (sqrt : N -> N) (zero : N).

  Lemma vectors_distance_defined a b :
    (vectors_distance sq add sqrt zero a b = UB <-> b <> [] /\ length b < length a) /\
    (b = [] -> vectors_distance sq add sqrt zero a b = Ok zero).
  Proof.
    destruct b as [|y b]; cbn.
    - split; auto. split; [easy|]. intros [H _]. now elim H.
    - split; [|easy]. destruct (le_lt_dec (length a) (length (y :: b))) as [H|H].
      + rewrite transform2_ok by auto. cbn. split; [easy|]. cbn in H. lia.
      + rewrite transform2_ub by auto. cbn. split; auto. intros _. split; [easy|auto].
  Qed.

  Lemma vectors_distance_value a b : b <> [] -> length a <= length b ->
    vectors_distance sq add sqrt zero a b =
      Ok (sqrt (fold_left add (map (fun p => sq (fst p) (snd p)) (combine a b)) zero)).
  Proof.
    intros Hb HL. destruct b as [|y b]; [easy|]. unfold vectors_distance. rewrite transform2_ok by auto. cbn [bind].
    do 3 f_equal. apply map_ext. now intros [u v].
  Qed.

  Lemma vectors_distance_sym a b :
    (forall x y, sq x y = sq y x) -> length a = length b ->
    vectors_distance sq add sqrt zero a b = vectors_distance sq add sqrt zero b a.
  Proof.
    intros Hs HL.
    assert (C : map (fun '(x, y) => sq x y) (combine a b) = map (fun '(x, y) => sq x y) (combine b a)).
    { revert b HL. induction a as [|x a IH]; intros [|y b]; cbn; intros HL; auto; try lia.
      rewrite Hs. f_equal. apply IH. lia. }
    destruct a as [|x a], b as [|y b]; cbn in HL; try lia; auto.
    unfold vectors_distance. rewrite !transform2_ok by (cbn; lia). now rewrite C.
  Qed.

  Lemma vectors_distance_ignores_tail a b c :
    b <> [] -> length a <= length b ->
    vectors_distance sq add sqrt zero a (b ++ c) = vectors_distance sq add sqrt zero a b.
  Proof.
    intros Hb HL. destruct b as [|y b]; [easy|].
    change ((y :: b) ++ c) with (y :: (b ++ c)). unfold vectors_distance.
    rewrite !transform2_ok by (cbn in *; rewrite ?app_length; lia).
    assert (E : combine a (y :: b ++ c) = combine a (y :: b)).
    { change (y :: b ++ c) with ((y :: b) ++ c). revert HL. clear Hb. generalize (y :: b) as l.
      induction a as [|x a IH]; intros [|z l]; cbn; intros HL; auto; try lia.
      f_equal. apply IH. lia. }
    now rewrite E.
  Qed.
End VD2.
