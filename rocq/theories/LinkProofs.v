(* LinkProofs.v -- k-means++ on numbers that may be "not a number". *)
From Coq Require Import String Ascii List Arith ZArith Bool Lia.
From Verif Require Import Base UtilsModel ArrayListModel TreeModel FastModel ArgModel IoModel PipeModel KmeansModel MainModel LinkModel.
From Verif Require Import Spec SpecKmeans SpecArgs SpecPipe SpecMain SpecLink.
From Verif Require Import KmeansProofs.
Import ListNotations.
Local Open Scope nat_scope.
Local Open Scope list_scope.

Notation lift := (map (@Some Z)).
Lemma numbers_lift x : numbers (lift x) = Some x.
Proof. induction x as [|a x IH]; [reflexivity|]. cbn. unfold numbers in IH. now rewrite IH. Qed.
Lemma numbers_none n : 0 < n -> numbers (repeat None n) = None.
Proof. destruct n; [lia|reflexivity]. Qed.
Lemma zlist_eqb_eq a : forall b, zlist_eqb a b = true <-> a = b.
Proof.
  induction a as [|x a IH]; intros [|y b]; cbn; try (split; discriminate); [tauto|]. rewrite andb_true_iff, IH, Z.eqb_eq.
  split; [intros [-> ->]; reflexivity|intros H; injection H; auto].
Qed.
Lemma members_map {A B} (f : list A -> list B) pts labels c : members (map f pts) labels c = map f (members pts labels c).
Proof.
  unfold members. revert labels. induction pts as [|x pts IH]; intros [|l labels]; try reflexivity.
  cbn [map combine filter fst]. destruct (l =? c); cbn [map snd]; now rewrite IH.
Qed.
Lemma removelast_map {A B} (f : A -> B) l : removelast (map f l) = map f (removelast l).
Proof. induction l as [|x [|y l] IH]; try reflexivity. cbn [map removelast] in *. now rewrite IH. Qed.
Lemma members_in {A} (pts : list (list A)) labels c : length labels = length pts -> (members pts labels c <> [] <-> In c labels).
Proof.
  revert labels. unfold members. induction pts as [|x pts IH]; intros [|l labels] L; try discriminate; [cbn; tauto|].
  cbn [combine filter fst]. destruct (Nat.eqb_spec l c) as [->|N]; cbn [map].
  - split; [now left|discriminate].
  - rewrite IH by (cbn in L; lia). cbn. tauto.
Qed.

Section Kmeans.
  Variable dist : list Z -> list Z -> Z.
  Variable maxn : Z.
  Variable quo : Z -> nat -> Z.
  Notation div := (d_div quo).
  Notation ddist := (d_dist dist).
  Notation nearest := (nearest_centroid dbl (Some maxn) d_ltb ddist).
  Notation loop := (km_loop dbl (Some 0%Z) (Some maxn) d_add div d_ltb ddist).
  Notation iteration := (km_iteration dbl (Some 0%Z) (Some maxn) d_add div d_ltb ddist).
  Notation dcentres := (centres dbl (Some 0%Z) d_add div).

  Lemma dist_lift x c y : numbers c = Some y -> ddist (lift x) c = Some (dist x y).
  Proof. intros H. unfold d_dist. now rewrite numbers_lift, H. Qed.
  Lemma dist_none x c : numbers c = None -> ddist (lift x) c = None.
  Proof. intros H. unfold d_dist. now rewrite numbers_lift, H. Qed.

  Definition best (x : list Z) (s : nat) (cents : list (list dbl)) (i : nat) (m : Z) : Prop :=
    exists c y, s <= i /\ nth_error cents (i - s) = Some c /\ numbers c = Some y /\ m = dist x y /\
      forall j c' y', nth_error cents j = Some c' -> numbers c' = Some y' -> (dist x y <= dist x y')%Z /\ (s + j < i -> (dist x y < dist x y')%Z).
  Lemma nearest_best x : forall cents s i0 m0,
    exists i m, fold_left (fun '(ci, md) '(c, cent) => if d_ltb (ddist (lift x) cent) md then (c, ddist (lift x) cent) else (ci, md)) (enum s cents) (i0, Some m0) = (i, Some m) /\
      ((i = i0 /\ m = m0 /\ forall c y, In c cents -> numbers c = Some y -> (m0 <= dist x y)%Z) \/ ((m < m0)%Z /\ best x s cents i m)).
  Proof.
    induction cents as [|c cents IH]; intros s i0 m0; cbn [enum fold_left].
    - exists i0, m0. split; auto. left. repeat split. intros c y [].
    - destruct (numbers c) as [y|] eqn:Ny.
      + rewrite (dist_lift x c y Ny). change (d_ltb (Some (dist x y)) (Some m0)) with (dist x y <? m0)%Z. destruct (Z.ltb_spec (dist x y) m0) as [L|L]; cbv iota.
        * destruct (IH (S s) s (dist x y)) as (i & m & Ef & H). exists i, m. split; [exact Ef|]. right.
          destruct H as [(-> & -> & H)|(Lm & d & z & Hs & Hd & Nz & -> & H)].
          -- split; auto. exists c, y. rewrite Nat.sub_diag. repeat split; auto; intros; destruct j as [|j]; cbn in H0.
             ++ injection H0 as <-. rewrite Ny in H1. injection H1 as <-. lia.
             ++ apply H with (c := c'); auto. now apply nth_error_In in H0.
             ++ injection H0 as <-. lia.
             ++ lia.
          -- split; [lia|]. exists d, z. split; [lia|]. replace (i - s) with (S (i - S s)) by lia. split; [exact Hd|]. split; auto. split; auto.
             intros [|j] c' y' Hj Nj; cbn in Hj; [injection Hj as <-; rewrite Ny in Nj; injection Nj as <-; lia|].
             destruct (H j c' y' Hj Nj) as [H1 H2]. split; auto. intros. apply H2. lia.
        * destruct (IH (S s) i0 m0) as (i & m & Ef & H). exists i, m. split; [exact Ef|].
          destruct H as [(-> & -> & H)|(Lm & d & z & Hs & Hd & Nz & -> & H)].
          -- left. repeat split. intros c' y' [<-|Hi] Nj; [rewrite Ny in Nj; injection Nj as <-; auto|eauto].
          -- right. split; auto. exists d, z. split; [lia|]. replace (i - s) with (S (i - S s)) by lia. split; [exact Hd|]. split; auto. split; auto.
             intros [|j] c' y' Hj Nj; cbn in Hj; [injection Hj as <-; rewrite Ny in Nj; injection Nj as <-; lia|].
             destruct (H j c' y' Hj Nj) as [H1 H2]. split; auto. intros. apply H2. lia.
      + rewrite (dist_none x c Ny). change (d_ltb None (Some m0)) with false. cbv iota. destruct (IH (S s) i0 m0) as (i & m & Ef & H). exists i, m. split; [exact Ef|].
        destruct H as [(-> & -> & H)|(Lm & d & z & Hs & Hd & Nz & -> & H)].
        * left. repeat split. intros c' y' [<-|Hi] Nj; [congruence|eauto].
        * right. split; auto. exists d, z. split; [lia|]. replace (i - s) with (S (i - S s)) by lia. split; [exact Hd|]. split; auto. split; auto.
          intros [|j] c' y' Hj Nj; cbn in Hj; [congruence|]. destruct (H j c' y' Hj Nj) as [H1 H2]. split; auto. intros. apply H2. lia.
  Qed.

  Hypothesis Max : forall x y, (dist x y < maxn)%Z.
  (* Some centroid is a point of numbers. *)
  Definition real (cents : list (list dbl)) : Prop := exists c y, In c cents /\ numbers c = Some y.
  Lemma nearest_real x cents : real cents -> exists m, best x 0 cents (fst (nearest (lift x) cents)) m.
  Proof.
    intros (c & y & Hc & Ny). destruct (nearest_best x cents 0 0 maxn) as (i & m & Ef & H).
    assert (Ef' : nearest (lift x) cents = (i, Some m)) by exact Ef. rewrite Ef'.
    destruct H as [(_ & _ & H)|[_ H]]; [specialize (H c y Hc Ny); specialize (Max x y); lia|]. cbn [fst]. eauto.
  Qed.

  (* the mean of lifted points *)
  Lemma sum_lift : forall l a, fold_left d_add (lift l) (Some a) = Some (fold_left Z.add l a).
  Proof. induction l as [|x l IH]; intros a; [reflexivity|]. cbn. apply IH. Qed.
  Lemma mean_lift dim pts : mean (Some 0%Z) d_add div dim (map lift pts) =
    match pts with [] => repeat None dim | _ => lift (mean 0%Z Z.add quo dim pts) end.
  Proof.
    unfold mean. destruct pts as [|x0 pts0] eqn:E.
    - cbn [map fold_left length d_div]. assert (G : forall s, map (fun _ : nat => @None Z) (seq s dim) = repeat None dim) by (induction dim; intros; cbn; f_equal; auto). apply G.
    - rewrite <- E. assert (Hl : exists n, length pts = S n) by (rewrite E; cbn; eauto). clear E x0 pts0. rewrite map_map. apply map_ext. intros d.
      rewrite map_map. replace (map (fun x : list Z => nth d (lift x) (Some 0%Z)) pts) with (lift (map (fun x => nth d x 0%Z) pts)).
      + rewrite sum_lift, map_length. destruct Hl as (n & ->). reflexivity.
      + rewrite map_map. apply map_ext. intros x. symmetry. apply (map_nth (@Some Z)).
  Qed.

  Variables (dim k : nat) (data : list (list Z)).
  Hypothesis Hk : 0 < k.
  Hypothesis Hdim : 0 < dim.
  Hypothesis Ne : data <> [].
  Hypothesis Dim : forall x, In x data -> length x = dim.
  Let D := map lift data.
  Let pts := removelast data.
  Let lab cents := map (fun x => fst (nearest (lift x) cents)) pts.
  Let cen labels := dcentres dim k (map lift pts) labels.

  Lemma iter cents : length cents = k -> iteration D k cents = Ok (cen (lab cents), lab cents).
  Proof.
    intros L. rewrite (iteration_spec dbl (Some 0%Z) (Some maxn) d_add div d_ltb ddist dim k D cents L Hk).
    - unfold D. rewrite removelast_map. fold pts. unfold cen, lab. now rewrite map_map.
    - unfold D. destruct data; [easy|discriminate].
    - unfold D. apply Forall_forall. intros x Hx. apply in_map_iff in Hx as (y & <- & Hy). rewrite map_length. auto.
  Qed.
  Lemma cen_at labels j : j < k -> nth_error (cen labels) j = Some match members pts labels j with [] => repeat None dim | ms => lift (mean 0%Z Z.add quo dim ms) end.
  Proof.
    intros H. unfold cen, centres. rewrite nth_error_map, (nth_error_nth' _ 0) by now rewrite seq_length. rewrite seq_nth by auto. cbn [option_map plus].
    rewrite members_map, mean_lift. now destruct (members pts labels j).
  Qed.
  Lemma cen_length labels : length (cen labels) = k.
  Proof. unfold cen, centres. now rewrite map_length, seq_length. Qed.
  Lemma lab_range cents l : length cents = k -> In l (lab cents) -> l < k.
  Proof. intros L H. unfold lab in H. apply in_map_iff in H as (x & <- & _). now apply nearest_lt. Qed.

  (* k centroids, and one of them is a point unless there is nothing to label *)
  Definition origin (prev : list (option (list Z))) : Prop :=
    (exists start, prev = map Some start /\ NoDup start /\ incl start data) \/
    (exists before, forall j, j < k -> nth_error prev j = Some match members pts before j with [] => None | ms => Some (mean 0%Z Z.add quo dim ms) end).
  Definition good cents := length cents = k /\ (pts <> [] -> real cents) /\ origin (map numbers cents).
  Lemma good_next cents : good cents -> good (cen (lab cents)).
  Proof.
    intros (L & R & _). split; [apply cen_length|]. split.
    2: { right. exists (lab cents). intros j Hj. rewrite nth_error_map, cen_at by auto. cbn [option_map]. f_equal.
         destruct (members pts (lab cents) j); [now apply numbers_none|apply numbers_lift]. }
    intros Hp. assert (exists l, In l (lab cents)) as (l & Hl). { unfold lab. destruct pts as [|x p]; [easy|]. cbn. eauto. }
    assert (Lk := lab_range _ _ L Hl). assert (Hm : members pts (lab cents) l <> []) by (apply members_in; [unfold lab; apply map_length|auto]).
    assert (C := cen_at (lab cents) l Lk). destruct (members pts (lab cents) l) as [|x ms] eqn:E; [easy|].
    exists (lift (mean 0%Z Z.add quo dim (x :: ms))), (mean 0%Z Z.add quo dim (x :: ms)). split; [now apply nth_error_In in C|apply numbers_lift].
  Qed.
  Lemma kloop : forall n cents last, good cents ->
    exists c' l', loop n D k cents last = Ok (c', l') /\ (n = 0 -> c' = cents /\ l' = last) /\
      (0 < n -> exists prev, good prev /\ l' = lab prev /\ c' = cen l').
  Proof.
    induction n as [|n IH]; intros cents last G.
    - exists cents, last. split; [reflexivity|]. split; [auto|lia].
    - cbn [km_loop]. rewrite iter by apply G. cbn [bind]. destruct (nlist_eqb (lab cents) last) eqn:E.
      + apply (proj1 (KmeansProofs.nlist_eqb_eq dbl (Some 0%Z) d_add div d_ltb _ _)) in E. exists (cen (lab cents)), last. split; auto. split; [lia|]. intros _. exists cents. split; auto. split; auto. now rewrite E.
      + destruct (IH (cen (lab cents)) (lab cents) (good_next _ G)) as (c' & l' & E' & A & B). exists c', l'. split; auto. split; [lia|]. intros _.
        destruct n; [|apply B; lia]. destruct (A eq_refl) as [-> ->]. exists cents. auto.
  Qed.

  Variable nanz : Z.
  Lemma lab_clustering prev : good prev -> clustering dist quo (repeat nanz dim) k dim data (lab prev) (map (stored nanz) (cen (lab prev))).
  Proof.
    intros (L & R & Or). split.
    - clear Or. unfold lab. rewrite map_length. unfold pts. destruct data as [|x l] using rev_ind; [easy|]. rewrite removelast_last, app_length. reflexivity.
    - intros l. now apply lab_range.
    - now rewrite map_length, cen_length.
    - intros j Hj. rewrite nth_error_map, cen_at by auto. fold pts. cbn [option_map]. f_equal. destruct (members pts (lab prev) j) as [|x ms].
      + unfold stored. clear. induction dim; cbn; congruence.
      + unfold stored. rewrite map_map. apply map_id.
    - exists (map numbers prev). split; [now rewrite map_length|]. fold pts. split; [exact Or|]. intros i x l Hx Hl.
      assert (Hp : pts <> []) by (intros E; rewrite E in Hx; now destruct i).
      unfold lab in Hl. rewrite nth_error_map, Hx in Hl. cbn in Hl. injection Hl as <-.
      destruct (nearest_real x prev (R Hp)) as (m & c & y & _ & Hc & Ny & _ & H). rewrite Nat.sub_0_r in Hc. exists y.
      split; [now rewrite nth_error_map, Hc; cbn; rewrite Ny|]. intros j c' Hj. rewrite nth_error_map in Hj.
      destruct (nth_error prev j) as [d|] eqn:Ed; [|discriminate]. cbn in Hj. injection Hj as Nd. apply (H j d c' Ed Nd).
  Qed.
End Kmeans.

Lemma head_ub {A B} (f : A -> B -> res A) s l x : (exists l', l = x :: l') -> f s x = UB -> foldr_ub f s l = UB.
Proof. intros (l' & ->) H. cbn [foldr_ub]. now rewrite H. Qed.
Section Run.
  Variable dist : list Z -> list Z -> Z.
  Variable maxn : Z.
  Variable quo : Z -> nat -> Z.
  Variable nanz : Z.
  Variable index : nat.
  Variable picks : list (nat * (nat -> bool)).
  Notation run := (kmeans_run dist maxn quo).

  Theorem kmeans_clusters k r dim data : kmeans_setting dist maxn index picks k r dim data -> 0 < dim ->
    (fewer_than (Z.to_nat k) data -> run k r index picks data = UB) /\
    (~ fewer_than (Z.to_nat k) data -> exists cents labels, run k r index picks data = Ok (cents, labels) /\
       clustering dist quo (repeat nanz dim) (Z.to_nat k) dim data labels (map (stored nanz) cents)).
  Proof.
    intros [S1 S2 S3 S4 S5 S6] Hdim. unfold kmeans_run. rewrite (proj2 (Z.ltb_ge k 0)) by lia.
    assert (Fp : Forall (fun p => fst p < length data) picks) by (apply Forall_forall; intros (i, v) Hi; cbn; eauto).
    assert (I := init_spec Z zlist_eqb zlist_eqb_eq data (Z.to_nat k) index picks ltac:(lia) S3 Fp).
    assert (Ne : data <> []) by (intros ->; cbn in S3; lia).
    destruct I as [(cents & -> & N & In1 & L)|[-> F]].
    - split.
      + intros (t & Lt & It). exfalso. assert (length cents <= length t) by (apply NoDup_incl_length; auto; eapply incl_tran; eauto). lia.
      + intros _. cbn [bind].
        assert (G : good quo dim (Z.to_nat k) data (map lift cents)).
        { split; [now rewrite map_length|]. split; [|left; exists cents; split; [rewrite map_map; apply map_ext, numbers_lift|auto]]. intros _. destruct cents as [|c cents]; [cbn in L; lia|]. exists (lift c), c. split; [now left|apply numbers_lift]. }
        destruct (kloop dist maxn quo dim (Z.to_nat k) data ltac:(lia) Hdim Ne S5 (Z.to_nat r) (map lift cents) [] G) as (c' & l' & E & _ & P).
        destruct (P ltac:(lia)) as (prev & Gp & -> & ->). eexists _, _. split; [exact E|]. apply lab_clustering; auto; lia.
    - split; [reflexivity|]. intros H. now destruct H.
  Qed.

  (* No clusters, or a negative number of them. *)
  Theorem kmeans_no_clusters k r data : (k <= 0)%Z -> (0 < r)%Z -> 2 <= length data -> (forall x, In x data -> x <> []) -> index < length data ->
    run k r index picks data = UB.
  Proof.
    intros Hk Hr Hl Hn Hi. unfold kmeans_run. destruct (Z.ltb_spec k 0); [reflexivity|]. assert (k = 0)%Z as -> by lia. cbn [Z.to_nat].
    unfold km_init. cbn [Nat.sub firstn foldr_ub]. destruct (at_ data index) as [c|] eqn:E; [|reflexivity]. cbn [bind].
    replace (fill Z zlist_eqb 0 [c] data) with (Ok [c]) by (destruct data; reflexivity). cbn [bind].
    destruct (Z.to_nat r) eqn:Er; [lia|]. cbn [km_loop]. destruct data as [|x [|y data]]; cbn in Hl; try lia.
    unfold km_iteration. change (at_ (map lift (x :: y :: data)) 0) with (Ok (lift x)). cbn [bind repeat].
    match goal with |- context [foldr_ub ?f ?s ?l] => assert (Eu : foldr_ub f s l = UB) end; [|now rewrite Eu].
    apply head_ub with (x := lift x).
    - cbn [map length]. replace (S (S (length (map lift data))) - 1) with (S (length (map lift data))) by lia. eexists. reflexivity.
    - unfold classify. match goal with |- context [nearest_centroid ?a ?b ?c ?d ?e ?f] => destruct (nearest_centroid a b c d e f) as [i m] end. unfold upd_res, at_. now destruct i.
  Qed.
End Run.
