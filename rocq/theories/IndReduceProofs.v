(* IndReduceProofs.v -- what indSimplexTree::reduceComplex does. *)
From Coq Require Import List Arith ZArith Bool Lia.
From Verif Require Import Base RunMonad Spec UtilsModel UtilsProofs ArrayListModel SpecComplex PartitionProofs ArrayListProofs ArrayListInv TreeModel SpecTree TreeHist IndModel SpecInd IndHist CollapseModel CollapseProofs IndReduceModel.
Import ListNotations.
Local Open Scope nat_scope.

Lemma nlist_dec (a b : list nat) : {a = b} + {a <> b}.
Proof. apply list_eq_dec, Nat.eq_dec. Qed.

(* ---- the recursion over one level ---- *)
Section Level.
  Variable t : itree.
  Variable lv : list wsimp.
  Variable d : nat.
  Hypothesis Hd : 0 < d.
  Hypothesis Hl : forall c, In c lv -> ssorted (fst c) /\ length (fst c) = S d.
  Hypothesis Hw : forall z, length z = d -> exists w, ind_getWeight t z = Ok w.
  Let L := map fst lv.
  Lemma in_L c : In c L -> ssorted c /\ length c = S d.
  Proof. intros H. apply in_map_iff in H as (x & <- & Hx). now apply Hl. Qed.

  (* c has a facet that no other simplex of the level contains. *)
  Definition exposed (c : list nat) : Prop := exists z, facet z c /\ forall c', In c' L -> c' <> c -> ~ incl z c'.

  Lemma subsets_spec c : In c L -> NoDup (getSubsets_dim c (Z.of_nat d)) /\ (forall z, In z (getSubsets_dim c (Z.of_nat d)) <-> facet z c) /\
    getSubsets_dim c (Z.of_nat d) <> [].
  Proof.
    intros Hc. destruct (in_L c Hc) as [S Ln]. destruct (getSubsets_dim_spec c (Z.of_nat d) S) as (N & I & C). split; [exact N|].
    assert (I' : forall z, In z (getSubsets_dim c (Z.of_nat d)) <-> facet z c).
    { intros z. rewrite I. unfold facet. rewrite Ln. split; intros (A & B & E); (split; [exact A|split; [exact B|lia]]). }
    split; [exact I'|]. intros E. destruct c as [|x c]; [discriminate|]. assert (F : facet c (x :: c)).
    { split; [now inversion S|]. split; [intros y; now right|reflexivity]. }
    apply I' in F. rewrite E in F. destruct F.
  Qed.
  Lemma facet_length z c : In c L -> facet z c -> length z = d.
  Proof. intros Hc (_ & _ & E). destruct (in_L c Hc) as [_ Ln]. lia. Qed.

  Lemma neighbour_some rem proc c z f : In c L -> facet z c -> neighbour lv rem proc z = Some f ->
    In f L /\ ~ In f rem /\ ~ In f proc /\ incl z f.
  Proof.
    intros Hc F. unfold neighbour. destruct (List.find _ lv) as [x|] eqn:E; [|discriminate]. cbn. intros [= <-]. apply find_some in E as [Hx E].
    apply andb_true_iff in E as [E E3]. apply andb_true_iff in E as [E1 E2]. apply negb_true_iff, among_false in E1, E2. apply Nat.eqb_eq in E3.
    split; [now apply in_map|]. split; [exact E1|]. split; [exact E2|]. destruct (Hl x Hx) as [Sx Lx]. assert (Lz := facet_length z c Hc F). destruct F as (Sz & _ & _).
    destruct (setIntersect_set_spec (fst x) z Sx Sz) as [Si Hi]. rewrite Lx in E3. cbn [Nat.sub] in E3. rewrite Nat.sub_0_r in E3.
    assert (P : incl z (setIntersect_set (fst x) z)).
    { apply NoDup_length_incl; [now apply ssorted_NoDup|lia|]. intros y Hy. now apply Hi in Hy. }
    intros y Hy. apply P, Hi in Hy. tauto.
  Qed.
  Lemma neighbour_none rem proc c z f : In c L -> facet z c -> neighbour lv rem proc z = None -> In f L -> ~ In f rem -> ~ In f proc -> ~ incl z f.
  Proof.
    intros Hc F. unfold neighbour. destruct (List.find _ lv) as [x|] eqn:E; [discriminate|]. intros _ Hf N1 N2 I.
    apply in_map_iff in Hf as (x & <- & Hx). apply (find_none _ _ E) in Hx as K. apply among_false in N1, N2. rewrite N1, N2 in K. cbn in K. apply Nat.eqb_neq in K. apply K.
    destruct (Hl x Hx) as [Sx Lx]. assert (Lz := facet_length z c Hc F). destruct F as (Sz & _ & _). destruct (setIntersect_set_spec (fst x) z Sx Sz) as [Si Hi].
    rewrite Lx. cbn [Nat.sub]. rewrite Nat.sub_0_r, <- Lz. apply Nat.le_antisymm; apply NoDup_incl_length; try (now apply ssorted_NoDup).
    - intros y Hy. now apply Hi in Hy.
    - intros y Hy. apply Hi. auto.
  Qed.

  Lemma local_length rem proc subs : length (local_faces lv rem proc subs) <= length subs /\
    (length (local_faces lv rem proc subs) = length subs <-> forall z, In z subs -> neighbour lv rem proc z <> None).
  Proof.
    induction subs as [|z subs [A B]]; cbn [local_faces flat_map length]; [split; [lia|split; [intros _ z []|auto]]|].
    fold (local_faces lv rem proc subs). rewrite app_length. destruct (neighbour lv rem proc z) as [f|] eqn:E; cbn [length].
    - split; [lia|]. split.
      + intros H x [<-|Hx]; [congruence|]. apply B; [lia|exact Hx].
      + intros H. rewrite (proj2 B); [reflexivity|]. intros x Hx. apply H. now right.
    - split; [lia|]. split; [lia|]. intros H. exfalso. apply (H z (or_introl eq_refl)). exact E.
  Qed.
  Lemma local_in rem proc subs p : In p (local_faces lv rem proc subs) <-> In (fst p) subs /\ neighbour lv rem proc (fst p) = Some (snd p).
  Proof.
    unfold local_faces. rewrite in_flat_map. split.
    - intros (z & Hz & Hp). destruct (neighbour lv rem proc z) as [f|] eqn:E; [|destruct Hp]. destruct Hp as [<-|[]]. auto.
    - intros [Hp E]. exists (fst p). split; [exact Hp|]. rewrite E. left. now destruct p.
  Qed.

  Lemma non_min_ok local subs : (forall z, In z subs -> length z = d) -> (exists z, In z subs /\ among z local = false) ->
    exists z, non_min t local subs = Ok z /\ In z subs /\ among z local = false.
  Proof.
    intros Hs Hex. unfold non_min.
    assert (G : forall subs st, (forall z, In z subs -> length z = d) -> exists st', foldr_ub (non_min_step t local) st subs = Ok st' /\
      ((st' = st /\ (forall z, In z subs -> among z local = true)) \/ (exists z, In z subs /\ among z local = false) /\
        (snd st' = snd st /\ (0 <= fst st)%Z \/ In (snd st') subs /\ among (snd st') local = false))).
    { clear subs Hs Hex. induction subs as [|z subs IH]; intros st Hs; cbn [foldr_ub].
      - exists st. split; [reflexivity|]. left. split; [reflexivity|]. intros z [].
      - destruct st as [mv nm]. unfold non_min_step at 1. destruct (among z local) eqn:E.
        + cbn [bind]. destruct (IH (mv, nm)) as (st' & E1 & E2); [intros; apply Hs; now right|]. exists st'. split; [exact E1|].
          destruct E2 as [[-> E2]|[(y & Hy & Ey) E2]].
          * left. split; [reflexivity|]. intros x [<-|Hx]; auto.
          * right. split; [exists y; split; [now right|exact Ey]|]. destruct E2 as [E2|[E2 E3]]; [left; exact E2|right; split; [now right|exact E3]].
        + destruct (Hw z) as (w & Ew); [apply Hs; now left|]. rewrite Ew. cbn [bind].
          destruct (IH (if (mv <? 0)%Z then (w, z) else if (mv <? w)%Z then (mv, z) else (w, nm))) as (st' & E1 & E2); [intros; apply Hs; now right|].
          exists st'. split; [exact E1|]. right. split; [exists z; split; [now left|exact E]|].
          assert (Z1 : snd (if (mv <? 0)%Z then (w, z) else if (mv <? w)%Z then (mv, z) else (w, nm)) = z \/
                       (snd (if (mv <? 0)%Z then (w, z) else if (mv <? w)%Z then (mv, z) else (w, nm)) = nm /\ (0 <= mv)%Z)).
          { destruct (Z.ltb_spec mv 0); [left; reflexivity|]. destruct (mv <? w)%Z; [left; reflexivity|right; split; [reflexivity|lia]]. }
          cbn [fst snd]. destruct E2 as [[-> E2]|[_ [[E2 _]|[E2 E3]]]].
          * destruct Z1 as [->|[-> Z1]]; [right; split; [now left|exact E]|left; auto].
          * rewrite E2. destruct Z1 as [->|[-> Z1]]; [right; split; [now left|exact E]|left; auto].
          * right. split; [now right|exact E3]. }
    destruct (G subs ((-1)%Z, []) Hs) as (st' & E1 & E2). rewrite E1. cbn [bind]. exists (snd st'). split; [reflexivity|].
    destruct Hex as (z & Hz & Ez). destruct E2 as [[_ E2]|[_ [[_ E2]|E2]]]; [rewrite (E2 z Hz) in Ez; discriminate|cbn in E2; lia|exact E2].
  Qed.

  (* What every state of the recursion satisfies: the processed simplices are of the level, the exposed ones among them are
     removed, and the removed simplices come in pairs: a simplex of the level after one of its facets. *)
  Definition pairs_of (ps : list (list nat * list nat)) : list (list nat) := flat_map (fun p => [snd p; fst p]) ps.
  Record good_lists (rp : lists) : Prop := {
    gl_proc : incl (snd rp) L;
    gl_exposed : forall c, In c (snd rp) -> exposed c -> In c (fst rp);
    gl_pairs : exists ps, fst rp = pairs_of ps /\ forall p, In p ps -> In (fst p) L /\ facet (snd p) (fst p) }.

  Definition unseen (proc : list (list nat)) : nat := length (filter (fun c => negb (among c proc)) L).
  Lemma unseen_incl p p' : incl p p' -> unseen p' <= unseen p.
  Proof.
    intros H. unfold unseen. clear Hl. induction L as [|c l IH]; cbn; [lia|]. destruct (among c p) eqn:E; destruct (among c p') eqn:E'; cbn; try lia.
    apply among_In, H, among_In in E. congruence.
  Qed.
  Lemma unseen_less p p' f : incl p p' -> In f L -> ~ In f p -> In f p' -> unseen p' < unseen p.
  Proof.
    intros H Hf N I. unfold unseen. clear Hl. induction L as [|c l IH]; [destruct Hf|]. assert (Le : length (filter (fun c => negb (among c p')) l) <= length (filter (fun c => negb (among c p)) l)).
    { clear -H. induction l as [|c l IH]; cbn; [lia|]. destruct (among c p) eqn:E; destruct (among c p') eqn:E'; cbn; try lia. apply among_In, H, among_In in E. congruence. }
    cbn [filter]. destruct Hf as [->|Hf].
    - apply among_In in I. apply among_false in N. rewrite I, N. cbn. lia.
    - specialize (IH Hf). destruct (among c p) eqn:E; destruct (among c p') eqn:E'; cbn; try lia. apply among_In, H, among_In in E. congruence.
  Qed.

  Lemma recurse_ok fuel : forall cur rp, In cur L -> good_lists rp -> unseen (snd rp ++ [cur]) < fuel ->
    exists rp', ind_recurseReduce fuel t lv d cur rp = Some (Ok rp') /\ good_lists rp' /\ incl (fst rp) (fst rp') /\ incl (snd rp ++ [cur]) (snd rp').
  Proof.
    induction fuel as [|fuel IH]; intros cur rp Hc G U; [lia|]. cbn [ind_recurseReduce].
    destruct rp as [rem proc]. cbn [fst snd] in *. destruct (subsets_spec cur Hc) as (Ns & Is & Ne).
    set (subs := getSubsets_dim cur (Z.of_nat d)) in *. set (proc1 := proc ++ [cur]) in *. set (local := local_faces lv rem proc1 subs).
    destruct (local_length rem proc1 subs) as [LL1 LL2]. fold local in LL1, LL2. destruct G as [Gp Ge Gr].
    destruct (Nat.eqb_spec (length local) (length subs)) as [E|E].
    - assert (All : forall z, In z subs -> neighbour lv rem proc1 z <> None) by (now apply LL2).
      assert (G1 : good_lists (rem, proc1)).
      { split; cbn [fst snd]; [|intros c Hcc Ex; unfold proc1 in Hcc; apply in_app_iff in Hcc as [Hcc|[<-|[]]]; [now apply Ge|]|exact Gr].
        - unfold proc1. apply incl_app; [exact Gp|]. intros x [<-|[]]. exact Hc.
        - exfalso. destruct Ex as (z & F & Ex). apply Is in F as Hz. apply All in Hz. destruct (neighbour lv rem proc1 z) as [f|] eqn:En; [|congruence].
          destruct (neighbour_some rem proc1 cur z f Hc F En) as (Hf & _ & Np & If). apply (Ex f Hf); [|exact If]. intros ->. apply Np. unfold proc1. apply in_app_iff. right. now left. }
      assert (F1 : forall p, In p local -> In (snd p) L /\ ~ In (snd p) proc1).
      { intros p Hp. apply local_in in Hp as [Hp1 Hp2]. destruct (neighbour_some rem proc1 cur (fst p) (snd p) Hc) as (A & _ & B & _); [now apply Is|exact Hp2|]. auto. }
      assert (Lne : local <> []) by (intros X; rewrite X in E; destruct subs; [congruence|discriminate]).
      assert (Fold : forall fs again rp1, (forall f, In f fs -> In f L /\ ~ In f proc1) -> good_lists rp1 -> incl rem (fst rp1) -> incl proc1 (snd rp1) ->
        exists r, foldr_run (fun st face => go rp' <- ind_recurseReduce fuel t lv d face (snd st); ret (fst st || (length (fst (snd st)) <? length (fst rp')), rp'))
                    (again, rp1) fs = Some (Ok r) /\ good_lists (snd r) /\ incl rem (fst (snd r)) /\ incl proc1 (snd (snd r)) /\ incl fs (snd (snd r)) /\ incl (snd rp1) (snd (snd r))).
      { induction fs as [|f fs IHf]; intros again rp1 Hf G2 I1 I2; cbn [foldr_run].
        - exists (again, rp1). split; [reflexivity|]. cbn. split; [exact G2|]. split; [exact I1|]. split; [exact I2|]. split; [intros x []|apply incl_refl].
        - destruct (Hf f (or_introl eq_refl)) as [HfL HfN].
          destruct (IH f rp1 HfL G2) as (rp2 & E2 & G3 & J1 & J2).
          { assert (K : unseen (snd rp1 ++ [f]) < unseen proc1); [|lia]. apply (unseen_less _ _ f); [|exact HfL|exact HfN|apply in_app_iff; right; now left].
            intros x Hx. apply in_app_iff. left. now apply I2. }
          cbn [snd fst]. rewrite E2. cbn [rbind ret].
          destruct (IHf (again || (length (fst rp1) <? length (fst rp2))) rp2) as (r & Er & K1 & K2 & K3 & K4 & K5).
          { intros x Hx. apply Hf. now right. } { exact G3. } { eapply incl_tran; [exact I1|exact J1]. } { intros x Hx. apply J2, in_app_iff. left. now apply I2. }
          exists r. split; [exact Er|]. split; [exact K1|]. split; [exact K2|]. split; [exact K3|]. split.
          + intros x [<-|Hx]; [apply K5, J2, in_app_iff; right; now left|now apply K4].
          + intros x Hx. apply K5, J2, in_app_iff. now left. }
      destruct (Fold (map snd local) false (rem, proc1)) as (r & Er & K1 & K2 & K3 & K4 & _).
      { intros f Hf. apply in_map_iff in Hf as (p & <- & Hp). now apply F1. } { exact G1. } { apply incl_refl. } { apply incl_refl. }
      unfold lists in *. rewrite Er. cbn [rbind]. destruct (fst r).
      + destruct local as [|p0 local']; [congruence|]. destruct (F1 p0 (or_introl eq_refl)) as [A B].
        destruct (IH cur (snd r) Hc K1) as (rp2 & E2 & _).
        { assert (K : unseen (snd (snd r) ++ [cur]) < unseen proc1); [|lia]. apply (unseen_less _ _ (snd p0)); [|exact A|exact B|apply in_app_iff; left; apply K4; now left].
          intros x Hx. apply in_app_iff. left. now apply K3. }
        rewrite E2. cbn [rbind ret]. exists (snd r). auto.
      + exists (snd r). auto.
    - assert (Miss : exists z, In z subs /\ neighbour lv rem proc1 z = None).
      { clear -E LL1 LL2. assert (N : ~ forall z, In z subs -> neighbour lv rem proc1 z <> None) by (intros H; apply E, LL2, H).
        clear -N. induction subs as [|z l IH]; [exfalso; apply N; intros z []|]. destruct (neighbour lv rem proc1 z) eqn:En; [|exists z; split; [now left|exact En]].
        destruct IH as (y & Hy & Ey); [|exists y; split; [now right|exact Ey]]. intros H. apply N. intros y [<-|Hy]; [congruence|now apply H]. }
      destruct (non_min_ok (map fst local) subs) as (z & Ez & Hz & Hzl).
      { intros y Hy. apply (facet_length y cur Hc). now apply Is. }
      { destruct Miss as (z & Hz & En). exists z. split; [exact Hz|]. apply among_false. intros H. apply in_map_iff in H as (p & <- & Hp). apply local_in in Hp as [_ Hp]. congruence. }
      rewrite Ez. cbn [lift rbind]. assert (Fz : facet z cur) by (now apply Is). assert (Lz := facet_length z cur Hc Fz).
      destruct z as [|z0 z']; [cbn in Lz; lia|]. set (z := z0 :: z') in *.
      exists (rem ++ [z; cur], proc1). split; [reflexivity|]. cbn [fst snd]. split; [|split; [apply incl_appl, incl_refl|apply incl_refl]]. split; cbn [fst snd].
      + unfold proc1. apply incl_app; [exact Gp|]. intros x [<-|[]]. exact Hc.
      + intros c Hcc Ex. unfold proc1 in Hcc. apply in_app_iff. apply in_app_iff in Hcc as [Hcc|[<-|[]]]; [left; now apply Ge|right; right; now left].
      + destruct Gr as (ps & Gr & Hps). cbn [fst] in Gr. subst rem. exists (ps ++ [(cur, z)]). split; [unfold pairs_of; now rewrite flat_map_app|].
        intros p Hp. apply in_app_iff in Hp as [Hp|[<-|[]]]; [now apply Hps|]. split; [exact Hc|exact Fz].
  Qed.

  Lemma level_ok fuel : length lv < fuel -> exists rp, ind_reduce_level fuel t lv d = Some (Ok rp) /\ good_lists rp /\ incl L (snd rp).
  Proof.
    intros Hf. unfold ind_reduce_level.
    assert (G : forall (l : list wsimp) (rp : lists), incl (map fst l) L -> good_lists rp -> exists rp', foldr_run (fun rp c => if among (fst c) (snd rp) then ret rp else ind_recurseReduce fuel t lv d (fst c) rp) rp l = Some (Ok rp') /\
      good_lists rp' /\ incl (map fst l) (snd rp') /\ incl (snd rp) (snd rp')).
    { induction l as [|c l IH]; intros rp Hi G; cbn [foldr_run].
      - exists rp. split; [reflexivity|]. split; [exact G|]. split; [intros x []|apply incl_refl].
      - destruct (among (fst c) (snd rp)) eqn:E.
        + cbn [ret rbind]. apply among_In in E. destruct (IH rp) as (rp' & E' & G' & I1 & I2); [intros x Hx; apply Hi; now right|exact G|].
          exists rp'. split; [exact E'|]. split; [exact G'|]. split; [|exact I2]. intros x [<-|Hx]; auto.
        + destruct (recurse_ok fuel (fst c) rp) as (rp1 & E1 & G1 & _ & J2); [apply Hi; now left|exact G| |].
          { assert (K : unseen (snd rp ++ [fst c]) <= length L); [|unfold L in K; rewrite map_length in K; lia]. unfold unseen. clear. induction L as [|x l IH]; cbn; [lia|]. destruct (negb _); cbn; lia. }
          rewrite E1. cbn [rbind]. destruct (IH rp1) as (rp' & E' & G' & I1 & I2); [intros x Hx; apply Hi; now right|exact G1|].
          exists rp'. split; [exact E'|]. split; [exact G'|]. split.
          * intros x [<-|Hx]; [apply I2, J2, in_app_iff; right; now left|now apply I1].
          * intros x Hx. apply I2, J2, in_app_iff. now left. }
    destruct (G lv ([], [])) as (rp & E & G1 & I & _); [apply incl_refl| |exists rp; auto]. split; cbn; [intros x []|intros c []|]. exists []. split; [reflexivity|intros p []].
  Qed.
End Level.

(* ---- the removal ---- *)
Definition minus (rem : list (list nat)) (l : list wsimp) : list wsimp := filter (fun c => negb (among (fst c) rem)) l.
Lemma minus_absent rem l : (forall r, In r rem -> ~ In r (map fst l)) -> minus rem l = l.
Proof.
  intros H. induction l as [|c l IH]; cbn; [reflexivity|]. destruct (among (fst c) rem) eqn:E.
  - apply among_In in E. exfalso. apply (H _ E). now left.
  - cbn. f_equal. apply IH. intros r Hr I. apply (H r Hr). now right.
Qed.
Lemma minus_app a b l : minus (a ++ b) l = minus b (minus a l).
Proof.
  induction l as [|c l IH]; cbn; [reflexivity|]. unfold among in *. rewrite existsb_app. destruct (existsb (nlist_eqb (fst c)) a) eqn:E; cbn; [exact IH|].
  destruct (existsb (nlist_eqb (fst c)) b); cbn; [exact IH|]. now f_equal.
Qed.
Lemma minus_length_le rem l : length (minus rem l) <= length l.
Proof. unfold minus. induction l as [|c l IH]; cbn; [lia|]. destruct (negb _); cbn; lia. Qed.
Lemma erase_each_spec r l : NoDup (map fst l) -> erase_each r l = (minus [r] l, (Z.of_nat (length l) - Z.of_nat (length (minus [r] l)))%Z).
Proof.
  induction l as [|c l IH]; intros N; [reflexivity|]. cbn [erase_each]. inversion N as [|? ? N1 N2]; subst.
  assert (Eq : among (fst c) [r] = nlist_eqb r (fst c)).
  { cbn. rewrite orb_false_r. apply eq_true_iff_eq. rewrite !nlist_eqb_eq. split; congruence. }
  unfold minus. cbn [filter]. fold (minus [r] l). rewrite Eq. destruct (nlist_eqb r (fst c)) eqn:E.
  - apply nlist_eqb_eq in E. cbn [negb]. assert (A : minus [r] l = l) by (apply minus_absent; intros x [<-|[]] H; apply N1; now rewrite <- E).
    rewrite A. cbn [length]. destruct l as [|c2 l]; [cbn; f_equal; lia|]. inversion N2 as [|? ? N3 N4]; subst.
    assert (A2 : minus [fst c] l = l) by (apply minus_absent; intros x [<-|[]] H; apply N1; now right).
    clear IH. assert (E2 : erase_each (fst c) l = (l, 0%Z)).
    { assert (N5 : ~ In (fst c) (map fst l)) by (intros H; apply N1; now right). clear -N5. induction l as [|x l IH]; [reflexivity|]. cbn [erase_each].
      destruct (nlist_eqb (fst c) (fst x)) eqn:E; [apply nlist_eqb_eq in E; exfalso; apply N5; left; congruence|]. rewrite IH; [reflexivity|]. intros H. apply N5. now right. }
    rewrite E2. cbn [fst snd]. f_equal. lia.
  - rewrite (IH N2). cbn [negb fst snd length]. f_equal. lia.
Qed.
Lemma minus_one r c l : minus [r] (c :: l) = if nlist_eqb (fst c) r then minus [r] l else c :: minus [r] l.
Proof. unfold minus, among. cbn. rewrite orb_false_r. now destruct (nlist_eqb (fst c) r). Qed.
Lemma erase_first_spec r l : NoDup (map fst l) -> erase_first r l = minus [r] l /\
  (existsb (fun c => nlist_eqb (fst c) r) l = true -> length (minus [r] l) + 1 = length l) /\
  (existsb (fun c => nlist_eqb (fst c) r) l = false -> minus [r] l = l) /\
  (existsb (fun c => nlist_eqb (fst c) r) l = true <-> In r (map fst l)).
Proof.
  intros N. assert (X : existsb (fun c => nlist_eqb (fst c) r) l = true <-> In r (map fst l)).
  { rewrite existsb_exists, in_map_iff. split; intros (c & A & B); exists c; [apply nlist_eqb_eq in B|apply nlist_eqb_eq in A]; auto. }
  assert (Ab : existsb (fun c => nlist_eqb (fst c) r) l = false -> minus [r] l = l).
  { intros E. apply minus_absent. intros x [<-|[]] H. apply X in H. congruence. }
  split; [|split; [|split; [exact Ab|exact X]]].
  - clear X Ab. induction l as [|c l IH]; [reflexivity|]. inversion N as [|? ? N1 N2]; subst. cbn [erase_first]. rewrite minus_one.
    destruct (nlist_eqb (fst c) r) eqn:E; [|now rewrite IH].
    apply nlist_eqb_eq in E. symmetry. apply minus_absent. intros x [<-|[]] H. apply N1. now rewrite E.
  - intros E. apply X in E. clear X Ab. induction l as [|c l IH]; [destruct E|]. inversion N as [|? ? N1 N2]; subst. rewrite minus_one.
    destruct (nlist_eqb (fst c) r) eqn:E1; cbn [length].
    + apply nlist_eqb_eq in E1. assert (A : minus [r] l = l) by (apply minus_absent; intros x [<-|[]] H; apply N1; now rewrite E1). rewrite A. lia.
    + rewrite <- IH; [lia|exact N2|]. destruct E as [E|E]; [apply nlist_eqb_neq in E1; congruence|exact E].
Qed.

Definition minus_all (rem : list (list nat)) (g : wgraph) : wgraph := map (minus rem) g.
Lemma minus_all_level rem g k : level (minus_all rem g) k = minus rem (level g k).
Proof. unfold level, minus_all. change (@nil wsimp) with (minus rem []) at 1. now rewrite map_nth. Qed.
Lemma minus_nodup rem l : NoDup (map fst l) -> NoDup (map fst (minus rem l)).
Proof.
  unfold minus. induction l as [|c l IH]; cbn; [auto|]. intros N. inversion N as [|? ? N1 N2]; subst. destruct (negb _); cbn; [|auto]. constructor; [|auto].
  intros H. apply N1. apply in_map_iff in H as (x & <- & Hx). apply filter_In in Hx as [Hx _]. now apply in_map.
Qed.
Record shape (g : wgraph) : Prop := {
  sh_nodup : forall k, NoDup (map fst (level g k));
  sh_length : forall k c, In c (level g k) -> length (fst c) = S k }.
Lemma shape_minus rem g : shape g -> shape (minus_all rem g).
Proof.
  intros [N Ln]. split; intros k; rewrite minus_all_level; [now apply minus_nodup|]. intros c Hc. apply filter_In in Hc as [Hc _]. now apply Ln.
Qed.
Lemma level_ext (a b : wgraph) : length a = length b -> (forall k, level a k = level b k) -> a = b.
Proof. intros H1 H2. apply (nth_ext a b [] [] H1). intros n _. apply H2. Qed.
Definition size (g : wgraph) : Z := Z.of_nat (length (concat g)).
Lemma size_change (a b : wgraph) k : k < length a -> length b = length a -> (forall j, j <> k -> level b j = level a j) ->
  size b = (size a - Z.of_nat (length (level a k)) + Z.of_nat (length (level b k)))%Z.
Proof.
  revert b k. induction a as [|x a IH]; intros [|y b] k Hk Hl H; cbn in Hk, Hl; try lia. unfold size in *. cbn [concat]. rewrite !app_length. destruct k as [|k].
  - unfold level. cbn [nth]. assert (E : b = a) by (apply level_ext; [lia|intros j; exact (H (S j) (Nat.neq_succ_0 j))]). subst. lia.
  - assert (E : y = x) by exact (H 0 (Nat.neq_0_succ k)). subst. unfold level in *. cbn [nth].
    rewrite !Nat2Z.inj_add, (IH b k); [lia|lia|lia|]. intros j Hj. apply (H (S j)). lia.
Qed.

Lemma at_the_level (g : wgraph) k : k < length g -> at_ g k = Ok (level g k).
Proof. apply at_lev. Qed.
Lemma upd_level (g : wgraph) d f : d < length g -> exists g', upd g d f = Ok g' /\ length g' = length g /\ level g' d = f (level g d) /\ forall k, k <> d -> level g' k = level g k.
Proof. apply upd_lev. Qed.
Lemma remove_ok d tf r : shape (i_dims (fst tf)) -> d < length (i_dims (fst tf)) -> 0 < d -> length r = d \/ length r = S d ->
  exists freed', ind_remove d tf r = Ok (with_dims (fst tf) (minus_all [r] (i_dims (fst tf))) (i_count (fst tf) - size (i_dims (fst tf)) + size (minus_all [r] (i_dims (fst tf)))), freed') /\
    (forall z, In z freed' <-> In z (snd tf) \/ (z = r /\ length r = d /\ In r (map fst (level (i_dims (fst tf)) (d - 1))))).
Proof.
  destruct tf as [t freed]. cbn [fst snd]. intros Sh Hd Hd0 Hr. unfold ind_remove. cbn [fst snd]. set (g := i_dims t) in *.
  rewrite (at_the_level g d Hd). cbn [bind]. rewrite erase_each_spec by apply Sh. cbn [fst snd].
  destruct (upd_level g d (fun _ => minus [r] (level g d)) Hd) as (g1 & E1 & L1 & A1 & B1). rewrite E1. cbn [bind].
  assert (Abs : forall k, length r <> S k -> minus [r] (level g k) = level g k).
  { intros k Hk. apply minus_absent. intros x [<-|[]] H. apply in_map_iff in H as (c & <- & Hc). apply Hk. now apply (sh_length g Sh). }
  unfold ind_deletion. cbn [with_dims i_dims i_count].
  destruct Hr as [Hr|Hr].
  - (* a facet *)
    rewrite Hr. destruct d as [|k]; [lia|]. rewrite (at_the_level g1 k) by lia. cbn [bind]. rewrite B1 by lia.
    destruct (erase_first_spec r (level g k) (sh_nodup g Sh k)) as (F1 & F2 & F3 & F4).
    assert (Ad : minus [r] (level g (S k)) = level g (S k)) by (apply Abs; lia). rewrite Ad in *. cbn [Nat.sub]. rewrite Nat.sub_0_r.
    assert (Eg1 : g1 = g). { apply level_ext; [exact L1|]. intros j. destruct (Nat.eq_dec j (S k)) as [->|J]; [exact A1|now apply B1]. } subst g1.
    destruct (existsb _ (level g k)) eqn:Ex.
    + destruct (upd_level g k (erase_first r)) as (g2 & E2 & L2 & A2 & B2); [lia|]. rewrite E2. cbn [bind].
      assert (Eg : g2 = minus_all [r] g).
      { apply level_ext; [unfold minus_all; rewrite map_length; exact L2|]. intros j. rewrite minus_all_level. destruct (Nat.eq_dec j k) as [->|J]; [now rewrite A2, F1|]. rewrite B2 by exact J. symmetry. apply Abs. lia. }
      exists (freed ++ [r]). split.
      * unfold with_dims. cbn. rewrite <- Eg. do 3 f_equal. rewrite (size_change g g2 k); [|lia|exact L2|exact B2]. rewrite A2, F1. specialize (F2 eq_refl). lia.
      * intros z. rewrite in_app_iff. cbn [In]. assert (I : In r (map fst (level g k))) by (now apply F4). intuition.
    + assert (Eg : g = minus_all [r] g).
      { apply level_ext; [unfold minus_all; now rewrite map_length|]. intros j. rewrite minus_all_level. destruct (Nat.eq_dec j k) as [->|J]; [symmetry; auto|]. symmetry. apply Abs. lia. }
      exists freed. rewrite <- Eg. split.
      * unfold with_dims. cbn. do 3 f_equal. lia.
      * intros z. split; [auto|]. intros [H|(_ & _ & H)]; [exact H|]. apply F4 in H. discriminate.
  - (* a simplex of the level *)
    rewrite Hr. rewrite (at_the_level g1 d) by lia. cbn [bind]. rewrite A1.
    assert (Ex : existsb (fun c => nlist_eqb (fst c) r) (minus [r] (level g d)) = false).
    { destruct (existsb _ _) eqn:Ex; [|reflexivity]. apply existsb_exists in Ex as (c & Hc & E). apply nlist_eqb_eq in E. apply filter_In in Hc as [_ Hc]. apply negb_true_iff, among_false in Hc. exfalso. apply Hc. now left. }
    rewrite Ex.
    assert (Eg : g1 = minus_all [r] g).
    { apply level_ext; [unfold minus_all; rewrite map_length; exact L1|]. intros j. rewrite minus_all_level. destruct (Nat.eq_dec j d) as [->|J]; [exact A1|]. rewrite B1 by exact J. symmetry. apply Abs. lia. }
    exists freed. split.
    + unfold with_dims. cbn. rewrite <- Eg. do 3 f_equal. rewrite (size_change g g1 d Hd L1 B1), A1. lia.
    + intros z. split; [auto|]. intros [H|(_ & H & _)]; [exact H|lia].
Qed.

Lemma minus_all_app a b g : minus_all (a ++ b) g = minus_all b (minus_all a g).
Proof. unfold minus_all. rewrite map_map. apply map_ext. intros l. apply minus_app. Qed.
Lemma minus_all_nil g : minus_all [] g = g.
Proof. unfold minus_all. rewrite <- (map_id g) at 2. apply map_ext. intros l. apply minus_absent. intros r []. Qed.
Lemma removes_ok d rem : forall tf, shape (i_dims (fst tf)) -> d < length (i_dims (fst tf)) -> 0 < d -> (forall r, In r rem -> length r = d \/ length r = S d) ->
  exists freed', foldr_ub (ind_remove d) tf rem = Ok (with_dims (fst tf) (minus_all rem (i_dims (fst tf))) (i_count (fst tf) - size (i_dims (fst tf)) + size (minus_all rem (i_dims (fst tf)))), freed') /\
    (forall z, In z freed' <-> In z (snd tf) \/ (In z rem /\ length z = d /\ In z (map fst (level (i_dims (fst tf)) (d - 1))))).
Proof.
  induction rem as [|r rem IH]; intros tf Sh Hd Hd0 Hr; cbn [foldr_ub].
  - exists (snd tf). rewrite minus_all_nil. split; [|intros z; split; [auto|intros [H|[[] _]]; exact H]]. destruct tf as [[] f]. unfold with_dims. cbn. do 3 f_equal. lia.
  - destruct (remove_ok d tf r Sh Hd Hd0 (Hr r (or_introl eq_refl))) as (f1 & E1 & F1). rewrite E1. cbn [bind].
    destruct (IH (with_dims (fst tf) (minus_all [r] (i_dims (fst tf))) (i_count (fst tf) - size (i_dims (fst tf)) + size (minus_all [r] (i_dims (fst tf)))), f1)) as (f2 & E2 & F2); cbn [fst with_dims i_dims].
    { now apply shape_minus. } { unfold minus_all. now rewrite map_length. } { exact Hd0. } { intros x Hx. apply Hr. now right. }
    exists f2. rewrite E2. cbn [fst with_dims i_dims i_count]. rewrite <- (minus_all_app [r] rem). cbn [app]. split.
    + unfold with_dims. cbn. do 3 f_equal. lia.
    + intros z. rewrite F2. cbn [snd fst]. rewrite F1. cbn [with_dims i_dims]. rewrite minus_all_level. cbn [In]. split.
      * intros [[H|(-> & H1 & H2)]|(H & H1 & H2)]; [auto|right; auto|]. right. split; [auto|]. split; [exact H1|]. apply in_map_iff in H2 as (c & Ec & Hc). apply filter_In in Hc as [Hc _]. rewrite <- Ec. now apply in_map.
      * intros [H|([<-|H] & H1 & H2)]; [auto|left; right; auto|]. destruct (nlist_dec r z) as [->|Ne]; [left; right; auto|]. right. split; [exact H|]. split; [exact H1|].
        apply in_map_iff in H2 as (c & Ec & Hc). rewrite <- Ec. apply in_map. apply filter_In. split; [exact Hc|]. apply negb_true_iff, among_false. intros [X|[]]. congruence.
Qed.

(* ---- the objects the program can reach ---- *)
Lemma reach_shape eps md dm nc0 srt ops t : ilegal dm ops -> ind_run eps md srt (ind_new dm nc0) ops = Ok t ->
  shape (i_dims t) /\ (forall k c, In c (level (i_dims t) k) -> ssorted (fst c)) /\ length (i_dims t) <= 3.
Proof.
  intros Lg E. destruct (reach _ _ _ _ _ _ _ Lg E) as (st & V & Ed & Er & Em & Ec & En & Hc & Hl & H0).
  assert (Sp := fun k s w => spec0 eps md _ _ nc0 st k s w V). split; [split|split; [|exact Hl]]; rewrite Em.
  - apply V.
  - intros k [s w] H. apply Sp in H. cbn. tauto.
  - intros k [s w] H. apply Sp in H as (_ & H & _). cbn. apply H.
Qed.

Theorem reduce_spec eps md dm nc0 srt ops t fuel : ilegal dm ops -> ind_run eps md srt (ind_new dm nc0) ops = Ok t -> length (level (i_dims t) 2) < fuel ->
  exists rem freed, let dims := minus_all rem (i_dims t) in
    ind_reduceComplex md fuel t = Some (Ok (with_dims t dims (i_count t - size (i_dims t) + size dims), freed)) /\
    (forall r, In r rem -> length r = 2 \/ length r = 3) /\
    (forall z, In z freed <-> length z = 2 /\ In z rem /\ In z (map fst (level (i_dims t) 1))) /\
    ((md < 2)%Z -> rem = []) /\
    ((2 <= md)%Z ->
       (forall s, In s (map fst (level (i_dims t) 2)) -> (exists z, facet z s /\ forall s', In s' (map fst (level (i_dims t) 2)) -> s' <> s -> ~ incl z s') -> In s rem) /\
       (forall s, In s rem -> length s = 3 -> In s (map fst (level (i_dims t) 2)) /\ exists z, facet z s /\ In z rem) /\
       (forall z, In z rem -> length z = 2 -> exists s, facet z s /\ In s rem)).
Proof.
  intros Lg E Hf. destruct (reach_shape eps md dm nc0 srt ops t Lg E) as (Sh & So & Le). unfold ind_reduceComplex.
  assert (Same : t = with_dims t (minus_all [] (i_dims t)) (i_count t - size (i_dims t) + size (minus_all [] (i_dims t)))).
  { rewrite minus_all_nil. destruct t; unfold with_dims; cbn. f_equal. lia. }
  destruct (Z.ltb_spec md 2) as [Hm|Hm].
  - exists [], []. cbn zeta. split; [unfold ret; now rewrite <- Same|]. split; [intros r []|]. split; [intros z; split; [intros []|tauto]|]. split; [auto|lia].
  - destruct (Nat.le_gt_cases (length (i_dims t)) 2) as [L2|L2].
    + exists [], []. cbn zeta. assert (E0 : ind_reduce_from fuel (t, []) (length (i_dims t) - 1) = ret (t, [])).
      { destruct (length (i_dims t)) as [|[|[|]]]; cbn; try reflexivity. lia. }
      split; [rewrite E0; unfold ret; now rewrite <- Same|]. split; [intros r []|]. split; [intros z; split; [intros []|tauto]|]. split; [auto|]. intros _.
      assert (Em : level (i_dims t) 2 = []) by (unfold level; apply nth_overflow; lia). rewrite Em. cbn. repeat split; intros; contradiction.
    + assert (L3 : length (i_dims t) = 3) by lia. rewrite L3. cbn [Nat.sub ind_reduce_from fst]. change (1 <? 2) with true. cbn match.
      rewrite (at_the_level (i_dims t) 2) by lia. cbn [lift rbind].
      destruct (level_ok t (level (i_dims t) 2) 2) with (fuel := fuel) as (rp & Er & [Gp Ge (ps & Eps & Hps)] & I); [lia| | |exact Hf|].
      { intros c Hc. split; [now apply (So 2)|now apply (sh_length _ Sh)]. }
      { intros z Hz. unfold ind_getWeight. rewrite Hz, (at_the_level (i_dims t) 1) by lia. cbn [bind]. eauto. }
      rewrite Er. cbn [rbind].
      assert (Hlen : forall r, In r (fst rp) -> length r = 2 \/ length r = 3).
      { intros r Hr. rewrite Eps in Hr. unfold pairs_of in Hr. apply in_flat_map in Hr as (p & Hp & Hr). destruct (Hps p Hp) as [A B]. apply in_map_iff in A as (c & Ec & Hc).
        apply (sh_length _ Sh) in Hc. rewrite Ec in Hc. destruct B as (_ & _ & B). cbn in Hr. destruct Hr as [<-|[<-|[]]]; [left; lia|right; exact Hc]. }
      destruct (removes_ok 2 (fst rp) (t, [])) as (freed & Ef & Ff); cbn [fst]; [exact Sh|lia|lia|exact Hlen|]. cbn [fst snd] in Ef, Ff. rewrite Ef. cbn [lift rbind].
      exists (fst rp), freed. cbn zeta. split; [reflexivity|]. split; [exact Hlen|]. split; [intros z; rewrite Ff; cbn [In Nat.sub]; tauto|]. split; [lia|]. intros _.
      split; [|split].
      * intros s Hs Ex. apply Ge; [now apply I|exact Ex].
      * intros s Hs L3'. rewrite Eps in Hs. unfold pairs_of in Hs. apply in_flat_map in Hs as (p & Hp & Hs). destruct (Hps p Hp) as [A B]. apply in_map_iff in A as (c & Ec & Hc).
        assert (Lc := sh_length _ Sh _ _ Hc). rewrite Ec in Lc. assert (Lz : length (snd p) = 2) by (destruct B as (_ & _ & B); lia).
        cbn in Hs. destruct Hs as [<-|[<-|[]]]; [lia|]. split; [rewrite <- Ec; now apply in_map|]. exists (snd p). split; [exact B|]. rewrite Eps. unfold pairs_of. apply in_flat_map. exists p. split; [exact Hp|now left].
      * intros z Hz L2'. rewrite Eps in Hz. unfold pairs_of in Hz. apply in_flat_map in Hz as (p & Hp & Hz). destruct (Hps p Hp) as [A B]. apply in_map_iff in A as (c & Ec & Hc).
        assert (Lc := sh_length _ Sh _ _ Hc). rewrite Ec in Lc. cbn in Hz. destruct Hz as [<-|[<-|[]]]; [|lia]. exists (fst p). split; [exact B|]. rewrite Eps. unfold pairs_of. apply in_flat_map. exists p. split; [exact Hp|right; now left].
Qed.

(* ---- more fuel changes nothing ---- *)
Lemma fold_more {A S} (b b' : S -> A -> run S) : (forall s x r, b s x = Some r -> b' s x = Some r) -> forall l s r, foldr_run b s l = Some r -> foldr_run b' s l = Some r.
Proof.
  intros H. induction l as [|x l IH]; intros s r; cbn [foldr_run]; [auto|]. destruct (b s x) as [[s1|]|] eqn:E; cbn [rbind]; try discriminate; rewrite (H _ _ _ E); cbn [rbind]; auto.
Qed.
Lemma recurse_more t lv d fuel : forall cur rp r, ind_recurseReduce fuel t lv d cur rp = Some r -> forall fuel', fuel <= fuel' -> ind_recurseReduce fuel' t lv d cur rp = Some r.
Proof.
  induction fuel as [|fuel IH]; intros cur rp r; [discriminate|]. cbn [ind_recurseReduce]. intros E fuel' Hf. destruct fuel' as [|fuel']; [lia|]. apply le_S_n in Hf. cbn [ind_recurseReduce].
  destruct (_ =? _); [|exact E].
  match type of E with rbind ?x _ = _ => destruct x as [[q|]|] eqn:F; cbn [rbind] in E; [| |discriminate] end.
  - match goal with |- rbind ?x _ = _ => assert (F' : x = Some (Ok q)) end.
    { eapply fold_more; [|exact F]. intros s x r0. cbn beta. destruct (ind_recurseReduce fuel t lv d x (snd s)) as [[y|]|] eqn:K; cbn [rbind]; try discriminate; rewrite (IH _ _ _ K fuel' Hf); auto. }
    rewrite F'. cbn [rbind]. destruct (fst q); [|exact E]. destruct (ind_recurseReduce fuel t lv d cur (snd q)) as [[y|]|] eqn:K; cbn [rbind] in E; try discriminate; rewrite (IH _ _ _ K fuel' Hf); exact E.
  - match goal with |- rbind ?x _ = _ => assert (F' : x = Some UB) end.
    { eapply fold_more; [|exact F]. intros s x r0. cbn beta. destruct (ind_recurseReduce fuel t lv d x (snd s)) as [[y|]|] eqn:K; cbn [rbind]; try discriminate; rewrite (IH _ _ _ K fuel' Hf); auto. }
    rewrite F'. exact E.
Qed.
Lemma from_more fuel fuel' : fuel <= fuel' -> forall d tf r, ind_reduce_from fuel tf d = Some r -> ind_reduce_from fuel' tf d = Some r.
Proof.
  intros Hf. induction d as [|d IH]; intros tf r; cbn [ind_reduce_from]; [auto|]. destruct (1 <? S d); [|auto]. destruct (at_ _ _) as [lv|]; cbn [lift rbind]; [|auto].
  destruct (ind_reduce_level fuel (fst tf) lv (S d)) as [[rp|]|] eqn:E; cbn [rbind]; try discriminate.
  - assert (E' : ind_reduce_level fuel' (fst tf) lv (S d) = Some (Ok rp)).
    { eapply fold_more; [|exact E]. intros s x r0. cbn beta. destruct (among _ _); [auto|]. intros K. exact (recurse_more _ _ _ _ _ _ _ K fuel' Hf). }
    rewrite E'. cbn [rbind]. destruct (foldr_ub _ _ _) as [tf'|]; cbn [lift rbind]; [apply IH|auto].
  - assert (E' : ind_reduce_level fuel' (fst tf) lv (S d) = Some UB).
    { eapply fold_more; [|exact E]. intros s x r0. cbn beta. destruct (among _ _); [auto|]. intros K. exact (recurse_more _ _ _ _ _ _ _ K fuel' Hf). }
    now rewrite E'.
Qed.
Lemma reduce_more md fuel fuel' t r : fuel <= fuel' -> ind_reduceComplex md fuel t = Some r -> ind_reduceComplex md fuel' t = Some r.
Proof. intros Hf. unfold ind_reduceComplex. destruct (_ <? _)%Z; [auto|]. now apply from_more. Qed.

(* The statement of the property: one result for every number of steps that suffices. *)
Theorem reduce_theorem eps md dm nc0 srt ops t : ilegal dm ops -> ind_run eps md srt (ind_new dm nc0) ops = Ok t ->
  exists t' freed, (forall fuel, length (level (i_dims t) 2) < fuel -> ind_reduceComplex md fuel t = Some (Ok (t', freed))) /\
    (i_dm t' = i_dm t /\ i_roots t' = i_roots t /\ i_counts t' = i_counts t /\ i_next t' = i_next t /\ i_sorted t' = i_sorted t /\ i_graph t' = i_graph t) /\
    length (i_dims t') = length (i_dims t) /\
    (i_count t - i_count t' = Z.of_nat (length (concat (i_dims t))) - Z.of_nat (length (concat (i_dims t'))))%Z /\
    (exists stays, forall k, level (i_dims t') k = filter stays (level (i_dims t) k)) /\
    level (i_dims t') 0 = level (i_dims t) 0 /\
    (forall z, In z freed <-> In z (map fst (level (i_dims t) 1)) /\ ~ In z (map fst (level (i_dims t') 1))) /\
    ((md < 2)%Z -> t' = t /\ freed = []) /\
    ((2 <= md)%Z ->
       (forall s z, In s (map fst (level (i_dims t) 2)) -> facet z s -> (forall s', In s' (map fst (level (i_dims t) 2)) -> incl z s' -> s' = s) ->
          ~ In s (map fst (level (i_dims t') 2))) /\
       (forall s, In s (map fst (level (i_dims t) 2)) -> ~ In s (map fst (level (i_dims t') 2)) -> exists z, facet z s /\ ~ In z (map fst (level (i_dims t') 1))) /\
       (forall z, In z (map fst (level (i_dims t) 1)) -> ~ In z (map fst (level (i_dims t') 1)) ->
          exists s, facet z s /\ In s (map fst (level (i_dims t) 2)) /\ ~ In s (map fst (level (i_dims t') 2)))).
Proof.
  intros Lg E. set (n := S (length (level (i_dims t) 2))). destruct (reach_shape eps md dm nc0 srt ops t Lg E) as (Sh & So & Le).
  destruct (reduce_spec eps md dm nc0 srt ops t n Lg E) as (rem & freed & R & Hlen & Hfr & H1 & H2); [unfold n; lia|]. cbn zeta in R.
  assert (Mi : forall k s, In s (map fst (level (minus_all rem (i_dims t)) k)) <-> In s (map fst (level (i_dims t) k)) /\ ~ In s rem).
  { intros k s. rewrite minus_all_level. unfold minus. rewrite !in_map_iff. split.
    - intros (c & <- & Hc). apply filter_In in Hc as [Hc N]. apply negb_true_iff, among_false in N. split; [now exists c|exact N].
    - intros ((c & <- & Hc) & N). exists c. split; [reflexivity|]. apply filter_In. split; [exact Hc|]. now apply negb_true_iff, among_false. }
  assert (Dec : forall s, In s rem \/ ~ In s rem) by (intros s; destruct (in_dec nlist_dec s rem); auto).
  exists (with_dims t (minus_all rem (i_dims t)) (i_count t - size (i_dims t) + size (minus_all rem (i_dims t)))), freed. cbn [with_dims i_dm i_roots i_dims i_counts i_count i_next i_sorted i_graph].
  split; [|split; [repeat split|split; [unfold minus_all; now rewrite map_length|split; [unfold size; lia|split; [|split; [|split; [|split]]]]]]].
  - intros fuel Hf. apply (reduce_more md n); [unfold n; lia|exact R].
  - exists (fun c => negb (among (fst c) rem)). intros k. apply minus_all_level.
  - rewrite minus_all_level. apply minus_absent. intros r Hr H. apply in_map_iff in H as (c & <- & Hc). apply (sh_length _ Sh) in Hc. destruct (Hlen _ Hr); lia.
  - intros z. rewrite Hfr, Mi. split.
    + intros (_ & A & B). split; [exact B|]. tauto.
    + intros [A B]. destruct (Dec z) as [D|D]; [|tauto]. split; [|auto]. apply in_map_iff in A as (c & <- & Hc). now apply (sh_length _ Sh) in Hc.
  - intros Hm. rewrite (H1 Hm) in *. rewrite minus_all_nil. split; [destruct t; unfold with_dims; cbn; f_equal; lia|]. destruct freed as [|z l]; [reflexivity|]. destruct (proj1 (Hfr z) (or_introl eq_refl)) as (_ & [] & _).
  - intros Hm. destruct (H2 Hm) as (A & B & C). split; [|split].
    + intros s z Hs F U. rewrite Mi. intros [_ N]. apply N, (A s Hs). exists z. split; [exact F|]. intros s' Hs' Ne I. apply Ne. now apply U.
    + intros s Hs N. rewrite Mi in N. destruct (Dec s) as [D|D]; [|tauto]. assert (L3 : length s = 3) by (apply in_map_iff in Hs as (c & <- & Hc); now apply (sh_length _ Sh) in Hc).
      destruct (B s D L3) as (_ & z & F & Hz). exists z. split; [exact F|]. rewrite Mi. tauto.
    + intros z Hz N. rewrite Mi in N. destruct (Dec z) as [D|D]; [|tauto]. assert (L2 : length z = 2) by (apply in_map_iff in Hz as (c & <- & Hc); now apply (sh_length _ Sh) in Hc).
      destruct (C z D L2) as (s & F & Hs). exists s. split; [exact F|]. assert (L3 : length s = 3) by (destruct F as (_ & _ & F); lia). destruct (B s Hs L3) as (Hs' & _). split; [exact Hs'|]. rewrite Mi. tauto.
Qed.
