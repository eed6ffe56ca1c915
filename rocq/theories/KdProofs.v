(* KdProofs.v -- lemmas about the kd-tree (C26, C27). *)
From Coq Require Import List Arith ZArith Bool Lia Sorted Permutation.
From Verif Require Import Base KdModel SpecKd.
Import ListNotations.

Fixpoint elems (t : kd) : list pointIndex :=
  match t with KNil => [] | KNode x i l r => (x, i) :: elems l ++ elems r end.
Fixpoint ordered (k level : nat) (t : kd) : Prop :=
  match t with
  | KNil => True
  | KNode x i l r =>
      length x = k /\
      (forall q, In q (elems l) -> (coordinate (fst q) level <= coordinate x level)%Z) /\
      (forall q, In q (elems r) -> (coordinate x level <= coordinate (fst q) level)%Z) /\
      ordered k ((level + 1) mod k) l /\ ordered k ((level + 1) mod k) r
  end.
Definition alldim (k : nat) (l : list pointIndex) : Prop := forall q, In q l -> length (fst q) = k.

Lemma split_at {A} (l : list A) m x : nth_error l m = Some x -> l = firstn m l ++ x :: skipn (m + 1) l.
Proof.
  revert m. induction l as [|y l IH]; intros [|m] H; try discriminate; cbn in *; [now injection H as ->|]. f_equal. now apply IH.
Qed.
Lemma sorted_split {A} (R : A -> A -> Prop) a x b : StronglySorted R (a ++ x :: b) -> (forall y, In y a -> R y x) /\ (forall y, In y b -> R x y).
Proof.
  induction a as [|z a IH]; cbn; intros H; inversion H; subst.
  - rewrite Forall_forall in H3. split; [intros y []|auto].
  - destruct (IH H2) as [P Q]. rewrite Forall_forall in H3. split; auto. intros y [<-|Hy]; auto. apply H3, in_app_iff. right. now left.
Qed.

Section Tree.
  Variable srt : nat -> list pointIndex -> list pointIndex.
  Hypothesis Srt : level_sort srt.
  Variable k : nat.
  Hypothesis Kpos : 0 < k.

  Lemma makeTree_spec : forall fuel l level, length l <= fuel -> alldim k l ->
    Permutation (elems (makeTree srt fuel l level)) l /\ ordered k level (makeTree srt fuel l level).
  Proof.
    induction fuel as [|fuel IH]; intros l level L D; [destruct l; [split; [apply perm_nil|exact I]|cbn in L; lia]|].
    destruct l as [|f l0]; [split; [apply perm_nil|exact I]|]. cbn [makeTree]. set (l := f :: l0) in *.
    assert (Df : length (fst f) = k) by (apply D; now left). rewrite Df. set (n := length l). assert (Hn : 1 <= n) by (unfold n, l; cbn; lia).
    set (a := if 1 <? n then srt level l else l).
    assert (Pa : Permutation l a) by (unfold a; destruct (1 <? n); [apply Srt|apply Permutation_refl]).
    assert (La : length a = n) by now rewrite <- (Permutation_length Pa). assert (Hm : n / 2 < n) by (apply Nat.div_lt; lia).
    destruct (nth_error a (n / 2)) as [[x i]|] eqn:Em; [|apply nth_error_None in Em; lia].
    assert (Ea := split_at a (n / 2) (x, i) Em). set (lo := firstn (n / 2) a) in *. set (hi := skipn (n / 2 + 1) a) in *.
    assert (Llo : length lo = n / 2) by (unfold lo; rewrite firstn_length; lia).
    assert (Lhi : length hi = n - n / 2 - 1) by (unfold hi; rewrite skipn_length; lia).
    assert (Da : alldim k a) by (intros q Hq; apply D; eapply Permutation_in; [apply Permutation_sym, Pa|exact Hq]).
    assert (Dlo : alldim k lo) by (intros q Hq; apply Da; rewrite Ea; apply in_app_iff; now left).
    assert (Dhi : alldim k hi) by (intros q Hq; apply Da; rewrite Ea; apply in_app_iff; right; now right).
    assert (Ord : (forall y, In y lo -> coordinate (fst y) level <= coordinate x level)%Z /\ (forall y, In y hi -> coordinate x level <= coordinate (fst y) level)%Z).
    { destruct (Nat.ltb_spec 1 n) as [L1|L1].
      - destruct (Srt level l) as [_ Ss]. change (srt level l) with a in Ss. rewrite Ea in Ss. exact (sorted_split _ lo (x, i) hi Ss).
      - assert (n = 1) by lia. assert (Zl : length lo = 0) by now rewrite Llo, H. assert (Zh : length hi = 0) by now rewrite Lhi, H. apply length_zero_iff_nil in Zl, Zh. rewrite Zl, Zh. split; intros y []. }
    replace (0 <? k) with true by (symmetry; apply Nat.ltb_lt; lia). rewrite !andb_true_r. unfold l in L. cbn [length] in L.
    assert (Hl : forall sub c, length sub <= fuel -> alldim k sub -> (c = false -> sub = []) ->
      let t := if c then makeTree srt fuel sub ((level + 1) mod k) else KNil in Permutation (elems t) sub /\ ordered k ((level + 1) mod k) t).
    { intros sub c Ls Ds Hc. destruct c; [now apply IH|]. rewrite (Hc eq_refl). split; [apply perm_nil|exact I]. }
    assert (Ln : n = S (length l0)) by reflexivity.
    destruct (Hl lo (0 <? n / 2)) as [Pl Ol]; [lia|auto|intros E; apply Nat.ltb_ge in E; apply length_zero_iff_nil; lia|].
    destruct (Hl hi (0 <? n - n / 2 - 1)) as [Pr Or]; [lia|auto|intros E; apply Nat.ltb_ge in E; apply length_zero_iff_nil; lia|].
    cbn [elems ordered]. split.
    - apply Permutation_trans with (lo ++ (x, i) :: hi); [|apply Permutation_sym; eapply Permutation_trans; [exact Pa|]; rewrite Ea at 1; apply Permutation_refl].
      apply Permutation_trans with ((x, i) :: lo ++ hi); [apply perm_skip, Permutation_app; auto|apply Permutation_middle].
    - split; [apply (Da (x, i)); rewrite Ea; apply in_app_iff; right; now left|]. destruct Ord as [O1 O2].
      split; [intros q Hq; apply O1; eapply Permutation_in; eauto|]. split; [intros q Hq; apply O2; eapply Permutation_in; eauto|]. split; auto.
  Qed.
End Tree.

(* the array of the constructor *)
Lemma build_arr (data : list point) : forall n, n <= length data ->
  foldr_ub (fun arr i => do x <- at_ data i; Ok (arr ++ [(x, i)])) [] (seq 0 n) = Ok (combine (firstn n data) (seq 0 n)).
Proof.
  assert (G : forall m s acc, s + m <= length data ->
    foldr_ub (fun arr i => do x <- at_ data i; Ok (arr ++ [(x, i)])) acc (seq s m) = Ok (acc ++ combine (firstn m (skipn s data)) (seq s m))).
  { induction m as [|m IH]; intros s acc L; cbn [seq foldr_ub]; [cbn; now rewrite app_nil_r|].
    unfold at_ at 1. destruct (nth_error data s) as [x|] eqn:E; [|apply nth_error_None in E; lia]. cbn [bind]. rewrite IH by lia. rewrite <- app_assoc.
    f_equal. f_equal. assert (K : skipn s data = x :: skipn (S s) data).
    { clear -E. revert s E. induction data as [|y d IH]; intros [|s] E; try discriminate; cbn in *; [now injection E as ->|now apply IH]. }
    rewrite K. reflexivity. }
  intros n L. apply (G n 0 []). lia.
Qed.
Lemma build_out (data : list point) n : length data < n ->
  foldr_ub (fun arr i => do x <- at_ data i; Ok (arr ++ [(x, i)])) [] (seq 0 n) = UB.
Proof.
  intros L. replace n with (length data + (S (n - length data - 1))) by lia. rewrite seq_app.
  assert (A : forall {A S} (f : S -> A -> res S) a b s, foldr_ub f s (a ++ b) = do x <- foldr_ub f s a; foldr_ub f x b).
  { intros A S f a b. induction a as [|x a IH]; intros s; cbn; auto. destruct (f s x); cbn; auto. }
  rewrite A, build_arr by lia. cbn [bind seq foldr_ub Nat.add]. unfold at_ at 1. now rewrite (proj2 (nth_error_None data (length data))) by lia.
Qed.
Lemma In_combine_seq {A} (l : list A) x i n : n = length l -> (In (x, i) (combine l (seq 0 n)) <-> nth_error l i = Some x).
Proof.
  intros ->. assert (G : forall l s, In (x, i) (combine l (seq s (length l))) <-> s <= i /\ nth_error l (i - s) = Some x).
  { induction l0 as [|y l0 IH]; intros s; cbn [length seq combine In].
    - split; [tauto|intros [_ H]; destruct (i - s); discriminate].
    - rewrite IH. split.
      + intros [E|[H1 H2]]; [injection E as -> ->; rewrite Nat.sub_diag; auto|]. split; [lia|]. replace (i - s) with (S (i - S s)) by lia. exact H2.
      + intros [H1 H2]. destruct (Nat.eq_dec i s) as [->|N]; [rewrite Nat.sub_diag in H2; injection H2 as ->; now left|].
        right. split; [lia|]. replace (i - s) with (S (i - S s)) in H2 by lia. exact H2. }
  rewrite G, Nat.sub_0_r. intuition lia.
Qed.
Lemma combine_snd {A} (l : list A) n : n = length l -> map snd (combine l (seq 0 n)) = seq 0 n.
Proof. intros ->. generalize 0. induction l as [|x l IH]; intros s; cbn; auto. now rewrite IH. Qed.

Lemma nth_error_firstn_lt {A} (l : list A) : forall n i, i < n -> nth_error (firstn n l) i = nth_error l i.
Proof. induction l as [|x l IH]; intros n i H; [now rewrite firstn_nil|]. destruct n; [lia|]. destruct i; cbn; auto. apply IH. lia. Qed.
Lemma kd_build_spec srt k data size : level_sort srt -> uniform k data -> size <= length data ->
  exists t, kd_build srt data size = Ok t /\ ordered k 0 t /\ NoDup (map snd (elems t)) /\
    (let n := if size =? 0 then length data else size in
     0 < n /\ (forall x i, In (x, i) (elems t) <-> i < n /\ nth_error data i = Some x)).
Proof.
  intros Srt (Kp & Ne & D) L. unfold kd_build. set (n := if size =? 0 then length data else size).
  assert (Ln : n <= length data) by (unfold n; destruct (Nat.eqb_spec size 0); lia).
  assert (Hn : 0 < n). { unfold n. destruct (Nat.eqb_spec size 0); [|lia]. destruct data; [easy|cbn; lia]. }
  rewrite build_arr by auto. cbn [bind]. set (arr := combine (firstn n data) (seq 0 n)). eexists. split; [reflexivity|].
  assert (Lf : n = length (firstn n data)) by (rewrite firstn_length; lia).
  assert (Da : alldim k arr). { intros [x i] Hq. apply In_combine_seq in Hq; auto. apply D. apply nth_error_In in Hq. rewrite <- (firstn_skipn n data). apply in_app_iff. now left. }
  destruct (makeTree_spec srt Srt k Kp (length arr) arr 0 (Nat.le_refl _) Da) as [P O]. split; [exact O|]. split.
  - eapply Permutation_NoDup; [apply Permutation_map, Permutation_sym, P|]. unfold arr. rewrite combine_snd by auto. apply seq_NoDup.
  - cbn zeta. split; [exact Hn|]. intros x i. split.
    + intros H. apply (Permutation_in _ P) in H. apply In_combine_seq in H; auto. assert (i < n) by (rewrite Lf; apply nth_error_Some; congruence).
      split; auto. rewrite <- H. symmetry. now apply nth_error_firstn_lt.
    + intros [Hi Hx]. eapply Permutation_in; [apply Permutation_sym, P|]. apply In_combine_seq; auto. rewrite <- Hx. now apply nth_error_firstn_lt.
Qed.

Lemma NoDup_app_inv {A} (a b : list A) : NoDup (a ++ b) -> NoDup a /\ NoDup b /\ forall z, In z a -> ~ In z b.
Proof.
  induction a as [|y a IH]; cbn; intros H; [split; [constructor|split; [exact H|intros z []]]|].
  inversion H; subst. destruct (IH H3) as (P & Q & R). rewrite in_app_iff in H2. split; [constructor; auto|]. split; [exact Q|]. intros z [<-|Hz]; auto.
Qed.
(* The same for coordinates of a domain, and for the bounds that are good: a coordinate difference of at least such a
   bound makes the distance at least the bound. *)
Definition sound_on (dom good : Z -> Prop) (dist : point -> point -> Z) (diff : Z -> Z -> Z) (mag : Z -> Z) : Prop :=
  (forall a b c, dom a -> dom b -> dom c -> (a <= b)%Z -> (diff a c <= diff b c)%Z) /\
  (forall a, (mag a <= Z.abs a)%Z) /\
  (forall x y i b, Forall dom x -> Forall dom y -> good b -> length x = length y -> i < length x ->
     (b <= Z.abs (diff (coordinate x i) (coordinate y i)))%Z -> (b <= dist x y)%Z).
Lemma sound_everywhere dist diff mag : sound_numbers dist diff mag -> sound_on (fun _ => True) (fun _ => True) dist diff mag.
Proof. intros (A & B & C). split; [auto|]. split; [auto|]. intros x y i b _ _ _ L Li H. eapply Z.le_trans; [exact H|now apply C]. Qed.
Lemma all_true {A} (l : list A) : Forall (fun _ => True) l.
Proof. apply Forall_forall. intros; exact I. Qed.
Section Search.
  Variable dom good : Z -> Prop.
  Variable dist : point -> point -> Z.
  Variable diff : Z -> Z -> Z.
  Variable mag : Z -> Z.
  Hypothesis Num : sound_on dom good dist diff mag.
  Variable k : nat.
  Hypothesis Kpos : 0 < k.
  Variable pt : point.
  Hypothesis Lpt : length pt = k.
  Hypothesis Dpt : Forall dom pt.
  Definition alldom (t : kd) : Prop := forall q, In q (elems t) -> Forall dom (fst q).

  Lemma at_coord x level : level < length x -> at_ x level = Ok (coordinate x level).
  Proof. intros L. unfold at_, coordinate. now rewrite (nth_error_nth' x 0%Z L). Qed.
  Lemma ordered_dim t : forall level, ordered k level t -> alldim k (elems t).
  Proof.
    induction t as [|x i l IHl r IHr]; intros level H q Hq; [destruct Hq|]. cbn [ordered elems In] in *. destruct H as (Lx & _ & _ & Hl & Hr).
    destruct Hq as [<-|Hq]; [exact Lx|]. apply in_app_iff in Hq as [Hq|Hq]; [eapply IHl|eapply IHr]; eauto.
  Qed.
  Lemma dom_coord x level : Forall dom x -> level < length x -> dom (coordinate x level).
  Proof. intros F L. rewrite Forall_forall in F. apply F. now apply nth_In. Qed.
  Lemma dom_node x i l r : alldom (KNode x i l r) -> Forall dom x /\ alldom l /\ alldom r.
  Proof. intros D. split; [exact (D (x, i) (or_introl eq_refl))|]. split; intros q Hq; apply D; cbn [elems In]; right; apply in_app_iff; auto. Qed.
  Lemma pruned x q level b : level < k -> length x = k -> length q = k -> Forall dom x -> Forall dom q -> good b ->
    ((0 < diff (coordinate x level) (coordinate pt level))%Z -> (coordinate x level <= coordinate q level)%Z) ->
    (~ (0 < diff (coordinate x level) (coordinate pt level))%Z -> (coordinate q level <= coordinate x level)%Z) ->
    (b <= mag (diff (coordinate x level) (coordinate pt level)))%Z -> (b <= dist q pt)%Z.
  Proof.
    destruct Num as (Mono & Mag & Dom). intros Lv Lx Lq Fx Fq G H1 H2 Hb. apply (Dom q pt level b); auto; [lia|lia|].
    assert (Dx := dom_coord x level Fx ltac:(lia)). assert (Dq := dom_coord q level Fq ltac:(lia)). assert (Dp := dom_coord pt level Dpt ltac:(lia)). assert (M := Mag (diff (coordinate x level) (coordinate pt level))).
    destruct (Z_lt_dec 0 (diff (coordinate x level) (coordinate pt level))) as [E|E].
    - assert (Q := Mono _ _ (coordinate pt level) Dx Dq Dp (H1 E)). lia.
    - assert (Q := Mono _ _ (coordinate pt level) Dq Dx Dp (H2 E)). lia.
  Qed.

  Definition better (t : kd) (best : option pointIndex) (bestDist : Z) (r : option pointIndex) : Prop :=
    exists y j, r = Some (y, j) /\ (In (y, j) (elems t) \/ best = Some (y, j)) /\ (dist y pt <= bestDist)%Z /\
      forall q, In q (elems t) -> (dist y pt <= dist (fst q) pt)%Z.
  Lemma findNearest_spec : (forall y, length y = k -> Forall dom y -> good (dist y pt)) -> forall t level best bestDist, ordered k level t -> level < k -> alldom t ->
    (exists y j, best = Some (y, j) /\ bestDist = dist y pt /\ length y = k /\ Forall dom y) ->
    (t = KNil /\ findNearest dist diff mag t pt level best bestDist = Ok None) \/
    exists r, findNearest dist diff mag t pt level best bestDist = Ok r /\ better t best bestDist r.
  Proof.
    intros Gd. induction t as [|x i l IHl r IHr]; intros level best bestDist O Lv Da Hb; [left; split; reflexivity|right].
    cbn [ordered] in O. destruct O as (Lx & Ol & Or & Sl & Sr). destruct x as [|x0 x1]; [cbn in Lx; lia|]. cbn [findNearest]. set (x := x0 :: x1) in *. destruct (dom_node _ _ _ _ Da) as (Fx & Al & Ar).
    assert (Dl := ordered_dim l _ Sl). assert (Dr := ordered_dim r _ Sr).
    rewrite (at_coord x level), (at_coord pt level) by lia. cbn [bind]. rewrite Lx.
    set (dx := diff (coordinate x level) (coordinate pt level)). set (nl := (level + 1) mod k). fold nl in Sl, Sr. assert (Ln : nl < k) by (apply Nat.mod_upper_bound; lia).
    match goal with |- context [if (dist x pt <? bestDist)%Z then ?a else ?b] => destruct (if (dist x pt <? bestDist)%Z then a else b) as [b1 d1] eqn:E1 end.
    assert (B1 : exists y j, b1 = Some (y, j) /\ d1 = dist y pt /\ (length y = k /\ Forall dom y) /\ ((y, j) = (x, i) \/ best = Some (y, j)) /\ (d1 <= bestDist)%Z /\ (d1 <= dist x pt)%Z).
    { destruct Hb as (y & j & -> & -> & Ly & Fy). destruct (Z.ltb_spec (dist x pt) (dist y pt)); injection E1 as <- <-;
        [exists x, i; repeat split; auto; lia|exists y, j; repeat split; auto; lia]. }
    clear E1. set (sec := if (0 <? dx)%Z then l else r). set (oth := if (0 <? dx)%Z then r else l).
    assert (Es : (if (0 <? dx)%Z then findNearest dist diff mag l pt nl b1 d1 else findNearest dist diff mag r pt nl b1 d1) = findNearest dist diff mag sec pt nl b1 d1)
      by (unfold sec; destruct (0 <? dx)%Z; reflexivity).
    rewrite Es. clear Es.
    assert (Hs : (sec = KNil /\ findNearest dist diff mag sec pt nl b1 d1 = Ok None) \/ exists r, findNearest dist diff mag sec pt nl b1 d1 = Ok r /\ better sec b1 d1 r).
    { destruct B1 as (y & j & Eb & Ed & [Ly Fy] & _). unfold sec. destruct (0 <? dx)%Z; [apply IHl|apply IHr]; auto; exists y, j; auto. }
    assert (X2 : exists further, findNearest dist diff mag sec pt nl b1 d1 = Ok further /\
       let '(b2, d2) := match further with Some (y, k) => if (dist y pt <? d1)%Z then (further, dist y pt) else (b1, d1) | None => (b1, d1) end in
       exists y j, b2 = Some (y, j) /\ d2 = dist y pt /\ (length y = k /\ Forall dom y) /\ ((y, j) = (x, i) \/ In (y, j) (elems sec) \/ best = Some (y, j)) /\ (d2 <= bestDist)%Z /\ (d2 <= dist x pt)%Z /\
         forall q, In q (elems sec) -> (d2 <= dist (fst q) pt)%Z).
    { destruct B1 as (y & j & Eb & Ed & LF & Hy & L1 & L2). destruct Hs as [[E F]|(f & F & (z & m & -> & Hz & Lz & Mz))].
      - exists None. split; [exact F|]. exists y, j. rewrite E. split; [exact Eb|]. split; [exact Ed|]. split; [exact LF|]. split; [tauto|]. repeat split; auto. intros q [].
      - exists (Some (z, m)). split; [exact F|]. destruct (Z.ltb_spec (dist z pt) d1).
        + exists z, m. split; [reflexivity|]. split; [reflexivity|].
          assert (Iz : In (z, m) (elems sec)) by (destruct Hz as [Hz|Hz]; [exact Hz|rewrite Eb in Hz; injection Hz as -> ->; lia]).
          split; [unfold sec in Iz; destruct (0 <? dx)%Z; (split; [apply (Dl (z, m) Iz) || apply (Dr (z, m) Iz)|apply (Al (z, m) Iz) || apply (Ar (z, m) Iz)])|].
          split; [tauto|]. repeat split; auto; lia.
        + exists y, j. split; [exact Eb|]. split; [exact Ed|]. split; [exact LF|]. split; [tauto|]. repeat split; auto. intros q Hq. specialize (Mz q Hq). lia. }
    destruct X2 as (further & -> & X2). cbn [bind]. clear Hs B1.
    destruct (match further with Some (y, k) => if (dist y pt <? d1)%Z then (further, dist y pt) else (b1, d1) | None => (b1, d1) end) as [b2 d2].
    destruct X2 as (y & j & -> & Ed & [Ly Fy] & Hy & L1 & L2 & Ms).
    assert (InS : forall q, In q (elems (KNode x i l r)) <-> q = (x, i) \/ In q (elems sec) \/ In q (elems oth)).
    { intros q. cbn [elems In]. rewrite in_app_iff. unfold sec, oth. destruct (0 <? dx)%Z; intuition. }
    destruct (Z.ltb_spec (mag dx) d2) as [Lm|Lm].
    - assert (Es : (if (0 <? dx)%Z then findNearest dist diff mag r pt nl (Some (y, j)) d2 else findNearest dist diff mag l pt nl (Some (y, j)) d2) = findNearest dist diff mag oth pt nl (Some (y, j)) d2)
        by (unfold oth; destruct (0 <? dx)%Z; reflexivity).
      rewrite Es. clear Es.
      assert (Ho : (oth = KNil /\ findNearest dist diff mag oth pt nl (Some (y, j)) d2 = Ok None) \/ exists r, findNearest dist diff mag oth pt nl (Some (y, j)) d2 = Ok r /\ better oth (Some (y, j)) d2 r).
      { unfold oth. destruct (0 <? dx)%Z; [apply IHr|apply IHl]; auto; exists y, j; auto. }
      destruct Ho as [[Eo ->]|(f & -> & (z & m & -> & Hz & Lz & Mz))]; cbn [bind].
      + eexists. split; [reflexivity|]. exists y, j. split; [reflexivity|]. rewrite InS. split; [tauto|]. split; [lia|].
        intros q Hq. apply InS in Hq as [->|[Hq|Hq]]; [cbn; lia|specialize (Ms q Hq); lia|rewrite Eo in Hq; destruct Hq].
      + eexists. split; [reflexivity|]. destruct (Z.ltb_spec (dist z pt) d2).
        * exists z, m. split; [reflexivity|]. rewrite InS. split; [destruct Hz as [Hz|Hz]; [tauto|injection Hz as -> ->; tauto]|]. split; [lia|].
          intros q Hq. apply InS in Hq as [->|[Hq|Hq]]; [cbn; lia|specialize (Ms q Hq); lia|auto].
        * exists y, j. split; [reflexivity|]. rewrite InS. split; [tauto|]. split; [lia|].
          intros q Hq. apply InS in Hq as [->|[Hq|Hq]]; [cbn; lia|specialize (Ms q Hq); lia|specialize (Mz q Hq); lia].
    - eexists. split; [reflexivity|]. exists y, j. split; [reflexivity|]. rewrite InS. split; [tauto|]. split; [lia|].
      intros q Hq. apply InS in Hq as [->|[Hq|Hq]]; [cbn; lia|specialize (Ms q Hq); lia|].
      rewrite <- Ed. apply (pruned x (fst q) level d2); auto.
      + unfold oth in Hq. destruct (0 <? dx)%Z; [now apply Dr|now apply Dl].
      + unfold oth in Hq. destruct (0 <? dx)%Z; [now apply Ar|now apply Al].
      + rewrite Ed. now apply Gd.
      + fold dx. intros P. unfold oth in Hq. rewrite (proj2 (Z.ltb_lt 0 dx) P) in Hq. now apply Or.
      + fold dx. intros P. unfold oth in Hq. rewrite (proj2 (Z.ltb_nlt 0 dx) P) in Hq. now apply Ol.
  Qed.

  Lemma neighborhood_spec rad : good rad -> forall t level, ordered k level t -> level < k -> alldom t -> NoDup (map snd (elems t)) ->
    exists l, neighborhood dist diff mag t pt rad level = Ok l /\ NoDup (map snd l) /\
      (forall q, In q l -> In q (elems t) /\ (dist (fst q) pt <= rad)%Z) /\
      (forall q, In q (elems t) -> (dist (fst q) pt < rad)%Z -> In q l).
  Proof.
    intros Gr. induction t as [|x i l IHl r IHr]; intros level O Lv Da N.
    { exists []. split; [reflexivity|]. split; [constructor|]. split; intros q []. }
    cbn [ordered] in O. destruct O as (Lx & Ol & Or & Sl & Sr). destruct x as [|x0 x1]; [cbn in Lx; lia|]. cbn [neighborhood]. set (x := x0 :: x1) in *. destruct (dom_node _ _ _ _ Da) as (Fx & Al & Ar).
    assert (Dl := ordered_dim l _ Sl). assert (Dr := ordered_dim r _ Sr).
    rewrite (at_coord x level), (at_coord pt level) by lia. cbn [bind]. rewrite Lpt.
    set (dx := diff (coordinate x level) (coordinate pt level)). set (nl := (level + 1) mod k). fold nl in Sl, Sr. assert (Ln : nl < k) by (apply Nat.mod_upper_bound; lia).
    cbn [elems map] in N. apply NoDup_cons_iff in N as [Ni Nr]. cbn [snd] in Ni. rewrite map_app in Ni, Nr. rewrite in_app_iff in Ni.
    assert (NN : NoDup (map snd (elems l)) /\ NoDup (map snd (elems r)) /\ forall a, In a (map snd (elems l)) -> ~ In a (map snd (elems r))).
    { exact (NoDup_app_inv _ _ Nr). }
    destruct NN as (Nl & Nrr & Dis). destruct (IHl nl Sl Ln Al Nl) as (rl & El & NDl & Il & Cl). destruct (IHr nl Sr Ln Ar Nrr) as (rr & Er & NDr & Ir & Cr).
    rewrite El, Er. set (here := if (dist x pt <=? rad)%Z then [(x, i)] else []).
    assert (Hh : forall q, In q here <-> q = (x, i) /\ (dist x pt <= rad)%Z).
    { intros q. unfold here. destruct (Z.leb_spec (dist x pt) rad); cbn; split; try tauto; [intros [<-|[]]; auto|intros [-> _]; auto|intros [_ K]; lia]. }
    assert (Hs : forall rr' : list pointIndex, (forall q, In q rr' -> In q (elems r)) -> forall rl' : list pointIndex, (forall q, In q rl' -> In q (elems l)) ->
       NoDup (map snd rl') -> NoDup (map snd rr') -> NoDup (map snd (here ++ rl' ++ rr')) /\ NoDup (map snd (here ++ rr' ++ rl'))).
    { intros b Hb a Ha Na Nb. assert (D1 : forall z, In z (map snd a) -> ~ In z (map snd b)).
      { intros z Hz Hz'. apply in_map_iff in Hz as (q & <- & Hq). apply in_map_iff in Hz' as (q' & E & Hq'). eapply Dis; [apply in_map, Ha, Hq|]. rewrite <- E. apply in_map, Hb, Hq'. }
      assert (J : forall {A} (u v : list A), NoDup u -> NoDup v -> (forall z, In z u -> ~ In z v) -> NoDup (u ++ v)).
      { intros A u v. induction u as [|y u IH]; cbn; auto. intros N1 N2 D. inversion N1; subst. constructor; [rewrite in_app_iff; intros [|]; [auto|eapply D; eauto]|apply IH; auto]. }
      assert (Nh : NoDup (map snd here)) by (unfold here; destruct (dist x pt <=? rad)%Z; cbn; repeat constructor; auto).
      assert (Hi : forall z, In z (map snd here) -> z = i) by (intros z Hz; apply in_map_iff in Hz as (q & <- & Hq); apply Hh in Hq as [-> _]; reflexivity).
      rewrite !map_app. split; (apply J; [auto|apply J; auto|intros z Hz Hz'; apply Hi in Hz; subst z; apply in_app_iff in Hz']).
      - destruct Hz' as [Hz'|Hz']; apply in_map_iff in Hz' as (q & E & Hq); apply Ni; [left|right]; rewrite <- E; apply in_map; auto.
      - intros z Hz Hz'. eapply D1; eauto.
      - destruct Hz' as [Hz'|Hz']; apply in_map_iff in Hz' as (q & E & Hq); apply Ni; [right|left]; rewrite <- E; apply in_map; auto. }
    assert (Out : forall q, In q (elems (if (0 <? dx)%Z then r else l)) -> ~ (mag dx < rad)%Z -> ~ (dist (fst q) pt < rad)%Z).
    { intros q Hq M K. assert (B : (rad <= dist (fst q) pt)%Z); [|lia]. apply (pruned x (fst q) level rad); auto.
      - destruct (0 <? dx)%Z; [now apply Dr|now apply Dl].
      - destruct (0 <? dx)%Z; [now apply Ar|now apply Al].
      - fold dx. intros P. rewrite (proj2 (Z.ltb_lt 0 dx) P) in Hq. now apply Or.
      - fold dx. intros P. rewrite (proj2 (Z.ltb_nlt 0 dx) P) in Hq. now apply Ol.
      - fold dx. lia. }
    destruct (Z.ltb_spec (mag dx) rad) as [Lm|Lm].
    - destruct (Hs rr (fun q H => proj1 (Ir q H)) rl (fun q H => proj1 (Il q H)) NDl NDr) as [N1 N2].
      assert (G : forall res, (forall q, In q res <-> In q here \/ In q rl \/ In q rr) ->
        (forall q, In q res -> In q (elems (KNode x i l r)) /\ (dist (fst q) pt <= rad)%Z) /\
        (forall q, In q (elems (KNode x i l r)) -> (dist (fst q) pt < rad)%Z -> In q res)).
      { intros res H. split; intros q Hq.
        - apply H in Hq. cbn [elems In]. rewrite in_app_iff. destruct Hq as [Hq|[Hq|Hq]]; [apply Hh in Hq as [-> K]; auto|apply Il in Hq; tauto|apply Ir in Hq; tauto].
        - intros K. apply H. cbn [elems In] in Hq. rewrite in_app_iff in Hq. destruct Hq as [<-|[Hq|Hq]]; [left; apply Hh; split; auto; cbn in K; lia|right; left; auto|right; right; auto]. }
      destruct (0 <? dx)%Z; cbn [bind]; (eexists; split; [reflexivity|split; [assumption|apply G; intros q; rewrite !in_app_iff; tauto]]).
    - assert (Lm' : ~ (mag dx < rad)%Z) by lia. destruct (Hs [] ltac:(intros q []) rl (fun q H => proj1 (Il q H)) NDl ltac:(constructor)) as [N1 _].
      destruct (Hs rr (fun q H => proj1 (Ir q H)) [] ltac:(intros q []) ltac:(constructor) NDr) as [_ N2]. rewrite app_nil_r in N1, N2.
      destruct (0 <? dx)%Z eqn:Ed; cbn [bind]; (eexists; split; [reflexivity|split; [assumption|split; intros q Hq]]).
      + cbn [elems In]. rewrite in_app_iff. apply in_app_iff in Hq as [Hq|Hq]; [apply Hh in Hq as [-> K]; auto|apply Il in Hq; tauto].
      + intros K. apply in_app_iff. cbn [elems In] in Hq. rewrite in_app_iff in Hq. destruct Hq as [<-|[Hq|Hq]]; [left; apply Hh; split; auto; cbn in K; lia|right; auto|].
        exfalso. exact (Out q Hq Lm' K).
      + cbn [elems In]. rewrite in_app_iff. apply in_app_iff in Hq as [Hq|Hq]; [apply Hh in Hq as [-> K]; auto|apply Ir in Hq; tauto].
      + intros K. apply in_app_iff. cbn [elems In] in Hq. rewrite in_app_iff in Hq. destruct Hq as [<-|[Hq|Hq]]; [left; apply Hh; split; auto; cbn in K; lia| |right; auto].
        exfalso. exact (Out q Hq Lm' K).
  Qed.
End Search.

(* C26 *)
Theorem nearestIndex_on dom good dist diff mag srt k data size pt : sound_on dom good dist diff mag -> level_sort srt -> uniform k data -> length pt = k -> size <= length data ->
  Forall (Forall dom) data -> Forall dom pt -> (forall y, length y = k -> Forall dom y -> good (dist y pt)) ->
  let n := if size =? 0 then length data else size in
  exists t i, kd_build srt data size = Ok t /\ nearestIndex dist diff mag t pt = Ok i /\ i < n /\
    forall j, j < n -> (dist (nth i data []) pt <= dist (nth j data []) pt)%Z.
Proof.
  intros Num Srt U Lp L Fd Fp Gd. cbn zeta. destruct (kd_build_spec srt k data size Srt U L) as (t & E & O & N & Hn & El).
  set (n := if size =? 0 then length data else size) in *. assert (U' := U). destruct U as (Kp & _ & Du). exists t.
  assert (Da : alldom dom t). { intros [z j] Hz. apply El in Hz as [_ Hz]. apply nth_error_In in Hz. rewrite Forall_forall in Fd. now apply Fd. }
  unfold nearestIndex, nearest. destruct t as [|x i l r].
  { exfalso. destruct (nth_error data 0) as [x|] eqn:E0; [apply (El x 0); auto|]. apply nth_error_None in E0. unfold n in Hn. destruct (size =? 0) eqn:Q; [|apply Nat.eqb_neq in Q]; lia. }
  assert (Hx : length x = k /\ Forall dom x) by (split; [apply O|apply (Da (x, i)); now left]).
  destruct (findNearest_spec dom good dist diff mag Num k Kp pt Lp Fp Gd (KNode x i l r) 0 (Some (x, i)) (dist x pt) O Kp Da ltac:(exists x, i; tauto)) as [[? _]|(r0 & F & (y & j & -> & Hy & _ & M))]; [discriminate|].
  rewrite F. cbn [bind]. exists j. assert (Hyj : In (y, j) (elems (KNode x i l r))) by (destruct Hy as [Hy|Hy]; [exact Hy|injection Hy as -> ->; now left]).
  apply El in Hyj as [Lj Hj]. split; [auto|]. split; [reflexivity|]. split; [auto|]. intros q Hq. rewrite (nth_error_nth _ _ _ Hj).
  destruct (nth_error data q) as [z|] eqn:Eq.
  - rewrite (nth_error_nth _ _ _ Eq). apply (M (z, q)). now apply El.
  - apply nth_error_None in Eq. unfold n in Hq. destruct (size =? 0) eqn:Q; [|apply Nat.eqb_neq in Q]; lia.
Qed.
Theorem nearestIndex_spec dist diff mag srt k data size pt : sound_numbers dist diff mag -> level_sort srt -> uniform k data -> length pt = k -> size <= length data ->
  let n := if size =? 0 then length data else size in
  exists t i, kd_build srt data size = Ok t /\ nearestIndex dist diff mag t pt = Ok i /\ i < n /\
    forall j, j < n -> (dist (nth i data []) pt <= dist (nth j data []) pt)%Z.
Proof.
  intros Num Srt U Lp L. apply (nearestIndex_on (fun _ => True) (fun _ => True) dist diff mag srt k); auto using sound_everywhere, all_true.
  apply Forall_forall. intros; apply all_true.
Qed.
(* C27 *)
Theorem neighborhoodIndices_on dom good dist diff mag srt k data size pt rad : sound_on dom good dist diff mag -> level_sort srt -> uniform k data -> length pt = k -> size <= length data ->
  Forall (Forall dom) data -> Forall dom pt -> good rad ->
  let n := if size =? 0 then length data else size in
  exists t l, kd_build srt data size = Ok t /\ neighborhoodIndices dist diff mag t pt rad = Ok l /\ NoDup l /\
    (forall i, In i l -> i < n /\ (dist (nth i data []) pt <= rad)%Z) /\
    (forall i, i < n -> (dist (nth i data []) pt < rad)%Z -> In i l).
Proof.
  intros Num Srt U Lp L Fd Fp Gr. cbn zeta. destruct (kd_build_spec srt k data size Srt U L) as (t & E & O & N & Hn & El).
  set (n := if size =? 0 then length data else size) in *. destruct U as (Kp & _). exists t.
  assert (Da : alldom dom t). { intros [z j] Hz. apply El in Hz as [_ Hz]. apply nth_error_In in Hz. rewrite Forall_forall in Fd. now apply Fd. }
  destruct (neighborhood_spec dom good dist diff mag Num k Kp pt Lp Fp rad Gr t 0 O Kp Da N) as (l & F & Nd & S1 & S2).
  exists (map snd l). split; [auto|]. unfold neighborhoodIndices. rewrite F. split; [reflexivity|]. split; [exact Nd|]. split.
  - intros i Hi. apply in_map_iff in Hi as ([x j] & <- & Hq). apply S1 in Hq as [Hq K]. apply El in Hq as [Hj Hx]. cbn [snd]. split; [exact Hj|]. now rewrite (nth_error_nth _ _ _ Hx).
  - intros i Hi K. destruct (nth_error data i) as [x|] eqn:Ex.
    + rewrite (nth_error_nth _ _ _ Ex) in K. apply in_map_iff. exists (x, i). split; [reflexivity|]. apply S2; [now apply El|exact K].
    + apply nth_error_None in Ex. unfold n in Hi. destruct (size =? 0) eqn:Q; [|apply Nat.eqb_neq in Q]; lia.
Qed.
Theorem neighborhoodIndices_spec dist diff mag srt k data size pt rad : sound_numbers dist diff mag -> level_sort srt -> uniform k data -> length pt = k -> size <= length data ->
  let n := if size =? 0 then length data else size in
  exists t l, kd_build srt data size = Ok t /\ neighborhoodIndices dist diff mag t pt rad = Ok l /\ NoDup l /\
    (forall i, In i l -> i < n /\ (dist (nth i data []) pt <= rad)%Z) /\
    (forall i, i < n -> (dist (nth i data []) pt < rad)%Z -> In i l).
Proof.
  intros Num Srt U Lp L. apply (neighborhoodIndices_on (fun _ => True) (fun _ => True) dist diff mag srt k); auto using sound_everywhere, all_true.
  apply Forall_forall. intros; apply all_true.
Qed.
