(* TwistRuns.v -- the reductions of optPersistencePairs on an indexed simplex tree. *)
From Coq Require Import List Arith ZArith Bool Lia Sorted Permutation.
From Verif Require Import Base Spec RunMonad UtilsModel UtilsProofs ArrayListModel ArrayListProofs SpecComplex SpecLinear LinearProofs SpecFast ReductionProofs
  FastProofs GaussModel SpecGauss GaussProofs GaussRuns IndModel SpecInd IndHist TwistModel TwistProofs SpecTwist.
Import ListNotations.
Local Open Scope nat_scope.

(* ---- columns that are one of two sets *)
Definition tiny (c : list nat) : Prop := c = [] \/ c = [0; 1] \/ c = [1].
Lemma span_closed (P : vec -> Prop) cs : (forall x y, veq x y -> P x -> P y) -> P vzero -> (forall x y, P x -> P y -> P (vadd x y)) ->
  (forall c, In c cs -> P c) -> forall x, span cs x -> P x.
Proof.
  intros He Hz Ha. induction cs as [|c cs IH]; intros H x Hx; cbn in Hx.
  - apply (He vzero); auto using veq_sym.
  - assert (IH' := IH (fun y Hy => H y (or_intror Hy))). destruct Hx as [Hx|Hx]; auto.
    apply (He (vadd (vadd x c) c)); [apply vadd_r|]. apply Ha; auto. apply H. now left.
Qed.
Lemma tiny_fresh M : (forall c, In c M -> tiny c) -> forall j, fresh M j <->
  exists c, nth_error M j = Some c /\ c <> [] /\ forall i, i < j -> nth_error M i <> Some c.
Proof.
  intros T j. destruct (nth_error M j) as [c|] eqn:Ec.
  2:{ split; [intros (x & Hx & _)|intros (x & Hx & _)]; congruence. }
  rewrite (fresh_span M j c Ec). rewrite firstn_map. split.
  - intros N. exists c. split; auto. split.
    + intros ->. apply N. eapply span_ext; [|apply span_zero]. intros i. reflexivity.
    + intros i Hi E. apply N, span_in, in_map. apply nth_error_In with (n := i). rewrite <- E. clear -Hi.
      revert i j Hi. induction M as [|x M IH]; intros [|i] [|j] H; cbn; auto; try lia. apply IH. lia.
  - intros (c' & E & Nc & N) Hs. injection E as <-.
    assert (Q : forall d, In d (firstn j M) -> tiny d /\ d <> c).
    { intros d Hd. split; [apply T; eapply in_firstn; eauto|]. intros ->. apply In_nth_error in Hd as (i & Hi).
      assert (Li : i < j). { assert (K : i < length (firstn j M)) by (apply nth_error_Some; congruence). rewrite firstn_length in K. lia. }
      apply (N i Li). rewrite <- Hi. clear -Li. revert i j Li. induction M as [|x M IH]; intros [|i] [|j] H; cbn; auto; try lia. apply IH. lia. }
    destruct (T c (nth_error_In _ _ Ec)) as [->|[->| ->]]; [easy| |].
    + assert (K : coord [0;1] 0 = false); [|discriminate]. revert Hs. apply span_closed with (P := fun x => x 0 = false).
      * intros x y H1 H2. now rewrite <- H1.
      * reflexivity.
      * intros x y H1 H2. unfold vadd. now rewrite H1, H2.
      * intros v Hv. apply in_map_iff in Hv as (d & <- & Hd). destruct (Q d Hd) as [[->|[->| ->]] Nd]; try easy.
    + assert (K : coord [1] 0 = coord [1] 1); [|discriminate]. revert Hs. apply (span_closed (fun x => x 0 = x 1)).
      * intros x y H1 H2. now rewrite <- !H1.
      * reflexivity.
      * intros x y H1 H2. unfold vadd. now rewrite H1, H2.
      * intros v Hv. apply in_map_iff in Hv as (d & <- & Hd). destruct (Q d Hd) as [[->|[->| ->]] Nd]; try easy.
Qed.

(* the elimination keeps every element in a given set *)
Lemma find_start_in i : forall m b c a, find_start i m = Some (b, c, a) -> m = b ++ c :: a.
Proof.
  induction m as [|x m IH]; intros b c a H; [discriminate|]. cbn [find_start] in H. destruct (starts_with i x).
  - now injection H as <- <- <-.
  - destruct (find_start i m) as [[[b' c'] a']|] eqn:E; [|discriminate]. injection H as <- <- <-. cbn. f_equal. now apply IH.
Qed.
Lemma set_step_small : forall l m Q, (forall s, In s m -> ssorted s /\ forall x, In x s -> x <= 1) -> (forall j v, In (j, v) Q -> ssorted v /\ forall x, In x v -> x <= 1) ->
  forall j v, In (j, v) (snd (fold_left set_step l (m, Q))) -> ssorted v /\ forall x, In x v -> x <= 1.
Proof.
  induction l as [|i l IH]; intros m Q Hm HQ; [exact HQ|]. cbn [fold_left]. rewrite set_step_eq. destruct (find_start i m) as [[[b c] a]|] eqn:E; [|now apply IH].
  apply find_start_in in E. subst m. apply IH.
  - intros s Hs. apply in_app_iff in Hs as [Hs|Hs]; [apply Hm; apply in_app_iff; now left|]. apply in_map_iff in Hs as (s' & <- & Hs).
    destruct (Hm s' ltac:(apply in_app_iff; now right)) as [S1 L1]. destruct (starts_with i s'); auto.
    destruct (Hm c ltac:(apply in_app_iff; right; now left)) as [S2 L2]. destruct (setXOR_spec c s' S2 S1) as [S3 L3]. split; auto.
    intros x Hx. apply L3 in Hx as [[]|[]]; auto.
  - intros j v H. apply in_app_iff in H as [H|[H|[]]]; [now apply (HQ j)|]. injection H as <- <-. apply Hm. apply in_app_iff. right. now left.
Qed.
Lemma small_last v : ssorted v -> (forall x, In x v -> x <= 1) -> last v 0 <> hd 0 v -> v = [0; 1].
Proof.
  intros S L. destruct v as [|a [|b [|c v]]]; cbn; try easy; apply ssorted_cons in S as [S1 S2].
  - intros _. assert (a < b) by (apply S2; now left). assert (b <= 1) by (apply L; cbn; auto). f_equal; [|f_equal]; lia.
  - exfalso. apply ssorted_cons in S1 as [_ S3]. assert (a < b) by (apply S2; now left). assert (b < c) by (apply S3; now left).
    assert (c <= 1) by (apply L; cbn; auto). lia.
Qed.

Lemma add_numbers c js acc : ssorted acc ->
  ssorted (fold_left (fun s a => sinsert (c + a) s) js acc) /\
  forall g, In g (fold_left (fun s a => sinsert (c + a) s) js acc) <-> In g acc \/ exists j, In j js /\ g = c + j.
Proof.
  intros Sa. assert (E : fold_left (fun s a => sinsert (c + a) s) js acc = fold_left (fun s x => sinsert x s) (map (fun a => c + a) js) acc).
  { clear. revert acc. induction js as [|j js IH]; intros acc; cbn; auto. }
  rewrite E. destruct (to_set_acc (map (fun a => c + a) js) acc Sa) as [S1 S2]. split; auto. intros g. rewrite S2, in_map_iff. split.
  - intros [(j & <- & Hj)|Hg]; [right; exists j; auto|now left].
  - intros [Hg|(j & Hj & ->)]; [now right|left; exists j; auto].
Qed.

Section Boundaries.
  Variables (ge : wgraph) (find : list nat -> res bool).
  Hypothesis C : complex ge.
  Hypothesis Hfind : forall k i f w, nth_error (level ge k) i = Some (f, w) -> find f = Ok (negb (i =? 0)).

  Definition ft (k : nat) (s : list nat) : bool := match level ge k with [] => false | (f, _) :: _ => is_face s f end.
  Definition col (k : nat) (s : list nat) : list nat := if ft k s then [0; 1] else [1].
  Lemma ft_touches k s : ft k s = true <-> touches ge (S k) s.
  Proof.
    unfold ft, touches. replace (S k - 1) with k by lia. destruct (level ge k) as [|[f w] l]; cbn [nth_error].
    - split; [discriminate|]. intros (f & w & H & _). discriminate.
    - rewrite is_face_incl. split; [intros I; exists f, w; auto|]. intros (f' & w' & H & I). now injection H as <- <-.
  Qed.

  Lemma getFaces_acc : forall L acc, ssorted acc -> (forall z, In z L -> exists b, find z = Ok b) ->
    exists r, foldr_ub (fun acc z => do b <- find z; Ok (sinsert (Nat.b2n b) acc)) acc L = Ok r /\ ssorted r /\
      forall x, In x r <-> In x acc \/ exists z b, In z L /\ find z = Ok b /\ x = Nat.b2n b.
  Proof.
    induction L as [|z L IH]; intros acc Sa H; cbn [foldr_ub].
    - exists acc. split; [reflexivity|]. split; auto. intros x. split; auto. intros [|(z & b & [] & _)]; auto.
    - destruct (H z (or_introl eq_refl)) as (b & Eb). rewrite Eb. cbn [bind].
      destruct (IH (sinsert (Nat.b2n b) acc)) as (r & Er & Sr & Hr); [now apply sinsert_ssorted|intros; apply H; now right|].
      exists r. split; auto. split; auto. intros x. rewrite Hr, sinsert_In. split.
      + intros [[->|Hx]|(z' & b' & Hz & E & ->)]; auto; right; [exists z, b|exists z', b']; cbn; auto.
      + intros [Hx|(z' & b' & [<-|Hz] & E & ->)]; auto; [|right; exists z', b'; auto].
        left. left. rewrite Eb in E. now injection E as ->.
  Qed.

  Lemma faces_value k s w : In (s, w) (level ge (S k)) -> getFaces find s = Ok (col k s).
  Proof.
    intros Hs. destruct (cx_shape _ C _ _ _ Hs) as [Ss Ls]. destruct (getSubsets_set_facets s Ss) as (Nd & Ln & Hf).
    change (getSubsets_set s) with (getAllSubsets s) in *. set (L := getAllSubsets s) in *.
    assert (P : forall z, In z L -> exists i u, nth_error (level ge k) i = Some (z, u)).
    { intros z Hz. apply Hf in Hz as (Sz & Iz & Lz). assert (K := cx_closed _ C k s w z Hs ltac:(split; [exact Sz|split; [exact Iz|exact Lz]])).
      apply In_nth_error in K as (i & Hi). unfold simplices in Hi. rewrite nth_error_map in Hi. destruct (nth_error (level ge k) i) as [[z' u]|] eqn:E; [|discriminate].
      injection Hi as <-. exists i, u. exact E. }
    destruct (getFaces_acc L []) as (r & Er & Sr & Hr); [constructor|intros z Hz; destruct (P z Hz) as (i & u & Hi); eauto|].
    unfold getFaces. fold L. rewrite Er. f_equal. apply ssorted_ext; auto; [unfold col; destruct (ft k s); repeat constructor|].
    assert (H1 : In 1 r).
    { apply Hr. right. destruct L as [|a [|b L']] eqn:EL; cbn in Ln; try lia.
      destruct (P a) as (ia & ua & Ha); [now left|]. destruct (P b) as (ib & ub & Hb); [right; now left|].
      destruct ia as [|ia].
      - destruct ib as [|ib]; [exfalso; assert (a = b) by congruence; inversion Nd; subst; cbn in *; tauto|].
        exists b, true. split; [right; now left|]. split; auto. now rewrite (Hfind _ _ _ _ Hb).
      - exists a, true. split; [now left|]. split; auto. now rewrite (Hfind _ _ _ _ Ha). }
    assert (H0 : In 0 r <-> ft k s = true).
    { rewrite Hr. split.
      - intros [[]|(z & b & Hz & Eb & Ex)]. destruct (P z Hz) as (i & u & Hi). rewrite (Hfind _ _ _ _ Hi) in Eb. injection Eb as <-.
        destruct i as [|i]; [|discriminate]. unfold ft. destruct (level ge k) as [|[f v] l]; [discriminate|]. injection Hi as -> ->. apply is_face_incl, Hf, Hz.
      - intros H. unfold ft in H. destruct (level ge k) as [|[f v] l] eqn:El; [discriminate|]. right. exists f, false. split; [|split; auto].
        + destruct (cx_shape _ C k f v) as [Sf Lf]; [rewrite El; now left|]. apply Hf. split; [exact Sf|]. split; [now apply is_face_incl|lia].
        + rewrite (Hfind k 0 f v); auto. now rewrite El. }
    assert (Hx : forall x, In x r -> x <= 1). { intros x Hx. apply Hr in Hx as [[]|(z & b & _ & _ & ->)]. destruct b; cbn; lia. }
    intros x. unfold col. destruct (ft k s); cbn [In]; split.
    - intros K. specialize (Hx x K). lia.
    - intros [<-|[<-|[]]]; auto. now apply H0.
    - intros K. assert (K' := Hx x K). destruct x as [|[|x]]; try lia. apply H0 in K. discriminate.
    - intros [<-|[]]; auto.
  Qed.
  Lemma col_tiny k s : tiny (col k s) /\ col k s <> [] /\ ssorted (col k s) /\ forall x, In x (col k s) -> x <= 1.
  Proof.
    unfold col, tiny. destruct (ft k s); (split; [auto|]; split; [easy|]; split; [repeat constructor|]; cbn; lia).
  Qed.
  Lemma col_eq k s s' : col k s = col k s' <-> (touches ge (S k) s <-> touches ge (S k) s').
  Proof.
    rewrite <- !ft_touches. unfold col. destruct (ft k s), (ft k s'); split; intros H; try easy; destruct H as [H1 H2]; exfalso; [specialize (H1 eq_refl)|specialize (H2 eq_refl)]; discriminate.
  Qed.

  Lemma columns_nil k pc : columns [] pc (col k) = map (fun s => col k (fst s)) pc.
  Proof. unfold columns. cbn [existsb]. generalize 0. induction pc as [|x pc IH]; intros i; cbn; auto. now rewrite IH. Qed.
  Lemma filter_small n c : 2 <= n -> (forall x, In x c -> x <= 1) -> filter (fun x => x <? n) c = c.
  Proof.
    intros L. induction c as [|x c IH]; intros H; auto. cbn. rewrite (proj2 (Nat.ltb_lt x n)) by (specialize (H x (or_introl eq_refl)); lia).
    f_equal. apply IH. intros y Hy. apply H. now right.
  Qed.
  Lemma leader_fresh k j : fresh (map (fun s : wsimp => col k (fst s)) (level ge (S k))) j <-> leader ge (S k) j.
  Proof.
    rewrite tiny_fresh by (intros c Hc; apply in_map_iff in Hc as (s & <- & _); apply col_tiny). unfold leader. split.
    - intros (c & Hc & _ & N). rewrite nth_error_map in Hc. destruct (nth_error (level ge (S k)) j) as [[s w]|]; [|discriminate]. injection Hc as <-.
      exists s, w. split; auto. intros i s' w' Hi Hs K. apply (N i Hi). rewrite nth_error_map, Hs. cbn. f_equal. now apply col_eq.
    - intros (s & w & Hs & N). exists (col k s). rewrite nth_error_map, Hs. split; auto. split; [apply col_tiny|].
      intros i Hi K. rewrite nth_error_map in K. destruct (nth_error (level ge (S k)) i) as [[s' w']|] eqn:E; [|discriminate]. injection K as K.
      apply col_eq in K. exact (N i s' w' Hi E K).
  Qed.
  Lemma two_below k s w : In (s, w) (level ge (S k)) -> 2 <= length (level ge k).
  Proof.
    intros Hs. destruct (cx_shape _ C _ _ _ Hs) as [Ss Ls]. destruct (getSubsets_set_facets s Ss) as (Nd & Ln & Hf).
    assert (I : incl (getSubsets_set s) (simplices ge k)). { intros z Hz. apply Hf in Hz as (Sz & Iz & Lz). eapply (cx_closed _ C); eauto. split; [exact Sz|split; [exact Iz|exact Lz]]. }
    apply NoDup_incl_length in I; auto. unfold simplices in I. rewrite map_length in I. lia.
  Qed.

  (* ---- twist *)
  Lemma tw_level k : exists piv, tw_columns (getFaces find) [] (length (level ge k)) (level ge (S k)) = ret (piv, []) /\ forall j, In j piv <-> leader ge (S k) j.
  Proof.
    destruct (tw_columns_spec (getFaces find) [] (level ge (S k)) (length (level ge k)) (col k)) as (piv & fs & E & Hp & Hf).
    { intros s w Hs. split; [eapply faces_value; eauto|]. split; apply col_tiny. }
    rewrite columns_nil in *. exists piv. split.
    - rewrite E. destruct fs as [|f fs]; auto. exfalso. destruct (Hf f (or_introl eq_refl)) as (j & v & Hv & El & Nh & Lh).
      apply (set_step_small _ _ []) in Hv as [Sv Lv].
      + assert (v = [0; 1]) by (apply small_last; auto; congruence). subst v. cbn in Lh. lia.
      + intros s Hs. apply in_map_iff in Hs as (x & <- & _). split; apply col_tiny.
      + intros ? ? [].
    - intros j. rewrite Hp. rewrite map_map. destruct (level ge (S k)) as [|[s0 w0] l0] eqn:El.
      { cbn [map]. split; [intros (x & H & _); destruct j; discriminate|]. intros (x & w & H & _). rewrite El in H. destruct j; discriminate. }
      rewrite <- El. assert (L := two_below k s0 w0 ltac:(rewrite El; now left)).
      erewrite map_ext; [apply leader_fresh|]. intros s. apply filter_small; auto. apply col_tiny.
  Qed.
  Definition twist_of (lo hi sh : nat) (acc : list nat) (g : nat) : Prop :=
    In g acc \/ exists d j, lo <= d <= hi /\ leader ge d j /\ g = first_number ge d + j + sh.
  Lemma tw_loop sh : forall n acc, S n <= length ge -> ssorted acc ->
    exists acc', foldr_run (tw_dimension find ge) (first_number ge (S n) + sh, acc, []) (rev (seq 1 n)) = ret (first_number ge 1 + sh, acc', []) /\ ssorted acc' /\
      forall g, In g acc' <-> twist_of 1 n sh acc g.
  Proof.
    induction n as [|n IH]; intros acc L Sa.
    - exists acc. split; [reflexivity|]. split; auto. intros g. unfold twist_of. split; auto. intros [|(d & j & H & _)]; auto. lia.
    - rewrite rev_seq_S. cbn [foldr_run]. unfold tw_dimension at 1. replace (S n - 1) with n by lia. rewrite !level_at by lia. cbn [lift rbind].
      destruct (tw_level n) as (piv & -> & Hp). cbn [ret rbind fst snd].
      rewrite (offset_S ge (S n)) by lia. replace (first_number ge (S n) + length (level ge (S n)) + sh - length (level ge (S n))) with (first_number ge (S n) + sh) by lia.
      destruct (add_numbers (first_number ge (S n) + sh) piv acc Sa) as [S1 S2].
      destruct (IH (fold_left (fun s a => sinsert (first_number ge (S n) + sh + a) s) piv acc)) as (acc' & -> & S3 & H); auto; try lia.
      exists acc'. split; auto. split; auto. intros g. rewrite H. unfold twist_of. rewrite S2. split.
      + intros [[Hg|(j & Hj & ->)]|(d & j & Hd & Hf & ->)]; auto; right; [exists (S n), j|exists d, j]; split; try lia; split; auto; [now apply Hp|lia].
      + intros [Hg|(d & j & Hd & Hf & ->)]; auto. destruct (Nat.eq_dec d (S n)) as [->|]; [left; right; exists j; split; [now apply Hp|lia]|].
        right. exists d, j. split; [lia|auto].
  Qed.
  Theorem tw_pivots_spec dim : dim < length ge -> exists ps, tw_pivots find dim ge = ret ps /\ increasing ps /\
    forall g, In g ps <-> exists d j, 1 <= d <= dim /\ leader ge d j /\ g = first_number ge d + j + (length (concat ge) - first_number ge (S dim)).
  Proof.
    intros L. fold (total ge). unfold tw_pivots. assert (Lo : first_number ge (S dim) <= total ge) by (rewrite <- offset_total; apply offset_le; lia).
    destruct (tw_loop (total ge - first_number ge (S dim)) dim [] L ltac:(constructor)) as (acc & E & Sa & H).
    replace (first_number ge (S dim) + (total ge - first_number ge (S dim))) with (total ge) in E by lia. rewrite E. cbn [ret rbind snd fst].
    exists acc. split; auto. split; auto. intros g. rewrite H. unfold twist_of. split; [intros [[]|K]; exact K|now right].
  Qed.

  (* ---- sets *)
  Lemma sets_columns cleared k : createBoundarySets find cleared (level ge (S k)) = Ok (columns cleared (level ge (S k)) (col k)).
  Proof.
    unfold createBoundarySets, columns. assert (G : forall l acc, (forall j x, In (j, x) l -> In x (level ge (S k))) ->
      foldr_ub (fun acc '(i, s) => do b <- (if existsb (Nat.eqb i) cleared then Ok [] else getFaces find (fst s)); Ok (acc ++ [b])) acc l =
      Ok (acc ++ map (fun x => if existsb (Nat.eqb (fst x)) cleared then [] else col k (fst (snd x))) l)).
    { induction l as [|[j [s w]] l IH]; intros acc H; cbn [foldr_ub map]; [now rewrite app_nil_r|].
      replace (if existsb (Nat.eqb j) cleared then Ok [] else getFaces find (fst (s, w))) with (@Ok (list nat) (if existsb (Nat.eqb j) cleared then [] else col k s)).
      - cbn [bind]. rewrite IH by (intros; apply (H j0); now right). now rewrite <- app_assoc.
      - destruct (existsb _ _); auto. symmetry. eapply faces_value. apply (H j). now left. }
    rewrite G; [reflexivity|]. intros j x Hx. apply enum_nth in Hx as [_ Hx]. eapply nth_error_In, Hx.
  Qed.
  Lemma columns_nth cleared pc k j s w : nth_error pc j = Some (s, w) ->
    nth_error (columns cleared pc (col k)) j = Some (if existsb (Nat.eqb j) cleared then [] else col k s).
  Proof.
    intros H. unfold columns. assert (E : forall l q i, nth_error l i = Some (s, w) -> nth_error (enum q l) i = Some (q + i, (s, w))).
    { induction l as [|x l IH]; intros q [|i] Hi; try discriminate; cbn in *; [now injection Hi as ->; rewrite Nat.add_0_r|].
      rewrite (IH (S q) i Hi). f_equal. f_equal. lia. }
    rewrite nth_error_map, (E pc 0 j H). reflexivity.
  Qed.
  Lemma columns_small cleared pc k c : In c (columns cleared pc (col k)) -> tiny c /\ ssorted c /\ forall x, In x c -> x <= 1.
  Proof.
    intros H. apply in_map_iff in H as (x & <- & _). destruct (existsb _ _); [|destruct (col_tiny k (fst (snd x))) as (a & b & c & d); auto].
    split; [now left|]. split; [constructor|easy].
  Qed.
  Lemma columns_len cleared pc k : length (columns cleared pc (col k)) = length pc.
  Proof. unfold columns. now rewrite map_length, enum_len. Qed.
  (* what one dimension returns *)
  Lemma sets_level cleared k : (forall c, In c cleared -> c = 1) -> exists js fs,
    opt_getRankNull_sets (columns cleared (level ge (S k)) (col k)) = (js, fs) /\ ssorted js /\ (forall c, In c fs -> c = 1) /\
    length js <= 2 /\ (forall j, In j js -> j < length (level ge (S k))) /\
    (js = [] <-> level ge (S k) = [] \/ exists s w, level ge (S k) = [(s, w)] /\ ~ touches ge (S k) s).
  Proof.
    intros Hc. set (m := columns cleared (level ge (S k)) (col k)). set (r := opt_getRankNull_sets m).
    assert (Sm : Forall increasing m). { apply Forall_forall. intros c H. now destruct (columns_small _ _ _ _ H) as (_ & S & _). }
    assert (H := sets_spec m Sm). cbn zeta in H. destruct H as [S1 H]. fold r in S1, H.
    assert (Lm : length m = length (level ge (S k))) by apply columns_len.
    exists (fst r), (snd r). split; [now destruct r|]. split; [exact S1|]. split; [|split; [|split]].
    - intros c K. unfold r, opt_getRankNull_sets in K. cbn [snd] in K. apply (proj1 (proj2 (to_set_spec _) c)) in K. apply in_flat_map in K as ([j v] & Hv & K). cbn [snd] in K.
      apply (set_step_small _ _ []) in Hv as [Sv Lv]; [| |intros ? ? []].
      + destruct (Nat.eqb_spec (last v 0) (hd 0 v)) as [|N]; [destruct K|]. destruct K as [<-|[]]. apply small_last in N; auto. now subst v.
      + intros s Hs. now destruct (columns_small _ _ _ _ Hs) as (_ & S & L).
    - assert (Tm : forall c, In c (map (filter (fun c => c <? length m)) m) -> tiny c \/ c = [0]).
      { intros c K. apply in_map_iff in K as (d & <- & Hd). destruct (columns_small _ _ _ _ Hd) as ([->|[->| ->]] & _).
        - left. now left.
        - destruct (length m) as [|[|n]]; cbn; unfold tiny; auto.
        - destruct (length m) as [|[|n]]; cbn; unfold tiny; auto. }
      destruct (Nat.le_gt_cases (length m) 1) as [L|L].
      + assert (K : forall j, In j (fst r) -> j = 0). { intros j Hj. apply H, fresh_bound in Hj. rewrite map_length in Hj. lia. }
        clear -S1 K. destruct (fst r) as [|a [|b l]]; cbn; try lia. apply ssorted_cons in S1 as [_ S1]. assert (a < b) by (apply S1; now left).
        assert (a = 0) by (apply K; now left). assert (b = 0) by (apply K; right; now left). lia.
      + assert (Em : map (filter (fun c => c <? length m)) m = m).
        { rewrite <- (map_id m) at 2. apply map_ext_in. intros c Hcm. apply filter_small; [lia|]. now destruct (columns_small _ _ _ _ Hcm) as (_ & _ & K). }
        rewrite Em in H. assert (F := tiny_fresh m (fun c Hcm => proj1 (columns_small _ _ _ _ Hcm))).
        assert (Nd : NoDup (map (fun j => nth j m []) (fst r))).
        { assert (G : forall l, (forall j, In j l -> In j (fst r)) -> ssorted l -> NoDup (map (fun j => nth j m []) l)).
          { induction l as [|a l IH]; intros I Sl; cbn [map]; constructor; [|apply IH; [intros; apply I; now right|now apply ssorted_cons in Sl]].
            intros K. apply in_map_iff in K as (b & Eb & Hb). apply ssorted_cons in Sl as [_ Sl]. specialize (Sl b Hb).
            assert (Fb := proj1 (F b) (proj1 (H b) (I b (or_intror Hb)))). assert (Fa := proj1 (F a) (proj1 (H a) (I a (or_introl eq_refl)))).
            destruct Fb as (cb & Hcb & _ & N), Fa as (ca & Hca & _). apply (N a Sl).
            rewrite (nth_error_nth _ _ _ Hcb), (nth_error_nth _ _ _ Hca) in Eb. congruence. }
          apply G; auto. }
        assert (I : incl (map (fun j => nth j m []) (fst r)) [[0;1];[1]]).
        { intros c K. apply in_map_iff in K as (j & <- & Hj). apply H, F in Hj as (c & Hcj & Nc & _). rewrite (nth_error_nth _ _ _ Hcj).
          apply nth_error_In in Hcj. destruct (columns_small _ _ _ _ Hcj) as ([->|[->| ->]] & _); cbn; auto; easy. }
        apply NoDup_incl_length in I; auto. rewrite map_length in I. exact I.
    - intros j Hj. apply H, fresh_bound in Hj. rewrite map_length in Hj. lia.
    - assert (N0 : existsb (Nat.eqb 0) cleared = false). { destruct (existsb _ _) eqn:E; auto. apply existsb_exists in E as (c & K & E). apply Hc in K. subst c. discriminate. }
      assert (Z : forall j, In j (fst r) -> fst r <> []) by (intros j Hj K; now rewrite K in Hj).
      destruct (level ge (S k)) as [|[s w] [|y l]] eqn:El.
      + split; auto.
      + assert (E0 : m = [col k s]).
        { unfold m, columns. cbn [enum map fst snd]. now rewrite N0. }
        assert (V : map (filter (fun c => c <? length m)) m = [if ft k s then [0] else []]). { rewrite E0. cbn. unfold col. destruct (ft k s); reflexivity. }
        rewrite V in H. assert (Ft := ft_touches k s). destruct (ft k s).
        * split; [|intros [K|(s' & w' & K & N)]; [discriminate|injection K as <- <-; exfalso; apply N; now apply Ft]].
          intros K. exfalso. apply (Z 0); auto. apply H. exists [0]. split; [reflexivity|]. rewrite combination_span. cbn. intros Q. specialize (Q 0). discriminate.
        * split; intros _; [right; exists s, w; split; auto; intros N; apply Ft in N; discriminate|].
          destruct (fst r) as [|j js]; auto. exfalso. assert (K := proj1 (H j) (or_introl eq_refl)).
          rewrite tiny_fresh in K by (intros c [<-|[]]; now left). destruct K as (c & K & Nc & _). destruct j as [|[|j]]; cbn in K; congruence.
      + split; [|intros [K|(s' & w' & K & _)]; discriminate]. intros K. exfalso. apply (Z 0); auto. apply H.
        assert (Em : map (filter (fun c => c <? length m)) m = m).
        { rewrite <- (map_id m) at 2. apply map_ext_in. intros c Hcm. apply filter_small; [rewrite Lm; cbn; lia|]. now destruct (columns_small _ _ _ _ Hcm) as (_ & _ & K'). }
        rewrite Em. apply tiny_fresh; [intros c Hcm; apply (columns_small _ _ _ _ Hcm)|].
        exists (col k s). split; [unfold m; rewrite (columns_nth cleared ((s, w) :: y :: l) k 0 s w eq_refl), N0; reflexivity|]. split; [apply col_tiny|intros i Hi; lia].
  Qed.
  Lemma sinsert_length x l : length (sinsert x l) <= S (length l).
  Proof. induction l as [|y l IH]; cbn; [lia|]. repeat destruct (_ : bool); cbn; lia. Qed.
  Lemma add_length c : forall js acc, length (fold_left (fun s a => sinsert (c + a) s) js acc) <= length acc + length js.
  Proof.
    induction js as [|j js IH]; intros acc; cbn [fold_left length]; [lia|]. specialize (IH (sinsert (c + j) acc)). assert (K := sinsert_length (c + j) acc). lia.
  Qed.
  Definition lone (d : nat) : Prop := level ge d = [] \/ exists s w, level ge d = [(s, w)] /\ ~ touches ge d s.
  Lemma sets_loop sh : forall n acc F, S n <= length ge -> ssorted acc -> (forall c, In c F -> c = 1) ->
    exists acc' F', foldr_ub (sets_dimension find ge) (first_number ge (S n) + sh, acc, F) (rev (seq 1 n)) = Ok (first_number ge 1 + sh, acc', F') /\ ssorted acc' /\
      length acc' <= length acc + 2 * n /\
      (forall g, In g acc' -> In g acc \/ exists d j, 1 <= d <= n /\ j < length (level ge d) /\ g = first_number ge d + j + sh) /\
      (acc' = [] <-> acc = [] /\ forall d, 1 <= d <= n -> lone d).
  Proof.
    induction n as [|n IH]; intros acc F L Sa HF.
    - exists acc, F. split; [reflexivity|]. split; auto. split; [lia|]. split; auto. split; [intros ->; split; auto; lia|tauto].
    - rewrite rev_seq_S. cbn [foldr_ub]. unfold sets_dimension at 1. rewrite !level_at by lia. cbn [bind]. rewrite sets_columns. cbn [bind].
      destruct (sets_level F n HF) as (js & fs & -> & Sj & Hfs & Lj & Bj & Zj). cbn [fst snd].
      rewrite (offset_S ge (S n)) by lia. replace (first_number ge (S n) + length (level ge (S n)) + sh - length (level ge (S n))) with (first_number ge (S n) + sh) by lia.
      destruct (add_numbers (first_number ge (S n) + sh) js acc Sa) as [S1 S2]. assert (La := add_length (first_number ge (S n) + sh) js acc).
      set (acc1 := fold_left (fun s a => sinsert (first_number ge (S n) + sh + a) s) js acc) in *.
      destruct (IH acc1 fs) as (acc' & F' & -> & S3 & L3 & H & Z); auto; try lia.
      exists acc', F'. split; auto. split; auto. split; [lia|]. split.
      + intros g Hg. apply H in Hg as [Hg|(d & j & Hd & Hj & ->)]; [|right; exists d, j; split; [lia|auto]].
        apply S2 in Hg as [Hg|(j & Hj & ->)]; auto. right. exists (S n), j. split; [lia|]. split; [now apply Bj|lia].
      + rewrite Z. assert (K : acc1 = [] <-> acc = [] /\ js = []).
        { split.
          - intros E. assert (Q : forall g, ~ In g acc1) by (intros g; rewrite E; auto). split.
            + destruct acc as [|g l]; auto. exfalso. apply (Q g), S2. left. now left.
            + destruct js as [|j l]; auto. exfalso. eapply Q. apply S2. right. exists j. split; [now left|reflexivity].
          - intros [-> ->]. reflexivity. }
        rewrite K, Zj. fold (lone (S n)). split.
        * intros [[-> K1] K2]. split; auto. intros d Hd. destruct (Nat.eq_dec d (S n)) as [->|]; auto. apply K2. lia.
        * intros [-> K2]. split; [split; auto; apply K2; lia|]. intros d Hd. apply K2. lia.
  Qed.
  Theorem sets_pivots_spec dim : dim < length ge -> exists ps, sets_pivots find dim ge = Ok ps /\ increasing ps /\ length ps <= 2 * dim /\
    (forall g, In g ps -> exists d j, 1 <= d <= dim /\ j < length (level ge d) /\ g = first_number ge d + j + (length (concat ge) - first_number ge (S dim))) /\
    (ps = [] <-> forall d, 1 <= d <= dim -> lone d).
  Proof.
    intros L. fold (total ge). unfold sets_pivots. assert (Lo : first_number ge (S dim) <= total ge) by (rewrite <- offset_total; apply offset_le; lia).
    destruct (sets_loop (total ge - first_number ge (S dim)) dim [] [] L ltac:(constructor) ltac:(intros c [])) as (acc & F & E & Sa & La & H & Z).
    replace (first_number ge (S dim) + (total ge - first_number ge (S dim))) with (total ge) in E by lia. rewrite E. cbn [bind snd fst].
    exists acc. split; auto. split; auto. split; auto. split; [intros g Hg; apply H in Hg as [[]|Hg]; exact Hg|]. rewrite Z. tauto.
  Qed.

  (* ---- whole runs *)
  Hypothesis Hne : forall k, k < length ge -> level ge k <> [].
  Lemma out_of_levels dim : (1 <= dim)%Z -> length ge <= Z.to_nat dim -> tw_pivots find (Z.to_nat dim) ge = Some UB /\ sets_pivots find (Z.to_nat dim) ge = UB.
  Proof.
    intros D L. destruct (Z.to_nat dim) as [|n] eqn:E; [lia|]. unfold tw_pivots, sets_pivots. rewrite !rev_seq_S. cbn [foldr_run foldr_ub].
    assert (A : at_ ge (S n) = UB) by (unfold at_; now rewrite (proj2 (nth_error_None ge (S n)) L)).
    split.
    - unfold tw_dimension at 1. rewrite A. destruct (at_ ge (S n - 1)); reflexivity.
    - unfold sets_dimension at 1. rewrite A. reflexivity.
  Qed.
  Lemma numbered_ub dim eps p ps d j : d < S dim -> dim < length ge -> 1 <= d -> j < length (level ge d) -> p = first_number ge d + j + (length (concat ge) - first_number ge (S dim)) ->
    pair_all true (Z.of_nat dim) eps ge (p :: ps) = UB.
  Proof.
    intros L1 L2 L3 Lj ->. fold (total ge). destruct (above_vertices ge (first_number ge d + j + (total ge - first_number ge (S dim))) C) as (s & w & Hs & Ls).
    { assert (K1 := offset_le ge 1 d ltac:(lia)). assert (K2 := offset_le ge (S d) (S dim) ltac:(lia)). rewrite offset_S in K2 by lia.
      assert (K3 := offset_le ge (S dim) (length ge) ltac:(lia)). rewrite offset_total in K3. lia. }
    eapply pair_all_ub; eauto.
  Qed.
  Lemma leader_bound d j : leader ge d j -> j < length (level ge d).
  Proof. intros (s & w & H & _). apply nth_error_Some. congruence. Qed.
  Lemma leader_first d : level ge d <> [] -> leader ge d 0.
  Proof. intros N. destruct (level ge d) as [|[s w] l] eqn:E; [easy|]. exists s, w. split; [now rewrite E|]. intros i s' w' H. lia. Qed.
  Theorem twist_run_ub dim eps : (1 <= dim)%Z -> (go piv <- tw_pivots find (Z.to_nat dim) ge; lift (pair_all true dim eps ge piv)) = Some UB.
  Proof.
    intros D. destruct (Nat.le_gt_cases (length ge) (Z.to_nat dim)) as [L|L]; [now rewrite (proj1 (out_of_levels dim D L))|].
    destruct (tw_pivots_spec (Z.to_nat dim) L) as (ps & -> & _ & H). cbn [ret rbind]. destruct ps as [|p ps].
    { exfalso. eapply (proj2 (H _)). exists 1, 0. split; [lia|]. split; [apply leader_first, Hne; lia|reflexivity]. }
    destruct (proj1 (H p) (or_introl eq_refl)) as (d & j & Hd & Hl & E). apply leader_bound in Hl.
    replace dim with (Z.of_nat (Z.to_nat dim)) at 1 by lia. now rewrite (numbered_ub (Z.to_nat dim) eps p ps d j) by (auto; lia).
  Qed.
  Lemma opt_left_vertices eps : forall (l : list wsimp) lines, (forall s w, In (s, w) l -> 1 <= length s) ->
    foldr_ub (opt_left 1 eps) lines (all_marked l) = Ok (lines ++ map (fun v => (0, snd v, eps)) (filter (fun v => length (fst v) =? 1) l)).
  Proof.
    induction l as [|[s w] l IH]; intros lines H; cbn [all_marked map foldr_ub filter]; [now rewrite app_nil_r|]. cbn [fst snd].
    assert (K := H s w (or_introl eq_refl)). unfold opt_left at 1. cbn [t_marked t_death t_simplex t_birth andb]. replace (-1 =? -1)%Z with true by reflexivity. replace (1 <? 0)%Z with false by reflexivity. cbn [orb andb].
    destruct (Nat.eqb_spec (length s) 1) as [E|E].
    - rewrite E. change (Z.of_nat 1 <=? 1)%Z with true. change (at_ (repeat tt (Z.to_nat 1)) (1 - 1)) with (Ok tt). cbn [bind map]. fold (all_marked l). rewrite IH by (intros; eapply H; right; eauto). now rewrite <- app_assoc.
    - replace (Z.of_nat (length s) <=? 1)%Z with false by lia. cbn [bind]. fold (all_marked l). apply IH. intros; eapply H; right; eauto.
  Qed.
  Theorem sets_run dim eps : (1 <= dim)%Z ->
    (dim = 1%Z -> forall s w, level ge 1 = [(s, w)] -> ~ touches ge 1 s ->
       (do piv <- sets_pivots find (Z.to_nat dim) ge; pair_all true dim eps ge piv) = Ok (map (fun v => (0, snd v, eps)) (level ge 0))) /\
    (~ (dim = 1%Z /\ exists s w, level ge 1 = [(s, w)] /\ ~ touches ge 1 s) ->
       (do piv <- sets_pivots find (Z.to_nat dim) ge; pair_all true dim eps ge piv) = UB).
  Proof.
    intros D. split.
    - intros -> s w E1 T. assert (L : 1 < length ge). { destruct (Nat.lt_ge_cases 1 (length ge)); auto. unfold level in E1. rewrite nth_overflow in E1 by auto. discriminate. }
      assert (L2 : length ge = 2). { destruct (Nat.eq_dec (length ge) 2); auto. exfalso. assert (N := Hne 2 ltac:(lia)). destruct (level ge 2) as [|[x u] l] eqn:E2; [easy|].
        assert (K := two_below 1 x u ltac:(rewrite E2; now left)). rewrite E1 in K. cbn in K. lia. }
      destruct (sets_pivots_spec (Z.to_nat 1) L) as (ps & -> & _ & _ & _ & Z). cbn [bind].
      assert (ps = []). { apply Z. intros d Hd. assert (d = 1) by lia. subst d. right. eauto. } subst ps.
      unfold pair_all. cbn [hd_error]. rewrite pair_prefix by discriminate. cbn [bind app].
      rewrite opt_left_vertices. 2:{ intros s' w' H. apply in_concat in H as (l & Hl & H). apply In_nth_error in Hl as (k & Hk).
        assert (Hl : In (s', w') (level ge k)) by (unfold level; now rewrite (nth_error_nth _ _ _ Hk)). destruct (cx_shape _ C _ _ _ Hl). lia. }
      cbn [app]. f_equal. f_equal. destruct ge as [|l0 [|l1 [|]]] eqn:Eg; cbn in L2; try lia. cbn [level nth] in E1. subst l1. cbn [concat app].
      destruct (cx_shape _ C 1 s w ltac:(now left)) as [_ Ls]. rewrite filter_app. cbn [filter fst]. rewrite Ls. cbn. rewrite app_nil_r.
      assert (V : forall x u, In (x, u) l0 -> length x = 1) by (intros x u H; now destruct (cx_shape _ C 0 x u H)). clear -V.
      induction l0 as [|[x u] l IH]; auto. cbn. rewrite (V x u) by now left. rewrite Nat.eqb_refl. f_equal. apply IH. intros; eapply V; right; eauto.
    - intros N. destruct (Nat.le_gt_cases (length ge) (Z.to_nat dim)) as [L|L]; [now rewrite (proj2 (out_of_levels dim D L))|].
      destruct (sets_pivots_spec (Z.to_nat dim) L) as (ps & -> & _ & _ & H & Z). cbn [bind]. destruct ps as [|p ps].
      + exfalso. apply N. assert (K := proj1 Z eq_refl). destruct (K 1 ltac:(lia)) as [E|K1]; [exfalso; apply (Hne 1); [lia|auto]|].
        split; auto. destruct (Z.eq_dec dim 1); auto. exfalso. assert (N2 := Hne 2 ltac:(lia)). destruct (level ge 2) as [|[x u] l] eqn:E2; [easy|].
        assert (Q := two_below 1 x u ltac:(rewrite E2; now left)). destruct K1 as (s & w & E1 & _). rewrite E1 in Q. cbn in Q. lia.
      + destruct (H p (or_introl eq_refl)) as (d & j & Hd & Hj & E).
        replace dim with (Z.of_nat (Z.to_nat dim)) at 1 by lia. now rewrite (numbered_ub (Z.to_nat dim) eps p ps d j) by (auto; lia).
  Qed.
  Theorem zero_run eps : (go piv <- tw_pivots find (Z.to_nat 0) ge; lift (pair_all true 0 eps ge piv)) = ret [] /\
    (do piv <- sets_pivots find (Z.to_nat 0) ge; pair_all true 0 eps ge piv) = Ok [].
  Proof.
    assert (E : pair_all true 0 eps ge [] = Ok []).
    { unfold pair_all. cbn [hd_error]. rewrite pair_prefix by discriminate. cbn [bind app]. apply (left_none true); [lia|].
      intros s w Hs. apply in_concat in Hs as (l & Hl & Hs). apply In_nth_error in Hl as (k & Hk).
      assert (Hl : In (s, w) (level ge k)) by (unfold level; now rewrite (nth_error_nth _ _ _ Hk)). destruct (cx_shape _ C _ _ _ Hl). lia. }
    split; cbn; now rewrite E.
  Qed.
End Boundaries.

(* ---- on the indexed tree *)
Section Tree.
  Variables (eps md : Z) (dm : list (list Z)) (nc0 : Z) (srt : list wsimp -> list wsimp) (ops : list ind_op) (t : itree).
  Hypothesis Hs : is_sort srt.
  Hypothesis L : ilegal dm ops.
  Hypothesis N : ~ In IGetAll ops.
  Hypothesis E : ind_run eps md srt (ind_new dm nc0) ops = Ok t.
  Let p := ipast_of dm ops.
  Let edges := fst (ind_getAllEdges srt t).
  Let t' := snd (ind_getAllEdges srt t).

  Lemma tree_dims : (forall k s w, In (s, w) (level (i_dims t) k) <->
        length s = S k /\ simplex_of (q_dm p) eps md (q_points p) s /\ diameter (dist_of (q_dm p)) s w) /\
     (forall k, NoDup (map fst (level (i_dims t) k))) /\ (forall k, k < length (i_dims t) <-> level (i_dims t) k <> []) /\
     level (i_dims t) 0 = map (fun v => ([v], 0%Z)) (seq 0 (q_points p)).
  Proof.
    destruct (ind_rips eps md dm nc0 srt ops L) as [H1 H2]. fold p in H1, H2.
    destruct H1 as (t1 & E1 & H).
    - intros s Hx. destruct (Nat.le_gt_cases (length s) 3); auto. exfalso. rewrite H2 in E; [discriminate|]. exists s. auto.
    - rewrite E in E1. injection E1 as <-. exact H.
  Qed.
  Lemma tree_facts : complex edges /\ (forall k, k < length edges -> level edges k <> []) /\
    level edges 0 = map (fun v => ([v], 0%Z)) (seq 0 (q_points p)) /\ (forall k, Permutation (level edges k) (level (i_dims t) k)) /\
    (forall k i f w, nth_error (level edges k) i = Some (f, w) -> ind_find t' f = Ok (negb (i =? 0))).
  Proof.
    destruct tree_dims as (D1 & D2 & D3 & D4).
    destruct (ind_edges eps md dm nc0 srt ops t Hs L N E) as (P & L0 & Le & C & _ & _). fold edges in P, L0, Le, C.
    split; [exact C|]. split; [|split; [congruence|split; [exact P|]]].
    - intros k Hk K. rewrite Le in Hk. apply D3 in Hk. apply Hk. assert (Q := P k). rewrite K in Q. now apply Permutation_nil in Q.
    - intros k i f w Hf. assert (If : In (f, w) (level (i_dims t) k)) by (eapply Permutation_in; [apply P|eapply nth_error_In; eauto]).
      apply D1 in If as (Lf & Sf & _).
      assert (Q : 0 < q_points p). { destruct Sf as [(Nf & _ & Bf & _) _]. destruct f as [|v f]; [easy|]. specialize (Bf v (or_introl eq_refl)). lia. }
      destruct (ind_find_spec eps md dm nc0 srt ops t Hs L N E Q) as (H & _). fold p in H.
      destruct (H f [] Sf (or_introl eq_refl)) as ((j & u & Hj & Ej) & _). rewrite app_nil_r in Ej. fold edges in Hj. fold t' in Ej. rewrite Ej. f_equal. f_equal.
      assert (j = i); [|now subst]. rewrite Lf in Hj. replace (S k - 1) with k in Hj by lia.
      assert (Nd := cx_nodup _ C k). unfold simplices in Nd. apply (proj1 (NoDup_nth_error _) Nd); [rewrite map_length; apply nth_error_Some; congruence|].
      now rewrite !nth_error_map, Hj, Hf.
  Qed.
  Lemma opt_ind_run_eq twist dim ep : opt_ind_run twist dim ep srt t =
    if twist then go piv <- tw_pivots (ind_find t') (Z.to_nat dim) edges; lift (pair_all true dim ep edges piv)
    else lift (do piv <- sets_pivots (ind_find t') (Z.to_nat dim) edges; pair_all true dim ep edges piv).
  Proof. unfold opt_ind_run, edges, t'. destruct (ind_getAllEdges srt t) as [ge t1]. cbn [fst snd]. destruct twist; auto. destruct (sets_pivots _ _ _); reflexivity. Qed.

  Theorem ind_twist_pivots dim : dim < length edges -> exists ps, tw_pivots (ind_find t') dim edges = ret ps /\ increasing ps /\
    forall g, In g ps <-> exists d j, 1 <= d <= dim /\ leader edges d j /\ g = first_number edges d + j + (length (concat edges) - first_number edges (S dim)).
  Proof. destruct tree_facts as (C & _ & _ & _ & F). now apply tw_pivots_spec. Qed.
  Theorem ind_sets_pivots dim : dim < length edges -> exists ps, sets_pivots (ind_find t') dim edges = Ok ps /\ increasing ps /\ length ps <= 2 * dim /\
    forall g, In g ps -> exists d j, 1 <= d <= dim /\ j < length (level edges d) /\ g = first_number edges d + j + (length (concat edges) - first_number edges (S dim)).
  Proof.
    intros Hd. destruct tree_facts as (C & _ & _ & _ & F). destruct (sets_pivots_spec edges (ind_find t') C F dim Hd) as (ps & H1 & H2 & H3 & H4 & _).
    exists ps. auto.
  Qed.
  Theorem ind_twist_run dim ep : (1 <= dim)%Z -> opt_ind_run true dim ep srt t = Some UB.
  Proof. intros D. destruct tree_facts as (C & Ne & _ & _ & F). rewrite opt_ind_run_eq. now apply twist_run_ub. Qed.
  Theorem ind_zero_run twist ep : opt_ind_run twist 0 ep srt t = ret [].
  Proof. destruct tree_facts as (C & Ne & _ & _ & F). rewrite opt_ind_run_eq. destruct (zero_run edges (ind_find t') C ep) as [H1 H2]. destruct twist; [exact H1|exact (f_equal lift H2)]. Qed.

  Definition lone_edge : Prop := exists u v, 0 < u /\ forall s, length s = 2 -> (simplex_of (q_dm p) eps md (q_points p) s <-> s = [u; v]).
  Lemma lone_edge_iff : lone_edge <-> exists s w, level edges 1 = [(s, w)] /\ ~ touches edges 1 s.
  Proof.
    destruct tree_dims as (D1 & D2 & D3 & D4). destruct tree_facts as (C & Ne & L0 & P & F).
    assert (T : forall x, simplex_of (q_dm p) eps md (q_points p) x -> touches edges 1 x <-> In 0 x).
    { intros x [(Nx & _ & Bx & _) _]. unfold touches. cbn [Nat.sub]. rewrite L0.
      assert (Q : q_points p <> 0). { destruct x as [|v x]; [easy|]. specialize (Bx v (or_introl eq_refl)). lia. }
      destruct (q_points p) as [|n]; [easy|]. cbn [seq map nth_error]. split.
      - intros (f & w & K & I). injection K as <- <-. apply I. now left.
      - intros I. exists [0], 0%Z. split; auto. intros y [<-|[]]. exact I. }
    assert (I : forall s w, In (s, w) (level edges 1) -> length s = 2 /\ simplex_of (q_dm p) eps md (q_points p) s).
    { intros s w H. assert (K : In (s, w) (level (i_dims t) 1)) by (eapply Permutation_in; [apply P|auto]). apply D1 in K. tauto. }
    split.
    - intros (u & v & Hu & H). assert (Huv := proj2 (H [u; v] eq_refl) eq_refl).
      assert (A : forall s w, In (s, w) (level edges 1) -> s = [u; v]) by (intros s w Hi; destruct (I s w Hi); now apply H).
      assert (Nd := cx_nodup _ C 1). unfold simplices in Nd.
      destruct (level edges 1) as [|[s w] [|[s2 w2] l]] eqn:E1.
      + exfalso. destruct (FastRuns.diameter_exists (dist_of (q_dm p)) [u; v] ltac:(apply Huv)) as (w & Hw).
        assert (K : In ([u; v], w) (level (i_dims t) 1)) by (apply D1; auto). eapply Permutation_in in K; [|apply Permutation_sym, P]. rewrite E1 in K. destruct K.
      + exists s, w. split; auto. assert (s = [u; v]) by (apply (A s w); now left). subst s. rewrite (T _ Huv). destruct Huv as [(_ & Iu & _) _].
        inversion Iu as [|? ? _ Hd]; subst. inversion Hd; subst. cbn. lia.
      + exfalso. inversion Nd as [|? ? K _]. apply K. left. cbn. rewrite (A s w), (A s2 w2); auto; [right; now left|now left].
    - intros (s & w & E1 & Nt). destruct (I s w) as [Ls Sx]; [rewrite E1; now left|]. rewrite (T s Sx) in Nt. destruct s as [|u [|v [|]]]; try discriminate.
      exists u, v. split; [destruct u; [exfalso; apply Nt; now left|lia]|]. intros x Lx. split; [|intros ->; auto]. intros K.
      destruct (FastRuns.diameter_exists (dist_of (q_dm p)) x ltac:(apply K)) as (z & Hz). assert (Q : In (x, z) (level (i_dims t) 1)) by (apply D1; auto).
      eapply Permutation_in in Q; [|apply Permutation_sym, P]. rewrite E1 in Q. destruct Q as [Q|[]]. congruence.
  Qed.
  Theorem ind_sets_run dim ep : (1 <= dim)%Z ->
    (dim = 1%Z /\ lone_edge -> opt_ind_run false dim ep srt t = ret (repeat (0, 0%Z, ep) (q_points p))) /\
    (~ (dim = 1%Z /\ lone_edge) -> opt_ind_run false dim ep srt t = Some UB).
  Proof.
    intros D. destruct tree_facts as (C & Ne & L0 & P & F). rewrite opt_ind_run_eq. destruct (sets_run edges (ind_find t') C F Ne dim ep D) as [H1 H2].
    rewrite lone_edge_iff. split.
    - intros (-> & s & w & E1 & T). rewrite (H1 eq_refl s w E1 T), L0, map_map.
      assert (Q : forall n k, map (fun x : nat => (0, snd ([x], 0%Z), ep)) (seq k n) = repeat (0, 0%Z, ep) n) by (induction n as [|n IH]; intros k; cbn; [auto|now rewrite IH]).
      now rewrite Q.
    - intros K. rewrite H2; auto.
  Qed.
End Tree.
Theorem twist_other_ub dim ep : (1 <= dim)%Z -> opt_twist_other dim ep = Some UB.
Proof.
  intros D. unfold opt_twist_other. destruct (out_of_levels [] (fun _ => Ok false) dim D ltac:(cbn; lia)) as [-> _]. reflexivity.
Qed.

Theorem incremental faces_of (chain : list wsimp) rows (F : list nat -> list nat) :
  (forall s w, In (s, w) chain -> faces_of s = Ok (F s) /\ F s <> [] /\ increasing (F s) /\ forall x, In x (F s) -> x < rows) ->
  exists piv fs, tw_columns faces_of [] rows chain = ret (piv, fs) /\ forall j, In j piv <-> fresh (map (fun s => F (fst s)) chain) j.
Proof.
  intros H. destruct (tw_columns_spec faces_of [] chain rows F) as (piv & fs & E & Hp & _).
  { intros s w Hs. destruct (H s w Hs) as (H1 & H2 & H3 & _). auto. }
  exists piv, fs. split; auto. intros j. rewrite Hp. unfold columns. cbn [existsb].
  assert (K : forall (l : list wsimp) i, map (fun x : nat * wsimp => F (fst (snd x))) (enum i l) = map (fun s => F (fst s)) l) by (induction l as [|x l IH]; intros i; cbn; [auto|now rewrite IH]).
  rewrite K, map_map. erewrite map_ext_in; [reflexivity|]. intros [s w] Hs. destruct (H s w Hs) as (_ & _ & _ & B). cbn [fst].
  clear -B. induction (F s) as [|x l IH]; auto. cbn. rewrite (proj2 (Nat.ltb_lt _ _) (B x (or_introl eq_refl))). f_equal. apply IH. intros; apply B; now right.
Qed.
