(* NanKmeans.v -- lemmas about k-means in double arithmetic (C95). *)
From Coq Require Import String Ascii List Arith ZArith Bool Lia SpecFloat.
From Verif Require Import Base UtilsModel KmeansModel SpecKmeans KmeansProofs DoubleModel SpecDouble DoubleProofs DoubleRuns NanModel SpecNan NanRuns.
Import ListNotations.
Local Open Scope nat_scope.
Local Open Scope list_scope.

(* ---- the initial centroids, if == is equality of a key *)
Section Init.
  Variables num K : Type.
  Variable eqb : list num -> list num -> bool.
  Variable key : list num -> K.
  Variable data : list (list num).
  Hypothesis Eqb : forall x y, In x data -> In y data -> (eqb x y = true <-> key x = key y).
  Lemma key_mem x l : In x data -> incl l data -> existsb (eqb x) l = true <-> In (key x) (map key l).
  Proof.
    intros Hx Hl. rewrite existsb_exists, in_map_iff. split.
    - intros (y & H & E). exists y. split; [|exact H]. apply Eqb in E; auto.
    - intros (y & E & H). exists y. split; [exact H|]. apply Eqb; auto.
  Qed.
  Lemma key_snoc l x : NoDup (map key l) -> ~ In (key x) (map key l) -> NoDup (map key (l ++ [x])).
  Proof. intros N H. rewrite map_app. now apply NoDup_snoc. Qed.
  Lemma key_picks : forall picks temp, Forall (fun p => fst p < length data) picks -> NoDup (map key temp) -> incl temp data ->
    exists temp', foldr_ub (try_pick num eqb data) temp picks = Ok temp' /\ NoDup (map key temp') /\ incl temp' data /\ length temp' <= length temp + length picks.
  Proof.
    induction picks as [|[i valid] picks IH]; intros temp F N I; cbn [foldr_ub]; [exists temp; cbn; repeat split; auto; lia|]. inversion F; subst. cbn [fst] in *.
    unfold try_pick at 1. unfold at_ at 1. destruct (nth_error data i) as [c|] eqn:E; [|apply nth_error_None in E; lia]. cbn [bind]. assert (Hc := nth_error_In _ _ E). destruct (existsb _ _) eqn:X.
    - destruct (IH (temp ++ [c]) H2) as (t & Et & Nt & It & Lt).
      + apply key_snoc; auto. apply existsb_exists in X as (j & _ & X). apply andb_true_iff in X as [_ X]. apply negb_true_iff in X. intros Q. apply key_mem in Q; auto. congruence.
      + intros y Hy. apply in_app_iff in Hy as [Hy|[<-|[]]]; auto.
      + exists t. split; [exact Et|]. split; [exact Nt|]. split; [exact It|]. rewrite app_length in Lt. cbn [length] in *. lia.
    - destruct (IH temp H2 N I) as (t & Et & Nt & It & Lt). exists t. split; [exact Et|]. split; [exact Nt|]. split; [exact It|]. cbn [length]. lia.
  Qed.
  Lemma key_fill k : forall rest temp, NoDup (map key temp) -> incl temp data -> incl rest data -> length temp <= k -> (forall x, In x data -> In (key x) (map key temp) \/ In x rest) ->
    (exists t, fill num eqb k temp rest = Ok t /\ NoDup (map key t) /\ incl t data /\ length t = k) \/
    (fill num eqb k temp rest = UB /\ exists t, length t < k /\ incl t data /\ forall x, In x data -> In (key x) (map key t)).
  Proof.
    induction rest as [|x rest IH]; intros temp N I J L C; cbn [fill]; destruct (Nat.ltb_spec (length temp) k) as [H|H].
    - right. split; [reflexivity|]. exists temp. split; [exact H|]. split; [exact I|]. intros x Hx. destruct (C x Hx) as [|[]]; auto.
    - left. exists temp. repeat split; auto; lia.
    - assert (Hx : In x data) by (apply J; now left). destruct (existsb (eqb x) temp) eqn:M.
      + apply key_mem in M; auto. apply IH; auto; [intros y Hy; apply J; now right|]. intros y Hy. destruct (C y Hy) as [|[<-|]]; auto.
      + apply IH; auto.
        * apply key_snoc; auto. intros Q. apply key_mem in Q; auto. congruence.
        * intros y Hy. apply in_app_iff in Hy as [Hy|[<-|[]]]; auto.
        * intros y Hy. apply J. now right.
        * rewrite app_length. cbn. lia.
        * intros y Hy. rewrite map_app, in_app_iff. destruct (C y Hy) as [|[<-|]]; cbn; auto.
    - left. exists temp. repeat split; auto; lia.
  Qed.
  Lemma key_init k index picks : 0 < k -> index < length data -> Forall (fun p => fst p < length data) picks ->
    (exists cents, km_init num eqb data k index picks = Ok cents /\ NoDup (map key cents) /\ incl cents data /\ length cents = k) \/
    (km_init num eqb data k index picks = UB /\ exists t, length t < k /\ incl t data /\ forall x, In x data -> In (key x) (map key t)).
  Proof.
    intros Hk Hi F. unfold km_init. unfold at_ at 1 2. destruct (nth_error data index) as [c|] eqn:E; [|apply nth_error_None in E; lia]. cbn [bind].
    assert (Fk : Forall (fun p => fst p < length data) (firstn (k - 1) picks)).
    { rewrite Forall_forall in *. intros p Hp. apply F. rewrite <- (firstn_skipn (k - 1) picks). apply in_app_iff. now left. }
    destruct (key_picks (firstn (k - 1) picks) [c] Fk) as (t & Et & Nt & It & Lt).
    { repeat constructor. auto. }
    { intros y [<-|[]]. eapply nth_error_In; eauto. }
    rewrite Et. cbn [bind]. assert (length t <= k) by (rewrite firstn_length in Lt; cbn in Lt; lia).
    destruct (key_fill k data t Nt It (incl_refl _) H ltac:(auto)) as [(t' & E' & R)|[E' R]]; rewrite E'; [left; exists t'; auto|right; auto].
  Qed.
End Init.

(* ---- == of points *)
Lemma d_eqb_same x : forall y, d_eqb x y = true <-> same_point x y.
Proof.
  induction x as [|a x IH]; intros [|b y]; cbn [d_eqb]; split; intros H; try discriminate; try (now inversion H); try constructor.
  - apply andb_true_iff in H as [H _]. exact H.
  - apply andb_true_iff in H as [_ H]. now apply IH.
  - inversion H; subst. apply andb_true_iff. split; [assumption|now apply IH].
Qed.
Lemma same_rank x : forall y, Forall (fun a => is_number a /\ fits a) x -> Forall (fun a => is_number a /\ fits a) y -> (same_point x y <-> map rank x = map rank y).
Proof.
  induction x as [|a x IH]; intros [|b y] Fx Fy; cbn [map]; split; intros H; try discriminate; try (now inversion H); try constructor; inversion Fx as [|? ? [Na Fa] Fx']; inversion Fy as [|? ? [Nb Fb] Fy']; subst.
  - inversion H; subst. f_equal; [|now apply IH]. apply Z.eqb_eq. now rewrite <- rank_eqb.
  - injection H as H1 H2. rewrite rank_eqb by auto. now apply Z.eqb_eq.
  - injection H as H1 H2. now apply IH.
Qed.

(* ---- the nearest centroid *)
Definition place_ltb (a b : double) : bool := (place a <? place b)%Z.
Lemma place_order : number_order place_ltb.
Proof. unfold number_order, place_ltb. repeat split; intros; rewrite ?Z.ltb_lt, ?Z.ltb_ge in *; lia. Qed.
Lemma number_dec (a : double) : {a = S754_nan} + {is_number a}.
Proof. destruct a; [right|right|left|right]; easy. Qed.
Lemma place_lt_number a b : fits a -> fits b -> is_number b -> SFltb a b = place_ltb a b.
Proof.
  intros Fa Fb Nb. unfold place_ltb. rewrite (place_number b Nb). destruct (number_dec a) as [->|Na]; [|rewrite place_number by auto; now apply rank_ltb].
  assert (B := rank_bound b Fb). cbn [place]. symmetry. destruct b; apply Z.ltb_ge; apply Z.lt_le_incl, B.
Qed.
Lemma place_le_number a b : fits a -> fits b -> is_number b -> place_ltb b a = true -> SFleb a b = false.
Proof.
  intros Fa Fb Nb H. unfold place_ltb in H. destruct (number_dec a) as [->|Na]; [now destruct b|]. rewrite !place_number in H by auto. rewrite rank_leb by auto. apply Z.leb_gt. now apply Z.ltb_lt.
Qed.
Lemma max_fits : fits d_max /\ is_number d_max.
Proof. unfold is_number, d_max. split; [split; [reflexivity|split; discriminate]|intros H; discriminate H]. Qed.

Section Run.
  Variable square : double -> double.
  Notation dist := (km_dist square).
  Lemma distance_fits x y w : d_distance square x y = Ok w -> fits w.
  Proof.
    unfold d_distance, vectors_distance. destruct y as [|b y]; [intros H; injection H as <-; exact I|]. match goal with |- context [bind ?m _] => destruct m as [s|]; cbn [bind]; intros H; [|discriminate H] end. injection H as <-. apply sqrt_fits.
  Qed.
  Lemma km_dist_fits x y : fits (dist x y).
  Proof. unfold km_dist. destruct (d_distance square x y) as [w|] eqn:E; [exact (distance_fits _ _ _ E)|exact I]. Qed.
  Lemma nearest_swap x cents : nearest_centroid double d_max SFltb dist x cents = nearest_centroid double d_max place_ltb dist x cents.
  Proof.
    unfold nearest_centroid. assert (G : forall l i m, fits m -> is_number m ->
      fold_left (fun '(ci, md) '(c, cent) => if SFltb (dist x cent) md then (c, dist x cent) else (ci, md)) l (i, m) =
      fold_left (fun '(ci, md) '(c, cent) => if place_ltb (dist x cent) md then (c, dist x cent) else (ci, md)) l (i : nat, m)); [|apply G; apply max_fits].
    induction l as [|[c cent] l IH]; intros i m Fm Nm; cbn [fold_left]; [reflexivity|]. rewrite <- place_lt_number by (auto; apply km_dist_fits).
    destruct (SFltb (dist x cent) m) eqn:E; apply IH; auto; [apply km_dist_fits|]. intros Q. rewrite Q in E. destruct m; discriminate.
  Qed.
  Notation loop ltb := (km_loop double d_zero d_max d_add d_div ltb dist).
  Lemma loop_swap data k : forall n cents last, loop SFltb n data k cents last = loop place_ltb n data k cents last.
  Proof.
    induction n as [|n IH]; intros cents last; cbn [km_loop]; [reflexivity|].
    assert (E : km_iteration double d_zero d_max d_add d_div SFltb dist data k cents = km_iteration double d_zero d_max d_add d_div place_ltb dist data k cents).
    { unfold km_iteration. destruct (at_ data 0) as [first|]; [|reflexivity]. cbn [bind].
      assert (G : forall l st, foldr_ub (classify double d_max d_add SFltb dist cents) st l = foldr_ub (classify double d_max d_add place_ltb dist cents) st l); [|now rewrite G].
      induction l as [|x l IHl]; intros st; cbn [foldr_ub]; [reflexivity|].
      assert (C : classify double d_max d_add SFltb dist cents st x = classify double d_max d_add place_ltb dist cents st x) by (unfold classify; now rewrite nearest_swap).
      rewrite C. destruct (classify double d_max d_add place_ltb dist cents st x); [apply IHl|reflexivity]. }
    rewrite E. destruct (km_iteration double d_zero d_max d_add d_div place_ltb dist data k cents) as [[c l]|]; [|reflexivity]. cbn [bind]. destruct (nlist_eqb l last); [reflexivity|apply IH].
  Qed.
  (* the labels in terms of double comparisons; the points have the dimension of the centroids *)
  Lemma label_double dim cents x i : length x = dim -> Forall (fun c => length c = dim) cents -> label_of d_max place_ltb dist x cents i -> double_label square cents x i.
  Proof.
    intros Lx Fc [H1 H2]. rewrite Forall_forall in Fc.
    assert (D : forall c, In c cents -> d_distance square x c = Ok (dist x c)).
    { intros c Hc. unfold km_dist. assert (L : length x = length c) by (rewrite (Fc c Hc); exact Lx). now rewrite (distance_value square x c L). }
    assert (Dec : (exists c, In c cents /\ place_ltb (dist x c) d_max = true) \/ forall c, In c cents -> place_ltb (dist x c) d_max = false).
    { clear. induction cents as [|c cents [(d & Hd & E)|IH]]; [right; intros c []|left; exists d; split; [now right|exact E]|].
      destruct (place_ltb (dist x c) d_max) eqn:E; [left; exists c; split; [now left|exact E]|right; intros d [<-|Hd]; auto]. }
    destruct max_fits as [Fm Nm]. destruct Dec as [Y|N].
    - left. destruct Y as (c0 & Hc0 & E0). destruct (H1 (ex_intro _ c0 (conj Hc0 E0))) as (c & Hc & M). assert (Ic := nth_error_In _ _ Hc). exists c, (dist x c).
      assert (Lt : place_ltb (dist x c) d_max = true).
      { apply In_nth_error in Hc0 as (j0 & Hj0). destruct (M j0 c0 Hj0) as [M0 _]. unfold place_ltb in *. rewrite Z.ltb_lt, Z.ltb_ge in *. lia. }
      assert (Nc : is_number (dist x c)).
      { intros Q. rewrite Q in Lt. apply Z.ltb_lt in Lt. assert (B := rank_bound d_max Fm). rewrite (place_number d_max Nm) in Lt. cbn [place] in Lt. lia. }
      split; [exact Hc|]. split; [now apply D|]. change largest with d_max. split; [rewrite place_lt_number; auto; apply km_dist_fits|].
      intros j c' w' Hj Ew. assert (Ic' := nth_error_In _ _ Hj). rewrite (D c' Ic') in Ew. injection Ew as <-. destruct (M j c' Hj) as [M1 M2].
      split; [rewrite place_lt_number; auto; apply km_dist_fits|]. intros L. apply place_le_number; auto; apply km_dist_fits.
    - right. split; [now apply H2|]. intros c w Hc Ew. rewrite (D c Hc) in Ew. injection Ew as <-. change largest with d_max. rewrite place_lt_number; auto; apply km_dist_fits.
  Qed.
  Lemma means_dim dim k pts labels : Forall (fun c => length c = dim) (double_means dim k pts labels).
  Proof. apply Forall_forall. intros c Hc. apply in_map_iff in Hc as (j & <- & _). unfold double_mean. now rewrite map_length, seq_length. Qed.
  Lemma labels_double dim cents pts labels : Forall (fun x => length x = dim) pts -> Forall (fun c => length c = dim) cents ->
    labelling d_max place_ltb dist pts cents labels -> double_labels square cents pts labels.
  Proof.
    intros Fp Fc H. induction H as [|x i pts labels H _ IH]; [constructor|]. inversion Fp; subst. constructor; [now apply (label_double (length x))|now apply IH].
  Qed.
  Lemma rounds_double dim k pts n start prev : Forall (fun x => length x = dim) pts -> Forall (fun c => length c = dim) start ->
    rounds d_zero d_max d_add d_div place_ltb dist dim k pts n start prev -> double_rounds square dim k pts n start prev /\ Forall (fun c => length c = dim) prev.
  Proof.
    intros Fp Fs H. induction H as [cents|n cents labels cents' H _ IH]; [split; [constructor|exact Fs]|].
    destruct (IH (means_dim dim k pts labels)) as [IH1 IH2]. split; [|exact IH2]. apply double_round with labels; [now apply (labels_double dim)|exact IH1].
  Qed.

  Variable data : list (list double).
  Variables dim k r : nat.
  Hypothesis Nums : forall p x, In p data -> In x p -> is_number x /\ fits x.
  Hypothesis Dim : forall p, In p data -> length p = dim.
  Hypothesis Hk : 0 < k.
  Hypothesis Hr : 0 < r.
  Variable index : nat.
  Variable picks : list (nat * (nat -> bool)).
  Hypothesis Hi : index < length data.
  Hypothesis Hp : forall i valid, In (i, valid) picks -> i < length data.
  Notation run := (km_run double d_zero d_max d_add d_div SFltb dist d_eqb data k r index picks).

  Lemma double_init :
    (fewer_points k data -> km_init double d_eqb data k index picks = UB) /\
    (~ fewer_points k data -> exists start, km_init double d_eqb data k index picks = Ok start /\ some_points k data start).
  Proof.
    assert (Fd : forall x, In x data -> Forall (fun a => is_number a /\ fits a) x) by (intros x Hx; apply Forall_forall; intros a Ha; now apply (Nums x a)).
    assert (Eqb : forall x y, In x data -> In y data -> (d_eqb x y = true <-> map rank x = map rank y)) by (intros x y Hx Hy; rewrite d_eqb_same; apply same_rank; auto).
    assert (Fp : Forall (fun p : nat * (nat -> bool) => fst p < length data) picks) by (apply Forall_forall; intros [i v] H; exact (Hp i v H)).
    assert (Few : forall t, length t < k -> incl t data -> (forall x, In x data -> In (map rank x) (map (map rank) t)) -> fewer_points k data).
    { intros t Lt It Ct. exists t. split; [exact Lt|]. split; [exact It|]. intros x Hx. assert (G := Ct x Hx). apply in_map_iff in G as (y & E & Hy). exists y. split; [exact Hy|]. apply same_rank; [apply Fd, Hx|apply Fd, It, Hy|symmetry; exact E]. }
    destruct (key_init double _ d_eqb (map rank) data Eqb k index picks Hk Hi Fp) as [(start & E & Nd & In1 & Ln)|(E & t & Lt & It & Ct)].
    - split.
      + intros (t & Lt & It & Ct). exfalso. assert (L : incl (map (map rank) start) (map (map rank) t)).
        { intros y Hy. apply in_map_iff in Hy as (x & <- & Hx). destruct (Ct x (In1 x Hx)) as (y & Hy & S). apply in_map_iff. exists y. split; [|exact Hy]. symmetry. apply same_rank; [apply Fd, In1, Hx|apply Fd, It, Hy|exact S]. }
        apply (NoDup_incl_length Nd) in L. rewrite !map_length in L. lia.
      + intros _. exists start. split; [exact E|]. split; [exact Ln|]. split; [exact In1|]. intros i j x y Nij Ex Ey S. apply Nij.
        apply (proj1 (NoDup_nth_error _) Nd); [rewrite map_length; apply nth_error_Some; congruence|]. rewrite (map_nth_error _ _ _ Ex), (map_nth_error _ _ _ Ey). f_equal.
        apply same_rank; auto; apply Fd, In1; eapply nth_error_In; eauto.
    - split; [intros _; exact E|]. intros N. exfalso. apply N. now apply (Few t).
  Qed.
  Theorem double_run_kmeans :
    (fewer_points k data -> run = UB) /\
    (~ fewer_points k data -> exists start cents labels, run = Ok (cents, labels) /\ some_points k data start /\
       double_kmeans square dim k (removelast data) r start cents labels).
  Proof.
    destruct double_init as [A B]. unfold km_run. split; [intros H; now rewrite (A H)|]. intros H. destruct (B H) as (start & E & S). rewrite E. cbn [bind].
    rewrite loop_swap. assert (Ne : data <> []) by (intros ->; cbn in Hi; lia). assert (Fd : Forall (fun x => length x = dim) data) by (apply Forall_forall; exact Dim).
    assert (Fr : Forall (fun x => length x = dim) (removelast data)).
    { rewrite Forall_forall in *. intros y Hy. apply Fd. rewrite removelast_firstn_len in Hy. rewrite <- (firstn_skipn (pred (length data)) data). apply in_app_iff. now left. }
    destruct S as (Ln & In1 & Df). assert (Fs : Forall (fun c => length c = dim) start) by (apply Forall_forall; intros c Hc; now apply Dim, In1).
    destruct (loop_lloyd double d_zero d_max d_add d_div place_ltb dist dim k data Hk Ne Fd r start Hr Ln) as (cents & labels & El & Ec & L). exists start, cents, labels.
    split; [exact El|]. split; [repeat split; auto|]. split; [exact Ec|]. destruct (L place_order) as (n & prev & Hn & R & Lb & Cv). exists n, prev. split; [exact Hn|].
    destruct (rounds_double dim k _ n start prev Fr Fs R) as [R1 R2]. split; [exact R1|]. split; [now apply (labels_double dim)|]. destruct Cv as [Cv|Cv]; [now left|right].
    apply (labels_double dim); auto. rewrite Ec. apply means_dim.
  Qed.
End Run.

(* ---- the centroids are doubles, and a cluster without points has no centroid *)
Lemma div_fits x y : fits (SFdiv 53 1024 x y).
Proof.
  destruct x as [s|s| |s m e], y as [s'|s'| |s' m' e']; cbn [SFdiv]; try exact I.
  unfold SFdiv_core_binary. cbv zeta. set (a := match (_ - _)%Z with Z0 => _ | Zpos _ => _ | Zneg _ => _ end). assert (A : (0 <= a)%Z).
  { unfold a. match goal with |- context [match ?t with Z0 => _ | Zpos _ => _ | Zneg _ => _ end] => destruct t end; try lia. apply Z.shiftl_nonneg. lia. }
  clearbody a. assert (Q := Z.div_pos a (Zpos m') A ltac:(lia)). unfold Z.div in Q. destruct (Z.div_eucl a (Zpos m')) as [q r]. apply round_aux_spec. exact Q.
Qed.
Lemma means_fit dim k pts labels p x : In p (double_means dim k pts labels) -> In x p -> fits x.
Proof. intros Hp Hx. apply in_map_iff in Hp as (j & <- & _). unfold double_mean in Hx. apply in_map_iff in Hx as (d & <- & _). apply div_fits. Qed.
Lemma empty_mean dim pts labels j : ~ In j labels -> double_mean dim (labelled pts labels j) = repeat S754_nan dim.
Proof.
  intros N. assert (E : labelled pts labels j = []).
  { unfold labelled. revert pts. induction labels as [|l labels IH]; intros [|x pts]; try reflexivity. cbn [combine filter fst]. destruct (Nat.eqb_spec l j) as [->|_]; [exfalso; apply N; now left|].
    apply IH. intros H. apply N. now right. }
  rewrite E. unfold double_mean. cbn [map length fold_left Z.of_nat binary_normalize]. generalize 0. induction dim as [|dim IH]; intros s; [reflexivity|]. cbn [seq map repeat]. f_equal. apply IH.
Qed.
(* Fewer labels than clusters leave a cluster without points. *)
Lemma unused_label k labels : length labels < k -> exists j, j < k /\ ~ In j labels.
Proof.
  intros H. destruct (Exists_dec (fun j => ~ In j labels) (seq 0 k)) as [Y|N].
  - intros j. destruct (in_dec Nat.eq_dec j labels) as [Y|N]; [right; tauto|now left].
  - apply Exists_exists in Y as (j & Hj & Nj). apply in_seq in Hj. exists j. split; [lia|exact Nj].
  - exfalso. assert (I : incl (seq 0 k) labels).
    { intros j Hj. destruct (in_dec Nat.eq_dec j labels) as [Y|Y]; [exact Y|]. exfalso. apply N, Exists_exists. eauto. }
    apply NoDup_incl_length in I; [|apply seq_NoDup]. rewrite seq_length in I. lia.
Qed.
