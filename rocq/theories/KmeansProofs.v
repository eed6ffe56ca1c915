(* KmeansProofs.v -- lemmas about k-means (C29, C63, C64). *)
From Coq Require Import List Arith Bool Lia.
From Verif Require Import Base KmeansModel SpecKmeans.
Import ListNotations.

Section Kmeans.
  Variable num : Type.
  Variable zero maxn : num.
  Variable add : num -> num -> num.
  Variable divn : num -> nat -> num.
  Variable ltb : num -> num -> bool.
  Variable dist : list num -> list num -> num.
  Notation nearest := (nearest_centroid num maxn ltb dist).
  Notation iteration := (km_iteration num zero maxn add divn ltb dist).
  Notation loop := (km_loop num zero maxn add divn ltb dist).
  Notation classify := (classify num maxn add ltb dist).

  (* the centroid of a point *)
  Lemma nearest_fold x : forall cents s i0 m0,
    (number_order ltb -> 
     let '(i, m) := fold_left (fun '(ci, md) '(c, cent) => if ltb (dist x cent) md then (c, dist x cent) else (ci, md)) (enum s cents) (i0, m0) in
     ((i, m) = (i0, m0) /\ (forall c', In c' cents -> ltb (dist x c') m0 = false)) \/
     (exists c, s <= i /\ nth_error cents (i - s) = Some c /\ m = dist x c /\ ltb m m0 = true /\
        forall j c', nth_error cents j = Some c' -> ltb (dist x c') (dist x c) = false /\ (s + j < i -> ltb (dist x c) (dist x c') = true))).
  Proof.
    induction cents as [|c cents IH]; intros s i0 m0 O; cbn [enum fold_left]; [left; split; [reflexivity|intros c' []]|]. destruct O as (Ir & Tr & Nt).
    destruct (ltb (dist x c) m0) eqn:E.
    - specialize (IH (S s) s (dist x c) (conj Ir (conj Tr Nt))). destruct (fold_left _ _ _) as [i m]. destruct IH as [[Q H]|(d & Hs & Hn & -> & Hl & H)].
      + injection Q as -> ->. right. exists c. rewrite Nat.sub_diag. split; [lia|]. split; [reflexivity|]. split; [reflexivity|]. split; [exact E|]. intros [|j] c' Hc'; cbn in Hc'.
        * injection Hc' as <-. split; [apply Ir|lia].
        * split; [apply H; eapply nth_error_In; eauto|lia].
      + right. exists d. split; [lia|]. replace (i - s) with (S (i - S s)) by lia. split; [exact Hn|]. split; [reflexivity|]. split; [eapply Tr; eauto|]. intros [|j] c' Hc'; cbn in Hc'.
        * injection Hc' as <-. split; [|auto]. destruct (ltb (dist x c) (dist x d)) eqn:K; [|reflexivity]. rewrite <- (Ir (dist x d)). symmetry. eapply Tr; eauto.
        * destruct (H j c' Hc') as [H1 H2]. split; [exact H1|]. intros L. apply H2. lia.
    - specialize (IH (S s) i0 m0 (conj Ir (conj Tr Nt))). destruct (fold_left _ _ _) as [i m]. destruct IH as [[Q H]|(d & Hs & Hn & -> & Hl & H)].
      + left. split; [exact Q|]. intros c' [<-|Hc]; auto.
      + right. exists d. split; [lia|]. replace (i - s) with (S (i - S s)) by lia. split; [exact Hn|]. split; [reflexivity|]. split; [exact Hl|]. intros [|j] c' Hc'; cbn in Hc'.
        * injection Hc' as <-. assert (K : ltb (dist x d) (dist x c) = true).
          { destruct (ltb (dist x d) (dist x c)) eqn:K; [reflexivity|]. rewrite <- Hl. symmetry. apply Nt with (dist x c); auto. }
          split; [|auto]. destruct (ltb (dist x c) (dist x d)) eqn:K'; [|reflexivity]. rewrite <- (Ir (dist x d)). symmetry. eapply Tr; eauto.
        * destruct (H j c' Hc') as [H1 H2]. split; [exact H1|]. intros L. apply H2. lia.
  Qed.
  Lemma nearest_first x cents : number_order ltb -> (exists c, In c cents /\ ltb (dist x c) maxn = true) -> first_nearest ltb dist x cents (fst (nearest x cents)).
  Proof.
    intros O (c & Hc & Lt). unfold nearest_centroid. assert (H := nearest_fold x cents 0 0 maxn O). destruct (fold_left _ _ _) as [i m]. destruct H as [[_ H]|(d & _ & Hn & _ & _ & H)].
    - rewrite (H c Hc) in Lt. discriminate.
    - rewrite Nat.sub_0_r in Hn. cbn [fst]. exists d. split; [exact Hn|exact H].
  Qed.
  Lemma nearest_label x cents : number_order ltb -> label_of maxn ltb dist x cents (fst (nearest x cents)).
  Proof.
    intros O. split; [now apply nearest_first|]. intros F. unfold nearest_centroid. assert (H := nearest_fold x cents 0 0 maxn O). destruct (fold_left _ _ _) as [i m].
    destruct H as [[H _]|(d & _ & Hn & -> & Hl & _)]; [now injection H|]. rewrite F in Hl; [discriminate|]. eapply nth_error_In; eauto.
  Qed.
  Lemma nearest_labels points cents : number_order ltb -> labelling maxn ltb dist points cents (map (fun x => fst (nearest x cents)) points).
  Proof. intros O. induction points; cbn [map]; constructor; auto. now apply nearest_label. Qed.
  Lemma nearest_lt x cents k : length cents = k -> 0 < k -> fst (nearest x cents) < k.
  Proof.
    intros L Hk. unfold nearest_centroid. assert (G : forall cs s i0 m0, i0 < k -> s + length cs <= k ->
      fst (fold_left (fun '(ci, md) '(c, cent) => if ltb (dist x cent) md then (c, dist x cent) else (ci, md)) (enum s cs) (i0, m0)) < k).
    { induction cs as [|c cs IH]; intros s i0 m0 Hi Hs; cbn [enum fold_left length] in *; [exact Hi|]. destruct (ltb _ _); apply IH; lia. }
    apply G; lia.
  Qed.

  (* sums *)
  Lemma addv_spec s : forall x, length x = length s -> addv num add s x = Ok (map (fun p => add (fst p) (snd p)) (combine s x)).
  Proof. induction s as [|b s IH]; intros [|a x] L; try discriminate; [reflexivity|]. cbn [addv]. rewrite IH by (cbn in L; lia). reflexivity. Qed.
  Lemma upd_map {A} (f : nat -> A) g n i : i < n -> upd (map f (seq 0 n)) i g = Ok (map (fun j => if j =? i then g (f j) else f j) (seq 0 n)).
  Proof.
    assert (G : forall n s i, i < n -> upd (map f (seq s n)) i g = Ok (map (fun j => if j =? s + i then g (f j) else f j) (seq s n))).
    { clear. induction n as [|n IH]; intros s i H; [lia|]. cbn [seq map]. destruct i as [|i]; cbn [upd].
      - rewrite Nat.add_0_r, Nat.eqb_refl. f_equal. f_equal. apply map_ext_in. intros j Hj. apply in_seq in Hj. destruct (Nat.eqb_spec j s); [lia|reflexivity].
      - rewrite IH by lia. cbn. destruct (Nat.eqb_spec s (s + S i)); [lia|]. f_equal. f_equal. apply map_ext. intros j. now rewrite Nat.add_succ_r. }
    intros H. now apply (G n 0 i).
  Qed.
  Lemma at_map {A} (f : nat -> A) n i : i < n -> at_ (map f (seq 0 n)) i = Ok (f i).
  Proof. intros H. unfold at_. rewrite nth_error_map. rewrite (nth_error_nth' (seq 0 n) 0) by (rewrite seq_length; lia). now rewrite seq_nth. Qed.
  Lemma members_app (pts : list (list num)) labels p l c : length pts = length labels -> members (pts ++ [p]) (labels ++ [l]) c = members pts labels c ++ (if l =? c then [p] else []).
  Proof.
    intros L. unfold members. assert (E : combine (labels ++ [l]) (pts ++ [p]) = combine labels pts ++ [(l, p)]).
    { revert pts L. induction labels as [|a labels IH]; intros [|b pts] L; try discriminate; [reflexivity|]. cbn. rewrite IH; [reflexivity|cbn in L; lia]. }
    rewrite E, filter_app, map_app. cbn. destruct (l =? c); reflexivity.
  Qed.
  Definition sumv (dim : nat) (pts : list (list num)) : list num := map (fun d => fold_left add (map (fun x => nth d x zero) pts) zero) (seq 0 dim).
  Lemma combine_maps {A B C D} (f : A -> B) (g : A -> C) (h : B * C -> D) l : map h (combine (map f l) (map g l)) = map (fun a => h (f a, g a)) l.
  Proof. induction l as [|a l IH]; cbn; [reflexivity|]. now rewrite IH. Qed.
  Lemma list_as_map (x : list num) : x = map (fun d => nth d x zero) (seq 0 (length x)).
  Proof. induction x as [|a x IH]; [reflexivity|]. cbn [length seq map nth]. f_equal. rewrite <- seq_shift, map_map. exact IH. Qed.
  Lemma sumv_snoc dim pts x : length x = dim -> addv num add (sumv dim pts) x = Ok (sumv dim (pts ++ [x])).
  Proof.
    intros L. rewrite addv_spec by (unfold sumv; now rewrite map_length, seq_length). f_equal. rewrite (list_as_map x), L. unfold sumv. rewrite combine_maps. apply map_ext. intros d. cbn [fst snd].
    rewrite map_app, fold_left_app. cbn [map fold_left]. rewrite <- L, <- list_as_map. reflexivity.
  Qed.
  Definition sums_of dim k pts labels := map (fun c => sumv dim (members pts labels c)) (seq 0 k).
  Definition counts_of k (pts : list (list num)) labels := map (fun c => length (members pts labels c)) (seq 0 k).
  Lemma classify_step dim k cents pts labels x : length cents = k -> 0 < k -> length x = dim -> length pts = length labels ->
    classify cents (sums_of dim k pts labels, counts_of k pts labels, labels) x =
    Ok (sums_of dim k (pts ++ [x]) (labels ++ [fst (nearest x cents)]), counts_of k (pts ++ [x]) (labels ++ [fst (nearest x cents)]), labels ++ [fst (nearest x cents)]).
  Proof.
    intros Lc Hk Lx Lp. assert (Hi := nearest_lt x cents k Lc Hk). unfold KmeansModel.classify. destruct (nearest x cents) as [i m]. cbn [fst] in *.
    unfold upd_res, sums_of at 1 2, counts_of at 1. rewrite at_map by exact Hi. cbn [bind]. rewrite sumv_snoc by exact Lx. cbn [bind]. rewrite upd_map by exact Hi. cbn [bind]. rewrite upd_map by exact Hi. cbn [bind].
    f_equal. f_equal. f_equal.
    - apply map_ext. intros c. rewrite members_app by exact Lp. rewrite Nat.eqb_sym. destruct (Nat.eqb_spec i c) as [->|N]; [reflexivity|now rewrite app_nil_r].
    - apply map_ext. intros c. rewrite members_app by exact Lp. rewrite Nat.eqb_sym. destruct (Nat.eqb_spec i c) as [->|N]; [rewrite app_length; cbn; lia|now rewrite app_nil_r].
  Qed.
  Lemma classify_all dim k cents : length cents = k -> 0 < k -> forall rest pts labels, Forall (fun x => length x = dim) rest -> length pts = length labels ->
    let labels' := labels ++ map (fun x => fst (nearest x cents)) rest in
    foldr_ub (classify cents) (sums_of dim k pts labels, counts_of k pts labels, labels) rest = Ok (sums_of dim k (pts ++ rest) labels', counts_of k (pts ++ rest) labels', labels').
  Proof.
    intros Lc Hk. induction rest as [|x rest IH]; intros pts labels F Lp; cbn zeta; cbn [map foldr_ub]; [now rewrite !app_nil_r|]. inversion F; subst.
    rewrite classify_step by auto. cbn [bind]. rewrite IH by (auto; rewrite !app_length; cbn; lia). cbn zeta. rewrite <- !app_assoc. reflexivity.
  Qed.
  Definition centres dim k pts labels := map (fun c => mean zero add divn dim (members pts labels c)) (seq 0 k).
  Lemma removelast_firstn' {A} (l : list A) : firstn (length l - 1) l = removelast l.
  Proof. rewrite (removelast_firstn_len l). f_equal. lia. Qed.
  Lemma iteration_spec dim k data cents : length cents = k -> 0 < k -> data <> [] -> Forall (fun x => length x = dim) data ->
    let labels := map (fun x => fst (nearest x cents)) (removelast data) in
    iteration data k cents = Ok (centres dim k (removelast data) labels, labels).
  Proof.
    intros Lc Hk N F labels. unfold km_iteration. assert (exists x data', data = x :: data') as (x & data' & Ed) by (destruct data; [easy|eauto]). replace (at_ data 0) with (Ok x) by (now rewrite Ed). cbn [bind].
    assert (Lx : length x = dim) by (rewrite Ed in F; now inversion F). rewrite Lx, removelast_firstn'.
    assert (Z1 : repeat (repeat zero dim) k = sums_of dim k [] []).
    { unfold sums_of. assert (forall s, repeat (repeat zero dim) k = map (fun c => sumv dim (members (num := num) [] [] c)) (seq s k)) as G; [|apply G]. clear.
      assert (forall n s, repeat zero n = map (fun d => fold_left add (map (fun x => nth d x zero) []) zero) (seq s n)) as G'. { clear. induction n; intros s; [reflexivity|]. cbn in *. now rewrite <- IHn. }
      induction k as [|k IH]; intros s; [reflexivity|]. cbn [seq map repeat]. f_equal; [apply G'|apply IH]. }
    assert (Z2 : repeat 0 k = counts_of k [] []).
    { unfold counts_of. clear. assert (G : forall s, repeat 0 k = map (fun c => length (members (num := num) [] [] c)) (seq s k)); [|apply G]. induction k as [|k IH]; intros s; [reflexivity|]. cbn [seq map repeat]. f_equal. apply IH. }
    rewrite Z1, Z2. assert (Fr : Forall (fun x => length x = dim) (removelast data)).
    { rewrite Forall_forall in *. intros y Hy. apply F. rewrite <- removelast_firstn' in Hy. rewrite <- (firstn_skipn (length data - 1) data). apply in_app_iff. now left. }
    rewrite (classify_all dim k cents Lc Hk (removelast data) [] []) by auto. cbn [bind app]. fold labels. f_equal. f_equal. unfold centres, sums_of, counts_of.
    rewrite combine_maps. apply map_ext. intros c. unfold sumv, mean. now rewrite map_map.
  Qed.
  Lemma nlist_eqb_eq a : forall b, nlist_eqb a b = true <-> a = b.
  Proof.
    induction a as [|x a IH]; intros [|y b]; cbn; try (split; [discriminate|discriminate]); [tauto|]. rewrite andb_true_iff, IH, Nat.eqb_eq. split; [intros [-> ->]; reflexivity|intros H; injection H; auto].
  Qed.

  Section Run.
    Variables (dim k : nat) (data : list (list num)).
    Hypothesis Hk : 0 < k.
    Hypothesis Ne : data <> [].
    Hypothesis Dim : Forall (fun x => length x = dim) data.
    Let pts := removelast data.
    Let lab cents := map (fun x => fst (nearest x cents)) pts.
    Lemma centres_length labels : length (centres dim k pts labels) = k.
    Proof. unfold centres. now rewrite map_length, seq_length. Qed.
    Lemma loop_spec : forall n cents last, length cents = k -> (last = [] \/ cents = centres dim k pts last) ->
      exists cents' labels, loop n data k cents last = Ok (cents', labels) /\ length cents' = k /\
        (n = 0 -> cents' = cents /\ labels = last) /\
        (0 < n -> cents' = centres dim k pts labels /\ exists prev, length prev = k /\ labels = lab prev) /\
        (forall cents'' labels'', loop (S n) data k cents last = Ok (cents'', labels'') -> labels'' = labels -> (0 < n \/ cents = centres dim k pts last) -> labels = lab cents').
    Proof.
      induction n as [|n IH]; intros cents last L H.
      - exists cents, last. split; [reflexivity|]. split; [exact L|]. split; [auto|]. split; [lia|]. intros c'' l''. cbn [km_loop]. rewrite (iteration_spec dim k data cents L Hk Ne Dim). cbn [bind]. fold pts. fold (lab cents).
        destruct (nlist_eqb (lab cents) last) eqn:E; intros Q Q2 _; injection Q as Q1 Q; [|congruence]. symmetry. now apply nlist_eqb_eq.
      - cbn [km_loop]. rewrite (iteration_spec dim k data cents L Hk Ne Dim). cbn [bind]. fold pts. fold (lab cents). destruct (nlist_eqb (lab cents) last) eqn:E.
        + apply nlist_eqb_eq in E. exists (centres dim k pts (lab cents)), last. rewrite <- E. split; [reflexivity|]. split; [apply centres_length|]. split; [lia|]. split; [intros _; split; [reflexivity|exists cents; auto]|].
          intros _ _ _ _ _. destruct H as [H|H].
          * rewrite E in *. subst last. unfold lab in *. destruct pts; [reflexivity|discriminate].
          * rewrite H at 1. rewrite E. reflexivity.
        + destruct (IH (centres dim k pts (lab cents)) (lab cents) (centres_length _) ltac:(now right)) as (c' & l' & E' & L' & Z' & P' & C'). exists c', l'. split; [exact E'|]. split; [exact L'|]. split; [lia|]. split.
          * intros _. destruct n as [|n]; [|apply P'; lia]. destruct (Z' eq_refl) as [-> ->]. split; [reflexivity|]. exists cents. auto.
          * intros c'' l'' Q1 Q2 _. apply (C' c'' l''); auto.
    Qed.
    Lemma loop_rounds : forall n cents last, 0 < n -> length cents = k -> (last = [] \/ cents = centres dim k pts last) ->
      exists cents' labels, loop n data k cents last = Ok (cents', labels) /\ cents' = centres dim k pts labels /\
        exists m prev, m < n /\ length prev = k /\ labels = lab prev /\ (number_order ltb -> rounds zero maxn add divn ltb dist dim k pts m cents prev) /\ (S m = n \/ labels = lab cents').
    Proof.
      induction n as [|n IH]; intros cents last Hn L H; [lia|]. cbn [km_loop]. rewrite (iteration_spec dim k data cents L Hk Ne Dim). cbn [bind]. fold pts. fold (lab cents). destruct (nlist_eqb (lab cents) last) eqn:E.
      - apply nlist_eqb_eq in E. exists (centres dim k pts (lab cents)), last. rewrite <- E. split; [reflexivity|]. split; [reflexivity|]. exists 0, cents. split; [lia|]. split; [exact L|]. split; [reflexivity|].
        split; [constructor|]. right. destruct H as [H|H].
        + rewrite H in E. unfold lab in *. destruct pts; [reflexivity|discriminate].
        + rewrite H at 1. rewrite E. reflexivity.
      - destruct n as [|n].
        + exists (centres dim k pts (lab cents)), (lab cents). split; [reflexivity|]. split; [reflexivity|]. exists 0, cents. split; [lia|]. split; [exact L|]. split; [reflexivity|]. split; [constructor|now left].
        + destruct (IH (centres dim k pts (lab cents)) (lab cents) ltac:(lia) (centres_length _) ltac:(now right)) as (c' & l' & E' & Ec & m & prev & Hm & Lp & El & R & Cv).
          exists c', l'. split; [exact E'|]. split; [exact Ec|]. exists (S m), prev. split; [lia|]. split; [exact Lp|]. split; [exact El|]. split; [|destruct Cv; [left; lia|now right]].
          intros O. apply one_round with (lab cents); [now apply nearest_labels|now apply R].
    Qed.
    Lemma loop_lloyd n cents : 0 < n -> length cents = k -> exists cents' labels, loop n data k cents [] = Ok (cents', labels) /\ lloyd zero maxn add divn ltb dist dim k pts n cents cents' labels.
    Proof.
      intros Hn L. destruct (loop_rounds n cents [] Hn L ltac:(now left)) as (c & l & E & Ec & m & prev & Hm & _ & El & R & Cv). exists c, l. split; [exact E|]. split; [exact Ec|].
      intros O. exists m, prev. split; [exact Hm|]. split; [now apply R|]. split; [rewrite El; now apply nearest_labels|]. destruct Cv as [->|Cv]; [now left|right]. rewrite Cv. now apply nearest_labels.
    Qed.
  End Run.

End Kmeans.

(* initial centroids *)
Section Init.
  Variable num : Type.
  Variable eqb : list num -> list num -> bool.
  Hypothesis Eqb : forall x y, eqb x y = true <-> x = y.
  Lemma mem_spec x l : existsb (eqb x) l = true <-> In x l.
  Proof. rewrite existsb_exists. split; [intros (y & H & E); apply Eqb in E; now subst|intros H; exists x; split; [auto|now apply Eqb]]. Qed.
  Lemma NoDup_snoc {A} (l : list A) x : NoDup l -> ~ In x l -> NoDup (l ++ [x]).
  Proof. induction l as [|y l IH]; cbn; intros N H; [repeat constructor; auto|]. inversion N; subst. constructor; [rewrite in_app_iff; cbn; intuition|apply IH; auto]. Qed.
  Lemma picks_spec data : forall picks temp, Forall (fun p => fst p < length data) picks -> NoDup temp -> incl temp data ->
    exists temp', foldr_ub (try_pick num eqb data) temp picks = Ok temp' /\ NoDup temp' /\ incl temp' data /\ length temp' <= length temp + length picks.
  Proof.
    induction picks as [|[i valid] picks IH]; intros temp F N I; cbn [foldr_ub]; [exists temp; cbn; repeat split; auto; lia|]. inversion F; subst. cbn [fst] in *.
    unfold try_pick at 1. unfold at_ at 1. destruct (nth_error data i) as [c|] eqn:E; [|apply nth_error_None in E; lia]. cbn [bind]. destruct (existsb _ _) eqn:X.
    - destruct (IH (temp ++ [c]) H2) as (t & Et & Nt & It & Lt).
      + apply NoDup_snoc; auto. apply existsb_exists in X as (j & _ & X). apply andb_true_iff in X as [_ X]. apply negb_true_iff in X. intros K. apply mem_spec in K. congruence.
      + intros y Hy. apply in_app_iff in Hy as [Hy|[<-|[]]]; auto. eapply nth_error_In; eauto.
      + exists t. split; [exact Et|]. split; [exact Nt|]. split; [exact It|]. rewrite app_length in Lt. cbn [length] in *. lia.
    - destruct (IH temp H2 N I) as (t & Et & Nt & It & Lt). exists t. split; [exact Et|]. split; [exact Nt|]. split; [exact It|]. cbn [length]. lia.
  Qed.
  Lemma fill_spec k data : forall rest temp, NoDup temp -> incl temp data -> incl rest data -> length temp <= k -> (forall x, In x data -> In x temp \/ In x rest) ->
    (exists t, fill num eqb k temp rest = Ok t /\ NoDup t /\ incl t data /\ length t = k) \/
    (fill num eqb k temp rest = UB /\ exists t, length t < k /\ incl data t).
  Proof.
    induction rest as [|x rest IH]; intros temp N I J L C; cbn [fill]; destruct (Nat.ltb_spec (length temp) k) as [H|H].
    - right. split; [reflexivity|]. exists temp. split; [exact H|]. intros x Hx. destruct (C x Hx) as [|[]]; auto.
    - left. exists temp. repeat split; auto; lia.
    - destruct (existsb (eqb x) temp) eqn:M.
      + apply mem_spec in M. apply IH; auto; [intros y Hy; apply J; now right|]. intros y Hy. destruct (C y Hy) as [|[<-|]]; auto.
      + apply IH; auto.
        * apply NoDup_snoc; auto. intros K. apply mem_spec in K. congruence.
        * intros y Hy. apply in_app_iff in Hy as [Hy|[<-|[]]]; auto. apply J. now left.
        * intros y Hy. apply J. now right.
        * rewrite app_length. cbn. lia.
        * intros y Hy. rewrite in_app_iff. destruct (C y Hy) as [|[<-|]]; cbn; auto.
    - left. exists temp. repeat split; auto; lia.
  Qed.
  Lemma init_spec data k index picks : 0 < k -> index < length data -> Forall (fun p => fst p < length data) picks ->
    (exists cents, km_init num eqb data k index picks = Ok cents /\ NoDup cents /\ incl cents data /\ length cents = k) \/
    (km_init num eqb data k index picks = UB /\ exists t, length t < k /\ incl data t).
  Proof.
    intros Hk Hi F. unfold km_init. unfold at_ at 1 2. destruct (nth_error data index) as [c|] eqn:E; [|apply nth_error_None in E; lia]. cbn [bind].
    assert (Fk : Forall (fun p => fst p < length data) (firstn (k - 1) picks)).
    { rewrite Forall_forall in *. intros p Hp. apply F. rewrite <- (firstn_skipn (k - 1) picks). apply in_app_iff. now left. }
    destruct (picks_spec data (firstn (k - 1) picks) [c] Fk) as (t & Et & Nt & It & Lt).
    { repeat constructor. auto. }
    { intros y [<-|[]]. eapply nth_error_In; eauto. }
    rewrite Et. cbn [bind]. assert (length t <= k) by (rewrite firstn_length in Lt; cbn in Lt; lia).
    destruct (fill_spec k data data t Nt It (incl_refl _) H ltac:(auto)) as [(t' & E' & R)|[E' R]]; rewrite E'; [left; exists t'; auto|right; auto].
  Qed.
End Init.
