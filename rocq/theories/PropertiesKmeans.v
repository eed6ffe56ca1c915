(* PropertiesKmeans.v -- C29, C63, C64: kMeansPlusPlus. *)
From Coq Require Import List Arith ZArith Bool Lia.
From Verif Require Import Base KmeansModel SpecKmeans KmeansProofs.
Import ListNotations.

(* C29: one iteration labels all points but the last, each with the first of its nearest centroids. *)
Theorem C29_labels : forall num (zero maxn : num) add divn ltb dist dim k data cents,
  number_order ltb -> length cents = k -> 0 < k -> data <> [] -> Forall (fun x => length x = dim) data ->
  (forall x, In x data -> exists c, In c cents /\ ltb (dist x c) maxn = true) ->
  exists cents' labels, km_iteration num zero maxn add divn ltb dist data k cents = Ok (cents', labels) /\
    S (length labels) = length data /\
    forall j x, nth_error data j = Some x -> S j < length data -> exists i, nth_error labels j = Some i /\ first_nearest ltb dist x cents i.
Proof.
  intros num zero maxn add divn ltb dist dim k data cents O L Hk N D F. eexists. eexists. split; [exact (iteration_spec num zero maxn add divn ltb dist dim k data cents L Hk N D)|].
  rewrite map_length, <- removelast_firstn', firstn_length. assert (0 < length data) by (destruct data; [easy|cbn; lia]). split; [lia|]. intros j x Hx Hj.
  exists (fst (nearest_centroid num maxn ltb dist x cents)). split.
  - rewrite nth_error_map. assert (E : nth_error (firstn (length data - 1) data) j = nth_error data j); [|now rewrite E, Hx].
    clear -Hj. assert (G : forall (l : list (list num)) n j, j < n -> nth_error (firstn n l) j = nth_error l j); [|apply G; lia].
    induction l as [|y l IH]; intros n i H; [now rewrite firstn_nil|]. destruct n; [lia|]. destruct i; cbn; auto. apply IH. lia.
  - apply nearest_first; auto. apply F. eapply nth_error_In; eauto.
Qed.
Print Assumptions C29_labels.

(* C29: the last data point has no influence on any number of iterations from given centroids. *)
Theorem C29_last_point_ignored : forall num (zero maxn : num) add divn ltb dist z data p q k cents last, data <> [] ->
  km_loop num zero maxn add divn ltb dist z (data ++ [p]) k cents last = km_loop num zero maxn add divn ltb dist z (data ++ [q]) k cents last.
Proof.
  intros num zero maxn add divn ltb dist z data p q k cents last N. revert cents last. induction z as [|z IH]; intros cents last; cbn [km_loop]; [reflexivity|].
  assert (E : km_iteration num zero maxn add divn ltb dist (data ++ [p]) k cents = km_iteration num zero maxn add divn ltb dist (data ++ [q]) k cents).
  { unfold km_iteration. rewrite !app_length. replace (length data + length [p] - 1) with (length data) by (cbn; lia). replace (length data + length [q] - 1) with (length data) by (cbn; lia).
    rewrite !firstn_app, Nat.sub_diag. cbn [firstn]. destruct data; [easy|]. reflexivity. }
  rewrite E. destruct (km_iteration _ _ _ _ _ _ _ (data ++ [q]) k cents) as [[c l]|]; cbn [bind]; [|reflexivity]. destruct (nlist_eqb l last); [reflexivity|apply IH].
Qed.
Print Assumptions C29_last_point_ignored.

(* C63: z iterations from given centroids, the last point left out: the returned centroids are the means of the points with
   their labels, the labels come from the centroids one round before; they come from the returned centroids too unless all
   z rounds were used, and also then once another iteration does not change the labels. *)
Theorem C63_centroids_are_means : forall num (zero maxn : num) add divn ltb dist dim k data cents z,
  0 < k -> data <> [] -> Forall (fun x => length x = dim) data -> length cents = k -> 0 < z ->
  exists cents' labels, km_loop num zero maxn add divn ltb dist z data k cents [] = Ok (cents', labels) /\
    lloyd zero maxn add divn ltb dist dim k (removelast data) z cents cents' labels /\
    (number_order ltb -> forall cents'', km_loop num zero maxn add divn ltb dist (S z) data k cents [] = Ok (cents'', labels) ->
       labelling maxn ltb dist (removelast data) cents' labels).
Proof.
  intros num zero maxn add divn ltb dist dim k data cents z Hk N D L Hz.
  destruct (loop_spec num zero maxn add divn ltb dist dim k data Hk N D z cents [] L ltac:(now left)) as (c & l & E & _ & _ & _ & C). exists c, l. split; [exact E|]. split.
  - destruct (loop_lloyd num zero maxn add divn ltb dist dim k data Hk N D z cents Hz L) as (c1 & l1 & E1 & R). rewrite E in E1. injection E1 as <- <-. exact R.
  - intros O c'' Q. rewrite (C c'' l Q eq_refl (or_introl Hz)). now apply nearest_labels.
Qed.
Print Assumptions C63_centroids_are_means.

(* C64: the initial centroids are num_clusters different data points; there is no defined result exactly when the data has
   fewer different points. *)
Theorem C64_initial_centroids : forall num (eqb : list num -> list num -> bool) data k index picks, (forall x y, eqb x y = true <-> x = y) ->
  0 < k -> index < length data -> Forall (fun p => fst p < length data) picks ->
  (fewer_than k data -> km_init num eqb data k index picks = UB) /\
  (~ fewer_than k data -> exists cents, km_init num eqb data k index picks = Ok cents /\ NoDup cents /\ incl cents data /\ length cents = k).
Proof.
  intros num eqb data k index picks E Hk Hi F. destruct (init_spec num eqb E data k index picks Hk Hi F) as [(c & Ec & Nc & Ic & Lc)|[Eu T]].
  - split; [|eauto]. intros (t & Lt & It). exfalso. assert (K := NoDup_incl_length Nc (fun x H => It x (Ic x H))). lia.
  - split; [auto|]. intros H. exfalso. now apply H.
Qed.
Print Assumptions C64_initial_centroids.

(* C64: the whole run: it starts from num_clusters different points of the data and ends as C63 says, with one label less
   than points. *)
Theorem C64_run : forall num (zero maxn : num) add divn ltb dist eqb data k z index picks dim, (forall x y, eqb x y = true <-> x = y) ->
  0 < k -> 0 < z -> index < length data -> Forall (fun p => fst p < length data) picks -> Forall (fun x => length x = dim) data -> ~ fewer_than k data ->
  exists start cents labels, km_run num zero maxn add divn ltb dist eqb data k z index picks = Ok (cents, labels) /\
    NoDup start /\ incl start data /\ length start = k /\ lloyd zero maxn add divn ltb dist dim k (removelast data) z start cents labels /\
    length cents = k /\ Forall (fun c => length c = dim) cents /\ S (length labels) = length data /\ Forall (fun i => i < k) labels.
Proof.
  intros num zero maxn add divn ltb dist eqb data k z index picks dim E Hk Hz Hi F D Few. destruct (proj2 (C64_initial_centroids num eqb data k index picks E Hk Hi F) Few) as (c & Ec & Nc & Ic & Lc).
  assert (N : data <> []) by (destruct data; [cbn in Hi; lia|discriminate]).
  destruct (C63_centroids_are_means num zero maxn add divn ltb dist dim k data c z Hk N D Lc Hz) as (c' & l & El & R & _).
  destruct (loop_rounds num zero maxn add divn ltb dist dim k data Hk N D z c [] Hz Lc ltac:(now left)) as (c1 & l1 & E1 & _ & _ & prev & _ & Lp & Ll & _). rewrite El in E1. injection E1 as <- <-.
  exists c, c', l. unfold km_run. rewrite Ec. cbn [bind]. split; [exact El|]. do 3 (split; [assumption|]). split; [exact R|]. destruct R as [Mc _].
  split; [rewrite Mc; unfold cluster_means; rewrite map_length, seq_length; reflexivity|]. split; [|split].
  - rewrite Mc. apply Forall_forall. intros x Hx. apply in_map_iff in Hx as (i & <- & _). unfold mean. now rewrite map_length, seq_length.
  - rewrite Ll, map_length, <- removelast_firstn', firstn_length. lia.
  - rewrite Ll. apply Forall_forall. intros i Hx. apply in_map_iff in Hx as (x & <- & _). now apply nearest_lt.
Qed.
Print Assumptions C64_run.

(* Whole numbers with truncated division, distance of the first coordinates. *)
Local Open Scope Z_scope.
Definition zd (x y : list Z) : Z := Z.abs (nth 0 x 0 - nth 0 y 0).
Definition zdiv (a : Z) (n : nat) : Z := a / Z.of_nat n.
Definition zeq (x y : list Z) : bool := if list_eq_dec Z.eq_dec x y then true else false.
Lemma zeq_spec x y : zeq x y = true <-> x = y.
Proof. unfold zeq. destruct (list_eq_dec Z.eq_dec x y); split; congruence. Qed.
Lemma z_order : number_order Z.ltb.
Proof. split; [intros; apply Z.ltb_irrefl|]. split; intros a b c; rewrite ?Z.ltb_lt, ?Z.ltb_ge; lia. Qed.
Definition kdata : list (list Z) := [[0]; [2]; [10]; [14]; [100]].
Example C29_ex : km_iteration Z 0 1000000 Z.add zdiv Z.ltb zd kdata 2 [[0]; [10]] = Ok ([[1]; [12]], [0; 0; 1; 1]%nat).
Proof. reflexivity. Qed.
Example C29_ex_hyps : number_order Z.ltb /\ (forall x, In x kdata -> exists c, In c [[0]; [10]] /\ Z.ltb (zd x c) 1000000 = true).
Proof. split; [exact z_order|]. intros x H. exists [0]. split; [now left|]. cbn in H. repeat (destruct H as [<-|H]; [reflexivity|]). destruct H. Qed.
Example C63_ex : km_loop Z 0 1000000 Z.add zdiv Z.ltb zd 3 kdata 2 [[0]; [10]] [] = Ok ([[1]; [12]], [0; 0; 1; 1]%nat).
Proof. reflexivity. Qed.
Example C63_ex_rounds : rounds 0 1000000 Z.add zdiv Z.ltb zd 1 2 (removelast kdata) 1 [[0]; [10]] [[1]; [12]].
Proof.
  apply one_round with [0; 0; 1; 1]%nat; [|apply no_round].
  assert (F := nearest_labels Z 1000000 Z.ltb zd (removelast kdata) [[0]; [10]] z_order). exact F.
Qed.
Example C64_ex : km_init Z zeq kdata 3 1 [(0, fun _ => true); (1, fun _ => true)]%nat = Ok [[2]; [0]; [10]].
Proof. reflexivity. Qed.
Example C64_ex_few : fewer_than 3 [[1]; [2]; [1]; [2]] /\ km_init Z zeq [[1]; [2]; [1]; [2]] 3 0 [] = UB.
Proof. split; [exists [[1]; [2]]; split; [cbn; lia|intros x H; cbn in *; intuition]|reflexivity]. Qed.
Example C64_ex_run : exists r, km_run Z 0 1000000 Z.add zdiv Z.ltb zd zeq kdata 2 5 2 [] = Ok r /\ ~ fewer_than 2 kdata.
Proof.
  eexists. split; [reflexivity|]. intros (t & L & I). assert (K := NoDup_incl_length (l := [[0]; [2]]) (l' := t)).
  assert (length [[0]; [2]] <= length t)%nat; [|cbn in *; lia]. apply K; [repeat constructor; cbn; intuition discriminate|]. intros x H. apply I. cbn in *. intuition.
Qed.
