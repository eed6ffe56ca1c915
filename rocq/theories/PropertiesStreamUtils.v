(* PropertiesStreamUtils.v -- C88: streamingUtils. *)
From Coq Require Import List Arith ZArith Bool Lia.
From Verif Require Import Base KmeansModel StreamKmModel StreamUtilsModel SpecKmeans KmeansProofs StreamUtilsProofs.
Import ListNotations.

(* The sum of points of dimension dim, coordinate by coordinate. *)
Definition total {num} (zero : num) (add : num -> num -> num) (dim : nat) (points : list (list num)) : list num :=
  map (fun d => fold_left add (map (fun x => nth d x zero) points) zero) (seq 0 dim).

(* C88: kMeans returns, for each cluster, the sum of its points and not their mean.  The labels are those of k-means from the
   drawn points (C63); the last point has none. *)
Theorem C88_kMeans_returns_sums : forall num (zero maxn : num) add divn ltb dist dim k z draws data,
  0 < k -> 0 < z -> data <> [] -> Forall (fun x => length x = dim) data -> length draws = k -> Forall (fun i => i < length data) draws ->
  exists start means labels,
    map (nth_error data) draws = map Some start /\
    lloyd zero maxn add divn ltb dist dim k (removelast data) z start means labels /\
    su_kMeans num zero maxn add divn ltb dist k z draws data = Ok (map (fun c => total zero add dim (members (removelast data) labels c)) (seq 0 k)).
Proof.
  intros num zero maxn add divn ltb dist dim k z draws data Hk Hz N D L F. destruct (start_spec num dim k data Hk N D draws L F) as (cents & E & M & Lc).
  destruct (su_loop_spec num zero maxn add divn ltb dist dim k data Hk N D z cents [] [] Lc) as (means & labels & E1 & _ & E2). destruct (E2 Hz) as (E3 & _ & _).
  destruct (loop_lloyd num zero maxn add divn ltb dist dim k data Hk N D z cents Hz Lc) as (c1 & l1 & E4 & R). rewrite E1 in E4. injection E4 as <- <-.
  exists cents, means, labels. split; [exact M|]. split; [exact R|]. unfold su_kMeans. rewrite E. exact E3.
Qed.
Print Assumptions C88_kMeans_returns_sums.

(* C88: the draws lie between 0 and the dimension; all of them are safe exactly when there are more points than dimensions. *)
Theorem C88_kMeans_draws : forall num (zero maxn : num) add divn ltb dist dim k z data,
  0 < k -> data <> [] -> Forall (fun x => length x = dim) data ->
  ((forall draws, length draws = k -> Forall (fun i => i <= dim) draws -> su_kMeans num zero maxn add divn ltb dist k z draws data <> UB)
   <-> dim < length data).
Proof.
  intros num zero maxn add divn ltb dist dim k z data Hk N D. split.
  - intros H. destruct (lt_dec dim (length data)) as [|Hd]; auto. exfalso. apply (H (repeat dim k)); [apply repeat_length|apply Forall_forall; intros i Hi; apply repeat_spec in Hi; lia|].
    unfold su_kMeans. rewrite (start_ub num dim k data Hk N D); [reflexivity|apply repeat_length|]. intros F. rewrite Forall_forall in F. apply Hd, F.
    destruct k; [lia|]. now left.
  - intros Hd draws L F. assert (F' : Forall (fun i => i < length data) draws) by (eapply Forall_impl; [|exact F]; cbn; intros; lia).
    unfold su_kMeans. destruct (start_spec num dim k data Hk N D draws L F') as (cents & E & M & Lc). rewrite E. cbn [bind].
    destruct (su_loop_spec num zero maxn add divn ltb dist dim k data Hk N D z cents [] [] Lc) as (means & labels & E1 & E0 & E2).
    destruct z as [|z]; [rewrite E0 by auto; discriminate|]. destruct (E2 ltac:(lia)) as (E3 & _). rewrite E3. discriminate.
Qed.
Print Assumptions C88_kMeans_draws.

(* C88: without points kMeans is undefined, and without clusters as soon as there are two points and one iteration. *)
Theorem C88_kMeans_undefined : forall num (zero maxn : num) add divn ltb dist k z draws x y data,
  su_kMeans num zero maxn add divn ltb dist k z draws [] = UB /\
  su_kMeans num zero maxn add divn ltb dist 0 (S z) draws (x :: y :: data) = UB.
Proof.
  intros. split; [reflexivity|]. unfold su_kMeans, su_start. cbn [at_ nth_error bind firstn all_res foldr_ub su_loop]. unfold all_res, su_iteration. cbn [foldr_ub bind at_ nth_error length Nat.sub firstn].
  reflexivity.
Qed.
Print Assumptions C88_kMeans_undefined.

(* C88: ballKmeans has a result only for a single point, and then it is empty. *)
Theorem C88_ballKmeans_empty : forall num (add : num -> num -> num) divn ltb dist third i j clusters r,
  su_ballKmeans num add divn ltb dist third i j clusters = Ok r <-> i = 0 /\ j = 0 /\ length clusters = 1 /\ r = [].
Proof.
  intros num add divn ltb dist third i j clusters r. split.
  - unfold su_ballKmeans, at_. intros H. destruct (nth_error clusters i) as [c1|] eqn:Ei; [|discriminate]. cbn [bind] in H. destruct (nth_error clusters j) as [c2|] eqn:Ej; [|discriminate]. cbn [bind] in H.
    assert (i < length clusters) by (apply nth_error_Some; congruence). assert (j < length clusters) by (apply nth_error_Some; congruence).
    destruct clusters as [|x [|y rest]]; [cbn in *; lia| |].
    + cbn in H. injection H as <-. cbn in *. repeat split; lia.
    + exfalso. cbn [length Nat.sub seq foldr_ub] in H. unfold ball_point at 1 in H. cbn [at_ nth_error bind length seq foldr_ub] in H. unfold upd_res at 1 in H.
      destruct (ltb _ _); cbn [at_ nth_error bind] in H; discriminate.
  - intros (-> & -> & L & ->). destruct clusters as [|x [|y rest]]; try discriminate. reflexivity.
Qed.
Print Assumptions C88_ballKmeans_empty.

(* Whole numbers with truncated division, distance of the first coordinates. *)
Local Open Scope Z_scope.
Definition su_d (x y : list Z) : Z := Z.abs (nth 0 x 0 - nth 0 y 0).
Definition su_q (a : Z) (n : nat) : Z := a / Z.of_nat n.
Definition su_points : list (list Z) := [[0]; [2]; [10]; [14]; [100]].
(* The sums 2 = 0 + 2 and 24 = 10 + 14 and not the means 1 and 12. *)
Example C88_ex : su_kMeans Z 0 1000000 Z.add su_q Z.ltb su_d 2 5 [0; 1]%nat su_points = Ok [[2]; [24]].
Proof. vm_compute. reflexivity. Qed.
(* One point of the plane: the draws 1 and 2 are out of range. *)
Example C88_ex_draw : su_kMeans Z 0 1000000 Z.add su_q Z.ltb su_d 2 5 [0; 2]%nat [[3; 4]] = UB.
Proof. vm_compute. reflexivity. Qed.
Example C88_ex_ball : su_ballKmeans Z Z.add su_q Z.ltb su_d (fun a => a / 3) 0 0 [[5]] = Ok [] /\
                      su_ballKmeans Z Z.add su_q Z.ltb su_d (fun a => a / 3) 0 1 su_points = UB.
Proof. split; vm_compute; reflexivity. Qed.
