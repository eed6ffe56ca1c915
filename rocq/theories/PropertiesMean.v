(* PropertiesMean.v -- C107: how far the centroids k-means computes are from the means of their points. *)
From Coq Require Import List Arith ZArith Reals Lra Lia Bool SpecFloat Classical.
From Verif Require Import Base KmeansModel DoubleModel SpecDouble SpecText TextProofs SpecKdDouble SpecError FloatError NanModel SpecNan NanKmeans SpecMean MeanError.
Import ListNotations.
Local Open Scope R_scope.

(* C107: a run of k-means++ on points with finite coordinates, whatever the random draws.  Take a cluster of n points (the last
   data point belongs to none), n below 2 ^ 53.  If the absolute values of its j-th coordinates, with the errors of the sum, add up to less than
   2 ^ 1024, the j-th coordinate of its centroid is finite, and it differs from the true mean by at most n + 1 relative errors of the
   mean absolute value and one underflow. *)
Theorem C107_centroid_error : forall square index picks k r data dim cents labels c j,
  (forall p, In p data -> length p = dim /\ Forall coordinate_ok p) -> (0 < k)%Z -> (0 < r)%Z ->
  (index < length data)%nat -> (forall i valid, In (i, valid) picks -> (i < length data)%nat) ->
  kmeans_doubles square index picks k r data = Ok (cents, labels) ->
  (c < Z.to_nat k)%nat -> (j < dim)%nat ->
  let points := labelled (removelast data) labels c in
  let n := length points in
  (0 < n)%nat -> (Z.of_nat n < 2 ^ 53)%Z -> (1 + unit_error) ^ n * (mean_size j points * INR n) < powerRZ 2 1024 ->
  exists centroid v, nth_error cents c = Some centroid /\ nth_error centroid j = Some v /\ is_finite v /\
    Rabs (real_value v - true_mean j points) <= ((1 + unit_error) ^ (n + 1) - 1) * mean_size j points + underflow_error.
Proof.
  intros square index picks k r data dim cents labels c j Hd Hk Hr Hi Hp E Hc Hj points n Hn Lim B. unfold kmeans_doubles in E. rewrite (proj2 (Z.ltb_ge k 0)) in E by lia.
  assert (Nums : forall p x, In p data -> In x p -> is_number x /\ fits x).
  { intros p x H1 H2. destruct (Hd p H1) as [_ F]. rewrite Forall_forall in F. destruct (F x H2) as [Cx Fx]. split; [destruct x; easy|now apply canonical_fits]. }
  destruct (double_run_kmeans square data dim (Z.to_nat k) (Z.to_nat r) Nums (fun p H => proj1 (Hd p H)) ltac:(lia) ltac:(lia) index picks Hi Hp) as [U R].
  assert (Ce : cents = double_means dim (Z.to_nat k) (removelast data) labels).
  { destruct (classic (fewer_points (Z.to_nat k) data)) as [Y|N]; [rewrite (U Y) in E; discriminate|]. destruct (R N) as (start & cs & ls & E' & _ & Cs & _). rewrite E in E'. injection E' as -> ->. exact Cs. }
  assert (Op : Forall (fun x => Forall coordinate_ok x) points).
  { apply Forall_forall. intros x Hx. unfold points, labelled in Hx. apply in_map_iff in Hx as ((l & x') & <- & Hx). apply filter_In in Hx as [Hx _]. apply in_combine_r in Hx.
    apply Hd. rewrite removelast_firstn_len in Hx. rewrite <- (firstn_skipn (pred (length data)) data). apply in_app_iff. now left. }
  assert (In0 : INR n <> 0) by (apply not_0_INR; lia).
  destruct (mean_error points dim j Op Hn Lim Hj) as (v & Ev & Fv & Er). { fold n. unfold mean_size in B. fold n in B. unfold Rdiv in B. rewrite (Rmult_assoc _ (/ INR n)), Rinv_l, Rmult_1_r in B by exact In0. exact B. }
  exists (double_mean dim points), v. split; [|split; [exact Ev|split; [exact (proj2 Fv)|exact Er]]].
  rewrite Ce. unfold double_means. rewrite nth_error_map, (nth_error_nth' (seq 0 (Z.to_nat k)) 0%nat), seq_nth by (rewrite ?seq_length; exact Hc). reflexivity.
Qed.
Print Assumptions C107_centroid_error.

(* The points 1, 2, 9 and 0 with two clusters that start at 1 and 9: 1 and 2 form a cluster with centroid 1.5. *)
Definition small (n : positive) : double := binary_round 53 1024 false n 0.
Definition four_points : list (list double) := [[small 1]; [small 2]; [small 9]; [d_zero]].
Example C107_ex :
  (forall p, In p four_points -> length p = 1%nat /\ Forall coordinate_ok p) /\
  kmeans_doubles d_square 0 [(2%nat, fun _ => true)] 2 5 four_points = Ok ([[S754_finite false (3 * 2 ^ 51) (-52)]; [small 9]], [0; 0; 1]%nat) /\
  labelled (removelast four_points) [0; 0; 1]%nat 0 = [[small 1]; [small 2]] /\
  (1 + unit_error) ^ 2 * (mean_size 0 [[small 1]; [small 2]] * INR 2) < powerRZ 2 1024 /\ true_mean 0 [[small 1]; [small 2]] = 3 / 2.
Proof.
  assert (V1 : real_value (small 1) = 1).
  { change (small 1) with (S754_finite false (2 ^ 52) (- Z.of_nat 52)). cbn [real_value]. rewrite powerRZ_neg', <- pow_powerRZ. replace (IZR (Zpos (2 ^ 52))) with (2 ^ 52) by (cbn; lra). field; try (apply pow_nonzero; lra). }
  assert (V2 : real_value (small 2) = 2).
  { change (small 2) with (S754_finite false (2 ^ 52) (- Z.of_nat 51)). cbn [real_value]. rewrite powerRZ_neg', <- pow_powerRZ. replace (IZR (Zpos (2 ^ 52))) with (2 * 2 ^ 51) by (cbn; lra). field; try (apply pow_nonzero; lra). }
  split. { intros p [<-|[<-|[<-|[<-|[]]]]]; (split; [reflexivity|]); (constructor; [|constructor]); split; try exact I; vm_compute; intuition discriminate. }
  split; [vm_compute; reflexivity|]. split; [reflexivity|]. unfold mean_size, true_mean, coordinates, total. cbn [map fold_right nth length]. rewrite V1, V2. split.
  - rewrite (Rabs_pos_eq 1), (Rabs_pos_eq 2) by lra. cbn [INR]. assert (U := u_pos). apply Rle_lt_trans with ((1 + / 2) ^ 2 * 3).
    + replace ((1 + (2 + 0)) / (1 + 1) * (1 + 1)) with 3 by field. apply Rmult_le_compat_r; [lra|]. apply pow_incr. lra.
    + change 1024%Z with (Z.of_nat 1024). rewrite <- pow_powerRZ. apply Rlt_le_trans with (2 ^ 6); [cbn; lra|]. apply Rle_pow; [lra|]. apply Nat.leb_le. vm_compute. reflexivity.
  - cbn [INR]. field.
Qed.
