(* PropertiesRadius.v -- C109: the partitions of the reduced mode in double arithmetic. *)
From Coq Require Import List Arith ZArith Reals Lra Lia Bool SpecFloat.
From Verif Require Import PropertiesMean Base Spec UtilsModel DoubleModel SpecDouble SpecText TextProofs SpecKdDouble SpecError FloatError KmeansModel NanModel SpecNan SpecMean SpecRadius RadiusDouble.
Import ListNotations.

(* C109: points with finite coordinates, centroids with finite coordinates or (the centroid of an empty cluster) with a coordinate
   that is not a number, and labels of the first points that name centroids of the first kind.  Distances are compared by their places in the
   order of the doubles.  The radius is the largest computed distance of a labelled point to its centroid, and the rows are the balls of
   twice the radius around the centroids, computed in doubles.  If the radius is positive and finite, every labelled point is in the row of
   its own centroid; if the radius is zero, every row is empty. *)
Theorem C109_partitions_of_doubles : forall dim data cents labels,
  (forall x, In x data -> length x = dim /\ Forall coordinate_ok x) ->
  (forall c, In c cents -> length c = dim /\ (Forall coordinate_ok c \/ In S754_nan c)) ->
  length labels <= length data ->
  (forall j, In j labels -> exists c, nth_error cents j = Some c /\ Forall coordinate_ok c) ->
  exists r idx rows,
    computeMaxRadius point_place cents data labels = Ok (rank r) /\
    separatePartitionsRad point_place (rank (twice r)) cents data labels = Ok (idx, rows) /\
    radius_and_rows data cents labels r idx rows /\
    (is_finite r -> SFltb d_zero r = true -> forall i j, nth_error labels i = Some j -> exists row, nth_error idx j = Some row /\ In i row) /\
    (is_zero r -> forall row, In row idx -> row = []).
Proof. exact radius_partitions. Qed.
Print Assumptions C109_partitions_of_doubles.

(* The same after a run of k-means++, whatever the random draws, if no sum of coordinates of a cluster comes near 2 ^ 1024: the centroids
   and the labels it returns meet the conditions.  So every point but the last, which k-means does not label, is in the row of its own
   centroid if the radius is positive and finite. *)
Theorem C109_partitions_after_kmeans : forall index picks k r data dim cents labels,
  (forall p, In p data -> length p = dim /\ Forall coordinate_ok p) -> 0 < dim -> (0 < k)%Z -> (0 < r)%Z ->
  index < length data -> (forall i valid, In (i, valid) picks -> i < length data) ->
  kmeans_doubles d_square index picks k r data = Ok (cents, labels) ->
  (Z.of_nat (length data) < 2 ^ 53)%Z ->
  (forall c j, c < Z.to_nat k -> j < dim ->
    let points := labelled (removelast data) labels c in
    ((1 + unit_error) ^ length points * (mean_size j points * INR (length points)) < powerRZ 2 1024)%R) ->
  exists rad idx rows,
    computeMaxRadius point_place cents data labels = Ok (rank rad) /\
    separatePartitionsRad point_place (rank (twice rad)) cents data labels = Ok (idx, rows) /\
    radius_and_rows data cents labels rad idx rows /\
    (is_finite rad -> SFltb d_zero rad = true -> forall i, i < length data - 1 -> exists j row, nth_error labels i = Some j /\ nth_error idx j = Some row /\ In i row) /\
    (is_zero rad -> forall row, In row idx -> row = []).
Proof.
  intros index picks k r data dim cents labels Hd Hdim Hk Hr Hi Hp Run Few Small.
  destruct (kmeans_ready index picks k r data dim cents labels Hd Hdim Hk Hr Hi Hp Run Few Small) as (L1 & L2 & L3 & L4).
  destruct (radius_partitions dim data cents labels Hd L3 ltac:(lia) L4) as (rad & idx & rows & E1 & E2 & E3 & E4 & E5). exists rad, idx, rows.
  split; [exact E1|]. split; [exact E2|]. split; [exact E3|]. split; [|exact E5]. intros F P i Li.
  destruct (nth_error labels i) as [j|] eqn:Ej; [|apply nth_error_None in Ej; lia]. destruct (E4 F P i j Ej) as (row & R1 & R2). exists j, row. auto.
Qed.
Print Assumptions C109_partitions_after_kmeans.

(* The points 1, 2 and 9, the last of them alone: the radius is 0.5, and the third centroid, which is not a number, has an empty row. *)
Definition num (n : positive) : double := binary_round 53 1024 false n 0.
Definition three_points : list (list double) := [[num 1]; [num 2]; [num 9]].
Definition three_cents : list (list double) := [[S754_finite false (3 * 2 ^ 51) (-52)]; [num 9]; [S754_nan]].
Definition half : double := S754_finite false (2 ^ 52) (-53).
Example C109_ex :
  (forall x, In x three_points -> length x = 1 /\ Forall coordinate_ok x) /\
  (forall c, In c three_cents -> length c = 1 /\ (Forall coordinate_ok c \/ In S754_nan c)) /\
  (forall j, In j [0; 0; 1] -> exists c, nth_error three_cents j = Some c /\ Forall coordinate_ok c) /\
  computeMaxRadius point_place three_cents three_points [0; 0; 1] = Ok (rank half) /\
  separatePartitionsRad point_place (rank (twice half)) three_cents three_points [0; 0; 1] = Ok ([[0; 1]; [2]; []], [[[num 1]; [num 2]]; [[num 9]]; []]).
Proof.
  assert (C : forall x, In x [num 1; num 2; num 9; S754_finite false (3 * 2 ^ 51) (-52)] -> coordinate_ok x).
  { intros x [<-|[<-|[<-|[<-|[]]]]]; split; try exact I; vm_compute; intuition discriminate. }
  split. { intros x [<-|[<-|[<-|[]]]]; (split; [reflexivity|]); (constructor; [|constructor]); apply C; cbn; auto. }
  split. { intros x [<-|[<-|[<-|[]]]]; (split; [reflexivity|]); [left|left|right; now left]; (constructor; [|constructor]); apply C; cbn; auto. }
  split. { intros j [<-|[<-|[<-|[]]]]; eexists; (split; [reflexivity|]); (constructor; [|constructor]); apply C; cbn; auto. }
  split; vm_compute; reflexivity.
Qed.
(* The run of k-means in the example of C107 meets the conditions of the second theorem. *)
Example C109_kmeans_ex :
  let labels := [0; 0; 1] in
  (forall p, In p four_points -> length p = 1 /\ Forall coordinate_ok p) /\
  kmeans_doubles d_square 0 [(2, fun _ => true)] 2 5 four_points = Ok ([[S754_finite false (3 * 2 ^ 51) (-52)]; [num 9]], labels) /\
  (Z.of_nat (length four_points) < 2 ^ 53)%Z /\
  (forall c j, c < Z.to_nat 2 -> j < 1 ->
    let points := labelled (removelast four_points) labels c in
    ((1 + unit_error) ^ length points * (mean_size j points * INR (length points)) < powerRZ 2 1024)%R).
Proof.
  destruct C107_ex as (A & B & C & D & _). cbv zeta. split; [exact A|]. split; [exact B|]. split; [reflexivity|]. intros c j Hc Hj.
  assert (j = 0) by lia. subst j. assert (Q : c = 0 \/ c = 1) by lia. destruct Q as [-> | ->]; [rewrite C; exact D|].
  change (labelled (removelast four_points) [0; 0; 1] 1) with [[num 9]].
  assert (V9 : real_value (num 9) = 9%R).
  { change (num 9) with (S754_finite false (9 * 2 ^ 49) (- Z.of_nat 49)). cbn [real_value]. rewrite powerRZ_neg', <- pow_powerRZ. replace (IZR (Zpos (9 * 2 ^ 49))) with (9 * 2 ^ 49)%R by (cbn; lra). field; try (apply pow_nonzero; lra). }
  unfold mean_size, coordinates, total. cbn [map fold_right nth length]. rewrite V9, (Rabs_pos_eq 9) by lra. cbn [INR]. assert (U := u_pos). apply Rle_lt_trans with ((1 + / 2) ^ 1 * 9)%R.
  - replace ((9 + 0) / 1 * 1)%R with 9%R by field. apply Rmult_le_compat_r; [lra|]. apply pow_incr. lra.
  - change 1024%Z with (Z.of_nat 1024). rewrite <- pow_powerRZ. apply Rlt_le_trans with (2 ^ 6)%R; [cbn; lra|]. apply Rle_pow; [lra|]. apply Nat.leb_le. vm_compute. reflexivity.
Qed.
