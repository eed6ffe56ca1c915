(* PropertiesKdDouble.v -- C104: the kd-tree and DBSCAN on points with double coordinates. *)
From Coq Require Import List Arith ZArith Bool Lia SpecFloat.
From Verif Require Import Base KdModel SpecKd PropertiesKd DoubleModel SpecDouble SpecText SpecKdDouble KdDouble.
Import ListNotations.

(* C104: the nearest neighbour found by the tree has the smallest distance, both computed in double arithmetic with
   all its rounding, underflow and overflow. *)
Theorem C104_nearest : forall mag srt k data size pt,
  (forall a, (mag a <= Z.abs a)%Z) -> level_sort srt -> cloud_ok k data -> size <= length data ->
  length pt = k -> Forall coordinate_ok pt ->
  let n := if size =? 0 then length data else size in
  exists t i, kd_build srt (placed data) size = Ok t /\ nearestIndex place_dist place_diff mag t (map rank pt) = Ok i /\ i < n /\
    forall j, j < n -> exists v w, distance_is (nth i data []) pt v /\ distance_is (nth j data []) pt w /\ SFleb v w = true.
Proof. intros mag srt k data size pt Hm Hs Hd Hn Lp Fp. exact (nearest_double mag Hm srt Hs k data Hd size Hn pt Lp Fp). Qed.
Print Assumptions C104_nearest.

(* C104: for a radius of 2 ^ (-511) or more the neighbourhood has only points within it, and all closer ones. *)
Theorem C104_neighbourhood : forall mag srt k data size pt rad,
  (forall a, (mag a <= Z.abs a)%Z) -> level_sort srt -> cloud_ok k data -> size <= length data ->
  length pt = k -> Forall coordinate_ok pt -> canonical rad -> SFleb smallest_radius rad = true ->
  let n := if size =? 0 then length data else size in
  exists t l, kd_build srt (placed data) size = Ok t /\ neighborhoodIndices place_dist place_diff mag t (map rank pt) (rank rad) = Ok l /\ NoDup l /\
    (forall i, In i l -> i < n /\ exists w, distance_is (nth i data []) pt w /\ SFleb w rad = true) /\
    (forall i, i < n -> (exists w, distance_is (nth i data []) pt w /\ SFltb w rad = true) -> In i l).
Proof. intros mag srt k data size pt rad Hm Hs Hd Hn. exact (neighbourhood_double mag Hm srt Hs k data Hd size Hn pt rad). Qed.
Print Assumptions C104_neighbourhood.

(* C104: below that the squares underflow, and a point can be missed although its distance is smaller than the radius. *)
(* 19/16 and 9/8 of 2 ^ (-537), the root of the smallest double. *)
Definition tiny_coordinate : double := S754_finite false (19 * 2 ^ 48) (-589).
Definition tiny_radius : double := S754_finite false (9 * 2 ^ 49) (-589).
Theorem C104_tiny_radius_refuted :
  exists data pt rad i t l, cloud_ok 1 data /\ length pt = 1 /\ Forall coordinate_ok pt /\ canonical rad /\ SFltb d_zero rad = true /\
    level_sort psort /\ kd_build psort (placed data) 0 = Ok t /\ neighborhoodIndices place_dist place_diff Z.abs t (map rank pt) (rank rad) = Ok l /\
    i < length data /\ (exists w, distance_is (nth i data []) pt w /\ SFltb w rad = true) /\ ~ In i l.
Proof.
  assert (C : coordinate_ok tiny_coordinate) by (split; [vm_compute; intuition discriminate|exact I]).
  exists [[tiny_coordinate]; [tiny_coordinate]; [tiny_coordinate]], [d_zero], tiny_radius, 2. eexists. eexists.
  split; [split; [lia|split; [discriminate|]]|].
  { intros x H. repeat (destruct H as [<-|H]; [split; [reflexivity|repeat constructor; apply C]|]). destruct H. }
  split; [reflexivity|]. split; [repeat constructor|]. split; [vm_compute; intuition discriminate|]. split; [vm_compute; reflexivity|]. split; [exact psort_sort|].
  split; [vm_compute; reflexivity|]. split; [vm_compute; reflexivity|]. split; [cbn; lia|]. split.
  - eexists. split; [vm_compute; reflexivity|vm_compute; reflexivity].
  - vm_compute. intros [H|[H|[]]]; discriminate H.
Qed.
Print Assumptions C104_tiny_radius_refuted.

(* C104: the labels of DBSCAN, relative to the true balls, when no two points are at distance exactly eps. *)
Theorem C104_dbscan : forall mag srt k data size minPoints eps fuel,
  (forall a, (mag a <= Z.abs a)%Z) -> level_sort srt -> cloud_ok k data -> size <= length data ->
  canonical eps -> SFleb smallest_radius eps = true -> (forall x y, In x data -> In y data -> ~ distance_is x y eps) ->
  let n := if size =? 0 then length data else size in
  n + n * n <= fuel ->
  exists l, dbscan place_dist place_diff mag srt fuel (placed data) minPoints (rank eps) size = Some (Ok l) /\ length l = n /\
    dbscan_labels (double_ball data eps n) minPoints n (fun p => nth p l 0%Z).
Proof. intros mag srt k data size minPoints eps fuel Hm Hs Hd Hn. exact (dbscan_double mag Hm srt Hs k data Hd size Hn minPoints eps fuel). Qed.
Print Assumptions C104_dbscan.

(* Points on a line at 0, -0, 1, 1.5 and 8, and the point 1.125; the radius is 0.75. *)
Definition line5 : list (list double) :=
  [[S754_zero false]; [S754_zero true]; [S754_finite false (2 ^ 52) (-52)]; [S754_finite false (3 * 2 ^ 51) (-52)]; [S754_finite false (2 ^ 52) (-49)]].
Definition near1 : list double := [S754_finite false (9 * 2 ^ 49) (-52)].
Definition radius75 : double := S754_finite false (3 * 2 ^ 51) (-53).
Example C104_ex : cloud_ok 1 line5 /\ Forall coordinate_ok near1 /\ canonical radius75 /\ SFleb smallest_radius radius75 = true /\
  (forall x y, In x line5 -> In y line5 -> ~ distance_is x y radius75) /\
  match kd_build psort (placed line5) 0 with
  | Ok t => nearestIndex place_dist place_diff Z.abs t (map rank near1) = Ok 2 /\
            neighborhoodIndices place_dist place_diff Z.abs t (map rank near1) (rank radius75) = Ok [2; 3]
  | UB => False
  end /\
  dbscan place_dist place_diff Z.abs psort 30 (placed line5) 2 (rank radius75) 0 = Some (Ok [1; 1; 2; 2; -1]%Z).
Proof.
  split; [split; [lia|split; [discriminate|]]|].
  { intros x H. repeat (destruct H as [<-|H]; [split; [reflexivity|constructor; [split; [vm_compute; intuition discriminate|exact I]|constructor]]|]). destruct H. }
  split; [constructor; [split; [vm_compute; intuition discriminate|exact I]|constructor]|]. split; [vm_compute; intuition discriminate|]. split; [reflexivity|].
  split; [|split; [vm_compute; split; reflexivity|vm_compute; reflexivity]].
  intros x y H H'. repeat (destruct H as [<-|H]; [repeat (destruct H' as [<-|H']; [vm_compute; discriminate|]); destruct H'|]). destruct H.
Qed.
