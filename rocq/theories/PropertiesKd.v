(* PropertiesKd.v -- C26, C27, C28: the kd-tree and DBSCAN. *)
From Coq Require Import List Arith ZArith Bool Lia Sorted Permutation.
From Verif Require Import Base KdModel SpecKd KdProofs DbscanProofs.
Import ListNotations.

(* C26: the nearest neighbour returned is at minimal distance; the remaining cases are outside the contract. *)
Theorem C26_nearest_is_minimal : forall dist diff mag srt k data size pt,
  sound_numbers dist diff mag -> level_sort srt -> uniform k data -> length pt = k -> size <= length data ->
  let n := if size =? 0 then length data else size in
  exists t i, kd_build srt data size = Ok t /\ nearestIndex dist diff mag t pt = Ok i /\ i < n /\
    forall j, j < n -> (dist (nth i data []) pt <= dist (nth j data []) pt)%Z.
Proof. exact nearestIndex_spec. Qed.
Print Assumptions C26_nearest_is_minimal.

(* C26: asking for more points than there are, or for the nearest point of no points, is undefined. *)
Theorem C26_nearest_undefined : forall dist diff mag srt data size pt,
  (length data < size -> kd_build srt data size = UB) /\
  (exists t, kd_build srt [] 0 = Ok t /\ nearestIndex dist diff mag t pt = UB).
Proof.
  intros. split.
  - intros L. unfold kd_build. destruct (Nat.eqb_spec size 0); [lia|]. now rewrite build_out.
  - eexists. split; reflexivity.
Qed.
Print Assumptions C26_nearest_undefined.

(* C27: only points within rad, none twice, every point closer than rad. *)
Theorem C27_neighbourhood : forall dist diff mag srt k data size pt rad,
  sound_numbers dist diff mag -> level_sort srt -> uniform k data -> length pt = k -> size <= length data ->
  let n := if size =? 0 then length data else size in
  exists t l, kd_build srt data size = Ok t /\ neighborhoodIndices dist diff mag t pt rad = Ok l /\ NoDup l /\
    (forall i, In i l -> i < n /\ (dist (nth i data []) pt <= rad)%Z) /\
    (forall i, i < n -> (dist (nth i data []) pt < rad)%Z -> In i l).
Proof. exact neighborhoodIndices_spec. Qed.
Print Assumptions C27_neighbourhood.

(* Chebyshev distance, exact arithmetic, insertion sort. *)
Fixpoint cheb (x y : point) : Z :=
  match x, y with a :: x', b :: y' => Z.max (Z.abs (a - b)) (cheb x' y') | _, _ => 0%Z end.
Fixpoint pins (level : nat) (a : pointIndex) (l : list pointIndex) : list pointIndex :=
  match l with [] => [a] | b :: l' => if (coordinate (fst a) level <=? coordinate (fst b) level)%Z then a :: l else b :: pins level a l' end.
Definition psort (level : nat) (l : list pointIndex) : list pointIndex := fold_right (pins level) [] l.
Lemma psort_sort : level_sort psort.
Proof.
  intros level l. unfold psort. induction l as [|a l [P S]]; [split; constructor|]. cbn [fold_right]. set (r := fold_right (pins level) [] l) in *. clearbody r. split.
  - apply Permutation_trans with (a :: r); [now apply perm_skip|]. clear. induction r as [|b r IH]; cbn; [apply Permutation_refl|]. destruct (_ <=? _)%Z; [apply Permutation_refl|].
    eapply Permutation_trans; [apply perm_swap|]. now apply perm_skip.
  - clear P. induction S as [|b r S IH F]; cbn; [repeat constructor|]. destruct (Z.leb_spec (coordinate (fst a) level) (coordinate (fst b) level)).
    + constructor; [now constructor|]. constructor; [exact H|]. eapply Forall_impl; [|exact F]. cbn. intros; lia.
    + constructor; [exact IH|]. rewrite Forall_forall in *. intros q Hq. assert (In q (a :: r)).
      { clear -Hq. induction r as [|c r IH]; cbn in *; [tauto|]. destruct (_ <=? _)%Z; cbn in *; intuition. }
      destruct H0 as [<-|H0]; [lia|now apply F].
Qed.
Lemma cheb_sound : sound_numbers cheb Z.sub Z.abs.
Proof.
  split; [intros; lia|]. split; [intros; lia|]. induction x as [|a x IH]; intros [|b y] i L H; cbn in L, H; try lia.
  destruct i as [|i]; cbn [coordinate nth cheb]; [lia|]. assert (K := IH y i ltac:(lia) ltac:(lia)). unfold coordinate in *. cbn [nth]. lia.
Qed.
(* abs on int of a double: any value not above the absolute value, e.g. rounded down to a multiple of 10. *)
Lemma cheb_sound_truncated : sound_numbers cheb Z.sub (fun a => (Z.abs a / 10 * 10)%Z).
Proof. destruct cheb_sound as (A & B & C). split; [exact A|]. split; [|exact C]. intros a. assert (K := Z.mul_div_le (Z.abs a) 10). lia. Qed.
Definition five : list point := [[2; 3]; [5; 4]; [9; 6]; [4; 7]; [8; 1]]%Z.
Lemma five_uniform : uniform 2 five.
Proof. split; [lia|]. split; [discriminate|]. intros x H. cbn in H. repeat (destruct H as [<-|H]; [reflexivity|]). destruct H. Qed.
Example C26_ex : match kd_build psort five 0 with Ok t => nearestIndex cheb Z.sub Z.abs t [7; 2]%Z = Ok 4 | UB => False end.
Proof. reflexivity. Qed.
Example C27_ex : match kd_build psort five 0 with Ok t => neighborhoodIndices cheb Z.sub Z.abs t [5; 4]%Z 4%Z = Ok [1; 2; 4; 3; 0] | UB => False end.
Proof. reflexivity. Qed.

(* C27: a point at distance exactly rad can be missed. *)
Theorem C27_sphere_points_can_be_missed :
  exists data pt rad i t l, uniform 1 data /\ length pt = 1 /\ level_sort psort /\ sound_numbers cheb Z.sub Z.abs /\
    kd_build psort data 0 = Ok t /\ neighborhoodIndices cheb Z.sub Z.abs t pt rad = Ok l /\
    i < length data /\ cheb (nth i data []) pt = rad /\ ~ In i l.
Proof.
  exists [[5]; [5]; [0]]%Z, [0%Z], 5%Z, 1. eexists. eexists. split; [|split; [reflexivity|split; [exact psort_sort|split; [exact cheb_sound|split; [reflexivity|split; [reflexivity|]]]]]].
  - split; [lia|]. split; [discriminate|]. intros x H. cbn in H. repeat (destruct H as [<-|H]; [reflexivity|]). destruct H.
  - split; [cbn; lia|]. split; [reflexivity|]. vm_compute. intros [H|[H|[]]]; discriminate H.
Qed.
Print Assumptions C27_sphere_points_can_be_missed.

(* C28: the labels, relative to the true balls, when no two points are at distance exactly epsilon. *)
Theorem C28_dbscan : forall dist diff mag srt k data minPoints epsilon size fuel,
  sound_numbers dist diff mag -> level_sort srt -> uniform k data -> size <= length data ->
  (forall x y, dist x y = dist y x) -> (forall x, In x data -> dist x x < epsilon)%Z ->
  (forall x y, In x data -> In y data -> dist x y <> epsilon) ->
  let n := if size =? 0 then length data else size in
  n + n * n <= fuel ->
  exists l, dbscan dist diff mag srt fuel data minPoints epsilon size = Some (Ok l) /\ length l = n /\
    dbscan_labels (ball dist data epsilon n) minPoints n (fun p => nth p l 0%Z).
Proof. exact dbscan_spec. Qed.
Print Assumptions C28_dbscan.

(* C28: the same for any source of neighbour lists that is symmetric between core points. *)
Theorem C28_cluster_any_neighbours : forall nb nbr minPoints n fuel,
  (forall i, i < n -> nbr i = Ok (nb i)) -> (forall i j, i < n -> In j (nb i) -> j < n) ->
  (forall i, i < n -> core nb minPoints i -> In i (nb i)) ->
  (forall i j, i < n -> j < n -> core nb minPoints i -> core nb minPoints j -> In j (nb i) -> In i (nb j)) ->
  enough_fuel nb n <= fuel ->
  exists l, cluster nbr minPoints fuel n = Some (Ok l) /\ length l = n /\ dbscan_labels nb minPoints n (fun p => nth p l 0%Z).
Proof. exact cluster_labels. Qed.
Print Assumptions C28_cluster_any_neighbours.

Definition six : list point := [[0]; [2]; [4]; [50]; [52]; [90]]%Z.
Lemma cheb_sym x y : cheb x y = cheb y x.
Proof. revert y. induction x as [|a x IH]; intros [|b y]; cbn; auto. rewrite IH. f_equal. lia. Qed.
Example C28_ex : uniform 1 six /\ (forall x, In x six -> cheb x x < 3)%Z /\ (forall x y, In x six -> In y six -> cheb x y <> 3%Z) /\
  dbscan cheb Z.sub Z.abs psort 42 six 2 3 0 = Some (Ok [1; 1; 1; 2; 2; -1]%Z).
Proof.
  split; [|split; [|split; [|reflexivity]]].
  - split; [lia|]. split; [discriminate|]. intros x H. cbn in H. repeat (destruct H as [<-|H]; [reflexivity|]). destruct H.
  - intros x H. cbn in H. repeat (destruct H as [<-|H]; [reflexivity|]). destruct H.
  - intros x y H. cbn in H. repeat (destruct H as [<-|H]; [intros H'; cbn in H'; repeat (destruct H' as [<-|H']; [discriminate|]); destruct H'|]). destruct H.
Qed.

(* C28: with epsilon = 0 a point can be left with label 0, which means neither noise nor cluster. *)
Theorem C28_epsilon_zero_leaves_unvisited :
  exists data l, uniform 1 data /\ dbscan cheb Z.sub Z.abs psort 6 data 1 0 0 = Some (Ok l) /\ In 0%Z l.
Proof.
  exists [[7]; [7]]%Z. eexists. split; [|split; [vm_compute; reflexivity|cbn; auto]].
  split; [lia|]. split; [discriminate|]. intros x H. cbn in H. repeat (destruct H as [<-|H]; [reflexivity|]). destruct H.
Qed.
Print Assumptions C28_epsilon_zero_leaves_unvisited.
