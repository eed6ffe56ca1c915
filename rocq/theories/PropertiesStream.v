(* PropertiesStream.v -- C40, C41, C66, C67, C68, C69: DenStream and streaming k-means. *)
From Coq Require Import List Arith ZArith QArith Qcanon Qpower Bool Lia.
From Verif Require Import Base KdModel SpecKd PropertiesKd DenStreamModel SpecDenStream DenStreamProofs DenStreamRuns StreamKmModel SpecStreamKm StreamKmProofs.
Import ListNotations.
Open Scope nat_scope.

(* C40: the first of the micro-clusters whose centres are nearest. *)
Theorem C40_nearest_micro_cluster : forall (distq : list Qc -> list Qc -> Qc) (ms : list micro) (pt : list Qc),
  (ms <> [] -> exists i m, nearestCluster distq ms pt = Ok i /\ nth_error ms i = Some m /\
     forall j m', nth_error ms j = Some m' ->
       (distq (mc_center m) pt <= distq (mc_center m') pt)%Qc /\ (j < i -> (distq (mc_center m) pt < distq (mc_center m') pt)%Qc)) /\
  (ms = [] -> nearestCluster distq ms pt = UB).
Proof. intros. split; [apply nearest_spec|now intros ->]. Qed.
Print Assumptions C40_nearest_micro_cluster.

(* |a - b| of the first coordinates. *)
Definition gap1 (x y : list Qc) : Qc :=
  let d := (coord x 0 - coord y 0)%Qc in if q_le 0%Qc d then d else (- d)%Qc.
Definition at1 (z : Z) : micro := mkMicro 0 [q_of z] [q_of (z * z)] 1%Qc 0.
Example C40_ex : nearestCluster gap1 [at1 9; at1 4; at1 8; at1 4; at1 (-20)] [q_of 6] = Ok 1.
Proof. vm_compute. reflexivity. Qed.

(* C41: the binary search ends within n rounds and brackets the query; -1 when the query is not above the first value. *)
Theorem C41_binary_search : forall num (leb ltb : num -> num -> bool) fuel (sorted : list (num * nat)) n p,
  total_order leb ltb -> ascending leb sorted -> 0 < n <= length sorted -> n <= fuel ->
  exists r, binarySearch num leb ltb fuel sorted n p = Some (Ok r) /\ (-1 <= r < Z.of_nat n)%Z /\
    (r = -1 <-> exists a, nth_error sorted 0 = Some a /\ leb p (fst a) = true)%Z /\
    (0 <= r -> exists a, nth_error sorted (Z.to_nat r) = Some a /\ leb (fst a) p = true)%Z /\
    (0 <= r < Z.of_nat n - 1 -> exists b, nth_error sorted (S (Z.to_nat r)) = Some b /\ leb p (fst b) = true)%Z /\
    (r = Z.of_nat n - 1 -> exists a, nth_error sorted (n - 1) = Some a /\ ltb (fst a) p = true)%Z.
Proof. exact search_spec. Qed.
Print Assumptions C41_binary_search.

Definition keys : list (Z * nat) := [(2%Z, 3); (5%Z, 0); (5%Z, 1); (5%Z, 4); (9%Z, 2)].
Example C41_ex : total_order Z.leb Z.ltb /\ ascending Z.leb keys /\
  map (fun p => binarySearch Z Z.leb Z.ltb 5 keys 5 p) [1; 2; 4; 5; 6; 9; 12]%Z =
    map (fun r => Some (Ok r)) [-1; -1; 0; 2; 3; 3; 4]%Z.
Proof.
  split; [|split; [|reflexivity]].
  - split; [intros a b; rewrite !Z.leb_le; lia|]. split; [intros a b c; rewrite !Z.leb_le; lia|]. intros a b. rewrite Z.ltb_antisym. reflexivity.
  - intros i a b. do 5 (destruct i as [|i]; [cbn; intros A B; inversion A; inversion B; subst; reflexivity|]). cbn. destruct i; discriminate.
Qed.

(* C41: with a value that is not a number in the middle the search never ends, whatever the bound on the rounds. *)
Definition nan_leb (a b : option Z) : bool := match a, b with Some x, Some y => (x <=? y)%Z | _, _ => false end.
Definition nan_ltb (a b : option Z) : bool := match a, b with Some x, Some y => (x <? y)%Z | _, _ => false end.
Theorem C41_not_a_number_never_ends : forall fuel p, (1 < p <= 3)%Z ->
  binarySearch (option Z) nan_leb nan_ltb fuel [(Some 1%Z, 0); (None, 1); (Some 3%Z, 2)] 3 (Some p) = None.
Proof.
  intros fuel p H. unfold binarySearch. change (3 =? 0) with false. cbn. destruct (Z.leb_spec p 1); [lia|]. destruct (Z.ltb_spec 3 p); [lia|]. induction fuel as [|fuel IH]; [reflexivity|exact IH].
Qed.
Print Assumptions C41_not_a_number_never_ends.

(* C66: after any insertions, in any order of the times, a micro-cluster knows the faded weight, mean and spread of
   the points inserted, and mergeRadius is the radius there would be after inserting the point. *)
Theorem C66_micro_cluster_summary : forall decay root dim t0 (h : history),
  fading decay -> (forall e, In e h -> length (snd e) = dim) ->
  exists m, foldr_ub (fun m e => insertPoint decay m (snd e) (fst e)) (new_micro t0 dim) h = Ok m /\
    (forall T, getWeight decay m T = faded_weight decay T h) /\
    (forall T, mc_center m = faded_center decay T h dim) /\
    (forall T, getRadius root m = Ok (root (faded_spread decay T h dim)) /\ (0 <= faded_spread decay T h dim)%Qc) /\
    (forall x t, length x = dim -> exists m', insertPoint decay m x t = Ok m' /\ mergeRadius decay root m x t = getRadius root m').
Proof.
  intros decay root dim t0 h F H. destruct (history_spec decay F dim t0 h H) as (m & E & S). exists m. split; [exact E|].
  split; [intros; now apply (weight_spec decay F dim)|]. split; [intros; now apply (center_spec decay F dim)|].
  split; [intros; split; [now apply radius_spec|now apply spread_nonneg]|].
  intros x t L. destruct (insert_spec decay F dim m h x t S L) as (m' & E' & S' & _). exists m'. split; [exact E'|].
  rewrite (mergeRadius_spec decay root F dim m h x t t S L). symmetry. now apply radius_spec.
Qed.
Print Assumptions C66_micro_cluster_summary.

(* lambda = 1: weights halve in every unit of time. *)
Definition halving (t : Z) : Qc := Q2Qc ((1 # 2) ^ t).
Lemma halving_fades : fading halving.
Proof.
  split; [reflexivity|]. split.
  - intros a b. unfold halving. apply Qc_is_canon. cbn [this Q2Qc Qcmult]. rewrite !Qred_correct. apply Qpower_plus. discriminate.
  - intros a. unfold halving, Qclt. cbn [this Q2Qc]. rewrite !Qred_correct. apply Qpower_0_lt. reflexivity.
Qed.
Definition two_points : history := [(0%Z, [q_of 0; q_of 6]); (1%Z, [q_of 3; q_of 0])].
Example C66_ex : fading halving /\ (forall e, In e two_points -> length (snd e) = 2) /\
  this (faded_weight halving 1 two_points) = 3 # 2 /\ map this (faded_center halving 1 two_points 2) = [2 # 1; 2 # 1] /\
  this (faded_spread halving 1 two_points 2) = 10 # 1 /\ this (faded_weight halving 2 two_points) = 3 # 4.
Proof. split; [exact halving_fades|]. split; [intros e [<-|[<-|[]]]; reflexivity|]. repeat split; vm_compute; reflexivity. Qed.

(* C67: DenStream on at least 1000 points.  The new points are the faded means of disjoint groups of the points; every
   group either is a DBSCAN cluster of the first 1000 points that no later point joined, or has radius at most epsilon;
   a group is empty only when DBSCAN found nothing but noise; every group began as a DBSCAN cluster or as a group that
   came to weigh more than 2; if the last point is followed by a check, every group weighs at least 2; and if there is no
   check, no point of a DBSCAN cluster is lost. *)
Theorem C67_denstream : forall decay root distq dist diff mag srt Tp epsilon fuel k data,
  fading decay -> sound_numbers dist diff mag -> level_sort srt -> uniform k data -> 1000 <= length data ->
  (forall x y, dist x y = dist y x) -> (forall x, In x data -> dist x x < epsilon)%Z ->
  (forall x y, In x data -> In y data -> dist x y <> epsilon) -> 1000 + 1000 * 1000 <= fuel -> Tp <> 0%Z ->
  exists labels groups, dbscan dist diff mag srt fuel data 20 epsilon 1000 = Some (Ok labels) /\
    (forall T, denStream_preprocess decay root distq dist diff mag srt Tp fuel epsilon data =
      Some (Ok (map (fun g => faded_center decay T (history_of 1000 data g) k) groups))) /\
    NoDup (concat groups) /\ (forall i, In i (concat groups) -> i < length data) /\
    (forall g, In g groups ->
      ((exists c, (0 < c)%Z /\ g = labelled labels 1000 c) \/
       (forall T, (root (faded_spread decay T (history_of 1000 data g) k) <= q_of epsilon)%Qc)) /\
      (g = [] -> forall p, p < 1000 -> nth p labels 0%Z = (-1)%Z) /\
      (exists g1 g2, g = g1 ++ g2 /\
         ((exists c, (0 < c)%Z /\ g1 = labelled labels 1000 c) \/
          (exists g0 j, g1 = g0 ++ [j] /\ (q_of 2 < faded_weight decay (arrival 1000 j) (history_of 1000 data g1))%Qc))) /\
      (forall i, 1000 <= i -> S i = length data -> S i mod 20 = 0 /\ Z.rem (Z.of_nat (S i / 20)) Tp = 0%Z ->
         (q_of 2 <= faded_weight decay (arrival 1000 i) (history_of 1000 data g))%Qc)) /\
    ((forall i, 1000 <= i < length data -> ~ (S i mod 20 = 0 /\ Z.rem (Z.of_nat (S i / 20)) Tp = 0%Z)) ->
       forall p, p < 1000 -> (0 < nth p labels 0)%Z -> In p (concat groups)).
Proof.
  intros decay root distq dist diff mag srt Tp epsilon fuel k data F Num Srt U L Sym Self Ties Fu TpN.
  exact (denStream_spec decay root distq dist diff mag srt Tp epsilon fuel 1000 k data F Num Srt U (Nat.lt_0_succ 999) L Sym Self Ties Fu TpN).
Qed.
Print Assumptions C67_denstream.

(* C67: a check at time T keeps exactly the groups that weigh at least 2, and exactly the outlier groups that weigh at least
   what a group created at the same time would weigh if it had got a point every Tp units of time. *)
Definition grown (decay : Z -> Qc) (dim : nat) (e : Z * history) (m : micro) : Prop :=
  foldr_ub (fun m x => insertPoint decay m (snd x) (fst x)) (new_micro (fst e) dim) (snd e) = Ok m.
Theorem C67_check_drops_exactly_the_light_groups : forall decay Tp dim (hp ho : list (Z * history)) ps os T,
  fading decay -> (forall e x, In e (hp ++ ho) -> In x (snd e) -> length (snd x) = dim) ->
  Forall2 (grown decay dim) hp ps -> Forall2 (grown decay dim) ho os ->
  Forall2 (grown decay dim) (filter (fun e => q_le (q_of 2) (faded_weight decay T (snd e))) hp) (fst (prune decay Tp (ps, os) T)) /\
  Forall2 (grown decay dim)
    (filter (fun e => q_le ((decay (T - fst e + Tp)%Z - 1) / (decay Tp - 1))%Qc (faded_weight decay T (snd e))) ho) (snd (prune decay Tp (ps, os) T)).
Proof. exact prune_spec. Qed.
Print Assumptions C67_check_drops_exactly_the_light_groups.
Example C67_check_ex : exists m1 m2, grown halving 1 (0%Z, [(0%Z, [q_of 5]); (1%Z, [q_of 5]); (1%Z, [q_of 8])]) m1 /\ grown halving 1 (0%Z, [(0%Z, [q_of 5])]) m2 /\
  prune halving 1 ([m1; m2], [m1; m2]) 1 = ([m1], [m1]).
Proof. do 2 eexists. split; [unfold grown; vm_compute; reflexivity|]. split; [unfold grown; vm_compute; reflexivity|]. vm_compute. reflexivity. Qed.

(* C67: on fewer than 1000 points DenStream reads past the end of the data. *)
Theorem C67_denstream_needs_1000_points : forall decay root distq dist diff mag srt Tp epsilon fuel data, length data < 1000 ->
  denStream_preprocess decay root distq dist diff mag srt Tp fuel epsilon data = Some UB.
Proof. intros. now apply denStream_short. Qed.
Print Assumptions C67_denstream_needs_1000_points.

(* 1040 points in 40 places; distances are multiples of 3. *)
Definition places (n : nat) : list point := map (fun i => [3 * Z.of_nat (i mod 40) + 1]%Z) (seq 0 n).
Definition apart (n : nat) : list point := map (fun i => [3 * Z.of_nat i + 1]%Z) (seq 0 n).
Lemma thirds_ok f n : n <> 0 -> let data := map (fun i => [3 * Z.of_nat (f i) + 1]%Z) (seq 0 n) in
  uniform 1 data /\ (forall x, In x data -> cheb x x < 2)%Z /\ (forall x y, In x data -> In y data -> cheb x y <> 2%Z).
Proof.
  intros N data. split; [|split].
  - split; [lia|]. split; [unfold data; destruct n; [congruence|discriminate]|]. intros x Hx. apply in_map_iff in Hx as (i & <- & _). reflexivity.
  - intros x Hx. apply in_map_iff in Hx as (i & <- & _). cbn [cheb]. lia.
  - intros x y Hx Hy. apply in_map_iff in Hx as (i & <- & _), Hy as (j & <- & _). cbn [cheb]. lia.
Qed.
Lemma places_ok n : n <> 0 -> uniform 1 (places n) /\ length (places n) = n /\ (forall x, In x (places n) -> cheb x x < 2)%Z /\
  (forall x y, In x (places n) -> In y (places n) -> cheb x y <> 2%Z).
Proof.
  intros N. destruct (thirds_ok (fun i => i mod 40) n N) as (A & B & C). split; [exact A|]. split; [unfold places; now rewrite map_length, seq_length|]. split; [exact B|exact C].
Qed.
Example C67_ex : fading halving /\ sound_numbers cheb Z.sub Z.abs /\ level_sort psort /\ (forall x y, cheb x y = cheb y x) /\
  uniform 1 (places 1040) /\ length (places 1040) = 1040 /\ (forall x, In x (places 1040) -> cheb x x < 2)%Z /\
  (forall x y, In x (places 1040) -> In y (places 1040) -> cheb x y <> 2%Z).
Proof. split; [exact halving_fades|]. split; [exact cheb_sound|]. split; [exact psort_sort|]. split; [exact cheb_sym|]. apply places_ok. discriminate. Qed.
(* The same program with 60 points to start with instead of 1000: 30 points at 0, 30 at 100, then five at 50 and at 0. *)
Definition small_stream : list point := repeat [0%Z] 30 ++ repeat [100%Z] 30 ++ repeat [50%Z] 3 ++ repeat [4%Z] 2.
Example C67_small_ex : match denStream_run halving (fun v => v) gap1 cheb Z.sub Z.abs psort 1 3700 60 7 small_stream with
  | Some (Ok l) => map (map this) l = [[1 # 4]; [100 # 1]; [50 # 1]]%Q | _ => False end.
Proof. vm_compute. reflexivity. Qed.

(* C68: when the first 1000 points are all the data and all noise, the new data is one point, the origin. *)
Theorem C68_noise_becomes_the_origin : forall decay root distq dist diff mag srt Tp epsilon fuel k data,
  fading decay -> sound_numbers dist diff mag -> level_sort srt -> uniform k data -> length data = 1000 ->
  (forall x y, dist x y = dist y x) -> (forall x, In x data -> dist x x < epsilon)%Z ->
  (forall x y, In x data -> In y data -> dist x y <> epsilon) -> 1000 + 1000 * 1000 <= fuel ->
  (forall i, i < 1000 -> length (ball dist data epsilon 1000 i) < 20) ->
  denStream_preprocess decay root distq dist diff mag srt Tp fuel epsilon data = Some (Ok [repeat 0%Qc k]).
Proof.
  intros decay root distq dist diff mag srt Tp epsilon fuel k data F Num Srt U L Sym Self Ties Fu Few.
  assert (L' : 1000 <= length data) by (rewrite L; apply Nat.le_refl).
  apply (denStream_noise decay root distq dist diff mag srt Tp epsilon fuel 1000 k data F Num Srt U (Nat.lt_0_succ 999) L' Sym Self Ties Fu L).
  intros i Hi [_ C]. specialize (Few i Hi). lia.
Qed.
Print Assumptions C68_noise_becomes_the_origin.
Lemma apart_nth n i : i < n -> nth i (apart n) [] = [3 * Z.of_nat i + 1]%Z.
Proof. intros H. apply nth_error_nth. unfold apart. rewrite nth_error_map, (nth_error_nth' _ 0) by (now rewrite seq_length). rewrite seq_nth by exact H. reflexivity. Qed.
Lemma apart_ok n : n <> 0 -> uniform 1 (apart n) /\ length (apart n) = n /\ (forall x, In x (apart n) -> cheb x x < 2)%Z /\
  (forall x y, In x (apart n) -> In y (apart n) -> cheb x y <> 2%Z) /\ (forall i, i < n -> length (ball cheb (apart n) 2 n i) < 20) /\
  ~ In [0%Z] (apart n).
Proof.
  intros N. destruct (thirds_ok (fun i => i) n N) as (A & B & C). split; [exact A|]. split; [unfold apart; now rewrite map_length, seq_length|]. split; [exact B|]. split; [exact C|].
  split.
  - intros i Hi. assert (K : length (ball cheb (apart n) 2 n i) <= length [i]).
    { apply NoDup_incl_length; [apply NoDup_filter, seq_NoDup|]. intros j Hj. unfold ball in Hj. apply filter_In in Hj as [Hj E]. apply in_seq in Hj. apply Z.leb_le in E.
      rewrite !apart_nth in E by lia. cbn [cheb] in E. left. lia. }
    cbn [length] in K. lia.
  - intros H. apply in_map_iff in H as (i & E & _). assert (K : forall a b : Z, [a] = [b] -> a = b) by (intros a b X; now inversion X). apply K in E. lia.
Qed.
Example C68_ex : uniform 1 (apart 1000) /\ length (apart 1000) = 1000 /\ (forall x, In x (apart 1000) -> cheb x x < 2)%Z /\
  (forall x y, In x (apart 1000) -> In y (apart 1000) -> cheb x y <> 2%Z) /\ (forall i, i < 1000 -> length (ball cheb (apart 1000) 2 1000 i) < 20) /\
  ~ In [0%Z] (apart 1000).
Proof. apply apart_ok. discriminate. Qed.

(* C69: a configured streaming k-means never returns new data: whatever the numbers, the random choices and the data,
   the run ends by reading from an empty vector (or earlier), or does not end. *)
Theorem C69_streaming_kmeans_never_returns : forall num (zero beta f0 maxd : num) add mul divn divc succn leb ltb dist srt omega prob1 prob2 fuel small data out,
  streamingKmeans_run num zero beta f0 maxd add mul divn divc succn leb ltb dist srt omega prob1 prob2 fuel small true data <> Some (Ok out).
Proof. intros. apply run_never_returns. Qed.
Print Assumptions C69_streaming_kmeans_never_returns.

(* C69: without not-a-numbers it is always undefined: no search needs more than 20 rounds. *)
Theorem C69_streaming_kmeans_undefined : forall num (zero beta f0 maxd : num) add mul divn divc succn leb ltb dist srt omega prob1 prob2 fuel small data,
  total_order leb ltb -> (forall l, length (srt l) = length l) -> 20 <= fuel ->
  streamingKmeans_run num zero beta f0 maxd add mul divn divc succn leb ltb dist srt omega prob1 prob2 fuel small true data = Some UB.
Proof. intros num zero beta f0 maxd add mul divn divc succn leb ltb dist srt omega prob1 prob2 fuel small data (Tot & _) L F. now apply run_undefined. Qed.
Print Assumptions C69_streaming_kmeans_undefined.

(* C69: not configured, it returns the data unchanged. *)
Theorem C69_not_configured : forall num (zero beta f0 maxd : num) add mul divn divc succn leb ltb dist srt omega prob1 prob2 fuel small data,
  streamingKmeans_run num zero beta f0 maxd add mul divn divc succn leb ltb dist srt omega prob1 prob2 fuel small false data = Some (Ok data).
Proof. reflexivity. Qed.
Print Assumptions C69_not_configured.

(* A run over whole numbers in which every loop is completed (also the raising of the cost) and only the last read fails. *)
Definition kins (a : Z * nat) : list (Z * nat) -> list (Z * nat) :=
  fix ins l := match l with [] => [a] | b :: l' => if (fst a <=? fst b)%Z then a :: l else b :: ins l' end.
Definition ksort (l : list (Z * nat)) : list (Z * nat) := fold_right kins [] l.
Definition gapz (x y : list Z) : Z := match x, y with a :: _, b :: _ => Z.abs (a - b) | _, _ => 0%Z end.
Definition sk_data : list (list Z) := map (fun i => [Z.of_nat (7 * i mod 23)]) (seq 0 23).
Example C69_ex : (forall l, length (ksort l) = length l) /\
  match sk_start Z 0%Z 1%Z Z.add Z.mul Z.succ ksort [1%Z] sk_data with
  | Ok s0 => match foldr_run (sk_point Z 0%Z 2%Z 1000%Z Z.add Z.mul (fun a b => a) (fun a n => a) Z.succ Z.leb Z.ltb gapz ksort [1%Z]
                               (fun x _ => Nat.even x) (fun _ _ _ => false) 20 sk_data 10 10) s0 (seq 10 12) with
             | Some (Ok s) => sk_kHatClustered Z s = [] | _ => False end
  | UB => False end.
Proof.
  split; [|vm_compute; reflexivity]. induction l as [|a l IH]; [reflexivity|]. unfold ksort in *. cbn [fold_right length]. rewrite <- IH. set (r := fold_right kins [] l). clearbody r. clear.
  induction r as [|b r IH]; [reflexivity|]. cbn [kins]. destruct (_ <=? _)%Z; [reflexivity|]. cbn [length]. now rewrite IH.
Qed.
