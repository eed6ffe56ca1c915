(* PropertiesWindow.v -- property theorems for Pipes/naiveWindow.cpp and Pipes/slidingWindow.cpp. *)
From Coq Require Import Ascii String List Arith ZArith Bool Lia.
From Verif Require Import Base ArrayListModel TreeModel FastModel ArgModel PipeModel IoModel WindowModel.
From Verif Require Import Spec SpecComplex SpecGraph SpecArgs SpecPipe SpecWindow.
From Verif Require Import IoProofs WindowProofs SlidingProofs PropertiesComplex PropertiesPipe.
From Verif Require KdProofs.
Import ListNotations.
Local Open Scope string_scope. Local Open Scope nat_scope. Local Open Scope list_scope.

(* C38 *)
(* The loops of both windows see vectors with at least one coordinate, whatever the file contains. *)
Theorem C38_streamed_vectors_are_nonempty : forall num (stod : text -> option num) fuel t rows,
  stream_rows num stod fuel t = Some rows -> forall x, In x rows -> x <> [].
Proof. exact stream_rows_nonempty. Qed.
Print Assumptions C38_streamed_vectors_are_nonempty.

(* With a simplexTree the window ends with the last 50 vectors in order of arrival.  The complex is built once, from the
   first 50 vectors, and never changes: every printed line repeats its counts.  The packet's data is the window of the
   last multiple of 100.  Fewer than 50 vectors leave the packet alone.  No bars are computed. *)
Theorem C38_window_is_the_last_50_vectors : forall dist atoi atof srt past_end al_reduce,
  is_sort srt -> (forall x y, (0 <= dist x y)%Z) ->
  forall args d e nc0 csv p rows, tree_options args d e -> (0 < atoi d < 2 ^ 31 - 1)%Z ->
  new_packet atoi atof nc0 args csv = Ok p -> (forall x, In x rows -> x <> []) ->
  exists p' reports, naive_run dist atoi atof srt past_end al_reduce args (Some rows) p = Ok (p', lastn 50 rows, reports) /\
    pk_output p' = [] /\ map (fun r => fst (fst r)) reports = printed (length rows) /\
    (length rows < 50 -> p' = p) /\
    (50 <= length rows -> pk_data p' = firstn 50 (skipn (100 * (length rows / 100) - 50) rows) /\
       exists c, pk_complex p' = Some c /\ holds_rips srt dist (firstn 50 rows) (atof e) (atoi d) nc0 c /\
         forall r, In r reports -> snd (fst r) = cx_simplexCount c /\ snd r = 50%Z).
Proof. exact naive_tree. Qed.
Print Assumptions C38_window_is_the_last_50_vectors.

(* With a simplexArrayList the window stops at the first 50 vectors. *)
Theorem C38_array_list_window_is_the_first_50_vectors : forall dist atoi atof srt past_end al_reduce,
  is_sort srt -> (forall x y, (0 <= dist x y)%Z) ->
  forall args d e nc0 csv p rows, mget args "complexType" = Some "simplexArrayList"%string ->
  mget args "dimensions" = Some d -> mget args "epsilon" = Some e -> (0 < atoi d < 2 ^ 31 - 1)%Z ->
  new_packet atoi atof nc0 args csv = Ok p -> (forall x, In x rows -> x <> []) ->
  exists p' reports, naive_run dist atoi atof srt past_end al_reduce args (Some rows) p = Ok (p', firstn 50 rows, reports) /\ pk_output p' = [].
Proof. exact naive_array. Qed.
Print Assumptions C38_array_list_window_is_the_first_50_vectors.

Definition tree_args : amap := [("complexType", "simplexTree"); ("dimensions", "1"); ("epsilon", "5"); ("twist", "false")]%string.
Definition array_args : amap := [("complexType", "simplexArrayList"); ("dimensions", "1"); ("epsilon", "5")]%string.
Lemma tree_args_ok : tree_options tree_args "1" "5". Proof. now constructor. Qed.
(* The vectors start, start + step, ... on the line. *)
Definition stream_of (n : nat) (start step : Z) : list (list Z) := map (fun i => [start + step * Z.of_nat i]%Z) (seq 0 n).
Definition naive_line (args : amap) (rows : list (list Z)) : res (list Z * list report) :=
  do p <- new_packet digit digit 7 args [];
  do r <- naive_run line_dist digit digit wsort libstdcxx_past_end (fun g => Ok g) args (Some rows) p;
  Ok (map (hd 0%Z) (snd (fst r)), snd r).

(* 103 points at distance 3: an edge between neighbours, 50 + 49 simplices on top of the initial count 7. *)
Example C38_ex : is_sort wsort /\ (forall x y, (0 <= line_dist x y)%Z) /\ tree_options tree_args "1" "5" /\
  new_packet digit digit 7 tree_args [] <> UB /\ (forall x, In x (stream_of 103 0 3) -> x <> []) /\
  naive_line tree_args (stream_of 103 0 3) = Ok (map (fun i => 3 * Z.of_nat i)%Z (seq 53 50), [(100, 106%Z, 50%Z); (104, 106%Z, 50%Z)]) /\
  naive_line array_args (stream_of 60 0 3) = Ok (map (fun i => 3 * Z.of_nat i)%Z (seq 0 50), [(61, 99%Z, 50%Z)]).
Proof.
  split; [apply wsort_is_sort|]. split; [intros; apply Z.abs_nonneg|]. split; [apply tree_args_ok|]. split; [vm_compute; discriminate|].
  split; [intros x Hx; unfold stream_of in Hx; apply in_map_iff in Hx as (i & <- & _); discriminate|]. split; vm_compute; reflexivity.
Qed.

(* C39 *)
(* Fewer than 200 vectors: they are the window, nothing else changes. *)
Theorem C39_short_stream : forall dist atoi atof srt past_end al_reduce one args d e nc0,
  tree_options args d e -> forall p, new_packet atoi atof nc0 args [] = Ok p -> forall rows, length rows < 200 ->
  exists st, sliding_run dist atoi atof srt past_end al_reduce one args (Some rows) p =
    Ok (p, rows, st, if length rows mod 100 =? 0 then [] else [(length rows + 1, nc0, 0%Z)]).
Proof. exact sliding_short. Qed.
Print Assumptions C39_short_stream.

(* 200 vectors or more: the complex holds the Vietoris-Rips complex of the first 200, and nn are their nearest-neighbour
   distances.  A run over more vectors is defined exactly when every later vector is turned away and no two of the first
   200 vectors are closer than epsilon; then the window, its keys 0..199, the complex and the statistics stay those of the
   first 200 vectors.  In particular no defined run ever replaces a vector.  No bars reach the packet. *)
Theorem C39_window_stays_the_first_200_vectors :
  forall dist atoi atof srt past_end al_reduce, is_sort srt -> (forall x y, (0 <= dist x y)%Z) ->
  forall one args d e nc0,
  tree_options args d e -> mget args "twist" <> None -> (0 < atoi d < 2 ^ 31 - 1)%Z ->
  forall p, new_packet atoi atof nc0 args [] = Ok p ->
  forall rows, (forall x, In x rows -> x <> []) -> 200 <= length rows ->
  let run := sliding_run dist atoi atof srt past_end al_reduce one args (Some rows) p in
  let first := firstn 200 rows in
  let close_pair := exists u v, u < v /\ v < 200 /\ (separation dist first u v < atof e)%Z in
  exists idx nn, length idx = 200 /\ length nn = 200 /\ (forall i, i < 200 -> nearest_other dist first i (nth i idx 0) (nth i nn 0%Z)) /\
    let quiet := forall x, In x (skipn 200 rows) -> turned_away dist first one nn x in
    (length rows = 200 \/ (quiet /\ ~ close_pair) ->
       exists p' st reports c, run = Ok (p', first, st, reports) /\
         pk_complex p' = Some c /\ holds_rips srt dist first (atof e) (atoi d) nc0 c /\ pk_output p' = [] /\ pk_data p' = first /\
         sp_nnIndices st = map Z.of_nat idx /\ sp_nnDists st = nn /\ sp_keys st = seq 0 200 /\
         reports = map (fun k => (k, cx_simplexCount c, 200%Z)) (filter (fun k => 200 <? k) (printed (length rows)))) /\
    (200 < length rows -> ~ (quiet /\ ~ close_pair) -> run = UB).
Proof. exact sliding_long. Qed.
Print Assumptions C39_window_stays_the_first_200_vectors.

Definition sliding_line (rows : list (list Z)) : res (list (list Z)) :=
  do p <- new_packet digit digit 7 tree_args [];
  do r <- sliding_run line_dist digit digit wsort libstdcxx_past_end (fun g => Ok g) 1 tree_args (Some rows) p;
  Ok (snd (fst (fst r))).
Lemma stream_nth n a s i : i < n -> nth_error (stream_of n a s) i = Some [a + s * Z.of_nat i]%Z.
Proof. intros H. unfold stream_of. rewrite nth_error_map, nth_error_nth' with (d := 0) by (rewrite seq_length; lia). rewrite seq_nth by lia. reflexivity. Qed.
Lemma stream_length n a s : length (stream_of n a s) = n.
Proof. unfold stream_of. now rewrite map_length, seq_length. Qed.
Lemma stream_gap n a s i j : i < n -> j < n -> separation line_dist (stream_of n a s) i j = (Z.abs (s * (Z.of_nat i - Z.of_nat j)))%Z.
Proof. intros Hi Hj. unfold separation. rewrite !stream_nth by lia. unfold line_dist. cbn [hd]. f_equal. lia. Qed.
Lemma total_repeat x n : total_weight (repeat x n) = (Z.of_nat n * x)%Z.
Proof. induction n as [|n IH]; [reflexivity|]. cbn [repeat total_weight fold_right]. fold (total_weight (repeat x n)). rewrite IH. lia. Qed.
Lemma nearest_six n nn idx : 2 <= n -> length nn = n -> (forall i, i < n -> nearest_other line_dist (stream_of n 0 6) i (nth i idx 0) (nth i nn 0%Z)) ->
  nn = repeat 6%Z n.
Proof.
  intros H2 L N. apply (nth_ext _ _ 0%Z 6%Z); [now rewrite repeat_length|]. intros i Hi. rewrite nth_repeat. rewrite L in Hi.
  destruct (N i Hi) as (_ & Hj & Hne & Ed & Hmin). rewrite stream_length in *. unfold gap in *.
  rewrite stream_gap in Ed by lia.
  assert (K : exists k, k < n /\ k <> i /\ (k = S i \/ i = S k)). { destruct (Nat.eq_dec i 0) as [->|Z0]; [exists 1; lia|exists (i - 1); lia]. }
  destruct K as (k & Hk & Hki & Adj). destruct (Hmin k Hk Hki) as [Le _]. rewrite stream_gap in Le by lia. lia.
Qed.
(* 200 points at distance 6, then points at distance at most 24 from them: refused.  A point at distance 25 is accepted
   and makes the run undefined, and so does a window with two points at distance 3. *)
Lemma refused x d : (0 <= d <= 24)%Z -> nearest_distance line_dist (stream_of 200 0 6) [x] d ->
  turned_away line_dist (stream_of 200 0 6) 1 (repeat 6%Z 200) [x].
Proof. intros Hd N. exists d. split; [exact N|]. right. right. rewrite total_repeat, repeat_length. lia. Qed.
Lemma near_stream x d i : i < 200 -> (Z.abs (x - 6 * Z.of_nat i) = d)%Z -> (forall k, k < 200 -> (d <= Z.abs (x - 6 * Z.of_nat k))%Z) ->
  nearest_distance line_dist (stream_of 200 0 6) [x] d.
Proof.
  intros Hi E M. split.
  - exists [6 * Z.of_nat i]%Z. split; [apply (nth_error_In _ i); now rewrite stream_nth|exact E].
  - intros p Hp. unfold stream_of in Hp. apply in_map_iff in Hp as (k & <- & Hk). apply in_seq in Hk. unfold line_dist. cbn [hd].
    rewrite Z.add_0_l. apply M. lia.
Qed.
Example C39_ex : sliding_line (stream_of 200 0 6 ++ [[1218]; [3]]%Z) = Ok (stream_of 200 0 6) /\
  sliding_line (stream_of 200 0 6 ++ [[1219]]%Z) = UB /\
  sliding_line (stream_of 201 0 3) = UB.
Proof.
  assert (Ne : forall n a s x, In x (stream_of n a s) -> x <> []).
  { intros n a s x Hx. unfold stream_of in Hx. apply in_map_iff in Hx as (i & <- & _). discriminate. }
  assert (Two : mget tree_args "twist" <> None) by discriminate.
  assert (F : forall l, firstn 200 (stream_of 200 0 6 ++ l) = stream_of 200 0 6).
  { intros l. rewrite firstn_app, stream_length, Nat.sub_diag, firstn_O, app_nil_r. apply firstn_all2. now rewrite stream_length. }
  assert (Sk : forall l, skipn 200 (stream_of 200 0 6 ++ l) = l).
  { intros l. rewrite skipn_app, stream_length, Nat.sub_diag, skipn_all2 by (rewrite stream_length; lia). reflexivity. }
  assert (P : exists p, new_packet digit digit 7 tree_args [] = Ok p) by (eexists; reflexivity). destruct P as (p & P).
  assert (D1 : (0 < digit "1" < 2 ^ 31 - 1)%Z) by (cbn; lia). change (2 ^ 31 - 1)%Z with 2147483647%Z in D1.
  pose proof (fun rows H1 H2 => C39_window_stays_the_first_200_vectors line_dist digit digit wsort libstdcxx_past_end (fun g => Ok g) wsort_is_sort
                (fun x y => Z.abs_nonneg _) 1 tree_args "1" "5" 7
                tree_args_ok Two D1 p P rows H1 H2) as T. cbv zeta in T.
  unfold sliding_line. rewrite P. cbn [bind].
  split; [|split].
  - destruct (T (stream_of 200 0 6 ++ [[1218]; [3]]%Z)) as (idx & nn & _ & Ln & Nn & Y & _).
    + intros x Hx. apply in_app_iff in Hx as [Hx|[<-|[<-|[]]]]; [now apply (Ne 200 0%Z 6%Z)|discriminate|discriminate].
    + rewrite List.app_length, stream_length. lia.
    + rewrite F in *. rewrite (nearest_six 200 nn idx) in * by (auto; lia).
      destruct Y as (p' & st & reports & c & R & _).
      * right. rewrite Sk. split.
        -- intros x [<-|[<-|[]]].
           ++ apply (refused _ 24); [lia|]. apply (near_stream _ _ 199); [lia|reflexivity|intros; lia].
           ++ apply (refused _ 3); [lia|]. apply (near_stream _ _ 0); [lia|reflexivity|intros; lia].
        -- intros (u & v & Huv & Hv & L). rewrite stream_gap in L by lia. change (digit "5") with 5%Z in L. lia.
      * rewrite R. reflexivity.
  - destruct (T (stream_of 200 0 6 ++ [[1219]]%Z)) as (idx & nn & _ & Ln & Nn & _ & Y).
    + intros x Hx. apply in_app_iff in Hx as [Hx|[<-|[]]]; [now apply (Ne 200 0%Z 6%Z)|discriminate].
    + rewrite List.app_length, stream_length. lia.
    + rewrite F in *. rewrite (nearest_six 200 nn idx) in * by (auto; lia).
      rewrite Y; [reflexivity|rewrite List.app_length, stream_length; cbn; lia|]. rewrite Sk. intros [Q _].
      destruct (Q [1219]%Z (or_introl eq_refl)) as (d & N & A).
      assert (N' : nearest_distance line_dist (stream_of 200 0 6) [1219]%Z 25) by (apply (near_stream _ _ 199); [lia|reflexivity|intros; lia]).
      assert (d = 25%Z). { destruct N as [(q & Hq & Eq) M], N' as [(q' & Hq' & Eq') M']. specialize (M q' Hq'). specialize (M' q Hq). lia. }
      subst d. rewrite total_repeat, repeat_length in A. lia.
  - destruct (T (stream_of 201 0 3)) as (idx & nn & _ & Ln & Nn & _ & Y).
    + apply Ne. + rewrite stream_length. lia.
    + rewrite Y; [reflexivity|rewrite stream_length; lia|]. intros [_ Q]. apply Q. exists 0, 1. split; [lia|]. split; [lia|].
      unfold separation. rewrite !KdProofs.nth_error_firstn_lt by lia. rewrite !stream_nth by lia. reflexivity.
Qed.

(* C65 *)
(* What the initialiser of the sliding window computes for any window of at least two vectors: the Vietoris-Rips complex,
   and for every vector the smallest index of a nearest other vector and its distance. *)
Theorem C65_initial_nearest_neighbours : forall dist (atoi atof : string -> Z) srt, is_sort srt -> (forall x y, (0 <= dist x y)%Z) ->
  forall args d e nc0, mget args "epsilon" = Some e -> (0 < atoi d < 2 ^ 31 - 1)%Z ->
  forall p w, pk_complex p = Some (CTree (atof e) (atoi d) (st_new [] nc0)) -> 2 <= length w -> (forall x, In x w -> x <> []) -> pk_data p = w ->
  exists q c idx nnd, initializer dist atof args p [] [] = Ok (q, idx, nnd) /\ pk_complex q = Some c /\
    holds_rips srt dist w (atof e) (atoi d) nc0 c /\
    length idx = length w /\ length nnd = length w /\ forall i, i < length w -> nearest_other dist w i (nth i idx 0) (nth i nnd 0%Z).
Proof.
  intros. destruct (initializer_spec dist atoi atof srt H H0 args d e nc0 H1 H2 p w H3 H4 H5 H6) as (q & t & idx & nnd & E & C & _ & _ & _ & R & L1 & L2 & N).
  eauto 12.
Qed.
Print Assumptions C65_initial_nearest_neighbours.
(* The weights of the packet gain 0, epsilon and all distances below epsilon. *)
Theorem C65_initial_weights : forall dist (atof : string -> Z) args e, mget args "epsilon" = Some e ->
  forall p q idx nnd, (forall x, In x (pk_data p) -> x <> []) -> initializer dist atof args p [] [] = Ok (q, idx, nnd) ->
  forall w, In w (pk_weights q) <-> In w (pk_weights p) \/ w = 0%Z \/ w = atof e \/
    exists i j, i < j < length (pk_data p) /\ w = separation dist (pk_data p) i j /\ (w < atof e)%Z.
Proof. intros dist atof args e He p q idx nnd. exact (initializer_weights dist (fun _ => 1%Z) atof (fun _ _ => UB) args "" e He (conj eq_refl eq_refl) p [] [] q idx nnd). Qed.
Print Assumptions C65_initial_weights.
Example C65_ex :
  match initializer line_dist digit tree_args (mkPacket [[0]; [4]; [8]; [9]]%Z [] [] [] (Some (CTree 5 1 (st_new [] 0))) [] [] []) [] [] with
  | Ok (q, idx, nnd) => (idx, nnd, pk_weights q) = ([1; 0; 3; 2], [4; 4; 1; 1]%Z, [5; 4; 1; 0]%Z)
  | UB => False
  end.
Proof. vm_compute. reflexivity. Qed.
