(* PropertiesNear.v -- property theorems for the stream evaluator of /repo/Pipes/slidingWindow.cpp. *)
From Coq Require Import List Arith ZArith QArith Bool Lia Sorted.
From Verif Require Import Base EvalModel SpecGraph SpecWindow SpecNear NearProofs NearRuns NearEnd NearEval.
Import ListNotations.
Local Open Scope nat_scope. Local Open Scope list_scope.

(* C100 *)
(* The point number k of a window is deleted (deleteNNstats) and the vector v is added to the partition [target]
   (updateStats), with a distance matrix that no longer has the deleted point.  If everything recorded about the window was
   right, the distances, averages and numbers of points recorded afterwards are right for the new window, whose last point is
   v.  A recorded index is right or one too large: indices above k are not moved down.  The run is undefined exactly if the
   point leaves and v enters the same partition, two or more of its points remain, and for one of them the deleted point was
   the recorded neighbour and v is not nearer to it than that.  Every row of the matrix gets the distance to v; the new last
   row is empty. *)
Theorem C100_replacing_a_point : forall dist one, (forall x y, dist x y = dist y x) ->
  forall pts st k v m,
  let labels := sp_labels st in let target := sp_target st in let label := nth k labels 0%Z in
  let rest := without k pts in
  k < length labels -> length (sp_keys st) = length labels ->
  right_records dist one pts labels (sp_nnIndices st) (sp_nnDists st) (sp_num st) (sp_avg st) ->
  right_matrix dist rest m ->
  let pts' := rest ++ [v] in let labels' := without k labels ++ [target] in
  let stuck := target = label /\ 2 <= size (without k labels) target /\
    exists i, i < length labels /\ i <> k /\ nth i labels 0%Z = target /\ nth i (sp_nnIndices st) 0%Z = Z.of_nat k /\
              (nth i (sp_nnDists st) 0 <= dist v (nth i pts []))%Z in
  exists st1 gone, deleteNNstats label k (map (dist v) pts) st = Ok (st1, map (dist v) rest, gone) /\
    let run := updateStats one (length labels) label k gone (map (dist v) rest) st1 m in
    (stuck -> run = UB) /\
    (~ stuck -> exists st2 m2, run = Ok (st2, m2 ++ [[]]) /\
       sp_keys st2 = without k (sp_keys st) /\ sp_labels st2 = without k labels /\ sp_target st2 = target /\ sp_key st2 = sp_key st /\
       (forall p, zget (sp_maxKeys st2) p = if (p =? label)%Z && (size labels p =? 1) then None else zget (sp_maxKeys st) p) /\
       right_distances dist one pts' labels' (sp_nnDists st2) /\
       right_numbers labels' (sp_num st2) /\ right_averages one labels' (sp_nnDists st2) (sp_avg st2) /\
       length (sp_nnIndices st2) = length labels' /\
       (forall i, i < length labels' -> let x := nth i (sp_nnIndices st2) 0%Z in let d := nth i (sp_nnDists st2) 0%Z in
          right_index dist pts' labels' i x d \/ ((Z.of_nat k < x)%Z /\ right_index dist pts' labels' i (x - 1) d)) /\
       length m2 = length rest /\ forall i, i < length rest -> nth i m2 [] = nth i m [] ++ [dist v (nth i rest [])]).
Proof.
  intros dist one Sym pts st k v m labels target label rest Hk Lk (Lp & Rd & Ri & Rn & Ra) Rm pts' labels' stuck.
  destruct (replaced dist one pts st k v m Sym (eq_sym Lp) Hk Lk Rd Ri Rn Ra Rm) as (st1 & gone & Ed & U & O). exists st1, gone. split; [exact Ed|].
  fold labels target label rest in U, O. intros run. fold run in U, O.
  assert (Ln : length (without k labels) = length labels - 1) by (now apply without_length).
  assert (Lr : length rest = length labels - 1) by (unfold rest; rewrite without_length; lia).
  assert (Eq : (exists j, j < length (without k labels) /\ bad (without k labels) (without k (sp_nnIndices st)) (without k (sp_nnDists st)) (map (dist v) rest) label target k j) <-> stuck).
  { unfold bad, ix, od, dn. split.
    - intros (j & J & Q & Lj & G & Xj & Dj). split; [auto|]. split; [auto|]. rewrite !without_nth in *. exists (up k j). rewrite Ln in J.
      split; [apply up_lt; auto|]. split; [apply up_ne|]. split; [auto|]. split; [auto|].
      rewrite (nth_indep (map (dist v) rest) 0%Z (dist v [])) in Dj by (rewrite map_length; lia). rewrite map_nth in Dj. unfold rest in Dj. rewrite without_nth in Dj. exact Dj.
    - intros (Q & G & i & I & Ni & Lj & Xj & Dj). destruct (up_onto k i (length labels) Hk I Ni) as (j & J & E). exists j. rewrite Ln. split; [auto|].
      split; [auto|]. rewrite !without_nth, E. split; [auto|]. split; [auto|]. split; [auto|].
      rewrite (nth_indep (map (dist v) rest) 0%Z (dist v [])) by (rewrite map_length; lia). rewrite map_nth. unfold rest. rewrite without_nth, E. exact Dj. }
  split.
  - intros Hs. apply U. now apply Eq.
  - intros Hs. destruct O as (st2 & m2 & E & O1 & O2 & O3 & O4 & O5 & O6 & O7 & O8 & O9 & O10 & O11 & O12).
    { intros j J B. apply Hs. apply Eq. eauto. }
    assert (L2 : length labels' = S (length (without k labels))) by (unfold labels'; rewrite app_length; cbn; lia).
    exists st2, m2. split; [exact E|]. split; [exact O3|]. split; [exact O4|]. split; [exact O2|]. split; [exact O1|]. split.
    { intros p. rewrite O5. unfold keys1. fold labels label. assert (Sl : size labels label = S (size (without k labels) label)).
      { rewrite (size_without labels k label Hk). fold label. rewrite Z.eqb_refl. lia. }
      destruct (Z.eqb_spec p label) as [->|N]; cbn [andb].
      - rewrite Sl. destruct (Nat.eqb_spec (size (without k labels) label) 0) as [Z|Z].
        + rewrite Z, zdel_get, Z.eqb_refl. reflexivity.
        + destruct (Nat.eqb_spec (S (size (without k labels) label)) 1); [lia|reflexivity].
      - destruct (_ =? 0); [|reflexivity]. rewrite zdel_get. destruct (Z.eqb_spec p label); [easy|reflexivity]. }
    split; [exact O6|]. split; [exact O9|]. split; [exact O10|]. split; [rewrite L2; exact O7|]. split; [rewrite L2; exact O8|].
    rewrite Ln in O11, O12. rewrite Lr. split; [exact O11|exact O12].
Qed.
Print Assumptions C100_replacing_a_point.

(* Points on a line. *)
Definition on_line (x y : list Z) : Z := Z.abs (hd 0%Z x - hd 0%Z y).
(* The records of windows, and the state afterwards without the numbers of the vectors. *)
Definition records (target : Z) (labels idx nn : list Z) (avg : list (Z * Q)) (num : list (Z * Z)) : params :=
  mkParams 7 target (seq 0 (length labels)) labels idx nn avg num [].
Definition replace_point (pts : list (list Z)) (st : params) (k : nat) (v : list Z) (m : list (list Z)) :=
  do d <- deleteNNstats (nth k (sp_labels st) 0%Z) k (map (on_line v) pts) st;
  do r <- updateStats 1 (length (sp_labels st)) (nth k (sp_labels st) 0%Z) k (snd d) (snd (fst d)) (fst (fst d)) m;
  Ok (sp_nnIndices (fst r), sp_nnDists (fst r), sp_num (fst r), map (fun e => (fst e, Qred (snd e))) (sp_avg (fst r)), snd r).

(* 0, 2, 3 and 10, 14 are two partitions; 2 leaves and 13 comes to the second one. *)
Definition two_groups : list (list Z) := [[0]; [2]; [3]; [10]; [14]]%Z.
Definition two_labels : list Z := [0; 0; 0; 1; 1]%Z.
Definition two_state : params := records 1 two_labels [1; 2; 1; 4; 3]%Z [2; 1; 1; 4; 4]%Z [(0%Z, 4 # 3); (1%Z, 4 # 1)] [(0, 3); (1, 2)]%Z.
Definition rest_matrix : list (list Z) := [[0; 3; 10; 14]; [0; 0; 7; 11]; [0; 0; 0; 4]; [0; 0; 0; 0]]%Z.

Ltac below i H := destruct i as [|i]; [|first [exfalso; cbn in H; lia|below i H]].
Lemma two_right : right_records on_line 1 two_groups two_labels (sp_nnIndices two_state) (sp_nnDists two_state) (sp_num two_state) (sp_avg two_state).
Proof.
  split; [reflexivity|]. split; [|split; [|split]].
  - split; [reflexivity|]. intros i Hi. left. split.
    + below i Hi; [exists 1|exists 2|exists 1|exists 4|exists 3]; (split; [split; [lia|]; split; [cbn; lia|reflexivity]|reflexivity]).
    + intros j (N & Hj & E). cbn in Hj. below i Hi; below j Hj; try easy; cbn; lia.
  - split; [reflexivity|]. intros i Hi. left. below i Hi; [exists 1|exists 2|exists 1|exists 4|exists 3]; (split; [split; [lia|]; split; [cbn; lia|reflexivity]|split; reflexivity]).
  - split; [cbn; repeat constructor; lia|]. split; [intros l c [[= <- <-]|[[= <- <-]|[]]]; reflexivity|].
    intros l H. destruct (Z.eq_dec l 0) as [->|N0]; [eexists; left; reflexivity|]. destruct (Z.eq_dec l 1) as [->|N1]; [eexists; right; left; reflexivity|].
    exfalso. unfold size, two_labels in H. apply (count_occ_In Z.eq_dec) in H. cbn in H. lia.
  - split; [cbn; repeat constructor; lia|]. split; [|split].
    + intros l. split.
      * intros H. destruct (Z.eq_dec l 0) as [->|N0]; [eexists; left; reflexivity|]. destruct (Z.eq_dec l 1) as [->|N1]; [eexists; right; left; reflexivity|].
        exfalso. unfold size, two_labels in H. apply (count_occ_In Z.eq_dec) in H. cbn in H. lia.
      * intros (a & [[= <- <-]|[[= <- <-]|[]]]); cbn; lia.
    + intros l a [[= <- <-]|[[= <- <-]|[]]]; cbn; lia.
    + intros l a [[= <- <-]|[[= <- <-]|[]]] _; reflexivity.
Qed.
Example C100_ex : (forall x y, on_line x y = on_line y x) /\ 1 < length (sp_labels two_state) /\ length (sp_keys two_state) = length (sp_labels two_state) /\
  right_records on_line 1 two_groups (sp_labels two_state) (sp_nnIndices two_state) (sp_nnDists two_state) (sp_num two_state) (sp_avg two_state) /\
  right_matrix on_line (without 1 two_groups) rest_matrix /\
  replace_point two_groups two_state 1 [13]%Z rest_matrix =
    Ok ([1; 0; 4; 4; 3]%Z, [3; 3; 3; 1; 1]%Z, [(0, 2); (1, 3)]%Z, [(0%Z, 3 # 1); (1%Z, 5 # 3)],
        [[0; 3; 10; 14; 13]; [0; 0; 7; 11; 10]; [0; 0; 0; 4; 3]; [0; 0; 0; 0; 1]; []]%Z).
Proof.
  split; [intros x y; unfold on_line; lia|]. split; [cbn; lia|]. split; [reflexivity|]. split; [exact two_right|]. split; [|vm_compute; reflexivity].
  split; [reflexivity|]. split; [intros r [<-|[<-|[<-|[<-|[]]]]]; reflexivity|].
  intros i j [H Hj]. cbn in Hj. assert (Hi : i < 4) by lia. below i Hi; below j Hj; try lia; reflexivity.
Qed.

(* The recorded indices need not be right afterwards: after 0 has left the window 0, 10, 13, the nearest point of 10 is
   recorded as number 2, which is the vector that has come. *)
Theorem C100_indices_stay_right_refuted : exists pts st k v m st1 gone st2 m2,
  let rest := without k pts in let labels' := without k (sp_labels st) ++ [sp_target st] in
  right_records on_line 1 pts (sp_labels st) (sp_nnIndices st) (sp_nnDists st) (sp_num st) (sp_avg st) /\
  right_matrix on_line rest m /\
  deleteNNstats (nth k (sp_labels st) 0%Z) k (map (on_line v) pts) st = Ok (st1, map (on_line v) rest, gone) /\
  updateStats 1 (length (sp_labels st)) (nth k (sp_labels st) 0%Z) k gone (map (on_line v) rest) st1 m = Ok (st2, m2) /\
  ~ right_indices on_line (rest ++ [v]) labels' (sp_nnIndices st2) (sp_nnDists st2).
Proof.
  exists [[0]; [10]; [13]]%Z, (records 1 [0; 0; 0] [1; 2; 1] [10; 3; 3] [(0%Z, 16 # 3)] [(0, 3)])%Z, 0, [50]%Z, [[0; 3]; [0; 0]]%Z.
  do 4 eexists. cbv zeta. split; [|split; [|split; [vm_compute; reflexivity|split; [vm_compute; reflexivity|]]]].
  - split; [reflexivity|]. split; [|split; [|split]].
    + split; [reflexivity|]. intros i Hi. left. split.
      * below i Hi; [exists 1|exists 2|exists 1]; (split; [split; [lia|]; split; [cbn; lia|reflexivity]|reflexivity]).
      * intros j (N & Hj & E). cbn in Hj. below i Hi; below j Hj; try easy; cbn; lia.
    + split; [reflexivity|]. intros i Hi. left. below i Hi; [exists 1|exists 2|exists 1]; (split; [split; [lia|]; split; [cbn; lia|reflexivity]|split; reflexivity]).
    + split; [cbn; repeat constructor|]. split; [intros l c [[= <- <-]|[]]; reflexivity|].
      intros l H. apply (count_occ_In Z.eq_dec) in H. cbn in H. destruct H as [<-|[<-|[<-|[]]]]; eexists; left; reflexivity.
    + split; [cbn; repeat constructor|]. split; [|split].
      * intros l. split; [|intros (a & [[= <- <-]|[]]); cbn; lia]. intros H. apply (count_occ_In Z.eq_dec) in H. cbn in H. destruct H as [<-|[<-|[<-|[]]]]; eexists; left; reflexivity.
      * intros l a [[= <- <-]|[]]; cbn; lia.
      * intros l a [[= <- <-]|[]] _; reflexivity.
  - split; [reflexivity|]. split; [intros r [<-|[<-|[]]]; reflexivity|].
    intros i j [H Hj]. cbn in Hj. assert (Hi : i < 2) by lia. below i Hi; below j Hj; try lia; reflexivity.
  - intros [_ H]. destruct (H 0 ltac:(cbn; lia)) as [(j & (_ & Hj & E) & X & _)|[_ X]]; [|discriminate].
    change (2 = Z.of_nat j)%Z in X. assert (j = 2) by lia. subst. discriminate E.
Qed.
Print Assumptions C100_indices_stay_right_refuted.

(* The undefined case: 0 leaves 0, 1, 5, it was the nearest point of 1, and 9 comes to the same partition. *)
Example C100_stuck_ex : replace_point [[0]; [1]; [5]]%Z (records 0 [0; 0; 0] [1; 0; 1] [1; 1; 4] [(0%Z, 2 # 1)] [(0, 3)])%Z 0 [9]%Z [[0; 4]; [0; 0]]%Z = UB /\
  replace_point [[0]; [1]; [5]]%Z (records 0 [0; 0; 0] [1; 0; 1] [1; 1; 4] [(0%Z, 2 # 1)] [(0, 3)])%Z 2 [9]%Z [[0; 1]; [0; 0]]%Z =
    Ok ([1; 0; 1]%Z, [1; 1; 8]%Z, [(0, 3)]%Z, [(0%Z, 10 # 3)], [[0; 1; 9]; [0; 0; 8]; []]%Z).
Proof. split; vm_compute; reflexivity. Qed.

(* C101 *)
(* A vector v comes to a full window whose points all belong to the partition c.  It is turned away, and nothing changes; or
   the first point leaves and v founds the partition c + 1.  In the second case, with a distance matrix of the remaining
   points, the run is defined, and the distances, averages and numbers recorded afterwards are right for the window with v at
   its end; the recorded indices are one too large, except those of single points (-1). *)
Theorem C101_one_partition : forall dist one, (forall x y, dist x y = dist y x) -> (forall x y, (0 <= dist x y)%Z) ->
  forall pts st v m c,
  let labels := sp_labels st in
  2 <= length labels -> (forall x, In x labels -> x = c) -> length (sp_keys st) = length labels ->
  right_records dist one pts labels (sp_nnIndices st) (sp_nnDists st) (sp_num st) (sp_avg st) ->
  let run := nnBasedEvaluator dist one (length labels) v pts st m in
  let away_it_goes := turned_away dist pts one (sp_nnDists st) v in
  let pts' := tl pts ++ [v] in let labels' := tl labels ++ [(c + 1)%Z] in
  (away_it_goes -> run = Ok (false, pts, st, m)) /\
  (~ away_it_goes -> right_matrix dist (tl pts) m -> exists st' m',
     run = Ok (true, tl pts, st', m') /\
     sp_key st' = sp_key st /\ sp_target st' = (c + 1)%Z /\ sp_keys st' = tl (sp_keys st) /\ sp_labels st' = tl labels /\
     right_distances dist one pts' labels' (sp_nnDists st') /\
     right_numbers labels' (sp_num st') /\ right_averages one labels' (sp_nnDists st') (sp_avg st') /\
     length (sp_nnIndices st') = length labels' /\
     forall i, i < length labels' -> let x := nth i (sp_nnIndices st') 0%Z in let d := nth i (sp_nnDists st') 0%Z in
       right_index dist pts' labels' i x d \/ ((0 < x)%Z /\ right_index dist pts' labels' i (x - 1) d)).
Proof.
  intros dist one Sym Pos pts st v m c labels N2 All Lk R run away_it_goes pts' labels'.
  destruct (pure_eval dist one Pos pts st v R Lk c All N2 m) as [P1 P2]. fold labels in P1, P2. fold run in P1, P2. split; [exact P1|].
  intros Na Rm. rewrite (P2 Na). clear P1 P2 run. set (stt := set_target st (c + 1)%Z).
  assert (H0 : nth 0 labels 0%Z = c) by (apply All, nth_In; lia).
  assert (W : forall A (l : list A), without 0 l = tl l) by (intros A [|x l]; reflexivity).
  destruct (C100_replacing_a_point dist one Sym pts stt 0 v m) as (st1 & gone & Ed & _ & O); [change (0 < length labels); lia|exact Lk|exact R|now rewrite W|].
  cbn [stt set_target sp_labels sp_target] in Ed, O. fold labels in Ed, O. rewrite H0 in Ed, O. fold stt in Ed. rewrite Ed. cbn [bind].
  assert (Lp : length labels = length pts) by apply R. rewrite (erase_ok pts 0) by lia. cbn [bind].
  destruct O as (st2 & m2 & E & O1 & O2 & O3 & O4 & O5 & O6 & O7 & O8 & O9 & O10 & _). { intros [Q _]. lia. }
  rewrite E. cbn [bind fst snd]. rewrite !W in *. exists st2, (m2 ++ [[]]). split; [reflexivity|].
  do 4 (split; [assumption|]). split; [exact O6|]. split; [exact O7|]. split; [exact O8|]. split; [exact O9|]. exact O10.
Qed.
Print Assumptions C101_one_partition.

(* 0, 2, 4 in partition 0.  The vector 12 is turned away (its distance 8 is four times the average), 13 is not. *)
Definition one_group : list (list Z) := [[0]; [2]; [4]]%Z.
Definition one_state : params := (records 0 [0; 0; 0] [1; 0; 1] [2; 2; 2] [(0%Z, 2 # 1)] [(0, 3)])%Z.
Definition shown (r : res (bool * list (list Z) * params * list (list Z))) :=
  do x <- r; let '(b, w, st, m) := x in
  Ok (b, w, sp_target st, sp_labels st, sp_nnIndices st, sp_nnDists st, sp_num st, map (fun e => (fst e, Qred (snd e))) (sp_avg st)).
Lemma one_right : right_records on_line 1 one_group (sp_labels one_state) (sp_nnIndices one_state) (sp_nnDists one_state) (sp_num one_state) (sp_avg one_state).
Proof.
  split; [reflexivity|]. split; [|split; [|split]].
  - split; [reflexivity|]. intros i Hi. left. split.
    + below i Hi; [exists 1|exists 0|exists 1]; (split; [split; [lia|]; split; [cbn; lia|reflexivity]|reflexivity]).
    + intros j (N & Hj & E). cbn in Hj. below i Hi; below j Hj; try easy; cbn; lia.
  - split; [reflexivity|]. intros i Hi. left. below i Hi; [exists 1|exists 0|exists 1]; (split; [split; [lia|]; split; [cbn; lia|reflexivity]|split; reflexivity]).
  - split; [cbn; repeat constructor|]. split; [intros l c [[= <- <-]|[]]; reflexivity|].
    intros l H. apply (count_occ_In Z.eq_dec) in H. cbn in H. destruct H as [<-|[<-|[<-|[]]]]; eexists; left; reflexivity.
  - split; [cbn; repeat constructor|]. split; [|split].
    + intros l. split; [|intros (a & [[= <- <-]|[]]); cbn; lia]. intros H. apply (count_occ_In Z.eq_dec) in H. cbn in H. destruct H as [<-|[<-|[<-|[]]]]; eexists; left; reflexivity.
    + intros l a [[= <- <-]|[]]; cbn; lia.
    + intros l a [[= <- <-]|[]] _; reflexivity.
Qed.
Example C101_ex : (forall x, In x (sp_labels one_state) -> x = 0%Z) /\
  right_records on_line 1 one_group (sp_labels one_state) (sp_nnIndices one_state) (sp_nnDists one_state) (sp_num one_state) (sp_avg one_state) /\
  right_matrix on_line (tl one_group) [[0; 2]; [0; 0]]%Z /\
  turned_away on_line one_group 1 (sp_nnDists one_state) [12]%Z /\ ~ turned_away on_line one_group 1 (sp_nnDists one_state) [13]%Z /\
  shown (nnBasedEvaluator on_line 1 3 [13]%Z one_group one_state [[0; 2]; [0; 0]]%Z) =
    Ok (true, [[2]; [4]], 1, [0; 0], [1; 1; -1], [2; 2; -1], [(0, 2); (1, 1)], [(0, 2 # 1); (1, -1 # 1)])%Z.
Proof.
  split; [intros x [<-|[<-|[<-|[]]]]; reflexivity|]. split; [exact one_right|]. split.
  { split; [reflexivity|]. split; [intros r [<-|[<-|[]]]; reflexivity|].
    intros i j [H Hj]. cbn in Hj. assert (Hi : i < 2) by lia. below i Hi; below j Hj; try lia; reflexivity. }
  split; [|split; [|vm_compute; reflexivity]].
  - exists 8%Z. split; [split; [exists [4]%Z; split; [right; right; now left|reflexivity]|intros p [<-|[<-|[<-|[]]]]; cbn; lia]|]. cbn. lia.
  - intros (d & [(p & I & D) M] & H). assert (Q := M [4]%Z ltac:(right; right; now left)). cbn in Q.
    assert (d = 9%Z) by (destruct I as [<-|[<-|[<-|[]]]]; cbn in D; lia). subst d. cbn in H. lia.
Qed.

(* C102 *)
(* A vector v comes to a full window with several partitions.  It is never turned away.  It joins the partition of its
   first nearest point i, or founds the partition after the greatest label; one point k leaves, and k is not replaced in the
   records of the neighbours: they only lose the entries of k.  The run is undefined exactly if no point can leave. *)
Theorem C102_several_partitions : forall dist one, (forall x y, (0 <= dist x y)%Z) -> (0 < one)%Z ->
  forall pts st v m,
  let labels := sp_labels st in let nn := sp_nnDists st in
  (exists i j, i < length labels /\ j < length labels /\ nth i labels 0%Z <> nth j labels 0%Z) ->
  (forall x, In x labels -> (0 <= x)%Z) -> length (sp_keys st) = length labels ->
  StronglySorted Z.lt (map fst (sp_maxKeys st)) -> (forall p x, In (p, x) (sp_maxKeys st) -> In p labels) ->
  right_records dist one pts labels (sp_nnIndices st) nn (sp_num st) (sp_avg st) ->
  let run := nnBasedEvaluator dist one (length labels) v pts st m in
  exists i, first_nearest dist pts v i /\
    let goes := leaves dist one pts labels nn v (sp_key st) (sp_maxKeys st) i in
    let comes := joins dist one pts labels nn v i in
    ((forall k, ~ goes k) -> run = UB) /\
    (forall k, goes k -> exists target st', run = Ok (true, without k pts, st', m) /\
       (comes -> target = nth i labels 0%Z) /\ (~ comes -> exists top, greatest labels top /\ target = (top + 1)%Z) /\
       let emptied p := (p =? nth k labels 0)%Z && (size labels p =? 1) in
       sp_key st' = sp_key st /\ sp_target st' = target /\ sp_keys st' = without k (sp_keys st) /\ sp_labels st' = without k labels /\
       sp_nnIndices st' = without k (sp_nnIndices st) /\ sp_nnDists st' = without k nn /\ right_numbers (without k labels) (sp_num st') /\
       (forall p, zget (sp_avg st') p = if emptied p then None else zget (sp_avg st) p) /\
       (forall p, zget (sp_maxKeys st') p = if emptied p then None else zget (sp_maxKeys st) p)).
Proof.
  intros dist one Pos One pts st v m labels nn Two Lab Lk Mk Mk' R run.
  destruct (impure_eval dist one Pos One pts st v m R Lk Lab Two Mk Mk') as (i & F & U & O). exists i. split; [exact F|]. intros goes comes. split; [exact U|].
  intros k Hk. destruct (O k Hk) as (target & st' & E & Af & T1 & T2). exists target, st'. split; [exact E|]. split; [exact T1|]. split; [exact T2|]. exact Af.
Qed.
Print Assumptions C102_several_partitions.

(* In the two partitions 0, 2, 3 and 10, 14: the vector 13 joins the second one and the point 0 leaves; 100 founds a third
   one and 0 leaves; with the second partition outdated, its first point 10 leaves.  If the labels were 2 and 3, nothing could
   leave for a vector that joins. *)
Definition keyed (keys : list (Z * nat)) (labels : list Z) (a b : Z) : params :=
  mkParams 40 0 (seq 0 5) labels [1; 2; 1; 4; 3]%Z [2; 1; 1; 4; 4]%Z [(a, 4 # 3); (b, 4 # 1)] [(a, 3%Z); (b, 2%Z)] keys.
Definition fresh : params := keyed [(0%Z, 20); (1%Z, 39)] two_labels 0 1.
Definition old : params := keyed [(0%Z, 39); (1%Z, 14)] two_labels 0 1.
Example C102_ex :
  right_records on_line 1 two_groups two_labels (sp_nnIndices fresh) (sp_nnDists fresh) (sp_num fresh) (sp_avg fresh) /\
  (exists i j, i < length two_labels /\ j < length two_labels /\ nth i two_labels 0%Z <> nth j two_labels 0%Z) /\
  (forall x, In x two_labels -> (0 <= x)%Z) /\ StronglySorted Z.lt (map fst (sp_maxKeys fresh)) /\ (forall p x, In (p, x) (sp_maxKeys fresh) -> In p two_labels) /\
  first_nearest on_line two_groups [13]%Z 4 /\ joins on_line 1 two_groups two_labels (sp_nnDists fresh) [13]%Z 4 /\
  leaves on_line 1 two_groups two_labels (sp_nnDists fresh) [13]%Z 40 (sp_maxKeys fresh) 4 0 /\
  leaves on_line 1 two_groups two_labels (sp_nnDists old) [13]%Z 40 (sp_maxKeys old) 4 3 /\
  shown (nnBasedEvaluator on_line 1 5 [13]%Z two_groups fresh []) =
    Ok (true, [[2]; [3]; [10]; [14]], 1, [0; 0; 1; 1], [2; 1; 4; 3], [1; 1; 4; 4], [(0, 2); (1, 2)], [(0, 4 # 3); (1, 4 # 1)])%Z /\
  shown (nnBasedEvaluator on_line 1 5 [100]%Z two_groups fresh []) =
    Ok (true, [[2]; [3]; [10]; [14]], 2, [0; 0; 1; 1], [2; 1; 4; 3], [1; 1; 4; 4], [(0, 2); (1, 2)], [(0, 4 # 3); (1, 4 # 1)])%Z /\
  shown (nnBasedEvaluator on_line 1 5 [13]%Z two_groups old []) =
    Ok (true, [[0]; [2]; [3]; [14]], 1, [0; 0; 0; 1], [1; 2; 1; 3], [2; 1; 1; 4], [(0, 3); (1, 1)], [(0, 4 # 3); (1, 4 # 1)])%Z /\
  nnBasedEvaluator on_line 1 5 [13]%Z two_groups (keyed [(2%Z, 20); (3%Z, 39)] [2; 2; 2; 3; 3]%Z 2 3) [] = UB.
Proof.
  assert (J : joins on_line 1 two_groups two_labels (sp_nnDists fresh) [13]%Z 4) by (right; split; [vm_compute; discriminate|]; right; right; split; vm_compute; [reflexivity|discriminate]).
  split; [exact two_right|]. split; [exists 0, 4; cbn; lia|]. split; [intros x; cbn; lia|]. split; [cbn; repeat constructor; lia|].
  split; [intros p x [[= <- <-]|[[= <- <-]|[]]]; cbn; auto|]. split.
  { split; [cbn; lia|]. intros j Hj. cbn in Hj. below j Hj; cbn; lia. }
  split; [exact J|]. split.
  { right; right. split; [intros p (x & [[= <- <-]|[[= <- <-]|[]]] & L); lia|]. split; [exact J|]. split; [cbn; lia|]. split; [reflexivity|]. lia. }
  split.
  { left. exists 1%Z. split.
    - split; [exists 14; split; [right; now left|lia]|]. intros q (x & [[= <- <-]|[[= <- <-]|[]]] & L); [lia|]. lia.
    - split; [cbn; lia|]. split; [reflexivity|]. intros i Hi. below i Hi; cbn; lia. }
  repeat split; vm_compute; reflexivity.
Qed.

(* What is recorded about the points that stay is not kept right: here 14 is alone in its partition afterwards, but its
   recorded distance and the recorded average are still 4. *)
Theorem C102_records_stay_right_refuted : exists pts st v m w st' m',
  right_records on_line 1 pts (sp_labels st) (sp_nnIndices st) (sp_nnDists st) (sp_num st) (sp_avg st) /\
  nnBasedEvaluator on_line 1 (length (sp_labels st)) v pts st m = Ok (true, w, st', m') /\
  ~ right_distances on_line 1 w (sp_labels st') (sp_nnDists st') /\ ~ right_averages 1 (sp_labels st') (sp_nnDists st') (sp_avg st') /\
  ~ right_distances on_line 1 (w ++ [v]) (sp_labels st' ++ [sp_target st']) (sp_nnDists st').
Proof.
  exists two_groups, old, [13]%Z, []. do 3 eexists. split; [exact two_right|]. split; [vm_compute; reflexivity|]. split; [|split].
  - intros [_ H]. destruct (H 3 ltac:(cbn; lia)) as [[(j & (N & Hj & E) & _) _]|[_ E]]; [|discriminate]. cbn in Hj. below j Hj; try discriminate; lia.
  - intros (_ & _ & H & _). specialize (H 1%Z _ (or_intror (or_introl eq_refl)) eq_refl). discriminate.
  - intros [H _]. discriminate.
Qed.
Print Assumptions C102_records_stay_right_refuted.
