(* PropertiesLink.v -- C85: the program from its command line with its own preprocessor k-means++. *)
From Coq Require Import String Ascii List Arith ZArith Bool Lia.
From Verif Require Import Base UtilsModel ArrayListModel TreeModel FastModel ArgModel IoModel PipeModel KmeansModel MainModel LinkModel.
From Verif Require Import Spec SpecIo SpecKmeans SpecComplex SpecArgs SpecGraph SpecFast SpecPipe SpecMain SpecLink.
From Verif Require Import LinkRuns PropertiesComplex PropertiesPipe PropertiesMain.
Import ListNotations.
Local Open Scope nat_scope.
Local Open Scope list_scope.

(* ---------------------------------------------------------------- C85 *)
(* With mpi 1 or in the mode upscaleBound the program prints how many points k-means put in each cluster.  The last point
   of the file is in none of them.  With fewer different points than clusters, and with no clusters, it is undefined. *)
Theorem C85_upscale_prints_the_sizes_of_the_clusters :
  forall dist maxn quo nanz atoi atof index picks pre_other srt past_end nc0 al_reduce other uaf stod file argv pre k r f data dim,
  complete_line argv -> value argv "mpi" "1" \/ (value argv "pipeline" "" /\ value argv "mode" "upscaleBound") ->
  value argv "preprocessor" pre -> pre = ""%string \/ names_kmeans pre ->
  value argv "clusters" k -> value argv "iterations" r -> value argv "inputFile" f -> holds_points stod file f data ->
  let program := lhf_linked dist maxn quo nanz atoi atof index picks pre_other srt past_end nc0 al_reduce other uaf stod file argv in
  let n := Z.to_nat (atoi k) in
  (kmeans_setting dist maxn index picks (atoi k) (atoi r) dim data ->
    (fewer_than n data -> program = UB) /\
    (~ fewer_than n data -> exists q labels centroids counts, program = Ok (Counted q counts) /\
       pk_labels q = labels /\ pk_data q = centroids /\
       clustering dist quo (repeat nanz dim) n dim data labels centroids /\
       length counts = n /\ list_sum counts + 1 = length data /\
       forall j c, nth_error counts j = Some c -> c = length (members (removelast data) labels j))) /\
  ((atoi k <= 0)%Z -> (0 < atoi r)%Z -> 2 <= length data -> index < length data -> program = UB).
Proof. exact linked_upscale. Qed.
Print Assumptions C85_upscale_prints_the_sizes_of_the_clusters.

(* A run with -pre kmeans: the points of the pipeline are the centroids, so the bars of dimension 0 in the file are the
   single-linkage heights of the centroids.  This supposes that every cluster has a point; otherwise a centroid is not a
   number. *)
Theorem C85_kmeans_run_writes_bars_of_centroids :
  forall dist maxn quo nanz atoi atof index picks pre_other srt past_end nc0 al_reduce other uaf stod file argv pre k r c d e f o data dim,
  is_sort srt -> (forall x y, (0 <= dist x y)%Z) -> (0 < atoi d < 2 ^ 31 - 1)%Z ->
  one_run_line argv pre c d e f o -> names_kmeans pre -> value argv "clusters" k -> value argv "iterations" r -> holds_points stod file f data ->
  kmeans_setting dist maxn index picks (atoi k) (atoi r) dim data ->
  let program := lhf_linked dist maxn quo nanz atoi atof index picks pre_other srt past_end nc0 al_reduce other uaf stod file argv in
  let n := Z.to_nat (atoi k) in
  (fewer_than n data -> program = UB) /\
  (~ fewer_than n data -> exists cents labels,
     kmeans_run dist maxn quo (atoi k) (atoi r) index picks data = Ok (cents, labels) /\ let centroids := map (stored nanz) cents in
     clustering dist quo (repeat nanz dim) n dim data labels centroids /\
     (all_used n labels ->
        let two_close := exists u v, u < v /\ v < n /\ close c (atof e) (separation dist centroids u v) in
        (forall res, program = Ok res ->
           exists q deaths, res = Ran q (if String.eqb o "console" then [] else [((o ++ ".csv")%string, pk_output q)]) /\ pk_labels q = labels /\
             dim0 (pk_output q) = map (fun w => (0, 0%Z, w)) deaths ++ [(0, 0%Z, atof e)] /\
             forall t m, clusters dist centroids c (atof e) t m <-> count_le t deaths + m = n) /\
        (~ two_close -> program = UB) /\
        (two_close -> past_end = libstdcxx_past_end -> exists res, program = Ok res))).
Proof. exact linked_run. Qed.
Print Assumptions C85_kmeans_run_writes_bars_of_centroids.

(* The reduced mode with k-means: group j holds the labelled points closer to centroid j than twice the largest distance of
   a point to its own centroid; the last point of the file is in no group.  The pipeline runs on every group that has a point
   and then on the centroids, every run writes the same file, and the bars of dimension 0 of a run end at the lengths of a
   spanning forest of its group.  If the write to freed memory of clear (uaf) is undefined, so is the whole mode. *)
Theorem C85_reduced_mode_with_kmeans :
  forall dist maxn quo nanz atoi atof index picks pre_other srt past_end nc0 al_reduce other uaf stod file argv pre k r d e f o data dim,
  is_sort srt -> (forall x y, (0 <= dist x y)%Z) -> (0 < atoi d < 2 ^ 31 - 1)%Z ->
  reduced_line argv pre d e f o -> pre = ""%string \/ names_kmeans pre -> value argv "clusters" k -> value argv "iterations" r ->
  holds_points stod file f data -> kmeans_setting dist maxn index picks (atoi k) (atoi r) dim data ->
  let program := lhf_linked dist maxn quo nanz atoi atof index picks pre_other srt past_end nc0 al_reduce other uaf stod file argv in
  let n := Z.to_nat (atoi k) in
  (fewer_than n data -> program = UB) /\
  (~ fewer_than n data -> exists cents labels,
     kmeans_run dist maxn quo (atoi k) (atoi r) index picks data = Ok (cents, labels) /\ let centroids := map (stored nanz) cents in
     clustering dist quo (repeat nanz dim) n dim data labels centroids /\
     (uaf = UB -> program = UB) /\
     (all_used n labels -> forall res, program = Ok res ->
        exists q radius groups outs outs',
          res = Ran q (if String.eqb o "console" then [] else map (fun out => ((o ++ ".csv")%string, out)) outs) /\
          farthest dist data labels centroids radius /\
          length groups = n /\
          (forall j c g, nth_error centroids j = Some c -> nth_error groups j = Some g ->
             forall x, In x g <-> In x (removelast data) /\ (dist x c < 2 * radius)%Z) /\
          Forall2 (fun g out => exists F, spanning_forest dist g (atof e) F /\ ends_at dist g (atof e) F out /\ some_pair dist g (atof e))
                  (filter non_empty (groups ++ [centroids])) outs /\
          outs = outs' ++ [pk_output q])).
Proof. exact linked_reduced. Qed.
Print Assumptions C85_reduced_mode_with_kmeans.

(* Whole quotients; the draws take the points 0 and 10 first; the point 50 comes last in the file. *)
Definition five : list string := ["00"; "02"; "10"; "12"; "50"]%string.
Lemma five_points : holds_points decimal (the_file five) "pts" [[0]; [2]; [10]; [12]; [50]]%Z.
Proof.
  right. exists (map list_ascii_of_string five), [Some [0]; Some [2]; Some [10]; Some [12]; Some [50]]%Z. split; [discriminate|]. split; [reflexivity|].
  split; [|reflexivity]. cbn [map five]. 
  apply Forall2_cons; [exists [list_ascii_of_string "00"]; row|]. apply Forall2_cons; [exists [list_ascii_of_string "02"]; row|].
  apply Forall2_cons; [exists [list_ascii_of_string "10"]; row|]. apply Forall2_cons; [exists [list_ascii_of_string "12"]; row|].
  apply Forall2_cons; [exists [list_ascii_of_string "50"]; row|]. constructor.
Qed.
(* Distances are bounded, as they are with doubles. *)
Definition near_dist (x y : list Z) : Z := Z.min (line_dist x y) 999999.
Definition linked (index : nat) (picks : list (nat * (nat -> bool))) (lines : list string) (argv : list string) : res outcome :=
  lhf_linked near_dist 1000000 (fun s n => Z.div s (Z.of_nat n)) (-1) number number index picks (fun _ _ p => Ok p) wsort libstdcxx_past_end 0
    (fun g => Ok g) (fun _ _ p => Ok p) (Ok tt) decimal (the_file lines) argv.

Definition count_line : list string := ["-i"; "pts"; "-a"; "1"; "-k"; "2"]%string.
Definition bars_line : list string := ["-i"; "pts"; "-pre"; "kmeans"; "-k"; "2"; "-e"; "11"; "-o"; "res"]%string.
Definition reduced_argv : list string := ["-i"; "pts"; "-m"; "reduced"; "-k"; "2"; "-e"; "11"; "-o"; "res"]%string.
Ltac even_line := let k := fresh in let H := fresh in intros [[k H] _]; cbn in H; lia.
Example C85_ex :
  is_sort wsort /\ (forall x y, (0 <= near_dist x y)%Z) /\ (0 < number "1" < 2 ^ 31 - 1)%Z /\
  holds_points decimal (the_file five) "pts" [[0]; [2]; [10]; [12]; [50]]%Z /\
  kmeans_setting near_dist 1000000 0 [(2, fun _ => true)] (number "2") (number "250") 1 [[0]; [2]; [10]; [12]; [50]]%Z /\
  (complete_line count_line /\ value count_line "mpi" "1" /\ value count_line "preprocessor" "" /\ value count_line "clusters" "2" /\ value count_line "iterations" "250") /\
  (one_run_line bars_line "kmeans" Tree "1" "11" "pts" "res" /\ names_kmeans "kmeans" /\ value bars_line "clusters" "2" /\ value bars_line "iterations" "250") /\
  (reduced_line reduced_argv "" "1" "11" "pts" "res" /\ value reduced_argv "clusters" "2" /\ value reduced_argv "iterations" "250") /\
  ~ fewer_than 2 [[0]; [2]; [10]; [12]; [50]]%Z /\ all_used 2 [0; 0; 1; 1] /\
  (exists q, linked 0 [(2, fun _ => true)] five count_line = Ok (Counted q [2; 2]) /\ pk_data q = [[1]; [11]]%Z /\ pk_labels q = [0; 0; 1; 1]) /\
  bars (linked 0 [(2, fun _ => true)] five bars_line) = Some [("res.csv"%string, [(0, 0%Z, 10%Z); (0, 0%Z, 11%Z)])] /\
  bars (linked 0 [(2, fun _ => true)] five reduced_argv) =
    Some (map (fun out => ("res.csv"%string, out)) [[(0, 0%Z, 2%Z); (0, 0%Z, 11%Z)]; [(0, 0%Z, 2%Z); (0, 0%Z, 11%Z)]; [(0, 0%Z, 10%Z); (0, 0%Z, 11%Z)]]) /\
  linked 0 [] ["00"; "00"; "00"]%string count_line = UB /\
  linked 0 [] five ["-i"; "pts"; "-a"; "1"; "-k"; "0"]%string = UB /\
  (* the last point is the first centroid: no point has its label, and its centroid becomes 0 / 0 *)
  (exists q, linked 2 [(0, fun _ => true)] ["00"; "02"; "50"]%string count_line = Ok (Counted q [0; 2]) /\ pk_data q = [[-1]; [1]]%Z).
Proof.
  split; [apply wsort_is_sort|]. split; [intros; unfold near_dist, line_dist; lia|]. split; [vm_compute; split; reflexivity|]. split; [exact five_points|].
  split. { constructor; try (vm_compute; reflexivity); [cbn; lia| | |].
    - intros i v [[= <- _]|[]]. cbn. lia.
    - intros x Hx. cbn in Hx. repeat (destruct Hx as [<-|Hx]; [reflexivity|]). destruct Hx.
    - intros x y. unfold near_dist. lia. }
  split. { split; [even_line|]. repeat split; line_value. }
  split. { split; [|split; [unfold names_kmeans, pre_names; cbn; auto|split; line_value]]. constructor; try line_value.
    - even_line.
    - left. split; [line_value|]. split; [line_value|]. exists "false"%string. split; [line_value|discriminate].
    - exists "0"%string. split; [line_value|discriminate].
    - exists "false"%string. split; [line_value|split; discriminate]. }
  split. { split; [|split; line_value]. constructor; try line_value.
    - even_line.
    - exists "0"%string. split; [line_value|discriminate].
    - exists "false"%string. split; [line_value|split; discriminate]. }
  split. { intros (t & L & I). assert (A := I [0]%Z ltac:(cbn; auto)). assert (B := I [10]%Z ltac:(cbn; auto)).
    destruct t as [|a [|b t]]; cbn in L; try lia; cbn in A, B; intuition congruence. }
  split. { intros [|[|j]] H; cbn; auto; lia. }
  split; [eexists; split; [vm_compute; reflexivity|split; reflexivity]|]. split; [vm_compute; reflexivity|]. split; [vm_compute; reflexivity|].
  split; [vm_compute; reflexivity|]. split; [vm_compute; reflexivity|]. eexists. split; [vm_compute; reflexivity|reflexivity].
Qed.
