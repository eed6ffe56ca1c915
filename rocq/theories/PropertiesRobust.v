(* PropertiesRobust.v -- property theorems that compare the results of two runs of the default pipelines. *)
From Coq Require Import String List Arith ZArith Bool Lia Sorted Permutation Relations.
From Verif Require Import Base Spec ArgModel SpecArgs UtilsModel UtilsProofs ArrayListModel TreeModel FastModel PipeModel
  SpecComplex SpecTree SpecGraph SpecFast SpecPipe PipeRuns PropertiesComplex PropertiesPipe SpecRobust RobustProofs RobustRuns.
Import ListNotations.
Local Open Scope nat_scope.
Local Open Scope list_scope.

(* C74 *)
(* The lines of dimension 0 depend only on the distances between the points: two runs on matched points have the same ones,
   in the same order, whatever the order of the points, the sort, the dimension option and the memory past the list are. *)
Theorem C74_dim0_lines_depend_on_distances_only :
  forall dist dist' past_end past_end' c dim dim' eps data data' lines lines' f,
  symmetric dist -> symmetric dist' -> isometry dist data dist' data' f ->
  reports dist past_end c dim eps data lines -> reports dist' past_end' c dim' eps data' lines' ->
  dim0 lines = dim0 lines'.
Proof. intros dist dist' pe pe' c dim dim' eps data data' lines lines' f S S'. apply dim0_isometry; now apply separation_sym. Qed.
Print Assumptions C74_dim0_lines_depend_on_distances_only.

Theorem C74_dim0_lines_do_not_depend_on_the_order :
  forall dist past_end past_end' c dim dim' eps data data' lines lines',
  symmetric dist -> Permutation data data' ->
  reports dist past_end c dim eps data lines -> reports dist past_end' c dim' eps data' lines' ->
  dim0 lines = dim0 lines'.
Proof. intros dist pe pe' c dim dim' eps data data' lines lines' S. apply dim0_permutation; now apply separation_sym. Qed.
Print Assumptions C74_dim0_lines_do_not_depend_on_the_order.

(* Some runs: points, options as on the command line, and a distance. *)
Definition number (s : string) : Z :=
  if String.eqb s "9" then 9%Z else if String.eqb s "10" then 10%Z else if String.eqb s "50" then 50%Z
  else if String.eqb s "500" then 500%Z else digit s.
Definition run_points dist past_end (argv : list string) (data : list (list Z)) : res (list (nat * Z * Z)) :=
  do m <- parse argv;
  do r <- run_program dist number number wsort past_end 0 (fun g => Ok g) (fun _ _ p => Ok p) (setPipeline m) data;
  match r with Some (p, _) => Ok (pk_output p) | None => Ok [] end.
Lemma run_points_reports dist past_end argv c d e data lines : has_default_options argv c d e ->
  (0 < number d < 2 ^ 31 - 1)%Z -> (forall x, In x data -> x <> []) -> data <> [] -> (forall x y, (0 <= dist x y)%Z) -> lines <> [] ->
  run_points dist past_end argv data = Ok lines -> reports dist past_end c (number d) (number e) data lines.
Proof.
  intros (m & Em & Hr) Hd Hx Hn Hp Hl. unfold run_points. rewrite Em. cbn [bind].
  destruct (run_program dist number number wsort past_end 0 _ _ (setPipeline m) data) as [[[p failed]|]|] eqn:E; cbn [bind]; intros [=]; subst; [|easy].
  exists number, number, wsort, 0%Z, (fun g => Ok g), (fun _ _ p => Ok p), (setPipeline m), d, e, p, failed. split; [exact wsort_is_sort|]. do 8 (split; [solve [auto|reflexivity]|]). reflexivity.
Qed.
Lemma line_dist_sym : symmetric line_dist.
Proof. intros x y. unfold line_dist. lia. Qed.
Lemma line_dist_pos x y : (0 <= line_dist x y)%Z.
Proof. unfold line_dist. lia. Qed.
Lemma line_default : has_default_options [] Tree "1" "5".
Proof. eexists. split; [vm_compute; reflexivity|]. constructor; try (vm_compute; reflexivity); [vm_compute; discriminate|eexists; split; [vm_compute; reflexivity|split; discriminate]]. Qed.
Ltac points := let H := fresh in intros ? H; cbn in H; intuition (subst; discriminate).
Ltac runs := first [exact line_dist_pos|discriminate|(vm_compute; split; reflexivity)|(vm_compute; reflexivity)|points|idtac].

Example C74_ex : symmetric line_dist /\ Permutation [[0]; [1]; [4]; [10]; [12]]%Z [[12]; [4]; [10]; [0]; [1]]%Z /\
  reports line_dist libstdcxx_past_end Tree 1 5 [[0]; [1]; [4]; [10]; [12]]%Z [(0, 0%Z, 1%Z); (0, 0%Z, 2%Z); (0, 0%Z, 3%Z); (0, 0%Z, 5%Z)] /\
  reports line_dist libstdcxx_past_end Tree 1 5 [[12]; [4]; [10]; [0]; [1]]%Z [(0, 0%Z, 1%Z); (0, 0%Z, 2%Z); (0, 0%Z, 3%Z); (0, 0%Z, 5%Z)].
Proof.
  split; [exact line_dist_sym|]. split.
  { apply Permutation_cons_app with (l1 := [[12]; [4]; [10]]%Z) (l2 := [[1]]%Z). apply Permutation_cons_app with (l1 := [[12]; [4]; [10]]%Z) (l2 := []).
    apply Permutation_sym, Permutation_cons_app with (l1 := [[4]; [10]]%Z) (l2 := []). reflexivity. }
  split; apply (run_points_reports line_dist libstdcxx_past_end [] Tree "1" "5"); try exact line_default; runs.
Qed.

(* C75 *)
(* With a smaller threshold, or the complex that joins fewer points, exactly the bars that die at a distance that is still
   close remain. *)
Theorem C75_threshold_only_cuts_bars :
  forall dist past_end past_end' c c' dim dim' eps eps' data lines lines',
  (forall w, close c eps w -> close c' eps' w) ->
  reports dist past_end c dim eps data lines -> reports dist past_end' c' dim' eps' data lines' ->
  deaths lines = filter (closeb c eps) (deaths lines').
Proof.
  intros dist pe pe' c c' dim dim' eps eps' data lines lines'. apply dim0_threshold.
  intros w. destruct c; cbn; [apply Z.ltb_lt|apply Z.leb_le].
Qed.
Print Assumptions C75_threshold_only_cuts_bars.

(* Measuring on another, strictly increasing scale moves the deaths to that scale and changes nothing else. *)
Theorem C75_scale_changes_scale_deaths :
  forall dist dist' past_end past_end' c dim dim' eps eps' data data' lines lines' g,
  symmetric dist -> symmetric dist' -> length data' = length data ->
  (forall a b, (a < b)%Z -> (g a < g b)%Z) -> (forall d, close c eps' (g d) <-> close c eps d) ->
  (forall u v, u < length data -> v < length data -> u <> v -> separation dist' data' u v = g (separation dist data u v)) ->
  reports dist past_end c dim eps data lines -> reports dist' past_end' c dim' eps' data' lines' ->
  deaths lines' = map g (deaths lines).
Proof. intros dist dist' pe pe' c dim dim' eps eps' data data' lines lines' g S S'. apply dim0_rescaled; now apply separation_sym. Qed.
Print Assumptions C75_scale_changes_scale_deaths.

Lemma line_array : has_default_options ["-c"; "simplexArrayList"; "-d"; "2"; "-e"; "2"]%string ArrayList "2" "2".
Proof. eexists. split; [vm_compute; reflexivity|]. constructor; try (vm_compute; reflexivity); [vm_compute; discriminate|eexists; split; [vm_compute; reflexivity|split; discriminate]]. Qed.
Lemma line_ten : has_default_options ["-e"; "10"]%string Tree "1" "10".
Proof. eexists. split; [vm_compute; reflexivity|]. constructor; try (vm_compute; reflexivity); [vm_compute; discriminate|eexists; split; [vm_compute; reflexivity|split; discriminate]]. Qed.
Example C75_ex : (forall w, close ArrayList 2 w -> close Tree 5 w) /\
  reports line_dist libstdcxx_past_end ArrayList 2 2 [[0]; [1]; [4]; [10]; [12]]%Z [(0, 0%Z, 1%Z); (0, 0%Z, 2%Z); (0, 0%Z, 2%Z)] /\
  reports line_dist libstdcxx_past_end Tree 1 5 [[0]; [1]; [4]; [10]; [12]]%Z [(0, 0%Z, 1%Z); (0, 0%Z, 2%Z); (0, 0%Z, 3%Z); (0, 0%Z, 5%Z)] /\
  (forall d, close Tree 10 (2 * d) <-> close Tree 5 d) /\
  (forall u v, u < 5 -> v < 5 -> u <> v -> separation line_dist [[0]; [2]; [8]; [20]; [24]]%Z u v = (2 * separation line_dist [[0]; [1]; [4]; [10]; [12]]%Z u v)%Z) /\
  reports line_dist libstdcxx_past_end Tree 1 10 [[0]; [2]; [8]; [20]; [24]]%Z [(0, 0%Z, 2%Z); (0, 0%Z, 4%Z); (0, 0%Z, 6%Z); (0, 0%Z, 10%Z)].
Proof.
  split; [intros w; unfold close; lia|].
  split; [apply (run_points_reports line_dist libstdcxx_past_end ["-c"; "simplexArrayList"; "-d"; "2"; "-e"; "2"]%string ArrayList "2" "2"); try exact line_array; runs|].
  split; [apply (run_points_reports line_dist libstdcxx_past_end [] Tree "1" "5"); try exact line_default; runs|].
  split; [intros w; unfold close; lia|].
  split; [|apply (run_points_reports line_dist libstdcxx_past_end ["-e"; "10"]%string Tree "1" "10"); try exact line_ten; runs].
  intros u v Hu Hv _. do 5 (destruct u as [|u]; [do 5 (destruct v as [|v]; [reflexivity|]); lia|]). lia.
Qed.

(* C76 *)
(* When no distance changes by more than delta, the k-th death does not move by more than delta either; a bar that appears
   or disappears ends within delta of the threshold. *)
Theorem C76_dim0_bars_are_stable :
  forall dist dist' past_end past_end' c dim dim' eps data data' lines lines' delta,
  symmetric dist -> symmetric dist' -> length data' = length data ->
  (forall u v, u < length data -> v < length data -> u <> v ->
     (Z.abs (separation dist' data' u v - separation dist data u v) <= delta)%Z) ->
  reports dist past_end c dim eps data lines -> reports dist' past_end' c dim' eps data' lines' ->
  forall k,
    (k < length (deaths lines) -> k < length (deaths lines') -> (Z.abs (nth k (deaths lines') 0 - nth k (deaths lines) 0) <= delta)%Z) /\
    (length (deaths lines') <= k < length (deaths lines) -> ~ close c eps (nth k (deaths lines) 0 + delta)%Z) /\
    (length (deaths lines) <= k < length (deaths lines') -> ~ close c eps (nth k (deaths lines') 0 + delta)%Z).
Proof. intros dist dist' pe pe' c dim dim' eps data data' lines lines' delta S S'. apply dim0_stable; now apply separation_sym. Qed.
Print Assumptions C76_dim0_bars_are_stable.

(* More points never make a death later. *)
Theorem C76_more_points_do_not_delay_deaths :
  forall dist past_end past_end' c dim dim' eps data extra lines lines',
  reports dist past_end c dim eps data lines -> reports dist past_end' c dim' eps (data ++ extra) lines' ->
  forall k, k < length (deaths lines) ->
    k < length (deaths lines') /\ (nth k (deaths lines') 0 <= nth k (deaths lines) 0)%Z.
Proof. exact dim0_more_points. Qed.
Print Assumptions C76_more_points_do_not_delay_deaths.

(* Every copy of a point beyond the first is a bar of length 0, and there is no other. *)
Theorem C76_repeated_points_are_the_bars_of_length_zero :
  forall dist past_end c dim eps data lines (dec : forall x y : list Z, {x = y} + {x <> y}),
  (forall x y, In x data -> In y data -> (dist x y = 0%Z <-> x = y)) -> close c eps 0%Z ->
  reports dist past_end c dim eps data lines ->
  count_le 0 (deaths lines) + length (nodup dec data) = length data.
Proof. exact dim0_repeated. Qed.
Print Assumptions C76_repeated_points_are_the_bars_of_length_zero.

Example C76_ex :
  (forall u v, u < 5 -> v < 5 -> u <> v -> (Z.abs (separation line_dist [[0]; [2]; [4]; [9]; [12]] u v - separation line_dist [[0]; [1]; [4]; [10]; [12]] u v) <= 2)%Z) /\
  reports line_dist libstdcxx_past_end Tree 1 5 [[0]; [1]; [4]; [10]; [12]]%Z [(0, 0%Z, 1%Z); (0, 0%Z, 2%Z); (0, 0%Z, 3%Z); (0, 0%Z, 5%Z)] /\
  reports line_dist libstdcxx_past_end Tree 1 5 [[0]; [2]; [4]; [9]; [12]]%Z [(0, 0%Z, 2%Z); (0, 0%Z, 2%Z); (0, 0%Z, 3%Z); (0, 0%Z, 5%Z)] /\
  reports line_dist libstdcxx_past_end Tree 1 5 ([[0]; [1]; [4]; [10]; [12]] ++ [[3]; [10]])%Z
    [(0, 0%Z, 0%Z); (0, 0%Z, 1%Z); (0, 0%Z, 1%Z); (0, 0%Z, 2%Z); (0, 0%Z, 2%Z); (0, 0%Z, 5%Z)] /\
  (forall x y, In x ([[0]; [1]; [4]; [10]; [12]] ++ [[3]; [10]])%Z -> In y ([[0]; [1]; [4]; [10]; [12]] ++ [[3]; [10]])%Z -> (line_dist x y = 0%Z <-> x = y)) /\
  close Tree 5 0.
Proof.
  split. { intros u v Hu Hv _. do 5 (destruct u as [|u]; [do 5 (destruct v as [|v]; [vm_compute; discriminate|]); lia|]). lia. }
  do 3 (split; [apply (run_points_reports line_dist libstdcxx_past_end [] Tree "1" "5"); try exact line_default; runs|]).
  split; [|reflexivity]. cbn [app In]. intros x y Hx Hy.
  repeat (destruct Hx as [<-|Hx]; [repeat (destruct Hy as [<-|Hy]; [split; intros; (discriminate || reflexivity)|]); destruct Hy|]). destruct Hx.
Qed.

(* C77 *)
(* With libstdc++'s list and pairwise different distances the bars of dimension 1 depend only on the distances, too. *)
Theorem C77_dim1_bars_depend_on_distances_only_if_distinct :
  forall dist dist' c dim dim' eps data data' lines lines' f,
  symmetric dist -> symmetric dist' -> isometry dist data dist' data' f -> distinct_distances dist data ->
  (2 <= dim)%Z -> (2 <= dim')%Z ->
  reports dist libstdcxx_past_end c dim eps data lines -> reports dist' libstdcxx_past_end c dim' eps data' lines' ->
  Permutation (of_dim 1 lines) (of_dim 1 lines').
Proof. intros dist dist' c dim dim' eps data data' lines lines' f S S'. apply dim1_isometry; now apply separation_sym. Qed.
Print Assumptions C77_dim1_bars_depend_on_distances_only_if_distinct.

(* The square of the Euclidean distance in the plane. *)
Definition plane_dist (x y : list Z) : Z :=
  match x, y with [a; b], [a'; b'] => (a - a') * (a - a') + (b - b') * (b - b') | _, _ => 0 end%Z.
Lemma plane_dist_sym : symmetric plane_dist.
Proof. intros [|a [|b [|]]] [|a' [|b' [|]]]; cbn; auto. lia. Qed.
Lemma plane_dist_pos x y : (0 <= plane_dist x y)%Z.
Proof.
  destruct x as [|a [|b [|]]], y as [|a' [|b' [|]]]; unfold plane_dist; try lia.
  assert (H := Z.square_nonneg (a - a')). assert (K := Z.square_nonneg (b - b')). lia.
Qed.


(* With equal distances they depend on the order of the points: a bar disappears when the first point is moved back. *)
Lemma plane_options : has_default_options ["-d"; "2"; "-e"; "9"]%string Tree "2" "9" /\ has_default_options ["-d"; "2"; "-e"; "500"]%string Tree "2" "500" /\
  has_default_options ["-d"; "3"; "-e"; "50"]%string Tree "3" "50".
Proof.
  split; [|split];
    (eexists; split; [vm_compute; reflexivity|]; constructor; try (vm_compute; reflexivity); [vm_compute; discriminate|eexists; split; [vm_compute; reflexivity|split; discriminate]]).
Qed.
Theorem C77_dim1_bars_do_not_depend_on_the_order_refuted :
  exists data data' lines lines', Permutation data data' /\ symmetric plane_dist /\
    reports plane_dist libstdcxx_past_end Tree 2 9 data lines /\ reports plane_dist libstdcxx_past_end Tree 2 9 data' lines' /\
    of_dim 1 lines = [(1, 4%Z, 8%Z)] /\ of_dim 1 lines' = [].
Proof.
  exists [[2;2];[2;0];[0;2];[0;0];[1;3]]%Z, [[2;0];[0;2];[0;0];[2;2];[1;3]]%Z.
  exists [(0, 0%Z, 2%Z); (0, 0%Z, 2%Z); (0, 0%Z, 4%Z); (0, 0%Z, 4%Z); (0, 0%Z, 9%Z); (1, 4%Z, 8%Z)].
  exists [(0, 0%Z, 2%Z); (0, 0%Z, 2%Z); (0, 0%Z, 4%Z); (0, 0%Z, 4%Z); (0, 0%Z, 9%Z)].
  split; [apply Permutation_cons_app with (l1 := [[2;0];[0;2];[0;0]]%Z) (l2 := [[1;3]]%Z); reflexivity|]. split; [exact plane_dist_sym|].
  do 2 (split; [apply (run_points_reports plane_dist libstdcxx_past_end ["-d"; "2"; "-e"; "9"]%string Tree "2" "9"); [apply plane_options|..]; try exact plane_dist_pos; runs|]).
  split; reflexivity.
Qed.
Print Assumptions C77_dim1_bars_do_not_depend_on_the_order_refuted.

Lemma distinct_computed dist data :
  NoDup (map (fun p => separation dist data (fst p) (snd p)) (flat_map (fun v => map (fun u => (u, v)) (seq 0 v)) (seq 0 (length data)))) ->
  distinct_distances dist data.
Proof.
  intros N u v u' v' H1 H2 H3 H4 E. set (l := flat_map (fun v => map (fun u => (u, v)) (seq 0 v)) (seq 0 (length data))) in *.
  assert (I : forall a b, a < b -> b < length data -> In (a, b) l).
  { intros a b Hab Hb. apply in_flat_map. exists b. split; [apply in_seq; lia|]. apply in_map_iff. exists a. split; auto. apply in_seq; lia. }
  assert (G : forall x y, In x l -> In y l -> separation dist data (fst x) (snd x) = separation dist data (fst y) (snd y) -> x = y).
  { clear - N. induction l as [|z l IH]; intros x y Hx Hy Exy; [easy|]. cbn in N. inversion N; subst.
    destruct Hx as [<-|Hx], Hy as [<-|Hy]; auto.
    - exfalso. apply H1. rewrite Exy. now apply (in_map (fun p => separation dist data (fst p) (snd p))).
    - exfalso. apply H1. rewrite <- Exy. now apply (in_map (fun p => separation dist data (fst p) (snd p))). }
  assert (X := G (u, v) (u', v') (I _ _ H1 H2) (I _ _ H3 H4) E). injection X as -> ->. auto.
Qed.
Ltac distinct := apply distinct_computed; vm_compute; repeat (constructor; [cbn; intuition discriminate|]); constructor.


(* Five points at different distances, in two orders. *)
Definition five : list (list Z) := [[5;2];[5;0];[0;3];[1;0];[1;3]]%Z.
Definition five_moved : list (list Z) := [[5;0];[0;3];[1;0];[5;2];[1;3]]%Z.
Lemma plane_options2 : has_default_options ["-d"; "2"; "-e"; "50"]%string Tree "2" "50".
Proof. eexists. split; [vm_compute; reflexivity|]. constructor; try (vm_compute; reflexivity); [vm_compute; discriminate|eexists; split; [vm_compute; reflexivity|split; discriminate]]. Qed.
Example C77_ex : distinct_distances plane_dist five /\ (exists f, isometry plane_dist five plane_dist five_moved f) /\
  (exists lines, reports plane_dist libstdcxx_past_end Tree 2 50 five lines /\ of_dim 1 lines = [(1, 17%Z, 20%Z)]) /\
  (exists lines, reports plane_dist libstdcxx_past_end Tree 2 50 five_moved lines /\ of_dim 1 lines = [(1, 17%Z, 20%Z)]).
Proof.
  split; [distinct|]. split.
  { apply permutation_isometry. apply Permutation_cons_app with (l1 := [[5;0];[0;3];[1;0]]%Z) (l2 := [[1;3]]%Z). reflexivity. }
  split; exists [(0, 0%Z, 1%Z); (0, 0%Z, 4%Z); (0, 0%Z, 9%Z); (0, 0%Z, 16%Z); (0, 0%Z, 50%Z); (1, 17%Z, 20%Z)];
    (split; [|reflexivity]; apply (run_points_reports plane_dist libstdcxx_past_end ["-d"; "2"; "-e"; "50"]%string Tree "2" "50"); [apply plane_options2|..]; try exact plane_dist_pos; runs).
Qed.

(* C78 *)
(* The bars of dimension 2 depend on the order of the points even if all distances are different. *)
Theorem C78_dim2_bars_do_not_depend_on_the_order_refuted :
  exists data data' lines lines', Permutation data data' /\ symmetric plane_dist /\ distinct_distances plane_dist data /\
    reports plane_dist libstdcxx_past_end Tree 3 50 data lines /\ reports plane_dist libstdcxx_past_end Tree 3 50 data' lines' /\
    of_dim 2 lines = [(2, 10%Z, 25%Z); (2, 25%Z, 26%Z); (2, 26%Z, 29%Z)] /\ of_dim 2 lines' = [(2, 10%Z, 25%Z); (2, 25%Z, 29%Z)].
Proof.
  exists [[0;5];[1;1];[2;3];[5;3];[5;4]]%Z, [[0;5];[1;1];[5;3];[2;3];[5;4]]%Z.
  exists [(0, 0%Z, 1%Z); (0, 0%Z, 5%Z); (0, 0%Z, 8%Z); (0, 0%Z, 9%Z); (0, 0%Z, 50%Z); (2, 10%Z, 25%Z); (2, 25%Z, 26%Z); (2, 26%Z, 29%Z)].
  exists [(0, 0%Z, 1%Z); (0, 0%Z, 5%Z); (0, 0%Z, 8%Z); (0, 0%Z, 9%Z); (0, 0%Z, 50%Z); (2, 10%Z, 25%Z); (2, 25%Z, 29%Z)].
  split; [do 2 apply perm_skip; apply perm_swap|]. split; [exact plane_dist_sym|]. split; [distinct|].
  do 2 (split; [apply (run_points_reports plane_dist libstdcxx_past_end ["-d"; "3"; "-e"; "50"]%string Tree "3" "50"); [apply plane_options|..]; try exact plane_dist_pos; runs|]).
  split; reflexivity.
Qed.
Print Assumptions C78_dim2_bars_do_not_depend_on_the_order_refuted.

(* The bars of dimension 1 are not stable: no distance changes by more than 1 and a bar of length 100 disappears. *)
Definition city_dist (x y : list Z) : Z :=
  match x, y with [a; b], [a'; b'] => Z.abs (a - a') + Z.abs (b - b') | _, _ => 0 end%Z.
Theorem C78_dim1_bars_are_stable_refuted :
  exists data data' lines lines', length data' = length data /\ symmetric city_dist /\
    (forall u v, u < length data -> v < length data -> u <> v -> (Z.abs (separation city_dist data' u v - separation city_dist data u v) <= 1)%Z) /\
    reports city_dist libstdcxx_past_end Tree 2 500 data lines /\ reports city_dist libstdcxx_past_end Tree 2 500 data' lines' /\
    of_dim 1 lines = [(1, 200%Z, 300%Z)] /\ of_dim 1 lines' = [].
Proof.
  exists [[200;0];[0;200];[0;100];[0;0];[200;200]]%Z, [[200;0];[0;200];[1;100];[1;0];[200;200]]%Z.
  exists [(0, 0%Z, 100%Z); (0, 0%Z, 100%Z); (0, 0%Z, 200%Z); (0, 0%Z, 200%Z); (0, 0%Z, 500%Z); (1, 200%Z, 300%Z)].
  exists [(0, 0%Z, 100%Z); (0, 0%Z, 101%Z); (0, 0%Z, 199%Z); (0, 0%Z, 200%Z); (0, 0%Z, 500%Z)].
  assert (Sy : symmetric city_dist) by (intros [|a [|b [|]]] [|a' [|b' [|]]]; unfold city_dist; auto; lia).
  assert (Po : forall x y, (0 <= city_dist x y)%Z) by (intros [|a [|b [|]]] [|a' [|b' [|]]]; unfold city_dist; lia).
  split; auto. split; auto.
  split. { cbn [length]. intros u v Hu Hv _. do 5 (destruct u as [|u]; [do 5 (destruct v as [|v]; [vm_compute; discriminate|]); lia|]). lia. }
  do 2 (split; [apply (run_points_reports city_dist libstdcxx_past_end ["-d"; "2"; "-e"; "500"]%string Tree "2" "500"); [apply plane_options|..]; try exact Po; runs|]).
  split; reflexivity.
Qed.
Print Assumptions C78_dim1_bars_are_stable_refuted.
