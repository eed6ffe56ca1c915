(* PropertiesPipe.v -- property theorems about whole runs of the default pipelines on a point cloud. *)
From Coq Require Import String List Arith ZArith Bool Lia Sorted Relations.
From Verif Require Import Base Spec ArgModel SpecArgs UtilsModel UtilsProofs ArrayListModel TreeModel FastModel PipeModel
  SpecComplex SpecTree SpecGraph SpecFast SpecPipe ArrayListInv ArrayListHist PipeProofs PipeRuns FastRuns PropertiesComplex.
From Verif Require Import SpecPipe.
Import ListNotations.
Local Open Scope nat_scope.
Local Open Scope list_scope.

(* C08 *)
(* The matrix has the distances above the diagonal (0 in the rows of empty points) and 0 elsewhere; the weights gain 0,
   epsilon and the distances below epsilon. *)
Theorem C08_distance_matrix_and_weights :
  forall (P : Type) (is_empty : P -> bool) (dist : P -> P -> Z) eps data ws, decreasing ws ->
  exists m ws', distMatrix_run P is_empty dist eps data ws = Ok (m, ws') /\
    length m = length data /\ (forall i, i < length data -> length (nth i m []) = length data) /\
    (forall i j x y, nth_error data i = Some x -> nth_error data j = Some y ->
       nth j (nth i m []) 0%Z = if (i <? j) && negb (is_empty x) then dist x y else 0%Z) /\
    decreasing ws' /\
    (forall w, In w ws' <-> In w ws \/ w = 0%Z \/ w = eps \/
       exists i j x y, i < j /\ nth_error data i = Some x /\ nth_error data j = Some y /\ is_empty x = false /\ w = dist x y /\ (w < eps)%Z).
Proof. exact distMatrix_spec. Qed.
Print Assumptions C08_distance_matrix_and_weights.

(* Points on a line, with the distance |x - y|. *)
Definition line_dist (x y : list Z) : Z := Z.abs (hd 0%Z x - hd 0%Z y).
Definition no_coords (x : list Z) : bool := match x with [] => true | _ => false end.

Example C08_ex : decreasing [7; 3]%Z /\
  distMatrix_run (list Z) no_coords line_dist 5 [[0]; [1]; []; [4]; [10]]%Z [7; 3]%Z =
  Ok ([[0;1;0;4;10]; [0;0;1;3;9]; [0;0;0;0;0]; [0;0;0;0;6]; [0;0;0;0;0]], [7;5;4;3;1;0])%Z.
Proof. split; [repeat constructor|vm_compute; reflexivity]. Qed.

(* C45 *)
(* A default run without collapse is a run of fastPersistence on the Vietoris-Rips complex of the points, listed level by
   level in order of weight. *)
Theorem C45_run_analyses_the_rips_complex :
  forall dist atoi atof srt past_end nc0 al_reduce other args c d e data,
  is_sort srt -> default_run args c d e ->
  (forall x, In x data -> x <> []) -> (forall x y, (0 <= dist x y)%Z) -> (0 < atoi d < 2 ^ 31 - 1)%Z ->
  exists edges finish, complex edges /\ filtered edges /\
    lists_rips (separation dist data) (close c (atof e)) (length data) (Z.to_nat (top c (atoi d))) edges /\
    run_program dist atoi atof srt past_end nc0 al_reduce other args data =
      (do r <- fp_run past_end (atoi d) (atof e) edges []; Ok (Some (finish r, []))) /\
    forall r, (pk_output (finish r), pk_table (finish r)) = result r /\ pk_data (finish r) = data.
Proof. exact default_run_edges. Qed.
Print Assumptions C45_run_analyses_the_rips_complex.

(* The finite bars of dimension 0 die at the single-linkage merge heights: at every scale t the number of clusters is the
   number of points minus the number of bars that died by t; one more bar ends at epsilon. *)
Theorem C45_dim0_bars_are_single_linkage_heights :
  forall dist atoi atof srt past_end nc0 al_reduce other args c d e data,
  is_sort srt -> default_run args c d e ->
  (forall x, In x data -> x <> []) -> (forall x y, (0 <= dist x y)%Z) -> (0 < atoi d < 2 ^ 31 - 1)%Z ->
  forall p failed, run_program dist atoi atof srt past_end nc0 al_reduce other args data = Ok (Some (p, failed)) -> data <> [] ->
  failed = [] /\ exists deaths, dim0 (pk_output p) = map (fun w => (0, 0%Z, w)) deaths ++ [(0, 0%Z, atof e)] /\
    forall t n, clusters dist data c (atof e) t n <-> count_le t deaths + n = length data.
Proof. exact default_dim0. Qed.
Print Assumptions C45_dim0_bars_are_single_linkage_heights.

(* A run on at least one point of which no two are close is undefined.  With libstdc++'s list every other run ends. *)
Theorem C45_run_defined_iff_some_pair_is_close :
  forall dist atoi atof srt past_end nc0 al_reduce other args c d e data,
  is_sort srt -> default_run args c d e ->
  (forall x, In x data -> x <> []) -> (forall x y, (0 <= dist x y)%Z) -> (0 < atoi d < 2 ^ 31 - 1)%Z ->
  let some_pair := exists u v, u < v /\ v < length data /\ close c (atof e) (separation dist data u v) in
  (data <> [] -> ~ some_pair -> run_program dist atoi atof srt past_end nc0 al_reduce other args data = UB) /\
  (data = [] \/ some_pair ->
     exists p, run_program dist atoi atof srt libstdcxx_past_end nc0 al_reduce other args data = Ok (Some (p, []))).
Proof. exact default_undefined. Qed.
Print Assumptions C45_run_defined_iff_some_pair_is_close.

(* atoi and atof on the few strings used below; the options a command line gives. *)
Definition digit (s : string) : Z :=
  if String.eqb s "1" then 1%Z else if String.eqb s "2" then 2%Z else if String.eqb s "3" then 3%Z else if String.eqb s "5" then 5%Z else 0%Z.
Definition run_line past_end (argv : list string) (data : list (list Z)) : res (list (nat * Z * Z)) :=
  do m <- parse argv;
  do r <- run_program line_dist digit digit wsort past_end 0 (fun g => Ok g) (fun _ _ p => Ok p) (setPipeline m) data;
  match r with Some (p, _) => Ok (pk_output p) | None => Ok [] end.
Definition has_default_options argv c d e : Prop := exists m, parse argv = Ok m /\ default_run (setPipeline m) c d e.

Example C45_ex :
  is_sort wsort /\ (forall x y, (0 <= line_dist x y)%Z) /\
  has_default_options [] Tree "1" "5" /\
  has_default_options ["-c"; "simplexArrayList"; "-d"; "2"; "-e"; "3"]%string ArrayList "2" "3" /\
  run_line libstdcxx_past_end [] [[0]; [1]; [4]; [10]; [12]]%Z = Ok [(0, 0%Z, 1%Z); (0, 0%Z, 2%Z); (0, 0%Z, 3%Z); (0, 0%Z, 5%Z)] /\
  run_line libstdcxx_past_end ["-c"; "simplexArrayList"; "-d"; "2"; "-e"; "3"]%string [[0]; [1]; [4]; [10]; [12]]%Z =
    Ok [(0, 0%Z, 1%Z); (0, 0%Z, 2%Z); (0, 0%Z, 3%Z); (0, 0%Z, 3%Z)] /\
  run_line libstdcxx_past_end [] [[0]; [5]; [10]]%Z = UB.
Proof.
  split; [apply wsort_is_sort|]. split; [intros; apply Z.abs_nonneg|].
  split; [|split; [|repeat split; vm_compute; reflexivity]].
  - eexists. split; [vm_compute; reflexivity|]. constructor; try (vm_compute; (reflexivity || discriminate)).
    eexists. split; [vm_compute; reflexivity|]. split; discriminate.
  - eexists. split; [vm_compute; reflexivity|]. constructor; try (vm_compute; (reflexivity || discriminate)).
    eexists. split; [vm_compute; reflexivity|]. split; discriminate.
Qed.

(* C56 *)
(* No bar has dimension -d or more; so the default -d 1 reports only bars of dimension 0. *)
Theorem C56_no_bar_of_the_requested_dimension :
  forall dist atoi atof srt past_end nc0 al_reduce other args c d e data,
  is_sort srt -> default_run args c d e ->
  (forall x, In x data -> x <> []) -> (forall x y, (0 <= dist x y)%Z) -> (0 < atoi d < 2 ^ 31 - 1)%Z ->
  forall p failed, run_program dist atoi atof srt past_end nc0 al_reduce other args data = Ok (Some (p, failed)) ->
  forall k b x, In (k, b, x) (pk_output p) -> (Z.of_nat k < atoi d)%Z.
Proof. exact default_dims. Qed.
Print Assumptions C56_no_bar_of_the_requested_dimension.
(* A cycle with bars of dimension 1: reported with -d 2, not with -d 1. *)
Definition square_dist (x y : list Z) : Z := (Z.abs (hd 0%Z x - hd 0%Z y) + Z.abs (nth 1 x 0%Z - nth 1 y 0%Z))%Z.
Definition square_bars past_end (d : Z) : res (list (nat * Z * Z)) :=
  do m <- parse ["-c"; "simplexArrayList"]%string;
  do r <- run_program square_dist (fun _ => d) digit wsort past_end 0 (fun g => Ok g) (fun _ _ p => Ok p) (setPipeline m)
            [[0;0]; [0;1]; [1;0]; [1;1]]%Z;
  match r with Some (p, _) => Ok (pk_output p) | None => Ok [] end.
Example C56_ex :
  (exists b x, match square_bars (fun _ _ => Ok 1000) 2 with Ok l => In (1, b, x) l | UB => False end) /\
  square_bars (fun _ _ => Ok 1000) 1 = Ok [(0, 0%Z, 1%Z); (0, 0%Z, 1%Z); (0, 0%Z, 1%Z); (0, 0%Z, 5%Z)].
Proof. split; [exists 1%Z, 2%Z; vm_compute; tauto|vm_compute; reflexivity]. Qed.
