(* PropertiesCollapseRuns.v -- property theorems about whole runs with the collapse of the array list. *)
From Coq Require Import String List Arith ZArith Bool Lia Sorted Relations.
From Verif Require Import Base Spec ArgModel SpecArgs UtilsModel UtilsProofs ArrayListModel TreeModel FastModel PipeModel
  SpecComplex SpecTree SpecGraph SpecFast SpecPipe FastRuns PipeRuns PropertiesComplex PropertiesPipe.
From Verif Require Import CollapseModel SpecCollapse CollapseProofs CollapseRuns.
From Verif Require Import SpecPipe.
Import ListNotations.
Local Open Scope nat_scope.
Local Open Scope list_scope.

(* C70 *)
(* A default run with collapse is a run of fastPersistence on the flag complex, up to dimension -d + 1, of the edges of the
   Vietoris-Rips complex W (up to dimension -d) that stay: those that are not the top face of a triangle that stays. *)
Theorem C70_run_analyses_the_flag_complex_of_the_edges_that_stay :
  forall dist atoi atof srt past_end nc0 other args d e data,
  is_sort srt -> collapse_run args d e ->
  (forall x, In x data -> x <> []) -> (forall x y, (0 <= dist x y)%Z) -> (0 < atoi d < 2 ^ 31 - 1)%Z ->
  exists W edges finish,
    lists_rips (separation dist data) (close ArrayList (atof e)) (length data) (Z.to_nat (atoi d)) W /\
    complex edges /\ filtered edges /\
    (forall k s w, In (s, w) (level edges k) <->
       length s = S k /\ k <= Z.to_nat (atoi d + 1) /\
       flag_simplex (fun u v => stays W (length W - 2) 1 ([u; v], separation dist data u v)) (length data) s /\
       diameter (separation dist data) s w) /\
    (forall k, k < length edges <-> level edges k <> []) /\
    run_program dist atoi atof srt past_end nc0 al_reduceComplex other args data =
      (do r <- fp_run past_end (atoi d) (atof e) edges []; Ok (Some (finish r, []))) /\
    forall r, (pk_output (finish r), pk_table (finish r)) = result r /\ pk_data (finish r) = data.
Proof.
  intros dist atoi atof srt past_end nc0 other args d e data Hs Hr Hne Hpos Hd.
  destruct (collapse_edges dist atoi atof srt past_end nc0 other args d e data Hs Hr Hne Hpos Hd)
    as (W & wg3 & edges & finish & _ & _ & H). exists W, edges, finish. exact H.
Qed.
Print Assumptions C70_run_analyses_the_flag_complex_of_the_edges_that_stay.

(* The bars of dimension 0 are those of a run without collapse (C45): their deaths are the single-linkage heights. *)
Theorem C70_dim0_bars_with_collapse_are_single_linkage_heights :
  forall dist atoi atof srt past_end nc0 other args d e data,
  is_sort srt -> collapse_run args d e ->
  (forall x, In x data -> x <> []) -> (forall x y, (0 <= dist x y)%Z) -> (0 < atoi d < 2 ^ 31 - 1)%Z ->
  forall p failed, run_program dist atoi atof srt past_end nc0 al_reduceComplex other args data = Ok (Some (p, failed)) -> data <> [] ->
  failed = [] /\ exists deaths, dim0 (pk_output p) = map (fun w => (0, 0%Z, w)) deaths ++ [(0, 0%Z, atof e)] /\
    forall t n, clusters dist data ArrayList (atof e) t n <-> count_le t deaths + n = length data.
Proof. exact collapse_dim0. Qed.
Print Assumptions C70_dim0_bars_with_collapse_are_single_linkage_heights.

(* The loops of the collapse end and a run is undefined in exactly the case of a run without collapse. *)
Theorem C70_run_with_collapse_defined_iff_some_pair_is_close :
  forall dist atoi atof srt past_end nc0 other args d e data,
  is_sort srt -> collapse_run args d e ->
  (forall x, In x data -> x <> []) -> (forall x y, (0 <= dist x y)%Z) -> (0 < atoi d < 2 ^ 31 - 1)%Z ->
  let some_pair := exists u v, u < v /\ v < length data /\ close ArrayList (atof e) (separation dist data u v) in
  (data <> [] -> ~ some_pair -> run_program dist atoi atof srt past_end nc0 al_reduceComplex other args data = UB) /\
  (data = [] \/ some_pair ->
     exists p, run_program dist atoi atof srt libstdcxx_past_end nc0 al_reduceComplex other args data = Ok (Some (p, []))).
Proof. exact collapse_undefined. Qed.
Print Assumptions C70_run_with_collapse_defined_iff_some_pair_is_close.

(* With -d 2 every triangle loses an edge, so no hole is ever reported, whatever the points. *)
Theorem C70_collapse_with_dimension_two_reports_no_holes :
  forall dist atoi atof srt past_end nc0 other args d e data,
  is_sort srt -> collapse_run args d e ->
  (forall x, In x data -> x <> []) -> (forall x y, (0 <= dist x y)%Z) -> (0 < atoi d < 2 ^ 31 - 1)%Z ->
  forall p failed, run_program dist atoi atof srt past_end nc0 al_reduceComplex other args data = Ok (Some (p, failed)) ->
  (atoi d <= 2)%Z -> forall k b x, In (k, b, x) (pk_output p) -> k = 0.
Proof. exact collapse_no_holes. Qed.
Print Assumptions C70_collapse_with_dimension_two_reports_no_holes.

(* The corners of two squares: two holes without collapse, none with it; all else is the same. *)
Definition squares : list (list Z) := [[0;0];[0;1];[1;1];[1;0];[7;7];[7;8];[8;8];[8;7]]%Z.
Definition square_line (argv : list string) : res (list (nat * Z * Z)) :=
  do m <- parse argv;
  do r <- run_program square_dist digit digit wsort libstdcxx_past_end 0 al_reduceComplex (fun _ _ p => Ok p) (setPipeline m) squares;
  match r with Some (p, _) => Ok (pk_output p) | None => Ok [] end.
Definition plain_line := ["-c"; "simplexArrayList"; "-d"; "2"; "-e"; "3"]%string.
Definition collapse_line := ["-c"; "simplexArrayList"; "-d"; "2"; "-e"; "3"; "-z"; "true"]%string.

Example C70_ex :
  is_sort wsort /\ (forall x, In x squares -> x <> []) /\ (forall x y, (0 <= square_dist x y)%Z) /\ (0 < digit "2" < 2 ^ 31 - 1)%Z /\
  (exists m, parse collapse_line = Ok m /\ collapse_run (setPipeline m) "2" "3") /\
  square_line plain_line = Ok (repeat (0, 0%Z, 1%Z) 6 ++ [(0, 0%Z, 3%Z); (1, 1%Z, 2%Z); (1, 1%Z, 2%Z)]) /\
  square_line collapse_line = Ok (repeat (0, 0%Z, 1%Z) 6 ++ [(0, 0%Z, 3%Z)]).
Proof.
  split; [apply wsort_is_sort|]. split; [cbn; intuition (subst; discriminate)|]. split; [intros x y; unfold square_dist; lia|].
  split; [vm_compute; split; reflexivity|]. split.
  - eexists. split; [vm_compute; reflexivity|]. constructor; try (vm_compute; (reflexivity || discriminate)). left. vm_compute. reflexivity.
  - split; vm_compute; reflexivity.
Qed.
