(* PropertiesHigher.v -- C97: the bars of dimension one and above, from text to text. *)
From Coq Require Import String Ascii List Arith ZArith Bool Lia Sorted Permutation Relations SpecFloat.
From Verif Require Import Base Spec SpecComplex FastModel SpecGraph SpecLinear SpecFast ArgModel SpecArgs PipeModel SpecPipe MainModel SpecMain SpecLink PropertiesComplex PropertiesPipe PropertiesMain.
From Verif Require Import DoubleModel SpecDouble DoubleProofs DoubleRuns PropertiesDouble.
From Verif Require Import IoModel SpecIo TextModel SpecText ReadModel SpecRead ReadProofs SpecProgram ProgramModel ProgramRuns PropertiesProgram NanModel SpecNan PropertiesNan SpecCompare CompareRuns PropertiesCompare SpecHigher HigherRuns.
Import ListNotations.
Local Open Scope nat_scope.
Local Open Scope list_scope.

(* C97: with the list of libstdc++, the bars of the output are those of the pairs that the reduction of the boundary matrices
   of the Vietoris-Rips complex gives, from dimension 1 up.  The columns of each matrix leave out the rows that ended classes
   one dimension below, and the row that the read past the end of their list adds. *)
Theorem C97_bars_are_the_pairs_of_the_boundary_matrices :
  forall square c dim eps cloud o files, squares square ->
  results square libstdcxx_past_end c dim eps cloud o (Ok files) ->
  exists deaths bars K piv ps, shows square c eps cloud o files deaths bars /\ rips_by_dimension square cloud c eps (Z.to_nat (top c dim)) K /\
    deaths = map (fun j => snd (nth j (at_dim K 1) ([], S754_nan))) (piv 1) /\ ends_classes K 1 (piv 1) /\
    bars = flat_map (fun k => pair_bars K k (ps k)) (seq 1 (higher_dims dim K)) /\
    forall k, 1 <= k <= higher_dims dim K -> piv (S k) = map snd (ps k) /\
      pairing (map (boundary_without (libstdcxx_skip (piv k) (length (at_dim K k))) (shapes K k)) (shapes K (S k))) (ps k).
Proof. intros square c dim eps cloud o files Sq. now apply higher_pairs. Qed.
Print Assumptions C97_bars_are_the_pairs_of_the_boundary_matrices.

(* C97: whatever the read past the end gives, if it adds no row, then at every scale there are at most as many bars of a
   dimension as the Betti number over GF(2), and exactly as many at all scales if and only if no class is left at the end. *)
Theorem C97_bars_count_at_most_betti_numbers :
  forall square past_end c dim eps cloud o files, squares square ->
  results square past_end c dim eps cloud o (Ok files) ->
  exists deaths bars K, shows square c eps cloud o files deaths bars /\ rips_by_dimension square cloud c eps (Z.to_nat (top c dim)) K /\
    ((forall k js, 1 <= k <= higher_dims dim K -> ends_classes K k js -> harmless past_end js (length (at_dim K k))) ->
     forall d, 1 <= d <= higher_dims dim K ->
       (forall t, is_number t -> fits t -> exists b, betti_number (up_to_scale t K) d b) /\
       (forall t b, is_number t -> fits t -> betti_number (up_to_scale t K) d b -> alive_bars d t bars <= b) /\
       ((forall t b, is_number t -> fits t -> betti_number (up_to_scale t K) d b -> alive_bars d t bars = b) <-> betti_number K d 0)).
Proof. intros square pe c dim eps cloud o files Sq. now apply higher_counts. Qed.
Print Assumptions C97_bars_count_at_most_betti_numbers.

(* C97: with the list of libstdc++ the loop of a polygon is never in the output: if the points form a polygon at some scale,
   no bar of dimension 1 has begun by then, though from four points on the first Betti number is one. *)
Theorem C97_loop_of_a_polygon_is_never_reported :
  forall square c dim eps cloud o files t, squares square ->
  results square libstdcxx_past_end c dim eps cloud o (Ok files) -> is_number t -> fits t -> polygon square cloud c eps t ->
  exists deaths bars K, shows square c eps cloud o files deaths bars /\ rips_by_dimension square cloud c eps (Z.to_nat (top c dim)) K /\
    (3 < length cloud -> betti_number (up_to_scale t K) 1 1) /\
    forall b e, In (1, b, e) bars -> SFltb t b = true.
Proof. intros square c dim eps cloud o files t Sq. now apply polygon_lost. Qed.
Print Assumptions C97_loop_of_a_polygon_is_never_reported.

Local Notation txt s := (list_ascii_of_string s).
(* The corners of a square, in order. *)
Definition corners : list (list double) := [[d_zero; d_zero]; [d_zero; whole 1]; [whole 1; whole 1]; [whole 1; d_zero]].
Lemma corners_linked u v : linked d_square corners Tree (whole 5) (whole 1) u v <-> In (u, v) [(0, 1); (1, 2); (2, 3); (0, 3)].
Proof.
  split.
  - intros (Huv & w & (x & (a & b & A & B & D) & ->) & _ & L). assert (Hv : v < length corners) by (apply nth_error_Some; rewrite B; discriminate). cbn [length corners] in Hv.
    do 4 (destruct u as [|u]; [do 4 (destruct v as [|v]; [try lia; cbn in A, B; injection A as <-; injection B as <-; vm_compute in D; injection D as <-; vm_compute in L; try discriminate L; cbn; auto 8|]); lia|]). lia.
  - intros [H|[H|[H|[H|[]]]]]; injection H as <- <-; (split; [lia|]); eexists; (split; [eexists; split; [do 2 eexists; split; [reflexivity|]; split; [reflexivity|]; vm_compute; reflexivity|reflexivity]|split; vm_compute; reflexivity]).
Qed.
Lemma corners_polygon : polygon d_square corners Tree (whole 5) (whole 1).
Proof.
  split.
  - exists [0]. split; [reflexivity|]. split; [repeat constructor; intros []|]. split; [intros x [<-|[]]; apply in_seq; cbn; lia|]. split; [intros x y [<-|[]] [<-|[]] _; reflexivity|].
    intros v Hv. apply in_seq in Hv. cbn [length corners] in Hv. exists 0. split; [now left|].
    assert (S : forall a b, In (a, b) [(0, 1); (1, 2); (2, 3); (0, 3)] -> clos_refl_sym_trans nat (linked d_square corners Tree (whole 5) (whole 1)) b a) by (intros a b H; apply rst_sym, rst_step, corners_linked, H).
    destruct v as [|[|[|[|v]]]]; [apply rst_refl|apply S; cbn; auto|apply rst_trans with 1; apply S; cbn; auto|apply S; cbn; auto 8|lia].
  - intros v Hv. cbn [length corners] in Hv.
    assert (G : forall v a b, a <> b -> (forall x, In (v, x) [(0, 1); (1, 2); (2, 3); (0, 3)] \/ In (x, v) [(0, 1); (1, 2); (2, 3); (0, 3)] <-> x = a \/ x = b) ->
      exists a b, a <> b /\ forall x, linked d_square corners Tree (whole 5) (whole 1) v x \/ linked d_square corners Tree (whole 5) (whole 1) x v <-> x = a \/ x = b).
    { intros v' a b Hab H. exists a, b. split; [exact Hab|]. intros x. rewrite !corners_linked. apply H. }
    destruct v as [|[|[|[|v]]]]; [apply (G 0 1 3)|apply (G 1 0 2)|apply (G 2 1 3)|apply (G 3 0 2)|lia]; try lia; intros x; cbn [In]; (split; [intros H; decompose [or] H; clear H; try congruence; try contradiction; repeat match goal with Q : (_, _) = (_, _) |- _ => injection Q as Q; subst end; auto|intros [->| ->]; auto 10]).
Qed.
Ltac corner_rows := apply Forall2_cons; [pair "0"%string "0"%string|apply Forall2_cons; [pair "0"%string "1"%string|apply Forall2_cons; [pair "1"%string "1"%string|apply Forall2_cons; [pair "1"%string "0"%string|apply Forall2_nil]]]].

(* C97: the square has a loop between the scales 1 and 1.41, and the output has no line for it. *)
Theorem C97_loop_of_a_square_refuted :
  exists files, results d_square libstdcxx_past_end Tree 2 (whole 5) corners "res" (Ok files) /\ polygon d_square corners Tree (whole 5) (whole 1) /\
    files = bar_file ["0,0,1.000000"; "0,0,1.000000"; "0,0,1.000000"; "0,0,5.000000"]%string.
Proof.
  eexists. split; [|split; [exact corners_polygon|reflexivity]].
  a_run "2"%string "5."%string ["0.,0."; "0.,1."; "1.,1."; "1.,0."]%string corners "5"%string ltac:(corner_rows).
Qed.
Print Assumptions C97_loop_of_a_square_refuted.

(* The square again, if the read past the end adds no row: the loop is in the output. *)
Definition no_row (js : list nat) (n : nat) : res nat := Ok 1000.
Example C97_ex :
  results d_square no_row Tree 2 (whole 5) corners "res" (Ok (bar_file ["0,0,1.000000"; "0,0,1.000000"; "0,0,1.000000"; "0,0,5.000000"; "1,1.000000,1.414214"]%string)) /\
  (forall js n, n <= 1000 -> harmless no_row js n) /\
  is_number (whole 1) /\ fits (whole 1) /\ polygon d_square corners Tree (whole 5) (whole 1).
Proof.
  split; [|split; [intros js n Hn _; exists 1000; split; [reflexivity|lia]|split; [discriminate|split; [|exact corners_polygon]]]].
  - exists 0, [], (fun _ _ p => Ok p), wsort, 0%Z, (fun g => Ok g), (fun _ _ p => Ok p), (Ok tt), (the_file ["0.,0."; "0.,1."; "1.,1."; "1.,0."]%string), (options "2" "5."), "2"%string, "5."%string, "pts"%string,
      (map (fun s => list_ascii_of_string s) ["0.,0."; "0.,1."; "1.,1."; "1.,0."]%string), (map Some corners).
    split; [apply wsort_is_sort|]. split; [options_line|]. split; [discriminate|]. split; [dim_text|]. split; [lia|]. split; [cell "5"%string|]. split; [reflexivity|]. split; [reflexivity|]. split; [corner_rows|].
    split; [reflexivity|]. split; [discriminate|]. split; [same_length|]. vm_compute; reflexivity.
  - vm_compute. repeat split; discriminate.
Qed.
