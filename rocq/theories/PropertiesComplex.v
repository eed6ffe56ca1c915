(* PropertiesComplex.v -- property theorems about the complexes. *)
From Coq Require Import List Arith ZArith Bool Lia Sorted Permutation.
From Verif Require Import Base Spec ArrayListModel SpecComplex ArrayListHist.
Import ListNotations.

(* Four points; {0,1,2} is a triangle with sides 3, 4, 5, point 3 is at 9 of the others, but at 5 of point 2. *)
Definition ex_dm : list (list Z) := [[0;3;4;9]; [0;0;5;9]; [0;0;0;5]; [0;0;0;0]]%Z.
Definition ex_ops : list al_op := [OpInsert false; OpInsert false; OpInsert true; OpInsert false; OpInsert false; OpExpand 2].

Lemma ex_covers : matrix_covers ex_dm ex_ops.
Proof.
  intros p q E.
  assert (H : live p <= 4).
  { unfold ex_ops in E. do 6 (destruct p as [|? p]; [cbn; lia|]; injection E as <- E). destruct p; [cbn; lia|discriminate]. }
  intros j i Hj Hi. assert (Hc : (j = 0 \/ j = 1 \/ j = 2) /\ (i = 1 \/ i = 2 \/ i = 3)) by lia.
  destruct Hc as [[->|[->| ->]] [->|[->| ->]]]; try lia; cbn; lia.
Qed.

(* ---------------------------------------------------------------- C09 *)
(* For every history of calls: level 0 is the inserted vertices; every stored simplex of dimension k >= 1 is a
   Vietoris-Rips simplex (all pairwise distances <= maxEpsilon) of the inserted points; conversely every such
   simplex of dimension 1 .. expanded is stored (edges always, since expanded >= 1), unless maxDimension <= 0,
   when only vertices are stored; and nothing is stored above the deepest expansion. *)
Theorem C09_array_list_is_vietoris_rips :
  forall (dm : list (list Z)) (eps maxDimension : Z) (ops : list al_op),
  matrix_covers dm ops ->
  exists wg, al_run dm eps maxDimension ops = Ok wg /\
    level wg 0 = map (fun i => ([i], 0%Z)) (seq 0 (live ops)) /\
    (forall k s w, 1 <= k -> In (s, w) (level wg k) -> length s = S k /\ rips dm eps (live ops) s) /\
    ((0 < maxDimension)%Z -> forall k s, 1 <= k <= expanded ops -> rips dm eps (live ops) s -> length s = S k ->
        exists w, In (s, w) (level wg k)) /\
    ((maxDimension <= 0)%Z -> forall k, 1 <= k -> level wg k = []) /\
    (forall k, deepest ops < k -> level wg k = []).
Proof. exact array_list_rips. Qed.
Print Assumptions C09_array_list_is_vietoris_rips.

Example C09_ex : matrix_covers ex_dm ex_ops /\ live ex_ops = 4 /\ expanded ex_ops = 2 /\
  al_run ex_dm 5 2 ex_ops =
    Ok [[([0],0%Z);([1],0%Z);([2],0%Z);([3],0%Z)];
        [([0;1],3%Z);([0;2],4%Z);([1;2],5%Z);([2;3],5%Z)]; [([0;1;2],5%Z)]].
Proof. split; [exact ex_covers|]. repeat split; vm_compute; reflexivity. Qed.

(* ---------------------------------------------------------------- C10 *)
Theorem C10_array_list_face_closed_weights_are_diameters :
  forall (dm : list (list Z)) (eps maxDimension : Z) (ops : list al_op) (wg : wgraph),
  matrix_covers dm ops -> al_run dm eps maxDimension ops = Ok wg ->
  (forall k, NoDup (map fst (level wg k))) /\
  (forall k s w, In (s, w) (level wg k) -> length s = S k /\ increasing s /\ diameter (dist_of dm) s w) /\
  (forall k s w f, In (s, w) (level wg (S k)) -> facet f s -> exists w', In (f, w') (level wg k) /\ (w' <= w)%Z).
Proof. exact array_list_closed. Qed.
Print Assumptions C10_array_list_face_closed_weights_are_diameters.

Example C10_ex : facet [0;2] [0;1;2] /\ diameter (dist_of ex_dm) [0;1;2] 5 /\
  exists wg, al_run ex_dm 5 2 ex_ops = Ok wg /\ In ([0;1;2], 5%Z) (level wg 2) /\ In ([0;2], 4%Z) (level wg 1).
Proof.
  split; [|split].
  - repeat split; [repeat constructor|]. intros x [<-|[<-|[]]]; cbn; auto.
  - split.
    + intros u v [<-|[<-|[<-|[]]]] [<-|[<-|[<-|[]]]] H; cbn; lia.
    + left. exists 1, 2. cbn. intuition lia.
  - eexists. split; [vm_compute; reflexivity|]. cbn. auto.
Qed.

(* ---------------------------------------------------------------- C11 *)
Theorem C11_getAllEdges_lists_the_complex :
  forall (dm : list (list Z)) (eps maxDimension : Z) (ops : list al_op) (wg : wgraph)
         (srt : list wsimp -> list wsimp) (epsilon : Z),
  matrix_covers dm ops -> al_run dm eps maxDimension ops = Ok wg -> is_sort srt ->
  let ret := getAllEdges srt wg epsilon in
  (forall k, Permutation (level ret k) (level wg k) /\ StronglySorted by_weight (level ret k)) /\
  (forall k, k < length ret <-> level wg k <> []) /\
  (forall epsilon', getAllEdges srt wg epsilon' = ret).
Proof. exact getAllEdges_spec. Qed.
Print Assumptions C11_getAllEdges_lists_the_complex.

(* Insertion sort by weight is one such sort. *)
Fixpoint winsert (x : wsimp) (l : list wsimp) : list wsimp :=
  match l with [] => [x] | y :: t => if (snd x <=? snd y)%Z then x :: l else y :: winsert x t end.
Definition wsort (l : list wsimp) : list wsimp := fold_right winsert [] l.
Lemma wsort_is_sort : is_sort wsort.
Proof.
  assert (P : forall x l, Permutation (winsert x l) (x :: l)).
  { intros x l. induction l as [|y l IH]; cbn; auto. destruct (snd x <=? snd y)%Z; auto. rewrite IH. constructor. }
  intros l; split.
  - induction l as [|x l IH]; cbn; auto. rewrite P. now constructor.
  - induction l as [|x l IH]; cbn; [constructor|]. change (fold_right winsert [] l) with (wsort l) in *. revert IH. generalize (wsort l) as m. clear l.
    induction m as [|y m IHm]; cbn; intros S; [repeat constructor|].
    destruct (Z.leb_spec (snd x) (snd y)) as [H|H].
    + constructor; auto. constructor; auto. inversion S; subst. rewrite Forall_forall in *. intros z Hz.
      specialize (H3 z Hz). unfold by_weight in *. lia.
    + inversion S; subst. constructor; [auto|]. rewrite Forall_forall in *. intros z Hz.
      apply (Permutation_in _ (P x m)) in Hz. destruct Hz as [<-|Hz]; [unfold by_weight; lia|auto].
Qed.

Example C11_ex : exists wg, al_run ex_dm 9 2 ex_ops = Ok wg /\
  map (map snd) (getAllEdges wsort wg 0) = [[0;0;0;0]; [3;4;5;5;9;9]; [5;9;9;9]]%Z.
Proof. eexists. split; vm_compute; reflexivity. Qed.

(* ---------------------------------------------------------------- C12 *)
(* After expandDimensions(a): expanding again to b <= a changes nothing (dimensions compare as the C++ code
   compares them, after conversion to unsigned); expanding to any b leaves the levels up to max(1,a)
   unchanged and only appends to the others. *)
Theorem C12_expandDimensions_idempotent_monotone :
  forall (dm : list (list Z)) (eps maxDimension : Z) (ops : list al_op) (wg : wgraph) (a : Z) (wg1 : wgraph) (b : Z),
  matrix_covers dm ops -> al_run dm eps maxDimension ops = Ok wg -> expandDimensions a wg = Ok wg1 ->
  (to_unsigned b <= to_unsigned a -> expandDimensions b wg1 = Ok wg1) /\
  (exists wg2, expandDimensions b wg1 = Ok wg2 /\
     (forall k, k <= Nat.max 1 (to_unsigned a) -> level wg2 k = level wg1 k) /\
     (forall k, exists new, level wg2 k = level wg1 k ++ new)).
Proof. exact expand_again. Qed.
Print Assumptions C12_expandDimensions_idempotent_monotone.

(* The dimension is an int compared as an unsigned: a negative one counts as 2^32 more. *)
Theorem C12_negative_dimensions : forall dim wg,
  expandDimensions dim wg = expandDimensions (dim mod 2 ^ 32) wg /\
  ((- 2 ^ 31 <= dim < 0)%Z -> expandDimensions dim wg = expandDimensions (2 ^ 32 + dim) wg).
Proof.
  intros dim wg. unfold expandDimensions, to_unsigned. rewrite Z.mod_mod by lia. split; [reflexivity|]. intros _.
  replace (2 ^ 32 + dim)%Z with (dim + 1 * 2 ^ 32)%Z by lia. now rewrite Z.mod_add by lia.
Qed.
Print Assumptions C12_negative_dimensions.

Example C12_ex : exists wg wg1 wg2, al_run ex_dm 9 2 (firstn 5 ex_ops) = Ok wg /\
  expandDimensions 2 wg = Ok wg1 /\ expandDimensions 2 wg1 = Ok wg1 /\
  expandDimensions 3 wg1 = Ok wg2 /\ wg2 = wg1 ++ [[([0;1;2;3], 9%Z)]] /\ wg <> wg1.
Proof. do 3 eexists. repeat split; try (vm_compute; reflexivity). discriminate. Qed.

(* ---------------------------------------------------------------- C15 *)
Theorem C15_array_list_counts :
  forall (dm : list (list Z)) (eps maxDimension : Z) (ops : list al_op) (wg : wgraph),
  matrix_covers dm ops -> al_run dm eps maxDimension ops = Ok wg ->
  al_vertexCount wg = live ops /\
  exists simplices, al_simplexCount wg = length simplices /\ NoDup simplices /\
    forall s, In s simplices <-> exists k w, In (s, w) (level wg k).
Proof. exact array_list_counts. Qed.
Print Assumptions C15_array_list_counts.

Example C15_array_list_ex : exists wg, al_run ex_dm 5 2 ex_ops = Ok wg /\ al_vertexCount wg = 4 /\ al_simplexCount wg = 9.
Proof. eexists. split; [vm_compute; reflexivity|]. split; reflexivity. Qed.

(* ---------------------------------------------------------------- C48 *)
Theorem C48_find_is_membership :
  forall (dm : list (list Z)) (eps maxDimension : Z) (ops : list al_op) (wg : wgraph) (v : list nat),
  matrix_covers dm ops -> al_run dm eps maxDimension ops = Ok wg -> v <> [] ->
  exists b, al_find wg v = Ok b /\ (b = true <-> exists k w, In (v, w) (level wg k)).
Proof. exact al_find_spec. Qed.
Print Assumptions C48_find_is_membership.

Theorem C48_findWeight_is_the_diameter :
  forall (dm : list (list Z)) (eps maxDimension : Z) (ops : list al_op) (wg : wgraph) (v : list nat),
  matrix_covers dm ops -> al_run dm eps maxDimension ops = Ok wg ->
  (v = [] \/ length wg < length v -> findWeight wg v = UB) /\
  (v <> [] -> length v <= length wg -> exists w, findWeight wg v = Ok w /\
     ((exists k w', In (v, w') (level wg k)) -> diameter (dist_of dm) v w) /\
     (~ (exists k w', In (v, w') (level wg k)) -> w = (-1)%Z)).
Proof. exact findWeight_spec. Qed.
Print Assumptions C48_findWeight_is_the_diameter.

Example C48_ex : exists wg, al_run ex_dm 5 2 ex_ops = Ok wg /\ al_find wg [0;2] = Ok true /\ al_find wg [0;3] = Ok false /\
  findWeight wg [0;1;2] = Ok 5%Z /\ findWeight wg [0;3] = Ok (-1)%Z /\ findWeight wg [0;1;2;3] = UB /\ al_find wg [] = UB.
Proof. eexists. split; [vm_compute; reflexivity|]. repeat split; reflexivity. Qed.

(* ---------------------------------------------------------------- C49 *)
Theorem C49_getDimEdges_filters_by_diameter :
  forall (dm : list (list Z)) (eps maxDimension : Z) (ops : list al_op) (wg : wgraph) (dim epsilon : Z),
  matrix_covers dm ops -> al_run dm eps maxDimension ops = Ok wg ->
  exists ret, getDimEdges dm wg dim epsilon = Ok ret /\ NoDup ret /\
    forall s, In s ret <-> Z.of_nat (length s) = dim /\ (exists k w, In (s, w) (level wg k)) /\
                           forall u v, In u s -> In v s -> u < v -> (dist_of dm u v <= epsilon)%Z.
Proof. exact getDimEdges_spec. Qed.
Print Assumptions C49_getDimEdges_filters_by_diameter.

Example C49_ex : exists wg, al_run ex_dm 5 2 ex_ops = Ok wg /\
  getDimEdges ex_dm wg 2 4 = Ok [[0;1];[0;2]] /\ getDimEdges ex_dm wg 3 4 = Ok [] /\ getDimEdges ex_dm wg 3 5 = Ok [[0;1;2]].
Proof. eexists. split; [vm_compute; reflexivity|]. repeat split; reflexivity. Qed.
