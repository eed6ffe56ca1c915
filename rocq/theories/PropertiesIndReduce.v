(* PropertiesIndReduce.v -- property theorems about reduceComplex of indSimplexTree. *)
From Coq Require Import List Arith ZArith Bool Lia Sorted Permutation.
From Verif Require Import Base RunMonad Spec ArrayListModel SpecComplex TreeModel SpecTree SpecFast IndModel SpecInd IndHist IndReduceModel IndReduceProofs PropertiesComplex PropertiesTree PropertiesInd.
Import ListNotations.
Local Open Scope nat_scope.

(* ---------------------------------------------------------------- C81 *)
(* After any legal history that is itself defined, reduceComplex ends and is defined.  It keeps every vertex, the tree, the
   counters by dimension and the listing of an earlier getAllEdges, and keeps edges and triangles in their order; the number
   of simplices falls by exactly the number of those removed, and the freed nodes are those of the removed edges.  Below
   dimension 2 nothing happens.  From dimension 2 on every triangle with an edge in no other triangle is removed, every
   removed triangle has lost an edge, and every removed edge has lost a triangle. *)
Theorem C81_reduceComplex :
  forall (eps maxDimension : Z) (dm : list (list Z)) (nc0 : Z) (srt : list wsimp -> list wsimp) (ops : list ind_op) (t : itree),
  ilegal dm ops -> ind_run eps maxDimension srt (ind_new dm nc0) ops = Ok t ->
  exists t' freed,
    (forall fuel, length (level (i_dims t) 2) < fuel -> ind_reduceComplex maxDimension fuel t = Some (Ok (t', freed))) /\
    (i_dm t' = i_dm t /\ i_roots t' = i_roots t /\ i_counts t' = i_counts t /\ i_next t' = i_next t /\
       i_sorted t' = i_sorted t /\ i_graph t' = i_graph t) /\
    length (i_dims t') = length (i_dims t) /\
    (i_count t - i_count t' = Z.of_nat (length (concat (i_dims t))) - Z.of_nat (length (concat (i_dims t'))))%Z /\
    (exists stays, forall k, level (i_dims t') k = filter stays (level (i_dims t) k)) /\
    level (i_dims t') 0 = level (i_dims t) 0 /\
    (forall z, In z freed <-> In z (map fst (level (i_dims t) 1)) /\ ~ In z (map fst (level (i_dims t') 1))) /\
    ((maxDimension < 2)%Z -> t' = t /\ freed = []) /\
    ((2 <= maxDimension)%Z ->
       (forall s z, In s (map fst (level (i_dims t) 2)) -> facet z s ->
          (forall s', In s' (map fst (level (i_dims t) 2)) -> incl z s' -> s' = s) -> ~ In s (map fst (level (i_dims t') 2))) /\
       (forall s, In s (map fst (level (i_dims t) 2)) -> ~ In s (map fst (level (i_dims t') 2)) ->
          exists z, facet z s /\ ~ In z (map fst (level (i_dims t') 1))) /\
       (forall z, In z (map fst (level (i_dims t) 1)) -> ~ In z (map fst (level (i_dims t') 1)) ->
          exists s, facet z s /\ In s (map fst (level (i_dims t) 2)) /\ ~ In s (map fst (level (i_dims t') 2)))).
Proof. exact reduce_theorem. Qed.
Print Assumptions C81_reduceComplex.

(* What getAllEdges returns afterwards: the unreduced listing if it had been called before, the reduced complex otherwise. *)
Theorem C81_getAllEdges_after :
  forall (eps maxDimension : Z) (dm : list (list Z)) (nc0 : Z) (srt : list wsimp -> list wsimp) (ops : list ind_op) (t : itree)
         (fuel : nat) (t' : itree) (freed : list (list nat)),
  is_sort srt -> ilegal dm ops -> ind_run eps maxDimension srt (ind_new dm nc0) ops = Ok t ->
  length (level (i_dims t) 2) < fuel -> ind_reduceComplex maxDimension fuel t = Some (Ok (t', freed)) ->
  (i_sorted t = true -> fst (ind_getAllEdges srt t') = fst (ind_getAllEdges srt t)) /\
  (i_sorted t = false -> forall k, Permutation (level (fst (ind_getAllEdges srt t')) k) (level (i_dims t') k) /\
     (0 < k -> StronglySorted by_weight (level (fst (ind_getAllEdges srt t')) k))) /\
  (forall d, ind_getDimEdges t' d = []).
Proof.
  intros eps md dm nc0 srt ops t fuel t' freed Hs Lg E Hf R.
  destruct (reduce_theorem eps md dm nc0 srt ops t Lg E) as (t1 & f1 & R1 & (_ & _ & _ & _ & K1 & K2) & K3 & _). rewrite (R1 fuel Hf) in R. injection R as -> ->.
  split; [|split; [|reflexivity]].
  - intros S. unfold ind_getAllEdges. rewrite K1, S. destruct (i_dims t) eqn:D, (i_dims t') eqn:D'; try discriminate; cbn; congruence.
  - intros S k. unfold ind_getAllEdges. rewrite K1, S. destruct (i_dims t') as [|l0 ls] eqn:D'; cbn [fst].
    { unfold level. destruct k; cbn; (split; [reflexivity|intros _; constructor]). }
    unfold sortAndBuildGraph. cbn [i_graph]. rewrite D'. unfold level. destruct k as [|k]; cbn [nth]; [split; [reflexivity|lia]|].
    destruct (Nat.lt_ge_cases k (length ls)) as [Hk|Hk].
    + rewrite (nth_indep _ [] (srt [])) by (now rewrite map_length). rewrite (map_nth srt). split; [apply Hs|intros _; apply Hs].
    + rewrite !nth_overflow; [split; [reflexivity|intros _; constructor]|exact Hk|now rewrite map_length].
Qed.
Print Assumptions C81_getAllEdges_after.

(* A hollow tetrahedron meets the hypotheses. *)
Definition hollow_dm : list (list Z) := [[0;3;4;5];[3;0;5;4];[4;5;0;2];[5;4;2;0]]%Z.
Lemma hollow_legal : ilegal hollow_dm (repeat IInsert 4).
Proof.
  apply ilegal_inserts; [|easy]. intros n Hn j i Hj Hi. assert (Hc : (j = 0 \/ j = 1 \/ j = 2) /\ (i = 1 \/ i = 2 \/ i = 3)) by lia.
  destruct Hc as [[->|[->| ->]] [->|[->| ->]]]; try lia; cbn; lia.
Qed.
Example C81_ex :
  ilegal hollow_dm (repeat IInsert 4) /\
  exists t, ind_run 6 2 wsort (ind_new hollow_dm 0) (repeat IInsert 4) = Ok t /\
    map (fun l => map fst l) (i_dims t) = [[[0];[1];[2];[3]]; [[0;1];[0;2];[1;2];[0;3];[1;3];[2;3]]; [[0;1;2];[0;2;3];[0;1;3];[1;2;3]]] /\
    ind_simplexCount t = 14%Z /\
    exists t', ind_reduceComplex 2 5 t = Some (Ok (t', [[0;1];[0;3];[1;2]])) /\
      map (fun l => map fst l) (i_dims t') = [[[0];[1];[2];[3]]; [[0;2];[1;3];[2;3]]; [[0;1;2]]] /\ ind_simplexCount t' = 8%Z.
Proof.
  split; [exact hollow_legal|]. eexists. split; [vm_compute; reflexivity|]. split; [vm_compute; reflexivity|]. split; [vm_compute; reflexivity|].
  eexists. split; [vm_compute; reflexivity|]. split; vm_compute; reflexivity.
Qed.

(* The result need not be a complex: of the hollow tetrahedron a triangle stays although two of its edges are gone, and
   looking for an edge that stays reads a node that was freed. *)
Definition hollow_t : itree :=
  Eval vm_compute in match ind_run 6 2 wsort (ind_new hollow_dm 0) (repeat IInsert 4 ++ [IGetAll]) with Ok t => t | UB => ind_new [] 0 end.
Definition hollow_r : itree * list (list nat) :=
  Eval vm_compute in match ind_reduceComplex 2 5 hollow_t with Some (Ok r) => r | _ => (hollow_t, []) end.
Theorem C81_stays_a_complex_refuted :
  exists (dm : list (list Z)) (ops : list ind_op) (t t' : itree) (freed : list (list nat)) (s z e : list nat),
  ilegal dm ops /\ ind_run 6 2 wsort (ind_new dm 0) ops = Ok t /\ i_sorted t = true /\
  (forall fuel, 4 < fuel -> ind_reduceComplex 2 fuel t = Some (Ok (t', freed))) /\
  (In s (map fst (level (i_dims t') 2)) /\ facet z s /\ ~ In z (map fst (level (i_dims t') 1))) /\
  In e (map fst (level (i_dims t') 1)) /\ ind_find t e = Ok true /\ ind_find_after (t', freed) e = UB.
Proof.
  assert (Lg : ilegal hollow_dm (repeat IInsert 4 ++ [IGetAll])).
  { intros a o b E. destruct b as [|o' b] using rev_ind.
    - apply app_inj_tail in E as [_ <-]. exact I.
    - rewrite app_comm_cons, app_assoc in E. apply app_inj_tail in E as [E _]. exact (hollow_legal a o b E). }
  assert (E : ind_run 6 2 wsort (ind_new hollow_dm 0) (repeat IInsert 4 ++ [IGetAll]) = Ok hollow_t) by (vm_compute; reflexivity).
  destruct (reduce_theorem 6 2 hollow_dm 0 wsort _ hollow_t Lg E) as (t' & freed & R & _). change (length (level (i_dims hollow_t) 2)) with 4 in R.
  assert (R5 : ind_reduceComplex 2 5 hollow_t = Some (Ok hollow_r)) by (vm_compute; reflexivity).
  rewrite (R 5 (Nat.lt_succ_diag_r 4)) in R5. assert (K : (t', freed) = hollow_r) by (clear -R5; congruence). clear R5. rewrite (surjective_pairing hollow_r) in K.
  exists hollow_dm, (repeat IInsert 4 ++ [IGetAll]), hollow_t, (fst hollow_r), (snd hollow_r), [0;1;2], [0;1], [0;2]. split; [exact Lg|]. split; [exact E|].
  split; [reflexivity|]. split; [intros fuel Hf; rewrite <- K; exact (R fuel Hf)|].
  split; [|split; [vm_compute; auto|split; vm_compute; reflexivity]]. split; [vm_compute; auto|]. split.
  - split; [repeat constructor|]. split; [intros x; cbn; tauto|reflexivity].
  - vm_compute. intuition discriminate.
Qed.
Print Assumptions C81_stays_a_complex_refuted.

(* Nor need the Euler characteristic stay the same. *)
Definition euler (g : wgraph) : Z :=
  (Z.of_nat (length (level g 0)) - Z.of_nat (length (level g 1)) + Z.of_nat (length (level g 2)))%Z.
Definition five_dm : list (list Z) := [[0;7;4;4;6];[7;0;3;5;6];[4;3;0;7;5];[4;5;7;0;3];[6;6;5;3;0]]%Z.
Definition five_t : itree :=
  Eval vm_compute in match ind_run 8 2 wsort (ind_new five_dm 0) (repeat IInsert 5) with Ok t => t | UB => ind_new [] 0 end.
Definition five_r : itree * list (list nat) :=
  Eval vm_compute in match ind_reduceComplex 2 11 five_t with Some (Ok r) => r | _ => (five_t, []) end.
Theorem C81_euler_characteristic_refuted :
  exists (dm : list (list Z)) (ops : list ind_op) (t t' : itree) (freed : list (list nat)),
  ilegal dm ops /\ ind_run 8 2 wsort (ind_new dm 0) ops = Ok t /\
  (forall fuel, 10 < fuel -> ind_reduceComplex 2 fuel t = Some (Ok (t', freed))) /\ euler (i_dims t) = 5%Z /\ euler (i_dims t') = 3%Z.
Proof.
  assert (Lg : ilegal five_dm (repeat IInsert 5)).
  { apply ilegal_inserts; [|easy]. intros n Hn j i Hj Hi. assert (Hc : (j = 0 \/ j = 1 \/ j = 2 \/ j = 3) /\ (i = 1 \/ i = 2 \/ i = 3 \/ i = 4)) by lia.
    destruct Hc as [[->|[->|[->| ->]]] [->|[->|[->| ->]]]]; try lia; cbn; lia. }
  assert (E : ind_run 8 2 wsort (ind_new five_dm 0) (repeat IInsert 5) = Ok five_t) by (vm_compute; reflexivity).
  destruct (reduce_theorem 8 2 five_dm 0 wsort _ five_t Lg E) as (t' & freed & R & _). change (length (level (i_dims five_t) 2)) with 10 in R.
  assert (R5 : ind_reduceComplex 2 11 five_t = Some (Ok five_r)) by (vm_compute; reflexivity).
  rewrite (R 11 (Nat.lt_succ_diag_r 10)) in R5. assert (K : (t', freed) = five_r) by (clear -R5; congruence). clear R5. rewrite (surjective_pairing five_r) in K.
  exists five_dm, (repeat IInsert 5), five_t, (fst five_r), (snd five_r). split; [exact Lg|]. split; [exact E|].
  split; [intros fuel Hf; rewrite <- K; exact (R fuel Hf)|]. split; vm_compute; reflexivity.
Qed.
Print Assumptions C81_euler_characteristic_refuted.
