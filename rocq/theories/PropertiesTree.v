(* PropertiesTree.v -- property theorems about simplexTree. *)
From Coq Require Import List Arith ZArith Bool Lia Sorted Permutation.
From Verif Require Import Base Spec ArrayListModel SpecComplex TreeModel SpecTree TreeHist PropertiesComplex.
Import ListNotations.

Lemma ex_upper n : n <= 4 -> upper_triangle ex_dm n.
Proof.
  intros Hn j i Hj Hi. assert (Hc : (j = 0 \/ j = 1 \/ j = 2) /\ (i = 1 \/ i = 2 \/ i = 3)) by lia.
  destruct Hc as [[->|[->| ->]] [->|[->| ->]]]; try lia; cbn; lia.
Qed.

(* ---------------------------------------------------------------- C13 *)
Theorem C13_tree_is_strict_vietoris_rips :
  forall (eps maxDimension : Z) (dm : list (list Z)) (nc0 : Z) (n : nat) (srt : list wsimp -> list wsimp),
  is_sort srt -> dm <> [] -> upper_triangle dm n ->
  exists t, st_run eps maxDimension (Ok tt) srt (st_new dm nc0) (repeat TInsert n) = Ok t /\
    (forall k, NoDup (map fst (level (st_weg t) k))) /\
    (forall k s w, In (s, w) (level (st_weg t) k) <->
       length s = S k /\ strict_rips dm eps n s /\ within maxDimension s /\ diameter (dist_of dm) s w).
Proof. exact tree_rips. Qed.
Print Assumptions C13_tree_is_strict_vietoris_rips.

Example C13_ex : is_sort wsort /\ ex_dm <> [] /\ upper_triangle ex_dm 4 /\
  exists t, st_run 6 2 (Ok tt) wsort (st_new ex_dm 0) (repeat TInsert 4) = Ok t /\
    st_weg t = [[([0],0%Z);([1],0%Z);([2],0%Z);([3],0%Z)];
                [([0;1],3%Z);([0;2],4%Z);([1;2],5%Z);([2;3],5%Z)]; [([0;1;2],5%Z)]].
Proof.
  split; [exact wsort_is_sort|]. split; [discriminate|]. split; [apply ex_upper; lia|].
  eexists. split; vm_compute; reflexivity.
Qed.

(* ---------------------------------------------------------------- C14 *)
Theorem C14_complexes_agree_away_from_epsilon :
  forall (eps maxDimension : Z) (dm : list (list Z)) (nc0 : Z) (n : nat) (srt : list wsimp -> list wsimp)
         (wg : wgraph) (t : stree),
  is_sort srt -> dm <> [] -> upper_triangle dm n -> (0 < maxDimension < 2 ^ 31)%Z ->
  al_run dm eps maxDimension (repeat (OpInsert false) n ++ [OpExpand maxDimension]) = Ok wg ->
  st_run eps maxDimension (Ok tt) srt (st_new dm nc0) (repeat TInsert n) = Ok t ->
  ((forall j i, j < i -> i < n -> dist_of dm j i <> eps) ->
     forall k s w, In (s, w) (level wg k) <-> In (s, w) (level (st_weg t) k)) /\
  (forall j i, j < i -> i < n -> dist_of dm j i = eps ->
     In ([j; i], eps) (level wg 1) /\ forall k w, ~ In ([j; i], w) (level (st_weg t) k)).
Proof. exact complexes_agree. Qed.
Print Assumptions C14_complexes_agree_away_from_epsilon.

Example C14_ex :
  (exists wg t, al_run ex_dm 6 2 (repeat (OpInsert false) 4 ++ [OpExpand 2]) = Ok wg /\
     st_run 6 2 (Ok tt) wsort (st_new ex_dm 0) (repeat TInsert 4) = Ok t /\
     (forall j i, j < i -> i < 4 -> dist_of ex_dm j i <> 6%Z) /\ wg = st_weg t /\ length wg = 3) /\
  dist_of ex_dm 1 2 = 5%Z /\
  exists t, st_run 5 2 (Ok tt) wsort (st_new ex_dm 0) (repeat TInsert 4) = Ok t /\
            level (st_weg t) 1 = [([0;1],3%Z);([0;2],4%Z)].
Proof.
  split; [|split; [reflexivity|]].
  - do 2 eexists. split; [vm_compute; reflexivity|]. split; [vm_compute; reflexivity|]. split; [|split; reflexivity].
    intros j i Hj Hi. assert (Hc : (j = 0 \/ j = 1 \/ j = 2) /\ (i = 1 \/ i = 2 \/ i = 3)) by lia.
    destruct Hc as [[->|[->| ->]] [->|[->| ->]]]; try lia; discriminate.
  - eexists. split; vm_compute; reflexivity.
Qed.

(* ---------------------------------------------------------------- C15 *)
Theorem C15_tree_counts :
  forall (eps maxDimension : Z) (dm : list (list Z)) (nc0 : Z) (srt : list wsimp -> list wsimp)
         (ops : list st_op) (t : stree),
  is_sort srt -> legal dm ops -> st_run eps maxDimension (Ok tt) srt (st_new dm nc0) ops = Ok t ->
  st_vertexCount t = p_live (past dm ops) /\
  (~ In TClear ops -> exists simplices, st_simplexCount t = (nc0 + Z.of_nat (length simplices))%Z /\ NoDup simplices /\
     forall s, In s simplices <-> exists k w, In (s, w) (level (st_weg t) k)).
Proof. exact tree_counts. Qed.
Print Assumptions C15_tree_counts.

(* Inserting, exchanging the matrix after a clear, inserting again. *)
Definition ex_tops : list st_op :=
  repeat TInsert 4 ++ [TGetAll; TClear; TMatrix [[0;2;2];[0;0;2];[0;0;0]]%Z; TInsert; TInsert; TInsert].

Lemma ex_legal : legal ex_dm ex_tops.
Proof.
  assert (U : forall n, n <= 3 -> upper_triangle [[0;2;2];[0;0;2];[0;0;0]]%Z n).
  { intros n Hn j i Hj Hi. assert (Hc : (j = 0 \/ j = 1) /\ (i = 1 \/ i = 2)) by lia.
    destruct Hc as [[->| ->] [->| ->]]; try lia; cbn; lia. }
  intros a o b E. unfold ex_tops in E. cbn in E.
  do 4 (destruct a as [|? a]; [injection E as <- E; cbn; apply ex_upper; lia|injection E as <- E]).
  destruct a as [|? a]; [injection E as <- E; exact I|injection E as <- E].
  destruct a as [|? a]; [injection E as <- E; cbn; lia|injection E as <- E].
  destruct a as [|? a]; [injection E as <- E; cbn; lia|injection E as <- E].
  do 3 (destruct a as [|? a]; [injection E as <- E; cbn; apply U; lia|injection E as <- E]).
  destruct a; discriminate.
Qed.

Example C15_tree_ex : legal ex_dm ex_tops /\ ~ In TClear (firstn 5 ex_tops) /\
  exists t, st_run 6 2 (Ok tt) wsort (st_new ex_dm 7) (firstn 5 ex_tops) = Ok t /\
            st_vertexCount t = 4 /\ st_simplexCount t = 16%Z /\ length (concat (st_weg t)) = 9.
Proof.
  split; [exact ex_legal|]. split; [cbn; intuition discriminate|].
  eexists. split; [vm_compute; reflexivity|]. repeat split.
Qed.

(* ---------------------------------------------------------------- C43 *)
(* [loop_body] stands for whatever the body of the collapse loop would do. *)
Theorem C43_tree_collapse_does_nothing :
  forall (loop_body : nat -> stree -> stree) (t : stree), st_reduceComplex loop_body t = t.
Proof. exact reduce_nothing. Qed.
Print Assumptions C43_tree_collapse_does_nothing.

Example C43_ex : exists t, st_run 6 2 (Ok tt) wsort (st_new ex_dm 0) (repeat TInsert 4) = Ok t /\
  st_reduceComplex (fun _ _ => st_new [] 0) t = t /\ level (st_weg t) 2 <> [].
Proof. eexists. split; [vm_compute; reflexivity|]. split; [reflexivity|discriminate]. Qed.

(* ---------------------------------------------------------------- C50 *)
(* Whatever mixture of insert, clear, setDistanceMatrix and getAllEdges came before: the tree holds the strict
   Rips complex of the points inserted since the last clear, with vertex numbers that go on counting from
   the points inserted before it.  (Under the assumption that clear's write to freed memory does no harm.) *)
Theorem C50_tree_reuse_after_clear :
  forall (eps maxDimension : Z) (dm : list (list Z)) (nc0 : Z) (srt : list wsimp -> list wsimp) (ops : list st_op),
  is_sort srt -> legal dm ops ->
  exists t, st_run eps maxDimension (Ok tt) srt (st_new dm nc0) ops = Ok t /\
    let p := past dm ops in
    (forall k, NoDup (map fst (level (st_weg t) k))) /\
    (forall k s w, In (s, w) (level (st_weg t) k) <->
       exists s0, s = map (Nat.add (p_before p)) s0 /\ length s0 = S k /\
         strict_rips (p_dm p) eps (p_live p) s0 /\ within maxDimension s0 /\ diameter (dist_of (p_dm p)) s0 w).
Proof. exact tree_history_rips. Qed.
Print Assumptions C50_tree_reuse_after_clear.

Theorem C50_clear_is_undefined_by_the_standard :
  forall t, st_clear UB t = UB /\ (st_roots t = [] -> forall uaf, st_clear uaf t = UB).
Proof. exact clear_undefined. Qed.
Print Assumptions C50_clear_is_undefined_by_the_standard.

Theorem C50_clear_leaves_a_wrong_count :
  forall (eps maxDimension : Z) (dm : list (list Z)) (nc0 : Z) (srt : list wsimp -> list wsimp)
         (ops : list st_op) (t t' : stree),
  is_sort srt -> legal dm ops -> ~ In TClear ops ->
  st_run eps maxDimension (Ok tt) srt (st_new dm nc0) ops = Ok t -> st_clear (Ok tt) t = Ok t' ->
  st_weg t' = [] /\ st_simplexCount t' = (st_simplexCount t - Z.of_nat (st_vertexCount t))%Z.
Proof. exact clear_count. Qed.
Print Assumptions C50_clear_leaves_a_wrong_count.

Example C50_ex : legal ex_dm ex_tops /\ p_before (past ex_dm ex_tops) = 4 /\ p_live (past ex_dm ex_tops) = 3 /\
  (exists t, st_run 6 2 (Ok tt) wsort (st_new ex_dm 0) ex_tops = Ok t /\
     level (st_weg t) 2 = [([4;5;6],2%Z)] /\ st_simplexCount t = 12%Z) /\
  exists t t', st_run 6 2 (Ok tt) wsort (st_new ex_dm 0) (firstn 5 ex_tops) = Ok t /\ st_clear (Ok tt) t = Ok t' /\
     st_simplexCount t' = 5%Z.
Proof.
  split; [exact ex_legal|]. split; [reflexivity|]. split; [reflexivity|]. split.
  - eexists. split; [vm_compute; reflexivity|]. split; reflexivity.
  - do 2 eexists. split; [vm_compute; reflexivity|]. split; [vm_compute; reflexivity|reflexivity].
Qed.

(* ---------------------------------------------------------------- C51 *)
Theorem C51_first_getAllEdges_is_sorted :
  forall (eps maxDimension : Z) (dm : list (list Z)) (nc0 : Z) (srt : list wsimp -> list wsimp)
         (ops : list st_op) (t : stree),
  is_sort srt -> legal dm ops -> ~ In TGetAll ops ->
  st_run eps maxDimension (Ok tt) srt (st_new dm nc0) ops = Ok t ->
  (forall k, Permutation (level (fst (st_getAllEdges srt t)) k) (level (st_weg t) k) /\
             StronglySorted by_weight (level (fst (st_getAllEdges srt t)) k)) /\
  fst (st_getAllEdges srt (snd (st_getAllEdges srt t))) = fst (st_getAllEdges srt t).
Proof. exact first_getAllEdges. Qed.
Print Assumptions C51_first_getAllEdges_is_sorted.

(* Sorting happens once per object, even across clear: what is inserted after the first getAllEdges comes back
   in insertion order. *)
Theorem C51_later_getAllEdges_is_unsorted_refuted :
  exists (dm : list (list Z)) (ops : list st_op) (t : stree),
  legal dm ops /\ (forall srt, is_sort srt ->
    st_run 9 1 (Ok tt) srt (st_new dm 0) ops = Ok t /\
    ~ StronglySorted by_weight (level (fst (st_getAllEdges srt t)) 1)).
Proof. exact later_unsorted. Qed.
Print Assumptions C51_later_getAllEdges_is_unsorted_refuted.

Example C51_ex : exists t, st_run 6 2 (Ok tt) wsort (st_new ex_dm 0) (repeat TInsert 4) = Ok t /\
  ~ In TGetAll (repeat TInsert 4) /\ map snd (level (fst (st_getAllEdges wsort t)) 1) = [3;4;5;5]%Z.
Proof. eexists. split; [vm_compute; reflexivity|]. split; [cbn; intuition discriminate|reflexivity]. Qed.

(* ---------------------------------------------------------------- C52 *)
Theorem C52_tree_getDimEdges :
  forall (t : stree) (d : Z),
  (Z.of_nat (length (st_weg t)) < 2 ^ 63)%Z -> (- 2 ^ 31 <= d < 2 ^ 31)%Z ->
  ((0 <= d < Z.of_nat (length (st_weg t)))%Z -> st_getDimEdges t d = Ok (map fst (level (st_weg t) (Z.to_nat d)))) /\
  (d = Z.of_nat (length (st_weg t)) -> st_getDimEdges t d = UB) /\
  ((d < 0 \/ Z.of_nat (length (st_weg t)) < d)%Z -> st_getDimEdges t d = Ok []).
Proof. exact getDimEdges_tree. Qed.
Print Assumptions C52_tree_getDimEdges.

Example C52_ex : exists t, st_run 6 2 (Ok tt) wsort (st_new ex_dm 0) (repeat TInsert 4) = Ok t /\
  st_getDimEdges t 1 = Ok [[0;1];[0;2];[1;2];[2;3]] /\ st_getDimEdges t 3 = UB /\ st_getDimEdges t (-1) = Ok [] /\
  st_getDimEdges t 4 = Ok [].
Proof. eexists. split; [vm_compute; reflexivity|]. repeat split. Qed.
