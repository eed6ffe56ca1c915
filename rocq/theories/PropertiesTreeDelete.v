(* PropertiesTreeDelete.v -- property theorems about deletion from a simplexTree, its unimplemented queries and the stream evaluator. *)
From Coq Require Import List Arith ZArith Bool Lia Sorted Permutation.
From Verif Require Import Base Spec ArrayListModel SpecComplex TreeModel SpecTree TreeHist TreeDeleteModel TreeDeleteProofs PropertiesComplex PropertiesTree.
Import ListNotations.

(* ---------------------------------------------------------------- C79 *)
(* A deletion changes neither the listed simplices nor the vertex count; it takes one row, and no column, off the matrix. *)
Theorem C79_deleted_points_stay_listed :
  forall (eps maxDimension : Z) (dm : list (list Z)) (nc0 : Z) (srt : list wsimp -> list wsimp) (ops : list st_op) (t : stree),
  is_sort srt -> legal dm ops -> st_run eps maxDimension (Ok tt) srt (st_new dm nc0) ops = Ok t ->
  forall (uaf : res unit) (key idx : Z) (d : dtree), deleteIterative uaf key idx (mkD t Sound) = Ok d ->
    (forall srt', fst (st_getAllEdges srt' (d_tree d)) = fst (st_getAllEdges srt' t)) /\
    st_vertexCount (d_tree d) = st_vertexCount t /\
    (0 <= idx < Z.of_nat (length (st_dm t)))%Z /\
    st_dm (d_tree d) = firstn (Z.to_nat idx) (st_dm t) ++ skipn (S (Z.to_nat idx)) (st_dm t).
Proof.
  intros eps md dm nc0 srt ops t Hs L R uaf key idx d H. destruct (delete_lists_the_same _ _ _ _ _ _ H) as [A B].
  split; [exact A|]. split; [exact B|]. revert H. unfold deleteIterative. cbn [d_tree d_head]. unfold erase_row.
  destruct (Z.leb_spec 0 idx) as [Z1|Z1]; [|discriminate]. destruct (Z.ltb_spec idx (Z.of_nat (length (st_dm t)))) as [Z2|Z2]; [|discriminate].
  cbn [andb bind]. set (dm' := firstn _ _ ++ _). destruct (erase_columns dm' idx); [|discriminate]. cbn [bind].
  destruct (deleteIndexRecurse uaf key (st_roots t) (st_count t)) as [[[l c] f]|]; [|discriminate]. cbn [bind]. intros H. split; [lia|]. revert H.
  destruct l as [|x l]; [intros E; inversion E; reflexivity|]. destruct (key_is key x); [destruct l|]; intros E; inversion E; reflexivity.
Qed.
Print Assumptions C79_deleted_points_stay_listed.

(* What each deletion does to the tree itself: b is the number of the first vertex present, n the number of vertices. *)
Theorem C79_what_a_deletion_does :
  forall (eps maxDimension : Z) (dm : list (list Z)) (nc0 : Z) (srt : list wsimp -> list wsimp) (ops : list st_op) (t : stree),
  is_sort srt -> legal dm ops -> st_run eps maxDimension (Ok tt) srt (st_new dm nc0) ops = Ok t ->
  let b := p_before (past dm ops) in let n := p_live (past dm ops) in
  forall v i, (Z.of_nat v < 2 ^ 31)%Z -> i < length (st_dm t) ->
  (forall r, In r (firstn i (st_dm t) ++ skipn (S i) (st_dm t)) -> length r <> i) ->
  exists d, deleteIterative (Ok tt) (Z.of_nat v) (Z.of_nat i) (mkD t Sound) = Ok d /\
    (v = b /\ 0 < n ->
       map t_index (st_roots (d_tree d)) = seq (S b) (n - 1) /\
       st_simplexCount (d_tree d) = (st_simplexCount t - Z.of_nat n)%Z /\ d_head d = (if n =? 1 then Lost else Freed)) /\
    (~ (v = b /\ 0 < n) ->
       map t_index (st_roots (d_tree d)) = filter (fun x => negb (x =? v)) (seq b n) /\
       st_simplexCount (d_tree d) = st_simplexCount t /\ d_head d = Sound).
Proof.
  intros eps md dm nc0 srt ops t Hs L R b n v i Hv Hi Hr.
  destruct (delete_cases eps md dm nc0 srt ops t Hs L R v i Hv Hi Hr) as (roots & count & h & E & A & B).
  exists (mkD (with_rows t (without (st_dm t) i) roots count) h). split; [exact E|]. split; [exact A|exact B].
Qed.
Print Assumptions C79_what_a_deletion_does.

(* Deleting the first of several points leaves an object on which every insertion, deletion and clear is undefined. *)
Theorem C79_deleting_the_first_point_refuted :
  forall (eps maxDimension : Z) (dm : list (list Z)) (nc0 : Z) (srt : list wsimp -> list wsimp) (ops : list st_op) (t : stree),
  is_sort srt -> legal dm ops -> st_run eps maxDimension (Ok tt) srt (st_new dm nc0) ops = Ok t ->
  2 <= p_live (past dm ops) ->
  forall v i (d : dtree), v = p_before (past dm ops) -> (Z.of_nat v < 2 ^ 31)%Z ->
  deleteIterative (Ok tt) (Z.of_nat v) (Z.of_nat i) (mkD t Sound) = Ok d ->
  forall o, (o = DOp TInsert /\ st_dm (d_tree d) <> [] \/ o = DOp TClear \/ exists key idx, o = DDelete key idx) ->
  d_step eps maxDimension (Ok tt) srt d o = UB.
Proof.
  intros eps md dm nc0 srt ops t Hs L R Hn v i d Hv Hv' H o Ho.
  assert (E := H). unfold deleteIterative in E. cbn [d_tree d_head] in E. destruct (erase_row (st_dm t) (Z.of_nat i)) as [dm'|] eqn:E1; [|discriminate].
  cbn [bind] in E. destruct (erase_columns dm' (Z.of_nat i)) as [u|] eqn:E2; [|discriminate]. destruct u. clear E.
  destruct (erase_defined _ _ _ E1 E2) as (i' & Ei & Hi & -> & Hr). apply Nat2Z.inj in Ei. subst i'.
  destruct (delete_cases eps md dm nc0 srt ops t Hs L R v i Hv' Hi Hr) as (roots & count & h & E & A & _). rewrite H in E. injection E as ->.
  destruct A as (_ & _ & ->); [split; [exact Hv|lia]|]. destruct (Nat.eqb_spec (p_live (past dm ops)) 1); [lia|].
  destruct Ho as [[-> Hd]|[->|(key & idx & ->)]].
  - unfold d_step. cbn [d_head d_tree] in *. destruct (st_dm (with_rows t (without (st_dm t) i) roots count)); [now contradiction Hd|reflexivity].
  - reflexivity.
  - cbn [d_step]. unfold deleteIterative. cbn [d_tree d_head]. clear. destruct (erase_row _ _) as [dm2|]; [|reflexivity]. cbn [bind]. destruct (erase_columns dm2 idx); reflexivity.
Qed.
Print Assumptions C79_deleting_the_first_point_refuted.

(* Deleting the only point: the next point becomes a new level of the listing and the insertion after it is undefined. *)
Theorem C79_deleting_the_only_point_refuted :
  forall (eps maxDimension : Z) (dm : list (list Z)) (nc0 : Z) (srt : list wsimp -> list wsimp) (ops : list st_op) (t : stree),
  is_sort srt -> legal dm ops -> st_run eps maxDimension (Ok tt) srt (st_new dm nc0) ops = Ok t ->
  p_live (past dm ops) = 1 ->
  forall v i (d : dtree), v = p_before (past dm ops) -> (Z.of_nat v < 2 ^ 31)%Z ->
  deleteIterative (Ok tt) (Z.of_nat v) (Z.of_nat i) (mkD t Sound) = Ok d -> st_dm (d_tree d) <> [] ->
  exists d', d_step eps maxDimension (Ok tt) srt d (DOp TInsert) = Ok d' /\
    st_weg (d_tree d') = st_weg t ++ [[([st_indexCounter t], 0%Z)]] /\
    d_step eps maxDimension (Ok tt) srt d' (DOp TInsert) = UB.
Proof.
  intros eps md dm nc0 srt ops t Hs L R Hn v i d Hv Hv' H Hd.
  assert (E := H). unfold deleteIterative in E. cbn [d_tree d_head] in E. destruct (erase_row (st_dm t) (Z.of_nat i)) as [dm'|] eqn:E1; [|discriminate].
  cbn [bind] in E. destruct (erase_columns dm' (Z.of_nat i)) as [u|] eqn:E2; [|discriminate]. destruct u. clear E.
  destruct (erase_defined _ _ _ E1 E2) as (i' & Ei & Hi & -> & Hr). apply Nat2Z.inj in Ei. subst i'.
  destruct (delete_cases eps md dm nc0 srt ops t Hs L R v i Hv' Hi Hr) as (roots & count & h & E & A & _). rewrite H in E. injection E as ->.
  destruct A as (A1 & _ & ->); [split; [exact Hv|lia]|]. rewrite Hn in *. cbn [Nat.sub seq] in A1. apply map_eq_nil in A1. subst roots.
  cbn [d_tree with_rows st_dm] in Hd. unfold d_step. cbn [Nat.eqb d_head d_tree st_step with_rows st_dm st_roots]. unfold st_insert.
  cbn [st_dm st_roots with_rows]. destruct (without (st_dm t) i) as [|r0 rs]; [contradiction|]. cbn [bind].
  eexists. split; [reflexivity|]. split; reflexivity.
Qed.
Print Assumptions C79_deleting_the_only_point_refuted.

(* After a deletion the points behind the deleted one are compared through the wrong rows of the matrix, and a triangle with the
   deleted point can be listed although its edge is not, and although the two points are farther apart than epsilon. *)
Definition del_dm : list (list Z) := [[0;3;4;5];[3;0;5;9];[4;5;0;2];[5;9;2;0]]%Z.
Definition del_ops : list dt_op := [DOp TInsert; DOp TInsert; DOp TInsert; DDelete 1 1; DOp TInsert].
Theorem C79_insert_after_delete_refuted :
  exists d, d_run 6 2 (Ok tt) wsort (mkD (st_new del_dm 0) Sound) del_ops = Ok d /\
    dist_of del_dm 2 3 = 2%Z /\ In ([2; 3], 0%Z) (level (st_weg (d_tree d)) 1) /\
    dist_of del_dm 1 3 = 9%Z /\ In ([0; 1; 3], 5%Z) (level (st_weg (d_tree d)) 2) /\
    (forall w, ~ In ([1; 3], w) (level (st_weg (d_tree d)) 1)).
Proof.
  eexists. split; [vm_compute; reflexivity|]. split; [reflexivity|]. split; [vm_compute; tauto|]. split; [reflexivity|]. split; [vm_compute; tauto|].
  intros w. cbn. intuition discriminate.
Qed.
Print Assumptions C79_insert_after_delete_refuted.

Lemma ex_legal4 : legal ex_dm (repeat TInsert 4).
Proof.
  intros a o b0 E. cbn [repeat] in E.
  destruct a as [|x1 a]; [injection E as <- _; apply ex_upper; cbn; lia|]. injection E as <- E.
  destruct a as [|x2 a]; [injection E as <- _; apply ex_upper; cbn; lia|]. injection E as <- E.
  destruct a as [|x3 a]; [injection E as <- _; apply ex_upper; cbn; lia|]. injection E as <- E.
  destruct a as [|x4 a]; [injection E as <- _; apply ex_upper; cbn; lia|]. injection E as <- E.
  destruct a; discriminate.
Qed.
Lemma ex_legal1 : legal ex_dm [TInsert].
Proof.
  intros a o b0 E. destruct a as [|x1 a]; [injection E as <- _; apply ex_upper; cbn; lia|]. injection E as <- E. destruct a; discriminate.
Qed.
(* The hypotheses are met: four points, with point 2 or the first point deleted; one point, deleted. *)
Example C79_ex :
  legal ex_dm (repeat TInsert 4) /\ p_live (past ex_dm (repeat TInsert 4)) = 4 /\ p_before (past ex_dm (repeat TInsert 4)) = 0 /\
  (exists t, st_run 6 2 (Ok tt) wsort (st_new ex_dm 0) (repeat TInsert 4) = Ok t /\
     (exists d, deleteIterative (Ok tt) 2 2 (mkD t Sound) = Ok d /\ d_head d = Sound /\ st_simplexCount (d_tree d) = 9%Z /\
        In ([2;3], 5%Z) (level (fst (st_getAllEdges wsort (d_tree d))) 1) /\ st_vertexCount (d_tree d) = 4) /\
     (exists d, deleteIterative (Ok tt) 0 0 (mkD t Sound) = Ok d /\ d_head d = Freed /\ st_dm (d_tree d) <> [] /\
        st_simplexCount (d_tree d) = 5%Z)) /\
  legal ex_dm [TInsert] /\ p_live (past ex_dm [TInsert]) = 1 /\
  (exists t, st_run 6 2 (Ok tt) wsort (st_new ex_dm 0) [TInsert] = Ok t /\
     exists d, deleteIterative (Ok tt) 0 0 (mkD t Sound) = Ok d /\ d_head d = Lost /\ st_dm (d_tree d) <> []).
Proof.
  split; [exact ex_legal4|]. split; [reflexivity|]. split; [reflexivity|]. split.
  - eexists. split; [vm_compute; reflexivity|]. split.
    + eexists. split; [vm_compute; reflexivity|]. split; [reflexivity|]. split; [reflexivity|]. split; [vm_compute; tauto|reflexivity].
    + eexists. split; [vm_compute; reflexivity|]. split; [reflexivity|]. split; [discriminate|reflexivity].
  - split; [exact ex_legal1|]. split; [reflexivity|]. eexists. split; [vm_compute; reflexivity|].
    eexists. split; [vm_compute; reflexivity|]. split; [reflexivity|discriminate].
Qed.

(* ---------------------------------------------------------------- C80 *)
(* The queries that the tree does not implement: a listed simplex is not found and has weight 1, there are no pairs of
   dimension 0, and deleting a simplex does nothing (it is undefined on the empty tree). *)
Theorem C80_queries_do_not_see_the_complex :
  forall (eps maxDimension : Z) (dm : list (list Z)) (nc0 : Z) (srt : list wsimp -> list wsimp) (ops : list st_op) (t : stree),
  is_sort srt -> legal dm ops -> st_run eps maxDimension (Ok tt) srt (st_new dm nc0) ops = Ok t ->
  (forall k s w, In (s, w) (level (st_weg t) k) -> st_find t s = false /\ st_findWeight t s = 1%Z) /\
  st_getd0Pairs t = [] /\
  (forall s, st_deletion_set t s = if p_live (past dm ops) =? 0 then UB else Ok (false, t)).
Proof.
  intros eps md dm nc0 srt ops t Hs L R. split; [intros; split; reflexivity|]. split; [reflexivity|]. intros s.
  assert (IX := roots_ix eps md dm nc0 srt ops t Hs L R). unfold st_deletion_set.
  destruct (st_roots t) as [|r rs]; destruct (p_live (past dm ops)); try discriminate IX; reflexivity.
Qed.
Print Assumptions C80_queries_do_not_see_the_complex.

(* The stream evaluator accepts every vector it gets through, and gets through exactly when the window has at least 20 vectors
   and their distances to the new one are defined; the line it logs is about all distances and the 20 smallest of them. *)
Theorem C80_stream_evaluator_accepts_every_vector :
  forall (num : Type) (zero : num) (add sub mul div : num -> num -> num) (sqrt : num -> num) (of_nat : nat -> num)
         (distance : list num -> list num -> res num) (le : num -> num -> Prop) (nsrt : list num -> list num),
  (forall l, Permutation l (nsrt l) /\ StronglySorted le (nsrt l)) ->
  forall (counter : nat) (stats : list (stat_line num)) (v : list num) (window : list (list num)),
  (length window < 20 \/ (exists q, In q window /\ distance v q = UB) ->
     streamEvaluator num zero add sub mul div sqrt of_nat distance nsrt counter stats v window = UB) /\
  (forall ds, 20 <= length window -> Forall2 (fun q d => distance v q = Ok d) window ds ->
     exists near far, Permutation ds (near ++ far) /\ length near = 20 /\ (forall x y, In x near -> In y far -> le x y) /\
       let average l := div (fold_left add l zero) (of_nat (length l)) in
       let deviation l := sqrt (div (fold_left (fun s x => add s (mul (sub x (average l)) (sub x (average l)))) l zero) (of_nat (length l))) in
       streamEvaluator num zero add sub mul div sqrt of_nat distance nsrt counter stats v window =
         Ok (true, stats ++ [mkStat num counter (average ds) (deviation ds) 20 (average near) (deviation near) true])).
Proof.
  intros num zero add sub mul div sqrt of_nat distance le nsrt Hs counter stats v window.
  destruct (evaluator_spec num zero add sub mul div sqrt of_nat distance nsrt le counter stats v window Hs) as [A B].
  split; [exact A|]. intros ds Hl F. destruct (B ds Hl F) as (near & far & P & Ln & O & E).
  exists near, far. split; [exact P|]. split; [exact Ln|]. split; [exact O|]. exact E.
Qed.
Print Assumptions C80_stream_evaluator_accepts_every_vector.

(* insertIterative never changes the tree: it reports whether the evaluator accepts, and counts the accepted vectors; an
   empty window is accepted without asking, and asking an evaluator that was never set is undefined. *)
Theorem C80_insertIterative_only_asks_the_evaluator :
  forall (num : Type) (f : option (list num -> list (list num) -> res bool)) (removed : nat) (v : list num) (window : list (list num)),
  (window = [] -> insertIterative num f removed v window = Ok (true, removed)) /\
  (window <> [] -> f = None -> insertIterative num f removed v window = UB) /\
  (window <> [] -> forall g, f = Some g ->
     (g v window = UB -> insertIterative num f removed v window = UB) /\
     (g v window = Ok true -> insertIterative num f removed v window = Ok (true, S removed)) /\
     (g v window = Ok false -> insertIterative num f removed v window = Ok (false, removed))).
Proof. exact insert_iterative_spec. Qed.
Print Assumptions C80_insertIterative_only_asks_the_evaluator.

(* Twenty-one vectors on a line; integer arithmetic, and a sort of integers. *)
Definition line_window : list (list Z) := map (fun i => [Z.of_nat i]) (rev (seq 1 21)).
Definition line_distance (p q : list Z) : res Z := match p, q with [x], [y] => Ok (Z.abs (x - y)) | _, _ => UB end.
Fixpoint zinsert (x : Z) (l : list Z) : list Z := match l with [] => [x] | y :: l' => if (x <=? y)%Z then x :: l else y :: zinsert x l' end.
Definition zsort (l : list Z) : list Z := fold_right zinsert [] l.
Lemma zsort_sorts l : Permutation l (zsort l) /\ StronglySorted Z.le (zsort l).
Proof.
  assert (I : forall x l, Permutation (x :: l) (zinsert x l) /\ (StronglySorted Z.le l -> StronglySorted Z.le (zinsert x l))).
  { intros x m. induction m as [|y m [P S]]; cbn; [split; [auto|intros _; repeat constructor]|]. destruct (Z.leb_spec x y).
    - split; [auto|]. intros H0. constructor; auto. inversion H0 as [|? ? H1 H2]; subst. constructor; auto. eapply Forall_impl; [|exact H2]. intros; cbn in *; lia.
    - split; [rewrite perm_swap; now constructor|]. intros H0. inversion H0 as [|? ? H1 H2]; subst. constructor; [auto|].
      apply Forall_forall. intros z Hz. apply (Permutation_in _ (Permutation_sym P)) in Hz. destruct Hz as [<-|Hz]; [lia|]. rewrite Forall_forall in H2. auto. }
  induction l as [|x l [P S]]; cbn; [split; auto; constructor|]. destruct (I x (zsort l)) as [P' S']. split; [|auto]. rewrite <- P'. now constructor.
Qed.
Example C80_ex :
  (forall l, Permutation l (zsort l) /\ StronglySorted Z.le (zsort l)) /\ length line_window = 21 /\
  Forall2 (fun q d => line_distance [0%Z] q = Ok d) line_window (map Z.of_nat (rev (seq 1 21))) /\
  (exists st, streamEvaluator Z 0%Z Z.add Z.sub Z.mul Z.div Z.sqrt Z.of_nat line_distance zsort 21 [] [0%Z] line_window = Ok (true, [st]) /\
     sl_mean Z st = 11%Z /\ sl_kmean Z st = 10%Z) /\
  streamEvaluator Z 0%Z Z.add Z.sub Z.mul Z.div Z.sqrt Z.of_nat line_distance zsort 19 [] [0%Z] (firstn 19 line_window) = UB /\
  legal ex_dm (repeat TInsert 4) /\
  (exists t, st_run 6 2 (Ok tt) wsort (st_new ex_dm 0) (repeat TInsert 4) = Ok t /\ In ([2;3], 5%Z) (level (st_weg t) 1) /\ st_find t [2;3] = false).
Proof.
  split; [exact zsort_sorts|]. split; [reflexivity|]. split; [cbn; repeat constructor|]. split; [eexists; split; [vm_compute; reflexivity|split; reflexivity]|].
  split; [vm_compute; reflexivity|]. split; [exact ex_legal4|]. eexists. split; [vm_compute; reflexivity|]. split; [vm_compute; tauto|reflexivity].
Qed.
