(* PropertiesCollapse.v -- property theorems about reduceComplex of the array list. *)
From Coq Require Import List Arith ZArith Bool Lia Sorted.
From Verif Require Import Base Spec RunMonad UtilsProofs ArrayListModel SpecComplex SpecLinear SpecGraph LinearProofs SpecFast.
From Verif Require Import CollapseModel SpecCollapse CollapseProofs.
Import ListNotations.

(* A rhombus of side 100 with the short diagonal 115 and the long one 164: two triangles that share an edge. *)
Definition rhombus : list (list Z) := [[0;100;100;164]; [0;0;115;100]; [0;0;0;100]; [0;0;0;0]]%Z.
Definition rhombus_ops : list al_op := [OpInsert false; OpInsert false; OpInsert false; OpInsert false; OpExpand 2].
Definition vs : list wsimp := [([0],0%Z); ([1],0%Z); ([2],0%Z); ([3],0%Z)].
Definition full : wgraph := [vs; [([0;1],100%Z); ([0;2],100%Z); ([1;2],115%Z); ([1;3],100%Z); ([2;3],100%Z)]; [([0;1;2],115%Z); ([1;2;3],115%Z)]].
Definition ring : wgraph := [vs; [([0;1],100%Z); ([0;2],100%Z); ([1;3],100%Z); ([2;3],100%Z)]; []].

Lemma rhombus_covers : matrix_covers rhombus rhombus_ops.
Proof.
  intros p q E.
  assert (H : live p <= 4).
  { unfold rhombus_ops in E. do 5 (destruct p as [|? p]; [cbn; lia|]; injection E as <- E). destruct p; [cbn; lia|discriminate]. }
  intros j i Hj Hi. assert (Hc : (j = 0 \/ j = 1 \/ j = 2) /\ (i = 1 \/ i = 2 \/ i = 3)) by lia.
  destruct Hc as [[->|[->| ->]] [->|[->| ->]]]; try lia; cbn; lia.
Qed.
Lemma rhombus_run : al_run rhombus 150 2 rhombus_ops = Ok full. Proof. vm_compute. reflexivity. Qed.
Lemma rhombus_small k : S (length (level full k)) < 7.
Proof. destruct k as [|[|[|k]]]; cbn; try lia. unfold level, full. cbn [nth]. destruct k; cbn; lia. Qed.

(* ---------------------------------------------------------------- C42 *)
(* The exact result, for every history of insertions, expansions and clears and every fuel above the size of a level:
   the loops end, the vertices and the number of levels stay, everything from the triangles up is removed, and of the
   edges exactly those remain that are not the top face of a triangle that stays; "stays" recursively removes top faces
   from the highest dimension down. *)
Theorem C42_collapse_leaves_a_graph :
  forall (dm : list (list Z)) (eps maxDimension : Z) (ops : list al_op) (wg : wgraph) (fuel : nat),
  matrix_covers dm ops -> al_run dm eps maxDimension ops = Ok wg -> (forall k, S (length (level wg k)) < fuel) ->
  exists wg', reduceComplex fuel wg = Some (Ok wg') /\ length wg' = length wg /\ level wg' 0 = level wg 0 /\
    (exists keep, level wg' 1 = filter keep (level wg 1)) /\
    (forall s, In s (level wg' 1) <-> stays wg (length wg - 2) 1 s) /\
    (forall k, 2 <= k -> level wg' k = []).
Proof.
  intros dm eps md ops wg fuel M E F. pose proof (array_closed dm eps md ops wg M E) as C.
  destruct (reduce_spec wg fuel C F) as (wg' & R & [A B [D1 D2] H]). exists wg'. split; [exact R|]. split; [exact A|].
  split; [apply B; lia|]. split; [exact D1|]. split; [|intros k Hk; apply H; lia].
  intros s. rewrite D2. replace (length wg - 1 - 1) with (length wg - 2) by lia. reflexivity.
Qed.
Print Assumptions C42_collapse_leaves_a_graph.

Example C42_ex : matrix_covers rhombus rhombus_ops /\ al_run rhombus 150 2 rhombus_ops = Ok full /\
  (forall k, S (length (level full k)) < 7) /\ reduceComplex 7 full = Some (Ok ring) /\
  top_face full ([0;1;2], 115%Z) [1;2] /\ top_face full ([1;2;3], 115%Z) [1;2].
Proof.
  split; [exact rhombus_covers|]. split; [exact rhombus_run|]. split; [exact rhombus_small|]. split; [vm_compute; reflexivity|]. split.
  - exists 0. split; [now left|]. split; [reflexivity|]. split; [cbn; auto|]. intros u _ H. lia.
  - exists 3. split; [cbn; auto|]. split; [reflexivity|]. split; [cbn; auto|].
    intros u [<-|[<-|[<-|[]]]] H; try lia; cbn; intuition discriminate.
Qed.

(* Whatever is removed, two vertices are connected by edges of weight at most t before iff they are after, for every t. *)
Theorem C42_collapse_keeps_the_components_at_every_scale :
  forall (dm : list (list Z)) (eps maxDimension : Z) (ops : list al_op) (wg wg' : wgraph) (fuel : nat) (t : Z),
  matrix_covers dm ops -> al_run dm eps maxDimension ops = Ok wg -> (forall k, S (length (level wg k)) < fuel) ->
  reduceComplex fuel wg = Some (Ok wg') ->
  (forall u v, connected (up_to t (level wg' 1)) u v <-> connected (up_to t (level wg 1)) u v) /\
  (forall c, components (vertices wg') (up_to t (level wg' 1)) c <-> components (vertices wg) (up_to t (level wg 1)) c).
Proof.
  intros dm eps md ops wg wg' fuel t M E F R. pose proof (array_closed dm eps md ops wg M E) as C.
  destruct (reduce_spec wg fuel C F) as (wg1 & R1 & T). assert (wg1 = wg') by congruence. subst wg1.
  pose proof (collapse_connected wg wg' t C T) as K. split; [intros; symmetry; apply K|].
  assert (V : vertices wg' = vertices wg). { unfold vertices, simplices. now rewrite (rt_below _ _ _ T 0) by lia. }
  intros c. unfold components, classes. rewrite V.
  split; intros (reps & A & B & D & G & H); exists reps; (do 3 (split; [assumption|])); (split; [intros x y Hx Hy Q; apply G; auto; now apply K|]);
    intros v Hv; destruct (H v Hv) as (r & Hr & Q); exists r; (split; [exact Hr|now apply K]).
Qed.
Print Assumptions C42_collapse_keeps_the_components_at_every_scale.

Example C42_components_ex : reduceComplex 7 full = Some (Ok ring) /\ ~ In ([1;2], 115%Z) (level ring 1) /\
  connected (up_to 115 (level ring 1)) 1 2.
Proof.
  split; [vm_compute; reflexivity|]. split; [cbn; intuition discriminate|].
  apply Relation_Operators.rst_trans with 0; [apply Relation_Operators.rst_sym|]; apply Relation_Operators.rst_step; exists 100%Z; vm_compute; auto.
Qed.

(* The first Betti number is not kept: two triangles that share their heaviest edge lose both that edge and themselves. *)
Lemma combination_coord cs x i : combination cs x -> In i x -> exists c, In c cs /\ In i c.
Proof.
  intros (l & L & H) Hi. specialize (H i). apply coord_In in Hi. rewrite Hi in H. revert L H.
  induction l as [|c l IH]; intros L H; [discriminate|]. cbn in H. destruct (coord c i) eqn:E.
  - exists c. split; [apply L; now left|now apply coord_In].
  - apply IH; [intros z Hz; apply L; now right|rewrite Bool.xorb_false_l in H; exact H].
Qed.
Lemma fresh_new cs j x i : nth_error cs j = Some x -> In i x -> (forall c, In c (firstn j cs) -> ~ In i c) -> fresh cs j.
Proof. intros E Hi N. exists x. split; [exact E|]. intros C. destruct (combination_coord _ _ _ C Hi) as (c & Hc & K). exact (N c Hc K). Qed.

Lemma betti_full : betti full 1 0.
Proof.
  exists 3, 2. split; [|split; [|reflexivity]].
  - exists [[0;1]; [0;2]; [1;3]]. split; [reflexivity|]. split; [intros x [<-|[<-|[<-|[]]]]; cbn; auto 6|]. split.
    + intros [|[|[|j]]] Hj; [apply (fresh_new _ 0 [0;1] 1)|apply (fresh_new _ 1 [0;2] 2)|apply (fresh_new _ 2 [1;3] 3)|cbn in Hj; lia];
        try reflexivity; cbn; intuition (subst; cbn in *; intuition discriminate).
    + intros x H. cbn in H. destruct H as [<-|[<-|[<-|[<-|[<-|[]]]]]]; cbv beta iota delta [filter is_face] in *.
      * exists [[0;1]]. split; [intros z [<-|[]]; cbn; auto|]. intros i. cbn. destruct i as [|[|i]]; reflexivity.
      * exists [[0;2]]. split; [intros z [<-|[]]; cbn; auto|]. intros i. cbn. destruct i as [|[|[|i]]]; reflexivity.
      * exists [[0;1];[0;2]]. split; [intros z [<-|[<-|[]]]; cbn; auto|]. intros i. cbn. destruct i as [|[|[|i]]]; reflexivity.
      * exists [[1;3]]. split; [intros z [<-|[]]; cbn; auto|]. intros i. cbn. destruct i as [|[|[|[|i]]]]; reflexivity.
      * exists [[0;1];[0;2];[1;3]]. split; [intros z [<-|[<-|[<-|[]]]]; cbn; auto|]. intros i. cbn. destruct i as [|[|[|[|i]]]]; reflexivity.
  - exists [[0;1;2]; [2;3;4]]. split; [reflexivity|]. split; [intros x [<-|[<-|[]]]; cbn; auto|]. split.
    + intros [|[|j]] Hj; [apply (fresh_new _ 0 [0;1;2] 1)|apply (fresh_new _ 1 [2;3;4] 3)|cbn in Hj; lia];
        try reflexivity; cbn; intuition (subst; cbn in *; intuition discriminate).
    + intros x H. cbn in H. destruct H as [<-|[<-|[]]].
      * exists [[0;1;2]]. split; [intros z [<-|[]]; cbn; auto|]. intros i. cbn. destruct i as [|[|[|i]]]; reflexivity.
      * exists [[2;3;4]]. split; [intros z [<-|[]]; cbn; auto|]. intros i. cbn. destruct i as [|[|[|[|[|i]]]]]; reflexivity.
Qed.

Lemma betti_ring : betti ring 1 1.
Proof.
  exists 3, 0. split; [|split; [|reflexivity]].
  - exists [[0;1]; [0;2]; [1;3]]. split; [reflexivity|]. split; [intros x [<-|[<-|[<-|[]]]]; cbn; auto 6|]. split.
    + intros [|[|[|j]]] Hj; [apply (fresh_new _ 0 [0;1] 1)|apply (fresh_new _ 1 [0;2] 2)|apply (fresh_new _ 2 [1;3] 3)|cbn in Hj; lia];
        try reflexivity; cbn; intuition (subst; cbn in *; intuition discriminate).
    + intros x H. cbn in H. destruct H as [<-|[<-|[<-|[<-|[]]]]].
      * exists [[0;1]]. split; [intros z [<-|[]]; cbn; auto|]. intros i. cbn. destruct i as [|[|i]]; reflexivity.
      * exists [[0;2]]. split; [intros z [<-|[]]; cbn; auto|]. intros i. cbn. destruct i as [|[|[|i]]]; reflexivity.
      * exists [[1;3]]. split; [intros z [<-|[]]; cbn; auto|]. intros i. cbn. destruct i as [|[|[|[|i]]]]; reflexivity.
      * exists [[0;1];[0;2];[1;3]]. split; [intros z [<-|[<-|[<-|[]]]]; cbn; auto|]. intros i. cbn. destruct i as [|[|[|[|i]]]]; reflexivity.
  - exists []. split; [reflexivity|]. split; [intros x []|]. split; [intros j Hj; cbn in Hj; lia|intros x []].
Qed.

Lemma betti_unique edges d b1 b2 : betti edges d b1 -> betti edges d b2 -> b1 = b2.
Proof.
  intros (r1 & r2 & A & B & C) (r3 & r4 & A' & B' & C'). rewrite (rank_unique _ _ _ A A'), (rank_unique _ _ _ B B') in C. lia.
Qed.

Theorem C42_collapse_creates_holes :
  exists (dm : list (list Z)) (eps maxDimension : Z) (ops : list al_op) (wg wg' : wgraph) (fuel : nat),
    matrix_covers dm ops /\ al_run dm eps maxDimension ops = Ok wg /\ (forall k, S (length (level wg k)) < fuel) /\
    reduceComplex fuel wg = Some (Ok wg') /\
    (forall b, betti wg 1 b <-> b = 0) /\ (forall b, betti wg' 1 b <-> b = 1).
Proof.
  exists rhombus, 150%Z, 2%Z, rhombus_ops, full, ring, 7. split; [exact rhombus_covers|]. split; [exact rhombus_run|].
  split; [exact rhombus_small|]. split; [vm_compute; reflexivity|]. split; intros b; split.
  - intros H. exact (betti_unique _ _ _ _ H betti_full). - intros ->. exact betti_full.
  - intros H. exact (betti_unique _ _ _ _ H betti_ring). - intros ->. exact betti_ring.
Qed.
Print Assumptions C42_collapse_creates_holes.
