(* PropertiesInd.v -- property theorems about indSimplexTree. *)
From Coq Require Import List Arith ZArith Bool Lia Sorted Permutation.
From Verif Require Import Base Spec ArrayListModel SpecComplex TreeModel SpecTree SpecFast IndModel SpecInd IndHist PropertiesComplex PropertiesTree.
Import ListNotations.
Local Open Scope nat_scope.

(* ---------------------------------------------------------------- C16 *)
(* After any legal history: exactly the simplices of the strict Vietoris-Rips complex up to the maximal dimension, each
   once and with its diameter, provided none has four vertices; if one has, the history wrote outside dimCounts. *)
Theorem C16_strict_rips_or_out_of_range :
  forall (eps maxDimension : Z) (dm : list (list Z)) (nc0 : Z) (srt : list wsimp -> list wsimp) (ops : list ind_op),
  ilegal dm ops ->
  let p := ipast_of dm ops in
  ((forall s, simplex_of (q_dm p) eps maxDimension (q_points p) s -> length s <= 3) ->
   exists t, ind_run eps maxDimension srt (ind_new dm nc0) ops = Ok t /\
     (forall k s w, In (s, w) (level (i_dims t) k) <->
        length s = S k /\ simplex_of (q_dm p) eps maxDimension (q_points p) s /\ diameter (dist_of (q_dm p)) s w) /\
     (forall k, NoDup (map fst (level (i_dims t) k))) /\ (forall k, k < length (i_dims t) <-> level (i_dims t) k <> []) /\
     level (i_dims t) 0 = map (fun v => ([v], 0%Z)) (seq 0 (q_points p))) /\
  ((exists s, simplex_of (q_dm p) eps maxDimension (q_points p) s /\ 4 <= length s) ->
   ind_run eps maxDimension srt (ind_new dm nc0) ops = UB).
Proof. exact ind_rips. Qed.
Print Assumptions C16_strict_rips_or_out_of_range.

(* vertexCount and simplexCount both return the number of simplices (plus what the uninitialised counter held); the
   counters by dimension start from 6, 15 and 20. *)
Theorem C16_counters :
  forall (eps maxDimension : Z) (dm : list (list Z)) (nc0 : Z) (srt : list wsimp -> list wsimp) (ops : list ind_op) (t : itree),
  ilegal dm ops -> ind_run eps maxDimension srt (ind_new dm nc0) ops = Ok t ->
  ind_vertexCount t = (nc0 + Z.of_nat (length (concat (i_dims t))))%Z /\ ind_simplexCount t = ind_vertexCount t /\
  i_counts t = map (fun k => (nth k [6; 15; 20]%Z 0 + Z.of_nat (length (level (i_dims t) k)))%Z) [0; 1; 2].
Proof. exact ind_counters. Qed.
Print Assumptions C16_counters.

Theorem C16_getWeight :
  forall (eps maxDimension : Z) (dm : list (list Z)) (nc0 : Z) (srt : list wsimp -> list wsimp) (ops : list ind_op) (t : itree)
         (s : list nat),
  ilegal dm ops -> ind_run eps maxDimension srt (ind_new dm nc0) ops = Ok t ->
  let p := ipast_of dm ops in
  (forall w, simplex_of (q_dm p) eps maxDimension (q_points p) s -> diameter (dist_of (q_dm p)) s w -> ind_getWeight t s = Ok w) /\
  (~ simplex_of (q_dm p) eps maxDimension (q_points p) s ->
     (exists s', simplex_of (q_dm p) eps maxDimension (q_points p) s' /\ length s' = length s) -> ind_getWeight t s = Ok 10000%Z) /\
  (~ (exists s', simplex_of (q_dm p) eps maxDimension (q_points p) s' /\ length s' = length s) -> ind_getWeight t s = UB).
Proof. exact ind_weight. Qed.
Print Assumptions C16_getWeight.

(* The first getAllEdges returns the complex as a filtration; later calls, whatever was inserted in between, return the
   same edges again. *)
Theorem C16_getAllEdges :
  forall (eps maxDimension : Z) (dm : list (list Z)) (nc0 : Z) (srt : list wsimp -> list wsimp) (ops : list ind_op) (t : itree),
  is_sort srt -> ilegal dm ops -> ~ In IGetAll ops -> ind_run eps maxDimension srt (ind_new dm nc0) ops = Ok t ->
  let edges := fst (ind_getAllEdges srt t) in
  (forall k, Permutation (level edges k) (level (i_dims t) k)) /\ level edges 0 = level (i_dims t) 0 /\ length edges = length (i_dims t) /\
  complex edges /\ filtered edges /\
  (i_dims t <> [] -> forall ops' t', ind_run eps maxDimension srt (snd (ind_getAllEdges srt t)) ops' = Ok t' ->
     fst (ind_getAllEdges srt t') = edges).
Proof. exact ind_edges. Qed.
Print Assumptions C16_getAllEdges.

(* find returns a bool: whether the position of a simplex in the sorted edges is not 0.  The simplex is the longest part
   of the argument at which the tree has no further children; asking for a vertex that is not among existing children
   dereferences a null pointer, and before the first getAllEdges the position is not initialised. *)
Theorem C16_find :
  forall (eps maxDimension : Z) (dm : list (list Z)) (nc0 : Z) (srt : list wsimp -> list wsimp) (ops : list ind_op) (t : itree),
  is_sort srt -> ilegal dm ops -> ~ In IGetAll ops -> ind_run eps maxDimension srt (ind_new dm nc0) ops = Ok t ->
  0 < q_points (ipast_of dm ops) ->
  let p := ipast_of dm ops in
  let edges := fst (ind_getAllEdges srt t) in
  let t' := snd (ind_getAllEdges srt t) in
  (forall q r, simplex_of (q_dm p) eps maxDimension (q_points p) q -> r = [] \/ ~ extendable (q_dm p) eps maxDimension (q_points p) q ->
     (exists k w, nth_error (level edges (length q - 1)) k = Some (q, w) /\ ind_find t' (q ++ r) = Ok (negb (k =? 0))) /\
     (2 <= length q -> ind_find t (q ++ r) = UB)) /\
  (forall q j r, simplex_of (q_dm p) eps maxDimension (q_points p) q -> extendable (q_dm p) eps maxDimension (q_points p) q ->
     ~ simplex_of (q_dm p) eps maxDimension (q_points p) (q ++ [j]) ->
     ind_find t' (q ++ j :: r) = UB /\ ind_find t (q ++ j :: r) = UB) /\
  (forall v r, q_points p <= v -> ind_find t' (v :: r) = UB /\ ind_find t (v :: r) = UB).
Proof. exact ind_find_spec. Qed.
Print Assumptions C16_find.

(* search only ever looks at vertex 0 and then at the largest neighbour: on any other vertex it does not return. *)
Theorem C16_search :
  forall (eps maxDimension : Z) (dm : list (list Z)) (nc0 : Z) (srt : list wsimp -> list wsimp) (ops : list ind_op) (t : itree),
  ilegal dm ops -> ind_run eps maxDimension srt (ind_new dm nc0) ops = Ok t ->
  let p := ipast_of dm ops in
  let sx := simplex_of (q_dm p) eps maxDimension (q_points p) in
  (q_points p = 0 -> forall s, ind_search t s = Some UB) /\
  (0 < q_points p ->
     ind_search t [] = Some (Ok true) /\ (forall v s, v <> 0 -> ind_search t (v :: s) = None) /\
     forall q, greedy (q_dm p) eps maxDimension (q_points p) q ->
       ind_search t q = Some (Ok true) /\
       (~ extendable (q_dm p) eps maxDimension (q_points p) q -> forall j r, ind_search t (q ++ j :: r) = Some (Ok false)) /\
       (forall m j r, sx (q ++ [m]) -> (forall v, sx (q ++ [v]) -> v <= m) -> j <> m -> ind_search t (q ++ j :: r) = None)).
Proof. exact ind_search_spec. Qed.
Print Assumptions C16_search.

(* Four points, a triangle and a tail, and what each call answers. *)
Lemma ilegal_inserts dm n : (forall m, m <= n -> upper_triangle dm m) -> dm <> [] -> ilegal dm (repeat IInsert n).
Proof.
  intros U Hdm a o b E. assert (Ho : o = IInsert) by (apply (repeat_spec n IInsert); rewrite E; apply in_app_iff; right; now left). subst o.
  cbn. assert (Ea : a = repeat IInsert (length a)).
  { assert (F := f_equal (firstn (length a)) E). rewrite firstn_app, Nat.sub_diag, firstn_all, app_nil_r in F. rewrite <- F.
    clear. revert a. induction n as [|n IH]; intros [|x a]; cbn; auto. f_equal. rewrite firstn_length, repeat_length.
    specialize (IH a). rewrite firstn_length, repeat_length in IH. exact IH. }
  assert (La : length a < n).
  { assert (F := f_equal (@length _) E). rewrite repeat_length, app_length in F. cbn in F. lia. }
  assert (Q : forall m, ipast_of dm (repeat IInsert m) = mkIpast dm m).
  { induction m as [|m IHm]; auto. rewrite <- (Nat.add_1_r m), repeat_app. cbn. rewrite ipast_snoc, IHm. cbn. destruct dm; [easy|]. f_equal. lia. }
  rewrite Ea, Q. cbn. apply U. lia.
Qed.

Definition unit_dm : list (list Z) := repeat (repeat 1%Z 4) 4.
Example C16_ex :
  ilegal ex_dm (repeat IInsert 4) /\ ~ In IGetAll (repeat IInsert 4) /\
  (exists t, ind_run 6 2 wsort (ind_new ex_dm 0) (repeat IInsert 4) = Ok t /\
     i_dims t = [[([0],0%Z);([1],0%Z);([2],0%Z);([3],0%Z)];
                 [([0;1],3%Z);([0;2],4%Z);([1;2],5%Z);([2;3],5%Z)]; [([0;1;2],5%Z)]] /\
     ind_vertexCount t = 9%Z /\ i_counts t = [10; 19; 21]%Z /\
     ind_getWeight t [0;2] = Ok 4%Z /\ ind_getWeight t [0;3] = Ok 10000%Z /\ ind_getWeight t [0;1;2;3] = UB /\
     let t' := snd (ind_getAllEdges wsort t) in
     ind_find t' [0;2] = Ok true /\ ind_find t' [0;1;2] = Ok false /\ ind_find t' [0;1] = Ok false /\
     ind_find t' [2;3;0] = Ok true /\ ind_find t' [0;3] = UB /\ ind_find t [0;2] = UB /\
     ind_search t [0;2] = Some (Ok true) /\ ind_search t [0;2;3] = Some (Ok false) /\ ind_search t [0;1] = None) /\
  ilegal unit_dm (repeat IInsert 4) /\
  simplex_of unit_dm 2 3 4 [0;1;2;3] /\ ind_run 2 3 wsort (ind_new unit_dm 0) (repeat IInsert 4) = UB /\
  (exists t, ind_run 2 2 wsort (ind_new unit_dm 0) (repeat IInsert 4) = Ok t).
Proof.
  assert (U : forall m, m <= 4 -> upper_triangle unit_dm m).
  { intros n Hn j i Hj Hi. assert (Hc : (j = 0 \/ j = 1 \/ j = 2) /\ (i = 1 \/ i = 2 \/ i = 3)) by lia.
    destruct Hc as [[->|[->| ->]] [->|[->| ->]]]; try lia; cbn; lia. }
  split; [apply ilegal_inserts; [apply ex_upper|easy]|]. split; [intros H; apply repeat_spec in H; discriminate|].
  split. { eexists. split; [vm_compute; reflexivity|]. repeat (split; [vm_compute; reflexivity|]). vm_compute. reflexivity. }
  split; [apply ilegal_inserts; [exact U|easy]|]. split.
  - split; [|right; vm_compute; discriminate]. split; [easy|]. split; [repeat constructor|]. split; [cbn; intros v Hv; lia|].
    intros u v Hu Hv Huv. cbn in Hu, Hv. assert (Hc : (u = 0 \/ u = 1 \/ u = 2) /\ (v = 1 \/ v = 2 \/ v = 3)) by lia.
    destruct Hc as [[->|[->| ->]] [->|[->| ->]]]; cbn; lia.
  - split; [vm_compute; reflexivity|]. eexists. vm_compute. reflexivity.
Qed.
