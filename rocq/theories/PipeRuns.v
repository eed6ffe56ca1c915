(* PipeRuns.v -- whole runs of the default pipeline. *)
From Coq Require Import String Ascii List Arith ZArith Bool Lia Sorted Permutation Relations.
From Verif Require Import Base UtilsModel ArrayListModel TreeModel FastModel ArgModel PipeModel.
From Verif Require Import Spec SpecComplex SpecTree SpecArgs SpecGraph SpecLinear SpecFast SpecPipe.
From Verif Require Import ArrayListProofs ArgProofs KruskalProofs ArrayListHist TreeHist FastProofs FastRuns PipeProofs.
Import ListNotations.
Local Open Scope nat_scope.
Local Open Scope list_scope.

Lemma flag_mono (P Q : nat -> nat -> Prop) n s : (forall u v, u < v -> v < n -> P u v -> Q u v) -> flag_simplex P n s -> flag_simplex Q n s.
Proof. intros H (A & B & C & D). refine (conj A (conj B (conj C _))). intros u v Hu Hv L. auto. Qed.
Lemma diameter_ext (D E : nat -> nat -> Z) n s w : (forall u v, u < v -> v < n -> D u v = E u v) -> (forall v, In v s -> v < n) ->
  diameter D s w -> diameter E s w.
Proof.
  intros H V [A B]. split.
  - intros u v Hu Hv L. rewrite <- H by auto. auto.
  - destruct B as [(u & v & Hu & Hv & L & Q)|B]; [left; exists u, v; rewrite <- H by auto; auto|now right].
Qed.
Lemma lists_rips_ext D E cl n top edges : (forall u v, u < v -> v < n -> D u v = E u v) ->
  lists_rips D cl n top edges -> lists_rips E cl n top edges.
Proof.
  intros H [A B]. split; auto. intros k s w. rewrite A. split; intros (L & K & F & W).
  - assert (V : forall v, In v s -> v < n) by apply F. split; auto. split; auto. split.
    + revert F. apply flag_mono. intros u v Huv Hv. now rewrite H.
    + revert W. now apply diameter_ext with (n := n).
  - assert (V : forall v, In v s -> v < n) by apply F. split; auto. split; auto. split.
    + revert F. apply flag_mono. intros u v Huv Hv. now rewrite H.
    + revert W. apply diameter_ext with (n := n); auto. intros. symmetry. now apply H.
Qed.

Lemma live_inserts n : live (repeat (OpInsert false) n) = n.
Proof.
  unfold live. enough (H : forall a, live_from a (repeat (OpInsert false) n) = a + n) by apply H.
  induction n as [|n IH]; intros a; cbn; [lia|]. rewrite IH. lia.
Qed.
Lemma live_app_expand n es : live (repeat (OpInsert false) n ++ map OpExpand es) = n.
Proof.
  unfold live. enough (H : forall a, live_from a (repeat (OpInsert false) n ++ map OpExpand es) = a + n) by apply H.
  induction n as [|n IH]; intros a; cbn.
  - induction es as [|e es IH]; cbn; lia.
  - rewrite IH. lia.
Qed.
Lemma covers_inserts dm n es : upper_triangle dm n -> matrix_covers dm (repeat (OpInsert false) n ++ map OpExpand es).
Proof.
  intros U p q E. assert (L : live p <= n).
  { rewrite <- (live_app_expand n es), E. unfold live. assert (NC : ~ In OpClear (p ++ q)).
    { rewrite <- E. rewrite in_app_iff, in_map_iff. intros [H|(x & H & _)]; [apply repeat_spec in H|]; discriminate. }
    clear E U. assert (M : forall l a b, ~ In OpClear l -> a <= b -> live_from a l <= live_from b l /\ a <= live_from a l).
    { induction l as [|o l IH]; intros a b N L; cbn; auto. destruct o as [[|]| |]; cbn in N.
      - apply IH; auto.
      - destruct (IH (S a) (S b)); [tauto|lia|]. lia.
      - apply IH; tauto.
      - tauto. }
    enough (H : forall l a, live_from a (l ++ q) = live_from (live_from a l) q).
    { rewrite H. refine (proj2 (M q _ (live_from 0 p) _ (le_n _))). intros K. apply NC, in_app_iff. auto. }
    clear. induction l as [|o l IH]; intros a; cbn; auto. destruct o as [[|]| |]; auto. }
  intros j i Hj Hi. apply U; lia.
Qed.

Lemma expanded_inserts n es : expanded (repeat (OpInsert false) n ++ map OpExpand es) = fold_left (fun k e => Nat.max k (to_unsigned e)) es 1 /\
  deepest (repeat (OpInsert false) n ++ map OpExpand es) = fold_left (fun k e => Nat.max k (to_unsigned e)) es 1.
Proof.
  unfold expanded, deepest. split.
  - induction n as [|n IH]; cbn; auto. generalize 1. induction es as [|e es IH]; intros k; cbn; auto.
  - induction n as [|n IH]; cbn; auto. generalize 1. induction es as [|e es IH]; intros k; cbn; auto.
Qed.

(* n insertions, then expansions of which T is the highest. *)
Lemma array_list_raw dm eps md n es T : upper_triangle dm n -> (0 < md)%Z -> fold_left (fun k e => Nat.max k (to_unsigned e)) es 1 = T ->
  exists wg, al_run dm eps md (repeat (OpInsert false) n ++ map OpExpand es) = Ok wg /\
    lists_rips (dist_of dm) (fun d => (d <= eps)%Z) n T wg.
Proof.
  intros U Hd T0. assert (M := covers_inserts dm n es U).
  destruct (array_list_rips dm eps md _ M) as (wg & E & L0 & R1 & R2 & R3 & R4). exists wg. split; auto.
  destruct (array_list_closed dm eps md _ wg M E) as (A1 & A2 & A3).
  destruct (al_run_inv _ _ _ _ _ M E) as [I _ _].
  rewrite live_app_expand in *. destruct (expanded_inserts n es) as [X1 X2]. rewrite X1 in R2. rewrite X2 in R4.
  rewrite T0 in R2, R4. assert (T1 : 1 <= T).
  { rewrite <- T0. clear. generalize 1. induction es as [|e es IH]; intros k; cbn; auto. specialize (IH (Nat.max k (to_unsigned e))). lia. }
  split.
  - intros k s w. split.
    + intros H. destruct (A2 k s w H) as (Ls & Ss & Dm). split; auto. split; [|split; auto].
      * destruct (Nat.le_gt_cases k T) as [|Q]; auto. rewrite (R4 k Q) in H. destruct H.
      * destruct k as [|k]; [|apply (R1 (S k) s w); auto; lia].
        rewrite L0 in H. apply in_map_iff in H as (i & Q & Hi). injection Q as <- <-. apply in_seq in Hi.
        split; [discriminate|]. split; [repeat constructor|]. split; [intros v [<-|[]]; lia|]. intros u v [<-|[]] [<-|[]]; lia.
    + intros (Ls & K & Fl & Dm). destruct k as [|k].
      * destruct s as [|i [|]]; try discriminate. assert (i < n) by (apply Fl; now left). rewrite L0.
        apply in_map_iff. exists i. split; [|apply in_seq; lia]. f_equal. destruct Dm as [_ [(u & v & [<-|[]] & [<-|[]] & ? & _)|[_ ->]]]; [lia|auto].
      * destruct (R2 ltac:(lia) (S k) s ltac:(lia) Fl Ls) as (w' & Hw). destruct (A2 _ _ _ Hw) as (_ & _ & Dw').
        replace w with w'; auto. destruct Dm as [M1 [(u & v & Hu & Hv & L & <-)|[Q _]]]; [|lia].
        destruct Dw' as [M2 [(u' & v' & Hu' & Hv' & L' & <-)|[Q _]]]; [|lia]. apply Z.le_antisymm; auto.
  - intros k. split; [apply (ArrayListInv.i_ne _ _ _ _ _ I)|]. intros H.
    destruct (Nat.lt_ge_cases k (length wg)); auto. exfalso. apply H. now apply nth_overflow.
Qed.

Lemma array_list_sorted dm eps md n es T srt epsilon wg : is_sort srt -> upper_triangle dm n -> (0 < md)%Z ->
  fold_left (fun k e => Nat.max k (to_unsigned e)) es 1 = T ->
  al_run dm eps md (repeat (OpInsert false) n ++ map OpExpand es) = Ok wg ->
  let edges := getAllEdges srt wg epsilon in
  complex edges /\ filtered edges /\ lists_rips (dist_of dm) (fun d => (d <= eps)%Z) n T edges.
Proof.
  intros Hs U Hd T0 E. destruct (array_list_raw dm eps md n es T U Hd T0) as (wg' & E' & R1 & R2). assert (wg' = wg) by congruence. subst wg'.
  assert (M := covers_inserts dm n es U). cbv zeta.
  destruct (array_list_filtered dm eps md _ wg srt epsilon M E Hs) as [C F]. split; auto. split; auto.
  destruct (getAllEdges_spec dm eps md _ wg srt epsilon M E Hs) as (G1 & G2 & _). split.
  - intros k s w. rewrite <- R1. split; apply Permutation_in; [|apply Permutation_sym]; apply G1.
  - intros k. rewrite G2. assert (P := proj1 (G1 k)). split; intros N Q; apply N; rewrite Q in P.
    + now apply Permutation_nil in P.
    + apply Permutation_sym, Permutation_nil in P. auto.
Qed.

Lemma array_list_edges dm eps dim n srt epsilon : is_sort srt -> upper_triangle dm n -> (0 < dim < 2 ^ 31 - 1)%Z ->
  exists wg, al_run dm eps dim (repeat (OpInsert false) n ++ map OpExpand [dim; dim + 1]%Z) = Ok wg /\
    let edges := getAllEdges srt wg epsilon in
    complex edges /\ filtered edges /\ lists_rips (dist_of dm) (fun d => (d <= eps)%Z) n (Z.to_nat (dim + 1)) edges.
Proof.
  intros Hs U Hd.
  assert (T : fold_left (fun k e => Nat.max k (to_unsigned e)) [dim; dim + 1]%Z 1 = Z.to_nat (dim + 1)).
  { cbn [fold_left]. unfold to_unsigned. rewrite !Z.mod_small by lia. lia. }
  destruct (array_list_raw dm eps dim n _ _ U ltac:(lia) T) as (wg & E & _). exists wg. split; auto.
  now apply (array_list_sorted dm eps dim n [dim; dim + 1]%Z _ srt epsilon wg Hs U ltac:(lia) T).
Qed.

Lemma tree_edges dm eps dim nc0 n srt : is_sort srt -> dm <> [] -> upper_triangle dm n -> (0 < dim < 2 ^ 31 - 1)%Z ->
  exists t, st_run eps dim (Ok tt) srt (st_new dm nc0) (repeat TInsert n) = Ok t /\
    let edges := fst (st_getAllEdges srt t) in
    complex edges /\ filtered edges /\ lists_rips (dist_of dm) (fun d => (d < eps)%Z) n (Z.to_nat dim) edges.
Proof.
  intros Hs Hd U Hdim. destruct (run_inv eps dim dm nc0 srt (repeat TInsert n) Hs) as (t & cb & E & V & _).
  { now apply legal_inserts. }
  destruct (tree_rips eps dim dm nc0 n srt Hs Hd U) as (t' & E' & Nd & Ch). rewrite E in E'. injection E' as <-.
  exists t. split; auto. cbv zeta.
  destruct (tree_filtered eps dim dm nc0 n srt t Hs Hd U E) as [C F]. split; auto. split; auto.
  assert (Lg := legal_inserts dm n U Hd).
  assert (NG : ~ In TGetAll (repeat TInsert n)) by (intros H; apply repeat_spec in H; discriminate).
  destruct (first_getAllEdges eps dim dm nc0 srt _ t Hs Lg NG E) as (G1 & _).
  split.
  - intros k s w. assert (Pk : In (s, w) (level (fst (st_getAllEdges srt t)) k) <-> In (s, w) (level (st_weg t) k)).
    { split; apply Permutation_in; [|apply Permutation_sym]; apply G1. }
    rewrite Pk, Ch. unfold within. rewrite Z.mod_small by lia. split.
    + intros (L & R & W & Dm). split; auto. split; auto. lia.
    + intros (L & K & R & Dm). split; auto. split; auto. split; auto. right. lia.
  - assert (Ln : length (fst (st_getAllEdges srt t)) = length (st_weg t)).
    { unfold st_getAllEdges. destruct (st_isSorted t); auto. cbn. apply map_length. }
    intros k. rewrite Ln. assert (P := proj1 (G1 k)). assert (N := v_ne _ _ _ _ _ _ _ V k). unfold level in *. split.
    + intros Hk Q. rewrite Q in P. apply Permutation_nil in P. now apply N.
    + intros Hk. destruct (Nat.le_gt_cases (length (st_weg t)) k) as [L|]; auto. rewrite <- Ln in L.
      rewrite nth_overflow in Hk by auto. easy.
Qed.

(* ---- the run *)
Section Run.
  Variable dist : list Z -> list Z -> Z.
  Variables atoi atof : string -> Z.
  Variable srt : list wsimp -> list wsimp.
  Variable past_end : list nat -> nat -> res nat.
  Variable nc0 : Z.
  Variable al_reduce : wgraph -> res wgraph.
  Variable other : pipe_kind -> amap -> packet -> res packet.
  Notation run_pipe := (run_pipe dist atoi atof srt past_end al_reduce other).
  Notation run_program := (run_program dist atoi atof srt past_end nc0 al_reduce other).

  Lemma component_ok args c k p : newPipe c (fst (mread args "complexType")) = Some k ->
    (forall o, In o (pipe_required k) -> mget args o <> None) ->
    run_component packet run_pipe add_stats args c p = do p1 <- run_pipe k args p; do p2 <- add_stats k p1; Ok (p2, false).
  Proof.
    intros E R. unfold run_component. rewrite E. unfold configPipe. rewrite (forallb_keys args _ R).
    unfold runPipeWrapper. cbn [negb]. now destruct (run_pipe k args p).
  Qed.

  (* The four components one after the other. *)
  Lemma run_four args d e p : mget args "pipeline" = Some default_pipeline -> mget args "dimensions" = Some d ->
    mget args "epsilon" = Some e -> mget args "twist" <> None ->
    runPipeline packet run_pipe add_stats args p =
      do p1 <- run_distMatrix dist atof args p; do p2 <- add_stats KDistMatrix p1;
      do p3 <- run_neighGraph args p2; do p4 <- add_stats KNeighGraph p3;
      do p5 <- run_rips atoi al_reduce args p4; do p6 <- add_stats KRips p5;
      do p7 <- run_fast atoi atof srt past_end args p6; do p8 <- add_stats KFastPersistence p7;
      Ok (Some (p8, [])).
  Proof.
    intros H1 H3 H4 H5. unfold runPipeline. rewrite H1.
    change (count_char "."%char default_pipeline + 1) with 4. cbn [pipeline_loop].
    change (curFunct default_pipeline) with "distMatrix"%string.
    change (pipeRest default_pipeline) with "neighGraph.rips.fastPersistence"%string.
    change (curFunct "neighGraph.rips.fastPersistence") with "neighGraph"%string.
    change (pipeRest "neighGraph.rips.fastPersistence") with "rips.fastPersistence"%string.
    change (curFunct "rips.fastPersistence") with "rips"%string.
    change (pipeRest "rips.fastPersistence") with "fastPersistence"%string.
    change (curFunct "fastPersistence") with "fastPersistence"%string.
    rewrite (component_ok args "distMatrix" KDistMatrix) by (try reflexivity; intros o [<-|[]]; congruence).
    cbn [run_pipe]. destruct (run_distMatrix dist atof args p) as [p1|]; cbn [bind rmap]; auto.
    destruct (add_stats KDistMatrix p1) as [p2|]; cbn [bind rmap fst snd]; auto.
    rewrite (component_ok args "neighGraph" KNeighGraph) by (try reflexivity; intros o [<-|[<-|[]]]; congruence).
    cbn [run_pipe]. destruct (run_neighGraph args p2) as [p3|]; cbn [bind rmap]; auto.
    destruct (add_stats KNeighGraph p3) as [p4|]; cbn [bind rmap fst snd]; auto.
    rewrite (component_ok args "rips" KRips) by (try reflexivity; intros o []).
    cbn [run_pipe]. destruct (run_rips atoi al_reduce args p4) as [p5|]; cbn [bind rmap]; auto.
    destruct (add_stats KRips p5) as [p6|]; cbn [bind rmap fst snd]; auto.
    rewrite (component_ok args "fastPersistence" KFastPersistence) by (try reflexivity; intros o [<-|[<-|[<-|[]]]]; congruence).
    cbn [run_pipe]. destruct (run_fast atoi atof srt past_end args p6) as [p7|]; cbn [bind rmap]; auto.
    destruct (add_stats KFastPersistence p7) as [p8|]; cbn [bind rmap fst snd]; auto.
  Qed.

  Lemma run_default args c d e p : default_run args c d e ->
    runPipeline packet run_pipe add_stats args p =
      do p1 <- run_distMatrix dist atof args p; do p2 <- add_stats KDistMatrix p1;
      do p3 <- run_neighGraph args p2; do p4 <- add_stats KNeighGraph p3;
      do p5 <- run_rips atoi al_reduce args p4; do p6 <- add_stats KRips p5;
      do p7 <- run_fast atoi atof srt past_end args p6; do p8 <- add_stats KFastPersistence p7;
      Ok (Some (p8, [])).
  Proof. intros [H1 H2 H3 H4 H5 H6]. now apply (run_four args d e). Qed.

  Lemma set_complex_same p c : pk_complex p = Some c -> set_complex p c = p.
  Proof. destruct p; cbn. intros ->. reflexivity. Qed.

  Lemma neigh_array e d dm : forall data p wg, pk_complex p = Some (CArray e d dm wg) -> (forall x, In x data -> x <> []) ->
    foldr_ub (fun p v => match v with
                         | [] => Ok p
                         | _ => do c <- PipeModel.deref p; do c' <- cx_insert v c; Ok (set_complex p c')
                         end) p data =
    rmap (fun wg' => set_complex p (CArray e d dm wg')) (foldr_ub (al_step dm e d) wg (repeat (OpInsert false) (length data))).
  Proof.
    induction data as [|x data IH]; intros p wg Hp N; cbn [foldr_ub length repeat].
    - cbn. now rewrite set_complex_same.
    - destruct x as [|z x]; [exfalso; now apply (N []); [left|]|]. unfold PipeModel.deref at 1. rewrite Hp. cbn [bind cx_insert al_step].
      destruct (al_insert dm e d false wg) as [wg'|]; cbn [bind rmap]; auto.
      rewrite (IH (set_complex p (CArray e d dm wg')) wg'); auto. intros y Hy. apply N. now right.
  Qed.
  Lemma neigh_tree e d : forall data p t, pk_complex p = Some (CTree e d t) -> (forall x, In x data -> x <> []) ->
    foldr_ub (fun p v => match v with
                         | [] => Ok p
                         | _ => do c <- PipeModel.deref p; do c' <- cx_insert v c; Ok (set_complex p c')
                         end) p data =
    rmap (fun t' => set_complex p (CTree e d t')) (st_run e d (Ok tt) srt t (repeat TInsert (length data))).
  Proof.
    unfold st_run. induction data as [|x data IH]; intros p t Hp N; cbn [foldr_ub length repeat].
    - cbn. now rewrite set_complex_same.
    - destruct x as [|z x]; [exfalso; now apply (N []); [left|]|]. unfold PipeModel.deref at 1. rewrite Hp. cbn [bind cx_insert st_step].
      destruct (st_insert e d t) as [t'|]; cbn [bind rmap]; auto.
      rewrite (IH (set_complex p (CTree e d t')) t'); auto. intros y Hy. apply N. now right.
  Qed.

  Definition result (r : option (list (nat * Z * Z) * list bettiEntry)) : list (nat * Z * Z) * list bettiEntry :=
    match r with Some x => x | None => ([], []) end.

  (* What a pipe that only touches the complex leaves alone. *)
  Definition same (p q : packet) : Prop := pk_data q = pk_data p /\ pk_output q = pk_output p /\ pk_table q = pk_table p.
  Lemma stats_ok k p c : pk_complex p = Some c -> exists q, add_stats k p = Ok q /\ pk_complex q = Some c /\ same p q.
  Proof. intros H. unfold add_stats, PipeModel.deref. rewrite H. cbn [bind]. eexists. split; [reflexivity|]. repeat split. Qed.

  (* The last stage. *)
  Lemma fast_finish args d e p c c1 edges c2 : mget args "dimensions" = Some d -> mget args "epsilon" = Some e ->
    pk_complex p = Some c -> pk_output p = [] -> pk_table p = [] -> (0 < atoi d)%Z ->
    cx_expand (atoi d + 1) c = Ok c1 -> cx_getAllEdges srt (atof e) c1 = (edges, c2) ->
    exists finish, (do p7 <- run_fast atoi atof srt past_end args p; do p8 <- add_stats KFastPersistence p7; Ok (Some (p8, @nil string))) =
      (do r <- fp_run past_end (atoi d) (atof e) edges []; Ok (Some (finish r, []))) /\
      forall r, (pk_output (finish r), pk_table (finish r)) = result r /\ pk_data (finish r) = pk_data p.
  Proof.
    intros Hd He Hc Ho Ht Pos Ec Eg.
    exists (fun r => mkPacket (pk_data p) (pk_labels p) (pk_full p) (pk_weights p) (Some c2) (fst (result r)) (snd (result r))
                       (pk_stats p ++ [(KFastPersistence, cx_vertexCount c2, cx_simplexCount c2)])).
    split; [|intros r; cbn; split; auto; now destruct (result r)].
    unfold run_fast, opt. rewrite Hd, He. unfold PipeModel.deref at 1. rewrite Hc. cbn [bind].
    destruct (Z.ltb_spec 0 (atoi d)); [|lia]. rewrite Ec. cbn [bind]. rewrite Eg, Ht.
    destruct (fp_run past_end (atoi d) (atof e) edges []) as [[[lines tab]|]|]; cbn [bind]; auto.
    unfold add_stats, set_complex, PipeModel.deref. cbn. now rewrite Ho, Ht.
  Qed.

  Theorem default_run_edges args c d e data : is_sort srt -> default_run args c d e ->
    (forall x, In x data -> x <> []) -> (forall x y, (0 <= dist x y)%Z) -> (0 < atoi d < 2 ^ 31 - 1)%Z ->
    exists edges finish, complex edges /\ filtered edges /\
      lists_rips (separation dist data) (close c (atof e)) (length data) (Z.to_nat (top c (atoi d))) edges /\
      run_program args data = (do r <- fp_run past_end (atoi d) (atof e) edges []; Ok (Some (finish r, []))) /\
      forall r, (pk_output (finish r), pk_table (finish r)) = result r /\ pk_data (finish r) = data.
  Proof.
    intros Hs Hr Hne Hpos Hd. destruct (distMatrix_spec (list Z) (fun v => match v with [] => true | _ => false end) dist (atof e) data [])
      as (dm & ws & E & L1 & L2 & V & _); [constructor|].
    assert (Sep : forall u v, u < v -> v < length data -> dist_of dm u v = separation dist data u v).
    { intros u v Huv Hv. unfold dist_of, separation. destruct (nth_error data u) as [x|] eqn:Eu; [|apply nth_error_None in Eu; lia].
      destruct (nth_error data v) as [y|] eqn:Ev; [|apply nth_error_None in Ev; lia]. rewrite (V u v x y Eu Ev).
      destruct (Nat.ltb_spec u v); [|lia]. destruct x; [|reflexivity]. exfalso. apply nth_error_In in Eu. now apply (Hne []). }
    assert (U : upper_triangle dm (length data)).
    { intros u v Huv Hv. rewrite (L2 u) by lia. split; auto. rewrite Sep by auto. unfold separation.
      destruct (nth_error data u), (nth_error data v); auto; lia. }
    assert (Hr' := Hr). destruct Hr' as [H1 H2 H3 H4 H5 (col & H6 & H7 & H8)].
    assert (Col : (String.eqb col "true" || String.eqb col "1") = false).
    { now rewrite (proj2 (String.eqb_neq col "true") H7), (proj2 (String.eqb_neq col "1") H8). }
    assert (Pos : (0 <? atoi d)%Z = true) by (apply Z.ltb_lt; lia).
    unfold PipeModel.run_program, new_packet, newSimplex, opt. rewrite H2, H3, H4. destruct c; cbn [cx_name close top].
    - (* tree *)
      assert (G : exists t, st_run (atof e) (atoi d) (Ok tt) srt (st_new dm nc0) (repeat TInsert (length data)) = Ok t /\
        complex (fst (st_getAllEdges srt t)) /\ filtered (fst (st_getAllEdges srt t)) /\
        lists_rips (dist_of dm) (fun x => (x < atof e)%Z) (length data) (Z.to_nat (atoi d)) (fst (st_getAllEdges srt t))).
      { destruct data as [|x0 data0] eqn:Ed.
        - exists (st_new dm nc0). split; [reflexivity|]. cbn. split; [|split; [|split]].
          + split; intros k; destruct k; cbn; try easy; try constructor.
          + split; intros k; destruct k; cbn; try easy; try constructor.
          + intros k s w. split; [destruct k; intros []|]. intros (L & _ & (N & _ & Vv & _) & _). destruct s as [|a s]; [easy|].
            exfalso. specialize (Vv a (or_introl eq_refl)). lia.
          + intros k. destruct k; cbn; split; try easy; lia.
        - rewrite <- Ed in *. assert (Hdm : dm <> []) by (intros ->; rewrite Ed in L1; discriminate).
          destruct (tree_edges dm (atof e) (atoi d) nc0 (length data) srt Hs Hdm U Hd) as (t & T1 & T2 & T3 & T4). eauto 8. }
      destruct G as (t & T1 & T2 & T3 & T4).
      destruct (st_getAllEdges srt t) as [edges t'] eqn:Eg. cbn [fst] in *. exists edges.
      change (String.eqb "simplexTree" "simplexTree") with true. cbn [bind].
      rewrite (run_default args Tree d e _ Hr). unfold run_distMatrix, opt. rewrite H4. cbn [pk_data pk_weights pk_complex].
      rewrite E. cbn [bind fst snd PipeModel.deref pk_complex cx_setDistanceMatrix].
      change (st_setDistanceMatrix dm (st_new [] nc0)) with (st_new dm nc0).
      match goal with |- context [add_stats KDistMatrix ?p] => destruct (stats_ok KDistMatrix p _ eq_refl) as (p2 & -> & C2 & D2 & O2 & B2) end.
      cbn [bind pk_data pk_output pk_table] in *. unfold run_neighGraph. rewrite D2.
      rewrite (neigh_tree _ _ _ _ _ C2 Hne), T1. cbn [rmap bind].
      match goal with |- context [add_stats KNeighGraph ?p] => destruct (stats_ok KNeighGraph p _ eq_refl) as (p4 & -> & C4 & D4 & O4 & B4) end.
      cbn [bind pk_data pk_output pk_table set_complex] in *.
      unfold run_rips, opt. rewrite H3, H6. unfold PipeModel.deref at 1. rewrite C4. cbn [bind cx_expand]. rewrite Col. cbn [bind].
      match goal with |- context [add_stats KRips ?p] => destruct (stats_ok KRips p _ eq_refl) as (p6 & -> & C6 & D6 & O6 & B6) end.
      cbn [bind pk_data pk_output pk_table set_complex] in *.
      destruct (fast_finish args d e p6 _ _ edges (CTree (atof e) (atoi d) t') H3 H4 C6 ltac:(congruence) ltac:(congruence) ltac:(lia) eq_refl) as (finish & Fi & Fo).
      { cbn. now rewrite Eg. }
      exists finish. split; [exact T2|]. split; [exact T3|].
      split; [eapply lists_rips_ext; [|exact T4]; exact Sep|]. split; [exact Fi|].
      intros r. destruct (Fo r) as [F1 F2]. split; auto. congruence.
    - (* array list *)
      destruct (array_list_edges dm (atof e) (atoi d) (length data) srt (atof e) Hs U Hd) as (wg & W1 & W2 & W3 & W4).
      exists (getAllEdges srt wg (atof e)).
      unfold al_run in W1. rewrite foldr_ub_app in W1. 
      destruct (foldr_ub (al_step dm (atof e) (atoi d)) [] (repeat (OpInsert false) (length data))) as [wg1|] eqn:E1; [|discriminate].
      cbn [bind map foldr_ub al_step] in W1.
      destruct (expandDimensions (atoi d) wg1) as [wg2|] eqn:E2; [|discriminate]. cbn [bind] in W1.
      destruct (expandDimensions (atoi d + 1) wg2) as [wg3|] eqn:E3; [|discriminate]. cbn [bind] in W1. injection W1 as ->.
      change (String.eqb "simplexArrayList" "simplexTree") with false. change (String.eqb "simplexArrayList" "simplexArrayList") with true. cbn [bind].
      rewrite (run_default args ArrayList d e _ Hr). unfold run_distMatrix, opt. rewrite H4. cbn [pk_data pk_weights pk_complex].
      rewrite E. cbn [bind fst snd PipeModel.deref pk_complex cx_setDistanceMatrix].
      match goal with |- context [add_stats KDistMatrix ?p] => destruct (stats_ok KDistMatrix p _ eq_refl) as (p2 & -> & C2 & D2 & O2 & B2) end.
      cbn [bind pk_data pk_output pk_table] in *. unfold run_neighGraph. rewrite D2.
      rewrite (neigh_array _ _ _ _ _ _ C2 Hne), E1. cbn [rmap bind].
      match goal with |- context [add_stats KNeighGraph ?p] => destruct (stats_ok KNeighGraph p _ eq_refl) as (p4 & -> & C4 & D4 & O4 & B4) end.
      cbn [bind pk_data pk_output pk_table set_complex] in *.
      unfold run_rips, opt. rewrite H3, H6. unfold PipeModel.deref at 1. rewrite C4. cbn [bind cx_expand]. rewrite E2. cbn [bind rmap]. rewrite Col. cbn [bind].
      match goal with |- context [add_stats KRips ?p] => destruct (stats_ok KRips p _ eq_refl) as (p6 & -> & C6 & D6 & O6 & B6) end.
      cbn [bind pk_data pk_output pk_table set_complex] in *.
      destruct (fast_finish args d e p6 _ (CArray (atof e) (atoi d) dm wg) (getAllEdges srt wg (atof e)) (CArray (atof e) (atoi d) dm wg) H3 H4 C6 ltac:(congruence) ltac:(congruence) ltac:(lia)) as (finish & Fi & Fo).
      { cbn [cx_expand]. now rewrite E3. }
      { reflexivity. }
      exists finish. split; [exact W2|]. split; [exact W3|].
      split; [eapply lists_rips_ext; [|exact W4]; exact Sep|]. split; [exact Fi|].
      intros r. destruct (Fo r) as [F1 F2]. split; auto. congruence.
  Qed.
End Run.

(* ---- consequences for the points *)
Lemma classes_ext V V' (R R' : nat -> nat -> Prop) n : (forall v, In v V <-> In v V') -> (forall u v, R u v <-> R' u v) ->
  classes V R n -> classes V' R' n.
Proof.
  intros HV HR (reps & L & N & I & U & C). exists reps. split; auto. split; auto. split; [intros x Hx; apply HV; auto|]. split.
  - intros x y Hx Hy Hr. apply U; auto. now apply HR.
  - intros v Hv. apply HV in Hv. destruct (C v Hv) as (r & Hr & Rr). exists r. split; auto. now apply HR.
Qed.
Lemma rst_ext (R R' : nat -> nat -> Prop) : (forall u v, R u v <-> R' u v) ->
  forall u v, clos_refl_sym_trans nat R u v <-> clos_refl_sym_trans nat R' u v.
Proof.
  intros H. assert (M : forall R R' : nat -> nat -> Prop, (forall u v, R u v -> R' u v) -> forall u v, clos_refl_sym_trans nat R u v -> clos_refl_sym_trans nat R' u v).
  { clear. intros R R' H u v C. induction C; [apply rst_step; auto|apply rst_refl|now apply rst_sym|eapply rst_trans; eauto]. }
  intros u v. split; apply M; intros; now apply H.
Qed.

Section Points.
  Variable dist : list Z -> list Z -> Z.
  Variable data : list (list Z).
  Variable c : cx_type.
  Variable eps : Z.
  Variable tp : nat.
  Hypothesis Htp : 1 <= tp.
  Variable edges : wgraph.
  Hypothesis L : lists_rips (separation dist data) (close c eps) (length data) tp edges.
  Hypothesis C : complex edges.

  Lemma rips_vertices v : In v (vertices edges) <-> v < length data.
  Proof.
    destruct (complex_vertices _ C) as (EV & _). assert (In [v] (simplices edges 0) <-> In v (vertices edges)) as <-.
    { rewrite EV, in_map_iff. split; [intros (x & E & H); congruence|eauto]. }
    unfold simplices. rewrite in_map_iff. split.
    - intros ([s w] & E & H). cbn in E. subst s. apply (proj1 L) in H as (_ & _ & F & _). apply F. now left.
    - intros H. exists ([v], 0%Z). split; auto. apply (proj1 L). split; auto. split; [lia|]. split.
      + split; [discriminate|]. split; [repeat constructor|]. split; [intros x [<-|[]]; auto|]. intros x y [<-|[]] [<-|[]]; lia.
      + split; [intros x y [<-|[]] [<-|[]]; lia|]. right. auto.
  Qed.
  Lemma rips_adjacent t u v : adjacent (up_to t (level edges 1)) u v <-> joined dist data c eps t u v.
  Proof.
    unfold adjacent, up_to, joined. split.
    - intros (w & H). apply filter_In in H as [H W]. apply Z.leb_le in W. apply (proj1 L) in H as (_ & _ & (_ & Ss & V & Cl) & D1 & D2).
      inversion Ss as [|? ? _ Hf]; subst. inversion Hf as [|? ? Huv _]; subst. split; auto. split; [apply V; right; now left|].
      split; [apply Cl; auto; [now left|right; now left]|]. assert (separation dist data u v <= w)%Z by (apply D1; auto; [now left|right; now left]). cbn in W. lia.
    - intros (Huv & Hv & Cl & W). exists (separation dist data u v). apply filter_In. split; [|now apply Z.leb_le].
      apply (proj1 L). split; auto. split; [lia|]. split.
      + split; [discriminate|]. split; [repeat constructor; auto|]. split; [intros x [<-|[<-|[]]]; lia|].
        intros x y [<-|[<-|[]]] [<-|[<-|[]]] H; try lia. auto.
      + split; [intros x y [<-|[<-|[]]] [<-|[<-|[]]] H; lia|]. left. exists u, v. cbn. auto.
  Qed.
  Lemma rips_clusters t n : components (vertices edges) (up_to t (level edges 1)) n <-> clusters dist data c eps t n.
  Proof.
    assert (V : forall v, In v (vertices edges) <-> In v (seq 0 (length data))) by (intros v; rewrite rips_vertices, in_seq; lia).
    assert (R := rst_ext _ _ (rips_adjacent t)).
    split; apply classes_ext; auto; intros; symmetry; auto. apply R.
  Qed.
  Lemma rips_count : length (vertices edges) = length data.
  Proof.
    destruct (complex_vertices _ C) as (_ & N & _). rewrite <- (seq_length (length data) 0). apply Permutation_length.
    apply NoDup_Permutation; [auto|apply seq_NoDup|]. intros v. rewrite rips_vertices, in_seq. lia.
  Qed.
  Lemma rips_levels : (2 <= length edges <-> exists u v, u < v /\ v < length data /\ close c eps (separation dist data u v)) /\
    (length edges = 0 <-> data = []).
  Proof.
    split.
    - change (2 <= length edges) with (1 < length edges). rewrite (proj2 L). split.
      + destruct (level edges 1) as [|[s w] l] eqn:E; [easy|]. intros _. assert (H : In (s, w) (level edges 1)) by (rewrite E; now left).
        apply (proj1 L) in H as (Ls & _ & (_ & Ss & V & Cl) & _). destruct s as [|u [|v [|]]]; try discriminate.
        inversion Ss as [|? ? _ Hf]; subst. inversion Hf as [|? ? Huv _]; subst. exists u, v.
        split; auto. split; [apply V; right; now left|]. apply Cl; auto; [now left|right; now left].
      + intros (u & v & Huv & Hv & Cl) E. assert (A : adjacent (up_to (separation dist data u v) (level edges 1)) u v).
        { apply rips_adjacent. repeat split; auto. lia. }
        rewrite E in A. destruct A as (w & []).
    - split.
      + intros E. apply length_zero_iff_nil. assert (V := rips_vertices 0). apply length_zero_iff_nil in E.
        assert (V0 : ~ In 0 (vertices edges)) by (rewrite E; intros []). destruct (length data); auto. exfalso. apply V0, V. lia.
      + intros E. assert (N : ~ 0 < length edges); [|lia]. rewrite (proj2 L). intros H. destruct (level edges 0) as [|[s w] l] eqn:El; [easy|].
        assert (I : In (s, w) (level edges 0)) by (rewrite El; now left). apply (proj1 L) in I as (_ & _ & (Ne & _ & V & _) & _).
        rewrite E in V. destruct s as [|a s]; [easy|]. specialize (V a (or_introl eq_refl)). cbn in V. lia.
  Qed.
End Points.

Lemma fp_none past_end dim eps edges tab : fp_run past_end dim eps edges tab = Ok None -> edges = [].
Proof.
  unfold fp_run. destruct edges as [|e0 edges']; auto. set (edges := e0 :: edges'). destruct (at_ edges 1) as [e1|]; [|discriminate].
  cbn [bind]. destruct (0 <? dim)%Z; [|discriminate]. destruct (dim_loop _ _ _ _ _) as [[[? ?] ?]|]; discriminate.
Qed.

Section Results.
  Variable dist : list Z -> list Z -> Z.
  Variables atoi atof : string -> Z.
  Variable srt : list wsimp -> list wsimp.
  Variable past_end : list nat -> nat -> res nat.
  Variable nc0 : Z.
  Variable al_reduce : wgraph -> res wgraph.
  Variable other : pipe_kind -> amap -> packet -> res packet.
  Notation run_program pe := (run_program dist atoi atof srt pe nc0 al_reduce other).
  Variables (args : amap) (c : cx_type) (d e : string) (data : list (list Z)).
  Hypothesis Hs : is_sort srt.
  Hypothesis Hr : default_run args c d e.
  Hypothesis Hne : forall x, In x data -> x <> [].
  Hypothesis Hpos : forall x y, (0 <= dist x y)%Z.
  Hypothesis Hd : (0 < atoi d < 2 ^ 31 - 1)%Z.

  Lemma top_pos : 1 <= Z.to_nat (top c (atoi d)).
  Proof. destruct c; cbn; lia. Qed.

  Theorem default_dim0 p failed : run_program past_end args data = Ok (Some (p, failed)) -> data <> [] ->
    failed = [] /\ exists deaths, dim0 (pk_output p) = map (fun w => (0, 0%Z, w)) deaths ++ [(0, 0%Z, atof e)] /\
      forall t n, clusters dist data c (atof e) t n <-> count_le t deaths + n = length data.
  Proof.
    intros H Hdata. destruct (default_run_edges dist atoi atof srt past_end nc0 al_reduce other args c d e data Hs Hr Hne Hpos Hd)
      as (edges & finish & C & F & L & E & O). rewrite E in H. clear E.
    destruct (fp_run past_end (atoi d) (atof e) edges []) as [r|] eqn:Er; [|discriminate]. cbn [bind] in H. injection H as <- <-.
    split; auto. destruct (O r) as [O1 _]. clear O.
    assert (T := top_pos). destruct (rips_levels dist data c (atof e) _ T edges L C) as [_ L0].
    assert (Ne : edges <> []) by (intros ->; apply Hdata, L0; reflexivity).
    destruct r as [[lines tab]|]; [|now apply fp_none in Er].
    cbn [result] in O1. injection O1 as O1 O2. rewrite O1.
    destruct (dim0_components past_end (atoi d) (atof e) edges [] lines tab C (fl_sorted _ F 1) Er) as (deaths & D1 & D2).
    exists deaths. split; auto. intros t n. rewrite <- (rips_clusters dist data c (atof e) _ T edges L C).
    destruct (complex_vertices _ C) as (_ & NV & _ & GV). assert (RC := rips_count dist data c (atof e) _ T edges L C).
    assert (Gt : graph_on (vertices edges) (up_to t (level edges 1))).
    { intros s w Hw. apply filter_In in Hw. now apply (GV s w). }
    destruct (components_exist _ _ NV GV) as (c1 & C1). destruct (components_exist _ _ NV Gt) as (c0 & C0).
    split.
    - intros Hn. destruct (D2 t n c1 Hn C1) as (Q & _). lia.
    - intros Q. destruct (D2 t c0 c1 C0 C1) as (Q' & _). replace n with c0 by lia. exact C0.
  Qed.

  (* Which runs are defined. *)
  Theorem default_undefined :
    (data <> [] -> ~ (exists u v, u < v /\ v < length data /\ close c (atof e) (separation dist data u v)) ->
       run_program past_end args data = UB) /\
    (data = [] \/ (exists u v, u < v /\ v < length data /\ close c (atof e) (separation dist data u v)) ->
       exists p, run_program libstdcxx_past_end args data = Ok (Some (p, []))).
  Proof.
    assert (T := top_pos). split.
    - intros Hdata Hn. destruct (default_run_edges dist atoi atof srt past_end nc0 al_reduce other args c d e data Hs Hr Hne Hpos Hd)
        as (edges & finish & C & F & L & E & O). rewrite E. clear E.
      destruct (rips_levels dist data c (atof e) _ T edges L C) as [L2 L0].
      destruct edges as [|e0 [|e1 edges]]; [exfalso; apply Hdata, L0; reflexivity|reflexivity|exfalso; apply Hn, L2; cbn; lia].
    - intros Hor. destruct (default_run_edges dist atoi atof srt libstdcxx_past_end nc0 al_reduce other args c d e data Hs Hr Hne Hpos Hd)
        as (edges & finish & C & F & L & E & O). rewrite E. clear E.
      destruct (rips_levels dist data c (atof e) _ T edges L C) as [L2 L0]. destruct Hor as [Hdata|Hp].
      + apply L0 in Hdata. destruct edges; [|discriminate]. cbn. eauto.
      + destruct (libstdcxx_run (atoi d) (atof e) edges [] C (proj2 L2 Hp)) as (ds & piv & ps & tab & -> & _). cbn [bind]. eauto.
  Qed.

  (* No bar of dimension dim or above. *)
  Theorem default_dims p failed : run_program past_end args data = Ok (Some (p, failed)) ->
    forall k b x, In (k, b, x) (pk_output p) -> (Z.of_nat k < atoi d)%Z.
  Proof.
    intros H k b x Hi. destruct (default_run_edges dist atoi atof srt past_end nc0 al_reduce other args c d e data Hs Hr Hne Hpos Hd)
      as (edges & finish & C & F & L & E & O). rewrite E in H. clear E.
    destruct (fp_run past_end (atoi d) (atof e) edges []) as [r|] eqn:Er; [|discriminate]. cbn [bind] in H. injection H as <- <-.
    destruct (O r) as [O1 _]. clear O. destruct r as [[lines tab]|]; cbn [result] in O1; injection O1 as O1 O2; rewrite O1 in Hi; [|destruct Hi].
    destruct (fp_any _ _ _ _ _ _ _ Er) as (new & newt & _ & -> & _ & _ & Q).
    apply in_app_iff in Hi as [Hi|Hi]; [apply in_map_iff in Hi as (w & E & _); injection E as <- _ _; lia|].
    apply in_app_iff in Hi as [[E|[]]|Hi]; [injection E as <- _ _; lia|].
    destruct (Q _ Hi) as [Q1 _]. cbn in Q1. unfold dims in Q1. lia.
  Qed.
End Results.
