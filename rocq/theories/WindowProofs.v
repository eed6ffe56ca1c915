(* WindowProofs.v -- proofs about the streaming windows. *)
From Coq Require Import String Ascii List Arith ZArith Bool Lia Sorted Permutation.
From Verif Require Import Base UtilsModel ArrayListModel TreeModel FastModel ArgModel GaussModel PipeModel WindowModel.
From Verif Require Import Spec SpecComplex SpecTree SpecArgs SpecGraph SpecLinear SpecFast.
From Verif Require Import ArrayListProofs ArgProofs ArrayListHist TreeHist FastProofs FastRuns PipeProofs PipeRuns GaussRuns.
From Verif Require Import SpecPipe SpecWindow.
Import ListNotations.
Local Open Scope nat_scope.
Local Open Scope list_scope.

(* ---- lists *)
Lemma lastn_snoc {A} n (l : list A) x : n <= length l -> 0 < n -> tl (lastn n l) ++ [x] = lastn n (l ++ [x]).
Proof.
  intros H P. unfold lastn. rewrite List.app_length. cbn [length].
  rewrite skipn_app. replace (length l + 1 - n - length l) with 0 by lia. cbn [skipn]. f_equal.
  replace (length l + 1 - n) with (S (length l - n)) by lia. generalize (length l - n) as k. clear.
  intros k. revert l. induction k as [|k IH]; intros [|y l]; try reflexivity. cbn [skipn]. rewrite IH. destruct l; reflexivity.
Qed.
Lemma lastn_all {A} n (l : list A) : length l <= n -> lastn n l = l.
Proof. intros H. unfold lastn. replace (length l - n) with 0 by lia. reflexivity. Qed.
Lemma lastn_length {A} n (l : list A) : n <= length l -> length (lastn n l) = n.
Proof. intros H. unfold lastn. rewrite skipn_length. lia. Qed.

Lemma multiples m : filter (fun k => (k mod 100 =? 0) && (50 <? k)) (seq 1 m) = map (fun k => 100 * S k) (seq 0 (m / 100)).
Proof.
  induction m as [|m IH]; [reflexivity|].
  rewrite (seq_S m 1); change (1 + m) with (S m).
  rewrite filter_app, IH. cbn [filter].
  assert (E := Nat.div_mod (S m) 100 ltac:(lia)). assert (B := Nat.mod_upper_bound (S m) 100 ltac:(lia)).
  destruct (Nat.eqb_spec (S m mod 100) 0) as [Z|Z].
  - assert (Q : S m / 100 = S (m / 100)).
    { destruct (S m / 100) as [|q]; [lia|]. f_equal. apply (Nat.div_unique m 100 q 99); lia. }
    rewrite Q in *. destruct (Nat.ltb_spec 50 (S m)); [|lia]. cbn [andb].
    rewrite seq_S, map_app. cbn [map]. f_equal. f_equal. lia.
  - cbn [andb]. rewrite app_nil_r. do 2 f_equal. symmetry.
    apply (Nat.div_unique (m) 100 (S m / 100) (S m mod 100 - 1)); lia.
Qed.
Lemma filter_filter {A} (f g : A -> bool) l : filter f (filter g l) = filter (fun x => f x && g x) l.
Proof. induction l as [|x l IH]; auto. cbn. destruct (g x); cbn; [destruct (f x); cbn; now rewrite IH|now rewrite andb_false_r]. Qed.

(* ---- the first smallest element *)
Lemma min_pos_spec l : l <> [] -> exists i m, min_pos l = Some (i, m) /\ nth_error l i = Some m /\
  forall j x, nth_error l j = Some x -> (m <= x)%Z /\ (x = m -> i <= j).
Proof.
  induction l as [|y l IH]; [easy|]. intros _. cbn [min_pos]. destruct l as [|z l].
  - exists 0, y. cbn. split; auto. split; auto. intros [|[|j]] x H; cbn in H; try discriminate. injection H as <-. lia.
  - destruct IH as (i & m & -> & N & M); [easy|]. destruct (Z.ltb_spec m y).
    + exists (S i), m. split; auto. split; auto. intros [|j] x Hx; cbn in Hx; [injection Hx as <-; lia|].
      destruct (M j x Hx). split; auto. intros E. specialize (H1 E). lia.
    + exists 0, y. split; auto. split; auto. intros [|j] x Hx; [injection Hx as <-; lia|]. destruct (M j x Hx). split; lia.
Qed.

Section Windows.
  Variable dist : list Z -> list Z -> Z.
  Variables atoi atof : string -> Z.
  Variable srt : list wsimp -> list wsimp.
  Variable past_end : list nat -> nat -> res nat.
  Variable al_reduce : wgraph -> res wgraph.
  Hypothesis Hs : is_sort srt.
  Hypothesis Hpos : forall x y, (0 <= dist x y)%Z.

  (* ---- building the tree *)
  Lemma total_perm (a b : wgraph) : length a = length b -> (forall k, Permutation (level a k) (level b k)) -> length (concat a) = length (concat b).
  Proof.
    revert b. induction a as [|x a IH]; intros [|y b] L P; try discriminate; auto. cbn. rewrite !List.app_length.
    rewrite (Permutation_length (P 0) : length x = length y). f_equal. apply IH; [now injection L|]. intros k. exact (P (S k)).
  Qed.

  Lemma tree_holds data eps dim nc0 dm : data <> [] -> upper_triangle dm (length data) ->
    (forall u v, u < v -> v < length data -> dist_of dm u v = separation dist data u v) -> dm <> [] -> (0 < dim < 2 ^ 31 - 1)%Z ->
    exists t, st_run eps dim (Ok tt) srt (st_new dm nc0) (repeat TInsert (length data)) = Ok t /\ st_dm t = dm /\
      complex (fst (st_getAllEdges srt t)) /\ holds_rips srt dist data eps dim nc0 (CTree eps dim t).
  Proof.
    intros Hne U Sep Hd Hdim.
    destruct (run_inv eps dim dm nc0 srt (repeat TInsert (length data)) Hs) as (t & cb & E & V & Cb); [now apply legal_inserts|].
    destruct (tree_edges dm eps dim nc0 (length data) srt Hs Hd U Hdim) as (t' & E' & C & _ & R). rewrite E in E'. injection E' as <-.
    rewrite past_inserts in V by auto. cbn [p_dm p_before p_live] in V.
    exists t. split; auto. split; [apply V|]. split; auto. unfold holds_rips. cbn [cx_getAllEdges cx_vertexCount cx_simplexCount].
    destruct (st_getAllEdges srt t) as [edges t'] eqn:Eg. cbn [fst] in *. split; [eapply lists_rips_ext; [exact Sep|exact R]|]. split.
    - assert (NG : legal dm (repeat TInsert (length data))) by now apply legal_inserts.
      destruct (tree_counts eps dim dm nc0 srt _ t Hs NG E) as (Vc & _). rewrite past_inserts in Vc by auto. now f_equal.
    - unfold st_simplexCount. rewrite (v_cnt _ _ _ _ _ _ _ V), Cb.
      2:{ intros H. apply repeat_spec in H. discriminate. }
      unfold TreeHist.total. do 2 f_equal.
      assert (Lg := legal_inserts dm (length data) U Hd).
      assert (NG : ~ In TGetAll (repeat TInsert (length data))) by (intros H; apply repeat_spec in H; discriminate).
      destruct (first_getAllEdges eps dim dm nc0 srt _ t Hs Lg NG E) as (G1 & _). rewrite Eg in G1. cbn [fst] in G1.
      symmetry. apply total_perm; [|intros k; apply G1].
      unfold st_getAllEdges in Eg. destruct (st_isSorted t); injection Eg as <- _; auto. now rewrite map_length.
  Qed.

  Lemma separation_pos data u v : (0 <= separation dist data u v)%Z.
  Proof. unfold separation. destruct (nth_error data u), (nth_error data v); auto; lia. Qed.

  Lemma sub_component args functs k fuel p : newPipe (curFunct functs) "simplexTree" = Some k ->
    (forall o, In o (pipe_required k) -> mget args o <> None) ->
    sub_loop dist atoi atof srt past_end al_reduce (S fuel) args functs p =
      do p1 <- run_sub_pipe dist atoi atof srt past_end al_reduce k args p; do p2 <- add_stats k p1;
      sub_loop dist atoi atof srt past_end al_reduce fuel args (pipeRest functs) p2.
  Proof.
    intros E R. cbn [sub_loop]. rewrite E. unfold configPipe. rewrite (forallb_keys args _ R). unfold runPipeWrapper. cbn [negb].
    destruct (run_sub_pipe dist atoi atof srt past_end al_reduce k args p) as [p1|]; cbn [bind]; auto.
  Qed.

  Definition keeps (p q : packet) : Prop := pk_data q = pk_data p /\ pk_output q = pk_output p /\ pk_table q = pk_table p.

  (* distMatrix.neighGraph on a window. *)
  Lemma build_parts args d e : mget args "dimensions" = Some d -> mget args "epsilon" = Some e -> forall p, pk_data p <> [] ->
    sub_pipeline dist atoi atof srt past_end al_reduce args "distMatrix.neighGraph" p =
      do p1 <- run_distMatrix dist atof args p; do p2 <- add_stats KDistMatrix p1;
      do p3 <- run_neighGraph args p2; add_stats KNeighGraph p3.
  Proof.
    intros Hd He p N. unfold sub_pipeline. destruct (pk_data p) eqn:Ep; [easy|]. clear N.
    change (count_char "."%char "distMatrix.neighGraph" + 1) with 2.
    rewrite (sub_component args "distMatrix.neighGraph" KDistMatrix) by (try reflexivity; intros o [<-|[]]; congruence).
    change (pipeRest "distMatrix.neighGraph") with "neighGraph"%string. cbn [run_sub_pipe run_pipe].
    change (run_sub_pipe dist atoi atof srt past_end al_reduce KDistMatrix args p) with (run_distMatrix dist atof args p).
    destruct (run_distMatrix dist atof args p) as [p1|]; cbn [bind]; auto.
    destruct (add_stats KDistMatrix p1) as [p2|]; cbn [bind]; auto.
    rewrite (sub_component args "neighGraph" KNeighGraph) by (try reflexivity; intros o [<-|[<-|[]]]; congruence).
    change (run_sub_pipe dist atoi atof srt past_end al_reduce KNeighGraph args p2) with (run_neighGraph args p2).
    destruct (run_neighGraph args p2) as [p3|]; cbn [bind]; auto.
    destruct (add_stats KNeighGraph p3) as [p4|]; cbn [bind]; auto.
  Qed.

  (* The matrix of the distances. *)
  Lemma matrix data eps ws : (forall x, In x data -> x <> []) -> exists dm ws',
    distMatrix_run (list Z) (fun v => match v with [] => true | _ => false end) dist eps data ws = Ok (dm, ws') /\
    length dm = length data /\ upper_triangle dm (length data) /\
    forall u v, u < v -> v < length data -> dist_of dm u v = separation dist data u v.
  Proof.
    intros Hne. assert (M : exists dm ws', distMatrix_run (list Z) (fun v => match v with [] => true | _ => false end) dist eps data ws = Ok (dm, ws') /\
      length dm = length data /\ (forall i, i < length data -> length (nth i dm []) = length data) /\
      (forall i j x y, nth_error data i = Some x -> nth_error data j = Some y ->
       nth j (nth i dm []) 0%Z = if (i <? j) && negb (match x with [] => true | _ => false end) then dist x y else 0%Z)).
    { (* the weights do not matter for the matrix *)
      destruct (distMatrix_spec (list Z) (fun v => match v with [] => true | _ => false end) dist eps data []) as (dm & w0 & E & L1 & L2 & V & _); [constructor|].
      assert (W : forall (ws1 ws2 : list Z), forall m1 l i st, foldr_ub (fun st '(i, x) => if match x with [] => true | _ => false end then Ok st else dm_row (list Z) dist eps data i x st) (m1, ws1) (enum i l) = Ok st ->
         exists ws', foldr_ub (fun st '(i, x) => if match x with [] => true | _ => false end then Ok st else dm_row (list Z) dist eps data i x st) (m1, ws2) (enum i l) = Ok (fst st, ws')).
      { assert (R : forall i x l m1 ws1 ws2 st, foldr_ub (fun '(m, ws) j => do y <- at_ data j; do m' <- set2 m i j (dist x y); Ok (m', if (dist x y <? eps)%Z then dinsert (dist x y) ws else ws)) (m1, ws1) l = Ok st ->
          exists ws', foldr_ub (fun '(m, ws) j => do y <- at_ data j; do m' <- set2 m i j (dist x y); Ok (m', if (dist x y <? eps)%Z then dinsert (dist x y) ws else ws)) (m1, ws2) l = Ok (fst st, ws')).
        { intros i x l. induction l as [|j l IH]; intros m1 ws1 ws2 st H; cbn [foldr_ub] in *; [injection H as <-; eexists; reflexivity|].
          destruct (at_ data j) as [y|]; [|discriminate]. cbn [bind] in *. destruct (set2 m1 i j (dist x y)) as [m'|]; [|discriminate]. cbn [bind] in *. eapply IH. exact H. }
        intros ws1 ws2 m1 l. revert m1 ws1 ws2. induction l as [|x l IH]; intros m1 ws1 ws2 i st H; cbn [enum foldr_ub] in *; [injection H as <-; eexists; reflexivity|].
        destruct (match x with [] => true | _ => false end); cbn [bind] in *; [eapply IH; exact H|].
        destruct (dm_row (list Z) dist eps data i x (m1, ws1)) as [[m2 w2]|] eqn:Er; [|discriminate]. cbn [bind] in H.
        destruct (R i x (seq (i + 1) (length data - (i + 1))) m1 ws1 ws2 (m2, w2) Er) as (w3 & E3). unfold dm_row at 1. cbv zeta. rewrite E3. cbn [bind fst]. eapply IH. exact H. }
      unfold distMatrix_run in E |- *. destruct (foldr_ub _ _ _) as [[m1 w1]|] eqn:Ef in E; [|discriminate]. cbn [bind fst snd] in E. injection E as E1 E2.
      destruct (W _ ws _ _ _ _ Ef) as (w2 & E3). rewrite E3. cbn [bind fst snd]. subst m1. eauto 8. }
    destruct M as (dm & ws' & E & L1 & L2 & V). exists dm, ws'. split; auto. split; auto.
    assert (Sep : forall u v, u < v -> v < length data -> dist_of dm u v = separation dist data u v).
    { intros u v Huv Hv. unfold dist_of, separation. destruct (nth_error data u) as [x|] eqn:Eu; [|apply nth_error_None in Eu; lia].
      destruct (nth_error data v) as [y|] eqn:Ev; [|apply nth_error_None in Ev; lia]. rewrite (V u v x y Eu Ev).
      destruct (Nat.ltb_spec u v); [|lia]. destruct x; [|reflexivity]. exfalso. apply nth_error_In in Eu. now apply (Hne []). }
    split; auto. intros u v Huv Hv. rewrite (L2 u) by lia. split; auto. rewrite Sep by auto. apply separation_pos.
  Qed.

  Lemma build_tree args d e nc0 p w : mget args "dimensions" = Some d -> mget args "epsilon" = Some e ->
    pk_complex p = Some (CTree (atof e) (atoi d) (st_new [] nc0)) -> w <> [] -> (forall x, In x w -> x <> []) -> (0 < atoi d < 2 ^ 31 - 1)%Z ->
    exists q c, sub_pipeline dist atoi atof srt past_end al_reduce args "distMatrix.neighGraph" (set_data p w) = Ok q /\
      pk_complex q = Some c /\ keeps (set_data p w) q /\ holds_rips srt dist w (atof e) (atoi d) nc0 c /\ exists t, c = CTree (atof e) (atoi d) t.
  Proof.
    intros Hd He Hc Hw Hne Hdim. rewrite (build_parts args d e Hd He) by exact Hw.
    destruct (matrix w (atof e) (pk_weights p) Hne) as (dm & ws & E & L & U & Sep).
    unfold run_distMatrix, opt. rewrite He. cbn [pk_data pk_weights set_data]. rewrite E. cbn [bind]. unfold PipeModel.deref at 1. cbn [set_data pk_complex]. rewrite Hc. cbn [bind fst snd cx_setDistanceMatrix].
    change (st_setDistanceMatrix dm (st_new [] nc0)) with (st_new dm nc0).
    assert (Hdm : dm <> []) by (intros ->; destruct w; [easy|discriminate]).
    destruct (tree_holds w (atof e) (atoi d) nc0 dm Hw U Sep Hdm Hdim) as (t & T1 & _ & _ & T2).
    match goal with |- context [add_stats KDistMatrix ?p] => destruct (stats_ok KDistMatrix p _ eq_refl) as (p2 & -> & C2 & D2 & O2 & B2) end.
    cbn [bind pk_data pk_output pk_table] in *. unfold run_neighGraph. rewrite D2.
    rewrite (neigh_tree srt _ _ _ _ _ C2 Hne), T1. cbn [rmap bind].
    match goal with |- context [add_stats KNeighGraph ?p] => destruct (stats_ok KNeighGraph p _ eq_refl) as (p4 & -> & C4 & D4 & O4 & B4) end.
    exists p4, (CTree (atof e) (atoi d) t). split; auto. split; auto. cbn in *. split; [|split; eauto]. unfold keeps. cbn. repeat split; congruence.
  Qed.

  Lemma build_array args d e dm0 p w : mget args "dimensions" = Some d -> mget args "epsilon" = Some e ->
    pk_complex p = Some (CArray (atof e) (atoi d) dm0 []) -> w <> [] -> (forall x, In x w -> x <> []) -> (0 < atoi d < 2 ^ 31 - 1)%Z ->
    exists q dm wg, sub_pipeline dist atoi atof srt past_end al_reduce args "distMatrix.neighGraph" (set_data p w) = Ok q /\
      pk_complex q = Some (CArray (atof e) (atoi d) dm wg) /\ keeps (set_data p w) q.
  Proof.
    intros Hd He Hc Hw Hne Hdim. rewrite (build_parts args d e Hd He) by exact Hw.
    destruct (matrix w (atof e) (pk_weights p) Hne) as (dm & ws & E & L & U & Sep).
    unfold run_distMatrix, opt. rewrite He. cbn [pk_data pk_weights set_data]. rewrite E. cbn [bind]. unfold PipeModel.deref at 1. cbn [set_data pk_complex]. rewrite Hc. cbn [bind fst snd cx_setDistanceMatrix].
    destruct (array_list_edges dm (atof e) (atoi d) (length w) srt (atof e) Hs U Hdim) as (wg & W1 & _).
    unfold al_run in W1. rewrite foldr_ub_app in W1.
    destruct (foldr_ub (al_step dm (atof e) (atoi d)) [] (repeat (OpInsert false) (length w))) as [wg1|] eqn:E1; [|discriminate].
    match goal with |- context [add_stats KDistMatrix ?p] => destruct (stats_ok KDistMatrix p _ eq_refl) as (p2 & -> & C2 & D2 & O2 & B2) end.
    cbn [bind pk_data pk_output pk_table] in *. unfold run_neighGraph. rewrite D2.
    rewrite (neigh_array _ _ _ _ _ _ C2 Hne), E1. cbn [rmap bind].
    match goal with |- context [add_stats KNeighGraph ?p] => destruct (stats_ok KNeighGraph p _ eq_refl) as (p4 & -> & C4 & D4 & O4 & B4) end.
    exists p4, dm, wg1. split; auto. split; auto. cbn in *. unfold keeps. cbn. repeat split; congruence.
  Qed.

  (* ---- naiveWindow *)
  Lemma deref_some p c : pk_complex p = Some c -> PipeModel.deref p = Ok c.
  Proof. unfold PipeModel.deref. now intros ->. Qed.
  Lemma report_some n p c : pk_complex p = Some c -> report_of n p = Ok (n, cx_simplexCount c, cx_vertexCount c).
  Proof. intros H. unfold report_of. now rewrite (deref_some _ _ H). Qed.

  Definition slot (m : nat) (rows : list (list Z)) : list (list Z) := firstn 50 (skipn (100 * (m / 100) - 50) rows).
  Definition marks (m : nat) : list nat := filter (fun k => (k mod 100 =? 0) && (50 <? k)) (seq 1 m).
  Lemma marks_S m : marks (S m) = marks m ++ (if (S m mod 100 =? 0) && (50 <? S m) then [S m] else []).
  Proof.
    unfold marks. rewrite (seq_S m 1); change (1 + m) with (S m).
    now rewrite filter_app.
  Qed.

  Lemma slot_keep m rows x : length rows = m -> 50 <= m -> S m mod 100 <> 0 -> slot (S m) (rows ++ [x]) = slot m rows.
  Proof.
    intros L M N. unfold slot. assert (E := Nat.div_mod (S m) 100 ltac:(lia)). assert (B := Nat.mod_upper_bound (S m) 100 ltac:(lia)).
    assert (Q : S m / 100 = m / 100). { apply (Nat.div_unique m 100 (S m / 100) (S m mod 100 - 1)); lia. }
    rewrite Q. assert (E' := Nat.div_mod m 100 ltac:(lia)). rewrite skipn_app, firstn_app, skipn_length.
    match goal with |- _ ++ firstn ?k _ = _ => replace k with 0 by lia end. cbn. apply app_nil_r.
  Qed.
  Lemma slot_new m rows : length rows = m -> 50 <= m -> m mod 100 = 0 -> slot m rows = lastn 50 rows.
  Proof.
    intros L M N. unfold slot, lastn. assert (E := Nat.div_mod m 100 ltac:(lia)). rewrite N, Nat.add_0_r in E. rewrite <- E, L.
    apply firstn_all2. rewrite skipn_length. lia.
  Qed.
  Lemma marks_small m : m <= 50 -> marks m = [].
  Proof.
    intros M. unfold marks. assert (H : forall l, (forall k, In k l -> k <= 50) -> filter (fun k => (k mod 100 =? 0) && (50 <? k)) l = []).
    { induction l as [|k l IH]; intros H; auto. cbn. destruct (Nat.ltb_spec 50 k); [specialize (H k (or_introl eq_refl)); lia|].
      rewrite andb_false_r. apply IH. intros; apply H; now right. }
    apply H. intros k Hk. apply in_seq in Hk. lia.
  Qed.

  Section Naive.
    Variables (args : amap) (d e : string) (nc0 : Z) (p : packet).
    Hypothesis Hd : mget args "dimensions" = Some d.
    Hypothesis He : mget args "epsilon" = Some e.
    Hypothesis Hdim : (0 < atoi d < 2 ^ 31 - 1)%Z.
    Notation step := (naive_step dist atoi atof srt past_end al_reduce args).

    Section NTree.
      Hypothesis Hc : pk_complex p = Some (CTree (atof e) (atoi d) (st_new [] nc0)).
      Lemma naive_fold rows : (forall x, In x rows -> x <> []) ->
        exists s, foldr_ub step (mkNaive [] p 1 []) rows = Ok s /\ nw_window s = lastn 50 rows /\ nw_counter s = S (length rows) /\
          (length rows < 50 -> nw_packet s = p /\ nw_reports s = []) /\
          (50 <= length rows -> exists c t, pk_complex (nw_packet s) = Some c /\ c = CTree (atof e) (atoi d) t /\
             holds_rips srt dist (firstn 50 rows) (atof e) (atoi d) nc0 c /\ pk_output (nw_packet s) = pk_output p /\ pk_table (nw_packet s) = pk_table p /\
             pk_data (nw_packet s) = slot (length rows) rows /\
             nw_reports s = map (fun k => (k, cx_simplexCount c, cx_vertexCount c)) (marks (length rows))).
      Proof.
        induction rows as [|x rows IH] using rev_ind; intros Hne.
        - exists (mkNaive [] p 1 []). cbn. repeat split; auto; lia.
        - assert (Hne' : forall y, In y rows -> y <> []) by (intros y Hy; apply Hne, in_or_app; now left).
          destruct (IH Hne') as ([w q n reps] & E & W & N & S1 & S2). cbn [nw_window nw_counter nw_packet nw_reports] in *. subst w n.
          rewrite foldr_ub_app, E. cbn [bind foldr_ub]. unfold naive_step. cbn [nw_window nw_counter nw_packet nw_reports].
          rewrite (List.app_length rows [x]). cbn [length]. rewrite Nat.add_1_r. set (m := length rows) in *.
          destruct (Nat.lt_ge_cases m 50) as [M|M].
          + destruct (S1 M) as [-> ->]. rewrite (lastn_all 50 rows) by lia. destruct (Nat.ltb_spec (length rows) 50); [|lia].
            rewrite List.app_length. cbn [length]. rewrite Nat.add_1_r. fold m.
            replace ((S m mod 100 =? 0) && (50 <? S m)) with false by (destruct (Nat.ltb_spec 50 (S m)); [lia|now rewrite andb_false_r]).
            destruct (Nat.eqb_spec (S m) 50) as [Q|Q].
            * destruct (build_tree args d e nc0 p (rows ++ [x]) Hd He Hc) as (q & c & B1 & B2 & (K1 & K2 & K3) & B3 & t & B4); auto; [destruct rows; discriminate|].
              rewrite B1. cbn [bind]. rewrite (deref_some _ _ B2). cbn [bind].
              eexists. split; [reflexivity|]. cbn [nw_window nw_counter nw_packet nw_reports]. rewrite lastn_all by (rewrite List.app_length; cbn; lia).
              split; auto. split; auto. split; [lia|]. intros _. exists c, t. rewrite firstn_all2 by (rewrite List.app_length; cbn; lia).
              rewrite marks_small by lia. cbn in K1, K2, K3. split; [auto|]. split; [auto|]. split; [auto|]. split; [auto|]. split; [auto|]. split; [|auto].
              rewrite K1, Q. unfold slot. change (100 * (50 / 100) - 50) with 0. cbn [skipn]. rewrite firstn_all2; auto. rewrite List.app_length. cbn [length]. lia.
            * cbn [bind]. eexists. split; [reflexivity|]. cbn [nw_window nw_counter nw_packet nw_reports]. rewrite lastn_all by (rewrite List.app_length; cbn; lia).
              repeat split; auto; lia.
          + destruct (S2 M) as (c & t & Q1 & -> & Q2 & Q3 & Q4 & Q5 & Q6). rewrite lastn_length by auto. destruct (Nat.ltb_spec 50 50); [lia|].
            rewrite (deref_some _ _ Q1). cbn [bind naive_insertIterative]. rewrite lastn_snoc by lia.
            assert (F : firstn 50 (rows ++ [x]) = firstn 50 rows).
            { rewrite firstn_app. fold m. replace (50 - m) with 0 by lia. cbn. apply app_nil_r. }
            destruct ((S m mod 100 =? 0) && (50 <? S m)) eqn:T.
            * apply andb_true_iff in T as [T1 T2]. apply Nat.eqb_eq in T1. apply Nat.ltb_lt in T2.
              rewrite (report_some _ _ _ Q1). cbn [bind]. eexists. split; [reflexivity|]. cbn [nw_window nw_counter nw_packet nw_reports].
              split; auto. split; auto. split; [lia|]. intros _. exists (CTree (atof e) (atoi d) t), t. rewrite F. cbn [pk_complex pk_output pk_table pk_data set_data].
              split; auto. split; auto. split; auto. split; auto. split; auto. split.
              -- symmetry. apply slot_new; try lia. rewrite List.app_length. cbn [length]. lia.
              -- rewrite marks_S, T1, map_app, Q6. destruct (Nat.ltb_spec 50 (S m)); [|lia]. reflexivity.
            * eexists. split; [reflexivity|]. cbn [nw_window nw_counter nw_packet nw_reports].
              split; auto. split; auto. split; [lia|]. intros _. exists (CTree (atof e) (atoi d) t), t. rewrite F.
              assert (T' : S m mod 100 <> 0).
              { intros T'. rewrite T' in T. destruct (Nat.ltb_spec 50 (S m)); [discriminate|lia]. }
              rewrite marks_S, T, app_nil_r. rewrite slot_keep by auto. do 6 (split; [auto|]). auto.
      Qed.
    End NTree.
    Section NArray.
      Hypothesis Hc : pk_complex p = Some (CArray (atof e) (atoi d) [] []).
      Lemma naive_fold_array rows : (forall x, In x rows -> x <> []) ->
        exists s c, foldr_ub step (mkNaive [] p 1 []) rows = Ok s /\ nw_window s = firstn 50 rows /\ nw_counter s = S (length rows) /\
          pk_complex (nw_packet s) = Some c /\ (length rows < 50 -> nw_packet s = p) /\ (exists dm wg, c = CArray (atof e) (atoi d) dm wg) /\
          pk_output (nw_packet s) = pk_output p.
      Proof.
        induction rows as [|x rows IH] using rev_ind; intros Hne.
        - exists (mkNaive [] p 1 []), (CArray (atof e) (atoi d) [] []). cbn. repeat split; eauto.
        - assert (Hne' : forall y, In y rows -> y <> []) by (intros y Hy; apply Hne, in_or_app; now left).
          destruct (IH Hne') as ([w q n reps] & c & E & W & N & C & S1 & (dm & wg & S2) & S3). cbn [nw_window nw_counter nw_packet nw_reports] in *. subst w n.
          rewrite foldr_ub_app, E. cbn [bind foldr_ub]. unfold naive_step. cbn [nw_window nw_counter nw_packet nw_reports].
          rewrite (List.app_length rows [x]). cbn [length]. rewrite Nat.add_1_r. rewrite firstn_length. set (m := length rows) in *.
          assert (X : exists q' c', (if Nat.min 50 m <? 50 then
                let w := (firstn 50 rows ++ [x])%list in
                if length w =? 50 then
                  do p <- sub_pipeline dist atoi atof srt past_end al_reduce args "distMatrix.neighGraph" (set_data q w);
                  do _ <- PipeModel.deref p; Ok (w, p)
                else Ok (w, q)
              else
                do c <- PipeModel.deref q;
                if naive_insertIterative c then Ok ((tl (firstn 50 rows) ++ [x])%list, q)
                else Ok (firstn 50 rows, q)) = Ok (firstn 50 (rows ++ [x]), q') /\ pk_complex q' = Some c' /\ (S m < 50 -> q' = p) /\
                (exists dm wg, c' = CArray (atof e) (atoi d) dm wg) /\ pk_output q' = pk_output p).
          { destruct (Nat.lt_ge_cases m 50) as [M|M].
            - rewrite (S1 M) in *. replace (Nat.min 50 m) with m by lia. destruct (Nat.ltb_spec m 50); [|lia]. cbv zeta.
              rewrite (firstn_all2 rows) by (fold m; lia). rewrite List.app_length. cbn [length]. rewrite Nat.add_1_r. fold m.
              rewrite (firstn_all2 (rows ++ [x])) by (rewrite List.app_length; fold m; cbn [length]; lia).
              destruct (Nat.eqb_spec (S m) 50) as [Q|Q].
              + destruct (build_array args d e [] p (rows ++ [x]) Hd He Hc) as (q1 & dm1 & wg1 & B1 & B2 & (K1 & K2 & K3)); auto; [destruct rows; discriminate|].
                rewrite B1. cbn [bind]. rewrite (deref_some _ _ B2). cbn [bind]. exists q1, (CArray (atof e) (atoi d) dm1 wg1). repeat split; eauto. lia.
              + exists p, c. subst c. repeat split; eauto.
            - replace (Nat.min 50 m) with 50 by lia. destruct (Nat.ltb_spec 50 50); [lia|].
              rewrite (deref_some _ _ C). cbn [bind]. subst c. cbn [naive_insertIterative]. exists q, (CArray (atof e) (atoi d) dm wg).
              split; [|repeat split; eauto; lia]. do 2 f_equal. rewrite firstn_app. fold m. replace (50 - m) with 0 by lia. cbn [firstn]. now rewrite app_nil_r. }
          destruct X as (q' & c' & X1 & X2 & X3 & X4 & X5). cbv zeta in X1 |- *. rewrite X1. cbn [bind].
          destruct ((S m mod 100 =? 0) && (50 <? S m)) eqn:T.
          + rewrite (report_some _ _ _ X2). cbn [bind]. eexists _, c'. split; [reflexivity|]. cbn. repeat split; auto.
            intros M. apply andb_true_iff in T as [_ T]. apply Nat.ltb_lt in T. lia.
          + eexists _, c'. split; [reflexivity|]. cbn. repeat split; auto.
      Qed.
    End NArray.
  End Naive.

  Lemma new_tree args d e nc0 csv p : tree_options args d e -> new_packet atoi atof nc0 args csv = Ok p ->
    pk_complex p = Some (CTree (atof e) (atoi d) (st_new [] nc0)) /\ pk_output p = [] /\ pk_data p = csv.
  Proof.
    intros [H1 H2 H3] E. unfold new_packet, newSimplex, opt in E. rewrite H1, H2, H3 in E.
    change (String.eqb "simplexTree" "simplexTree") with true in E. cbn [bind] in E. injection E as <-. auto.
  Qed.
  Lemma printed_marks m : printed m = marks m ++ (if m mod 100 =? 0 then [] else [m + 1]).
  Proof. unfold printed, marks. now rewrite multiples. Qed.

  Theorem naive_tree args d e nc0 csv p rows : tree_options args d e -> (0 < atoi d < 2 ^ 31 - 1)%Z ->
    new_packet atoi atof nc0 args csv = Ok p -> (forall x, In x rows -> x <> []) ->
    exists p' reports, naive_run dist atoi atof srt past_end al_reduce args (Some rows) p = Ok (p', lastn 50 rows, reports) /\
      pk_output p' = [] /\ map (fun r => fst (fst r)) reports = printed (length rows) /\
      (length rows < 50 -> p' = p) /\
      (50 <= length rows -> pk_data p' = slot (length rows) rows /\
         exists c, pk_complex p' = Some c /\ holds_rips srt dist (firstn 50 rows) (atof e) (atoi d) nc0 c /\
           forall r, In r reports -> snd (fst r) = cx_simplexCount c /\ snd r = 50%Z).
  Proof.
    intros O Hdim Hp Hne. destruct (new_tree _ _ _ _ _ _ O Hp) as (Hc & Ho & _). destruct O as [_ Hd He].
    destruct (naive_fold args d e nc0 p Hd He Hdim Hc rows Hne) as ([w q n reps] & E & W & N & S1 & S2). cbn [nw_window nw_counter nw_packet nw_reports] in *. subst w n.
    unfold naive_run. rewrite E. cbn [bind nw_window nw_counter nw_packet nw_reports]. replace (S (length rows) - 1) with (length rows) by lia.
    rewrite printed_marks.
    destruct (Nat.lt_ge_cases (length rows) 50) as [M|M].
    - destruct (S1 M) as [-> ->]. rewrite marks_small by lia. rewrite (report_some _ _ _ Hc). rewrite (deref_some _ _ Hc). cbn [bind app].
      destruct (length rows mod 100 =? 0); cbn [negb bind]; (eexists _, _; split; [reflexivity|]; split; [auto|]; split; [cbn; rewrite ?Nat.add_1_r; reflexivity|]; split; [auto|lia]).
    - destruct (S2 M) as (c & t & Q1 & -> & Q2 & Q3 & Q4 & Q5 & Q6). subst reps. rewrite (report_some _ _ _ Q1), (deref_some _ _ Q1). cbn [bind].
      assert (V : cx_vertexCount (CTree (atof e) (atoi d) t) = 50%Z) by (destruct Q2 as (_ & -> & _); rewrite firstn_length; lia).
      assert (R : forall l r, In r (map (fun k : nat => (k, cx_simplexCount (CTree (atof e) (atoi d) t), cx_vertexCount (CTree (atof e) (atoi d) t))) l) ->
        snd (fst r) = cx_simplexCount (CTree (atof e) (atoi d) t) /\ snd r = 50%Z).
      { intros l r H. apply in_map_iff in H as (k & <- & _). cbn [fst snd]. auto. }
      assert (F : forall l, map (fun r : report => fst (fst r)) (map (fun k : nat => (k, cx_simplexCount (CTree (atof e) (atoi d) t), cx_vertexCount (CTree (atof e) (atoi d) t))) l) = l).
      { intros l. rewrite map_map. cbn [fst]. apply map_id. }
      destruct (length rows mod 100 =? 0); cbn [negb bind].
      + eexists _, _. split; [reflexivity|]. split; [congruence|]. split; [rewrite app_nil_r; apply F|]. split; [lia|]. intros _. split; auto.
        exists (CTree (atof e) (atoi d) t). split; auto. split; auto. apply R.
      + eexists _, _. split; [reflexivity|]. split; [congruence|]. split; [rewrite map_app, F; cbn; now rewrite Nat.add_1_r|]. split; [lia|]. intros _. split; auto.
        exists (CTree (atof e) (atoi d) t). split; auto. split; auto. intros r H. apply in_app_or in H as [H|[<-|[]]]; [now apply R in H|]. cbn [fst snd]. auto.
  Qed.

  Theorem naive_array args d e nc0 csv p rows : mget args "complexType" = Some "simplexArrayList"%string ->
    mget args "dimensions" = Some d -> mget args "epsilon" = Some e -> (0 < atoi d < 2 ^ 31 - 1)%Z ->
    new_packet atoi atof nc0 args csv = Ok p -> (forall x, In x rows -> x <> []) ->
    exists p' reports, naive_run dist atoi atof srt past_end al_reduce args (Some rows) p = Ok (p', firstn 50 rows, reports) /\ pk_output p' = [].
  Proof.
    intros H1 Hd He Hdim Hp Hne. unfold new_packet, newSimplex, opt in Hp. rewrite H1, Hd, He in Hp.
    change (String.eqb "simplexArrayList" "simplexTree") with false in Hp. change (String.eqb "simplexArrayList" "simplexArrayList") with true in Hp. cbn [bind] in Hp. injection Hp as <-.
    match goal with |- context [naive_run _ _ _ _ _ _ _ _ ?q] =>
      destruct (naive_fold_array args d e q Hd He Hdim eq_refl rows Hne) as ([w q1 n reps] & c & E & W & N & C & S1 & S2 & S3) end.
    cbn [nw_window nw_counter nw_packet nw_reports] in *. subst w n.
    unfold naive_run. rewrite E. cbn [bind nw_window nw_counter nw_packet nw_reports]. rewrite (report_some _ _ _ C), (deref_some _ _ C). cbn [bind].
    destruct (negb _); cbn [bind]; eexists _, _; (split; [reflexivity|]); cbn in S3; auto.
  Qed.
End Windows.
