(* FastRuns.v -- whole runs of fastPersistence: what holds for any value read past the end, what libstdc++
   gives, and the Betti curve. *)
From Coq Require Import List Arith ZArith Bool Lia Sorted Permutation.
From Verif Require Import Base Spec UtilsModel UtilsProofs PartitionProofs ArrayListModel SpecComplex FastModel
  SpecGraph KruskalProofs SpecLinear LinearProofs SpecFast ReductionProofs FastProofs.
Import ListNotations.

(* ---- any run ---- *)
(* a reported bar: birth and death are weights of simplices of neighbouring dimensions, and differ *)
Definition real_bar (edges : wgraph) (l : nat * Z * Z) : Prop :=
  let '(d, b, e) := l in b <> e /\ In b (map snd (level edges d)) /\ In e (map snd (level edges (S d))).

Lemma col_step_any past_end d pivots rows cols : forall s s',
  foldr_ub (col_step past_end d pivots rows) s cols = Ok s' ->
  exists new newt, c_lines s' = c_lines s ++ new /\ c_tab s' = c_tab s ++ newt /\ map entry newt = new /\
    forall l, In l new -> exists b e, l = (d, b, e) /\ b <> e /\ In b (map snd rows) /\ In e (map snd cols).
Proof.
  induction cols as [|c cols IH]; intros s s' H.
  - injection H as <-. exists [], []. rewrite !app_nil_r. repeat split; auto. intros l [].
  - cbn [foldr_ub] in H. destruct (col_step past_end d pivots rows s c) as [s1|] eqn:E; [|discriminate]. cbn [bind] in H.
    destruct (IH s1 s' H) as (new & newt & H1 & H2 & H3 & H4). unfold col_step in E.
    destruct (cofaceList past_end pivots rows (fst c)) as [cof|]; [|discriminate]. cbn [bind] in E.
    assert (R : forall l, In l new -> exists b e, l = (d, b, e) /\ b <> e /\ In b (map snd rows) /\ In e (map snd (c :: cols))).
    { intros l Hl. destruct (H4 l Hl) as (b & e & Q1 & Q2 & Q3 & Q4). exists b, e. repeat split; auto. now right. }
    destruct (reduce (S (S (length rows))) (c_v s) cof) as [[[|p r]|]|]; try discriminate.
    + destruct (at_ rows p) as [row|] eqn:Er; [|discriminate]. cbn [bind] in E. injection E as <-. cbn in *.
      destruct (Z.eqb_spec (snd row) (snd c)) as [Ed|Ed]; cbn in *; [exists new, newt; auto|].
      rewrite <- app_assoc in H1, H2. cbn in H1, H2. exists ((d, snd row, snd c) :: new), (mkBetti d (snd row) (snd c) (p :: r) :: newt).
      cbn. rewrite H3. repeat split; auto. intros l [<-|Hl]; auto. exists (snd row), (snd c). repeat split; auto.
      apply in_map. unfold at_ in Er. destruct (nth_error rows p) eqn:En; [|discriminate]. injection Er as <-. eapply nth_error_In; eauto.
    + injection E as <-. cbn in *. exists new, newt. auto.
Qed.

Lemma at_level edges d l : at_ edges d = Ok l -> l = level edges d.
Proof. unfold at_, level. destruct (nth_error edges d) eqn:E; [|discriminate]. intros [= <-]. symmetry. now apply nth_error_nth. Qed.

Lemma dim_loop_any past_end edges : forall n d piv lines tab piv' lines' tab',
  dim_loop past_end n d edges (piv, lines, tab) = Ok (piv', lines', tab') ->
  exists new newt, lines' = lines ++ new /\ tab' = tab ++ newt /\ map entry newt = new /\
    forall l, In l new -> d <= fst (fst l) < d + n /\ real_bar edges l.
Proof.
  induction n as [|n IH]; intros d piv lines tab piv' lines' tab' H.
  - injection H as <- <- <-. exists [], []. rewrite !app_nil_r. repeat split; auto; now intros.
  - cbn [dim_loop] in H. destruct (at_ edges d) as [rows|] eqn:E1; [|discriminate]. cbn [bind] in H.
    destruct (at_ edges (S d)) as [cols|] eqn:E2; [|discriminate]. cbn [bind] in H.
    destruct (foldr_ub _ _ cols) as [s|] eqn:E3; [|discriminate]. cbn [bind] in H.
    apply at_level in E1, E2. subst rows cols.
    destruct (col_step_any _ _ _ _ _ _ _ E3) as (n1 & t1 & A1 & A2 & A3 & A4). cbn in A1, A2. rewrite A1, A2 in H.
    destruct (IH _ _ _ _ _ _ _ H) as (n2 & t2 & B1 & B2 & B3 & B4).
    exists (n1 ++ n2), (t1 ++ t2). rewrite !app_assoc, map_app, A3, B3. repeat split; auto;
      rename l into l0 || idtac; (match goal with H0 : In ?l (n1 ++ n2) |- _ => apply in_app_iff in H0 as [Hl|Hl] end;
        [destruct (A4 _ Hl) as (b & e & -> & Q1 & Q2 & Q3); cbn; try lia; auto|apply B4 in Hl as [Q1 Q2]; try lia; auto]).
Qed.

Theorem fp_any past_end dim eps edges tab lines tab' : 
  fp_run past_end dim eps edges tab = Ok (Some (lines, tab')) ->
  exists new newt, let k := kruskal (length (level edges 0)) (level edges 1) tab in
    2 <= length edges /\
    lines = map (fun w => (0, 0%Z, w)) (k_mst k) ++ [(0, 0%Z, eps)] ++ new /\
    tab' = k_tab k ++ [mkBetti 0 0 eps []] ++ newt /\ map entry newt = new /\
    forall l, In l new -> 1 <= fst (fst l) <= dims dim edges /\ real_bar edges l.
Proof.
  unfold fp_run. destruct edges as [|e0 edges']; [discriminate|]. set (edges := e0 :: edges').
  intros H. destruct (at_ edges 1) as [e1|] eqn:E1; [|discriminate]. cbn [bind] in H.
  assert (L2 : 2 <= length edges). { unfold at_ in E1. destruct (nth_error edges 1) eqn:En; [|discriminate]. assert (1 < length edges) by (apply nth_error_Some; congruence). lia. }
  apply at_level in E1. subst e1. change e0 with (level edges 0) in H.
  set (k := kruskal (length (level edges 0)) (level edges 1) tab) in *. cbn zeta in H.
  set (l0 := map (fun w => (0, 0%Z, w)) (k_mst k) ++ [(0, 0%Z, eps)]) in *. set (t0 := k_tab k ++ [mkBetti 0 0 eps []]) in *.
  assert (G : exists piv, dim_loop past_end (dims dim edges) 1 edges (k_piv k, l0, t0) = Ok (piv, lines, tab')).
  { unfold dims. destruct (Z.ltb_spec 0 dim).
    - destruct (dim_loop _ _ _ _ _) as [[[piv l1] t1]|]; [|discriminate]. injection H as -> ->. eauto.
    - injection H as <- <-. replace (Nat.min (Z.to_nat dim) (length edges - 1) - 1) with 0 by lia. cbn. eauto. }
  destruct G as (piv & G). destruct (dim_loop_any _ _ _ _ _ _ _ _ _ _ G) as (new & newt & A1 & A2 & A3 & A4).
  exists new, newt. cbn zeta. rewrite A1, A2. unfold l0, t0. rewrite <- !app_assoc. split; [exact L2|]. split; [reflexivity|]. split; [reflexivity|]. split; [exact A3|].
  intros l Hl. apply A4 in Hl as [Q1 Q2]. split; auto. lia.
Qed.

Lemma dim0_lines ws eps new : (forall l, In l new -> 1 <= fst (fst l)) ->
  dim0 (map (fun w => (0, 0%Z, w)) ws ++ [(0, 0%Z, eps)] ++ new) = map (fun w => (0, 0%Z, w)) ws ++ [(0, 0%Z, eps)].
Proof.
  intros H. unfold dim0. rewrite filter_app. f_equal.
  - induction ws as [|w ws IH]; cbn; auto. now rewrite IH.
  - cbn. f_equal. induction new as [|l new IH]; cbn; auto. assert (1 <= fst (fst l)) by (apply H; now left).
    destruct (Nat.eqb_spec (fst (fst l)) 0); [lia|]. apply IH. intros; apply H; now right.
Qed.

(* C17, C18, C53 *)
Theorem dim0_components past_end dim eps edges tab lines tab' :
  complex edges -> StronglySorted by_weight (level edges 1) ->
  fp_run past_end dim eps edges tab = Ok (Some (lines, tab')) ->
  exists deaths, dim0 lines = map (fun w => (0, 0%Z, w)) deaths ++ [(0, 0%Z, eps)] /\
    forall t c c', components (vertices edges) (up_to t (level edges 1)) c -> components (vertices edges) (level edges 1) c' ->
      count_le t deaths + c = length (vertices edges) /\
      length deaths + c' = length (vertices edges) /\
      length (filter (fun w => (t <? w)%Z) deaths) + c' = c.
Proof.
  intros C B H. destruct (complex_vertices _ C) as (EV & NV & LV & GV).
  destruct (fp_any _ _ _ _ _ _ _ H) as (new & newt & L2 & E1 & E2 & E3 & E4). cbn zeta in *. rewrite LV in *.
  assert (K := kruskal_spec _ (level edges 1) tab NV GV). cbn zeta in K.
  exists (k_mst (kruskal (length (vertices edges)) (level edges 1) tab)). rewrite E1. split.
  - apply dim0_lines. intros l Hl. apply E4 in Hl. lia.
  - intros t c c' Hc Hc'. assert (A := mst_counts _ _ tab t c NV GV B Hc).
    destruct (kfin_whole _ _ _ _ _ _ K) as (c2 & C2 & L). rewrite <- (components_unique _ _ _ _ C2 Hc').
    assert (Em := kf_mst _ _ _ _ _ _ K). apply (f_equal (@length _)) in Em. rewrite map_length in Em.
    set (m := k_mst _) in *. change (length (filter (fun w => (t <? w)%Z) m)) with (count_gt t m). assert (S := count_split t m). lia.
Qed.

Theorem dim0_forest past_end dim eps edges tab lines tab' :
  complex edges -> StronglySorted by_weight (level edges 1) ->
  fp_run past_end dim eps edges tab = Ok (Some (lines, tab')) ->
  exists piv, dim0 lines = map (fun i => (0, 0%Z, edge_weight (level edges 1) i)) piv ++ [(0, 0%Z, eps)] /\
    increasing piv /\ (forall i, In i piv <-> joins (level edges 1) i) /\
    spans (level edges 1) (edges_at (level edges 1) piv) /\
    (forall F t, spans (level edges 1) F ->
       length (filter (fun e => (t <? snd e)%Z) (edges_at (level edges 1) piv)) <= length (filter (fun e => (t <? snd e)%Z) F)) /\
    ((forall s w, In (s, w) (level edges 1) -> (0 <= w)%Z) -> forall F, spans (level edges 1) F ->
       (total_weight (map snd (edges_at (level edges 1) piv)) <= total_weight (map snd F))%Z).
Proof.
  intros C B H. destruct (complex_vertices _ C) as (EV & NV & LV & GV).
  destruct (fp_any _ _ _ _ _ _ _ H) as (new & newt & L2 & E1 & E2 & E3 & E4). cbn zeta in *. rewrite LV in *.
  assert (K := kruskal_spec _ (level edges 1) tab NV GV). cbn zeta in K. set (k := kruskal _ _ _) in *.
  assert (Em := kf_mst _ _ _ _ _ _ K).
  assert (Es : map snd (edges_at (level edges 1) (k_piv k)) = k_mst k).
  { rewrite Em. unfold edges_at. rewrite map_map. reflexivity. }
  exists (k_piv k). split; [|split; [|split; [|split; [|split]]]].
  - rewrite E1. rewrite dim0_lines by (intros l Hl; apply E4 in Hl; lia). rewrite Em at 1. now rewrite map_map.
  - apply K. - apply K.
  - split.
    + intros e He. apply in_map_iff in He as (i & <- & Hi). apply nth_In. apply joins_lt. now apply (kf_piv _ _ _ _ _ _ K).
    + intros u v. symmetry. apply (pivots_span _ _ GV); apply K.
  - intros F t S. assert (A := mst_dominated _ _ tab F t NV GV B S). fold k in A. rewrite <- Es in A. unfold count_gt in A.
    rewrite !filter_map_length in A. exact A.
  - intros P F S. rewrite Es. now apply (mst_minimal _ _ tab F NV GV B S).
Qed.

Theorem dim0_table past_end dim eps edges tab lines tab' :
  complex edges -> fp_run past_end dim eps edges tab = Ok (Some (lines, tab')) ->
  exists piv, dim0 lines = map (fun i => (0, 0%Z, edge_weight (level edges 1) i)) piv ++ [(0, 0%Z, eps)] /\
    exists new rest, tab' = tab ++ new ++ rest /\
      map (fun b => (bettiDim b, birth b, death b)) new =
        map (fun i => (0, 0%Z, edge_weight (level edges 1) i)) (filter (touches (level edges 1)) piv) ++ [(0, 0%Z, eps)] /\
      map (fun b => (bettiDim b, birth b, death b)) rest = filter (fun l => negb (fst (fst l) =? 0)) lines.
Proof.
  intros C H. destruct (complex_vertices _ C) as (EV & NV & LV & GV).
  destruct (fp_any _ _ _ _ _ _ _ H) as (new & newt & L2 & E1 & E2 & E3 & E4). cbn zeta in *. rewrite LV in *.
  assert (K := kruskal_spec _ (level edges 1) tab NV GV). cbn zeta in K. set (k := kruskal _ _ _) in *.
  assert (Em := kf_mst _ _ _ _ _ _ K). exists (k_piv k). split.
  - rewrite E1. rewrite dim0_lines by (intros l Hl; apply E4 in Hl; lia). rewrite Em at 1. now rewrite map_map.
  - destruct (kf_tab _ _ _ _ _ _ K) as (new0 & N1 & N2 & N3). exists (new0 ++ [mkBetti 0 0 eps []]), newt.
    split; [rewrite E2, N1, <- !app_assoc; reflexivity|]. split.
    + rewrite map_app. f_equal. rewrite <- (map_map (edge_weight (level edges 1)) (fun w => (0, 0%Z, w))), <- N3, map_map.
      apply map_ext_in. intros b Hb. destruct (N2 b Hb) as [-> ->]. reflexivity.
    + change (fun b : bettiEntry => (bettiDim b, birth b, death b)) with entry. rewrite E3, E1.
      rewrite !filter_app. cbn. assert (Z0 : filter (fun l : nat * Z * Z => negb (fst (fst l) =? 0)) (map (fun w => (0, 0%Z, w)) (k_mst k)) = []).
      { clear. generalize (k_mst k). induction l as [|w l IH]; cbn; auto. } rewrite Z0. cbn. symmetry. apply filter_all. intros l Hl. apply E4 in Hl. apply negb_true_iff, Nat.eqb_neq. lia.
Qed.

(* ---- libstdc++ ---- *)
Lemma libstdcxx_cofaces pivots rows column : ssorted pivots -> ssorted column -> Forall (fun r => ssorted (fst r)) rows ->
  cofaceList libstdcxx_past_end pivots rows column = Ok (boundary_without (libstdcxx_skip pivots (length rows)) (map fst rows) column).
Proof.
  intros Sp Sc Sr. unfold libstdcxx_skip.
  destruct (list_eq_dec Nat.eq_dec pivots (seq 0 (length pivots))) as [E|E]; [destruct (Nat.ltb_spec (length pivots) (length rows)) as [L|L]|].
  - now apply libstdcxx_harm.
  - apply cofaceList_harmless; auto. apply libstdcxx_harmless; auto. intros [_ K]. lia.
  - apply cofaceList_harmless; auto. apply libstdcxx_harmless; auto. now intros [K _].
Qed.

(* the stages of a libstdc++ run: pivots piv k of dimension k lead to the pairs ps k *)
Definition lstages edges (n : nat) (piv : nat -> list nat) (ps : nat -> list (nat * nat)) : Prop :=
  forall k, 1 <= k <= n ->
    pairing (map (boundary_without (libstdcxx_skip (piv k) (length (level edges k))) (simplices edges k)) (simplices edges (S k))) (ps k) /\
    piv (S k) = map snd (ps k) /\
    (forall i j, In (i, j) (ps k) -> i < length (level edges k) /\ j < length (level edges (S k))).

Lemma libstdcxx_loop edges : complex edges ->
  forall n d p0 lines tab, 1 <= d -> d + n < length edges \/ n = 0 -> ssorted p0 ->
  exists piv ps piv' lines' tab', dim_loop libstdcxx_past_end n d edges (p0, lines, tab) = Ok (piv', lines', tab') /\
    piv d = p0 /\
    (forall k, d <= k < d + n ->
      pairing (map (boundary_without (libstdcxx_skip (piv k) (length (level edges k))) (simplices edges k)) (simplices edges (S k))) (ps k) /\
      piv (S k) = map snd (ps k) /\
      (forall i j, In (i, j) (ps k) -> i < length (level edges k) /\ j < length (level edges (S k)))) /\
    lines' = lines ++ all_bars edges d n ps.
Proof.
  intros C. induction n as [|n IH]; intros d p0 lines tab Hd Hn Hs.
  - exists (fun _ => p0), (fun _ => []), p0, lines, tab. cbn. split; auto. split; auto. split; [intros k Hk; lia|]. now rewrite app_nil_r.
  - cbn [dim_loop]. destruct Hn as [Hn|Hn]; [|lia]. rewrite !level_at by lia. cbn [bind].
    destruct (dim_skip libstdcxx_past_end d p0 (libstdcxx_skip p0 (length (level edges d))) (level edges d) (level edges (S d)) lines tab) as (s & q & E & P1 & P2 & P3 & P4 & new & P5 & P6); auto.
    { now apply complex_sorted. } { now apply complex_sorted. }
    { intros c Hc. apply libstdcxx_cofaces; auto; [|now apply complex_sorted]. assert (F := complex_sorted edges (S d) C). rewrite Forall_forall in F. now apply F. }
    rewrite E. cbn [bind].
    assert (Emap : map (fun c => boundary_without (libstdcxx_skip p0 (length (level edges d))) (map fst (level edges d)) (fst c)) (level edges (S d)) =
                   map (boundary_without (libstdcxx_skip p0 (length (level edges d))) (simplices edges d)) (simplices edges (S d))).
    { unfold simplices. now rewrite map_map. }
    rewrite Emap in P1. rewrite P2, P4.
    destruct (IH (S d) (map snd q) (lines ++ bars d (level edges d) (level edges (S d)) q) (c_tab s)) as (piv & ps & piv' & lines' & tab' & I1 & I2 & I3 & I4); auto.
    { left. lia. } { apply P1. }
    exists (fun k => if k =? d then p0 else piv k), (fun k => if k =? d then q else ps k), piv', lines', tab'. split; auto.
    assert (Eb : all_bars edges d (S n) (fun k => if k =? d then q else ps k) = bars d (level edges d) (level edges (S d)) q ++ all_bars edges (S d) n ps).
    { unfold all_bars. cbn [seq flat_map]. rewrite Nat.eqb_refl. f_equal. rewrite !flat_map_concat_map. f_equal. apply map_ext_in. intros k Hk. apply in_seq in Hk.
      destruct (Nat.eqb_spec k d); [lia|reflexivity]. }
    rewrite Eb. split; [now rewrite Nat.eqb_refl|]. split; [|rewrite I4, app_assoc; reflexivity].
    intros k Hk. destruct (Nat.eqb_spec k d) as [->|Nk].
    + destruct (Nat.eqb_spec (S d) d); [lia|]. auto.
    + destruct (Nat.eqb_spec (S k) d); [lia|]. apply I3. lia.
Qed.

Theorem libstdcxx_run dim eps edges tab : complex edges -> 2 <= length edges ->
  exists js piv ps tab',
    fp_run libstdcxx_past_end dim eps edges tab =
      Ok (Some (map (fun w => (0, 0%Z, w)) (map (edge_weight (level edges 1)) js) ++ [(0, 0%Z, eps)] ++ all_bars edges 1 (dims dim edges) ps, tab')) /\
    negative edges 1 js /\ piv 1 = js /\ lstages edges (dims dim edges) piv ps.
Proof.
  intros C L2. destruct (complex_vertices _ C) as (EV & NV & LV & GV).
  assert (Hneg := kruskal_negative edges tab C).
  assert (K := kruskal_spec _ (level edges 1) tab NV GV). cbn zeta in K. rewrite <- LV in *.
  set (k := kruskal (length (level edges 0)) (level edges 1) tab) in *.
  unfold fp_run. destruct edges as [|e0 edges']; [cbn in L2; lia|]. set (edges := e0 :: edges') in *.
  rewrite level_at by auto. cbn [bind]. change (length e0) with (length (level edges 0)). fold k.
  set (lines := map (fun w => (0, 0%Z, w)) (k_mst k) ++ [(0, 0%Z, eps)]). set (tab1 := k_tab k ++ [mkBetti 0 0 eps []]).
  destruct (libstdcxx_loop edges C (dims dim edges) 1 (k_piv k) lines tab1) as (piv & ps & piv' & lines' & tab' & D1 & D2 & D3 & D4); auto.
  { unfold dims. lia. } { apply K. }
  exists (k_piv k), piv, ps, tab'. split; [|split; [auto|split; [auto|]]].
  - assert (E : (if (0 <? dim)%Z then dim_loop libstdcxx_past_end (Nat.min (Z.to_nat dim) (length edges - 1) - 1) 1 edges (k_piv k, lines, tab1)
       else Ok (k_piv k, lines, tab1)) = Ok (piv', lines', tab')).
    { destruct (Z.ltb_spec 0 dim); auto. assert (E0 : dims dim edges = 0) by (unfold dims; lia). rewrite E0 in D1. exact D1. }
    rewrite E. cbn [bind]. rewrite D4. unfold lines. rewrite (kf_mst _ _ _ _ _ _ K) at 1. rewrite <- app_assoc. reflexivity.
  - intros i Hi. apply D3. lia.
Qed.

(* ---- the complex at a scale ---- *)
Lemma level_at_scale t edges k : level (at_scale t edges) k = up_to t (level edges k).
Proof. unfold level, at_scale. change (@nil wsimp) with (up_to t []). rewrite map_nth. reflexivity. Qed.

Definition cut (t : Z) (edges : wgraph) (k : nat) : nat := length (up_to t (level edges k)).

Lemma cut_spec t edges k : filtered edges -> level (at_scale t edges) k = firstn (cut t edges k) (level edges k) /\
  cut t edges k <= length (level edges k) /\
  forall i, i < length (level edges k) -> (i < cut t edges k <-> (edge_weight (level edges k) i <= t)%Z).
Proof.
  intros F. rewrite level_at_scale. destruct (up_to_prefix (level edges k) t (fl_sorted _ F k)) as (m & E1 & E2).
  assert (Lm : cut t edges k = Nat.min m (length (level edges k))) by (unfold cut; rewrite E1; apply firstn_length).
  split; [|split].
  - rewrite E1, Lm. destruct (Nat.min_spec m (length (level edges k))) as [[L ->]|[L ->]]; auto. now rewrite firstn_all, firstn_all2.
  - rewrite Lm. lia.
  - intros i Hi. rewrite <- E2 by auto. lia.
Qed.

Lemma boundary_prefix rows m s : (forall i, i < length rows -> incl (nth i rows []) s -> i < m) -> boundary (firstn m rows) s = boundary rows s.
Proof.
  intros H. apply ssorted_ext; try apply boundary_ssorted. intros i. rewrite !boundary_In, firstn_length.
  assert (E : i < m -> nth i (firstn m rows) [] = nth i rows []).
  { intros L. rewrite <- (firstn_skipn m rows) at 2. destruct (Nat.lt_ge_cases i (length (firstn m rows))) as [Q|Q].
    - now rewrite app_nth1.
    - rewrite firstn_length in Q. rewrite !nth_overflow; auto; rewrite ?app_length, ?firstn_length, ?skipn_length; lia. }
  split.
  - intros [L I]. rewrite E in I by lia. split; auto. lia.
  - intros [L I]. assert (i < m) by auto. rewrite E by auto. split; auto. lia.
Qed.

Lemma In_firstn {A} m (l : list A) x : In x (firstn m l) -> In x l.
Proof. intros H. rewrite <- (firstn_skipn m l). apply in_app_iff. now left. Qed.
Lemma NoDup_app_intro {A} (a b : list A) : NoDup a -> NoDup b -> (forall x, In x a -> ~ In x b) -> NoDup (a ++ b).
Proof.
  induction a as [|x a IH]; intros Na Nb H; auto. inversion Na; subst. cbn. constructor.
  - intros Hx. apply in_app_iff in Hx as [Hx|Hx]; [auto|]. apply (H x); auto. now left.
  - apply IH; auto. intros y Hy. apply H. now right.
Qed.

Lemma bmatrix_at_scale t edges k : filtered edges -> complex edges ->
  bmatrix (at_scale t edges) (S k) = firstn (cut t edges (S k)) (bmatrix edges (S k)).
Proof.
  intros F C. unfold bmatrix, simplices. replace (S k - 1) with k by lia.
  destruct (cut_spec t edges k F) as (E1 & L1 & W1). destruct (cut_spec t edges (S k) F) as (E2 & L2 & W2).
  rewrite E1, E2. unfold boundary_matrix. rewrite !firstn_map. apply map_ext_in. intros s Hs.
  rewrite <- firstn_map. apply boundary_prefix. intros i Li Hi. rewrite map_length in Li. apply W1; auto.
  apply in_map_iff in Hs as ([s' w] & <- & Hs). cbn in *.
  assert (Hw : (w <= t)%Z). { rewrite <- E2, level_at_scale in Hs. apply filter_In in Hs as [_ Hs]. now apply Z.leb_le in Hs. }
  apply Z.le_trans with w; auto. unfold edge_weight.
  destruct (nth_error (level edges k) i) as [[f wf]|] eqn:Ef; [|apply nth_error_None in Ef; lia].
  rewrite (nth_error_nth _ _ _ Ef). cbn. apply (fl_mono _ F k s' w f wf).
  - eapply (In_firstn _ _ _ Hs).
  - eapply nth_error_In; eauto.
  - assert (En : nth i (map fst (level edges k)) [] = f). { change (@nil nat) with (fst (@nil nat, 0%Z)). rewrite map_nth. now rewrite (nth_error_nth _ _ _ Ef). }
    now rewrite En in Hi.
Qed.

Lemma fresh_firstn cs m j : fresh (firstn m cs) j <-> j < m /\ fresh cs j.
Proof.
  unfold fresh. split.
  - intros (x & E & N). assert (L : j < length (firstn m cs)) by (apply nth_error_Some; congruence). rewrite firstn_length in L.
    split; [lia|]. exists x. rewrite firstn_firstn in N. replace (Nat.min j m) with j in N by lia. split; auto.
    rewrite <- (firstn_skipn m cs). now rewrite nth_error_app1 by (rewrite firstn_length; lia).
  - intros (L & x & E & N). assert (Lj : j < length cs) by (apply nth_error_Some; congruence). exists x. rewrite firstn_firstn. replace (Nat.min j m) with j by lia. split; auto.
    rewrite <- (firstn_skipn m cs) in E. now rewrite nth_error_app1 in E by (rewrite firstn_length; lia).
Qed.

Lemma rank_at_scale t edges k js : filtered edges -> complex edges -> negative edges (S k) js ->
  rank (bmatrix (at_scale t edges) (S k)) (length (filter (fun j => j <? cut t edges (S k)) js)).
Proof.
  intros F C [Sj Hj]. rewrite bmatrix_at_scale by auto. apply fresh_rank; [now apply ssorted_filter|].
  intros j. rewrite filter_In, fresh_firstn, Hj, Nat.ltb_lt. tauto.
Qed.

Lemma paired_column M i j : paired M i j -> exists c, In c M /\ In i c.
Proof.
  intros [(x & (c & y & Ec & Hy & Ex) & Hi & _) _]. apply coord_In in Hi. rewrite Ex in Hi. destruct (coord c i) eqn:Ei.
  - apply coord_In in Ei. exists c. split; auto. eapply nth_error_In; eauto.
  - rewrite xorb_false_l in Hi. apply combination_span in Hy. destruct (span_coord _ _ _ Hy Hi) as (d & Hd & Ed).
    apply in_map_iff in Hd as (d' & <- & Hd). apply coord_In in Ed. exists d'. split; auto. eapply In_firstn; eauto.
Qed.

Lemma alive_app d t a b : alive d t (a ++ b) = alive d t a + alive d t b.
Proof. unfold alive. now rewrite filter_app, app_length. Qed.
Lemma alive_bars d k t rows cols ps : alive d t (bars k rows cols ps) =
  if k =? d then length (filter (fun p => (edge_weight rows (fst p) <=? t)%Z && (t <? edge_weight cols (snd p))%Z) ps) else 0.
Proof.
  induction ps as [|[i j] ps IH]; [now destruct (k =? d)|]. unfold bars. cbn [flat_map]. fold (bars k rows cols ps). rewrite alive_app, IH.
  cbn [fst snd filter]. fold (edge_weight rows i) (edge_weight cols j).
  destruct (Z.eqb_spec (edge_weight rows i) (edge_weight cols j)) as [E|E].
  - rewrite E. cbn. destruct (k =? d); auto.
    destruct (Z.leb_spec (edge_weight cols j) t), (Z.ltb_spec t (edge_weight cols j)); cbn; lia.
  - unfold alive at 1. cbn [filter fst snd]. destruct (k =? d); cbn [andb]; auto.
    destruct ((edge_weight rows i <=? t)%Z && (t <? edge_weight cols j)%Z); reflexivity.
Qed.
Lemma alive_all edges d t n k ps : alive d t (all_bars edges k n ps) =
  if (k <=? d) && (d <? k + n) then alive d t (bars d (level edges d) (level edges (S d)) (ps d)) else 0.
Proof.
  revert k. induction n as [|n IH]; intros k; unfold all_bars; cbn [seq flat_map].
  - destruct (Nat.leb_spec k d), (Nat.ltb_spec d (k + 0)); cbn; auto; lia.
  - rewrite alive_app. fold (all_bars edges (S k) n ps). rewrite IH, (alive_bars d k).
    destruct (Nat.eqb_spec k d) as [->|N].
    + rewrite (alive_bars d d), Nat.eqb_refl. destruct (Nat.leb_spec (S d) d), (Nat.leb_spec d d), (Nat.ltb_spec d (d + S n)); cbn; lia.
    + destruct (Nat.leb_spec (S k) d), (Nat.leb_spec k d), (Nat.ltb_spec d (S k + n)), (Nat.ltb_spec d (k + S n)); cbn; lia.
Qed.
Lemma alive_zero d t ws : 1 <= d -> alive d t (map (fun w => (0, 0%Z, w)) ws) = 0.
Proof. intros H. unfold alive. induction ws as [|w ws IH]; auto. cbn. destruct d; [lia|]. exact IH. Qed.

Lemma filter_none {A} (f : A -> bool) l : (forall x, In x l -> f x = false) -> filter f l = [].
Proof. induction l as [|x l IH]; intros H; cbn; auto. rewrite (H x) by now left. apply IH. intros; apply H; now right. Qed.
Lemma filter_seq_lt m n : m <= n -> filter (fun i => i <? m) (seq 0 n) = seq 0 m.
Proof.
  intros L. replace n with (m + (n - m)) by lia. rewrite seq_app, filter_app. rewrite filter_all.
  - rewrite filter_none; [now rewrite app_nil_r|]. intros x Hx. apply in_seq in Hx. apply Nat.ltb_ge. lia.
  - intros x Hx. apply in_seq in Hx. apply Nat.ltb_lt. lia.
Qed.

(* counting one dimension *)
Section Count.
  Variables (edges : wgraph) (d : nat) (piv : list nat) (ps : list (nat * nat)).
  Hypothesis F : filtered edges.
  Hypothesis C : complex edges.
  Hypothesis Npiv : negative edges (S d) piv.
  Hypothesis P : pairing (map (boundary_without piv (simplices edges (S d))) (simplices edges (S (S d)))) ps.
  Hypothesis Nps : negative edges (S (S d)) (map snd ps).
  Hypothesis R : forall i j, In (i, j) ps -> i < length (level edges (S d)) /\ j < length (level edges (S (S d))).
  Let births := map fst ps.
  Let n := length (level edges (S d)).
  Let al t := length (filter (fun p => (edge_weight (level edges (S d)) (fst p) <=? t)%Z && (t <? edge_weight (level edges (S (S d))) (snd p))%Z) ps).
  Let low t (l : list nat) := length (filter (fun i => i <? cut t edges (S d)) l).
  Let low2 t (l : list nat) := length (filter (fun i => i <? cut t edges (S (S d))) l).

  Lemma cols_length : length (bmatrix edges (S d)) = n.
  Proof. unfold bmatrix, boundary_matrix, simplices, n. now rewrite !map_length. Qed.
  Lemma piv_lt i : In i piv -> i < n.
  Proof. intros Hi. apply Npiv in Hi. apply fresh_lt in Hi. now rewrite cols_length in Hi. Qed.

  Lemma births_piv i : In i births -> ~ In i piv.
  Proof.
    intros Hi. apply in_map_iff in Hi as ([i' j] & <- & Hi). cbn. destruct P as (_ & _ & _ & P4). apply P4, paired_column in Hi as (c & Hc & Hi).
    apply in_map_iff in Hc as (s & <- & Hs). now apply boundary_without_In in Hi.
  Qed.
  Lemma both_nodup : NoDup (births ++ piv).
  Proof.
    apply NoDup_app_intro; [apply P| |].
    - assert (Ss : ssorted piv) by apply Npiv. clear - Ss. induction piv as [|x l IH]; [constructor|]. apply ssorted_cons in Ss as [A B]. constructor; auto. intros Hx. apply B in Hx. lia.
    - intros x. apply births_piv.
  Qed.
  Lemma both_incl : incl (births ++ piv) (seq 0 n).
  Proof.
    intros i Hi. apply in_seq. apply in_app_iff in Hi as [Hi|Hi].
    - apply in_map_iff in Hi as ([i' j] & <- & Hi). apply R in Hi. cbn. unfold n. lia.
    - apply piv_lt in Hi. lia.
  Qed.
  Lemma count_alive t : al t + low2 t (map snd ps) = low t births.
  Proof.
    unfold al, low2, low, births. destruct (cut_spec t edges (S d) F) as (_ & _ & W1). destruct (cut_spec t edges (S (S d)) F) as (_ & _ & W2).
    assert (G : forall i j, In (i, j) ps -> (edge_weight (level edges (S d)) i <= edge_weight (level edges (S (S d))) j)%Z).
    { intros i j H. destruct (R i j H). eapply paired_weight; eauto. destruct P as (_ & _ & _ & P4). eauto. }
    revert G R. clear - W1 W2. induction ps as [|[i j] l IH]; intros G R; cbn; auto.
    assert (I := IH (fun i j H => G i j (or_intror H)) (fun i j H => R i j (or_intror H))). clear IH.
    destruct (R i j (or_introl eq_refl)) as [Li Lj]. assert (Gij := G i j (or_introl eq_refl)).
    specialize (W1 i Li). specialize (W2 j Lj).
    destruct (Z.leb_spec (edge_weight (level edges (S d)) i) t), (Z.ltb_spec t (edge_weight (level edges (S (S d))) j)),
      (Nat.ltb_spec i (cut t edges (S d))), (Nat.ltb_spec j (cut t edges (S (S d)))); cbn; lia.
  Qed.
  Lemma low_app t a b : low t (a ++ b) = low t a + low t b.
  Proof. unfold low. now rewrite filter_app, app_length. Qed.
  Lemma low_all t : low t (seq 0 n) = cut t edges (S d).
  Proof. unfold low. destruct (cut_spec t edges (S d) F) as (_ & L & _). rewrite filter_seq_lt by auto. apply seq_length. Qed.
  Lemma NoDup_filter_le {A} (f : A -> bool) l m : NoDup l -> incl l m -> length (filter f l) <= length (filter f m).
  Proof. intros N I. apply NoDup_incl_length; [now apply NoDup_filter|]. intros x Hx. apply filter_In in Hx as [H1 H2]. apply filter_In. auto. Qed.

  Lemma count_le_betti t b : betti (at_scale t edges) (S d) b -> al t <= b.
  Proof.
    intros (r1 & r2 & R1 & R2 & E). rewrite level_at_scale in E. fold (cut t edges (S d)) in E.
    rewrite (rank_unique _ _ _ R1 (rank_at_scale t edges d piv F C Npiv)) in E.
    rewrite (rank_unique _ _ _ R2 (rank_at_scale t edges (S d) _ F C Nps)) in E.
    fold (low t piv) (low2 t (map snd ps)) in E. assert (A := count_alive t). assert (B := low_app t births piv).
    assert (D := NoDup_filter_le (fun i => i <? cut t edges (S d)) _ _ both_nodup both_incl). fold (low t (births ++ piv)) (low t (seq 0 n)) in D.
    rewrite low_all in D. lia.
  Qed.

  Lemma count_betti_at t : exists b, betti (at_scale t edges) (S d) b.
  Proof.
    assert (D := NoDup_filter_le (fun i => i <? cut t edges (S d)) _ _ both_nodup both_incl). fold (low t (births ++ piv)) (low t (seq 0 n)) in D.
    rewrite low_all, low_app in D. assert (A := count_alive t).
    exists (cut t edges (S d) - low t piv - low2 t (map snd ps)). eexists. eexists.
    split; [apply (rank_at_scale t edges d piv F C Npiv)|]. split; [apply (rank_at_scale t edges (S d) _ F C Nps)|].
    rewrite level_at_scale. fold (cut t edges (S d)) (low t piv) (low2 t (map snd ps)). lia.
  Qed.

  Lemma count_exact : betti edges (S d) 0 -> forall t b, betti (at_scale t edges) (S d) b -> al t = b.
  Proof.
    intros (q1 & q2 & Q1 & Q2 & Eq) t b (r1 & r2 & R1 & R2 & E). rewrite level_at_scale in E. fold (cut t edges (S d)) in E.
    rewrite (rank_unique _ _ _ R1 (rank_at_scale t edges d piv F C Npiv)) in E.
    rewrite (rank_unique _ _ _ R2 (rank_at_scale t edges (S d) _ F C Nps)) in E.
    fold (low t piv) (low2 t (map snd ps)) in E.
    assert (K1 : rank (bmatrix edges (S d)) (length piv)) by (apply fresh_rank; apply Npiv).
    assert (K2 : rank (bmatrix edges (S (S d))) (length (map snd ps))) by (apply fresh_rank; apply Nps).
    rewrite (rank_unique _ _ _ Q1 K1), (rank_unique _ _ _ Q2 K2) in Eq. fold n in Eq. rewrite map_length in Eq.
    assert (I : incl (seq 0 n) (births ++ piv)).
    { apply NoDup_length_incl; [apply both_nodup| |apply both_incl]. unfold births. rewrite seq_length, app_length, map_length. lia. }
    assert (D1 := NoDup_filter_le (fun i => i <? cut t edges (S d)) _ _ both_nodup both_incl).
    assert (D2 := NoDup_filter_le (fun i => i <? cut t edges (S d)) _ _ (seq_NoDup n 0) I).
    fold (low t (births ++ piv)) (low t (seq 0 n)) in D1, D2. rewrite low_all in D1, D2. rewrite low_app in D1, D2.
    assert (A := count_alive t). lia.
  Qed.
End Count.

Lemma weights_bounded (edges : wgraph) : exists T, forall k s w, In (s, w) (level edges k) -> (w <= T)%Z.
Proof.
  assert (G : exists T, forall l s w, In l edges -> In (s, w) l -> (w <= T)%Z).
  { induction edges as [|l edges (T & IH)]; [exists 0%Z; intros l s w []|].
    assert (L : exists T', forall s w, In (s, w) l -> (w <= T')%Z).
    { clear. induction l as [|[s0 w0] l (T' & IH)]; [exists 0%Z; intros s w []|]. exists (Z.max w0 T'). intros s w [E|H]; [injection E; lia|]. apply IH in H. lia. }
    destruct L as (T' & L). exists (Z.max T T'). intros l' s w [<-|Hl] Hw; [apply L in Hw|apply (IH _ _ _ Hl) in Hw]; lia. }
  destruct G as (T & G). exists T. intros k s w H. unfold level in H. destruct (nth_in_or_default k edges []) as [I|E]; [eauto|]. rewrite E in H. destruct H.
Qed.

Lemma at_scale_top T edges : (forall k s w, In (s, w) (level edges k) -> (w <= T)%Z) -> at_scale T edges = edges.
Proof.
  intros H. unfold at_scale. rewrite <- (map_id edges) at 2. apply map_ext_in. intros l Hl. apply filter_all.
  intros [s w] Hw. apply Z.leb_le. apply In_nth with (d := []) in Hl as (k & _ & <-). now apply (H k s).
Qed.

Theorem betti_curve past_end dim eps edges tab lines tab' d : complex edges -> filtered edges ->
  (forall k p, 1 <= k < 1 + dims dim edges -> negative edges k p -> harmless past_end p (length (level edges k))) ->
  fp_run past_end dim eps edges tab = Ok (Some (lines, tab')) -> 1 <= d <= dims dim edges ->
  (forall t, exists b, betti (at_scale t edges) d b) /\
  (forall t b, betti (at_scale t edges) d b -> alive d t lines <= b) /\
  ((forall t b, betti (at_scale t edges) d b -> alive d t lines = b) <-> betti edges d 0).
Proof.
  intros C F Hh H Hd.
  assert (L2 : 2 <= length edges) by (unfold dims in Hd; lia).
  destruct (fp_spec past_end dim eps edges tab C L2 Hh) as (js & ps & tb & E & Hjs & _ & St & _).
  rewrite E in H.
  assert (El : map (fun w => (0, 0%Z, w)) (map (edge_weight (level edges 1)) js) ++ [(0, 0%Z, eps)] ++ all_bars edges 1 (dims dim edges) ps = lines) by congruence.
  destruct (St d) as (piv & Np & _ & P & Nn & R); [lia|].
  set (al := fun t => length (filter (fun p => (edge_weight (level edges d) (fst p) <=? t)%Z && (t <? edge_weight (level edges (S d)) (snd p))%Z) (ps d))).
  assert (Ea : forall t, alive d t lines = al t).
  { intros t. rewrite <- El. rewrite !alive_app, alive_all, alive_zero by lia. destruct (Nat.leb_spec 1 d); [|lia]. destruct (Nat.ltb_spec d (1 + dims dim edges)); [|lia].
    cbn [andb]. rewrite alive_bars, Nat.eqb_refl. unfold alive. cbn. destruct d; [lia|]. reflexivity. }
  destruct d as [|d]; [lia|].
  split; [|split; [|split]].
  - apply (count_betti_at edges d piv (ps (S d))); auto.
  - intros t b Hb. rewrite Ea. now apply (count_le_betti edges d piv (ps (S d))).
  - intros G. destruct (weights_bounded edges) as (T & HT).
    destruct (count_betti_at edges d piv (ps (S d)) F C Np P Nn R T) as (b & Hb). assert (Hb' := Hb).
    apply G in Hb. rewrite Ea in Hb. rewrite (at_scale_top T edges HT) in Hb'.
    assert (Z0 : al T = 0).
    { unfold al. rewrite filter_none; auto. intros [i j] Hij. cbn. apply andb_false_iff. right. apply Z.ltb_ge. apply R in Hij as [_ Lj].
      unfold edge_weight. destruct (nth_error (level edges (S (S d))) j) as [[s w]|] eqn:En; [|apply nth_error_None in En; lia].
      rewrite (nth_error_nth _ _ _ En). apply (HT (S (S d)) s). eapply nth_error_In; eauto. }
    rewrite Z0 in Hb. now subst b.
  - intros B0 t b Hb. rewrite Ea. now apply (count_exact edges d piv (ps (S d)) F C Np P Nn R B0 t b).
Qed.

(* ---- the complexes that the pipeline passes to fastPersistence ---- *)
Lemma sorted_complex (wg ret : wgraph) :
  (forall k, Permutation (level ret k) (level wg k)) -> (forall k, StronglySorted by_weight (level ret k)) ->
  (forall k, NoDup (map fst (level wg k))) ->
  (forall k s w, In (s, w) (level wg k) -> length s = S k /\ increasing s) ->
  (forall k s w f, In (s, w) (level wg (S k)) -> facet f s -> exists w', In (f, w') (level wg k) /\ (w' <= w)%Z) ->
  complex ret /\ filtered ret.
Proof.
  intros Pm So Nd Sh Cl.
  assert (I : forall k x, In x (level ret k) <-> In x (level wg k)).
  { intros k x. split; apply Permutation_in; [apply Pm|symmetry; apply Pm]. }
  split; constructor.
  - intros k s w H. apply I, Sh in H. tauto.
  - intros k. unfold simplices. eapply Permutation_NoDup; [|apply (Nd k)]. apply Permutation_map. symmetry. apply Pm.
  - intros k s w f H Hf. apply I in H. destruct (Cl _ _ _ _ H Hf) as (w' & H' & _). apply I in H'. apply (in_map fst) in H'. exact H'.
  - exact So.
  - intros k s w f w' H H' Hi. apply I in H, H'. destruct (Sh _ _ _ H) as [L1 S1]. destruct (Sh _ _ _ H') as [L2 S2].
    destruct (Cl k s w f H) as (w2 & H2 & Le). { split; auto. split; auto. lia. }
    assert (E : w' = w2); [|lia]. assert (N := Nd k). clear - H' H2 N. revert H' H2 N. generalize (level wg k). intros l H' H2 N.
    induction l as [|[a b] l IH]; [destruct H'|]. cbn in N. inversion N as [|? ? N1 N2]; subst.
    destruct H' as [E1|H'], H2 as [E2|H2]; try congruence; auto.
    + injection E1 as -> ->. exfalso. apply N1. apply (in_map fst) in H2. exact H2.
    + injection E2 as -> ->. exfalso. apply N1. apply (in_map fst) in H'. exact H'.
Qed.

From Verif Require Import ArrayListHist TreeModel SpecTree TreeHist.

Theorem array_list_filtered dm eps maxDimension ops wg srt epsilon :
  matrix_covers dm ops -> al_run dm eps maxDimension ops = Ok wg -> is_sort srt ->
  complex (getAllEdges srt wg epsilon) /\ filtered (getAllEdges srt wg epsilon).
Proof.
  intros M E S. destruct (getAllEdges_spec dm eps maxDimension ops wg srt epsilon M E S) as (G1 & _ & _).
  destruct (array_list_closed dm eps maxDimension ops wg M E) as (A1 & A2 & A3).
  apply (sorted_complex wg); auto; try (intros k; apply G1).
  intros k s w H. destruct (A2 _ _ _ H). tauto.
Qed.

Lemma max_of (l : list Z) : l <> [] -> exists m, In m l /\ forall x, In x l -> (x <= m)%Z.
Proof.
  induction l as [|a l IH]; [easy|]. intros _. destruct l as [|b l].
  - exists a. split; [now left|]. intros x [<-|[]]. lia.
  - destruct IH as (m & Hm & Hx); [easy|]. destruct (Z.le_gt_cases a m).
    + exists m. split; [now right|]. intros x [<-|Hi]; auto.
    + exists a. split; [now left|]. intros x [<-|Hi]; [lia|]. apply Hx in Hi. lia.
Qed.
Lemma diameter_exists D s : increasing s -> exists w, diameter D s w.
Proof.
  intros Ss. destruct (Nat.le_gt_cases (length s) 1) as [L|L].
  - exists 0%Z. split; [|right; auto]. intros u v Hu Hv Huv. destruct s as [|x [|y s]]; cbn in L; try lia; cbn in *; intuition lia.
  - set (l := map (fun p => D (fst p) (snd p)) (filter (fun p => fst p <? snd p) (list_prod s s))).
    assert (I : forall x, In x l <-> exists u v, In u s /\ In v s /\ u < v /\ D u v = x).
    { intros x. unfold l. rewrite in_map_iff. split.
      - intros ([u v] & E & H). apply filter_In in H as [H1 H2]. apply in_prod_iff in H1 as [H1 H3]. apply Nat.ltb_lt in H2. eauto 6.
      - intros (u & v & H1 & H2 & H3 & H4). exists (u, v). split; auto. apply filter_In. split; [now apply in_prod_iff|now apply Nat.ltb_lt]. }
    destruct (max_of l) as (m & Hm & Hx).
    { destruct s as [|x [|y s]]; cbn in L; try lia. apply ssorted_cons in Ss as [_ Ss]. intros E.
      assert (K : In (D x y) l). { apply I. exists x, y. repeat split; cbn; auto. apply Ss. now left. } rewrite E in K. destruct K. }
    exists m. split; [|left; now apply I]. intros u v Hu Hv Huv. apply Hx, I. eauto 6.
Qed.

Theorem tree_filtered eps maxDimension dm nc0 n srt t :
  is_sort srt -> dm <> [] -> upper_triangle dm n ->
  st_run eps maxDimension (Ok tt) srt (st_new dm nc0) (repeat TInsert n) = Ok t ->
  complex (fst (st_getAllEdges srt t)) /\ filtered (fst (st_getAllEdges srt t)).
Proof.
  intros Hs Hdm U E.
  destruct (tree_rips eps maxDimension dm nc0 n srt Hs Hdm U) as (t' & E' & Nd & Ch). rewrite E in E'. injection E' as <-.
  assert (Lg := legal_inserts dm n U Hdm).
  assert (NG : ~ In TGetAll (repeat TInsert n)) by (intros H; apply repeat_spec in H; discriminate).
  destruct (first_getAllEdges eps maxDimension dm nc0 srt _ t Hs Lg NG E) as (G1 & _).
  apply (sorted_complex (st_weg t)); auto; try (intros k; apply G1).
  - intros k s w H. apply Ch in H as (L & (_ & I & _) & _). auto.
  - intros k s w f H Hf. apply Ch in H as (L & (N1 & I & V & Cc) & W & D). destruct Hf as (If & Inc & Lf).
    assert (Hne : f <> []) by (intros ->; cbn in Lf; lia).
    destruct (diameter_exists (dist_of dm) f If) as (w' & D'). exists w'. split.
    + apply Ch. split; [lia|]. split; [|split; auto].
      * repeat split; auto. * unfold within in *. lia.
    + destruct D' as [_ [(u & v & Hu & Hv & Huv & <-)|[L1 ->]]]; [apply D; auto|].
      destruct D as [_ [(u & v & Hu & Hv & Huv & <-)|[L2 ->]]]; [|lia]. apply U; auto.
Qed.

(* ---- undefined behaviour of whole runs ---- *)
Lemma negative_unique edges k a b : negative edges k a -> negative edges k b -> a = b.
Proof. intros [Sa Ha] [Sb Hb]. apply ssorted_ext; auto. intros i. now rewrite Ha, Hb. Qed.
Lemma harmless_ub p n : harmless (fun _ _ => UB) p n <-> ~ reads_past_end p n.
Proof. split; [intros H R; destruct (H R) as (v & E & _); discriminate|intros H R; contradiction]. Qed.

Definition trouble edges (a n : nat) : Prop :=
  exists k piv, a <= k < a + n /\ level edges (S k) <> [] /\ negative edges k piv /\ reads_past_end piv (length (level edges k)).

Lemma dim_loop_ub edges : complex edges ->
  forall n d piv lines tab, 1 <= d -> d + n < length edges \/ n = 0 -> negative edges d piv ->
  (dim_loop (fun _ _ => UB) n d edges (piv, lines, tab) = UB <-> trouble edges d n).
Proof.
  intros C. induction n as [|n IH]; intros d piv lines tab Hd Hn Hneg.
  - cbn. split; [discriminate|]. intros (k & p & Hk & _). lia.
  - cbn [dim_loop]. destruct Hn as [Hn|Hn]; [|lia]. rewrite !level_at by lia. cbn [bind].
    assert (Step : forall piv' lines' tab', negative edges (S d) piv' -> ~ (level edges (S d) <> [] /\ reads_past_end piv (length (level edges d))) ->
      (dim_loop (fun _ _ => UB) n (S d) edges (piv', lines', tab') = UB <-> trouble edges d (S n))).
    { intros piv' lines' tab' Hp' Ho. rewrite IH; [|lia|left; lia|auto]. split.
      - intros (k & p & Hk & Q). exists k, p. split; [lia|auto].
      - intros (k & p & Hk & Q1 & Q2 & Q3). destruct (Nat.eq_dec k d) as [->|Nk].
        + exfalso. apply Ho. rewrite (negative_unique _ _ _ _ Hneg Q2). auto.
        + exists k, p. split; [lia|auto]. }
    destruct (level edges (S d)) as [|c cols] eqn:Ec.
    + cbn [foldr_ub bind c_next c_lines c_tab]. apply Step; [|now intros [K _]]. split; [constructor|]. intros j. split; [intros []|].
      intros Fj. apply fresh_lt in Fj. unfold bmatrix, simplices, boundary_matrix in Fj. rewrite Ec in Fj. cbn in Fj. lia.
    + destruct (reads_past_end_dec piv (length (level edges d))) as [R|R].
      * cbn [foldr_ub]. unfold col_step at 1.
        assert (Sc := complex_sorted edges (S d) C). rewrite Ec in Sc. apply Forall_cons_iff in Sc as [Sc _].
        destruct (cofaceList_defined piv (level edges d) (fst c)) as [U _]; auto. { apply Hneg. } { now apply complex_sorted. }
        rewrite U by auto. cbn [bind]. split; auto. intros _. exists d, piv. split; [lia|]. rewrite Ec. split; [easy|auto].
      * destruct (dim_one (fun _ _ => UB) d piv (level edges d) (level edges (S d)) lines tab) as (s & p0 & E & P1 & P2 & _); auto.
        { apply Hneg. } { now apply complex_sorted. } { now apply complex_sorted. } { now apply harmless_ub. }
        rewrite Ec in E. rewrite E. cbn [bind]. rewrite P2. apply Step; [|now intros [_ K]].
        assert (Emap : map (fun c => boundary_without piv (map fst (level edges d)) (fst c)) (level edges (S d)) =
                       map (boundary_without piv (simplices edges d)) (simplices edges (S d))) by (unfold simplices; now rewrite map_map).
        rewrite Emap in P1. destruct P1 as (Q1 & Q2 & Q3 & Q4). split; auto. intros j. rewrite Q3. destruct d as [|k]; [lia|]. now apply clearing.
Qed.

Theorem fp_ub dim eps edges tab : complex edges ->
  (fp_run (fun _ _ => UB) dim eps edges tab = UB <->
   length edges = 1 \/ exists k piv, 1 <= k <= dims dim edges /\ level edges (S k) <> [] /\ negative edges k piv /\
                                     reads_past_end piv (length (level edges k))).
Proof.
  intros C. unfold fp_run. destruct edges as [|e0 edges']; [cbn; split; [discriminate|]; intros [K|(k & p & K & _)]; [discriminate|unfold dims in K; cbn in K; lia]|].
  set (edges := e0 :: edges') in *. destruct (Nat.le_gt_cases 2 (length edges)) as [L|L].
  - rewrite level_at by auto. cbn [bind]. change (length e0) with (length (level edges 0)).
    assert (Hneg := kruskal_negative edges tab C). set (k := kruskal (length (level edges 0)) (level edges 1) tab) in *. cbn zeta.
    set (lines := map (fun w => (0, 0%Z, w)) (k_mst k) ++ [(0, 0%Z, eps)]). set (tab1 := k_tab k ++ [mkBetti 0 0 eps []]).
    assert (D := dim_loop_ub edges C (dims dim edges) 1 (k_piv k) lines tab1 ltac:(lia) ltac:(unfold dims; lia) Hneg).
    assert (T : trouble edges 1 (dims dim edges) <-> length edges = 1 \/ exists k piv, 1 <= k <= dims dim edges /\ level edges (S k) <> [] /\ negative edges k piv /\
                                     reads_past_end piv (length (level edges k))).
    { split. - intros (q & p & Hq & Q). right. exists q, p. split; [lia|auto]. - intros [K|(q & p & Hq & Q)]; [lia|]. exists q, p. split; [lia|auto]. }
    rewrite <- T, <- D. change (Nat.min (Z.to_nat dim) (length edges - 1) - 1) with (dims dim edges).
    assert (E : (if (0 <? dim)%Z then dim_loop (fun _ _ => UB) (dims dim edges) 1 edges (k_piv k, lines, tab1) else Ok (k_piv k, lines, tab1)) =
                dim_loop (fun _ _ => UB) (dims dim edges) 1 edges (k_piv k, lines, tab1)).
    { destruct (Z.ltb_spec 0 dim); auto. assert (E0 : dims dim edges = 0) by (unfold dims; lia). rewrite E0. reflexivity. }
    rewrite E. destruct (dim_loop _ _ _ _ _) as [[[? ?] ?]|]; cbn; split; auto; discriminate.
  - assert (E : edges' = []) by (destruct edges'; auto; unfold edges in L; cbn in L; lia). subst edges'. cbn. split; auto.
Qed.

(* nothing within epsilon *)
Theorem isolated_points dm eps maxDimension ops wg srt epsilon past_end dim e tab :
  matrix_covers dm ops -> al_run dm eps maxDimension ops = Ok wg -> is_sort srt -> 0 < live ops ->
  (forall j i, j < i -> i < live ops -> (eps < dist_of dm j i)%Z) ->
  fp_run past_end dim e (getAllEdges srt wg epsilon) tab = UB.
Proof.
  intros M E S Hl Hd. destruct (getAllEdges_spec dm eps maxDimension ops wg srt epsilon M E S) as (G1 & G2 & _).
  destruct (array_list_rips dm eps maxDimension ops M) as (wg' & E' & L0 & R1 & _). rewrite E in E'. injection E' as <-.
  assert (Z1 : level wg 1 = []).
  { destruct (level wg 1) as [|[s w] l] eqn:El; auto. destruct (R1 1 s w) as (Ls & _ & Ss & V & Cc); auto. { rewrite El. now left. }
    destruct s as [|u [|v [|]]]; try discriminate. apply ssorted_cons in Ss as [_ Suv].
    assert (u < v) by (apply Suv; now left). specialize (Cc u v (or_introl eq_refl) (or_intror (or_introl eq_refl)) H).
    specialize (Hd u v H (V v (or_intror (or_introl eq_refl)))). lia. }
  set (ret := getAllEdges srt wg epsilon) in *.
  assert (N1 : ~ 1 < length ret) by (rewrite G2, Z1; now intros K).
  assert (N0 : 0 < length ret). { apply G2. rewrite L0. destruct (live ops); [lia|discriminate]. }
  destruct ret as [|r0 [|r1 ret]]; cbn in *; try lia. reflexivity.
Qed.

(* ---- orthogonality, to refute that a cycle is a boundary ---- *)
Definition dot (phi s : list nat) : bool := fold_right (fun i b => xorb (coord s i) b) false phi.
Lemma dot_sum phi l s : (forall i, coord s i = sum_coord l i) -> dot phi s = fold_right (fun c b => xorb (dot phi c) b) false l.
Proof.
  intros H. induction phi as [|i phi IH].
  - clear. induction l as [|c l IH]; auto. cbn [fold_right]. rewrite <- IH. reflexivity.
  - assert (D : forall x, dot (i :: phi) x = xorb (coord x i) (dot phi x)) by reflexivity.
    rewrite D, IH, H. clear - D. induction l as [|c l IH]; auto.
    cbn [fold_right]. rewrite <- IH, D. change (sum_coord (c :: l) i) with (xorb (coord c i) (sum_coord l i)).
    destruct (coord c i), (sum_coord l i), (dot phi c), (fold_right (fun c b => xorb (dot phi c) b) false l); reflexivity.
Qed.
Lemma dot_zero phi cs l : forallb (fun c => negb (dot phi c)) cs = true -> incl l cs -> fold_right (fun c b => xorb (dot phi c) b) false l = false.
Proof.
  intros H I. rewrite forallb_forall in H. induction l as [|c l IH]; cbn; auto.
  assert (Hc : dot phi c = false) by (apply negb_true_iff, H, I; now left). rewrite Hc, xorb_false_l. apply IH. intros x Hx. apply I. now right.
Qed.
Lemma not_combination phi cs s : forallb (fun c => negb (dot phi c)) cs = true -> dot phi s = true -> ~ combination cs s.
Proof. intros H E (l & I & Hl). rewrite (dot_sum phi l s Hl), (dot_zero phi cs l H I) in E. discriminate. Qed.

(* bars of a run with a harmless past-the-end value *)
Theorem fp_pairs past_end dim eps edges tab : complex edges -> 2 <= length edges ->
  (forall k p, 1 <= k < 1 + dims dim edges -> negative edges k p -> harmless past_end p (length (level edges k))) ->
  exists deaths ps tab', fp_run past_end dim eps edges tab =
    Ok (Some (map (fun w => (0, 0%Z, w)) deaths ++ [(0, 0%Z, eps)] ++ all_bars edges 1 (dims dim edges) ps, tab')) /\
  forall k, 1 <= k <= dims dim edges ->
    increasing (map snd (ps k)) /\ NoDup (map fst (ps k)) /\
    (forall i j, In (i, j) (ps k) -> i < length (level edges k) /\ j < length (level edges (S k)) /\
       (filtered edges -> (edge_weight (level edges k) i <= edge_weight (level edges (S k)) j)%Z)) /\
    (forall j, In j (map snd (ps k)) <-> fresh (bmatrix edges (S k)) j) /\
    rank (bmatrix edges (S k)) (length (ps k)) /\
    (filtered edges -> forall t, rank (bmatrix (at_scale t edges) (S k))
       (length (filter (fun p => (edge_weight (level edges (S k)) (snd p) <=? t)%Z) (ps k)))).
Proof.
  intros C L Hh. destruct (fp_spec past_end dim eps edges tab C L Hh) as (js & ps & tab' & E & _ & _ & St & _).
  exists (map (edge_weight (level edges 1)) js), ps, tab'. split; auto. intros k Hk.
  destruct (St k) as (piv & Np & _ & P & Nn & R); [lia|]. assert (P' := P). destruct P as (P1 & P2 & P3 & P4).
  split; auto. split; auto. split; [|split; [apply Nn|split]].
  - intros i j Hij. destruct (R i j Hij). split; auto. split; auto. intros F. eapply paired_weight; eauto.
  - rewrite <- (map_length snd). apply fresh_rank; apply Nn.
  - intros F t. assert (A := rank_at_scale t edges k _ F C Nn).
    rewrite filter_map_length in A. destruct (cut_spec t edges (S k) F) as (_ & _ & W).
    rewrite (filter_ext_in _ (fun p => (edge_weight (level edges (S k)) (snd p) <=? t)%Z)) in A; auto.
    intros [i j] Hij. cbn. apply R in Hij as [_ Lj]. apply eq_true_iff_eq. rewrite Nat.ltb_lt, Z.leb_le. auto.
Qed.

Theorem libstdcxx_pairs dim eps edges tab : complex edges -> 2 <= length edges ->
  exists deaths piv ps tab', fp_run libstdcxx_past_end dim eps edges tab =
    Ok (Some (map (fun w => (0, 0%Z, w)) deaths ++ [(0, 0%Z, eps)] ++ all_bars edges 1 (dims dim edges) ps, tab')) /\
  negative edges 1 (piv 1) /\
  forall k, 1 <= k <= dims dim edges ->
    piv (S k) = map snd (ps k) /\
    pairing (map (boundary_without (libstdcxx_skip (piv k) (length (level edges k))) (simplices edges k)) (simplices edges (S k))) (ps k) /\
    (forall i j, In (i, j) (ps k) -> i < length (level edges k) /\ j < length (level edges (S k)) /\
       (filtered edges -> (edge_weight (level edges k) i <= edge_weight (level edges (S k)) j)%Z)).
Proof.
  intros C L. destruct (libstdcxx_run dim eps edges tab C L) as (js & piv & ps & tab' & E & N & <- & St).
  exists (map (edge_weight (level edges 1)) (piv 1)), piv, ps, tab'. split; auto. split; auto. intros k Hk.
  destruct (St k Hk) as (P & E1 & R). split; auto. split; auto. intros i j Hij. destruct (R i j Hij). split; auto. split; auto.
  intros F. eapply paired_weight; eauto. now apply P.
Qed.

Theorem bars_ordered past_end dim eps edges tab lines tab' : complex edges -> filtered edges ->
  (past_end = libstdcxx_past_end \/
   forall k p, 1 <= k < 1 + dims dim edges -> negative edges k p -> harmless past_end p (length (level edges k))) ->
  fp_run past_end dim eps edges tab = Ok (Some (lines, tab')) ->
  forall d b e, In (d, b, e) lines -> 1 <= d -> (b < e)%Z.
Proof.
  intros C F Hh H d b e Hi Hd. destruct (fp_any _ _ _ _ _ _ _ H) as (_ & _ & L2 & _).
  assert (G : exists deaths ps, lines = map (fun w => (0, 0%Z, w)) deaths ++ [(0, 0%Z, eps)] ++ all_bars edges 1 (dims dim edges) ps /\
    forall k, 1 <= k <= dims dim edges -> forall i j, In (i, j) (ps k) -> (edge_weight (level edges k) i <= edge_weight (level edges (S k)) j)%Z).
  { destruct Hh as [->|Hh].
    - destruct (libstdcxx_pairs dim eps edges tab C L2) as (ds & piv & ps & tb & E & _ & Q). rewrite E in H. exists ds, ps.
      split; [congruence|]. intros k Hk i j Hij. apply (Q k Hk) in Hij. tauto.
    - destruct (fp_pairs past_end dim eps edges tab C L2 Hh) as (ds & ps & tb & E & Q). rewrite E in H. exists ds, ps.
      split; [congruence|]. intros k Hk i j Hij. apply (Q k Hk) in Hij. tauto. }
  destruct G as (ds & ps & -> & W). apply in_app_iff in Hi as [Hi|Hi].
  { apply in_map_iff in Hi as (w & E & _). injection E as <- _ _. lia. }
  apply in_app_iff in Hi as [[E|[]]|Hi]; [injection E as <- _ _; lia|].
  unfold all_bars in Hi. apply in_flat_map in Hi as (k & Hk & Hi). apply in_seq in Hk. unfold bars in Hi. apply in_flat_map in Hi as ([i j] & Hij & Hi).
  cbn [fst snd] in Hi. assert (Wk := W k ltac:(lia) i j Hij). unfold edge_weight in Wk.
  destruct (Z.eqb_spec (snd (nth i (level edges k) ([], 0%Z))) (snd (nth j (level edges (S k)) ([], 0%Z)))) as [Q|Q]; [destruct Hi|].
  destruct Hi as [E|[]]. injection E as _ <- <-. lia.
Qed.
