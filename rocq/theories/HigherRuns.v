(* HigherRuns.v -- proofs about the bars of dimension one and above of a run from text to text (C97). *)
From Coq Require Import String Ascii List Arith ZArith Bool Lia Sorted Permutation Relations SpecFloat.
From Verif Require Import Base Spec UtilsModel PartitionProofs ArrayListModel SpecComplex FastModel SpecGraph SpecLinear SpecFast LinearProofs ReductionProofs FastProofs FastRuns ArgModel SpecArgs PipeModel SpecPipe PipeRuns PolygonProofs MainModel SpecMain MainRuns.
From Verif Require Import SpecRobust RobustProofs RobustRuns DoubleModel SpecDouble DoubleProofs DoubleRuns TextRuns.
From Verif Require Import IoModel SpecIo IoProofs TextModel SpecText TextProofs ReadModel SpecRead ReadProofs SpecProgram ProgramRuns NanModel SpecNan NanRuns NanKmeans NanProgram SpecCompare CompareRuns SpecHigher.
Import ListNotations.
Local Open Scope nat_scope.
Local Open Scope list_scope.
Local Notation negative := SpecFast.negative.
Local Notation rank := SpecDouble.rank.

Lemma reports_run dist pe c dim eps data lines : reports dist pe c dim eps data lines ->
  exists E tab, complex E /\ filtered E /\ lists_rips (separation dist data) (close c eps) (length data) (Z.to_nat (top c dim)) E /\
    2 <= length E /\ fp_run pe dim eps E [] = Ok (Some (lines, tab)).
Proof.
  intros (atoi & atof & srt & nc0 & al_reduce & other & args & d & e & p & failed & Hs & Hr & <- & <- & Hd & Hne & Hdata & Hpos & H & ->).
  destruct (default_run_edges dist atoi atof srt pe nc0 al_reduce other args c d e data Hs Hr Hne Hpos Hd) as (E & finish & C & F & L & Er & O).
  rewrite Er in H. clear Er. destruct (fp_run pe (atoi d) (atof e) E []) as [r|] eqn:Er; [|discriminate]. cbn [bind] in H. injection H as <- <-.
  assert (T : 1 <= Z.to_nat (top c (atoi d))) by (destruct c; cbn; lia).
  destruct (rips_levels dist data c (atof e) _ T E L C) as [L2 L0].
  assert (G : 2 <= length E).
  { destruct E as [|e0 [|e1 E]]; [exfalso; apply Hdata, L0; reflexivity|discriminate Er|cbn; lia]. }
  destruct r as [[lines tab]|]; [|apply fp_none in Er; subst E; cbn in G; lia].
  destruct (O (Some (lines, tab))) as [O1 _]. cbn [result] in O1. injection O1 as O1 _. exists E, tab. rewrite <- O1 in Er. auto 9.
Qed.

(* ---- levels of doubles and levels of places *)
Definition decode (E : wgraph) : levels := map (map (fun p : wsimp => (fst p, at_place (snd p)))) E.
Lemma decode_level E k : at_dim (decode E) k = map (fun p : wsimp => (fst p, at_place (snd p))) (level E k).
Proof. unfold at_dim, decode, level. change (@nil (list nat * double)) with (map (fun p : wsimp => (fst p, at_place (snd p))) []). apply map_nth. Qed.
Lemma decode_shapes E k : shapes (decode E) k = simplices E k.
Proof. unfold shapes, simplices. rewrite decode_level, map_map. reflexivity. Qed.
Lemma decode_boundary E k : boundary_at (decode E) k = bmatrix E k.
Proof. unfold boundary_at, bmatrix. now rewrite !decode_shapes. Qed.
Lemma decode_length E k : length (at_dim (decode E) k) = length (level E k).
Proof. rewrite decode_level. apply map_length. Qed.
Lemma decode_negative E k js : ends_classes (decode E) k js <-> negative E k js.
Proof. unfold ends_classes, SpecFast.negative. now rewrite decode_boundary. Qed.
Lemma decode_betti E d b : betti_number (decode E) d b <-> betti E d b.
Proof. unfold betti_number, betti. now rewrite !decode_boundary, decode_length. Qed.

Section Points.
  Variable square : double -> double.
  Hypothesis Sq : squares square.
  Variable c : cx_type.
  Variable cloud : list (list double).
  Hypothesis Fin : forall p x, In p cloud -> In x p -> fits x.
  Hypothesis Len : forall p q, In p cloud -> In q cloud -> length p = length q.
  Variable eps : double.
  Hypothesis Pe : non_negative eps.
  Hypothesis Fe : fits eps.
  Notation data := (map (map to_whole) cloud).
  Notation dist := (coded_dist square (nan_at c)).
  Notation D := (separation dist data).
  Notation sapart := (seen_apart square cloud c).
  Let Ne := number_of _ Pe.

  Lemma close_pair u v : u < length cloud -> v < length cloud -> close c (rank eps) (D u v) ->
    exists w, sapart u v w /\ within c eps w /\ non_negative w /\ fits w /\ D u v = rank w.
  Proof.
    intros Hu Hv C. destruct (seen_value square Sq c cloud Fin Len u v Hu Hv) as (w & A & F & K & S1). rewrite S1 in C. apply (within_place c eps w) in C; auto.
    assert (N := within_number c eps w C). exists w. destruct K as [K|K]; [contradiction|]. rewrite (place_number w N) in S1. auto.
  Qed.
  Lemma pair_close u v w : sapart u v w -> within c eps w -> non_negative w /\ fits w /\ D u v = rank w /\ close c (rank eps) (rank w).
  Proof.
    intros A W. destruct (seen_range square c cloud u v w A) as [Hu Hv]. destruct (seen_value square Sq c cloud Fin Len u v Hu Hv) as (w' & A' & F & K & S1).
    rewrite <- (seen_unique square c cloud u v w w' A A') in *. clear A'. assert (N := within_number c eps w W). destruct K as [K|K]; [contradiction|].
    rewrite (place_number w N) in S1. apply (within_place c eps w) in W; auto. rewrite (place_number w N) in W. auto.
  Qed.
  Lemma widest_diameter s w : (forall v, In v s -> v < length cloud) -> (forall u v, In u s -> In v s -> u < v -> exists w', sapart u v w' /\ within c eps w') ->
    widest square cloud c s w -> diameter D s (rank w) /\ non_negative w /\ fits w.
  Proof.
    intros B P [M R].
    assert (NF : non_negative w /\ fits w).
    { destruct R as [(u & v & Hu & Hv & Huv & A)|[_ ->]]; [|split; [reflexivity|exact I]]. destruct (P u v Hu Hv Huv) as (w' & A' & W'). rewrite (seen_unique square c cloud u v w w' A A').
      destruct (pair_close u v w' A' W') as (N & F & _). auto. }
    split; [|exact NF]. destruct NF as [N F]. split.
    - intros u v Hu Hv Huv. destruct (P u v Hu Hv Huv) as (w' & A' & W'). destruct (pair_close u v w' A' W') as (N' & F' & E & _). rewrite E.
      assert (L := M u v w' Hu Hv Huv A'). rewrite rank_leb in L; auto; try now apply number_of. now apply Z.leb_le.
    - destruct R as [(u & v & Hu & Hv & Huv & A)|[L ->]]; [left|right; split; [exact L|reflexivity]]. exists u, v. do 3 (split; [assumption|]).
      destruct (P u v Hu Hv Huv) as (w' & A' & W'). rewrite (seen_unique square c cloud u v w w' A A'). now destruct (pair_close u v w' A' W') as (_ & _ & E & _).
  Qed.
  Lemma diameter_widest s z : (forall v, In v s -> v < length cloud) -> (forall u v, In u s -> In v s -> u < v -> close c (rank eps) (D u v)) ->
    diameter D s z -> exists w, z = rank w /\ widest square cloud c s w /\ non_negative w /\ fits w.
  Proof.
    intros B P [M R].
    assert (W : exists w, z = rank w /\ non_negative w /\ fits w /\ ((exists u v, In u s /\ In v s /\ u < v /\ sapart u v w) \/ (length s <= 1 /\ w = S754_zero false))).
    { destruct R as [(u & v & Hu & Hv & Huv & A)|[L ->]].
      - destruct (close_pair u v (B u Hu) (B v Hv) (P u v Hu Hv Huv)) as (w & A' & _ & N & F & E). exists w. split; [congruence|]. do 2 (split; [assumption|]). left. exists u, v. auto.
      - exists (S754_zero false). split; [reflexivity|]. split; [reflexivity|]. split; [exact I|]. right. auto. }
    destruct W as (w & -> & N & F & R'). exists w. split; [reflexivity|]. split; [|auto]. split; [|exact R'].
    intros u v w' Hu Hv Huv A. destruct (close_pair u v (B u Hu) (B v Hv) (P u v Hu Hv Huv)) as (w2 & A2 & _ & N2 & F2 & E2). rewrite (seen_unique square c cloud u v w' w2 A A2).
    rewrite rank_leb; auto; try now apply number_of. apply Z.leb_le. rewrite <- E2. now apply M.
  Qed.

  Lemma linked_joined t : is_number eps -> fits eps -> is_number t -> fits t -> forall u v, linked square cloud c eps t u v <-> joined dist data c (rank eps) (rank t) u v.
  Proof.
    intros _ _ Nt Ft u v. unfold linked, joined. rewrite map_length. split.
    - intros (Huv & w & A & W & T). destruct (seen_range _ _ _ _ _ _ A) as [_ Hv]. destruct (pair_close u v w A W) as (N & F & E & C). rewrite E. rewrite rank_leb in T; auto; [|now apply number_of]. apply Z.leb_le in T. auto.
    - intros (Huv & Hv & C & T). destruct (close_pair u v) as (w & A & W & N & F & E); auto; [lia|]. split; [exact Huv|]. exists w. do 2 (split; [assumption|]). rewrite rank_leb; auto; [|now apply number_of]. apply Z.leb_le. lia.
  Qed.

  Variable T : nat.
  Variable E : wgraph.
  Hypothesis Cx : complex E.
  Hypothesis Fl : filtered E.
  Hypothesis Lr : lists_rips D (close c (rank eps)) (length data) T E.

  Lemma real_weight_of k s z : In (s, z) (level E k) -> exists w, z = rank w /\ widest square cloud c s w /\ non_negative w /\ fits w.
  Proof.
    intros H. apply Lr in H as (L & K & (_ & I & B & P) & Di). rewrite map_length in B. now apply diameter_widest.
  Qed.
  Lemma place_back k s z : In (s, z) (level E k) -> rank (at_place z) = z /\ non_negative (at_place z) /\ fits (at_place z).
  Proof. intros H. destruct (real_weight_of k s z H) as (w & -> & _ & N & F). rewrite at_place_rank by auto. auto. Qed.
  Lemma place_within k s z : In (s, z) (level E k) -> within c eps (at_place z) \/ z = 0%Z.
  Proof.
    intros H. assert (PB := place_back k s z H). apply Lr in H as (_ & _ & (_ & _ & B & P) & [_ [(u & v & Hu & Hv & Huv & Q)|[_ ->]]]); [left|now right]. rewrite map_length in B.
    destruct (close_pair u v (B u Hu) (B v Hv) (P u v Hu Hv Huv)) as (w & A' & W & N & F & E'). rewrite <- Q, E', at_place_rank; auto.
  Qed.
  Lemma decode_rips : rips_by_dimension square cloud c eps T (decode E).
  Proof.
    constructor.
    - intros k s w. rewrite decode_level, in_map_iff. split.
      + intros ([s' z] & Q & H). cbn [fst snd] in Q. injection Q as <- <-. destruct (real_weight_of k s' z H) as (w & -> & W & N & F). rewrite at_place_rank by auto.
        apply Lr in H as (L & K & (_ & I & B & P) & Di). rewrite map_length in B. do 4 (split; [assumption|]). split; [|exact W].
        intros u v Hu Hv Huv. destruct (close_pair u v (B u Hu) (B v Hv) (P u v Hu Hv Huv)) as (w' & A' & W' & _). eauto.
      + intros (L & K & I & B & P & W). destruct (widest_diameter s w B P W) as (Di & N & F). exists (s, rank w). cbn [fst snd]. rewrite at_place_rank by auto. split; [reflexivity|].
        apply Lr. split; [exact L|]. split; [exact K|]. split; [|exact Di]. split; [now destruct s|]. split; [exact I|]. split; [now rewrite map_length|].
        intros u v Hu Hv Huv. destruct (P u v Hu Hv Huv) as (w' & A' & W'). destruct (pair_close u v w' A' W') as (_ & _ & -> & C). exact C.
    - intros k. rewrite decode_shapes. apply Cx.
    - intros k. rewrite decode_level. assert (S := fl_sorted _ Fl k). assert (PB : forall s z, In (s, z) (level E k) -> rank (at_place z) = z /\ non_negative (at_place z) /\ fits (at_place z)) by (intros; eapply place_back; eauto).
      revert S PB. generalize (level E k) as l. induction l as [|[s z] l IH]; intros S PB; [constructor|]. cbn [map fst snd]. inversion S as [|? ? S' Fa]; subst. constructor; [apply IH; auto; intros; eapply PB; right; eauto|].
      apply Forall_forall. intros x Hx. apply in_map_iff in Hx as ([s' z'] & <- & Hx). cbn [fst snd]. rewrite Forall_forall in Fa. specialize (Fa _ Hx). unfold by_weight in Fa. cbn [snd] in Fa.
      destruct (PB s z (or_introl eq_refl)) as (E1 & N1 & F1), (PB s' z' (or_intror Hx)) as (E2 & N2 & F2). rewrite rank_leb; auto; try now apply number_of. rewrite E1, E2. now apply Z.leb_le.
    - intros k. unfold decode at 1. rewrite map_length. rewrite decode_level. destruct Lr as [_ L0]. rewrite L0. destruct (level E k); cbn [map]; split; congruence.
  Qed.

  Lemma decode_scale t k : is_number t -> fits t -> at_dim (up_to_scale t (decode E)) k = map (fun p : wsimp => (fst p, at_place (snd p))) (level (at_scale (rank t) E) k).
  Proof.
    intros Nt Ft. unfold at_dim, up_to_scale. change (@nil (list nat * double)) with (filter (fun s : list nat * double => SFleb (snd s) t) []). rewrite map_nth.
    change (nth k (decode E) []) with (at_dim (decode E) k). rewrite decode_level, level_at_scale.
    assert (PB : forall s z, In (s, z) (level E k) -> rank (at_place z) = z /\ non_negative (at_place z) /\ fits (at_place z)) by (intros; eapply place_back; eauto).
    unfold up_to. revert PB. generalize (level E k) as l. induction l as [|[s z] l IH]; intros PB; [reflexivity|]. cbn [map filter fst snd]. destruct (PB s z (or_introl eq_refl)) as (E1 & N1 & F1).
    rewrite rank_leb; auto; try now apply number_of. rewrite E1. destruct (z <=? rank t)%Z; cbn [map fst snd]; rewrite IH; auto; intros; eapply PB; right; eauto.
  Qed.
  Lemma scale_shapes t k : is_number t -> fits t -> shapes (up_to_scale t (decode E)) k = simplices (at_scale (rank t) E) k.
  Proof. intros Nt Ft. unfold shapes, simplices. rewrite decode_scale, map_map by auto. reflexivity. Qed.
  Lemma scale_betti t d b : is_number t -> fits t -> betti_number (up_to_scale t (decode E)) d b <-> betti (at_scale (rank t) E) d b.
  Proof. intros Nt Ft. unfold betti_number, betti, boundary_at, bmatrix. rewrite !scale_shapes, decode_scale, map_length by auto. reflexivity. Qed.
  Lemma alive_coded ds bars d t : sound ds bars -> is_number t -> fits t -> 1 <= d -> alive d (rank t) (coded_lines ds eps bars) = alive_bars d t bars.
  Proof.
    intros [_ S] Nt Ft Hd. unfold coded_lines. rewrite alive_app. assert (Z : alive d (rank t) (map (fun w => (0, 0%Z, rank w)) (ds ++ [eps])) = 0).
    { rewrite <- (map_map rank (fun w => (0, 0%Z, w))). now apply alive_zero. }
    rewrite Z. cbn [Nat.add]. unfold alive, alive_bars. induction bars as [|[[k b] w] bars IH]; [reflexivity|]. cbn [map filter fst snd].
    destruct (S k b w (or_introl eq_refl)) as (_ & [N F] & N' & F'). rewrite (rank_leb b t), (rank_ltb t w); auto; try now apply number_of.
    destruct ((k =? d) && (rank b <=? rank t)%Z && (rank t <? rank w)%Z); cbn [length]; rewrite IH; auto; intros; eapply S; right; eauto.
  Qed.
  Lemma scale_all : at_scale (rank eps) E = E.
  Proof.
    apply at_scale_top. intros k s w H. apply Lr in H as (_ & _ & (_ & _ & B & P) & [_ [(u & v & Hu & Hv & Huv & Q)|[_ ->]]]).
    - specialize (P u v Hu Hv Huv). rewrite Q in P. unfold close in P. destruct c; lia.
    - now apply rank_non_negative.
  Qed.
End Points.

Lemma high_lines zs eps new : (forall l, In l new -> 1 <= fst (fst l)) ->
  filter (fun l : nat * Z * Z => negb (fst (fst l) =? 0)) (map (fun w => (0, 0%Z, w)) zs ++ [(0, 0%Z, eps)] ++ new) = new.
Proof.
  intros H. rewrite !filter_app. cbn [filter fst]. cbn [Nat.eqb negb app]. rewrite CompareRuns.filter_none, CompareRuns.filter_all; [reflexivity| |].
  - intros l Hl. specialize (H l Hl). destruct (Nat.eqb_spec (fst (fst l)) 0); [lia|reflexivity].
  - intros l Hl. apply in_map_iff in Hl as (w & <- & _). reflexivity.
Qed.
Lemma all_bars_dim E n ps l : In l (all_bars E 1 n ps) -> 1 <= fst (fst l).
Proof.
  unfold all_bars. rewrite in_flat_map. intros (k & Hk & H). apply in_seq in Hk. unfold bars in H. apply in_flat_map in H as (p & _ & H).
  destruct (_ =? _)%Z in H; [destruct H|]. destruct H as [<-|[]]. cbn [fst]. lia.
Qed.

Section Results.
  Variable square : double -> double.
  Hypothesis Sq : squares square.

  Lemma coded_high ds eps bars zs E n ps z : sound ds bars -> coded_lines ds eps bars = map (fun w => (0, 0%Z, w)) zs ++ [(0, 0%Z, z)] ++ all_bars E 1 n ps ->
    map code_bar bars = all_bars E 1 n ps /\ map rank ds = zs.
  Proof.
    intros S Q. assert (Q' := Q). unfold coded_lines in Q. rewrite map_app, <- app_assoc in Q. rewrite <- (map_map rank (fun w => (0, 0%Z, w))) in Q. split.
    - apply (f_equal (filter (fun l : nat * Z * Z => negb (fst (fst l) =? 0)))) in Q. cbn [map] in Q. rewrite !high_lines in Q; [exact Q|intros l Hl; eapply all_bars_dim; eauto|].
      intros l Hl. apply in_map_iff in Hl as ([[k b] w] & <- & Hl). cbn [fst]. now apply (proj2 S) in Hl.
    - apply (f_equal deaths) in Q'. rewrite deaths_lines, (deaths_coded _ _ _ S) in Q'. exact Q'.
  Qed.

  Theorem higher_pairs c dim eps cloud o files : results square libstdcxx_past_end c dim eps cloud o (Ok files) ->
    exists deaths bars K piv ps, shows square c eps cloud o files deaths bars /\ rips_by_dimension square cloud c eps (Z.to_nat (top c dim)) K /\
      deaths = map (fun j => snd (nth j (at_dim K 1) ([], S754_nan))) (piv 1) /\ ends_classes K 1 (piv 1) /\
      bars = flat_map (fun k => pair_bars K k (ps k)) (seq 1 (higher_dims dim K)) /\
      forall k, 1 <= k <= higher_dims dim K -> piv (S k) = map snd (ps k) /\
        pairing (map (boundary_without (libstdcxx_skip (piv k) (length (at_dim K k))) (shapes K k)) (shapes K (S k))) (ps k).
  Proof.
    intros R. destruct (result_coded square Sq _ _ _ _ _ _ _ R) as (ds & bars & S & C & So & [Pe Fe] & Fin & Len).
    destruct (reports_run _ _ _ _ _ _ _ C) as (E & tab & Cx & Fl & Lr & L2 & Er).
    destruct (libstdcxx_run dim (rank eps) E [] Cx L2) as (js & piv & ps & tab' & E1 & E2 & E3 & E4). rewrite E1 in Er. injection Er as Er _. symmetry in Er.
    destruct (coded_high _ _ _ _ _ _ _ _ So Er) as [Hb Hd].
    assert (PB : forall k s z, In (s, z) (level E k) -> rank (at_place z) = z /\ non_negative (at_place z) /\ fits (at_place z)).
    { intros k s z H. exact (place_back square Sq c cloud Fin Len eps Pe Fe _ E Lr k s z H). }
    assert (Nk : higher_dims dim (decode E) = dims dim E) by (unfold higher_dims, dims, decode; now rewrite map_length).
    assert (AT : forall k i, i < length (level E k) -> snd (nth i (at_dim (decode E) k) ([], S754_nan)) = at_place (snd (nth i (level E k) ([], 0%Z))) /\
                  (rank (at_place (snd (nth i (level E k) ([], 0%Z)))) = snd (nth i (level E k) ([], 0%Z)) /\ non_negative (at_place (snd (nth i (level E k) ([], 0%Z)))) /\ fits (at_place (snd (nth i (level E k) ([], 0%Z)))))).
    { intros k i Hi. rewrite decode_level. destruct (nth_error (level E k) i) as [[s z]|] eqn:Q; [|apply nth_error_None in Q; lia].
      rewrite (nth_error_nth _ _ _ Q), (nth_error_nth _ _ _ (map_nth_error _ _ _ Q)). cbn [fst snd]. split; [reflexivity|]. apply (PB k s). eapply nth_error_In; eauto. }
    exists ds, bars, (decode E), piv, ps. split; [exact S|]. split; [apply (decode_rips square Sq c cloud Fin Len eps Pe Fe _ E Cx Fl Lr)|]. subst js.
    assert (Bp : forall j, In j (piv 1) -> j < length (level E 1)).
    { intros j Hj. apply E2, fresh_lt in Hj. unfold bmatrix, boundary_matrix, simplices in Hj. now rewrite !map_length in Hj. }
    split; [|split; [now apply decode_negative|split]].
    - apply ranks_inj; [apply So| |].
      + intros w Hw. apply in_map_iff in Hw as (j & <- & Hj). destruct (AT 1 j (Bp j Hj)) as (-> & _ & N & F). auto.
      + rewrite Hd, map_map. apply map_ext_in. intros j Hj. destruct (AT 1 j (Bp j Hj)) as (-> & Q & _). rewrite Q. reflexivity.
    - rewrite Nk. assert (Db : bars = map decode_bar (map code_bar bars)).
      { rewrite map_map. rewrite <- (map_id bars) at 1. apply map_ext_in. intros [[j b] w] H. destruct (proj2 So j b w H) as (_ & [N F] & N' & F'). unfold code_bar, decode_bar. cbn [fst snd]. now rewrite !at_place_rank. }
      rewrite Db, Hb. unfold all_bars. clear - E4 AT.
      assert (G : forall l, (forall k, In k l -> 1 <= k <= dims dim E) -> map decode_bar (flat_map (fun k => SpecFast.bars k (level E k) (level E (S k)) (ps k)) l) = flat_map (fun k => pair_bars (decode E) k (ps k)) l).
      { induction l as [|k l IH]; intros Hl; [reflexivity|]. cbn [flat_map]. rewrite map_app, IH by (intros; apply Hl; now right). f_equal. destruct (E4 k (Hl k (or_introl eq_refl))) as (_ & _ & R).
        unfold SpecFast.bars, pair_bars. revert R. generalize (ps k) as q. induction q as [|[i j] q IHq]; intros R; [reflexivity|]. cbn [flat_map fst snd]. rewrite map_app, IHq by (intros; apply R; now right). f_equal.
        destruct (R i j (or_introl eq_refl)) as [Hi Hj]. destruct (AT k i Hi) as (-> & Q1 & N1 & F1), (AT (S k) j Hj) as (-> & Q2 & N2 & F2). rewrite rank_eqb; auto; try now apply number_of. rewrite Q1, Q2.
        destruct (_ =? _)%Z; reflexivity. }
      apply G. intros k Hk. apply in_seq in Hk. lia.
    - intros k Hk. rewrite Nk in Hk. destruct (E4 k Hk) as (P & Q & _). split; [exact Q|]. rewrite decode_length, !decode_shapes. exact P.
  Qed.

  Theorem higher_counts pe c dim eps cloud o files : results square pe c dim eps cloud o (Ok files) ->
    exists deaths bars K, shows square c eps cloud o files deaths bars /\ rips_by_dimension square cloud c eps (Z.to_nat (top c dim)) K /\
      ((forall k js, 1 <= k <= higher_dims dim K -> ends_classes K k js -> harmless pe js (length (at_dim K k))) ->
       forall d, 1 <= d <= higher_dims dim K ->
         (forall t, is_number t -> fits t -> exists b, betti_number (up_to_scale t K) d b) /\
         (forall t b, is_number t -> fits t -> betti_number (up_to_scale t K) d b -> alive_bars d t bars <= b) /\
         ((forall t b, is_number t -> fits t -> betti_number (up_to_scale t K) d b -> alive_bars d t bars = b) <-> betti_number K d 0)).
  Proof.
    intros R. destruct (result_coded square Sq _ _ _ _ _ _ _ R) as (ds & bars & S & C & So & [Pe Fe] & Fin & Len).
    destruct (reports_run _ _ _ _ _ _ _ C) as (E & tab & Cx & Fl & Lr & L2 & Er).
    assert (Nk : higher_dims dim (decode E) = dims dim E) by (unfold higher_dims, dims, decode; now rewrite map_length).
    exists ds, bars, (decode E). split; [exact S|]. split; [apply (decode_rips square Sq c cloud Fin Len eps Pe Fe _ E Cx Fl Lr)|]. rewrite Nk. intros Hh d Hd.
    destruct (betti_curve pe dim (rank eps) E [] (coded_lines ds eps bars) tab d Cx Fl) as (B0 & B1 & B2); [|exact Er|exact Hd|].
    { intros k p Hk Np. rewrite <- decode_length. apply Hh; [lia|]. now apply decode_negative. }
    assert (SB : forall t b, is_number t -> fits t -> betti_number (up_to_scale t (decode E)) d b <-> betti (at_scale (rank t) E) d b).
    { intros t b Nt Ft. exact (scale_betti square Sq c cloud Fin Len eps Pe Fe _ E Lr t d b Nt Ft). }
    assert (AL : forall t, is_number t -> fits t -> alive d (rank t) (coded_lines ds eps bars) = alive_bars d t bars).
    { intros t Nt Ft. apply alive_coded; auto. lia. }
    split; [|split; [|split]].
    - intros t Nt Ft. destruct (B0 (rank t)) as (b & Hb). exists b. now apply SB.
    - intros t b Nt Ft H. rewrite <- AL by auto. apply B1. now apply SB.
    - intros G. rewrite decode_betti. assert (Ne := number_of _ Pe). assert (SA : at_scale (rank eps) E = E) by (eapply scale_all; eauto).
      destruct (B0 (rank eps)) as (b & Hb). assert (Q := G eps b Ne Fe (proj2 (SB eps b Ne Fe) Hb)).
      rewrite SA in Hb. enough (Z : alive_bars d eps bars = 0) by (rewrite Z in Q; now subst b).
      unfold alive_bars. rewrite CompareRuns.filter_none; [reflexivity|]. intros [[k b0] w] Hw. cbn [fst snd]. apply andb_false_iff. right.
      destruct (bo_bars _ _ _ _ _ _ (proj2 S) k b0 w Hw) as (_ & _ & _ & W & _). destruct (proj2 So k b0 w Hw) as (_ & _ & N & F).
      apply within_close in W; auto; [|now apply number_of]. rewrite rank_ltb; auto; [|now apply number_of]. apply Z.ltb_ge. destruct c; cbn [close] in W; lia.
    - intros B t b Nt Ft H. rewrite <- AL by auto. apply B2; [now apply decode_betti|now apply SB].
  Qed.

  Theorem polygon_lost c dim eps cloud o files t : results square libstdcxx_past_end c dim eps cloud o (Ok files) ->
    is_number t -> fits t -> polygon square cloud c eps t ->
    exists deaths bars K, shows square c eps cloud o files deaths bars /\ rips_by_dimension square cloud c eps (Z.to_nat (top c dim)) K /\
      (3 < length cloud -> betti_number (up_to_scale t K) 1 1) /\
      forall b e, In (1, b, e) bars -> SFltb t b = true.
  Proof.
    intros R Nt Ft [O Dg]. destruct (result_coded square Sq _ _ _ _ _ _ _ R) as (ds & bars & S & C & So & [Pe Fe] & Fin & Len).
    destruct (reports_run _ _ _ _ _ _ _ C) as (E & tab & Cx & Fl & Lr & L2 & Er).
    assert (Ne := number_of _ Pe).
    apply (seen_clusters_place square Sq c cloud Fin Len eps t 1 Ne Fe Nt Ft) in O.
    assert (Jn := linked_joined square Sq c cloud Fin Len eps Pe Fe t Ne Fe Nt Ft).
    assert (Dg' : forall v, v < length (map (map to_whole) cloud) -> exists a b, a <> b /\ forall x, next_to (coded_dist square (nan_at c)) (map (map to_whole) cloud) c (rank eps) (rank t) v x <-> x = a \/ x = b).
    { intros v Hv. rewrite map_length in Hv. destruct (Dg v Hv) as (a & b & Hab & H). exists a, b. split; [exact Hab|]. intros x. unfold next_to. rewrite <- !Jn. apply H. }
    assert (HT : 1 <= Z.to_nat (top c dim)).
    { destruct (level E 1) as [|[s w] l] eqn:Q.
      - exfalso. destruct Lr as [_ L0]. specialize (proj1 (L0 1)). rewrite Q. intros X. now destruct (X ltac:(lia)).
      - assert (H : In (s, w) (level E 1)) by (rewrite Q; now left). apply Lr in H. lia. }
    assert (Er' := Er).
    destruct (libstdcxx_run dim (rank eps) E [] Cx L2) as (js & piv & ps & tab' & E1 & E2 & E3 & E4). rewrite E1 in Er. injection Er as Er _. symmetry in Er.
    destruct (coded_high _ _ _ _ _ _ _ _ So Er) as [Hb Hd]. subst js.
    destruct (complex_vertices _ Cx) as (_ & NV & _ & GV).
    assert (Cn : forall s k, clusters (coded_dist square (nan_at c)) (map (map to_whole) cloud) c (rank eps) s k ->
               count_le s (map (edge_weight (level E 1)) (piv 1)) + k = length (map (map to_whole) cloud)).
    { intros s k K. destruct (dim0_components _ _ _ _ _ _ _ Cx (fl_sorted _ Fl 1) Er') as (zs & Q & H).
      assert (Z : zs = map (edge_weight (level E 1)) (piv 1)).
      { rewrite <- Hd. apply deaths_dim0 in Q. rewrite (deaths_coded _ _ _ So) in Q. now symmetry. }
      subst zs. destruct (KruskalProofs.components_exist _ _ NV GV) as (c' & K').
      apply (rips_clusters _ _ _ _ _ HT E Lr Cx) in K. destruct (H s k c' K K') as (H1 & _). rewrite (rips_count _ _ _ _ _ HT E Lr Cx) in H1. exact H1. }
    exists ds, bars, (decode E). split; [exact S|]. split; [apply (decode_rips square Sq c cloud Fin Len eps Pe Fe _ E Cx Fl Lr)|]. split.
    - intros H4. apply (scale_betti square Sq c cloud Fin Len eps Pe Fe _ E Lr t 1 1 Nt Ft).
      eapply (one_loop _ _ _ _ _ HT E Lr Cx Fl (rank t) Dg' O (piv 1) E2 _ eq_refl Cn). now rewrite map_length.
    - intros b e H. destruct (proj2 So 1 b e H) as (_ & [Nb Fb] & _). rewrite rank_ltb by (auto; now apply number_of). apply Z.ltb_lt.
      assert (H' : In (1, rank b, rank e) (all_bars E 1 (dims dim E) ps)) by (rewrite <- Hb; apply in_map_iff; exists (1, b, e); auto).
      unfold all_bars in H'. apply in_flat_map in H' as (k & Hk & H'). apply in_seq in Hk. assert (Hk' : 1 <= k <= dims dim E) by lia. unfold SpecFast.bars in H'. apply in_flat_map in H' as ([i j] & Hij & H').
      destruct (E4 k Hk') as (P & _ & B). destruct (B i j Hij) as [Bi _]. cbn [fst snd] in H'. destruct (_ =? _)%Z; [destruct H'|]. destruct H' as [Q|[]]. injection Q as -> Q _. rewrite <- Q.
      apply (heavier _ _ _ _ _ HT E Lr Cx Fl (rank t) Dg' i); [|exact Bi].
      apply (loop_lost _ _ _ _ _ HT E Lr Cx Fl (rank t) Dg' O (piv 1) E2 _ eq_refl Cn (ps 1) P i j Hij).
  Qed.
End Results.
