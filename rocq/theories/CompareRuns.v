(* CompareRuns.v -- proofs about two runs of the program from text to text (C96). *)
From Coq Require Import String Ascii List Arith ZArith Bool Lia Sorted Permutation Relations SpecFloat.
From Verif Require Import Base Spec UtilsModel PartitionProofs ArrayListModel SpecComplex FastModel SpecGraph SpecFast ArgModel SpecArgs PipeModel SpecPipe PipeRuns MainModel SpecMain MainRuns.
From Verif Require Import SpecRobust RobustProofs RobustRuns DoubleModel SpecDouble DoubleProofs DoubleRuns TextRuns.
From Verif Require Import IoModel SpecIo IoProofs TextModel SpecText TextProofs ReadModel SpecRead ReadProofs SpecProgram ProgramRuns NanModel SpecNan NanRuns NanKmeans NanProgram SpecCompare.
Import ListNotations.
Local Open Scope nat_scope.
Local Open Scope list_scope.

Lemma rank_inj x y : non_negative x -> non_negative y -> fits x -> fits y -> rank x = rank y -> x = y.
Proof.
  intros Nx Ny Fx Fy E. rewrite <- (at_place_rank x Nx Fx), <- (at_place_rank y Ny Fy). now rewrite E.
Qed.
Lemma ranks_inj l l' : (forall w, In w l -> non_negative w /\ fits w) -> (forall w, In w l' -> non_negative w /\ fits w) -> map rank l = map rank l' -> l = l'.
Proof.
  revert l'. induction l as [|x l IH]; intros [|y l'] H H' E; try discriminate; [reflexivity|]. cbn [map] in E. injection E as E1 E2. f_equal.
  - destruct (H x (or_introl eq_refl)), (H' y (or_introl eq_refl)). now apply rank_inj.
  - apply IH; auto; intros w Hw; [apply H|apply H']; now right.
Qed.

(* ---- lines on coded points *)
Lemma filter_none {A} (p : A -> bool) l : (forall x, In x l -> p x = false) -> filter p l = [].
Proof. induction l as [|x l IH]; cbn [filter]; intros H; [reflexivity|]. rewrite H by now left. apply IH. intros y Hy. apply H. now right. Qed.
Lemma filter_all {A} (p : A -> bool) l : (forall x, In x l -> p x = true) -> filter p l = l.
Proof. induction l as [|x l IH]; cbn [filter]; intros H; [reflexivity|]. rewrite H by now left. f_equal. apply IH. intros y Hy. apply H. now right. Qed.
Lemma dim0_coded ds eps bars : sound ds bars -> dim0 (coded_lines ds eps bars) = map (fun w => (0, 0%Z, rank w)) (ds ++ [eps]).
Proof.
  intros [_ S]. unfold dim0, coded_lines. rewrite filter_app, filter_all, filter_none; [apply app_nil_r| |].
  - intros x H. apply in_map_iff in H as ([[k b] w] & <- & H). cbn [fst snd]. destruct (S k b w H) as [K _]. apply Nat.eqb_neq. lia.
  - intros x H. apply in_map_iff in H as (w & <- & _). reflexivity.
Qed.
Lemma deaths_coded ds eps bars : sound ds bars -> deaths (coded_lines ds eps bars) = map rank ds.
Proof. intros S. apply deaths_dim0 with (eps := rank eps). rewrite (dim0_coded _ _ _ S), map_app, map_map. reflexivity. Qed.
Definition code_bar (l : nat * double * double) : nat * Z * Z := (fst (fst l), rank (snd (fst l)), rank (snd l)).
Definition decode_bar (l : nat * Z * Z) : nat * double * double := (fst (fst l), at_place (snd (fst l)), at_place (snd l)).
Lemma of_dim_coded ds eps bars k : of_dim (S k) (coded_lines ds eps bars) = map code_bar (bars_in (S k) bars).
Proof.
  unfold of_dim, coded_lines, bars_in. rewrite filter_app, filter_none; cbn [app].
  - induction bars as [|[[j b] w] bars IH]; [reflexivity|]. cbn [map filter fst snd]. destruct (j =? S k); cbn [map]; now rewrite IH.
  - intros x H. apply in_map_iff in H as (w & <- & _). reflexivity.
Qed.
Lemma decode_bars ds bars k : sound ds bars -> map decode_bar (map code_bar (bars_in k bars)) = bars_in k bars.
Proof.
  intros [_ S]. rewrite map_map. rewrite <- (map_id (bars_in k bars)) at 2. apply map_ext_in. intros [[j b] w] H. apply filter_In in H as [H _].
  destruct (S j b w H) as (_ & [N F] & N' & F'). unfold code_bar, decode_bar. cbn [fst snd]. now rewrite !at_place_rank.
Qed.

(* ---- distances *)
Lemma distance_sym square a b : squares square -> length a = length b -> d_distance square a b = d_distance square b a.
Proof. intros Sq L. rewrite !distance_value by auto. now rewrite (sq_diffs_sym square Sq). Qed.
Lemma distance_self square a : squares square -> Forall is_finite a -> d_distance square a a = Ok (S754_zero false).
Proof.
  intros Sq F. rewrite distance_value by auto. rewrite (sq_diffs_self square Sq a F). f_equal.
  assert (E : fold_left d_add (repeat (S754_zero false) (length a)) d_zero = S754_zero false); [|now rewrite E]. induction (length a) as [|n IH]; [reflexivity|exact IH].
Qed.
Section Cloud.
  Variable square : double -> double.
  Hypothesis Sq : squares square.
  Variable cloud : list (list double).
  Hypothesis Len : forall p q, In p cloud -> In q cloud -> length p = length q.
  Notation data := (map (map to_whole) cloud).
  Lemma coded_symmetric nan : symmetric_on (coded_dist square nan) data.
  Proof.
    intros u v. unfold separation. rewrite !nth_error_map. destruct (nth_error cloud u) as [x|] eqn:Ex, (nth_error cloud v) as [y|] eqn:Ey; try reflexivity. cbn [option_map].
    unfold coded_dist. rewrite distance_sym; auto. rewrite !map_length. apply Len; eapply nth_error_In; eauto.
  Qed.
  Lemma seen_symmetric c u v w : seen_apart square cloud c u v w -> seen_apart square cloud c v u w.
  Proof.
    intros (x & (a & b & A & B & D) & ->). exists x. split; [|reflexivity]. exists b, a. split; [exact B|]. split; [exact A|]. rewrite <- D. apply distance_sym; auto. apply Len; eapply nth_error_In; eauto.
  Qed.
  Hypothesis Fin : forall p x, In p cloud -> In x p -> fits x.
  Lemma coded_distinct c : all_distances_differ square cloud c -> distinct_distances (coded_dist square (nan_at c)) data.
  Proof.
    intros D u v u' v' H1 H2 H3 H4 E. rewrite map_length in *.
    destruct (seen_value square Sq c cloud Fin Len u v ltac:(lia) ltac:(lia)) as (w & A & F & K & S1).
    destruct (seen_value square Sq c cloud Fin Len u' v' ltac:(lia) ltac:(lia)) as (w' & A' & F' & K' & S2).
    rewrite S1, S2 in E. assert (W : w = w').
    { destruct K as [->|K], K' as [->|K']; [reflexivity| | |].
      - exfalso. assert (B := rank_bound w' F'). rewrite (place_number w' (number_of _ K')) in E. cbn [place] in E. lia.
      - exfalso. assert (B := rank_bound w F). rewrite (place_number w (number_of _ K)) in E. cbn [place] in E. lia.
      - rewrite !place_number in E by now apply number_of. now apply rank_inj. }
    subst w'. exact (D u v u' v' w H1 H3 A A').
  Qed.
End Cloud.
Lemma near_permuted square cloud cloud' c eps : squares square -> (forall p q, In p cloud' -> In q cloud' -> length p = length q) -> Permutation cloud cloud' ->
  (exists w, near_pair square cloud c eps w) -> exists w, near_pair square cloud' c eps w.
Proof.
  intros Sq Len P (w & W & u & v & Huv & x & (a & b & A & B & D) & ->). exists (seen c x). split; [exact W|].
  destruct (proj1 (Permutation_nth_error _ _) (Permutation_sym P)) as (_ & f & If & Hf).
  rewrite Hf in A, B. assert (N : f u <> f v) by (intros E; apply If in E; lia).
  assert (S1 : seen_apart square cloud' c (f u) (f v) (seen c x)) by (exists x; split; [exists a, b; auto|reflexivity]).
  destruct (Nat.lt_ge_cases (f u) (f v)) as [H|H]; [exists (f u), (f v); auto|exists (f v), (f u)]. split; [lia|]. now apply seen_symmetric.
Qed.

(* ---- runs on coded points *)
Lemma close_dec c eps w : {close c eps w} + {~ close c eps w}.
Proof. destruct c; cbn [close]; [apply Z_lt_dec|apply Z_le_dec]. Qed.
Lemma pair_dec dist (data : list (list Z)) c eps :
  {exists u v, u < v /\ v < length data /\ close c eps (separation dist data u v)} + {~ exists u v, u < v /\ v < length data /\ close c eps (separation dist data u v)}.
Proof.
  destruct (Exists_dec (fun p : nat * nat => fst p < snd p /\ close c eps (separation dist data (fst p) (snd p))) (list_prod (seq 0 (length data)) (seq 0 (length data)))) as [H|H].
  - intros [u v]. cbn [fst snd]. destruct (lt_dec u v), (close_dec c eps (separation dist data u v)); [left|right|right|right]; tauto.
  - left. apply Exists_exists in H as ([u v] & H & H1 & H2). apply in_prod_iff in H as [_ H]. apply in_seq in H. exists u, v. cbn [fst snd] in *. split; [auto|]. split; [lia|auto].
  - right. intros (u & v & H1 & H2 & H3). apply H, Exists_exists. exists (u, v). split; [apply in_prod_iff; split; apply in_seq; lia|]. auto.
Qed.
Lemma reports_permuted dist pe c dim eps data data' lines : symmetric_on dist data' -> Permutation data data' -> reports dist pe c dim eps data lines ->
  exists lines', reports dist libstdcxx_past_end c dim eps data' lines'.
Proof.
  intros S P (atoi & atof & srt & nc0 & al_reduce & other & args & d & e & p & failed & Hs & Hr & Ed & Ee & Hd & Hne & Hdata & Hpos & H & ->).
  assert (Hne' : forall x, In x data' -> x <> []) by (intros x Hx; apply Hne, (Permutation_in _ (Permutation_sym P)), Hx).
  assert (Hdata' : data' <> []) by (intros ->; apply Hdata, Permutation_nil, Permutation_sym, P).
  destruct (proj2 (default_undefined dist atoi atof srt libstdcxx_past_end nc0 al_reduce other args c d e data' Hs Hr Hne' Hpos ltac:(now rewrite Ed))) as (q & Q).
  - right. destruct (pair_dec dist data c (atof e)) as [(u & v & Huv & Hv & C)|N].
    + destruct (permutation_isometry dist data data' P) as (f & L & Bf & If & I). assert (N : f u <> f v) by (intros E; apply If in E; lia). rewrite <- I in C by lia.
      assert (B1 := Bf u ltac:(lia)). assert (B2 := Bf v Hv). rewrite L.
      destruct (Nat.lt_ge_cases (f u) (f v)) as [G|G]; [exists (f u), (f v); auto|exists (f v), (f u)]. split; [lia|]. split; [lia|]. now rewrite S.
    + rewrite (proj1 (default_undefined dist atoi atof srt pe nc0 al_reduce other args c d e data Hs Hr Hne Hpos ltac:(now rewrite Ed)) Hdata N) in H. discriminate.
  - exists (pk_output q), atoi, atof, srt, nc0, al_reduce, other, args, d, e, q, []. auto 15.
Qed.
Lemma more_points dist pe pe' c dim dim' eps data extra data' lines lines' :
  symmetric_on dist data' -> symmetric_on dist (data ++ extra) -> Permutation data' (data ++ extra) ->
  reports dist pe c dim eps data lines -> reports dist pe' c dim' eps data' lines' ->
  forall k, k < length (deaths lines) -> k < length (deaths lines') /\ (nth k (deaths lines') 0 <= nth k (deaths lines) 0)%Z.
Proof.
  intros S' S P R R'. destruct (reports_permuted _ _ _ _ _ _ _ _ S P R') as (l2 & R2).
  assert (E := dim0_permutation dist pe' libstdcxx_past_end c dim' dim' eps data' (data ++ extra) lines' l2 S' S P R' R2).
  assert (D : deaths lines' = deaths l2) by (unfold deaths; now rewrite E). rewrite D. exact (dim0_more_points dist pe libstdcxx_past_end c dim dim' eps data extra lines l2 R R2).
Qed.

(* ---- a point twice *)
Lemma classes_extend dist data p i s m : symmetric_on dist data -> (forall x y, (0 <= dist x y)%Z) -> nth_error data i = Some p -> dist p p = 0%Z -> symmetric_on dist (data ++ [p]) -> (0 <= s)%Z ->
  classes (seq 0 (length data)) (link dist data s) m -> classes (seq 0 (length (data ++ [p]))) (link dist (data ++ [p]) s) m.
Proof.
  intros Sy Hpos Hi Hp Sy' Hs (reps & L & N & I & U & T). assert (Li : i < length data) by (apply nth_error_Some; congruence).
  assert (Ln : length (data ++ [p]) = S (length data)) by (rewrite app_length; cbn; lia). rewrite Ln.
  assert (Sn : forall u, u < length data -> separation dist (data ++ [p]) u (length data) = match nth_error data u with Some x => dist x p | None => 0%Z end).
  { intros u Hu. unfold separation. rewrite (nth_error_app1 data [p] Hu), (nth_error_app2 data [p]) by lia. rewrite Nat.sub_diag. cbn [nth_error]. now destruct (nth_error data u). }
  set (g := fun u => if u =? length data then i else u).
  assert (G : forall u v, link dist (data ++ [p]) s u v -> link dist data s (g u) (g v)).
  { apply rst_image. intros u v (Huv & Hv & D). rewrite Ln in Hv. unfold g. destruct (Nat.eqb_spec u (length data)); [lia|]. destruct (Nat.eqb_spec v (length data)) as [->|Nv].
    - rewrite Sn in D by lia. destruct (Nat.eq_dec u i) as [->|Nu]; [apply rst_refl|]. apply linked_any; auto. unfold separation. rewrite Hi.
      destruct (nth_error data u); [exact D|exact Hs].
    - apply rst_step. split; [auto|]. split; [lia|]. rewrite <- (separation_app dist data [p]) by lia. exact D. }
  exists reps. split; [exact L|]. split; [exact N|]. split; [intros x Hx; apply I in Hx; apply in_seq in Hx; apply in_seq; lia|]. split.
  - intros x y Hx Hy R. apply U; auto. apply G in R. unfold g in R. assert (Ix := I x Hx). assert (Iy := I y Hy). apply in_seq in Ix, Iy.
    destruct (Nat.eqb_spec x (length data)); [lia|]. destruct (Nat.eqb_spec y (length data)); [lia|]. exact R.
  - assert (M : forall x y, link dist data s x y -> link dist (data ++ [p]) s x y).
    { apply rst_mono. intros x y (H1 & H2 & H3). apply rst_step. split; [auto|]. split; [lia|]. rewrite separation_app; auto; lia. }
    intros v Hv. apply in_seq in Hv. destruct (Nat.eq_dec v (length data)) as [->|Nv].
    + destruct (T i) as (r & Hr & Rr); [apply in_seq; lia|]. exists r. split; [auto|]. eapply rst_trans; [|apply M, Rr]. apply linked_any; auto; [lia|lia|lia|].
      rewrite Sy', Sn by auto. rewrite Hi, Hp. exact Hs.
    + destruct (T v) as (r & Hr & Rr); [apply in_seq; lia|]. eauto.
Qed.
Lemma twice_deaths dist c eps data p ds ds' : symmetric_on dist data -> symmetric_on dist (data ++ [p]) -> (forall x y, (0 <= dist x y)%Z) -> In p data -> dist p p = 0%Z -> close c eps 0%Z ->
  merges dist data (reach c eps) ds -> merges dist (data ++ [p]) (reach c eps) ds' -> ds' = 0%Z :: ds.
Proof.
  intros Sy Sy' Hpos Hp Hpp Hc M M'. apply In_nth_error in Hp as (i & Hi). apply close_reach in Hc.
  assert (Pos : forall w, In w ds -> (0 <= w)%Z).
  { intros w Hw. destruct (mg_real _ _ _ _ M w Hw) as (u & v & _ & _ & <-). unfold separation. destruct (nth_error data u), (nth_error data v); try lia. apply Hpos. }
  assert (Pos' : forall w, In w ds' -> (0 <= w)%Z).
  { intros w Hw. destruct (mg_real _ _ _ _ M' w Hw) as (u & v & _ & _ & <-). unfold separation. destruct (nth_error (data ++ [p]) u), (nth_error (data ++ [p]) v); try lia. apply Hpos. }
  apply sorted_counts; [apply M'|constructor; [apply M|apply Forall_forall; exact Pos]|]. intros t.
  destruct (Z_lt_le_dec t 0) as [H|H].
  - assert (Z0 : forall l, (forall w, In w l -> (0 <= w)%Z) -> count_le t l = 0).
    { intros l Hl. unfold count_le. rewrite filter_none; [reflexivity|]. intros w Hw. apply Z.leb_gt. specialize (Hl w Hw). lia. }
    rewrite !Z0; auto. intros w [<-|Hw]; [lia|auto].
  - destruct (merges_at _ _ _ _ M t) as (n & C & E). assert (H0 : (0 <= Z.min t (reach c eps))%Z) by lia.
    apply (classes_extend dist data p i _ n Sy Hpos Hi Hpp Sy' H0) in C. apply (mg_count _ _ _ _ M' t n) in C. rewrite app_length in C. cbn [length] in C.
    assert (X : count_le t (0%Z :: ds) = S (count_le t ds)) by (unfold count_le; cbn [filter]; rewrite (proj2 (Z.leb_le 0 t) H); reflexivity). lia.
Qed.

(* ---- runs from text to text *)
Section Results.
  Variable square : double -> double.
  Hypothesis Sq : squares square.
  Lemma result_coded pe c dim eps cloud o files : results square pe c dim eps cloud o (Ok files) ->
    exists ds bars, shows square c eps cloud o files ds bars /\
      reports (coded_dist square (nan_at c)) pe c dim (rank eps) (map (map to_whole) cloud) (coded_lines ds eps bars) /\ sound ds bars /\
      (non_negative eps /\ fits eps) /\ (forall p x, In p cloud -> In x p -> fits x) /\ (forall p q, In p cloud -> In q cloud -> length p = length q).
  Proof.
    intros (index & picks & pre_other & srt & nc0 & al_reduce & other & uaf & file & argv & d & e & f & lines & rs & Hs & Hl & Ho & Hd & Hk & He & Pe & Hf & Hr & -> & Ne & Len & E). symmetry in E.
    destruct (plain_files_coded square index picks pre_other srt pe nc0 al_reduce other uaf file argv c d e f o dim eps lines rs Hs Sq Hd Hk He Pe Ho Hf Hr Ne Len Hl) as (A & _).
    destruct (A files E) as (ds & bars & Ef & B & R & S). exists ds, bars. split; [split; assumption|]. split; [exact R|]. split; [exact S|]. split; [split; [exact Pe|apply (reads_stod _ _ He)]|].
    split; [apply (input_rows file f lines rs Hf Hr Ne)|exact Len].
  Qed.
  Lemma result_undefined c dim eps cloud o r : results square libstdcxx_past_end c dim eps cloud o r -> (r = UB <-> ~ exists w, near_pair square cloud c eps w).
  Proof.
    intros (index & picks & pre_other & srt & nc0 & al_reduce & other & uaf & file & argv & d & e & f & lines & rs & Hs & Hl & Ho & Hd & Hk & He & Pe & Hf & Hr & -> & Ne & Len & E). subst r.
    destruct (plain_files square index picks pre_other srt libstdcxx_past_end nc0 al_reduce other uaf file argv c d e f o dim eps lines rs Hs Sq Hd Hk He Pe Ho Hf Hr Ne Len Hl) as (_ & B & C).
    split; [|exact B]. intros U N. destruct (C N eq_refl) as (files & F). rewrite U in F. discriminate.
  Qed.
  Lemma result_lengths pe c dim eps cloud o r : results square pe c dim eps cloud o r -> forall p q, In p cloud -> In q cloud -> length p = length q.
  Proof.
    intros (index & picks & pre_other & srt & nc0 & al_reduce & other & uaf & file & argv & d & e & f & lines & rs & Hs & Hl & Ho & Hd & Hk & He & Pe & Hf & Hr & -> & Ne & Len & E). exact Len.
  Qed.

  Theorem shuffled_rows pe pe' c dim dim' eps cloud cloud' o o' r r' : Permutation cloud cloud' ->
    results square pe c dim eps cloud o r -> results square pe' c dim' eps cloud' o' r' ->
    (forall files files', r = Ok files -> r' = Ok files' -> exists deaths bars bars', shows square c eps cloud o files deaths bars /\ shows square c eps cloud' o' files' deaths bars') /\
    (pe = libstdcxx_past_end -> pe' = libstdcxx_past_end -> (r = UB <-> r' = UB)).
  Proof.
    intros P R R'. split.
    - intros files files' -> ->. destruct (result_coded _ _ _ _ _ _ _ R) as (ds & bars & S & C & So & [Pe Fe] & Fin & Len). destruct (result_coded _ _ _ _ _ _ _ R') as (ds' & bars' & S' & C' & So' & _ & Fin' & Len').
      assert (E := dim0_permutation _ _ _ _ _ _ _ _ _ _ _ (coded_symmetric square Sq cloud Len (nan_at c)) (coded_symmetric square Sq cloud' Len' (nan_at c)) (Permutation_map (map to_whole) P) C C').
      rewrite !dim0_coded in E by auto. assert (X : ds ++ [eps] = ds' ++ [eps]).
      { apply ranks_inj; [intros w Hw; apply in_app_iff in Hw as [Hw|[<-|[]]]; [now apply So|auto]|intros w Hw; apply in_app_iff in Hw as [Hw|[<-|[]]]; [now apply So'|auto]|].
        apply (f_equal (map (fun l : nat * Z * Z => snd l))) in E. rewrite !map_map in E. cbn [snd] in E. exact E. }
      apply app_inj_tail in X as [<- _]. eauto.
    - intros -> ->. rewrite (result_undefined _ _ _ _ _ _ R), (result_undefined _ _ _ _ _ _ R'). assert (Len := result_lengths _ _ _ _ _ _ _ R). assert (Len' := result_lengths _ _ _ _ _ _ _ R').
      split; intros N Y; apply N; [apply (near_permuted square cloud' cloud)|apply (near_permuted square cloud cloud')]; auto. now apply Permutation_sym.
  Qed.
  Theorem shuffled_dim1 c dim dim' eps cloud cloud' o o' files files' : Permutation cloud cloud' -> all_distances_differ square cloud c -> (2 <= dim)%Z -> (2 <= dim')%Z ->
    results square libstdcxx_past_end c dim eps cloud o (Ok files) -> results square libstdcxx_past_end c dim' eps cloud' o' (Ok files') ->
    exists deaths bars bars', shows square c eps cloud o files deaths bars /\ shows square c eps cloud' o' files' deaths bars' /\ Permutation (bars_in 1 bars) (bars_in 1 bars').
  Proof.
    intros P D H2 H2' R R'. destruct (proj1 (shuffled_rows _ _ _ _ _ _ _ _ _ _ _ _ P R R') files files' eq_refl eq_refl) as (ds0 & _ & _ & _ & _).
    destruct (result_coded _ _ _ _ _ _ _ R) as (ds & bars & S & C & So & [Pe Fe] & Fin & Len). destruct (result_coded _ _ _ _ _ _ _ R') as (ds' & bars' & S' & C' & So' & _ & Fin' & Len').
    assert (Y := coded_symmetric square Sq cloud Len (nan_at c)). assert (Y' := coded_symmetric square Sq cloud' Len' (nan_at c)).
    assert (E := dim0_permutation _ _ _ _ _ _ _ _ _ _ _ Y Y' (Permutation_map (map to_whole) P) C C').
    rewrite !dim0_coded in E by auto. assert (X : ds ++ [eps] = ds' ++ [eps]).
    { apply ranks_inj; [intros w Hw; apply in_app_iff in Hw as [Hw|[<-|[]]]; [now apply So|auto]|intros w Hw; apply in_app_iff in Hw as [Hw|[<-|[]]]; [now apply So'|auto]|].
      apply (f_equal (map (fun l : nat * Z * Z => snd l))) in E. rewrite !map_map in E. cbn [snd] in E. exact E. }
    apply app_inj_tail in X as [<- _]. exists ds, bars, bars'. split; [exact S|]. split; [exact S'|].
    destruct (permutation_isometry (coded_dist square (nan_at c)) _ _ (Permutation_map (map to_whole) P)) as (f & I).
    assert (Q := dim1_isometry _ _ _ _ _ _ _ _ _ _ f Y Y' I (coded_distinct square Sq cloud Len Fin c D) H2 H2' C C'). rewrite !of_dim_coded in Q.
    apply (Permutation_map decode_bar) in Q. now rewrite (decode_bars ds bars 1 So), (decode_bars ds bars' 1 So') in Q.
  Qed.
  Theorem larger_epsilon pe pe' c dim dim' eps eps' cloud o o' files files' : SFleb eps eps' = true ->
    results square pe c dim eps cloud o (Ok files) -> results square pe' c dim' eps' cloud o' (Ok files') ->
    exists deaths bars deaths' bars', shows square c eps cloud o files deaths bars /\ shows square c eps' cloud o' files' deaths' bars' /\ deaths = filter (withinb c eps) deaths'.
  Proof.
    intros Le R R'. destruct (result_coded _ _ _ _ _ _ _ R) as (ds & bars & S & C & So & [Pe Fe] & Fin & Len). destruct (result_coded _ _ _ _ _ _ _ R') as (ds' & bars' & S' & C' & So' & [Pe' Fe'] & _ & _).
    exists ds, bars, ds', bars'. split; [exact S|]. split; [exact S'|]. rewrite rank_leb in Le by (auto; now apply number_of). apply Z.leb_le in Le.
    assert (H1 : forall w, closeb c (rank eps) w = true <-> close c (rank eps) w) by (intros w; destruct c; cbn; [apply Z.ltb_lt|apply Z.leb_le]).
    assert (H2 : forall w, close c (rank eps) w -> close c (rank eps') w) by (intros w; destruct c; cbn; lia).
    assert (E := dim0_threshold _ _ _ _ _ _ _ _ _ _ _ _ _ H1 H2 C C').
    rewrite (deaths_coded _ _ _ So), (deaths_coded _ _ _ So') in E. apply ranks_inj; [apply So|intros w Hw; apply filter_In in Hw as [Hw _]; now apply So'|]. rewrite E. clear - So' Pe Fe.
    destruct So' as [So' _]. induction ds' as [|w ds IH]; [reflexivity|]. cbn [map filter]. destruct (So' w (or_introl eq_refl)) as [N F].
    assert (Q : closeb c (rank eps) (rank w) = withinb c eps w) by (destruct c; cbn [closeb withinb]; symmetry; [apply rank_ltb|apply rank_leb]; auto; now apply number_of).
    rewrite Q. destruct (withinb c eps w); cbn [map]; rewrite IH; auto; intros x Hx; apply So'; now right.
  Qed.
  Theorem more_rows pe pe' c dim dim' eps cloud extra cloud' o o' files files' : Permutation cloud' (cloud ++ extra) ->
    results square pe c dim eps cloud o (Ok files) -> results square pe' c dim' eps cloud' o' (Ok files') ->
    exists deaths bars deaths' bars', shows square c eps cloud o files deaths bars /\ shows square c eps cloud' o' files' deaths' bars' /\
      forall k w, nth_error deaths k = Some w -> exists w', nth_error deaths' k = Some w' /\ SFleb w' w = true.
  Proof.
    intros P R R'. destruct (result_coded _ _ _ _ _ _ _ R) as (ds & bars & S & C & So & [Pe Fe] & Fin & Len). destruct (result_coded _ _ _ _ _ _ _ R') as (ds' & bars' & S' & C' & So' & _ & Fin' & Len').
    exists ds, bars, ds', bars'. split; [exact S|]. split; [exact S'|]. intros k w Hw.
    assert (L2 : forall p q, In p (cloud ++ extra) -> In q (cloud ++ extra) -> length p = length q) by (intros p q H1 H2; apply Len'; apply (Permutation_in _ (Permutation_sym P)); assumption).
    assert (Y := coded_symmetric square Sq (cloud ++ extra) L2 (nan_at c)). assert (Y' := coded_symmetric square Sq cloud' Len' (nan_at c)). rewrite map_app in Y.
    assert (P2 := Permutation_map (map to_whole) P). rewrite map_app in P2.
    assert (G := more_points _ _ _ _ _ _ _ _ _ _ _ _ Y' Y P2 C C' k). rewrite (deaths_coded _ _ _ So), (deaths_coded _ _ _ So'), !map_length in G.
    assert (Hk : k < length ds) by (apply nth_error_Some; congruence). destruct (G Hk) as [Hk' L]. destruct (nth_error ds' k) as [w'|] eqn:E'; [|apply nth_error_None in E'; lia].
    exists w'. split; [reflexivity|]. rewrite (nth_error_nth _ _ _ (map_nth_error rank _ _ Hw)), (nth_error_nth _ _ _ (map_nth_error rank _ _ E')) in L.
    destruct (proj1 So w (nth_error_In _ _ Hw)) as [N F], (proj1 So' w' (nth_error_In _ _ E')) as [N' F']. rewrite rank_leb by (auto; now apply number_of). now apply Z.leb_le.
  Qed.
  Theorem repeated_row pe pe' c dim dim' eps cloud p cloud' o o' files files' : Permutation cloud' (p :: cloud) -> In p cloud -> Forall is_finite p -> within c eps (S754_zero false) ->
    results square pe c dim eps cloud o (Ok files) -> results square pe' c dim' eps cloud' o' (Ok files') ->
    exists deaths bars bars', shows square c eps cloud o files deaths bars /\ shows square c eps cloud' o' files' (S754_zero false :: deaths) bars'.
  Proof.
    intros P Hp Hf W R R'. destruct (result_coded _ _ _ _ _ _ _ R) as (ds & bars & S & C & So & [Pe Fe] & Fin & Len). destruct (result_coded _ _ _ _ _ _ _ R') as (ds' & bars' & S' & C' & So' & _ & Fin' & Len').
    assert (P1 : Permutation cloud' (cloud ++ [p])) by (rewrite P; apply Permutation_cons_append).
    assert (L2 : forall a b, In a (cloud ++ [p]) -> In b (cloud ++ [p]) -> length a = length b) by (intros a b H1 H2; apply Len'; apply (Permutation_in _ (Permutation_sym P1)); assumption).
    assert (Y := coded_symmetric square Sq cloud Len (nan_at c)). assert (Y2 := coded_symmetric square Sq (cloud ++ [p]) L2 (nan_at c)). assert (Y' := coded_symmetric square Sq cloud' Len' (nan_at c)).
    assert (P2 := Permutation_map (map to_whole) P1). rewrite map_app in Y2, P2. cbn [map] in Y2, P2.
    destruct (reports_permuted _ _ _ _ _ _ _ _ Y2 P2 C') as (l2 & R2).
    assert (E := dim0_permutation _ _ _ _ _ _ _ _ _ _ _ Y' Y2 P2 C' R2).
    destruct (reports_merges _ _ _ _ _ _ _ C) as [_ M], (reports_merges _ _ _ _ _ _ _ R2) as [_ M2].
    assert (D2 : deaths l2 = map rank ds') by (unfold deaths; rewrite <- E; apply (deaths_coded _ _ _ So')). rewrite D2 in M2. rewrite (deaths_coded _ _ _ So) in M.
    assert (Z : map rank ds' = 0%Z :: map rank ds).
    { apply (twice_deaths (coded_dist square (nan_at c)) c (rank eps) (map (map to_whole) cloud) (map to_whole p)); auto.
      - apply coded_dist_pos, Sq.
      - now apply in_map.
      - unfold coded_dist. rewrite (decode_row cloud Fin p Hp), (distance_self square p Sq Hf). reflexivity.
      - apply (within_close c eps (S754_zero false)) in W; auto; [now apply number_of|discriminate|exact I]. }
    assert (X : ds' = S754_zero false :: ds).
    { apply ranks_inj; [apply So'|intros w [<-|Hw]; [split; [reflexivity|exact I]|now apply So]|exact Z]. }
    subst ds'. eauto.
  Qed.
End Results.
