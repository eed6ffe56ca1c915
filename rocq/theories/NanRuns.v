(* NanRuns.v -- lemmas about runs on points whose coordinates need not be numbers (C95). *)
From Coq Require Import String Ascii List Arith ZArith Bool Lia Sorted Relations SpecFloat.
From Verif Require Import Base Spec UtilsModel PartitionProofs ArrayListModel SpecComplex FastModel SpecGraph SpecFast ArgModel SpecArgs PipeModel SpecPipe IoModel MainModel SpecMain.
From Verif Require Import PipeRuns SpecRobust RobustProofs MainRuns DoubleModel SpecDouble DoubleProofs DoubleRuns TextModel SpecText TextProofs TextRuns SpecRead NanModel SpecNan.
Import ListNotations.
Local Open Scope nat_scope.
Local Open Scope list_scope.

Definition beyond : Z := (2 ^ 65 + 1)%Z.
Definition nan_at (c : cx_type) : Z := match c with Tree => 0%Z | ArrayList => beyond end.
Definition place (w : double) : Z := match w with S754_nan => beyond | _ => rank w end.
Lemma place_number w : is_number w -> place w = rank w.
Proof. destruct w; intros H; try reflexivity. now destruct H. Qed.
Lemma rank_bound x : fits x -> (rank x < beyond)%Z.
Proof.
  unfold beyond. destruct x as [s|s| |s m e]; cbn [rank fits]; intros F; try (destruct s; reflexivity); try reflexivity. destruct F as [M E].
  assert (A : (2 ^ 65 = 4096 * 2 ^ 53)%Z) by reflexivity. rewrite A. clear A. assert (K : (0 < 2 ^ 53)%Z) by reflexivity.
  generalize dependent (2 ^ 53)%Z. intros k M K. destruct s; nia.
Qed.
Lemma distance_kind square a b v : squares square -> length a = length b -> d_distance square a b = Ok v -> v = S754_nan \/ (non_negative v /\ fits v).
Proof.
  intros Sq L E. rewrite distance_value in E by auto. injection E as <-.
  destruct (nan_dec (sq_diffs square a b)) as [H|H]; [left; now rewrite sum_nan_in|right]. split; [|apply sqrt_fits].
  apply sqrt_non_negative, sum_non_negative; [reflexivity|]. apply diffs_non_negative; auto. intros x z Hx Q. apply (H S754_nan); [|reflexivity].
  apply in_map_iff. exists (x, z). cbn [fst snd]. split; [|exact Hx]. rewrite Q. apply (sq_nan _ Sq).
Qed.
Lemma coded_dist_pos square c : squares square -> forall a b, (0 <= coded_dist square (nan_at c) a b)%Z.
Proof.
  intros Sq a b. assert (H := double_dist_pos square of_whole Sq a b). unfold coded_dist, double_dist in *.
  destruct (d_distance square (map of_whole a) (map of_whole b)) as [v|]; [|lia]. destruct v; try exact H. destruct c; cbn; lia.
Qed.

(* The lines of a run on coded points. *)
Definition coded_lines (deaths : list double) (eps : double) (bars : list (nat * double * double)) : list (nat * Z * Z) :=
  map (fun w => (0, 0%Z, rank w)) (deaths ++ [eps]) ++ map (fun l : nat * double * double => (fst (fst l), rank (snd (fst l)), rank (snd l))) bars.
Definition sound (deaths : list double) (bars : list (nat * double * double)) : Prop :=
  (forall w, In w deaths -> non_negative w /\ fits w) /\
  forall k b w, In (k, b, w) bars -> 1 <= k /\ (non_negative b /\ fits b) /\ non_negative w /\ fits w.

Section Points.
  Variable square : double -> double.
  Hypothesis Sq : squares square.
  Variable c : cx_type.
  Variable cloud : list (list double).
  Hypothesis Fin : forall p x, In p cloud -> In x p -> fits x.
  Hypothesis Len : forall p q, In p cloud -> In q cloud -> length p = length q.
  Notation data := (map (map to_whole) cloud).
  Notation dist := (coded_dist square (nan_at c)).
  Notation sapart := (seen_apart square cloud c).

  Lemma decode_row p : In p cloud -> map of_whole (map to_whole p) = p.
  Proof. intros H. rewrite map_map. rewrite <- (map_id p) at 2. apply map_ext_in. intros x Hx. apply of_to_whole. now apply (Fin p x). Qed.
  Lemma seen_value u v : u < length cloud -> v < length cloud ->
    exists w, sapart u v w /\ fits w /\ (w = S754_nan \/ non_negative w) /\ separation dist data u v = place w.
  Proof.
    intros Hu Hv. destruct (nth_error cloud u) as [x|] eqn:Ex; [|apply nth_error_None in Ex; lia]. destruct (nth_error cloud v) as [y|] eqn:Ey; [|apply nth_error_None in Ey; lia].
    assert (Hx := nth_error_In _ _ Ex). assert (Hy := nth_error_In _ _ Ey). assert (L := Len x y Hx Hy).
    assert (E := distance_value square x y L). set (r := d_sqrt _) in E. clearbody r.
    assert (S1 : separation dist data u v = match r with S754_nan => nan_at c | _ => rank r end).
    { unfold separation. rewrite (map_nth_error _ _ _ Ex), (map_nth_error _ _ _ Ey). unfold coded_dist. rewrite !decode_row by auto. rewrite E. now destruct r. }
    exists (seen c r). split; [exists r; split; [exists x, y; auto|reflexivity]|]. rewrite S1.
    destruct (distance_kind square x y r Sq L E) as [->|[N F]].
    - destruct c; cbn [seen fits place nan_at rank]; split; try exact I; split; auto. right. reflexivity.
    - assert (Q : seen c r = r) by (destruct r, c; cbn in *; easy). rewrite Q. split; [exact F|]. split; [now right|]. destruct r; try reflexivity. destruct N.
  Qed.
  Lemma seen_unique u v w w' : sapart u v w -> sapart u v w' -> w = w'.
  Proof. intros (x & A & ->) (x' & A' & ->). now rewrite (apart_unique _ _ _ _ _ _ A A'). Qed.
  Lemma seen_range u v w : sapart u v w -> u < length cloud /\ v < length cloud.
  Proof. intros (x & A & _). eapply apart_range; eauto. Qed.
  Lemma within_number eps w : within c eps w -> is_number w.
  Proof. intros H ->. destruct c; destruct eps; discriminate. Qed.
  Lemma within_place eps w : is_number eps -> fits eps -> fits w -> within c eps w <-> close c (rank eps) (place w).
  Proof.
    intros Ne Fe Fw. assert (D : w = S754_nan \/ is_number w) by (destruct w; auto; right; discriminate). destruct D as [->|N]; [|rewrite place_number by auto; now apply within_close].
    assert (B := rank_bound eps Fe). cbn [place]. split; [intros H; now apply within_number in H|]. unfold close. destruct c; intros H; exfalso; lia.
  Qed.
  Lemma seen_clusters_place eps t n : is_number eps -> fits eps -> is_number t -> fits t ->
    (seen_clusters square cloud c eps t n <-> clusters dist data c (rank eps) (rank t) n).
  Proof.
    intros Ne Fe Nt Ft. unfold seen_clusters, clusters. rewrite map_length.
    assert (J : forall u v, (u < v /\ exists w, sapart u v w /\ within c eps w /\ SFleb w t = true) <-> joined dist data c (rank eps) (rank t) u v).
    { intros u v. unfold joined. rewrite map_length. split.
      - intros (Huv & w & A & W & T). destruct (seen_range _ _ _ A) as [Hu Hv]. destruct (seen_value u v Hu Hv) as (w' & A' & F & _ & S1). rewrite (seen_unique _ _ _ _ A A') in *. rewrite S1.
        assert (N := within_number _ _ W). split; [auto|]. split; [auto|]. split; [now apply within_place|]. rewrite place_number by auto. rewrite rank_leb in T by auto. now apply Z.leb_le.
      - intros (Huv & Hv & C & T). destruct (seen_value u v) as (w & A & F & _ & S1); try lia. rewrite S1 in *. split; [auto|]. exists w.
        apply within_place in C; auto. assert (N := within_number _ _ C). split; [auto|]. split; [auto|]. rewrite place_number in T by auto. rewrite rank_leb by auto. now apply Z.leb_le. }
    assert (E := rst_ext _ _ J). split; apply classes_ext; try reflexivity; intros; [|symmetry]; apply E.
  Qed.
  (* A weight of the run that is close to epsilon is the place of a distance. *)
  Lemma real_weight eps z : is_number eps -> fits eps -> (exists u v, u < v /\ v < length data /\ separation dist data u v = z /\ close c (rank eps) z) ->
    exists w, z = rank w /\ non_negative w /\ fits w /\ near_pair square cloud c eps w.
  Proof.
    intros Ne Fe (u & v & Huv & Hv & S1 & C). rewrite map_length in Hv. destruct (seen_value u v) as (w & A & F & K & S2); try lia.
    rewrite <- S1, S2 in C. apply within_place in C; auto. assert (N := within_number _ _ C). exists w. split; [rewrite <- S1, S2; now apply place_number|].
    split; [destruct K; [contradiction|auto]|]. split; [auto|]. split; [auto|]. exists u, v. auto.
  Qed.
  Lemma real_weights eps zs : is_number eps -> fits eps ->
    (forall z, In z zs -> exists u v, u < v /\ v < length data /\ separation dist data u v = z /\ close c (rank eps) z) ->
    exists ws, zs = map rank ws /\ forall w, In w ws -> non_negative w /\ fits w /\ near_pair square cloud c eps w.
  Proof.
    intros Ne Fe. induction zs as [|z zs IH]; intros H; [exists []; split; [reflexivity|intros w []]|].
    destruct IH as (ws & -> & D); [intros x Hx; apply H; now right|]. destruct (real_weight eps z Ne Fe (H z (or_introl eq_refl))) as (w & -> & R).
    exists (w :: ws). split; [reflexivity|]. intros x [<-|Hx]; auto.
  Qed.

  Variables atoi atof : string -> Z.
  Variable srt : list wsimp -> list wsimp.
  Variable past_end : list nat -> nat -> res nat.
  Variable nc0 : Z.
  Variable al_reduce : wgraph -> res wgraph.
  Variable other : pipe_kind -> amap -> packet -> res packet.
  Variables (args : amap) (d e : string) (eps : double).
  Hypothesis Hs : is_sort srt.
  Hypothesis Dr : default_run args c d e.
  Hypothesis Hrow : forall p, In p cloud -> p <> [].
  Hypothesis Hd : (0 < atoi d < 2 ^ 31 - 1)%Z.
  Hypothesis Pe : non_negative eps.
  Hypothesis Fe : fits eps.
  Hypothesis Ea : atof e = rank eps.
  Hypothesis Hc : cloud <> [].
  Notation program := (run_program dist atoi atof srt past_end nc0 al_reduce other args data).
  Let Ne := number_of _ Pe.
  Let Hrow' : forall x, In x data -> x <> [].
  Proof. intros x Hx. apply in_map_iff in Hx as (p & <- & Hp). apply Hrow in Hp. now destruct p. Qed.
  Let Hpos := coded_dist_pos square c Sq.
  Let Hne : data <> [].
  Proof. destruct cloud; [easy|discriminate]. Qed.

  Lemma nan_run_bars q fl : program = Ok (Some (q, fl)) ->
    exists deaths bars, barcode_text at_place (pk_output q) = barcodes deaths eps bars /\ bars_of square cloud c eps deaths bars /\
      pk_output q = coded_lines deaths eps bars /\ sound deaths bars.
  Proof.
    intros Er. destruct (run_merges _ _ _ _ _ _ _ _ args c d e _ Hs Dr Hrow' Hpos Hd q fl Er Hne) as (D1 & M). rewrite Ea in D1, M.
    destruct (run_lines _ _ _ _ _ _ _ _ args c d e _ Hs Dr Hrow' Hpos Hd q fl Er Hne) as (new & L1 & L2). rewrite Ea in L1, L2.
    destruct (real_weights eps (deaths (pk_output q)) Ne Fe) as (ds & D2 & D3).
    { intros w Hw. destruct (mg_real _ _ _ _ M w Hw) as (u & v & A & B & C). exists u, v. do 3 (split; [assumption|]). apply close_reach. now apply (mg_below _ _ _ _ M). }
    rewrite D2 in L1, M. clear D1 D2.
    assert (B : exists bars : list (nat * double * double), new = map (fun l => (fst (fst l), rank (snd (fst l)), rank (snd l))) bars /\
      forall k b w, In (k, b, w) bars -> (non_negative b /\ fits b /\ near_pair square cloud c eps b) /\ (non_negative w /\ fits w /\ near_pair square cloud c eps w) /\ 1 <= k /\ SFeqb b w = false).
    { clear L1. induction new as [|[[k zb] zw] new IH]; [exists []; split; [reflexivity|intros k b w []]|].
      destruct IH as (bars & -> & IH); [intros k1 b1 w1 H1; apply L2; now right|].
      destruct (L2 k zb zw (or_introl eq_refl)) as (K1 & K2 & B1 & B2).
      destruct (real_weight eps zb Ne Fe B1) as (b & -> & R1), (real_weight eps zw Ne Fe B2) as (w & -> & R2).
      exists ((k, b, w) :: bars). split; [reflexivity|]. intros k1 b1 w1 [H1|H1]; [|now apply IH]. injection H1 as <- <- <-.
      split; [exact R1|]. split; [exact R2|]. split; [exact K1|]. destruct R1 as (N1 & F1 & _), R2 as (N2 & F2 & _). rewrite rank_eqb; auto; try now apply number_of. now apply Z.eqb_neq. }
    destruct B as (bars & -> & B). exists ds, bars. split.
    - unfold barcode_text, barcodes. rewrite L1. change barcode_header with (list_ascii_of_string "dimension,birth,death" ++ [newline]). rewrite <- app_assoc. f_equal. cbn [app]. f_equal.
      rewrite !map_app, !concat_app. cbn [map concat]. rewrite app_nil_r.
      assert (X1 : map (bar_text at_place) (map (fun w => (0, 0%Z, w)) (map rank ds)) = map (fun w => list_ascii_of_string "0,0," ++ to_string w ++ [newline]) ds).
      { rewrite !map_map. apply map_ext_in. intros w Hw. destruct (D3 w Hw) as (N & F & _). unfold bar_text. cbn [fst snd]. now rewrite at_place_rank. }
      assert (X2 : map (bar_text at_place) (map (fun l : nat * double * double => (fst (fst l), rank (snd (fst l)), rank (snd l))) bars) =
        map (fun l : nat * double * double => show (Z.of_nat (fst (fst l))) ++ comma :: to_string (snd (fst l)) ++ comma :: to_string (snd l) ++ [newline]) bars).
      { rewrite map_map. apply map_ext_in. intros [[k b] w] Hb. destruct (B k b w Hb) as ((N1 & F1 & _) & (N2 & F2 & _) & K & _). unfold bar_text. cbn [fst snd]. destruct k; [lia|]. now rewrite !at_place_rank. }
      rewrite X1, X2. rewrite <- app_assoc. f_equal. f_equal. unfold bar_text. cbn [fst snd]. now rewrite at_place_rank.
    - split; [constructor|split].
      + assert (S1 := mg_sorted _ _ _ _ M). clear - S1 D3. induction ds as [|w ds IH]; [constructor|]. cbn [map] in S1. inversion S1 as [|? ? S2 F]; subst. constructor.
        * apply IH; [|exact S2]. intros x Hx. apply D3. now right.
        * apply Forall_forall. intros x Hx. rewrite Forall_forall in F. destruct (D3 w (or_introl eq_refl)) as (N & T & _). destruct (D3 x (or_intror Hx)) as (N' & T' & _).
          rewrite rank_leb; auto; try now apply number_of. apply Z.leb_le, F. now apply in_map.
      + intros w Hw. now apply D3.
      + intros t n Nt Ft. rewrite seen_clusters_place by auto.
        rewrite clusters_link, (mg_count _ _ _ _ M (rank t) n), map_length.
        assert (X : count_le (rank t) (map rank ds) = length (filter (fun w => SFleb w t) ds)); [|now rewrite X].
        unfold count_le. clear - D3 Nt Ft. induction ds as [|w ds IH]; [reflexivity|]. cbn [map filter]. destruct (D3 w (or_introl eq_refl)) as (N & T & _).
        rewrite rank_leb; auto; try now apply number_of. destruct (rank w <=? rank t)%Z; cbn [length]; rewrite IH; auto; intros x Hx; apply D3; now right.
      + intros k b w Hb. destruct (B k b w Hb) as ((_ & _ & R1) & (_ & _ & R2) & K & Q). auto.
      + rewrite L1. unfold coded_lines. rewrite !map_app, !map_map, <- app_assoc. reflexivity.
      + split; [intros w Hw; destruct (D3 w Hw) as (N & F & _); auto|]. intros k b w Hb. destruct (B k b w Hb) as ((N1 & F1 & _) & (N2 & F2 & _) & K & _). auto.
  Qed.
  Lemma nan_run_undefined : ~ (exists w, near_pair square cloud c eps w) -> program = UB.
  Proof.
    intros N. apply (proj1 (default_undefined _ atoi atof srt past_end nc0 al_reduce other args c d e _ Hs Dr Hrow' Hpos Hd) Hne).
    intros (u & v & Huv & Hv & C). rewrite Ea in C. apply N. destruct (real_weight eps _ Ne Fe (ex_intro _ u (ex_intro _ v (conj Huv (conj Hv (conj eq_refl C)))))) as (w & _ & _ & _ & R). eauto.
  Qed.
  Lemma nan_run_ends : (exists w, near_pair square cloud c eps w) -> past_end = libstdcxx_past_end -> exists q fl, program = Ok (Some (q, fl)).
  Proof.
    intros (w & W & u & v & Huv & A) ->. destruct (proj2 (default_undefined dist atoi atof srt libstdcxx_past_end nc0 al_reduce other args c d e data Hs Dr Hrow' Hpos Hd)) as (q & ->).
    - right. exists u, v. destruct (seen_range _ _ _ A) as [_ Hv]. split; [auto|]. split; [now rewrite map_length|].
      destruct (seen_value u v ltac:(lia) ltac:(lia)) as (w' & A' & F & _ & ->). rewrite <- (seen_unique _ _ _ _ A A') in *. rewrite Ea. now apply within_place.
    - eauto.
  Qed.
End Points.
