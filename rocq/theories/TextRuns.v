(* TextRuns.v -- the text of the barcode file of a run (C92). *)
From Coq Require Import String Ascii List Arith ZArith Bool Lia Sorted Relations SpecFloat.
From Verif Require Import Base Spec UtilsModel PartitionProofs ArrayListModel SpecComplex FastModel SpecGraph SpecFast ArgModel SpecArgs PipeModel SpecPipe IoModel MainModel SpecMain.
From Verif Require Import KruskalProofs FastProofs FastRuns PipeRuns SpecRobust RobustProofs MainRuns DoubleModel SpecDouble DoubleProofs DoubleRuns TextModel SpecText TextProofs.
Import ListNotations.
Local Open Scope nat_scope.
Local Open Scope list_scope.

Section Run.
  Variable dist : list Z -> list Z -> Z.
  Variables atoi atof : string -> Z.
  Variable srt : list wsimp -> list wsimp.
  Variable past_end : list nat -> nat -> res nat.
  Variable nc0 : Z.
  Variable al_reduce : wgraph -> res wgraph.
  Variable other : pipe_kind -> amap -> packet -> res packet.
  Variables (args : amap) (c : cx_type) (d e : string) (data : list (list Z)).
  Hypothesis Hs : is_sort srt.
  Hypothesis Hr : default_run args c d e.
  Hypothesis Hne : forall x, In x data -> x <> [].
  Hypothesis Hpos : forall x y, (0 <= dist x y)%Z.
  Hypothesis Hd : (0 < atoi d < 2 ^ 31 - 1)%Z.

  Lemma simplex_weight k edges s w : lists_rips (separation dist data) (close c (atof e)) (length data) k edges -> forall n, 1 <= n ->
    In (s, w) (level edges n) -> exists u v, u < v /\ v < length data /\ separation dist data u v = w /\ close c (atof e) w.
  Proof.
    intros [L _] n Hn H. apply L in H as (Ls & _ & (_ & Ss & Sv & Cl) & _ & [(x & y & Hx & Hy & Hxy & <-)|[Hl _]]); [|lia].
    exists x, y. split; [auto|]. split; [now apply Sv|]. split; [reflexivity|]. now apply Cl.
  Qed.

  Lemma run_lines p failed : run_program dist atoi atof srt past_end nc0 al_reduce other args data = Ok (Some (p, failed)) -> data <> [] ->
    exists bars, pk_output p = map (fun w => (0, 0%Z, w)) (deaths (pk_output p)) ++ (0, 0%Z, atof e) :: bars /\
      forall k b w, In (k, b, w) bars -> 1 <= k /\ b <> w /\
        (exists u v, u < v /\ v < length data /\ separation dist data u v = b /\ close c (atof e) b) /\
        (exists u v, u < v /\ v < length data /\ separation dist data u v = w /\ close c (atof e) w).
  Proof.
    intros H Hdata. destruct (default_run_edges dist atoi atof srt past_end nc0 al_reduce other args c d e data Hs Hr Hne Hpos Hd)
      as (edges & finish & C & F & L & E & O). rewrite E in H. clear E.
    destruct (fp_run past_end (atoi d) (atof e) edges []) as [r|] eqn:Er; [|discriminate]. cbn [bind] in H. injection H as <- <-.
    destruct (O r) as [O1 _]. clear O.
    assert (T : 1 <= Z.to_nat (top c (atoi d))) by (destruct c; cbn; lia). destruct (rips_levels dist data c (atof e) _ T edges L C) as [_ L0].
    assert (Ne : edges <> []) by (intros ->; apply Hdata, L0; reflexivity).
    destruct r as [[lines tab]|]; [|now apply fp_none in Er].
    cbn [result] in O1. injection O1 as O1 O2. rewrite O1 in *.
    destruct (fp_any _ _ _ _ _ _ _ Er) as (new & newt & _ & E1 & _ & _ & E4). cbn zeta in *.
    set (ms := k_mst _) in *. assert (D : dim0 lines = map (fun w => (0, 0%Z, w)) ms ++ [(0, 0%Z, atof e)]) by (rewrite E1; apply dim0_lines; intros l Hl; apply E4 in Hl; lia).
    rewrite (deaths_dim0 _ _ _ D). exists new. split; [exact E1|]. intros k b w Hl. destruct (E4 _ Hl) as [Q1 (Q2 & Q3 & Q4)]. cbn [fst snd] in *. split; [lia|]. split; [auto|].
    apply in_map_iff in Q3 as ([s1 w1] & <- & Q3), Q4 as ([s2 w2] & <- & Q4). split; [apply (simplex_weight _ edges s1 w1 L k)|apply (simplex_weight _ edges s2 w2 L (S k))]; auto; lia.
  Qed.
End Run.

Theorem text_run square code decode atoi atof srt past_end nc0 al_reduce other pre_run pre_stats uaf stod file argv c d e f o cloud eps :
  is_sort srt -> squares square -> (0 < atoi d < 2 ^ 31 - 1)%Z ->
  (forall p x, In p cloud -> In x p -> is_finite x /\ decode (code x) = x) ->
  (forall p q, In p cloud -> In q cloud -> length p = length q) ->
  non_negative eps -> fits eps -> atof e = rank eps ->
  plain_line argv c d e f o -> o <> "console"%string -> holds_points stod file f (map (map code) cloud) -> cloud <> [] ->
  forall r, lhf (double_dist square decode) atoi atof srt past_end nc0 al_reduce other pre_run pre_stats uaf stod file argv = Ok r ->
  exists q deaths bars, r = Ran q [((o ++ ".csv")%string, pk_output q)] /\
    barcode_text at_place (pk_output q) =
      list_ascii_of_string "dimension,birth,death" ++ newline ::
      concat (map (fun w => list_ascii_of_string "0,0," ++ to_string w ++ [newline]) (deaths ++ [eps])) ++
      concat (map (fun l : nat * double * double => show (Z.of_nat (fst (fst l))) ++ comma :: to_string (snd (fst l)) ++ comma :: to_string (snd l) ++ [newline]) bars) /\
    StronglySorted (fun x y => SFleb x y = true) deaths /\
    (forall w, In w deaths -> within c eps w /\ exists u v, u < v /\ apart square cloud u v w) /\
    (forall t n, is_number t -> fits t ->
      (double_clusters square cloud c eps t n <-> length (filter (fun w => SFleb w t) deaths) + n = length cloud)) /\
    (forall k b w, In (k, b, w) bars -> 1 <= k /\ SFeqb b w = false /\
       (within c eps b /\ exists u v, u < v /\ apart square cloud u v b) /\ (within c eps w /\ exists u v, u < v /\ apart square cloud u v w)).
Proof.
  intros Hs Sq Hd Fin Len Ne Fe Ea Hl Ho Hf Hc r H. assert (Nn := number_of _ Ne).
  destruct (proj1 (double_run square code decode atoi atof srt past_end nc0 al_reduce other pre_run pre_stats uaf stod file argv c d e f o cloud eps
    Hs Sq Hd Fin Len Nn Fe Ea Hl Hf Hc) r H) as (q & ds & R1 & R2 & R3 & R4 & R5).
  rewrite (proj2 (String.eqb_neq _ _) Ho) in R1.
  assert (Hne : map (map code) cloud <> []) by (destruct cloud; [easy|discriminate]).
  destruct (plain_lhf (double_dist square decode) atoi atof srt past_end nc0 al_reduce other pre_run pre_stats uaf stod file _ _ _ _ _ _ _ Hl Hf Hne) as (args & Dr & E).
  assert (Hrow := readCSV_ne _ _ _ _ (holds_reads _ _ _ _ Hf)). assert (Hpos := double_dist_pos square decode Sq).
  rewrite E in H. destruct (run_program _ _ _ _ _ _ _ _ args _) as [[[q' fl]|]|] eqn:Er; try discriminate. cbn [bind] in H. rewrite R1 in H. injection H as -> _.
  destruct (run_lines _ _ _ _ _ _ _ _ args c d e _ Hs Dr Hrow Hpos Hd q fl Er Hne) as (new & L1 & L2). rewrite Ea in *.
  assert (D := deaths_dim0 _ (map rank ds) (rank eps) ltac:(rewrite R2, map_map; reflexivity)). rewrite D in L1.
  assert (P : forall u v, u < v -> v < length cloud -> exists w, apart square cloud u v w /\ non_negative w /\ fits w /\ separation (double_dist square decode) (map (map code) cloud) u v = rank w).
  { intros u v Huv Hv. apply apart_value; auto; lia. }
  assert (B : exists bars : list (nat * double * double), new = map (fun l => (fst (fst l), rank (snd (fst l)), rank (snd l))) bars /\
    forall k b w, In (k, b, w) bars -> non_negative b /\ fits b /\ non_negative w /\ fits w /\ 1 <= k /\ SFeqb b w = false /\
       (within c eps b /\ exists u v, u < v /\ apart square cloud u v b) /\ (within c eps w /\ exists u v, u < v /\ apart square cloud u v w)).
  { clear - L2 P Nn Fe. induction new as [|[[k zb] zw] new IH]; [exists []; split; [reflexivity|intros k b w []]|].
    destruct IH as (bars & -> & IH); [intros k1 b1 w1 H1; apply L2; now right|].
    destruct (L2 k zb zw (or_introl eq_refl)) as (K1 & K2 & (u & v & A1 & A2 & A3 & A4) & (u' & v' & B1 & B2 & B3 & B4)). rewrite map_length in *.
    destruct (P u v A1 A2) as (b & P1 & P2 & P3 & P4). destruct (P u' v' B1 B2) as (w & Q1 & Q2 & Q3 & Q4).
    assert (Eb : zb = rank b) by congruence. assert (Ew : zw = rank w) by congruence. rewrite Eb, Ew in *.
    exists ((k, b, w) :: bars). split; [reflexivity|]. intros k1 b1 w1 [H1|H1]; [|now apply IH]. injection H1 as <- <- <-.
    assert (Nb := number_of _ P2). assert (Nw := number_of _ Q2).
    do 4 (split; [assumption|]). split; [exact K1|]. split; [rewrite rank_eqb by auto; now apply Z.eqb_neq|].
    split; (split; [apply within_close; auto|eauto]). }
  destruct B as (bars & -> & B). exists q, ds, bars. split; [exact R1|]. split; [|split; [exact R3|split; [exact R4|split; [exact R5|intros k b w Hb; apply (B k b w) in Hb; tauto]]]].
  unfold barcode_text. rewrite L1. change barcode_header with (list_ascii_of_string "dimension,birth,death" ++ [newline]). rewrite <- app_assoc. f_equal. cbn [app]. f_equal.
  rewrite !map_app, !concat_app. cbn [map concat]. rewrite app_nil_r.
  assert (X1 : map (bar_text at_place) (map (fun w => (0, 0%Z, w)) (map rank ds)) = map (fun w => list_ascii_of_string "0,0," ++ to_string w ++ [newline]) ds).
  { rewrite !map_map. apply map_ext_in. intros w Hw. destruct (R4 w Hw) as (_ & u & v & Huv & A). destruct (apart_range _ _ _ _ _ A) as [_ Hv]. destruct (P u v Huv Hv) as (w' & A' & N & F & _).
    rewrite (apart_unique _ _ _ _ _ _ A A'). unfold bar_text. cbn [fst snd]. now rewrite at_place_rank. }
  assert (X2 : map (bar_text at_place) (map (fun l : nat * double * double => (fst (fst l), rank (snd (fst l)), rank (snd l))) bars) =
    map (fun l : nat * double * double => show (Z.of_nat (fst (fst l))) ++ comma :: to_string (snd (fst l)) ++ comma :: to_string (snd l) ++ [newline]) bars).
  { rewrite map_map. apply map_ext_in. intros [[k b] w] Hb. destruct (B k b w Hb) as (N1 & F1 & N2 & F2 & K & _). unfold bar_text. cbn [fst snd]. destruct k; [lia|]. now rewrite !at_place_rank. }
  rewrite X1, X2. rewrite <- app_assoc. f_equal. f_equal. unfold bar_text. cbn [fst snd]. now rewrite at_place_rank.
Qed.
