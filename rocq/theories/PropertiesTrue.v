(* PropertiesTrue.v -- C106: the file the program writes against the true distances of the points. *)
From Coq Require Import String Ascii List Arith ZArith Bool Lia Sorted Relations Reals Lra SpecFloat.
From Verif Require Import Base Spec SpecComplex FastModel SpecFast ArgModel SpecArgs PipeModel SpecPipe MainModel SpecMain.
From Verif Require Import DoubleModel SpecDouble SpecKdDouble SpecError FloatError TrueRuns.
From Verif Require Import IoModel SpecIo TextModel SpecText TextProofs ReadModel SpecRead SpecProgram ProgramModel ProgramRuns PropertiesProgram PropertiesError.
Import ListNotations.
Local Open Scope nat_scope.
Local Open Scope list_scope.

(* C106: what the program writes for an input file of points with [width] decimal numbers each, against the true Euclidean
   distances of the points read.  Every number in the file is the computed distance of two points, and the square of their
   true distance is within the errors of C105.  Up to any double t within epsilon, the file has at least as many bars of
   dimension 0 ended as true clusters merge up to the scale t made smaller by the errors, and at most as many as merge up to
   the scale t made larger by them. *)
Theorem C106_bars_against_true_distances :
  forall srt past_end nc0 al_reduce other pre_run pre_stats uaf file argv c d e f o k eps lines rs width,
  is_sort srt ->
  plain_line argv c d e f o -> o <> "console"%string ->
  reads_number (list_ascii_of_string d) k -> (0 < k < 2 ^ 31 - 1)%Z ->
  stands_for (list_ascii_of_string e) eps -> non_negative eps ->
  file f = Some (join newline lines) -> Forall2 line_holds lines rs ->
  let cloud := kept rs in
  (forall p, In p cloud -> length p = width) -> cloud <> [] ->
  forall files, lhf_text d_square srt past_end nc0 al_reduce other pre_run pre_stats uaf file argv = Ok files ->
  exists deaths bars,
    files = [((o ++ ".csv")%string,
      list_ascii_of_string "dimension,birth,death" ++ newline ::
      concat (map (fun w => list_ascii_of_string "0,0," ++ to_string w ++ [newline]) (deaths ++ [eps])) ++
      concat (map (fun l : nat * double * double => show (Z.of_nat (fst (fst l))) ++ comma :: to_string (snd (fst l)) ++ comma :: to_string (snd l) ++ [newline]) bars))] /\
    StronglySorted (fun x y => SFleb x y = true) deaths /\
    (forall w, In w deaths -> near_true_distance cloud width w) /\
    (forall m b w, In (m, b, w) bars -> near_true_distance cloud width b /\ near_true_distance cloud width w) /\
    (forall t n, coordinate_ok t -> non_negative t -> within c eps t ->
      let ended := length (filter (fun w => SFleb w t) deaths) in
      (true_clusters cloud (largest_square width t) n -> ended + n <= length cloud) /\
      ((real_value t ^ 2 < powerRZ 2 1024)%R -> true_clusters cloud (least_square width t) n -> length cloud <= ended + n)).
Proof.
  intros srt past_end nc0 al_reduce other pre_run pre_stats uaf file argv c d e f o k eps lines rs width Hs Hl Ho Hd Hk He Pe Hf Hr cloud Hw N files E.
  assert (Hlen : forall p q, In p cloud -> In q cloud -> length p = length q) by (intros p q Hp Hq; rewrite (Hw p Hp), (Hw q Hq); reflexivity).
  destruct (C94_from_text_to_text d_square srt past_end nc0 al_reduce other pre_run pre_stats uaf file argv c d e f o k eps lines rs Hs DoubleProofs.square_squares Hl Ho Hd Hk He Pe Hf Hr Hlen N) as [R _].
  destruct (R files E) as (deaths & bars & F & S & D & C & B). clear R. destruct (stands_canonical _ _ He) as [Fe Ce].
  assert (Okc : forall x, In x cloud -> length x = width /\ Forall coordinate_ok x).
  { intros x Hx. split; [now apply Hw|]. apply Forall_forall. intros y Hy. destruct (rows_stod _ _ Hr) as [_ G]. destruct (G x y Hx Hy). split; auto. }
  assert (Near : forall w, within c eps w -> (exists u v, u < v /\ apart d_square cloud u v w) -> near_true_distance cloud width w).
  { intros w W (u & v & Huv & A). destruct (apart_good cloud width Okc u v w A) as [Vw Pw].
    assert (Fw : is_finite w). { apply (below_finite w eps Vw Pw); [split; auto|]. destruct c; cbn [within] in W; [|exact W]. unfold SFltb, SFleb in *. destruct (SFcompare w eps) as [[]|]; auto. }
    destruct (apart_range cloud width Okc u v w A Fw) as (x & y & Hx & Hy & T). destruct A as (x' & y' & Hx' & Hy' & Dw). rewrite Hx in Hx'. rewrite Hy in Hy'. injection Hx' as <-. injection Hy' as <-.
    exists u, v, x, y. auto 6. }
  exists deaths, bars. split; [exact F|]. split; [exact S|]. split; [intros w Hw'; destruct (D w Hw'); auto|]. split.
  { intros m b w H. destruct (B m b w H) as (_ & _ & [B1 B2] & [B3 B4]). auto. }
  intros t n Ct Pt Wt ended. assert (Ec : canonical eps /\ is_number eps) by (split; [exact Ce|apply (KdDouble.positive_number _ Pe)]).
  destruct (classes_exist (clos_refl_sym_trans nat (fun u v => u < v /\ exists w, apart d_square cloud u v w /\ within c eps w /\ SFleb w t = true)) (seq 0 (length cloud))) as [m Hm];
    [intros; apply rst_refl|intros; now apply rst_sym|apply seq_NoDup|].
  assert (Q := proj1 (C t m (KdDouble.positive_number _ Pt) (canonical_fits _ (proj1 Ct))) Hm). fold ended cloud in Q. split.
  - intros T. assert (L := coarser cloud width c eps Okc t (conj Ct (conj Pt Wt)) m n Hm T). lia.
  - intros Top T. assert (L := finer cloud width c eps Okc Ec t (conj Ct (conj Pt Wt)) m n Top Hm T). lia.
Qed.
Print Assumptions C106_bars_against_true_distances.

(* C106: at every scale the points do fall into some number of true clusters. *)
Theorem C106_true_clusters_exist : forall cloud q, exists n, true_clusters cloud q n.
Proof. exact true_clusters_exist. Qed.
Print Assumptions C106_true_clusters_exist.

(* The points 0, 3 and 7 of C94_ex: at the computed scale 4 two bars have ended.  Just above 16, the square of 4, the points
   form one true cluster; just below it, two. *)
Definition three_points : list (list double) := [[d_zero]; [PropertiesDouble.whole 3]; [PropertiesDouble.whole 7]].
Lemma whole_value m : m = 3%positive \/ m = 4%positive \/ m = 7%positive -> real_value (PropertiesDouble.whole m) = IZR (Zpos m).
Proof.
  assert (P : forall (m : positive) (k : nat) v, IZR (Zpos m) = (v * 2 ^ k)%R -> (1 * IZR (Zpos m) * powerRZ 2 (- Z.of_nat k))%R = v).
  { intros p k v ->. rewrite Rmult_1_l, powerRZ_neg', <- pow_powerRZ. field. apply pow_nonzero. lra. }
  intros [E|[E|E]]; subst m.
  - change (PropertiesDouble.whole 3) with (S754_finite false (3 * 2 ^ 51) (-51)). apply (P _ 51%nat). cbn. lra.
  - change (PropertiesDouble.whole 4) with (S754_finite false (2 ^ 52) (-50)). apply (P _ 50%nat). cbn. lra.
  - change (PropertiesDouble.whole 7) with (S754_finite false (7 * 2 ^ 50) (-50)). apply (P _ 50%nat). cbn. lra.
Qed.
Example C106_ex :
  kept [Some [d_zero]; Some [PropertiesDouble.whole 3]; None; Some [PropertiesDouble.whole 7]] = three_points /\
  coordinate_ok (PropertiesDouble.whole 4) /\ within Tree (PropertiesDouble.whole 5) (PropertiesDouble.whole 4) /\
  (real_value (PropertiesDouble.whole 4) ^ 2 < powerRZ 2 1024)%R /\
  true_clusters three_points (largest_square 1 (PropertiesDouble.whole 4)) 1 /\ true_clusters three_points (least_square 1 (PropertiesDouble.whole 4)) 2.
Proof.
  split; [reflexivity|]. split; [split; [vm_compute; intuition discriminate|exact I]|]. split; [reflexivity|].
  assert (V3 := whole_value 3 ltac:(auto)). assert (V4 := whole_value 4 ltac:(auto)). assert (V7 := whole_value 7 ltac:(auto)).
  assert (U : (0 < unit_error <= / 64)%R). { unfold unit_error. change (-53)%Z with (- Z.of_nat 53)%Z. rewrite powerRZ_neg', <- pow_powerRZ. split; [apply Rinv_0_lt_compat, pow_lt; lra|]. apply Rinv_le_contravar; cbn; lra. }
  assert (E : (0 < underflow_error <= / 64)%R).
  { unfold underflow_error. change (-1075)%Z with (- Z.of_nat 1075)%Z. rewrite powerRZ_neg', <- pow_powerRZ. split; [apply Rinv_0_lt_compat, pow_lt; lra|]. apply Rinv_le_contravar; [lra|].
    replace 64%R with (2 ^ 6)%R by (cbn; lra). apply Rle_pow; [lra|]. apply Nat.leb_le. vm_compute. reflexivity. }
  split. { rewrite V4. change 1024%Z with (Z.of_nat 1024). rewrite <- pow_powerRZ. apply Rlt_le_trans with (2 ^ 6)%R; [cbn; lra|]. apply Rle_pow; [lra|]. apply Nat.leb_le. vm_compute. reflexivity. }
  assert (T1 : true_square [d_zero] [PropertiesDouble.whole 3] = 9%R) by (unfold true_square; cbn [combine map fold_right fst snd]; rewrite V3; cbn [real_value d_zero]; lra).
  assert (T2 : true_square [PropertiesDouble.whole 3] [PropertiesDouble.whole 7] = 16%R) by (unfold true_square; cbn [combine map fold_right fst snd]; rewrite V3, V7; lra).
  assert (T3 : true_square [d_zero] [PropertiesDouble.whole 7] = 49%R) by (unfold true_square; cbn [combine map fold_right fst snd]; rewrite V7; cbn [real_value d_zero]; lra).
  assert (Hi : (16 <= largest_square 1 (PropertiesDouble.whole 4))%R).
  { unfold largest_square. rewrite V4. cbn [INR Nat.add]. pose proof (shrink_pos 6) as S. assert (S1 : ((1 - unit_error) ^ 6 <= 1)%R) by apply pow_small.
    apply (Rmult_le_reg_r ((1 - unit_error) ^ 6)); [exact S|]. unfold Rdiv. rewrite Rmult_assoc, Rinv_l, Rmult_1_r by lra. lra. }
  assert (Lo : (9 <= least_square 1 (PropertiesDouble.whole 4) < 16)%R).
  { unfold least_square. rewrite V4. cbn [INR Nat.add]. pose proof (grow_pos 6) as G. assert (G1 : (1 < (1 + unit_error) ^ 6)%R) by (apply Rlt_pow_R1; [lra|lia]).
    assert (G2 : ((1 + unit_error) ^ 6 <= (1 + / 64) ^ 6)%R) by (apply pow_incr; lra). assert (G3 : ((1 + / 64) ^ 6 <= 3 / 2)%R) by (cbn; lra). set (g := ((1 + unit_error) ^ 6)%R) in *. clearbody g. replace (4 ^ 2)%R with 16%R by (cbn; lra). split.
    - assert (H : (32 / 3 <= 16 / g)%R); [|lra]. apply (Rmult_le_reg_r g); [lra|]. unfold Rdiv at 2. rewrite Rmult_assoc, Rinv_l, Rmult_1_r by lra. lra.
    - assert (H : (16 / g < 16)%R); [|lra]. apply (Rmult_lt_reg_r g); [lra|]. unfold Rdiv. rewrite Rmult_assoc, Rinv_l, Rmult_1_r by lra. lra. }
  set (hi := largest_square 1 _) in *. set (lo := least_square 1 _) in *. clearbody hi lo.
  assert (J01 : forall q, (9 <= q)%R -> clos_refl_sym_trans nat (near three_points q) 0 1) by (intros q Hq; apply rst_step; split; [lia|]; do 2 eexists; split; [reflexivity|]; split; [reflexivity|]; now rewrite T1).
  assert (J12 : forall q, (16 <= q)%R -> clos_refl_sym_trans nat (near three_points q) 1 2) by (intros q Hq; apply rst_step; split; [lia|]; do 2 eexists; split; [reflexivity|]; split; [reflexivity|]; now rewrite T2).
  assert (N2 : forall u v, clos_refl_sym_trans nat (near three_points lo) u v -> (u = 2 <-> v = 2)).
  { intros u v H. induction H as [u v H|u|u v _ IH|u v w _ IH1 _ IH2]; [|tauto|tauto|tauto]. destruct H as (Huv & x & y & Hx & Hy & L).
    destruct u as [|[|u]], v as [|[|[|v]]]; try lia; try (destruct v; discriminate Hy); cbn -[PropertiesDouble.whole d_zero] in Hx, Hy; injection Hx as <-; injection Hy as <-; first [lia|exfalso; lra]. }
  split.
  - exists [0]. split; [reflexivity|]. split; [constructor; [intros []|constructor]|]. split; [intros x [<-|[]]; cbn; auto|]. split; [intros x y [<-|[]] [<-|[]]; auto|].
    intros v Hv. exists 0. split; [now left|]. cbn in Hv. destruct Hv as [<-|[<-|[<-|[]]]]; [apply rst_refl|apply rst_sym, J01; lra|].
    apply rst_sym. eapply rst_trans; [apply J01; lra|apply J12; lra].
  - exists [0; 2]. split; [reflexivity|]. split; [constructor; [intros [?|[]]; discriminate|constructor; [intros []|constructor]]|]. split; [intros x [<-|[<-|[]]]; cbn; auto|]. split.
    + intros x y [<-|[<-|[]]] [<-|[<-|[]]] H; auto; apply N2 in H; intuition discriminate.
    + intros v Hv. cbn in Hv. destruct Hv as [<-|[<-|[<-|[]]]]; [exists 0|exists 0|exists 2]; (split; [cbn; auto|]); [apply rst_refl|apply rst_sym, J01; lra|apply rst_refl].
Qed.
