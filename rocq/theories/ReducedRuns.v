(* ReducedRuns.v -- proof for C111. *)
From Coq Require Import String Ascii List Arith ZArith Bool Lia Sorted Relations SpecFloat Reals.
From Verif Require Import TreeModel SpecRobust.
From Verif Require Import Base Spec UtilsModel PartitionProofs ArrayListModel SpecComplex FastModel SpecGraph SpecFast ArgModel SpecArgs ArgProofs PipeModel SpecPipe PipeRuns MainModel SpecMain MainRuns SpecLink LinkRuns.
From Verif Require Import KmeansModel DoubleModel SpecDouble DoubleProofs DoubleRuns TextRuns.
From Verif Require Import IoModel SpecIo IoProofs TextModel SpecText TextProofs ReadModel SpecRead ReadProofs ReadUnique ReadRest ProgramRuns NanModel SpecNan NanRuns NanKmeans NanProgram.
From Verif Require Import FloatFacts SpecKdDouble KdDouble SpecError SpecMean SpecRadius RadiusDouble ReducedModel SpecReduced.
Import ListNotations.
Local Open Scope nat_scope.
Local Open Scope list_scope.

(* ---- the partitions of coded points *)
Lemma fold_sim {A B X Y} (R : A -> B -> Prop) (Q : X -> Y -> Prop) (f : A -> X -> res A) (g : B -> Y -> res B) l m :
  Forall2 Q l m ->
  (forall a b x y, In x l -> Q x y -> R a b -> match f a x, g b y with Ok a', Ok b' => R a' b' | UB, UB => True | _, _ => False end) ->
  forall a b, R a b -> match foldr_ub f a l, foldr_ub g b m with Ok a', Ok b' => R a' b' | UB, UB => True | _, _ => False end.
Proof.
  induction 1 as [|x y l m Hq _ IH]; intros H a b Hr; cbn [foldr_ub]; [exact Hr|].
  assert (S := H a b x y (or_introl eq_refl) Hq Hr). destruct (f a x) as [a'|], (g b y) as [b'|]; cbn [bind]; try contradiction; try exact I.
  apply IH; [|exact S]. intros; apply H; auto. now right.
Qed.
Lemma enum_map {A B} (h : A -> B) l : forall i, Forall2 (fun x y => fst y = fst x /\ snd y = h (snd x)) (enum i l) (enum i (map h l)).
Proof. induction l as [|x l IH]; intros i; cbn; constructor; auto. Qed.
Lemma same_list {A} (l : list A) : Forall2 eq l l.
Proof. induction l; constructor; auto. Qed.
Lemma in_enum {A} (l : list A) : forall i j x, In (j, x) (enum i l) -> In x l /\ i <= j /\ nth_error l (j - i) = Some x.
Proof.
  induction l as [|y l IH]; intros i j x H; [destruct H|]. cbn in H. destruct H as [H|H]; [injection H as -> ->; rewrite Nat.sub_diag; repeat split; auto; now left|].
  destruct (IH _ _ _ H) as (A1 & A2 & A3). split; [now right|]. split; [lia|]. replace (j - i) with (S (j - S i)) by lia. exact A3.
Qed.
Lemma upd_map {A B} (h : A -> B) (f : A -> A) (g : B -> B) : (forall x, g (h x) = h (f x)) -> forall l i,
  upd (map h l) i g = match upd l i f with Ok l' => Ok (map h l') | UB => UB end.
Proof.
  intros H. induction l as [|x l IH]; intros i; [reflexivity|]. destruct i as [|i]; cbn [upd map]; [now rewrite H|]. rewrite IH. destruct (upd l i f); reflexivity.
Qed.
Lemma at_map {A B} (h : A -> B) l i : at_ (map h l) i = match at_ l i with Ok x => Ok (h x) | UB => UB end.
Proof. unfold at_. rewrite nth_error_map. now destruct (nth_error l i). Qed.

Section Coded.
  Context {P Q : Type}.
  Variable h : P -> Q.
  Variables (d1 : P -> P -> Z) (d2 : Q -> Q -> Z).
  Variables (cents data : list P) (labels : list nat).
  Lemma radius_coded : (forall i j x c, nth_error labels i = Some j -> nth_error data i = Some x -> nth_error cents j = Some c -> d2 (h x) (h c) = d1 x c) ->
    computeMaxRadius d2 (map h cents) (map h data) labels = computeMaxRadius d1 cents data labels.
  Proof.
    intros E. unfold computeMaxRadius.
    assert (S := fold_sim (A := Z) (B := Z) eq eq
      (fun maxRadius '(i, lab) => do x <- at_ (map h data) i; do c <- at_ (map h cents) lab; let curRadius := d2 x c in Ok (if (maxRadius <? curRadius)%Z then curRadius else maxRadius))
      (fun maxRadius '(i, lab) => do x <- at_ data i; do c <- at_ cents lab; let curRadius := d1 x c in Ok (if (maxRadius <? curRadius)%Z then curRadius else maxRadius))
      (enum 0 labels) _ (same_list _)).
    cbv beta in S. assert (S' := fun K => S K 0%Z 0%Z eq_refl). clear S.
    match type of S' with ?K -> _ => assert (HK : K) end.
    { intros a b [i lab] y Hi <- <-. apply in_enum in Hi as (_ & _ & Hi). rewrite Nat.sub_0_r in Hi. rewrite !at_map. unfold at_.
      destruct (nth_error data i) as [x|] eqn:Ex; cbn [bind]; [|exact I]. destruct (nth_error cents lab) as [c|] eqn:Ec; cbn [bind]; [|exact I]. now rewrite (E i lab x c). }
    specialize (S' HK). destruct (foldr_ub _ _ _) as [a|], (foldr_ub _ _ _) as [b|]; try contradiction; congruence.
  Qed.
  Lemma rows_coded rad : (forall x c, In x data -> In c cents -> d2 (h x) (h c) = d1 x c) ->
    separatePartitionsRad d2 rad (map h cents) (map h data) labels =
    match separatePartitionsRad d1 rad cents data labels with Ok (idx, rows) => Ok (idx, map (map h) rows) | UB => UB end.
  Proof.
    intros E.
    set (R := fun (a : list (list nat) * list (list P)) (b : list (list nat) * list (list Q)) => b = (fst a, map (map h) (snd a))).
    set (f := fun i '((labres, res) : list (list nat) * list (list P)) '((j, c) : nat * P) =>
       do x <- at_ data i; if (d1 x c <? rad)%Z then do res' <- upd res j (fun l => l ++ [x]); do labres' <- upd labres j (fun l => l ++ [i]); Ok (labres', res') else Ok (labres, res)).
    set (g := fun i '((labres, res) : list (list nat) * list (list Q)) '((j, c) : nat * Q) =>
       do x <- at_ (map h data) i; if (d2 x c <? rad)%Z then do res' <- upd res j (fun l => l ++ [x]); do labres' <- upd labres j (fun l => l ++ [i]); Ok (labres', res') else Ok (labres, res)).
    assert (Inner : forall i a b, R a b -> match foldr_ub (f i) a (enum 0 cents), foldr_ub (g i) b (enum 0 (map h cents)) with Ok a', Ok b' => R a' b' | UB, UB => True | _, _ => False end).
    { intros i. apply (fold_sim R _ (f i) (g i) _ _ (enum_map h cents 0)). intros [la ra] b [j c] [j' c'] Hx [E1 E2] ->. cbn [fst snd] in E1, E2. subst j' c'. apply in_enum in Hx as (Hc & _).
      unfold f, g. cbn [fst snd]. rewrite at_map. destruct (at_ data i) as [x|] eqn:Ex; cbn [bind]; [|exact I].
      assert (Hx : In x data) by (unfold at_ in Ex; destruct (nth_error data i) eqn:En; [injection Ex as <-; eapply nth_error_In; eauto|discriminate]).
      rewrite (E x c Hx Hc). destruct (d1 x c <? rad)%Z; [|reflexivity].
      rewrite (upd_map (map h) (fun l => l ++ [x]) (fun l => l ++ [h x])) by (intros l; now rewrite map_app).
      destruct (upd ra j _) as [ra'|]; cbn [bind]; [|exact I]. destruct (upd la j _) as [la'|]; cbn [bind]; [reflexivity|exact I]. }
    assert (S := fold_sim R eq (fun st '(i, _) => foldr_ub (f i) st (enum 0 cents)) (fun st '(i, _) => foldr_ub (g i) st (enum 0 (map h cents))) (enum 0 labels) _ (same_list _)).
    cbv beta in S. match type of S with ?K -> _ => assert (HK : K) end. { intros a b [i l] y _ <- Hr. exact (Inner i a b Hr). }
    specialize (S HK).
    specialize (S (repeat [] (length cents), repeat [] (length cents)) (repeat [] (length (map h cents)), repeat [] (length (map h cents)))).
    assert (H0 : R (repeat [] (length cents), repeat [] (length cents)) (repeat [] (length (map h cents)), repeat [] (length (map h cents)))).
    { unfold R. cbn [fst snd]. rewrite map_length. f_equal. clear. induction (length cents) as [|n IH]; [reflexivity|]. cbn [repeat map]. now rewrite <- IH. }
    specialize (S H0).
    assert (E1 : separatePartitionsRad d1 rad cents data labels = foldr_ub (fun st '(i, _) => foldr_ub (f i) st (enum 0 cents)) (repeat [] (length cents), repeat [] (length cents)) (enum 0 labels)) by reflexivity.
    assert (E2 : separatePartitionsRad d2 rad (map h cents) (map h data) labels = foldr_ub (fun st '(i, _) => foldr_ub (g i) st (enum 0 (map h cents))) (repeat [] (length (map h cents)), repeat [] (length (map h cents))) (enum 0 labels)) by reflexivity.
    rewrite <- E1, <- E2 in S. destruct (separatePartitionsRad d1 _ _ _ _) as [[a1 a2]|], (separatePartitionsRad d2 _ _ _ _) as [b|]; try contradiction; [|reflexivity]. unfold R in S. now subst b.
  Qed.
End Coded.

(* ---- the bars of one group *)
Section Group.
  Variable g : list (list double).
  Hypothesis Fin : forall p x, In p g -> In x p -> fits x.
  Hypothesis Len : forall p q, In p g -> In q g -> length p = length q.
  Variable eps : double.
  Hypothesis Pe : non_negative eps.
  Hypothesis Fe : fits eps.
  Notation cg := (map (map to_whole) g).
  Notation dist := (coded_dist d_square (nan_at Tree)).
  Let Sq := square_squares.
  Let Ne : is_number eps := DoubleRuns.number_of _ Pe.

  Lemma joined_pair u v : joined dist cg Tree (rank eps) (rank eps) u v <-> tree_pair g eps u v.
  Proof.
    unfold joined, tree_pair. rewrite map_length. split.
    - intros (Huv & Hv & C & _). destruct (seen_value d_square Sq Tree g Fin Len u v) as (w & A & F & _ & S1); try lia. rewrite S1 in C.
      split; [auto|]. exists w. split; [auto|]. now apply (within_place Tree eps w Ne Fe F).
    - intros (Huv & w & A & W). destruct (seen_range d_square Tree g _ _ _ A) as [Hu Hv]. destruct (seen_value d_square Sq Tree g Fin Len u v Hu Hv) as (w' & A' & F & _ & S1).
      rewrite (seen_unique d_square Tree g _ _ _ _ A A') in *. rewrite S1. apply (within_place Tree eps w' Ne Fe F) in W. split; [auto|]. split; [auto|]. split; [exact W|]. cbn in W. lia.
  Qed.
  Lemma some_pair_near : some_pair dist cg (rank eps) -> exists w, near_pair d_square g Tree eps w.
  Proof.
    intros (u & v & H1 & H2 & H3). destruct (real_weight d_square Sq Tree g Fin Len eps (separation dist cg u v) Ne Fe) as (w & _ & _ & _ & N); [exists u, v; auto|]. eauto.
  Qed.
  Lemma some_path_tree : tree_path g eps -> some_path dist cg (rank eps).
  Proof. intros (a & b & c & N & H1 & H2). exists a, b, c. rewrite !joined_pair. auto. Qed.
  Lemma forest_text F out : spanning_forest dist cg (rank eps) F -> ends_at dist cg (rank eps) F out ->
    exists ds bars, barcode_text at_place out = barcodes ds eps bars /\ double_forest g eps F ds /\ higher_bars g eps bars.
  Proof.
    intros (S1 & S2 & S3) (more & -> & Hm).
    assert (D : exists ds, map (fun p => separation dist cg (fst p) (snd p)) F = map rank ds /\ (forall w, In w ds -> non_negative w /\ fits w) /\ Forall2 (fun p w => seen_apart d_square g Tree (fst p) (snd p) w) F ds).
    { clear - S1 Fin Len Pe Fe Ne Sq. induction F as [|[u v] F IH]; [exists []; repeat split; try constructor; contradiction|].
      destruct IH as (ds & E & N & A); [intros; apply S1; now right|]. assert (J := S1 u v (or_introl eq_refl)). apply joined_pair in J as (Huv & w & A1 & W).
      destruct (seen_range d_square Tree g _ _ _ A1) as [Hu Hv]. destruct (seen_value d_square Sq Tree g Fin Len u v Hu Hv) as (w' & A' & F1 & K & Es). rewrite (seen_unique d_square Tree g _ _ _ _ A1 A') in *.
      assert (Nw := within_number Tree eps w' W). exists (w' :: ds). split; [cbn [map fst snd]; rewrite Es, place_number, E by exact Nw; reflexivity|]. split.
      - intros x [<-|Hx]; [|now apply N]. split; [destruct K; [contradiction|auto]|exact F1].
      - constructor; [exact A'|exact A]. }
    destruct D as (ds & Ed & D & A).
    assert (B : exists bars : list (nat * double * double), more = map (fun l => (fst (fst l), rank (snd (fst l)), rank (snd l))) bars /\
      forall k b w, In (k, b, w) bars -> (non_negative b /\ fits b /\ near_pair d_square g Tree eps b) /\ (non_negative w /\ fits w /\ near_pair d_square g Tree eps w) /\ 1 <= k /\ SFeqb b w = false).
    { clear - Hm Fin Len Pe Fe Ne Sq. induction more as [|[[k zb] zw] more IH]; [exists []; split; [reflexivity|intros k b w []]|].
      destruct IH as (bars & -> & IH); [intros k1 b1 w1 H1; apply Hm; now right|].
      destruct (Hm k zb zw (or_introl eq_refl)) as (K1 & K2 & B1 & B2).
      destruct (real_weight d_square Sq Tree g Fin Len eps zb Ne Fe B1) as (b & -> & R1), (real_weight d_square Sq Tree g Fin Len eps zw Ne Fe B2) as (w & -> & R2).
      exists ((k, b, w) :: bars). split; [reflexivity|]. intros k1 b1 w1 [H1|H1]; [|now apply IH]. injection H1 as <- <- <-.
      split; [exact R1|]. split; [exact R2|]. split; [exact K1|]. destruct R1 as (N1 & F1 & _), R2 as (N2 & F2 & _). rewrite rank_eqb; auto; try now apply DoubleRuns.number_of. now apply Z.eqb_neq. }
    destruct B as (bars & -> & B). exists ds, bars. split; [|split].
    - unfold barcode_text, barcodes. change barcode_header with (list_ascii_of_string "dimension,birth,death" ++ [newline]). rewrite <- app_assoc. f_equal. cbn [app]. f_equal.
      rewrite <- (map_map (fun p => separation dist cg (fst p) (snd p)) (fun w => (0, 0%Z, w))), Ed.
      rewrite !map_app, !concat_app. cbn [map concat]. rewrite app_nil_r.
      assert (X1 : map (bar_text at_place) (map (fun w => (0, 0%Z, w)) (map rank ds)) = map (fun w => list_ascii_of_string "0,0," ++ to_string w ++ [newline]) ds).
      { rewrite !map_map. apply map_ext_in. intros w Hw. destruct (D w Hw) as (N & F1). unfold bar_text. cbn [fst snd]. now rewrite at_place_rank. }
      assert (X2 : map (bar_text at_place) (map (fun l : nat * double * double => (fst (fst l), rank (snd (fst l)), rank (snd l))) bars) =
        map (fun l : nat * double * double => show (Z.of_nat (fst (fst l))) ++ comma :: to_string (snd (fst l)) ++ comma :: to_string (snd l) ++ [newline]) bars).
      { rewrite map_map. apply map_ext_in. intros [[k b] w] Hb. destruct (B k b w Hb) as ((N1 & F1 & _) & (N2 & F2 & _) & K & _). unfold bar_text. cbn [fst snd]. destruct k; [lia|]. now rewrite !at_place_rank. }
      rewrite X1, X2. rewrite <- app_assoc. f_equal. f_equal. unfold bar_text. cbn [fst snd]. now rewrite at_place_rank.
    - split; [exact A|]. split; [intros u v H; now apply joined_pair, S1|]. split.
      + intros u v. rewrite S2. apply rst_ext. exact joined_pair.
      + intros n H. apply (seen_clusters_place d_square Sq Tree g Fin Len eps eps n Ne Fe Ne Fe) in H. rewrite <- (map_length (map to_whole) g). now apply S3.
    - intros k b w Hb. destruct (B k b w Hb) as ((_ & _ & R1) & (_ & _ & R2) & K & Q). auto.
  Qed.
End Group.

(* ---- the program *)
Section Program.
  Variable index : nat.
  Variable picks : list (nat * (nat -> bool)).
  Variable pre_other : pre_kind -> amap -> packet -> res packet.
  Variable srt : list wsimp -> list wsimp.
  Variable past_end : list nat -> nat -> res nat.
  Variable nc0 : Z.
  Variable al_reduce : wgraph -> res wgraph.
  Variable other : pipe_kind -> amap -> packet -> res packet.
  Variable uaf : res unit.
  Variable file : string -> option text.
  Variables (argv : list string) (pr d e f o kk rr : string) (dd k r : Z) (eps : double) (lines : list text) (rs : list (option (list double))) (dim : nat).
  Notation cloud := (kept rs).
  Notation program := (lhf_reduced d_square index picks pre_other srt past_end nc0 al_reduce other uaf file argv).
  Hypothesis Hs : is_sort srt.
  Hypothesis Hl : reduced_line argv pr d e f o.
  Hypothesis Hn : pr = ""%string \/ names_kmeans pr.
  Hypothesis Vk : value argv "clusters" kk.
  Hypothesis Vr : value argv "iterations" rr.
  Hypothesis Ho : o <> "console"%string.
  Hypothesis Rk : reads_number (list_ascii_of_string kk) k.
  Hypothesis Kp : (0 < k)%Z.
  Hypothesis Rr : reads_number (list_ascii_of_string rr) r.
  Hypothesis Rp : (0 < r)%Z.
  Hypothesis Hd : reads_number (list_ascii_of_string d) dd.
  Hypothesis Hk : (0 < dd < 2 ^ 31 - 1)%Z.
  Hypothesis He : reads_as (list_ascii_of_string e) eps.
  Hypothesis Pe : non_negative eps.
  Hypothesis Hf : file f = Some (join newline lines).
  Hypothesis Hr : Forall2 line_gives lines rs.
  Hypothesis Hc : forall p, In p cloud -> length p = dim /\ Forall coordinate_ok p.
  Hypothesis Hi : index < length cloud.
  Hypothesis Hpk : forall i valid, In (i, valid) picks -> i < length cloud.
  Hypothesis Few : (Z.of_nat (length cloud) < 2 ^ 53)%Z.
  Let n := Z.to_nat k.

  Lemma filter_map_ne {A B} (h : A -> B) (l : list (list A)) : filter non_empty (map (map h) l) = map (map h) (filter non_empty l).
  Proof. induction l as [|x l IH]; [reflexivity|]. cbn [map filter]. destruct x; cbn [map non_empty]; rewrite IH; reflexivity. Qed.

  Theorem reduced_files :
    (fewer_points n cloud -> program = UB) /\
    (~ fewer_points n cloud -> exists start cents labels, some_points n cloud start /\
       double_kmeans d_square dim n (removelast cloud) (Z.to_nat r) start cents labels /\
       (uaf = UB -> program = UB) /\
       ((forall c j, c < n -> j < dim -> let points := labelled (removelast cloud) labels c in
           ((1 + unit_error) ^ length points * (mean_size j points * INR (length points)) < powerRZ 2 1024)%R) ->
        exists rad idx rows, radius_and_rows cloud cents labels rad idx rows /\
          let groups := filter non_empty (rows ++ [cents]) in
          (forall files, program = Ok files -> exists texts,
             files = ("output/k-means++_centroid_output.csv"%string, centroid_text cents) :: ("output/k-means++_label_output.csv"%string, label_text labels) ::
                     map (fun t => ((o ++ ".csv")%string, t)) texts /\
             Forall2 (fun g t => exists F ds bars, t = barcodes ds eps bars /\ double_forest g eps F ds /\ higher_bars g eps bars) groups texts) /\
          (forall g, In g groups -> ~ (exists w, near_pair d_square g Tree eps w) -> program = UB) /\
          (forall gs1 g gs2 h, filter non_empty rows = gs1 ++ g :: gs2 -> tree_path g eps -> In h (g :: gs2) -> length h <= points gs1 -> program = UB))).
  Proof.
    destruct (reduced_args _ _ _ _ _ _ Hl Hn) as (m & P & Dr & (pre' & Pre & Np) & Fi & Fo & Up & Md).
    assert (Ne : cloud <> []) by (intros Q; rewrite Q in Hi; cbn in Hi; lia).
    destruct (input_rows file f lines rs Hf Hr Ne) as (Rd & Nd & Fit & Row). destruct (reads_stod _ _ He) as (_ & Ee & Fe).
    assert (HO := parse_has_options argv m P : has_options m).
    assert (Ek : mget (setPipeline m) "clusters" = Some kk) by (rewrite args_keep; [now apply (value_mget argv)|exact HO|cbn; intuition discriminate]).
    assert (Er : mget (setPipeline m) "iterations" = Some rr) by (rewrite args_keep; [now apply (value_mget argv)|exact HO|cbn; intuition discriminate]).
    assert (Ak : arg_int (setPipeline m) "clusters" = k) by (unfold arg_int, opt; rewrite Ek; now apply atoi_number).
    assert (Ar : arg_int (setPipeline m) "iterations" = r) by (unfold arg_int, opt; rewrite Er; now apply atoi_number).
    set (args := setPipeline m) in *.
    set (made := km_run double d_zero d_max d_add d_div SFltb (km_dist d_square) d_eqb cloud n (Z.to_nat r) index picks).
    assert (Dec : map (map of_whole) (map (map to_whole) cloud) = cloud).
    { rewrite map_map. rewrite <- (map_id cloud) at 2. apply map_ext_in. intros p Hp. now apply (decode_row cloud Fit). }
    assert (Hm : forall cx0, pre_doubles d_square index picks pre_other KKMeans args (mkPacket (map (map to_whole) cloud) [] (map (map to_whole) cloud) [] cx0 [] [] []) =
      do x <- made; Ok (mkPacket (map (map to_whole) (fst x)) (snd x) (map (map to_whole) cloud) [] cx0 [] [] [])).
    { intros cx0. unfold pre_doubles, kmeans_doubles. cbn [pk_data pk_full pk_weights pk_complex pk_output pk_table pk_stats]. rewrite Ak, Ar, Dec. rewrite (proj2 (Z.ltb_ge k 0)) by lia. reflexivity. }
    assert (Hp : forall cx0, preprocess packet (pre_doubles d_square index picks pre_other) (fun _ p => Ok p) args (mkPacket (map (map to_whole) cloud) [] (map (map to_whole) cloud) [] cx0 [] [] []) =
      do x <- made; Ok (mkPacket (map (map to_whole) (fst x)) (snd x) (map (map to_whole) cloud) [] cx0 [] [] [])).
    { intros cx0. rewrite (kmeans_preprocess _ args pre' _ Pre Np) by congruence. apply Hm. }
    assert (Num : forall p x, In p cloud -> In x p -> is_number x /\ fits x).
    { intros p x H1 H2. destruct (Hc p H1) as [_ F]. rewrite Forall_forall in F. destruct (F x H2) as [Cx Fx]. split; [destruct x; easy|now apply canonical_fits]. }
    destruct (double_run_kmeans d_square cloud dim n (Z.to_nat r) Num (fun p H => proj1 (Hc p H)) ltac:(unfold n; lia) ltac:(lia) index picks Hi Hpk) as [A B]. fold made in A, B.
    set (ai := fun s : string => ReadModel.atoi (list_ascii_of_string s)). set (af := fun s : string => rank (ReadModel.atof (list_ascii_of_string s))).
    assert (Ai : ai d = dd) by exact (atoi_number _ _ Hd). assert (Af : af e = rank eps) by (unfold af; now rewrite Ee).
    set (cx0 := Some (CTree (af e) (ai d) (st_new [] nc0))).
    assert (Cx : newSimplex ai af nc0 (opt args "complexType") args = Ok cx0).
    { unfold newSimplex, opt. rewrite (dr_dim _ _ _ _ Dr), (dr_eps _ _ _ _ Dr), (dr_complex _ _ _ _ Dr). reflexivity. }
    set (p0 := mkPacket (map (map to_whole) cloud) [] (map (map to_whole) cloud) [] cx0 [] [] []).
    set (wrapper := reduced_with (coded_dist d_square 0) ai af srt past_end al_reduce other (pre_doubles d_square index picks pre_other) (fun _ q => Ok q) uaf
                      (coded_dist d_square (-1)) (coded_dist d_square (2 ^ 65 + 1)) twice_place args p0).
    assert (E : program = do x <- wrapper; do w <- pre_written d_square index picks pre_other args p0; Ok (w ++ map (fun y => (fst y, barcode_text at_place (snd y))) (snd x))).
    { unfold lhf_reduced. rewrite P. cbn [bind]. fold args. fold ai af. rewrite Cx. cbn [bind].
      replace (opt args "inputFile") with f by (unfold opt; now rewrite Fi). rewrite Rd.
      replace (0 <? length (map (map to_whole) cloud)) with true by (symmetry; apply Nat.ltb_lt; rewrite map_length; lia).
      replace (nan_place (opt args "complexType")) with 0%Z by (unfold opt; now rewrite (dr_complex _ _ _ _ Dr)). reflexivity. }
    rewrite E. clear E. split.
    - intros F. unfold wrapper, reduced_with, p0. rewrite Hp, (A F). reflexivity.
    - intros N. destruct (B N) as (start & cents & labels & Em & S & K). exists start, cents, labels. split; [exact S|]. split; [exact K|].
      assert (Ec := proj1 K).
      assert (Fc : forall p x, In p cents -> In x p -> fits x) by (rewrite Ec; apply means_fit).
      assert (Lc : forall p, In p cents -> length p = dim) by (assert (M := means_dim dim n (removelast cloud) labels); rewrite <- Ec, Forall_forall in M; exact M).
      assert (Pd : 0 < dim). { destruct cloud as [|p cl]; [easy|]. rewrite <- (proj1 (Hc p (or_introl eq_refl))). assert (Rw := Row p (or_introl eq_refl)). destruct p; [easy|cbn; lia]. }
      assert (Nc : cents <> []). { intros Q. assert (Z0 : length cents = n) by (rewrite Ec; unfold double_means; now rewrite map_length, seq_length). rewrite Q in Z0. cbn in Z0. unfold n in Z0. lia. }
      assert (Ew : pre_written d_square index picks pre_other args p0 =
        Ok [("output/k-means++_centroid_output.csv"%string, centroid_text cents); ("output/k-means++_label_output.csv"%string, label_text labels)]).
      { unfold pre_written. unfold opt at 1. rewrite Pre. rewrite (proj2 (newPreprocessor_spec pre' KKMeans) Np).
        unfold configPreprocessor, pre_required. cbn [forallb]. unfold has_key. rewrite Ek, Er. cbn [andb]. unfold p0. rewrite Hm, Em. cbn [bind fst snd pk_data pk_labels].
        assert (Dc : map (map of_whole) (map (map to_whole) cents) = cents) by (rewrite map_map; rewrite <- (map_id cents) at 2; apply map_ext_in; intros p H1; now apply (decode_row cents Fc)).
        rewrite Dc. unfold pre_files, centroid_text, label_text. rewrite !flat_map_concat_map. cbn [pre_name append].
        rewrite (map_ext (fun row => flat_map (fun d : double => to_string d ++ [comma]) row ++ [newline]) (fun row => concat (map (fun x : double => to_string x ++ [comma]) row) ++ [newline]));
          [reflexivity|intros row; now rewrite flat_map_concat_map]. }
      rewrite Ew. clear Ew.
      specialize (Hp cx0). rewrite Em in Hp. cbn [bind fst snd] in Hp. fold p0 in Hp. set (p1 := mkPacket (map (map to_whole) cents) labels _ _ _ _ _ _) in Hp.
      assert (Hrows : forall x, In x (pk_data p1) \/ In x (pk_full p1) -> x <> []).
      { intros x [H|H]; cbn [pk_data pk_full p1] in H; apply in_map_iff in H as (y & <- & Hy).
        - apply Lc in Hy. destruct y; [cbn in Hy; lia|discriminate].
        - apply Row in Hy. now destruct y. }
      assert (Hd' : (0 < ai d < 2 ^ 31 - 1)%Z) by (rewrite Ai; exact Hk).
      assert (G := reduced_groups (coded_dist d_square 0) ai af srt past_end nc0 al_reduce other (pre_doubles d_square index picks pre_other) (fun _ q => Ok q) uaf
        (coded_dist d_square (-1)) (coded_dist d_square (2 ^ 65 + 1)) twice_place args d e Hs Dr (coded_dist_pos d_square Tree square_squares) Hd' p0 p1 Hp eq_refl eq_refl Hrows).
      fold wrapper in G. assert (Cd : pk_data p1 <> []) by (cbn [pk_data p1]; destruct cents; [easy|discriminate]).
      assert (Gu : uaf = UB -> wrapper = UB).
      { intros Hu. destruct wrapper as [[q files]|]; [exfalso|reflexivity]. destruct (G q files eq_refl) as (z & it & pt & outs & _ & _ & _ & _ & _ & _ & G3 & _).
        rewrite G3 in Hu; [discriminate|]. intros Q. assert (I1 : In (pk_data p1) (filter non_empty (pt ++ [pk_data p1]))); [|rewrite Q in I1; exact I1].
        apply filter_In. split; [apply in_app_iff; right; now left|]. destruct (pk_data p1); [easy|reflexivity]. }
      split; [intros Hu; now rewrite (Gu Hu)|].
      intros Small.
      destruct (kmeans_ready index picks k r cloud dim cents labels Hc Pd Kp Rp Hi Hpk) as (_ & R1 & R2 & R3); [|exact Few|exact Small|].
      { unfold kmeans_doubles. rewrite (proj2 (Z.ltb_ge k 0)) by lia. exact Em. }
      destruct (radius_partitions dim cloud cents labels Hc R2 R1 R3) as (rad & idx & rows & Q1 & Q2 & Q3 & _).
      exists rad, idx, rows. split; [exact Q3|].
      assert (Fx : forall x, In x cloud -> map of_whole (map to_whole x) = x) by (intros; now apply (decode_row cloud Fit)).
      assert (Fy : forall x, In x cents -> map of_whole (map to_whole x) = x) by (intros; now apply (decode_row cents Fc)).
      assert (C1 : computeMaxRadius (coded_dist d_square (-1)) (pk_data p1) (pk_full p1) (pk_labels p1) = Ok (rank rad)).
      { rewrite <- Q1. cbn [pk_data pk_full pk_labels p1]. apply radius_coded. intros i j x c0 I1 I2 I3. unfold coded_dist, point_place. rewrite Fx, Fy by eauto using nth_error_In.
        destruct (R3 j (nth_error_In _ _ I1)) as (c' & I4 & F4). assert (c' = c0) by congruence. subst c'. destruct (Hc x (nth_error_In _ _ I2)) as [L1 F1].
        destruct (dist_spec x c0 ltac:(rewrite L1; symmetry; apply Lc; eauto using nth_error_In) F1 F4) as (w & D & _ & Nw & _). unfold distance_is in D. rewrite D. now destruct w. }
      assert (T2 : twice_place (rank rad) = rank (twice rad)).
      { unfold twice_place. destruct Q3 as (Ca & Nn & _). rewrite at_place_rank by (auto using canonical_fits). reflexivity. }
      assert (C2 : separatePartitionsRad (coded_dist d_square (2 ^ 65 + 1)) (twice_place (rank rad)) (pk_data p1) (pk_full p1) (pk_labels p1) = Ok (idx, map (map (map to_whole)) rows)).
      { rewrite T2. cbn [pk_data pk_full pk_labels p1]. rewrite (rows_coded (map to_whole) point_place); [now rewrite Q2|].
        intros x c0 I1 I2. unfold coded_dist, point_place. rewrite Fx, Fy by auto. reflexivity. }
      assert (Eg : filter non_empty (map (map (map to_whole)) rows ++ [pk_data p1]) = map (map (map to_whole)) (filter non_empty (rows ++ [cents]))).
      { rewrite <- filter_map_ne, map_app. reflexivity. }
      set (groups := filter non_empty (rows ++ [cents])) in *.
      assert (Gr : forall g, In g groups -> (forall p x, In p g -> In x p -> fits x) /\ (forall p q, In p g -> In q g -> length p = length q)).
      { assert (Sub : forall g, In g rows -> forall p, In p g -> In p cloud).
        { intros g Hg p Hpg. destruct Q3 as (_ & _ & _ & _ & (T1 & T2' & T3)). apply In_nth_error in Hg as (j & Hj). assert (Lj : j < length cents) by (rewrite <- T2'; apply nth_error_Some; congruence).
          destruct (T3 j Lj) as (ix & ps & _ & J2 & _ & _ & J5). rewrite Hj in J2. injection J2 as <-. clear - J5 Hpg. induction J5; [easy|]. destruct Hpg as [<-|Hpg]; [eauto using nth_error_In|auto]. }
        intros g Hg. unfold groups in Hg. apply filter_In in Hg as [Hg _]. apply in_app_iff in Hg as [Hg|[<-|[]]].
        - split; [intros p x H1 H2; apply (Fit p x); eauto|]. intros p q H1 H2. rewrite (proj1 (Hc p (Sub g Hg p H1))). symmetry. apply (proj1 (Hc q (Sub g Hg q H2))).
        - split; [exact Fc|]. intros p q H1 H2. rewrite (Lc p H1). symmetry. now apply Lc. }
      assert (W : forall q files, wrapper = Ok (q, files) -> exists outs,
        files = map (fun out => ((o ++ ".csv")%string, out)) outs /\
        Forall2 (fun g t => exists F ds bars, t = barcodes ds eps bars /\ double_forest g eps F ds /\ higher_bars g eps bars) groups (map (barcode_text at_place) outs) /\
        (forall g, In g groups -> exists w, near_pair d_square g Tree eps w) /\
        (forall gs1 g gs2, filter non_empty rows = gs1 ++ g :: gs2 -> tree_path g eps -> forall h, In h (g :: gs2) -> points gs1 < length h)).
      { intros q files Ef. destruct (G q files Ef) as (z & it & pt & outs & Z1 & Z2 & Z3 & Z4 & _ & _ & _ & Z5 & Z6). clear G.
        rewrite C1 in Z1. injection Z1 as <-. rewrite C2 in Z2. injection Z2 as <- <-. rewrite Eg in Z4, Z5. rewrite Af in Z4, Z5, Z6. exists outs. split; [|split; [|split]].
        - rewrite Z3. unfold names, writes_output, opt. rewrite (dr_pipeline _ _ _ _ Dr), Fo. rewrite (proj2 (String.eqb_neq _ _) Ho). reflexivity.
        - clear - Z4 Gr Pe Fe. revert outs Z4 Gr. generalize groups. clear groups. induction groups as [|g gs IH]; intros outs Z4 Gr; inversion Z4 as [|? out ? outs' (F & F1 & F2) Z4']; subst; [constructor|].
          cbn [map]. constructor; [|apply IH; [exact Z4'|intros g' Hg'; apply Gr; now right]]. destruct (Gr g (or_introl eq_refl)) as [G1 G2].
          destruct (forest_text g G1 G2 eps Pe Fe F out F1 F2) as (ds & bars & T1 & T2 & T3). exists F, ds, bars. auto.
        - intros g Hg. destruct (Gr g Hg) as [G1 G2]. apply (some_pair_near g G1 G2 eps Pe Fe). apply Z5. now apply in_map.
        - intros gs1 g gs2 Eq Tp h Hh. rewrite filter_map_ne, Eq, map_app in Z6. cbn [map] in Z6.
          assert (Hg : In g groups). { unfold groups. rewrite filter_app, Eq. apply in_app_iff. left. apply in_app_iff. right. now left. }
          destruct (Gr g Hg) as [G1 G2]. assert (X := Z6 (map (map (map to_whole)) gs1) (map (map to_whole) g) (map (map (map to_whole)) gs2) eq_refl (some_path_tree g G1 G2 eps Pe Fe Tp) (map (map to_whole) h)).
          assert (Hh' : In (map (map to_whole) h) (map (map to_whole) g :: map (map (map to_whole)) gs2)) by (destruct Hh as [->|Hh]; [now left|right; now apply in_map]).
          specialize (X Hh'). rewrite map_length in X. replace (points (map (map (map to_whole)) gs1)) with (points gs1) in X; [exact X|].
          unfold points. rewrite map_map. f_equal. apply map_ext. intros l. now rewrite map_length. }
      destruct wrapper as [[q files]|]; cbn [bind fst snd].
      + destruct (W q files eq_refl) as (outs & -> & W1 & W2 & W3). split; [|split].
        * intros fs H. injection H as <-. exists (map (barcode_text at_place) outs). split; [|exact W1]. cbn [app]. do 2 f_equal. rewrite !map_map. reflexivity.
        * intros g Hg Nn. exfalso. apply Nn. now apply W2.
        * intros gs1 g gs2 h H1 H2 H3 H4. exfalso. specialize (W3 gs1 g gs2 H1 H2 h H3). lia.
      + split; [discriminate|]. split; reflexivity.
  Qed.
End Program.
