(* SlidingProofs.v -- proofs about slidingWindow. *)
From Coq Require Import String Ascii List Arith ZArith QArith Bool Lia Sorted Permutation.
From Verif Require Import Base UtilsModel ArrayListModel TreeModel FastModel ArgModel GaussModel PipeModel WindowModel.
From Verif Require Import Spec SpecComplex SpecTree SpecArgs SpecGraph SpecLinear SpecFast.
From Verif Require Import ArrayListProofs ArgProofs ArrayListHist TreeHist FastProofs FastRuns PipeProofs PipeRuns GaussRuns.
From Verif Require Import SpecPipe SpecWindow WindowProofs.
Import ListNotations.
Local Open Scope nat_scope.
Local Open Scope list_scope.

Section NN.
  Variable dist : list Z -> list Z -> Z.
  Variable data : list (list Z).
  Variable eps : Z.
  Let n := length data.
  Notation gap := (gap dist data).
  Notation sep := (separation dist data).

  Definition others (i k : nat) : list Z := map (gap i) (seq 0 (Nat.min k i)) ++ map (gap i) (seq (S i) (k - S i)).

  Lemma nn_row_spec i x m ws : nth_error data i = Some x -> square m n (fun a b => if (a <? i) && (a <? b) then sep a b else 0%Z) ->
    exists m' ws', nn_row dist eps data i x (m, ws) = Ok (m', ws', others i n) /\ square m' n (fun a b => if (a <? S i) && (a <? b) then sep a b else 0%Z).
  Proof.
    intros Hx Sq. assert (Hi : i < n) by (apply nth_error_Some; congruence).
    assert (G : forall k, k <= n -> exists m' ws',
      foldr_ub (fun '(m, ws, ds) j =>
                if j <? i then do d <- dm_at m j i; Ok (m, ws, (ds ++ [d])%list)
                else if i <? j then
                  do y <- at_ data j;
                  let d := dist x y in
                  do m' <- set2 m i j d;
                  Ok (m', if (d <? eps)%Z then dinsert d ws else ws, (ds ++ [d])%list)
                else Ok (m, ws, ds)) (m, ws, []) (seq 0 k) = Ok (m', ws', others i k) /\
      square m' n (fun a b => if (a <? b) && ((a <? i) || ((a =? i) && (b <? k))) then sep a b else 0%Z)).
    { induction k as [|k IH]; intros Hk.
      - exists m, ws. split; [unfold others; now rewrite Nat.min_0_l|]. destruct Sq as [L Sq]. split; auto. intros a Ha.
        destruct (Sq a Ha) as (row & R1 & R2 & R3). exists row. split; auto. split; auto. intros b Hb. rewrite (R3 b Hb). f_equal.
        destruct (Nat.ltb_spec a i), (Nat.ltb_spec a b), (Nat.eqb_spec a i), (Nat.ltb_spec b 0); cbn; auto; lia.
      - destruct IH as (m1 & ws1 & E & S1); [lia|]. rewrite seq_S, foldr_ub_app, E. cbn [bind foldr_ub Nat.add].
        destruct (Nat.ltb_spec k i) as [Ki|Ki].
        + destruct S1 as [L1 S1]. destruct (S1 k ltac:(lia)) as (row & R1 & R2 & R3). unfold dm_at. rewrite (at_ok _ _ _ R1). cbn [bind].
          rewrite (at_ok _ _ _ (R3 i Hi)). cbn [bind]. exists m1, ws1. split.
          * do 2 f_equal. destruct (Nat.ltb_spec k i); [|lia]. cbn [andb orb]. unfold others. replace (S k - S i) with 0 by lia. replace (k - S i) with 0 by lia.
            cbn [seq map]. rewrite !app_nil_r. replace (Nat.min (S k) i) with (S k) by lia. replace (Nat.min k i) with k by lia.
            rewrite seq_S, map_app. cbn [map Nat.add]. do 2 f_equal. unfold SpecWindow.gap. now rewrite Nat.min_r, Nat.max_l by lia.
          * split; auto. intros a Ha. destruct (S1 a Ha) as (r & Q1 & Q2 & Q3). exists r. split; auto. split; auto. intros b Hb. rewrite (Q3 b Hb). f_equal.
            destruct (Nat.ltb_spec a b), (Nat.ltb_spec a i), (Nat.eqb_spec a i), (Nat.ltb_spec b k), (Nat.ltb_spec b (S k)); cbn; auto; lia.
        + destruct (Nat.ltb_spec i k) as [Kj|Kj].
          * destruct (nth_error data k) as [y|] eqn:Ey; [|apply nth_error_None in Ey; fold n in Ey; lia]. rewrite (at_ok _ _ _ Ey). cbn [bind].
            destruct (set2_square m1 n _ i k (dist x y) S1 Hi ltac:(lia)) as (m2 & E2 & S2). rewrite E2. cbn [bind].
            eexists m2, _. split.
            -- do 2 f_equal. unfold others. replace (Nat.min (S k) i) with i by lia. replace (Nat.min k i) with i by lia. replace (S k - S i) with (S (k - S i)) by lia.
               rewrite (seq_S (k - S i)), map_app, app_assoc. f_equal. replace (S i + (k - S i)) with k by lia. cbn [map]. unfold SpecWindow.gap. rewrite Nat.min_l, Nat.max_r by lia.
               unfold separation. now rewrite Hx, Ey.
            -- destruct S2 as [L2 S2]. split; auto. intros a Ha. destruct (S2 a Ha) as (r & Q1 & Q2 & Q3). exists r. split; auto. split; auto. intros b Hb. rewrite (Q3 b Hb). f_equal.
               assert (Sy : sep i k = dist x y) by (unfold separation; now rewrite Hx, Ey).
               destruct (Nat.eqb_spec a i) as [->|]; destruct (Nat.eqb_spec b k) as [->|]; cbn [andb]; try (rewrite <- Sy);
               repeat match goal with |- context [?u <? ?v] => destruct (Nat.ltb_spec u v); cbn [andb orb] end; auto; lia.
          * assert (k = i) as -> by lia. exists m1, ws1. split.
            -- do 2 f_equal. unfold others. replace (S i - S i) with 0 by lia. replace (i - S i) with 0 by lia. now rewrite !Nat.min_r by lia.
            -- destruct S1 as [L1 S1]. split; auto. intros a Ha. destruct (S1 a Ha) as (r & Q1 & Q2 & Q3). exists r. split; auto. split; auto. intros b Hb. rewrite (Q3 b Hb). f_equal.
               destruct (Nat.ltb_spec a b), (Nat.ltb_spec a i), (Nat.eqb_spec a i), (Nat.ltb_spec b i), (Nat.ltb_spec b (S i)); cbn; auto; lia. }
    destruct (G n (le_n n)) as (m' & ws' & E & S'). exists m', ws'. split; [exact E|].
    destruct S' as [L' S']. split; auto. intros a Ha. destruct (S' a Ha) as (r & Q1 & Q2 & Q3). exists r. split; auto. split; auto. intros b Hb. rewrite (Q3 b Hb). f_equal.
    destruct (Nat.ltb_spec a b), (Nat.ltb_spec a i), (Nat.eqb_spec a i), (Nat.ltb_spec b n), (Nat.ltb_spec a (S i)); cbn; auto; lia.
  Qed.

  (* Positions in [others]. *)
  Lemma others_nth i t d : i < n -> nth_error (others i n) t = Some d ->
    let j := if t <? i then t else t + 1 in j < n /\ j <> i /\ d = gap i j.
  Proof.
    intros Hi H. unfold others in H. replace (Nat.min n i) with i in H by lia.
    destruct (Nat.ltb_spec t i) as [T|T]; cbv zeta.
    - rewrite nth_error_app1 in H by (rewrite map_length, seq_length; auto). rewrite nth_error_map in H.
      rewrite (nth_error_nth' _ 0) in H by (rewrite seq_length; auto). rewrite seq_nth in H by auto. cbn in H. injection H as <-. lia.
    - rewrite nth_error_app2 in H by (rewrite map_length, seq_length; auto). rewrite map_length, seq_length in H.
      assert (B : t - i < n - S i).
      { assert (nth_error (map (gap i) (seq (S i) (n - S i))) (t - i) <> None) as B by congruence. apply nth_error_Some in B. now rewrite map_length, seq_length in B. }
      rewrite nth_error_map in H. rewrite (nth_error_nth' _ 0) in H by (rewrite seq_length; auto). rewrite seq_nth in H by auto. cbn [option_map] in H. injection H as <-.
      split; [lia|]. split; [lia|]. f_equal. lia.
  Qed.
  Lemma others_at i k : i < n -> k < n -> k <> i -> nth_error (others i n) (if k <? i then k else k - 1) = Some (gap i k).
  Proof.
    intros Hi Hk N. unfold others. replace (Nat.min n i) with i by lia. destruct (Nat.ltb_spec k i).
    - rewrite nth_error_app1 by (rewrite map_length, seq_length; auto). rewrite nth_error_map, (nth_error_nth' _ 0) by (rewrite seq_length; auto).
      rewrite seq_nth by auto. reflexivity.
    - rewrite nth_error_app2 by (rewrite map_length, seq_length; lia). rewrite map_length, seq_length, nth_error_map, (nth_error_nth' _ 0) by (rewrite seq_length; lia).
      rewrite seq_nth by lia. cbn [option_map]. do 2 f_equal. lia.
  Qed.

  Lemma nearest_min i t d : i < n -> min_pos (others i n) = Some (t, d) -> nearest_other dist data i (if t <? i then t else t + 1) d.
  Proof.
    intros Hi H. assert (Ne : others i n <> []) by (intros E; rewrite E in H; discriminate).
    destruct (min_pos_spec _ Ne) as (t' & d' & E & N & M). rewrite E in H. injection H as -> ->.
    destruct (others_nth i t d Hi N) as (A & B & C). cbv zeta in *. split; auto. split; auto. split; auto. split; auto.
    intros k Hk Nk. destruct (M _ _ (others_at i k Hi Hk Nk)) as [M1 M2]. split; auto. intros Q. specialize (M2 Q).
    destruct (Nat.ltb_spec t i), (Nat.ltb_spec k i); lia.
  Qed.

  Lemma nn_rows_spec ws idx nnd : 2 <= n -> (forall x, In x data -> x <> []) ->
    exists m ws' idx' nnd', nn_rows dist eps data ws idx nnd = Ok (m, ws', idx ++ idx', nnd ++ nnd') /\
      square m n (fun a b => if (a <? n) && (a <? b) then sep a b else 0%Z) /\ length idx' = n /\ length nnd' = n /\
      forall i, i < n -> nearest_other dist data i (nth i idx' 0) (nth i nnd' 0%Z).
  Proof.
    intros N2 Hne. unfold nn_rows. fold n.
    assert (G : forall suf pre m ws idx' nnd', data = pre ++ suf -> square m n (fun a b => if (a <? length pre) && (a <? b) then sep a b else 0%Z) ->
      length idx' = length pre -> length nnd' = length pre -> (forall i, i < length pre -> nearest_other dist data i (nth i idx' 0) (nth i nnd' 0%Z)) ->
      exists m' ws'' idx'' nnd'',
      foldr_ub (fun '(m, ws, idx, nnd) '(i, x) =>
                match x with
                | [] => Ok (m, ws, idx, nnd)
                | _ =>
                    do r <- nn_row dist eps data i x (m, ws);
                    let '(m', ws', ds) := r in
                    match min_pos ds with
                    | None => UB
                    | Some (t, d) => Ok (m', ws', (idx ++ [if t <? i then t else t + 1])%list, (nnd ++ [d])%list)
                    end
                end) (m, ws, idx ++ idx', nnd ++ nnd') (enum (length pre) suf) = Ok (m', ws'', idx ++ idx'', nnd ++ nnd'') /\
      square m' n (fun a b => if (a <? n) && (a <? b) then sep a b else 0%Z) /\ length idx'' = n /\ length nnd'' = n /\
      forall i, i < n -> nearest_other dist data i (nth i idx'' 0) (nth i nnd'' 0%Z)).
    { induction suf as [|x suf IH]; intros pre m ws1 idx' nnd' E Sq L1 L2 H.
      - rewrite app_nil_r in E. subst pre. cbn [enum foldr_ub]. exists m, ws1, idx', nnd'. auto 8.
      - cbn [enum foldr_ub]. assert (Hx : nth_error data (length pre) = Some x) by (rewrite E, nth_error_app2, Nat.sub_diag by lia; reflexivity).
        assert (Hi : length pre < n) by (apply nth_error_Some; congruence).
        destruct (nn_row_spec (length pre) x m ws1 Hx Sq) as (m1 & ws2 & E1 & S1). rewrite E1.
        destruct x as [|z x]; [exfalso; apply (Hne []); auto; now apply nth_error_In in Hx|]. cbn [bind].
        assert (Ne : others (length pre) n <> []).
        { intros Q. assert (K := f_equal (@length Z) Q). unfold others in K. rewrite List.app_length, !map_length, !seq_length in K. cbn in K. lia. }
        destruct (min_pos_spec _ Ne) as (t & d & E2 & _). rewrite E2. cbn [bind].
        assert (Nm := nearest_min _ _ _ Hi E2).
        set (j := if t <? length pre then t else t + 1) in *.
        specialize (IH (pre ++ [z :: x]) m1 ws2 (idx' ++ [j]) (nnd' ++ [d])).
        rewrite !List.app_length in IH. cbn [length] in IH. rewrite !Nat.add_1_r in IH. rewrite <- !app_assoc. apply IH; clear IH.
        + now rewrite <- app_assoc.
        + exact S1.
        + congruence.
        + congruence.
        + intros i Hi'. destruct (Nat.eq_dec i (length pre)) as [->|Q].
          * rewrite !app_nth2 by lia. rewrite L1, L2, Nat.sub_diag. exact Nm.
          * rewrite !app_nth1 by lia. apply H. lia. }
    destruct (G data [] (repeat (repeat 0%Z n) n) ws [] []) as (m & ws' & idx' & nnd' & E & R); auto.
    { split; [apply repeat_length|]. intros i Hi. exists (repeat 0%Z n). split; [now apply nth_error_repeat|].
      split; [apply repeat_length|]. intros j Hj. rewrite nth_error_repeat by auto. reflexivity. }
    { cbn. lia. }
    rewrite !app_nil_r in E. exists m, ws', idx', nnd'. auto.
  Qed.
  (* The weights: all distances below eps. *)
  Lemma nn_row_weights i x m ws m' ws' ds : nth_error data i = Some x -> nn_row dist eps data i x (m, ws) = Ok (m', ws', ds) ->
    forall w, In w ws' <-> In w ws \/ exists j, i < j < n /\ w = sep i j /\ (w < eps)%Z.
  Proof.
    intros Hx. unfold nn_row. cbn [fst snd]. fold n. generalize (le_n n). generalize n at 1 3 4. intros k. revert m' ws' ds.
    induction k as [|k IH]; intros m' ws' ds Hk.
    - cbn. intros [= <- <- <-] w. split; [auto|]. intros [H|(j & H & _)]; [auto|lia].
    - rewrite seq_S, foldr_ub_app. destruct (foldr_ub _ (m, ws, []) (seq 0 k)) as [[[m1 ws1] ds1]|] eqn:E; [|discriminate].
      cbn [bind foldr_ub Nat.add]. specialize (IH m1 ws1 ds1 ltac:(lia) eq_refl). clear E.
      destruct (Nat.ltb_spec k i) as [Ki|Ki].
      + destruct (dm_at m1 k i); [|discriminate]. cbn [bind]. intros [= <- <- <-] w. rewrite IH. apply or_iff_compat_l.
        split; intros (j & H & R); exists j; (split; [lia|auto]).
      + destruct (Nat.ltb_spec i k) as [Kj|Kj].
        * destruct (nth_error data k) as [y|] eqn:Ey; [|apply nth_error_None in Ey; fold n in Ey; lia]. rewrite (at_ok _ _ _ Ey). cbn [bind].
          destruct (set2 m1 i k (dist x y)); [|discriminate]. cbn [bind]. intros [= <- <- <-] w.
          assert (Sy : sep i k = dist x y) by (unfold separation; now rewrite Hx, Ey). rewrite <- Sy.
          destruct (Z.ltb_spec (sep i k) eps) as [Q|Q]; [rewrite dinsert_In|]; rewrite IH; split.
          -- intros [->|[H|(j & H & R)]]; [right; exists k; split; [lia|auto]|auto|right; exists j; split; [lia|auto]].
          -- intros [H|(j & H & R1 & R2)]; [auto|]. destruct (Nat.eq_dec j k) as [->|Nk]; [auto|]. right. right. exists j. split; [lia|auto].
          -- intros [H|(j & H & R)]; [auto|right; exists j; split; [lia|auto]].
          -- intros [H|(j & H & R1 & R2)]; [auto|]. destruct (Nat.eq_dec j k) as [->|Nk]; [subst; lia|]. right. exists j. split; [lia|auto].
        * cbn [bind]. intros [= <- <- <-] w. rewrite IH. apply or_iff_compat_l. split; intros (j & H & R); exists j; (split; [lia|auto]).
  Qed.
  Lemma nn_rows_weights ws idx nnd m' ws' idx' nnd' : (forall x, In x data -> x <> []) -> nn_rows dist eps data ws idx nnd = Ok (m', ws', idx', nnd') ->
    forall w, In w ws' <-> In w ws \/ exists i j, i < j < n /\ w = sep i j /\ (w < eps)%Z.
  Proof.
    intros Hne. unfold nn_rows. fold n.
    assert (G : forall suf pre m ws1 idx1 nnd1, data = pre ++ suf ->
      (forall w, In w ws1 <-> In w ws \/ exists i j, i < length pre /\ i < j < n /\ w = sep i j /\ (w < eps)%Z) ->
      foldr_ub (fun '(m, ws, idx, nnd) '(i, x) =>
                match x with
                | [] => Ok (m, ws, idx, nnd)
                | _ =>
                    do r <- nn_row dist eps data i x (m, ws);
                    let '(m', ws', ds) := r in
                    match min_pos ds with
                    | None => UB
                    | Some (t, d) => Ok (m', ws', (idx ++ [if t <? i then t else t + 1])%list, (nnd ++ [d])%list)
                    end
                end) (m, ws1, idx1, nnd1) (enum (length pre) suf) = Ok (m', ws', idx', nnd') ->
      forall w, In w ws' <-> In w ws \/ exists i j, i < j < n /\ w = sep i j /\ (w < eps)%Z).
    { induction suf as [|x suf IH]; intros pre m ws1 idx1 nnd1 E H.
      - rewrite app_nil_r in E. subst pre. cbn [enum foldr_ub]. intros [= <- <- <- <-] w. rewrite H. apply or_iff_compat_l.
        split; [intros (i & j & _ & R); eauto|intros (i & j & R & Q); exists i, j; split; [fold n; lia|auto]].
      - cbn [enum foldr_ub]. assert (Hx : nth_error data (length pre) = Some x) by (rewrite E, nth_error_app2, Nat.sub_diag by lia; reflexivity).
        destruct x as [|z x]; [exfalso; apply (Hne []); auto; now apply nth_error_In in Hx|].
        destruct (nn_row dist eps data (length pre) (z :: x) (m, ws1)) as [[[m1 ws2] ds]|] eqn:E1; [|discriminate]. cbn [bind].
        destruct (min_pos ds) as [[t d]|]; [|discriminate]. cbn [bind].
        replace (S (length pre)) with (length (pre ++ [z :: x])) by (rewrite List.app_length; cbn; lia).
        apply IH; [now rewrite <- app_assoc|]. intros w. rewrite (nn_row_weights _ _ _ _ _ _ _ Hx E1 w), H, List.app_length. cbn [length]. split.
        + intros [[Q|(i & j & A & R)]|(j & A & R)]; [auto|right; exists i, j; split; [lia|auto]|right; exists (length pre), j; split; [lia|auto]].
        + intros [Q|(i & j & A & B & R)]; [auto|]. destruct (Nat.eq_dec i (length pre)) as [->|Ni]; [right; eauto|left; right; exists i, j; split; [lia|auto]]. }
    apply (G data [] _ ws idx nnd eq_refl). intros w. split; [auto|]. intros [H|(i & _ & H & _)]; [auto|cbn in H; lia].
  Qed.
End NN.

(* ---- the evaluator on a window with one partition *)
Section Average.
  Variable dist : list Z -> list Z -> Z.
  Variable one : Z.
  Variable W : list (list Z).
  Hypothesis HW : length W = 200.
  Variable st : params.
  Hypothesis Hlab : exists ls, sp_labels st = 0%Z :: ls.
  Variable nn : list Z.
  Hypothesis Hnn : length nn = 200.
  Hypothesis Havg : sp_avg st = [(0%Z, (inject_Z (total_weight nn) / inject_Z 200)%Q)].

  Definition refuse (x : list Z) : bool :=
    match min_pos (map (dist x) W) with
    | None => false
    | Some (_, m) => (m =? 0)%Z || ((4 * total_weight nn <=? Z.of_nat 200 * one) && (m <=? one))%Z ||
                     (negb (total_weight nn =? 0) && negb (4 * total_weight nn <? m * Z.of_nat 200))%Z
    end.
  Lemma nearest_unique x a b : nearest_distance dist W x a -> nearest_distance dist W x b -> a = b.
  Proof. intros [(p & Hp & <-) H1] [(q & Hq & <-) H2]. specialize (H1 q Hq). specialize (H2 p Hp). lia. Qed.
  Lemma min_nearest x i m : min_pos (map (dist x) W) = Some (i, m) -> nearest_distance dist W x m.
  Proof.
    intros E. assert (Ne : map (dist x) W <> []) by (destruct W; [cbn in HW; lia|discriminate]).
    destruct (min_pos_spec _ Ne) as (i' & m' & E' & N & M). rewrite E in E'. injection E' as <- <-. split.
    - apply nth_error_In, in_map_iff in N as (p & <- & Hp). eauto.
    - intros p Hp. apply (in_map (dist x)) in Hp. apply In_nth_error in Hp as (j & Hj). now destruct (M j _ Hj).
  Qed.
  Lemma refuse_spec x : refuse x = true <-> turned_away dist W one nn x.
  Proof.
    unfold refuse, turned_away. assert (Ne : map (dist x) W <> []) by (destruct W; [cbn in HW; lia|discriminate]).
    destruct (min_pos_spec _ Ne) as (i & m & E & _). rewrite E. assert (M := min_nearest x i m E). rewrite Hnn.
    rewrite !orb_true_iff, !andb_true_iff, !negb_true_iff, Z.eqb_eq, !Z.leb_le, Z.ltb_ge, Z.eqb_neq. split.
    - intros H. exists m. split; auto. tauto.
    - intros (m' & M' & H). assert (m' = m) as -> by (eapply nearest_unique; eauto). tauto.
  Qed.
  Lemma average_conditions m : let a := (inject_Z (total_weight nn) / inject_Z 200)%Q in
    Qle_bool (inject_Z 4 * a) (inject_Z one) = (4 * total_weight nn <=? Z.of_nat 200 * one)%Z /\
    Qeq_bool a 0 = (total_weight nn =? 0)%Z /\
    ((0 <= total_weight nn)%Z -> total_weight nn <> 0%Z -> Qle_bool (inject_Z m / a) (inject_Z 4) = (m * Z.of_nat 200 <=? 4 * total_weight nn)%Z).
  Proof.
    cbv zeta. generalize (total_weight nn). intros w. split; [|split].
    - apply eq_iff_eq_true. rewrite Qle_bool_iff, Z.leb_le. unfold Qle, Qdiv, Qinv, inject_Z, Qmult. cbn [Qnum Qden Pos.mul]. change (Z.of_nat 200) with 200%Z. lia.
    - apply eq_iff_eq_true. rewrite Qeq_bool_iff, Z.eqb_eq. unfold Qeq, Qdiv, Qinv, inject_Z, Qmult. cbn [Qnum Qden Pos.mul]. rewrite !Z.mul_1_r, Z.mul_0_l. reflexivity.
    - intros W0 W1. apply eq_iff_eq_true. rewrite Qle_bool_iff, Z.leb_le.
      assert (0 < w)%Z as Wp by lia. destruct w as [|w|w]; try lia. change (Z.of_nat 200) with 200%Z.
      unfold Qle, Qdiv, inject_Z, Qmult. cbn [Qnum Qden Z.mul Pos.mul Qinv]. lia.
  Qed.
  Hypothesis Hsum : (0 <= total_weight nn)%Z.
  Lemma evaluator_spec x m0 : length m0 = 200 ->
    if refuse x then nnBasedEvaluator dist one 200 x W st m0 = Ok (false, W, st, m0)
    else nnBasedEvaluator dist one 200 x W st m0 = UB.
  Proof.
    intros G. unfold nnBasedEvaluator, refuse. assert (Ne : map (dist x) W <> []) by (destruct W; [cbn in HW; lia|discriminate]).
    destruct (min_pos_spec _ Ne) as (i & m & E & _). rewrite E. destruct (average_conditions m) as (C1 & C2 & C3).
    replace (length (sp_avg st) =? 1) with true by (now rewrite Havg).
    destruct Hlab as (ls & El). destruct (m =? 0)%Z; [reflexivity|]. rewrite El. cbn [at_ nth_error bind orb].
    assert (Zr : zread 0%Q (sp_avg st) 0%Z = ((inject_Z (total_weight nn) / inject_Z 200)%Q, sp_avg st)) by (rewrite Havg; reflexivity). rewrite Zr.
    assert (Es : set_maps st (sp_avg st) (sp_num st) = st) by (now destruct st). rewrite Es.
    rewrite C1, C2. destruct ((4 * total_weight nn <=? Z.of_nat 200 * one) && (m <=? one))%Z; [reflexivity|]. cbn [orb].
    assert (U : forall st1, (do r <- deleteNNstats 0 0 (map (dist x) W) st1;
                let '(st2, dists', gone) := r in
                do w <- erase_at W 0;
                do r' <- updateStats one 200 0 0 gone dists' st2 m0;
                Ok (true, w, fst r', snd r')) = UB).
    { intros st1. destruct (deleteNNstats 0 0 (map (dist x) W) st1) as [[[st2 ds] gone]|] eqn:Ed; [|reflexivity]. cbn [bind].
      destruct (erase_at W 0) as [w|]; [cbn [bind]|reflexivity].
      assert (Ld : length ds = 199).
      { unfold deleteNNstats in Ed. do 5 (match type of Ed with bind ?r _ = _ => destruct r; [cbn [bind] in Ed|discriminate] end).
        unfold erase_at in Ed. rewrite map_length, HW in Ed. change (0 <? 200) with true in Ed. cbn [bind] in Ed.
        assert (Q : ds = firstn 0 (map (dist x) W) ++ skipn 1 (map (dist x) W)) by (injection Ed as _ Q _; now rewrite <- Q).
        rewrite Q, List.app_length, firstn_length, skipn_length, map_length, HW. reflexivity. }
      assert (Up : updateStats one 200 0 0 gone ds st2 m0 = UB); [|now rewrite Up].
      unfold updateStats. rewrite G. replace (seq 0 200) with (seq 0 199 ++ [199]) by reflexivity. rewrite foldr_ub_app.
      destruct (foldr_ub _ _ (seq 0 199)) as [[[s1 m1] su]|]; [|reflexivity]. cbn [bind foldr_ub update_entry].
      replace (at_ ds 199) with (@UB Z); [reflexivity|]. unfold at_. now rewrite (proj2 (nth_error_None ds 199)) by lia. }
    destruct (Z.eqb_spec (total_weight nn) 0) as [Z0|Z0]; cbn [orb negb andb]; [apply U|].
    rewrite (C3 Hsum Z0). replace (4 * total_weight nn <? m * Z.of_nat 200)%Z with (negb (m * Z.of_nat 200 <=? 4 * total_weight nn)%Z) by (rewrite Z.leb_antisym, negb_involutive; reflexivity).
    destruct (m * Z.of_nat 200 <=? 4 * total_weight nn)%Z; cbn [negb]; [reflexivity|apply U].
  Qed.

End Average.

Section Sliding.
  Variable dist : list Z -> list Z -> Z.
  Variables atoi atof : string -> Z.
  Variable srt : list wsimp -> list wsimp.
  Variable past_end : list nat -> nat -> res nat.
  Variable al_reduce : wgraph -> res wgraph.
  Hypothesis Hs : is_sort srt.
  Hypothesis Hpos : forall x y, (0 <= dist x y)%Z.
  Variables (args : amap) (d e : string) (nc0 : Z).
  Hypothesis Hd : mget args "dimensions" = Some d.
  Hypothesis He : mget args "epsilon" = Some e.
  Hypothesis Ht : mget args "twist" <> None.
  Hypothesis Hdim : (0 < atoi d < 2 ^ 31 - 1)%Z.
  Notation sub := (sliding_sub dist atoi atof srt past_end al_reduce args).

  (* ---- the initial complex and statistics *)
  Lemma initializer_spec p w : pk_complex p = Some (CTree (atof e) (atoi d) (st_new [] nc0)) -> 2 <= length w -> (forall x, In x w -> x <> []) ->
    pk_data p = w ->
    exists q t idx nnd, initializer dist atof args p [] [] = Ok (q, idx, nnd) /\ pk_complex q = Some (CTree (atof e) (atoi d) t) /\ keeps p q /\
      length (st_dm t) = length w /\ complex (fst (st_getAllEdges srt t)) /\ holds_rips srt dist w (atof e) (atoi d) nc0 (CTree (atof e) (atoi d) t) /\
      length idx = length w /\ length nnd = length w /\ forall i, i < length w -> nearest_other dist w i (nth i idx 0) (nth i nnd 0%Z).
  Proof.
    intros Hc Hw Hne Ew. unfold initializer, opt. rewrite He, Ew.
    destruct (nn_rows_spec dist w (atof e) (pk_weights p) [] [] Hw Hne) as (m & ws & idx & nnd & E & [L Sq] & L1 & L2 & Nn). cbn [app] in E.
    match goal with |- context [nn_rows ?a ?b ?c ?d ?x ?y] => replace (nn_rows a b c d x y) with (Ok (m, ws, idx, nnd)) by (symmetry; exact E) end. cbn [bind].
    rewrite (deref_some _ _ Hc). cbn [bind cx_setDistanceMatrix]. change (st_setDistanceMatrix m (st_new [] nc0)) with (st_new m nc0).
    assert (Sep : forall u v, u < v -> v < length w -> dist_of m u v = separation dist w u v).
    { intros u v Huv Hv. destruct (Sq u ltac:(lia)) as (row & R1 & R2 & R3). unfold dist_of. rewrite (nth_error_nth _ _ _ R1), (nth_error_nth _ _ _ (R3 v Hv)).
      destruct (Nat.ltb_spec u (length w)), (Nat.ltb_spec u v); cbn; auto; lia. }
    assert (U : upper_triangle m (length w)).
    { intros u v Huv Hv. rewrite Sep by auto. split; [|now apply separation_pos]. destruct (Sq u ltac:(lia)) as (row & R1 & R2 & R3).
      rewrite (nth_error_nth _ _ _ R1). lia. }
    assert (Hm : m <> []) by (intros ->; cbn in L; lia).
    destruct (tree_holds dist srt Hs w (atof e) (atoi d) nc0 m ltac:(intros ->; cbn in Hw; lia) U Sep Hm Hdim) as (t & T1 & T2 & T3 & T4).
    unfold run_neighGraph. cbn [pk_data].
    match goal with |- context [foldr_ub _ ?q w] => rewrite (neigh_tree srt (atof e) (atoi d) w q (st_new m nc0) eq_refl Hne), T1 end. cbn [rmap bind].
    eexists _, t, idx, nnd. split; [reflexivity|]. cbn [set_complex pk_complex]. split; auto. split; [unfold keeps; cbn; auto|]. rewrite T2. auto 8.
  Qed.

  Lemma neigh_weights p q : run_neighGraph args p = Ok q -> pk_weights q = pk_weights p.
  Proof.
    unfold run_neighGraph. generalize (pk_data p). intros l. revert p. induction l as [|v l IH]; intros p; cbn [foldr_ub]; [now intros [= <-]|].
    destruct v as [|z v]; cbn [bind]; [apply IH|]. destruct (deref p) as [c|]; [|discriminate]. cbn [bind].
    destruct (cx_insert (z :: v) c) as [c'|]; [|discriminate]. cbn [bind]. intros H. now rewrite (IH _ H).
  Qed.
  Lemma initializer_weights p idx0 nnd0 q idx nnd : (forall x, In x (pk_data p) -> x <> []) -> initializer dist atof args p idx0 nnd0 = Ok (q, idx, nnd) ->
    forall w, In w (pk_weights q) <-> In w (pk_weights p) \/ w = 0%Z \/ w = atof e \/
      exists i j, i < j < length (pk_data p) /\ w = separation dist (pk_data p) i j /\ (w < atof e)%Z.
  Proof.
    intros Hne. unfold initializer, opt. rewrite He. destruct (nn_rows _ _ _ _ _ _) as [[[[m ws] idx'] nnd']|] eqn:E; [|discriminate]. cbn [bind].
    assert (W := nn_rows_weights dist (pk_data p) (atof e) _ _ _ _ _ _ _ Hne E).
    destruct (deref p) as [c|]; [|discriminate]. cbn [bind]. destruct (run_neighGraph args _) as [p2|] eqn:E2; [|discriminate]. cbn [bind].
    intros [= <- _ _] w. rewrite (neigh_weights _ _ E2). cbn [pk_weights]. rewrite !dinsert_In, W. tauto.
  Qed.

  (* ---- the state from the 200th point on *)
  Variable W : list (list Z).
  Hypothesis HW : length W = 200.
  Variable t0 : stree.
  Hypothesis Hdm : length (st_dm t0) = 200.
  Hypothesis Hcx : complex (fst (st_getAllEdges srt t0)).
  Hypothesis Hrips : holds_rips srt dist W (atof e) (atoi d) nc0 (CTree (atof e) (atoi d) t0).
  Definition sorted_tree : stree := snd (st_getAllEdges srt t0).
  Definition good (c : cx) : Prop := c = CTree (atof e) (atoi d) t0 \/ c = CTree (atof e) (atoi d) sorted_tree.
  Definition sparse : Prop := forall u v, u < v -> v < length W -> (atof e <= separation dist W u v)%Z.
  Definition cnt : Z := cx_simplexCount (CTree (atof e) (atoi d) t0).

  Lemma sorted_again : st_getAllEdges srt sorted_tree = (fst (st_getAllEdges srt t0), sorted_tree).
  Proof. unfold sorted_tree, st_getAllEdges. destruct (st_isSorted t0) eqn:E; cbn; [now rewrite E|reflexivity]. Qed.
  Lemma good_edges c : good c -> cx_getAllEdges srt (atof e) c = (fst (st_getAllEdges srt t0), CTree (atof e) (atoi d) sorted_tree).
  Proof. intros [->| ->]; cbn; [unfold sorted_tree; now destruct (st_getAllEdges srt t0)|now rewrite sorted_again]. Qed.
  Lemma good_counts c : good c -> cx_simplexCount c = cnt /\ cx_vertexCount c = 200%Z.
  Proof.
    destruct Hrips as (_ & V & _). rewrite HW in V. intros [->| ->]; unfold cnt; cbn in *; auto.
    unfold sorted_tree, st_getAllEdges, st_vertexCount, st_simplexCount in *. destruct (st_isSorted t0); cbn; auto.
  Qed.
  Lemma good_holds c : good c -> holds_rips srt dist W (atof e) (atoi d) nc0 c.
  Proof.
    intros G. unfold holds_rips. rewrite (good_edges c G). destruct (good_counts c G) as [-> ->]. cbn [fst].
    destruct Hrips as (R1 & R2 & R3). cbn in R1, R3. destruct (st_getAllEdges srt t0) as [ed tt]. cbn [fst] in *. unfold cnt. rewrite HW. rewrite HW in R1. auto.
  Qed.
  Lemma good_dm c : good c -> length (cx_distMatrix c) = 200.
  Proof. intros [->| ->]; cbn; auto. unfold sorted_tree, st_getAllEdges. destruct (st_isSorted t0); auto. Qed.

  Lemma sub_spec p c : pk_complex p = Some c -> good c -> pk_data p = W ->
    (sparse -> sub p = Ok (set_complex p (CTree (atof e) (atoi d) sorted_tree))) /\ (~ sparse -> sub p = UB).
  Proof.
    intros Hc G Hp. assert (Hl : (2 <= length (fst (st_getAllEdges srt t0)) <-> exists u v, u < v /\ v < length W /\ (separation dist W u v < atof e)%Z)).
    { destruct Hrips as (R & _). assert (K := rips_levels dist W Tree (atof e) (Z.to_nat (atoi d)) ltac:(lia)). cbn [cx_getAllEdges] in R.
      destruct (st_getAllEdges srt t0) as [ed tt] eqn:Eg. cbn [fst] in *. apply (K ed R Hcx). }
    assert (E : sub p = do lines <- pp_run (atoi d) (atof e) (fst (st_getAllEdges srt t0)); Ok (set_complex p (CTree (atof e) (atoi d) sorted_tree))).
    { unfold sliding_sub, sub_pipeline. rewrite Hp. destruct W as [|w0 W'] eqn:EW; [cbn in HW; lia|]. rewrite <- EW in *.
      change (count_char "."%char "rips.persistence" + 1) with 2.
      rewrite (sub_component dist atoi atof srt past_end al_reduce args "rips.persistence" KRips) by (try reflexivity; intros o []).
      change (run_sub_pipe dist atoi atof srt past_end al_reduce KRips args p) with (run_rips atoi al_reduce args p).
      change (pipeRest "rips.persistence") with "persistence"%string.
      assert (R : run_rips atoi al_reduce args p = Ok p).
      { unfold run_rips. rewrite Hd, (deref_some _ _ Hc). cbn [bind].
        assert (X : exists tx, c = CTree (atof e) (atoi d) tx) by (destruct G as [->| ->]; eauto). destruct X as (tx & ->). cbn [cx_expand bind].
        destruct (String.eqb (opt args "collapse") "true" || String.eqb (opt args "collapse") "1"); cbn [bind]; now rewrite set_complex_same. }
      rewrite R. cbn [bind]. destruct (stats_ok KRips p c Hc) as (p2 & -> & C2 & D2 & O2 & B2). cbn [bind].
      rewrite (sub_component dist atoi atof srt past_end al_reduce args "persistence" KPersistencePairs) by (try reflexivity; intros o [<-|[<-|[<-|[]]]]; congruence).
      change (run_sub_pipe dist atoi atof srt past_end al_reduce KPersistencePairs args p2) with (run_pairs atoi atof srt args p2).
      unfold run_pairs, opt. rewrite (deref_some _ _ C2), He, Hd. cbn [bind]. rewrite (good_edges c G).
      destruct (pp_run (atoi d) (atof e) (fst (st_getAllEdges srt t0))) as [lines|]; cbn [bind]; auto.
    }
    destruct (pp_run_spec (atoi d) (atof e) _ Hcx ltac:(lia)) as [P1 P2]. split; intros Sp; rewrite E.
    - rewrite P2; [reflexivity|]. destruct (le_lt_dec 2 (length (fst (st_getAllEdges srt t0)))) as [L|L]; [|lia]. apply Hl in L as (u & v & H1 & H2 & H3).
      specialize (Sp u v H1 H2). lia.
    - rewrite P1; [reflexivity|]. destruct (le_lt_dec 2 (length (fst (st_getAllEdges srt t0)))) as [L|L]; [auto|]. exfalso. apply Sp.
      intros u v H1 H2. destruct (Z.le_gt_cases (atof e) (separation dist W u v)) as [Q|Q]; auto. exfalso.
      assert (2 <= length (fst (st_getAllEdges srt t0))) by (apply Hl; eauto). lia.
  Qed.

  Variable st : params.

  (* ---- one later point, with any evaluator that turns away or is undefined *)
  Section Later.
  Variable evaluator : evaluator_type.
  Variable ref : list Z -> bool.
  Hypothesis Hev : forall x m, length m = 200 -> if ref x then evaluator x W st m = Ok (false, W, st, m) else evaluator x W st m = UB.
  Notation step := (sliding_step_with dist atoi atof srt past_end al_reduce evaluator args).
  Definition hundred (k : nat) : bool := k mod 100 =? 0.
  Lemma later_step x p c k reps : 200 < k -> pk_complex p = Some c -> good c -> pk_data p = W ->
    let r := step (mkSliding W st p k reps) x in
    (ref x = true -> hundred k = false -> r = Ok (mkSliding W st p (S k) reps)) /\
    (ref x = true -> hundred k = true -> sparse -> exists c', good c' /\ r = Ok (mkSliding W st (set_complex p c') (S k) (reps ++ [(k, cnt, 200%Z)]))) /\
    (ref x = false -> r = UB) /\ (ref x = true -> hundred k = true -> ~ sparse -> r = UB).
  Proof.
    intros Hk Hc G Hp r. subst r. unfold sliding_step_with. cbn [sw_window sw_params sw_packet sw_counter sw_reports]. rewrite HW. unfold windowMaxSize.
    destruct (Nat.ltb_spec 200 200); [lia|]. rewrite (deref_some _ _ Hc). cbn [bind].
    assert (I : insertIterative_with evaluator c x W st p = if ref x then Ok (false, W, st, p) else UB).
    { assert (Ev := Hev x _ (good_dm c G)). unfold insertIterative_with.
      destruct W as [|w0 W'] eqn:EW; [cbn in HW; lia|]. rewrite <- EW in *.
      destruct (ref x); (destruct G as [->| ->]; rewrite Ev; reflexivity). }
    rewrite I. destruct (Nat.ltb_spec 200 k); [|lia]. unfold hundred. rewrite andb_true_r.
    destruct (good_counts c G) as [G1 G2].
    assert (Sd : set_data p W = p) by (destruct p; cbn in *; now subst).
    split; [intros -> ->; reflexivity|]. split; [|split; [intros ->; reflexivity|]].
    - intros -> -> Sp. cbn [bind]. rewrite (report_some _ _ _ Hc), G1, G2. cbn [bind]. rewrite Sd. rewrite (proj1 (sub_spec p c Hc G Hp) Sp). cbn [bind].
      exists (CTree (atof e) (atoi d) sorted_tree). split; [now right|reflexivity].
    - intros -> -> Sp. cbn [bind]. rewrite (report_some _ _ _ Hc). cbn [bind]. rewrite Sd. now rewrite (proj2 (sub_spec p c Hc G Hp) Sp).
  Qed.

  Lemma later_ok later : forall p c k reps, 200 < k -> pk_complex p = Some c -> good c -> pk_data p = W -> sparse -> forallb ref later = true ->
    exists p' c', foldr_ub step (mkSliding W st p k reps) later =
      Ok (mkSliding W st p' (k + length later) (reps ++ map (fun n => (n, cnt, 200%Z)) (filter hundred (seq k (length later))))) /\
      pk_complex p' = Some c' /\ good c' /\ pk_data p' = W /\ pk_output p' = pk_output p.
  Proof.
    induction later as [|x later IH]; intros p c k reps Hk Hc G Hp Sp F.
    - cbn. rewrite Nat.add_0_r, app_nil_r. eauto 8.
    - cbn [forallb] in F. apply andb_true_iff in F as [Fx F]. destruct (later_step x p c k reps Hk Hc G Hp) as (S1 & S2 & _).
      cbn [foldr_ub length seq filter]. destruct (hundred k) eqn:T.
      + destruct (S2 Fx eq_refl Sp) as (c' & G' & ->). cbn [bind].
        destruct (IH (set_complex p c') c' (S k) (reps ++ [(k, cnt, 200%Z)]) ltac:(lia) eq_refl G' Hp Sp F) as (p2 & c2 & E & R). exists p2, c2.
        rewrite E. split; [|exact R]. do 2 f_equal; [lia|]. cbn [map]. now rewrite <- app_assoc.
      + rewrite (S1 Fx eq_refl). cbn [bind]. destruct (IH p c (S k) reps ltac:(lia) Hc G Hp Sp F) as (p2 & c2 & E & R). exists p2, c2.
        rewrite E. split; [|exact R]. do 2 f_equal. lia.
  Qed.
  Lemma later_bad later : forall p c k reps, 200 < k -> pk_complex p = Some c -> good c -> pk_data p = W -> forallb ref later = false ->
    foldr_ub step (mkSliding W st p k reps) later = UB.
  Proof.
    induction later as [|x later IH]; intros p c k reps Hk Hc G Hp F; [discriminate|].
    cbn [forallb] in F. destruct (later_step x p c k reps Hk Hc G Hp) as (S1 & S2 & S3 & S4).
    cbn [foldr_ub]. destruct (ref x); [|now rewrite S3]. cbn [andb] in F. destruct (hundred k) eqn:T.
    - assert (Dec : sparse \/ ~ sparse).
      { destruct (sub p) as [q|] eqn:E.
        - left. intros u v H1 H2. destruct (Z.le_gt_cases (atof e) (separation dist W u v)) as [Q|Q]; auto. exfalso.
          assert (N : ~ sparse) by (intros Sp; specialize (Sp u v H1 H2); lia). rewrite (proj2 (sub_spec p c Hc G Hp) N) in E. discriminate.
        - right. intros Sp. rewrite (proj1 (sub_spec p c Hc G Hp) Sp) in E. discriminate. }
      destruct Dec as [Sp|Sp]; [|now rewrite S4].
      destruct (S2 eq_refl eq_refl Sp) as (c' & G' & ->). cbn [bind]. apply (IH (set_complex p c') c'); auto.
    - rewrite S1 by auto. cbn [bind]. apply (IH p c); auto.
  Qed.
  Lemma later_dense later : forall p c k reps, 200 < k -> pk_complex p = Some c -> good c -> pk_data p = W -> ~ sparse -> forallb ref later = true ->
    foldr_ub step (mkSliding W st p k reps) later = UB \/
    (foldr_ub step (mkSliding W st p k reps) later = Ok (mkSliding W st p (k + length later) reps) /\ filter hundred (seq k (length later)) = []).
  Proof.
    induction later as [|x later IH]; intros p c k reps Hk Hc G Hp Sp F.
    - right. cbn. now rewrite Nat.add_0_r.
    - cbn [forallb] in F. apply andb_true_iff in F as [Fx F]. destruct (later_step x p c k reps Hk Hc G Hp) as (S1 & S2 & S3 & S4).
      cbn [foldr_ub length seq filter]. destruct (hundred k) eqn:T; [left; now rewrite S4|].
      rewrite (S1 Fx eq_refl). cbn [bind]. destruct (IH p c (S k) reps ltac:(lia) Hc G Hp Sp F) as [->|[-> Q]]; [now left|right].
      split; auto. do 2 f_equal. lia.
  Qed.
  End Later.
End Sliding.

Section Run.
  Variable dist : list Z -> list Z -> Z.
  Variables atoi atof : string -> Z.
  Variable srt : list wsimp -> list wsimp.
  Variable past_end : list nat -> nat -> res nat.
  Variable al_reduce : wgraph -> res wgraph.
  Hypothesis Hs : is_sort srt.
  Hypothesis Hpos : forall x y, (0 <= dist x y)%Z.
  Variable evaluator : evaluator_type.
  Variables (args : amap) (d e : string) (nc0 : Z).
  Hypothesis O : tree_options args d e.
  Hypothesis Ht : mget args "twist" <> None.
  Hypothesis Hdim : (0 < atoi d < 2 ^ 31 - 1)%Z.
  Notation step := (sliding_step_with dist atoi atof srt past_end al_reduce evaluator args).
  Notation run := (sliding_run_with dist atoi atof srt past_end al_reduce evaluator args).
  Variable p : packet.
  Hypothesis Hp : new_packet atoi atof nc0 args [] = Ok p.

  Definition filling (k : nat) : params := mkParams k 0 (seq 0 k) (repeat 0%Z k) [] [] [] [] [].
  Lemma fill rows : length rows < 200 -> foldr_ub step (mkSliding [] params0 p 1 []) rows = Ok (mkSliding rows (filling (length rows)) p (S (length rows)) []).
  Proof.
    induction rows as [|x rows IH] using rev_ind; intros L; [reflexivity|]. rewrite List.app_length in L. cbn [length] in L.
    rewrite foldr_ub_app, IH by lia. cbn [bind foldr_ub]. unfold sliding_step_with, windowMaxSize. cbn [sw_window sw_params sw_packet sw_counter sw_reports].
    destruct (Nat.ltb_spec (length rows) 200); [|lia]. rewrite List.app_length. cbn [length]. destruct (Nat.eqb_spec (length rows + 1) 200); [lia|]. cbn [bind].
    destruct (Nat.ltb_spec 200 (S (length rows))); [lia|]. rewrite andb_false_r. rewrite Nat.add_1_r. unfold filling. cbn [sp_key sp_target sp_keys sp_labels sp_nnIndices sp_nnDists sp_avg sp_num sp_maxKeys].
    replace (seq 0 (length rows) ++ [length rows]) with (seq 0 (S (length rows))) by (rewrite seq_S; reflexivity).
    replace (repeat 0%Z (length rows) ++ [0%Z]) with (repeat 0%Z (S (length rows))) by (rewrite <- Nat.add_1_r, repeat_app; reflexivity).
    reflexivity.
  Qed.

  Lemma firstn_last (l : list (list Z)) k : k < length l -> firstn (S k) l = firstn k l ++ [nth k l []].
  Proof. revert k. induction l as [|x l IH]; intros [|k] H; cbn [length] in H; try lia; cbn; [reflexivity|]. f_equal. apply IH. lia. Qed.

  Theorem short_with rows : length rows < 200 ->
    exists st, run (Some rows) p = Ok (p, rows, st, if length rows mod 100 =? 0 then [] else [(length rows + 1, nc0, 0%Z)]).
  Proof.
    intros L. destruct (new_tree atoi atof args d e nc0 [] p O Hp) as (Hc & Ho & Hdata). unfold sliding_run_with. rewrite (fill rows L). cbn [bind sw_window sw_params sw_packet sw_counter sw_reports].
    replace (S (length rows) - 1) with (length rows) by lia. exists (filling (length rows)).
    assert (Sb : sliding_sub dist atoi atof srt past_end al_reduce args p = Ok p).
    { unfold sliding_sub, sub_pipeline. rewrite Hdata. cbn [bind]. rewrite Hc. now rewrite set_complex_same. }
    destruct (length rows mod 100 =? 0); cbn [negb bind].
    - now rewrite (deref_some _ _ Hc).
    - rewrite (report_some _ _ _ Hc). cbn [bind]. rewrite Sb. cbn [bind]. rewrite (deref_some _ _ Hc). cbn. now rewrite Nat.add_1_r.
  Qed.

  Lemma fold_total l : forall a, fold_left Z.add l a = (a + total_weight l)%Z.
  Proof. unfold total_weight. induction l as [|x l IH]; intros a; cbn; [lia|]. rewrite IH. lia. Qed.

  Lemma filter_hundred_none k len : filter hundred (seq k len) = [] -> forall j, k <= j < k + len -> j mod 100 <> 0.
  Proof.
    intros F j Hj E. assert (In j (filter hundred (seq k len))) as I.
    { apply filter_In. split; [apply in_seq; lia|]. unfold hundred. now apply Nat.eqb_eq. }
    now rewrite F in I.
  Qed.
  Lemma printed_late m : 200 < m -> filter (fun k => 200 <? k) (printed m) = filter hundred (seq 201 (m - 200)) ++ (if m mod 100 =? 0 then [] else [m + 1]).
  Proof.
    intros M. rewrite printed_marks, filter_app. f_equal.
    - unfold marks. rewrite filter_filter. replace m with (200 + (m - 200)) at 1 by lia. rewrite seq_app, filter_app.
      replace (filter _ (seq 1 200)) with (@nil nat) by reflexivity. cbn [app]. apply filter_ext_in. intros k Hk. apply in_seq in Hk.
      unfold hundred. destruct (Nat.ltb_spec 200 k), (Nat.ltb_spec 50 k); try lia. cbn [andb]. apply andb_true_r.
    - destruct (m mod 100 =? 0); auto. cbn [filter]. destruct (Nat.ltb_spec 200 (m + 1)); auto; lia.
  Qed.

  Theorem long_with rows : (forall x, In x rows -> x <> []) -> 200 <= length rows ->
    let first := firstn 200 rows in
    let close_pair := exists u v, u < v /\ v < 200 /\ (separation dist first u v < atof e)%Z in
    exists idx nn st, length idx = 200 /\ length nn = 200 /\ (forall i, i < 200 -> nearest_other dist first i (nth i idx 0) (nth i nn 0%Z)) /\
      (exists ls, sp_labels st = 0%Z :: ls) /\ sp_avg st = [(0%Z, (inject_Z (total_weight nn) / inject_Z 200)%Q)] /\ (0 <= total_weight nn)%Z /\
      sp_nnIndices st = map Z.of_nat idx /\ sp_nnDists st = nn /\ sp_keys st = seq 0 200 /\
      forall ref : list Z -> bool, (forall x m, length m = 200 -> if ref x then evaluator x first st m = Ok (false, first, st, m) else evaluator x first st m = UB) ->
      let quiet := forall x, In x (skipn 200 rows) -> ref x = true in
      (length rows = 200 \/ (quiet /\ ~ close_pair) ->
         exists p' reports c, run (Some rows) p = Ok (p', first, st, reports) /\
           pk_complex p' = Some c /\ holds_rips srt dist first (atof e) (atoi d) nc0 c /\ pk_output p' = [] /\ pk_data p' = first /\
           reports = map (fun k => (k, cx_simplexCount c, 200%Z)) (filter (fun k => 200 <? k) (printed (length rows)))) /\
      (200 < length rows -> ~ (quiet /\ ~ close_pair) -> run (Some rows) p = UB).
  Proof.
    intros Hne L first close_pair. destruct (new_tree atoi atof args d e nc0 [] p O Hp) as (Hc & Ho & Hdata). destruct O as [_ Hd He].
    assert (Lf : length first = 200) by (unfold first; rewrite firstn_length; lia).
    assert (Hfirst : first = firstn 199 rows ++ [nth 199 rows []]).
    { unfold first. exact (firstn_last rows 199 ltac:(lia)). }
    assert (Hnf : forall x, In x first -> x <> []) by (intros x Hx; apply Hne; rewrite <- (firstn_skipn 200 rows); apply in_or_app; now left).
    destruct (initializer_spec dist atoi atof srt Hs Hpos args d e nc0 He Hdim (set_data p first) first Hc ltac:(lia) Hnf eq_refl)
      as (q & t & idx & nn & E & C1 & (K1 & K2 & K3) & Ldm & Cx & R & L1 & L2 & Nn). rewrite Lf in *. cbn [set_data pk_data pk_output pk_table] in K1, K2, K3.
    set (st := mkParams 200 0 (seq 0 200) (repeat 0%Z 200) (map Z.of_nat idx) nn [(0%Z, (inject_Z (total_weight nn) / inject_Z 200)%Q)] [(0%Z, 200%Z)] [(0%Z, 199)]).
    assert (S200 : foldr_ub step (mkSliding [] params0 p 1 []) first = Ok (mkSliding first st q 201 [])).
    { rewrite Hfirst. rewrite foldr_ub_app, fill by (rewrite firstn_length; lia). rewrite firstn_length. replace (Nat.min 199 (length rows)) with 199 by lia.
      cbn [bind foldr_ub]. unfold sliding_step_with. cbn [sw_window sw_params sw_packet sw_counter sw_reports]. rewrite <- Hfirst, Lf, firstn_length.
      replace (Nat.min 199 (length rows)) with 199 by lia. unfold windowMaxSize. destruct (Nat.ltb_spec 199 200); [|lia]. destruct (Nat.eqb_spec 200 200); [|lia].
      unfold filling. cbn [sp_key sp_target sp_keys sp_labels sp_nnIndices sp_nnDists sp_avg sp_num sp_maxKeys]. rewrite E. cbn [bind]. rewrite (deref_some _ _ C1). cbn [bind].
      destruct (Nat.ltb_spec 200 200); [lia|]. rewrite andb_false_r. do 2 f_equal. unfold st. rewrite fold_total, L2. cbn [filter Z.add]. reflexivity. }
    set (later := skipn 200 rows) in *.
    assert (Hl : length later = length rows - 200) by (unfold later; apply skipn_length).
    assert (Run : run (Some rows) p = do s <- foldr_ub step (mkSliding first st q 201 []) later;
        do e <- (if negb ((sw_counter s - 1) mod 100 =? 0)
                 then do rep <- report_of (sw_counter s) (sw_packet s);
                      do p' <- sliding_sub dist atoi atof srt past_end al_reduce args (sw_packet s);
                      Ok (p', sw_reports s ++ [rep])%list
                 else Ok (sw_packet s, sw_reports s));
        let (p', reports) := e in
        do _ <- PipeModel.deref p';
        Ok (p', sw_window s, sw_params s, reports)).
    { unfold sliding_run_with. rewrite <- (firstn_skipn 200 rows) at 1. rewrite foldr_ub_app. fold first later. rewrite S200. reflexivity. }
    rewrite Run. clear Run S200.
    assert (Hlab : exists ls, sp_labels st = 0%Z :: ls) by (exists (repeat 0%Z 199); reflexivity).
    assert (Hsp : sparse dist atof e first <-> ~ close_pair).
    { unfold sparse, close_pair. rewrite Lf. split.
      - intros Sp (u & v & H1 & H2 & H3). specialize (Sp u v H1 H2). lia.
      - intros N u v H1 H2. destruct (Z.le_gt_cases (atof e) (separation dist first u v)) as [|Q]; auto. exfalso. apply N. eauto. }
    assert (G0 : good atoi atof srt d e t (CTree (atof e) (atoi d) t)) by now left.
    assert (Hsum : (0 <= total_weight nn)%Z).
    { assert (P : forall x, In x nn -> (0 <= x)%Z).
      { intros x Hx. apply (In_nth _ _ 0%Z) in Hx as (i & Hi & <-). destruct (Nn i ltac:(lia)) as (_ & _ & _ & -> & _). unfold gap, separation. repeat (destruct (nth_error _ _)); [apply Hpos|reflexivity|reflexivity]. }
      clear - P. unfold total_weight. induction nn as [|x l IH]; cbn [fold_right]; [lia|]. assert (H := P x (or_introl eq_refl)).
      assert (0 <= fold_right Z.add 0 l)%Z by (apply IH; intros y Hy; apply P; now right). lia. }
    exists idx, nn, st. split; auto. split; auto. split; auto. split; auto. split; [reflexivity|]. split; [exact Hsum|]. do 3 (split; [reflexivity|]).
    intros ref Hev.
    assert (Qt : (forall x, In x later -> ref x = true) <-> forallb ref later = true) by (rewrite forallb_forall; reflexivity).
    cbv zeta. split.
    - intros Case. destruct (Nat.eq_dec (length rows) 200) as [L200|L200].
      + destruct later; [|cbn in Hl; lia]. cbn [foldr_ub bind sw_window sw_params sw_packet sw_counter sw_reports]. change (negb ((201 - 1) mod 100 =? 0)) with false. cbn [bind].
        rewrite (deref_some _ _ C1). cbn [bind]. exists q, [], (CTree (atof e) (atoi d) t). split; auto. split; auto. split; auto.
        split; [cbn in K2; congruence|]. split; auto. rewrite L200. reflexivity.
      + destruct Case as [|[Q Sp]]; [lia|]. apply Qt in Q. apply Hsp in Sp.
        destruct (later_ok dist atoi atof srt past_end al_reduce args d e nc0 Hd He Ht Hdim first Lf t Ldm Cx R st evaluator ref Hev later q _ 201 [] ltac:(lia) C1 G0 K1 Sp Q)
          as (p' & c' & F & C' & G' & D' & O').
        rewrite F. cbn [bind sw_window sw_params sw_packet sw_counter sw_reports app]. rewrite Hl. replace (201 + (length rows - 200) - 1) with (length rows) by lia.
        replace (201 + (length rows - 200)) with (length rows + 1) by lia.
        destruct (good_counts dist atoi atof srt d e nc0 first Lf t Cx R c' G') as [Gc Gv].
        rewrite (printed_late (length rows)) by lia.
        destruct (length rows mod 100 =? 0); cbn [negb bind].
        * rewrite (deref_some _ _ C'). cbn [bind]. exists p'. eexists. exists c'. split; [reflexivity|]. split; auto.
          split; [exact (good_holds dist atoi atof srt d e nc0 first Lf t Cx R _ ltac:(eassumption))|]. split; [congruence|]. split; [auto|]. rewrite app_nil_r. now rewrite Gc.
        * rewrite (report_some _ _ _ C'), Gc, Gv. cbn [bind].
          rewrite (proj1 (sub_spec dist atoi atof srt past_end al_reduce args d e nc0 Hd He Ht Hdim first Lf t Ldm Cx R p' c' C' G' D') Sp). cbn [bind]. rewrite (deref_some (set_complex p' _) _ eq_refl). cbn [bind].
          set (c2 := CTree (atof e) (atoi d) (sorted_tree srt t)). assert (G2 : good atoi atof srt d e t c2) by now right.
          exists (set_complex p' c2). eexists. exists c2. split; [reflexivity|]. split; auto. split; [exact (good_holds dist atoi atof srt d e nc0 first Lf t Cx R _ ltac:(eassumption))|]. split; [cbn; congruence|]. split; [auto|].
          destruct (good_counts dist atoi atof srt d e nc0 first Lf t Cx R c2 G2) as [Gc2 _]. rewrite Gc2, map_app. reflexivity.
    - intros L200 Bad. destruct (forallb ref later) eqn:Fb.
      + assert (Sp : ~ sparse dist atof e first). { intros Sp. apply Bad. split; [now apply Qt|now apply Hsp]. }
        destruct (later_dense dist atoi atof srt past_end al_reduce args d e nc0 Hd He Ht Hdim first Lf t Ldm Cx R st evaluator ref Hev later q _ 201 [] ltac:(lia) C1 G0 K1 Sp Fb)
          as [->|[-> F]]; [reflexivity|]. cbn [bind sw_window sw_params sw_packet sw_counter sw_reports]. rewrite Hl in *. replace (201 + (length rows - 200) - 1) with (length rows) by lia.
        assert (N := filter_hundred_none _ _ F (length rows) ltac:(lia)). destruct (Nat.eqb_spec (length rows mod 100) 0); [easy|]. cbn [negb].
        rewrite (report_some _ _ _ C1). cbn [bind].
        now rewrite (proj2 (sub_spec dist atoi atof srt past_end al_reduce args d e nc0 Hd He Ht Hdim first Lf t Ldm Cx R q _ C1 G0 K1) Sp).
      + now rewrite (later_bad dist atoi atof srt past_end al_reduce args d e nc0 Hd He Ht Hdim first Lf t Ldm Cx R st evaluator ref Hev later q _ 201 [] ltac:(lia) C1 G0 K1 Fb).
  Qed.
End Run.

(* ---- the evaluator with exact averages *)
Section Exact.
  Variable dist : list Z -> list Z -> Z.
  Variables atoi atof : string -> Z.
  Variable srt : list wsimp -> list wsimp.
  Variable past_end : list nat -> nat -> res nat.
  Variable al_reduce : wgraph -> res wgraph.
  Hypothesis Hs : is_sort srt.
  Hypothesis Hpos : forall x y, (0 <= dist x y)%Z.
  Variable one : Z.
  Variables (args : amap) (d e : string) (nc0 : Z).
  Hypothesis O : tree_options args d e.
  Hypothesis Ht : mget args "twist" <> None.
  Hypothesis Hdim : (0 < atoi d < 2 ^ 31 - 1)%Z.
  Notation run := (sliding_run dist atoi atof srt past_end al_reduce one args).
  Variable p : packet.
  Hypothesis Hp : new_packet atoi atof nc0 args [] = Ok p.
  Theorem sliding_short rows : length rows < 200 ->
    exists st, run (Some rows) p = Ok (p, rows, st, if length rows mod 100 =? 0 then [] else [(length rows + 1, nc0, 0%Z)]).
  Proof. exact (short_with dist atoi atof srt past_end al_reduce _ args d e nc0 O p Hp rows). Qed.
  Theorem sliding_long rows : (forall x, In x rows -> x <> []) -> 200 <= length rows ->
    let first := firstn 200 rows in
    let close_pair := exists u v, u < v /\ v < 200 /\ (separation dist first u v < atof e)%Z in
    exists idx nn, length idx = 200 /\ length nn = 200 /\ (forall i, i < 200 -> nearest_other dist first i (nth i idx 0) (nth i nn 0%Z)) /\
      let quiet := forall x, In x (skipn 200 rows) -> turned_away dist first one nn x in
      (length rows = 200 \/ (quiet /\ ~ close_pair) ->
         exists p' st reports c, run (Some rows) p = Ok (p', first, st, reports) /\
           pk_complex p' = Some c /\ holds_rips srt dist first (atof e) (atoi d) nc0 c /\ pk_output p' = [] /\ pk_data p' = first /\
           sp_nnIndices st = map Z.of_nat idx /\ sp_nnDists st = nn /\ sp_keys st = seq 0 200 /\
           reports = map (fun k => (k, cx_simplexCount c, 200%Z)) (filter (fun k => 200 <? k) (printed (length rows)))) /\
      (200 < length rows -> ~ (quiet /\ ~ close_pair) -> run (Some rows) p = UB).
  Proof.
    intros Hne L first close_pair. assert (Lf : length first = 200) by (unfold first; rewrite firstn_length; lia).
    destruct (long_with dist atoi atof srt past_end al_reduce Hs Hpos (nnBasedEvaluator dist one 200) args d e nc0 O Ht Hdim p Hp rows Hne L)
      as (idx & nn & st & L1 & L2 & N & Lab & Av & Sm & S1 & S2 & S3 & G). exists idx, nn. split; [exact L1|]. split; [exact L2|]. split; [exact N|].
    specialize (G (refuse dist one first nn) (evaluator_spec dist one first Lf st Lab nn L2 Av Sm)).
    destruct G as [G B]. fold first close_pair in G, B.
    assert (Qt : forall x, refuse dist one first nn x = true <-> turned_away dist first one nn x) by (intros x; apply (refuse_spec dist one first Lf nn L2)).
    assert (Q : (forall x, In x (skipn 200 rows) -> refuse dist one first nn x = true) <-> forall x, In x (skipn 200 rows) -> turned_away dist first one nn x).
    { split; intros H x Hx; apply Qt, H, Hx. }
    cbv zeta. split.
    - intros H. destruct G as (p' & reports & c & R & C & H1 & O1 & D & E). { destruct H as [H|[H1 H2]]; [now left|right; split; [now apply Q|exact H2]]. }
      exists p', st, reports, c. auto 12.
    - intros H1 H2. apply B; [exact H1|]. intros [H3 H4]. apply H2. split; [now apply Q|exact H4].
  Qed.
End Exact.
