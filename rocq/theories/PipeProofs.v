(* PipeProofs.v -- lemmas about the pipes of the default pipelines. *)
From Coq Require Import String List Arith ZArith Bool Lia Sorted Permutation.
From Verif Require Import Base UtilsModel ArrayListModel TreeModel FastModel ArgModel PipeModel Spec SpecComplex SpecArgs ArgProofs SpecGraph SpecFast SpecPipe SpecTree ArrayListHist TreeHist TreeProofs FastRuns FastProofs KruskalProofs.
Import ListNotations.
Local Open Scope nat_scope.
Local Open Scope list_scope.

(* ---- weights *)

Lemma dinsert_In x l w : In w (dinsert x l) <-> w = x \/ In w l.
Proof.
  induction l as [|y l IH]; cbn; [intuition|].
  destruct (Z.ltb_spec y x); cbn; [intuition|]. destruct (Z.ltb_spec x y); cbn; [rewrite IH; intuition|].
  assert (x = y) by lia. subst. intuition.
Qed.
Lemma dinsert_sorted x l : decreasing l -> decreasing (dinsert x l).
Proof.
  induction l as [|y l IH]; intros H; cbn; [repeat constructor|]. inversion H as [|? ? H1 H2]; subst.
  destruct (Z.ltb_spec y x).
  - constructor; auto. constructor; auto. rewrite Forall_forall in *. intros z Hz. specialize (H2 z Hz). lia.
  - destruct (Z.ltb_spec x y); auto. constructor; auto. rewrite Forall_forall in *. intros z Hz.
    apply dinsert_In in Hz as [->|Hz]; auto.
Qed.

(* ---- matrices *)
Definition square (m : list (list Z)) (n : nat) (f : nat -> nat -> Z) : Prop :=
  length m = n /\ forall i, i < n -> exists row, nth_error m i = Some row /\ length row = n /\
    forall j, j < n -> nth_error row j = Some (f i j).

Lemma at_ok {A} (l : list A) i a : nth_error l i = Some a -> at_ l i = Ok a.
Proof. unfold at_. now intros ->. Qed.
Lemma upd_spec {A} (l : list A) : forall i g a, nth_error l i = Some a ->
  exists l', upd l i g = Ok l' /\ length l' = length l /\
    forall j, nth_error l' j = if j =? i then Some (g a) else nth_error l j.
Proof.
  induction l as [|x l IH]; intros [|i] g a H; try discriminate.
  - injection H as ->. exists (g a :: l). repeat split. intros [|j]; reflexivity.
  - cbn in H. destruct (IH i g a H) as (l' & E & L & N). exists (x :: l'). cbn [upd]. rewrite E. repeat split.
    + cbn. now rewrite L.
    + intros [|j]; [reflexivity|]. cbn [nth_error]. rewrite N. reflexivity.
Qed.

Lemma set2_square m n f i j d : square m n f -> i < n -> j < n ->
  exists m', set2 m i j d = Ok m' /\ square m' n (fun a b => if (a =? i) && (b =? j) then d else f a b).
Proof.
  intros [L H] Hi Hj. destruct (H i Hi) as (row & R1 & R2 & R3). unfold set2. rewrite (at_ok _ _ _ R1). cbn [bind].
  destruct (upd_spec row j (fun _ => d) _ (R3 j Hj)) as (row' & E & L' & N). rewrite E. cbn [bind].
  destruct (upd_spec m i (fun _ => row') _ R1) as (m' & E' & L'' & N'). exists m'. split; auto. split; [lia|].
  intros a Ha. rewrite N'. destruct (Nat.eqb_spec a i) as [->|Na].
  - exists row'. split; auto. split; [lia|]. intros b Hb. rewrite N. cbn [andb]. destruct (b =? j); auto.
  - destruct (H a Ha) as (r & ? & ? & ?). exists r. cbn [andb]. auto.
Qed.

Lemma foldr_ub_app {A S} (body : S -> A -> res S) l1 l2 s : foldr_ub body s (l1 ++ l2) = do s' <- foldr_ub body s l1; foldr_ub body s' l2.
Proof. revert s. induction l1 as [|x l IH]; intros s; cbn; auto. destruct (body s x); cbn; auto. Qed.

Section DistMatrix.
  Variable P : Type.
  Variable is_empty : P -> bool.
  Variable dist : P -> P -> Z.
  Variable eps : Z.
  Variable data : list P.
  Let n := length data.

  Definition D (i j : nat) : Z := match nth_error data i, nth_error data j with Some x, Some y => dist x y | _, _ => 0%Z end.
  Definition nonempty (i : nat) : bool := match nth_error data i with Some x => negb (is_empty x) | None => false end.

  Lemma dm_row_spec i x m f ws : nth_error data i = Some x -> square m n f -> decreasing ws ->
    forall k, i + 1 + k <= n ->
    exists m' ws',
      foldr_ub (fun '(m, ws) j =>
                do y <- at_ data j;
                let d := dist x y in
                let ws' := if (d <? eps)%Z then dinsert d ws else ws in
                do m' <- set2 m i j d;
                Ok (m', ws')) (m, ws) (seq (i + 1) k) = Ok (m', ws') /\
      square m' n (fun a b => if (a =? i) && (i <? b) && (b <? i + 1 + k) then D i b else f a b) /\
      decreasing ws' /\ (forall w, In w ws' <-> In w ws \/ exists j, i < j < i + 1 + k /\ w = D i j /\ (w < eps)%Z).
  Proof.
    intros Hx Sq Dw. induction k as [|k IH]; intros Hk.
    - exists m, ws. split; auto. split; [|split; auto].
      + destruct Sq as [L Q]. split; auto. intros a Ha. destruct (Q a Ha) as (r & ? & ? & R). exists r. repeat split; auto.
        intros b Hb. rewrite R by auto. destruct (Nat.eqb_spec a i), (Nat.ltb_spec i b), (Nat.ltb_spec b (i + 1 + 0)); cbn; auto; lia.
      + intros w. split; [auto|]. intros [|(j & Hj & _)]; auto. lia.
    - destruct IH as (m1 & ws1 & E & S1 & D1 & W1); [lia|].
      rewrite seq_S, foldr_ub_app, E. cbn [bind foldr_ub].
      assert (Hj : i + 1 + k < n) by lia. destruct (nth_error data (i + 1 + k)) as [y|] eqn:Ey; [|apply nth_error_None in Ey; fold n in Ey; lia].
      rewrite (at_ok _ _ _ Ey). cbn [bind].
      assert (Hd : D i (i + 1 + k) = dist x y) by (unfold D; now rewrite Hx, Ey).
      destruct (set2_square m1 n _ i (i + 1 + k) (dist x y) S1 ltac:(lia) Hj) as (m2 & E2 & S2). rewrite E2. cbn [bind].
      eexists _, _. split; [reflexivity|]. split; [|split].
      + destruct S2 as [L Q]. split; auto. intros a Ha. destruct (Q a Ha) as (r & ? & ? & R). exists r. repeat split; auto.
        intros b Hb. rewrite R by auto. f_equal.
        destruct (Nat.eqb_spec a i), (Nat.eqb_spec b (i + 1 + k)), (Nat.ltb_spec i b), (Nat.ltb_spec b (i + 1 + k)), (Nat.ltb_spec b (i + 1 + S k));
          cbn; subst; auto; lia.
      + destruct (dist x y <? eps)%Z; auto. now apply dinsert_sorted.
      + intros w. destruct (Z.ltb_spec (dist x y) eps) as [H|H]; rewrite ?dinsert_In, W1.
        * split.
          -- intros [->|[|(j & Hj' & ?)]]; auto; right; [exists (i + 1 + k); rewrite Hd; lia|exists j; intuition lia].
          -- intros [|(j & Hj' & E' & ?)]; auto. destruct (Nat.eq_dec j (i + 1 + k)) as [->|]; [left; congruence|].
             right. right. exists j. intuition lia.
        * split.
          -- intros [|(j & Hj' & ?)]; auto. right. exists j. intuition lia.
          -- intros [|(j & Hj' & E' & ?)]; auto. destruct (Nat.eq_dec j (i + 1 + k)) as [->|]; [rewrite Hd in E'; lia|].
             right. exists j. intuition lia.
  Qed.

  Lemma dm_outer : forall suf i m ws, (forall k, nth_error data (i + k) = nth_error suf k) ->
    i + length suf = n -> decreasing ws ->
    square m n (fun a b => if (a <? i) && (a <? b) && nonempty a then D a b else 0%Z) ->
    exists m' ws', foldr_ub (fun st '(i, x) => if is_empty x then Ok st else dm_row P dist eps data i x st) (m, ws) (enum i suf) = Ok (m', ws') /\
      square m' n (fun a b => if (a <? b) && nonempty a then D a b else 0%Z) /\ decreasing ws' /\
      (forall w, In w ws' <-> In w ws \/ exists a b, i <= a /\ a < b < n /\ nonempty a = true /\ w = D a b /\ (w < eps)%Z).
  Proof.
    induction suf as [|x suf IH]; intros i m ws Hs Hn Dw Sq.
    - exists m, ws. split; auto. cbn in Hn. split; [|split; auto].
      + destruct Sq as [L Q]. split; auto. intros a Ha. destruct (Q a Ha) as (r & ? & ? & R). exists r. repeat split; auto.
        intros b Hb. rewrite R by auto. f_equal. destruct (Nat.ltb_spec a i); cbn; [auto|lia].
      + intros w. split; auto. intros [|(a & b & ? & ? & _)]; auto. lia.
    - assert (Hx : nth_error data i = Some x) by (specialize (Hs 0); rewrite Nat.add_0_r in Hs; exact Hs).
      cbn [length] in Hn. cbn [enum foldr_ub].
      assert (Hs' : forall k, nth_error data (S i + k) = nth_error suf k).
      { intros k. specialize (Hs (S k)). cbn in Hs. rewrite <- Hs. f_equal. lia. }
      assert (Hne : nonempty i = negb (is_empty x)) by (unfold nonempty; now rewrite Hx).
      destruct (is_empty x) eqn:Ex; cbn [bind].
      + cbn [negb] in Hne. destruct (IH (S i) m ws Hs' ltac:(lia) Dw) as (m' & ws' & E & S' & D' & W').
        { destruct Sq as [L Q]. split; auto. intros a Ha. destruct (Q a Ha) as (r & ? & ? & R). exists r. repeat split; auto.
          intros b Hb. rewrite R by auto. f_equal. destruct (Nat.eq_dec a i) as [->|].
          - rewrite Hne. now rewrite !andb_false_r.
          - destruct (Nat.ltb_spec a i), (Nat.ltb_spec a (S i)); auto; lia. }
        exists m', ws'. split; auto. split; auto. split; auto. intros w. rewrite W'. split; intros [|(a & b & ? & ? & N & ?)]; auto; right; exists a, b.
        * intuition lia.
        * destruct (Nat.eq_dec a i) as [->|]; [congruence|]. intuition lia.
      + cbn [negb] in Hne.
        destruct (dm_row_spec i x m _ ws Hx Sq Dw (length data - (i + 1)) ltac:(fold n; lia)) as (m1 & ws1 & E1 & S1 & D1 & W1).
        change (dm_row P dist eps data i x (m, ws) = Ok (m1, ws1)) in E1. rewrite E1. cbn [bind]. fold n in S1, W1. replace (i + 1 + (n - (i + 1))) with n in * by lia.
        destruct (IH (S i) m1 ws1 Hs' ltac:(lia) D1) as (m' & ws' & E & S' & D' & W').
        { destruct S1 as [L Q]. split; auto. intros a Ha. destruct (Q a Ha) as (r & ? & ? & R). exists r. repeat split; auto.
          intros b Hb. rewrite R by auto. f_equal. destruct (Nat.eqb_spec a i) as [->|].
          - rewrite Hne. destruct (Nat.ltb_spec i b), (Nat.ltb_spec b n), (Nat.ltb_spec i i), (Nat.ltb_spec i (S i)); cbn; auto; lia.
          - cbn [andb]. destruct (Nat.ltb_spec a i), (Nat.ltb_spec a (S i)); auto; lia. }
        exists m', ws'. split; auto. split; auto. split; auto. intros w. rewrite W', W1. split.
        * intros [[|(j & ? & ?)]|(a & b & ? & ? & N & ?)]; auto; right; [exists i, j|exists a, b]; intuition lia.
        * intros [|(a & b & ? & ? & N & ? & ?)]; auto. destruct (Nat.eq_dec a i) as [->|].
          -- left. right. exists b. intuition lia.
          -- right. exists a, b. intuition lia.
  Qed.
End DistMatrix.

Theorem distMatrix_spec (P : Type) (is_empty : P -> bool) (dist : P -> P -> Z) eps data ws : decreasing ws ->
  exists m ws', distMatrix_run P is_empty dist eps data ws = Ok (m, ws') /\
    length m = length data /\ (forall i, i < length data -> length (nth i m []) = length data) /\
    (forall i j x y, nth_error data i = Some x -> nth_error data j = Some y ->
       nth j (nth i m []) 0%Z = if (i <? j) && negb (is_empty x) then dist x y else 0%Z) /\
    decreasing ws' /\
    (forall w, In w ws' <-> In w ws \/ w = 0%Z \/ w = eps \/
       exists i j x y, i < j /\ nth_error data i = Some x /\ nth_error data j = Some y /\ is_empty x = false /\ w = dist x y /\ (w < eps)%Z).
Proof.
  intros Dw. destruct (dm_outer P is_empty dist eps data data 0 (repeat (repeat 0%Z (length data)) (length data)) ws) as (m & ws' & E & [L Q] & D' & W); auto.
  { split; [apply repeat_length|]. intros i Hi. exists (repeat 0%Z (length data)). split; [now apply nth_error_repeat|].
    split; [apply repeat_length|]. intros j Hj. rewrite nth_error_repeat by auto. reflexivity. }
  exists m, (dinsert eps (dinsert 0%Z ws')). unfold distMatrix_run. rewrite E. cbn [bind fst snd].
  split; [reflexivity|]. split; [auto|]. split; [|split; [|split]].
  - intros i Hi. destruct (Q i Hi) as (r & R & Lr & _). now rewrite (nth_error_nth _ _ _ R).
  - intros i j x y Hx Hy. assert (Hi : i < length data) by (apply nth_error_Some; congruence).
    assert (Hj : j < length data) by (apply nth_error_Some; congruence).
    destruct (Q i Hi) as (r & R & Lr & N). rewrite (nth_error_nth _ _ _ R), (nth_error_nth _ _ _ (N j Hj)).
    unfold nonempty, D. now rewrite Hx, Hy.
  - now apply dinsert_sorted, dinsert_sorted.
  - intros w. rewrite !dinsert_In, W. split.
    + intros [->|[->|[|(a & b & _ & Hab & Ne & -> & Hw)]]]; auto. right. right. right.
      unfold nonempty, D in *. destruct (nth_error data a) as [x|] eqn:Ea; [|discriminate].
      destruct (nth_error data b) as [y|] eqn:Eb; [|apply nth_error_None in Eb; lia].
      exists a, b, x, y. apply negb_true_iff in Ne. intuition.
    + intros [|[->|[->|(i & j & x & y & Hij & Hx & Hy & Ne & -> & Hw)]]]; auto. right. right. right.
      exists i, j. unfold nonempty, D. rewrite Hx, Hy, Ne. assert (j < length data) by (apply nth_error_Some; congruence).
      intuition lia.
Qed.
