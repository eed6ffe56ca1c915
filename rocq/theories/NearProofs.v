(* NearProofs.v -- proofs about deleteNNstats, updateStats and nnBasedEvaluator. *)
From Coq Require Import List Arith ZArith QArith Bool Lia Sorted.
From Verif Require Import Base EvalModel SpecNear.
Import ListNotations.
Local Open Scope nat_scope. Local Open Scope list_scope.

(* ---- lists ---- *)
Lemma at_nth {A} (l : list A) i d : i < length l -> at_ l i = Ok (nth i l d).
Proof. intros H. unfold at_. now rewrite (nth_error_nth' l d H). Qed.
Lemma at_out {A} (l : list A) i : length l <= i -> at_ l i = UB.
Proof. intros H. unfold at_. now rewrite (proj2 (nth_error_None l i) H). Qed.
Lemma upd_nth {A} (l : list A) i f (d : A) : i < length l ->
  exists l', upd l i f = Ok l' /\ length l' = length l /\ forall j, nth j l' d = if j =? i then f (nth i l d) else nth j l d.
Proof.
  revert i. induction l as [|x t IH]; intros i H; [cbn in H; lia|]. destruct i as [|i].
  - exists (f x :: t). split; [reflexivity|]. split; [reflexivity|]. intros [|j]; reflexivity.
  - cbn in H. destruct (IH i ltac:(lia)) as (l' & E & L & N). exists (x :: l'). cbn [upd]. rewrite E. split; [reflexivity|]. split; [cbn; lia|].
    intros [|j]; [reflexivity|]. cbn [nth]. rewrite N. reflexivity.
Qed.
Lemma put_nth {A} (l : list A) i x (d : A) : i < length l ->
  exists l', put_at l i x = Ok l' /\ length l' = length l /\ forall j, nth j l' d = if j =? i then x else nth j l d.
Proof. apply upd_nth. Qed.

Definition up (k i : nat) : nat := if i <? k then i else S i.
Lemma without_length {A} k (l : list A) : k < length l -> length (without k l) = length l - 1.
Proof. intros H. unfold without. rewrite app_length, firstn_length, skipn_length. lia. Qed.
Lemma without_nth {A} k (l : list A) i d : nth i (without k l) d = nth (up k i) l d.
Proof.
  unfold without, up. revert k i. induction l as [|x t IH]; intros k i.
  - rewrite firstn_nil, skipn_nil. destruct i, (_ <? _); reflexivity.
  - destruct k as [|k]; [destruct i; reflexivity|]. destruct i as [|i]; [reflexivity|]. cbn [firstn skipn app nth].
    rewrite IH. change (S i <? S k) with (i <? k). destruct (i <? k); reflexivity.
Qed.
Lemma erase_ok {A} (l : list A) k : k < length l -> erase_at l k = Ok (without k l).
Proof. intros H. unfold erase_at. now rewrite (proj2 (Nat.ltb_lt _ _) H). Qed.
Lemma without_map {A B} (f : A -> B) k l : without k (map f l) = map f (without k l).
Proof. unfold without. now rewrite map_app, firstn_map, skipn_map. Qed.
Lemma up_ne k i : up k i <> k.
Proof. unfold up. destruct (Nat.ltb_spec i k); lia. Qed.
Lemma up_inj k i j : up k i = up k j -> i = j.
Proof. unfold up. destruct (Nat.ltb_spec i k), (Nat.ltb_spec j k); lia. Qed.
Lemma up_lt k i n : k < n -> i < n - 1 -> up k i < n.
Proof. unfold up. destruct (Nat.ltb_spec i k); lia. Qed.
Lemma up_onto k p n : k < n -> p < n -> p <> k -> exists i, i < n - 1 /\ up k i = p.
Proof.
  intros K P N. destruct (le_lt_dec k p).
  - exists (p - 1). split; [lia|]. unfold up. destruct (Nat.ltb_spec (p - 1) k); lia.
  - exists p. split; [lia|]. unfold up. destruct (Nat.ltb_spec p k); lia.
Qed.

(* ---- loops ---- *)
Lemma fold_seq {St} (f : St -> nat -> res St) (Inv : nat -> St -> Prop) (bad : nat -> Prop) n :
  (forall i s, i < n -> Inv i s -> (bad i /\ f s i = UB) \/ (~ bad i /\ exists s', f s i = Ok s' /\ Inv (S i) s')) ->
  forall s0, Inv 0 s0 ->
  ((exists i, i < n /\ bad i) /\ foldr_ub f s0 (seq 0 n) = UB) \/
  ((forall i, i < n -> ~ bad i) /\ exists s, foldr_ub f s0 (seq 0 n) = Ok s /\ Inv n s).
Proof.
  intros Step. assert (G : forall m i s, i + m = n -> Inv i s ->
    ((exists j, i <= j < n /\ bad j) /\ foldr_ub f s (seq i m) = UB) \/
    ((forall j, i <= j < n -> ~ bad j) /\ exists s', foldr_ub f s (seq i m) = Ok s' /\ Inv n s')).
  { induction m as [|m IH]; intros i s E I.
    - right. split; [intros; lia|]. exists s. replace n with i by lia. auto.
    - cbn [seq foldr_ub]. destruct (Step i s ltac:(lia) I) as [[B U]|[B (s' & O & I')]].
      + left. rewrite U. split; [exists i; split; [lia|auto]|reflexivity].
      + rewrite O. cbn [bind]. destruct (IH (S i) s' ltac:(lia) I') as [[(j & J & Bj) U]|[N R]].
        * left. split; [exists j; split; [lia|auto]|auto].
        * right. split; [|exact R]. intros j J. destruct (Nat.eq_dec j i) as [->|]; [auto|apply N; lia]. }
  intros s0 I. destruct (G n 0 s0 eq_refl I) as [[(j & J & B) U]|[N R]]; [left|right]; split; auto.
  - exists j. split; [lia|auto].
  - intros i H. apply N. lia.
Qed.
Lemma fold_collect {A B} (f : list B -> A -> res (list B)) (g : A -> list B) l acc :
  (forall a x, In x l -> f a x = Ok (a ++ g x)) -> foldr_ub f acc l = Ok (acc ++ concat (map g l)).
Proof.
  revert acc. induction l as [|x l IH]; intros acc H; cbn [foldr_ub map concat]; [now rewrite app_nil_r|].
  rewrite (H acc x) by (now left). cbn [bind]. rewrite IH by (intros; apply H; now right). now rewrite <- app_assoc.
Qed.

(* ---- maps ---- *)
Section Maps.
  Context {A : Type}.
  Implicit Types m : zmap A.
  Definition zok m : Prop := StronglySorted Z.lt (map fst m).
  Lemma zget_in m k a : zok m -> (zget m k = Some a <-> In (k, a) m).
  Proof.
    unfold zok. induction m as [|[k' a'] m IH]; cbn [map fst zget]; intros O; [split; [discriminate|intros []]|].
    inversion O as [|? ? O' F]; subst. destruct (Z.eqb_spec k k') as [->|N].
    - split; [intros [= ->]; now left|]. intros [[= ->]|I]; [reflexivity|].
      exfalso. rewrite Forall_forall in F. apply (in_map fst) in I. apply F in I. cbn in I. lia.
    - rewrite IH by auto. split; [now right|]. intros [[= -> ->]|I]; [easy|auto].
  Qed.
  Lemma zput_keys m k a x : In x (map fst (zput m k a)) -> x = k \/ In x (map fst m).
  Proof.
    induction m as [|[k' a'] m IH]; cbn [zput map fst]; [intros [->|[]]; auto|].
    destruct (Z.ltb_spec k k'); [cbn; intuition|]. destruct (Z.eqb_spec k k'); [cbn; intuition|].
    cbn [map fst]. intros [->|I]; [right; now left|]. destruct (IH I); [auto|right; now right].
  Qed.
  Lemma zput_ok m k a : zok m -> zok (zput m k a).
  Proof.
    unfold zok. induction m as [|[k' a'] m IH]; cbn [zput map fst]; intros O; [repeat constructor|].
    inversion O as [|? ? O' F]; subst. destruct (Z.ltb_spec k k').
    - cbn [map fst]. constructor; [auto|]. constructor; [auto|]. rewrite Forall_forall in *. intros x I. specialize (F x I). lia.
    - destruct (Z.eqb_spec k k') as [->|N]; cbn [map fst]; [constructor; auto|]. constructor; [auto|].
      rewrite Forall_forall in *. intros x I. destruct (zput_keys _ _ _ _ I) as [->|J]; [lia|auto].
  Qed.
  Lemma zput_get m k a x : zok m -> zget (zput m k a) x = if (x =? k)%Z then Some a else zget m x.
  Proof.
    unfold zok. induction m as [|[k' a'] m IH]; cbn [zput map fst zget]; intros O; [reflexivity|].
    inversion O as [|? ? O' F]; subst. destruct (Z.ltb_spec k k'); [cbn [zget]; reflexivity|].
    destruct (Z.eqb_spec k k') as [->|N]; cbn [zget]; [destruct (Z.eqb_spec x k'); auto|].
    rewrite IH by auto. destruct (Z.eqb_spec x k'), (Z.eqb_spec x k); auto. lia.
  Qed.
  Lemma zdel_ok m k : zok m -> zok (zdel m k).
  Proof.
    unfold zok, zdel. induction m as [|[k' a'] m IH]; cbn [filter map fst]; intros O; [auto|].
    inversion O as [|? ? O' F]; subst. destruct (negb (k' =? k)%Z); [|auto]. cbn [map fst]. constructor; auto.
    rewrite Forall_forall in *. intros x I. apply F. apply in_map_iff in I. destruct I as (e & <- & I). apply filter_In in I.
    now apply in_map.
  Qed.
  Lemma zdel_get m k x : zget (zdel m k) x = if (x =? k)%Z then None else zget m x.
  Proof.
    unfold zdel. induction m as [|[k' a'] m IH]; cbn [filter fst zget]; [now destruct (x =? k)%Z|].
    destruct (Z.eqb_spec k' k) as [->|N]; cbn [negb].
    - rewrite IH. destruct (Z.eqb_spec x k); auto.
    - cbn [zget]. rewrite IH. destruct (Z.eqb_spec x k'), (Z.eqb_spec x k); auto. lia.
  Qed.
  Lemma zread_some z m k a : zget m k = Some a -> zread z m k = (a, m).
  Proof. unfold zread. now intros ->. Qed.
  Lemma zread_none z m k : zget m k = None -> zread z m k = (z, zput m k z).
  Proof. unfold zread. now intros ->. Qed.
End Maps.

(* ---- sums and sizes ---- *)
Definition zsum (f : nat -> Z) (l : list nat) : Z := fold_right Z.add 0%Z (map f l).
Lemma zsum_app f a b : zsum f (a ++ b) = (zsum f a + zsum f b)%Z.
Proof. unfold zsum. rewrite map_app. induction (map f a) as [|x l IH]; cbn; [reflexivity|]. rewrite IH. lia. Qed.
Lemma zsum_ext f g l : (forall i, In i l -> f i = g i) -> zsum f l = zsum g l.
Proof. intros H. unfold zsum. f_equal. now apply map_ext_in. Qed.
Lemma zsum_S f n : zsum f (seq 0 (S n)) = (zsum f (seq 0 n) + f n)%Z.
Proof. rewrite seq_S, zsum_app. cbn. lia. Qed.

Definition part (ls vs : list Z) (p : Z) (i : nat) : Z := if (nth i ls 0 =? p)%Z then nth i vs 0%Z else 0%Z.
Lemma sum_of_seq ls vs p : length vs = length ls -> sum_of ls vs p = zsum (part ls vs p) (seq 0 (length ls)).
Proof.
  unfold sum_of. revert vs. induction ls as [|l ls IH]; intros [|v vs] E; try discriminate; [reflexivity|]. injection E as E.
  cbn [combine filter fst length seq]. unfold zsum. cbn [map fold_right]. rewrite <- seq_shift, map_map.
  specialize (IH vs E). unfold zsum in IH. change (map (fun i => part (l :: ls) (v :: vs) p (S i)) (seq 0 (length ls))) with (map (part ls vs p) (seq 0 (length ls))).
  rewrite <- IH. unfold part at 1. cbn [nth]. destruct (l =? p)%Z; cbn [map snd fold_right]; lia.
Qed.
Lemma sum_of_app ls vs l v p : length vs = length ls -> sum_of (ls ++ [l]) (vs ++ [v]) p = (sum_of ls vs p + if (l =? p)%Z then v else 0)%Z.
Proof.
  unfold sum_of. revert vs. induction ls as [|x ls IH]; intros [|y vs] E; try discriminate.
  - cbn [app combine filter fst]. destruct (l =? p)%Z; cbn; lia.
  - injection E as E. cbn [app combine filter fst]. destruct (x =? p)%Z; cbn [map snd fold_right]; rewrite IH by auto; lia.
Qed.
Lemma sum_of_without ls vs k p : length vs = length ls -> k < length ls ->
  sum_of ls vs p = (sum_of (without k ls) (without k vs) p + if (nth k ls 0 =? p)%Z then nth k vs 0 else 0)%Z.
Proof.
  unfold sum_of, without. revert vs k. induction ls as [|x ls IH]; intros [|y vs] k E K; cbn [length] in *; try discriminate; [lia|].
  injection E as E. destruct k as [|k].
  - cbn [firstn skipn app combine filter fst nth]. destruct (x =? p)%Z; cbn [map snd fold_right]; lia.
  - specialize (IH vs k E ltac:(lia)). cbn [firstn skipn app combine filter fst nth] in *.
    destruct (x =? p)%Z; cbn [map snd fold_right]; rewrite IH; lia.
Qed.
Lemma size_app ls l p : size (ls ++ [l]) p = size ls p + if (l =? p)%Z then 1 else 0.
Proof. unfold size. rewrite count_occ_app. cbn. destruct (Z.eq_dec l p), (Z.eqb_spec l p); lia. Qed.
Lemma size_without ls k p : k < length ls -> size ls p = size (without k ls) p + if (nth k ls 0 =? p)%Z then 1 else 0.
Proof.
  unfold size, without. revert k. induction ls as [|x ls IH]; intros k K; cbn [length] in *; [lia|]. destruct k as [|k].
  - cbn [firstn skipn app nth count_occ]. destruct (Z.eq_dec x p), (Z.eqb_spec x p); lia.
  - specialize (IH k ltac:(lia)). cbn [firstn skipn app nth count_occ] in *. destruct (Z.eq_dec x p); rewrite IH; lia.
Qed.
Lemma size_pos ls p : 0 < size ls p <-> exists i, i < length ls /\ nth i ls 0%Z = p.
Proof.
  unfold size. rewrite <- (count_occ_In Z.eq_dec ls p). split.
  - intros I. destruct (In_nth _ _ 0%Z I) as (i & H & E). eauto.
  - intros (i & H & <-). now apply nth_In.
Qed.
Lemma size_other ls p i : i < length ls -> nth i ls 0%Z = p -> (2 <= size ls p <-> exists j, j <> i /\ j < length ls /\ nth j ls 0%Z = p).
Proof.
  intros H E. assert (S1 := size_without ls i p H). rewrite E, Z.eqb_refl in S1. split.
  - intros G. assert (P : 0 < size (without i ls) p) by lia. apply size_pos in P. destruct P as (j & J & N).
    rewrite without_length in J by auto. rewrite without_nth in N. exists (up i j). split; [apply up_ne|]. split; [apply up_lt; auto|auto].
  - intros (j & J & L & N). assert (P : 0 < size (without i ls) p); [|lia]. apply size_pos.
    destruct (up_onto i j (length ls) H L J) as (j' & B & U). exists j'. rewrite without_length, without_nth, U by auto. auto.
Qed.
Lemma sum_of_none ls vs p : length vs = length ls -> size ls p = 0 -> sum_of ls vs p = 0%Z.
Proof.
  intros E S0. rewrite sum_of_seq by auto. rewrite (zsum_ext _ (fun _ => 0%Z)).
  - unfold zsum. induction (seq 0 (length ls)); cbn; auto.
  - intros i I. apply in_seq in I. unfold part. destruct (Z.eqb_spec (nth i ls 0%Z) p); auto.
    assert (0 < size ls p) by (apply size_pos; exists i; split; [lia|auto]). lia.
Qed.

(* ---- std::min_element ---- *)
Lemma min_pos_least l : l <> [] -> exists t d, min_pos l = Some (t, d) /\ nth_error l t = Some d /\ forall x, In x l -> (d <= x)%Z.
Proof.
  induction l as [|x l IH]; intros N; [easy|]. cbn [min_pos]. destruct l as [|y l].
  - exists 0, x. cbn [min_pos]. split; [reflexivity|]. split; [reflexivity|]. intros z [->|[]]. lia.
  - destruct IH as (t & d & E & T & M); [easy|]. rewrite E. destruct (Z.ltb_spec d x).
    + exists (S t), d. split; [reflexivity|]. split; [exact T|]. intros z [->|I]; [lia|auto].
    + exists 0, x. split; [reflexivity|]. split; [reflexivity|]. intros z [->|I]; [lia|]. specialize (M z I). lia.
Qed.
Lemma nearest_of_least l : l <> [] -> exists d j, nearest_of l = Ok (d, j) /\ In (d, j) l /\ forall e, In e l -> (d <= fst e)%Z.
Proof.
  intros N. unfold nearest_of. destruct (min_pos_least (map fst l)) as (t & d & E & T & M); [destruct l; easy|].
  rewrite E. rewrite nth_error_map in T. destruct (nth_error l t) as [[d' j]|] eqn:Q; [|discriminate]. injection T as ->.
  exists d, j. unfold at_. rewrite Q. split; [reflexivity|]. split; [now apply nth_error_In in Q|]. intros e I. apply M. now apply in_map.
Qed.
