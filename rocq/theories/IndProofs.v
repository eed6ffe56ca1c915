(* IndProofs.v -- indSimplexTree::insert does what simplexTree::insert does, as long as dimCounts is long enough. *)
From Coq Require Import List Arith ZArith Bool Lia Sorted Permutation.
From Verif Require Import Base Spec UtilsModel UtilsProofs PartitionProofs ArrayListModel ArrayListProofs
  ArrayListInv SpecComplex ArrayListHist TreeModel TreeProofs TreeHist SpecTree IndModel.
Import ListNotations.

Local Notation lev wg k := (nth k wg (@nil wsimp)).

Definition cnt_ok (counts : list Z) (dims : wgraph) : Prop :=
  length counts = 3 /\ forall k, k < 3 -> nth k counts 0%Z = (nth k [6; 15; 20]%Z 0 + Z.of_nat (length (lev dims k)))%Z.

Lemma upd_counts counts dims dims' k x :
  cnt_ok counts dims -> k < 3 -> (forall j, lev dims' j = lev dims j ++ (if k =? j then [x] else [])) ->
  exists counts', upd counts k (fun c => c + 1)%Z = Ok counts' /\ cnt_ok counts' dims'.
Proof.
  intros [L C] Hk HL. destruct counts as [|a [|b [|c [|]]]]; try discriminate.
  assert (H : forall j, j < 3 -> nth j [a;b;c] 0%Z = (nth j [6;15;20]%Z 0 + Z.of_nat (length (lev dims j)))%Z) by exact C.
  destruct k as [|[|[|k]]]; [| | |lia]; cbn [upd bind]; eexists; (split; [reflexivity|]); (split; [reflexivity|]); intros j Hj;
    rewrite HL, app_length; specialize (H j Hj); destruct j as [|[|[|j]]]; try lia;
    cbn [nth upd rmap bind] in *; cbv [Nat.eqb] in *; cbn [length] in *; lia.
Qed.

Inductive path_ok (cur : nat) : list nat -> tnode -> Prop :=
| path_node p i w cs : (forall x, In x p -> x < i) -> i < cur -> Forall (path_ok cur (p ++ [i])) cs -> path_ok cur p (TN i w cs).

Lemma good_path D eps md cur t : forall p, good D eps md cur p t -> (forall x, In x p -> x < t_index t) -> t_index t < cur -> path_ok cur p t.
Proof.
  induction t as [i w cs IH] using tnode_ind'; intros p G Hp Hi. cbn in *. inversion G; subst. constructor; auto.
  rewrite Forall_forall in *. intros c Hc. assert (Hx : In (t_index c) (map t_index cs)) by now apply in_map.
  rewrite H4 in Hx. destruct (allow _ _); [|easy]. apply in_rev in Hx. apply filter_In in Hx as [Hx _]. apply in_seq in Hx.
  apply (IH c Hc); auto; [|lia]. intros x Hx'. apply in_app_iff in Hx' as [Hx'|[<-|[]]]; [|lia]. specialize (Hp x Hx'). lia.
Qed.

Lemma sinsert_path p i cur : (forall x, In x p -> x < i) -> i < cur -> sinsert i (p ++ [cur]) = p ++ [i; cur].
Proof.
  intros Hp Hi. induction p as [|x p IHp]; cbn.
  - destruct (Nat.ltb_spec i cur); [reflexivity|lia].
  - assert (x < i) by (apply Hp; now left). destruct (Nat.ltb_spec i x); [lia|]. destruct (Nat.ltb_spec x i); [|lia].
    f_equal. apply IHp. intros y Hy. apply Hp. now right.
Qed.

Lemma record_same dims p i cur w : S (length p) <= length dims ->
  record_dim dims (length (p ++ [cur]) - 1) (p ++ [i; cur]) w = record_simplex dims (p ++ [i; cur]) w.
Proof.
  intros H. unfold record_dim, record_simplex. rewrite !app_length. cbn [length]. replace (length p + 1 - 1) with (length p) by lia.
  destruct (Nat.ltb_spec (length dims) (length p + 2)); destruct (Nat.eqb_spec (S (length p)) (length dims)); try lia; auto.
  replace (length p + 2) with (S (S (length p))) by lia. reflexivity.
Qed.

Lemma record_levels dims p i cur w dims' : S (length p) <= length dims -> record_simplex dims (p ++ [i; cur]) w = Ok dims' ->
  (forall j, lev dims' j = lev dims j ++ (if S (length p) =? j then [(p ++ [i; cur], w)] else [])) /\
  length dims <= length dims' /\ S (S (length p)) <= length dims' /\ length dims' <= Nat.max (length dims) (S (S (length p))).
Proof.
  intros H E. unfold record_simplex in E. rewrite app_length in E. cbn [length] in E. replace (length p + 2) with (S (S (length p))) in E by lia.
  destruct (Nat.ltb_spec (length dims) (S (S (length p)))) as [Hl|Hl].
  - injection E as <-. assert (Ed : length dims = S (length p)) by lia. rewrite app_length. cbn [length]. split; [|lia]. intros j.
    destruct (Nat.eqb_spec (S (length p)) j) as [<-|Hj].
    + rewrite <- Ed, app_nth2, Nat.sub_diag, (nth_overflow dims) by lia. reflexivity.
    + rewrite app_nil_r. destruct (Nat.lt_ge_cases j (length dims)); [now rewrite app_nth1|].
      rewrite !nth_overflow; auto. rewrite app_length. cbn. lia.
  - destruct (upd_lev dims (S (length p)) (fun l => l ++ [(p ++ [i; cur], w)])) as (d1 & E1 & L & A & B); [lia|].
    rewrite E1 in E. injection E as <-. split; [|lia]. intros j. destruct (Nat.eqb_spec (S (length p)) j) as [<-|Hj]; auto.
    rewrite app_nil_r. apply B. lia.
Qed.

Lemma record_mono weg s w weg' : record_simplex weg s w = Ok weg' -> length weg <= length weg'.
Proof.
  unfold record_simplex. destruct (length weg <? length s).
  - intros E. injection E as <-. rewrite app_length. lia.
  - destruct (length s); [discriminate|]. intros E. revert weg' n E. induction weg as [|l weg IH]; intros weg' n E; [destruct n; discriminate|].
    destruct n as [|n]; cbn in E; [injection E as <-; auto|]. destruct (upd weg n _) as [w1|] eqn:E1; [|discriminate]. injection E as <-.
    cbn. apply le_n_S. now apply (IH w1 n).
Qed.

Lemma recurse_mono eps md dist cur t : forall maxE simp weg cnt r,
  recurseInsert eps md dist cur t maxE simp (weg, cnt) = Ok r -> length weg <= length (fst (snd r)).
Proof.
  induction t as [i w cs IH] using tnode_ind'; intros maxE simp weg cnt r E.
  cbn [recurseInsert] in E. destruct (dist i) as [d|]; [|discriminate]. cbn [bind] in E.
  set (curE := if (maxE <? d)%Z then d else maxE) in *.
  destruct (curE <? eps)%Z; [|inversion E; subst; reflexivity].
  set (maxE' := if (w <? curE)%Z then curE else w) in *.
  destruct (record_simplex (fst (weg, cnt)) (sinsert i simp) maxE') as [weg1|] eqn:E1; [|discriminate].
  cbn [fst snd] in E1. apply record_mono in E1. cbn [bind snd fst] in E.
  match type of E with context [?f cs (weg1, (cnt + 1)%Z)] => set (GO := f) in E end.
  assert (HGO : forall l w0 c0 r, incl l cs -> GO l (w0, c0) = Ok r -> length w0 <= length (fst (snd r))).
  { induction l as [|c l IHl]; intros w0 c0 r0 Hin Er.
    - inversion Er; subst. reflexivity.
    - change (bind (recurseInsert eps md dist cur c maxE' (sinsert i simp) (w0, c0)) (fun r1 => bind (GO l (snd r1)) (fun r2 => Ok (fst r1 :: fst r2, snd r2))) = Ok r0) in Er.
      destruct (recurseInsert _ _ _ _ c _ _ _) as [[c' [w1 c1]]|] eqn:Ec; [|discriminate]. cbn [bind snd fst] in Er.
      destruct (GO l (w1, c1)) as [[l1 a1]|] eqn:El; [|discriminate]. cbn [bind fst snd] in Er. injection Er as <-. cbn [fst snd].
      rewrite Forall_forall in IH. apply (IH c (Hin c (or_introl eq_refl))) in Ec. cbn in Ec.
      apply IHl in El; [cbn in El; lia|]. intros z Hz. apply Hin. now right. }
  clearbody GO. destruct cs as [|c0 cs0].
  - injection E as <-. cbn. exact E1.
  - destruct (may_recurse md (length (sinsert i simp))).
    + destruct (GO (c0 :: cs0) _) as [r1|] eqn:Er; [|discriminate]. cbn in E. injection E as <-.
      apply HGO in Er; [|apply incl_refl]. cbn [snd fst]. lia.
    + injection E as <-. cbn. exact E1.
Qed.

Section Sim.
  Variables (eps md : Z) (cur : nat) (dist : nat -> res Z).

  Lemma rec_sim t : forall p maxE (dims : wgraph) (counts : list Z) (c : Z) (t' : tnode) (dims' : wgraph) (c' : Z),
    path_ok cur p t -> S (length p) <= length dims <= 3 -> cnt_ok counts dims ->
    recurseInsert eps md dist cur t maxE (p ++ [cur]) (dims, c) = Ok (t', (dims', c')) ->
    (length dims' <= 3 -> exists counts', cnt_ok counts' dims' /\ lev dims' 0 = lev dims 0 /\
       ind_recurse eps md dist cur t maxE (p ++ [cur]) (dims, counts, c) = Ok (t', (dims', counts', c'))) /\
    (4 <= length dims' -> ind_recurse eps md dist cur t maxE (p ++ [cur]) (dims, counts, c) = UB).
  Proof.
    induction t as [i w cs IH] using tnode_ind'; intros p maxE dims counts c t' dims' c' Hp Hl Hc E.
    inversion Hp as [p0 i0 w0 cs0 Hpi Hi Hf]; subst. cbn [recurseInsert ind_recurse] in *.
    destruct (dist i) as [d|]; [|discriminate]. cbn [bind] in *.
    set (curE := if (maxE <? d)%Z then d else maxE) in *. destruct (curE <? eps)%Z.
    2: { injection E as <- <- <-. split; [|lia]. intros _. exists counts. auto. }
    rewrite (sinsert_path p i cur Hpi Hi) in *. cbn [fst snd] in E. set (maxE' := if (w <? curE)%Z then curE else w) in *.
    rewrite record_same by lia. destruct (record_simplex dims (p ++ [i; cur]) maxE') as [d1|] eqn:E1; [|discriminate]. cbn [bind] in E.
    destruct (record_levels _ _ _ _ _ _ (proj1 Hl) E1) as (R1 & R2 & R3 & R4).
    assert (Ed : S (length (p ++ [cur]) - 1) = S (length p)) by (rewrite app_length; cbn; lia). rewrite Ed.
    match type of E with context [?f cs (d1, (c + 1)%Z)] => set (GO := f) in * end.
    assert (GO0 : forall acc, GO [] acc = Ok ([], acc)) by reflexivity.
    assert (GOS : forall x l acc, GO (x :: l) acc =
              bind (recurseInsert eps md dist cur x maxE' (p ++ [i; cur]) acc)
                   (fun r1 => bind (GO l (snd r1)) (fun r2 => Ok (fst r1 :: fst r2, snd r2)))) by reflexivity.
    clearbody GO.
    assert (Mono : forall l dd cc r, GO l (dd, cc) = Ok r -> length dd <= length (fst (snd r))).
    { intros l. induction l as [|x l IHl]; intros dd cc r Eg.
      - rewrite GO0 in Eg. injection Eg as <-. auto.
      - rewrite GOS in Eg. destruct (recurseInsert _ _ _ _ x _ _ _) as [[x' [dx cx]]|] eqn:Ex; [|discriminate]. cbn [bind snd fst] in Eg.
        destruct (GO l (dx, cx)) as [[l1 [d2 c2]]|] eqn:El; [|discriminate]. cbn [bind fst snd] in Eg. injection Eg as <-.
        apply recurse_mono in Ex. apply IHl in El. cbn in *. lia. }
    assert (M1 : length d1 <= length dims').
    { destruct cs as [|c0 cs0]; [injection E as <- <- <-; auto|].
      destruct (may_recurse md (length (p ++ [i; cur]))); [|injection E as <- <- <-; auto].
      destruct (GO _ _) as [[l1 [d2 c2]]|] eqn:El; [|discriminate]. cbn [bind fst snd] in E. injection E as <- <- <-.
      apply Mono in El. exact El. }
    assert (Z0 : lev d1 0 = lev dims 0) by (rewrite R1; apply app_nil_r).
    destruct (Nat.lt_ge_cases (S (length p)) 3) as [Hlt|Hge].
    2: { split; [lia|]. intros _. destruct Hc as [Hc _].
         assert (Eu : upd counts (S (length p)) (fun z => (z + 1)%Z) = UB).
         { destruct counts as [|a [|b [|e [|]]]]; try discriminate. destruct (length p) as [|[|k]]; try lia. reflexivity. }
         rewrite Eu. reflexivity. }
    destruct (upd_counts counts dims d1 (S (length p)) _ Hc Hlt R1) as (counts1 & Eu & C1).
    rewrite Eu. cbn [bind].
    match goal with |- context [?f cs (d1, counts1, (c + 1)%Z)] => set (GI := f) in * end.
    assert (GI0 : forall acc, GI [] acc = Ok ([], acc)) by reflexivity.
    assert (GIS : forall x l acc, GI (x :: l) acc =
              bind (ind_recurse eps md dist cur x maxE' (p ++ [i; cur]) acc)
                   (fun r1 => bind (GI l (snd r1)) (fun r2 => Ok (fst r1 :: fst r2, snd r2)))) by reflexivity.
    clearbody GI.
    assert (Go : forall (l : list tnode) (dd : wgraph) (cts : list Z) (cc : Z) (l' : list tnode) (dd' : wgraph) (cc' : Z), incl l cs -> S (S (length p)) <= length dd <= 3 -> cnt_ok cts dd ->
              GO l (dd, cc) = Ok (l', (dd', cc')) ->
              (length dd' <= 3 -> exists cts', cnt_ok cts' dd' /\ lev dd' 0 = lev dd 0 /\ GI l (dd, cts, cc) = Ok (l', (dd', cts', cc'))) /\
              (4 <= length dd' -> GI l (dd, cts, cc) = UB)).
    { intros l. induction l as [|x l IHl]; intros dd cts cc l' dd' cc' Hin Hd Hcts Eg.
      - rewrite GO0 in Eg. injection Eg as <- <- <-. split; [|lia]. intros _. exists cts. rewrite GI0. auto.
      - rewrite GOS in Eg. destruct (recurseInsert _ _ _ _ x _ _ _) as [[x' [dx cx]]|] eqn:Ex; [|discriminate]. cbn [bind snd fst] in Eg.
        destruct (GO l (dx, cx)) as [[l1 [d2 c2]]|] eqn:El; [|discriminate]. cbn [bind fst snd] in Eg. injection Eg as <- <- <-.
        assert (Hx : In x cs) by (apply Hin; now left). rewrite Forall_forall in IH, Hf.
        assert (Ml := Mono _ _ _ _ El). cbn in Ml. assert (Mx := recurse_mono _ _ _ _ _ _ _ _ _ _ Ex). cbn in Mx.
        replace (p ++ [i; cur]) with ((p ++ [i]) ++ [cur]) in * by (rewrite <- app_assoc; reflexivity).
        destruct (IH x Hx (p ++ [i]) maxE' dd cts cc x' dx cx) as (S1 & S2); auto.
        { rewrite app_length. cbn. lia. }
        rewrite GIS. destruct (Nat.le_gt_cases (length dx) 3) as [H3|H3].
        + destruct (S1 H3) as (cts1 & Q1 & Q0 & Q2). rewrite Q2. cbn [bind snd fst].
          destruct (IHl dx cts1 cx l1 d2 c2) as (T1 & T2); auto. { intros z Hz. apply Hin. now right. } { lia. }
          split.
          * intros H. destruct (T1 H) as (cts2 & Q3 & Q0' & Q4). rewrite Q4. exists cts2. split; auto. split; auto. congruence.
          * intros H. rewrite (T2 H). reflexivity.
        + split; [lia|]. intros _. rewrite S2 by lia. reflexivity. }
    destruct cs as [|c0 cs0].
    { injection E as <- <- <-. split; [|lia]. intros _. exists counts1. auto. }
    destruct (may_recurse md (length (p ++ [i; cur]))).
    2: { injection E as <- <- <-. split; [|lia]. intros _. exists counts1. auto. }
    destruct (GO _ _) as [[l1 [d2 c2]]|] eqn:El; [|discriminate]. cbn [bind fst snd] in E. injection E as <- <- <-.
    destruct (Go _ d1 counts1 (c + 1)%Z l1 d2 c2 (incl_refl _)) as (T1 & T2); auto. { lia. }
    split.
    - intros H. destruct (T1 H) as (cts2 & Q3 & Q0' & Q4). rewrite Q4. exists cts2. split; auto. split; auto. congruence.
    - intros H. rewrite (T2 H). reflexivity.
  Qed.

  Lemma roots_mono l : forall weg cnt r, insert_roots eps md dist cur l (weg, cnt) = Ok r -> length weg <= length (fst (snd r)).
  Proof.
    induction l as [|t l IH]; intros weg cnt r E; cbn [insert_roots] in E; [injection E as <-; auto|].
    destruct (recurseInsert _ _ _ _ t _ _ _) as [[x' [dx cx]]|] eqn:Ex; [|discriminate]. cbn [bind snd fst] in E.
    destruct (insert_roots _ _ _ _ l (dx, cx)) as [[l1 [d2 c2]]|] eqn:El; [|discriminate]. cbn [bind fst snd] in E. injection E as <-.
    apply recurse_mono in Ex. apply IH in El. cbn in *. lia.
  Qed.

  Lemma roots_sim l : forall (dims : wgraph) (counts : list Z) (c : Z) (l' : list tnode) (dims' : wgraph) (c' : Z),
    Forall (path_ok cur []) l -> 1 <= length dims <= 3 -> cnt_ok counts dims ->
    insert_roots eps md dist cur l (dims, c) = Ok (l', (dims', c')) ->
    (length dims' <= 3 -> exists counts', cnt_ok counts' dims' /\ lev dims' 0 = lev dims 0 /\
       ind_roots eps md dist cur l (dims, counts, c) = Ok (l', (dims', counts', c'))) /\
    (4 <= length dims' -> ind_roots eps md dist cur l (dims, counts, c) = UB).
  Proof.
    induction l as [|t l IH]; intros dims counts c l' dims' c' Hf Hd Hc E; cbn [insert_roots ind_roots] in *.
    - injection E as <- <- <-. split; [|lia]. intros _. exists counts. auto.
    - inversion Hf; subst. destruct (recurseInsert _ _ _ _ t _ _ _) as [[x' [dx cx]]|] eqn:Ex; [|discriminate]. cbn [bind snd fst] in E.
      destruct (insert_roots _ _ _ _ l (dx, cx)) as [[l1 [d2 c2]]|] eqn:El; [|discriminate]. cbn [bind fst snd] in E. injection E as <- <- <-.
      assert (Ml := roots_mono _ _ _ _ El). cbn in Ml. assert (Mx := recurse_mono _ _ _ _ _ _ _ _ _ _ Ex). cbn in Mx.
      destruct (rec_sim t [] 0%Z dims counts c x' dx cx) as (S1 & S2); auto.
      cbn [app] in S1, S2. destruct (Nat.le_gt_cases (length dx) 3) as [H3|H3].
      + destruct (S1 H3) as (cts1 & Q1 & Q0 & Q2). rewrite Q2. cbn [bind snd fst].
        destruct (IH dx cts1 cx l1 d2 c2) as (T1 & T2); auto. { lia. }
        split.
        * intros H. destruct (T1 H) as (cts2 & Q3 & Q0' & Q4). rewrite Q4. exists cts2. split; auto. split; auto. congruence.
        * intros H. rewrite (T2 H). reflexivity.
      + split; [lia|]. intros _. rewrite S2 by lia. reflexivity.
  Qed.
End Sim.
