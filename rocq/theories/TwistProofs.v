(* TwistProofs.v -- the incremental reduction finds the columns the eager one finds. *)
From Coq Require Import List Arith ZArith Bool Lia Sorted.
From Verif Require Import Base Spec RunMonad UtilsModel UtilsProofs ArrayListModel ArrayListProofs SpecLinear LinearProofs
  FastProofs GaussModel SpecGauss GaussProofs GaussRuns IndModel TwistModel.
Import ListNotations.
Local Open Scope nat_scope.

Definition filled (x : nat * list nat) : bool := match snd x with [] => false | _ => true end.
Definition strike (i : nat) (v : list nat) (x : nat * list nat) : nat * list nat :=
  if starts_with i (snd x) then (fst x, setXOR v (snd x)) else x.

Lemma setXOR_self v : ssorted v -> setXOR v v = [].
Proof.
  intros S. destruct (setXOR_spec v v S S) as [_ H]. destruct (setXOR v v) as [|x l]; auto. exfalso.
  destruct (proj1 (H x) (or_introl eq_refl)) as [[]|[]]; auto.
Qed.
Lemma setXOR_sym a b : ssorted a -> ssorted b -> setXOR a b = setXOR b a.
Proof.
  intros Sa Sb. destruct (setXOR_spec a b Sa Sb) as [S1 H1], (setXOR_spec b a Sb Sa) as [S2 H2]. apply ssorted_ext; auto.
  intros x. rewrite H1, H2. tauto.
Qed.
Lemma starts_hd i s : starts_with i s = true -> exists l, s = i :: l.
Proof. destruct s as [|x l]; [discriminate|]. cbn. intros H. apply Nat.eqb_eq in H. subst. eauto. Qed.
Lemma filled_strike i v X : filter filled (map (strike i v) (filter filled X)) = filter filled (map (strike i v) X).
Proof.
  induction X as [|[j s] X IH]; auto. cbn [filter map]. destruct (filled (j, s)) eqn:E; cbn [filter map].
  - rewrite IH. reflexivity.
  - destruct s; [|discriminate]. cbn. exact IH.
Qed.
Lemma strike_none i v X : (forall x, In x X -> starts_with i (snd x) = false) -> map (strike i v) X = X.
Proof. intros H. rewrite <- (map_id X) at 2. apply map_ext_in. intros x Hx. unfold strike. now rewrite (H x Hx). Qed.

Lemma buffered_spec i X : match tw_buffered i X with
  | None => forall x, In x X -> starts_with i (snd x) = false
  | Some (b, p, a) => X = b ++ p :: a /\ starts_with i (snd p) = true /\ forall x, In x b -> starts_with i (snd x) = false
  end.
Proof.
  induction X as [|x X IH]; cbn; [intros x []|]. destruct (starts_with i (snd x)) eqn:E.
  - split; auto. split; auto. intros y [].
  - destruct (tw_buffered i X) as [[[b p] a]|].
    + destruct IH as (-> & H1 & H2). split; auto. split; auto. intros y [<-|Hy]; auto.
    + intros y [<-|Hy]; auto.
Qed.
Lemma buffered_first i b p a : starts_with i (snd p) = true -> (forall x, In x b -> starts_with i (snd x) = false) ->
  tw_buffered i (b ++ p :: a) = Some (b, p, a).
Proof.
  intros Hp. induction b as [|x b IH]; intros Hb; cbn; [now rewrite Hp|]. rewrite (Hb x (or_introl eq_refl)), IH; auto.
  intros y Hy. apply Hb. now right.
Qed.
Lemma buffered_none i X : (forall x, In x X -> starts_with i (snd x) = false) -> tw_buffered i X = None.
Proof. induction X as [|x X IH]; intros H; cbn; auto. rewrite (H x (or_introl eq_refl)), IH; auto. intros y Hy. apply H. now right. Qed.

Lemma enum_map {A B} (f : A -> B) l : forall i, enum i (map f l) = map (fun x => (fst x, f (snd x))) (enum i l).
Proof. induction l as [|x l IH]; intros i; cbn; [auto|]. now rewrite IH. Qed.
Lemma enum_nth {A} (l : list A) : forall i j x, In (j, x) (enum i l) -> i <= j /\ nth_error l (j - i) = Some x.
Proof.
  induction l as [|y l IH]; intros i j x; cbn; [intros []|]. intros [E|H].
  - injection E as -> ->. split; auto. now rewrite Nat.sub_diag.
  - apply IH in H as [H1 H2]. split; [lia|]. replace (j - i) with (S (j - S i)) by lia. exact H2.
Qed.

Lemma set_nth {A} (v d : A) : forall (l : list A) i, i < length l ->
  exists l', upd l i (fun _ => v) = Ok l' /\ length l' = length l /\ nth i l' d = v /\ forall x, x <> i -> nth x l' d = nth x l d.
Proof.
  induction l as [|a l IH]; intros i Hi; cbn in Hi; [lia|]. destruct i as [|i].
  - exists (v :: l). repeat split; auto. intros [|x] H; [easy|reflexivity].
  - destruct (IH i) as (l' & E & L & A1 & A2); [lia|]. exists (a :: l'). cbn. rewrite E. split; [reflexivity|]. split; [lia|]. split; [auto|].
    intros [|x] H; cbn; auto.
Qed.

(* One step of the eager reduction, on the columns that are not empty. *)
Lemma eager_step m Q i : good i m ->
  match tw_buffered i (filter filled (enum 0 m)) with
  | None => set_step (m, Q) i = (m, Q) /\ good (S i) m
  | Some (b, (j, v), a) =>
      exists m', set_step (m, Q) i = (m', Q ++ [(j, v)]) /\ length m' = length m /\ good (S i) m' /\ ssorted v /\
        filter filled (enum 0 m') = filter filled (map (strike i v) (filter filled (enum 0 m)))
  end.
Proof.
  intros G. unfold set_step. assert (F := find_start_spec (S i) i (Nat.lt_succ_diag_r i) m G). destruct (find_start i m) as [[[b c] a]|].
  - destruct F as (-> & Ec & Hb & _). destruct (G c) as [Sc Hc]; [apply in_app_iff; right; now left|].
    assert (Sw : starts_with i c = true) by now rewrite starts_coord.
    assert (Hbs : forall s, In s b -> starts_with i s = false).
    { intros s Hs. destruct (G s) as [Ss Hs']; [apply in_app_iff; now left|]. rewrite starts_coord by auto. apply coord_false. now apply Hb. }
    rewrite enum_app, Nat.add_0_l. cbn [enum]. rewrite filter_app. cbn [filter].
    assert (Fc : filled (length b, c) = true) by (destruct c; [discriminate|reflexivity]). rewrite Fc.
    rewrite buffered_first; [|exact Sw|].
    2:{ intros [j s] H. apply filter_In in H as [H _]. apply enum_nth in H as [_ H]. apply nth_error_In in H. now apply Hbs. }
    eexists. split; [reflexivity|]. split; [rewrite !List.app_length, map_length; reflexivity|]. split; [|split; [exact Sc|]].
    + intros s Hs. apply in_app_iff in Hs as [Hs|Hs].
      { destruct (G s) as [Ss Hs']; [apply in_app_iff; now left|]. split; auto. intros x Hx. specialize (Hs' x Hx).
        assert (x <> i) by (intros ->; exact (Hb s Hs Hx)). lia. }
      apply in_map_iff in Hs as (s' & <- & Hs). destruct (G s' ltac:(apply in_app_iff; now right)) as [Ss Hs']. rewrite (starts_coord i s' Ss Hs').
      destruct (coord s' i) eqn:Ei.
      { destruct (setXOR_spec c s' Sc Ss) as [Sx Hx]. split; auto. intros x K. apply Hx in K. apply coord_In in Ec, Ei.
        assert (x <> i) by (intros ->; tauto). destruct K as [[K _]|[K _]]; [specialize (Hc x K)|specialize (Hs' x K)]; lia. }
      { split; auto. intros x Hx. specialize (Hs' x Hx). apply coord_false in Ei. assert (x <> i) by (intros ->; tauto). lia. }
    + replace (filter filled (enum 0 b) ++ (length b, c) :: filter filled (enum (S (length b)) a))
        with (filter filled (enum 0 (b ++ c :: a))) by (rewrite enum_app, Nat.add_0_l; cbn [enum]; rewrite filter_app; cbn [filter]; now rewrite Fc).
      rewrite filled_strike. f_equal.
      assert (Em : b ++ map (fun x => if starts_with i x then setXOR c x else x) (c :: a) = map (fun x => if starts_with i x then setXOR c x else x) (b ++ c :: a)).
      { rewrite map_app. f_equal. rewrite <- (map_id b) at 1. apply map_ext_in. intros s Hs. now rewrite Hbs. }
      rewrite Em, enum_map. apply map_ext. intros [j s]. unfold strike. cbn. destruct (starts_with i s); reflexivity.
  - destruct F as (_ & H). rewrite buffered_none.
    + split; auto. intros s Hs. destruct (G s Hs) as [Ss Hs']. split; auto. intros x Hx. specialize (Hs' x Hx).
      assert (x <> i) by (intros ->; exact (H s Hs Hx)). lia.
    + intros [j s] Hx. apply filter_In in Hx as [Hx _]. apply enum_nth in Hx as [_ Hx]. apply nth_error_In in Hx. cbn.
      destruct (G s Hx) as [Ss Hs']. rewrite starts_coord by auto. apply coord_false. now apply H.
Qed.

(* The reduction of a column by the pivots of the rows before i. *)
Definition red_from (px : list (list nat)) (k n : nat) (s : list nat) : list nat :=
  fold_left (fun s x => if starts_with x s then setXOR (nth x px []) s else s) (seq k n) s.
Definition pivots_ok (px : list (list nat)) (i : nat) : Prop :=
  forall x, x < i -> x < length px /\ ssorted (nth x px []) /\ starts_with x (nth x px []) = true.
Definition above (i : nat) (s : list nat) : Prop := ssorted s /\ forall x, In x s -> i <= x.

Lemma above_next i s : above i s -> starts_with i s = false -> above (S i) s.
Proof.
  intros [Ss Hs] E. split; auto. intros x Hx. assert (Hx2 := Hs x Hx). rewrite starts_coord in E by auto. apply coord_false in E.
  assert (x <> i) by (intros ->; auto). lia.
Qed.
Lemma above_strike i v s : above i s -> ssorted v -> starts_with i v = true -> starts_with i s = true -> above (S i) (setXOR v s).
Proof.
  intros [Ss Hs] Sv Ev Es. destruct (setXOR_spec v s Sv Ss) as [Sx Hx]. split; auto. intros x K. apply Hx in K.
  destruct (starts_hd _ _ Ev) as (l & ->). destruct (starts_hd _ _ Es) as (l' & ->).
  apply ssorted_cons in Sv as [_ Sv]. apply ssorted_cons in Ss as [_ Ss]. cbn in K.
  destruct K as [[[<-|K] N]|[[<-|K] N]]; [exfalso; apply N; now left|specialize (Sv x K); lia|exfalso; apply N; now left|specialize (Ss x K); lia].
Qed.
Lemma red_above px n : forall k s, pivots_ok px (k + n) -> above k s -> above (k + n) (red_from px k n s).
Proof.
  induction n as [|n IH]; intros k s P A; [now rewrite Nat.add_0_r|]. cbn [red_from seq fold_left] in *. rewrite <- Nat.add_succ_comm in *. apply IH; auto.
  destruct (starts_with k s) eqn:E; [|now apply above_next]. destruct (P k) as (_ & Sp & Ep); [lia|]. now apply above_strike.
Qed.
Lemma red_S px k n s : red_from px k (S n) s =
  let r := red_from px k n s in if starts_with (k + n) r then setXOR (nth (k + n) px []) r else r.
Proof. unfold red_from. rewrite seq_S, fold_left_app. reflexivity. Qed.
Lemma red_ext px px' k n s : (forall x, k <= x < k + n -> nth x px [] = nth x px' []) -> red_from px k n s = red_from px' k n s.
Proof.
  revert k s. induction n as [|n IH]; intros k s H; auto. cbn [red_from seq fold_left]. rewrite (H k) by lia.
  apply IH. intros x Hx. apply H. lia.
Qed.

Lemma reduce_ok px i n : forall k s fuel, k + n = i -> n < fuel -> pivots_ok px i -> above k s -> tw_reduce fuel px i s = ret (red_from px k n s).
Proof.
  induction n as [|n IH]; intros k s fuel E Lf P A.
  - assert (k = i) by lia. subst k. cbn. destruct A as [_ A]. destruct s as [|x s], fuel; cbn; try lia; auto.
    destruct (Nat.ltb_spec x i); auto. specialize (A x (or_introl eq_refl)). lia.
  - cbn [red_from seq fold_left]. destruct (starts_with k s) eqn:Es.
    + destruct (starts_hd _ _ Es) as (l & ->). destruct fuel as [|fuel]; [lia|]. cbn [tw_reduce]. destruct (P k) as (Lp & Sp & Ep); [lia|].
      rewrite (proj2 (Nat.ltb_lt k i)) by lia. rewrite (at_nth _ _ []) by auto. cbn [lift rbind].
      rewrite setXOR_sym by (auto; apply A). apply IH; [lia|lia|auto|]. apply above_strike; auto.
    + apply IH; [lia|lia|auto|now apply above_next].
Qed.

Lemma enum_len {A} (l : list A) : forall i, length (enum i l) = length l.
Proof. induction l as [|x l IH]; intros i; cbn; auto. Qed.

Section Columns.
  Variables (faces_of : list nat -> res (list nat)) (cleared : list nat) (pChain : list wsimp) (rows : nat).
  Variable F : list nat -> list nat.
  Hypothesis HF : forall s w, In (s, w) pChain -> faces_of s = Ok (F s) /\ F s <> [] /\ ssorted (F s).

  Definition todo (rest : list (nat * wsimp)) : list (nat * list nat) :=
    map (fun x => (fst x, F (fst (snd x)))) (filter (fun x => negb (existsb (Nat.eqb (fst x)) cleared)) rest).
  Definition redl (px : list (list nat)) (i : nat) (l : list (nat * list nat)) : list (nat * list nat) :=
    map (fun x => (fst x, red_from px 0 i (snd x))) l.
  (* The columns given to the eager reduction. *)
  Definition columns : list (list nat) :=
    map (fun x => if existsb (Nat.eqb (fst x)) cleared then [] else F (fst (snd x))) (enum 0 pChain).

  Lemma todo_cons j s rest : todo ((j, s) :: rest) = if existsb (Nat.eqb j) cleared then todo rest else (j, F (fst s)) :: todo rest.
  Proof. unfold todo. cbn [filter fst]. now destruct (existsb (Nat.eqb j) cleared). Qed.
  Lemma pop_spec i px : pivots_ok px i -> forall rest buf, (forall x, In x rest -> In (snd x) pChain) ->
    match tw_buffered i (redl px i (todo rest)) with
    | Some (b, (j, v), a) => exists rest', tw_pop faces_of cleared (S i) i px rest buf = ret (Some (j, v), rest', buf ++ b) /\
        redl px i (todo rest') = a /\ (forall x, In x rest' -> In x rest)
    | None => tw_pop faces_of cleared (S i) i px rest buf = ret (None, [], buf ++ redl px i (todo rest))
    end.
  Proof.
    intros P. induction rest as [|[j [s w]] rest IH]; intros buf HR; [cbn; now rewrite app_nil_r|].
    assert (HR' : forall x, In x rest -> In (snd x) pChain) by (intros x Hx; apply HR; now right).
    rewrite todo_cons. cbn [tw_pop fst snd]. destruct (existsb (Nat.eqb j) cleared) eqn:Ec.
    - specialize (IH buf HR'). destruct (tw_buffered _ _) as [[[b [j' v]] a]|]; auto.
      destruct IH as (r & A & B & C). exists r. split; auto. split; auto. intros x Hx. right. auto.
    - destruct (HF s w) as (E1 & N1 & S1); [apply (HR (j, (s, w))); now left|]. rewrite E1. cbn [lift rbind].
      destruct (F s) as [|f0 fs] eqn:Ef; [easy|]. rewrite <- Ef in *.
      rewrite (reduce_ok px i i 0); [|lia|lia|exact P|split; [exact S1|intros; lia]]. cbn [rbind ret].
      change (redl px i ((j, F s) :: todo rest)) with ((j, red_from px 0 i (F s)) :: redl px i (todo rest)). cbn [tw_buffered snd].
      destruct (starts_with i (red_from px 0 i (F s))) eqn:Es.
      + exists rest. rewrite app_nil_r. split; auto. split; auto. intros x Hx. now right.
      + specialize (IH (buf ++ [(j, red_from px 0 i (F s))]) HR'). destruct (tw_buffered _ _) as [[[b [j' v]] a]|].
        * destruct IH as (r & A & B & C). exists r. rewrite A, <- app_assoc. split; auto. split; auto. intros x Hx. right. auto.
        * rewrite IH, <- app_assoc. reflexivity.
  Qed.

  Lemma redl_S px px' i v l : (forall x, x < i -> nth x px' [] = nth x px []) -> nth i px' [] = v ->
    redl px' (S i) l = map (strike i v) (redl px i l).
  Proof.
    intros H1 H2. unfold redl. rewrite map_map. apply map_ext. intros [j s]. cbn [fst snd]. rewrite red_S. cbn zeta. rewrite Nat.add_0_l, H2.
    rewrite (red_ext px' px 0 i s) by (intros x Hx; apply H1; lia). unfold strike. cbn [fst snd]. now destruct (starts_with i _).
  Qed.

  Record rel (i : nat) (st : list (nat * wsimp) * list (nat * list nat) * list (list nat) * list nat * list nat)
             (m : list (list nat)) (Q : list (nat * list nat)) : Prop := {
    r_same : let '(rest, buf, px, piv, fs) := st in
             filter filled (buf ++ redl px i (todo rest)) = filter filled (enum 0 m);
    r_piv : let '(rest, buf, px, piv, fs) := st in piv = map fst Q;
    r_face : let '(rest, buf, px, piv, fs) := st in
             forall f, In f fs -> exists j v, In (j, v) Q /\ last v 0 = f /\ hd 0 v <> f /\ 1 <= hd 0 v;
    r_px : let '(rest, buf, px, piv, fs) := st in length px = rows /\ (rest = [] \/ pivots_ok px i);
    r_rest : let '(rest, buf, px, piv, fs) := st in forall x, In x rest -> In (snd x) pChain;
    r_zero : let '(rest, buf, px, piv, fs) := st in i = 0 -> buf = [];
    r_good : good i m
  }.

  Lemma row_step i st m Q : i < rows -> rel i st m Q ->
    exists st', tw_row faces_of cleared st i = ret st' /\ let (m', Q') := set_step (m, Q) i in rel (S i) st' m' Q' /\ length m' = length m.
  Proof.
    intros Hi [Rs Rp Rf Rx Rr Rz Rg]. destruct st as [[[[rest buf] px] piv] fs]. destruct Rx as [Lx Px].
    assert (St := eager_step m Q i Rg). unfold tw_row.
    assert (Bs := buffered_spec i buf). destruct (tw_buffered i buf) as [[[b [j v]] a]|] eqn:Eb.
    - (* found in the buffer *)
      destruct Bs as (-> & Sw & Hb). cbn [snd] in Sw.
      assert (Ef : filled (j, v) = true) by (unfold filled; cbn; destruct v; [discriminate|reflexivity]).
      assert (Eq : filter filled (enum 0 m) = filter filled b ++ (j, v) :: filter filled (a ++ redl px i (todo rest))).
      { rewrite <- Rs, <- app_assoc, filter_app. cbn [app filter]. now rewrite Ef. }
      rewrite Eq, buffered_first in St; auto. 2:{ intros x Hx. apply filter_In in Hx as [Hx _]. auto. }
      destruct St as (m' & Es & Lm & Gm & Sv & Em). rewrite <- Eq in Em.
      destruct (set_nth v [] px i) as (px' & Eu & Lu & Hpi & Hpx0); [lia|]. rewrite Eu. cbn [lift rbind].
      eexists. split; [reflexivity|]. rewrite Es. split; [|exact Lm].
      assert (Hpx : forall x, x < i -> nth x px' [] = nth x px []).
      { intros x Hx. apply Hpx0. lia. }
      constructor.
      + rewrite Em, <- Rs, filled_strike, (redl_S px px' i v) by auto.
        change (map (fun x => if starts_with i (snd x) then (fst x, setXOR v (snd x)) else x) a) with (map (strike i v) a).
        assert (Ej : strike i v (j, v) = (j, [])) by (unfold strike; cbn [snd fst]; now rewrite Sw, setXOR_self).
        rewrite !map_app. cbn [map]. rewrite Ej, (strike_none i v b) by auto. rewrite !filter_app. cbn [filter filled snd]. reflexivity.
      + rewrite map_app, Rp. reflexivity.
      + intros f Hf. destruct (Nat.eqb_spec (last v 0) (hd 0 v)) as [E|E].
        * destruct (Rf f Hf) as (j' & v' & H1 & H2). exists j', v'. rewrite in_app_iff. auto.
        * apply sinsert_In in Hf as [->|Hf].
          -- exists j, v. rewrite in_app_iff. cbn. split; auto. split; auto. split; auto.
             destruct (starts_hd _ _ Sw) as (l & ->). cbn. destruct i; [|lia]. exfalso. specialize (Rz eq_refl). now destruct b.
          -- destruct (Rf f Hf) as (j' & v' & H1 & H2). exists j', v'. rewrite in_app_iff. auto.
      + split; [lia|]. destruct Px as [->|Px]; [now left|right]. intros x Hx. destruct (Nat.eq_dec x i) as [->|Nx].
        * rewrite Hpi. split; [lia|]. auto.
        * destruct (Px x) as (P1 & P2 & P3); [lia|]. rewrite Hpx by lia. split; [lia|auto].
      + exact Rr.
      + discriminate.
      + exact Gm.
    - assert (Hbf : forall x, In x (filter filled buf) -> starts_with i (snd x) = false) by (intros x Hx; apply filter_In in Hx as [Hx _]; auto).
      destruct Px as [->|Px].
      { (* nothing left to take *)
        cbn [tw_pop ret rbind]. eexists. split; [reflexivity|]. cbn [todo filter map redl] in Rs. rewrite app_nil_r in Rs.
        rewrite <- Rs, buffered_none in St by auto. destruct St as [-> Gm]. split; auto. constructor; auto.
        - cbn [todo filter map redl]. now rewrite app_nil_r. - discriminate. }
      assert (Pp := pop_spec i px Px rest buf Rr). assert (Ps := buffered_spec i (redl px i (todo rest))).
      rewrite <- Rs, filter_app in St.
      destruct (tw_buffered i (redl px i (todo rest))) as [[[b [j v]] a]|].
      + destruct Ps as (Ei & Sw & Hb). cbn [snd] in Sw. destruct Pp as (rest' & Ep & Ea & Hin). rewrite Ep. cbn [rbind ret].
        assert (Ef : filled (j, v) = true) by (unfold filled; cbn; destruct v; [discriminate|reflexivity]).
        rewrite Ei, filter_app in St. cbn [filter] in St. rewrite Ef, app_assoc in St. rewrite buffered_first in St; auto.
        2:{ intros x Hx. apply in_app_iff in Hx as [Hx|Hx]; auto. apply filter_In in Hx as [Hx _]. auto. }
        destruct St as (m' & Es & Lm & Gm & Sv & Em).
        destruct (set_nth v [] px i) as (px' & Eu & Lu & Hpi & Hpx0); [lia|]. rewrite Eu. cbn [lift rbind].
        eexists. split; [reflexivity|]. rewrite Es. split; [|exact Lm].
        assert (Hpx : forall x, x < i -> nth x px' [] = nth x px []) by (intros x Hx; apply Hpx0; lia).
        constructor.
        * assert (Em2 : filter filled (enum 0 m') = filter filled (map (strike i v) (buf ++ b ++ (j, v) :: a))).
          { rewrite Em, <- (filled_strike i v (buf ++ b ++ _)). do 2 f_equal. rewrite !filter_app. cbn [filter]. rewrite Ef. now rewrite app_assoc. }
          rewrite Em2, (redl_S px px' i v), Ea by auto.
          assert (Ej : strike i v (j, v) = (j, [])) by (unfold strike; cbn [snd fst]; now rewrite Sw, setXOR_self).
          rewrite !map_app. cbn [map]. rewrite Ej, (strike_none i v buf), (strike_none i v b) by auto. rewrite !filter_app. cbn [filter filled snd].
          now rewrite app_assoc.
        * rewrite map_app, Rp. reflexivity.
        * intros f Hf. destruct (Rf f Hf) as (j' & v' & H1 & H2). exists j', v'. rewrite in_app_iff. auto.
        * split; [lia|]. right. intros x Hx. destruct (Nat.eq_dec x i) as [->|Nx].
          -- rewrite Hpi. split; [lia|]. auto.
          -- destruct (Px x) as (P1 & P2 & P3); [lia|]. rewrite Hpx by lia. split; [lia|auto].
        * intros x Hx. apply Rr. auto.
        * discriminate.
        * exact Gm.
      + rewrite Pp. cbn [rbind ret]. eexists. split; [reflexivity|]. rewrite buffered_none in St.
        2:{ intros x Hx. apply in_app_iff in Hx as [Hx|Hx]; auto. apply filter_In in Hx as [Hx _]. auto. }
        destruct St as [-> Gm]. split; auto. constructor; auto.
        * cbn [todo filter map redl]. now rewrite app_nil_r.
        * intros x [].
        * discriminate.
  Qed.

  Lemma rows_run : forall n i st m Q, i + n <= rows -> rel i st m Q ->
    exists st', foldr_run (tw_row faces_of cleared) st (seq i n) = ret st' /\ let (m', Q') := fold_left set_step (seq i n) (m, Q) in rel (i + n) st' m' Q'.
  Proof.
    induction n as [|n IH]; intros i st m Q H R.
    - exists st. rewrite Nat.add_0_r. split; auto.
    - cbn [seq foldr_run fold_left]. destruct (row_step i st m Q ltac:(lia) R) as (st1 & E1 & R1). rewrite E1. cbn [rbind ret].
      destruct (set_step (m, Q) i) as [m1 Q1]. destruct R1 as [R1 _]. destruct (IH (S i) st1 m1 Q1 ltac:(lia) R1) as (st' & E' & R').
      exists st'. split; auto. rewrite <- Nat.add_succ_comm. exact R'.
  Qed.

  Lemma filled_columns : forall l i, (forall x, In x l -> In x pChain) ->
    filter filled (redl [] 0 (todo (enum i l))) =
    filter filled (enum i (map (fun x => if existsb (Nat.eqb (fst x)) cleared then [] else F (fst (snd x))) (enum i l))).
  Proof.
    induction l as [|[s w] l IH]; intros i H; auto. cbn [enum map fst snd]. rewrite todo_cons. cbn [fst]. destruct (existsb (Nat.eqb i) cleared).
    - cbn [filter filled snd]. apply IH. intros x Hx. apply H. now right.
    - change (redl [] 0 ((i, F s) :: todo (enum (S i) l))) with ((i, F s) :: redl [] 0 (todo (enum (S i) l))). cbn [filter]. destruct (filled (i, F s)); [f_equal|]; apply IH; intros x Hx; apply H; now right.
  Qed.

  Lemma columns_good : good 0 columns.
  Proof.
    intros s Hs. unfold columns in Hs. apply in_map_iff in Hs as ([j [x w]] & <- & H). cbn [fst snd]. split; [|intros; lia].
    destruct (existsb _ _); [constructor|]. apply enum_nth in H as [_ H]. apply nth_error_In in H. now destruct (HF x w H) as (_ & _ & S).
  Qed.
  Lemma columns_length : length columns = length pChain.
  Proof. unfold columns. now rewrite map_length, enum_len. Qed.

  Theorem tw_columns_spec : exists piv fs, tw_columns faces_of cleared rows pChain = ret (piv, fs) /\ (forall j, In j piv <-> fresh (map (filter (fun c => c <? rows)) columns) j) /\ (forall f, In f fs -> exists j v, In (j, v) (snd (fold_left set_step (seq 0 rows) (columns, []))) /\ last v 0 = f /\ hd 0 v <> f /\ 1 <= hd 0 v).
  Proof.
    destruct (rows_run rows 0 (enum 0 pChain, [], repeat [] rows, [], []) columns [] (Nat.le_refl _)) as (st' & E & R).
    { constructor; auto.
      - rewrite app_nil_l. unfold redl, red_from. cbn [seq fold_left]. apply (filled_columns pChain 0). auto.
      - intros f [].
      - split; [apply repeat_length|]. right. intros x Hx. lia.
      - intros [j x] Hx. apply enum_nth in Hx as [_ Hx]. eapply nth_error_In, Hx.
      - exact columns_good. }
    unfold tw_columns. rewrite E. cbn [rbind ret]. destruct st' as [[[[rest buf] px] piv] fs]. exists piv, fs. split; auto.
    destruct (fold_left set_step (seq 0 rows) (columns, [])) as [m' Q'] eqn:EQ. destruct R as [_ Rp Rf _ _ _ _]. cbn [snd]. split; auto.
    intros j. subst piv.
    destruct (set_loop rows rows 0 columns [] [] eq_refl columns_good eq_refl) as (C' & P' & E' & HQ). rewrite EQ in HQ. cbn [snd] in HQ. rewrite HQ.
    destruct (elim_loop rows (map (row rows) columns) rows 0 (map (row rows) columns) [] eq_refl (ginv_init rows _ (row_bmat rows columns))) as (C & P & E2 & G).
    rewrite E' in E2. injection E2 as -> ->. rewrite (pivots_fresh _ _ _ _ G). unfold supports. rewrite map_map.
    erewrite map_ext_in; [reflexivity|]. intros s Hs. apply support_row. now apply columns_good.
  Qed.
End Columns.
