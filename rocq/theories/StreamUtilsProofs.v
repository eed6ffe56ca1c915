(* StreamUtilsProofs.v -- lemmas about streamingUtils (C88). *)
From Coq Require Import List Arith Bool Lia.
From Verif Require UtilsProofs.
From Verif Require Import Base KmeansModel StreamKmModel StreamUtilsModel SpecKmeans KmeansProofs.
Import ListNotations.

Lemma all_res_spec {A B} (f : A -> res B) : forall l r, Forall2 (fun a b => f a = Ok b) l r -> all_res f l = Ok r.
Proof.
  unfold all_res. assert (G : forall l r acc, Forall2 (fun a b => f a = Ok b) l r -> foldr_ub (fun acc a => do b <- f a; Ok (acc ++ [b])) acc l = Ok (acc ++ r)).
  { intros l r acc F. revert acc. induction F as [|a b l r H F IH]; intros acc; cbn [foldr_ub]; [now rewrite app_nil_r|]. rewrite H. cbn [bind]. rewrite IH, <- app_assoc. reflexivity. }
  intros l r F. now rewrite (G l r [] F).
Qed.
Lemma all_res_ub {A B} (f : A -> res B) l : Exists (fun a => f a = UB) l -> all_res f l = UB.
Proof.
  unfold all_res. assert (G : Exists (fun a => f a = UB) l -> forall acc, foldr_ub (fun acc a => do b <- f a; Ok (acc ++ [b])) acc l = UB); [|auto].
  intros E. induction E as [a l H|a l E IH]; intros acc; cbn [foldr_ub]; [now rewrite H|].
  destruct (f a); cbn [bind]; [apply IH|reflexivity].
Qed.

Section StreamUtils.
  Variable num : Type.
  Variable zero maxn : num.
  Variable add : num -> num -> num.
  Variable divn : num -> nat -> num.
  Variable ltb : num -> num -> bool.
  Variable dist : list num -> list num -> num.
  Notation nearest := (nearest_centroid num maxn ltb dist).
  Notation loop := (km_loop num zero maxn add divn ltb dist).
  Notation kMeans := (su_kMeans num zero maxn add divn ltb dist).
  Notation sloop := (su_loop num zero maxn add divn ltb dist).
  Notation sums := (sums_of num zero add).

  Lemma su_iteration_spec dim k data cents : length cents = k -> 0 < k -> data <> [] -> Forall (fun x => length x = dim) data ->
    let labels := map (fun x => fst (nearest x cents)) (removelast data) in
    su_iteration num zero maxn add divn ltb dist data k cents =
      Ok (sums dim k (removelast data) labels, centres num zero add divn dim k (removelast data) labels, labels).
  Proof.
    intros Lc Hk N F labels. assert (E := iteration_spec num zero maxn add divn ltb dist dim k data cents Lc Hk N F). cbv zeta in E. fold labels in E.
    unfold su_iteration. unfold km_iteration in E.
    assert (exists x data', data = x :: data') as (x & data' & Ed) by (destruct data; [easy|eauto]). replace (at_ data 0) with (Ok x) in * by (now rewrite Ed). cbn [bind] in *.
    assert (Lx : length x = dim) by (rewrite Ed in F; now inversion F). rewrite Lx, removelast_firstn' in *.
    assert (Z1 : repeat (repeat zero dim) k = sums dim k [] []).
    { unfold sums_of. assert (forall s, repeat (repeat zero dim) k = map (fun c => sumv num zero add dim (members (num := num) [] [] c)) (seq s k)) as G; [|apply G]. clear.
      assert (forall n s, repeat zero n = map (fun d => fold_left add (map (fun x => nth d x zero) []) zero) (seq s n)) as G'. { clear. induction n; intros s; [reflexivity|]. cbn in *. now rewrite <- IHn. }
      induction k as [|k IH]; intros s; [reflexivity|]. cbn [seq map repeat]. f_equal; [apply G'|apply IH]. }
    assert (Z2 : repeat 0 k = counts_of num k [] []).
    { unfold counts_of. clear. assert (G : forall s, repeat 0 k = map (fun c => length (members (num := num) [] [] c)) (seq s k)); [|apply G]. induction k as [|k IH]; intros s; [reflexivity|]. cbn [seq map repeat]. f_equal. apply IH. }
    rewrite Z1, Z2 in *. assert (Fr : Forall (fun x => length x = dim) (removelast data)).
    { rewrite Forall_forall in *. intros y Hy. apply F. rewrite <- removelast_firstn' in Hy. rewrite <- (firstn_skipn (length data - 1) data). apply in_app_iff. now left. }
    rewrite (classify_all num zero maxn add ltb dist dim k cents Lc Hk (removelast data) [] []) in * by auto. cbn [bind app] in *. fold labels in E |- *. injection E as E. now rewrite E.
  Qed.

  Section Run.
    Variables (dim k : nat) (data : list (list num)).
    Hypothesis Hk : 0 < k.
    Hypothesis Ne : data <> [].
    Hypothesis Dim : Forall (fun x => length x = dim) data.
    Let pts := removelast data.
    Lemma su_loop_spec : forall n cents last tc, length cents = k ->
      exists means labels, loop n data k cents last = Ok (means, labels) /\
        (n = 0 -> sloop n data k cents tc last = Ok tc) /\
        (0 < n -> sloop n data k cents tc last = Ok (sums dim k pts labels) /\ means = centres num zero add divn dim k pts labels /\
           exists prev, length prev = k /\ labels = map (fun x => fst (nearest x prev)) pts).
    Proof.
      induction n as [|n IH]; intros cents last tc L.
      - exists cents, last. split; [reflexivity|]. split; [reflexivity|lia].
      - cbn [km_loop su_loop]. rewrite (iteration_spec num zero maxn add divn ltb dist dim k data cents L Hk Ne Dim), (su_iteration_spec dim k data cents L Hk Ne Dim).
        cbn [bind]. fold pts. set (lab := map (fun x => fst (nearest x cents)) pts). destruct (nlist_eqb lab last) eqn:E.
        + apply (UtilsProofs.nlist_eqb_eq lab last) in E. exists (centres num zero add divn dim k pts lab), last. split; [reflexivity|]. split; [lia|]. intros _. rewrite E at 1 2. split; [reflexivity|]. split; [reflexivity|].
          exists cents. auto.
        + destruct (IH (centres num zero add divn dim k pts lab) lab (sums dim k pts lab) (centres_length num zero add divn dim k data lab)) as (m & l & E1 & E2 & E3).
          exists m, l. split; [exact E1|]. split; [lia|]. intros _. destruct n as [|n]; [|apply E3; lia]. cbn [km_loop] in E1. injection E1 as <- <-.
          split; [now apply E2|]. split; [reflexivity|]. exists cents. auto.
    Qed.
    Lemma start_spec draws : length draws = k -> Forall (fun i => i < length data) draws -> exists cents,
      su_start num k draws data = Ok cents /\ map (nth_error data) draws = map Some cents /\ length cents = k.
    Proof.
      intros L F. unfold su_start. destruct data as [|x rest] eqn:Ed; [easy|]. cbn [at_ nth_error bind]. rewrite <- Ed in *. rewrite firstn_all2 by lia.
      assert (exists cents, Forall2 (fun a b => at_ data a = Ok b) draws cents) as (cents & G).
      { clear L. induction F as [|i draws Hi F IH]; [exists []; constructor|]. destruct IH as (cents & G). destruct (nth_error data i) as [c|] eqn:E; [|apply nth_error_None in E; lia].
        exists (c :: cents). constructor; auto. unfold at_. now rewrite E. }
      exists cents. split; [now apply all_res_spec|]. split.
      - clear - G. induction G as [|a b l r H G IH]; [reflexivity|]. cbn. rewrite IH. f_equal. unfold at_ in H. destruct (nth_error data a); congruence.
      - rewrite <- L. clear - G. induction G; cbn; auto.
    Qed.
    Lemma start_ub draws : length draws = k -> ~ Forall (fun i => i < length data) draws -> su_start num k draws data = UB.
    Proof.
      intros L F. unfold su_start. destruct data as [|x rest] eqn:Ed; [easy|]. cbn [at_ nth_error bind]. rewrite <- Ed in *. rewrite firstn_all2 by lia. apply all_res_ub.
      apply Exists_exists. assert (E : Exists (fun i => ~ i < length data) draws).
      { apply neg_Forall_Exists_neg in F; [exact F|]. intros i. destruct (lt_dec i (length data)); auto. }
      apply Exists_exists in E as (i & Hi & E). exists i. split; auto. unfold at_. rewrite (proj2 (nth_error_None data i)); [reflexivity|lia].
    Qed.
  End Run.
End StreamUtils.
