(* StreamKmProofs.v -- proofs about the binary search and the run of streaming k-means. *)
From Coq Require Import List Arith ZArith Bool Lia Permutation.
From Verif Require Import Base UtilsModel UtilsProofs StreamKmModel SpecStreamKm.
Import ListNotations.

Section Search.
  Variable num : Type.
  Variable leb ltb : num -> num -> bool.
  Variable Tot : forall a b, leb a b = true \/ leb b a = true.

  Lemma mid_between low high : (0 <= low)%Z -> (1 < high - low)%Z -> (low < Z.quot (high + low) 2 < high)%Z.
  Proof. intros H L. rewrite Z.quot_div_nonneg by lia. assert (A := Z.div_le_lower_bound (high + low) 2 (low + 1) ltac:(lia) ltac:(lia)). assert (B := Z.div_lt_upper_bound (high + low) 2 high ltac:(lia) ltac:(lia)). lia. Qed.

  Lemma loop_ends fuel : forall sorted p low high, (0 <= low)%Z -> (high - low <= Z.of_nat fuel + 1)%Z -> bsearch_loop num leb fuel sorted p low high <> None.
  Proof.
    induction fuel as [|fuel IH]; intros sorted p low high L F; cbn [bsearch_loop]; destruct (Z.ltb_spec 1 (high - low)); try discriminate; [lia|].
    assert (M := mid_between low high L H). set (mid := Z.quot _ _) in *. destruct (at_ sorted (Z.to_nat mid)) as [[m i]|]; [|discriminate].
    apply IH; destruct (leb m p) eqn:A; destruct (leb p m) eqn:B; try lia; destruct (Tot m p); congruence.
  Qed.

  Lemma loop_spec fuel : forall sorted p low high, (0 <= low)%Z -> (low <= high)%Z -> (high < Z.of_nat (length sorted))%Z ->
    (high - low <= Z.of_nat fuel + 1)%Z ->
    (exists a, nth_error sorted (Z.to_nat low) = Some a /\ leb (fst a) p = true) ->
    (exists a, nth_error sorted (Z.to_nat high) = Some a /\ leb p (fst a) = true) ->
    exists r, bsearch_loop num leb fuel sorted p low high = ret r /\ (low <= r)%Z /\
      (exists a, nth_error sorted (Z.to_nat r) = Some a /\ leb (fst a) p = true) /\
      ((r < high)%Z /\ (exists b, nth_error sorted (S (Z.to_nat r)) = Some b /\ leb p (fst b) = true) \/
       (r <= high)%Z /\ (low = high \/ (r < high)%Z) /\ exists a, nth_error sorted (Z.to_nat r) = Some a /\ leb p (fst a) = true).
  Proof.
    induction fuel as [|fuel IH]; intros sorted p low high L LH H F (a & Ea & La) (b & Eb & Lb).
    - cbn [bsearch_loop]. destruct (Z.ltb_spec 1 (high - low)); [lia|]. exists low. split; [reflexivity|]. split; [lia|]. split; [eauto|].
      destruct (Z.eq_dec low high) as [<-|N].
      + right. split; [lia|]. split; [auto|]. exists b. auto.
      + left. split; [lia|]. exists b. replace (S (Z.to_nat low)) with (Z.to_nat high) by lia. auto.
    - cbn [bsearch_loop]. destruct (Z.ltb_spec 1 (high - low)).
      + assert (M := mid_between low high L H0). set (mid := Z.quot _ _) in *. clearbody mid.
        destruct (nth_error sorted (Z.to_nat mid)) as [[m i]|] eqn:E; [|apply nth_error_None in E; lia]. unfold at_. rewrite E.
        destruct (leb p m) eqn:A; destruct (leb m p) eqn:B.
        * destruct (IH sorted p mid mid) as (r & R & G & X & Y); try lia; [exists (m, i); auto|exists (m, i); auto|].
          exists r. split; [exact R|]. split; [lia|]. split; [exact X|]. right. destruct Y as [[Y _]|(Y & Y' & Z)]; [lia|]. split; [lia|]. split; [lia|]. exact Z.
        * destruct (IH sorted p low mid) as (r & R & G & X & Y); try lia; [eauto|exists (m, i); auto|].
          exists r. split; [exact R|]. split; [lia|]. split; [exact X|]. destruct Y as [[Y Z]|(Y & Y' & Z)]; [left; split; [lia|exact Z]|]. right. split; [lia|]. split; [lia|exact Z].
        * destruct (IH sorted p mid high) as (r & R & G & X & Y); try lia; [exists (m, i); auto|eauto|].
          exists r. split; [exact R|]. split; [lia|]. split; [exact X|]. destruct Y as [[Y Z]|(Y & Y' & Z)]; [left; split; [lia|exact Z]|]. right. split; [lia|]. split; [lia|exact Z].
        * destruct (Tot m p); congruence.
      + exists low. split; [reflexivity|]. split; [lia|]. split; [eauto|].
        destruct (Z.eq_dec low high) as [<-|N].
        * right. split; [lia|]. split; [auto|]. exists b. auto.
        * left. split; [lia|]. exists b. replace (S (Z.to_nat low)) with (Z.to_nat high) by lia. auto.
  Qed.

  Lemma search_ends fuel sorted n p : n <= fuel -> binarySearch num leb ltb fuel sorted n p <> None.
  Proof.
    intros F. unfold binarySearch. destruct (at_ sorted 0) as [[f i]|]; [|discriminate]. destruct (leb p f); [discriminate|].
    destruct (if n =? 0 then UB else at_ sorted (n - 1)) as [[l j]|]; [|discriminate]. destruct (ltb l p); [discriminate|]. apply loop_ends; lia.
  Qed.
End Search.

Theorem search_spec num leb ltb fuel (sorted : list (num * nat)) n p : total_order leb ltb -> ascending leb sorted -> 0 < n <= length sorted -> n <= fuel ->
  exists r, binarySearch num leb ltb fuel sorted n p = ret r /\ (-1 <= r < Z.of_nat n)%Z /\
    (r = -1 <-> exists a, nth_error sorted 0 = Some a /\ leb p (fst a) = true)%Z /\
    (0 <= r -> exists a, nth_error sorted (Z.to_nat r) = Some a /\ leb (fst a) p = true)%Z /\
    (0 <= r < Z.of_nat n - 1 -> exists b, nth_error sorted (S (Z.to_nat r)) = Some b /\ leb p (fst b) = true)%Z /\
    (r = Z.of_nat n - 1 -> exists a, nth_error sorted (n - 1) = Some a /\ ltb (fst a) p = true)%Z.
Proof.
  intros (Tot & Tr & Lt) Asc N F. unfold binarySearch.
  destruct (nth_error sorted 0) as [[f i0]|] eqn:E0; [|apply nth_error_None in E0; lia].
  destruct (nth_error sorted (n - 1)) as [[l i1]|] eqn:E1; [|apply nth_error_None in E1; lia].
  unfold at_. rewrite E0, E1. destruct (Nat.eqb_spec n 0); [lia|].
  destruct (leb p f) eqn:A.
  - exists (-1)%Z. split; [reflexivity|]. split; [lia|]. split; [split; [eauto|auto]|]. split; [lia|]. split; lia.
  - destruct (ltb l p) eqn:B.
    + exists (Z.of_nat n - 1)%Z. split; [reflexivity|]. split; [lia|]. split.
      { split; [lia|]. intros (a & Ea & La). inversion Ea; subst; cbn in La. congruence. }
      split; [|split; [lia|eauto]]. intros _. replace (Z.to_nat (Z.of_nat n - 1)) with (n - 1) by lia. exists (l, i1). split; [exact E1|]. cbn.
      rewrite Lt in B. destruct (Tot l p) as [K|K]; [exact K|]. rewrite K in B. discriminate.
    + assert (Lp : leb p l = true) by (rewrite Lt in B; destruct (leb p l); [reflexivity|discriminate]).
      assert (Fp : leb f p = true) by (destruct (Tot f p); [assumption|congruence]).
      destruct (loop_spec num leb Tot fuel sorted p 0 (Z.of_nat n - 1)) as (r & R & G & X & Y); try lia.
      { exists (f, i0). auto. }
      { exists (l, i1). replace (Z.to_nat (Z.of_nat n - 1)) with (n - 1) by lia. auto. }
      exists r. split; [exact R|].
      assert (Neq : n <> 1) by (intros ->; change (1 - 1) with 0 in E1; rewrite E0 in E1; inversion E1; subst; congruence).
      assert (Rlt : (r < Z.of_nat n - 1)%Z) by lia.
      split; [lia|]. split.
      { split; [lia|]. intros (a & Ea & La). inversion Ea; subst; cbn in La. congruence. }
      split; [intros _; exact X|]. split; [|lia]. intros _. destruct Y as [[_ Y]|(_ & _ & a & Ea & La)]; [exact Y|].
      destruct (nth_error sorted (S (Z.to_nat r))) as [b|] eqn:Eb; [|apply nth_error_None in Eb; lia].
      exists b. split; [reflexivity|]. eapply Tr; [exact La|]. eapply Asc; eauto.
Qed.

Section Run.
  Variable num : Type.
  Variable zero beta f0 maxd : num.
  Variable add mul divn : num -> num -> num.
  Variable divc : num -> nat -> num.
  Variable succn : num -> num.
  Variable leb ltb : num -> num -> bool.
  Variable dist : list num -> list num -> num.
  Variable srt : list (num * nat) -> list (num * nat).
  Variable omega : list num.
  Variable prob1 : nat -> num -> bool.
  Variable prob2 : nat -> nat -> num -> bool.
  Variable fuel : nat.
  Variable small : num -> bool.
  Let state := sk num.

  Lemma foldr_run_inv {A S} (P : S -> Prop) (body : S -> A -> run S) l : (forall s a s', P s -> body s a = Some (Ok s') -> P s') ->
    forall s s', P s -> foldr_run body s l = Some (Ok s') -> P s'.
  Proof.
    intros H. induction l as [|a l IH]; cbn; intros s s' Ps E; [inversion E; subst; exact Ps|].
    destruct (body s a) as [[s1|]|] eqn:B; try discriminate. cbn in E. exact (IH s1 s' (H s a s1 Ps B) E).
  Qed.
  Lemma foldr_ub_inv {A S} (P : S -> Prop) (body : S -> A -> res S) l : (forall s a s', P s -> body s a = Ok s' -> P s') ->
    forall s s', P s -> foldr_ub body s l = Ok s' -> P s'.
  Proof.
    intros H. induction l as [|a l IH]; cbn; intros s s' Ps E; [inversion E; subst; exact Ps|].
    destruct (body s a) as [s1|] eqn:B; try discriminate. cbn in E. exact (IH s1 s' (H s a s1 Ps B) E).
  Qed.
  Lemma foldr_run_total {A S} (P : S -> Prop) (body : S -> A -> run S) l : (forall s a s', P s -> body s a = Some (Ok s') -> P s') ->
    (forall s a, P s -> body s a <> None) -> forall s, P s -> foldr_run body s l <> None.
  Proof.
    intros H T. induction l as [|a l IH]; cbn; intros s Ps; [discriminate|].
    destruct (body s a) as [[s1|]|] eqn:B; cbn; try discriminate; [exact (IH s1 (H s a s1 Ps B))|]. exact (fun _ => T s a Ps B).
  Qed.

  Lemma upd_length {A} (f : A -> A) l : forall i l', upd l i f = Ok l' -> length l' = length l.
  Proof.
    induction l as [|a l IH]; intros [|i] l' E; cbn in E; try discriminate; [inversion E; reflexivity|].
    destruct (upd l i f) as [r|] eqn:U; [|discriminate]. inversion E; subst. cbn. f_equal. eauto.
  Qed.

  (* The invariant: kHatClustered is empty between the points, and tempCounts keeps its length. *)
  Let ok (s : state) := sk_kHatClustered num s = [] /\ length (sk_temp num s) = 20.

  Local Notation Assign := (sk_assign num zero maxd add mul divn succn leb ltb dist srt omega prob1 fuel).
  Local Notation Raise := (sk_raise num zero beta add mul divn divc leb ltb dist srt omega prob2 fuel).
  Local Notation Hat := (sk_hat num zero add mul divn leb ltb dist srt omega prob2 fuel).
  Local Notation Point := (sk_point num zero beta maxd add mul divn divc succn leb ltb dist srt omega prob1 prob2 fuel).
  Local Notation Start := (sk_start num zero f0 add mul succn srt omega).
  Local Notation Run := (streamingKmeans_run num zero beta f0 maxd add mul divn divc succn leb ltb dist srt omega prob1 prob2 fuel small).
  Local Notation Approx := (approx num zero add mul leb ltb dist omega fuel).

  Lemma assign_ok data nf ap s x px s' : ok s -> Assign data nf ap s x px = Some (Ok s') -> ok s'.
  Proof.
    intros [H T] E. unfold sk_assign in E. destruct (Approx _ _ _ _ _ _) as [[y|]|]; cbn [rbind] in E; try discriminate.
    destruct (prob1 _ _).
    - destruct (dotProd _ _ _ _ _ _); [|discriminate]. inversion E; subst. split; [exact H|exact T].
    - destruct (foldr_ub _ _ _) as [[[d cl] ct]|]; cbn [bind] in E; [|discriminate]. inversion E; subst. split; [exact H|exact T].
  Qed.
  Lemma hat_ok data x sums sh s i s' : ok s -> Hat data x sums sh s i = Some (Ok s') -> ok s'.
  Proof.
    intros [H T] E. unfold sk_hat in E. destruct (at_ sums i) as [sx|]; [|discriminate]. destruct (Approx _ _ _ _ _ _) as [[y|]|]; cbn [rbind] in E; try discriminate.
    destruct (at_ (sk_counts num s) i) as [w|]; [|discriminate].
    match type of E with Some (bind ?b _) = _ => destruct b as [[kh kc]|] end; cbn [bind] in E; [|discriminate].
    destruct (all_res _ _) as [ap|]; cbn [bind] in E; [|discriminate]. inversion E; subst. split; [reflexivity|exact T].
  Qed.
  Lemma sums_temp s r : sk_sums num add s = Ok r -> length (snd r) = length (sk_temp num s).
  Proof.
    unfold sk_sums. intros E. revert E. apply (foldr_ub_inv (fun st : list (list num) * list nat => length (snd st) = length (sk_temp num s))); [|reflexivity].
    clear. intros [su tc] q [su' tc'] H E. cbn [snd] in *. destruct (at_ (sk_clustered num s) q) as [cl|]; cbn [bind] in E; [|discriminate].
    destruct (snd cl =? q); [|inversion E; subst; exact H].
    destruct (at_ (sk_fac num s) 0) as [f1|]; cbn [bind] in E; [|discriminate]. destruct (at_ su q) as [row|]; cbn [bind] in E; [|discriminate].
    destruct (addn _ _ _ _ _) as [row'|]; cbn [bind] in E; [|discriminate]. destruct (upd su q _) as [su1|]; cbn [bind] in E; [|discriminate].
    destruct (upd tc q S) as [tc1|] eqn:U; cbn [bind] in E; [|discriminate]. inversion E; subst. apply upd_length in U. lia.
  Qed.
  Lemma all_res_length {A B} (f : A -> res B) l r : all_res f l = Ok r -> length r = length l.
  Proof.
    unfold all_res. assert (G : forall l acc r, foldr_ub (fun acc a => do b <- f a; Ok (acc ++ [b])) acc l = Ok r -> length r = length acc + length l).
    { clear. induction l as [|a l IH]; cbn; intros acc r E; [inversion E; lia|]. destruct (f a) as [b|]; cbn in E; [|discriminate]. apply IH in E. rewrite E, app_length. cbn. lia. }
    intros E. apply G in E. exact E.
  Qed.
  Lemma means_length sums tc r : sk_means num divc sums tc = Ok r -> length r = length sums.
  Proof.
    unfold sk_means. destruct sums as [|row0 rest]; [intros E; inversion E; reflexivity|].
    assert (G : forall n (l : list (nat * list num)) acc r, foldr_ub (fun acc '(i, row) => do c <- at_ tc i; do row' <- divide num divc n row c; Ok (acc ++ [row'])) acc l = Ok r -> length r = length acc + length l).
    { clear. induction l as [|[i row] l IH]; cbn; intros acc r E; [inversion E; lia|]. destruct (at_ tc i) as [c|]; cbn in E; [|discriminate].
      destruct (divide _ _ _ _ _) as [row'|]; cbn in E; [|discriminate]. apply IH in E. rewrite E, app_length. cbn. lia. }
    intros E. apply G in E. rewrite E. cbn [length]. assert (L : forall {A} (l : list A) k, length (enum k l) = length l) by (clear; induction l; cbn; auto). now rewrite L.
  Qed.
  Lemma resize_length n l : length (resize num n l) = n.
  Proof. unfold resize. rewrite app_length, firstn_length, repeat_length. lia. Qed.
  Lemma tracker_le tc : tracker tc <= length tc - 1.
  Proof.
    unfold tracker. assert (G : forall l, length (filter (fun c => 0 <? c) l) <= length l) by (clear; induction l as [|a l IH]; cbn; [lia|]; destruct (0 <? a); cbn; lia).
    etransitivity; [apply G|]. rewrite firstn_length. lia.
  Qed.

  Lemma raise_ok data s x s' : ok s -> Raise data s x = Some (Ok s') -> ok s'.
  Proof.
    intros [H T] E. unfold sk_raise in E. destruct (sk_sums num add s) as [[sums tc]|] eqn:Es; cbn [bind] in E; [|discriminate]. apply sums_temp in Es. cbn [snd] in Es.
    destruct (sk_means _ _ _ _) as [means|]; cbn [bind] in E; [|discriminate]. destruct (at_ means 0) as [row0|]; cbn [bind] in E; [|discriminate].
    destruct (all_res _ _) as [ap|]; cbn [bind] in E; [|discriminate].
    match type of E with rbind (foldr_run ?b ?st ?l) _ = _ => destruct (foldr_run b st l) as [[s2|]|] eqn:R end; cbn [rbind] in E; try discriminate.
    assert (O : ok s2) by (eapply (foldr_run_inv ok); [intros; eapply hat_ok; eauto| |exact R]; split; [exact H|cbn; congruence]).
    inversion E; subst. exact O.
  Qed.
  Lemma point_ok data nf ap s x s' : ok s -> Point data nf ap s x = Some (Ok s') -> ok s'.
  Proof.
    intros H E. unfold sk_point in E. destruct (at_ data x); [|discriminate]. destruct (_ <=? _); [eapply assign_ok; eauto|eapply raise_ok; eauto].
  Qed.
  Lemma start_ok data s : Start data = Ok s -> ok s.
  Proof.
    unfold sk_start. destruct (at_ data 0) as [first|]; cbn [bind]; [|discriminate]. apply (foldr_ub_inv ok).
    - intros s0 a s1 [H T] E. destruct (at_ data a) as [px|]; cbn [bind] in E; [|discriminate]. destruct (dotProd _ _ _ _ _ _); cbn [bind] in E; [|discriminate].
      destruct (upd _ _ _); cbn [bind] in E; [|discriminate]. inversion E; subst. split; [exact H|exact T].
    - split; reflexivity.
  Qed.
  Lemma finish_empty : sk_finish num zero small [] = UB.
  Proof. reflexivity. Qed.

  Theorem run_never_returns data out : Run true data <> Some (Ok out).
  Proof.
    unfold streamingKmeans_run. cbn [negb]. destruct (Start data) as [s0|] eqn:E0; [|discriminate]. apply start_ok in E0.
    match goal with |- rbind (foldr_run ?b ?st ?l) _ <> _ => destruct (foldr_run b st l) as [[s|]|] eqn:R end; cbn [rbind]; try discriminate.
    assert (O : ok s) by (eapply (foldr_run_inv ok); [intros; eapply point_ok; eauto|exact E0|exact R]).
    destruct O as [H _]. rewrite H, finish_empty. discriminate.
  Qed.

  Hypothesis Tot : forall a b, leb a b = true \/ leb b a = true.
  Hypothesis Srt : forall l, length (srt l) = length l.
  Hypothesis Fuel : 20 <= fuel.

  Lemma approx_ends fs sorted self x n size : n <= 20 -> Approx fs sorted self x n size <> None.
  Proof.
    intros L. unfold approx. destruct (dotProd _ _ _ _ _ _); [|discriminate].
    destruct (binarySearch _ _ _ _ _ _ _) as [[loc|]|] eqn:B; cbn [rbind]; try discriminate.
    - destruct (_ =? _)%Z; [discriminate|]. destruct (_ =? _)%Z; discriminate.
    - exfalso. revert B. apply search_ends; [exact Tot|lia].
  Qed.
  Lemma raise_ends data s x : ok s -> Raise data s x <> None.
  Proof.
    intros [H T]. unfold sk_raise. destruct (sk_sums num add s) as [[sums tc]|] eqn:Es; cbn [bind]; [|discriminate]. apply sums_temp in Es. cbn [snd] in Es.
    destruct (sk_means _ _ _ _) as [means|] eqn:M; cbn [bind]; [|discriminate]. apply means_length in M. rewrite resize_length in M. assert (K := tracker_le tc). assert (T20 : length tc = 20) by congruence.
    destruct (at_ means 0) as [row0|]; cbn [bind]; [|discriminate].
    destruct (all_res _ _) as [ap|] eqn:Ap; cbn [bind]; [|discriminate]. apply all_res_length in Ap. rewrite firstn_length in Ap.
    match goal with |- rbind (foldr_run ?b ?st ?l) _ <> _ => destruct (foldr_run b st l) as [[s2|]|] eqn:R end; cbn [rbind]; try discriminate.
    exfalso. revert R. apply (foldr_run_total ok); [intros; eapply hat_ok; eauto| |split; [exact H|cbn; congruence]].
    clear s H T Es. intros s i _ E. unfold sk_hat in E. destruct (at_ means i) as [sx|]; [|discriminate].
    destruct (Approx _ _ _ _ _ _) as [[y|]|] eqn:A; cbn [rbind] in E; try discriminate.
    - destruct (at_ (sk_counts num s) i) as [w|]; discriminate.
    - revert A. apply approx_ends. rewrite Srt, combine_length, seq_length. lia.
  Qed.
  Lemma point_ends data nf ap s x : ok s -> Point data nf ap s x <> None.
  Proof.
    intros H. unfold sk_point. destruct (at_ data x) as [px|]; [|discriminate]. destruct (Nat.leb_spec (length (sk_fac num s)) maxFacilities) as [L|L]; [|now apply raise_ends].
    unfold sk_assign. destruct (Approx _ _ _ _ _ _) as [[y|]|] eqn:A; cbn [rbind]; try discriminate.
    - destruct (prob1 _ _); [destruct (dotProd _ _ _ _ _ _)|]; discriminate.
    - exfalso. revert A. apply approx_ends. exact L.
  Qed.
  Theorem run_undefined data : Run true data = Some UB.
  Proof.
    destruct (Run true data) as [[out|]|] eqn:E; [now apply run_never_returns in E|reflexivity|]. exfalso. revert E.
    unfold streamingKmeans_run. cbn [negb]. destruct (Start data) as [s0|] eqn:E0; [|discriminate]. apply start_ok in E0.
    match goal with |- rbind (foldr_run ?b ?st ?l) _ = _ -> _ => destruct (foldr_run b st l) as [[s|]|] eqn:R end; cbn [rbind]; try discriminate.
    intros _. revert R. apply (foldr_run_total ok); [intros; eapply point_ok; eauto|intros; now apply point_ends|exact E0].
  Qed.
End Run.
