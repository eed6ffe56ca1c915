(* ReadUnique.v -- there is one nearest double (C93). *)
From Coq Require Import String Ascii List Arith ZArith Bool Lia SpecFloat.
From Verif Require Import Base IoModel DoubleModel SpecDouble DoubleProofs TextModel SpecText TextProofs ReadModel SpecRead ReadProofs.
Import ListNotations.
Local Open Scope Z_scope.
Local Open Scope list_scope.

(* The double after an even one: nothing is between them, and it is odd. *)
Definition even_double (y : double) : Prop := match y with S754_finite _ m _ => Z.even (Zpos m) = true | _ => True end.
Lemma after_even y y' : is_finite y -> is_finite y' -> canonical y -> canonical y' -> even_double y -> even_double y' -> units y < units y' ->
  exists z, is_finite z /\ canonical z /\ units y < units z < units y'.
Proof.
  intros F F' C C' Ev Ev' L.
  destruct y as [s|s| |s m e]; try solve [destruct F]; destruct y' as [s'|s'| |s' m' e']; try solve [destruct F']; cbn [units canonical even_double] in *.
  - lia.
  - destruct C' as (M' & [E1' E2'] & D'). assert (One : 0 <= e' + 1074) by lia.
    exists (S754_finite false 1 (-1074)). split; [exact I|]. split; [cbn; split; [reflexivity|split; [lia|left; reflexivity]]|].
    cbn [units]. change (2 ^ (-1074 + 1074)) with 1. split; [lia|].
    assert (P : 1 <= 2 ^ (e' + 1074)) by (apply (Z.pow_le_mono_r 2 0); lia). assert (2 <= Zpos m') by (destruct m'; cbn in Ev'; try discriminate; lia).
    set (p := 2 ^ (e' + 1074)) in *. clearbody p. nia.
  - destruct C as (M & [E1 E2] & D). assert (0 < Zpos m * 2 ^ (e + 1074)) by (apply Z.mul_pos_pos; [lia|apply Z.pow_pos_nonneg; lia]). lia.
  - destruct C as (M & [E1 E2] & D), C' as (M' & [E1' E2'] & D').
    assert (Mx : Zpos m + 1 < 2 ^ 53). { assert (Zpos m <> 2 ^ 53 - 1) by (intros K; rewrite K in Ev; discriminate). set (k := 2 ^ 53) in *. clearbody k. lia. }
    assert (Cz : canonical (S754_finite false (Pos.succ m) e)).
    { cbn [canonical]. rewrite Pos2Z.inj_succ. unfold Z.succ. split; [exact Mx|]. split; [lia|]. destruct D as [D|D]; [left; exact D|right]. set (k := 2 ^ 52) in *. clearbody k. lia. }
    exists (S754_finite false (Pos.succ m) e). split; [exact I|]. split; [exact Cz|]. cbn [units]. rewrite Pos2Z.inj_succ. unfold Z.succ.
    assert (P : 0 < 2 ^ (e + 1074)) by (apply Z.pow_pos_nonneg; lia).
    split; [apply Z.mul_lt_mono_pos_r; lia|]. destruct (Z.lt_trichotomy e e') as [G|[<-|G]].
    + assert (K := units_lt (Pos.succ m) e m' e' ltac:(rewrite Pos2Z.inj_succ; exact Mx) ltac:(lia) ltac:(destruct D'; [lia|assumption])). rewrite Pos2Z.inj_succ in K. exact K.
    + apply Z.mul_lt_mono_pos_r; [exact P|]. assert (Zpos m < Zpos m') by (apply Z.mul_lt_mono_pos_r in L; auto).
      assert (Zpos m' <> Zpos m + 1). { intros K. rewrite K, Z.even_add, Ev in Ev'. discriminate. } lia.
    + exfalso. assert (K := units_lt m' e' m e M' ltac:(lia) ltac:(destruct D; [lia|assumption])). lia.
Qed.
Lemma nearest_double_le num den y y' : 0 < den -> nearest_double num den y -> nearest_double num den y' -> ~ units y < units y'.
Proof.
  intros D (F & C & N) (F' & C' & N') L. destruct (N y' F' C') as [A1 A2]. destruct (N' y F C) as [B1 B2].
  assert (Q : off num den y' = off num den y) by lia. destruct (A2 Q) as [K|Ev]; [lia|]. destruct (B2 (eq_sym Q)) as [K|Ev']; [lia|].
  destruct (after_even y y' F F' C C' Ev Ev' L) as (z & Fz & Cz & L1 & L2). destruct (N z Fz Cz) as [O _].
  clear - D L1 L2 O Q. unfold off in *. set (W := num * 2 ^ 1074) in *. clearbody W.
  assert (units y * den < units z * den) by (apply Z.mul_lt_mono_pos_r; auto). assert (units z * den < units y' * den) by (apply Z.mul_lt_mono_pos_r; auto). lia.
Qed.
Lemma nearest_double_unique num den y y' : 0 < den -> nearest_double num den y -> nearest_double num den y' -> negative y = negative y' -> y = y'.
Proof.
  intros D N N' S. assert (A := nearest_double_le _ _ _ _ D N N'). assert (B := nearest_double_le _ _ _ _ D N' N).
  destruct N as (F & C & _), N' as (F' & C' & _). apply units_inj; auto. lia.
Qed.
