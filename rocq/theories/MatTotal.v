(* MatTotal.v -- what reading any MAT file gives. *)
From Coq Require Import Ascii List Arith ZArith Bool Lia.
From Verif Require Import Base IoModel SpecIo IoProofs IoTotal.
Import ListNotations.
Local Open Scope nat_scope.
Local Open Scope list_scope.

Section Mat.
  Variable num : Type.
  Variable stod : text -> option num.
  Variable stoi : text -> option Z.

  Lemma strip_strip t : strip (strip t) = strip t.
  Proof. unfold strip. induction t as [|c t IH]; cbn; auto. destruct (negb (Ascii.eqb c space)) eqn:E; cbn; [rewrite E; now rewrite IH|auto]. Qed.
  Lemma last_any : forall (m : list text) a d d', last (a :: m) d = last (a :: m) d'.
  Proof. induction m as [|b m IHm]; intros a d d'; [reflexivity|]. change (last (b :: m) d = last (b :: m) d'). apply IHm. Qed.
  (* The stream before the lines [rest]. *)
  Definition sstate (rest : list text) : stream := match rest with [] => Eof | _ => Open (join newline rest) end.
  Lemma getline_step rest line : Forall one_line rest -> getline (sstate rest) line =
    (sstate (tl rest), hd line rest, match rest with [] => false | [l] => 0 <? length l | _ => true end).
  Proof.
    intros F. destruct rest as [|l [|l2 rest]]; [reflexivity|..]; inversion F as [|? ? O F']; subst.
    - cbn. assert (C := cut_spec newline l). destruct (cut newline l) as [a [b|]]; destruct C as [-> N]; [|reflexivity].
      exfalso. apply O, in_app_iff. right. now left.
    - cbn [sstate]. rewrite join_cons by discriminate. cbn [getline]. rewrite cut_some by auto. reflexivity.
  Qed.
  (* The k-th line read from now on. *)
  Definition upcoming (rest : list text) (line : text) (k : nat) : text := strip (nth k rest (last rest line)).
  Definition reads (st : stream) (line : text) (f : nat -> text) : Prop := exists rest, Forall one_line rest /\ st = sstate rest /\ forall k, f k = upcoming rest line k.
  Lemma reads_step st line f : reads st line f -> exists st' l' ok, getline st line = (st', l', ok) /\ strip l' = f 0 /\ reads st' (strip l') (fun k => f (S k)).
  Proof.
    intros (rest & F & -> & E). rewrite (getline_step rest line F). eexists _, _, _. split; [reflexivity|]. split.
    - rewrite E. unfold upcoming. now destruct rest.
    - exists (tl rest). split; [destruct F; cbn; auto|]. split; [reflexivity|]. intros k. rewrite E. unfold upcoming.
      destruct rest as [|l [|l2 rest]]; cbn [tl hd].
      + destruct k; cbn; now rewrite strip_strip.
      + destruct k; cbn; now rewrite strip_strip.
      + change (last (l :: l2 :: rest) line) with (last (l2 :: rest) line). rewrite (last_any rest l2 line (strip l)). reflexivity.
  Qed.
  Lemma shift (f : nat -> text) n : map f (seq 0 (S n)) = f 0 :: map (fun k => f (S k)) (seq 0 n).
  Proof. cbn. now rewrite <- seq_shift, map_map. Qed.
  (* the same for cells that are stripped already *)
  Definition tight (f : nat -> text) : Prop := forall k, strip (f k) = f k.
  Lemma reads_tight st line f : reads st line f -> tight f.
  Proof. intros (rest & _ & _ & E) k. rewrite E. apply strip_strip. Qed.

  Lemma mat_row_spec : forall dims st line f tmp, reads st line f ->
    match mat_row num stod dims st line tmp with
    | Some (st', line', tmp') => reads st' line' (fun k => f (dims + k)) /\ exists vs, cells_give stod (map f (seq 0 dims)) vs /\ tmp' = tmp ++ vs
    | None => exists k, k < dims /\ strip (f k) <> [] /\ stod (strip (f k)) = None
    end.
  Proof.
    induction dims as [|dims IH]; intros st line f tmp R; cbn [mat_row].
    - split; [exact R|]. exists []. split; [exists []; split; [constructor|reflexivity]|now rewrite app_nil_r].
    - assert (T := reads_tight _ _ _ R). destruct (reads_step _ _ _ R) as (st' & l' & ok & -> & E & R'). rewrite E in *.
      destruct (f 0) as [|c0 t0] eqn:F0; cbn [length Nat.ltb Nat.leb].
      + specialize (IH st' [] (fun k => f (S k)) tmp R'). destruct (mat_row num stod dims st' [] tmp) as [[[st2 l2] tmp2]|].
        * destruct IH as [R2 (vs & G & ->)]. split; [exact R2|]. exists vs. split; [|reflexivity]. rewrite shift. destruct G as (parts & G & ->).
          exists ([] :: parts). split; [|reflexivity]. constructor; [left; now rewrite T, F0|exact G].
        * destruct IH as (k & L & B). exists (S k). split; [lia|exact B].
      + rewrite <- F0 in *. assert (N : strip (f 0) <> []) by (rewrite T, F0; discriminate).
        destruct (stod (f 0)) as [v|] eqn:V; [|exists 0; split; [lia|]; split; [auto|]; now rewrite T].
        specialize (IH st' (f 0) (fun k => f (S k)) (tmp ++ [v]) R'). destruct (mat_row num stod dims st' (f 0) (tmp ++ [v])) as [[[st2 l2] tmp2]|].
        * destruct IH as [R2 (vs & G & ->)]. split; [exact R2|]. exists (v :: vs). split; [|now rewrite <- app_assoc]. rewrite shift. destruct G as (parts & G & ->).
          exists ([v] :: parts). split; [|reflexivity]. constructor; [right; split; auto; exists v; now rewrite T|exact G].
        * destruct IH as (k & L & B). exists (S k). split; [lia|exact B].
  Qed.
  Lemma mat_rows_spec dims : forall vects st line f result, reads st line f ->
    match mat_rows num stod vects dims st line result with
    | Some data' => exists data, data' = result ++ data /\ length data = vects /\
        forall i row, nth_error data i = Some row -> cells_give stod (map (fun j => f (i * dims + j)) (seq 0 dims)) row
    | None => exists k, k < vects * dims /\ strip (f k) <> [] /\ stod (strip (f k)) = None
    end.
  Proof.
    induction vects as [|vects IH]; intros st line f result R; cbn [mat_rows].
    - exists []. split; [now rewrite app_nil_r|]. split; [reflexivity|]. intros [|i] row; discriminate.
    - assert (M := mat_row_spec dims st line f [] R). destruct (mat_row num stod dims st line []) as [[[st' line'] tmp]|].
      + destruct M as [R' (vs & G & ->)]. cbn [app]. specialize (IH st' line' (fun k => f (dims + k)) (result ++ [vs]) R').
        destruct (mat_rows num stod vects dims st' line' (result ++ [vs])) as [data'|].
        * destruct IH as (data & -> & L & H). exists (vs :: data). split; [now rewrite <- app_assoc|]. split; [cbn; lia|].
          intros [|i] row E; [injection E as <-; exact G|]. specialize (H i row E). erewrite map_ext; [exact H|]. intros j. cbn. f_equal. lia.
        * destruct IH as (k & L & B). exists (dims + k). split; [cbn; lia|exact B].
      + destruct M as (k & L & B). exists k. split; [cbn; lia|exact B].
  Qed.
  Lemma gives_unique cells vs ws : cells_give stod cells vs -> cells_give stod cells ws -> vs = ws.
  Proof.
    intros (p & P & ->) (q & Q & ->). f_equal. revert q Q. induction P as [|c a cells p Ca P IH]; intros q Q; inversion Q as [|? b ? q' Cb Q']; subst; auto.
    f_equal; [|now apply IH]. destruct Ca as [[? ->]|[? (v & V & ->)]], Cb as [[? ->]|[? (w & W & ->)]]; congruence.
  Qed.
  Lemma gives_good cells vs c : cells_give stod cells vs -> In c cells -> strip c <> [] -> stod (strip c) <> None.
  Proof.
    intros (p & P & _). induction P as [|x a cells p Ca P IH]; intros I N; [easy|]. destruct I as [->|I]; [|now apply IH].
    destruct Ca as [[? ->]|[? (v & V & ->)]]; congruence.
  Qed.

  Lemma mat_cell_upcoming l0 l1 rest k : strip (mat_cell (l0 :: l1 :: rest) k) = upcoming rest (strip l1) k.
  Proof.
    unfold mat_cell, upcoming. cbn [Nat.add nth]. destruct rest as [|l rest].
    - destruct k; cbn; now rewrite strip_strip.
    - change (last (l0 :: l1 :: l :: rest) []) with (last (l :: rest) []). now rewrite (last_any rest l [] (strip l1)).
  Qed.
  Theorem readMAT_values l0 l1 rest r d : Forall one_line (l0 :: l1 :: rest) -> (l1 <> [] \/ rest <> []) ->
    stoi (strip l0) = Some r -> stoi (strip l1) = Some d ->
    (forall data, readMAT num stod stoi (Some (join newline (l0 :: l1 :: rest))) = Some data <->
       length data = Z.to_nat r /\ forall i row, nth_error data i = Some row ->
         cells_give stod (map (fun j => mat_cell (l0 :: l1 :: rest) (i * Z.to_nat d + j)) (seq 0 (Z.to_nat d))) row) /\
    (readMAT num stod stoi (Some (join newline (l0 :: l1 :: rest))) = None <->
       exists k, k < Z.to_nat r * Z.to_nat d /\ strip (mat_cell (l0 :: l1 :: rest) k) <> [] /\ stod (strip (mat_cell (l0 :: l1 :: rest) k)) = None).
  Proof.
    intros F N Er Ed. unfold readMAT. change (Open (join newline (l0 :: l1 :: rest))) with (sstate (l0 :: l1 :: rest)).
    rewrite getline_step by auto. cbn [tl hd negb]. rewrite Er. inversion F as [|? ? _ F1]; subst. rewrite getline_step by auto.
    assert (Q : match l1 :: rest with [] => false | [l] => 0 <? length l | _ => true end = true).
    { destruct rest; [|reflexivity]. destruct l1; [now destruct N|reflexivity]. }
    rewrite Q. cbn [tl hd negb]. rewrite Ed. inversion F1 as [|? ? _ F2]; subst.
    set (f := fun k => strip (mat_cell (l0 :: l1 :: rest) k)).
    assert (R : reads (sstate rest) (strip l1) f) by (exists rest; split; [auto|]; split; [reflexivity|]; intros k; apply mat_cell_upcoming).
    assert (M := mat_rows_spec (Z.to_nat d) (Z.to_nat r) _ _ f [] R).
    assert (St : forall cells vs, cells_give stod (map strip cells) vs <-> cells_give stod cells vs).
    { intros cells vs. unfold cells_give. assert (K : forall parts, Forall2 (cell_gives stod) (map strip cells) parts <-> Forall2 (cell_gives stod) cells parts).
      { induction cells as [|c cells IHc]; intros parts; [reflexivity|]. cbn [map]. split; intros H; inversion H as [|? ? ? ? Hc Hl]; subst; constructor; try (now apply IHc);
          unfold cell_gives in *; rewrite strip_strip in *; exact Hc. }
      split; intros (parts & H & E); exists parts; (split; [now apply K|exact E]). }
    assert (Sr : forall i row, cells_give stod (map (fun j => f (i * Z.to_nat d + j)) (seq 0 (Z.to_nat d))) row <->
                   cells_give stod (map (fun j => mat_cell (l0 :: l1 :: rest) (i * Z.to_nat d + j)) (seq 0 (Z.to_nat d))) row).
    { intros i row. rewrite <- (St (map (fun j => mat_cell (l0 :: l1 :: rest) (i * Z.to_nat d + j)) (seq 0 (Z.to_nat d)))), (map_map _ strip). reflexivity. }
    assert (Sf : forall k, strip (f k) = strip (mat_cell (l0 :: l1 :: rest) k)) by (intros k; apply strip_strip).
    assert (Bad : forall data, length data = Z.to_nat r -> (forall i row, nth_error data i = Some row -> cells_give stod (map (fun j => mat_cell (l0 :: l1 :: rest) (i * Z.to_nat d + j)) (seq 0 (Z.to_nat d))) row) ->
       forall k, k < Z.to_nat r * Z.to_nat d -> strip (mat_cell (l0 :: l1 :: rest) k) <> [] -> stod (strip (mat_cell (l0 :: l1 :: rest) k)) <> None).
    { intros data L H k Lk Nk. set (D := Z.to_nat d) in *. assert (Dp : 0 < D) by (destruct D; lia).
      assert (Li : k / D < length data) by (rewrite L; apply Nat.div_lt_upper_bound; lia).
      destruct (nth_error data (k / D)) as [row|] eqn:Ei; [|now apply nth_error_None in Ei; lia].
      eapply gives_good; [exact (H _ _ Ei)| |exact Nk]. apply in_map_iff. exists (k mod D). split.
      - f_equal. rewrite (Nat.div_mod k D) at 3 by lia. lia.
      - apply in_seq. split; [lia|]. apply Nat.mod_upper_bound. lia. }
    destruct (mat_rows num stod (Z.to_nat r) (Z.to_nat d) (sstate rest) (strip l1) []) as [data|].
    - destruct M as (data0 & E & L & H). cbn [app] in E. subst data0. assert (H' : forall i row, nth_error data i = Some row -> cells_give stod (map (fun j => mat_cell (l0 :: l1 :: rest) (i * Z.to_nat d + j)) (seq 0 (Z.to_nat d))) row)
        by (intros i row Ei; apply Sr; now apply H). split.
      + intros data'. split; [intros [= <-]; auto|]. intros [L' H2]. f_equal. apply nth_ext with (d := []) (d' := []); [congruence|]. intros i Li.
        assert (A := nth_error_nth' data [] Li). assert (B := nth_error_nth' data' [] ltac:(rewrite L', <- L; exact Li)).
        eapply gives_unique; [exact (H' _ _ A)|exact (H2 _ _ B)].
      + split; [discriminate|]. intros (k & Lk & Nk & Sk). exfalso. now apply (Bad data L H' k Lk Nk).
    - destruct M as (k & Lk & Nk & Sk). rewrite Sf in Nk, Sk. split; [|split; [eauto|reflexivity]]. intros data. split; [discriminate|]. intros [L H]. exfalso. now apply (Bad data L H k Lk Nk).
  Qed.
  (* The files without the two counts. *)
  Theorem readMAT_counts t lines : lines <> [] -> Forall one_line lines -> t = join newline lines ->
    (t = [] -> readMAT num stod stoi (Some t) = Some []) /\
    (t <> [] -> stoi (strip (hd [] lines)) = None -> readMAT num stod stoi (Some t) = None) /\
    (forall r, t <> [] -> stoi (strip (hd [] lines)) = Some r -> (length lines = 1 \/ tl lines = [[]]) -> readMAT num stod stoi (Some t) = Some []) /\
    (forall r, stoi (strip (hd [] lines)) = Some r -> 2 <= length lines -> tl lines <> [[]] -> stoi (strip (nth 1 lines [])) = None -> readMAT num stod stoi (Some t) = None).
  Proof.
    intros N F ->. unfold readMAT. assert (G : Open (join newline lines) = sstate lines) by (destruct lines; [easy|reflexivity]). rewrite G.
    rewrite getline_step by auto. destruct lines as [|l0 [|l1 rest]]; [easy|..]; cbn [hd tl].
    - cbn [join]. split; [intros ->; reflexivity|]. split; [intros Nt E; destruct l0; [easy|]; cbn [length Nat.ltb Nat.leb negb]; now rewrite E|]. split; [|intros r _ L; cbn in L; lia].
      intros r Nt E _. destruct l0; [easy|]. cbn [length Nat.ltb Nat.leb negb]. rewrite E. reflexivity.
    - cbn [negb]. inversion F as [|? ? _ F1]; subst. split; [intros E; rewrite join_cons in E by discriminate; now destruct l0|]. split; [intros _ E; now rewrite E|]. split.
      + intros r _ E [L|E2]; [cbn in L; lia|]. rewrite E. injection E2 as -> ->. reflexivity.
      + intros r E _ N2 E1. rewrite E, getline_step by auto. cbn [hd].
        assert (Q : match l1 :: rest with [] => false | [l] => 0 <? length l | _ => true end = true) by (destruct rest; [destruct l1; [now destruct N2|reflexivity]|reflexivity]).
        rewrite Q. cbn [negb]. cbn [nth] in E1. now rewrite E1.
  Qed.
End Mat.

Theorem readMAT_total num (stod : text -> option num) stoi t : exists lines, lines <> [] /\ Forall one_line lines /\ t = join newline lines /\
  (t = [] -> readMAT num stod stoi (Some t) = Some []) /\
  (t <> [] -> stoi (strip (nth 0 lines [])) = None -> readMAT num stod stoi (Some t) = None) /\
  (forall r, t <> [] -> stoi (strip (nth 0 lines [])) = Some r ->
     (tl lines = [] \/ tl lines = [[]] -> readMAT num stod stoi (Some t) = Some []) /\
     (tl lines <> [] -> tl lines <> [[]] -> stoi (strip (nth 1 lines [])) = None -> readMAT num stod stoi (Some t) = None) /\
     (forall d, tl lines <> [] -> tl lines <> [[]] -> stoi (strip (nth 1 lines [])) = Some d ->
        (forall data, readMAT num stod stoi (Some t) = Some data <->
           length data = Z.to_nat r /\ forall i row, nth_error data i = Some row ->
             cells_give stod (map (fun j => mat_cell lines (i * Z.to_nat d + j)) (seq 0 (Z.to_nat d))) row) /\
        (readMAT num stod stoi (Some t) = None <->
           exists k, k < Z.to_nat r * Z.to_nat d /\ strip (mat_cell lines k) <> [] /\ stod (strip (mat_cell lines k)) = None))).
Proof.
  destruct (pieces newline t) as (lines & N & F & E). exists lines. split; auto. split; auto. split; auto.
  destruct (readMAT_counts num stod stoi t lines N F E) as (A & B & C & D). split; auto. destruct lines as [|l0 rest]; [easy|]. cbn [nth hd tl] in *.
  split; auto. intros r Nt Er. split; [|split].
  - intros K. apply (C r Nt Er). destruct K as [->|K]; [now left|now right].
  - intros K1 K2 E1. apply (D r Er); auto. destruct rest; [easy|cbn; lia].
  - intros d K1 K2 E1. destruct rest as [|l1 rest]; [easy|]. subst t. apply (readMAT_values num stod stoi l0 l1 rest r d F); auto.
    destruct rest; [left; intros ->; easy|right; discriminate].
Qed.
