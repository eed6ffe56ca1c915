(* CollapseRuns.v -- runs of the default pipeline with the collapse. *)
From Coq Require Import String List Arith ZArith Bool Lia Sorted Permutation Relations.
From Verif Require Import Base RunMonad UtilsModel ArrayListModel FastModel ArgModel PipeModel CollapseModel.
From Verif Require Import Spec SpecComplex SpecArgs SpecGraph SpecLinear SpecFast SpecPipe SpecCollapse.
From Verif Require Import UtilsProofs PartitionProofs ArrayListProofs KruskalProofs ArrayListInv ArrayListHist FastProofs FastRuns PipeProofs PipeRuns CollapseProofs.
From Verif Require Import SpecPipe.
Import ListNotations.
Local Open Scope nat_scope.
Local Open Scope list_scope.

(* ------------------------------------------------------------------ empty levels at the end make no difference *)
Definition pad (a b : wgraph) : Prop := length a <= length b /\ forall k, level b k = level a k.

Lemma findWeight_pad a b v w : pad a b -> findWeight a v = Ok w -> findWeight b v = Ok w.
Proof.
  intros [L H]. unfold findWeight. destruct (length v) as [|k]; [discriminate|].
  destruct (Nat.lt_ge_cases k (length a)) as [Q|Q].
  - rewrite (at_lev a) by lia. rewrite (at_lev b) by lia. specialize (H k). unfold level in H. rewrite H. auto.
  - unfold at_. rewrite (proj2 (nth_error_None a k)) by lia. discriminate.
Qed.
Lemma check_faces_pad a b simp : pad a b -> forall zs tv mw r, check_faces a simp zs tv mw = Ok r -> check_faces b simp zs tv mw = Ok r.
Proof.
  intros P. induction zs as [|z zs IH]; intros tv mw r; cbn; [auto|].
  destruct (findWeight a (simp ++ z)) as [wt|] eqn:E; [|discriminate]. rewrite (findWeight_pad a b _ _ P E). cbn [bind].
  destruct (wt <? 0)%Z; auto.
Qed.
Lemma candidate_pad a b x y r : pad a b -> candidate a x y = Ok r -> candidate b x y = Ok r.
Proof.
  intros P. unfold candidate. cbv zeta. destruct (length _ =? 2); [|auto]. destruct (length _ =? 1).
  - destruct (findWeight a _) as [wt|] eqn:E; [|discriminate]. rewrite (findWeight_pad a b _ _ P E). auto.
  - destruct (1 <? length _); [|auto]. destruct (check_faces a _ _ _ _) as [q|] eqn:E; [|discriminate].
    rewrite (check_faces_pad a b _ P _ _ _ _ E). auto.
Qed.
Lemma store_pad a b d c a' : pad a b -> d <= length a -> store a d c = Ok a' ->
  exists b', store b d c = Ok b' /\ pad a' b' /\ length a <= length a'.
Proof.
  intros [L H] Hd E. destruct (store_spec a d c Hd) as (a1 & E1 & L1 & A1 & B1). assert (a1 = a') by congruence. subst a1.
  destruct (store_spec b d c ltac:(lia)) as (b' & E2 & L2 & A2 & B2). exists b'. split; [exact E2|]. split; [|lia]. split; [lia|].
  intros k. unfold level. destruct (Nat.eq_dec k d) as [->|Hk].
  - rewrite A1, A2. f_equal. apply H.
  - rewrite B1, B2 by auto. apply H.
Qed.
Lemma inner_pad d x : forall rest a b a', pad a b -> d <= length a -> expand_inner d a x rest = Ok a' ->
  exists b', expand_inner d b x rest = Ok b' /\ pad a' b' /\ length a <= length a'.
Proof.
  induction rest as [|y rest IH]; intros a b a' P Hd; cbn [expand_inner].
  - intros E. injection E as <-. exists b. auto.
  - destruct (candidate a x y) as [c|] eqn:Ec; [|discriminate]. rewrite (candidate_pad a b x y c P Ec). cbn [bind].
    destruct c as [s|]; cbn [bind].
    + destruct (store a d s) as [a1|] eqn:Es; [|discriminate]. destruct (store_pad a b d s a1 P Hd Es) as (b1 & -> & P1 & L1). cbn [bind].
      intros E. destruct (IH a1 b1 a' P1 ltac:(lia) E) as (b' & Q1 & Q2 & Q3). exists b'. split; auto. split; auto. lia.
    + intros E. now apply IH.
Qed.
Lemma outer_pad d : forall l a b a', pad a b -> d <= length a -> expand_outer d a l = Ok a' ->
  exists b', expand_outer d b l = Ok b' /\ pad a' b'.
Proof.
  induction l as [|x l IH]; intros a b a' P Hd; cbn [expand_outer].
  - intros E. injection E as <-. exists b. auto.
  - destruct (expand_inner d a x l) as [a1|] eqn:E1; [|discriminate]. destruct (inner_pad d x l a b a1 P Hd E1) as (b1 & -> & P1 & L1).
    cbn [bind]. intros E. apply (IH a1 b1 a' P1 ltac:(lia) E).
Qed.
Lemma loop_pad : forall fuel d a b a', pad a b -> 1 <= d -> expand_loop fuel d a = Ok a' -> exists b', expand_loop fuel d b = Ok b' /\ pad a' b'.
Proof.
  induction fuel as [|fuel IH]; intros d a b a' P H1; cbn [expand_loop].
  - intros E. injection E as <-. exists b. auto.
  - destruct (Nat.ltb_spec (length a) d) as [Q|Q].
    + intros E. injection E as <-. destruct (Nat.ltb_spec (length b) d) as [R|R]; [exists b; auto|].
      rewrite (at_lev b) by lia. cbn [bind]. destruct P as [L H]. pose proof (H (d - 1)) as H'. unfold level in H'. rewrite H'.
      rewrite (nth_overflow a) by lia. cbn [expand_outer bind]. apply (IH (S d) a b a); [split; auto|lia|].
      destruct fuel; cbn [expand_loop]; auto. destruct (Nat.ltb_spec (length a) (S d)); [auto|lia].
    + destruct P as [L H]. destruct (Nat.ltb_spec (length b) d) as [R|R]; [lia|].
      rewrite (at_lev b), (at_lev a) by lia. cbn [bind]. pose proof (H (d - 1)) as H'. unfold level in H'. rewrite H'.
      destruct (expand_outer d a _) as [a1|] eqn:E1; [|discriminate].
      destruct (outer_pad d _ a b a1 (conj L H) Q E1) as (b1 & -> & P1). cbn [bind]. intros E. apply (IH (S d) a1 b1 a' P1 ltac:(lia) E).
Qed.
Lemma expand_pad dim a b a' : pad a b -> expandDimensions dim a = Ok a' -> exists b', expandDimensions dim b = Ok b' /\ pad a' b'.
Proof. intros P E. apply (loop_pad _ 2 a b a' P ltac:(lia) E). Qed.

Lemma pad_app a b : pad a b -> b = a ++ repeat [] (length b - length a).
Proof.
  intros [L H]. apply lev_ext; [rewrite List.app_length, repeat_length; lia|]. intros k. specialize (H k). unfold level in H.
  destruct (Nat.lt_ge_cases k (length a)) as [Q|Q].
  - now rewrite app_nth1 by lia.
  - rewrite H, app_nth2, nth_overflow by lia. symmetry. destruct (Nat.lt_ge_cases (k - length a) (length b - length a)) as [R|R].
    + apply nth_repeat. + apply nth_overflow. now rewrite repeat_length.
Qed.
Lemma getAllEdges_pad srt a b e : pad a b -> getAllEdges srt b e = getAllEdges srt a e.
Proof.
  intros P. rewrite (pad_app a b P). unfold getAllEdges. rewrite fold_left_app.
  match goal with |- fold_left ?f _ ?acc = _ => generalize acc end. induction (length b - length a) as [|m IH]; intros acc; cbn; auto.
Qed.

(* ------------------------------------------------------------------ the graph after n insertions *)
Definition all_edges (D : nat -> nat -> Z) (eps : Z) (n : nat) : list wsimp := flat_map (fun i => new_edges D eps i i) (seq 0 n).
Definition canon (D : nat -> nat -> Z) (eps : Z) (n : nat) : wgraph :=
  match n with
  | 0 => []
  | S _ => map (fun i => ([i], 0%Z)) (seq 0 n) :: match all_edges D eps n with [] => [] | E => [E] end
  end.
Lemma all_edges_S D eps n : all_edges D eps (S n) = all_edges D eps n ++ new_edges D eps n n.
Proof. unfold all_edges. rewrite seq_S, flat_map_app. cbn. now rewrite app_nil_r. Qed.
Lemma all_edges_In D eps n s w : In (s, w) (all_edges D eps n) <-> exists u v, s = [u; v] /\ u < v /\ v < n /\ w = D u v /\ (D u v <= eps)%Z.
Proof.
  unfold all_edges. rewrite in_flat_map. split.
  - intros (i & Hi & H). apply in_seq in Hi. apply new_edges_In in H as (u & Hu & -> & -> & Q). exists u, i. repeat split; auto; lia.
  - intros (u & v & -> & Huv & Hv & -> & Q). exists v. split; [apply in_seq; lia|]. apply new_edges_In. exists u. auto.
Qed.
Lemma canon_level D eps n : level (canon D eps n) 0 = map (fun i => ([i], 0%Z)) (seq 0 n) /\
  level (canon D eps n) 1 = all_edges D eps n /\ (forall k, 2 <= k -> level (canon D eps n) k = []) /\
  length (canon D eps n) = match n with 0 => 0 | _ => match all_edges D eps n with [] => 1 | _ => 2 end end.
Proof.
  destruct n as [|n]; [cbn; repeat split; auto; intros [|k] _; auto|]. unfold canon, level. split; [reflexivity|].
  destruct (all_edges D eps (S n)) as [|e E]; cbn [nth length]; repeat split; auto; intros [|[|k]] Hk; try lia; destruct k; auto.
Qed.

Lemma inserts_canon dm eps md n : upper_triangle dm n -> (0 < md)%Z ->
  al_run dm eps md (repeat (OpInsert false) n) = Ok (canon (dist_of dm) eps n).
Proof.
  intros U Hd. induction n as [|n IH]; [reflexivity|].
  rewrite <- (Nat.add_1_r n), repeat_app. unfold al_run in *. rewrite foldr_ub_app.
  rewrite IH by (intros j i Hj Hi; apply U; lia). cbn [bind repeat foldr_ub al_step].
  enough (al_insert dm eps md false (canon (dist_of dm) eps n) = Ok (canon (dist_of dm) eps (n + 1))) as -> by reflexivity.
  destruct n as [|n]; [reflexivity|]. set (m := S n) in *. unfold al_insert.
  destruct (canon (dist_of dm) eps m) as [|l0 wgr] eqn:Ew; [discriminate|]. rewrite <- Ew.
  destruct (canon_level (dist_of dm) eps m) as (C0 & C1 & C2 & C3).
  assert (El0 : level (canon (dist_of dm) eps m) 0 = l0) by now rewrite Ew.
  assert (Hl : length l0 = m). { rewrite <- El0, C0, map_length, seq_length. auto. }
  cbv zeta. rewrite Hl. destruct (Z.ltb_spec 0 md); [|lia].
  destruct (insert_edges_spec (dist_of dm) eps dm (canon (dist_of dm) eps m) m) as (wg1 & E1 & A1 & B1 & L1).
  { rewrite Ew. cbn. lia. }
  { intros u Hu. apply (upper_dm_at dm (S m)); auto. }
  { intros s w H' v Hv. change (nth 1 (canon (dist_of dm) eps m) []) with (level (canon (dist_of dm) eps m) 1) in H'. rewrite C1 in H'.
    apply all_edges_In in H' as (a & b & -> & Hab & Hb & _). destruct Hv as [<-|[<-|[]]]; lia. }
  rewrite E1. cbn [bind].
  destruct (upd_lev wg1 0 (fun l => l ++ [([m], 0%Z)])) as (wg2 & E2 & L2 & A2 & B2).
  { rewrite L1, Ew. destruct (new_edges _ _ _ _); cbn; lia. }
  rewrite E2. rewrite Nat.add_1_r. enough (wg2 = canon (dist_of dm) eps (S m)) as -> by reflexivity.
  destruct (canon_level (dist_of dm) eps (S m)) as (D0 & D1 & D2 & D3). unfold level in *.
  apply lev_ext.
  - rewrite L2, L1, C3, D3, all_edges_S.
    destruct (all_edges (dist_of dm) eps m), (new_edges (dist_of dm) eps m m); reflexivity.
  - intros [|[|k]].
    + rewrite A2, B1, C0, D0 by lia. rewrite (seq_S m 0), map_app. reflexivity.
    + rewrite B2, A1, C1, D1, all_edges_S by lia. reflexivity.
    + rewrite B2, B1, C2, D2 by lia. reflexivity.
Qed.

(* ------------------------------------------------------------------ thinning the graph is changing the distances *)
Definition thin (D : nat -> nat -> Z) (eps : Z) (p : wsimp -> bool) (u v : nat) : Z :=
  if (D u v <=? eps)%Z && p ([u; v], D u v) then D u v else Z.max 0 (eps + 1).
Lemma thin_le D eps p u v : (thin D eps p u v <= eps)%Z <-> (D u v <= eps)%Z /\ p ([u; v], D u v) = true.
Proof. unfold thin. destruct (Z.leb_spec (D u v) eps); cbn; [destruct (p _)|]; split; intros H'; try lia; try (split; auto); destruct H'; try lia; discriminate. Qed.
Lemma thin_eq D eps p u v : (thin D eps p u v <= eps)%Z -> thin D eps p u v = D u v.
Proof. intros H. apply thin_le in H as [H1 H2]. unfold thin. rewrite H2. destruct (Z.leb_spec (D u v) eps); [reflexivity|lia]. Qed.

Lemma filter_flat_map {A B} (p : B -> bool) (f g : A -> list B) l : (forall x, In x l -> filter p (f x) = g x) -> filter p (flat_map f l) = flat_map g l.
Proof.
  induction l as [|x l IH]; intros H; cbn; auto. rewrite filter_app, H by now left. f_equal. apply IH. intros y Hy. apply H. now right.
Qed.
Lemma thin_edges D eps p n : filter p (all_edges D eps n) = all_edges (thin D eps p) eps n.
Proof.
  unfold all_edges. apply filter_flat_map. intros i _. enough (H : forall j, filter p (new_edges D eps i j) = new_edges (thin D eps p) eps i j) by apply H.
  induction j as [|j IH]; auto. rewrite !new_edges_S, filter_app, IH. f_equal.
  destruct (Z.leb_spec (thin D eps p j i) eps) as [Q|Q].
  - pose proof (thin_eq D eps p j i Q) as ->. apply thin_le in Q as [Q1 Q2]. destruct (Z.leb_spec (D j i) eps); [|lia]. cbn. now rewrite Q2.
  - destruct (Z.leb_spec (D j i) eps) as [R|R]; auto. cbn. destruct (p ([j; i], D j i)) eqn:Ep; auto.
    assert (thin D eps p j i <= eps)%Z by (apply thin_le; auto). lia.
Qed.

(* A matrix with given entries. *)
Definition matrix_of (D : nat -> nat -> Z) (n : nat) : list (list Z) := map (fun u => map (D u) (seq 0 n)) (seq 0 n).
Lemma matrix_of_row D n u : u < n -> nth u (matrix_of D n) [] = map (D u) (seq 0 n).
Proof.
  intros H. unfold matrix_of. rewrite (nth_indep _ [] (map (D 0) (seq 0 n))) by now rewrite map_length, seq_length.
  rewrite (map_nth (fun u => map (D u) (seq 0 n))), seq_nth by auto. reflexivity.
Qed.
Lemma matrix_of_dist D n u v : u < n -> v < n -> dist_of (matrix_of D n) u v = D u v.
Proof.
  intros Hu Hv. unfold dist_of. rewrite matrix_of_row by auto.
  rewrite (nth_indep _ 0%Z (D u 0)) by now rewrite map_length, seq_length. rewrite map_nth, seq_nth by auto. reflexivity.
Qed.
Lemma all_edges_ext D E eps n : (forall u v, u < v -> v < n -> D u v = E u v) -> all_edges D eps n = all_edges E eps n.
Proof.
  intros H. unfold all_edges. rewrite !flat_map_concat_map. f_equal. apply map_ext_in. intros i Hi. apply in_seq in Hi.
  assert (G : forall j, j <= i -> new_edges D eps i j = new_edges E eps i j).
  { induction j as [|j IH]; intros Hj; auto. rewrite !new_edges_S, IH, H by lia. reflexivity. }
  apply G. lia.
Qed.
Lemma canon_ext D E eps n : (forall u v, u < v -> v < n -> D u v = E u v) -> canon D eps n = canon E eps n.
Proof. intros H. unfold canon. now rewrite (all_edges_ext D E eps n H). Qed.

(* ------------------------------------------------------------------ insertions, expansion, collapse, expansion *)
Lemma count_bound (wg : wgraph) k : length (level wg k) <= al_simplexCount wg.
Proof.
  rewrite count_concat. unfold level. revert k. induction wg as [|l wg IH]; intros [|k]; cbn; try lia; rewrite List.app_length; [lia|]. specialize (IH k). lia.
Qed.
Lemma al_reduce_spec wg : closed_complex wg -> exists wg', al_reduceComplex wg = Ok wg' /\ reduced_to wg wg' 1.
Proof.
  intros C. destruct (reduce_spec wg (2 + al_simplexCount wg) C) as (wg' & E & R); [intros k; pose proof (count_bound wg k); lia|].
  exists wg'. unfold al_reduceComplex. rewrite E. auto.
Qed.

Lemma collapse_array dm eps dim n srt epsilon : is_sort srt -> upper_triangle dm n -> (0 < dim < 2 ^ 31 - 1)%Z ->
  exists wg1 wg2 wg3 wg4, al_run dm eps dim (repeat (OpInsert false) n) = Ok wg1 /\ expandDimensions dim wg1 = Ok wg2 /\
    al_reduceComplex wg2 = Ok wg3 /\ expandDimensions (dim + 1) wg3 = Ok wg4 /\
    closed_complex wg2 /\ reduced_to wg2 wg3 1 /\ lists_rips (dist_of dm) (fun d => (d <= eps)%Z) n (Z.to_nat dim) wg2 /\
    let edges := getAllEdges srt wg4 epsilon in
    complex edges /\ filtered edges /\
    (forall k s w, In (s, w) (level edges k) <->
       length s = S k /\ k <= Z.to_nat (dim + 1) /\ flag_simplex (fun u v => In ([u; v], dist_of dm u v) (level wg3 1)) n s /\ diameter (dist_of dm) s w) /\
    (forall k, k < length edges <-> level edges k <> []).
Proof.
  intros Hs U Hd. set (D := dist_of dm).
  assert (T1 : fold_left (fun k e => Nat.max k (to_unsigned e)) [dim] 1 = Z.to_nat dim).
  { cbn [fold_left]. unfold to_unsigned. rewrite !Z.mod_small by lia. lia. }
  assert (T2 : fold_left (fun k e => Nat.max k (to_unsigned e)) [dim + 1]%Z 1 = Z.to_nat (dim + 1)).
  { cbn [fold_left]. unfold to_unsigned. rewrite !Z.mod_small by lia. lia. }
  destruct (array_list_raw dm eps dim n _ _ U ltac:(lia) T1) as (wg2 & E2 & R2).
  pose proof (array_closed dm eps dim _ wg2 (covers_inserts dm n [dim] U) E2) as C2.
  pose proof (inserts_canon dm eps dim n U ltac:(lia)) as E1.
  unfold al_run in E1, E2. rewrite foldr_ub_app, E1 in E2. cbn [bind map foldr_ub al_step] in E2.
  destruct (expandDimensions dim (canon D eps n)) as [wg2'|] eqn:X2; unfold D in X2; rewrite X2 in E2; [|discriminate].
  cbn [bind] in E2. injection E2 as ->.
  destruct (al_reduce_spec wg2 C2) as (wg3 & E3 & R3).
  (* level 1 of wg2 *)
  assert (P1 : Dpos D n) by (intros j i Hj Hi; apply U; auto).
  assert (I1 : al_inv D eps dim n (canon D eps n)).
  { assert (M : matrix_covers dm (repeat (OpInsert false) n)).
    { intros p q E. pose proof (covers_inserts dm n [] U) as M. cbn in M. rewrite app_nil_r in M. now apply (M p q). }
    destruct (al_run_inv dm eps dim _ _ M (inserts_canon dm eps dim n U ltac:(lia))) as [I _ _]. now rewrite live_inserts in I. }
  destruct (expand_loop_spec D eps dim n (to_unsigned dim - 1) 2 (canon D eps n) P1 I1 ltac:(lia)) as (wg2' & X2' & I2 & _ & Lk & _).
  unfold expandDimensions in X2. fold D in X2. assert (wg2' = wg2) by congruence. subst wg2'. clear X2'.
  destruct (canon_level D eps n) as (C0 & C1 & Ca & Cl).
  assert (W0 : level wg2 0 = map (fun i => ([i], 0%Z)) (seq 0 n)) by (unfold level in *; rewrite Lk by lia; exact C0).
  assert (W1 : level wg2 1 = all_edges D eps n) by (unfold level in *; rewrite Lk by lia; exact C1).
  destruct (rt_at _ _ _ R3) as [(p & Ep) Sp].
  set (D' := thin D eps p). set (dm' := matrix_of D' n).
  assert (Dd : forall u v, u < v -> v < n -> dist_of dm' u v = D' u v) by (intros u v Hu Hv; apply matrix_of_dist; lia).
  assert (U' : upper_triangle dm' n).
  { intros j i Hj Hi. split; [unfold dm'; rewrite matrix_of_row by lia; now rewrite map_length, seq_length|].
    rewrite Dd by auto. unfold D', thin. destruct (_ && _); [apply U; auto|lia]. }
  assert (Pd : pad (canon (dist_of dm') eps n) wg3).
  { rewrite (canon_ext (dist_of dm') D' eps n Dd). destruct (canon_level D' eps n) as (F0 & F1 & Fa & Fl).
    assert (L1 : level wg3 1 = all_edges D' eps n) by (rewrite Ep, W1; apply thin_edges).
    split.
    - rewrite Fl, (rt_length _ _ _ R3). destruct n as [|n']; [lia|]. destruct (all_edges D' eps (S n')) as [|e E] eqn:EE.
      + destruct wg2 as [|l wg2']; [cbn in W0; discriminate|cbn; lia].
      + destruct wg2 as [|l [|l' wg2']]; [discriminate| |cbn; lia]. rewrite Ep in L1. cbn in L1. discriminate.
    - intros [|[|k]].
      + rewrite (rt_below _ _ _ R3) by lia. now rewrite W0, F0.
      + now rewrite L1, F1.
      + rewrite (rt_above _ _ _ R3), Fa by lia. reflexivity. }
  destruct (array_list_raw dm' eps dim n _ _ U' ltac:(lia) T2) as (wg4' & E4' & R4).
  pose proof (array_list_sorted dm' eps dim n [dim + 1]%Z _ srt epsilon wg4' Hs U' ltac:(lia) T2 E4') as (K1 & K2 & K3 & K4).
  unfold al_run in E4'. rewrite foldr_ub_app in E4'. pose proof (inserts_canon dm' eps dim n U' ltac:(lia)) as E1'. unfold al_run in E1'.
  rewrite E1' in E4'. cbn [bind map foldr_ub al_step] in E4'.
  destruct (expandDimensions (dim + 1) (canon (dist_of dm') eps n)) as [wg4a|] eqn:X4; [|discriminate]. cbn [bind] in E4'. injection E4' as ->.
  destruct (expand_pad (dim + 1) _ wg3 wg4' Pd X4) as (wg4 & E4 & P4).
  exists (canon D eps n), wg2, wg3, wg4. split; [exact (inserts_canon dm eps dim n U ltac:(lia))|]. split; [exact X2|]. split; [exact E3|].
  split; [exact E4|]. split; [exact C2|]. split; [exact R3|]. split; [exact R2|]. cbv zeta.
  rewrite (getAllEdges_pad srt wg4' wg4 epsilon P4). split; [exact K1|]. split; [exact K2|]. split; [|exact K4].
  assert (Kp : forall u v, u < v -> v < n -> (dist_of dm' u v <= eps)%Z <-> In ([u; v], D u v) (level wg3 1)).
  { intros u v Huv Hv. rewrite Dd by auto. unfold D'. rewrite thin_le, Ep, filter_In, W1, all_edges_In. split.
    - intros [A B]. split; [|exact B]. exists u, v. auto.
    - intros [(a & b & E & _ & _ & _ & Q) B]. injection E as <- <-. auto. }
  assert (Ke : forall u v, u < v -> v < n -> In ([u; v], D u v) (level wg3 1) -> dist_of dm' u v = D u v).
  { intros u v Huv Hv H. apply Kp in H; auto. rewrite Dd in * by auto. now apply thin_eq. }
  intros k s w. rewrite K3. split; intros (Ls & Hk & (N & Ss & V & F) & Dm); split; auto; split; auto.
  - assert (F' : forall u v, In u s -> In v s -> u < v -> In ([u; v], D u v) (level wg3 1)) by (intros u v Hu Hv Huv; apply Kp; auto).
    split; [exact (conj N (conj Ss (conj V F')))|]. destruct Dm as [M1 M2]. split.
    + intros u v Hu Hv Huv. rewrite <- Ke by auto. auto.
    + destruct M2 as [(u & v & Hu & Hv & Huv & Q)|M2]; [left; exists u, v; rewrite <- Ke by auto; auto|now right].
  - assert (F' : forall u v, In u s -> In v s -> u < v -> (dist_of dm' u v <= eps)%Z) by (intros u v Hu Hv Huv; apply Kp; auto).
    split; [exact (conj N (conj Ss (conj V F')))|]. destruct Dm as [M1 M2]. split.
    + intros u v Hu Hv Huv. rewrite Ke by auto. auto.
    + destruct M2 as [(u & v & Hu & Hv & Huv & Q)|M2]; [left; exists u, v; rewrite Ke by auto; auto|now right].
Qed.

(* ------------------------------------------------------------------ the run *)
Lemma flag_iff (P Q : nat -> nat -> Prop) n s : (forall u v, u < v -> v < n -> P u v <-> Q u v) -> flag_simplex P n s <-> flag_simplex Q n s.
Proof. intros H. split; apply flag_mono; intros; apply H; auto. Qed.

Section Run.
  Variable dist : list Z -> list Z -> Z.
  Variables atoi atof : string -> Z.
  Variable srt : list wsimp -> list wsimp.
  Variable past_end : list nat -> nat -> res nat.
  Variable nc0 : Z.
  Variable other : pipe_kind -> amap -> packet -> res packet.
  Notation run_program pe := (run_program dist atoi atof srt pe nc0 al_reduceComplex other).

  Theorem collapse_edges args d e data : is_sort srt -> collapse_run args d e ->
    (forall x, In x data -> x <> []) -> (forall x y, (0 <= dist x y)%Z) -> (0 < atoi d < 2 ^ 31 - 1)%Z ->
    exists W wg3 edges finish,
      closed_complex W /\ reduced_to W wg3 1 /\
      lists_rips (separation dist data) (close ArrayList (atof e)) (length data) (Z.to_nat (atoi d)) W /\
      complex edges /\ filtered edges /\
      (forall k s w, In (s, w) (level edges k) <->
         length s = S k /\ k <= Z.to_nat (atoi d + 1) /\
         flag_simplex (fun u v => stays W (length W - 2) 1 ([u; v], separation dist data u v)) (length data) s /\
         diameter (separation dist data) s w) /\
      (forall k, k < length edges <-> level edges k <> []) /\
      run_program past_end args data = (do r <- fp_run past_end (atoi d) (atof e) edges []; Ok (Some (finish r, []))) /\
      forall r, (pk_output (finish r), pk_table (finish r)) = result r /\ pk_data (finish r) = data.
  Proof.
    intros Hs Hr Hne Hpos Hd. destruct (distMatrix_spec (list Z) (fun v => match v with [] => true | _ => false end) dist (atof e) data [])
      as (dm & ws & E & L1 & L2 & V & _); [constructor|].
    assert (Sep : forall u v, u < v -> v < length data -> dist_of dm u v = separation dist data u v).
    { intros u v Huv Hv. unfold dist_of, separation. destruct (nth_error data u) as [x|] eqn:Eu; [|apply nth_error_None in Eu; lia].
      destruct (nth_error data v) as [y|] eqn:Ev; [|apply nth_error_None in Ev; lia]. rewrite (V u v x y Eu Ev).
      destruct (Nat.ltb_spec u v); [|lia]. destruct x; [|reflexivity]. exfalso. apply nth_error_In in Eu. now apply (Hne []). }
    assert (U : upper_triangle dm (length data)).
    { intros u v Huv Hv. rewrite (L2 u) by lia. split; auto. rewrite Sep by auto. unfold separation.
      destruct (nth_error data u), (nth_error data v); auto; lia. }
    destruct Hr as [H1 H2 H3 H4 H5 H6].
    assert (Col : exists col, mget args "collapse" = Some col /\ (String.eqb col "true" || String.eqb col "1") = true).
    { destruct H6 as [H6|H6]; rewrite H6; eexists; split; reflexivity. }
    destruct Col as (col & H7 & Col).
    destruct (collapse_array dm (atof e) (atoi d) (length data) srt (atof e) Hs U Hd)
      as (wg1 & wg2 & wg3 & wg4 & E1 & E2 & E3 & E4 & C2 & R3 & RW & K1 & K2 & K3 & K4).
    exists wg2, wg3, (getAllEdges srt wg4 (atof e)).
    unfold PipeModel.run_program, new_packet, newSimplex, opt. rewrite H2, H3, H4.
    change (String.eqb "simplexArrayList" "simplexTree") with false. change (String.eqb "simplexArrayList" "simplexArrayList") with true. cbn [bind].
    rewrite (run_four dist atoi atof srt past_end al_reduceComplex other args d e _ H1 H3 H4 H5).
    unfold run_distMatrix, opt. rewrite H4. cbn [pk_data pk_weights pk_complex].
    rewrite E. cbn [bind fst snd PipeModel.deref pk_complex cx_setDistanceMatrix].
    match goal with |- context [add_stats KDistMatrix ?p] => destruct (stats_ok KDistMatrix p _ eq_refl) as (p2 & -> & Q2 & D2 & O2 & B2) end.
    cbn [bind pk_data pk_output pk_table] in *. unfold run_neighGraph. rewrite D2.
    unfold al_run in E1. rewrite (neigh_array _ _ _ _ _ _ Q2 Hne), E1. cbn [rmap bind].
    match goal with |- context [add_stats KNeighGraph ?p] => destruct (stats_ok KNeighGraph p _ eq_refl) as (p4 & -> & Q4 & D4 & O4 & B4) end.
    cbn [bind pk_data pk_output pk_table set_complex] in *.
    unfold run_rips, opt. rewrite H3, H7. unfold PipeModel.deref at 1. rewrite Q4. cbn [bind cx_expand]. rewrite E2. cbn [bind rmap]. rewrite Col.
    rewrite E3. cbn [bind rmap].
    match goal with |- context [add_stats KRips ?p] => destruct (stats_ok KRips p _ eq_refl) as (p6 & -> & Q6 & D6 & O6 & B6) end.
    cbn [bind pk_data pk_output pk_table set_complex] in *.
    destruct (fast_finish atoi atof srt past_end args d e p6 _ (CArray (atof e) (atoi d) dm wg4) (getAllEdges srt wg4 (atof e)) (CArray (atof e) (atoi d) dm wg4)
                H3 H4 Q6 ltac:(congruence) ltac:(congruence) ltac:(lia)) as (finish & Fi & Fo).
    { cbn [cx_expand]. now rewrite E4. }
    { reflexivity. }
    exists finish. split; [exact C2|]. split; [exact R3|]. split; [eapply lists_rips_ext; [|exact RW]; exact Sep|].
    split; [exact K1|]. split; [exact K2|]. split; [|split; [exact K4|split; [exact Fi|intros r; destruct (Fo r) as [F1 F2]; split; auto; congruence]]].
    intros k s w. rewrite K3.
    assert (Fl : flag_simplex (fun u v => In ([u; v], dist_of dm u v) (level wg3 1)) (length data) s <->
                 flag_simplex (fun u v => stays wg2 (length wg2 - 2) 1 ([u; v], separation dist data u v)) (length data) s).
    { apply flag_iff. intros u v Huv Hv. rewrite Sep by auto. destruct (rt_at _ _ _ R3) as [_ Sp]. rewrite Sp.
      replace (length wg2 - 1 - 1) with (length wg2 - 2) by lia. reflexivity. }
    rewrite Fl. split; intros (Ls & Hk & F & Dm); (split; [exact Ls|]; split; [exact Hk|]; split; [exact F|]);
      assert (Vv : forall v, In v s -> v < length data) by apply F.
    - revert Dm. now apply diameter_ext with (n := length data).
    - revert Dm. apply diameter_ext with (n := length data); auto. intros. symmetry. now apply Sep.
  Qed.
End Run.

(* ------------------------------------------------------------------ consequences *)
Section Kept.
  Variable dist : list Z -> list Z -> Z.
  Variable data : list (list Z).
  Variables eps : Z.
  Variable dim : nat.
  Hypothesis Hdim : 1 <= dim.
  Variables W wg3 edges : wgraph.
  Hypothesis CW : closed_complex W.
  Hypothesis R : reduced_to W wg3 1.
  Hypothesis LW : lists_rips (separation dist data) (close ArrayList eps) (length data) dim W.
  Hypothesis C : complex edges.
  Variable tp : nat.
  Hypothesis Htp : 1 <= tp.
  Hypothesis K : forall k s w, In (s, w) (level edges k) <->
    length s = S k /\ k <= tp /\ flag_simplex (fun u v => stays W (length W - 2) 1 ([u; v], separation dist data u v)) (length data) s /\
    diameter (separation dist data) s w.
  Hypothesis K4 : forall k, k < length edges <-> level edges k <> [].

  Lemma kept_vertices v : In v (vertices edges) <-> v < length data.
  Proof.
    destruct (complex_vertices _ C) as (EV & _). assert (In [v] (simplices edges 0) <-> In v (vertices edges)) as <-.
    { rewrite EV, in_map_iff. split; [intros (x & E & H); congruence|eauto]. }
    unfold simplices. rewrite in_map_iff. split.
    - intros ([s w] & E & H). cbn in E. subst s. apply K in H as (_ & _ & F & _). apply F. now left.
    - intros H. exists ([v], 0%Z). split; auto. apply K. split; auto. split; [lia|]. split.
      + split; [discriminate|]. split; [repeat constructor|]. split; [intros x [<-|[]]; auto|]. intros x y [<-|[]] [<-|[]]; lia.
      + split; [intros x y [<-|[]] [<-|[]]; lia|]. right. auto.
  Qed.
  Lemma kept_edge u v w : In ([u; v], w) (level edges 1) <-> In ([u; v], w) (level wg3 1).
  Proof.
    assert (S3 : forall s, In s (level wg3 1) <-> stays W (length W - 2) 1 s).
    { intros s. destruct (rt_at _ _ _ R) as [_ Sp]. rewrite Sp. replace (length W - 1 - 1) with (length W - 2) by lia. reflexivity. }
    rewrite K, S3. split.
    - intros (_ & _ & (_ & Ss & V & F) & D1 & D2). assert (Huv : u < v) by (inversion Ss as [|? ? _ Hf]; subst; now inversion Hf).
      assert (Q := F u v (or_introl eq_refl) (or_intror (or_introl eq_refl)) Huv).
      replace w with (separation dist data u v); [exact Q|]. destruct D2 as [(a & b & [<-|[<-|[]]] & [<-|[<-|[]]] & L & <-)|[L _]]; try lia; auto.
      cbn in L. lia.
    - intros Q. assert (Q' := stays_In _ _ _ _ Q). apply (proj1 LW) in Q' as (_ & _ & (N & Ss & V & F) & Dm).
      assert (Huv : u < v) by (inversion Ss as [|? ? _ Hf]; subst; now inversion Hf).
      assert (Ew : w = separation dist data u v).
      { destruct Dm as [_ [(a & b & [<-|[<-|[]]] & [<-|[<-|[]]] & L & <-)|[L _]]]; try lia; auto. cbn in L. lia. }
      split; auto. split; [lia|]. split; [|exact Dm]. refine (conj N (conj Ss (conj V _))).
      intros a b [<-|[<-|[]]] [<-|[<-|[]]] L; try lia. now rewrite <- Ew.
  Qed.
  Lemma kept_adjacent t u v : adjacent (up_to t (level edges 1)) u v <-> adjacent (up_to t (level wg3 1)) u v.
  Proof. unfold adjacent. split; intros (w & H); exists w; apply up_to_In in H as [H Q]; apply up_to_In; (split; [|exact Q]); now apply kept_edge. Qed.
  Lemma kept_connected t u v : connected (up_to t (level edges 1)) u v <-> clos_refl_sym_trans nat (joined dist data ArrayList eps t) u v.
  Proof.
    unfold connected. rewrite (rst_ext _ _ (kept_adjacent t)). fold (connected (up_to t (level wg3 1)) u v).
    rewrite <- (collapse_connected W wg3 t CW R). unfold connected. apply rst_ext. apply (rips_adjacent dist data ArrayList eps dim Hdim W LW).
  Qed.
  Lemma kept_clusters t n : components (vertices edges) (up_to t (level edges 1)) n <-> clusters dist data ArrayList eps t n.
  Proof.
    assert (V : forall v, In v (vertices edges) <-> In v (seq 0 (length data))) by (intros v; rewrite kept_vertices, in_seq; lia).
    split; apply classes_ext; auto; intros; [apply kept_connected|symmetry; auto|symmetry; apply kept_connected].
  Qed.
  Lemma kept_count : length (vertices edges) = length data.
  Proof.
    destruct (complex_vertices _ C) as (_ & N & _). rewrite <- (seq_length (length data) 0). apply Permutation_length.
    apply NoDup_Permutation; [auto|apply seq_NoDup|]. intros v. rewrite kept_vertices, in_seq. lia.
  Qed.
  Lemma kept_levels : (2 <= length edges <-> exists u v, u < v /\ v < length data /\ close ArrayList eps (separation dist data u v)) /\
    (length edges = 0 <-> data = []).
  Proof.
    split.
    - change (2 <= length edges) with (1 < length edges). rewrite K4. split.
      + destruct (level edges 1) as [|[s w] l] eqn:E; [easy|]. intros _. assert (H : In (s, w) (level edges 1)) by (rewrite E; now left).
        assert (H' := H). apply K in H' as (Ls & _). destruct s as [|u [|v [|]]]; try discriminate.
        apply kept_edge in H. destruct (rt_at _ _ _ R) as [_ Sp]. apply Sp, stays_In in H.
        assert (A : adjacent (up_to w (level W 1)) u v) by (exists w; apply up_to_In; split; auto; lia).
        apply (rips_adjacent dist data ArrayList eps dim Hdim W LW) in A as (A & B & Cl & _). eauto.
      + intros (u & v & Huv & Hv & Cl) E.
        assert (Q : connected (up_to (separation dist data u v) (level edges 1)) u v).
        { apply kept_connected, rst_step. repeat split; auto. lia. }
        rewrite E in Q. cbn in Q. assert (u = v); [|lia]. clear - Q. induction Q as [a b (w & [])|a|a b _ IH|a b c _ IH1 _ IH2]; congruence.
    - split.
      + intros E. apply length_zero_iff_nil in E. assert (V0 : ~ In 0 (vertices edges)) by (rewrite E; intros []).
        apply length_zero_iff_nil. destruct (Nat.eq_dec (length data) 0) as [El|El]; auto. exfalso. apply V0, kept_vertices. lia.
      + intros E. assert (N : ~ 0 < length edges); [|lia]. rewrite K4. intros H. destruct (level edges 0) as [|[s w] l] eqn:El; [easy|].
        assert (I : In (s, w) (level edges 0)) by (rewrite El; now left). apply K in I as (_ & _ & (Ne & _ & V & _) & _).
        rewrite E in V. destruct s as [|a s]; [easy|]. specialize (V a (or_introl eq_refl)). cbn in V. lia.
  Qed.
  (* With dimension 2 no triangle is left. *)
  Lemma no_triangle : dim = 2 -> level edges 2 = [].
  Proof.
    intros Hd2. destruct (level edges 2) as [|[s w] l] eqn:E; auto. exfalso.
    assert (H : In (s, w) (level edges 2)) by (rewrite E; now left). apply K in H as (Ls & _ & (N & Ss & V & F) & Dm).
    assert (HW : In (s, w) (level W 2)).
    { apply (proj1 LW). split; auto. split; [lia|]. split; [|exact Dm]. refine (conj N (conj Ss (conj V _))). intros u v Hu Hv Huv.
      assert (Q := stays_In _ _ _ _ (F u v Hu Hv Huv)). apply (proj1 LW) in Q as (_ & _ & (_ & _ & _ & G) & _).
      apply (G u v); auto; cbn; auto. }
    assert (L3 : length W = 3).
    { assert (2 < length W) by (apply (proj2 LW); intros Q; rewrite Q in HW; destruct HW).
      assert (~ 3 < length W); [|lia]. rewrite (proj2 LW). intros Q. destruct (level W 3) as [|[s' w'] l'] eqn:E3; [easy|].
      assert (I : In (s', w') (level W 3)) by (rewrite E3; now left). apply (proj1 LW) in I as (_ & I & _). lia. }
    assert (Ch : In (chosen (level W 1) (s, w), w) (level W 1) /\ top_face W (s, w) (chosen (level W 1) (s, w))).
    { assert (T : top_face W (s, w) (chosen (level W 1) (s, w))) by (apply (chosen_top W 1); auto). split; [|exact T].
      destruct T as (x & Hx & Ef & I & _). cbn [fst snd] in *. rewrite Ef in I at 2. rewrite without_del, del_len in I by auto.
      replace (length s - 1 - 1) with 1 in I by lia. exact I. }
    destruct Ch as [Ch T]. set (f := chosen (level W 1) (s, w)) in *.
    assert (Hf := Ch). apply (proj1 LW) in Hf as (Lf & _ & (_ & Sf & _) & Df). destruct f as [|u [|v [|]]] eqn:Ef; try discriminate.
    assert (Huv : u < v) by (inversion Sf as [|? ? _ Hq]; subst; now inversion Hq).
    assert (Sub : incl [u; v] s). { destruct T as (x & _ & Q & _). intros z Hz. rewrite Q in Hz. unfold without in Hz. now apply filter_In in Hz. }
    assert (Q := F u v (Sub u (or_introl eq_refl)) (Sub v (or_intror (or_introl eq_refl))) Huv).
    rewrite L3 in Q. cbn [stays Nat.sub] in Q. destruct Q as [_ Q]. apply (Q (s, w)); [split; auto|exact T].
  Qed.
End Kept.

Section Results.
  Variable dist : list Z -> list Z -> Z.
  Variables atoi atof : string -> Z.
  Variable srt : list wsimp -> list wsimp.
  Variable past_end : list nat -> nat -> res nat.
  Variable nc0 : Z.
  Variable other : pipe_kind -> amap -> packet -> res packet.
  Notation run_program pe := (run_program dist atoi atof srt pe nc0 al_reduceComplex other).
  Variables (args : amap) (d e : string) (data : list (list Z)).
  Hypothesis Hs : is_sort srt.
  Hypothesis Hr : collapse_run args d e.
  Hypothesis Hne : forall x, In x data -> x <> [].
  Hypothesis Hpos : forall x y, (0 <= dist x y)%Z.
  Hypothesis Hd : (0 < atoi d < 2 ^ 31 - 1)%Z.

  Theorem collapse_dim0 p failed : run_program past_end args data = Ok (Some (p, failed)) -> data <> [] ->
    failed = [] /\ exists deaths, dim0 (pk_output p) = map (fun w => (0, 0%Z, w)) deaths ++ [(0, 0%Z, atof e)] /\
      forall t n, clusters dist data ArrayList (atof e) t n <-> count_le t deaths + n = length data.
  Proof.
    intros H Hdata. destruct (collapse_edges dist atoi atof srt past_end nc0 other args d e data Hs Hr Hne Hpos Hd)
      as (W & wg3 & edges & finish & CW & R & LW & C & F & K & K4 & E & O). rewrite E in H. clear E.
    destruct (fp_run past_end (atoi d) (atof e) edges []) as [r|] eqn:Er; [|discriminate]. cbn [bind] in H. injection H as <- <-.
    split; auto. destruct (O r) as [O1 _]. clear O.
    assert (T1 : 1 <= Z.to_nat (atoi d)) by lia. assert (T2 : 1 <= Z.to_nat (atoi d + 1)) by lia.
    destruct (kept_levels dist data (atof e) _ T1 W wg3 edges CW R LW C _ T2 K K4) as [_ L0].
    assert (Ne : edges <> []) by (intros ->; apply Hdata, L0; reflexivity).
    destruct r as [[lines tab]|]; [|now apply fp_none in Er].
    cbn [result] in O1. injection O1 as O1 O2. rewrite O1.
    destruct (dim0_components past_end (atoi d) (atof e) edges [] lines tab C (fl_sorted _ F 1) Er) as (deaths & D1 & D2).
    exists deaths. split; auto. intros t n. rewrite <- (kept_clusters dist data (atof e) _ T1 W wg3 edges CW R LW C _ T2 K).
    destruct (complex_vertices _ C) as (_ & NV & _ & GV). assert (RC : length (vertices edges) = length data) by (eapply kept_count; eassumption).
    assert (Gt : graph_on (vertices edges) (up_to t (level edges 1))).
    { intros s w Hw. apply filter_In in Hw. now apply (GV s w). }
    destruct (components_exist _ _ NV GV) as (c1 & C1). destruct (components_exist _ _ NV Gt) as (c0 & C0).
    split.
    - intros Hn. destruct (D2 t n c1 Hn C1) as (Q & _). lia.
    - intros Q. destruct (D2 t c0 c1 C0 C1) as (Q' & _). replace n with c0 by lia. exact C0.
  Qed.

  Theorem collapse_undefined :
    (data <> [] -> ~ (exists u v, u < v /\ v < length data /\ close ArrayList (atof e) (separation dist data u v)) ->
       run_program past_end args data = UB) /\
    (data = [] \/ (exists u v, u < v /\ v < length data /\ close ArrayList (atof e) (separation dist data u v)) ->
       exists p, run_program libstdcxx_past_end args data = Ok (Some (p, []))).
  Proof.
    assert (T1 : 1 <= Z.to_nat (atoi d)) by lia. assert (T2 : 1 <= Z.to_nat (atoi d + 1)) by lia. split.
    - intros Hdata Hn. destruct (collapse_edges dist atoi atof srt past_end nc0 other args d e data Hs Hr Hne Hpos Hd)
        as (W & wg3 & edges & finish & CW & R & LW & C & F & K & K4 & E & O). rewrite E. clear E.
      destruct (kept_levels dist data (atof e) _ T1 W wg3 edges CW R LW C _ T2 K K4) as [L2 L0].
      destruct edges as [|e0 [|e1 edges]]; [exfalso; apply Hdata, L0; reflexivity|reflexivity|exfalso; apply Hn, L2; cbn; lia].
    - intros Hor. destruct (collapse_edges dist atoi atof srt libstdcxx_past_end nc0 other args d e data Hs Hr Hne Hpos Hd)
        as (W & wg3 & edges & finish & CW & R & LW & C & F & K & K4 & E & O). rewrite E. clear E.
      destruct (kept_levels dist data (atof e) _ T1 W wg3 edges CW R LW C _ T2 K K4) as [L2 L0]. destruct Hor as [Hdata|Hp].
      + apply L0 in Hdata. destruct edges; [|discriminate]. cbn. eauto.
      + destruct (libstdcxx_run (atoi d) (atof e) edges [] C (proj2 L2 Hp)) as (ds & piv & ps & tab & -> & _). cbn [bind]. eauto.
  Qed.

  (* With -d 2 or less every bar has dimension 0. *)
  Theorem collapse_no_holes p failed : run_program past_end args data = Ok (Some (p, failed)) -> (atoi d <= 2)%Z ->
    forall k b x, In (k, b, x) (pk_output p) -> k = 0.
  Proof.
    intros H H2 k b x Hi. destruct (collapse_edges dist atoi atof srt past_end nc0 other args d e data Hs Hr Hne Hpos Hd)
      as (W & wg3 & edges & finish & CW & R & LW & C & F & K & K4 & E & O). rewrite E in H. clear E.
    destruct (fp_run past_end (atoi d) (atof e) edges []) as [r|] eqn:Er; [|discriminate]. cbn [bind] in H. injection H as <- <-.
    destruct (O r) as [O1 _]. clear O. destruct r as [[lines tab]|]; cbn [result] in O1; injection O1 as O1 O2; rewrite O1 in Hi; [|destruct Hi].
    destruct (fp_any _ _ _ _ _ _ _ Er) as (new & newt & _ & -> & _ & _ & Q).
    apply in_app_iff in Hi as [Hi|Hi]; [apply in_map_iff in Hi as (w & E & _); injection E as <- _ _; lia|].
    apply in_app_iff in Hi as [[E|[]]|Hi]; [injection E as <- _ _; lia|].
    destruct (Q _ Hi) as [Q1 _]. cbn in Q1. unfold dims in Q1. exfalso.
    assert (Z.to_nat (atoi d) = 2) by lia. assert (L2 : ~ 2 < length edges).
    { rewrite K4. intros N. apply N. eapply no_triangle; try eassumption; auto; lia. }
    lia.
  Qed.
End Results.
