(* NearEnd.v -- replacing a point of the window: the statistics that deleteNNstats and updateStats leave. *)
From Coq Require Import List Arith ZArith QArith Bool Lia Sorted.
From Verif Require Import Base EvalModel SpecNear NearProofs NearRuns.
Import ListNotations.
Local Open Scope nat_scope. Local Open Scope list_scope.

Lemma list_snoc {A} (w : list A) n d : length w = n + 1 -> w = firstn n w ++ [nth n w d].
Proof.
  intros E. rewrite <- (firstn_skipn n w) at 1. f_equal. assert (K : length (skipn n w) = 1) by (rewrite skipn_length; lia).
  assert (F : nth n w d = nth 0 (skipn n w) d).
  { rewrite <- (firstn_skipn n w) at 1. rewrite app_nth2 by (rewrite firstn_length; lia). f_equal. rewrite firstn_length. lia. }
  rewrite F. destruct (skipn n w) as [|x [|]]; try discriminate K. reflexivity.
Qed.
Lemma zsum_add f g l : zsum (fun i => (f i + g i)%Z) l = (zsum f l + zsum g l)%Z.
Proof. unfold zsum. induction l as [|x l IH]; cbn; [reflexivity|]. rewrite IH. lia. Qed.
Lemma zsum_zero f l : (forall i, In i l -> f i = 0%Z) -> zsum f l = 0%Z.
Proof. intros H. unfold zsum. induction l as [|x l IH]; cbn; [reflexivity|]. rewrite (H x) by (now left). rewrite IH by (intros; apply H; now right). reflexivity. Qed.
Lemma zsum_single f n j : j < n -> (forall i, i < n -> i <> j -> f i = 0%Z) -> zsum f (seq 0 n) = f j.
Proof.
  intros J Z. induction n as [|n IH]; [lia|]. rewrite zsum_S. destruct (Nat.eq_dec j n) as [->|N].
  - rewrite zsum_zero by (intros i I; apply in_seq in I; apply Z; lia). lia.
  - rewrite IH by (intros; try apply Z; lia). rewrite (Z n) by lia. lia.
Qed.

Lemma only_one ls p i j : size ls p = 1 -> i < length ls -> j < length ls -> nth i ls 0%Z = p -> nth j ls 0%Z = p -> i = j.
Proof.
  intros E Hi Hj Ei Ej. destruct (Nat.eq_dec i j) as [|Q]; [auto|]. exfalso.
  assert (2 <= size ls p) by (apply (size_other ls p i Hi Ei); exists j; auto). lia.
Qed.

Section Replace.
  Variable dist : list Z -> list Z -> Z.
  Variable one : Z.
  Variables (pts : list (list Z)) (st : params) (k : nat) (v : list Z) (m : list (list Z)).
  Let ls := sp_labels st.
  Let idx := sp_nnIndices st.
  Let nn := sp_nnDists st.
  Let t := sp_target st.
  Let l := nth k ls 0%Z.
  Let lab := without k ls.
  Let rest := without k pts.
  Let n := length lab.
  Hypothesis Sym : forall x y, dist x y = dist y x.
  Hypothesis Lp : length pts = length ls.
  Hypothesis Hk : k < length ls.
  Hypothesis Lkeys : length (sp_keys st) = length ls.
  Hypothesis Rd : right_distances dist one pts ls nn.
  Hypothesis Ri : right_indices dist pts ls idx nn.
  Hypothesis Rn : right_numbers ls (sp_num st).
  Hypothesis Ra : right_averages one ls nn (sp_avg st).
  Hypothesis Rm : right_matrix dist rest m.

  Let D := map (dist v) rest.
  Let X := without k idx.
  Let old := without k nn.
  Let aw := away dist rest.
  Let gone := nth k nn 0%Z.
  Let L j := nth j lab 0%Z.
  Let Nl := size lab l.
  Let Nt := size lab t.

  Lemma len_ls : length ls = S n.
  Proof. unfold n, lab. rewrite without_length by auto. lia. Qed.
  Lemma len_rest : length rest = n.
  Proof. unfold rest. rewrite without_length by lia. unfold n, lab. rewrite without_length by auto. lia. Qed.
  Lemma len_X : length X = n.
  Proof. unfold X. rewrite without_length by (rewrite (proj1 Ri); auto). rewrite (proj1 Ri). unfold n, lab. now rewrite without_length. Qed.
  Lemma len_old : length old = n.
  Proof. unfold old. rewrite without_length by (rewrite (proj1 Rd); auto). rewrite (proj1 Rd). unfold n, lab. now rewrite without_length. Qed.
  Lemma len_D : length D = n.
  Proof. unfold D. rewrite map_length. apply len_rest. Qed.
  Lemma L_up j : L j = nth (up k j) ls 0%Z.
  Proof. apply without_nth. Qed.
  Lemma up_in j : j < n -> up k j < length ls.
  Proof. intros H. apply up_lt; [auto|]. rewrite len_ls. lia. Qed.
  Lemma aw_up i j : aw i j = away dist pts (up k i) (up k j).
  Proof. unfold aw, away, rest. now rewrite !without_nth. Qed.
  Lemma dn_eq j : j < n -> dn D j = dist v (nth j rest []).
  Proof. intros H. unfold dn, D. rewrite (nth_indep _ 0%Z (dist v [])) by (rewrite map_length, len_rest; auto). apply map_nth. Qed.
  Lemma od_eq j : od old j = nth (up k j) nn 0%Z.
  Proof. apply without_nth. Qed.
  Lemma ix_eq j : ix X j = nth (up k j) idx 0%Z.
  Proof. apply without_nth. Qed.
  Lemma mate_up i j : j < n -> i < n -> (mate lab i j <-> mate ls (up k i) (up k j)).
  Proof.
    intros J I. unfold mate. fold n. rewrite <- !L_up. fold (L i) (L j). split; intros (A & _ & C); (split; [|split; [|exact C]]).
    - intros E. apply up_inj in E. auto.
    - now apply up_in.
    - congruence.
    - auto.
  Qed.

  (* The numbers and averages after the deletion. *)
  Definition num1 : zmap Z := if Nl =? 0 then zdel (zput (sp_num st) l (Z.of_nat Nl)) l else zput (sp_num st) l (Z.of_nat Nl).
  Definition avg1 : zmap Q := if Nl =? 0 then zdel (sp_avg st) l else sp_avg st.
  Definition keys1 : zmap nat := if Nl =? 0 then zdel (sp_maxKeys st) l else sp_maxKeys st.
  Definition st1 : params := mkParams (sp_key st) t (without k (sp_keys st)) lab X old avg1 num1 keys1.
  Lemma size_l : size ls l = S Nl.
  Proof. rewrite (size_without ls k l Hk). fold l. rewrite Z.eqb_refl. fold lab Nl. lia. Qed.
  Lemma size_p p : p <> l -> size ls p = size lab p.
  Proof. intros N. rewrite (size_without ls k p Hk). fold l. destruct (Z.eqb_spec l p); [congruence|]. fold lab. lia. Qed.
  Lemma get_num p c : zget (sp_num st) p = Some c -> c = Z.of_nat (size ls p).
  Proof. destruct Rn as (O & A & B). intros E. apply (zget_in _ _ _ O) in E. auto. Qed.
  Lemma has_num p : 0 < size ls p -> zget (sp_num st) p = Some (Z.of_nat (size ls p)).
  Proof. destruct Rn as (O & A & B). intros H. destruct (B p H) as (c & I). apply (zget_in _ _ _ O) in I. rewrite I. f_equal. now apply get_num. Qed.
  Lemma deleted : deleteNNstats l k (map (dist v) pts) st = Ok (st1, D, gone).
  Proof.
    unfold deleteNNstats. rewrite erase_ok by lia. cbn [bind]. fold ls. rewrite erase_ok by auto. cbn [bind].
    fold idx nn. rewrite erase_ok by (rewrite (proj1 Ri); auto). cbn [bind]. rewrite (at_nth nn k 0%Z) by (rewrite (proj1 Rd); auto). cbn [bind].
    rewrite erase_ok by (rewrite (proj1 Rd); auto). cbn [bind]. rewrite erase_ok by (rewrite map_length; lia). cbn [bind].
    rewrite without_map. assert (P : 0 < size ls l) by (rewrite size_l; lia). rewrite (zread_some _ _ _ _ (has_num l P)). cbn [fst].
    replace (Z.of_nat (size ls l) - 1)%Z with (Z.of_nat Nl) by (rewrite size_l; lia).
    unfold st1, num1, avg1, keys1. destruct (Z.eqb_spec (Z.of_nat Nl) 0), (Nat.eqb_spec Nl 0); try lia; reflexivity.
  Qed.
  Lemma num_ok : zok num1.
  Proof. destruct Rn as (O & _). unfold num1. destruct (Nl =? 0); [apply zdel_ok|]; now apply zput_ok. Qed.
  Lemma avg_ok : zok avg1.
  Proof. destruct Ra as (O & _). unfold avg1. destruct (Nl =? 0); [now apply zdel_ok|auto]. Qed.
  Lemma num1_has p : 0 < size lab p -> zget num1 p = Some (Z.of_nat (size lab p)).
  Proof.
    intros H. unfold num1. destruct Rn as (O & _). destruct (Z.eq_dec p l) as [->|N].
    - fold Nl in H. destruct (Nat.eqb_spec Nl 0); [lia|]. rewrite zput_get, Z.eqb_refl by auto. reflexivity.
    - assert (E : zget (zput (sp_num st) l (Z.of_nat Nl)) p = Some (Z.of_nat (size lab p))).
      { rewrite zput_get by auto. destruct (Z.eqb_spec p l); [easy|]. rewrite <- size_p by auto. apply has_num. now rewrite size_p. }
      destruct (Nl =? 0); [|auto]. rewrite zdel_get. destruct (Z.eqb_spec p l); [easy|auto].
  Qed.
  Lemma num1_get p c : zget num1 p = Some c -> c = Z.of_nat (size lab p).
  Proof.
    intros H. destruct (le_lt_dec (size lab p) 0) as [Z|P]; [|rewrite num1_has in H by auto; now injection H].
    unfold num1 in H. destruct Rn as (O & _). destruct (Z.eq_dec p l) as [->|N].
    - fold Nl in Z. destruct (Nat.eqb_spec Nl 0); [|lia]. rewrite zdel_get, Z.eqb_refl in H. discriminate.
    - assert (E : zget (zput (sp_num st) l (Z.of_nat Nl)) p = Some c).
      { destruct (Nl =? 0); [|auto]. rewrite zdel_get in H. destruct (Z.eqb_spec p l); [easy|auto]. }
      rewrite zput_get in E by auto. destruct (Z.eqb_spec p l); [easy|]. rewrite <- size_p by auto. now apply get_num.
  Qed.
  Lemma avg1_p p : p <> l -> zget avg1 p = zget (sp_avg st) p.
  Proof. intros N. unfold avg1. destruct (Nl =? 0); [|auto]. rewrite zdel_get. destruct (Z.eqb_spec p l); [easy|auto]. Qed.
  Lemma avg1_has p : 0 < size lab p <-> zget avg1 p <> None.
  Proof.
    destruct Ra as (O & A & _). assert (A' : forall q, 0 < size ls q <-> zget (sp_avg st) q <> None).
    { intros q. rewrite (A q). split.
      - intros (a & I). apply (zget_in _ _ _ O) in I. congruence.
      - destruct (zget (sp_avg st) q) as [a|] eqn:E; [|easy]. intros _. exists a. now apply (zget_in _ _ _ O). }
    destruct (Z.eq_dec p l) as [->|N].
    - fold Nl. unfold avg1. destruct (Nat.eqb_spec Nl 0).
      + rewrite zdel_get, Z.eqb_refl. split; [lia|easy].
      + split; [intros _; apply A'; rewrite size_l; lia|lia].
    - rewrite avg1_p, <- size_p by auto. apply A'.
  Qed.

  (* Nearest neighbours in the window without the point k. *)
  Lemma least j j' : j < n -> mate lab j j' -> (od old j <= aw j j')%Z.
  Proof.
    intros J M. assert (J' : j' < n) by apply M. apply mate_up in M; auto. rewrite od_eq, aw_up.
    destruct Rd as [_ R]. destruct (R (up k j) (up_in j J)) as [[_ B]|[B _]]; [now apply B|now apply B in M].
  Qed.
  Lemma rest_near j : j < n ->
    (exists j', mate lab j j' /\ od old j = aw j j' /\ ix X j = Z.of_nat (up k j') /\ ix X j <> Z.of_nat k) \/
    (ix X j = Z.of_nat k /\ L j = l) \/
    ((forall j', ~ mate lab j j') /\ L j <> l /\ od old j = (- one)%Z /\ ix X j = (-1)%Z).
  Proof.
    intros J. destruct Ri as [_ R]. destruct (R (up k j) (up_in j J)) as [(p & M & Ex & Ed)|[A Ex]].
    - rewrite ix_eq, Ex. destruct (Nat.eq_dec p k) as [->|N].
      + right. left. split; [auto|]. destruct M as (_ & _ & E). rewrite L_up, <- E. reflexivity.
      + left. destruct M as (M1 & M2 & M3). destruct (up_onto k p (length ls) Hk M2 N) as (j' & B & <-). rewrite len_ls in B.
        exists j'. split; [apply mate_up; [lia|auto|]; split; auto|]. split; [rewrite od_eq, aw_up; auto|]. split; [auto|]. intros E. apply Nat2Z.inj in E. auto.
    - right. right. split; [|split; [|split]].
      + intros j' M. assert (J' : j' < n) by apply M. apply mate_up in M; auto. now apply A in M.
      + intros E. apply (A k). split; [intros Q; now apply (up_ne k j)|]. split; [auto|]. rewrite L_up in E. now rewrite E.
      + rewrite od_eq. destruct Rd as [_ R']. destruct (R' (up k j) (up_in j J)) as [[(p & M & _) _]|[_ E]]; [now apply A in M|auto].
      + now rewrite ix_eq.
  Qed.

  (* The window afterwards. *)
  Let pts2 := rest ++ [v].
  Let lab2 := lab ++ [t].
  Lemma len2 : length lab2 = S n.
  Proof. unfold lab2. rewrite app_length. fold n. cbn. lia. Qed.
  Lemma mate2 j j' : j < n -> (mate lab2 j j' <-> mate lab j j' \/ (j' = n /\ L j = t)).
  Proof.
    intros J. unfold mate. rewrite len2. fold n. unfold lab2. rewrite (@app_nth1 Z lab [t] 0%Z j J). fold (L j). split.
    - intros (A & B & C). destruct (Nat.eq_dec j' n) as [->|N].
      + right. split; [auto|]. rewrite app_nth2 in C by (fold n; lia). fold n in C. rewrite Nat.sub_diag in C. auto.
      + left. rewrite app_nth1 in C by (fold n; lia). split; [auto|]. split; [lia|auto].
    - intros [(A & B & C)|[-> C]].
      + split; [auto|]. split; [lia|]. rewrite app_nth1 by auto. auto.
      + split; [lia|]. split; [lia|]. rewrite app_nth2 by (fold n; lia). fold n. rewrite Nat.sub_diag. auto.
  Qed.
  Lemma mate2_new j' : mate lab2 n j' <-> j' < n /\ L j' = t.
  Proof.
    unfold mate. rewrite len2. unfold lab2. rewrite (@app_nth2 Z lab [t] 0%Z n (le_n n)). fold n. rewrite Nat.sub_diag. cbn [nth]. split.
    - intros (A & B & C). rewrite app_nth1 in C by (fold n; lia). split; [lia|auto].
    - intros (A & C). split; [lia|]. split; [lia|]. rewrite app_nth1 by auto. auto.
  Qed.
  Lemma away2 i j : i < n -> j < n -> away dist pts2 i j = aw i j.
  Proof. intros I J. unfold away, pts2, aw, away. rewrite !app_nth1 by (rewrite len_rest; auto). reflexivity. Qed.
  Lemma away2_new i : i < n -> away dist pts2 i n = dn D i /\ away dist pts2 n i = dn D i.
  Proof.
    intros I. unfold away, pts2. rewrite app_nth1 by (rewrite len_rest; auto). rewrite app_nth2 by (rewrite len_rest; auto). rewrite len_rest, Nat.sub_diag. cbn [nth].
    rewrite dn_eq by auto. split; [apply Sym|reflexivity].
  Qed.
  Definition fine_index (i : nat) (x d : Z) : Prop :=
    right_index dist pts2 lab2 i x d \/ ((Z.of_nat k < x)%Z /\ right_index dist pts2 lab2 i (x - 1) d).
  Lemma fine_up j j' d : mate lab2 j j' -> d = away dist pts2 j j' -> fine_index j (Z.of_nat (up k j')) d.
  Proof.
    intros M E. unfold up. destruct (Nat.ltb_spec j' k).
    - left. left. exists j'. auto.
    - right. split; [lia|]. left. exists j'. split; [auto|]. split; [lia|auto].
  Qed.

  Notation nd' := (nd one lab X old D aw l t k).
  Notation nx' := (nx lab X old D aw l t k).
  Notation bad' := (bad lab X old D l t k).
  Lemma old_near j : j < n -> (L j = t -> ix X j <> Z.of_nat k /\ (od old j <= dn D j)%Z /\ 2 <= Nt) -> (L j = l -> ix X j <> Z.of_nat k) ->
    right_distance dist one pts2 lab2 j (od old j) /\ fine_index j (ix X j) (od old j).
  Proof.
    intros J Ht Hl. destruct (rest_near j J) as [(j' & M & E & Ex & N)|[[E Q]|(A & Q & E & Ex)]].
    - assert (J' : j' < n) by apply M. assert (M2 : mate lab2 j j') by (apply mate2; auto). rewrite Ex. split.
      + left. split; [exists j'; split; [auto|]; now rewrite away2|]. intros i Mi. apply mate2 in Mi; [|auto]. destruct Mi as [Mi|[-> Lt]].
        * rewrite away2; [now apply least|auto|apply Mi].
        * rewrite (proj1 (away2_new j J)). now apply Ht.
      + apply fine_up; [auto|]. now rewrite away2.
    - now apply Hl in Q.
    - rewrite E, Ex. assert (A2 : forall j', ~ mate lab2 j j').
      { intros j' M. apply mate2 in M; [|auto]. destruct M as [M|[-> Lt]]; [now apply A in M|]. destruct (Ht Lt) as (_ & _ & G).
        apply (size_other lab t j J Lt) in G. destruct G as (i & I & B & C). apply (A i). split; [auto|]. split; [auto|]. fold (L j). congruence. }
      split; [right; auto|left; right; auto].
  Qed.
  Lemma new_near j : j < n -> ~ bad' j -> right_distance dist one pts2 lab2 j (nd' j) /\ fine_index j (nx' j) (nd' j).
  Proof.
    intros J Nb. unfold nd, nx. fold (L j) Nl Nt n. destruct (Z.eqb_spec (L j) l) as [El|El]; destruct (Z.eqb_spec (L j) t) as [Et|Et]; cbn [andb negb].
    - (* the point was deleted from the partition that gets the new one *)
      destruct (Nat.eqb_spec Nt 1) as [N1|N1]; [|destruct (Z.ltb_spec (dn D j) (od old j)) as [Lt|Lt]].
      1, 2: assert (M : mate lab2 j n) by (apply mate2; auto); rewrite <- (proj1 (away2_new j J)); split;
        [left; split; [exists n; auto|]; intros i Mi; apply mate2 in Mi; [|auto]; destruct Mi as [Mi|[-> _]]; [|lia]
        |left; left; exists n; auto].
      + exfalso. assert (2 <= size lab t) by (apply (size_other lab t j J Et); exists i; destruct Mi as (A & B & C); split; [auto|]; split; [auto|]; fold (L j) in C; congruence). fold Nt in H. lia.
      + rewrite (away2 j i); [|auto|apply Mi]. rewrite (proj1 (away2_new j J)). assert (G := least j i J Mi). lia.
      + assert (N2 : 2 <= Nt). { assert (0 < size lab t) by (apply size_pos; exists j; auto). fold Nt in H. lia. }
        assert (Nk : ix X j <> Z.of_nat k). { intros E. apply Nb. split; [congruence|]. split; [auto|]. split; [auto|]. split; [auto|lia]. }
        apply old_near; auto.
    - destruct (Z.eqb_spec (ix X j) (Z.of_nat k)) as [Ek|Ek]; [|apply old_near; auto; congruence].
      destruct (Nat.eqb_spec Nl 1) as [N1|N1].
      + assert (A2 : forall j', ~ mate lab2 j j').
        { intros j' M. apply mate2 in M; [|auto]. destruct M as [(A & B & C)|[_ Q]]; [|auto].
          assert (2 <= size lab l) by (apply (size_other lab l j J El); exists j'; split; [auto|]; split; [auto|]; fold (L j) in C; congruence). fold Nl in H. lia. }
        split; [right; auto|left; right; auto].
      + assert (N2 : 2 <= Nl). { assert (0 < size lab l) by (apply size_pos; exists j; auto). fold Nl in H. lia. }
        assert (Ne : mem lab aw l j <> []).
        { eapply mem_nonempty with (X := X) (old := old) (D := D) (rows := m); auto using len_X, len_old, len_D. rewrite (proj1 Rm). apply len_rest. }
        destruct (nearest_of_least _ Ne) as (d & i & E & I & Least). unfold near. rewrite E. cbn [fst snd].
        assert (In_mem : forall i, In (aw j i, i) (mem lab aw l j) <-> mate lab j i).
        { intros i'. unfold mem. rewrite in_map_iff. unfold mate. fold n. split.
          - intros (i2 & [= _ <-] & F). apply filter_In in F. destruct F as [F1 F2]. apply in_seq in F1. apply andb_true_iff in F2. destruct F2 as [F2 F3].
            apply Z.eqb_eq in F2. destruct (Nat.eqb_spec i2 j); [discriminate|]. split; [auto|]. split; [lia|]. fold (L j). congruence.
          - intros (A & B & C). exists i'. split; [auto|]. apply filter_In. split; [apply in_seq; lia|]. fold (L j) in C. rewrite C, El, Z.eqb_refl.
            destruct (Nat.eqb_spec i' j); [easy|reflexivity]. }
        assert (Ei : d = aw j i). { unfold mem in I. apply in_map_iff in I. destruct I as (? & [= <- <-] & _). auto. } subst d.
        apply In_mem in I. assert (B : i < n) by apply I. assert (M2 : mate lab2 j i) by (apply mate2; auto).
        split.
        * left. split; [exists i; split; [auto|]; now rewrite away2|]. intros i' M. apply mate2 in M; [|auto]. destruct M as [M|[_ Q]]; [|easy].
          rewrite away2; [|auto|apply M]. apply In_mem in M. now apply (Least (aw j i', i')).
        * left. left. exists i. split; [auto|]. split; [auto|]. now rewrite away2.
    - destruct (Nat.eqb_spec Nt 1) as [N1|N1]; [|destruct (Z.ltb_spec (dn D j) (od old j)) as [Lt|Lt]].
      1, 2: assert (M : mate lab2 j n) by (apply mate2; auto); rewrite <- (proj1 (away2_new j J)); split;
        [left; split; [exists n; auto|]; intros i Mi; apply mate2 in Mi; [|auto]; destruct Mi as [Mi|[-> _]]; [|lia]
        |left; left; exists n; auto].
      + exfalso. assert (2 <= size lab t) by (apply (size_other lab t j J Et); exists i; destruct Mi as (A & B & C); split; [auto|]; split; [auto|]; fold (L j) in C; congruence). fold Nt in H. lia.
      + rewrite (away2 j i); [|auto|apply Mi]. rewrite (proj1 (away2_new j J)). assert (G := least j i J Mi). lia.
      + assert (N2 : 2 <= Nt). { assert (0 < size lab t) by (apply size_pos; exists j; auto). fold Nt in H. lia. }
        assert (Nk : ix X j <> Z.of_nat k). { intros E. destruct (rest_near j J) as [(j' & _ & _ & _ & Q)|[[_ Q]|(_ & _ & _ & Q)]]; [easy|congruence|rewrite Q in E; lia]. }
        apply old_near; auto.
    - apply old_near; auto; congruence.
  Qed.
  Lemma new_point d x : newcomer one lab D t d x -> right_distance dist one pts2 lab2 n d /\ right_index dist pts2 lab2 n x d.
  Proof.
    intros [Z P]. fold Nt n in Z, P. destruct (le_lt_dec Nt 0) as [N0|N0].
    - destruct (Z ltac:(lia)) as [-> ->]. assert (A : forall j, ~ mate lab2 n j).
      { intros j M. apply mate2_new in M. assert (0 < size lab t) by (apply size_pos; exists j; auto). fold Nt in H. lia. }
      split; right; auto.
    - destruct (P N0) as [(j & J & Lj & -> & ->) Le]. assert (M : mate lab2 n j) by (apply mate2_new; auto). rewrite <- (proj2 (away2_new j J)). split.
      + left. split; [exists j; auto|]. intros i Mi. apply mate2_new in Mi. destruct Mi as [I Li]. rewrite (proj2 (away2_new i I)), (proj2 (away2_new j J)). now apply Le.
      + left. exists j. auto.
  Qed.

  (* Sums of the new distances. *)
  Lemma new_sum p nn2 : length nn2 = n + 1 -> (forall j, j < n -> nth j nn2 0%Z = nd' j) ->
    sum_of lab2 nn2 p = (zsum (fun j => if (L j =? p)%Z then nd' j else 0) (seq 0 n) + if (t =? p)%Z then nth n nn2 0 else 0)%Z.
  Proof.
    intros E H. rewrite sum_of_seq by (rewrite len2; lia). rewrite len2, zsum_S. f_equal.
    - apply zsum_ext. intros j I. apply in_seq in I. unfold part, lab2. rewrite app_nth1 by (fold n; lia). fold (L j). rewrite H by lia. reflexivity.
    - unfold part, lab2. rewrite app_nth2 by (fold n; lia). fold n. rewrite Nat.sub_diag. reflexivity.
  Qed.
  Lemma changed_sum p : (zsum (fun j => if (L j =? p)%Z then nd' j else 0) (seq 0 n))%Z =
    (sum_of ls nn p - (if (l =? p)%Z then gone else 0) + zsum (change one lab X old D aw l t k p) (seq 0 n))%Z.
  Proof.
    rewrite (sum_of_without ls nn k p) by (auto; apply (proj1 Rd)). fold l gone lab. change (without k nn) with old.
    rewrite (sum_of_seq lab old p) by apply len_old. fold n.
    transitivity (zsum (part lab old p) (seq 0 n) + zsum (change one lab X old D aw l t k p) (seq 0 n))%Z; [|lia].
    rewrite <- zsum_add. apply zsum_ext. intros j _. unfold part, change. fold (L j) (od old j). destruct (L j =? p)%Z; lia.
  Qed.

  Theorem replaced : exists st1 gone, deleteNNstats l k (map (dist v) pts) st = Ok (st1, map (dist v) rest, gone) /\
    ((exists j, j < n /\ bad' j) -> updateStats one (length ls) l k gone (map (dist v) rest) st1 m = UB) /\
    ((forall j, j < n -> ~ bad' j) -> exists st2 m2, updateStats one (length ls) l k gone (map (dist v) rest) st1 m = Ok (st2, m2 ++ [[]]) /\
       sp_key st2 = sp_key st /\ sp_target st2 = t /\ sp_keys st2 = without k (sp_keys st) /\ sp_labels st2 = lab /\ sp_maxKeys st2 = keys1 /\
       right_distances dist one pts2 lab2 (sp_nnDists st2) /\
       length (sp_nnIndices st2) = S n /\ (forall i, i < S n -> fine_index i (nth i (sp_nnIndices st2) 0%Z) (nth i (sp_nnDists st2) 0%Z)) /\
       right_numbers lab2 (sp_num st2) /\ right_averages one lab2 (sp_nnDists st2) (sp_avg st2) /\
       length m2 = n /\ forall i, i < n -> nth i m2 [] = nth i m [] ++ [dist v (nth i rest [])]).
  Proof.
    exists st1, gone. split; [apply deleted|].
    assert (U := update_spec one lab X old D m aw l t k st1 len_X len_old len_D).
    specialize (U ltac:(rewrite (proj1 Rm); apply len_rest)). specialize (U ltac:(intros i j; unfold aw, away; apply Sym)).
    destruct Rm as (Rm1 & Rm2 & Rm3). rewrite len_rest in *.
    specialize (U ltac:(intros i I; apply Rm2; apply nth_In; lia)). specialize (U ltac:(intros i j I; apply Rm3; auto)).
    specialize (U eq_refl eq_refl eq_refl eq_refl num_ok avg_ok num1_has num1_get avg1_has gone).
    fold n in U. rewrite <- len_ls in U. fold D. split.
    - intros (j & J & B). destruct U as [[_ U]|[U _]]; [auto|]. now apply U in B.
    - intros Nb. destruct U as [[(j & J & B) _]|[_ (st2 & m2 & U & En & Gr)]]; [now apply Nb in B|].
      exists st2, m2. split; [exact U|]. destruct En as (K & T & Ks & Lb & Mk & Li & Nc & On & Oa & N1 & N2 & A1 & A2 & A3 & A4 & A5).
      fold n Nt Nl in Li, Nc, A1, A2, A3, A4, A5. cbn [st1 sp_key sp_keys sp_maxKeys sp_avg] in *.
      destruct Li as (Li1 & Li2 & Li3). destruct (new_point _ _ Nc) as [Nd Ni].
      assert (Ld : forall j, j < n -> nth j (sp_nnDists st2) 0%Z = nd' j).
      { intros j J. destruct (Li3 j J) as [Q _]. rewrite (proj2 (Nat.ltb_lt j n) J) in Q. exact Q. }
      assert (Lx : forall j, j < n -> nth j (sp_nnIndices st2) 0%Z = nx' j).
      { intros j J. destruct (Li3 j J) as [_ Q]. rewrite (proj2 (Nat.ltb_lt j n) J) in Q. exact Q. }
      do 5 (split; [now auto|]). split; [|split; [lia|split; [|split; [|split]]]].
      + split; [rewrite len2; lia|]. rewrite len2. intros i I. destruct (Nat.eq_dec i n) as [->|]; [auto|]. rewrite Ld by lia. apply new_near; [lia|]. apply Nb. lia.
      + intros i I. destruct (Nat.eq_dec i n) as [->|]; [left; auto|]. rewrite Ld, Lx by lia. apply new_near; [lia|]. apply Nb. lia.
      + split; [exact On|]. split.
        * intros p c I. apply (zget_in _ _ _ On) in I. now apply N1.
        * intros p H. specialize (N2 p H). destruct (zget (sp_num st2) p) as [c|] eqn:E; [|easy]. exists c. now apply (zget_in _ _ _ On).
      + (* averages *)
        destruct Ra as (Oa0 & Ra1 & Ra2 & Ra3).
        assert (Sz : forall p, size lab2 p = size lab p + if (t =? p)%Z then 1 else 0) by (intros; apply size_app).
        assert (Len2 : length (sp_nnDists st2) = n + 1) by auto.
        split; [exact Oa|].
        assert (In_avg : forall q a, In (q, a) (sp_avg st) <-> zget (sp_avg st) q = Some a) by (intros; symmetry; now apply zget_in).
        assert (In_avg2 : forall q a, In (q, a) (sp_avg st2) <-> zget (sp_avg st2) q = Some a) by (intros; symmetry; now apply zget_in).
        assert (Tsize : size lab2 t = S Nt) by (rewrite Sz, Z.eqb_refl; fold Nt; lia).
        assert (Has : forall p, 0 < size lab2 p <-> exists a, In (p, a) (sp_avg st2)).
        { intros p. rewrite Sz. destruct (Z.eqb_spec t p) as [<-|Np].
          - split; [|lia]. intros _. assert (Cs : Nt = 0 \/ Nt = 1 \/ 2 <= Nt) by lia. destruct Cs as [C|[C|C]].
            + eexists. apply In_avg2, A3, C.
            + destruct (A4 C) as (j & _ & _ & E). eexists. apply In_avg2, E.
            + destruct (A5 C) as (a & a' & _ & E & _). eexists. apply In_avg2, E.
          - rewrite Nat.add_0_r. destruct (Z.eq_dec p l) as [->|Nl'].
            + destruct (A2 ltac:(auto)) as (B0 & B1 & B2). fold Nl. split.
              * intros H. assert (Cs : Nl = 1 \/ 2 <= Nl) by lia. destruct Cs as [C|C].
                -- eexists. apply In_avg2, B1; [exact C|]. intros j J Lj. destruct (rest_near j J) as [(j' & (M1 & M2 & M3) & _)|[[E _]|(_ & Q & _)]]; [|auto|easy].
                   exfalso. assert (2 <= size lab l) by (apply (size_other lab l j J Lj); exists j'; split; [auto|]; split; [auto|]; exact (eq_trans M3 Lj)). fold Nl in H0. lia.
                -- destruct (B2 C) as (a & a' & _ & E & _). eexists. apply In_avg2, E.
              * intros (a & I). apply In_avg2 in I. destruct (le_lt_dec Nl 0); [|auto]. rewrite B0 in I by lia. discriminate.
            + rewrite (avg1_has p). split.
              * destruct (zget avg1 p) as [a|] eqn:E; [|easy]. intros _. exists a. apply In_avg2. rewrite A1 by auto. exact E.
              * intros (a & I). apply In_avg2 in I. rewrite A1 in I by auto. congruence. }
        split; [exact Has|]. split.
        * intros p a I S1. apply In_avg2 in I. rewrite Sz in S1. destruct (Z.eqb_spec t p) as [<-|Np].
          -- fold Nt in S1. rewrite A3 in I by lia. injection I as <-. reflexivity.
          -- rewrite Nat.add_0_r in S1. destruct (Z.eq_dec p l) as [->|Nl'].
             ++ destruct (A2 ltac:(auto)) as (B0 & B1 & B2). fold Nl in S1. rewrite B1 in I; [injection I as <-; reflexivity|auto|].
                intros j J Lj. destruct (rest_near j J) as [(j' & (M1 & M2 & M3) & _)|[[E _]|(_ & Q & _)]]; [|auto|easy].
                exfalso. assert (2 <= size lab l) by (apply (size_other lab l j J Lj); exists j'; split; [auto|]; split; [auto|]; exact (eq_trans M3 Lj)). fold Nl in H. lia.
             ++ rewrite A1, avg1_p in I by auto. apply In_avg in I. apply (Ra2 p a I). now rewrite size_p.
        * intros p a I S2. apply In_avg2 in I. rewrite Sz in *. rewrite (new_sum p _ Len2 Ld), changed_sum.
          destruct (Z.eqb_spec t p) as [<-|Np].
          -- fold Nt in S2 |- *. assert (Cs : Nt = 1 \/ 2 <= Nt) by lia. destruct Cs as [C|C].
             ++ destruct (A4 C) as (j & J & Lj & E). rewrite E in I. injection I as <-. rewrite <- changed_sum.
                rewrite (zsum_single _ n j J).
                ** unfold L in Lj |- *. rewrite Lj, Z.eqb_refl. destruct (proj2 Nc ltac:(fold Nt; lia)) as [(j' & J' & Lj' & E' & _) _]. fold n in J'. rewrite E'.
                   assert (Ej : j' = j). { apply (only_one lab t); auto. } subst j'.
                   unfold nd. fold Nt n. rewrite Lj, Z.eqb_refl. cbn [negb]. rewrite andb_false_r, C. cbn [Nat.eqb]. change (1 =? 1) with true. cbv iota.
                   rewrite <- inject_Z_mult. apply inject_Z_injective. lia.
                ** intros i Hi Ni'. destruct (Z.eqb_spec (L i) t) as [Q|]; [|auto]. exfalso. apply Ni'.
                   apply (only_one lab t); auto.
             ++ destruct (A5 C) as (a0 & a' & E0 & E & B1 & B2). rewrite E in I. injection I as ->. replace (Z.of_nat (Nt + 1)) with (Z.of_nat Nt + 1)%Z by lia.
                destruct (Z.eq_dec l t) as [Q|Q].
                ** rewrite (B2 Q), Q, Z.eqb_refl.
                   assert (Ea : zget (sp_avg st) t = Some a0). { unfold avg1 in E0. unfold Nl in E0. rewrite Q in E0. fold Nt in E0. destruct (Nat.eqb_spec Nt 0); [lia|auto]. }
                   apply In_avg in Ea. assert (Sl : size ls t = S Nt) by (rewrite <- Q; rewrite size_l; unfold Nl; now rewrite Q).
                   assert (R := Ra3 t a0 Ea ltac:(lia)). rewrite Sl in R. replace (Z.of_nat (S Nt)) with (Z.of_nat Nt + 1)%Z in R by lia.
                   rewrite (Qmult_comm (inject_Z (Z.of_nat Nt + 1)) a0), R. unfold Z.sub. rewrite !inject_Z_plus, inject_Z_opp. ring.
                ** rewrite (B1 Q). destruct (Z.eqb_spec l t); [easy|]. rewrite avg1_p in E0 by auto. apply In_avg in E0. assert (R := Ra3 t a0 E0 ltac:(rewrite size_p by auto; exact C)).
                   rewrite size_p in R by auto. fold Nt in R. rewrite (Qmult_comm (inject_Z (Z.of_nat Nt)) a0), R. rewrite Z.sub_0_r, !inject_Z_plus. ring.
          -- rewrite Nat.add_0_r in S2 |- *. rewrite Z.add_0_r. destruct (Z.eqb_spec l p) as [<-|Nl'].
             ++ fold Nl in S2 |- *. destruct (A2 ltac:(auto)) as (_ & _ & B2). destruct (B2 S2) as (a0 & a' & E0 & E & B). rewrite E in I. injection I as ->. rewrite B.
                assert (Ea : zget (sp_avg st) l = Some a0). { unfold avg1 in E0. destruct (Nat.eqb_spec Nl 0); [lia|auto]. }
                apply In_avg in Ea. assert (R := Ra3 l a0 Ea ltac:(rewrite size_l; lia)). rewrite size_l in R. replace (Z.of_nat (S Nl)) with (Z.of_nat Nl + 1)%Z in R by lia.
                rewrite (Qmult_comm (inject_Z (Z.of_nat Nl + 1)) a0), R. unfold Z.sub. rewrite !inject_Z_plus, inject_Z_opp. ring.
             ++ rewrite A1, avg1_p in I by auto. apply In_avg in I. assert (R := Ra3 p a I ltac:(rewrite size_p by auto; exact S2)). rewrite size_p in R by auto. rewrite R.
                apply inject_Z_injective. rewrite (zsum_zero (change _ _ _ _ _ _ _ _ _ p)); [lia|]. intros j _. unfold change. fold (L j). destruct (Z.eqb_spec (L j) p) as [Q|]; [|auto].
                unfold nd. fold (L j). destruct (Z.eqb_spec (L j) l), (Z.eqb_spec (L j) t); try congruence. cbn [andb]. lia.
      + destruct Gr as [Gr1 Gr2]. fold n in Gr1, Gr2. split; [auto|]. intros i I. rewrite (Gr2 i I), (proj2 (Nat.ltb_lt i n) I). now rewrite dn_eq.
  Qed.
End Replace.
