(* IoTotal.v -- what reading any CSV file and any stream gives. *)
From Coq Require Import Ascii List Arith ZArith Bool Lia.
From Verif Require Import Base IoModel SpecIo IoProofs.
Import ListNotations.
Local Open Scope nat_scope.
Local Open Scope list_scope.

(* Every text is made of pieces without the separator. *)
Lemma cut_spec c t : match cut c t with (a, None) => t = a /\ ~ In c a | (a, Some b) => t = a ++ c :: b /\ ~ In c a end.
Proof.
  induction t as [|x t IH]; cbn; [split; [reflexivity|intros []]|]. destruct (Ascii.eqb_spec x c) as [->|N]; [split; [reflexivity|intros []]|].
  destruct (cut c t) as [a [b|]]; destruct IH as [-> I]; (split; [reflexivity|intros [K|K]; [congruence|now apply I]]).
Qed.
Lemma pieces c t : exists parts, parts <> [] /\ Forall (fun p => ~ In c p) parts /\ t = join c parts.
Proof.
  remember (length t) as n eqn:E. revert t E. induction n as [n IH] using lt_wf_ind. intros t ->. assert (S := cut_spec c t).
  destruct (cut c t) as [a [b|]]; destruct S as [-> I].
  - destruct (IH (length b)) with (t := b) as (parts & N & F & ->); [rewrite app_length; cbn; lia|reflexivity|].
    exists (a :: parts). split; [discriminate|]. split; [now constructor|]. destruct parts; [easy|reflexivity].
  - exists [a]. split; [discriminate|]. split; [now constructor|reflexivity].
Qed.
Lemma join_cons c (a : text) (l : list text) : l <> [] -> join c (a :: l) = a ++ c :: join c l.
Proof. destruct l; [easy|reflexivity]. Qed.
Lemma join_inj c : forall l l', l <> [] -> l' <> [] -> Forall (fun p => ~ In c p) l -> Forall (fun p => ~ In c p) l' -> join c l = join c l' -> l = l'.
Proof.
  assert (One : forall a b l, l <> [] -> ~ In c a -> a <> b ++ c :: join c l).
  { intros a b l _ Na ->. apply Na, in_app_iff. right. now left. }
  induction l as [|a l IH]; intros [|b l'] N N' F F' E; try easy. inversion F as [|? ? Ia Fa]; subst. inversion F' as [|? ? Ib Fb]; subst.
  destruct l as [|a2 l], l' as [|b2 l'].
  - cbn in E. congruence.
  - rewrite (join_cons c b) in E by discriminate. cbn in E. exfalso. now apply (One a b (b2 :: l')).
  - rewrite (join_cons c a) in E by discriminate. cbn in E. exfalso. now apply (One b a (a2 :: l)).
  - rewrite (join_cons c a), (join_cons c b) in E by discriminate. assert (C := f_equal (cut c) E). rewrite (cut_some c a _ Ia), (cut_some c b _ Ib) in C.
    injection C as -> C. f_equal. apply IH; auto; discriminate.
Qed.

Section Total.
  Variable num : Type.
  Variable stod : text -> option num.

  Fixpoint all (l : list text) : option (list num) :=
    match l with
    | [] => Some []
    | c :: l' => match stod c, all l' with Some v, Some vs => Some (v :: vs) | _, _ => None end
    end.
  Lemma all_some l vs : all l = Some vs <-> map stod l = map Some vs.
  Proof.
    revert vs. induction l as [|c l IH]; intros vs; cbn.
    - destruct vs; split; intros; try discriminate; reflexivity.
    - destruct (stod c) as [v|]; [|split; [discriminate|destruct vs; discriminate]]. destruct (all l) as [ws|] eqn:E.
      + split; [intros Q; injection Q as <-; cbn; f_equal; now apply IH|]. destruct vs as [|v' vs]; [discriminate|]. intros Q. cbn [map] in Q.
        injection Q as Q1 Q2. apply IH in Q2. congruence.
      + split; [discriminate|]. destruct vs as [|v' vs]; [discriminate|]. intros Q. cbn [map] in Q. injection Q as Q1 Q2. apply IH in Q2. congruence.
  Qed.
  Lemma all_none l : all l = None <-> exists c, In c l /\ stod c = None.
  Proof.
    induction l as [|c l IH]; cbn; [split; [discriminate|intros (x & [] & _)]|]. destruct (stod c) as [v|] eqn:Ec.
    - destruct (all l) as [ws|].
      + split; [discriminate|]. intros (x & [<-|Hx] & N); [congruence|]. assert (K : Some ws = None) by (apply IH; eauto). discriminate.
      + split; [|reflexivity]. intros _. destruct (proj1 IH eq_refl) as (x & Hx & N). eauto.
    - split; [|reflexivity]. intros _. exists c. auto.
  Qed.

  (* The cells of pieces: an empty last piece is none. *)
  Fixpoint trim (parts : list text) : list text :=
    match parts with
    | [] => []
    | [x] => match x with [] => [] | _ => [x] end
    | x :: l => x :: trim l
    end.
  Lemma commas_all : forall parts fuel row, parts <> [] -> Forall (fun p => ~ In comma p) parts -> length parts <= S fuel ->
    commas num stod fuel (join comma parts) row = option_map (app row) (all (trim parts)).
  Proof.
    induction parts as [|a parts IH]; intros fuel row N F L; [easy|]. inversion F; subst. destruct parts as [|b parts].
    - cbn [join trim]. rewrite commas_eq, cut_none by auto. destruct a as [|x a]; [cbn; now rewrite app_nil_r|].
      replace (0 <? length (x :: a)) with true by (symmetry; apply Nat.ltb_lt; cbn; lia). cbn [all]. destruct (stod (x :: a)); reflexivity.
    - rewrite join_cons by discriminate. rewrite commas_eq, cut_some by auto. destruct fuel as [|f]; [cbn in L; lia|].
      change (trim (a :: b :: parts)) with (a :: trim (b :: parts)). cbn [all]. destruct (stod a) as [v|]; [|reflexivity].
      rewrite IH; [|discriminate|auto|cbn in *; lia]. destruct (all (trim (b :: parts))) as [vs|]; [|reflexivity]. cbn. now rewrite <- app_assoc.
  Qed.

  (* The cells of a line with at least two characters. *)
  Lemma trim_snoc_nil parts : parts <> [] -> trim (parts ++ [[]]) = parts.
  Proof.
    induction parts as [|a parts IH]; intros N; [easy|]. destruct parts as [|b parts]; [reflexivity|]. cbn [app]. change (trim (a :: b :: parts ++ [[]])) with (a :: trim ((b :: parts) ++ [[]])).
    now rewrite IH by discriminate.
  Qed.
  Lemma trim_id parts : last parts [] <> [] -> trim parts = parts.
  Proof.
    induction parts as [|a parts IH]; intros N; [easy|]. destruct parts as [|b parts]; [cbn in *; destruct a; [easy|reflexivity]|].
    change (trim (a :: b :: parts)) with (a :: trim (b :: parts)). now rewrite IH.
  Qed.
  Lemma join_snoc_nil c (parts : list text) : parts <> [] -> join c (parts ++ [[]]) = join c parts ++ [c].
  Proof.
    induction parts as [|a parts IH]; intros N; [easy|]. destruct parts as [|b parts]; [reflexivity|].
    change (join c (a :: ((b :: parts) ++ [[]])) = join c (a :: b :: parts) ++ [c]).
    rewrite !join_cons by (try discriminate; destruct parts; discriminate). rewrite IH by discriminate. now rewrite <- app_assoc.
  Qed.
  Lemma splits_trim s parts : parts <> [] -> Forall (fun p => ~ In comma p) parts -> s = join comma parts -> s <> [] ->
    forall cells, splits s cells <-> cells = trim parts.
  Proof.
    intros N F E Ns cells. destruct (list_eq_dec Ascii.ascii_dec (last parts []) []) as [El|El].
    - destruct (exists_last N) as (l & x & ->). rewrite last_last in El. subst x. assert (Nl : l <> []).
      { intros ->. apply Ns. rewrite E. reflexivity. }
      rewrite trim_snoc_nil by auto. apply Forall_app in F as [F _]. rewrite join_snoc_nil in E by auto. split.
      + intros (Nc & Fc & [[E1 L1]|E1]).
        * exfalso. rewrite E, <- join_snoc_nil in E1 by auto. apply join_inj in E1; [|now destruct l|auto|apply Forall_app; split; [auto|constructor; [intros []|constructor]]|auto].
          subst cells. rewrite last_last in L1. easy.
        * rewrite E in E1. apply app_inj_tail in E1 as [E1 _]. symmetry. now apply (join_inj comma).
      + intros ->. split; auto.
    - rewrite trim_id by auto. split.
      + intros (Nc & Fc & [[E1 L1]|E1]).
        * rewrite E in E1. symmetry. now apply (join_inj comma).
        * exfalso. rewrite E, <- join_snoc_nil in E1 by auto. apply join_inj in E1; [|auto|now destruct cells|auto|apply Forall_app; split; [auto|constructor; [intros []|constructor]]].
          rewrite E1, last_last in El. easy.
      + intros ->. split; auto.
  Qed.
  Lemma splits_exists s : s <> [] -> exists cells, splits s cells.
  Proof. intros N. destruct (pieces comma s) as (parts & P1 & P2 & P3). exists (trim parts). now apply (splits_trim s parts). Qed.

  Lemma parse_all line cells row : 2 <= length (strip line) -> splits (strip line) cells ->
    parseDoubleVector num stod line row = option_map (fun vs => (true, row ++ vs)) (all cells).
  Proof.
    intros L S. unfold parseDoubleVector. replace (1 <? length (strip line)) with true by (symmetry; apply Nat.ltb_lt; lia).
    destruct (pieces comma (strip line)) as (parts & N & F & E). assert (Ns : strip line <> []) by (intros K; rewrite K in L; cbn in L; lia).
    apply (splits_trim _ _ N F E Ns) in S. subst cells. 
    assert (Lp : length parts <= S (length (strip line))) by (rewrite E; now apply join_count).
    rewrite E at 2. rewrite commas_all by auto. destruct (all (trim parts)); reflexivity.
  Qed.
  Lemma parse_row_of line :
    match parseDoubleVector num stod line [] with
    | None => bad_line stod line /\ forall r, ~ row_of stod line r
    | Some (b, vs) => (forall r, row_of stod line r <-> r = if b then Some vs else None) /\ ~ bad_line stod line
    end.
  Proof.
    destruct (Nat.le_gt_cases (length (strip line)) 1) as [L|L].
    - rewrite parse_blank by auto. split; [|intros (K & _); lia]. intros [vs|]; cbn; [|split; auto]. split; [intros (K & _); lia|discriminate].
    - destruct (splits_exists (strip line)) as (cells & S); [intros K; rewrite K in L; cbn in L; lia|].
      assert (U : forall cells', splits (strip line) cells' -> cells' = cells).
      { intros cells' S'. destruct (pieces comma (strip line)) as (parts & N & F & E). assert (Ns : strip line <> []) by (intros K; rewrite K in L; cbn in L; lia).
        apply (splits_trim _ _ N F E Ns) in S, S'. congruence. }
      rewrite (parse_all line cells [] L S). destruct (all cells) as [vs|] eqn:Ea; cbn [option_map app].
      + split.
        * intros [ws|]; cbn; [|split; [lia|discriminate]]. split.
          -- intros (_ & cells' & S' & M). apply U in S' as ->. apply all_some in M. congruence.
          -- intros [= ->]. split; [lia|]. exists cells. split; auto. now apply all_some.
        * intros (_ & cells' & c & S' & Hc & Nc). apply U in S' as ->. assert (all cells = None) by (apply all_none; eauto). congruence.
      + split.
        * split; [lia|]. apply all_none in Ea as (c & Hc & Nc). exists cells, c. auto.
        * intros [ws|]; cbn; [|lia]. intros (_ & cells' & S' & M). apply U in S' as ->. apply all_some in M. congruence.
  Qed.

  Lemma csv_total : forall lines fuel result, lines <> [] -> Forall one_line lines -> length lines <= fuel ->
    match csv_loop num stod fuel (Open (join newline lines)) result with
    | Some data => exists rs, Forall2 (row_of stod) lines rs /\ data = result ++ kept rs
    | None => exists line, In line lines /\ bad_line stod line
    end.
  Proof.
    induction lines as [|a lines IH]; intros fuel result N F L; [easy|]. inversion F as [|? ? Oa Fl]; subst.
    destruct fuel as [|fuel]; [cbn in L; lia|]. assert (P := parse_row_of a). destruct lines as [|b lines].
    - cbn [join]. rewrite csv_last by auto. destruct (parseDoubleVector num stod a []) as [[bb vs]|]; [|exists a; split; [now left|apply P]].
      destruct P as [P _]. destruct bb; [exists [Some vs]|exists [None]]; (split; [constructor; [now apply P|constructor]|cbn; now rewrite ?app_nil_r]).
    - rewrite join_cons by discriminate. rewrite csv_line by auto.
      destruct (parseDoubleVector num stod a []) as [[bb vs]|]; [|exists a; split; [now left|apply P]].
      destruct P as [P _].
      assert (G : forall res', match csv_loop num stod fuel (Open (join newline (b :: lines))) res' with
         | Some data => exists rs, Forall2 (row_of stod) (b :: lines) rs /\ data = res' ++ kept rs
         | None => exists line, In line (b :: lines) /\ bad_line stod line end) by (intros res'; apply IH; auto; [discriminate|cbn in *; lia]).
      destruct bb.
      + specialize (G (result ++ [vs])). destruct (csv_loop _ _ _ _ _) as [data|]; [|destruct G as (x & X & Y); exists x; split; [now right|auto]].
        destruct G as (rs & R & ->). exists (Some vs :: rs). split; [constructor; auto; now apply P|]. cbn. now rewrite <- app_assoc.
      + specialize (G result). destruct (csv_loop _ _ _ _ _) as [data|]; [|destruct G as (x & X & Y); exists x; split; [now right|auto]].
        destruct G as (rs & R & ->). exists (None :: rs). split; [constructor; auto; now apply P|]. reflexivity.
  Qed.
  Lemma rows_unique lines : Forall one_line lines -> forall rs rs', Forall2 (row_of stod) lines rs -> Forall2 (row_of stod) lines rs' -> rs = rs'.
  Proof.
    induction 1 as [|a l Oa Ol IH]; intros rs rs' R R'; inversion R; inversion R'; subst; auto. f_equal; [|now apply IH].
    assert (P := parse_row_of a). destruct (parseDoubleVector num stod a []) as [[b vs]|]; destruct P as [P Q]; [|exfalso; eapply Q; eauto].
    match goal with [H : row_of stod a ?x, H' : row_of stod a ?y |- ?x = ?y] => apply P in H, H'; congruence end.
  Qed.
  Theorem readCSV_total t : exists lines, lines <> [] /\ Forall one_line lines /\ t = join newline lines /\
    (forall data, readCSV num stod (Some t) = Some data <-> exists rs, Forall2 (row_of stod) lines rs /\ data = kept rs) /\
    (readCSV num stod (Some t) = None <-> exists line, In line lines /\ bad_line stod line).
  Proof.
    destruct (pieces newline t) as (lines & N & F & ->). exists lines. split; auto. split; auto. split; auto. unfold readCSV.
    assert (T := csv_total lines (S (length (join newline lines))) [] N F ltac:(now apply join_count)). cbn [app] in T.
    destruct (csv_loop _ _ _ _ _) as [data|].
    - destruct T as (rs & R & ->). split.
      + intros data. split; [intros [= <-]; eauto|]. intros (rs' & R' & ->). now rewrite (rows_unique lines F rs rs' R R').
      + split; [discriminate|]. intros (line & I & B). exfalso. clear - R I B F. revert F. induction R as [|a r l rs Ra R IH]; [easy|]. intros F. inversion F; subst.
        destruct I as [<-|I]; [|now apply IH]. assert (P := parse_row_of a). destruct (parseDoubleVector num stod a []) as [[b vs]|]; destruct P as [P Q]; [easy|]. now apply (Q r).
    - split; [|split; auto]. intros data. split; [discriminate|]. intros (rs & R & _). destruct T as (line & I & B). exfalso.
      clear - R I B F. revert F. induction R as [|a r l rs Ra R IH]; [easy|]. intros F. inversion F; subst.
      destruct I as [<-|I]; [|now apply IH]. assert (P := parse_row_of a). destruct (parseDoubleVector num stod a []) as [[b vs]|]; destruct P as [P Q]; [easy|]. now apply (Q r).
  Qed.

  (* ---- streams *)
  Lemma take_spec : forall n t, exists b, fgets_take n t = b /\ ((exists a t', t = a ++ newline :: t' /\ one_line a /\ length a < n /\ b = (a ++ [newline], t')) \/
     (exists a t', t = a ++ t' /\ one_line a /\ length a = n /\ b = (a, t')) \/
     (one_line t /\ length t < n /\ b = (t, []))).
  Proof.
    induction n as [|n IH]; intros t.
    - exists ([], t). split; [destruct t; reflexivity|]. right. left. exists [], t. split; auto. split; [intros []|auto].
    - destruct t as [|x t]; [exists ([], []); split; [reflexivity|]; right; right; split; [intros []|split; [cbn; lia|reflexivity]]|].
      cbn [fgets_take]. destruct (Ascii.eqb_spec x newline) as [->|Nx].
      + eexists. split; [reflexivity|]. left. exists [], t. split; auto. split; [intros []|]. split; [cbn; lia|reflexivity].
      + destruct (IH t) as (b & -> & C). destruct C as [(a & t' & -> & O & L & ->)|[(a & t' & -> & O & L & ->)|(O & L & ->)]];
          (eexists; split; [reflexivity|]).
        * left. exists (x :: a), t'. split; auto. split; [intros [K|K]; [congruence|now apply O]|]. split; [cbn; lia|reflexivity].
        * right. left. exists (x :: a), t'. split; auto. split; [intros [K|K]; [congruence|now apply O]|]. split; [cbn; lia|reflexivity].
        * right. right. split; [intros [K|K]; [congruence|now apply O]|]. split; [cbn; lia|reflexivity].
  Qed.
  Lemma chunk_step t b t' : t <> [] -> fgets 1000 t = Some (b, t') -> length t' < length t /\ forall l, chunked t' l -> chunked t (b :: l).
  Proof.
    intros N E. assert (E' : fgets_take 999 t = (b, t')).
    { unfold fgets in E. change (1000 - 1) with 999 in E. remember 999 as k. destruct t; [easy|]. injection E as E. exact E. }
    clear E. remember 999 as k eqn:Ek. destruct (take_spec k t) as (b' & E & C). rewrite E' in E. subst b'. subst k. clear E'.
    destruct C as [(a & t1 & Q & O & L & E)|[(a & t1 & Q & O & L & E)|(O & L & E)]]; injection E as -> ->.
    - rewrite Q. split; [rewrite app_length; cbn; lia|]. intros l H. apply chunked_line; auto. lia.
    - rewrite Q. split; [rewrite app_length; lia|]. intros l H. now apply chunked_full.
    - split; [destruct t; [easy|cbn; lia]|]. intros l H. inversion H; subst; [apply chunked_last; auto|..]; exfalso.
      + destruct a; discriminate.
      + destruct a; [cbn in *; lia|discriminate].
      + easy.
  Qed.
  Lemma cstring_spec b s : c_string b s <-> s = cstring b.
  Proof.
    unfold c_string, cstring. assert (C := cut_spec nul b). destruct (cut nul b) as [a [r|]]; destruct C as [-> N]; cbn [fst].
    - split; [|intros ->; split; [auto|right; eauto]]. intros [Ns [->|(r' & E)]]; [exfalso; apply Ns, in_app_iff; right; now left|].
      assert (C := f_equal (cut nul) E). rewrite !cut_some in C by auto. congruence.
    - split; [|intros ->; auto]. intros [Ns [->|(r' & ->)]]; [auto|]. exfalso. apply N, in_app_iff. right. now left.
  Qed.
  Definition stream_ends (chunks : list text) (rows : list (list num)) : Prop := exists l1 l2, chunks = l1 ++ l2 /\
    Forall2 (buffer_row stod) l1 rows /\ (l2 = [] \/ exists b l3, l2 = b :: l3 /\ buffer_blank b).
  Definition stream_throws (chunks : list text) : Prop := exists l1 rows b l3, chunks = l1 ++ b :: l3 /\
    Forall2 (buffer_row stod) l1 rows /\ buffer_bad stod b.

  Lemma buffer_parse b : match parseDoubleVector num stod (cstring b) [] with
    | None => buffer_bad stod b /\ ~ buffer_blank b /\ forall vs, ~ buffer_row stod b vs
    | Some (false, _) => buffer_blank b /\ ~ buffer_bad stod b /\ forall vs, ~ buffer_row stod b vs
    | Some (true, vs) => (forall ws, buffer_row stod b ws <-> ws = vs) /\ ~ buffer_bad stod b /\ ~ buffer_blank b
    end.
  Proof.
    assert (P := parse_row_of (cstring b)). assert (C := cstring_spec b).
    destruct (parseDoubleVector num stod (cstring b) []) as [[[|] vs]|]; destruct P as [P Q].
    - split; [|split].
      + intros ws. split; [intros (s & S & R); apply C in S as ->; apply P in R; congruence|]. intros ->. exists (cstring b). split; [now apply C|now apply P].
      + intros (s & S & R). apply C in S as ->. easy.
      + intros (s & S & R). apply C in S as ->. assert (K : row_of stod (cstring b) None) by exact R. apply P in K. discriminate.
    - split; [|split].
      + exists (cstring b). split; [now apply C|]. exact (proj2 (P None) eq_refl).
      + intros (s & S & R). apply C in S as ->. easy.
      + intros ws (s & S & R). apply C in S as ->. apply P in R. discriminate.
    - split; [|split].
      + exists (cstring b). split; [now apply C|exact P].
      + intros (s & S & R). apply C in S as ->. now apply (Q None).
      + intros ws (s & S & R). apply C in S as ->. now apply (Q (Some ws)).
  Qed.
  Theorem stream_total t : exists chunks, chunked t chunks /\ forall fuel, length t < fuel ->
    (forall rows, stream_rows num stod fuel t = Some rows <-> stream_ends chunks rows) /\
    (stream_rows num stod fuel t = None <-> stream_throws chunks).
  Proof.
    remember (length t) as n eqn:E. revert t E. induction n as [n IH] using lt_wf_ind. intros t ->.
    destruct t as [|x t0] eqn:Et.
    - exists []. split; [constructor|]. intros [|f] L; [cbn in L; lia|]. cbn. split.
      + intros rows. split.
        * intros [= <-]. exists [], []. split; auto.
        * intros (l1 & l2 & Q & R & _). symmetry in Q. apply app_eq_nil in Q as [-> ->]. inversion R; subst. reflexivity.
      + split; [discriminate|]. intros (l1 & rows & b & l3 & Q & _). now destruct l1.
    - rewrite <- Et in *. assert (N : t <> []) by (rewrite Et; discriminate).
      destruct (fgets 1000 t) as [[b t']|] eqn:Ef; [|exfalso; rewrite Et in Ef; discriminate].
      destruct (chunk_step t b t' N Ef) as [Lt Ck]. destruct (IH (length t') Lt t' eq_refl) as (chunks & C & R).
      exists (b :: chunks). split; [now apply Ck|]. intros [|f] L; [lia|]. cbn [stream_rows]. unfold streamRead. rewrite Ef.
      assert (P := buffer_parse b). destruct (parseDoubleVector num stod (cstring b) []) as [[[|] vs]|].
      + destruct P as (P1 & P2 & P3). destruct (R f ltac:(lia)) as [R1 R2].
        destruct (stream_rows num stod f t') as [rest|]; cbn [option_map].
        * split.
          -- intros rows. split.
             ++ intros [= <-]. destruct (proj1 (R1 rest) eq_refl) as (l1 & l2 & -> & F & T). exists (b :: l1), l2.
                split; auto. split; [constructor; [now apply P1|auto]|auto].
             ++ intros (l1 & l2 & Q & F & T). destruct l1 as [|b1 l1].
                ** exfalso. cbn in Q. subst l2. destruct T as [T|(b2 & l3 & T & B)]; [discriminate|]. injection T as <- <-. easy.
                ** injection Q as <- ->. inversion F as [|? w ? ws Fb Fl]; subst. apply P1 in Fb as ->. f_equal. f_equal.
                   assert (K : Some rest = Some ws) by (apply R1; exists l1, l2; auto). congruence.
          -- split; [discriminate|]. intros (l1 & rows & b2 & l3 & Q & F & B). destruct l1 as [|b1 l1]; cbn in Q.
             ++ injection Q as <- <-. easy.
             ++ injection Q as <- ->. inversion F; subst. assert (K : Some rest = None) by (apply R2; eexists l1, _, b2, l3; eauto). discriminate.
        * split.
          -- intros rows. split; [discriminate|]. intros (l1 & l2 & Q & F & T). exfalso. destruct l1 as [|b1 l1].
             ++ cbn in Q. subst l2. destruct T as [T|(b2 & l3 & T & B)]; [discriminate|]. injection T as <- <-. easy.
             ++ injection Q as <- ->. inversion F as [|? w ? ws Fb Fl]; subst. assert (K : None = Some ws) by (apply R1; exists l1, l2; auto). discriminate.
          -- split; [|reflexivity]. intros _. destruct (proj1 R2 eq_refl) as (l1 & rows & b2 & l3 & -> & F & B).
             exists (b :: l1), (vs :: rows), b2, l3. split; auto. split; [constructor; [now apply P1|auto]|auto].
      + destruct P as (P1 & P2 & P3). split.
        * intros rows. split.
          -- intros [= <-]. exists [], (b :: chunks). split; auto. split; [constructor|]. right. eauto.
          -- intros (l1 & l2 & Q & F & T). destruct l1 as [|b1 l1]; [inversion F; reflexivity|]. exfalso. injection Q as <- ->. inversion F; subst. eapply P3; eauto.
        * split; [discriminate|]. intros (l1 & rows & b2 & l3 & Q & F & B). destruct l1 as [|b1 l1]; injection Q as <- ->; [easy|]. inversion F; subst. exfalso. eapply P3; eauto.
      + destruct P as (P1 & P2 & P3). split.
        * intros rows. split; [discriminate|]. intros (l1 & l2 & Q & F & T). exfalso. destruct l1 as [|b1 l1].
          -- cbn in Q. subst l2. destruct T as [T|(b2 & l3 & T & B)]; [discriminate|]. injection T as <- <-. easy.
          -- injection Q as <- ->. inversion F; subst. eapply P3; eauto.
        * split; [|reflexivity]. intros _. exists [], [], b, chunks. split; auto.
  Qed.
End Total.
