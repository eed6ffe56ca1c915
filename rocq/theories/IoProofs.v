(* IoProofs.v -- lemmas about reading and writing files (C30-C33, C61). *)
From Coq Require Import Ascii List Arith ZArith Bool Lia.
From Verif Require Import Base IoModel SpecIo.
Import ListNotations.
Local Open Scope nat_scope.
Local Open Scope list_scope.

Lemma cut_some c a b : ~ In c a -> cut c (a ++ c :: b) = (a, Some b).
Proof.
  induction a as [|x a IH]; intros H; cbn; [now rewrite Ascii.eqb_refl|]. destruct (Ascii.eqb_spec x c) as [->|N]; [exfalso; apply H; now left|].
  rewrite IH; [reflexivity|]. intros K. apply H. now right.
Qed.
Lemma cut_none c a : ~ In c a -> cut c a = (a, None).
Proof.
  induction a as [|x a IH]; intros H; cbn; [reflexivity|]. destruct (Ascii.eqb_spec x c) as [->|N]; [exfalso; apply H; now left|].
  rewrite IH; [reflexivity|]. intros K. apply H. now right.
Qed.
Lemma strip_app a b : strip (a ++ b) = strip a ++ strip b.
Proof. apply filter_app. Qed.
Lemma strip_id a : ~ In space a -> strip a = a.
Proof.
  induction a as [|x a IH]; intros H; [reflexivity|]. unfold strip. cbn [filter]. destruct (Ascii.eqb_spec x space) as [->|N]; [exfalso; apply H; now left|].
  cbn [negb]. f_equal. apply IH. intros K. apply H. now right.
Qed.
Lemma join_in sep x l : In x (join sep l) -> (exists c, In c l /\ In x c) \/ x = sep.
Proof.
  induction l as [|c l IH]; cbn [join]; [intros []|]. destruct l as [|c' l]; [intros H; left; exists c; split; [now left|exact H]|].
  rewrite in_app_iff. cbn [In]. intros [H|[H|H]]; [left; exists c; split; [now left|exact H]|now right|]. destruct (IH H) as [(d & D & E)|E]; [left; exists d; split; [now right|exact E]|now right].
Qed.
Lemma join_length sep (l : list text) : l <> [] -> Forall (fun c : text => c <> []) l -> length l <= length (join sep l).
Proof.
  induction l as [|c l IH]; intros N F; [easy|]. inversion F; subst. destruct c as [|a c]; [easy|]. cbn [join]. destruct l as [|c' l]; [cbn; lia|].
  assert (K := IH ltac:(discriminate) H2). set (r := join sep (c' :: l)) in *. rewrite app_length. cbn [length] in *. lia.
Qed.
Lemma plain_nonempty l : Forall plain l -> Forall (fun c : text => c <> []) l.
Proof. apply Forall_impl. intros c H. apply H. Qed.

Section Io.
  Variable num : Type.
  Variable stod : text -> option num.

  Lemma commas_eq fuel line row : commas num stod fuel line row =
    match cut comma line with
    | (a, Some rest) => match fuel with O => None | S f => match stod a with Some v => commas num stod f rest (row ++ [v]) | None => None end end
    | (_, None) => if 0 <? length line then match stod line with Some v => Some (row ++ [v]) | None => None end else Some row
    end.
  Proof. destruct fuel; reflexivity. Qed.
  Lemma commas_join : forall cells vs fuel row, cells <> [] -> Forall plain cells -> map stod cells = map Some vs -> length cells <= fuel ->
    commas num stod fuel (join comma cells) row = Some (row ++ vs) /\ commas num stod fuel (join comma cells ++ [comma]) row = Some (row ++ vs).
  Proof.
    induction cells as [|c cells IH]; intros vs fuel row N F M L; [easy|]. destruct vs as [|v vs]; [discriminate|]. cbn [map] in M. injection M as Mc Mv. inversion F as [|? ? Pc Fc]; subst.
    assert (Pl : 0 <? length c = true) by (apply Nat.ltb_lt; destruct c; [now destruct Pc|cbn; lia]).
    destruct cells as [|c' cells].
    - destruct vs; [|discriminate]. cbn [join]. split; rewrite commas_eq.
      + rewrite cut_none by apply Pc. rewrite Pl, Mc. reflexivity.
      + rewrite cut_some by apply Pc. destruct fuel as [|fuel]; [cbn in L; lia|]. rewrite Mc. rewrite commas_eq. reflexivity.
    - cbn [join]. change (match cells with [] => c' | _ :: _ => c' ++ comma :: join comma cells end) with (join comma (c' :: cells)).
      destruct fuel as [|fuel]; [cbn in L; lia|]. destruct (IH vs fuel (row ++ [v]) ltac:(discriminate) Fc Mv ltac:(cbn [length] in *; lia)) as [I1 I2].
      rewrite <- app_assoc in I1, I2. cbn [app] in I1, I2. split; rewrite commas_eq.
      + rewrite cut_some by apply Pc. rewrite Mc. exact I1.
      + rewrite <- app_assoc. cbn [app]. rewrite cut_some by apply Pc. rewrite Mc. exact I2.
  Qed.
  Lemma parse_row line cells vs row : is_row line cells -> 2 <= length (strip line) -> map stod cells = map Some vs ->
    parseDoubleVector num stod line row = Some (true, row ++ vs).
  Proof.
    intros (_ & N & F & E) L M. unfold parseDoubleVector. replace (1 <? length (strip line)) with true by (symmetry; apply Nat.ltb_lt; lia).
    assert (K : length cells <= length (strip line)).
    { assert (Q := join_length comma cells N (plain_nonempty _ F)). destruct E as [E|E]; rewrite E, ?app_length; lia. }
    destruct (commas_join cells vs (length (strip line)) row N F M K) as [C1 C2]. destruct E as [E|E]; rewrite E at 2; [rewrite C1|rewrite C2]; reflexivity.
  Qed.
  Lemma parse_blank line row : length (strip line) <= 1 -> parseDoubleVector num stod line row = Some (false, row).
  Proof. intros H. unfold parseDoubleVector. now replace (1 <? length (strip line)) with false by (symmetry; apply Nat.ltb_ge; lia). Qed.

  (* one line of a CSV file *)
  Lemma csv_line fuel line rest result : one_line line ->
    csv_loop num stod (S fuel) (Open (line ++ newline :: rest)) result =
    match parseDoubleVector num stod line [] with
    | None => None | Some (true, tmp) => csv_loop num stod fuel (Open rest) (result ++ [tmp]) | Some (false, _) => csv_loop num stod fuel (Open rest) result
    end.
  Proof. intros H. cbn [csv_loop getline]. rewrite cut_some by exact H. reflexivity. Qed.
  Lemma csv_last fuel line result : one_line line ->
    csv_loop num stod (S fuel) (Open line) result =
    match parseDoubleVector num stod line [] with
    | None => None | Some (true, tmp) => Some (result ++ [tmp]) | Some (false, _) => Some result
    end.
  Proof. intros H. cbn [csv_loop getline]. rewrite cut_none by exact H. destruct (parseDoubleVector num stod line []) as [[[|] tmp]|]; [destruct fuel| destruct fuel|]; reflexivity. Qed.
  Lemma line_reads_parse line r : line_reads stod line r -> one_line line /\
    parseDoubleVector num stod line [] = Some (match r with Some vs => (true, vs) | None => (false, []) end).
  Proof.
    destruct r as [vs|]; cbn.
    - intros (cells & R & L & M). split; [apply R|]. exact (parse_row line cells vs [] R L M).
    - intros [O L]. split; [exact O|]. now apply parse_blank.
  Qed.
  Lemma csv_loop_lines : forall lines rs fuel result, lines <> [] -> Forall2 (line_reads stod) lines rs -> length lines <= fuel ->
    csv_loop num stod fuel (Open (join newline lines)) result = Some (result ++ kept rs).
  Proof.
    induction lines as [|l lines IH]; intros rs fuel result N F L; [easy|]. inversion F as [|? r ? rs' R F']; subst. destruct (line_reads_parse l r R) as [O P].
    destruct fuel as [|fuel]; [cbn in L; lia|]. destruct lines as [|l' lines].
    - inversion F'; subst. cbn [join]. rewrite csv_last by exact O. rewrite P. destruct r; cbn; now rewrite ?app_nil_r.
    - cbn [join]. change (match lines with [] => l' | _ :: _ => l' ++ newline :: join newline lines end) with (join newline (l' :: lines)).
      rewrite csv_line by exact O. rewrite P. cbn [length] in L.
      destruct r as [vs|]; rewrite (IH rs' fuel _ ltac:(discriminate) F' ltac:(cbn [length] in *; lia)); cbn [kept flat_map]; [rewrite <- app_assoc|]; reflexivity.
  Qed.
  Lemma join_count sep (l : list text) : l <> [] -> length l <= S (length (join sep l)).
  Proof.
    induction l as [|c l IH]; intros N; [easy|]. cbn [join]. destruct l as [|c' l]; [cbn; lia|].
    assert (K := IH ltac:(discriminate)). set (r := join sep (c' :: l)) in *. rewrite app_length. cbn [length] in *. lia.
  Qed.
  Theorem readCSV_lines lines rs : lines <> [] -> Forall2 (line_reads stod) lines rs -> readCSV num stod (Some (join newline lines)) = Some (kept rs).
  Proof. intros N F. unfold readCSV. rewrite (csv_loop_lines lines rs) by (auto; now apply join_count). reflexivity. Qed.
  (* a bad line stops everything *)
  Lemma csv_loop_throw : forall lines rs bad rest fuel result, Forall2 (line_reads stod) lines rs -> one_line bad -> parseDoubleVector num stod bad [] = None ->
    (forall r, rest = Some r -> True) ->
    csv_loop num stod fuel (Open (lines_of lines ++ match rest with Some r => bad ++ newline :: r | None => bad end)) result = None.
  Proof.
    induction lines as [|l lines IH]; intros rs bad rest fuel result F O P _; inversion F as [|? r ? rs' R F']; subst; (destruct fuel as [|fuel]; [reflexivity|]).
    - cbn [lines_of flat_map app]. destruct rest as [r|]; [rewrite csv_line by exact O|rewrite csv_last by exact O]; now rewrite P.
    - destruct (line_reads_parse l r R) as [Ol Pl]. unfold lines_of. cbn [flat_map]. rewrite <- !app_assoc. cbn [app]. rewrite csv_line by exact Ol. rewrite Pl.
      destruct r; (eapply IH; [exact F'|exact O|exact P|auto]).
  Qed.
  Theorem readCSV_throw lines rs bad rest : Forall2 (line_reads stod) lines rs -> one_line bad -> parseDoubleVector num stod bad [] = None ->
    readCSV num stod (Some (lines_of lines ++ bad ++ newline :: rest)) = None /\ readCSV num stod (Some (lines_of lines ++ bad)) = None.
  Proof.
    intros F O P. unfold readCSV. split.
    - exact (csv_loop_throw lines rs bad (Some rest) _ [] F O P ltac:(auto)).
    - exact (csv_loop_throw lines rs bad None _ [] F O P ltac:(auto)).
  Qed.
  Lemma commas_throw : forall cells vs a rest fuel row, Forall plain cells -> map stod cells = map Some vs -> ~ In comma a -> stod a = None ->
    commas num stod fuel (flat_map (fun c => c ++ [comma]) cells ++ a ++ comma :: rest) row = None.
  Proof.
    induction cells as [|c cells IH]; intros vs a rest fuel row F M N S0.
    - cbn [flat_map app]. rewrite commas_eq, cut_some by exact N. destruct fuel; [reflexivity|]. now rewrite S0.
    - destruct vs as [|v vs]; [discriminate|]. cbn [map] in M. injection M as Mc Mv. inversion F; subst. cbn [flat_map]. rewrite <- !app_assoc. cbn [app].
      rewrite commas_eq, cut_some by apply H1. destruct fuel; [reflexivity|]. rewrite Mc. eapply IH; eauto.
  Qed.
  Lemma commas_throw_last : forall cells vs a fuel row, Forall plain cells -> map stod cells = map Some vs -> a <> [] -> ~ In comma a -> stod a = None ->
    commas num stod fuel (flat_map (fun c => c ++ [comma]) cells ++ a) row = None.
  Proof.
    induction cells as [|c cells IH]; intros vs a fuel row F M Ne N S0.
    - cbn [flat_map app]. rewrite commas_eq, cut_none by exact N. rewrite S0. destruct a; [easy|]. reflexivity.
    - destruct vs as [|v vs]; [discriminate|]. cbn [map] in M. injection M as Mc Mv. inversion F; subst. cbn [flat_map]. rewrite <- !app_assoc. cbn [app].
      rewrite commas_eq, cut_some by apply H1. destruct fuel; [reflexivity|]. rewrite Mc. eapply IH; eauto.
  Qed.

  (* writing *)
  Variable to_string : num -> text.
  Variable rnd : num -> num.
  Hypothesis Pr : printable stod to_string rnd.

  Lemma csv_row_text row : row <> [] -> flat_map (fun c => to_string c ++ [comma]) row = join comma (map to_string row) ++ [comma].
  Proof.
    induction row as [|c row IH]; intros N; [easy|]. destruct row as [|c' row]; [cbn; now rewrite app_nil_r|].
    change (join comma (map to_string (c :: c' :: row))) with (to_string c ++ comma :: join comma (map to_string (c' :: row))).
    change (flat_map (fun c => to_string c ++ [comma]) (c :: c' :: row)) with ((to_string c ++ [comma]) ++ flat_map (fun c => to_string c ++ [comma]) (c' :: row)).
    rewrite IH by discriminate. rewrite <- !app_assoc. reflexivity.
  Qed.
  Lemma Pr_map row : map stod (map to_string row) = map Some (map rnd row).
  Proof. rewrite !map_map. apply map_ext. intros x. apply Pr. Qed.
  Lemma Pr_plain row : Forall plain (map to_string row).
  Proof. apply Forall_forall. intros c Hc. apply in_map_iff in Hc as (x & <- & _). apply Pr. Qed.
  Lemma csv_row_reads row : line_reads stod (flat_map (fun c => to_string c ++ [comma]) row) (match row with [] => None | _ => Some (map rnd row) end).
  Proof.
    destruct row as [|c row]; [split; [intros []|cbn; lia]|]. set (r := c :: row). assert (N : r <> []) by discriminate.
    change (line_reads stod (flat_map (fun c => to_string c ++ [comma]) r) (Some (map rnd r))). rewrite csv_row_text by exact N.
    assert (F := Pr_plain r). assert (Sp : strip (join comma (map to_string r) ++ [comma]) = join comma (map to_string r) ++ [comma]).
    { apply strip_id. rewrite in_app_iff. intros [H|[H|[]]]; [|discriminate H]. apply join_in in H as [(d & D & H)|H]; [|discriminate]. rewrite Forall_forall in F. destruct (F d D) as (_ & ? & ? & ? & ?). contradiction. }
    exists (map to_string r). split; [|split; [|apply Pr_map]].
    - split; [|split; [discriminate|split; [exact F|now right]]]. intros H. apply in_app_iff in H as [H|[H|[]]]; [|discriminate H].
      apply join_in in H as [(d & D & H)|H]; [|discriminate]. rewrite Forall_forall in F. destruct (F d D) as (_ & ? & ? & ? & ?). contradiction.
    - rewrite Sp, app_length. assert (Q := join_length comma (map to_string r) ltac:(discriminate) (plain_nonempty _ F)). rewrite map_length in Q. unfold r in Q at 1. cbn [length] in *. lia.
  Qed.
  Lemma lines_of_join (l : list text) : lines_of l = join newline (l ++ [[]]).
  Proof.
    induction l as [|x l IH]; [reflexivity|]. unfold lines_of in *. cbn [flat_map app join]. rewrite IH. destruct l; cbn [app join]; rewrite <- app_assoc; reflexivity.
  Qed.
  Lemma writeCSV_lines data : writeCSV num to_string data = lines_of (map (flat_map (fun c => to_string c ++ [comma])) data).
  Proof. unfold writeCSV, lines_of. now rewrite flat_map_concat_map, flat_map_concat_map, map_map. Qed.
  Theorem readCSV_writeCSV data :
    readCSV num stod (Some (writeCSV num to_string data)) = Some (map (map rnd) (filter (fun row => negb (length row =? 0)) data)).
  Proof.
    rewrite writeCSV_lines, lines_of_join. set (rs := map (fun row => match row with [] => None | _ => Some (map rnd row) end) data).
    rewrite (readCSV_lines _ (rs ++ [None])).
    - f_equal. unfold kept. rewrite flat_map_app. cbn [flat_map app]. rewrite app_nil_r. unfold rs. clear. induction data as [|[|c row] data IH]; cbn; auto. now rewrite IH.
    - destruct data; discriminate.
    - apply Forall2_app; [|constructor; [split; [intros []|cbn; lia]|constructor]]. unfold rs. clear rs. induction data as [|row data IH]; cbn [map]; constructor; [apply csv_row_reads|exact IH].
  Qed.

  (* MAT *)
  Definition vlines (l : list num) : text := lines_of (map to_string l).
  Lemma vlines_cons x l : vlines (x :: l) = to_string x ++ newline :: vlines l.
  Proof. unfold vlines, lines_of. cbn. now rewrite <- app_assoc. Qed.
  Lemma mat_data_text data : flat_map (fun row => flat_map (fun c => to_string c ++ [newline]) row) data = vlines (concat data).
  Proof.
    unfold vlines, lines_of. induction data as [|row data IH]; cbn; auto. rewrite map_app, flat_map_app, IH. f_equal. clear. induction row as [|c row IH]; cbn; auto. now rewrite IH.
  Qed.
  (* reading from a file that ends with a newline *)
  Definition at_lines (st : stream) (line : text) (rest : list num) : Prop :=
    st = Open (vlines rest) \/ (rest = [] /\ st = Eof /\ line = []).
  Lemma mat_row_lines : forall dims st line rest tmp, at_lines st line rest ->
    exists st' line', mat_row num stod dims st line tmp = Some (st', line', tmp ++ firstn dims (map rnd rest)) /\ at_lines st' line' (skipn dims rest).
  Proof.
    induction dims as [|dims IH]; intros st line rest tmp A; [exists st, line; split; [cbn; now rewrite app_nil_r|exact A]|].
    cbn [mat_row]. destruct A as [-> |(-> & -> & ->)].
    - destruct rest as [|x rest].
      + cbn. destruct (IH Eof [] [] tmp ltac:(right; auto)) as (st' & line' & E & A). exists st', line'. rewrite E. cbn. rewrite firstn_nil in *. rewrite skipn_nil in A. auto.
      + rewrite vlines_cons. destruct (Pr x) as [P E]. cbn [getline]. rewrite cut_some by apply P. rewrite strip_id by apply P. replace (0 <? length (to_string x)) with true by (symmetry; apply Nat.ltb_lt; destruct (to_string x); [now destruct P|cbn; lia]).
        rewrite E. destruct (IH (Open (vlines rest)) (to_string x) rest (tmp ++ [rnd x]) ltac:(now left)) as (st' & line' & E' & A). exists st', line'. rewrite E', <- app_assoc. auto.
    - cbn. destruct (IH Eof [] [] tmp ltac:(right; auto)) as (st' & line' & E & A). exists st', line'. rewrite E. cbn. rewrite firstn_nil in *. rewrite skipn_nil in A. auto.
  Qed.
  Lemma skipn_skipn {A} (l : list A) : forall a b, skipn a (skipn b l) = skipn (b + a) l.
  Proof. induction l as [|x l IH]; intros a b; [now rewrite !skipn_nil|]. destruct b; [reflexivity|]. cbn. apply IH. Qed.
  Lemma chunk_map {A B} (f : A -> B) d i l : chunk d i (map f l) = map f (chunk d i l).
  Proof. unfold chunk. now rewrite <- firstn_map, skipn_map. Qed.
  Lemma mat_rows_lines dims : forall vects st line rest result, at_lines st line rest ->
    mat_rows num stod vects dims st line result = Some (result ++ map (fun i => chunk dims i (map rnd rest)) (seq 0 vects)).
  Proof.
    induction vects as [|vects IH]; intros st line rest result A; [cbn; now rewrite app_nil_r|]. cbn [mat_rows].
    destruct (mat_row_lines dims st line rest [] A) as (st' & line' & E & A'). rewrite E. rewrite (IH _ _ _ _ A'). rewrite <- app_assoc. f_equal. f_equal.
    cbn [seq map app]. f_equal. rewrite <- seq_shift, map_map. apply map_ext. intros i. unfold chunk. rewrite <- skipn_map, skipn_skipn. reflexivity.
  Qed.
  Variable stoi : text -> option Z.
  Variable show : nat -> text.
  Lemma readMAT_head r d rest : count_printable stoi show r -> count_printable stoi show d ->
    readMAT num stod stoi (Some (show r ++ newline :: show d ++ newline :: rest)) = mat_rows num stod r d (Open rest) (show d) [].
  Proof.
    intros [Pr' Er] [Pd Ed]. unfold readMAT, getline. rewrite cut_some by apply Pr'. cbn [negb]. rewrite strip_id by apply Pr'. rewrite Er.
    rewrite cut_some by apply Pd. cbn [negb]. rewrite strip_id by apply Pd. rewrite Ed. now rewrite !Nat2Z.id.
  Qed.
  Theorem readMAT_newline r d vs : count_printable stoi show r -> count_printable stoi show d ->
    readMAT num stod stoi (Some (show r ++ newline :: show d ++ newline :: vlines vs)) = Some (map (fun i => chunk d i (map rnd vs)) (seq 0 r)).
  Proof. intros Cr Cd. rewrite readMAT_head by auto. rewrite (mat_rows_lines d r _ _ vs []) by now left. reflexivity. Qed.
  Theorem readMAT_writeMAT data : count_printable stoi show (length data) -> count_printable stoi show (length (hd [] data)) -> data <> [] ->
    exists t, writeMAT num to_string show data = Ok t /\
      readMAT num stod stoi (Some t) = Some (map (fun i => chunk (length (hd [] data)) i (map rnd (concat data))) (seq 0 (length data))).
  Proof.
    destruct data as [|row data]; [easy|]. intros Cr Cd _. eexists. split; [reflexivity|]. cbn [hd]. rewrite mat_data_text. cbn [app]. now apply readMAT_newline.
  Qed.
  Lemma chunks_rect {A} d (data : list (list A)) : Forall (fun row => length row = d) data -> map (fun i => chunk d i (concat data)) (seq 0 (length data)) = data.
  Proof.
    induction data as [|row data IH]; intros F; [reflexivity|]. inversion F as [|? ? L F']; subst. cbn [length seq map concat]. f_equal.
    - unfold chunk. cbn [Nat.mul skipn]. rewrite firstn_app, Nat.sub_diag, firstn_O, app_nil_r. apply firstn_all.
    - rewrite <- seq_shift, map_map. rewrite <- (IH F') at 2. apply map_ext. intros i. unfold chunk. f_equal. cbn [Nat.mul].
      replace (length row + i * length row) with (length row + (i * length row)) by lia. rewrite skipn_app. rewrite skipn_all2 by lia. cbn [app]. f_equal. lia.
  Qed.
  Theorem readMAT_writeMAT_rect data d : count_printable stoi show (length data) -> count_printable stoi show d ->
    data <> [] -> Forall (fun row => length row = d) data ->
    exists t, writeMAT num to_string show data = Ok t /\ readMAT num stod stoi (Some t) = Some (map (map rnd) data).
  Proof.
    intros Cr Cd N F. destruct (readMAT_writeMAT data Cr ltac:(destruct F as [|row rows E F]; [easy|cbn [hd]; rewrite E; exact Cd]) N) as (t & E & R). exists t. split; [exact E|]. rewrite R. f_equal. destruct data as [|row data]; [easy|]. inversion F; subst. cbn [hd].
    rewrite concat_map. rewrite <- (map_length (map rnd) (row :: data)). apply chunks_rect. apply Forall_forall. intros x Hx. apply in_map_iff in Hx as (y & <- & Hy). rewrite map_length. rewrite Forall_forall in F. now apply F.
  Qed.

  (* a file whose last value is not followed by a newline *)
  Definition at_join (st : stream) (line : text) (last : num) (rest : list num) : Prop :=
    (exists r x, rest = r ++ [x] /\ x = last /\ st = Open (join newline (map to_string rest))) \/ (rest = [] /\ st = Eof /\ line = to_string last).
  Lemma mat_row_join last : forall dims st line rest tmp, at_join st line last rest ->
    exists st' line', mat_row num stod dims st line tmp = Some (st', line', tmp ++ map (fun j => nth j (map rnd rest) (rnd last)) (seq 0 dims)) /\ at_join st' line' last (skipn dims rest).
  Proof.
    induction dims as [|dims IH]; intros st line rest tmp A; [exists st, line; split; [cbn; now rewrite app_nil_r|exact A]|].
    assert (NE : forall x, 0 <? length (to_string x) = true) by (intros x; apply Nat.ltb_lt; destruct (Pr x) as [P _]; destruct (to_string x); [now destruct P|cbn; lia]).
    cbn [mat_row]. destruct A as [(r & x & -> & -> & ->)|(-> & -> & ->)].
    - destruct r as [|y r].
      + cbn [app map join]. destruct (Pr last) as [P E]. cbn [getline]. rewrite cut_none by apply P. rewrite strip_id by apply P. rewrite NE, E.
        destruct (IH Eof (to_string last) [] (tmp ++ [rnd last]) ltac:(right; auto)) as (st' & line' & E' & A). exists st', line'. rewrite E', <- app_assoc. split; [|cbn; now rewrite skipn_nil in *].
        f_equal. f_equal. f_equal. cbn [seq map app nth]. f_equal. rewrite <- seq_shift, map_map. apply map_ext. intros j. cbn. now destruct j.
      + set (rr := r ++ [last]). assert (rr <> []) by (unfold rr; destruct r; discriminate). change ((y :: r) ++ [last]) with (y :: rr). cbn [map]. 
        assert (EJ : join newline (to_string y :: map to_string rr) = to_string y ++ newline :: join newline (map to_string rr)) by (destruct rr; [easy|reflexivity]). rewrite EJ.
        destruct (Pr y) as [P E]. cbn [getline]. rewrite cut_some by apply P. rewrite strip_id by apply P. rewrite NE, E.
        destruct (IH (Open (join newline (map to_string rr))) (to_string y) rr (tmp ++ [rnd y])) as (st' & line' & E' & A); [left; exists r, last; auto|]. exists st', line'. rewrite E', <- app_assoc. split; [|exact A].
        f_equal. f_equal. f_equal. cbn [seq map app nth]. f_equal. rewrite <- seq_shift, map_map. apply map_ext. intros j. reflexivity.
    - cbn [getline]. destruct (Pr last) as [P E]. rewrite strip_id by apply P. rewrite NE, E.
      destruct (IH Eof (to_string last) [] (tmp ++ [rnd last]) ltac:(right; auto)) as (st' & line' & E' & A). exists st', line'. rewrite E', <- app_assoc. split; [|cbn; now rewrite skipn_nil in *].
      f_equal. f_equal. f_equal. cbn [seq map app nth]. f_equal. rewrite <- seq_shift, map_map. apply map_ext. intros j. cbn. now destruct j.
  Qed.
  Lemma nth_skipn {A} (l : list A) d : forall i j, nth j (skipn i l) d = nth (i + j) l d.
  Proof. induction l as [|x l IH]; intros i j; [rewrite skipn_nil; destruct j, i; reflexivity|]. destruct i; [reflexivity|]. cbn. apply IH. Qed.
  Lemma mat_rows_join dims last : forall vects st line rest result, at_join st line last rest ->
    mat_rows num stod vects dims st line result = Some (result ++ map (fun i => map (fun j => nth (i * dims + j) (map rnd rest) (rnd last)) (seq 0 dims)) (seq 0 vects)).
  Proof.
    induction vects as [|vects IH]; intros st line rest result A; [cbn; now rewrite app_nil_r|]. cbn [mat_rows].
    destruct (mat_row_join last dims st line rest [] A) as (st' & line' & E & A'). rewrite E. rewrite (IH _ _ _ _ A'). rewrite <- app_assoc. f_equal. f_equal.
    cbn [seq map app]. f_equal. rewrite <- seq_shift, map_map. apply map_ext. intros i. apply map_ext. intros j. rewrite <- skipn_map, nth_skipn. f_equal. cbn. lia.
  Qed.
  Theorem readMAT_no_newline r d vs last : count_printable stoi show r -> count_printable stoi show d ->
    readMAT num stod stoi (Some (show r ++ newline :: show d ++ newline :: join newline (map to_string (vs ++ [last])))) =
    Some (map (fun i => map (fun j => nth (i * d + j) (map rnd (vs ++ [last])) (rnd last)) (seq 0 d)) (seq 0 r)).
  Proof. intros Cr Cd. rewrite readMAT_head by auto. rewrite (mat_rows_join d last r _ _ (vs ++ [last]) []); [reflexivity|]. left. exists vs, last. auto. Qed.
End Io.

Section Stream.
  Variable num : Type.
  Variable stod : text -> option num.
  Lemma fgets_line : forall n line rest, one_line line -> length line < n -> fgets_take n (line ++ newline :: rest) = (line ++ [newline], rest).
  Proof.
    induction n as [|n IH]; intros line rest O L; [lia|]. destruct line as [|x line]; [reflexivity|]. cbn [fgets_take app]. destruct (Ascii.eqb_spec x newline) as [->|N]; [exfalso; apply O; now left|].
    rewrite IH; [reflexivity| |cbn in L; lia]. intros K. apply O. now right.
  Qed.
  Lemma fgets_last : forall n line, one_line line -> length line <= n -> fgets_take n line = (line, []).
  Proof.
    induction n as [|n IH]; intros line O L; [destruct line; [reflexivity|cbn in L; lia]|]. destruct line as [|x line]; [reflexivity|]. cbn [fgets_take]. destruct (Ascii.eqb_spec x newline) as [->|N]; [exfalso; apply O; now left|].
    rewrite IH; [reflexivity| |cbn in L; lia]. intros K. apply O. now right.
  Qed.
  Lemma fgets_full : forall n t, one_line (firstn n t) -> n <= length t -> fgets_take n t = (firstn n t, skipn n t).
  Proof.
    induction n as [|n IH]; intros t O L; [destruct t; reflexivity|]. destruct t as [|x t]; [cbn in L; lia|]. cbn [fgets_take firstn skipn]. destruct (Ascii.eqb_spec x newline) as [->|N]; [exfalso; apply O; now left|].
    rewrite IH; [reflexivity| |cbn in L; lia]. intros K. apply O. cbn. now right.
  Qed.
  Lemma cstring_id t : ~ In nul t -> cstring t = t.
  Proof. intros H. unfold cstring. now rewrite cut_none. Qed.
  Lemma cstring_line t : ~ In nul t -> cstring (t ++ [newline]) = t ++ [newline].
  Proof. intros H. apply cstring_id. rewrite in_app_iff. intros [K|[K|[]]]; [auto|discriminate]. Qed.
  Lemma streamRead_line line rest row : one_line line -> ~ In nul line -> length line <= 998 ->
    streamRead num stod (line ++ newline :: rest) row =
    match parseDoubleVector num stod (line ++ [newline]) row with None => None | Some (b, row') => Some (rest, b, row') end.
  Proof.
    intros O N L. unfold streamRead, fgets. destruct (line ++ newline :: rest) as [|c t] eqn:E; [destruct line; discriminate|]. rewrite <- E.
    rewrite fgets_line; [|exact O|change (1000 - 1) with 999; lia]. now rewrite cstring_line.
  Qed.
  Hypothesis Ign : stod_ignores_newline stod.
  Lemma strip_line line : strip (line ++ [newline]) = strip line ++ [newline].
  Proof. now rewrite strip_app. Qed.
  Lemma commas_newline : forall cells vs fuel row, cells <> [] -> Forall plain cells -> map stod cells = map Some vs -> length cells <= fuel ->
    commas num stod fuel (join comma cells ++ [newline]) row = Some (row ++ vs).
  Proof.
    induction cells as [|c cells IH]; intros vs fuel row N F M L; [easy|]. destruct vs as [|v vs]; [discriminate|]. cbn [map] in M. injection M as Mc Mv. inversion F as [|? ? Pc Fc]; subst.
    destruct cells as [|c' cells].
    - destruct vs; [|discriminate]. cbn [join]. rewrite commas_eq. rewrite cut_none.
      + rewrite Ign by exact Pc. rewrite Mc. destruct c; reflexivity.
      + rewrite in_app_iff. intros [K|[K|[]]]; [destruct Pc as (_ & ? & ? & ? & ?); contradiction|discriminate].
    - cbn [join]. change (match cells with [] => c' | _ :: _ => c' ++ comma :: join comma cells end) with (join comma (c' :: cells)).
      destruct fuel as [|fuel]; [cbn in L; lia|]. rewrite commas_eq, <- app_assoc. cbn [app]. rewrite cut_some by apply Pc. rewrite Mc. rewrite (IH vs fuel _ ltac:(discriminate) Fc Mv ltac:(cbn [length] in *; lia)).
      now rewrite <- app_assoc.
  Qed.
  Lemma stream_line_read line vs rest : stream_line stod line vs -> streamRead num stod (line ++ newline :: rest) [] = Some (rest, true, vs).
  Proof.
    intros (cells & O & Nn & L & N & F & E & M). rewrite streamRead_line by auto. unfold parseDoubleVector. rewrite strip_line, E.
    assert (Q := join_length comma cells N (plain_nonempty _ F)). assert (1 <= length cells) by (destruct cells; [easy|cbn; lia]).
    replace (1 <? length (join comma cells ++ [newline])) with true by (symmetry; apply Nat.ltb_lt; rewrite app_length; cbn; lia).
    rewrite (commas_newline cells vs) by (auto; rewrite app_length; lia). reflexivity.
  Qed.
  Lemma stream_end_read t : stream_end t -> exists t' row, streamRead num stod t [] = Some (t', false, row).
  Proof.
    intros [->|[(line & rest & -> & O & Nn & S0 & L)|(O & Nn & L & S1)]].
    - exists [], []. reflexivity.
    - exists rest, []. rewrite streamRead_line by auto. rewrite parse_blank; [reflexivity|]. rewrite strip_line, S0. cbn. lia.
    - unfold streamRead, fgets. destruct t as [|c t]; [exists [], []; reflexivity|]. exists [], []. rewrite fgets_last; [|exact O|change (1000 - 1) with 999; lia].
      rewrite cstring_id by exact Nn. now rewrite parse_blank.
  Qed.
  (* Every vector of a stream has a coordinate. *)
  Lemma commas_length : forall fuel line row r, commas num stod fuel line row = Some r -> length row <= length r /\ (line <> [] -> length row < length r).
  Proof.
    induction fuel as [|fuel IH]; intros line row r H; cbn [commas] in H; destruct (cut comma line) as [a [rest|]] eqn:E; try discriminate.
    - destruct line as [|x line]; cbn in H; [injection H as <-; split; [lia|easy]|]. destruct (stod (x :: line)); [|discriminate]. injection H as <-. rewrite app_length. cbn. lia.
    - destruct (stod a); [|discriminate]. apply IH in H as [H _]. rewrite app_length in H. cbn in H. lia.
    - destruct line as [|x line]; cbn in H; [injection H as <-; split; [lia|easy]|]. destruct (stod (x :: line)); [|discriminate]. injection H as <-. rewrite app_length. cbn. lia.
  Qed.
  Lemma stream_rows_nonempty : forall fuel t rows, stream_rows num stod fuel t = Some rows -> forall x, In x rows -> x <> [].
  Proof.
    induction fuel as [|fuel IH]; intros t rows H; cbn [stream_rows] in H; [discriminate|]. unfold streamRead, parseDoubleVector in H.
    destruct (fgets 1000 t) as [[buf t']|]; [|injection H as <-; easy].
    destruct (Nat.ltb_spec 1 (length (strip (cstring buf)))) as [L|L]; [|injection H as <-; easy].
    destruct (commas num stod _ _ []) as [row|] eqn:E; cbn in H; [|discriminate]. apply commas_length in E as [_ E].
    destruct (stream_rows num stod fuel t') as [rows'|] eqn:Er; cbn in H; [|discriminate]. injection H as <-. intros x [<-|Hx]; [|eapply IH; eauto].
    intros ->. cbn in E. assert (0 < 0); [apply E; intros Q; rewrite Q in L; cbn in L; lia|lia].
  Qed.
  Theorem stream_rows_spec : forall lines rows t fuel, Forall2 (stream_line stod) lines rows -> stream_end t -> length lines < fuel ->
    stream_rows num stod fuel (lines_of lines ++ t) = Some rows.
  Proof.
    induction lines as [|l lines IH]; intros rows t fuel F E L; inversion F as [|? vs ? rows' R F']; subst; (destruct fuel as [|fuel]; [lia|]); cbn [stream_rows].
    - cbn [lines_of flat_map app]. destruct (stream_end_read t E) as (t' & row & ->). reflexivity.
    - unfold lines_of. cbn [flat_map]. rewrite <- !app_assoc. cbn [app]. rewrite (stream_line_read l vs _ R). change (flat_map (fun t0 => t0 ++ [newline]) lines) with (lines_of lines).
      rewrite (IH rows' t fuel F' E); [reflexivity|cbn [length] in L; lia].
  Qed.
  (* a last line without newline, of at least two characters, is also delivered *)
  Theorem stream_last_line line cells vs : is_row line cells -> strip line = join comma cells -> ~ In nul line -> length line <= 999 -> 2 <= length (strip line) -> map stod cells = map Some vs ->
    streamRead num stod line [] = Some ([], true, vs).
  Proof.
    intros R _ Nn L S2 M. unfold streamRead, fgets. destruct line as [|c t] eqn:E; [cbn in S2; lia|]. rewrite <- E in *. rewrite fgets_last; [|apply R|change (1000 - 1) with 999; lia].
    rewrite cstring_id by exact Nn. now rewrite (parse_row num stod line cells vs []).
  Qed.
  Theorem streamRead_long t row : 999 <= length t -> one_line (firstn 999 t) ->
    streamRead num stod t row = match parseDoubleVector num stod (cstring (firstn 999 t)) row with None => None | Some (b, row') => Some (skipn 999 t, b, row') end.
  Proof.
    intros L O. unfold streamRead, fgets. destruct t as [|c t0] eqn:E; [cbn in L; lia|]. rewrite <- E in *. change (1000 - 1) with 999. now rewrite fgets_full.
  Qed.
End Stream.

Section StreamCsv.
  Variable num : Type.
  Variable stod : text -> option num.
  Variable to_string : num -> text.
  Variable rnd : num -> num.
  Hypothesis Pr : printable stod to_string rnd.
  Hypothesis Bare : stod [newline] = None.
  Theorem stream_of_csv_throws row data fuel : row <> [] -> length (flat_map (fun c => to_string c ++ [comma]) row) <= 998 ->
    stream_rows num stod fuel (writeCSV num to_string (row :: data)) = None.
  Proof.
    intros N L. destruct fuel as [|fuel]; [reflexivity|]. cbn [stream_rows]. unfold writeCSV. cbn [flat_map]. rewrite <- app_assoc. cbn [app].
    destruct (line_reads_parse num stod _ _ (csv_row_reads num stod to_string rnd Pr row)) as [O _].
    assert (F := Pr_plain num stod to_string rnd Pr row).
    assert (NI : forall c, c = nul \/ c = space -> ~ In c (flat_map (fun c => to_string c ++ [comma]) row)).
    { intros c Hc H. apply in_flat_map in H as (x & _ & H). apply in_app_iff in H as [H|[H|[]]]; [|destruct Hc as [-> | ->]; discriminate]. destruct (Pr x) as [(_ & ? & ? & ? & ?) _]. destruct Hc as [-> | ->]; contradiction. }
    rewrite streamRead_line; [|exact O|apply NI; auto|exact L]. unfold parseDoubleVector. rewrite strip_line, strip_id by (apply NI; auto).
    assert (T : flat_map (fun c => to_string c ++ [comma]) row = flat_map (fun c => c ++ [comma]) (map to_string row)) by (clear; induction row as [|c row IH]; cbn; auto; now rewrite IH).
    rewrite T. rewrite (commas_throw_last num stod (map to_string row) (map rnd row) [newline]); auto.
    - replace (1 <? _) with true; [reflexivity|]. symmetry. apply Nat.ltb_lt. rewrite app_length. destruct row as [|c row]; [easy|]. cbn [map flat_map]. rewrite !app_length. cbn. lia.
    - now apply Pr_map.
    - discriminate.
    - intros [K|[]]. discriminate.
  Qed.
End StreamCsv.
