(* StreamKmModel.v -- Preprocessing/streamingKmeans.cpp. *)
From Coq Require Import List Arith ZArith Bool.
From Verif Require Import Base.
From Verif Require Export RunMonad.
Import ListNotations.

(* Preprocessing/streamingKmeans.cpp:419-447 binarySearch; the comparisons <=, > and >= of doubles are parameters (they
   are all false on not-a-number). *)
Section Search.
  Variable num : Type.
  Variable leb ltb : num -> num -> bool.
  (* Lines 433-441: the loop. *)
  Fixpoint bsearch_loop (fuel : nat) (sorted : list (num * nat)) (projection : num) (low high : Z) : run Z :=
    if (1 <? high - low)%Z then
      match fuel with
      | O => None
      | S fuel' =>
          let mid := Z.quot (high + low) 2 in
          match at_ sorted (Z.to_nat mid) with
          | UB => Some UB
          | Ok (m, _) =>
              let high' := if leb projection m then mid else high in
              let low' := if leb m projection then mid else low in
              bsearch_loop fuel' sorted projection low' high'
          end
      end
    else ret low.
  (* sorted[n-1] with n = 0 is out of range. *)
  Definition binarySearch (fuel : nat) (sorted : list (num * nat)) (n : nat) (projection : num) : run Z :=
    match at_ sorted 0, (if n =? 0 then UB else at_ sorted (n - 1)) with
    | Ok (first, _), lastr =>
        if leb projection first then ret (-1)%Z
        else match lastr with
             | UB => Some UB
             | Ok (last, _) =>
                 if ltb last projection then ret (Z.of_nat n - 1)%Z
                 else bsearch_loop fuel sorted projection 0 (Z.of_nat n - 1)
             end
    | UB, _ => Some UB
    end.
End Search.

Section StreamKm.
  Variable num : Type.                                  (* double *)
  Variable zero beta f0 maxd : num.                     (* 0; the constants of lines 45-49; the first cost of line 73; the largest double *)
  Variable add mul divn : num -> num -> num.
  Variable divc : num -> nat -> num.                    (* division by a count *)
  Variable succn : num -> num.                          (* ++ on a double *)
  Variable leb ltb : num -> num -> bool.
  Variable dist : list num -> list num -> num.          (* utils::vectors_distance *)
  Variable srt : list (num * nat) -> list (num * nat).  (* std::sort on pairs *)
  Variable omega : list num.                            (* the random projection, lines 60-66 *)
  Variable prob1 : nat -> num -> bool.                  (* prob(delta/f) at point x *)
  Variable prob2 : nat -> nat -> num -> bool.           (* prob(weight*deltaHat/f) at point x, facility xHat *)
  Variable fuel : nat.                                  (* for the binary searches *)

  (* Preprocessing/streamingKmeans.cpp:451-459 dotProd: reading past the end of b is undefined. *)
  Fixpoint products (a b : list num) : res (list num) :=
    match a, b with
    | [], _ => Ok []
    | _ :: _, [] => UB
    | x :: a', y :: b' => rmap (cons (mul x y)) (products a' b')
    end.
  Definition dotProd (a b : list num) : res num := rmap (fun l => fold_left add l zero) (products a b).

  Definition second_at (sorted : list (num * nat)) (i : Z) : res nat :=
    if (i <? 0)%Z then UB else rmap snd (at_ sorted (Z.to_nat i)).
  Definition facility (fs : list (list num)) (sorted : list (num * nat)) (i : Z) : res (list num) :=
    do j <- second_at sorted i; at_ fs j.

  (* Preprocessing/streamingKmeans.cpp:333-370 approxNearestNeighbor and 372-415 approxHat: the same code; [self] is the
     current point, number x, [n] the bound given to binarySearch and [size] the one of line 349 (390). *)
  Definition approx (fs : list (list num)) (sorted : list (num * nat)) (self : list num) (x n size : nat) : run (list num) :=
    match dotProd self omega with
    | UB => Some UB
    | Ok projection =>
        go loc <- binarySearch num leb ltb fuel sorted n projection;
        if (loc =? -1)%Z then Some (do _ <- facility fs sorted 0; Ok self)
        else if (loc =? Z.of_nat x - 1)%Z then Some (facility fs sorted (Z.of_nat size - 1))
        else Some (do a <- facility fs sorted loc; do b <- facility fs sorted (loc + 1);
                   Ok (if leb (dist self a) (dist self b) then a else b))
    end.

  Record sk : Type := mkSk {
    sk_fac : list (list num); sk_approx : list num; sk_sorted : list (num * nat);
    sk_clustered : list (list num * nat); sk_counts : list num; sk_temp : list nat;
    sk_summed : list (list num); sk_kHat : list (list num); sk_kHatClustered : list (list num * nat); sk_f : num }.

  (* Preprocessing/streamingKmeans.cpp:122-125: the pairs of all facilities appended, then sorted. *)
  Definition resort (approx : list num) (sorted : list (num * nat)) : list (num * nat) :=
    srt (sorted ++ combine approx (seq 0 (length approx))).

  (* Preprocessing/streamingKmeans.cpp:105-147: a point while there are at most maxFacilities facilities. *)
  Definition sk_assign (data : list (list num)) (numFacilities approxSize : nat) (s : sk) (x : nat) (px : list num) : run sk :=
    go y <- approx (sk_fac s) (sk_sorted s) px x (length (sk_fac s)) approxSize;
    let delta := dist px y in
    if prob1 x (divn delta (sk_f s)) then
      match dotProd px omega with
      | UB => Some UB
      | Ok a =>
          let ap := sk_approx s ++ [a] in
          ret (mkSk (sk_fac s ++ [px]) ap (resort ap (sk_sorted s)) (sk_clustered s) (sk_counts s) (sk_temp s)
                    (sk_summed s) (sk_kHat s) (sk_kHatClustered s) (sk_f s))
      end
    else
      Some (do r <- foldr_ub (fun '(minDist, cl, ct) c =>
                        do fc <- at_ (sk_fac s) c;
                        let curDist := dist px fc in
                        if ltb curDist minDist then do ct' <- upd ct c succn; Ok (curDist, cl ++ [(px, c)], ct')
                        else Ok (minDist, cl, ct))
                     (maxd, sk_clustered s, sk_counts s) (seq 0 numFacilities);
            let '(_, cl, ct) := r in
            Ok (mkSk (sk_fac s) (sk_approx s) (sk_sorted s) cl ct (sk_temp s)
                     (sk_summed s) (sk_kHat s) (sk_kHatClustered s) (sk_f s))).

  (* v[d] += x[d] for every d below n. *)
  Fixpoint addn (n : nat) (v x : list num) : res (list num) :=
    match n, v, x with
    | O, _, _ => Ok v
    | S n', a :: v', b :: x' => rmap (cons (add a b)) (addn n' v' x')
    | _, _, _ => UB
    end.
  (* Preprocessing/streamingKmeans.cpp:151-163: the sums. *)
  Definition sk_sums (s : sk) : res (list (list num) * list nat) :=
    foldr_ub (fun '(sums, tc) q =>
                do cl <- at_ (sk_clustered s) q;
                if snd cl =? q then
                  do f1 <- at_ (sk_fac s) 0;
                  do row <- at_ sums q;
                  do row' <- addn (length f1) row (fst cl);
                  do sums' <- upd sums q (fun _ => row');
                  do tc' <- upd tc q S;
                  Ok (sums', tc')
                else Ok (sums, tc))
             (sk_summed s, sk_temp s) (seq 0 (length (sk_fac s))).
  (* Lines 165-170, 175: tracker; resize. *)
  Definition tracker (tc : list nat) : nat := length (filter (fun c => 0 <? c) (firstn (length tc - 1) tc)).
  Definition resize (n : nat) (l : list (list num)) : list (list num) := firstn n l ++ repeat [] (n - length l).
  (* Lines 178-185: every row divided by its count at the indices of row 0; a shorter row is written out of range. *)
  Fixpoint divide (n : nat) (v : list num) (c : nat) : res (list num) :=
    match n, v with
    | O, _ => Ok v
    | S n', a :: v' => rmap (cons (divc a c)) (divide n' v' c)
    | S _, [] => UB
    end.
  Definition sk_means (sums : list (list num)) (tc : list nat) : res (list (list num)) :=
    match sums with
    | [] => Ok []
    | row0 :: _ =>
        foldr_ub (fun acc '(i, row) => do c <- at_ tc i; do row' <- divide (length row0) row c; Ok (acc ++ [row'])) [] (enum 0 sums)
    end.

  Definition all_res {A B} (f : A -> res B) (l : list A) : res (list B) := foldr_ub (fun acc a => do b <- f a; Ok (acc ++ [b])) [] l.

  (* Preprocessing/streamingKmeans.cpp:201-246: the body of the loop over xHat; weight is counts. *)
  Definition sk_hat (data : list (list num)) (x : nat) (sums : list (list num)) (sortedHat : list (num * nat)) (s : sk) (xHat : nat) : run sk :=
    match at_ sums xHat with
    | UB => Some UB
    | Ok sx =>
        go yHat <- approx sums sortedHat sx xHat (length sortedHat) (length sortedHat);
        let deltaHat := dist sx yHat in
        match at_ (sk_counts s) xHat with
        | UB => Some UB
        | Ok w =>
            Some (
              do kk <- (if prob2 x xHat (divn (mul w deltaHat) (sk_f s)) then Ok (sk_kHat s ++ [sx], sk_kHatClustered s)
                        else
                          do kc <- foldr_ub (fun kc '(x1, sx1) =>
                                     do px <- at_ data x1;
                                     Ok (kc ++ concat (map (fun k => repeat (sx1, k) (length px)) (seq 0 (length (sk_kHat s))))))
                                   (sk_kHatClustered s) (enum 0 sums);
                          Ok (sk_kHat s, kc));
              let '(kHat, kc) := kk in
              let fac := sk_fac s ++ map fst kc in
              do ap <- all_res (fun fc => dotProd fc omega) fac;
              let ap := sk_approx s ++ ap in
              Ok (mkSk fac ap (resort ap (sk_sorted s)) (sk_clustered s) (sk_counts s) (sk_temp s)
                       (sk_summed s) kHat [] (sk_f s)))
        end
    end.

  (* Preprocessing/streamingKmeans.cpp:149-259: a point when there are too many facilities.  summedCentroidVectors.size()
     - 1 wraps round for no rows, and then row 0 is read. *)
  Definition sk_raise (data : list (list num)) (s : sk) (x : nat) : run sk :=
    match (do st <- sk_sums s;
           let '(sums, tc) := st in
           do means <- sk_means (resize (tracker tc) sums) tc;
           do row0 <- at_ means 0;
           do ap <- all_res (fun fc => dotProd fc omega) (firstn (length means - 1) means);
           Ok (means, tc, row0, srt (combine ap (seq 0 (length ap))))) with
    | UB => Some UB
    | Ok (means, tc, row0, sortedHat) =>
        let s1 := mkSk (sk_fac s) (sk_approx s) (sk_sorted s) (sk_clustered s) (sk_counts s) tc means (sk_kHat s ++ [row0])
                       (sk_kHatClustered s) (mul beta (sk_f s)) in
        go s2 <- foldr_run (sk_hat data x means sortedHat) s1 (seq 0 (length means));
        ret (mkSk [] [] [] (sk_clustered s2) (sk_counts s2) (sk_temp s2) (sk_summed s2) (sk_kHat s2) (sk_kHatClustered s2) (sk_f s2))
    end.

  Definition numClusters : nat := 20.
  Definition maxFacilities : nat := 20.

  Definition sk_point (data : list (list num)) (numFacilities approxSize : nat) (s : sk) (x : nat) : run sk :=
    match at_ data x with
    | UB => Some UB
    | Ok px =>
        if length (sk_fac s) <=? maxFacilities then sk_assign data numFacilities approxSize s x px
        else sk_raise data s x
    end.

  (* Preprocessing/streamingKmeans.cpp:88-96: the first numClusters/2 points are facilities. *)
  Definition sk_start (data : list (list num)) : res sk :=
    do first <- at_ data 0;
    foldr_ub (fun s i =>
                do px <- at_ data i;
                do a <- dotProd px omega;
                do ct <- upd (sk_counts s) i succn;
                Ok (mkSk (sk_fac s ++ [px]) (sk_approx s ++ [a]) (srt (sk_sorted s ++ [(a, i)])) (sk_clustered s ++ [(px, i)])
                         ct (sk_temp s) (sk_summed s) (sk_kHat s) (sk_kHatClustered s) (sk_f s)))
             (mkSk [] [] [] [] (repeat zero maxFacilities) (repeat 0 maxFacilities) (repeat (repeat zero (length first)) numClusters) [] [] f0)
             (seq 0 (numClusters / 2)).

  (* Preprocessing/streamingKmeans.cpp:264-279: the small values are set to 0 ([small]) and the first numClusters entries
     of kHatClustered are the new data. *)
  Variable small : num -> bool.
  Definition sk_finish (kc : list (list num * nat)) : res (list (list num)) :=
    all_res (fun c => do e <- at_ kc c; Ok (map (fun v => if small v then zero else v) (fst e))) (seq 0 numClusters).

  (* Preprocessing/streamingKmeans.cpp:31-296 streamingKmeans::runPreprocessor: the new originalData. *)
  Definition streamingKmeans_run (configured : bool) (data : list (list num)) : run (list (list num)) :=
    if negb configured then ret data
    else
      match sk_start data with
      | UB => Some UB
      | Ok s0 =>
          go s <- foldr_run (sk_point data (length (sk_fac s0)) (length (sk_sorted s0))) s0
                     (seq (numClusters / 2) (length data - 1 - numClusters / 2));
          Some (sk_finish (sk_kHatClustered s))
      end.
End StreamKm.
