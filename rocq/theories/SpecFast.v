(* SpecFast.v -- vocabulary for the statements about fastPersistence in dimension one and above. *)
From Coq Require Import List Arith ZArith Bool Sorted.
From Verif Require Import Base Spec ArrayListModel SpecComplex SpecLinear.
Import ListNotations.

(* The pivot pointer is read after the last pivot: some row comes after every pivot. *)
Definition reads_past_end (pivots : list nat) (n : nat) : Prop := exists i, i < n /\ forall p, In p pivots -> p < i.
(* ... and what is read there does not happen to be the number of such a row. *)
Definition harmless (past_end : list nat -> nat -> res nat) (pivots : list nat) (n : nat) : Prop :=
  reads_past_end pivots n ->
  exists v, past_end pivots 0 = Ok v /\ forall i, i < n -> (forall p, In p pivots -> p < i) -> v <> i.

(* The boundary of s without the rows numbered in skip. *)
Definition boundary_without (skip : list nat) (rows : list (list nat)) (s : list nat) : list nat :=
  filter (fun i => negb (existsb (Nat.eqb i) skip)) (boundary rows s).

(* i is the least non-zero coordinate of x. *)
Definition least (i : nat) (x : list nat) : Prop := In i x /\ forall k, In k x -> i <= k.
(* x is the j-th column plus a combination of the columns before it. *)
Definition reduced (M : list (list nat)) (j : nat) (x : list nat) : Prop :=
  exists c y, nth_error M j = Some c /\ combination (firstn j M) y /\ forall k, coord x k = xorb (coord c k) (coord y k).
(* The j-th column is paired with the row i: i is the largest possible least row of a reduction of the column. *)
Definition paired (M : list (list nat)) (i j : nat) : Prop :=
  (exists x, reduced M j x /\ least i x) /\ (forall x, reduced M j x -> exists k, least k x /\ k <= i).

(* The bars of a list of (row, column) pairs: birth and death weight, left out when they are equal. *)
Definition bars (d : nat) (rows cols : list wsimp) (ps : list (nat * nat)) : list (nat * Z * Z) :=
  flat_map (fun p => let b := snd (nth (fst p) rows ([], 0%Z)) in let e := snd (nth (snd p) cols ([], 0%Z)) in
                     if (b =? e)%Z then [] else [(d, b, e)]) ps.

(* ps is the pairing of the matrix M: one pair for every column that does not depend on earlier ones. *)
Definition pairing (M : list (list nat)) (ps : list (nat * nat)) : Prop :=
  increasing (map snd ps) /\ NoDup (map fst ps) /\
  (forall j, In j (map snd ps) <-> fresh M j) /\ (forall i j, In (i, j) ps -> paired M i j).

(* The k-simplices of a complex, and the matrix of the boundary map from dimension k to k-1. *)
Definition simplices (edges : wgraph) (k : nat) : list (list nat) := map fst (level edges k).
Definition bmatrix (edges : wgraph) (k : nat) : list (list nat) :=
  boundary_matrix (simplices edges (k - 1)) (simplices edges k).
(* js lists the k-simplices that end a class when they are added: their boundary is not a sum of
   boundaries of k-simplices that come before. *)
Definition negative (edges : wgraph) (k : nat) (js : list nat) : Prop :=
  increasing js /\ forall j, In j js <-> fresh (bmatrix edges k) j.

(* A list of levels that is a simplicial complex: level k has the k-simplices, each once, as increasing
   lists of vertices, and contains the facets of the simplices of level k+1. *)
Record complex (edges : wgraph) : Prop := {
  cx_shape : forall k s w, In (s, w) (level edges k) -> increasing s /\ length s = S k;
  cx_nodup : forall k, NoDup (simplices edges k);
  cx_closed : forall k s w f, In (s, w) (level edges (S k)) -> facet f s -> In f (simplices edges k)
}.
(* ... with levels in order of weight and no face heavier than the simplex. *)
Record filtered (edges : wgraph) : Prop := {
  fl_sorted : forall k, StronglySorted by_weight (level edges k);
  fl_mono : forall k s w f w', In (s, w) (level edges (S k)) -> In (f, w') (level edges k) -> incl f s -> (w' <= w)%Z
}.

(* The vertices of a complex, and the number of dimensions above zero that are reported. *)
Definition vertices (edges : wgraph) : list nat := concat (simplices edges 0).
Definition dims (dim : Z) (edges : wgraph) : nat := Nat.min (Z.to_nat dim) (length edges - 1) - 1.
Definition dim0 (lines : list (nat * Z * Z)) : list (nat * Z * Z) := filter (fun l => fst (fst l) =? 0) lines.
Definition all_bars edges (d n : nat) (ps : nat -> list (nat * nat)) : list (nat * Z * Z) :=
  flat_map (fun k => bars k (level edges k) (level edges (S k)) (ps k)) (seq d n).

(* The complex at scale t: the simplices of weight at most t. *)
Definition at_scale (t : Z) (edges : wgraph) : wgraph := map (filter (fun s => (snd s <=? t)%Z)) edges.
(* The d-th Betti number (over GF(2), d >= 1): simplices minus rank of both boundary maps. *)
Definition betti (edges : wgraph) (d b : nat) : Prop :=
  exists r1 r2, rank (bmatrix edges d) r1 /\ rank (bmatrix edges (S d)) r2 /\ b + r1 + r2 = length (level edges d).
(* Number of reported d-dimensional bars that are alive at t. *)
Definition alive (d : nat) (t : Z) (lines : list (nat * Z * Z)) : nat :=
  length (filter (fun l => (fst (fst l) =? d) && (snd (fst l) <=? t)%Z && (t <? snd l)%Z) lines).

(* z (a set of d-simplices) is a cycle at scale a / a boundary at scale b. *)
Definition cycle (edges : wgraph) (d : nat) (a : Z) (z : list nat) : Prop :=
  (forall i, In i z -> i < length (level edges d) /\ (snd (nth i (level edges d) ([], 0)) <= a)%Z) /\
  forall k, sum_coord (map (fun i => nth i (bmatrix edges d) []) z) k = false.
Definition bounds (edges : wgraph) (d : nat) (b : Z) (z : list nat) : Prop :=
  combination (boundary_matrix (simplices edges d) (map fst (filter (fun s => (snd s <=? b)%Z) (level edges (S d))))) z.
(* Some class present at scale a is still there at scale b. *)
Definition survives (edges : wgraph) (d : nat) (a b : Z) : Prop := exists z, cycle edges d a z /\ ~ bounds edges d b z.
Definition covered (d : nat) (a b : Z) (lines : list (nat * Z * Z)) : Prop :=
  exists bi de, In (d, bi, de) lines /\ (bi <= a)%Z /\ (b < de)%Z.

(* What the row loop leaves out when libstdc++'s list header is read: the pivots, or one more row if the
   pivots are exactly the first rows. *)
Definition libstdcxx_skip (pivots : list nat) (n : nat) : list nat :=
  if list_eq_dec Nat.eq_dec pivots (seq 0 (length pivots))
  then if length pivots <? n then seq 0 (S (length pivots)) else pivots
  else pivots.
