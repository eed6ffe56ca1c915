(* SpecHigher.v -- vocabulary for the statements about the bars of dimension one and above of a run from text to text. *)
From Coq Require Import String Ascii List Arith ZArith Bool Sorted SpecFloat.
From Verif Require Import Base Spec SpecLinear SpecFast SpecPipe DoubleModel SpecDouble SpecNan.
Import ListNotations.
Local Open Scope nat_scope.
Local Open Scope list_scope.

(* Simplices with their diameters as doubles, dimension by dimension. *)
Definition levels : Type := list (list (list nat * double)).
Definition at_dim (K : levels) (k : nat) : list (list nat * double) := nth k K [].
Definition shapes (K : levels) (k : nat) : list (list nat) := map fst (at_dim K k).

Section Points.
  Variable square : double -> double.
  Variable cloud : list (list double).
  Variable c : cx_type.
  (* w is the largest distance between two points of s, and 0 if s is one point. *)
  Definition widest (s : list nat) (w : double) : Prop :=
    (forall u v w', In u s -> In v s -> u < v -> seen_apart square cloud c u v w' -> SFleb w' w = true) /\
    ((exists u v, In u s /\ In v s /\ u < v /\ seen_apart square cloud c u v w) \/ (length s <= 1 /\ w = S754_zero false)).
  (* The levels hold the sets of at most top + 1 points of which every two are within epsilon, each once, in the order of
     their diameters. *)
  Record rips_by_dimension (eps : double) (top : nat) (K : levels) : Prop := {
    rl_members : forall k s w, In (s, w) (at_dim K k) <->
      length s = S k /\ k <= top /\ increasing s /\ (forall v, In v s -> v < length cloud) /\
      (forall u v, In u s -> In v s -> u < v -> exists w', seen_apart square cloud c u v w' /\ within c eps w') /\ widest s w;
    rl_once : forall k, NoDup (shapes K k);
    rl_order : forall k, StronglySorted (fun a b => SFleb (snd a) (snd b) = true) (at_dim K k);
    rl_levels : forall k, k < length K <-> at_dim K k <> [] }.
  (* At scale t the points form a polygon: they are connected, and each has exactly two neighbours. *)
  Definition linked (eps t : double) (u v : nat) : Prop :=
    u < v /\ exists w, seen_apart square cloud c u v w /\ within c eps w /\ SFleb w t = true.
  Definition polygon (eps t : double) : Prop :=
    seen_clusters square cloud c eps t 1 /\
    forall v, v < length cloud -> exists a b, a <> b /\ forall x, linked eps t v x \/ linked eps t x v <-> x = a \/ x = b.
End Points.

(* The boundary matrix from dimension k to k - 1, and the numbers of its columns that are no sum of earlier ones. *)
Definition boundary_at (K : levels) (k : nat) : list (list nat) := boundary_matrix (shapes K (k - 1)) (shapes K k).
Definition ends_classes (K : levels) (k : nat) (js : list nat) : Prop := increasing js /\ forall j, In j js <-> fresh (boundary_at K k) j.
(* The Betti number over GF(2), and the simplices up to a diameter. *)
Definition betti_number (K : levels) (d b : nat) : Prop :=
  exists r1 r2, SpecLinear.rank (boundary_at K d) r1 /\ SpecLinear.rank (boundary_at K (S d)) r2 /\ b + r1 + r2 = length (at_dim K d).
Definition up_to_scale (t : double) (K : levels) : levels := map (filter (fun s => SFleb (snd s) t)) K.
(* The number of bars of dimension d that have begun at t and not ended. *)
Definition alive_bars (d : nat) (t : double) (bars : list (nat * double * double)) : nat :=
  length (filter (fun l => (fst (fst l) =? d) && SFleb (snd (fst l)) t && SFltb t (snd l)) bars).
(* The bars of a list of pairs (number of a simplex of dimension k, number of one of dimension k + 1); none for equal diameters. *)
Definition pair_bars (K : levels) (k : nat) (ps : list (nat * nat)) : list (nat * double * double) :=
  flat_map (fun p => let b := snd (nth (fst p) (at_dim K k) ([], S754_nan)) in let e := snd (nth (snd p) (at_dim K (S k)) ([], S754_nan)) in
                     if SFeqb b e then [] else [(k, b, e)]) ps.
(* The number of dimensions above 0 that the program looks at. *)
Definition higher_dims (dim : Z) (K : levels) : nat := Nat.min (Z.to_nat dim) (length K - 1) - 1.
