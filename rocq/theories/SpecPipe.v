(* SpecPipe.v -- vocabulary for the statements about whole runs on a point cloud. *)
From Coq Require Import String List Arith ZArith Relations Sorted.
From Verif Require Import Base Spec ArgModel SpecArgs SpecGraph ArrayListModel SpecComplex.
Import ListNotations.

(* A std::set<double, std::greater> in iteration order. *)
Notation decreasing := (StronglySorted (fun x y => (y < x)%Z)).

(* The two complexes of the default pipelines.  simplexTree joins points closer than epsilon and stops at the given
   dimension; simplexArrayList joins points at distance at most epsilon and goes one dimension higher. *)
Inductive cx_type : Type := Tree | ArrayList.
Definition cx_name (c : cx_type) : string := match c with Tree => "simplexTree" | ArrayList => "simplexArrayList" end%string.
Definition close (c : cx_type) (eps d : Z) : Prop := match c with Tree => (d < eps)%Z | ArrayList => (d <= eps)%Z end.
Definition top (c : cx_type) (dim : Z) : Z := match c with Tree => dim | ArrayList => (dim + 1)%Z end.

(* The options of a run of the default pipeline without collapse. *)
Record default_run (args : amap) (c : cx_type) (dim eps : string) : Prop := {
  dr_pipeline : mget args "pipeline" = Some default_pipeline;
  dr_complex : mget args "complexType" = Some (cx_name c);
  dr_dim : mget args "dimensions" = Some dim;
  dr_eps : mget args "epsilon" = Some eps;
  dr_twist : mget args "twist" <> None;
  dr_collapse : exists v, mget args "collapse" = Some v /\ v <> "true"%string /\ v <> "1"%string }.

Section Points.
  Variable dist : list Z -> list Z -> Z.
  Variable data : list (list Z).
  (* The distance between the u-th and the v-th point. *)
  Definition separation (u v : nat) : Z :=
    match nth_error data u, nth_error data v with Some x, Some y => dist x y | _, _ => 0%Z end.
  (* The points u < v are joined at scale t. *)
  Definition joined (c : cx_type) (eps t : Z) (u v : nat) : Prop :=
    u < v /\ v < length data /\ close c eps (separation u v) /\ (separation u v <= t)%Z.
  (* The points fall into n clusters at scale t. *)
  Definition clusters (c : cx_type) (eps t : Z) (n : nat) : Prop :=
    classes (seq 0 (length data)) (clos_refl_sym_trans nat (joined c eps t)) n.
  (* A Vietoris-Rips simplex of the points. *)
  Definition rips_simplex (c : cx_type) (eps : Z) (s : list nat) : Prop :=
    flag_simplex (fun u v => close c eps (separation u v)) (length data) s.
End Points.

(* The levels list exactly the flag simplices of dimension at most top, with their diameters; no level is empty. *)
Definition lists_rips (D : nat -> nat -> Z) (cl : Z -> Prop) (n top : nat) (edges : wgraph) : Prop :=
  (forall k s w, In (s, w) (level edges k) <->
     length s = S k /\ k <= top /\ flag_simplex (fun u v => cl (D u v)) n s /\ diameter D s w) /\
  (forall k, k < length edges <-> level edges k <> []).
