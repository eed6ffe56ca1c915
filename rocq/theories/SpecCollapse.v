(* SpecCollapse.v -- vocabulary for the collapse of a complex. *)
From Coq Require Import String List Arith ZArith.
From Verif Require Import Base Spec ArgModel SpecArgs ArrayListModel SpecComplex.
Import ListNotations.
Local Open Scope nat_scope.

(* The simplex s without the vertex v. *)
Definition without (v : nat) (s : list nat) : list nat := filter (fun x => negb (x =? v)) s.

(* f is the face of t of the weight of t that leaves out the smallest possible vertex. *)
Definition top_face (wg : wgraph) (t : wsimp) (f : list nat) : Prop :=
  exists v, In v (fst t) /\ f = without v (fst t) /\ In (f, snd t) (level wg (length f - 1)) /\
    forall u, In u (fst t) -> u < v -> ~ In (without u (fst t), snd t) (level wg (length f - 1)).

(* s is a k-simplex of the complex that is not the top face of a simplex of the dimension above that stays itself;
   [above] is the number of dimensions above k. *)
Fixpoint stays (wg : wgraph) (above k : nat) (s : wsimp) : Prop :=
  In s (level wg k) /\
  match above with 0 => True | S a => forall t, stays wg a (S k) t -> ~ top_face wg t (fst s) end.

(* The options of a run of the default pipeline with a simplexArrayList and the collapse. *)
Record collapse_run (args : amap) (dim eps : string) : Prop := {
  cr_pipeline : mget args "pipeline" = Some default_pipeline;
  cr_complex : mget args "complexType" = Some "simplexArrayList"%string;
  cr_dim : mget args "dimensions" = Some dim;
  cr_eps : mget args "epsilon" = Some eps;
  cr_twist : mget args "twist" <> None;
  cr_collapse : mget args "collapse" = Some "true"%string \/ mget args "collapse" = Some "1"%string }.
