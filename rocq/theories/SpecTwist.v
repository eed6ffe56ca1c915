(* SpecTwist.v -- vocabulary for statements about the reductions on an indexed simplex tree. *)
From Coq Require Import List Arith.
From Verif Require Import Base Spec ArrayListModel SpecComplex.
Import ListNotations.

(* The first simplex of the dimension below is a face of s. *)
Definition touches (edges : wgraph) (d : nat) (s : list nat) : Prop :=
  exists f w, nth_error (level edges (d - 1)) 0 = Some (f, w) /\ incl f s.

(* The j-th simplex of dimension d is the first one that touches, or the first one that does not. *)
Definition leader (edges : wgraph) (d j : nat) : Prop :=
  exists s w, nth_error (level edges d) j = Some (s, w) /\
    forall i s' w', i < j -> nth_error (level edges d) i = Some (s', w') -> ~ (touches edges d s' <-> touches edges d s).
