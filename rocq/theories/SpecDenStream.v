(* SpecDenStream.v -- vocabulary for the statements about DenStream. *)
From Coq Require Import List Arith ZArith QArith Qcanon.
From Verif Require Import Base KdModel DenStreamModel.
Import ListNotations.
Open Scope nat_scope.

(* The fading function 2^(-lambda t): positive and turning sums into products. *)
Definition fading (decay : Z -> Qc) : Prop :=
  decay 0%Z = 1%Qc /\ (forall a b, decay (a + b)%Z = decay a * decay b)%Qc /\ (forall a, 0 < decay a)%Qc.

(* The sum of f over a list. *)
Definition total {A} (f : A -> Qc) (l : list A) : Qc := fold_right (fun a s => f a + s)%Qc 0%Qc l.
(* A history: the points that arrived, each with its time of arrival. *)
Definition history : Type := list (Z * list Qc).
Definition coord (x : list Qc) (d : nat) : Qc := nth d x 0%Qc.
(* The faded weight of a history at time T, the faded mean of g of the d-th coordinate, and the faded mean square
   distance from the faded mean point.  The mean of no points is 0. *)
Definition faded_weight (decay : Z -> Qc) (T : Z) (h : history) : Qc := total (fun e => decay (T - fst e)%Z) h.
Definition faded_mean (decay : Z -> Qc) (T : Z) (h : history) (g : Qc -> Qc) (d : nat) : Qc :=
  (total (fun e => decay (T - fst e)%Z * g (coord (snd e) d)) h / faded_weight decay T h)%Qc.
Definition faded_center (decay : Z -> Qc) (T : Z) (h : history) (dim : nat) : list Qc :=
  map (faded_mean decay T h (fun v => v)) (seq 0 dim).
Definition faded_spread (decay : Z -> Qc) (T : Z) (h : history) (dim : nat) : Qc :=
  total (fun d => faded_mean decay T h (fun v => (v - coord (faded_center decay T h dim) d) * (v - coord (faded_center decay T h dim) d))%Qc d) (seq 0 dim).

(* Point number i arrives at time initPoints/20 if it is one of the first, and at time (i+1)/20 otherwise. *)
Definition arrival (initPoints i : nat) : Z := Z.of_nat (if i <? initPoints then initPoints / 20 else (i + 1) / 20).
(* The history of the points with the given numbers. *)
Definition history_of (initPoints : nat) (data : list point) (g : list nat) : history :=
  map (fun i => (arrival initPoints i, map q_of (nth i data []))) g.
(* The first n points that carry label c. *)
Definition labelled (labels : list Z) (n : nat) (c : Z) : list nat := filter (fun i => (nth i labels 0 =? c)%Z) (seq 0 n).
