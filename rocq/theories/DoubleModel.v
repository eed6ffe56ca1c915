(* DoubleModel.v -- utils::vectors_distance in IEEE double arithmetic (definitions only).  The doubles and their operations
   are those of Coq's standard library (Floats/SpecFloat.v), with 53 bits and exponents below 1024. *)
From Coq Require Import List Arith ZArith Bool SpecFloat.
From Verif Require Import Base UtilsModel.
Import ListNotations.

Notation double := spec_float.
Definition d_zero : double := S754_zero false.
Definition d_sub : double -> double -> double := SFsub 53 1024.
Definition d_mul : double -> double -> double := SFmul 53 1024.
Definition d_add : double -> double -> double := SFadd 53 1024.
Definition d_sqrt : double -> double := SFsqrt 53 1024.

(* pow(x, 2) as x * x, correctly rounded (a library may differ from it in the last bit). *)
Definition d_square (x : double) : double := d_mul x x.

Section Distance.
  Variable square : double -> double.               (* pow(x, 2) *)
  (* Utils/utils.cpp:168-179 utils::vectors_distance(vector, vector). *)
  Definition d_distance (a b : list double) : res double :=
    vectors_distance (fun x y => square (d_sub x y)) d_add d_sqrt d_zero a b.
End Distance.
