(* What the properties of the reductions of double (P_Fma.v) are stated with. The value of a double, if it's finite, is B2R of Flocq. *)
From Coq Require Import ZArith Reals List.
From Flocq Require Import BinarySingleNaN.
From Verif Require Import M_Scalar Spec_Scalar M_Fma.
Import ListNotations.
Open Scope R_scope.

(* the unit roundoff of double, half of the least positive double, and the first power of 2 that is too large *)
Definition u : R := / 2 ^ 53.
Definition tiny : R := / 2 ^ 1075.
Definition huge : R := 2 ^ 1024.
(* the sum of a list of real numbers, of integers, or of complex numbers *)
Definition total (l : list R) : R := fold_right Rplus 0 l.
Definition ztotal (l : list Z) : Z := fold_right Z.add 0%Z l.
Definition ctotal (l : list cplx) : cplx := fold_right cadd (C 0 0) l.
(* x is the double for the number k *)
Definition is_int (x : double) (k : Z) : Prop := is_finite x = true /\ B2R x = IZR k.
(* r is finite and is off the exact value by no more than n relative errors u of quantities that add up to q, and n absolute errors 'tiny' *)
Definition close (n : nat) (q exact : R) (r : double) : Prop :=
  is_finite r = true /\ Rabs (B2R r - exact) <= ((1 + u) ^ n - 1) * q + (1 + u) ^ n * (INR n * tiny).
