(* Model: real and imaginary parts of arrays of complex numbers, as destination. Source: ra/ra.hh:94-99, 206-214. *)
From Coq Require Import ZArith List.
From Verif Require Import M_Base M_Expr M_Val M_View M_Mat.
Import ListNotations.
Open Scope Z_scope.

Section Ref.
Context {T : Type}.
(* The memory holds real numbers. A complex number takes two places, that of the real part first ([complex.numbers.general]); the reference to it is the first of these. So the step of the pointer in an
   array of complex numbers is 2 places. *)
Definition citer (a : view) : expr (val T) (mem T) := Cell (vdv a) (vrank a) (fun p => VRef (2 * p)) (vcp a).
(* ra.hh:94-99: real_part(C & z) is [0], imag_part(C & z) is [1] of the pair *)
Definition real_op : list (val T) -> M (mem T) (val T) := op1 (fun v => match v with VRef p => ret (VRef p) | _ => undef end).
Definition imag_op : list (val T) -> M (mem T) (val T) := op1 (fun v => match v with VRef p => ret (VRef (p + 1)) | _ => undef end).
(* ra.hh:206-214 RA_NAME *)
Definition real_part (a : expr (val T) (mem T)) : expr (val T) (mem T) := Map real_op [a].
Definition imag_part (a : expr (val T) (mem T)) : expr (val T) (mem T) := Map imag_op [a].
End Ref.
