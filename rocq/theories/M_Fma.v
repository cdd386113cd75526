(* Model: the reductions of ra/ra.hh if RA_FMA is 1 (ra.hh:364-374), and their elements if these are of type double or integers of 64 bits.
   RA_FMA is FP_FAST_FMA if that is defined (ra.hh:364-369), as on most present processors with the flags of test/SConstruct:43-45. *)
From Coq Require Import ZArith List Bool.
From Flocq Require Import IEEE754.BinarySingleNaN.
From Verif Require Import M_Base M_Expr M_Ply M_Val.
Import ListNotations.
Open Scope Z_scope.

Section Fma.
Context {T : Type}.
(* ra.hh:379-384: the value of the local variable c; None after an operation that is undefined. The operations that come after one that is undefined make no difference. *)
Definition defined {W} (r : M W (option T)) : M W T := bind r (fun c => match c with Some c => ret c | None => undef end).
Definition then_ (f : T -> option T) (c : option T) : option T := match c with Some c => f c | None => None end.
(* ra.hh:372 maybe_fma, 379-384 dot. fma x y c is the new value of c, None if the conversion of the result to the type of c is undefined. *)
Definition dot_fma (fixed : bool) (z : list zt) (fma : T -> T -> T -> option T) (zero : T) (a b : expr (val T) (mem T)) : M (mem T) T :=
  defined (for_each_c fixed z (op2 (fun v u => bind (rdl v) (fun x => bind (rdl u) (fun y => update (then_ (fma x y)))))) [a; b] (Some zero)).
(* ra.hh:373 maybe_fma_conj, 387-392 cdot *)
Definition cdot_fma (fixed : bool) (z : list zt) (fma_conj : T -> T -> T -> T) (zero : T) (a b : expr (val T) (mem T)) : M (mem T) T :=
  for_each_c fixed z (op2 (fun v u => bind (rdl v) (fun x => bind (rdl u) (fun y => update (fma_conj x y))))) [a; b] zero.
(* ra.hh:374 maybe_fma_sqrm, 395-401 reduce_sqrm. The result is of the real type C that belongs to T. *)
Definition reduce_sqrm_fma {C} (fixed : bool) (z : list zt) (fma_sqrm : T -> C -> C) (zero : C) (a : expr (val T) (mem T)) : M (mem T) C :=
  for_each_c fixed z (op1 (fun v => bind (rdl v) (fun x => update (fma_sqrm x)))) [a] zero.
End Fma.

(* The elements at ra.hh:348-401. double is IEEE binary64, with one NaN, rounded to nearest with ties to even. Without the options of a compiler that change the order of the operations or merge them. *)
Definition double : Type := binary_float 53 1024.
(* operator+=, operator* of double, at ra.hh:352, 372, 407 ff. *)
Definition add_d : double -> double -> double := @Bplus 53 1024 eq_refl eq_refl mode_NE.
Definition mul_d : double -> double -> double := @Bmult 53 1024 eq_refl eq_refl mode_NE.
(* std::fma (ra.hh:42) *)
Definition fma_d : double -> double -> double -> double := @Bfma 53 1024 eq_refl eq_refl mode_NE.
(* double(0), decltype(...)(): ra.hh:351, 382 *)
Definition zero_d : double := B754_zero false.
(* ra.hh:86 fma_conj of double *)
Definition fma_conj_d (a b c : double) : double := fma_d a b c.
(* ra.hh:91 fma_sqrm. There's none for real arguments: a is converted to std::complex(a), with imag() 0. *)
Definition fma_sqrm_d (a c : double) : double := fma_d a a (fma_d zero_d zero_d c).
(* ra.hh:71 sqrm of double *)
Definition sqrm_d (x : double) : double := mul_d x x.

(* conversion of an integer of 64 bits to double, in the call of fma at ra.hh:372 *)
Definition of_int (n : Z) : double := @binary_normalize 53 1024 eq_refl eq_refl mode_NE n 0 false.
(* conversion of a double to an integer of 64 bits (int64_t), in the assignment at ra.hh:372: the integer part, undefined if it doesn't fit, or isn't finite *)
Definition to_int (x : double) : option Z :=
  if is_finite x && (- 2 ^ 63 <=? Btrunc x) && (Btrunc x <? 2 ^ 63) then Some (Btrunc x) else None.
(* std::fma of integers converts its arguments to double, and 'c=fma(a, b, c)' (ra.hh:372) converts the result to the type of c. *)
Definition fma_i (a b c : Z) : option Z := to_int (fma_d (of_int a) (of_int b) (of_int c)).
