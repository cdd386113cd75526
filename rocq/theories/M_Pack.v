(* Model: the ways to fill an array of complex numbers in bench/bench-pack.cc. Source: also ra/ra.hh:94-102, ra/expr.hh:683-684, ra/arrays.hh:581-612. *)
From Coq Require Import ZArith List.
From Verif Require Import M_Base M_Expr M_Ply M_Val M_View M_Slice M_Mat M_Ref M_Gemm.
Import ListNotations.
Open Scope Z_scope.

(* ra::iota(n), ply.hh:320-330, and n-ra::iota(n), ra.hh:178-203: integers. With an origin 0. as in bench/bench-pack.cc:49 they are the same numbers, as real numbers. The optimization of n-iota(n) to a
   sequence (C37) is not made here. *)
Definition up {T W} (n : Z) : expr (val T) W := Cell [Dim n 1] 1 VI 0.
Definition down {T W} (n : Z) : expr (val T) W := Map (op1 (fun v => match v with VI i => ret (VI (n - i)) | _ => undef end)) [up n].

Section Reals.
Context {A : Type}.
Variables (fixed : bool) (z : list zt) (num : Z -> A).
(* the conversion of integers when they are assigned to real numbers, expr.hh:50-60 *)
Definition as_real (e : expr (val A) (mem A)) : expr (val A) (mem A) := Map (op1 (fun v => match v with VI i => ret (VT (num i)) | _ => undef end)) [e].
(* bench/bench-pack.cc:33-39 f_raw. The memory is of real numbers, as in M_Ref.v, so that data() is at 2 * vcp a. *)
Definition fill_raw (n : Z) (a : view) : M (mem A) (option unit) :=
  loop n (fun i m => Ok None (wr (2 * vcp a + 2 * i + 1) (num (n - i)) (wr (2 * vcp a + 2 * i) (num i) m))).
(* bench/bench-pack.cc:40-43 f_reim *)
Definition fill_reim (n : Z) (a : view) : M (mem A) (option unit) :=
  _ <- assign fixed z (fun _ x => x) (real_part (citer a)) (as_real (up n)) ;; assign fixed z (fun _ x => x) (imag_part (citer a)) (as_real (down n)).
(* ra::collapse<real>(a), arrays.hh:581-612: the steps of the result are in units of reals, and its start is that of a, here in the same units *)
Definition collapse_real (w : Z) (a : view) : res view := match collapse a (Ety [] (2 * w) (2 * w)) (Ety [] w w) with Good c => Good (Vw (vdv c) (2 * vcp c)) | r => r end.
(* bench/bench-pack.cc:44-48 f_collapse. w: sizeof(real) *)
Definition fill_collapse (w : Z) (n : Z) (a : view) : M (mem A) (option unit) :=
  onres (collapse_real w a) (fun c =>
    _ <- onres (from c [all; cidx 0]) (fun r => assign fixed z (fun _ x => x) (viter r) (as_real (up n))) ;;
    onres (from c [all; cidx 1]) (fun r => assign fixed z (fun _ x => x) (viter r) (as_real (down n)))).
End Reals.

Section Complex.
Context {A : Type}.
Variables (fixed : bool) (z : list zt) (num : Z -> A) (zero : A) (add : A -> A -> A).
Notation C := (A * A)%type.
(* expr.hh:683-684 pack<complex>(x, y), the elements of x and y as real numbers *)
Definition pack (x y : expr (val C) (mem C)) : expr (val C) (mem C) :=
  Map (op2 (fun u v => match u, v with VI i, VI j => ret (VT (num i, num j)) | _, _ => undef end)) [x; y].
(* ra.hh:101 xi(x) *)
Definition xi (x : expr (val C) (mem C)) : expr (val C) (mem C) := Map (op1 (fun v => match v with VI i => ret (VT (zero, num i)) | _ => undef end)) [x].
(* x+z for x real and z complex ([complex.ops]: the real part of the sum is that of z plus x) *)
Definition plus_real (x y : expr (val C) (mem C)) : expr (val C) (mem C) :=
  Map (op2 (fun u v => match u with VI i => w <- rd v ;; ret (VT (add (fst w) (num i), snd w)) | _ => undef end)) [x; y].
(* bench/bench-pack.cc:49-51 f_pack. The memory is of complex numbers. *)
Definition fill_pack (n : Z) (a : view) : M (mem C) (option unit) := assign fixed z (fun _ x => x) (viter a) (pack (up n) (down n)).
(* bench/bench-pack.cc:52-54 f_xi *)
Definition fill_xi (n : Z) (a : view) : M (mem C) (option unit) := assign fixed z (fun _ x => x) (viter a) (plus_real (up n) (xi (down n))).
End Complex.
