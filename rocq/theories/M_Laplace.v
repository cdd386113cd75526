(* Model: the mass matrix and main() of examples/laplace2d.cc. *)
From Coq Require Import ZArith List.
From Verif Require Import M_Base M_Expr M_Ply M_Val M_View M_Slice M_Frame M_Mat M_Elem M_Opt M_Stencil M_Cg M_Poisson.
Import ListNotations.
Open Scope Z_scope.

Section Laplace.
Context {T : Type}.
(* fixed, z: the traversal in the assignments. fi, zi: the one in the reductions. *)
Variables (fixed : bool) (z : list zt) (fi : bool) (zi : list zt).
(* two, four, twelve: these numbers as a T. of_int: conversion of an integer to T. abs: std::abs of a T. *)
Variables (zero one two four twelve : T) (add mul sub div : T -> T -> T) (ltb : T -> T -> bool) (of_int : Z -> T) (abs : T -> T).
(* examples/laplace2d.cc:48, the right hand side. hh is sqrm(M.h). *)
Definition mass_term (hh : T) : term T :=
  TOp mul (TNum hh) (TOp add (TOp div (TWin [0; 0]) (TNum two))
    (TOp div (TOp add (TOp add (TOp add (TOp add (TOp add (TWin [-1; 0]) (TWin [0; -1])) (TWin [1; 0])) (TWin [0; 1])) (TWin [1; 1])) (TWin [-1; -1])) (TNum twelve))).
(* examples/laplace2d.cc:42-50 mult(MassMat, v, w), but for the time. h is M.h; sqrm of a real number is its square (ra.hh:71) *)
Definition mass (h : T) (v w : view) : M (mem T) (option unit) := slices fixed z w v [1; 1] [1; 1] (mass_term (mul h h)).

(* examples/laplace2d.cc:75, 77: i*h with i = ra::iota(N-1, 1). As h isn't an integer there's no optimization (ra.hh:119). *)
Definition scale_op (xs : list (val T)) : M (mem T) (val T) := match xs with [VI i; VT h] => ret (VT (mul (of_int i) h)) | _ => undef end.
Definition points (n : Z) (h : T) : expr (val T) (mem T) := Map scale_op [Cell [Dim (n - 1) 1] 1 VI 1; Scalar (VT h)].
(* examples/laplace2d.cc:77, 78: v(i, j) = from(g, i*h, j*h); ply.hh:547-549 from with an operation *)
Definition sample (n : Z) (h : T) (g : T -> T -> T) (v : view) : M (mem T) (option unit) :=
  onres (M_Opt.iota (Run (n - 1)) 1 1) (fun q => onres (window v [q; q]) (fun v0 =>
    match from_op (mul_op g) [points n h; points n h] with Some e => assign fixed z put (viter v0) e | None => undef end)).
(* examples/laplace2d.cc:69-86. Arrays are views on one memory here; they are made with all elements 0 (arrays.hh:297), but for work, that is made without (arrays.hh:296). bot is -infinity (ra.hh:317), or any number that isn't greater
   than the magnitudes. fuel: see cghs. The result is its and max. *)
Definition laplace2d (fuel : nat) (n : Z) (f g : T -> T -> T) (eps bot : T) (v u w b work : view) : M (mem T) (Z * T) :=
  let h := div one (of_int n) in
  let none x := assign fixed z put (viter x) (Scalar (VT zero)) in
  _ <- none v ;; _ <- none u ;; _ <- none w ;; _ <- none b ;;
  _ <- sample n h g v ;;
  _ <- sample n h f w ;;
  _ <- mass h w b ;;
  its <- cghs fixed z fi zi add sub mul div zero ltb (stiff fixed z sub mul four) fuel b u work eps ;;
  mx <- amax fi zi ltb bot (una abs (times sub (viter u) (viter v))) ;;
  ret (its, mx).
End Laplace.
