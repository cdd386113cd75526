(* Model: examples/deriv.cc. *)
From Coq Require Import ZArith List.
From Verif Require Import M_Base M_Expr M_Ply M_Val M_View M_Slice M_Mat M_Elem M_Opt M_Stencil M_Laplace.
Import ListNotations.
Open Scope Z_scope.

Section Deriv.
Context {T : Type}.
(* fixed, z: the traversal in the assignments. fi, zi: the one in sum(). *)
Variables (fixed : bool) (z : list zt) (fi : bool) (zi : list zt).
(* of_int: conversion of an integer to T *)
Variables (zero one two : T) (add mul sub div : T -> T -> T) (of_int : Z -> T) (cos sin sqrt : T -> T).
(* examples/deriv.cc:16, 42: i*delta, with i = ra::tindex<0>, that has no length (arrays.hh:361). As delta isn't an integer there's no optimization (ra.hh:119). *)
Definition places (delta : T) : expr (val T) (mem T) := Map (scale_op mul of_int) [Reframe iota0 [0%nat]; Scalar (VT delta)].
(* ra.hh:65 sqr *)
Definition sqr (x : T) : T := mul x x.
(* examples/deriv.cc:53, the right hand side *)
Definition second (delta : T) : term T := TOp div (TOp add (TOp sub (TWin [-1]) (TOp mul (TNum two) (TWin [0]))) (TWin [1])) (TNum (mul delta delta)).
(* examples/deriv.cc:18-66, for any numSamples; the result is error. Arrays are views on one memory here. They are made with the elements of the expression (arrays.hh:297), that are assigned, and y2 without (arrays.hh:296). *)
Definition deriv (n : Z) (y y2exact y2 : view) : M (mem T) T :=
  let delta := div one (of_int n) in
  _ <- assign fixed z put (viter y) (una sqr (una cos (places delta))) ;;
  _ <- assign fixed z put (viter y2exact) (times mul (Scalar (VT two)) (times sub (una sqr (una sin (places delta))) (una sqr (una cos (places delta))))) ;;
  onres (M_Opt.iota (Run (n - 2)) 1 1) (fun q =>
    _ <- slices fixed z y2 y [1] [1] (second delta) ;;
    onres (window y2 [q]) (fun a => onres (window y2exact [q]) (fun b =>
      s <- sum fi zi add zero (una sqr (times sub (viter a) (viter b))) ;;
      ret (sqrt (div s (of_int (n - 2))))))).
End Deriv.
