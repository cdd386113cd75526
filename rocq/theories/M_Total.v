(* Model: totals of the cells of an array. Source: ra/ra.hh:348-362 (sum, prod), ra/expr.hh:50-60, 266-312; test/reduction.cc:196-250. *)
From Coq Require Import ZArith List.
From Verif Require Import M_Base M_Expr M_Ply M_Val M_View M_Mat M_Cell M_Cells M_Deep M_Stencil.
Import ListNotations.
Open Scope Z_scope.

Section Total.
Context {T : Type}.
(* fixed, z: the traversal of the cells; fi, zi: that within each of the cells, as in M_Cells.v *)
Variables (fixed fi : bool) (z zi : list zt).
(* sum(iter<cr>(a)), prod(iter<cr>(a)), ra.hh:348-362. The cells are views; see M_Deep.v. The new array is at q. *)
Definition sum_cells (f : T -> T -> T) (zero : T) (q : Z) (a : view) (cr : Z) : M (mem T) (option view) :=
  match icell a cr with Good e => sum_arrays fixed z fi zi f zero q e | _ => fail end.
(* scalar(c) f= iter<cr>(a), expr.hh:50-60, 104-120: every element of scalar(c) is c, by reference *)
Definition scalar_cells (f : T -> T -> T) (c a : view) (cr : Z) : M (mem T) (option unit) :=
  match icell a cr with Good e => ply fixed no_stop z (Map (cell_op fi zi f) [Scalar c; e]) | _ => fail end.
(* scalar(c) = g(scalar(c), iter<cr>(a)); the three arguments are as in M_Cells.v assign_cells2 *)
Definition scalar_cells2 (g : T -> T -> T) (c a : view) (cr : Z) : M (mem T) (option unit) :=
  match icell a cr with Good e => ply fixed no_stop z (Map (cell_op2 fi zi g) [Scalar c; Scalar c; e]) | _ => fail end.
(* d = map([](auto && a) { return sum(a); }, iter<n>(a)), or amax; d isn't in a *)
Definition row_sums (add : T -> T -> T) (zero : T) (d a : view) (n : nat) : M (mem T) (option unit) := assign_map fixed z (fun c => sum fi zi add zero (viter c)) d a n.
Definition row_maxs (ltb : T -> T -> bool) (bot : T) (d a : view) (n : nat) : M (mem T) (option unit) := assign_map fixed z (fun c => amax fi zi ltb bot (viter c)) d a n.
End Total.
