(* Model: assignment by cells. Source: ra/expr.hh:50-60 (assignment operators), 266-312 (Cell), ra/arrays.hh:131-135 (View assignment operators), ra/ply.hh:168 (for_each). *)
From Coq Require Import ZArith List.
From Verif Require Import M_Base M_Expr M_Ply M_Val M_View M_Mat M_Cell.
Import ListNotations.
Open Scope Z_scope.

Section Cells.
Context {T : Type}.
(* fixed, z: kind and thread_local state of the traversal of the cells; fi, zi: those of the traversal within each of the cells, as in M_Deep.v. *)
Variables (fixed fi : bool) (z zi : list zt).
(* arrays.hh:131-135: 'c f= u' where c and u are views *)
Definition cell_op (f : T -> T -> T) (xs : list view) : M (mem T) view :=
  match xs with [c; u] => _ <- assign fi zi f (viter c) (viter u) ;; ret c | _ => undef end.
(* iter<ca>(a) f= iter<cb>(b). expr.hh:50-60: for_each with 'c f= u' on each pair of cells *)
Definition assign_cells (f : T -> T -> T) (a : view) (ca : Z) (b : view) (cb : Z) : M (mem T) (option unit) :=
  match icell a ca, icell b cb with
  | Good d, Good e => ply fixed no_stop z (Map (cell_op f) [d; e])
  | _, _ => fail
  end.
(* the elementwise expression g(c, u) *)
Definition both (g : T -> T -> T) : list (val T) -> M (mem T) (val T) := op2 (fun v w => x <- rd v ;; y <- rd w ;; ret (VT (g x y))).
(* 'c = g(d, u)' where c, d and u are views *)
Definition cell_op2 (g : T -> T -> T) (xs : list view) : M (mem T) view :=
  match xs with [c; d; u] => _ <- assign fi zi (fun _ x => x) (viter c) (Map (both g) [viter d; viter u]) ;; ret c | _ => undef end.
(* iter<ca>(a) = g(iter<ca>(a), iter<cb>(b)), where g on two cells gives an expression (not evaluated yet) on their elements. The assignment is an operation of two arguments, the second one an operation of two arguments;
   here it's a single one of three, which has the same agreement of lengths and the same order of evaluation. *)
Definition assign_cells2 (g : T -> T -> T) (a : view) (ca : Z) (b : view) (cb : Z) : M (mem T) (option unit) :=
  match icell a ca, icell b cb with
  | Good d, Good e => ply fixed no_stop z (Map (cell_op2 g) [d; d; e])
  | _, _ => fail
  end.
(* for_each([&](auto && u) { a = g(a, u); }, iter<cb>(b)) *)
Definition for_cells (g : T -> T -> T) (a b : view) (cb : Z) : M (mem T) (option unit) :=
  match icell b cb with
  | Good e => ply fixed no_stop z (Map (fun xs => match xs with [u] => cell_op2 g [a; a; u] | _ => undef end) [e])
  | _ => fail
  end.
End Cells.
