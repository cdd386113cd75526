(* Model: the equations of examples/laplace2d.cc. *)
From Coq Require Import ZArith List.
From Verif Require Import M_Base M_Expr M_Ply M_Val M_View M_Stencil.
Import ListNotations.
Open Scope Z_scope.

Section Poisson.
Context {T : Type}.
Variables (fixed : bool) (z : list zt).
(* four: 4 as a T *)
Variables (sub mul : T -> T -> T) (four : T).
(* examples/laplace2d.cc:36, the right hand side *)
Definition stiff_term : term T :=
  TOp sub (TOp sub (TOp sub (TOp sub (TOp mul (TNum four) (TWin [0; 0])) (TWin [-1; 0])) (TWin [0; -1])) (TWin [1; 0])) (TWin [0; 1]).
(* examples/laplace2d.cc:29-38 mult(StiffMat, v, w), but for the time. StiffMat::h isn't used. *)
Definition stiff (v w : view) : M (mem T) (option unit) := slices fixed z w v [1; 1] [1; 1] stiff_term.
End Poisson.
