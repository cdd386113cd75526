(* Model: the examples for iterators over cells in examples/read-me.cc:91-112 and README.md. *)
From Coq Require Import ZArith List.
From Verif Require Import M_Base M_Expr M_Ply M_Val M_View M_Slice M_Frame M_Mat M_Cell M_Cells M_Stencil.
Import ListNotations.
Open Scope Z_scope.

Section Readme.
Context {T : Type}.
(* fixed, z: the traversal in for_each; fi, zi: that in sum(), as in M_Total.v *)
Variables (fixed fi : bool) (z zi : list zt) (add : T -> T -> T) (zero : T).
Notation run_ := (M (mem T) (option unit)).
(* examples/read-me.cc:103 B = 0; B += A *)
Definition by_plus (b a : view) : run_ := _ <- assign fixed z put (viter b) (Scalar (VT zero)) ;; assign fixed z add (viter b) (viter a).
(* examples/read-me.cc:104 for_each([](auto && b, auto && a) { b = ra::sum(a); }, B, A). The argument a is an element, and in sum() it's an expression of rank 0. *)
Definition by_elements (b a : view) : run_ := ply fixed no_stop z (Map (op2 (fun u v => x <- sum fi zi add zero (Scalar v) ;; assign_op put [u; VT x])) [viter b; viter a]).
(* The cells (M_Cell.v) as arguments beside elements. icell doesn't give anything but Cell. *)
Definition items (e : expr view (mem T)) : expr (item (T := T)) (mem T) := match e with Cell dv fr v p => Cell dv fr (fun q => inl (v q)) p | _ => Scalar (inr VUnit) end.
(* examples/read-me.cc:105, 106, 110: the same function, with B and iter<cr>(A), where cr is 1, -2 or 2 *)
Definition sum_cell (xs : list (item (T := T))) : M (mem T) item :=
  match xs with [inr u; inl c] => x <- sum fi zi add zero (viter c) ;; v <- assign_op put [u; VT x] ;; ret (inr v) | _ => undef end.
Definition by_cells (cr : Z) (b a : view) : run_ := onres (icell a cr) (fun e => ply fixed no_stop z (Map sum_cell [vals (viter b); items e])).
End Readme.
