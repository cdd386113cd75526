(* Model: the functions of examples/small.cc. Source: examples/small.cc:14-53, ra/ra.hh:180-190 (operators), 379-384 (dot), ra/arrays.hh:169-218 (SmallArray). *)
From Coq Require Import ZArith List.
From Verif Require Import M_Base M_Expr M_Ply M_Val M_View M_Slice M_Mat M_Cell M_Cells M_Vec M_Vecs M_Stencil M_Elem.
Import ListNotations.
Open Scope Z_scope.

Section Reflect.
Context {T : Type}.
(* fixed, z: traversal of the assignment; fi, zi: that of dot *)
Variables (fixed fi : bool) (z zi : list zt) (add sub mul : T -> T -> T) (zero : T).

(* small.cc:21-26 reflect. k is 2.7. The vectors have 3 elements there, so that opt does nothing with them (ra.hh:120), and any number here. dot(ray, normal) is computed when the expression is made, and 2.7*dot(...) is a product of two numbers. *)
Definition reflect (k : T) (reflection ray normal : view) : M (mem T) (option unit) :=
  d <- dot fi zi add mul zero (viter ray) (viter normal) ;;
  assign fixed z put (viter reflection) (bin sub (viter ray) (bin mul (Scalar (VT (mul k d))) (viter normal))).
(* small.cc:14-18 add_vectors, Small<double, 4>: a+b goes through opt. The vectors are given by their number, as in M_Vecs.v. *)
Definition add_vectors (c a b : Z) : M (mem T) view := vec_op fi zi add true [vec_at 4 c; vec_at 4 a; vec_at 4 b].
End Reflect.
