(* Model: sum and prod of arrays whose elements are arrays. Source: ra/ra.hh:348-362, ra/arrays.hh:389-396. *)
From Coq Require Import ZArith List.
From Verif Require Import M_Base M_Expr M_Ply M_Val M_View M_Mat.
Import ListNotations.
Open Scope Z_scope.

Section Deep.
Context {T : Type}.
(* The elements of e are arrays: operator* gives a reference to one of them, that is, where its elements are. f is += (ra.hh:352) or *= (ra.hh:360).
   'c+=a' (arrays.hh:131-135, 300-304) is an assignment on the elements of c and a. fi, zi: kind and thread_local state of that traversal, as in M_Val.v; its type isn't that of the outer one. *)
Definition into (fi : bool) (zi : list zt) (f : T -> T -> T) (c : view) (xs : list view) : M (mem T) view :=
  match xs with [v] => _ <- assign fi zi f (viter c) (viter v) ;; ret v | _ => undef end.
(* ra.hh:348-362. c is a new array with the shape of VAL(a) (arrays.hh:389-396), which is what operator* gives at the beginning (expr.hh:136-144), and all of its elements are zero (one, for prod).
   It is at [q], a part of the memory that isn't in use. *)
Definition sum_arrays (fixed : bool) (z : list zt) (fi : bool) (zi : list zt) (f : T -> T -> T) (zero : T) (q : Z) (e : expr view (mem T)) : M (mem T) (option view) :=
  v <- deref e ;; new_array q (map len (vdv v)) zero (fun c => ply fixed no_stop z (Map (into fi zi f c) [e])).
End Deep.
