(* Model: operators on arrays. Source: ra/ra.hh:175-226. *)
From Coq Require Import ZArith List.
From Verif Require Import M_Base M_Expr M_Val.
Import ListNotations.
Open Scope Z_scope.

Section Elem.
Context {T : Type}.
Notation ex := (expr (val T) (mem T)).
(* ra.hh:180-190 RA_BINOP: map(op, a, b), where op gives a number. RA_OPT gives the same elements (C37). If both are of rank 0 it's the operation on the values (C89). *)
Definition bin (g : T -> T -> T) (a b : ex) : ex := Map (op2 (fun u v => x <- rd u ;; y <- rd v ;; ret (VT (g x y)))) [a; b].
(* ra.hh:180-190 as above, where op is ==, <, etc. *)
Definition cmp (g : T -> T -> bool) (a b : ex) : ex := Map (op2 (fun u v => x <- rd u ;; y <- rd v ;; ret (VB (g x y)))) [a; b].
(* ra.hh:195-202 RA_UNOP with -, 204-226 RA_NAME, RA_FORWARD and RA_USING with one argument *)
Definition una (g : T -> T) (a : ex) : ex := Map (op1 (fun v => x <- rd v ;; ret (VT (g x)))) [a].
(* ra.hh:195-202 RA_UNOP with ! *)
Definition lnot (tob : T -> bool) (a : ex) : ex := Map (op1 (fun v => b <- rdb tob v ;; ret (VB (negb b)))) [a].
End Elem.
