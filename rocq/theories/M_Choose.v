(* Model: the program in examples/where-pick.cc. *)
From Coq Require Import ZArith List Bool.
From Verif Require Import M_Base M_Expr M_Ply M_Val M_View M_Mat M_Elem M_Stencil.
Import ListNotations.
Open Scope Z_scope.

Section Choose.
Context {T : Type}.
Variables (fixed : bool) (z : list zt).
Notation ex := (expr (val T) (mem T)).
Notation run_ := (M (mem T) (option unit)).
Variable tob : T -> bool.

(* examples/where-pick.cc:22 where(abs(x) > 2, x+10, x-10). The operations and the literals are those of the type of the elements. *)
Definition where_far (ab : T -> T) (gt : T -> T -> bool) (add sub : T -> T -> T) (two ten : T) (x : ex) : ex :=
  where_ tob (cmp gt (una ab x) (Scalar (VT two))) (bin add x (Scalar (VT ten))) (bin sub x (Scalar (VT ten))).
(* examples/where-pick.cc:38 where(x<0, 0, where(x==0, 1, 2)) *)
Definition sign_of (lt eq : T -> T -> bool) (zero : T) (x : ex) : ex :=
  where_ tob (cmp lt x (Scalar (VT zero))) (Scalar (VI 0)) (where_ tob (cmp eq x (Scalar (VT zero))) (Scalar (VI 1)) (Scalar (VI 2))).
(* examples/where-pick.cc:38 pick(..., x*3, 77, x*2) *)
Definition pick_sign (lt eq : T -> T -> bool) (mul : T -> T -> T) (zero two three other : T) (x : ex) : ex :=
  Pick selv [sign_of lt eq zero x; bin mul x (Scalar (VT three)); Scalar (VT other); bin mul x (Scalar (VT two))].
(* examples/where-pick.cc:22, 38: y = ..., z = .... In the example y and z are constructed with the lengths of the expression (C39); here they are there already. *)
Definition put_far ab gt add sub two ten (y x : view) : run_ := assign fixed z put (viter y) (where_far ab gt add sub two ten (viter x)).
Definition put_sign lt eq mul zero two three other (y x : view) : run_ := assign fixed z put (viter y) (pick_sign lt eq mul zero two three other (viter x)).
(* examples/where-pick.cc:34-38 in general, y = pick(k, t ...) *)
Definition put_pick (y : view) (k : ex) (t : list ex) : run_ := assign fixed z put (viter y) (Pick selv (k :: t)).
End Choose.
