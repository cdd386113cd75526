(* Model: an array on both sides of an assignment. Source: expr.hh:50-60, ra.hh:204-226, test/reduction-1.cc:22-30. *)
From Coq Require Import ZArith List.
From Verif Require Import M_Base M_Expr M_Ply M_Val M_Elem.
Import ListNotations.
Open Scope Z_scope.

Section Feed.
Context {T : Type}.
Notation ex := (expr (val T) (mem T)).
(* test/reduction-1.cc:26, 28: m = max(c, m), where m is d, and g for max (ra.hh:204-226 RA_FORWARD) *)
Definition feed (fixed : bool) (z : list zt) (g : T -> T -> T) (d c : ex) : M (mem T) (option unit) := assign fixed z (fun _ x => x) d (bin g c d).
(* expr.hh:50-60: m = m + c, where m is d, and g for + *)
Definition feed_left (fixed : bool) (z : list zt) (g : T -> T -> T) (d c : ex) : M (mem T) (option unit) := assign fixed z (fun _ x => x) d (bin g d c).
End Feed.
