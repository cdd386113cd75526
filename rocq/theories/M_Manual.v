(* Model: programs in docs/ra-ra.texi that aren't in M_Doc.v. *)
From Coq Require Import ZArith List Bool.
From Verif Require Import M_Base M_Expr M_Ply M_Val M_View M_Slice M_Frame M_Mat M_Cell M_Cells M_Stencil.
Import ListNotations.
Open Scope Z_scope.

Section Manual.
Context {T : Type}.
(* fixed, z: the traversal; fi, zi: that in the sum of each cell *)
Variables (fixed fi : bool) (z zi : list zt).
Notation ex := (expr (val T) (mem T)).
Notation run_ := (M (mem T) (option unit)).

(* docs/ra-ra.texi:1993, 2003: scalar(a) = e, scalar(a) += e (expr.hh:50-60, 104-120), where a is a variable at p *)
Definition into_scalar (f : T -> T -> T) (p : Z) (e : ex) : run_ := assign fixed z f (Scalar (VRef p)) e.
(* the right hand side there, g(k, v), as in 3 + ra::Small<int, 3> {4, 5, 6} (ra.hh:178-226) *)
Definition with_scalar (g : T -> T -> T) (k : T) (v : view) : ex := Map (mul_op g) [Scalar (VT k); viter v].

(* docs/ra-ra.texi:2841: op(a, transpose(b, ilist<r, r+1, ...>)), where r is the rank of a and the axes before it have nothing (arrays.hh:431-462) *)
Definition after (r n : nat) : list Z := map Z.of_nat (seq r n).

(* docs/ra-ra.texi:3038: map([](auto && a) { return sum(diag(a)); }, iter<-1>(c)), in d. The cells have rank 2. *)
Definition trace (add : T -> T -> T) (zero : T) (c : view) : M (mem T) T := onres (diag c) (fun v => sum fi zi add zero (viter v)).
Definition traces (add : T -> T -> T) (zero : T) (d c : view) : run_ := assign_map fixed z (trace add zero) d c 2.

(* docs/ra-ra.texi:473-474: c(i) = x *)
Definition set_row (c : view) (i : Z) (x : T) : run_ := onres (from c [cidx i]) (fun v => assign fixed z put (viter v) (Scalar (VT x))).

(* docs/ra-ra.texi:2985-2987: y += x; iter(x) += y *)
Definition both_ways (f : T -> T -> T) (x y : view) : run_ := _ <- assign fixed z f (viter y) (viter x) ;; assign fixed z f (viter x) (viter y).

(* docs/ra-ra.texi:1165: ply(where(p(n), map([&o](auto && x) { o.push_back(x); }, n), map([&e](auto && x) { e.push_back(x); }, n))) (ra.hh:255-256, expr.hh:712-722).
   The state has o and e beside the memory of n; push_back adds at the end (arrays.hh:310-311). *)
Definition two : Type := list T * list T.
Definition push_o (xs : list (val T)) : M (mem T * two) (val T) := match xs with [v] => x <- rdl v ;; update (fun s => (fst s ++ [x], snd s)) | _ => undef end.
Definition push_e (xs : list (val T)) : M (mem T * two) (val T) := match xs with [v] => x <- rdl v ;; update (fun s => (fst s, snd s ++ [x])) | _ => undef end.
Definition split (p : T -> bool) (n : ex) : M (mem T * two) (option unit) :=
  ply fixed no_stop z (Pick selv [lift (castb p n); Map push_e [lift n]; Map push_o [lift n]]).
(* docs/ra-ra.texi:1152-1153: map([](auto && w, auto && t, auto && f) { return w ? t : f; }, p(n), ..., ...) with the same arguments. The operation has no effect here. *)
Definition split_map (p : T -> bool) (n : ex) : M (mem T * two) (option unit) :=
  ply fixed no_stop z (Map (fun _ => ret VUnit) [lift (castb p n); Map push_o [lift n]; Map push_e [lift n]]).
End Manual.
