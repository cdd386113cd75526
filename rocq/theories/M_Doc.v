(* Model: programs from the manual, with operations of the library. Source: docs/ra-ra.texi:1201-1215, 1354-1362. *)
From Coq Require Import ZArith List Lia Bool.
From Verif Require Import M_Base M_Expr M_Ply M_Val M_View M_Slice M_Frame M_Mat M_Cells.
Import ListNotations.
Open Scope Z_scope.

Section Doc.
Context {T : Type}.
Variables (fixed : bool) (z : list zt).

(* ply.hh:168 for_each with a Verb, expr.hh:665-683. The ranks are in the types, and a Verb that doesn't fit doesn't compile. *)
Definition each_verb (cs : list (list nat)) (op : list (val T) -> M (mem T) (val T)) (t : list (expr (val T) (mem T))) : M (mem T) (option unit) :=
  match map_verb cs op t with Some e => ply fixed no_stop z e | None => undef end.

(* docs/ra-ra.texi:1208 for_each(wrank<1, 1>([](auto & c, auto && a) { c += a; }), sum_rows, a), for an operation f in place of + and for rank r of the first argument in place of 1 *)
Definition verb_rows (f : T -> T -> T) (c a : view) : M (mem T) (option unit) := each_verb [[vrank c; vrank c]] (assign_op f) [viter c; viter a].
(* docs/ra-ra.texi:1207 iter<1>(sum_rows) += iter<1>(a), the same. fi, zi: the traversal of the cells (expr.hh:266-312, 46-60). *)
Definition cell_rows (fi : bool) (zi : list zt) (f : T -> T -> T) (c a : view) : M (mem T) (option unit) := assign_cells fixed fi z zi f c (Z.of_nat (vrank c)) a (Z.of_nat (vrank c)).
(* docs/ra-ra.texi:1209 sum_rows += transpose(a) (arrays.hh:431-462). The axes of a that aren't in c, n of them, go after the others. *)
Definition last_axes (n r : nat) : list Z := map Z.of_nat (seq r n ++ seq 0 r).
Definition transpose_rows (f : T -> T -> T) (c a : view) : M (mem T) (option unit) :=
  onres (transpose a (last_axes (vrank a - vrank c) (vrank c))) (fun b => assign fixed z f (viter c) (viter b)).

(* docs/ra-ra.texi:1359 [](auto && c, auto && a, auto && b) { c += a*b; } *)
Definition mac_op (add mul : T -> T -> T) (xs : list (val T)) : M (mem T) (val T) :=
  match xs with [c; a; b] => y <- mul_op mul [a; b] ;; assign_op add [c; y] | _ => undef end.
(* docs/ra-ra.texi:1359 for_each(wrank<1, 1, 2>(wrank<1, 0, 1>(...)), C, A, B) *)
Definition verb_product (add mul : T -> T -> T) (a b c : view) : M (mem T) (option unit) :=
  each_verb [[1; 1; 2]; [1; 0; 1]]%nat (mac_op add mul) [viter c; viter a; viter b].
End Doc.
