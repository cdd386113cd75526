(* Model: access to elements and cells by index, shape(v, e), conversion to scalar. Source: ra/ra.hh:227-250, ra/ply.hh:297-308, ra/expr.hh:149-158. *)
From Coq Require Import ZArith List Lia Bool.
From Verif Require Import M_Base M_Expr M_Ply M_Val M_View M_Slice M_Cell M_Static.
Import ListNotations.
Open Scope Z_scope.

(* ra.hh:240-250 at_view(a, i) with a single index i, a list of integers. 'iter(a, cr)' is Cell (expr.hh:266-312). 247: rank_diff(rank_s(a), size_s(i)), or at 248
   rank(a)-size(i), are the same number. If that isn't a good cell
   rank then it doesn't compile when the ranks are static (expr.hh:272) and is refused when they aren't. *)
Definition at_view {W} (v : view) (i : list Z) : M W view :=
  match icell v (Z.of_nat (vrank v) - Z.of_nat (length i)) with
  | Good e => at_ e i
  | Refused => fail
  | UB => undef
  end.

(* ra.hh:228-238 at(a, i) with i an array of indices (231): a map on i of at(a, .), which is *indexer(a, a.data(), iter(i)) (233). The elements of i are lists of integers;
   [ix] is the list for each value of the argument of the map. The array of indices isn't part of the memory that the elements of a are in. *)
Definition at_op {T} (v : view) (ix : val T -> list Z) : list (val T) -> M (mem T) (val T) :=
  op1 (fun x => match indexer (vdv v) (vcp v) (ix x) with Some p => ret (VRef p) | None => fail end).
Definition at_each {T} (v : view) (ix : val T -> list Z) (i : expr (val T) (mem T)) : expr (val T) (mem T) := Map (at_op v ix) [i].
(* ra.hh:243 the same with at_view. The elements are views. *)
Definition at_view_each {W} (v : view) (ix : view -> list Z) (i : expr view W) : expr view W :=
  Map (fun xs => match xs with [x] => at_view v (ix x) | _ => undef end) [i].

(* ply.hh:297-308 shape(v, e). 303: e is a scalar. 306: a map on wlen(rank, e), of which this is at(j). None: a failed check, or wlen is undefined (M_Slice.v). *)
Definition shape_at (v : view) (k : Z) : option Z := if inside k (Z.of_nat (vrank v)) then Some (len (nth (Z.to_nat k) (vdv v) dim0)) else None.
Definition shape_scalar (v : view) (e : lx) : option Z :=
  match wlen (Z.of_nat (vrank v)) e with Some e' => match lat e' [] with Some k => shape_at v k | None => None end | None => None end.
Definition shape_each (v : view) (e : lx) (j : list Z) : option Z :=
  match wlen (Z.of_nat (vrank v)) e with Some e' => match lat e' j with Some k => shape_at v k | None => None end | None => None end.

(* expr.hh:149-158 to_scalar; t is the type of e. 152-153: if size_s isn't 1 then it must be ANY, or else it doesn't compile. *)
Definition scalar_compiles (t : ty) : bool := (size_s t =? 1) || (size_s t =? ANY).
Definition to_scalar {X W} (t : ty) (e : expr X W) : M W X :=
  if 1 =? size_s t then deref e
  else if 1 =? sizee e then deref e else fail.
