(* Model: assignment to arrays whose elements are arrays, as in examples/pitfall.cc and examples/explode-collapse.cc. *)
From Coq Require Import ZArith List Bool.
From Verif Require Import M_Base M_Expr M_Ply M_Val M_View M_Slice M_Mat M_Stencil.
Import ListNotations.
Open Scope Z_scope.

Section Blocks.
Context {T : Type}.
Variables (fixed : bool) (z : list zt).
(* fi, zi: kind and thread_local state of the traversals of the elements, as in M_Deep.v; their type isn't that of the outer one *)
Variables (fi : bool) (zi : list zt).
Notation ex := (expr (val T) (mem T)).
Notation run_ := (M (mem T) (option unit)).

(* arrays.hh:171-218 SmallArray as the type of the elements of b: dt its lengths and steps. The places and the steps of b are in units of its own elements, of sz T each; o is where these begin. The place of an element of b is that of its first element. *)
Definition block_iter (o sz : Z) (b : view) : ex := Cell (vdv b) (vrank b) (fun p => VRef (o + sz * p)) (vcp b).
(* arrays.hh:202-206 'y OP x' where y is one of the elements of b and x is of type T: iter(y) OP scalar(x) *)
Definition block_op (f : T -> T -> T) (dt : list dim) : list (val T) -> M (mem T) (val T) :=
  op2 (fun y v => match y with VRef p => x <- rd v ;; _ <- assign fi zi f (viter (Vw dt p)) (Scalar (VT x)) ;; ret VUnit | _ => undef end).
(* arrays.hh:200, 130-135, expr.hh:50-60 'b OP e', where the elements of b are arrays and those of e are not. For examples/pitfall.cc:23, b = a, with f = put: the constructor does view() = a (arrays.hh:200) *)
Definition block_assign (f : T -> T -> T) (o sz : Z) (dt : list dim) (b : view) (e : ex) : run_ :=
  ply fixed no_stop z (Map (block_op f dt) [block_iter o sz b; e]).
(* examples/pitfall.cc:21-23 b = a, with a of any rank *)
Definition flat_to_nested (o sz : Z) (dt : list dim) (b a : view) : run_ := block_assign put o sz dt b (viter a).
(* examples/explode-collapse.cc:31-35 B = explode<Small<T, ...>>(A); B(subs ...) = x. w = sizeof(T). B begins where A does, the pointer is cast (arrays.hh:576).
   If B(subs ...) is one element, that is an array of type Small and not a view; the assignment is that of one element. *)
Definition explode_fill (w sz : Z) (dt : list dim) (a : view) (subs : list sub) (x : T) : run_ :=
  onres (explode a w (Ety dt w (w * sz))) (fun b => onres (from (Vw (vdv b) 0) subs) (fun c => block_assign put (vcp a) sz dt c (Scalar (VT x)))).
(* examples/explode-collapse.cc:45-51 B = collapse<T>(A); B(subs ...) = x. The elements of A are as those of b in block_iter. *)
Definition collapse_fill (o w sz : Z) (dt : list dim) (a : view) (subs : list sub) (x : T) : run_ :=
  onres (collapse a (Ety dt w (w * sz)) (Ety [] w w)) (fun b => onres (from (Vw (vdv b) (o + sz * vcp a)) subs) (fun c => assign fixed z put (viter c) (Scalar (VT x)))).
(* examples/explode-collapse.cc:49-51 B(all, 0) = 9; B(all, 1) = 7; B(all, 2) = 3. Here for any number of components, from k on. *)
Fixpoint fill_components (o w sz : Z) (dt : list dim) (a : view) (k : Z) (xs : list T) : run_ :=
  match xs with [] => ret None | x :: xs' => _ <- collapse_fill o w sz dt a [all; cidx k] x ;; fill_components o w sz dt a (k + 1) xs' end.
End Blocks.
