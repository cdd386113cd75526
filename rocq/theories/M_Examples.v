(* Model: the programs in examples/outer.cc, examples/agreement.cc and examples/slicing.cc. *)
From Coq Require Import ZArith List Bool.
From Verif Require Import M_Base M_Expr M_Ply M_Val M_View M_Slice M_Frame M_Mat M_Elem M_Stencil.
Import ListNotations.
Open Scope Z_scope.

Section Examples.
Context {T : Type}.
Variables (fixed : bool) (z : list zt).
Notation ex := (expr (val T) (mem T)).
Notation run_ := (M (mem T) (option unit)).

(* examples/outer.cc:20-23 A = x(i) * y(j), with i = tindex<0> and j = tindex<1>. x and y are of rank 1, with the rank in the type. st as in from_u (M_Frame.v). *)
Definition outer_index (st : bool) (mul : T -> T -> T) (a x y : view) : run_ :=
  onres (from_u st x [SArr] [tindex 0]) (fun u => onres (from_u st y [SArr] [tindex 1]) (fun v => assign fixed z put (viter a) (bin mul u v))).
(* examples/outer.cc:29 from(std::multiplies<float>(), x, y). In the example the result is printed; here it's assigned, as at 23. The same for 33 and 37. *)
Definition outer_from (mul : T -> T -> T) (a x y : view) : run_ :=
  match from_op (op2 (fun u v => p <- rd u ;; q <- rd v ;; ret (VT (mul p q)))) [viter x; viter y] with Some e => assign fixed z put (viter a) e | None => fail end.
(* examples/outer.cc:33 x * y(insert<1>). Here with insert<rank x>. *)
Definition outer_insert (mul : T -> T -> T) (a x y : view) : run_ :=
  onres (from y [SInsert (vrank x)]) (fun v => assign fixed z put (viter a) (bin mul (viter x) (viter v))).
(* examples/outer.cc:37 x * transpose(y, ilist_t<1> {}). Here the axes of y go after those of x. *)
Definition outer_transpose (mul : T -> T -> T) (a x y : view) : run_ :=
  onres (transpose y (map Z.of_nat (seq (vrank x) (vrank y)))) (fun v => assign fixed z put (viter a) (bin mul (viter x) (viter v))).

(* examples/agreement.cc:79 A = b *)
Definition spread_rows (a b : view) : run_ := assign fixed z put (viter a) (viter b).
(* examples/agreement.cc:83 A = c(insert<1>). Here with any number of axes. *)
Definition spread_columns (k : nat) (a c : view) : run_ := onres (from c [SInsert k]) (fun v => assign fixed z put (viter a) (viter v)).

(* examples/slicing.cc:17, 23-25, 29-30, 35-36, 45-65 A(subs ...) = x. With all the axes given (35, 36, 64, 65) the result of A(subs ...) is a reference and not a view; the assignment is to the one
   element of the view of rank 0 (cf C17, C89). operator[] (55-57) is the same function as operator() (ra/arrays.hh:141-142, 213-214, 318-319). *)
Definition fill_at (a : view) (subs : list sub) (x : T) : run_ := onres (from a subs) (fun b => assign fixed z put (viter b) (Scalar (VT x))).
End Examples.
