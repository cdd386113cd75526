(* Programs of test/ra-1.cc: operations that write on an argument. *)
From Coq Require Import ZArith List Bool.
From Verif Require Import M_Base M_Expr M_Ply M_Val M_View M_Mat M_Elem.
Import ListNotations.
Open Scope Z_scope.

Section Ra1.
Context {T : Type}.
Variables (fixed : bool) (z : list zt).

(* ra-1.cc:28, 29, 34 ply_ravel(map_(invert, iter(a))), where invert is a = -a and f is the change of sign. What invert returns isn't used. *)
Definition change (f : T -> T) (a : view) : M (mem T) (option unit) :=
  ply fixed no_stop z (Map (op1 (fun v => match v with VRef p => fun m => Ok VUnit (wr p (f (m p)) m) | _ => undef end)) [viter a]).
(* ra-1.cc:184, 192 plier(map_(sum2, iter(a), iter(b), iter(c))), where sum2 is c = a-b; the argument that's written on is the last. *)
Definition put_last (f : T -> T -> T) (xs : list (val T)) : M (mem T) (val T) :=
  match xs with [u; v; VRef p] => x <- rd u ;; y <- rd v ;; fun m => Ok VUnit (wr p (f x y) m) | _ => undef end.
Definition sum2 (f : T -> T -> T) (a b c : view) : M (mem T) (option unit) := ply fixed no_stop z (Map (put_last f) [viter a; viter b; viter c]).
(* ra-1.cc:97-98, 117-118 the same with the argument that's written on first: k = i+j, k = i*j *)
Definition put_first (f : T -> T -> T) (xs : list (val T)) : M (mem T) (val T) :=
  match xs with [VRef p; u; v] => x <- rd u ;; y <- rd v ;; fun m => Ok VUnit (wr p (f x y) m) | _ => undef end.
Definition first3 (f : T -> T -> T) (c a b : view) : M (mem T) (option unit) := ply fixed no_stop z (Map (put_first f) [viter c; viter a; viter b]).
(* ra-1.cc:75-78 map_(k = -i, iter(C), map_(i-j, iter(A), iter(B))) *)
Definition nested3 (g : T -> T) (f : T -> T -> T) (c a b : view) : M (mem T) (option unit) := assign fixed z (fun _ x => g x) (viter c) (bin f (viter a) (viter b)).
(* ra-1.cc:45-58 CheckPly, the three steps on B: b -= a, b += a, b -= a *)
Definition step_ (f : T -> T -> T) (b a : view) : M (mem T) (option unit) := assign fixed z f (viter b) (viter a).
Definition check_ply (sub add : T -> T -> T) (b a : view) : M (mem T) (option unit) := _ <- step_ sub b a ;; _ <- step_ add b a ;; step_ sub b a.
End Ra1.
