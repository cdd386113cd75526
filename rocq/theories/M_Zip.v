(* Model: pack() as a source and as a destination. Source: ra/expr.hh:50-60, 683-684; test/operators.cc "pack operator as ref". *)
From Coq Require Import ZArith List.
From Verif Require Import M_Base M_Expr M_Ply M_Val M_View M_Mat.
Import ListNotations.
Open Scope Z_scope.

Section Zip.
Context {T : Type}.
(* What operator* gives in these expressions: std::tuple of values and references. Anything else is a tuple of one. All the elements are of type T, because the memory is of T; in the code they may be of different
   types. *)
Notation tup := (list (val T)).
(* an expression on elements that aren't tuples, as an argument of pack *)
Fixpoint tups (e : expr (val T) (mem T)) : expr tup (mem T) :=
  match e with
  | Scalar c => Scalar [c]
  | Cell dv fr val cp => Cell dv fr (fun p => [val p]) cp
  | Reframe a di => Reframe (tups a) di
  | Map op t => Map (fun xs => y <- op (concat xs) ;; ret [y]) (map tups t)
  | Pick sel t => Pick (fun x => match x with [v] => sel v | _ => -1 end) (map tups t)
  end.
(* expr.hh:683-684 pack<std::tuple<T & ...>>(es ...) *)
Definition pack_refs (es : list (expr (val T) (mem T))) : expr tup (mem T) := Map (fun xs => ret (concat xs)) (map tups es).
(* expr.hh:683-684 pack<std::tuple<T ...>>(es ...): the elements are copied *)
Fixpoint rd_all (l : tup) : M (mem T) tup := match l with [] => ret [] | v :: r => x <- rd v ;; y <- rd_all r ;; ret (VT x :: y) end.
Definition pack_vals (es : list (expr (val T) (mem T))) : expr tup (mem T) := Map (fun xs => rd_all (concat xs)) (map tups es).
(* [tuple.assign] the elements are assigned one by one, in order *)
Fixpoint put_tuple (l r : tup) : M (mem T) tup :=
  match l, r with
  | [], [] => ret []
  | VRef p :: l', v :: r' => x <- rd v ;; _ <- (fun m => Ok tt (wr p x m)) ;; put_tuple l' r'
  | _, _ => undef
  end.
(* expr.hh:50-60 operator= *)
Definition assign_tuples (fixed : bool) (z : list zt) (d e : expr tup (mem T)) : M (mem T) (option unit) :=
  ply fixed no_stop z (Map (fun xs => match xs with [l; r] => put_tuple l r | _ => undef end) [d; e]).
End Zip.
