(* Model: the solver of examples/cghs.hh. *)
From Coq Require Import ZArith List.
From Verif Require Import M_Base M_Expr M_Ply M_Val M_View M_Slice M_Mat M_Stencil.
Import ListNotations.
Open Scope Z_scope.

Section Cg.
Context {T : Type}.
(* fixed, z: the traversal in the assignments. fi, zi: the one in the reductions. *)
Variables (fixed : bool) (z : list zt) (fi : bool) (zi : list zt).
Variables (add sub mul div : T -> T -> T) (zero : T) (ltb : T -> T -> bool).
(* mult(a, v, w) *)
Variable mult : view -> view -> M (mem T) (option unit).
(* ra.hh:45-115 sqr; sqrm of real numbers *)
Definition sq_ (x : T) : T := mul x x.
Notation norm2 v := (reduce_sqrm fi zi add sq_ zero (viter v)).
Notation inner2 u v := (dot fi zi add mul zero (viter u) (viter v)).

(* examples/cghs.hh:34-43, the body of the loop *)
Definition cg_body (x g r p : view) : M (mem T) (option unit) :=
  _ <- mult r p ;;
  rho <- norm2 p ;;
  sig <- inner2 r p ;;
  tau <- inner2 g r ;;
  let t := div tau sig in
  let gam := div (sub (mul (sq_ t) rho) tau) tau in
  _ <- assign fixed z add (viter x) (times mul (Scalar (VT t)) (viter r)) ;;
  _ <- assign fixed z sub (viter g) (times mul (Scalar (VT t)) (viter p)) ;;
  assign fixed z put (viter r) (times add (times mul (viter r) (Scalar (VT gam))) (viter g)).
(* examples/cghs.hh:32-45. The loop may not end: n bounds the number of times that the condition is tested, and if it's exceeded the result is undefined. *)
Fixpoint cg_loop (n : nat) (x g r p : view) (err : T) (i : Z) : M (mem T) Z :=
  match n with
  | O => undef
  | S n' => gg <- norm2 g ;; if ltb err gg then _ <- cg_body x g r p ;; cg_loop n' x g r p err (i + 1) else ret i
  end.
(* examples/cghs.hh:15-46 *)
Definition cghs (n : nat) (b x work : view) (eps : T) : M (mem T) Z :=
  _ <- assign fixed z put (viter work) (Scalar (VT zero)) ;;
  onres (from work [cidx 0]) (fun g => onres (from work [cidx 1]) (fun r => onres (from work [cidx 2]) (fun p =>
    bb <- norm2 b ;;
    _ <- mult x g ;;
    _ <- assign fixed z put (viter g) (times sub (viter b) (viter g)) ;;
    _ <- assign fixed z put (viter r) (viter g) ;;
    cg_loop n x g r p (mul (sq_ eps) bb) 0))).
End Cg.
