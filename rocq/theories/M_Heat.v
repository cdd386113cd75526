(* Model: the program of examples/view.cc, but for what it prints and the times. *)
From Coq Require Import ZArith List.
From Verif Require Import M_Base M_Expr M_Ply M_Val M_View M_Slice M_Frame M_Mat M_Opt M_Stencil.
Import ListNotations.
Open Scope Z_scope.

Section Heat.
Context {T : Type}.
(* T: a double. The elements of the arrays are floats, that are doubles too. *)
Variables (fixed : bool) (z : list zt).
(* c is 1/6.5, half is .5, cold is 22 and hot is 30. conv: from double to float and back to double. *)
Variables (add mul : T -> T -> T) (conv : T -> T) (c half cold hot : T).
(* c * x, converted by the assignment (expr.hh:57-60) *)
Definition scaled (a b : T) : T := conv (mul a b).
(* examples/view.cc:39-40 and 41-42, the right hand sides *)
Definition heat_term : term T :=
  TOp scaled (TNum c) (TOp add (TOp add (TOp add (TOp add (TOp add (TOp add (TOp mul (TNum half) (TWin [0; 0; 0]))
    (TWin [1; 0; 0])) (TWin [-1; 0; 0])) (TWin [0; 1; 0])) (TWin [0; -1; 0])) (TWin [0; 0; 1])) (TWin [0; 0; -1])).
(* examples/view.cc:39-40: B(I, J, K) = c * (...) from the elements of A *)
Definition heat_step (b a : view) : M (mem T) (option unit) := slices fixed z b a [1; 1; 1] [1; 1; 1] heat_term.
(* examples/view.cc:37-42, k times *)
Fixpoint heat (k : nat) (a b : view) : M (mem T) (option unit) :=
  match k with O => ret None | S k' => _ <- heat_step b a ;; _ <- heat_step a b ;; heat k' a b end.

(* examples/view.cc:64-65: the same with Im, I and Ip. n is N, of the arguments. *)
Definition sums (w : expr (val T) (mem T)) (l : list (expr (val T) (mem T))) : expr (val T) (mem T) := fold_left (times add) l w.
Definition win (a : view) (x y w : sq) (f : expr (val T) (mem T) -> M (mem T) (option unit)) : M (mem T) (option unit) := onres (window a [x; y; w]) (fun v => f (viter v)).
Definition named_step (im i ip : sq) (b a : view) : M (mem T) (option unit) :=
  win b i i i (fun b0 => win a i i i (fun a0 => win a ip i i (fun a1 => win a im i i (fun a2 => win a i ip i (fun a3 => win a i im i (fun a4 => win a i i ip (fun a5 => win a i i im (fun a6 =>
    assign fixed z put b0 (times scaled (Scalar (VT c)) (sums (times mul (Scalar (VT half)) a0) [a1; a2; a3; a4; a5; a6])))))))))).
(* examples/view.cc:62-67, k times *)
Fixpoint named (k : nat) (im i ip : sq) (a b : view) : M (mem T) (option unit) :=
  match k with O => ret None | S k' => _ <- named_step im i ip b a ;; _ <- named_step im i ip a b ;; named k' im i ip a b end.

(* examples/view.cc:24-27 and 53-54. n isn't negative, so its quotients are those of Z. *)
Definition start (n : Z) (a : view) : M (mem T) (option unit) :=
  _ <- assign fixed z put (viter a) (Scalar (VT cold)) ;;
  onres (iota (Run (n / 2)) (n / 4) 1) (fun q => onres (window a [q; q; q]) (fun w => assign fixed z put (viter w) (Scalar (VT hot)))).
(* examples/view.cc:18-72: k is numIters, n is N. The arrays are views on one memory; as A and B are made without values (arrays.hh:296), and the allocator doesn't give any (base.hh:250-270), the elements there are whatever they were. first is
   first_A, made from A with the same shape (arrays.hh:297). *)
Definition heat_program (k : nat) (n : Z) (a b first : view) : M (mem T) (option unit) :=
  _ <- start n a ;;
  _ <- heat k a b ;;
  _ <- assign fixed z put (viter first) (viter a) ;;
  _ <- start n a ;;
  onres (iota (Run (n - 2)) 1 1) (fun i => onres (iota (Run (n - 2)) 0 1) (fun im => onres (iota (Run (n - 2)) 2 1) (fun ip => named k im i ip a b))).
End Heat.
