(* Model: the order in which the arguments of an operation are evaluated. At expr.hh:660-661 these are the values of the iterators, and C++ doesn't say in which order they are computed. *)
From Coq Require Import ZArith List.
From Verif Require Import M_Base M_Expr.
Import ListNotations.

Section Order.
Context {X W : Type}.
(* the elements of l at positions p *)
Definition at_places {A} (p : list nat) (l : list A) : list A := flat_map (fun i => match nth_error l i with Some x => [x] | None => [] end) p.
(* argument i of the operation is the result of the step that evaluates it *)
Fixpoint result_of (i : nat) (p : list nat) (ys : list X) : option X :=
  match p, ys with k :: p', y :: ys' => if Nat.eqb k i then Some y else result_of i p' ys' | _, _ => None end.
Fixpoint all_some (l : list (option X)) : option (list X) :=
  match l with [] => Some [] | Some x :: l' => match all_some l' with Some r => Some (x :: r) | None => None end | None :: _ => None end.
Definition call (p : list nat) (op : list X -> M W X) (ys : list X) : M W X :=
  match all_some (map (fun i => result_of i p ys) (seq 0 (length p))) with Some xs => op xs | None => undef end.
(* expr.hh:660-661 with the arguments evaluated in the order p, for each operation in e; q says where the operation is in the whole expression.
   Pick (expr.hh:688-722) evaluates first the selector and then one of the arguments. *)
Fixpoint arrange (o : list nat -> nat -> list nat) (q : list nat) (e : expr X W) : expr X W :=
  match e with
  | Scalar c => Scalar c
  | Cell dv fr val cp => Cell dv fr val cp
  | Reframe a di => Reframe (arrange o (O :: q) a) di
  | Map op t => let p := o q (length t) in
      Map (call p op) (at_places p ((fix go (i : nat) (t : list (expr X W)) := match t with [] => [] | a :: t' => arrange o (i :: q) a :: go (S i) t' end) O t))
  | Pick sel t => Pick sel ((fix go (i : nat) (t : list (expr X W)) := match t with [] => [] | a :: t' => arrange o (i :: q) a :: go (S i) t' end) O t)
  end.
End Order.
