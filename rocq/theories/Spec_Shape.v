(* What the property of rank, size and shape is stated with. *)
From Coq Require Import ZArith List.
From Verif Require Import M_Base M_Expr L_Expr M_Static Spec_Static M_Shape.
Import ListNotations.
Open Scope Z_scope.

(* the axes of each, and what is known of them *)
Section Axes.
Context {X W : Type}.
Definition axes_of (v : thing X W) : list Z :=
  match v with Ex _ e => map (lene e) (seq 0 (Z.to_nat (rank e))) | Fov _ n => [n] | Builtin ls => ls end.
(* an axis on which the arguments disagree has no length *)
Definition proper (v : thing X W) : Prop :=
  match v with
  | Ex t e => instance t e /\ wf e /\ forall k, (k < rankn e)%nat -> lene e k <> MIS
  | Fov ext n => 0 <= n /\ (ext = ANY \/ ext = n)
  | Builtin ls => Forall (fun l => 0 <= l) ls
  end.
(* in the type, no length that is only known at run time comes after one that's unbounded *)
Definition orderly (v : thing X W) : Prop :=
  match v with Ex t _ => forall i k, (i < k)%nat -> Z.of_nat k < rank_s t -> len_s t i false = UNB -> len_s t k false <> ANY | _ => True end.
End Axes.
