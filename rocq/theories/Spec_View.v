(* What the properties of views are stated with. *)
From Coq Require Import ZArith List.
From Verif Require Import Spec M_Base M_Expr Spec_Expr M_View.
Import ListNotations.
Open Scope Z_scope.

(* shape of a view, and place of its element at an index *)
Definition vshape (a : view) : list Z := map len (vdv a).
Definition vplace (a : view) (j : list Z) : Z := vcp a + place (vdv a) j.

Definition nonneg (s : list Z) : Prop := Forall (fun n => 0 <= n) s.

(* d is the last axis with length other than 1 *)
Definition innermost (dv : list dim) (d : dim) : Prop := exists pre ones, dv = pre ++ d :: ones /\ len d <> 1 /\ Forall (fun x => len x = 1) ones.
