(* What the properties of static checks are stated with. *)
From Coq Require Import ZArith List.
From Verif Require Import M_Base M_Expr M_Static.
Import ListNotations.
Open Scope Z_scope.

Section SpecStatic.
Context {X W : Type}.
(* e is a run time instance of the type t: the same tree, and the same lengths where these are in the type *)
Inductive instance : ty -> expr X W -> Prop :=
| i_scalar : forall c, instance TScalar (Scalar c)
| i_any : forall dv fr f p, instance (TCell None) (Cell dv fr f p)
| i_cell : forall ls dv fr f p, length ls = fr -> (forall k, (k < fr)%nat -> nth k ls ANY = ANY \/ nth k ls ANY = len (nth k dv dim0)) -> instance (TCell (Some ls)) (Cell dv fr f p)
| i_reframe : forall a e di, instance a e -> instance (TReframe a di) (Reframe e di)
| i_map : forall ts op es, Forall2 instance ts es -> instance (TMatch ts) (Map op es)
| i_pick : forall ts sel es, Forall2 instance ts es -> instance (TMatch ts) (Pick sel es).
End SpecStatic.

(* only views and scalars are reframed *)
Fixpoint simple (t : ty) : Prop :=
  match t with
  | TScalar | TCell _ => True
  | TReframe a _ => match a with TScalar | TCell (Some _) => True | _ => False end
  | TMatch ts => fold_right (fun a p => simple a /\ p) True ts
  end.
(* or else the lengths of a reframed argument are the same in its type whether they are to be checked or not *)
Fixpoint settled (t : ty) : Prop :=
  match t with
  | TScalar | TCell _ => True
  | TReframe a _ => settled a /\ 0 <= rank_s a /\ forall k, Z.of_nat k < rank_s a -> len_s a k true = len_s a k false
  | TMatch ts => fold_right (fun a p => settled a /\ p) True ts
  end.
(* all the lengths are in the type *)
Fixpoint fixed (t : ty) : Prop :=
  match t with
  | TScalar => True
  | TCell None => False
  | TCell (Some ls) => Forall (fun l => l <> ANY) ls
  | TReframe a di => fixed a /\ Z.of_nat (length di) = rank_s a
  | TMatch ts => ts <> [] /\ fold_right (fun a p => fixed a /\ p) True ts
  end.
