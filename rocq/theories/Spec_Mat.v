(* What the properties of matrix products are stated with. *)
From Coq Require Import ZArith List.
From Verif Require Import Spec M_Base M_Expr Spec_Expr M_Val Spec_Val M_View Spec_View.
Import ListNotations.
Open Scope Z_scope.

(* c + f(0) + f(1) + ... + f(n-1), added from left to right *)
Definition accum {T} (add : T -> T -> T) (c : T) (n : Z) (f : Z -> T) : T := fold_left add (map f (zrange n)) c.

(* different indices are different elements *)
Definition separate (pl : list Z -> Z) (s : list Z) : Prop := forall i j, inshape i s -> inshape j s -> pl i = pl j -> i = j.
(* q isn't the place of any element *)
Definition outside (pl : list Z -> Z) (s : list Z) (q : Z) : Prop := forall j, inshape j s -> q <> pl j.

(* The elements of e are x in memory m, and they aren't changed by writing to the places pl j. *)
Definition undisturbed {T} (e : expr (val T) (mem T)) (s : list Z) (m : mem T) (x : list Z -> T) (pl : list Z -> Z) (sc : list Z) : Prop :=
  forall m', (forall q, outside pl sc q -> m' q = m q) -> reads e s m' x.
Definition apart (a : view) (pl : list Z -> Z) (s : list Z) : Prop := forall i, inshape i (vshape a) -> outside pl s (vplace a i).
(* The same, but an element is only taken once, and then used while other places change. *)
Definition steady {T} (e : expr (val T) (mem T)) (s : list Z) (m : mem T) (x : list Z -> T) (pl : list Z -> Z) (sc : list Z) : Prop :=
  forall m' j, (forall q, outside pl sc q -> m' q = m q) -> inshape j s ->
    exists v, element e j m' = Ok v m' /\ forall m'', (forall q, outside pl sc q -> m'' q = m q) -> value_of v m'' = Some (x j).
(* the elements of v aren't in the n places from q *)
Definition free_of (v : view) (q n : Z) : Prop := forall i, inshape i (vshape v) -> ~ (q <= vplace v i < q + n).
