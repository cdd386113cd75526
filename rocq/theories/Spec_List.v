(* Spec: what the lists of types should be. *)
From Coq Require Import ZArith List.
Import ListNotations.
Open Scope Z_scope.

(* the first place of l where p holds is i, or there is none and i is -1 *)
Definition first_place {A} (p : A -> bool) (l : list A) (i : Z) : Prop :=
  (exists k x, i = Z.of_nat k /\ nth_error l k = Some x /\ p x = true /\ forall k' y, (k' < k)%nat -> nth_error l k' = Some y -> p y = false) \/
  (i = -1 /\ forall x, In x l -> p x = false).
(* r is l with the elements taken out that have false in a; those past the end of a stay *)
Inductive kept {A} : list bool -> list A -> list A -> Prop :=
| kept_nil l : kept [] l l
| kept_yes a x l r : kept a l r -> kept (true :: a) (x :: l) (x :: r)
| kept_no a x l r : kept a l r -> kept (false :: a) (x :: l) r.
