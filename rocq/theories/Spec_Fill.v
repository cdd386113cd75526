(* What the properties of filling arrays are stated with. *)
From Coq Require Import ZArith List.
From Verif Require Import M_Fill.
Import ListNotations.
Open Scope Z_scope.

Section SpecFill.
Context {T : Type}.
(* n is nested to depth N *)
Fixpoint deep (N : nat) (n : nest T) : Prop :=
  match N, n with
  | O, Item _ => True
  | S N', Braces l => Forall (deep N') l
  | _, _ => False
  end.
(* every list at depth k of n has the length given by s *)
Fixpoint fits (s : list Z) (n : nest T) : Prop :=
  match s, n with
  | [], Item _ => True
  | k::s', Braces l => k = Z.of_nat (length l) /\ Forall (fits s') l
  | _, _ => False
  end.
Definition rectangular (n : nest T) : Prop := exists s, fits s n.
(* n[j0][j1]... *)
Fixpoint item_at (n : nest T) (j : list Z) : option T :=
  match n, j with
  | Item t, [] => Some t
  | Braces l, i::j' => if i <? 0 then None else match nth_error l (Z.to_nat i) with Some x => item_at x j' | None => None end
  | _, _ => None
  end.
End SpecFill.
