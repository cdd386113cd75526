(* What the property of the solver of linear equations is stated with. *)
From Coq Require Import ZArith List Bool Field_theory.
From Verif Require Import Spec Spec_Val.
Import ListNotations.
Open Scope Z_scope.

Section Cg.
Context {T : Type}.
Variables (zero one : T) (add mul sub : T -> T -> T) (opp : T -> T) (div : T -> T -> T) (inv : T -> T) (ltb : T -> T -> bool).

(* an ordered field *)
Definition ordered : Prop := field_theory zero one add mul sub opp div inv eq /\ total_order ltb /\
  (forall a b c, ltb a b = true -> ltb (add a c) (add b c) = true) /\ (forall a b, ltb zero a = true -> ltb zero b = true -> ltb zero (mul a b) = true).

(* arrays of shape s by their elements; sum of u*v *)
Notation vec := (list Z -> T).
Variable s : list Z.
Definition scalar_product (u v : vec) : T := fold_left add (map (fun j => mul (u j) (v j)) (indices s)) zero.
Definition same (u v : vec) : Prop := forall j, inshape j s -> u j = v j.

(* L depends on the elements of its argument, and respects combinations *)
Definition linear (L : vec -> vec) : Prop := (forall u v, same u v -> same (L u) (L v)) /\
  (forall u v t, same (L (fun j => add (u j) (mul t (v j)))) (fun j => add (L u j) (mul t (L v j)))).
(* zero in the places not in [part] *)
Definition within (part : list Z -> bool) (u : vec) : Prop := forall j, inshape j s -> part j = false -> u j = zero.
Definition symmetric (part : list Z -> bool) (L : vec -> vec) : Prop := forall u v, within part u -> within part v -> scalar_product (L u) v = scalar_product u (L v).
Definition positive (part : list Z -> bool) (L : vec -> vec) : Prop := forall u, within part u -> (exists j, inshape j s /\ u j <> zero) -> ltb zero (scalar_product (L u) u) = true.
End Cg.
