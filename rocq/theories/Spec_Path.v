(* What the properties of the positions in a traversal are stated with. *)
From Coq Require Import ZArith List Sorted.
From Verif Require Import Spec M_Base M_Expr Spec_Expr.
Import ListNotations.
Open Scope Z_scope.

(* an index of shape s, or the one after the last on some axis, the first on those that follow *)
Inductive touched : list Z -> list Z -> Prop :=
| touched_nil : touched [] []
| touched_in : forall n s x i, 0 <= x < n -> touched s i -> touched (n::s) (x::i)
| touched_end : forall n s, touched (n::s) (n :: map (fun _ => 0) s).

Section SpecPath.
Context {X W : Type}.

(* the places of the leaves at index j, cf. [element] *)
Fixpoint leaf_places (e : expr X W) (j : list Z) : list Z :=
  match e with
  | Scalar _ => []
  | Cell dv fr _ cp => [cp + place (firstn fr dv) (firstn fr j)]
  | Reframe a di => leaf_places a (map (fun d => nth d j 0) di)
  | Map _ t => flat_map (fun a => leaf_places a j) t
  | Pick _ t => flat_map (fun a => leaf_places a j) t
  end.

(* The leaves are whole arrays in row-major order, and the axes of the leaves are in the order of the axes of the expression. *)
Fixpoint containers (e : expr X W) : Prop :=
  match e with
  | Scalar _ => True
  | Cell dv fr _ _ => fr = length dv /\ Forall (fun d => 0 <= len d) dv /\ forall j, length j = length dv -> place dv j = rm (map len dv) j
  | Reframe a di => StronglySorted lt di /\ containers a
  | Map _ t => fold_right (fun a p => containers a /\ p) True t
  | Pick _ t => fold_right (fun a p => containers a /\ p) True t
  end.

(* the first place of each leaf and the one after the last *)
Fixpoint bounds (e : expr X W) : list (Z * Z) :=
  match e with
  | Scalar _ => []
  | Cell dv _ _ cp => [(cp, cp + zprod (map len dv))]
  | Reframe a _ => bounds a
  | Map _ t => flat_map bounds t
  | Pick _ t => flat_map bounds t
  end.

End SpecPath.
