(* What the properties of whole-array operations and assignment are stated with. *)
From Coq Require Import ZArith List.
From Verif Require Import Spec M_Base M_Expr M_Val Spec_Expr.
Import ListNotations.
Open Scope Z_scope.

(* s is the common shape of the arguments t: on each axis that one of them has, the common finite length *)
Definition joint_shape {X W} (t : list (expr X W)) (s : list Z) : Prop :=
  length s = fold_right (fun a r => Nat.max (axes a) r) 0%nat t /\
  forall k, (k < fold_right (fun a r => Nat.max (axes a) r) 0 t)%nat ->
    0 <= nth k s 0 /\ In (nth k s 0) (flat_map (fun a => leaf_lens a k) t) /\
    Forall (fun m => m = nth k s 0 \/ m = UNB) (flat_map (fun a => leaf_lens a k) t).

Section SpecVal.
Context {T : Type}.

(* the value of a result in a memory *)
Definition value_of (v : val T) (m : mem T) : option T :=
  match v with VT t => Some t | VRef p => Some (m p) | _ => None end.
Definition truth_of (tob : T -> bool) (v : val T) (m : mem T) : option bool :=
  match v with VB b => Some b | VT t => Some (tob t) | VRef p => Some (tob (m p)) | _ => None end.

(* In memory m, evaluating e at any index j of s gives value x j, without failure or side effects. *)
Definition reads (e : expr (val T) (mem T)) (s : list Z) (m : mem T) (x : list Z -> T) : Prop :=
  forall j, inshape j s -> exists v, element e j m = Ok v m /\ value_of v m = Some (x j).
Definition reads_bool (tob : T -> bool) (e : expr (val T) (mem T)) (s : list Z) (m : mem T) (x : list Z -> bool) : Prop :=
  forall j, inshape j s -> exists v, element e j m = Ok v m /\ truth_of tob v m = Some (x j).
(* In any memory, evaluating e at any index j of s gives a reference to place p j. *)
Definition refers (e : expr (val T) (mem T)) (s : list Z) (p : list Z -> Z) : Prop :=
  forall j m, inshape j s -> element e j m = Ok (VRef (p j)) m.

(* c, combined by f in turn with each of the elements at js, which are evaluated with their side effects when their turn comes *)
Fixpoint accumulate (get : list Z -> M (mem T) (val T)) (f : T -> T -> T) (js : list (list Z)) (c : T) (m : mem T) : out (mem T) T :=
  match js with
  | [] => Ok c m
  | j::js' => match get j m with
              | Ok v m1 => match value_of v m1 with Some x => accumulate get f js' (f c x) m1 | None => Undef end
              | Fail m1 => Fail m1
              | Undef => Undef
              end
  end.

(* strict total order *)
Definition total_order (ltb : T -> T -> bool) : Prop :=
  (forall a, ltb a a = false) /\ (forall a b c, ltb a b = true -> ltb b c = true -> ltb a c = true) /\
  (forall a b, ltb a b = false -> ltb b a = false -> a = b).
(* strict weak order (C++ Compare) *)
Definition weak_order (ltb : T -> T -> bool) : Prop :=
  (forall a, ltb a a = false) /\ (forall a b c, ltb a b = true -> ltb b c = true -> ltb a c = true) /\
  (forall a b c, ltb a b = false -> ltb b c = false -> ltb a c = false).
End SpecVal.
