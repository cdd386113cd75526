(* What the properties of assignments with overlap are stated with. *)
From Coq Require Import ZArith List.
From Verif Require Import Spec M_Base M_Expr M_Val Spec_Val.
Import ListNotations.
Open Scope Z_scope.

Section SpecOverlap.
Context {T : Type}.

(* A loop on the indices js: find the place of the destination, evaluate the source, write the destination. The first failure ends it. *)
Fixpoint assign_loop (getd gete : list Z -> M (mem T) (val T)) (f : T -> T -> T) (js : list (list Z)) (m : mem T) : out (mem T) (option unit) :=
  match js with
  | [] => Ok None m
  | j::js' =>
    match getd j m with
    | Ok d m1 =>
      match gete j m1 with
      | Ok v m2 =>
        match d, value_of v m2 with
        | VRef p, Some x => assign_loop getd gete f js' (fun q => if q =? p then f (m2 p) x else m2 q)
        | _, _ => Undef
        end
      | Fail m2 => Fail m2
      | Undef => Undef
      end
    | Fail m1 => Fail m1
    | Undef => Undef
    end
  end.

(* m' is m except at the n places c, c+st, ..., where it's x 0, x 1, ... *)
Definition vector_becomes (m m' : mem T) (c st n : Z) (x : Z -> T) : Prop :=
  (forall i, 0 <= i < n -> m' (c + i * st) = x i) /\ (forall p, (forall i, 0 <= i < n -> p <> c + i * st) -> m' p = m p).
End SpecOverlap.
