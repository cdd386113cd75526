(* Agreement and meaning of expressions, from the leaves only. Uses the expression syntax of M_Expr.v but none of its functions. *)
From Coq Require Import ZArith List.
From Verif Require Import Spec M_Base M_Expr.
Import ListNotations.
Open Scope Z_scope.

Section SpecExpr.
Context {X W : Type}.

(* positions of k in di *)
Fixpoint positions_from (i : nat) (di : list nat) (k : nat) : list nat :=
  match di with
  | [] => []
  | d::di' => if Nat.eqb d k then i :: positions_from (S i) di' k else positions_from (S i) di' k
  end.

(* the lengths that the leaves of e have on axis k of e *)
Fixpoint leaf_lens (e : expr X W) (k : nat) : list Z :=
  match e with
  | Scalar _ => []
  | Cell dv fr _ _ => if (k <? fr)%nat then [len (nth k dv dim0)] else []
  | Reframe a di => flat_map (fun l => leaf_lens a l) (positions_from 0 di k)
  | Map _ t => flat_map (fun a => leaf_lens a k) t
  | Pick _ t => flat_map (fun a => leaf_lens a k) t
  end.

(* number of axes *)
Fixpoint axes (e : expr X W) : nat :=
  match e with
  | Scalar _ => 0
  | Cell _ fr _ _ => fr
  | Reframe _ di => fold_right (fun d r => Nat.max (S d) r) 0%nat di
  | Map _ t => fold_right (fun a r => Nat.max (axes a) r) 0%nat t
  | Pick _ t => fold_right (fun a r => Nat.max (axes a) r) 0%nat t
  end.

(* the lengths agree on a finite one: there is one and the others are equal or unbounded *)
Definition common_finite (ls : list Z) : Prop :=
  exists n, 0 <= n /\ In n ls /\ Forall (fun m => m = n \/ m = UNB) ls.

Definition agreeing (t : list (expr X W)) : Prop :=
  forall k, (k < fold_right (fun a r => Nat.max (axes a) r) 0 t)%nat -> common_finite (flat_map (fun a => leaf_lens a k) t).

(* The element of e at j: each leaf at its own part of j, no checks. The order of evaluation is that of the arguments. *)
Fixpoint place (dv : list dim) (j : list Z) : Z :=
  match dv, j with
  | d::dv', i::j' => i * step d + place dv' j'
  | _, _ => 0
  end.

Fixpoint in_order {A} (l : list (M W A)) : M W (list A) :=
  match l with
  | [] => fun w => Ok [] w
  | m::l' => fun w => match m w with
                      | Ok x w1 => match in_order l' w1 with Ok xs w2 => Ok (x::xs) w2 | Fail w2 => Fail w2 | Undef => Undef end
                      | Fail w1 => Fail w1
                      | Undef => Undef
                      end
  end.

Fixpoint element (e : expr X W) (j : list Z) : M W X :=
  match e with
  | Scalar c => fun w => Ok c w
  | Cell dv fr val cp => fun w => Ok (val (cp + place (firstn fr dv) (firstn fr j))) w
  | Reframe a di => element a (map (fun d => nth d j 0) di)
  | Map op t => fun w => match in_order (map (fun a => element a j) t) w with
                         | Ok xs w1 => op xs w1 | Fail w1 => Fail w1 | Undef => Undef
                         end
  | Pick sel t =>
    match map (fun a => element a j) t with
    | [] => fun w => Undef
    | m0::ms => fun w => match m0 w with
                         | Ok x w1 => if (0 <=? sel x) then match nth_error ms (Z.to_nat (sel x)) with Some m => m w1 | None => Fail w1 end else Fail w1
                         | Fail w1 => Fail w1
                         | Undef => Undef
                         end
    end
  end.

End SpecExpr.

(* s is the shape of e: on each axis the common finite length of the leaves *)
Definition shape_is {X W} (e : expr X W) (s : list Z) : Prop :=
  length s = axes e /\
  forall k, (k < axes e)%nat -> 0 <= nth k s 0 /\ In (nth k s 0) (leaf_lens e k) /\ Forall (fun m => m = nth k s 0 \/ m = UNB) (leaf_lens e k).
