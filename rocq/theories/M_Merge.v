(* Model: the arithmetic that decides how to traverse an expression of dynamic size. Source: ra/ply.hh:41-46, ra/expr.hh:114, 296-297, 426-436, 609-618.
   The lengths and the steps are of type dim_t, signed and of 64 bits. None is overflow, which is undefined. *)
From Coq Require Import ZArith List Bool.
From Verif Require Import M_Base M_Expr M_Ply M_Opt.
Import ListNotations.
Open Scope Z_scope.

Section Merge.
Context {X W R : Type}.
(* expr.hh:114, 296-297, 426-436, 609-618 keep; && leaves at the first that is false *)
Fixpoint keep64 (e : expr X W) (st : Z) (z j : nat) : option bool :=
  let fix all (t : list (expr X W)) : option bool :=
    match t with
    | [] => Some true
    | a :: t' => match keep64 a st z j with Some true => all t' | r => r end
    end in
  match e with
  | Scalar _ => Some true
  | Cell dv fr _ _ =>
    let s k := if (k <? fr)%nat then step (nth k dv dim0) else 0 in
    match arith I64 (st * s z) with Some x => Some (x =? s j) | None => None end
  | Reframe a di => match orig di z, orig di j with Some wz, Some wj => keep64 a st wz wj | _, _ => Some false end
  | Map _ t => all t
  | Pick _ t => all t
  end.
(* ply.hh:44-46, as M_Ply.v merge *)
Fixpoint merge64 (a : expr X W) (z : list zt) (r o : nat) (ss : Z) : option (nat * nat * Z) :=
  match r with
  | O => Some (O, o, ss)
  | S r' => match keep64 a ss (zorder (zk z 0)) (zorder (zk z o)) with
            | Some true => match arith I64 (ss * lene a (zorder (zk z o))) with Some ss' => merge64 a z r' (S o) ss' | None => None end
            | Some false => Some (r, o, ss)
            | None => None
            end
  end.
(* ply.hh:21-86 ply_ravel, as M_Ply.v ply_ravel *)
Definition ply_ravel64 (post : X -> option R) (z : list zt) (a : expr X W) (w : W) : option (out W (option R) * list zt) :=
  if validate a then
    match rankn a with
    | O => Some ((x <- deref a ;; ret (post x)) w, z)
    | S r =>
      let z1 := zsetorder (S r) 0 (zresize z (S r)) in
      match merge64 a z1 r 1 (lene a (zorder (zk z1 0))) with
      | None => None
      | Some (r', o, ss) =>
        let '(z2, empty) := setsha a z1 r' 0 o in
        Some (if empty then (Ok None w, z2)
              else ravel_loop post (ravel_fuel z2 r') r' o ss (stepe a (zorder (zk z2 0))) z2 a w)
      end
    end
  else Some (Fail w, z).
End Merge.
