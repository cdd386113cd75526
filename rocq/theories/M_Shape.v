(* Model: rank, size and shape of what may be an argument. Source: ra/base.hh:334-430. *)
From Coq Require Import ZArith List Lia Bool.
From Verif Require Import M_Base M_Expr M_Static.
Import ListNotations.
Open Scope Z_scope.

Section Shape.
Context {X W : Type}.
(* An expression with its type; a foreign range with its length in the type (ANY if it isn't there) and its length; a built in array with its lengths (all of them in the type). *)
Inductive thing := Ex (t : ty) (e : expr X W) | Fov (ext n : Z) | Builtin (ls : list Z).

(* base.hh:334-349 rank_s *)
Definition rank_s_of (v : thing) : Z := match v with Ex t _ => rank_s t | Fov _ _ => 1 | Builtin ls => Z.of_nat (length ls) end.
(* base.hh:353-363 rank *)
Definition rank_of (v : thing) : Z := if negb (ANY =? rank_s_of v) then rank_s_of v else match v with Ex _ e => rank e | _ => 0 end.
(* base.hh:371-388 shape_s. With a dynamic rank it isn't used. *)
Definition shape_s_of (v : thing) : list Z :=
  match v with
  | Ex t _ => map (fun k => len_s t k false) (seq 0 (Z.to_nat (rank_s t)))
  | Fov ext _ => [ext]
  | Builtin ls => ls
  end.
(* base.hh:390-398 size_s *)
Fixpoint product (ls : list Z) (s : Z) : Z := match ls with [] => s | l::ls' => if l <? 0 then l else product ls' (s * l) end.
Definition size_s_of (v : thing) : Z := if negb (ANY =? rank_s_of v) then product (shape_s_of v) 1 else ANY.
(* v.len(k) for each k *)
Definition lens_of (v : thing) : list Z := match v with Ex _ e => shape e | _ => [] end.
(* base.hh:402-413 size *)
Definition size_of (v : thing) : Z :=
  if negb (ANY =? size_s_of v) then size_s_of v else match v with Fov _ n => n | _ => product (lens_of v) 1 end.
(* base.hh:416-430 shape. The two last cases of the code give the same values. *)
Definition shape_of (v : thing) : list Z :=
  if negb (ANY =? size_s_of v) then shape_s_of v else if 1 =? rank_s_of v then [size_of v] else lens_of v.
End Shape.
Arguments thing : clear implicits.
