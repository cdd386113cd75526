(* Model: which operators there are for which arguments, and those for arguments of rank 0. Source: ra/base.hh:363-369, ra/ra.hh:178-271. *)
From Coq Require Import ZArith List Lia Bool.
From Verif Require Import M_Base M_Expr M_Val.
Import ListNotations.
Open Scope Z_scope.

(* base.hh:310-329 the types that may be arguments, as far as base.hh:363-369 can tell: scalars; ra:: types, with their rank_s (it may be ANY) and whether they are special
   (base.hh:295-296, that is, with len in them; those are ra:: types); foreign ranges, built in arrays, and any other type. *)
Inductive kind := KScalar | KRa (r : Z) (special : bool) | KFov | KBuiltin | KOther.
Definition is_scalar (k : kind) : bool := match k with KScalar => true | _ => false end.
Definition is_ra (k : kind) : bool := match k with KRa _ _ => true | _ => false end.
Definition is_special (k : kind) : bool := match k with KRa _ s => s | _ => false end.
Definition is_fov (k : kind) : bool := match k with KFov => true | _ => false end.
Definition is_builtin (k : kind) : bool := match k with KBuiltin => true | _ => false end.
Definition rank_s (k : kind) : Z := match k with KRa r _ => r | _ => 0 end. (* only used after is_ra *)
(* base.hh:364-365 *)
Definition is_ra_pos (k : kind) : bool := is_ra k && negb (0 =? rank_s k).
Definition is_ra_0 (k : kind) : bool := (is_ra k && (0 =? rank_s k)) || is_scalar k.
(* base.hh:366-367 toreduce, 368-369 tomap *)
Definition toreduce (ks : list kind) : bool := existsb (fun k => negb (is_scalar k)) ks && forallb (fun k => is_ra_0 k && negb (is_special k)) ks.
Definition tomap (ks : list kind) : bool :=
  existsb (fun k => is_ra_pos k || is_special k) ks && forallb (fun k => is_ra k || is_scalar k || is_fov k || is_builtin k) ks.

(* ra.hh:178-193, 200-206, 209-215: the overloads of an operator or function in ra:: whose requirements are met *)
Inductive overload := Lazy | Eager.
Definition overloads (ks : list kind) : list overload := (if tomap ks then [Lazy] else []) ++ (if toreduce ks then [Eager] else []).

(* ra.hh:182, 205, 214: OP(VAL(a) ...). VAL (expr.hh:136-144) is operator* on a new iterator. The arguments are evaluated in order, cf M_Expr.v. *)
Definition eager {X W} (op : list X -> M W X) (t : list (expr X W)) : M W X := xs <- seqM (map deref t) ;; op xs.
(* ra.hh:252-253 where *)
Definition where0 {T} (w : bool) (t f : expr (val T) (mem T)) : M (mem T) (val T) := if w then deref t else deref f.
(* ra.hh:267-271 && and || are those of bool on VAL(a), VAL(b) *)
Definition and0 {T} (tob : T -> bool) (a b : expr (val T) (mem T)) : M (mem T) (val T) :=
  u <- deref a ;; x <- rdb tob u ;; if x then v <- deref b ;; y <- rdb tob v ;; ret (VB y) else ret (VB false).
Definition or0 {T} (tob : T -> bool) (a b : expr (val T) (mem T)) : M (mem T) (val T) :=
  u <- deref a ;; x <- rdb tob u ;; if x then ret (VB true) else v <- deref b ;; y <- rdb tob v ;; ret (VB y).
