(* Model: sizes and offsets in 64-bit arithmetic. Source: ra/expr.hh:164-181, 199-223. dim_t is ptrdiff_t (base.hh:236), signed and of 64 bits.
   None, or UB, is the overflow of a signed type, which is undefined. *)
From Coq Require Import ZArith List Lia Bool.
From Verif Require Import M_Base M_View M_Opt.
Import ListNotations.
Open Scope Z_scope.

(* expr.hh:199-219 filldimv, as in M_Base.v. The lengths are converted to dim_t when they are read (207), so they are in range. *)
Fixpoint filldimv64 (p : list Z) : res (list dim * Z) :=
  match p with
  | [] => Good ([], 1)
  | n::p' =>
    match filldimv64 p' with
    | Good (dv, s) => if n >=? 0 then match arith I64 (s * n) with Some s' => Good (Dim n s :: dv, s') | None => UB end else Refused
    | Refused => Refused
    | UB => UB
    end
  end.

(* expr.hh:222 dimv_size, from the first axis to the last. Also ra::size (base.hh:402-413). *)
Fixpoint dimv_size64_loop (dv : list dim) (s : Z) : option Z :=
  match dv with
  | [] => Some s
  | d::dv' => if len d <? 0 then Some (len d) else obind (arith I64 (s * len d)) (dimv_size64_loop dv')
  end.
Definition dimv_size64 (dv : list dim) : option Z := dimv_size64_loop dv 1.

(* expr.hh:164-181 indexer: the offset of cp from the beginning. Refused is a failed check. *)
Fixpoint indexer64_loop (dv : list dim) (off : Z) (p : list Z) : res Z :=
  match dv, p with
  | [], _ => Good off
  | d::dv', i::p' =>
    if inside i (len d) || (UNB =? len d) then
      match obind (arith I64 (i * step d)) (fun x => arith I64 (off + x)) with Some off' => indexer64_loop dv' off' p' | None => UB end
    else Refused
  | _::_, [] => Refused
  end.
Definition indexer64 (dv : list dim) (p : list Z) : res Z := if (length dv <=? length p)%nat then indexer64_loop dv 0 p else Refused.

(* expr.hh:266-312 with ra::iter, ply.hh: the offset of the element at j reached by adv(k, 1) (expr.hh:300) one axis after another: adv(k, d) moves by step(k)*d *)
Fixpoint adv64 (dv : list dim) (off : Z) (j : list Z) : option Z :=
  match dv, j with
  | d::dv', i::j' => obind (obind (arith I64 (step d * i)) (fun x => arith I64 (off + x))) (fun off' => adv64 dv' off' j')
  | _, _ => Some off
  end.
