(* Model: lengths, dimension vectors. Source: ra/base.hh, ra/expr.hh, ra/arrays.hh. *)
From Coq Require Import ZArith List Lia Bool.
Import ListNotations.
Open Scope Z_scope.

(* ra/base.hh:232-234. The numbers are those of the code. *)
Definition MIS : Z := -1922222222.
Definition ANY : Z := -1944444444.
Definition UNB : Z := -1988888888.

(* ra/base.hh:244 *)
Definition inside (i b : Z) : bool := (0 <=? i) && (i <? b).

(* ra/expr.hh:183 Dim. Also stands for SDim (ra/expr.hh:330-348) whose members may be static. *)
Record dim := Dim { len : Z; step : Z }.
Definition dim0 : dim := Dim 0 0.

(* ra/expr.hh:529 colen *)
Definition colen (a b : Z) : Z :=
  if 0 <=? a then (if a =? b then a else if 0 <=? b then MIS else a)
  else if UNB =? a then b else if UNB =? b then a else b.

(* ra/expr.hh:530 corank *)
Definition corank (a b : Z) : Z :=
  if ANY =? a then a else if ANY =? b then b
  else if 0 <=? a then (if 0 <=? b then Z.max a b else a) else b.

(* ra/expr.hh:222 dimv_size: product of the lengths; the first negative length if there is one. *)
Fixpoint dimv_size_loop (dv : list dim) (s : Z) : Z :=
  match dv with
  | [] => s
  | d::dv' => if len d <? 0 then len d else dimv_size_loop dv' (s * len d)
  end.
Definition dimv_size (dv : list dim) : Z := dimv_size_loop dv 1.

(* ra/expr.hh:223 dimv_empty *)
Fixpoint dimv_empty (dv : list dim) : bool :=
  match dv with
  | [] => false
  | d::dv' => if 0 =? len d then true else dimv_empty dv'
  end.

(* ra/expr.hh:199-219 filldimv. p is the list of lengths (the expression p, read with mov). The loop goes from the last
   axis to the first with the running product s; here it is the recursion on the rest of the list that comes first.
   None is a failed check (negative length). The 'resize(dv)' (expr.hh:206) has the size of p, so a dv of static rank R needs
   R lengths, which is a separate check: see [filldimv_rank]. Lengths are unbounded integers, see M_Overflow.v for 64-bit. *)
Fixpoint filldimv (p : list Z) : option (list dim * Z) :=
  match p with
  | [] => Some ([], 1)
  | n::p' =>
    match filldimv p' with
    | None => None
    | Some (dv, s) => if n >=? 0 then Some (Dim n s :: dv, s * n) else None
    end
  end.

(* ra/expr.hh:186-197 resize on a dimension vector of static rank R (None: dynamic rank, any size is fine). *)
Definition filldimv_rank (R : option nat) (p : list Z) : option (list dim * Z) :=
  match R with
  | None => filldimv p
  | Some r => if Nat.eqb (length p) r then filldimv p else None
  end.

(* ra/expr.hh:164-181 indexer. dv: the dimensions of a (only those of its rank), cp: initial place, p: the index as a list.
   The rank of the subscript is 1 here (a list); expr.hh:167-170 rejects other ranks. *)
Fixpoint indexer_loop (dv : list dim) (cp : Z) (p : list Z) : option Z :=
  match dv, p with
  | [], _ => Some cp
  | d::dv', i::p' =>
    if inside i (len d) || (UNB =? len d) then indexer_loop dv' (cp + i * step d) p' else None
  | _::_, [] => None
  end.
Definition indexer (dv : list dim) (cp : Z) (p : list Z) : option Z :=
  if (length dv <=? length p)%nat then indexer_loop dv cp p else None.

(* ra/arrays.hh:16-32 c_order. The loop goes from the last axis to the first: the argument [rdv] is the reversed vector. *)
Fixpoint c_order_loop (rdv : list dim) (steps : bool) (s : Z) : bool :=
  match rdv with
  | [] => (s =? 0) || steps
  | d::rdv' => c_order_loop rdv' (steps && ((1 =? len d) || (step d =? s))) (s * len d)
  end.
(* arrays.hh:23 'while (--k>=0 && 1==dimv[k].len) {}' *)
Fixpoint skip_ones (rdv : list dim) : list dim :=
  match rdv with
  | d::rdv' => if 1 =? len d then skip_ones rdv' else rdv
  | [] => []
  end.
Definition c_order (dv : list dim) (step1 : bool) : bool :=
  if step1 then c_order_loop (rev dv) true 1
  else match skip_ones (rev dv) with
       | [] => true          (* k<0 *)
       | [_] => true         (* k==0 *)
       | d::rdv' => c_order_loop rdv' true (step d * len d)
       end.
