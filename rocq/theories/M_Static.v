(* Model: what is known of an expression from its type. Source: ra/expr.hh:289-291, 404-425, 508-609, ra/base.hh:330-399. *)
From Coq Require Import ZArith List Lia Bool.
From Verif Require Import M_Base M_Expr.
Import ListNotations.
Open Scope Z_scope.

(* The type of an iterator. TCell: the lengths if the rank is static, each of them a number, UNB, or ANY if it's only known at run time; None if the rank is dynamic.
   Map and Pick are derived from Match (expr.hh:653, 713). *)
Inductive ty := TScalar | TCell (ls : option (list Z)) | TReframe (a : ty) (di : list nat) | TMatch (t : list ty).

Definition is_match (t : ty) : bool := match t with TMatch _ => true | _ => false end.

(* base.hh:330-345 rank_s, expr.hh:109, 286-287, 407, 537 *)
Fixpoint rank_s (t : ty) : Z :=
  match t with
  | TScalar => 0
  | TCell (Some ls) => Z.of_nat (length ls)
  | TCell None => ANY
  | TReframe _ di => reframe_rank di
  | TMatch ts => match_rank (map rank_s ts)
  end.

(* expr.hh:580-592: for each argument, rank_s() and len_s(k, check). The conjunction (590) stops after the first mismatch. *)
Fixpoint match_len_s (k : Z) (check : bool) (t : list (Z * Z)) (s : Z) : Z :=
  match t with
  | [] => s
  | (r, sk)::t' =>
    let s' := if (r <? 0) || (k <? r) then (if MIS =? sk then MIS else if check && ((ANY =? sk) || (ANY =? s)) then ANY else colen sk s) else s in
    if MIS =? s' then s' else match_len_s k check t' s'
  end.
(* len_s(k, check) of each: expr.hh:110 (not used), 291, 409-413, 580-592. Only Match takes [check], and Reframe doesn't pass it on (412): the default is false. *)
Fixpoint len_s (t : ty) (k : nat) (check : bool) : Z :=
  match t with
  | TScalar => UNB
  | TCell (Some ls) => nth k ls ANY
  | TCell None => ANY
  | TReframe a di => match orig di k with Some l => len_s a l false | None => UNB end
  | TMatch ts => match_len_s (Z.of_nat k) check (map (fun a => (rank_s a, len_s a k check)) ts) UNB
  end.

(* base.hh:387-399 size_s *)
Fixpoint size_s_loop (t : ty) (n k : nat) (s : Z) : Z :=
  match n with
  | O => s
  | S n' => let l := len_s t k false in if l <? 0 then l else size_s_loop t n' (S k) (s * l)
  end.
Definition size_s (t : ty) : Z := if ANY =? rank_s t then ANY else size_s_loop t (Z.to_nat (rank_s t)) 0 1.

(* expr.hh:539-554 Match::check_s. 0: fail, 1: check at run time, 2: pass. *)
Fixpoint check_s_loop (t : ty) (n k : nat) (val : Z) : Z :=
  match n with
  | O => if 0 =? val then 2 else 1
  | S n' => let l := len_s t k true in
            if (MIS =? l) || (UNB =? l) then 0 else check_s_loop t n' (S k) (if ANY =? l then val + 1 else val)
  end.
Definition check_s (t : ty) : Z := if rank_s t =? ANY then 1 else check_s_loop t (Z.to_nat (rank_s t)) 0 0.

(* expr.hh:508-526 validate: the part that's a condition on the type ... *)
Definition compiles (t : ty) : bool :=
  negb (UNB =? size_s t) &&
  (if rank_s t <? 0 then ANY =? rank_s t else true) &&
  (if is_match t then negb (0 =? check_s t) else true).
(* ... and the part that's done at run time, if it compiles *)
Definition accepts {X W} (t : ty) (e : expr X W) : bool :=
  (if rank_s t <? 0 then 0 <=? rank e else true) &&
  (if is_match t then (if 1 =? check_s t then check e else true)
   else if ANY =? size_s t then 0 <=? sizee e else true).
