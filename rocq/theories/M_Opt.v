(* Model: arithmetic on integer sequences. Source: ra/ra.hh:111-143 (opt), ra/ply.hh:320-321 (iota), ra/expr.hh:68-100 (clen, cadd, csub, Seq), 353-360 (viewptr). *)
From Coq Require Import ZArith List Lia Bool.
From Verif Require Import Spec M_Base M_Expr M_Val M_View.
Import ListNotations.
Open Scope Z_scope.

(* The length of an iota is either in the type (ic_t<n>; also the default UNB) or a run time value. *)
Inductive slen := Lit (n : Z) | Run (n : Z).
Definition lval (n : slen) : Z := match n with Lit n => n | Run n => n end.
(* expr.hh:62-63 maybe_any, which is what len_s gives for this axis *)
Definition lstat (n : slen) : Z := match n with Lit n => n | Run _ => ANY end.

(* A rank 1 iota. seqv1 (ra.hh:125) is the Cell over one. Whether the step is in the type has no effect on values and isn't modelled. *)
Record sq := Sq { qlen : slen; qorg : Z; qstep : Z }.
(* ply.hh:320-321 iota, expr.hh:353-360 viewptr. Only run time lengths are checked. *)
Definition iota (n : slen) (o s : Z) : res sq :=
  match n with
  | Run l => if l <? 0 then Refused else Good (Sq n o s)
  | Lit _ => Good (Sq n o s)
  end.

(* expr.hh:580-592 Match::len_s(k) with check=false, for two arguments of rank 1 *)
Definition len_s2 (a b : Z) : Z :=
  let s := if MIS =? a then MIS else colen a UNB in
  if MIS =? s then MIS else if MIS =? b then MIS else colen b s.
(* expr.hh:598-609 Match::len(k) *)
Definition len2 (a b : Z) : Z :=
  let s := if MIS =? a then MIS else colen a UNB in
  if MIS =? s then MIS else if MIS =? b then MIS else colen b s.
(* expr.hh:68-69 clen *)
Definition clen2 (a b : slen) : slen :=
  let s := len_s2 (lstat a) (lstat b) in if ANY =? s then Run (len2 (lval a) (lval b)) else Lit s.

(* ra.hh:133-143. (A scalar that's integral is seqvop.) *)
Definition opt_add_sq_k (a : sq) (c : Z) : res sq := iota (qlen a) (qorg a + c) (qstep a).
Definition opt_add_k_sq (c : Z) (a : sq) : res sq := iota (qlen a) (c + qorg a) (qstep a).
Definition opt_add (a b : sq) : res sq := iota (clen2 (qlen a) (qlen b)) (qorg a + qorg b) (qstep a + qstep b).
Definition opt_sub_sq_k (a : sq) (c : Z) : res sq := iota (qlen a) (qorg a - c) (qstep a).
Definition opt_sub_k_sq (c : Z) (a : sq) : res sq := iota (qlen a) (c - qorg a) (0 - qstep a).
Definition opt_sub (a b : sq) : res sq := iota (clen2 (qlen a) (qlen b)) (qorg a - qorg b) (qstep a - qstep b).
Definition opt_mul_sq_k (a : sq) (c : Z) : res sq := iota (qlen a) (qorg a * c) (qstep a * c).
Definition opt_mul_k_sq (c : Z) (a : sq) : res sq := iota (qlen a) (c * qorg a) (c * qstep a).
Definition opt_neg (a : sq) : res sq := iota (qlen a) (- qorg a) (0 - qstep a).

Section Expr.
Context {T W : Type}.
(* expr.hh:79-100 Seq, 266-312 Cell: the sequence as an expression *)
Definition sq_iter (a : sq) : expr (val T) W := Cell [Dim (lval (qlen a)) (qstep a)] 1 VI (qorg a).
(* the elementwise expressions map(op, a, b) and map(op, a) *)
Definition iop2 (f : Z -> Z -> Z) : list (val T) -> M W (val T) :=
  op2 (fun v u => match v, u with VI x, VI y => ret (VI (f x y)) | _, _ => undef end).
Definition iop1 (f : Z -> Z) : list (val T) -> M W (val T) := op1 (fun v => match v with VI x => ret (VI (f x)) | _ => undef end).
Definition map2 (f : Z -> Z -> Z) (a b : expr (val T) W) : expr (val T) W := Map (iop2 f) [a; b].
Definition map1 (f : Z -> Z) (a : expr (val T) W) : expr (val T) W := Map (iop1 f) [a].
End Expr.

(* expr.hh:508-526 validate on the iterator of a sequence: a length in the type only has to be other than UNB. The check in M_Expr.v is the run time one. *)
Definition sq_validate (a : sq) : bool := match qlen a with Lit n => negb (n =? UNB) | Run n => 0 <=? n end.
(* ply.hh:60-62, 124-140: the loop 'for (dim_t s=len; --s>=0; ...)' over the elements of a sequence that has passed validate *)
Definition sq_list (a : sq) : res (list Z) :=
  if sq_validate a then Good (map (fun k => qorg a + k * qstep a) (zrange (lval (qlen a)))) else Refused.

(* ---- machine integers ---- *)
(* The types of a Seq. The narrower ones fail to compile in Seq::operator+ (narrowing in braces). Arithmetic on floating point sequences isn't modelled. *)
Inductive ity := I32 | U32 | I64 | U64.
Definition bits (t : ity) : Z := match t with I32 | U32 => 32 | I64 | U64 => 64 end.
Definition signed (t : ity) : bool := match t with I32 | I64 => true | U32 | U64 => false end.
(* conversion to t; since c++20 this is modular for all types *)
Definition conv (t : ity) (x : Z) : Z :=
  if signed t then (x + 2 ^ (bits t - 1)) mod 2 ^ bits t - 2 ^ (bits t - 1) else x mod 2 ^ bits t.
(* the result of an operation in t whose exact result is x; None is the overflow of a signed type, which is undefined *)
Definition arith (t : ity) (x : Z) : option Z := if signed t then (if conv t x =? x then Some x else None) else Some (conv t x).
(* usual arithmetic conversions *)
Definition common (a b : ity) : ity :=
  match a, b with
  | U64, _ | _, U64 => U64
  | I64, _ | _, I64 => I64
  | U32, _ | _, U32 => U32
  | I32, I32 => I32
  end.
Definition obind {A B} (o : option A) (f : A -> option B) : option B := match o with Some a => f a | None => None end.
Definition mop (f : Z -> Z -> Z) (r : ity) (x y : Z) : option Z := arith r (f (conv r x) (conv r y)).

(* Seq<I> with a step and a length, both dim_t *)
Record mq := Mq { mty : ity; morg : Z; mstep : Z; mlen : Z }.
(* Element k: expr.hh:92 (Seq::operator+(dim_t)) *)
Definition mat (q : mq) (k : Z) : option Z := obind (arith I64 (k * mstep q)) (fun d => arith (mty q) (morg q + conv (mty q) d)).
(* as in ra.hh:133-143, with types. The scalar c has type t. *)
Definition mopt_add_k (q : mq) (t : ity) (c : Z) : option mq :=
  let r := common (mty q) t in obind (mop Z.add r (morg q) c) (fun o => Some (Mq r o (mstep q) (mlen q))).
Definition mopt_sub_k (q : mq) (t : ity) (c : Z) : option mq :=
  let r := common (mty q) t in obind (mop Z.sub r (morg q) c) (fun o => Some (Mq r o (mstep q) (mlen q))).
Definition mopt_k_sub (t : ity) (c : Z) (q : mq) : option mq :=
  let r := common (mty q) t in obind (mop Z.sub r c (morg q)) (fun o => obind (arith I64 (0 - mstep q)) (fun s => Some (Mq r o s (mlen q)))).
Definition mopt_mul_k (q : mq) (t : ity) (c : Z) : option mq :=
  let r := common (mty q) t in obind (mop Z.mul r (morg q) c) (fun o => obind (mop Z.mul (common I64 t) (mstep q) c) (fun s => Some (Mq r o (conv I64 s) (mlen q)))).
Definition mopt_neg (q : mq) : option mq :=
  obind (arith (mty q) (- morg q)) (fun o => obind (arith I64 (0 - mstep q)) (fun s => Some (Mq (mty q) o s (mlen q)))).
Definition mopt_add (p q : mq) : option mq :=
  let r := common (mty p) (mty q) in obind (mop Z.add r (morg p) (morg q)) (fun o => obind (arith I64 (mstep p + mstep q)) (fun s => Some (Mq r o s (mlen p)))).
Definition mopt_sub (p q : mq) : option mq :=
  let r := common (mty p) (mty q) in obind (mop Z.sub r (morg p) (morg q)) (fun o => obind (arith I64 (mstep p - mstep q)) (fun s => Some (Mq r o s (mlen p)))).
(* Element k of the elementwise expressions *)
Definition mel_k (f : Z -> Z -> Z) (q : mq) (t : ity) (c k : Z) : option Z := obind (mat q k) (fun x => mop f (common (mty q) t) x c).
Definition mel (f : Z -> Z -> Z) (p q : mq) (k : Z) : option Z := obind (mat p k) (fun x => obind (mat q k) (fun y => mop f (common (mty p) (mty q)) x y)).
Definition mel_neg (q : mq) (k : Z) : option Z := obind (mat q k) (fun x => arith (mty q) (- x)).
