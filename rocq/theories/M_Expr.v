(* Model: expression trees, i.e. the iterators of ra/expr.hh, with their position. *)
From Coq Require Import ZArith List Lia Bool.
From Verif Require Import M_Base.
Import ListNotations.
Open Scope Z_scope.

(* Result of a computation on a state W. Fail: a failed RA_CK or an abort or an exception, with the state reached.
   Undef: undefined behavior. *)
Inductive out (W A : Type) : Type :=
| Ok (a : A) (w : W)
| Fail (w : W)
| Undef.
Arguments Ok {W A}. Arguments Fail {W A}. Arguments Undef {W A}.

Definition M (W A : Type) : Type := W -> out W A.
Definition ret {W A} (a : A) : M W A := fun w => Ok a w.
Definition fail {W A} : M W A := fun w => Fail w.
Definition undef {W A} : M W A := fun _ => Undef.
Definition bind {W A B} (m : M W A) (f : A -> M W B) : M W B :=
  fun w => match m w with Ok a w' => f a w' | Fail w' => Fail w' | Undef => Undef end.
Notation "x <- m ;; k" := (bind m (fun x => k)) (at level 61, m at next level, right associativity).

(* step()/save() of a Match are tuples of those of the arguments. *)
Inductive tree := TZ (z : Z) | TT (l : list tree).

Section Expr.
(* X: what operator* gives (a reference, a value, a subview...). W: the state that operations act on. *)
Context {X W : Type}.

(* The iterators. Positions are part of the iterator as in the code.
   Scalar: expr.hh:104-120.
   Cell: expr.hh:266-312; dv: all the dimensions, fr: frame rank, val: what *cp is (an element or a subview) given the place, cp: the place.
   Reframe: expr.hh:402-455; di: destination axis of each axis of a.
   Map: expr.hh:652-663. Pick: expr.hh:712-722; sel is the conversion of the selector to an integer (to size_t in the code: a negative
   value is out of range there, and so it is here).
   Static and dynamic lengths are not distinguished, cf M_Static.v. *)
Inductive expr : Type :=
| Scalar (c : X)
| Cell (dv : list dim) (fr : nat) (val : Z -> X) (cp : Z)
| Reframe (a : expr) (di : list nat)
| Map (op : list X -> M W X) (t : list expr)
| Pick (sel : X -> Z) (t : list expr).

(* expr.hh:537, 577 Match::rank: fold of corank from UNB. *)
Definition match_rank (rs : list Z) : Z := fold_left (fun r p => corank p r) rs UNB.

(* expr.hh:407 Reframe::rank *)
Definition reframe_rank (di : list nat) : Z :=
  match di with [] => 0 | _ => 1 + Z.of_nat (fold_right Nat.max 0%nat di) end.

(* rank() of each: expr.hh:109, 286-287, 407, 570-578 *)
Fixpoint rank (e : expr) : Z :=
  match e with
  | Scalar _ => 0
  | Cell _ fr _ _ => Z.of_nat fr
  | Reframe _ di => reframe_rank di
  | Map _ t => match_rank (map rank t)
  | Pick _ t => match_rank (map rank t)
  end.

(* expr.hh:408 Reframe::orig: the first i such that di==k (-1 is None). *)
Fixpoint orig_from (i : nat) (di : list nat) (k : nat) : option nat :=
  match di with
  | [] => None
  | d::di' => if Nat.eqb d k then Some i else orig_from (S i) di' k
  end.
Definition orig (di : list nat) (k : nat) : option nat := orig_from 0 di k.

(* expr.hh:597-608 Match::len. Each argument is given by its rank and its length on axis k. *)
Fixpoint match_len (k : Z) (t : list (Z * Z)) (s : Z) : Z :=
  match t with
  | [] => s
  | (r, sk)::t' =>
    let s' := if k <? r then (if MIS =? sk then MIS else colen sk s) else s in
    if MIS =? s' then s' else match_len k t' s'
  end.

(* len(k): expr.hh:111 (aborts for Scalar; callers only ask for k<rank, so the value here is irrelevant), 292-293, 419-424, 597-608 *)
Fixpoint lene (e : expr) (k : nat) : Z :=
  match e with
  | Scalar _ => UNB
  | Cell dv _ _ _ => len (nth k dv dim0)
  | Reframe a di => match orig di k with Some l => lene a l | None => UNB end
  | Map _ t => match_len (Z.of_nat k) (map (fun a => (rank a, lene a k)) t) UNB
  | Pick _ t => match_len (Z.of_nat k) (map (fun a => (rank a, lene a k)) t) UNB
  end.

(* expr.hh:399-400 samestep<0, T>: zeros in a tree of the same form. *)
Fixpoint tzero (s : tree) : tree := match s with TZ _ => TZ 0 | TT l => TT (map tzero l) end.

(* step(k): expr.hh:112, 294-295, 443-448, 620-624 *)
Fixpoint stepe (e : expr) (k : nat) : tree :=
  match e with
  | Scalar _ => TZ 0
  | Cell dv fr _ _ => TZ (if (k <? fr)%nat then step (nth k dv dim0) else 0)
  | Reframe a di => match orig di k with Some l => stepe a l | None => tzero (stepe a 0) end
  | Map _ t => TT (map (fun a => stepe a k) t)
  | Pick _ t => TT (map (fun a => stepe a k) t)
  end.

(* keep(st, z, j): expr.hh:114, 296-297, 431-436, 609-613 *)
Fixpoint keep (e : expr) (st : Z) (z j : nat) : bool :=
  match e with
  | Scalar _ => true
  | Cell dv fr _ _ =>
    let s k := if (k <? fr)%nat then step (nth k dv dim0) else 0 in
    st * s z =? s j
  | Reframe a di => match orig di z, orig di j with Some wz, Some wj => keep a st wz wj | _, _ => false end
  | Map _ t => forallb (fun a => keep a st z j) t
  | Pick _ t => forallb (fun a => keep a st z j) t
  end.

(* zip_with on two lists that have the same length in all uses *)
Fixpoint zipw {A B C} (f : A -> B -> C) (l : list A) (m : list B) : list C :=
  match l, m with a::l', b::m' => f a b :: zipw f l' m' | _, _ => [] end.

(* adv(k, d): expr.hh:113, 300, 449, 630 *)
Fixpoint adv (e : expr) (k : nat) (d : Z) : expr :=
  match e with
  | Scalar c => Scalar c
  | Cell dv fr val cp => Cell dv fr val (cp + (if (k <? fr)%nat then step (nth k dv dim0) else 0) * d)
  | Reframe a di => match orig di k with Some l => Reframe (adv a l d) di | None => Reframe a di end
  | Map op t => Map op (map (fun a => adv a k d) t)
  | Pick sel t => Pick sel (map (fun a => adv a k d) t)
  end.

(* mov(s): expr.hh:119, 310, 454, 633. A tuple that does not match the tree is a type error in the code. *)
Fixpoint mov (e : expr) (s : tree) : expr :=
  match e with
  | Scalar c => Scalar c
  | Cell dv fr val cp => match s with TZ z => Cell dv fr val (cp + z) | TT _ => e end
  | Reframe a di => Reframe (mov a s) di
  | Map op t =>
    match s with
    | TT l => Map op ((fix go (t : list expr) (l : list tree) : list expr :=
                         match t, l with a::t', s::l' => mov a s :: go t' l' | _, _ => [] end) t l)
    | TZ _ => e
    end
  | Pick sel t =>
    match s with
    | TT l => Pick sel ((fix go (t : list expr) (l : list tree) : list expr :=
                           match t, l with a::t', s::l' => mov a s :: go t' l' | _, _ => [] end) t l)
    | TZ _ => e
    end
  end.

(* save(): expr.hh:117, 306, 452, 631 *)
Fixpoint save (e : expr) : tree :=
  match e with
  | Scalar _ => TZ 0
  | Cell _ _ _ cp => TZ cp
  | Reframe a _ => save a
  | Map _ t => TT (map save t)
  | Pick _ t => TT (map save t)
  end.

(* load(p): expr.hh:118, 307, 453, 632 *)
Fixpoint load (e : expr) (s : tree) : expr :=
  match e with
  | Scalar c => Scalar c
  | Cell dv fr val cp => match s with TZ z => Cell dv fr val z | TT _ => e end
  | Reframe a di => Reframe (load a s) di
  | Map op t =>
    match s with
    | TT l => Map op ((fix go (t : list expr) (l : list tree) : list expr :=
                         match t, l with a::t', s::l' => load a s :: go t' l' | _, _ => [] end) t l)
    | TZ _ => e
    end
  | Pick sel t =>
    match s with
    | TT l => Pick sel ((fix go (t : list expr) (l : list tree) : list expr :=
                           match t, l with a::t', s::l' => load a s :: go t' l' | _, _ => [] end) t l)
    | TZ _ => e
    end
  end.

(* Evaluate a list of computations from left to right (C++ leaves the order of arguments unspecified). *)
Fixpoint seqM {A} (l : list (M W A)) : M W (list A) :=
  match l with
  | [] => ret []
  | m::l' => x <- m ;; xs <- seqM l' ;; ret (x::xs)
  end.

(* expr.hh:701-710 pick_star, 688-697 pick_at: try the alternatives in turn; none left is a failed check. *)
Fixpoint pick_from {A} (p : Z) (l : list (M W A)) : M W A :=
  match l with
  | [] => fail
  | m::l' => if p =? 0 then m else pick_from (p-1) l'
  end.

(* operator*: expr.hh:116, 303-304, 451, 661, 720 *)
Fixpoint deref (e : expr) : M W X :=
  match e with
  | Scalar c => ret c
  | Cell _ _ val cp => ret (val cp)
  | Reframe a _ => deref a
  | Map op t => xs <- seqM (map deref t) ;; op xs
  | Pick sel t =>
    match map deref t with
    | [] => undef
    | m0::ms => x <- m0 ;; pick_from (sel x) ms
    end
  end.

(* j[di] for each di, expr.hh:450; reading j out of range is undefined. *)
Fixpoint gather (j : list Z) (di : list nat) : option (list Z) :=
  match di with
  | [] => Some []
  | d::di' => match nth_error j d, gather j di' with Some x, Some r => Some (x::r) | _, _ => None end
  end.

(* at(j): expr.hh:115, 301-302, 450, 660, 719 *)
Fixpoint at_ (e : expr) (j : list Z) : M W X :=
  match e with
  | Scalar c => ret c
  | Cell dv fr val cp => match indexer (firstn fr dv) cp j with Some p => ret (val p) | None => fail end
  | Reframe a di => match gather j di with Some j' => at_ a j' | None => undef end
  | Map op t => xs <- seqM (map (fun a => at_ a j) t) ;; op xs
  | Pick sel t =>
    match map (fun a => at_ a j) t with
    | [] => undef
    | m0::ms => x <- m0 ;; pick_from (sel x) ms
    end
  end.

Definition rankn (e : expr) : nat := Z.to_nat (rank e).

(* base.hh:402-413 size: product of the lengths, or the first negative one. *)
Fixpoint size_loop (e : expr) (n k : nat) (s : Z) : Z :=
  match n with
  | O => s
  | S n' => let l := lene e k in if l <? 0 then l else size_loop e n' (S k) (s * l)
  end.
Definition sizee (e : expr) : Z := size_loop e (rankn e) 0 1.

(* base.hh:416-430 shape *)
Definition shape (e : expr) : list Z := map (lene e) (seq 0 (rankn e)).

(* expr.hh:555-568 Match::check, in the case that it is run (check_s()==1) *)
Definition check (e : expr) : bool := forallb (fun k => 0 <=? lene e k) (seq 0 (rankn e)).

(* expr.hh:509-526 validate, without the static shortcuts *)
Definition validate (e : expr) : bool :=
  (0 <=? rank e) &&
  match e with
  | Map _ _ | Pick _ _ => check e
  | _ => 0 <=? sizee e
  end.

End Expr.
Arguments expr : clear implicits.

(* expr.hh:639 agree: the check of a Match of the arguments. A Match is a Map without operation. *)
Definition agree {X W} (t : list (expr X W)) : bool := check (Map (fun _ => fail) t).
