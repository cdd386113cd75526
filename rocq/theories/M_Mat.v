(* Model: matrix products. Source: ra/ra.hh:403-456. *)
From Coq Require Import ZArith List Lia Bool.
From Verif Require Import M_Base M_Expr M_Ply M_Val M_View M_Slice.
Import ListNotations.
Open Scope Z_scope.

Section Mat.
Context {T : Type}.

(* expr.hh:266-312, 387-400: iter() of a view *)
Definition viter (v : view) : expr (val T) (mem T) := Cell (vdv v) (vrank v) VRef (vcp v).
(* a view operation and then an operation on memory *)
Definition onres {A B W} (r : res A) (f : A -> M W B) : M W B := match r with Good a => f a | Refused => fail | UB => undef end.
(* a * b for elements *)
Definition mul_op (mul : T -> T -> T) : list (val T) -> M (mem T) (val T) :=
  op2 (fun v u => x <- rd v ;; y <- rd u ;; ret (VT (mul x y))).
Definition times (mul : T -> T -> T) (a b : expr (val T) (mem T)) : expr (val T) (mem T) := Map (mul_op mul) [a; b].

Variables (add mul : T -> T -> T) (fixed : bool) (z : list zt).
Notation ex := (expr (val T) (mem T)).

(* ra.hh:403-412 gemm. In the first case (c is a Slice) b is subscripted, so it is a view or an array, and a is any expression. In the second case
   c isn't a Slice, and both a and b are views or arrays. *)
Definition gemm_c (a : ex) (b c : view) : M (mem T) (option unit) :=
  onres (from c [all; SInsert 1]) (fun c1 => onres (from b [SInsert 1]) (fun b1 => assign fixed z add (viter c1) (times mul a (viter b1)))).
Definition gemm_e (a b : view) (c : ex) : M (mem T) (option unit) :=
  onres (from a [all; SInsert 1]) (fun a1 => onres (transpose b [2; 1]) (fun b1 => assign fixed z add c (times mul (viter a1) (viter b1)))).

(* the loops with for_each in gemv and gevm (ra.hh:422, 435). The outer expression has an argument whose elements are views (iter<1>) and another whose elements
   are references or values; in the operation 'a' is the view and 'b' the other one. [zi]: thread_local state of the inner traversal. *)
Definition item : Type := view + val T.
Fixpoint vals (e : ex) : expr item (mem T) :=
  match e with
  | Scalar c => Scalar (inr c)
  | Cell dv fr val cp => Cell dv fr (fun p => inr (val p)) cp
  | Reframe a di => Reframe (vals a) di
  | Map op t => Map (fun xs => y <- op (map (fun x => match x with inr v => v | inl _ => VUnit end) xs) ;; ret (inr y)) (map vals t)
  | Pick sel t => Pick (fun x => match x with inr v => sel v | inl _ => -1 end) (map vals t)
  end.
(* expr.hh:266-312 iter<1> of a view: the elements are the cells of rank 1 *)
Definition iter1 (v : view) : expr item (mem T) :=
  Cell (vdv v) (vrank v - 1) (fun p => inl (Vw (skipn (vrank v - 1) (vdv v)) p)) (vcp v).
Definition cell_op (zi : list zt) (c : ex) (swap : bool) (xs : list item) : M (mem T) item :=
  match xs with
  | [inl a; inr b] => if swap then undef else _ <- assign fixed zi add c (times mul (viter a) (Scalar b)) ;; ret (inr VUnit)
  | [inr a; inl b] => if swap then _ <- assign fixed zi add c (times mul (Scalar a) (viter b)) ;; ret (inr VUnit) else undef
  | _ => undef
  end.

(* ra.hh:414-425 gemv. b is a Slice; c is a Slice, b isn't; neither is. *)
Definition gemv_b (a : ex) (b : view) (c : ex) : M (mem T) (option unit) :=
  onres (from b [SInsert 1]) (fun b1 => assign fixed z add c (times mul a (viter b1))).
Definition gemv_c (a : view) (b : ex) (c : view) : M (mem T) (option unit) :=
  onres (from c [SInsert 1]) (fun c1 => onres (transpose10 a) (fun a1 => assign fixed z add (viter c1) (times mul (viter a1) b))).
Definition gemv_e (zi : list zt) (a : view) (b c : ex) : M (mem T) (option unit) :=
  onres (transpose10 a) (fun a1 => ply fixed no_stop z (Map (cell_op zi c false) [iter1 a1; vals b])).

(* ra.hh:427-438 gevm. c is a Slice; a is a Slice, c isn't; neither is. *)
Definition gevm_c (a b : ex) (c : view) : M (mem T) (option unit) :=
  onres (from c [SInsert 1]) (fun c1 => assign fixed z add (viter c1) (times mul a b)).
Definition gevm_a (a b : view) (c : ex) : M (mem T) (option unit) :=
  onres (from a [SInsert 1]) (fun a1 => onres (transpose10 b) (fun b1 => assign fixed z add c (times mul (viter a1) (viter b1)))).
Definition gevm_e (zi : list zt) (a : ex) (b : view) (c : ex) : M (mem T) (option unit) :=
  ply fixed no_stop z (Map (cell_op zi c true) [vals a; iter1 b]).

(* ra.hh:440-456: the result is a new array (with_shape, arrays.hh:371-401) at [q], a part of the memory that isn't in use. The elements are value-initialized. *)
Definition new_array (q : Z) (s : list Z) (zero : T) (k : view -> M (mem T) (option unit)) : M (mem T) (option view) :=
  fun m => match filldimv s with
           | Some (dv, n) => match k (Vw dv q) (fun p => if (q <=? p) && (p <? q + n) then zero else m p) with
                             | Ok _ m' => Ok (Some (Vw dv q)) m' | Fail m' => Fail m' | Undef => Undef end
           | None => Fail m
           end.
Definition gemm2 (q : Z) (zero : T) (a b : view) : M (mem T) (option view) :=
  new_array q [len (nth 0 (vdv a) dim0); len (nth 1 (vdv b) dim0)] zero (gemm_c (viter a) b).
Definition gemv2 (q : Z) (zero : T) (a b : view) : M (mem T) (option view) :=
  new_array q [len (nth 0 (vdv a) dim0)] zero (fun c => gemv_b (viter a) b (viter c)).
Definition gevm2 (q : Z) (zero : T) (a b : view) : M (mem T) (option view) :=
  new_array q [len (nth 1 (vdv b) dim0)] zero (gevm_c (viter a) (viter b)).
End Mat.
