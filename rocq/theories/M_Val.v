(* Model: element values, memory, whole-array operations, assignment. Source: ra/ra.hh:228-401, ra/expr.hh:50-60, ra/ply.hh:155-169. *)
From Coq Require Import ZArith List Lia Bool.
From Verif Require Import M_Base M_Expr M_Ply.
Import ListNotations.
Open Scope Z_scope.

Section Val.
Context {T : Type}.

(* What operator* of an expression on elements of type T may give: a value of T, an integer (dim_t, from sequences), a bool, a reference
   to an element (its place in memory), an optional (std::optional<bool>, std::optional<dim_t>), void. *)
Inductive val :=
| VT (t : T)
| VI (i : Z)
| VB (b : bool)
| VRef (p : Z)
| VOB (o : option bool)
| VOI (o : option Z)
| VUnit.

(* The elements that arrays refer to: one flat memory. *)
Definition mem : Type := Z -> T.
Definition wr (p : Z) (t : T) (m : mem) : mem := fun q => if q =? p then t else m q.

(* conversion of the result of operator* to a value of T (lvalue to rvalue). Other cases are type errors in the code. *)
Definition rd (v : val) : M mem T :=
  fun m => match v with VT t => Ok t m | VRef p => Ok (m p) m | _ => Undef end.
Definition rdb (tob : T -> bool) (v : val) : M mem bool :=
  fun m => match v with VB b => Ok b m | VT t => Ok (tob t) m | VRef p => Ok (tob (m p)) m | _ => Undef end.

(* ply.hh:155-166 ply: the choice is made on the static size; both choices are considered for every expression.
   z is the thread_local state of the dynamic one. *)
Definition ply {X W R} (fixed : bool) (post : X -> option R) (z : list zt) (e : expr X W) : M W (option R) :=
  fun w => if fixed then ply_fixed post e w else fst (ply_ravel post z e w).

Definition op1 {W} (f : val -> M W val) (xs : list val) : M W val := match xs with [x] => f x | _ => undef end.
Definition op2 {W} (f : val -> val -> M W val) (xs : list val) : M W val := match xs with [x; y] => f x y | _ => undef end.

Definition post_b (v : val) : option bool := match v with VOB o => o | _ => None end.
Definition post_i (v : val) : option Z := match v with VOI o => o | _ => None end.
Definition to_value {W R} (d : R) (m : M W (option R)) : M W R := o <- m ;; ret (value_or o d).

(* ra.hh:279-283 any; the conversion of an element to bool is [tob] *)
Definition any_op (tob : T -> bool) : list val -> M mem val :=
  op1 (fun v => b <- rdb tob v ;; ret (VOB (if b then Some true else None))).
Definition any (fixed : bool) (z : list zt) (tob : T -> bool) (a : expr val mem) : M mem bool :=
  to_value false (ply fixed post_b z (Map (any_op tob) [a])).

(* ra.hh:285-289 every *)
Definition every_op (tob : T -> bool) : list val -> M mem val :=
  op1 (fun v => b <- rdb tob v ;; ret (VOB (if negb b then Some false else None))).
Definition every (fixed : bool) (z : list zt) (tob : T -> bool) (a : expr val mem) : M mem bool :=
  to_value true (ply fixed post_b z (Map (every_op tob) [a])).

(* ply.hh:320-330 iota() with default arguments: 0, 1, ... on one unbounded axis *)
Definition iota0 {W} : expr val W := Cell [Dim UNB 1] 1 VI 0.

(* ra.hh:292-297 index *)
Definition index_op (tob : T -> bool) : list val -> M mem val :=
  op2 (fun v i => b <- rdb tob v ;; match i with VI i => ret (VOI (if b then Some i else None)) | _ => undef end).
Definition index (fixed : bool) (z : list zt) (tob : T -> bool) (a : expr val mem) : M mem Z :=
  to_value (-1) (ply fixed post_i z (Map (index_op tob) [a; iota0])).

(* ra.hh:299-304 lexical_compare *)
Definition lexcmp_op (eqb ltb : T -> T -> bool) : list val -> M mem val :=
  op2 (fun v u => a <- rd v ;; b <- rd u ;; ret (VOB (if eqb a b then None else Some (ltb a b)))).
Definition lexical_compare (fixed : bool) (z : list zt) (eqb ltb : T -> T -> bool) (a b : expr val mem) : M mem bool :=
  to_value false (ply fixed post_b z (Map (lexcmp_op eqb ltb) [a; b])).

(* Reductions with a captured local variable c: the state of the traversal is the memory and c. The operations inside of the argument
   act on the memory only. *)
Definition lift_op {A W C} (m : M W A) : M (W * C) A :=
  fun s => match m (fst s) with Ok x w => Ok x (w, snd s) | Fail w => Fail (w, snd s) | Undef => Undef end.
Fixpoint lift {X W C} (e : expr X W) : expr X (W * C) :=
  match e with
  | Scalar c => Scalar c
  | Cell dv fr val cp => Cell dv fr val cp
  | Reframe a di => Reframe (lift a) di
  | Map op t => Map (fun xs => lift_op (op xs)) (map lift t)
  | Pick sel t => Pick sel (map lift t)
  end.
Definition update {C W} (f : C -> C) : M (W * C) val := fun s => Ok VUnit (fst s, f (snd s)).

(* for_each(op, a ...) (ply.hh:168) where op changes c, and then the value of c *)
Definition for_each_c {W C} (fixed : bool) (z : list zt) (op : list val -> M (W * C) val) (t : list (expr val W)) (c : C) : M W C :=
  fun w => match ply fixed no_stop z (Map op (map lift t)) (w, c) with
           | Ok _ s => Ok (snd s) (fst s)
           | Fail s => Fail (fst s)
           | Undef => Undef
           end.
Definition rdl {C} (v : val) : M (mem * C) T := lift_op (rd v).

(* ra.hh:306-313 amin; top is infinity() or max() *)
Definition amin (fixed : bool) (z : list zt) (ltb : T -> T -> bool) (top : T) (a : expr val mem) : M mem T :=
  for_each_c fixed z (op1 (fun v => x <- rdl v ;; update (fun c => if ltb x c then x else c))) [a] top.
(* ra.hh:315-322 amax; bot is -infinity() or lowest() *)
Definition amax (fixed : bool) (z : list zt) (ltb : T -> T -> bool) (bot : T) (a : expr val mem) : M mem T :=
  for_each_c fixed z (op1 (fun v => x <- rdl v ;; update (fun c => if ltb c x then x else c))) [a] bot.

(* ra.hh:326-335 refmin on a view (dv, cp). 'a.size()' is dimv_size (arrays.hh:84-149). The local p is the place of the current candidate. *)
Definition refmin_op (less : T -> T -> bool) : list val -> M (mem * Z) val :=
  op1 (fun v => match v with VRef q => fun s => Ok VUnit (fst s, if less (fst s q) (fst s (snd s)) then q else snd s) | _ => undef end).
Definition refmin (fixed : bool) (z : list zt) (less : T -> T -> bool) (dv : list dim) (cp : Z) : M mem Z :=
  if 0 <? dimv_size dv then for_each_c fixed z (refmin_op less) [Cell dv (length dv) VRef cp] cp else fail.
(* ra.hh:337-346 refmax *)
Definition refmax_op (less : T -> T -> bool) : list val -> M (mem * Z) val :=
  op1 (fun v => match v with VRef q => fun s => Ok VUnit (fst s, if less (fst s (snd s)) (fst s q) then q else snd s) | _ => undef end).
Definition refmax (fixed : bool) (z : list zt) (less : T -> T -> bool) (dv : list dim) (cp : Z) : M mem Z :=
  if 0 <? dimv_size dv then for_each_c fixed z (refmax_op less) [Cell dv (length dv) VRef cp] cp else fail.

(* ra.hh:348-354 sum, 356-362 prod. Only scalar elements: the initial value is then that of concrete_type<E>(x ...) in copy_shape (arrays.hh:389-390).
   The argument VAL(a) of copy_shape is only for its type, but it is evaluated (expr.hh:136-144), even if a has no elements. *)
Definition sum (fixed : bool) (z : list zt) (add : T -> T -> T) (zero : T) (a : expr val mem) : M mem T :=
  _ <- deref a ;; for_each_c fixed z (op1 (fun v => x <- rdl v ;; update (fun c => add c x))) [a] zero.
Definition prod (fixed : bool) (z : list zt) (mul : T -> T -> T) (one : T) (a : expr val mem) : M mem T :=
  _ <- deref a ;; for_each_c fixed z (op1 (fun v => x <- rdl v ;; update (fun c => mul c x))) [a] one.

(* ra.hh:372 maybe_fma (the non-fma branch; the other one is ra.hh:45-56, cf. C44), 379-384 dot *)
Definition dot (fixed : bool) (z : list zt) (add mul : T -> T -> T) (zero : T) (a b : expr val mem) : M mem T :=
  for_each_c fixed z (op2 (fun v u => x <- rdl v ;; y <- rdl u ;; update (fun c => add c (mul x y)))) [a; b] zero.
(* ra.hh:373, 387-392 cdot *)
Definition cdot (fixed : bool) (z : list zt) (add mul : T -> T -> T) (conj : T -> T) (zero : T) (a b : expr val mem) : M mem T :=
  for_each_c fixed z (op2 (fun v u => x <- rdl v ;; y <- rdl u ;; update (fun c => add c (mul (conj x) y)))) [a; b] zero.
(* ra.hh:374, 395-401 reduce_sqrm *)
Definition reduce_sqrm (fixed : bool) (z : list zt) (add : T -> T -> T) (sqrm : T -> T) (zero : T) (a : expr val mem) : M mem T :=
  for_each_c fixed z (op1 (fun v => x <- rdl v ;; update (fun c => add c (sqrm x)))) [a] zero.

(* expr.hh:50-60 assignment operators: 'y OP x' with f y x the new value of y (f y x = x for '=', y+x for '+=', ...) *)
Definition assign_op (f : T -> T -> T) : list val -> M mem val :=
  op2 (fun y v => match y with
                  | VRef p => x <- rd v ;; fun m => Ok VUnit (wr p (f (m p) x) m)
                  | _ => undef
                  end).
Definition assign (fixed : bool) (z : list zt) (f : T -> T -> T) (dst src : expr val mem) : M mem (option unit) :=
  ply fixed no_stop z (Map (assign_op f) [dst; src]).

(* expr.hh:680-681 cast<bool>, ra.hh:255-256 where, ra.hh:262-266 && and || *)
Definition castb (tob : T -> bool) (a : expr val mem) : expr val mem := Map (op1 (fun v => b <- rdb tob v ;; ret (VB b))) [a].
(* conversion of the selector to size_t; only bool and integers here *)
Definition selv (v : val) : Z := match v with VI i => i | VB b => if b then 1 else 0 | _ => -1 end.
Definition where_ (tob : T -> bool) (w t f : expr val mem) : expr val mem := Pick selv [castb tob w; f; t].
Definition and_ (tob : T -> bool) (a b : expr val mem) : expr val mem := where_ tob a (castb tob b) (Scalar (VB false)).
Definition or_ (tob : T -> bool) (a b : expr val mem) : expr val mem := where_ tob a (Scalar (VB true)) (castb tob b).

End Val.
Arguments val : clear implicits.
Arguments mem : clear implicits.
