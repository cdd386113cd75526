(* Model: to_ravel() from any range, and programs on ranges of bench/bench-iterator.cc and examples/read-me.cc. Source: ra/arrays.hh:34-44, ra/ply.hh:177-236. *)
From Coq Require Import ZArith List Bool.
From Verif Require Import M_Base M_Expr M_Ply M_Val M_View M_Slice M_Frame M_Mat M_Stencil M_Elem M_Range.
Import ListNotations.
Open Scope Z_scope.

Section Ravel.
Context {T : Type}.
Notation ex := (expr (val T) (mem T)).

(* the output iterator of std::ranges::copy (arrays.hh:42): b.begin() is a pointer or an STLIterator *)
Inductive outit := OPtr (p : Z) | OStl (it : @stl (val T) (mem T)).
(* pointer: which of them (arrays.hh:137, 308); None is a failed check *)
Definition out_begin (pointer : bool) (b : view) : option outit := if pointer then Some (OPtr (vcp b)) else match stl_begin (viter b) with Some it => Some (OStl it) | None => None end.
(* *out = x; ++out *)
Definition out_put (x : T) : M (mem T * outit) unit := fun s =>
  match snd s with
  | OPtr p => Ok tt (wr p x (fst s), OPtr (p + 1))
  | OStl it => match deref (sa it) (fst s) with Ok (VRef p) m => Ok tt (wr p x m, OStl (stl_next it)) | Fail m => Fail (m, snd s) | _ => Undef end
  end.
Definition copy_one (v : val T) : M (mem T * outit) unit := x <- rdl v ;; out_put x.
Definition forget {A S} (r : out (mem T * S) A) : out (mem T) A := match r with Ok a s => Ok a (fst s) | Fail s => Fail (fst s) | Undef => Undef end.
(* arrays.hh:34-44 to_ravel(x, b), where n is the size of x and r is its range. If both sizes are static then a mismatch doesn't compile; that is a refusal here too. *)
Definition ravel (n : Z) (r : option (@range (val T) (mem T * outit))) (pointer : bool) (fuel : nat) (b : view) : M (mem T) unit := fun m =>
  if n =? dimv_size (vdv b) then match r, out_begin pointer b with Some r, Some o => forget (range_for VRef fuel copy_one r (m, o)) | _, _ => Fail m end else Fail m.
(* x a view, an array, or another expression (ply.hh:230) *)
Definition ravel_view (ct st pointer : bool) (fuel : nat) (a b : view) : M (mem T) unit := ravel (dimv_size (vdv a)) (view_range VRef ct st a) pointer fuel b.
Definition ravel_array (pointer : bool) (fuel : nat) (a b : view) : M (mem T) unit := ravel (dimv_size (vdv a)) (Some (array_range a)) pointer fuel b.
Definition expr_range {C} (e : ex) : option (@range (val T) (mem T * C)) := match stl_begin (lift e) with Some s => Some (RStl s) | None => None end.
Definition ravel_expr (pointer : bool) (fuel : nat) (e : ex) (b : view) : M (mem T) unit := ravel (sizee e) (expr_range e) pointer fuel b.

(* bench/bench-iterator.cc:36-40, 75-79: int i = 0; for (auto & a: A) { a = i; ++i; }; inj is the conversion *)
Definition number_one (inj : Z -> T) (v : val T) : M (mem T * Z) unit := fun s => match v with VRef p => Ok tt (wr p (inj (snd s)) (fst s), snd s + 1) | _ => Undef end.
Definition number (inj : Z -> T) (ct st : bool) (fuel : nat) (a : view) : M (mem T) unit := fun m => match view_range VRef ct st a with Some r => forget (range_for VRef fuel (number_one inj) r (m, 0)) | None => Fail m end.
(* bench/bench-iterator.cc:44: A = _0, 48: A = iota(s) *)
Definition conv (inj : Z -> T) (e : ex) : ex := Map (op1 (fun v => match v with VI i => ret (VT (inj i)) | _ => undef end)) [e].
Definition number_index (fixed : bool) (z : list zt) (inj : Z -> T) (a : view) : M (mem T) (option unit) := assign fixed z (fun _ x => x) (viter a) (conv inj (tindex 0)).
Definition number_iota (fixed : bool) (z : list zt) (inj : Z -> T) (a : view) : M (mem T) (option unit) := assign fixed z (fun _ x => x) (viter a) (conv inj (Cell [Dim (dimv_size (vdv a)) 1] 1 VI 0)).

(* examples/read-me.cc:267: std::accumulate(ra::begin(A), ra::end(A), 0); the range is of any expression *)
Definition std_accumulate (add : T -> T -> T) (fuel : nat) (e : ex) (c : T) : M (mem T) T := fun m =>
  match @expr_range T e with
  | Some r => match range_for VRef fuel (fun v => x <- rdl v ;; _ <- update (T := T) (fun c => add c x) ;; ret tt) r (m, c) with Ok _ s => Ok (snd s) (fst s) | Fail s => Fail (fst s) | Undef => Undef end
  | None => Fail m
  end.
End Ravel.

(* examples/read-me.cc:268, 270: std::ranges::count(range(e), true), and count_if(range(e), p), with p on the elements of e, that may be cells *)
Definition count_one {X W} (p : X -> M W bool) (v : X) : M (W * Z) unit := b <- lift_op (p v) ;; fun s => Ok tt (fst s, if b then snd s + 1 else snd s).
Definition count_if {X W} (p : X -> M W bool) (fuel : nat) (e : expr X W) : M W Z := fun w =>
  match stl_begin (lift e) with
  | Some s => match stl_for fuel (count_one p) s (w, 0) with Ok _ s => Ok (snd s) (fst s) | Fail s => Fail (fst s) | Undef => Undef end
  | None => Fail w
  end.

(* 268: count(range(e), true); tob is the conversion to bool *)
Definition count_true {T} (tob : T -> bool) (fuel : nat) (e : expr (val T) (mem T)) : M (mem T) Z := count_if (rdb tob) fuel e.
(* sum(cast<int>(e)); no overflow of int is modelled *)
Definition sum_true (fixed : bool) (z : list zt) (tob : Z -> bool) (e : expr (val Z) (mem Z)) : M (mem Z) Z :=
  sum fixed z Z.add 0 (Map (op1 (fun v => b <- rdb tob v ;; ret (VT (if b then 1 else 0)))) [e]).
(* 270: count_if(range(iter<n>(A)), [](auto const & x) { return any(x==0); }), n not more than the rank of A *)
Definition cells_with {T} (fixed : bool) (z : list zt) (tob : T -> bool) (eqb : T -> T -> bool) (zero : T) (fuel n : nat) (a : view) : M (mem T) Z :=
  count_if (fun c => match c with inl v => any fixed z tob (cmp eqb (viter v) (Scalar (VT zero))) | inr _ => undef end) fuel (itern n a).
