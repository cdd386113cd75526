(* Model: arrays of short vectors. Source: bench/bench-optimize.cc, ra/ra.hh:145-175 (opt), 188 (operator+), ra/arrays.hh:169-218 (SmallArray), 141 (operator()), ra/expr.hh:50-60 (assignment operators). *)
From Coq Require Import ZArith List Bool.
From Verif Require Import M_Base M_Expr M_Ply M_Val M_View M_Slice M_Mat M_Cell M_Fill M_Cells M_Vec.
Import ListNotations.
Open Scope Z_scope.

Section Vecs.
Context {T : Type}.
(* fixed, z: kind and thread_local state of the traversal of the arrays; fi, zi: those of the traversal of each vector, as in M_Cells.v. *)
Variables (fixed fi : bool) (z zi : list zt) (f : T -> T -> T).

(* arrays.hh:169-174: the Small<T, n> number p in memory. The memory is in units of T, and vectors are aligned to their size (n is 2, 4 or 8 in the benchmark), so its components are at n*p, n*p+1, ... *)
Definition vec_at (n p : Z) : view := Vw [Dim n 1] (n * p).
(* bench-optimize.cc:62-64: ViewBig<Vec *, 1>, of any rank here. The steps are in units of vectors. operator* gives a reference to one of them. *)
Definition vecs (n : Z) (v : view) : expr view (mem T) := Cell (vdv v) (vrank v) (vec_at n) (vcp v).
(* bench-optimize.cc:42: c = ra::opt(a+b) with Small a, b, c. For n = 2, 4, 8 opt gives a new Small (ra.hh:151-156), which is copied to c by the default operator=, as that is an exact match. Otherwise opt(e) is e (ra.hh:120). *)
Definition vec_opt (xs : list view) : M (mem T) view :=
  match xs with
  | [c; a; b] => match opt_op f (viter a) (viter b) with Some k => r <- k ;; _ <- copy_pointer r (vcp c) ;; ret c | None => cell_op2 fi zi f xs end
  | _ => undef
  end.
(* bench-optimize.cc:47: c = a+b, where a+b is an expression (ra.hh:188 with RA_OPT empty) and operator= is arrays.hh:206 *)
Definition vec_op (opt : bool) : list view -> M (mem T) view := if opt then vec_opt else cell_op2 fi zi f.
(* bench-optimize.cc:39-49: for (int i=0; i<a.len(0); ++i) { c(i) = ... } *)
Fixpoint vec_loop (opt : bool) (n : Z) (c a b : view) (k : nat) (i : Z) : M (mem T) unit :=
  match k with
  | O => ret tt
  | S k' => onres (from a [cidx i]) (fun u => onres (from b [cidx i]) (fun v => onres (from c [cidx i]) (fun w =>
              _ <- vec_op opt [vec_at n (vcp w); vec_at n (vcp u); vec_at n (vcp v)] ;; vec_loop opt n c a b k' (i + 1))))
  end.
Definition add_loop (opt : bool) (n : Z) (c a b : view) : M (mem T) unit := vec_loop opt n c a b (Z.to_nat (len (nth 0 (vdv a) dim0))) 0.
(* bench-optimize.cc:50-52: c = a+b, for the whole arrays. The operation is a single one of three arguments, as in M_Cells.v. With RA_OPT as by default (ra.hh:116-118) the sum of each pair of vectors goes through opt, and so opt is true. *)
Definition add_ply (opt : bool) (n : Z) (c a b : view) : M (mem T) (option unit) := ply fixed no_stop z (Map (vec_op opt) [vecs n c; vecs n a; vecs n b]).
End Vecs.
