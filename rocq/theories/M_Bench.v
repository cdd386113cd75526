(* Model: sums of elements at a list of indices in bench/bench-at.cc, and indices as arguments in bench/bench-tensorindex.cc. *)
From Coq Require Import ZArith List Bool.
From Verif Require Import M_Base M_Expr M_Ply M_Val M_View M_Slice M_Frame M_Mat M_Access.
Import ListNotations.
Open Scope Z_scope.

Section At.
Context {T : Type}.
Variables (fixed : bool) (z : list zt) (add : T -> T -> T) (zero : T).

(* The rows of I. They aren't in the memory of C, as they are of integers. In the benchmark they have 4 entries, although C has 2 axes; only the first 2 are set. *)
Definition row_at (rows : list (list Z)) (i : Z) : list Z := nth (Z.to_nat i) rows [].
(* bench/bench-at.cc:43-47, 51-55, 96-99: int val = 0; for (int i=0; i<O; ++i) { val += f(i); } *)
Fixpoint sum_loop (n : nat) (i : Z) (f : Z -> M (mem T) T) (val : T) : M (mem T) T := match n with O => ret val | S n' => x <- f i ;; sum_loop n' (i + 1) f (add val x) end.
(* bench/bench-at.cc:45: C(dim_t(I(i, 0)), dim_t(I(i, 1))), here with as many as there are axes in C *)
Definition by_subscript (c : view) (rows : list (list Z)) : M (mem T) T :=
  sum_loop (length rows) 0 (fun i => onres (from c (map (fun k => cidx (nth k (row_at rows i) 0)) (seq 0 (vrank c)))) (fun v m => Ok (m (vcp v)) m)) zero.
(* bench/bench-at.cc:53, 98: at(C, I(i)), by ra.hh:236 and expr.hh:301 *)
Definition by_at (c : view) (rows : list (list Z)) : M (mem T) T :=
  sum_loop (length rows) 0 (fun i => match indexer (vdv c) (vcp c) (row_at rows i) with Some p => fun m => Ok (m p) m | None => fail end) zero.
(* bench/bench-at.cc:59, 104: sum(at(C, iter<1>(I))) *)
Definition row_of (rows : list (list Z)) (v : val T) : list Z := match v with VI i => row_at rows i | _ => [] end.
Definition by_at_op (c : view) (rows : list (list Z)) : M (mem T) T :=
  sum fixed z add zero (at_each c (row_of rows) (Cell [Dim (Z.of_nat (length rows)) 1] 1 VI 0)).
End At.

(* bench/bench-tensorindex.cc:36-41, 42-47: int c = 0; ply(map([&c](auto && i, auto && j) { c += 2*i-j; }, a+tindex<0>, a+tindex<1>)). a is of int and tindex of dim_t (64 bits), so the sums are of dim_t; they don't
   overflow if the lengths are less than 2^60. The result goes to c modulo 2^32. *)
Definition to_int (x : Z) : Z := (x + 2 ^ 31) mod 2 ^ 32 - 2 ^ 31.
Definition plus_index (a : view) (k : nat) : expr (val Z) (mem Z) := Map (op2 (fun u v => x <- rd u ;; match v with VI i => ret (VT (x + i)) | _ => undef end)) [viter a; tindex k].
Definition add_indices (fixed : bool) (z : list zt) (a : view) : M (mem Z) Z :=
  for_each_c fixed z (op2 (fun u v => x <- rdl u ;; y <- rdl v ;; update (fun c => to_int (c + (2 * x - y))))) [plus_index a 0; plus_index a 1] 0.
