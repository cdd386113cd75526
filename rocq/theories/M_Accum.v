(* Model: the ways to add up the products of the elements of two arrays in bench/bench-dot.cc, and the squares of their differences in bench/bench-reduce-sqrm.cc. *)
From Coq Require Import ZArith List.
From Verif Require Import M_Base M_Expr M_Ply M_Val M_View M_Slice M_Frame M_Mat M_Cells M_Elem.
Import ListNotations.
Open Scope Z_scope.

Section Accum.
Context {T : Type}.
Variables (fixed : bool) (z : list zt).
Variables (add mul : T -> T -> T).
Notation ex := (expr (val T) (mem T)).
Notation num := (M (mem T) T).

(* bench/bench-dot.cc:76 [&y](real const a, real const b) { y += a*b; }. The local y is beside the memory (M_Val.v for_each_c), and mul is for * or for sqrm (bench-reduce-sqrm.cc:79). *)
Definition add_product : list (val T) -> M (mem T * T) (val T) := op2 (fun u v => x <- rdl u ;; y <- rdl v ;; update (fun c => add c (mul x y))).
(* bench/bench-dot.cc:81 [&y](real const a) { y += a; } *)
Definition add_one : list (val T) -> M (mem T * T) (val T) := op1 (fun u => x <- rdl u ;; update (fun c => add c x)).
(* bench/bench-dot.cc:75-77 by_1l. fixed and z are for ply_ravel or ply_fixed. bench-reduce-sqrm.cc:75-81 traversal *)
Definition by_1l (a b : ex) (y : T) : num := for_each_c fixed z add_product [a; b] y.
(* bench/bench-dot.cc:80-83 by_2l, bench-reduce-sqrm.cc:83-92 traversal2 *)
Definition by_2l (a b : ex) (y : T) : num := for_each_c fixed z add_one [bin mul a b] y.
(* as for_each_c, with a Verb (expr.hh:665-683) *)
Definition for_each_verb (cs : list (list nat)) (op : list (val T) -> M (mem T * T) (val T)) (t : list ex) (c : T) : num :=
  match map_verb cs op (map lift t) with
  | Some e => fun w => match ply fixed no_stop z e (w, c) with Ok _ s => Ok (snd s) (fst s) | Fail s => Fail (fst s) | Undef => Undef end
  | None => undef
  end.
(* bench/bench-dot.cc:86-88 by_1w *)
Definition by_1w (a b : ex) (y : T) : num := for_each_verb [[0; 0]]%nat add_product [a; b] y.
(* bench/bench-dot.cc:91-94 by_2w *)
Definition by_2w (a b : ex) (y : T) : num :=
  match map_verb [[0; 0]]%nat (op2 (fun u v => x <- rd u ;; y <- rd v ;; ret (VT (mul x y)))) [a; b] with
  | Some e => for_each_verb [[0]]%nat add_one [e] y
  | None => undef
  end.
(* bench/bench-dot.cc:166-169 f_small_op, with y += of bench-dot.cc:120, and without RA_OPT (C37) *)
Definition by_op (zero : T) (a b : ex) (y : T) : num := x <- sum fixed z add zero (bin mul a b) ;; ret (add y x).
(* y += dot(a, b), ra.hh:379-384; in bench-dot.cc the loops above are written out *)
Definition by_dot (zero : T) (a b : ex) (y : T) : num := x <- dot fixed z add mul zero a b ;; ret (add y x).
(* bench/bench-reduce-sqrm.cc:56 y += reduce_sqrm(A-B) *)
Definition by_sqrm (sqrm : T -> T) (sub : T -> T -> T) (zero : T) (a b : ex) (y : T) : num := x <- reduce_sqrm fixed z add sqrm zero (bin sub a b) ;; ret (add y x).

(* for (int j=0; j<n; ++j) with a body that changes y *)
Fixpoint count_ (n : nat) (k : Z) (f : Z -> T -> num) (y : T) : num := match n with O => ret y | S n' => y' <- f k y ;; count_ n' (k + 1) f y' end.
Definition count (n : Z) (f : Z -> T -> num) (y : T) : num := count_ (Z.to_nat n) 0 f y.
(* The loops in bench/bench-dot.cc:31-55 and 125-153, one for each axis, in order. The benchmark has 1, 2 or 3 of them. ix: the counters of the outer loops. *)
Fixpoint nested (ls : list Z) (ix : list Z) (f : list Z -> T -> num) (y : T) : num :=
  match ls with [] => f ix y | n :: ls' => count n (fun j => nested ls' (ix ++ [j]) f) y end.
(* bench/bench-dot.cc:148 y += A(i, j, k)*B(i, j, k) *)
Definition add_at (a b : view) (ix : list Z) (y : T) : num :=
  onres (from a (map cidx ix)) (fun u => onres (from b (map cidx ix)) (fun v m => Ok (add y (mul (m (vcp u)) (m (vcp v)))) m)).
(* bench/bench-dot.cc:125-153 f_small_indexed_1, f_small_indexed_2, f_small_indexed_3. by_raw (31-55) has S1, S2, S3, that are the lengths, in place of A.len. *)
Definition by_index (a b : view) (y : T) : num := nested (map len (vdv a)) [] (add_at a b) y.
(* bench/bench-dot.cc:155-164 f_small_indexed_raw, bench-reduce-sqrm.cc:66-72 *)
Definition by_raw (a b : view) (y : T) : num := count (dimv_size (vdv a)) (fun j y m => Ok (add y (mul (m (vcp a + j)) (m (vcp b + j)))) m) y.
End Accum.
