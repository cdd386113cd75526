(* Model: the ways to multiply a matrix and a vector in bench/bench-gemv.cc, and to add the rows or the columns of a matrix in bench/bench-sum-rows.cc and bench/bench-sum-cols.cc. *)
From Coq Require Import ZArith List Bool.
From Verif Require Import M_Base M_Expr M_Ply M_Val M_View M_Slice M_Frame M_Mat M_Cell M_Doc M_Stencil M_Cells M_Gemm.
Import ListNotations.
Open Scope Z_scope.

Section Sums.
Context {T : Type}.
Variables (fixed : bool) (z : list zt) (fi : bool) (zi : list zt).
Variables (add mul : T -> T -> T) (zero : T).
Notation unit_ := (M (mem T) (option unit)).

(* a.step(0), a.step(1), arrays.hh:101 *)
Definition step0 (a : view) : Z := step (nth 0 (vdv a) dim0).
Definition step1 (a : view) : Z := step (nth 1 (vdv a) dim0).
(* c(i), c[i]: a reference, arrays.hh:108-115, ply.hh:510-511 *)
Definition elem1 {A} (c : view) (i : Z) (f : Z -> M (mem T) A) : M (mem T) A := onres (from c [cidx i]) (fun r => f (vcp r)).
(* b(i), b[i] as a number *)
Definition num1 (b : view) (i : Z) : M (mem T) T := elem1 b i (fun p m => Ok (m p) m).
(* Big<T, 1> c({n}, none), arrays.hh:371-401: the elements are whatever was there. The new array is at q, as in M_Mat.v new_array. *)
Definition new_none (q : Z) (s : list Z) (k : view -> unit_) : M (mem T) (option view) :=
  fun m => match filldimv s with
           | Some (dv, _) => match k (Vw dv q) m with Ok _ m' => Ok (Some (Vw dv q)) m' | Fail m' => Fail m' | Undef => Undef end
           | None => Fail m
           end.

(* bench/bench-gemv.cc:33-43. The operands of += and * have no effects. *)
Definition gemv_0_ij (a b c : view) (i j : Z) : unit_ :=
  elem1 c i (fun p => y <- num1 b j ;; fun m => add_to add p (mul (m (vcp a + (j * step1 a + step0 a * i))) y) m).
Definition gemv_0 (q : Z) (a b : view) : M (mem T) (option view) := new_array q [len0 a] zero (fun c => loop (len0 a) (fun i => loop (len1 a) (gemv_0_ij a b c i))).
(* bench/bench-gemv.cc:45-52 *)
Definition gemv_i_ (a b c : view) (i : Z) : unit_ := onres (from a [cidx i]) (fun ai => x <- dot fi zi add mul zero (viter ai) (viter b) ;; elem1 c i (fun p => set_to p x)).
Definition gemv_i (q : Z) (a b : view) : M (mem T) (option view) := new_none q [len0 a] (fun c => loop (len0 a) (gemv_i_ a b c)).
(* bench/bench-gemv.cc:54-62. b(j) is a scalar in the expression, by reference (expr.hh:104-120). *)
Definition gemv_j_ (a b c : view) (j : Z) : unit_ :=
  onres (from a [all; cidx j]) (fun aj => elem1 b j (fun p => assign fixed z add (viter c) (times mul (viter aj) (Scalar (VRef p))))).
Definition gemv_j (q : Z) (a b : view) : M (mem T) (option view) := new_array q [len0 a] zero (fun c => loop (len1 a) (gemv_j_ a b c)).
(* bench/bench-gemv.cc:64-71 *)
Definition gevm_j_ (b a c : view) (j : Z) : unit_ := onres (from a [all; cidx j]) (fun aj => x <- dot fi zi add mul zero (viter b) (viter aj) ;; elem1 c j (fun p => set_to p x)).
Definition gevm_j (q : Z) (b a : view) : M (mem T) (option view) := new_none q [len1 a] (fun c => loop (len1 a) (gevm_j_ b a c)).
(* bench/bench-gemv.cc:73-81 *)
Definition gevm_i_ (b a c : view) (i : Z) : unit_ :=
  onres (from a [cidx i]) (fun ai => elem1 b i (fun p => assign fixed z add (viter c) (times mul (Scalar (VRef p)) (viter ai)))).
Definition gevm_i (q : Z) (b a : view) : M (mem T) (option view) := new_array q [len1 a] zero (fun c => loop (len0 a) (gevm_i_ b a c)).

(* bench/bench-sum-rows.cc:40-51 "raw". data() is vcp. *)
Definition rows_raw (c a : view) : unit_ := loop (len0 a) (fun i => loop (len1 a) (fun j m => add_to add (vcp c + j) (m (vcp a + (i * len1 a + j))) m)).
(* bench/bench-sum-rows.cc:52-57 "sideways" *)
Definition rows_side (c a : view) : unit_ :=
  loop (len1 a) (fun j => onres (from a [all; cidx j]) (fun aj => x <- sum fi zi add zero (viter aj) ;; elem1 c j (fun p => add_to add p x))).
(* bench/bench-sum-rows.cc:58-61 "rows" *)
Definition rows_each (c a : view) : unit_ :=
  match icell a 1 with Good e => ply fixed no_stop z (Map (fun xs => match xs with [r] => M_Cells.cell_op fi zi add [c; r] | _ => undef end) [e]) | _ => fail end.
(* bench/bench-sum-rows.cc:62-65 "wrank1" is verb_rows (M_Doc.v); 70-73 "scalar" is scalar_cells (M_Total.v), and 74-77 "iter" is cell_rows (M_Doc.v). 66-69 "wrank2": *)
Definition rows_verb2 (c a : view) : unit_ := each_verb fixed z [[1; 1]; [0; 0]]%nat (assign_op add) [viter c; viter a].
(* bench/bench-sum-rows.cc:78-81 "transp"; arrays.hh:431-462 *)
Definition rows_transp (c a : view) : unit_ := onres (transpose10 a) (fun b => assign fixed z add (viter c) (viter b)).

(* bench/bench-sum-cols.cc:36-47 "raw" *)
Definition cols_raw (c a : view) : unit_ := loop (len0 a) (fun i => loop (len1 a) (fun j m => add_to add (vcp c + i) (m (vcp a + (i * len1 a + j))) m)).
(* bench/bench-sum-cols.cc:48-53 "sideways" *)
Definition cols_side (c a : view) : unit_ := loop (len1 a) (fun j => onres (from a [all; cidx j]) (fun aj => assign fixed z add (viter c) (viter aj))).
(* bench/bench-sum-cols.cc:54-57 "accumcols" *)
Definition cols_accum (c a : view) : unit_ :=
  ply fixed no_stop z (Map (fun xs => match xs with [inr y; inl r] => x <- sum fi zi add zero (viter r) ;; u <- assign_op add [y; VT x] ;; ret (inr u) | _ => undef end) [vals (viter c); itern 1 a]).
(* bench/bench-sum-cols.cc:58-61 "wrank1" *)
Definition cols_verb (c a : view) : unit_ := each_verb fixed z [[0; 0]]%nat (assign_op add) [viter c; viter a].
(* bench/bench-sum-cols.cc:62-65 "framematch" *)
Definition cols_match (c a : view) : unit_ := assign fixed z add (viter c) (viter a).
End Sums.
