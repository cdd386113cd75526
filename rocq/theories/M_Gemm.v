(* Model: the ways to multiply matrices in bench/bench-gemm.cc. *)
From Coq Require Import ZArith List Bool.
From Verif Require Import M_Base M_Expr M_Ply M_Val M_View M_Slice M_Frame M_Mat M_Doc.
Import ListNotations.
Open Scope Z_scope.

Section Gemm.
Context {T : Type}.
Variables (fixed : bool) (z : list zt) (fi : bool) (zi : list zt).
Variables (add mul : T -> T -> T) (zero : T).
Notation unit_ := (M (mem T) (option unit)).

(* for (k=0; k<n; ++k) f(k), from k, for n iterations *)
Fixpoint loop_ (n : nat) (k : Z) (f : Z -> unit_) : unit_ := match n with O => ret None | S n' => _ <- f k ;; loop_ n' (k + 1) f end.
Definition loop (n : Z) (f : Z -> unit_) : unit_ := loop_ (Z.to_nat n) 0 f.
(* a.len(0), a.len(1), arrays.hh:100 *)
Definition len0 (a : view) : Z := len (nth 0 (vdv a) dim0).
Definition len1 (a : view) : Z := len (nth 1 (vdv a) dim0).
(* a reference to an element, arrays.hh:108-115, ply.hh:510-511 *)
Definition elem (a : view) (i j : Z) (f : Z -> unit_) : unit_ := onres (from a [cidx i; cidx j]) (fun r => f (vcp r)).
(* y += x, y = x where y is a reference *)
Definition add_to (p : Z) (x : T) : unit_ := fun m => Ok None (wr p (add (m p) x) m).
Definition set_to (p : Z) (x : T) : unit_ := fun m => Ok None (wr p x m).

(* bench/bench-gemm.cc:28, 36: the operation; ra.hh:372 maybe_fma, the branch without fma *)
Definition fma_op (xs : list (val T)) : M (mem T) (val T) := match xs with [a; b; c] => y <- mul_op mul [a; b] ;; assign_op add [c; y] | _ => undef end.
(* bench/bench-gemm.cc:25-30 *)
Definition gemm1 (a b c : view) : unit_ := each_verb fixed z [[1; 2; 1]; [0; 1; 1]]%nat fma_op [viter a; viter b; viter c].
(* bench/bench-gemm.cc:31-38 *)
Definition gemm2_k (a b c : view) (k : Z) : unit_ :=
  onres (from a [all; cidx k]) (fun ak => onres (from b [cidx k]) (fun bk => each_verb fixed z [[0; 1; 1]]%nat fma_op [viter ak; viter bk; viter c])).
Definition gemm2 (a b c : view) : unit_ := loop (len1 a) (gemm2_k a b c).
(* bench/bench-gemm.cc:39-48; also gemm_k, 222-231. fi, zi: the traversal in dot. *)
Definition gemm3_ij (a b c : view) (i j : Z) : unit_ :=
  onres (from a [cidx i]) (fun ai => onres (from b [all; cidx j]) (fun bj => x <- dot fi zi add mul zero (viter ai) (viter bj) ;; elem c i j (fun p => set_to p x))).
Definition gemm3 (a b c : view) : unit_ := loop (len0 a) (fun i => loop (len1 b) (gemm3_ij a b c i)).
(* bench/bench-gemm.cc:49-56; ply.hh:547-549 from with an operation *)
Definition gemm4_k (a b c : view) (k : Z) : unit_ :=
  onres (from a [all; cidx k]) (fun ak => onres (from b [cidx k]) (fun bk => match from_op (mul_op mul) [viter ak; viter bk] with Some e => assign fixed z add (viter c) e | None => undef end)).
Definition gemm4 (a b c : view) : unit_ := loop (len1 a) (gemm4_k a b c).
(* bench/bench-gemm.cc:57-66 gemm5, and gemm6 with maybe_fma without fma, are gemm of ra.hh:403-412 (M_Mat.v gemm_c). *)

(* bench/bench-gemm.cc:72-96. The bound 64 is a parameter; n bounds the depth. *)
Fixpoint gemm_block (bound : Z) (depth : nat) (a b c : view) : unit_ :=
  match depth with
  | O => undef
  | S d =>
    let m := len0 a in let p := len1 a in let n := len1 b in
    if Z.max m (Z.max p n) <=? bound then gemm_c add mul fixed z (viter a) b c
    else if Z.max p n <=? m then
      _ <- onres (from a [ciota (m / 2) 0 1]) (fun a0 => onres (from c [ciota (m / 2) 0 1]) (fun c0 => gemm_block bound d a0 b c0)) ;;
      onres (from a [ciota (m - m / 2) (m / 2) 1]) (fun a1 => onres (from c [ciota (m - m / 2) (m / 2) 1]) (fun c1 => gemm_block bound d a1 b c1))
    else if Z.max m p <=? n then
      _ <- onres (from b [all; ciota (n / 2) 0 1]) (fun b0 => onres (from c [all; ciota (n / 2) 0 1]) (fun c0 => gemm_block bound d a b0 c0)) ;;
      onres (from b [all; ciota (n - n / 2) (n / 2) 1]) (fun b1 => onres (from c [all; ciota (n - n / 2) (n / 2) 1]) (fun c1 => gemm_block bound d a b1 c1))
    else
      _ <- onres (from a [all; ciota (p / 2) 0 1]) (fun a0 => onres (from b [ciota (p / 2) 0 1]) (fun b0 => gemm_block bound d a0 b0 c)) ;;
      onres (from a [all; ciota (p - p / 2) (p / 2) 1]) (fun a1 => onres (from b [ciota (p - p / 2) (p / 2) 1]) (fun b1 => gemm_block bound d a1 b1 c))
  end.

(* bench/bench-gemm.cc:98-115, 117-134. data() is vcp. *)
Definition raw_step (a b c : view) (i j k : Z) : unit_ := fun m => add_to (vcp c + (i * len1 b + j)) (mul (m (vcp a + (i * len1 a + k))) (m (vcp b + (k * len1 b + j)))) m.
Definition gemm_k_raw (a b c : view) : unit_ := loop (len1 a) (fun k => loop (len0 a) (fun i => loop (len1 b) (fun j => raw_step a b c i j k))).
Definition gemm_ij_raw (a b c : view) : unit_ := loop (len0 a) (fun i => loop (len1 b) (fun j => loop (len1 a) (fun k => raw_step a b c i j k))).
End Gemm.
