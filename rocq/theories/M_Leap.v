(* Model: the benchmarks of stencils bench/bench-stencil1.cc, bench-stencil2.cc and bench-stencil3.cc, where two arrays change places after each step; for any rank. The single steps without loops are in M_Stencil.v. *)
From Coq Require Import ZArith List.
From Verif Require Import M_Base M_Expr M_Ply M_Val M_View M_Slice M_Frame M_Mat M_Opt M_Doc M_Stencil M_Gemm M_Select.
Import ListNotations.
Open Scope Z_scope.

Section Leap.
Context {T : Type}.
(* fixed, z: the traversal in the assignments. fi, zi: the one in sum(). *)
Variables (fixed : bool) (z : list zt) (fi : bool) (zi : list zt) (add mul : T -> T -> T) (zero c : T).
(* +1 or -1 on an axis, nothing on the others *)
Definition offset_on (d k : nat) (x : Z) : list Z := repeat 0 k ++ x :: repeat 0 (d - k - 1).
(* bench/bench-stencil1.cc:34, 45, 56; bench-stencil2.cc:39-41, 53-55, 66-68; bench-stencil3.cc:44-46, 59-61, 72-74. c is -2, -4 or -6. *)
Definition leap_term (d : nat) : term T :=
  fold_left (fun t o => TOp add t (TWin o)) (map (fun k => offset_on d k 1) (seq 0 d) ++ map (fun k => offset_on d k (-1)) (seq 0 d)) (TOp mul (TNum c) (TWin (repeat 0 d))).
Definition margin (v : view) : list Z := repeat 1 (vrank v).

(* bench/bench-stencil1.cc:33-35, bench-stencil2.cc:37-43, bench-stencil3.cc:41-49, but for the swap: for (int i=1; i+1<nx; ++i), one for each axis. nx ... are the lengths of A. The term on the elements of A is that
   of a cell (M_Stencil.v) whose place 0 is i. *)
Definition raw (w v : view) (t : term T) : M (mem T) (option unit) :=
  loops (map (fun d => len d - 2) (vdv v)) [] (fun j => let i := map (fun x => 1 + x) j in
    x <- cell_term i t v ;; onres (from w (map cidx i)) (fun b m => Ok None (wr (vcp b) x m))).
(* Astencil.cp = A.data(), bench/bench-stencil2.cc:65. st is Astencil. *)
Definition stencil_on (st v : view) : view := Vw (vdv st) (vcp v).
(* bench/bench-stencil1.cc:55-57, bench-stencil2.cc:65-69, bench-stencil3.cc:71-75 *)
Definition explicit_on (st w v : view) (t : term T) : M (mem T) (option unit) :=
  onres (grid (map len (vdv v)) (margin v) (margin v)) (fun qs => onres (window w qs) (fun w0 => assign_map fixed z (cell_term (margin v) t) w0 (stencil_on st v) (vrank v))).
(* bench/bench-stencil1.cc:67-68, bench-stencil2.cc:79-80, bench-stencil3.cc:85-86 *)
Definition arrayop_on (st w v mask : view) : M (mem T) (option unit) :=
  onres (grid (map len (vdv v)) (margin v) (margin v)) (fun qs => onres (window w qs) (fun w0 =>
    assign_map fixed z (fun x => sum fi zi add zero (times mul (viter x) (viter mask))) w0 (stencil_on st v) (vrank v))).
(* bench/bench-stencil1.cc:78-80, bench-stencil2.cc:90-92, bench-stencil3.cc:96-98 *)
Definition sumprod_on (st w v mask : view) : M (mem T) (option unit) :=
  onres (grid (map len (vdv v)) (margin v) (margin v)) (fun qs => onres (window w qs) (fun w0 =>
    _ <- assign fixed z put (viter w0) (Scalar (VT zero)) ;;
    match map_verb [[vrank v; vrank v]] (mul_op mul) [viter (stencil_on st v); viter mask] with Some e => assign fixed z add (viter w0) e | None => undef end)).
(* bench/bench-stencil1.cc:90-92, bench-stencil2.cc:102-104, bench-stencil3.cc:108-110 *)
Definition sumprod2_on (st w v mask : view) : M (mem T) (option unit) :=
  onres (grid (map len (vdv v)) (margin v) (margin v)) (fun qs => onres (window w qs) (fun w0 =>
    _ <- assign fixed z put (viter w0) (Scalar (VT zero)) ;;
    each_verb fixed z [[0%nat; vrank v; vrank v]] (mac_op add mul) [viter w0; viter (stencil_on st v); viter mask])).

(* the operations of the benchmarks *)
Inductive way := Raw | Slices | Explicit | Arrayop | Sumprod | Sumprod2.
Definition leap_step (o : way) (st mask w v : view) : M (mem T) (option unit) :=
  match o with
  | Raw => raw w v (leap_term (vrank v))
  | Slices => slices fixed z w v (margin v) (margin v) (leap_term (vrank v))
  | Explicit => explicit_on st w v (leap_term (vrank v))
  | Arrayop => arrayop_on st w v mask
  | Sumprod => sumprod_on st w v mask
  | Sumprod2 => sumprod2_on st w v mask
  end.
(* repeat([&]() { f(A, Anext, Astencil); }), where f ends with std::swap(A.cp, Anext.cp). The result is A and Anext. *)
Fixpoint leap (k : nat) (o : way) (st mask a an : view) : M (mem T) (view * view) :=
  match k with
  | O => ret (a, an)
  | S k' => _ <- leap_step o st mask an a ;; leap k' o st mask (Vw (vdv a) (vcp an)) (Vw (vdv an) (vcp a))
  end.
(* bench/bench-stencil1.cc:107-109, bench-stencil2.cc:119-121, bench-stencil3.cc:125-127: one run *)
Definition leap_bench (k : nat) (o : way) (st mask a an : view) (value : T) : M (mem T) (view * view) :=
  _ <- assign fixed z put (viter an) (Scalar (VT zero)) ;;
  _ <- assign fixed z put (viter a) (Scalar (VT value)) ;;
  leap k o st mask a an.
End Leap.
