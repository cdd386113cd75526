(* Model: bench/bench-sb.cc, where the indices are in memory, maybe in the array that they are the indices of. Source: bench/bench-sb.cc:59-96, ra/ra.hh:228-238 (at), ra/expr.hh:164-181 (indexer), 298-302 (Cell::at), ra/arrays.hh:141 (operator()). *)
From Coq Require Import ZArith List Bool.
From Verif Require Import M_Base M_Expr M_Ply M_Val M_View M_Slice M_Frame M_Mat M_Stencil M_Bench.
Import ListNotations.
Open Scope Z_scope.

Section Sb.
(* add: += of int, which may wrap around or not *)
Variables (fixed : bool) (z : list zt) (add : Z -> Z -> Z).
Notation ex := (expr (val Z) (mem Z)).

(* expr.hh:175-179: what indexer reads, from a row at p, of length w and step st. indexer only reads as many as there are axes, but the others make no difference. *)
Definition row_from (p w st : Z) (m : mem Z) : list Z := map (fun k => m (p + Z.of_nat k * st)) (seq 0 (Z.to_nat w)).
Definition read_at (c : view) (p w st : Z) : M (mem Z) (val Z) := fun m => match indexer (vdv c) (vcp c) (row_from p w st m) with Some q => Ok (VRef q) m | None => Fail m end.
Definition axis (v : view) (k : nat) : dim := nth k (vdv v) dim0.

(* bench-sb.cc:75-81: val += C(dim_t(I(i, 0)), dim_t(I(i, 1))) *)
Definition sb_subscript (c ix : view) : M (mem Z) Z :=
  sum_loop add (Z.to_nat (len (axis ix 0))) 0 (fun i => onres (from ix [cidx i; cidx 0]) (fun a => onres (from ix [cidx i; cidx 1]) (fun b m => onres (from c [cidx (m (vcp a)); cidx (m (vcp b))]) (fun v m => Ok (m (vcp v)) m) m))) 0.
(* bench-sb.cc:83-89: val += at(C, I(i)) *)
Definition sb_at (c ix : view) : M (mem Z) Z :=
  sum_loop add (Z.to_nat (len (axis ix 0))) 0 (fun i => onres (from ix [cidx i]) (fun r => v <- read_at c (vcp r) (len (axis r 0)) (step (axis r 0)) ;; rd v)) 0.
(* bench-sb.cc:68, 91-93: sum(at(C, iter<1>(I))). The cells are given by their position. *)
Definition sb_at_op (c ix : view) : M (mem Z) Z :=
  sum fixed z add 0 (Map (op1 (fun v => match v with VI p => read_at c p (len (axis ix 1)) (step (axis ix 1)) | _ => undef end)) [Cell (vdv ix) 1 VI (vcp ix)]).
(* bench-sb.cc:64: C = 4*ra::_0 + ra::_1 *)
Definition sb_fill (c : view) : M (mem Z) (option unit) :=
  assign fixed z put (viter c) (Map (op2 (fun u v => match u, v with VI i, VI j => ret (VT (4 * i + j)) | _, _ => undef end)) [tindex 0; tindex 1]).
(* bench-sb.cc:65-66: I(ra::all, k) = map([&](auto && i){ return i%n; }, ra::_0 + r), where r is std::rand() & 1 *)
Definition sb_index (ix : view) (k n r : Z) : M (mem Z) (option unit) :=
  onres (from ix [all; cidx k]) (fun v => assign fixed z put (viter v) (Map (op1 (fun u => match u with VI i => if n =? 0 then undef else ret (VT (Z.rem (i + r) n)) | _ => undef end)) [tindex 0])).
(* bench-sb.cc:59-96: ref0 and val0 for each of the three. The repetitions by bm.run don't change anything. *)
Definition sb_test (c ix : view) (r0 r1 : Z) : M (mem Z) (list Z) :=
  _ <- sb_fill c ;; _ <- sb_index ix 0 (len (axis c 0)) r0 ;; _ <- sb_index ix 1 (len (axis c 1)) r1 ;;
  ref <- sb_at_op c ix ;; v1 <- sb_subscript c ix ;; v2 <- sb_at c ix ;; v3 <- sb_at_op c ix ;; ret [ref; v1; v2; v3].
End Sb.
