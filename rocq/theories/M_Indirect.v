(* Model: the programs in examples/indirect.cc. *)
From Coq Require Import ZArith List Bool.
From Verif Require Import M_Base M_Expr M_Ply M_Val M_View M_Slice M_Frame M_Mat M_Cells M_Access M_Elem.
Import ListNotations.
Open Scope Z_scope.

Section Indirect.
Context {T : Type}.
Variables (fixed : bool) (z : list zt).
Notation ex := (expr (val T) (mem T)).
Notation run_ := (M (mem T) (option unit)).

(* examples/indirect.cc:43 at(A, I) = at(B, I). ix is as in M_Access.v. 36-37 is the same expression, since at(A, I) is map() of at(A, .) (ra.hh:231). *)
Definition at_copy (a b : view) (ix : val T -> list Z) (i : ex) : run_ := assign fixed z (fun _ x => x) (at_each a ix i) (at_each b ix i).
(* examples/indirect.cc:40 at(A, c) = at(B, c), with a reference on the left *)
Definition copy_one (a b : view) (ix : val T -> list Z) : list (val T) -> M (mem T) (val T) :=
  op1 (fun c => match indexer (vdv a) (vcp a) (ix c), indexer (vdv b) (vcp b) (ix c) with Some p, Some q => fun m => Ok VUnit (wr p (m q) m) | _, _ => fail end).
Definition at_loop (a b : view) (ix : val T -> list Z) (i : ex) : run_ := ply fixed no_stop z (Map (copy_one a b ix) [i]).

(* examples/indirect.cc:69 A(I, J) = B(I, J), 100 A(I) = B(I), and with any other subscripts among the arrays *)
Definition from_copy (st : bool) (a b : view) (subs : list sub) (es : list ex) : run_ :=
  onres (from_u st a subs es) (fun d => onres (from_u st b subs es) (fun e => assign fixed z (fun _ x => x) d e)).

(* examples/indirect.cc:139-140, the loop in for_each, with circle as a list of i, j0, j1. 135-136 is for the same assignments. *)
Definition strip : Type := Z * Z * Z.
Definition copy_strip (a b : view) (t : strip) : run_ :=
  let '(i, j0, j1) := t in let subs := [cidx i; ciota (j1 - j0 + 1) j0 1] in
  onres (from a subs) (fun d => onres (from b subs) (fun e => assign fixed z (fun _ x => x) (viter d) (viter e))).
Fixpoint copy_strips (a b : view) (l : list strip) : run_ := match l with [] => ret None | t :: l' => _ <- copy_strip a b t ;; copy_strips a b l' end.
(* examples/indirect.cc:145 A = where(pred, B, A). pred is on the indices _0 and _1, and it's one operation instead of several. *)
Definition on_index (p : Z -> Z -> bool) : ex := Map (op2 (fun u v => match u, v with VI i, VI j => ret (VB (p i j)) | _, _ => undef end)) [tindex 0; tindex 1].
Definition copy_where (p : Z -> Z -> bool) (tob : T -> bool) (a b : view) : run_ := assign fixed z (fun _ x => x) (viter a) (where_ tob (on_index p) (viter b) (viter a)).

(* examples/indirect.cc:192 b + a(iota()), which goes to c here instead of to a stream. iota() is ply.hh:320. *)
Definition add_first (st : bool) (add : T -> T -> T) (c b a : view) : run_ :=
  onres (from_u st a [SArr] [Cell [Dim UNB 1] 1 VI 0]) (fun e => assign fixed z (fun _ x => x) (viter c) (bin add (viter b) e)).
End Indirect.

(* examples/indirect.cc:117-131, with exact numbers. The centre is (N-1)/2 and the square of the radius is (0.8*N/2)^2 = 16*N*N/100. 124: the difference is multiplied by 100. 128-130: int() goes towards 0. *)
Definition strip_at (n i : Z) : list strip :=
  let d := 16 * n * n - 25 * ((2 * i - (n - 1)) * (2 * i - (n - 1))) in
  if d <? 0 then [] else let jd := Z.sqrt (d / 100) in [(i, Z.quot (n - 1 - 2 * jd) 2, Z.quot (n - 1 + 2 * jd) 2)].
Definition circle (n : Z) : list strip := flat_map (strip_at n) (map Z.of_nat (seq 0 (Z.to_nat n))).
(* examples/indirect.cc:145 sqr(_0-centre_i)+sqr(_1-centre_j)<sqr(radius), multiplied by 100 *)
Definition in_circle (n i j : Z) : bool := 25 * ((2 * i - (n - 1)) * (2 * i - (n - 1)) + (2 * j - (n - 1)) * (2 * j - (n - 1))) <? 16 * n * n.
