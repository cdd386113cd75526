(* Model: examples/newton.cc, orbits. *)
From Coq Require Import ZArith List.
From Verif Require Import M_Base M_Expr M_Ply M_Val M_View M_Slice M_Frame M_Mat M_Opt M_Access M_Stencil.
Import ListNotations.
Open Scope Z_scope.

Section Newton.
Context {T : Type}.
(* fixed, z: the traversal in the assignments. fi, zi: the one in the function force. *)
Variables (fixed : bool) (z : list zt) (fi : bool) (zi : list zt).
(* pw: pow(., 3/2.). zero: 0. *)
Variables (add sub mul div : T -> T -> T) (zero : T) (pw : T -> T) (G delta : T).
(* Arrays are views on one memory here. tD and tR are the temporaries deltax and the one that force returns; each call of force has its own pair in the program, but a pair isn't used after the next call. *)
Variables (ms x v a F tD tR : view).

(* m(i), ply.hh:503-511 *)
Definition mass_at (i : Z) : M (mem T) T := onres (from ms [cidx i]) (fun b => rd (VRef (vcp b))).
(* examples/newton.cc:32-39 force. The array returned is filled with 0. (35) or with the product (38), arrays.hh:201-202 *)
Definition force (i j : Z) : M (mem T) view :=
  if i =? j then _ <- assign fi zi put (viter tR) (Scalar (VT zero)) ;; ret tR
  else onres (from x [cidx j]) (fun xj => onres (from x [cidx i]) (fun xi =>
    _ <- assign fi zi put (viter tD) (times sub (viter xj) (viter xi)) ;;
    mi <- mass_at i ;; mj <- mass_at j ;;
    s <- sum fi zi add zero (times mul (viter tD) (viter tD)) ;;
    _ <- assign fi zi put (viter tR) (times mul (viter tD) (Scalar (VT (div (mul (mul G mi) mj) (pw s))))) ;;
    ret tR)).
Definition force_op (xs : list (item (T:=T))) : M (mem T) (item (T:=T)) := match xs with [inr (VI i); inr (VI j)] => r <- force i j ;; ret (inl r) | _ => undef end.
(* ra::iota(bodies) *)
Definition bodies (n : Z) : expr (item (T:=T)) (mem T) := Cell [Dim n 1] 1 (fun i => inr (VI i)) 0.
(* expr.hh:50-60: = with cells *)
Definition cell_put (xs : list (item (T:=T))) : M (mem T) (item (T:=T)) := match xs with [inl c; inl u] => _ <- assign fi zi put (viter c) (viter u) ;; ret (inl c) | _ => undef end.
(* examples/newton.cc:57 *)
Definition forces (n : Z) : M (mem T) (option unit) :=
  match from_op force_op [bodies n; bodies n] with Some e => ply fixed no_stop z (Map cell_put [itern 1 F; e]) | None => undef end.
(* examples/newton.cc:59-62, the body of the loop but for draw() *)
Definition step_ (n : Z) : M (mem T) (option unit) :=
  _ <- forces n ;;
  _ <- assign fixed z put (viter a) (Scalar (VT zero)) ;;
  onres (transpose F [0; 2; 1]) (fun Ft =>
    _ <- assign fixed z add (viter a) (times div (viter Ft) (viter ms)) ;;
    _ <- assign fixed z add (viter v) (times mul (viter a) (Scalar (VT delta))) ;;
    assign fixed z add (viter x) (times mul (viter v) (Scalar (VT delta)))).
(* examples/newton.cc:55, k times *)
Fixpoint steps_ (n : Z) (k : nat) : M (mem T) (option unit) := match k with O => ret None | S k' => _ <- step_ n ;; steps_ n k' end.
End Newton.

Section Draw.
Context {T C : Type}.
Variables (fixed : bool) (z : list zt).
(* rnd: int(round(25+x/5e5)) *)
Variable rnd : T -> Z.
(* examples/newton.cc:43 mapc; std::clamp(v, 0, 49) *)
Definition mapc (t : T) : Z := if rnd t <? 0 then 0 else if 49 <? rnd t then 49 else rnd t.
(* examples/newton.cc:45-46: the indices are rows of xi(ra::all, ra::iota(2)), with w = 2; 48: rows of map(mapc, x), with w = 3. m is the memory of x; orbit and c, that are arrays of char, have another. The rows are by their number here. *)
Definition pixel (m : mem T) (x : view) (w : nat) (u : val C) : list Z :=
  match u with VI i => map (fun k => match indexer (vdv x) (vcp x) [i; Z.of_nat k] with Some p => mapc (m p) | None => 0 end) (seq 0 w) | _ => [] end.
Definition draw (m : mem T) (x : view) (w : nat) (n : Z) (orbit c : view) : M (mem C) (option unit) :=
  assign fixed z put (at_each orbit (pixel m x w) (Cell [Dim n 1] 1 VI 0)) (viter c).
End Draw.
