(* Model: differences and rotations along an axis with slices, as in examples/maxwell.cc:42-87, for any rank. *)
From Coq Require Import ZArith List Lia Bool.
From Verif Require Import M_Base M_Expr M_Ply M_Val M_View M_Slice M_Mat M_Stencil.
Import ListNotations.
Open Scope Z_scope.

(* len-n, base.hh:278, ply.hh:262-267 *)
Definition back (n : Z) : lx := LMap (fun x => nth 0 x 0 - nth 1 x 0) [LLen; LScalar n].
(* iota(n, o), ply.hh:320-321 *)
Definition run (n o : lx) : sub := SSeq (lval o) (lval n) (lval (LScalar 1)).
(* A(dots<k>, s, ...), ply.hh:314-318. In examples/maxwell.cc:46-58 it's all (H) k times. *)
Definition along (k : nat) (s : sub) (r : list sub) : list sub := SDots (Some k) :: s :: r.

Section Roll.
Context {T : Type}.
Variables (fixed : bool) (z : list zt).

(* X(subs) f= A(subs) *)
Definition slice_assign (f : T -> T -> T) (x : view) (xs : list sub) (a : view) (as_ : list sub) : M (mem T) (option unit) :=
  onres (from x xs) (fun x1 => onres (from a as_) (fun a1 => assign fixed z f (viter x1) (viter a1))).
(* examples/maxwell.cc:46-47, 48-49, 50-51 (axes 0, 1, 2). a stands for A(t). *)
Definition roll_up (f : T -> T -> T) (k : nat) (x a : view) : M (mem T) (option unit) :=
  _ <- slice_assign f x (along k (run (back 1) (LScalar 0)) []) a (along k (run (back 1) (LScalar 1)) []) ;;
  slice_assign f x (along k (SIdx (lval (back 1))) []) a (along k (cidx 0) []).
(* examples/maxwell.cc:53-54, 55-56, 57-58 *)
Definition roll_down (f : T -> T -> T) (k : nat) (x a : view) : M (mem T) (option unit) :=
  _ <- slice_assign f x (along k (run (back 1) (LScalar 1)) []) a (along k (run (back 1) (LScalar 0)) []) ;;
  slice_assign f x (along k (cidx 0) []) a (along k (SIdx (lval (back 1))) []).
(* examples/maxwell.cc:46-51, 53-58: the first is assigned and the others are added *)
Fixpoint rolls (roll : (T -> T -> T) -> nat -> view -> view -> M (mem T) (option unit)) (f add : T -> T -> T) (ks : list nat) (x a : view) : M (mem T) (option unit) :=
  match ks with
  | [] => ret None
  | k::ks' => _ <- roll f k x a ;; rolls roll add add ks' x a
  end.
(* examples/maxwell.cc:44-61, the loop at t: A(t+1) = X + Y - A(t-1) - 4*A(t). There 'four' is 4 and ks is 0, 1, 2. A(t, i, ...) is A(t)(i, ...), cf C102. *)
Definition wave_step (add sub mul : T -> T -> T) (four : T) (ks : list nat) (a x y : view) (t : Z) : M (mem T) (option unit) :=
  onres (from a [cidx t]) (fun at_ =>
    _ <- rolls roll_up put add ks x at_ ;;
    _ <- rolls roll_down put add ks y at_ ;;
    onres (from a [cidx (t + 1)]) (fun next => onres (from a [cidx (t - 1)]) (fun prev =>
      assign fixed z put (viter next) (times sub (times sub (times add (viter x) (viter y)) (viter prev)) (times mul (Scalar (VT four)) (viter at_)))))).

(* X(subs) = A(subs) - A(subs) *)
Definition slice_minus (sub : T -> T -> T) (x : view) (xs : list M_Slice.sub) (a : view) (as1 as2 : list M_Slice.sub) : M (mem T) (option unit) :=
  onres (from x xs) (fun x1 => onres (from a as1) (fun a1 => onres (from a as2) (fun a2 => assign fixed z put (viter x1) (times sub (viter a1) (viter a2))))).
(* examples/maxwell.cc:67-69. c: the index on the last axis of da, which is k in the example. r: the rank of a, which is 5 there. *)
Definition differences (sub : T -> T -> T) (k r : nat) (c : Z) (da a : view) : M (mem T) (option unit) :=
  let tail := [SDots (Some (r - 1 - k)%nat); cidx c] in
  _ <- slice_minus sub da (along k (run (back 2) (LScalar 1)) tail) a (along k (run (back 2) (LScalar 2)) []) (along k (run (back 2) (LScalar 0)) []) ;;
  _ <- slice_minus sub da (along k (cidx 0) tail) a (along k (cidx 1) []) (along k (SIdx (lval (back 1))) []) ;;
  slice_minus sub da (along k (SIdx (lval (back 1))) tail) a (along k (cidx 0) []) (along k (SIdx (lval (back 2))) []).
(* examples/maxwell.cc:65-72 diff *)
Definition diff (sub mul : T -> T -> T) (factor : T) (k r : nat) (c : Z) (da a : view) : M (mem T) (option unit) :=
  if len (nth k (vdv da) dim0) >=? 2 then
    _ <- differences sub k r c da a ;;
    onres (from da [SDots (Some r); cidx c]) (fun d => assign fixed z mul (viter d) (Scalar (VT factor)))
  else ret None.

(* examples/maxwell.cc:80 F = transpose(DA, ilist<0, 1, 2, 3, 5, 4>) - DA, where r is 4 *)
Definition exchanged (r : nat) : list Z := map Z.of_nat (seq 0 r) ++ [Z.of_nat r + 1; Z.of_nat r].
Definition antisym (sub : T -> T -> T) (r : nat) (f da : view) : M (mem T) (option unit) :=
  onres (transpose da (exchanged r)) (fun b => assign fixed z put (viter f) (times sub (viter b) (viter da))).
(* examples/maxwell.cc:81 divA += transpose(DA, ilist<0, 1, 2, 3, 4, 4>) *)
Definition merged (r : nat) : list Z := map Z.of_nat (seq 0 r) ++ [Z.of_nat r; Z.of_nat r].
Definition divergence (add : T -> T -> T) (r : nat) (d da : view) : M (mem T) (option unit) :=
  onres (transpose da (merged r)) (fun b => assign fixed z add (viter d) (viter b)).
(* examples/maxwell.cc:86-87 map([](auto && a){ return sum(a); }, iter<1>(transpose(DA, ilist<0, 1, 2, 3, 4, 4>))), assigned to d. In the example it's the argument of amax. *)
Definition divergence_map (add : T -> T -> T) (zero : T) (fi : bool) (zi : list zt) (r : nat) (d da : view) : M (mem T) (option unit) :=
  onres (transpose da (merged r)) (fun b => assign_map fixed z (fun c => sum fi zi add zero (viter c)) d b 1).
End Roll.
