(* What the properties of the test recorder and the benchmarks are stated with. *)
From Coq Require Import ZArith List Bool Reals Permutation.
From Verif Require Import M_Test.
Import ListNotations.
Open Scope Z_scope.

(* the value that a list of option calls leaves for one of the options: that of the last call *)
Definition last_value (f : option_call -> option bool) (o : list option_call) : bool :=
  fold_left (fun b c => match f c with Some x => x | None => b end) o false.
Definition skips (o : list option_call) : bool := last_value (fun c => match c with CallSkip b => Some b | _ => None end) o.
Definition expects_failure (o : list option_call) : bool := last_value (fun c => match c with CallExpectFail b => Some b | _ => None end) o.

(* a test that counts, and came out as it should not have *)
Definition unexpected (t : list option_call * bool) : bool := negb (skips (fst t)) && Bool.eqb (snd t) (expects_failure (fst t)).
Definition count {A} (p : A -> bool) (l : list A) : Z := Z.of_nat (length (filter p l)).
(* the numbers, from k on, of the elements that p is true of *)
Fixpoint numbers {A} (p : A -> bool) (k : Z) (l : list A) : list Z :=
  match l with [] => [] | x::l' => (if p x then [k] else []) ++ numbers p (k + 1) l' end.

(* two numbers are within req *)
Definition within (near : R -> R -> Prop) (x y : fl) : Prop :=
  match x with
  | Fin r => exists q, y = Fin q /\ near r q
  | PInf => y = PInf
  | NInf => y = NInf
  | NaN => y = NaN
  end.

(* by the difference, and by the difference over the mean *)
Definition near_abs (req : R) (r q : R) : Prop := (Rabs (r - q) <= req)%R.
Definition near_rel (req : R) (r q : R) : Prop := (2 * Rabs (r - q) <= req * (Rabs r + Rabs q))%R.

(* m is half the sum of the middle elements of t, which are the same if there is an odd number of them *)
Fixpoint increasing (l : list Z) : Prop := match l with [] => True | x::l' => Forall (fun y => x <= y) l' /\ increasing l' end.
Definition twice_median (t : list Z) (m : Z) : Prop :=
  exists u, Permutation t u /\ increasing u /\ m = nth (length t / 2) u 0 + nth ((length t - 1) / 2) u 0.
