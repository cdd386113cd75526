(* What the properties of combinations, wedge product and Hodge are stated with. *)
From Coq Require Import ZArith List Permutation.
Import ListNotations.

(* c is a choice of O of the numbers 0 ... D-1, in some order *)
Definition comb (D O : nat) (c : list nat) : Prop := NoDup c /\ length c = O /\ Forall (fun x => x < D) c.
(* every choice of O of 0 ... D-1 is one of L, in some order, and only one *)
Definition enumerates (D O : nat) (L : list (list nat)) : Prop :=
  (forall c, In c L -> comb D O c) /\
  (forall c, comb D O c -> exists i, i < length L /\ Permutation c (nth i L []) /\ forall k, k < length L -> Permutation c (nth k L []) -> k = i).

(* number of elements of l below x *)
Definition below (x : nat) (l : list nat) : nat := length (filter (fun y => Nat.ltb y x) l).
(* number of pairs in l that are out of order *)
Fixpoint inversions (l : list nat) : nat :=
  match l with
  | [] => 0
  | x::l' => below x l' + inversions l'
  end.
(* the sign of the permutation that takes a to b *)
Definition sign (a b : list nat) : Z := if Nat.even (inversions a + inversions b) then 1%Z else (-1)%Z.

(* Pascal's triangle *)
Fixpoint pascal (n p : nat) : Z :=
  match n, p with
  | _, 0 => 1
  | 0, S _ => 0
  | S n', S p' => (pascal n' p' + pascal n' p)%Z
  end.

(* a and b have the same elements, as many times each *)
Definition same (a b : list nat) : bool :=
  forallb (fun x => Nat.eqb (count_occ Nat.eq_dec a x) (count_occ Nat.eq_dec b x)) (a ++ b).
(* the sign of the permutation that takes a to b, 0 if there isn't one *)
Definition eps (a b : list nat) : Z := if same a b then sign a b else 0%Z.

Section Sums.
Variables (R : Type) (rO : R) (radd rmul : R -> R -> R) (ropp : R -> R).
Fixpoint sum {A} (f : A -> R) (l : list A) : R :=
  match l with
  | [] => rO
  | x::l' => radd (f x) (sum f l')
  end.
Definition signed (s : Z) (x : R) : R := if Z.eqb s 0 then rO else if Z.ltb s 0 then ropp x else x.
(* the component along x of the product of a and b, which are given on the bases Ca and Cb *)
Definition exterior (Ca Cb : list (list nat)) (a b : nat -> R) (x : list nat) : R :=
  sum (fun i => sum (fun j => signed (eps (nth i Ca [] ++ nth j Cb []) x) (rmul (a i) (b j))) (seq 0 (length Cb))) (seq 0 (length Ca)).
(* (-1)^n x *)
Definition alternate (n : nat) (x : R) : R := if Nat.odd n then ropp x else x.
End Sums.
