(* What C137 is stated with: containers without memory. Each container has the name of its contents, which is the time when they were made, and knows its elements directly. *)
From Coq Require Import ZArith List Bool Arith.
From Verif Require Import M_Own.
Import ListNotations.
Open Scope Z_scope.

Section S.
Context {T : Type}.

(* eown: it isn't on loan. ename: None if it has no contents. *)
Record ent := Ent { ekind : kind; erank : option nat; eshape : list Z; ename : option nat; eown : bool; eval : list Z -> option T }.

Definition put {A} (e : nat -> A) (i : nat) (x : A) : nat -> A := fun k => if Nat.eqb k i then x else e k.
Definition named (a b : ent) : bool := match ename a, ename b with Some m, Some n => Nat.eqb m n | _, _ => false end.
(* All those that have the contents of a have other elements from now on. *)
Definition rewrite_ (e : nat -> option ent) (a : ent) (f : (list Z -> option T) -> list Z -> option T) : nat -> option ent :=
  fun k => match e k with Some b => Some (if named b a then Ent (ekind b) (erank b) (eshape b) (ename b) (eown b) (f (eval b)) else b) | None => None end.
(* A copy. Big makes its own contents, Shared doesn't. *)
Definition copy (now : nat) (b : ent) : ent :=
  match ekind b with
  | KShared => b
  | _ => Ent (ekind b) (erank b) (eshape b) (match ename b with Some _ => Some now | None => None end) true (eval b)
  end.
(* What is left after moving from b. *)
Definition spent (b : ent) : ent := Ent (ekind b) (erank b) (match erank b with Some _ => eshape b | None => [] end) None true (fun _ => None).
Definition index_eqb (p q : list Z) : bool := if list_eq_dec Z.eq_dec p q then true else false.

(* The containers after a program h (the latest operation first). *)
Fixpoint after (h : list (op T)) : nat -> option ent :=
  match h with
  | [] => fun _ => None
  | c::h' =>
    let e := after h' in
    match c with
    | Dflt i k r => put e i (Some (Ent k r (match r with Some n => repeat 0 n | None => [0] end) None true (fun _ => None)))
    | Make i k r s x => put e i (Some (Ent k r s (Some (length h')) true (fun _ => Some x)))
    | CopyNew i j => put e i (option_map (copy (length h')) (e j))
    | CopyTo i j => if Nat.eqb i j then e else put e i (option_map (copy (length h')) (e j))
    | MoveNew i j | MoveTo i j => put (put e i (e j)) j (option_map spent (e j))
    | Swap i j => put (put e i (e j)) j (e i)
    | Kill i => put e i None
    | Put i p x => match e i with Some a => rewrite_ e a (fun f q => if index_eqb q p then Some x else f q) | None => e end
    | Fill i x => match e i with Some a => rewrite_ e a (fun _ _ => Some x) | None => e end
    | Over i j => match e i, e j with Some a, Some b => rewrite_ e a (fun _ => eval b) | _, _ => e end
    | Borrow i j => put e i (option_map (fun b => Ent KShared (erank b) (eshape b) (ename b) false (eval b)) (e j))
    end
  end.
(* Of the contents on loan, there is an owner. *)
Definition lent (e : nat -> option ent) : Prop :=
  forall i a n, e i = Some a -> ename a = Some n -> exists j b, e j = Some b /\ ename b = Some n /\ eown b = true.
(* It has been so from the beginning. *)
Fixpoint always_lent (h : list (op T)) : Prop := match h with [] => True | c::h' => lent (after h) /\ always_lent h' end.
End S.
Arguments ent : clear implicits.
