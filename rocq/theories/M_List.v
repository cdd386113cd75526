(* Model: the lists of types. Source: ra/base.hh:71-150. *)
From Coq Require Import ZArith List Lia Bool.
Import ListNotations.
Open Scope Z_scope.

(* A type, as far as the lists can tell: one that isn't a list, told from the others by a number, or list<T ...>. base.hh:71 *)
Inductive type := Atom (n : Z) | List (l : list type).

(* Everything here happens when the program is compiled. None: it doesn't compile. int doesn't overflow. *)
Section Lists.
Context {A B : Type}.

(* base.hh:88-91 append of one or more lists. Without any it isn't defined. The recursion is on the lists that follow the first. *)
Fixpoint append_ (l : list A) (ls : list (list A)) : list A := match ls with [] => l | s :: r => append_ (l ++ s) r end.
Definition append (ls : list (list A)) : option (list A) := match ls with [] => None | l :: r => Some (append_ l r) end.
(* base.hh:92 *)
Definition cons_ (x : A) (l : list A) : list A := append_ [x] [l].

(* base.hh:98-100 makelist. The recursion ends at n = 0; a negative n is a failed static_assert. *)
Fixpoint makelist_ (n : nat) (x : A) : list A := match n with O => [] | S n' => cons_ x (makelist_ n' x) end.
Definition makelist (n : Z) (x : A) : option (list A) := if n <? 0 then None else Some (makelist_ (Z.to_nat n) x).

(* base.hh:102-108 rest, first *)
Definition rest (l : list A) : option (list A) := match l with [] => None | _ :: r => Some r end.
Definition first (l : list A) : option A := match l with [] => None | x :: _ => Some x end.

(* base.hh:110-112 drop, 114-116 take *)
Fixpoint drop_ (l : list A) (n : nat) : option (list A) :=
  match n with O => Some l | S n' => match rest l with Some r => drop_ r n' | None => None end end.
Definition drop (l : list A) (n : Z) : option (list A) := if n <? 0 then None else drop_ l (Z.to_nat n).
Fixpoint take_ (l : list A) (n : nat) : option (list A) :=
  match n with
  | O => Some []
  | S n' => match first l, rest l with Some x, Some r => match take_ r n' with Some t => Some (cons_ x t) | None => None end | _, _ => None end
  end.
Definition take (l : list A) (n : Z) : option (list A) := if n <? 0 then None else take_ l (Z.to_nat n).

(* base.hh:118-120 ref with one subscript *)
Definition ref1 (l : list A) (i : Z) : option A := match drop l i with Some r => first r | None => None end.

(* base.hh:122-130 index, indexif. p: std::is_same_v<T, .>, or Pred<.>::value. The fuel is the length of the list, which bounds the turns from i = 0 on. *)
Fixpoint index_loop (fuel : nat) (p : A -> bool) (l : list A) (i : Z) : option Z :=
  match fuel with
  | O => if Z.of_nat (length l) <=? i then Some (-1) else None
  | S fuel' => if Z.of_nat (length l) <=? i then Some (-1)
               else match ref1 l i with Some x => if p x then Some i else index_loop fuel' p l (i + 1) | None => None end
  end.
Definition indexif (p : A -> bool) (l : list A) : option Z := index_loop (length l) p l 0.

(* base.hh:141-143 reverse *)
Fixpoint reverse (a b : list A) : list A := match a with [] => b | x :: a' => reverse a' (cons_ x b) end.

(* base.hh:145-147 filter. a is given as the values of its elements. take<B, 1> must be defined even if it isn't used. *)
Fixpoint filter_ (a : list bool) (b : list A) : option (list A) :=
  match a with
  | [] => Some b
  | x :: a' =>
    match take b 1, rest b with
    | Some t, Some b' => match filter_ a' b' with Some r => append [if x then t else []; r] | None => None end
    | _, _ => None
    end
  end.

(* base.hh:150-152 mapcons *)
Definition mapcons (c : A) (ls : list (list A)) : list (list A) := map (cons_ c) ls.

(* base.hh:136-139 map. f: F on the firsts. The end is when the first of the lists is empty. *)
Fixpoint all {C} (l : list (option C)) : option (list C) :=
  match l with [] => Some [] | Some x :: r => match all r with Some s => Some (x :: s) | None => None end | None :: _ => None end.
End Lists.
Fixpoint mp_map_ {A B} (f : list A -> B) (l : list A) (ls : list (list A)) : option (list B) :=
  match l with
  | [] => Some []
  | x :: l' => match all (map first ls), all (map rest ls) with
               | Some xs, Some ls' => match mp_map_ f l' ls' with Some r => Some (cons_ (f (x :: xs)) r) | None => None end
               | _, _ => None
               end
  end.
Definition mp_map {A B} (f : list A -> B) (ls : list (list A)) : option (list B) :=
  match ls with [] => Some [] | l :: r => mp_map_ f l r end.

(* base.hh:94-96 iota *)
Fixpoint iota_ (n : nat) (o s : Z) : list Z := match n with O => [] | S n' => cons_ o (iota_ n' (o + s) s) end.
Definition iota (n o s : Z) : option (list Z) := if n <? 0 then None else Some (iota_ (Z.to_nat n) o s).

(* base.hh:118-120 ref. What isn't a list has no first and no rest. *)
Fixpoint ref (t : type) (is : list Z) : option type :=
  match is with
  | [] => Some t
  | i :: r => match t with List l => match ref1 l i with Some u => ref u r | None => None end | Atom _ => None end
  end.
