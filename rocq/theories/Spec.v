(* What the properties are stated with. Nothing here comes from the code of ra-ra: these are the
   mathematical notions (row-major order, in-range index, ...) that the theorems relate the model to. *)
From Coq Require Import ZArith List Lia Sorted.
Import ListNotations.
Open Scope Z_scope.

(* 0, 1, ..., n-1; empty if n<=0 *)
Definition zrange (n : Z) : list Z := map Z.of_nat (seq 0 (Z.to_nat n)).

(* product of a list *)
Fixpoint zprod (s : list Z) : Z := match s with [] => 1 | n::s' => n * zprod s' end.

Fixpoint zsum (s : list Z) : Z := match s with [] => 0 | n::s' => n + zsum s' end.

(* all the indices of a shape, last index fastest *)
Fixpoint indices (s : list Z) : list (list Z) :=
  match s with
  | [] => [[]]
  | n::s' => flat_map (fun i => map (cons i) (indices s')) (zrange n)
  end.

(* j is an index of shape s *)
Definition inshape (j s : list Z) : Prop := Forall2 (fun i n => 0 <= i < n) j s.

(* position of index j in row-major order *)
Fixpoint rm (s j : list Z) : Z :=
  match s, j with
  | n::s', i::j' => i * zprod s' + rm s' j'
  | _, _ => 0
  end.

(* strict lexicographic order on indices *)
Inductive lexlt : list Z -> list Z -> Prop :=
| lex_hd : forall i i' j j', i < i' -> lexlt (i::j) (i'::j')
| lex_tl : forall i j j', lexlt j j' -> lexlt (i::j) (i::j').

(* scalar product of an index with a list of steps; the shorter one decides *)
Fixpoint dotp (st j : list Z) : Z :=
  match st, j with
  | s::st', i::j' => i * s + dotp st' j'
  | _, _ => 0
  end.

(* js is the list of all the indices of shape s, each once, in lexicographic (row-major) order *)
Definition row_major (s : list Z) (js : list (list Z)) : Prop :=
  StronglySorted lexlt js /\ forall j, In j js <-> inshape j s.
