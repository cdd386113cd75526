(* Model: the positions that the iterators take during a traversal, also those at which nothing is read. Source: ra/ply.hh, ra/expr.hh. *)
From Coq Require Import ZArith List Lia Bool.
From Verif Require Import M_Base M_Expr M_Ply.
Import ListNotations.
Open Scope Z_scope.

Section Path.
Context {X W : Type}.
Notation expr := (expr X W).

(* These functions follow those with the same name in M_Ply.v, without the operations and without early exit. The first component is the list of the
   iterators after each mov, adv or load, and the second the last one. *)

(* ply.hh:60-68, 96-104: mov after each turn, the last one too. *)
Fixpoint inner_path (n : nat) (ss0 : tree) (a : expr) : list expr * expr :=
  match n with
  | O => ([], a)
  | S n' => let a' := mov a ss0 in let (l, b) := inner_path n' ss0 a' in (a' :: l, b)
  end.

(* ply.hh:108-117: adv after each turn, the last one too. *)
Fixpoint loop_path (n : nat) (k : nat) (sub : expr -> list expr * expr) (a : expr) : list expr * expr :=
  match n with
  | O => ([], a)
  | S n' => let (l1, a1) := sub a in
            let a2 := adv a1 k 1 in
            let (l2, b) := loop_path n' k sub a2 in (l1 ++ a2 :: l2, b)
  end.

(* ply.hh:90-125 subply *)
Fixpoint subply_path (rk k : nat) (s : Z) (ss0 : tree) (a : expr) : list expr * expr :=
  match k with
  | O => let (l, b) := inner_path (Z.to_nat s) ss0 a in let c := load b (save a) in (l ++ [c], c)
  | S k' => let ax := (rk-1-k)%nat in
            let size := lene a ax in
            let (l, b) := loop_path (Z.to_nat size) ax (subply_path rk k' s ss0) a in
            let c := adv b ax (- size) in (l ++ [c], c)
  end.

(* ply.hh:127-153 ply_fixed, after validate *)
Definition fixed_path (a : expr) : list expr :=
  match rankn a with
  | O => [a]
  | S r => a :: fst (subply_path (S r) r (lene a r) (stepe a r) a)
  end.

(* ply.hh:70-84 *)
Fixpoint odo_path (n k o : nat) (z : list zt) (a : expr) : list expr :=
  match n with
  | O => []
  | S n' =>
    let z1 := zupd z k (fun x => Zt (zorder x) (zsha x) (zind x + 1)) in
    let x := zk z1 k in
    let ax := zorder (zk z1 (o+k)) in
    if zind x <? zsha x then [adv a ax 1]
    else let a' := adv a ax (1 - zsha x) in a' :: odo_path n' (S k) o (zupd z1 k (fun x => Zt (zorder x) (zsha x) 0)) a'
  end.

(* ply.hh:58-85 *)
Fixpoint ravel_path_loop (fuel : nat) (r o : nat) (ss : Z) (ss0 : tree) (z : list zt) (a : expr) : list expr :=
  match fuel with
  | O => []
  | S fuel' =>
    let (l, b) := inner_path (Z.to_nat ss) ss0 a in
    let c := load b (save a) in
    l ++ c :: odo_path r 0 o z c ++
    match odo r 0 o z c with
    | (true, _, _) => []
    | (false, z', a') => ravel_path_loop fuel' r o ss ss0 z' a'
    end
  end.

(* ply.hh:21-86 ply_ravel, after validate *)
Definition ravel_path (z : list zt) (a : expr) : list expr :=
  match rankn a with
  | O => [a]
  | S r =>
    let z1 := zsetorder (S r) 0 (zresize z (S r)) in
    let '(r', o, ss) := merge a z1 r 1 (lene a (zorder (zk z1 0))) in
    let '(z2, empty) := setsha a z1 r' 0 o in
    if empty then [a] else a :: ravel_path_loop (ravel_fuel z2 r') r' o ss (stepe a (zorder (zk z2 0))) z2 a
  end.

(* ply.hh:194-223 next/nexts *)
Fixpoint next_path (n : nat) (a : expr) (ind : list Z) : list expr :=
  match n with
  | O => []
  | S k =>
    let i := nth k ind 0 - 1 in
    if 0 <? i then [adv a k 1]
    else let a' := adv a k (1 - lene a k) in a' :: next_path k a' (lupd ind k (lene a k))
  end.

(* ply.hh:177-226: from begin() to end() *)
Fixpoint stl_path (fuel : nat) (s : stl (X := X) (W := W)) : list expr :=
  match fuel with
  | O => []
  | S fuel' => if over s then [sa s] else sa s :: next_path (rankn (sa s)) (sa s) (sind s) ++ stl_path fuel' (stl_next s)
  end.

(* expr.hh:266-312: the places (c.cp) of the Cells of an expression, in the order of the arguments. A place is a pointer, or the value of a Seq (expr.hh:77-100). *)
Fixpoint places (e : expr) : list Z :=
  match e with
  | Scalar _ => []
  | Cell _ _ _ cp => [cp]
  | Reframe a _ => places a
  | Map _ t => flat_map places t
  | Pick _ t => flat_map places t
  end.

End Path.
