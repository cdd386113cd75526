(* Model: combinations, wedge product, Hodge. Source: ra/base.hh:96-224, ra/ra.hh:459-604. *)
From Coq Require Import ZArith List Lia Bool.
Import ListNotations.
Open Scope Z_scope.

(* base.hh:155-173 complement_list: for each element of the second list, the search in the first one. The last parameter (SS) is the first list at the start of each search. *)
Fixpoint search (t : nat) (S : list nat) : bool :=
  match S with
  | [] => false
  | s::S' => if Nat.eqb s t then true else search t S'
  end.
Fixpoint complement_list (SS T : list nat) : list nat :=
  match T with
  | [] => []
  | t::T' => if search t SS then complement_list SS T' else t :: complement_list SS T'
  end.
(* base.hh:95-97 iota<n> *)
Definition iota (n : nat) : list nat := seq 0 n.
(* base.hh:175 *)
Definition complement (S : list nat) (D : nat) : list nat := complement_list S (iota D).

(* base.hh:177-189 combs<A, K>. With K larger than the length there's no rest<list<>> and the code doesn't compile. *)
Fixpoint combs (A : list nat) (K : nat) : list (list nat) :=
  if Nat.eqb K 0 then [[]]
  else if Nat.eqb K (length A) then [A]
  else match A with
       | [] => []
       | a::re => map (cons a) (combs re (K - 1)) ++ combs re K
       end.

(* base.hh:125-128 index; None is -1 *)
Fixpoint index (C : list nat) (r : nat) : option nat :=
  match C with
  | [] => None
  | c::C' => if Nat.eqb r c then Some 0%nat else option_map S (index C' r)
  end.
(* base.hh:191-197 permsign; take and drop as in base.hh:111-117 *)
Fixpoint permsign (C R : list nat) : Z :=
  match C, R with
  | [], [] => 1
  | _, [] => 0
  | [], _ => 0
  | _, r::R' => match index C r with
                | Some w => permsign (firstn w C ++ skipn (w + 1) C) R' * (if Nat.odd w then -1 else 1)
                | None => 0
                end
  end.

(* base.hh:199-205 findcomb. None is where = -1, sign = 0. *)
Fixpoint findcomb_where (P : list nat) (L : list (list nat)) : option nat :=
  match L with
  | [] => None
  | A::L' => if negb (permsign P A =? 0) then Some 0%nat else option_map S (findcomb_where P L')
  end.
Definition findcomb_sign (P : list nat) (L : list (list nat)) : Z :=
  match findcomb_where P L with Some w => permsign P (nth w L []) | None => 0 end.

(* base.hh:207-215 anticomb. ref<EC, 0/1> of a shorter list doesn't compile. *)
Definition anticomb (C : list nat) (D : nat) : list nat :=
  let EC := complement C D in
  let sign := permsign (C ++ EC) (iota D) in
  nth (if sign <? 0 then 1 else 0) EC 0%nat :: nth (if sign <? 0 then 0 else 1) EC 0%nat :: skipn 2 EC.
(* base.hh:217 *)
Definition mapanticomb (T : list (list nat)) (D : nat) : list (list nat) := map (fun C => anticomb C D) T.
(* base.hh:219-222 choose<D, O>, with O<=D *)
Definition choose (D O : nat) : list (list nat) :=
  if (1 <? D)%nat && (D <? 2 * O)%nat then
    let O' := (D - O)%nat in
    mapanticomb (if (1 <? D)%nat && (D <? 2 * O')%nat then [] else combs (iota D) O') D      (* 2*(D-O)<D, so the second case *)
  else combs (iota D) O.

(* ra.hh:463-472 binom on unsigned integers; w reduces a product to the word size *)
Fixpoint binom_loop (w : Z -> Z) (k : nat) (n i v : Z) : Z :=
  match k with
  | O => v
  | S k' => binom_loop w k' n (i + 1) (w (v * (n - i)) / (i + 1))
  end.
Definition binom (w : Z -> Z) (n p : Z) : Z :=
  if p >? n then 0 else
  let p := if p >? n - p then n - p else p in
  binom_loop w (Z.to_nat p) n 0 1.
Definition word64 (x : Z) : Z := x mod 2 ^ 64.
Definition unlimited (x : Z) : Z := x.

Section Wedge.
(* the type of the components *)
Variables (R : Type) (r0 : R) (radd rmul : R -> R -> R) (rsign : Z -> R).

(* ra.hh:498-515 Wedge::term. a and b are the components; a scalar is the same as one component (505-507). rsign is the conversion of +1 or -1 to R. *)
Fixpoint term (Ca Cb : list (list nat)) (Xr : list nat) (Fa : list (list nat)) (a b : nat -> R) : R :=
  match Fa with
  | [] => r0
  | Fa0::Fa' =>
    let Fb := complement_list Fa0 Xr in
    match findcomb_where Fa0 Ca, findcomb_where Fb Cb with
    | Some wa, Some wb =>
      let sign := findcomb_sign Fa0 Ca * findcomb_sign Fb Cb * permsign (Fa0 ++ Fb) Xr in
      radd (rmul (rmul (rsign sign) (a wa)) (b wb)) (term Ca Cb Xr Fa' a b)
    | _, _ => r0                                                                                  (* doesn't compile (503) *)
    end
  end.
(* ra.hh:516-521 Wedge::prod, one component of the result for each of Cr *)
Definition wedge (D Oa Ob : nat) (a b : nat -> R) : list R :=
  map (fun Xr => term (choose D Oa) (choose D Ob) Xr (combs Xr Oa) a b) (choose D (Oa + Ob)).

(* ra.hh:526-560 Hodge::hodge_aux: the component of b that is written for each i, and the sign that a[i] has in it *)
Definition hodge_trivial (D O : nat) : bool :=
  negb (Nat.eqb (2 * O) D) && ((2 * O <? D)%nat || negb (Nat.odd (O * (D - O)))).
Definition hodge_step (D O i : nat) : option (nat * Z) :=
  let Ca := choose D O in
  let Cb := choose D (D - O) in
  let Cr := choose D (O + (D - O)) in
  let LexOrCa := combs (iota D) O in
  let Cai := nth i Ca [] in
  match findcomb_where Cai LexOrCa with
  | Some k =>
    let CompCai := complement (nth k LexOrCa []) D in
    match findcomb_where CompCai Cb with
    | Some w => Some (w, findcomb_sign (Cai ++ nth w Cb []) Cr)
    | None => None
    end
  | None => None
  end.
(* ra.hh:539-559, 564-566 hodgex: the writes for i = n, n+1 ..., k of them, on b; None doesn't compile *)
Fixpoint hodge_aux (D O : nat) (k i : nat) (a : nat -> R) (b : nat -> R) : option (nat -> R) :=
  match k with
  | O => Some b
  | S k' => match hodge_step D O i with
            | Some (w, s) => hodge_aux D O k' (S i) a (fun j => if Nat.eqb j w then rmul (rsign s) (a i) else b j)
            | None => None
            end
  end.
Definition hodgex (D O : nat) (a b : nat -> R) : option (nat -> R) := hodge_aux D O (length (choose D O)) 0 a b.
(* ra.hh:568-574 hodge(a, b) *)
Definition hodge (D O : nat) (a b : nat -> R) : option (nat -> R) :=
  if hodge_trivial D O then Some (fun j => if (j <? length (choose D O))%nat then a j else b j) else hodgex D O a b.
(* ra.hh:604-605 cross *)
Definition cross (D : nat) (a b : nat -> R) : list R := wedge D 1 1 a b.
(* ra.hh:607-612 perp *)
Definition perp (rneg : R -> R) (v : nat -> R) : list R := [v 1%nat; rneg (v 0%nat)].
End Wedge.
