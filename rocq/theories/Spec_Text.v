(* What the properties of input and output are stated with. *)
From Coq Require Import ZArith List Ascii String.
From Verif Require Import Spec M_Text.
Import ListNotations.
Open Scope Z_scope.

(* items with g between them *)
Fixpoint join (g : text) (l : list text) : text :=
  match l with
  | [] => []
  | [t] => t
  | t::l' => t ++ g ++ join g l'
  end.
(* n pieces of length p *)
Fixpoint pieces {A} (p n : nat) (l : list A) : list (list A) :=
  match n with O => [] | S n' => firstn p l :: pieces p n' (skipn p l) end.

(* between items on axis k of r: on the last axis, the separator; on the others, the outer separator, repetitions of rep for each axis after the next one except the last, and with align, as much space as
   all the opens so far *)
Definition between (f : style) (r k : nat) : text :=
  if Nat.eqb (S k) r then st_sep0 f
  else st_sepn f ++ List.concat (repeat (st_rep f) (r - 2 - k)) ++ (if st_align f then repeat " "%char (S k * List.length (st_open f)) else []).
(* the text for axes k and up to r of an array of shape s, given the texts of the elements in row-major order *)
Fixpoint layout (f : style) (r k : nat) (s : list Z) (ts : list text) : text :=
  match s with
  | [] => List.concat ts
  | n::s' => st_open f ++ join (between f r k) (map (layout f r (S k) s') (pieces (Z.to_nat (zprod s')) (Z.to_nat n) ts)) ++ st_close f
  end.

Definition isspace (c : ascii) : Prop := In (nat_of_ascii c) [9; 10; 11; 12; 13; 32]%nat.
Definition decimal (c : ascii) : Prop := (48 <= nat_of_ascii c <= 57)%nat.
(* what follows a number can't be mistaken for part of it *)
Definition separated (t : text) : Prop := match t with [] => True | c::_ => ~ decimal c end.
(* the value of decimal digits *)
Definition dvalue (ds : text) : Z := fold_left (fun v c => 10 * v + (Z.of_nat (nat_of_ascii c) - 48)) ds 0.
(* t is the numeral of z, after any space, and then t' *)
Definition numeral (t : text) (z : Z) (t' : text) : Prop :=
  exists ws sg ds, t = ws ++ sg ++ ds ++ t' /\ Forall isspace ws /\ Forall decimal ds /\ ds <> [] /\ separated t' /\
    ((sg = [] \/ sg = ["+"%char]) /\ z = dvalue ds \/ sg = ["-"%char] /\ z = - dvalue ds).
(* numerals with values in a range *)
Inductive numerals (lo hi : Z) : text -> list Z -> text -> Prop :=
| nums_nil : forall t, numerals lo hi t [] t
| nums_cons : forall t z t1 zs t', numeral t z t1 -> lo <= z <= hi -> numerals lo hi t1 zs t' -> numerals lo hi t (z::zs) t'.
(* elements with gaps before, between and after them *)
Fixpoint weave (gs ts : list text) : text :=
  match gs, ts with
  | g::gs', t::ts' => g ++ t ++ weave gs' ts'
  | g::_, [] => g
  | [], _ => []
  end.
