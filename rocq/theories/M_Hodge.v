(* Model: Hodge with the storage of the arguments; perp. Source: ra/ra.hh:525-625. *)
From Coq Require Import ZArith List Bool.
From Verif Require Import M_View M_Wedge.
Import ListNotations.
Open Scope Z_scope.

Section Hodge.
(* The elements: product, conversion from int, opposite *)
Variables (R : Type) (rmul : R -> R -> R) (rsign : Z -> R) (rneg : R -> R).

(* The type of a[i] in hodge_aux (ra.hh:556). a[i] is *frompl(a.data(), ...) (ply.hh:510), so it's a reference to an element. It is a reference to const
   if a, which is 'auto const &', is a container, since data() const is a pointer to const (arrays.hh:192), and with views of const elements. It isn't for other views,
   since const-ness of the view isn't that of the elements (arrays.hh:106). amut: not const. aint: the elements are int. *)
Record elem := Elem { amut : bool; aint : bool }.

(* ra.hh:556 'decltype(a[i])(fps::sign)'. sign is a static const int (base.hh:204). The conversion to a reference to const makes a temporary from the value of sign.
   The conversion to any other reference isn't a conversion of the value: it is a reinterpret_cast (and const_cast) of sign itself, which is read as if it were an element.
   This is undefined unless the elements are int. *)
Definition sign_as (c : elem) (s : Z) : res R := if amut c && negb (aint c) then UB else Good (rsign s).

(* ra.hh:539-559 Hodge::hodge_aux, on memory. rd: how a[i] is read; pb: the places of the elements of b. Refused: doesn't compile. k components remain, from i *)
Fixpoint hodge_mem (D O k i : nat) (c : elem) (rd : (Z -> R) -> nat -> R) (pb : nat -> Z) (m : Z -> R) : res (Z -> R) :=
  match k with
  | O%nat => Good m
  | S k' => match hodge_step D O i with
            | Some (w, s) => rbind (sign_as c s) (fun t =>
                let x := rmul t (rd m i) in
                hodge_mem D O k' (S i) c rd pb (fun p => if p =? pb w then x else m p))
            | None => Refused
            end
  end.
(* ra.hh:564-566 hodgex(a, b), with the elements of a at the places pa *)
Definition hodgex_mem (D O : nat) (c : elem) (pa pb : nat -> Z) (m : Z -> R) : res (Z -> R) :=
  hodge_mem D O (length (choose D O)) 0 c (fun m i => m (pa i)) pb m.

(* ra.hh:576-582 hodge(a), with one argument. In the trivial case a is returned as it is. If not, b is a copy of a, and a is written. The copy of a container has its own elements, which are const in
   hodge_aux; but the copy of a view (arrays.hh:116) is a view of the same elements. *)
Inductive arg := AContainer | AView.
Definition hodge_self (D O : nat) (v : arg) (isint : bool) (pa : nat -> Z) (m : Z -> R) : res (Z -> R) :=
  if hodge_trivial D O then Good m
  else match v with
       | AContainer => hodge_mem D O (length (choose D O)) 0 (Elem false isint) (fun _ i => m (pa i)) pa m
       | AView => hodge_mem D O (length (choose D O)) 0 (Elem true isint) (fun m i => m (pa i)) pa m
       end.

(* ra.hh:614-625 perp(v, n), n a scalar *)
Definition perp_n (v : nat -> R) (n : R) : list R := [rmul (v 1%nat) n; rmul (rneg (v 0%nat)) n].
End Hodge.
