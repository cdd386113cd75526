(* Model: views and arrays as ranges, and back(), as(), shared_borrowing(). Source: ra/arrays.hh:136-139, 143, 306-310, 348-358; ra/expr.hh:330-348. *)
From Coq Require Import ZArith List Lia Bool.
From Verif Require Import M_Base M_Expr M_Ply M_View M_Slice.
Import ListNotations.
Open Scope Z_scope.

Section Range.
Context {X W : Type}.
Variable val : Z -> X. (* the element at a place *)

(* What begin() and end() give: pointers, or an STLIterator (ply.hh:177-226) and the sentinel. *)
Inductive range :=
| RPtr (p e : Z)
| RStl (s : @stl X W).

(* arrays.hh:136-138 View::begin, end. ct: the dimensions are in the type (CT). step1: the rank is 1 and the step is in the type and it is 1 (simv is 0 for what isn't in the type).
   None is a failed check. *)
Definition view_range (ct step1 : bool) (a : view) : option range :=
  if (ct && c_order (vdv a) true) || step1 then Some (RPtr (vcp a) (vcp a + dimv_size (vdv a)))
  else match stl_begin (Cell (vdv a) (length (vdv a)) val (vcp a)) with Some s => Some (RStl s) | None => None end.

(* arrays.hh:308-309 Array::begin, end *)
Definition array_range (a : view) : range := RPtr (vcp a) (vcp a + dimv_size (vdv a)).

(* for (auto && x: a) f(x). fuel bounds the number of turns; running out is Undef. *)
Fixpoint ptr_for (fuel : nat) (f : X -> M W unit) (p e : Z) : M W unit :=
  match fuel with
  | O => undef
  | S fuel' => if p =? e then ret tt else _ <- f (val p) ;; ptr_for fuel' f (p + 1) e
  end.
Definition range_for (fuel : nat) (f : X -> M W unit) (r : range) : M W unit :=
  match r with RPtr p e => ptr_for fuel f p e | RStl s => stl_for fuel f s end.
End Range.

(* arrays.hh:348-358 shared_borrowing. r1: the rank is 1 in the type. The destination is then an SDim with step 1 in the type (expr.hh:341-346). *)
Definition shared_borrowing (r1 : bool) (s : view) : res view :=
  if r1 then match vdv s with [d] => if step d =? 1 then Good (Vw [Dim (len d) 1] (vcp s)) else Refused | _ => UB end
  else Good s.

(* arrays.hh:139 back(). With rank 0 in the type it doesn't compile; if the rank isn't in the type, len(0) is out of range. *)
Definition back (a : view) : res view := match vdv a with [] => UB | d::_ => from a [cidx (len d - 1)] end.

(* arrays.hh:143 as<s, o>() *)
Definition as_ (s o : Z) (a : view) : res view := from a [ciota s o 1].
