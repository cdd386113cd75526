(* Model: containers. Source: ra/arrays.hh:251-346. *)
From Coq Require Import ZArith List Lia Bool.
From Verif Require Import M_Base.
Import ListNotations.
Open Scope Z_scope.

Section Array.
Context {T : Type}.

(* arrays.hh:252-322 Array with a std::vector store (Big). None is an element that is default-initialized (vector_default_init, base.hh:249), so it may have any value.
   The dimension vector is a std::array if the rank is static and a std::vector if it isn't. *)
Record arr := Arr { adim : list dim; astore : list (option T) }.

(* A failed check, or an exception, leaves the array as it is at that point. *)
Inductive outcome := Done (a : arr) | Refuse (a : arr).

(* std::vector::resize(n), resize(n, t) *)
Definition vresize (n : Z) (t : option T) (l : list (option T)) : list (option T) :=
  firstn (Z.to_nat n) l ++ repeat t (Z.to_nat n - length l).

(* expr.hh:199-219 filldimv, with the dimensions that it leaves. All the lengths are set first (207); then for each axis, from the last one, the step is set and the length is checked.
   [old] are the previous steps; those of new axes are left uninitialized in the code and are 0 here. None is a failed check. *)
Fixpoint fill (p : list Z) (old : list Z) : list dim * option Z :=
  match p with
  | [] => ([], Some 1)
  | n::p' =>
    match fill p' (tl old) with
    | (dv, None) => (Dim n (hd 0 old) :: dv, None)
    | (dv, Some s) => (Dim n s :: dv, if n >=? 0 then Some (s * n) else None)
    end
  end.

(* arrays.hh:287-289 default constructors with static rank r, and with dynamic rank *)
Definition default_static (r : nat) : arr := Arr (repeat (Dim 0 1) r) (if Nat.eqb r 0 then [None] else []).
Definition default_any : arr := Arr [Dim 0 1] [].
(* arrays.hh:296 Array(s, none). r is the static rank (None: dynamic), see resize (expr.hh:186-197). *)
Definition make (r : option nat) (s : list Z) : option arr :=
  if match r with Some n => Nat.eqb (length s) n | None => true end then
    match fill s [] with (dv, Some n) => Some (Arr dv (repeat None (Z.to_nat n))) | (_, None) => None end
  else None.

(* writing an element, a(j) = t *)
Definition aset (a : arr) (j : list Z) (t : T) : outcome :=
  match indexer (adim a) 0 j with
  | Some p => Done (Arr (adim a) (firstn (Z.to_nat p) (astore a) ++ Some t :: skipn (S (Z.to_nat p)) (astore a)))
  | None => Refuse a
  end.
(* reading an element, a(j). The inner None is an uninitialized element, and the outer one is a failed check or a position out of the store. *)
Definition aget (a : arr) (j : list Z) : option (option T) :=
  match indexer (adim a) 0 j with Some p => nth_error (astore a) (Z.to_nat p) | None => None end.

(* arrays.hh:306-307 resize of the first axis. size() (267) of a negative length is that length, and then std::vector::resize throws. *)
Definition resize1 (a : arr) (s : Z) (t : option T) : outcome :=
  match adim a with
  | [] => Refuse a
  | d::dv =>
    let dv' := Dim s (step d) :: dv in
    let n := dimv_size dv' in
    if n <? 0 then Refuse (Arr dv' (astore a)) else Done (Arr dv' (vresize n t (astore a)))
  end.
(* arrays.hh:308 resize to a full shape *)
Definition resize_shape (r : option nat) (a : arr) (s : list Z) : outcome :=
  if match r with Some n => Nat.eqb (length s) n | None => true end then
    match fill s (map step (adim a)) with
    | (dv, Some n) => Done (Arr dv (vresize n None (astore a)))
    | (dv, None) => Refuse (Arr dv (astore a))
    end
  else Refuse a.
(* arrays.hh:310-312 push_back, emplace_back (x is the new element). RA_CR: 304. *)
Definition push_back (a : arr) (x : T) : outcome :=
  match adim a with
  | [d] => Done (Arr [Dim (len d + 1) (step d)] (astore a ++ [Some x]))
  | _ => Refuse a
  end.
(* arrays.hh:313 pop_back *)
Definition pop_back (a : arr) : outcome :=
  match adim a with
  | [d] => if 0 <? len d then Done (Arr [Dim (len d - 1) (step d)] (removelast (astore a))) else Refuse a
  | _ => Refuse a
  end.

(* Move construction or assignment (defaulted): the new array, and what is left in the old one. A std::array is copied, a std::vector is left empty. *)
Definition move_static (a : arr) : arr * arr := (a, Arr (adim a) []).
Definition move_any (a : arr) : arr * arr := (a, Arr [] []).

(* arrays.hh:329-346 swap for different types. Both static or both dynamic: 333-335. Else xa is the one with dynamic rank, xb the one with static rank: 337-342.
   The static step (expr.hh:330-348, arrays.hh:324) of an array with static rank 1 is 1, and the assignment of another one is checked. None is a failed check before anything is changed. *)
Definition swap_same (a b : arr) : arr * arr := (b, a).
Definition swap_any_static (xa xb : arr) : option (arr * arr) :=
  if Nat.eqb (length (adim xa)) (length (adim xb)) then
    let to_static dv := match dv with [d] => if step d =? 1 then Some [Dim (len d) 1] else None | _ => Some dv end in
    match to_static (adim xa) with
    | Some c => Some (Arr (adim xb) (astore xb), Arr c (astore xa))
    | None => None
    end
  else None.
End Array.
Arguments arr : clear implicits.
Arguments outcome : clear implicits.
