(* Model: filling new and old arrays from lists, nested lists and expressions. Source: ra/arrays.hh:34-44, 62-82, 120-137, 292-304, 371-386. *)
From Coq Require Import ZArith List Lia Bool.
From Verif Require Import M_Base M_Expr M_Ply M_Val M_View M_Slice M_Mat.
Import ListNotations.
Open Scope Z_scope.

Section Fill.
Context {T : Type}.
Notation ex := (expr (val T) (mem T)).

(* arrays.hh:137 View::begin() is the pointer in two cases: the type has all the lengths and steps (CT) and they are in row-major order, or the rank is 1 and the step is 1 in the type.
   [ct]: all the lengths and steps are in the type. [st]: the step of the only axis is in the type. Array::begin() (arrays.hh:316) is always the pointer. *)
Definition begin_pointer (ct st : bool) (dv : list dim) : bool :=
  (ct && c_order dv true) || (st && match dv with [d] => step d =? 1 | _ => false end).

(* std::ranges::copy to a pointer *)
Fixpoint copy_pointer (xs : list T) (p : Z) : M (mem T) unit :=
  match xs with
  | [] => ret tt
  | x::xs' => fun m => copy_pointer xs' (p + 1) (wr p x m)
  end.
(* std::ranges::copy to an STLIterator (ply.hh:176-226) *)
Fixpoint copy_iterator (xs : list T) (it : @stl (val T) (mem T)) : M (mem T) unit :=
  match xs with
  | [] => ret tt
  | x::xs' => v <- deref (sa it) ;;
              match v with VRef p => fun m => copy_iterator xs' (stl_next it) (wr p x m) | _ => undef end
  end.
(* arrays.hh:34-44 to_ravel(x, b), with x a list or a 1-D array. If both sizes are static then a mismatch doesn't compile; that is a refusal here too. *)
Definition to_ravel (pointer : bool) (xs : list T) (b : view) : M (mem T) unit :=
  if Z.of_nat (length xs) =? dimv_size (vdv b) then
    if pointer then copy_pointer xs (vcp b)
    else match stl_begin (viter b) with Some it => copy_iterator xs it | None => fail end
  else fail.
(* arrays.hh:130 View = {x ...} with as many items as elements *)
Definition view_fill (ct st : bool) (xs : list T) (b : view) : M (mem T) unit := to_ravel (begin_pointer ct st (vdv b)) xs b.

(* arrays.hh:296 Array(s, none): a new array at [q], a part of the memory that isn't in use. The elements are default-initialized (base.hh:249), so they have any value at first. *)
Definition alloc {A} (q : Z) (s : list Z) (k : view -> M (mem T) A) : M (mem T) view :=
  fun m => match filldimv s with
           | Some (dv, n) => match k (Vw dv q) m with Ok _ m' => Ok (Vw dv q) m' | Fail m' => Fail m' | Undef => Undef end
           | None => Fail m
           end.
(* arrays.hh:298, 300, 302 Array(s, {x ...}) *)
Definition array_fill (q : Z) (s : list Z) (xs : list T) : M (mem T) view := alloc q s (to_ravel true xs).

(* arrays.hh:297 Array(s, x) with x an expression or a scalar (as Scalar) *)
Definition array_from (fixed : bool) (z : list zt) (q : Z) (s : list Z) (e : ex) : M (mem T) view :=
  alloc q s (fun v => assign fixed z (fun _ x => x) (viter v) e).
(* arrays.hh:371-386 concrete, 291 Array(x), for rank >= 1. If the size is static the result is SmallArray (arrays.hh:204-205 view() = x); its storage isn't distinguished here. *)
Definition concrete (fixed : bool) (z : list zt) (q : Z) (e : ex) : M (mem T) view := array_from fixed z q (shape e) e.

(* arrays.hh:62-67 braces: std::initializer_list nested to depth N. The type has the depth, so Item is only found at the bottom and Braces only above it. *)
Inductive nest := Item (t : T) | Braces (l : list nest).
(* arrays.hh:69-82 braces_shape *)
Fixpoint braces_shape (N : nat) (n : nest) : list Z :=
  match N with
  | O => []
  | S N' => match n with
            | Braces l => Z.of_nat (length l) :: match l with x::_ => braces_shape N' x | [] => repeat 0 N' end
            | Item _ => repeat 0 (S N')
            end
  end.
(* a list of items as a rank 1 expression (expr.hh:266-312 on the view given by expr.hh:353 viewptr) *)
Definition list_iter (l : list nest) : ex :=
  Cell [Dim (Z.of_nat (length l)) 1] 1 (fun p => match nth_error l (Z.to_nat p) with Some (Item t) => VT t | _ => VUnit end) 0.
(* iter<-1>(v) and a list of lists as arguments of the same operation *)
Definition list_iter' (l : list nest) : expr (view + nest) (mem T) :=
  Cell [Dim (Z.of_nat (length l)) 1] 1 (fun p => inr (nth (Z.to_nat p) l (Braces []))) 0.
Definition items (v : view) : expr (view + nest) (mem T) :=
  Cell (vdv v) 1 (fun p => inl (Vw (skipn 1 (vdv v)) p)) (vcp v).
(* arrays.hh:120-122 View = braces of depth N > 1 : iter<-1>(v) = x, where each element of the first is a view that is assigned from the corresponding list (expr.hh:50-60);
   and arrays.hh:133 if the depth is 1. fx and zs: kind of traversal and thread_local state at each depth. A view of rank 0 is refused at expr.hh:281. *)
Fixpoint braces_assign (fx : nat -> bool) (zs : nat -> list zt) (N : nat) (v : view) (n : nest) : M (mem T) (option unit) :=
  match N, n with
  | S N', Braces l =>
    match N' with
    | O => assign (fx N) (zs N) (fun _ x => x) (viter v) (list_iter l)
    | _ => if (1 <=? vrank v)%nat then
             ply (fx N) no_stop (zs N)
               (Map (fun xs => match xs with
                               | [inl c; inr x] => _ <- braces_assign fx zs N' c x ;; ret (inl c)
                               | _ => undef
                               end) [items v; list_iter' l])
           else fail
    end
  | _, _ => undef
  end.
(* arrays.hh:292-294 Array(braces). With depth 1 that's Array(s, initializer_list) (298), else Array(s, x) (297). *)
Definition array_braces (fx : nat -> bool) (zs : nat -> list zt) (q : Z) (N : nat) (n : nest) : M (mem T) view :=
  match N, n with
  | 1%nat, Braces l => alloc q (braces_shape N n) (fun v => match
      fold_right (fun x r => match x, r with Item t, Some ts => Some (t :: ts) | _, _ => None end) (Some []) l with
      | Some xs => to_ravel true xs v | None => undef end)
  | _, _ => alloc q (braces_shape N n) (fun v => braces_assign fx zs N v n)
  end.
End Fill.
Arguments nest : clear implicits.
