(* Model: construction of Small. Source: ra/arrays.hh:51-63 (nested_arg), 123-128 (View = array), 195-202 (SmallArray constructors), 303 (Array from pointer). *)
From Coq Require Import ZArith List Bool.
From Verif Require Import Spec M_Base M_Expr M_Ply M_Val M_View M_Mat M_Cell M_Fill M_Cells.
Import ListNotations.
Open Scope Z_scope.

Section Small.
Context {T : Type}.
(* fixed, z: kind and thread_local state of the traversal of the cells; fi, zi: those of the traversal in each. As the lengths are static these are always ply_fixed, but the assignment doesn't depend on that. *)
Variables (fixed fi : bool) (z zi : list zt).

(* expr.hh c_dimv: the dimensions of SmallArray; filldimv (expr.hh:199-219) at compile time *)
Definition dense (s : list Z) : list dim := match filldimv s with Some (dv, _) => dv | None => [] end.
(* arrays.hh:197 SmallArray(T const & t): std::ranges::fill(cp, t) *)
Fixpoint fill_pointer (n : nat) (p : Z) (t : T) : M (mem T) unit :=
  match n with
  | O => ret tt
  | S n' => fun m => fill_pointer n' (p + 1) t (wr p t m)
  end.
Definition small_scalar (q : Z) (s : list Z) (t : T) : M (mem T) unit := fill_pointer (Z.to_nat (dimv_size (dense s))) q t.
(* arrays.hh:199 SmallArray(x ...): view() = { x ... }, as many as elements. The view has all the lengths and steps in the type. *)
Definition small_elements (q : Z) (s : list Z) (xs : list T) : M (mem T) unit := view_fill true true xs (Vw (dense s) q).
(* arrays.hh:123-128 View = { x ... }, with x ... an array at r of n SmallArray of shape s, one after the other: iter<-1> of the view = x. For 1-D views those are of type T (arrays.hh:62) and are assigned as such; here they
   are views of rank 0. *)
Definition view_nested (v : view) (n : Z) (s : list Z) (r : Z) : M (mem T) (option unit) :=
  match icell v (-1) with
  | Good d => ply fixed no_stop z (Map (cell_op fi zi (fun _ x => x)) [d; Cell [Dim n 1] 1 (fun p => Vw (dense s) (r + p * dimv_size (dense s))) 0])
  | _ => fail
  end.
(* arrays.hh:200 SmallArray(nested_args const & ... x): view() = { x ... }, where each x is itself a SmallArray, given by nested lists. At q; r is free space for the array of the x ..., which are made first, in order, each one
   with free space after that. In the code all the temporaries are kept until the end of the whole; here the space for those of x is used again for those of the next one. With another number of items
   it doesn't compile. If the shape is [1] then it's the constructor from T (200 is not available), and 197 is used. *)
Fixpoint small_nested (q r : Z) (s : list Z) (t : nest T) : M (mem T) unit :=
  match s, t with
  | [], Item x => fun m => Ok tt (wr q x m)
  | n::s', Braces l =>
    if Z.of_nat (length l) =? n then
      if (n =? 1) && (length s' =? 0)%nat then match l with [Item x] => small_scalar q s x | _ => undef end
      else
        _ <- (fix args (k : Z) (l : list (nest T)) : M (mem T) unit :=
          match l with
          | [] => ret tt
          | x::l' => _ <- small_nested (r + k * dimv_size (dense s')) (r + dimv_size (dense s)) s' x ;; args (k + 1) l'
          end) 0 l ;;
        _ <- view_nested (Vw (dense s) q) n s' r ;; ret tt
    else fail
  | _, _ => undef
  end.
(* std::ranges::copy_n(p, n, b) with pointers *)
Fixpoint copy_n (n : nat) (p b : Z) : M (mem T) unit :=
  match n with
  | O => ret tt
  | S n' => fun m => copy_n n' (p + 1) (b + 1) (wr b (m p) m)
  end.
(* arrays.hh:303 Array({s ...}, p) *)
Definition array_pointer (q : Z) (s : list Z) (p : Z) : M (mem T) view := alloc q s (fun v => copy_n (Z.to_nat (dimv_size (vdv v))) p (vcp v)).
End Small.
