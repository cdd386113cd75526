(* Model: operations on short arrays through the vector extension. Source: ra/ra.hh:145-175, ra/arrays.hh:156-174 (with RA_OPT_SMALL=1). *)
From Coq Require Import ZArith List Lia Bool.
From Verif Require Import M_Base M_Expr M_Ply M_Val M_View M_Slice M_Mat.
Import ListNotations.
Open Scope Z_scope.

Section Vec.
Context {T : Type}.

(* arrays.hh:162-167 align_req<T, N>, in units of sizeof(T). The types in equals_any (164) have alignof(T) = sizeof(T); ext tells if T is one of them. alignof(extvector<T, N>) is its size. *)
Definition align_req (ext : bool) (n : Z) : Z := if ext && (0 <? n) && (0 =? Z.land n (n - 1)) then n else 1.

(* ra.hh:154 *(extvector<T, N> * )(cp). Pointers are places, so cp has the alignment of extvector<T, N> if it's a multiple of N. Otherwise the access is undefined. *)
Definition vload (n : Z) (cp : Z) : M (mem T) (list T) :=
  fun m => if cp mod n =? 0 then Ok (map (fun i => m (cp + Z.of_nat i)) (seq 0 (Z.to_nat n))) m else Undef.
(* ra.hh:151-156: the vector operation acts on each element. The result is the new array val; these are its elements. *)
Definition small_op (f : T -> T -> T) (n a b : Z) : M (mem T) (list T) :=
  x <- vload n a ;; y <- vload n b ;; ret (map (fun p => f (fst p) (snd p)) (combine x y)).

(* ra.hh:146-148 match_small: Cell<T *, ...> on one axis of length N and step 1, all in the type. The types are always of dims dv, and so the model doesn't tell apart those in the type: an e of a dynamic
   length isn't given to opt_small. *)
Definition match_small (n : Z) (e : expr (val T) (mem T)) : option Z :=
  match e with Cell [d] 1 _ cp => if (len d =? n) && (step d =? 1) then Some cp else None | _ => None end.
(* ra.hh:145-175: for N = 2, 4, 8 *)
Fixpoint opt_small (ns : list Z) (f : T -> T -> T) (e1 e2 : expr (val T) (mem T)) : option (M (mem T) (list T)) :=
  match ns with
  | [] => None
  | n::ns' => match match_small n e1, match_small n e2 with Some a, Some b => Some (small_op f n a b) | _, _ => opt_small ns' f e1 e2 end
  end.
Definition opt_op : (T -> T -> T) -> expr (val T) (mem T) -> expr (val T) (mem T) -> option (M (mem T) (list T)) := opt_small [2; 4; 8].

(* arrays.hh:169-199 SmallArray<T, lens> as an object whose elements begin at cp. The alignas (arrays.hh:171-173) is on the place. *)
Definition small_at (lens : list Z) (cp : Z) (v : view) : Prop :=
  exists dv n, filldimv lens = Some (dv, n) /\ v = Vw dv cp /\ cp mod (align_req true n) = 0.

End Vec.
