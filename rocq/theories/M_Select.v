(* Model: the ways to select elements by lists of indices in bench/bench-from.cc. *)
From Coq Require Import ZArith List Bool.
From Verif Require Import M_Base M_Expr M_Ply M_Val M_View M_Slice M_Frame M_Mat M_Stencil M_Gemm M_Assembly.
Import ListNotations.
Open Scope Z_scope.

Section Select.
Context {T : Type}.
Variables (fixed : bool) (z : list zt).
Notation ex := (expr (val T) (mem T)).
Notation unit_ := (M (mem T) (option unit)).

(* Nested for, one for each length in ns, in order; ix has the counters of those outside. *)
Fixpoint loops (ns ix : list Z) (f : list Z -> unit_) : unit_ := match ns with [] => f ix | n :: ns' => loop n (fun j => loops ns' (ix ++ [j]) f) end.
(* The arrays I, one for each axis; in the benchmark they are all the same. They aren't in the memory of A and B, as they are of integers. *)
Definition entry (l : list Z) (i : Z) : Z := nth (Z.to_nat i) l 0.
Fixpoint entries (ls : list (list Z)) (ix : list Z) : list Z := match ls, ix with l :: ls', i :: ix' => entry l i :: entries ls' ix' | _, _ => [] end.
Definition counts (ls : list (list Z)) : list Z := map (fun l => Z.of_nat (length l)) ls.

(* bench/bench-from.cc:45, 76, 106, 136: the offset in the raw memory, as k+N*(j+N*i). The lengths are all the same in the benchmark. *)
Definition offset (ns ix : list Z) : Z := fold_left (fun p nx => snd nx + fst nx * p) (combine ns ix) 0.
(* bench/bench-from.cc:43-47, 73-79, 102-110, 131-141: indexing on raw pointers. Nothing checks the indices. na: the lengths of A. *)
Definition by_pointer (bp ap : Z) (na : list Z) (ls : list (list Z)) : unit_ :=
  loops (counts ls) [] (fun ix m => Ok None (wr (bp + offset (counts ls) ix) (m (ap + offset na (entries ls ix))) m)).
(* bench/bench-from.cc:48-50, 80-82, 111-113, 142-144: B = A(I, ...) *)
Definition by_arrays (st : bool) (b a : view) (ls : list (list Z)) : unit_ :=
  onres (from_u st a (map (fun _ => SArr) ls) (map iarray ls)) (fun e => assign fixed z put (viter b) e).
(* bench/bench-from.cc:51-53: for_each([&A](auto & b, auto i){ b = A(i); }, B, I) *)
Definition copy_at (a : view) (xs : list (val T)) : M (mem T) (val T) :=
  match xs with [u; VI i] => onres (from a [cidx i]) (fun r => assign_op put [u; VRef (vcp r)]) | _ => undef end.
Definition by_each (b a : view) (l : list Z) : unit_ := ply fixed no_stop z (Map (copy_at a) [viter b; iarray l]).
(* bench/bench-from.cc:54-58: for (int i=0; i<Isize; ++i) { B(i) = A(I(i)); }; I(i) is in range. Here for any number of axes. The right side goes first, but neither has effects. *)
Definition by_scalars (b a : view) (ls : list (list Z)) : unit_ :=
  loops (counts ls) [] (fun ix => onres (from a (map cidx (entries ls ix))) (fun r => onres (from b (map cidx ix)) (fun w m => Ok None (wr (vcp w) (m (vcp r)) m)))).
(* bench/bench-from.cc:146-154: B(i, j, k) = A(I[i], I[j], I[k])(I), with the last array in l *)
Definition by_slices (st : bool) (b a : view) (ls : list (list Z)) (l : list Z) : unit_ :=
  loops (counts ls) [] (fun ix => onres (from a (map cidx (entries ls ix))) (fun r => onres (from_u st r [SArr] [iarray l]) (fun e => onres (from b (map cidx ix)) (fun w => assign fixed z put (viter w) e)))).
End Select.
