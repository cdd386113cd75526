(* What the examples in T_*.v are stated with. Each of those takes a program and its result from the tests of the library, test/*.cc, and evaluates the program with the model. *)
From Coq Require Import ZArith List Bool.
From Verif Require Import Spec M_Base M_Expr M_Ply M_Val M_View M_Mat Spec_View.
Import ListNotations.
Open Scope Z_scope.

(* row-major position p in lengths s, and back *)
Fixpoint unravel (s : list Z) (p : Z) : list Z := match s with [] => [] | _ :: s' => let q := fold_right Z.mul 1 s' in p / q :: unravel s' (p mod q) end.
Fixpoint at_row (s : list Z) : list dim := match s with [] => [] | n :: s1 => Dim n (fold_right Z.mul 1 s1) :: at_row s1 end.
(* the array with lengths s at q, in row-major order *)
Definition big (s : list Z) (q : Z) : view := Vw (at_row s) q.
(* memory with f(i) at each index i of the array with lengths s at 0, 0 elsewhere; or at q on top of m *)
Definition with_ (q : Z) (s : list Z) (f : list Z -> Z) (m : mem Z) : mem Z := fun p => if (q <=? p) && (p <? q + fold_right Z.mul 1 s) then f (unravel s (p - q)) else m p.
Definition filled_by (s : list Z) (f : list Z -> Z) : mem Z := with_ 0 s f (fun _ => 0).
(* ra::_0, ra::_1, ... *)
Definition i0 (i : list Z) : Z := nth 0 i 0.
Definition i1 (i : list Z) : Z := nth 1 i 0.
Definition i2 (i : list Z) : Z := nth 2 i 0.
Definition i3 (i : list Z) : Z := nth 3 i 0.
Definition i4 (i : list Z) : Z := nth 4 i 0.
(* test_eq(ref, v): the lengths and the elements *)
Definition elems (m : mem Z) (v : view) : list Z := map (fun j => m (vplace v j)) (indices (vshape v)).
Definition seen (m : mem Z) (r : res view) : option (list Z * list Z) := match r with Good v => Some (vshape v, elems m v) | _ => None end.
Definition ref_ (s : list Z) (f : list Z -> Z) : option (list Z * list Z) := Some (s, map f (indices s)).
(* all the elements of an expression with VI, VT or VRef elements, visited by ply, in order *)
Definition num (v : val Z) (m : mem Z) : option Z := match v with VI i => Some i | VT t => Some t | VRef p => Some (m p) | VB b => Some (if b then 1 else 0) | _ => None end.
Definition gather_op (xs : list (val Z)) : M (mem Z * list Z) (val Z) :=
  match xs with [v] => fun s => match num v (fst s) with Some x => Ok VUnit (fst s, snd s ++ [x]) | None => Undef end | _ => undef end.
Definition listed (fixed : bool) (e : expr (val Z) (mem Z)) (m : mem Z) : option (list Z * list Z) :=
  match for_each_c fixed z_init gather_op [e] [] m with Ok l _ => Some (shape e, l) | _ => None end.
(* both traversals *)
Definition lists (e : expr (val Z) (mem Z)) (m : mem Z) : option (list Z * list Z) :=
  match listed false e m, listed true e m with
  | Some (s, l), Some (s', l') => if (list_eq_dec Z.eq_dec l l') then Some (s, l) else None
  | _, _ => None
  end.
Definition refused {A} (r : res A) : bool := match r with Refused => true | _ => false end.
Definition fails {W A} (o : out W A) : bool := match o with Fail _ => true | _ => false end.
(* arrays of integers, e.g. as subscripts *)
Definition iarr {W} (s l : list Z) : expr (val Z) W := Cell (at_row s) (length s) (fun p => VI (nth (Z.to_nat p) l 0)) 0.
Definition ivec {W} (l : list Z) : expr (val Z) W := iarr [Z.of_nat (length l)] l.
Definition seen_e (m : mem Z) (r : res (expr (val Z) (mem Z))) : option (list Z * list Z) := match r with Good e => lists e m | _ => None end.
(* elements of view v after o *)
Definition after (o : out (mem Z) (option unit)) (v : view) : option (list Z) := match o with Ok _ m => Some (elems m v) | _ => None end.
Definition after_e (f : Z -> Z -> Z) (r : res (expr (val Z) (mem Z))) (e : expr (val Z) (mem Z)) (m : mem Z) (v : view) : option (list Z) :=
  match r with
  | Good d => match after (assign false z_init f d e m) v, after (assign true z_init f d e m) v with
              | Some l, Some l' => if list_eq_dec Z.eq_dec l l' then Some l else None
              | _, _ => None end
  | _ => None
  end.
