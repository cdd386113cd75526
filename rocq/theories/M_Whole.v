(* Model: cat, norm2, normv. Source: ra/arrays.hh:464-473, ra/ra.hh:376-377. *)
From Coq Require Import ZArith List Lia Bool.
From Verif Require Import M_Base M_Expr M_Ply M_Val M_View M_Slice M_Mat M_Fill.
Import ListNotations.
Open Scope Z_scope.

Section Whole.
Context {T : Type}.
Notation ex := (expr (val T) (mem T)).

(* arrays.hh:469-470 val(iota(ic<n>, o)) = a *)
Definition set_part (fixed : bool) (z : list zt) (v : view) (n o : Z) (a : ex) : M (mem T) (option unit) :=
  match from v [ciota n o 1] with
  | Good b => assign fixed z (fun _ x => x) (viter b) a
  | Refused => fail
  | UB => undef
  end.
(* arrays.hh:464-473 cat. The ranks and sizes are static; a failed requires or static_assert is a refusal. The result is at [q], a part of the memory that isn't in use.
   f1, f2: which traversal. *)
Definition cat (f1 f2 : bool) (z1 z2 : list zt) (q : Z) (a1 a2 : ex) : M (mem T) view :=
  if (0 <=? sizee a1) && (0 <=? sizee a2) && ((rankn a1 <=? 1)%nat && (rankn a2 <=? 1)%nat) then
    let v := Vw [Dim (sizee a1 + sizee a2) 1] q in
    _ <- set_part f1 z1 v (sizee a1) 0 a1 ;;
    _ <- set_part f2 z2 v (sizee a2) (sizee a1) a2 ;;
    ret v
  else fail.

(* ra.hh:376 norm2 with 395-401 reduce_sqrm, where the square may have another type, e.g. for complex numbers. root: std::sqrt *)
Context {U V : Type}.
Definition norm2 (fixed : bool) (z : list zt) (add : U -> U -> U) (sqrm : T -> U) (root : U -> V) (zero : U) (a : ex) : M (mem T) V :=
  c <- for_each_c fixed z (op1 (fun v => x <- rdl v ;; update (fun c => add c (sqrm x)))) [a] zero ;; ret (root c).
(* expr.hh:50-60, arrays.hh:133-135: b /= n with n a scalar of another type. quo t n is t/n converted to T. The scalar is VUnit here and n is in the operation. *)
Definition divide (fixed : bool) (z : list zt) (quo : T -> V -> T) (b : ex) (n : V) : M (mem T) (option unit) :=
  ply fixed no_stop z (Map (op2 (fun y _ => match y with VRef p => fun m => Ok VUnit (wr p (quo (m p) n) m) | _ => undef end)) [b; Scalar VUnit]).
(* ra.hh:377 normv *)
Definition normv (f1 f2 f3 : bool) (z1 z2 z3 : list zt) (add : U -> U -> U) (sqrm : T -> U) (root : U -> V) (quo : T -> V -> T) (zero : U) (q : Z) (a : ex) : M (mem T) view :=
  b <- concrete f1 z1 q a ;; n <- norm2 f2 z2 add sqrm root zero (viter b) ;; _ <- divide f3 z3 quo (viter b) n ;; ret b.
End Whole.
