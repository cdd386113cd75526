(* Model: the matrices by elements of examples/laplace3d.cc. *)
From Coq Require Import ZArith List.
From Verif Require Import M_Base M_Expr M_Ply M_Val M_View M_Slice M_Frame M_Mat M_Stencil.
Import ListNotations.
Open Scope Z_scope.

Section Assembly.
Context {T : Type}.
Notation ex := (expr (val T) (mem T)).
Notation unit_ := (M (mem T) (option unit)).
(* fixed, z: the traversal in the assignments and the outer one in gemv; zi: the inner one in gemv *)
Variables (fixed : bool) (z zi : list zt).
Variables (add mul : T -> T -> T) (zero : T).

(* examples/laplace3d.cc:46-50 Element: v, and the places of reg1 and reg2. Indices aren't in the memory of the model. *)
Record element_ := El { ev : list Z; reg1 : Z; reg2 : Z }.
(* an array of indices as a subscript: base.hh start(), arrays of C and Big<int, 1> alike *)
Definition iarray (l : list Z) : ex := Cell [Dim (Z.of_nat (length l)) 1] 1 (fun p => VI (nth (Z.to_nat p) l 0)) 0.
(* v(l), ply.hh:503-526 *)
Definition picked (v : view) (l : list Z) (f : ex -> unit_) : unit_ := onres (from_u false v [SArr] [iarray l]) f.
(* ra::iter(E.reg1); nv is 8 in the source *)
Definition reg (nv p : Z) : view := Vw [Dim nv 1] p.
(* for_each(f, A.E) *)
Fixpoint each_element (f : element_ -> unit_) (es : list element_) : unit_ := match es with [] => ret None | e :: r => _ <- f e ;; each_element f r end.

(* examples/laplace3d.cc:65. a is A.M. Neither v(E.v) nor w(E.v) is a Slice. *)
Definition mult0_on (a v w : view) (e : element_) : unit_ := picked v (ev e) (fun b => picked w (ev e) (fun c => gemv_e add mul fixed z zi a b c)).
(* examples/laplace3d.cc:75-80 *)
Definition mult1_on (nv : Z) (a v w : view) (e : element_) : unit_ :=
  let r1 := reg nv (reg1 e) in let r2 := reg nv (reg2 e) in
  _ <- picked v (ev e) (fun b => assign fixed z put (viter r1) b) ;;
  _ <- assign fixed z put (viter r2) (Scalar (VT zero)) ;;
  _ <- gemv_e add mul fixed z zi a (viter r1) (viter r2) ;;
  picked w (ev e) (fun c => assign fixed z add c (viter r2)).
(* examples/laplace3d.cc:66-67, 81-82 *)
Definition close (w : view) (bnd : list Z) (h : T) : unit_ := _ <- picked w bnd (fun c => assign fixed z put c (Scalar (VT zero))) ;; assign fixed z mul (viter w) (Scalar (VT h)).
(* examples/laplace3d.cc:60-68 *)
Definition mult0 (a : view) (es : list element_) (bnd : list Z) (h : T) (v w : view) : unit_ :=
  _ <- assign fixed z put (viter w) (Scalar (VT zero)) ;; _ <- each_element (mult0_on a v w) es ;; close w bnd h.
(* examples/laplace3d.cc:70-83 *)
Definition mult1 (nv : Z) (a : view) (es : list element_) (bnd : list Z) (h : T) (v w : view) : unit_ :=
  _ <- assign fixed z put (viter w) (Scalar (VT zero)) ;; _ <- each_element (mult1_on nv a v w) es ;; close w bnd h.
End Assembly.
