(* Model: stencils, in the ways of bench/bench-stencil2.cc:49-107 and examples/laplace2d.cc:29-50, for any rank. Each way writes the part of the destination that isn't in the margins. *)
From Coq Require Import ZArith List Lia Bool.
From Verif Require Import M_Base M_Expr M_Ply M_Val M_View M_Slice M_Frame M_Mat M_Opt M_Doc.
Import ListNotations.
Open Scope Z_scope.

(* I = iota(n-lo-hi, lo) for each axis: bench/bench-stencil2.cc:22-23, examples/laplace2d.cc:34-35 (with lo = hi = 1); ply.hh:320-321 iota *)
Fixpoint grid (s lo hi : list Z) : res (list sq) :=
  match s, lo, hi with
  | n::s', l::lo', h::hi' => rbind (iota (Run (n - l - h)) l 1) (fun q => rbind (grid s' lo' hi') (fun r => Good (q :: r)))
  | _, _, _ => Good []
  end.
(* I+o, I or I-o (ra.hh:133-143), for each axis *)
Fixpoint moved (qs : list sq) (os : list Z) : res (list sq) :=
  match qs, os with
  | q::qs', o::os' =>
    rbind (if o <? 0 then opt_sub_sq_k q (- o) else if o =? 0 then Good q else opt_add_sq_k q o) (fun q' => rbind (moved qs' os') (fun r => Good (q' :: r)))
  | _, _ => Good []
  end.
(* a(I, J, ...), ply.hh:503-526 *)
Definition sq_sub (q : sq) : sub := ciota (M_Opt.lval (qlen q)) (qorg q) (qstep q).
Definition window (a : view) (qs : list sq) : res view := from a (map sq_sub qs).

Section Stencil.
Context {T : Type}.
Variables (fixed : bool) (z : list zt).
Notation ex := (expr (val T) (mem T)).

(* the right hand sides: A(I+o0, J+o1, ...), numbers, and operations of two arguments (ra.hh:178-225) *)
Inductive term := TWin (o : list Z) | TNum (x : T) | TOp (g : T -> T -> T) (a b : term).
(* bench/bench-stencil2.cc:50-58 f_slices, examples/laplace2d.cc:36, 48 *)
Fixpoint term_expr (v : view) (qs : list sq) (t : term) : res ex :=
  match t with
  | TWin o => rbind (moved qs o) (fun qs' => rbind (window v qs') (fun b => Good (viter b)))
  | TNum x => Good (Scalar (VT x))
  | TOp g a b => rbind (term_expr v qs a) (fun x => rbind (term_expr v qs b) (fun y => Good (times g x y)))
  end.
Definition put : T -> T -> T := fun _ x => x.
Definition slices (w v : view) (lo hi : list Z) (t : term) : M (mem T) (option unit) :=
  onres (grid (map len (vdv v)) lo hi) (fun qs => onres (window w qs) (fun w0 => onres (term_expr v qs t) (fun e => assign fixed z put (viter w0) e))).

(* iter<n>(v), n not more than the rank of v (expr.hh:266-312), as in M_Mat.v iter1 *)
Definition itern (n : nat) (v : view) : expr (item (T:=T)) (mem T) := Cell (vdv v) (vrank v - n) (fun p => inl (Vw (skipn (vrank v - n) (vdv v)) p)) (vcp v).
(* map(f, iter<n>(v)), expr.hh:652-663: the value of f on each cell *)
Definition cell_fun (f : view -> M (mem T) T) (xs : list (item (T:=T))) : M (mem T) item := match xs with [inl c] => x <- f c ;; ret (inr (VT x)) | _ => undef end.
(* expr.hh:50-60: = with these elements *)
Definition assign_item (xs : list (item (T:=T))) : M (mem T) item := match xs with [inr y; inr v] => u <- assign_op put [y; v] ;; ret (inr u) | _ => undef end.
Definition assign_map (f : view -> M (mem T) T) (w0 s : view) (n : nat) : M (mem T) (option unit) :=
  ply fixed no_stop z (Map assign_item [vals (viter w0); Map (cell_fun f) [itern n s]]).
(* bench/bench-stencil2.cc:60-72 f_stencil_explicit: the term on the elements of a cell, where offset 0 is at lo. Operands are evaluated from left to right; they have no effects, so the order doesn't matter. *)
Fixpoint cell_term (lo : list Z) (t : term) (c : view) : M (mem T) T :=
  match t with
  | TWin o => onres (from c (map (fun p => cidx (fst p + snd p)) (combine lo o))) (fun b => rd (VRef (vcp b)))
  | TNum x => ret x
  | TOp g a b => x <- cell_term lo a c ;; y <- cell_term lo b c ;; ret (g x y)
  end.
Definition explicit (w v : view) (lo hi : list Z) (t : term) : M (mem T) (option unit) :=
  onres (stencil v (BVector lo) (BVector hi)) (fun s => onres (grid (map len (vdv v)) lo hi) (fun qs => onres (window w qs) (fun w0 => assign_map (cell_term lo t) w0 s (vrank v)))).

(* bench/bench-stencil2.cc:74-83 f_stencil_arrayop. fi, zi: the traversal in sum(). *)
Variables (add mul : T -> T -> T) (zero : T).
Definition arrayop (fi : bool) (zi : list zt) (w v mask : view) (lo hi : list Z) : M (mem T) (option unit) :=
  onres (stencil v (BVector lo) (BVector hi)) (fun s => onres (grid (map len (vdv v)) lo hi) (fun qs => onres (window w qs) (fun w0 =>
    assign_map (fun c => sum fi zi add zero (times mul (viter c) (viter mask))) w0 s (vrank v)))).
(* bench/bench-stencil2.cc:85-95 f_sumprod *)
Definition sumprod (w v mask : view) (lo hi : list Z) : M (mem T) (option unit) :=
  onres (stencil v (BVector lo) (BVector hi)) (fun s => onres (grid (map len (vdv v)) lo hi) (fun qs => onres (window w qs) (fun w0 =>
    _ <- assign fixed z put (viter w0) (Scalar (VT zero)) ;;
    match map_verb [[vrank v; vrank v]] (mul_op mul) [viter s; viter mask] with Some e => assign fixed z add (viter w0) e | None => undef end))).
(* bench/bench-stencil2.cc:97-107 f_sumprod2 *)
Definition sumprod2 (w v mask : view) (lo hi : list Z) : M (mem T) (option unit) :=
  onres (stencil v (BVector lo) (BVector hi)) (fun s => onres (grid (map len (vdv v)) lo hi) (fun qs => onres (window w qs) (fun w0 =>
    _ <- assign fixed z put (viter w0) (Scalar (VT zero)) ;;
    each_verb fixed z [[0%nat; vrank v; vrank v]] (mac_op add mul) [viter w0; viter s; viter mask]))).
End Stencil.
Arguments term : clear implicits.
