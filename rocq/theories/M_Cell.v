(* Model: iteration on the cells of a view. Source: ra/expr.hh:225-230, 266-312. *)
From Coq Require Import ZArith List Lia Bool.
From Verif Require Import M_Base M_Expr M_View.
Import ListNotations.
Open Scope Z_scope.

(* expr.hh:228-229 rank_cell, rank_frame when the rank is known. cr>=0 is cell rank, -cr>0 is frame rank. *)
Definition rank_cell (r cr : Z) : Z := if cr >=? 0 then cr else r + cr.
Definition rank_frame (r cr : Z) : Z := if cr >=? 0 then r - cr else - cr.

(* expr.hh:266-312 Cell: iter<cr>(v), or iter(v, cr) with a run time cr. The elements are views, whose dimensions are those of the cell. A cell of rank 0 is given as a view too
   (a reference in the code). If the ranks are static then a bad one doesn't compile (272), and if they aren't it's refused (281), or std::vector::resize fails (279). *)
Definition icell {W} (v : view) (cr : Z) : res (expr view W) :=
  let r := Z.of_nat (vrank v) in
  let dcell := rank_cell r cr in
  let dframe := r - dcell in                                                                           (* 287 *)
  if (0 <=? dframe) && (0 <=? dcell) then
    Good (Cell (vdv v) (Z.to_nat dframe) (fun p => Vw (map (fun k => nth (Z.to_nat dframe + k) (vdv v) dim0) (seq 0 (Z.to_nat dcell))) p) (vcp v))   (* 282 *)
  else Refused.
