(* Model: rank conjunction, outer product, array subscripts, index placeholders. Source: ra/expr.hh:457-499, 659-683, ra/ply.hh:459-551, ra/arrays.hh:361. *)
From Coq Require Import ZArith List Lia Bool.
From Verif Require Import M_Base M_Expr M_Val M_View M_Slice.
Import ListNotations.
Open Scope Z_scope.

Section Frame.
Context {X W : Type}.

(* expr.hh:458-466 reframe. mp::iota<n> is seq 0 n. *)
Fixpoint eqb_list (l m : list nat) : bool :=
  match l, m with [], [] => true | a::l', b::m' => Nat.eqb a b && eqb_list l' m' | _, _ => false end.
Definition reframe (a : expr X W) (di : list nat) : expr X W := if eqb_list di (seq 0 (length di)) then a else Reframe a di.

(* expr.hh:476-499 Framematch. cs: the crank lists of the nested Verbs from the outside in (the operation in the center isn't needed). rs: ranks of the arguments.
   ax: for each argument, the axes of the result that its first axes go to (Ri). None: there is no such list, since mp::iota<> with a negative length isn't defined (base.hh:96).
   All of these are compile time constants. *)
Definition frame_axes (r c skip : nat) (ax : list nat) : option (list nat) :=
  if (length ax + c <=? r)%nat then Some (ax ++ seq skip (r - length ax - c)) else None.
Fixpoint frames (rs c : list nat) (skip : nat) (axs : list (list nat)) : option (list (list nat)) :=
  match rs, c, axs with
  | r::rs', c0::c', ax::axs' =>
    match frame_axes r c0 skip ax, frames rs' c' skip axs' with Some x, Some xs => Some (x :: xs) | _, _ => None end
  | [], [], [] => Some []
  | _, _, _ => None
  end.
(* std::ranges::max(live), expr.hh:485, 487 *)
Fixpoint max_live (rs c : list nat) (axs : list (list nat)) : nat :=
  match rs, c, axs with
  | r::rs', c0::c', ax::axs' => Nat.max (r - length ax - c0) (max_live rs' c' axs')
  | _, _, _ => 0%nat
  end.
Fixpoint framematch (cs : list (list nat)) (rs : list nat) (axs : list (list nat)) (skip : nat) : option (list (list nat)) :=
  match cs with
  | [] => frames rs (map (fun _ => 0%nat) rs) skip axs
  | c::cs' => match frames rs c skip axs with Some axs' => framematch cs' rs axs' (skip + max_live rs c axs) | None => None end
  end.

(* expr.hh:665-683 map with a Verb. The ranks are static; an argument with dynamic rank isn't supported there. *)
Definition map_verb (cs : list (list nat)) (op : list X -> M W X) (t : list (expr X W)) : option (expr X W) :=
  match framematch cs (map rankn t) (map (fun _ => []) t) 0 with
  | Some axs => Some (Map op (zipw reframe t axs))
  | None => None
  end.

(* ply.hh:465-477 fromu_loop: the crank lists, for drop = d up to the number of arguments *)
Definition outer_cranks (rs : list nat) : list (list nat) :=
  map (fun d => repeat 0%nat d ++ skipn d rs) (seq 1 (length rs - 1)).
(* ply.hh:545-550 from for an operation. Without arguments (545) the result is op(), which isn't an expression; here t isn't empty. *)
Definition from_op (op : list X -> M W X) (t : list (expr X W)) : option (expr X W) := map_verb (outer_cranks (map rankn t)) op t.

End Frame.

(* arrays.hh:361 tindex; iota(): ply.hh:320 *)
Definition tindex {T W} (w : nat) : expr (val T) W := reframe (Cell [Dim UNB 1] 1 VI 0) [w].

Section Fancy.
Context {T : Type}.

(* The view b as an operation on scalar subscripts: from() with rank 0 result (ply.hh:510-511), or the lambda in ply.hh:533-534. A subscript that isn't an integer is a type error. *)
Fixpoint ints (xs : list (val T)) : option (list Z) :=
  match xs with [] => Some [] | VI i :: r => match ints r with Some l => Some (i :: l) | None => None end | _ => None end.
Definition view_op {W} (b : view) (xs : list (val T)) : M W (val T) :=
  match ints xs with
  | Some l => match from b (map cidx l) with Good v => ret (VRef (vcp v)) | Refused => fail | UB => undef end
  | None => undef
  end.

(* ply.hh:460-465 spacer, for one axis: iota(clen(b, k)). st: the lengths of b are in its type (ply.hh:515-516), and then the length may be UNB. Otherwise it's an integer, and one that is
   negative is refused (expr.hh:69, 358). *)
Definition spacer {W} (st : bool) (d : dim) : option (expr (val T) W) := if (0 <=? len d) || (st && (len d =? UNB)) then Some (Cell [Dim (len d) 1] 1 VI 0) else None.
(* ply.hh:479-499 fromu: the arguments in the order of the axes of b. ti: for each axis of b, the subscript that replaces it (after wlen), or None for a spacer. *)
Fixpoint fancy_args {W} (st : bool) (dv : list dim) (ti : list (option (expr (val T) W))) : option (list (expr (val T) W)) :=
  match dv, ti with
  | d::dv', i::ti' =>
    match (match i with Some e => Some e | None => spacer st d end), fancy_args st dv' ti' with Some e, Some r => Some (e :: r) | _, _ => None end
  | [], [] => Some []
  | _, _ => None
  end.
(* the arrays among the subscripts, placed on the axes of b (fromds, ply.hh:446-452; ds in fromu) *)
(* ply.hh:446-452 fromds, 487-499 fromu: for each axis of the beaten view (see fromb), the array among the subscripts that is for it, or None for a spacer. r: axes of a that are left. *)
Fixpoint fancy_ti {W} (subs : list sub) (es : list (expr (val T) W)) (r : nat) : list (option (expr (val T) W)) :=
  match subs with
  | [] => repeat None r
  | SIdx _ :: s => fancy_ti s es (r - 1)
  | SSeq _ _ _ :: s => None :: fancy_ti s es (r - 1)
  | SSeqN _ dv :: s => repeat None (length dv) ++ fancy_ti s es (r - 1)
  | SDots k :: s => let n := match k with Some n => n | None => (r - sumn (map fsrc s))%nat end in repeat None n ++ fancy_ti s es (r - n)
  | SInsert n :: s => repeat None n ++ fancy_ti s es r
  | SArr :: s => hd_error es :: fancy_ti s (tl es) (r - 1)
  end.
Definition fancy {W} (st : bool) (b : view) (ti : list (option (expr (val T) W))) : option (expr (val T) W) :=
  match fancy_args st (vdv b) ti with Some t => from_op (view_op b) t | None => None end.
(* ply.hh:503-526 from with arrays among the subscripts: es, one for each SArr. The rank of a is in its type. st: also the lengths of a, and those of the sequences among the subscripts. *)
Definition from_u {W} (st : bool) (a : view) (subs : list sub) (es : list (expr (val T) W)) : res (expr (val T) W) :=
  rbind (from a subs) (fun b => match fancy st b (fancy_ti subs es (vrank a)) with Some e => Good e | None => Refused end).
(* ply.hh:527-544 the same if the rank of a is not in its type. The ranks of the arrays are. With arrays only (531-536) the operation is on a itself. Otherwise (538-542) each axis of the beaten view
   must be for one of the arrays. *)
Definition is_arr (s : sub) : bool := match s with SArr => true | _ => false end.
Definition from_any {W} (a : view) (subs : list sub) (es : list (expr (val T) W)) : res (expr (val T) W) :=
  if forallb is_arr subs then
    if Nat.eqb (vrank a) (length subs) then match from_op (view_op a) es with Some e => Good e | None => Refused end else Refused
  else if Z.of_nat (length (filter is_arr subs)) =? frombrank a subs then
    rbind (from a subs) (fun b => match fancy false b (map Some es) with Some e => Good e | None => Refused end)
  else Refused.
End Fancy.
