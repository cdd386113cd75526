(* Model: view operations. Source: ra/arrays.hh:408-630. *)
From Coq Require Import ZArith List Lia Bool.
From Verif Require Import M_Base.
Import ListNotations.
Open Scope Z_scope.

(* arrays.hh:84-149 View: dimensions and the place of the first element. An expression such as a.data() is the place. *)
Record view := Vw { vdv : list dim; vcp : Z }.
Definition vrank (a : view) : nat := length (vdv a).

(* Result of a view operation. Refused: a failed RA_CK. UB: undefined (out of range read or write, division by zero). *)
Inductive res (A : Type) := Good (a : A) | Refused | UB.
Arguments Good {A}. Arguments Refused {A}. Arguments UB {A}.
Definition rbind {A B} (m : res A) (f : A -> res B) : res B := match m with Good a => f a | Refused => Refused | UB => UB end.

(* replace one element *)
Fixpoint set_nth {A} (l : list A) (k : nat) (x : A) : list A :=
  match l, k with
  | [], _ => []
  | _::l', O => x::l'
  | y::l', S k' => y :: set_nth l' k' x
  end.

(* arrays.hh:408-428 reverse with a run time axis k. a.len(k) is read (418) before k is checked (419), and this is out of range if k is.
   The static versions (413-415) make the second check at compile time; their result is the same. *)
Definition reverse (a : view) (k : Z) : res view :=
  if inside k (Z.of_nat (vrank a)) then
    let d := nth (Z.to_nat k) (vdv a) dim0 in
    if UNB =? len d then Refused
    else let revp := if 0 =? len d then 0 else step d * (len d - 1) in
         Good (Vw (set_nth (vdv a) (Z.to_nat k) (Dim (len d) (step d * -1))) (vcp a + revp))
  else UB.

(* arrays.hh:431-442 transpose_dims: the loop on s and src. Writing out of the range of dst is undefined. *)
Fixpoint transpose_loop (s : list Z) (src dst : list dim) : res (list dim) :=
  match s, src with
  | sk::s', d::src' =>
    if inside sk (Z.of_nat (length dst)) then
      let x := nth (Z.to_nat sk) dst dim0 in
      transpose_loop s' src' (set_nth dst (Z.to_nat sk)
        (Dim (if len x >=? 0 then Z.min (len x) (len d) else len d) (step x + step d)))
    else UB
  | _, _ => Good dst
  end.
(* arrays.hh:447 trank *)
Definition trank (s : list Z) : Z := match s with [] => 0 | x::s' => 1 + fold_left Z.max s' x end.
(* arrays.hh:431-462 transpose. A negative trank is not a valid size for dst. *)
Definition transpose (a : view) (s : list Z) : res view :=
  if trank s <? 0 then UB
  else if negb (Nat.eqb (length s) (vrank a)) then Refused
  else rbind (transpose_loop s (vdv a) (repeat (Dim UNB 0) (Z.to_nat (trank s)))) (fun dst => Good (Vw dst (vcp a))).
(* arrays.hh:461, 462 *)
Definition transpose10 (a : view) : res view := transpose a [1; 0].
Definition diag (a : view) : res view := transpose a [0; 0].

(* arrays.hh:477-478: the step of the last axis with length other than 1; 1 if there is none *)
Definition inner_step (dv : list dim) : Z := match skip_ones (rev dv) with [] => 1 | d::_ => step d end.
(* arrays.hh:474-481 ravel_free *)
Definition ravel_free (a : view) : res view :=
  if c_order (vdv a) false then Good (Vw [Dim (dimv_size (vdv a)) (inner_step (vdv a))] (vcp a)) else Refused.

(* arrays.hh:491-495: the loop on j that multiplies quot by the lengths after the placeholder *)
Fixpoint quot_loop (quot : Z) (s : list Z) : option Z :=
  match s with
  | [] => Some quot
  | n::s' => if quot * n >? 0 then quot_loop (quot * n) s' else None
  end.
(* arrays.hh:489-504: replace the placeholder. Returns the new lengths and lb. C++ division truncates (Z.quot, Z.rem). *)
Fixpoint placeholder (la lb : Z) (s : list Z) : res (list Z * Z) :=
  match s with
  | [] => Good ([], lb)
  | n::s' =>
    if n =? -1 then
      match quot_loop lb s' with
      | None => Refused
      | Some quot =>
        if quot =? 0 then UB
        else let pv := Z.quot la quot in
             if (Z.rem la quot =? 0) && (pv >=? 0) then Good (pv :: s', la) else Refused
      end
    else rbind (placeholder la (lb * n) s') (fun r => Good (n :: fst r, snd r))
  end.

(* arrays.hh:507-529, the loop on i from the last axis to the first. ra, rb: the reversed axes of a and lengths of b that remain.
   acc: the axes of b that have been set. The result is the dimensions of b, or None if lengths differ on some axis (510). *)
Fixpoint tail_match (rav : list dim) (rsb : list Z) (acc : list dim) : option (list dim) :=
  match rav, rsb with
  | d::rav', n::rsb' => if len d =? n then tail_match rav' rsb' (d :: acc) else None
  | [], _ => Some (map (fun n => Dim n 0) (rev rsb) ++ acc)      (* 523-527 tile *)
  | _::_, [] => Some acc                                         (* select *)
  end.
(* arrays.hh:483-529 reshape. la, the size of a, is negative if a has an unbounded axis. *)
Definition reshape (a : view) (sb : list Z) : res view :=
  let la := dimv_size (vdv a) in
  rbind (placeholder la 1 sb) (fun r =>
    let (s, lb) := r in
    match tail_match (rev (vdv a)) (rev s) [] with
    | Some dv => Good (Vw dv (vcp a))
    | None => if c_order (vdv a) false && (la >=? lb) then
                match filldimv s with
                | Some (dv, _) => Good (Vw (map (fun d => Dim (len d) (step d * step (last (vdv a) dim0))) dv) (vcp a))
                | None => Refused
                end
              else Refused
    end).

(* arrays.hh:615-630 stencil. lo and hi are vectors with one value per axis, or scalars, which match any number of axes; the check that
   the lengths agree is made by for_each. *)
Inductive bounds := BScalar (n : Z) | BVector (v : list Z).
Definition bounds_for (r : nat) (b : bounds) : option (list Z) :=
  match b with
  | BScalar n => Some (repeat n r)
  | BVector v => if Nat.eqb (length v) r then Some v else None
  end.
Definition bounds_nonneg (b : bounds) : bool := match b with BScalar n => n >=? 0 | BVector v => forallb (fun n => n >=? 0) v end.
Fixpoint stencil_outer (dv : list dim) (lo hi : list Z) : option (list dim) :=
  match dv, lo, hi with
  | d::dv', l::lo', h::hi' =>
    if len d >=? l + h then match stencil_outer dv' lo' hi' with Some r => Some (Dim (len d - l - h) (step d) :: r) | None => None end else None
  | _, _, _ => Some []
  end.
Fixpoint stencil_inner (dv : list dim) (lo hi : list Z) : list dim :=
  match dv, lo, hi with
  | d::dv', l::lo', h::hi' => Dim (l + h + 1) (step d) :: stencil_inner dv' lo' hi'
  | _, _, _ => []
  end.
Definition stencil (a : view) (lo hi : bounds) : res view :=
  if bounds_nonneg lo && bounds_nonneg hi then
    match bounds_for (vrank a) lo, bounds_for (vrank a) hi with
    | Some lo, Some hi =>
      match stencil_outer (vdv a) lo hi with
      | Some o => Good (Vw (o ++ stencil_inner (vdv a) lo hi) (vcp a))
      | None => Refused
      end
    | _, _ => Refused
    end
  else Refused.

(* A type that explode() and collapse() work with: supdv: the dimensions of the array type (empty if it is a scalar), vsize: size of its value_t
   in bytes, tsize: its own size in bytes. *)
Record etype := Ety { tdv : list dim; vsize : Z; tsize : Z }.

(* arrays.hh:536-541: the axes after the frame and those of sup_t are compact *)
Fixpoint explode_sub (dv : list dim) (s : Z) : option Z :=
  match dv with
  | [] => Some s
  | d::dv' => if step d =? s then explode_sub dv' (s * len d) else None
  end.
(* arrays.hh:543-547 *)
Fixpoint explode_match (dv sup : list dim) (s : Z) : bool :=
  match dv, sup with
  | d::dv', p::sup' => (len p =? len d) && (s * step p =? step d) && explode_match dv' sup' s
  | _, _ => true
  end.
(* arrays.hh:549-553 *)
Fixpoint explode_frame (dv : list dim) (s : Z) : option (list dim) :=
  match dv with
  | [] => Some []
  | d::dv' =>
    if (if 0 =? s then 0 =? step d else 0 =? Z.rem (step d) s) then
      match explode_frame dv' s with Some r => Some (Dim (len d) (if 0 =? s then 0 else Z.quot (step d) s) :: r) | None => None end
    else None
  end.
(* arrays.hh:533-579 explode of a view on elements of tz bytes. The rank of the result is that of a less that of sup_t less ru (562-563); if this is
   negative it is not a valid rank. *)
Definition explode (a : view) (tz : Z) (sup : etype) : res view :=
  let ru := if vsize sup =? tz then 0%nat else 1%nat in
  let rs := length (tdv sup) in
  if (vrank a <? rs + ru)%nat then UB
  else
    let rb := (vrank a - rs - ru)%nat in
    match explode_sub (skipn (rb + rs) (vdv a)) 1 with
    | None => Refused
    | Some s =>
      if negb (s * tz =? vsize sup) then Refused
      else if negb (explode_match (firstn rs (skipn rb (vdv a))) (tdv sup) s) then Refused
      else match explode_frame (firstn rb (vdv a)) (s * dimv_size (tdv sup)) with
           | Some dv => Good (Vw dv (vcp a))
           | None => Refused
           end
    end.

(* arrays.hh:581-612 collapse: a is a view on elements of type sup; sub is the new element type, of lower rank. The place of a is in units of
   sizeof(sup_t), that of the result in units of sizeof(sub_t); [reinterpret_cast] is modelled by byte addresses: see [vcp] in the theorems, which take 0.
   The loop at 602-606 handles the first SUBR axes of sup_t; gstep and glen are those of sup_t. *)
Fixpoint collapse_sup (dv : list dim) (s t : Z) : option (list dim) :=
  match dv with
  | [] => Some []
  | d::dv' =>
    if 0 =? Z.rem (step d) s then
      match collapse_sup dv' s t with Some r => Some (Dim (len d) (Z.quot (step d) s * t) :: r) | None => None end
    else None
  end.
Definition collapse (a : view) (sup sub : etype) : res view :=
  let subtype := Z.quot (vsize sup) (tsize sub) in
  if (length (tdv sup) <? length (tdv sub))%nat then UB
  else
    let SUBR := (length (tdv sup) - length (tdv sub))%nat in
    let r := Z.quot (tsize sup) (tsize sub) in
    if negb (tsize sup =? r * tsize sub) then Refused
    else
      let t := Z.quot (vsize sup) (vsize sub) in
      let s := Z.quot (tsize sub) (vsize sub) in
      if negb (t * vsize sub >=? 1) then Refused
      else match collapse_sup (firstn SUBR (tdv sup)) s t with
           | None => Refused
           | Some sd => Good (Vw (map (fun d => Dim (len d) (step d * r)) (vdv a) ++ sd ++ (if subtype >? 1 then [Dim t 1] else [])) (vcp a))
           end.
