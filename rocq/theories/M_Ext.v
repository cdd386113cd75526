(* Model: views of memory that's given. Source: ra/arrays.hh:110-119 (View constructors), 632, 637, 640 (get, tuple_size, tuple_element); ra/expr.hh:186-219 (resize, filldimv), 330-348 (SDim), 353-363 (viewptr, ptr), 365-387 (view of ranges and built in arrays). *)
From Coq Require Import ZArith List Bool.
From Verif Require Import M_Base M_View M_Slice M_Shape M_Small.
Import ListNotations.
Open Scope Z_scope.

(* The type of dimv: of dynamic rank (vector<Dim>), or of static rank with an axis for each element. An axis is Dim (both None), or SDim<N, S> (expr.hh:330-335) and then the length and the step may be in the type. *)
Inductive dimv_t := Any | Static (ts : list (option Z * option Z)).
(* An argument for the lengths or the dimensions, of rank 1: with so many elements, or without end (its size is UNB), such as ptr(p). *)
Inductive arg (A : Type) := Given (l : list A) | Endless (f : nat -> A).
Arguments Given {A}. Arguments Endless {A}.
(* expr.hh:186-197 resize, and then as many elements are read as there are axes (expr.hh:207, or iter(dimv) = s). The checks at compile time are taken as any other. *)
Definition sized {A} (t : dimv_t) (a : arg A) : option (list A) :=
  match t, a with
  | Any, Given l => Some l
  | Any, Endless _ => None
  | Static ts, Given l => if (length l =? length ts)%nat then Some l else None
  | Static ts, Endless f => Some (map f (seq 0 (length ts)))
  end.
(* x is what the type has, or it has nothing *)
Definition like (o : option Z) (x : Z) : bool := match o with Some y => y =? x | None => true end.
(* expr.hh:210-214 *)
Definition steps_like (t : dimv_t) (dv : list dim) : bool :=
  match t with Any => true | Static ts => forallb (fun x => like (snd (fst x)) (step (snd x))) (combine ts dv) end.
(* arrays.hh:114, 116 View(s, p) with s the lengths. dimv with a length in the type doesn't compile there (expr.hh:207). *)
Definition view_lens (t : dimv_t) (s : arg Z) (p : Z) : res view :=
  match sized t s with
  | None => Refused
  | Some l =>
    match filldimv l with
    | Some (dv, _) => if steps_like t dv then Good (Vw dv p) else Refused
    | None => Refused
    end
  end.
(* expr.hh:341-346 SDim = Dim *)
Definition dims_like (t : dimv_t) (dv : list dim) : bool :=
  match t with Any => true | Static ts => forallb (fun x => like (fst (fst x)) (len (snd x)) && like (snd (fst x)) (step (snd x))) (combine ts dv) end.
(* arrays.hh:113, 115, 117 View(s, p) with s the dimensions: iter(dimv) = s. Nothing else is checked (arrays.hh:109). *)
Definition view_dims (t : dimv_t) (s : arg dim) (p : Z) : res view :=
  match sized t s with
  | None => Refused
  | Some dv => if dims_like t dv then Good (Vw dv p) else Refused
  end.

(* expr.hh:353-360 viewptr(p, n, s), with None for n if it's not given, and otherwise an integer. A length in the type isn't checked (356), here it's like in the type. *)
Definition viewptr (p : Z) (n : option Z) (s : Z) : res view :=
  match n with
  | Some n => if n >=? 0 then Good (Vw [Dim n s] p) else Refused
  | None => Good (Vw [Dim UNB s] p)
  end.
(* expr.hh:378-382, ranges: p is std::begin(a), n is ra::size(a) *)
Definition range_view (p n : Z) : res view := viewptr p (Some n) 1.

(* expr.hh:369-376. The built in array with lengths ls, at b: std::data(a) is the address of its first element, which is another such array if there are two lengths or more. *)
Fixpoint builtin_data (ls : list Z) (b : Z) : Z :=
  match ls with
  | _ :: (_ :: _) as r => builtin_data r b
  | _ => b
  end.
(* expr.hh:377 *)
Definition builtin_view (ls : list Z) (b : Z) : view := Vw (dense (shape_of (X := unit) (W := unit) (Builtin ls))) (builtin_data ls b).

(* arrays.hh:637 tuple_size of a view whose lengths are in the type *)
Definition tuple_size (v : view) : Z := dimv_size (vdv v).
(* arrays.hh:632, 640: get<i>(v), which is v[i], as a reference to an element (tuple_element). If it's a view it's converted with to_scalar (expr.hh:149-158), which is refused if the size isn't 1. *)
Definition get (i : Z) (v : view) : res Z := rbind (from v [cidx i]) (fun b => if dimv_size (vdv b) =? 1 then Good (vcp b) else Refused).
