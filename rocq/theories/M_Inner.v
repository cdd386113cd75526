(* Model: input and output of arrays whose elements are arrays. Source: ra/ply.hh:558-569, 578-610, 614-619, 656-698; ra/base.hh:456-458; ra/ra.hh:634-710. *)
From Coq Require Import ZArith List Bool Ascii.
From Verif Require Import M_Base M_Expr M_Array M_Text.
Import ListNotations.
Open Scope Z_scope.

(* The types: integers with range lo...hi, dual numbers (ra.hh:634-658) over those, arrays with static shape (Small, Big with rank 0) of elements with a type, and arrays with dynamic shape (Big), where r is the static rank, or None. *)
Inductive ty := TInt (lo hi : Z) | TDual (lo hi : Z) | TFix (s : list Z) (t : ty) | TDyn (r : option nat) (t : ty).
(* The objects: integers (None: not initialized), dual numbers, and arrays, with the elements in the order of storage *)
Inductive obj := OInt (z : option Z) | ODual (re du : option Z) | OArr (dv : list dim) (xs : list obj).

(* what std::format gives, or nothing if a check fails. There's no check to fail for the text of an array: see C43_format and P_Inner.print_fix, print_dyn. *)
Definition text_of (o : out unit text) : text := match o with Ok t _ => t | _ => [] end.
(* iter of an array (expr.hh:317-326) *)
Definition cells (dv : list dim) (xs : list obj) : expr (option obj) unit := Cell dv (length dv) (fun p => nth_error xs (Z.to_nat p)) 0.

(* ra.hh:692-693 *)
Definition show_dual (x y : Z) : text := "["%char :: show_int x ++ " "%char :: show_int y ++ ["]"%char].
(* base.hh:458 operator<<, ply.hh:614-619, 656-698: the outer format is fmt({}) (base.hh:439-446, same as jstyle), and the elements are formatted with [under] which is the formatter for their type (618), without options. Dual numbers have no formatter, and then it's ostream_formatter (ply.hh:558-569), which uses <<. *)
Fixpoint print (t : ty) (o : obj) : text :=
  match t, o with
  | TInt _ _, OInt (Some z) => show_int z
  | TDual _ _, ODual (Some x) (Some y) => show_dual x y
  | TFix _ t', OArr dv xs => text_of (format (fun x => match x with Some y => print t' y | None => [] end) jstyle false false (cells dv xs) tt)
  | TDyn r t', OArr dv xs => text_of (format (fun x => match x with Some y => print t' y | None => [] end) jstyle (match r with Some _ => false | None => true end) true (cells dv xs) tt)
  | _, _ => []
  end.

(* Normal end, a failed check, or undefined behavior *)
Inductive rin (A : Type) := Idone (a : A) (s : stream) | Ifail (a : A) (s : stream) | Iundef.
Arguments Idone {A}. Arguments Ifail {A}. Arguments Iundef {A}.
(* std::istream >> of char: the next one that isn't space. None: the stream had failed, or there was nothing to read, and then the variable isn't written. Standard library. *)
Definition read_char (s : stream) : option ascii * stream :=
  if bad s then (None, s) else match skip_space (rest s) with [] => (None, Stream [] true) | c::t => (Some c, Stream t false) end.
(* ra.hh:695-705. s is declared without a value (698), so if nothing is read into it, the comparison is undefined. At 702 it has the value [. *)
Definition read_dual (lo hi : Z) (re du : option Z) (s : stream) : rin (option Z * option Z) :=
  match read_char s with
  | (None, _) => Iundef
  | (Some c, s1) =>
    if negb (Ascii.eqb c "[") then Idone (re, du) (Stream (rest s1) true)
    else let '(v, s2) := read_int lo hi s1 in
         let '(w, s3) := read_int lo hi s2 in
         let '(c', s4) := read_char s3 in
         Idone (match v with Some x => Some x | None => re end, match w with Some y => Some y | None => du end)
               (if negb (Ascii.eqb (match c' with Some c' => c' | None => c end) "]") then Stream (rest s4) true else s4)
  end.
(* for (auto & ci: c) { i >> ci; } (ply.hh:582, 594, 607). If a check fails the elements that follow are left as they were. *)
Fixpoint read_list (rd : obj -> stream -> rin obj) (l : list obj) (s : stream) : rin (list obj) :=
  match l with
  | [] => Idone [] s
  | x::l' =>
    match rd x s with
    | Ifail y s1 => Ifail (y::l') s1
    | Iundef => Iundef
    | Idone y s1 => match read_list rd l' s1 with Idone m s2 => Idone (y::m) s2 | Ifail m s2 => Ifail (y::m) s2 | Iundef => Iundef end
    end
  end.
(* how an object is before it's given a value: arrays.hh:287-289 for Big, and arrays.hh:194 for Small. The default constructor of Dual (ra.hh:648) doesn't set anything. *)
Fixpoint fresh (t : ty) : obj :=
  match t with
  | TInt _ _ => OInt None
  | TDual _ _ => ODual None None
  | TFix s t' => let '(dv, n) := fill s [] in OArr dv (repeat (fresh t') (match n with Some n => Z.to_nat n | None => 0%nat end))
  | TDyn (Some r) _ => OArr (repeat (Dim 0 1) r) []
  | TDyn None _ => OArr [Dim 0 1] []
  end.
(* ply.hh:578-584 (static size) and 599-610 (the rest), cf. read_static and read_array in M_Text.v *)
Fixpoint read (t : ty) (o : obj) (s : stream) : rin obj :=
  match t with
  | TInt lo hi => let '(v, s1) := read_int lo hi s in Idone (match v with Some z => OInt (Some z) | None => o end) s1
  | TDual lo hi =>
    match o with
    | ODual x y => match read_dual lo hi x y s with Idone (x', y') s1 => Idone (ODual x' y') s1 | Ifail (x', y') s1 => Ifail (ODual x' y') s1 | Iundef => Iundef end
    | _ => Idone o s                                                              (* not an object of this type *)
    end
  | TFix _ t' =>
    match o with
    | OArr dv xs => match read_list (read t') xs s with Idone l s1 => Idone (OArr dv l) s1 | Ifail l s1 => Ifail (OArr dv l) s1 | Iundef => Iundef end
    | _ => Idone o s                                                         (* not an object of this type *)
    end
  | TDyn r t' =>
    match (match r with Some n => read_static lo64 hi64 (repeat None n) s | None => read_vector lo64 hi64 [] s end) with
    | Rfail _ s1 => Ifail o s1
    | Rdone sh s1 =>
      if bad s1 then Idone o s1 else
      let p := map (fun x => match x with Some z => z | None => 0 end) sh in
      if forallb (fun n => n >=? 0) p then
        match @make obj r p with
        | Some cc =>
          match read_list (read t') (repeat (fresh t') (length (astore cc))) s1 with Idone l s2 => Idone (OArr (adim cc) l) s2 | Ifail l s2 => Ifail (OArr (adim cc) l) s2 | Iundef => Iundef end
        | None => Ifail o s1
        end
      else Ifail o s1
    end
  end.
