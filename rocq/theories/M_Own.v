(* Model: owners of memory. Source: ra/arrays.hh:224-248 (storage_traits), 251-327 (Array; Big, Unique, Shared), 287-299 (constructors), 271-278 (operator=, other than the default ones), 348-358 (shared_borrowing).
   The copy and move operations of Array are the default ones, so they are those of dimv and of the store. Those of the store are of the standard library: std::vector, std::unique_ptr and std::shared_ptr.
   The elements are those of an array with the steps given by filldimv. Allocation doesn't fail. *)
From Coq Require Import ZArith List Bool Arith.
From Verif Require Import M_Base M_View M_Array.
Import ListNotations.
Open Scope Z_scope.

Section Own.
Context {T : Type}.

(* arrays.hh:325-327 *)
Inductive kind := KBig | KUnique | KShared.
(* One object. orank: the rank in the type, None if it's ANY. optr: the block that the store points to; None is a null pointer, or an empty vector without a block.
   oown is false if the deleter does nothing (arrays.hh:356). *)
Record obj := Obj { okind : kind; orank : option nat; odim : list dim; optr : option nat; oown : bool }.
(* A block of memory, and the number of stores that count on it; see std::shared_ptr::use_count. It is 1 for std::vector and std::unique_ptr. *)
Record blk := Blk { bcount : nat; bdata : list T }.
(* A block that has been freed is None, and its place may be used again. The objects are in numbered places; None has no object. *)
Record world := World { heap : list (option blk); objs : list (option obj) }.

Inductive op :=
| Dflt (i : nat) (k : kind) (r : option nat)                        (* Array a; 287-288 *)
| Make (i : nat) (k : kind) (r : option nat) (s : list Z) (x : T)   (* Array a(s, x); 296-297, x an element *)
| CopyNew (i j : nat)                                               (* Array a(b) *)
| CopyTo (i j : nat)                                                (* a = b; same type *)
| MoveNew (i j : nat)                                               (* Array a(std::move(b)) *)
| MoveTo (i j : nat)                                                (* a = std::move(b); same type *)
| Swap (i j : nat)                                                  (* std::swap(a, b); same type *)
| Kill (i : nat)                                                    (* ~Array *)
| Put (i : nat) (p : list Z) (x : T)                                (* a(p ...) = x *)
| Fill (i : nat) (x : T)                                            (* a = x; 273 *)
| Over (i j : nat)                                                  (* a.view() = b, or a = b if not of the same type; 274 *)
| Borrow (i j : nat).                                               (* a(shared_borrowing(b)) *)

Fixpoint upd {A} (l : list A) (k : nat) (x : A) : list A :=
  match l, k with [], _ => [] | _::t, O => x::t | y::t, S k' => y :: upd t k' x end.
(* new: a block that isn't in use, maybe one that has been freed *)
Fixpoint alloc (h : list (option blk)) (b : blk) : list (option blk) * nat :=
  match h with
  | [] => ([Some b], O)
  | None::t => (Some b :: t, O)
  | x::t => let (t', n) := alloc t b in (x::t', S n)
  end.
Definition block (h : list (option blk)) (p : nat) : option blk := match nth_error h p with Some (Some b) => Some b | _ => None end.

(* Another store counts on the block of o (copy of std::shared_ptr). A store that doesn't own has nothing to count on. UB: the block has been freed. *)
Definition retain (h : list (option blk)) (o : obj) : res (list (option blk)) :=
  match optr o with
  | Some p => if oown o then match block h p with Some b => Good (upd h p (Some (Blk (S (bcount b)) (bdata b)))) | None => UB end else Good h
  | None => Good h
  end.
(* The store of o goes (destructors of std::vector, std::unique_ptr, std::shared_ptr); with the last one, the block is freed. *)
Definition release (h : list (option blk)) (o : obj) : res (list (option blk)) :=
  match optr o with
  | Some p =>
    if oown o then
      match block h p with
      | Some b => Good (upd h p (match bcount b with S (S c) => Some (Blk (S c) (bdata b)) | _ => None end))
      | None => UB
      end
    else Good h
  | None => Good h
  end.
(* What is left in an object that has been moved from. The std::array of the dimensions is copied, the std::vector is left empty. *)
Definition hollow (o : obj) : obj := Obj (okind o) (orank o) (match orank o with Some _ => odim o | None => [] end) None true.
Definition same_type (a b : obj) : bool :=
  match okind a, okind b with KBig, KBig | KUnique, KUnique | KShared, KShared => true | _, _ => false end &&
  match orank a, orank b with Some m, Some n => Nat.eqb m n | None, None => true | _, _ => false end.
(* The contents of the store. *)
Definition contents (h : list (option blk)) (o : obj) : res (list T) :=
  match optr o with None => Good [] | Some p => match block h p with Some b => Good (bdata b) | None => UB end end.

(* Refused is a failed check, or something that doesn't compile, or that there is (or there isn't) an object in that place. *)
Definition object (w : world) (i : nat) : res obj := match nth_error (objs w) i with Some (Some o) => Good o | _ => Refused end.
Definition vacant (w : world) (i : nat) : res Datatypes.unit := match nth_error (objs w) i with Some None => Good tt | _ => Refused end.
Definition place_new (w : world) (i : nat) (h : list (option blk)) (o : obj) : world := World h (upd (objs w) i (Some o)).

(* Elements 0 ... n-1 of the block of o become those of l. UB: there aren't that many. *)
Definition write (h : list (option blk)) (o : obj) (n : nat) (l : list T) : res (list (option blk)) :=
  match n, optr o with
  | O, _ => Good h
  | _, None => UB
  | _, Some p =>
    match block h p with
    | Some b => if (n <=? length (bdata b))%nat then Good (upd h p (Some (Blk (bcount b) (firstn n l ++ skipn n (bdata b))))) else UB
    | None => UB
    end
  end.

(* The address of a(p ...), from the first one of the block: see M_Base.v indexer. A different number of subscripts isn't an element. *)
Definition address (o : obj) (p : list Z) : res Z :=
  if Nat.eqb (length p) (length (odim o)) then match indexer (odim o) 0 p with Some a => Good a | None => Refused end else Refused.
(* reading a(p ...) *)
Definition read (w : world) (i : nat) (p : list Z) : res T :=
  rbind (object w i) (fun o => rbind (address o p) (fun a => rbind (contents (heap w) o) (fun l =>
    match nth_error l (Z.to_nat a) with Some x => Good x | None => UB end))).

Definition act (w : world) (c : op) : res world :=
  match c with
  (* arrays.hh:286-288. Rank 0 is an array with an element (289), like Make. *)
  | Dflt i k r =>
    rbind (vacant w i) (fun _ => match r with
    | Some O => Refused
    | Some n => Good (place_new w i (heap w) (Obj k r (repeat (Dim 0 1) n) None true))
    | None => Good (place_new w i (heap w) (Obj k r [Dim 0 1] None true))
    end)
  (* arrays.hh:296-297: filldimv, create, and then all of the elements are assigned *)
  | Make i k r s x =>
    rbind (vacant w i) (fun _ =>
      if match r with Some n => Nat.eqb (length s) n | None => true end then
        match fill s [] with
        | (dv, Some n) => let (h, p) := alloc (heap w) (Blk 1 (repeat x (Z.to_nat n))) in Good (place_new w i h (Obj k r dv (Some p) true))
        | (_, None) => Refused
        end
      else Refused)
  | CopyNew i j =>
    rbind (vacant w i) (fun _ => rbind (object w j) (fun o =>
      match okind o with
      | KUnique => Refused
      | KShared => rbind (retain (heap w) o) (fun h => Good (place_new w i h o))
      | KBig =>
        match optr o with
        | None => Good (place_new w i (heap w) o)
        | Some _ => rbind (contents (heap w) o) (fun l => let (h, p) := alloc (heap w) (Blk 1 l) in Good (place_new w i h (Obj KBig (orank o) (odim o) (Some p) true)))
        end
      end))
  (* std::vector: the elements are replaced by those of the other, here in the same memory. It doesn't matter if it's the same memory or not other than to those that borrow it. If the other has none, the memory is freed;
     it may be kept for later, but it has no elements.
     std::shared_ptr: the other is copied and then the old one goes. *)
  | CopyTo i j =>
    rbind (object w i) (fun a => rbind (object w j) (fun b =>
      if same_type a b then
        match okind a with
        | KUnique => Refused
        | KShared => rbind (retain (heap w) b) (fun h => rbind (release h a) (fun h' => Good (place_new w i h' b)))
        | KBig =>
          rbind (contents (heap w) b) (fun l =>
            match optr a, optr b with
            | Some p, Some _ => rbind (contents (heap w) a) (fun _ => Good (place_new w i (upd (heap w) p (Some (Blk 1 l))) (Obj KBig (orank a) (odim b) (Some p) true)))
            | None, Some _ => let (h, p) := alloc (heap w) (Blk 1 l) in Good (place_new w i h (Obj KBig (orank a) (odim b) (Some p) true))
            | _, None => rbind (release (heap w) a) (fun h => Good (place_new w i h b))
            end)
        end
      else Refused))
  | MoveNew i j =>
    rbind (vacant w i) (fun _ => rbind (object w j) (fun o => Good (World (heap w) (upd (upd (objs w) i (Some o)) j (Some (hollow o))))))
  (* a = std::move(a) leaves an unspecified value and isn't modelled *)
  | MoveTo i j =>
    if Nat.eqb i j then Refused else
    rbind (object w i) (fun a => rbind (object w j) (fun b =>
      if same_type a b then rbind (release (heap w) a) (fun h => Good (World h (upd (upd (objs w) i (Some b)) j (Some (hollow b)))))
      else Refused))
  | Swap i j =>
    rbind (object w i) (fun a => rbind (object w j) (fun b =>
      if same_type a b then Good (World (heap w) (upd (upd (objs w) i (Some b)) j (Some a))) else Refused))
  | Kill i => rbind (object w i) (fun a => rbind (release (heap w) a) (fun h => Good (World h (upd (objs w) i None))))
  | Put i p x =>
    rbind (object w i) (fun a => rbind (address a p) (fun n =>
      match optr a with
      | None => UB
      | Some q =>
        match block (heap w) q with
        | Some b => if (Z.to_nat n <? length (bdata b))%nat then Good (World (upd (heap w) q (Some (Blk (bcount b) (upd (bdata b) (Z.to_nat n) x)))) (objs w)) else UB
        | None => UB
        end
      end))
  | Fill i x =>
    rbind (object w i) (fun a => let n := Z.to_nat (dimv_size (odim a)) in
      rbind (write (heap w) a n (repeat x n)) (fun h => Good (World h (objs w))))
  (* The arrays must have the same shape here; see C29, C30 for those that agree. Both are in row-major order, so this goes through them in order, and if they are in the same memory each element is copied to itself. *)
  | Over i j =>
    rbind (object w i) (fun a => rbind (object w j) (fun b =>
      if forallb (fun x => fst x =? snd x) (combine (map len (odim a)) (map len (odim b))) && Nat.eqb (length (odim a)) (length (odim b)) then
        let n := Z.to_nat (dimv_size (odim a)) in
        rbind (contents (heap w) b) (fun l =>
          if (n <=? length l)%nat then rbind (write (heap w) a n l) (fun h => Good (World h (objs w))) else UB)
      else Refused))
  (* arrays.hh:351-358. The step of a rank 1 array is 1, as it must be (357). *)
  | Borrow i j =>
    rbind (vacant w i) (fun _ => rbind (object w j) (fun o => Good (place_new w i (heap w) (Obj KShared (orank o) (odim o) (optr o) false))))
  end.

(* A program, the latest operation first; n places for objects. *)
Fixpoint run (n : nat) (h : list op) : res world :=
  match h with [] => Good (World [] (repeat None n)) | c::h' => rbind (run n h') (fun w => act w c) end.
End Own.
Arguments world : clear implicits.
Arguments op : clear implicits.
Arguments blk : clear implicits.
