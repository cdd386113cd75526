(* What the properties of rank conjunction, outer product and array subscripts are stated with. *)
From Coq Require Import ZArith List.
From Verif Require Import Spec M_Base M_Expr Spec_Expr M_Val M_View M_Slice Spec_Slice.
Import ListNotations.
Open Scope Z_scope.

(* cs: the ranks of the verbs, from the outside in, one number for each argument. rem: number of axes that are left in each argument. The verb with ranks c takes
   the first rem-c axes of each argument as a frame; the frames are matched by prefix, and the longest is part of the result. The last verb takes all of the axes. *)
Fixpoint each2 {A B C} (f : A -> B -> C) (l : list A) (m : list B) : list C :=
  match l, m with a::l', b::m' => f a b :: each2 f l' m' | _, _ => [] end.
Fixpoint maxl (l : list nat) : nat := match l with [] => 0%nat | n::l' => Nat.max n (maxl l') end.

Fixpoint verb_ok (cs : list (list nat)) (rem : list nat) : Prop :=
  match cs with [] => True | c::cs' => Forall2 le c rem /\ verb_ok cs' c end.

(* number of axes of the result *)
Fixpoint verb_rank (cs : list (list nat)) (rem : list nat) : nat :=
  match cs with [] => maxl rem | c::cs' => (maxl (each2 Nat.sub rem c) + verb_rank cs' c)%nat end.

(* the index in each argument for index j in the result *)
Fixpoint verb_index (cs : list (list nat)) (rem : list nat) (j : list Z) : list (list Z) :=
  match cs with
  | [] => map (fun r => firstn r j) rem
  | c::cs' => let f := each2 Nat.sub rem c in each2 (fun n r => firstn n j ++ r) f (verb_index cs' c (skipn (maxl f) j))
  end.

(* for each argument, which of its axes is on axis k of the result *)
Fixpoint verb_axis (cs : list (list nat)) (rem : list nat) (k : nat) : list (option nat) :=
  match cs with
  | [] => map (fun r => if (k <? r)%nat then Some k else None) rem
  | c::cs' =>
    let f := each2 Nat.sub rem c in
    if (k <? maxl f)%nat then map (fun n => if (k <? n)%nat then Some k else None) f
    else each2 (fun n o => option_map (Nat.add n) o) f (verb_axis cs' c (k - maxl f))
  end.

(* s gives the length of each axis of e: the common length of the leaves, or UNB if they are all unbounded *)
Definition extents {X W} (e : expr X W) (s : list Z) : Prop :=
  length s = axes e /\
  forall k, (k < axes e)%nat -> (0 <= nth k s 0 \/ nth k s 0 = UNB) /\ In (nth k s 0) (leaf_lens e k) /\ Forall (fun m => m = nth k s 0 \/ m = UNB) (leaf_lens e k).
Definition within (j s : list Z) : Prop := Forall2 (fun i n => 0 <= i /\ (n = UNB \/ i < n)) j s.
(* an index for an array with these axes. Any index is good on an axis that is unbounded and doesn't move. *)
Definition valid (i : list Z) (dv : list dim) : Prop := Forall2 (fun x d => 0 <= x < len d \/ len d = UNB /\ step d = 0) i dv.

(* gathers subs fs ls j i: for an array with lengths ls, index j of A(subs ...) stands for index i of A, when the arrays among the subscripts are fs, each given by its
   shape and its elements. Every axis of an array subscript is an axis of the result. *)
Inductive gathers : list sub -> list (list Z * (list Z -> Z)) -> list Z -> list Z -> list Z -> Prop :=
| gat_end : forall ls j, length j = length ls -> gathers [] [] ls j j
| gat_idx : forall f n x subs fs ls j i, f n = Some x -> gathers subs fs ls j i -> gathers (SIdx f :: subs) fs (n :: ls) j (x :: i)
| gat_seq : forall o c s n o' s' x subs fs ls j i, o n = Some o' -> s n = Some s' -> gathers subs fs ls j i ->
    gathers (SSeq o c s :: subs) fs (n :: ls) (x :: j) (o' + x * s' :: i)
| gat_dots : forall n subs fs ls1 ls j1 j i, length ls1 = n -> length j1 = n -> gathers subs fs ls j i -> gathers (SDots (Some n) :: subs) fs (ls1 ++ ls) (j1 ++ j) (j1 ++ i)
| gat_rest : forall subs fs ls1 ls j1 j i, length j1 = length ls1 -> length ls = total takes subs -> gathers subs fs ls j i ->
    gathers (SDots None :: subs) fs (ls1 ++ ls) (j1 ++ j) (j1 ++ i)
| gat_insert : forall n subs fs ls j1 j i, length j1 = n -> gathers subs fs ls j i -> gathers (SInsert n :: subs) fs ls (j1 ++ j) i
| gat_arr : forall s f n j1 subs fs ls j i, within j1 s -> gathers subs fs ls j i -> gathers (SArr :: subs) ((s, f) :: fs) (n :: ls) (j1 ++ j) (f j1 :: i).

(* gathers_shape subs fs ls rs: the lengths of A(subs ...) are rs. *)
Inductive gathers_shape : list sub -> list (list Z * (list Z -> Z)) -> list Z -> list Z -> Prop :=
| gsh_end : forall ls, gathers_shape [] [] ls ls
| gsh_idx : forall f n subs fs ls rs, gathers_shape subs fs ls rs -> gathers_shape (SIdx f :: subs) fs (n :: ls) rs
| gsh_seq : forall o c s n c' subs fs ls rs, c n = Some c' -> gathers_shape subs fs ls rs -> gathers_shape (SSeq o c s :: subs) fs (n :: ls) (c' :: rs)
| gsh_dots : forall n subs fs ls1 ls rs, length ls1 = n -> gathers_shape subs fs ls rs -> gathers_shape (SDots (Some n) :: subs) fs (ls1 ++ ls) (ls1 ++ rs)
| gsh_rest : forall subs fs ls1 ls rs, length ls = total takes subs -> gathers_shape subs fs ls rs -> gathers_shape (SDots None :: subs) fs (ls1 ++ ls) (ls1 ++ rs)
| gsh_insert : forall n subs fs ls rs, gathers_shape subs fs ls rs -> gathers_shape (SInsert n :: subs) fs ls (repeat UNB n ++ rs)
| gsh_arr : forall s f n subs fs ls rs, gathers_shape subs fs ls rs -> gathers_shape (SArr :: subs) ((s, f) :: fs) (n :: ls) (s ++ rs).

(* the lengths of the axes of A(subs ...) that aren't of the arrays *)
Inductive others : list sub -> list Z -> list Z -> Prop :=
| oth_end : forall ls, others [] ls ls
| oth_idx : forall f n subs ls rs, others subs ls rs -> others (SIdx f :: subs) (n :: ls) rs
| oth_seq : forall o c s n c' subs ls rs, c n = Some c' -> others subs ls rs -> others (SSeq o c s :: subs) (n :: ls) (c' :: rs)
| oth_dots : forall n subs ls1 ls rs, length ls1 = n -> others subs ls rs -> others (SDots (Some n) :: subs) (ls1 ++ ls) (ls1 ++ rs)
| oth_rest : forall subs ls1 ls rs, length ls = total takes subs -> others subs ls rs -> others (SDots None :: subs) (ls1 ++ ls) (ls1 ++ rs)
| oth_insert : forall n subs ls rs, others subs ls rs -> others (SInsert n :: subs) ls (repeat UNB n ++ rs)
| oth_arr : forall n subs ls rs, others subs ls rs -> others (SArr :: subs) (n :: ls) rs.

(* e has the lengths s and the elements f *)
Definition holds {T W} (e : expr (val T) W) (sf : list Z * (list Z -> Z)) : Prop :=
  extents e (fst sf) /\ forall j w, within j (fst sf) -> element e j w = Ok (VI (snd sf j)) w.

(* the number of arrays among the subscripts *)
Definition arrays (subs : list sub) : nat := length (filter (fun s => match s with SArr => true | _ => false end) subs).

(* the subscripts with the arrays replaced by sequences, given by length, start and step; and what those sequences are as arrays *)
Fixpoint beat (subs : list sub) (qs : list (Z * Z * Z)) : list sub :=
  match subs, qs with
  | SArr :: s, (n, o, t) :: q => SSeq (fun _ => Some o) (fun _ => Some n) (fun _ => Some t) :: beat s q
  | a :: s, _ => a :: beat s qs
  | [], _ => []
  end.
Definition seqs (qs : list (Z * Z * Z)) : list (list Z * (list Z -> Z)) := map (fun q => match q with (n, o, t) => ([n], fun j => o + nth 0 j 0 * t) end) qs.
