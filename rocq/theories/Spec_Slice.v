(* What the properties of subscripts are stated with. *)
From Coq Require Import ZArith List.
From Verif Require Import Spec M_Base M_View M_Slice.
Import ListNotations.
Open Scope Z_scope.

(* The number of axes that a subscript takes; dots<> takes what the others leave. *)
Definition takes (s : sub) : nat := match s with SDots (Some n) => n | SDots None => 0 | SInsert _ => 0 | _ => 1 end.
Fixpoint total (f : sub -> nat) (l : list sub) : nat := match l with [] => 0%nat | s::l' => (f s + total f l')%nat end.

(* The number of axes of the result that a subscript stands for; dots<> as above, and one for each subscript that isn't a scalar or a sequence. *)
Definition gives (s : sub) : nat := match s with SIdx _ => 0 | SSeq _ _ _ => 1 | SSeqN _ dv => length dv | SDots (Some n) => n | SDots None => 0 | SInsert n => n | SArr => 1 end.
(* no more subscripts than axes *)
Definition fits (r : nat) (l : list sub) : Prop := (total takes l <= r)%nat.

(* selects subs ls j i: for an array with lengths ls, index j of A(subs ...) stands for index i of A. *)
Inductive selects : list sub -> list Z -> list Z -> list Z -> Prop :=
| sel_end : forall ls j, length j = length ls -> selects [] ls j j
| sel_idx : forall f n x subs ls j i, f n = Some x -> selects subs ls j i -> selects (SIdx f :: subs) (n :: ls) j (x :: i)
| sel_seq : forall o c s n o' s' x subs ls j i, o n = Some o' -> s n = Some s' -> selects subs ls j i ->
    selects (SSeq o c s :: subs) (n :: ls) (x :: j) (o' + x * s' :: i)
| sel_dots : forall n subs ls1 ls j1 j i, length ls1 = n -> length j1 = n -> selects subs ls j i -> selects (SDots (Some n) :: subs) (ls1 ++ ls) (j1 ++ j) (j1 ++ i)
| sel_rest : forall subs ls1 ls j1 j i, length j1 = length ls1 -> length ls = total takes subs -> selects subs ls j i -> selects (SDots None :: subs) (ls1 ++ ls) (j1 ++ j) (j1 ++ i)
| sel_insert : forall n subs ls j1 j i, length j1 = n -> selects subs ls j i -> selects (SInsert n :: subs) ls (j1 ++ j) i
| sel_arr : forall n x subs ls j i, selects subs ls j i -> selects (SArr :: subs) (n :: ls) (x :: j) (x :: i).

(* selects_shape subs ls rs: the lengths of A(subs ...) are rs. *)
Inductive selects_shape : list sub -> list Z -> list Z -> Prop :=
| shp_end : forall ls, selects_shape [] ls ls
| shp_idx : forall f n subs ls rs, selects_shape subs ls rs -> selects_shape (SIdx f :: subs) (n :: ls) rs
| shp_seq : forall o c s n c' subs ls rs, c n = Some c' -> selects_shape subs ls rs -> selects_shape (SSeq o c s :: subs) (n :: ls) (c' :: rs)
| shp_dots : forall n subs ls1 ls rs, length ls1 = n -> selects_shape subs ls rs -> selects_shape (SDots (Some n) :: subs) (ls1 ++ ls) (ls1 ++ rs)
| shp_rest : forall subs ls1 ls rs, length ls = total takes subs -> selects_shape subs ls rs -> selects_shape (SDots None :: subs) (ls1 ++ ls) (ls1 ++ rs)
| shp_insert : forall n subs ls rs, selects_shape subs ls rs -> selects_shape (SInsert n :: subs) ls (repeat UNB n ++ rs)
| shp_arr : forall n subs ls rs, selects_shape subs ls rs -> selects_shape (SArr :: subs) (n :: ls) (n :: rs).

(* an index for lengths some of which may be unbounded *)
Definition inrange (j s : list Z) : Prop := Forall2 (fun i n => n = UNB \/ 0 <= i < n) j s.

Definition one_axis (s : sub) : Prop := match s with SSeqN _ _ => False | _ => True end.

(* the value of an expression when len is ln *)
Fixpoint meaning (ln : Z) (e : lx) (j : list Z) : option Z :=
  let all := fix go (t : list lx) : option (list Z) :=
    match t with [] => Some [] | a::t' => match meaning ln a j, go t' with Some x, Some r => Some (x::r) | _, _ => None end end in
  match e with
  | LLen => Some ln
  | LScalar c => Some c
  | LArr ls f => Some (f (firstn (length ls) j))
  | LMap op t => match all t with Some xs => Some (op xs) | None => None end
  | LPick [] => None
  | LPick (p::t) =>
    match meaning ln p j with
    | None => None
    | Some i => (fix go (i : Z) (t : list lx) : option Z := match t with [] => None | a::t' => if i =? 0 then meaning ln a j else go (i-1) t' end) i t
    end
  | LSeq o n s => match meaning ln o [], meaning ln s [] with Some o, Some s => Some (o + nth 0 j 0 * s) | _, _ => None end
  end.
(* the length of a sequence when len is ln *)
Definition seq_len (ln : Z) (e : lx) : option Z := match e with LSeq _ n _ => meaning ln n [] | _ => None end.
(* no ra::len in the expression *)
Fixpoint len_free (e : lx) : Prop :=
  match e with
  | LLen => False
  | LScalar _ | LArr _ _ => True
  | LMap _ t | LPick t => (fix go (t : list lx) : Prop := match t with [] => True | a::t' => len_free a /\ go t' end) t
  | LSeq o n s => len_free o /\ len_free n /\ len_free s
  end.

(* legal subs dv: each position selected on each axis is one of the axis, or the axis is unbounded and doesn't move. *)
Inductive legal : list sub -> list dim -> Prop :=
| leg_end : forall dv, legal [] dv
| leg_idx : forall f d x subs dv, f (len d) = Some x -> 0 <= x < len d \/ len d = UNB /\ step d = 0 -> legal subs dv -> legal (SIdx f :: subs) (d :: dv)
| leg_seq : forall o c s d o' c' s' subs dv, o (len d) = Some o' -> c (len d) = Some c' -> s (len d) = Some s' ->
    0 <= c' -> (forall x, 0 <= x < c' -> 0 <= o' + x * s' < len d) -> legal subs dv -> legal (SSeq o c s :: subs) (d :: dv)
| leg_dots : forall n subs dv1 dv, length dv1 = n -> legal subs dv -> legal (SDots (Some n) :: subs) (dv1 ++ dv)
| leg_rest : forall subs dv1 dv, length dv = total takes subs -> legal subs dv -> legal (SDots None :: subs) (dv1 ++ dv)
| leg_insert : forall n subs dv, legal subs dv -> legal (SInsert n :: subs) dv
| leg_arr : forall d subs dv, legal subs dv -> legal (SArr :: subs) (d :: dv).

(* at most one dots<> *)
Definition one_rest (l : list sub) : Prop := forall l1 l2 l3, l <> l1 ++ SDots None :: l2 ++ SDots None :: l3.

(* the axis that the first subscript in s2 is for, in A(s1 ..., s2 ...), when A has rank r *)
Definition axis_for (s1 s2 : list sub) (r : nat) : nat := if existsb is_rest s1 then (r - total takes s2)%nat else total takes s1.

(* every sequence in the expression has a start, a step and a length which isn't negative, when len is ln *)
Fixpoint sound_seqs (ln : Z) (e : lx) : Prop :=
  match e with
  | LLen | LScalar _ | LArr _ _ => True
  | LMap _ t | LPick t => (fix go (t : list lx) : Prop := match t with [] => True | a::t' => sound_seqs ln a /\ go t' end) t
  | LSeq o n s => sound_seqs ln o /\ sound_seqs ln n /\ sound_seqs ln s /\
      meaning ln o [] <> None /\ meaning ln s [] <> None /\ exists m, meaning ln n [] = Some m /\ 0 <= m
  end.
