(* Model: traversal. Source: ra/ply.hh. *)
From Coq Require Import ZArith List Lia Bool.
From Verif Require Import M_Base M_Expr.
Import ListNotations.
Open Scope Z_scope.

Section Ply.
Context {X W R : Type}.
(* What a traversal does with each result of operator*: [post x] is [Some r] if the traversal is to stop with r.
   Without early exit ('none_t(early)' in the code) this is [fun _ => None]. *)
Variable post : X -> option R.

(* ply.hh:60-68, 96-104: the innermost loop 'for (s; --s>=0; a.mov(ss0))'; n is the number of turns left.
   The iterator is returned only if the loop ends, since the code leaves the function otherwise. *)
Fixpoint inner (n : nat) (ss0 : tree) (a : expr X W) : M W (option R * expr X W) :=
  match n with
  | O => ret (None, a)
  | S n' => x <- deref a ;;
            match post x with
            | Some r => ret (Some r, a)
            | None => inner n' ss0 (mov a ss0)
            end
  end.

(* ply.hh:108-117: 'for (i<size) { sub; a.adv(order[k], 1); }' *)
Fixpoint loopM (n : nat) (k : nat) (sub : expr X W -> M W (option R * expr X W)) (a : expr X W)
  : M W (option R * expr X W) :=
  match n with
  | O => ret (None, a)
  | S n' => p <- sub a ;;
            match p with
            | (Some r, a') => ret (Some r, a')
            | (None, a') => loopM n' k sub (adv a' k 1)
            end
  end.

(* ply.hh:90-125 subply with urank = 1 (the only use). rk: the rank, order[k] = rk-1-k (ply.hh:142). *)
Fixpoint subply (rk k : nat) (s : Z) (ss0 : tree) (a : expr X W) : M W (option R * expr X W) :=
  match k with
  | O => let place := save a in
         p <- inner (Z.to_nat s) ss0 a ;;
         match p with
         | (Some r, a') => ret (Some r, a')
         | (None, a') => ret (None, load a' place)
         end
  | S k' => let ax := (rk-1-k)%nat in
            let size := lene a ax in
            p <- loopM (Z.to_nat size) ax (subply rk k' s ss0) a ;;
            match p with
            | (Some r, a') => ret (Some r, a')
            | (None, a') => ret (None, adv a' ax (- size))
            end
  end.

(* ply.hh:127-153 ply_fixed. None is the absence of early exit (the code then gives the default). *)
Definition ply_fixed (a : expr X W) : M W (option R) :=
  if validate a then
    match rankn a with
    | O => x <- deref a ;; ret (post x)
    | S r => p <- subply (S r) r (lene a r) (stepe a r) a ;; ret (fst p)
    end
  else fail.

(* ply.hh:35 z_t *)
Record zt := Zt { zorder : nat; zsha : Z; zind : Z }.
Definition zt0 : zt := Zt 0 0 0.

(* ply.hh:37 std::vector::resize: old elements are kept, new ones have ind=0 *)
Definition zresize (z : list zt) (n : nat) : list zt := firstn n z ++ repeat zt0 (n - length z).

(* ply.hh:38-40 *)
Fixpoint zsetorder (rk i : nat) (z : list zt) : list zt :=
  match z with
  | [] => []
  | x::z' => Zt (rk-1-i) (zsha x) (zind x) :: zsetorder rk (S i) z'
  end.

Fixpoint zupd (z : list zt) (k : nat) (f : zt -> zt) : list zt :=
  match z, k with
  | [], _ => []
  | x::z', O => f x :: z'
  | x::z', S k' => x :: zupd z' k' f
  end.
Definition zk (z : list zt) (k : nat) : zt := nth k z zt0.

(* ply.hh:44-46: merge axes while 'keep'. r is 'rank', o is the offset of ocd in z. Returns rank, ocd and ss. *)
Fixpoint merge (a : expr X W) (z : list zt) (r o : nat) (ss : Z) : nat * nat * Z :=
  match r with
  | O => (O, o, ss)
  | S r' => if keep a ss (zorder (zk z 0)) (zorder (zk z o))
            then merge a z r' (S o) (ss * lene a (zorder (zk z o)))
            else (r, o, ss)
  end.

(* ply.hh:47-56: the lengths of the axes that remain; the flag is set if a length is not positive (and then the function returns). *)
Fixpoint setsha (a : expr X W) (z : list zt) (n k o : nat) : list zt * bool :=
  match n with
  | O => (z, false)
  | S n' =>
    let l := lene a (zorder (zk z (o+k))) in
    let z' := zupd z k (fun x => Zt (zorder x) l (zind x)) in
    if 0 >=? l then (z', true) else setsha a z' n' (S k) o
  end.

(* ply.hh:70-84: advance the odometer. n is the number of axes left, k the current one. The flag is set if there is no next place. *)
Fixpoint odo (n k o : nat) (z : list zt) (a : expr X W) : bool * list zt * expr X W :=
  match n with
  | O => (true, z, a)
  | S n' =>
    let z1 := zupd z k (fun x => Zt (zorder x) (zsha x) (zind x + 1)) in
    let x := zk z1 k in
    let ax := zorder (zk z1 (o+k)) in
    if zind x <? zsha x then (false, z1, adv a ax 1)
    else odo n' (S k) o (zupd z1 k (fun x => Zt (zorder x) (zsha x) 0)) (adv a ax (1 - zsha x))
  end.

(* ply.hh:58-85: the main loop. The traversal state z is returned in all cases, since it outlives the call.
   fuel bounds the number of turns; running out of it is Undef and shown not to happen. *)
Fixpoint ravel_loop (fuel : nat) (r o : nat) (ss : Z) (ss0 : tree) (z : list zt) (a : expr X W) (w : W)
  : out W (option R) * list zt :=
  match fuel with
  | O => (Undef, z)
  | S fuel' =>
    let place := save a in
    match inner (Z.to_nat ss) ss0 a w with
    | Fail w' => (Fail w', z)
    | Undef => (Undef, z)
    | Ok (Some r, _) w' => (Ok (Some r) w', z)
    | Ok (None, a') w' =>
      match odo r 0 o z (load a' place) with
      | (true, z', _) => (Ok None w', z')
      | (false, z', a'') => ravel_loop fuel' r o ss ss0 z' a'' w'
      end
    end
  end.

Definition ravel_fuel (z : list zt) (r : nat) : nat :=
  S (fold_right (fun x n => Z.to_nat (zsha x) * n)%nat 1%nat (firstn r z)).

(* ply.hh:21-86 ply_ravel. The argument z is the content of the thread_local vector (ply.hh:36) before the call (the vector is shared by
   the calls of one instantiation on one thread, and has 4 elements with ind=0 at first); the second component of the result is its content after. *)
Definition ply_ravel (z : list zt) (a : expr X W) (w : W) : out W (option R) * list zt :=
  if validate a then
    match rankn a with
    | O => ((x <- deref a ;; ret (post x)) w, z)
    | S r =>
      let z1 := zsetorder (S r) 0 (zresize z (S r)) in
      let '(r', o, ss) := merge a z1 r 1 (lene a (zorder (zk z1 0))) in
      let '(z2, empty) := setsha a z1 r' 0 o in
      if empty then (Ok None w, z2)
      else ravel_loop (ravel_fuel z2 r') r' o ss (stepe a (zorder (zk z2 0))) z2 a w
    end
  else (Fail w, z).

(* ply.hh:36: the vector at the start of the thread. *)
Definition z_init : list zt := repeat zt0 4.

End Ply.

(* ply.hh:168: for_each: no early exit. Static size. *)
Definition no_stop {X} (_ : X) : option unit := None.

(* ply.hh:31, 138, 150, 169: early(a, def): the default if there was no stop. *)
Definition value_or {R} (o : option R) (d : R) : R := match o with Some r => r | None => d end.

(* ply.hh:176-226 STLIterator. ind: remaining counts. *)
Section STL.
Context {X W : Type}.
Record stl := Stl { sa : expr X W; sind : list Z; over : bool }.

(* ply.hh:186 *)
Definition stl_begin (a : expr X W) : option stl :=
  if validate a then Some (Stl a (shape a) (0 =? sizee a)) else None.

Fixpoint lupd {A} (l : list A) (k : nat) (x : A) : list A :=
  match l, k with
  | [], _ => []
  | _::l', O => x::l'
  | y::l', S k' => y :: lupd l' k' x
  end.

(* ply.hh:194-223 next/nexts: the loop on k from rank-1 to 0; n = k+1. The two are the same loop. *)
Fixpoint stl_next_loop (n : nat) (a : expr X W) (ind : list Z) : stl :=
  match n with
  | O => Stl a ind true
  | S k =>
    let i := nth k ind 0 - 1 in
    if 0 <? i then Stl (adv a k 1) (lupd ind k i) false
    else stl_next_loop k (adv a k (1 - lene a k)) (lupd ind k (lene a k))
  end.
Definition stl_next (s : stl) : stl := stl_next_loop (rankn (sa s)) (sa s) (sind s).

(* A range-for over begin()..end(): run [f] on each item until 'over'. fuel bounds the number of turns (running out is Undef). *)
Fixpoint stl_for (fuel : nat) (f : X -> M W unit) (s : stl) : M W unit :=
  match fuel with
  | O => undef
  | S fuel' => if over s then ret tt else x <- deref (sa s) ;; _ <- f x ;; stl_for fuel' f (stl_next s)
  end.
End STL.
