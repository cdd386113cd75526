(* Model: traversals run by the operations of a traversal. Source: ra/ply.hh:20-86.
   The vector z of ply_ravel (ply.hh:36) is thread_local, so it is shared by all the calls of one instantiation on a thread, also by those that the
   operations of the expression make while it is being traversed. Here the vector is a part of the state that the operations act on. *)
From Coq Require Import ZArith List Lia Bool.
From Verif Require Import M_Base M_Expr M_Ply.
Import ListNotations.
Open Scope Z_scope.

Section Nested.
Context {X W R : Type}.
Variable post : X -> option R.

(* ply.hh:58-85, like ravel_loop in M_Ply.v, except that the vector is read back after the inner loop (ply.hh:60-68).
   n is its size as set by ply.hh:37. If another call changed the size then the references ocd[k] and z[k] (ply.hh:71-82) are no longer valid, which is Undef;
   they are not used if no axis is left (r = 0). fuel bounds the number of turns, running out of it is Undef: unlike in M_Ply.v this may happen. *)
Fixpoint ravel_loop_n (fuel : nat) (n r o : nat) (ss : Z) (ss0 : tree) (a : expr X (W * list zt)) : M (W * list zt) (option R) :=
  fun w =>
  match fuel with
  | O => Undef
  | S fuel' =>
    let place := save a in
    match inner post (Z.to_nat ss) ss0 a w with
    | Fail w' => Fail w'
    | Undef => Undef
    | Ok (Some r, _) w' => Ok (Some r) w'
    | Ok (None, a') (w', z) =>
      if (r =? 0)%nat then Ok None (w', z)
      else if negb (length z =? n)%nat then Undef
      else match odo r 0 o z (load a' place) with
           | (true, z', _) => Ok None (w', z')
           | (false, z', a'') => ravel_loop_n fuel' n r o ss ss0 a'' (w', z')
           end
    end
  end.

(* ply.hh:21-86, like ply_ravel in M_Ply.v. *)
Definition ply_ravel_n (fuel : nat) (a : expr X (W * list zt)) : M (W * list zt) (option R) :=
  fun '(w, z) =>
  if validate a then
    match rankn a with
    | O => (x <- deref a ;; ret (post x)) (w, z)
    | S r =>
      let z1 := zsetorder (S r) 0 (zresize z (S r)) in
      let '(r', o, ss) := merge a z1 r 1 (lene a (zorder (zk z1 0))) in
      let '(z2, empty) := setsha a z1 r' 0 o in
      if empty then Ok None (w, z2)
      else ravel_loop_n fuel (S r) r' o ss (stepe a (zorder (zk z2 0))) a (w, z2)
    end
  else Fail (w, z).

End Nested.
