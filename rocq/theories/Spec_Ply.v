(* What a traversal has to do: visit a list of indices in order and stop at the first result that says so. *)
From Coq Require Import ZArith List.
From Verif Require Import Spec M_Expr.
Import ListNotations.
Open Scope Z_scope.

Fixpoint visit {W X R} (post : X -> option R) (get : list Z -> M W X) (js : list (list Z)) : M W (option R) :=
  match js with
  | [] => ret None
  | j::js' => fun w =>
      match get j w with
      | Ok x w' => match post x with Some r => Ok (Some r) w' | None => visit post get js' w' end
      | Fail w' => Fail w'
      | Undef => Undef
      end
  end.

(* Without early exit: a plain sequence. *)
Fixpoint each {W X} (act : list Z -> M W X) (js : list (list Z)) : M W unit :=
  match js with
  | [] => ret tt
  | j::js' => fun w => match act j w with Ok _ w' => each act js' w' | Fail w' => Fail w' | Undef => Undef end
  end.

(* ... and the value of a traversal that does not stop *)
Definition finish {W} (o : out W unit) : out W (option unit) :=
  match o with Ok _ w => Ok None w | Fail w => Fail w | Undef => Undef end.
