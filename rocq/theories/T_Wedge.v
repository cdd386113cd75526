(* Examples from test/wedge.cc, with integers. *)
From Coq Require Import ZArith List Bool.
From Verif Require Import M_Wedge.
Import ListNotations.
Open Scope Z_scope.

Definition at0 (l : list Z) (i : nat) : Z := nth i l 0.
Definition wedge_ (D Oa Ob : nat) (a b : list Z) : list Z := wedge Z 0 Z.add Z.mul (fun s => s) D Oa Ob (at0 a) (at0 b).
Definition elems (n : nat) (f : nat -> Z) : list Z := map f (seq 0 n).
Definition hodgex_ (D O : nat) (a : list Z) : option (list Z) := option_map (elems (length (choose D (D - O)))) (hodgex Z Z.mul (fun s => s) D O (at0 a) (fun _ => 99)).
Definition hodge_ (D O : nat) (a : list Z) : option (list Z) := option_map (elems (length (choose D (D - O)))) (hodge Z Z.mul (fun s => s) D O (at0 a) (fun _ => 99)).
Definition ca := combs (iota 3) 2.
(* wedge.cc:134-145 *)
Example wedge_137 : binom unlimited 0 0 = 1 /\ binom word64 31 14 = 265182525 /\ binom word64 63 28 = 629308289804197437.
Proof. vm_compute. auto. Qed.
(* wedge.cc:146-174 *)
Definition found (P : list nat) : option nat * Z := (findcomb_where P ca, findcomb_sign P ca).
Example wedge_150 : map found [[0; 1]; [1; 0]; [0; 2]; [2; 0]; [1; 2]; [2; 1]; [0; 0]; [1; 1]; [2; 2]; [3; 0]]%nat =
  [(Some 0%nat, 1); (Some 0%nat, -1); (Some 1%nat, 1); (Some 1%nat, -1); (Some 2%nat, 1); (Some 2%nat, -1); (None, 0); (None, 0); (None, 0); (None, 0)].
Proof. vm_compute. auto. Qed.
Example wedge_164 : combs (iota 3) 3 = [iota 3] /\ map (fun c => anticomb c 3) (combs (iota 3) 1) = [[1; 2]; [2; 0]; [0; 1]]%nat.
Proof. vm_compute. auto. Qed.
(* wedge.cc:176-203 *)
Example wedge_179 : choose 3 1 = [[0]; [1]; [2]]%nat /\ choose 3 2 = [[1; 2]; [2; 0]; [0; 1]]%nat /\ choose 3 3 = [[0; 1; 2]]%nat /\ choose 1 0 = [[]] /\ choose 1 1 = [[0]]%nat.
Proof. vm_compute. repeat split. Qed.
(* wedge.cc:205-288 *)
Example wedge_210 : wedge_ 1 0 0 [1] [3] = [3] /\ hodgex_ 1 0 [3] = Some [3] /\ wedge_ 3 1 1 [1; 0; 0] [0; 1; 0] = [0; 0; 1] /\ hodgex_ 3 2 [0; 0; 1] = Some [0; 0; 1] /\ wedge_ 3 1 1 [0; 1; 0] [1; 0; 0] = [0; 0; -1] /\ hodgex_ 3 2 [0; 0; -1] = Some [0; 0; -1].
Proof. vm_compute. repeat split. Qed.
Example wedge_252 : wedge_ 3 1 1 [1; 0; 0] [0; 0; 2] = [0; -2; 0] /\ hodgex_ 3 2 [0; -2; 0] = Some [0; -2; 0] /\ wedge_ 3 1 1 [1; 0; 2] [1; 0; 2] = [0; 0; 0] /\ wedge_ 3 1 2 [0; 1; 0] [0; -1; 0] = [-1] /\ hodgex_ 3 3 [-1] = Some [-1].
Proof. vm_compute. repeat split. Qed.
(* wedge.cc:289-340 *)
Example wedge_293 : wedge_ 4 1 1 [1; 0; 0; 0] [0; 0; 1; 0] = [0; 1; 0; 0; 0; 0] /\ hodgex_ 4 2 [0; 1; 0; 0; 0; 0] = Some [0; 0; 0; 0; -1; 0] /\ hodgex_ 4 2 [0; 0; 0; 0; -1; 0] = Some [0; 1; 0; 0; 0; 0] /\
  wedge_ 4 1 1 [0; 0; 1; 0] [1; 0; 0; 0] = [0; -1; 0; 0; 0; 0] /\ hodgex_ 4 2 [1; 0; 0; 0; 0; 0] = Some [0; 0; 0; 0; 0; 1] /\ wedge_ 4 2 2 [1; 0; 0; 0; 0; 0] [0; 0; 0; 0; 0; 1] = [1] /\ wedge_ 4 2 2 [0; 0; 0; 0; 0; 1] [1; 0; 0; 0; 0; 0] = [1] /\
  wedge_ 4 2 2 [1; 0; 0; 0; 0; 1] [1; 0; 0; 0; 0; 1] = [2] /\ wedge_ 2 1 1 [1; 0] [0; 1] = [1] /\ hodgex_ 2 1 [1; 2] = Some [-2; 1].
Proof. vm_compute. repeat split. Qed.
(* wedge.cc:341-378, 428-434 *)
Definition cross_ (a b : list Z) : list Z := cross Z 0 Z.add Z.mul (fun s => s) (length a) (at0 a) (at0 b).
Example wedge_344 : cross_ [1; 0] [0; 1] = [1] /\ cross_ [0; 1] [1; 0] = [-1] /\ cross_ [1; 0] [1; 2] = [2] /\ cross_ [2; 2] [5; 3] = [-4] /\
  (let x := [1; 0; 0] in let y := [0; 1; 0] in let z := [0; 0; 1] in map (fun p => cross_ (fst p) (snd p)) [(x, y); (y, z); (z, x); (y, x); (z, y); (x, z)] = [z; x; y; map Z.opp z; map Z.opp x; map Z.opp y]) /\
  wedge_ 3 1 2 [1; 2; 3] [3; 2; 1] = [10] /\ cross_ [1; 2; 3] [3; 2; 1] = wedge_ 3 1 1 [1; 2; 3] [3; 2; 1].
Proof. vm_compute. repeat split. Qed.
(* wedge.cc:36-85, 390-393: N up to 6, every O *)
Definition sign (N O : nat) : Z := if Nat.odd (O * (N - O)) then -1 else 1.
Definition eqo (a b : option (list Z)) : bool := match a, b with Some a, Some b => if list_eq_dec Z.eq_dec a b then true else false | _, _ => false end.
Definition then_ (a : option (list Z)) (f : list Z -> option (list Z)) : option (list Z) := match a with Some l => f l | None => None end.
Definition sqsum (l : list Z) : Z := fold_left Z.add (map (fun x => x * x) l) 0.
Definition hodge_test (N O : nat) : bool :=
  let u := map (fun i => Z.of_nat i + 1) (seq 0 (length (choose N O))) in
  let w := hodge_ N O u in let x := hodgex_ N O u in
  eqo (then_ x (hodgex_ N (N - O))) (Some (map (Z.mul (sign N O)) u)) && eqo (then_ w (hodge_ N (N - O))) (Some (map (Z.mul (sign N O)) u)) &&
  match w, x with
  | Some w, Some x => (if (O =? 1)%nat then eqo (Some (wedge_ N O (N - O) u w)) (Some [sqsum u]) else if (O + 1 =? N)%nat then eqo (Some (wedge_ N (N - O) O u w)) (Some [sqsum w * sign N O]) else true) &&
                      (if (2 * O =? N)%nat then eqo (Some (wedge_ N O (N - O) u w)) (Some (wedge_ N O (N - O) u x)) else true)
  | _, _ => false end.
Example wedge_392 : forallb (fun N => forallb (hodge_test N) (seq 0 (S N))) (seq 0 7) = true.
Proof. vm_compute. reflexivity. Qed.
(* wedge.cc:394-427 *)
Example wedge_396 : wedge_ 0 0 0 [2] [3] = [6] /\ wedge_ 1 0 0 [2] [3] = [6] /\ wedge_ 2 0 1 [2] [3; 5] = [6; 10] /\ wedge_ 2 1 0 [3; 5] [2] = [6; 10] /\ wedge_ 3 0 1 [2] [1; 3; 5] = [2; 6; 10] /\ wedge_ 3 1 0 [1; 3; 5] [2] = [2; 6; 10] /\ wedge_ 1 0 1 [3] [2] = [6].
Proof. vm_compute. repeat split. Qed.
