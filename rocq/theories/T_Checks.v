(* Examples from test/checks.cc: what's refused at run time, and what's known from the types. *)
From Coq Require Import ZArith List Bool.
From Verif Require Import Spec M_Base M_Expr M_Ply M_Val M_View M_Slice M_Frame M_Mat M_Cell M_Static M_Access M_Ext M_Fill M_Array Spec_View T_Base.
Import ListNotations.
Open Scope Z_scope.

Notation ex := (expr (val Z) (mem Z)).
Definition m0 : mem Z := fun _ => 0.
Definition set_ (_ x : Z) : Z := x.
Definition both (f : bool -> bool) : bool := f false && f true.
Definition plus_ (a b : ex) : ex := Map (op2 (fun x y => fun m => match num x m, num y m with Some a, Some b => Ok (VT (a + b)) m | _, _ => Undef end)) [a; b].
(* checks.cc:42-54 *)
Example checks_48 : refused (icell (W := mem Z) (Vw [] 0) 1) = true.
Proof. reflexivity. Qed.
(* checks.cc:55-66 *)
Example checks_58 : [colen UNB ANY; colen ANY UNB; colen 0 UNB; colen UNB 0; colen 0 ANY; colen ANY 0; colen 1 0; colen 0 0] = [ANY; ANY; 0; 0; 0; 0; MIS; 0].
Proof. reflexivity. Qed.
(* checks.cc:73-82 *)
Example checks_77 : fails (at_ (Cell [Dim 10 1] 1 (fun i => VI i) 0 : ex) [11] m0) = true.
Proof. reflexivity. Qed.
(* checks.cc:89-111 *)
Example checks_94 : refused (from (big [10] 0) [ciota 1 10 1]) = true /\ refused (from (big [3; 4] 0) [all; SIdx (lval LLen)]) = true.
Proof. auto. Qed.
(* checks.cc:118-140. The place of p is 0. *)
Definition mp_ : mem Z := fun p => 10 * (p + 1).
Definition ptr_ (n : option Z) : option ex := match viewptr 0 n 1 with Good v => Some (viter v) | _ => None end.
Example checks_123 : match ptr_ (Some 3), ptr_ (Some 2) with
  | Some a, Some b => match at_ a [2] mp_ with Ok (VRef p) m => m p =? 30 | _ => false end && fails (at_ b [2] mp_)
  | _, _ => false end = true.
Proof. reflexivity. Qed.
(* checks.cc:141-151 *)
Example checks_146 : refused (viewptr 0 (Some (-1)) 1) = true.
Proof. reflexivity. Qed.
(* checks.cc:157-198, 204-217 *)
Example checks_161 : match from (big [10] 0) [SInsert 1; all] with
  | Good w => both (fun f => fails (assign f z_init Z.mul (viter w) (Scalar (VT (-1))) m0)) && both (fun f => fails (for_each_c f z_init gather_op [viter w] [] m0)) && negb (agree [viter w; Scalar (VT 99) : ex])
  | _ => false end = true /\ agree [viter (big [2; 3; 4] 0); Scalar (VT 99) : ex] = true /\ check_s (TMatch [TCell None; TScalar]) = 1.
Proof. vm_compute. auto. Qed.
(* checks.cc:218-235. When the expression is made nothing is checked. *)
Definition e218 : ex := plus_ (viter (big [2; 3; 4] 0)) (viter (big [2; 4; 4; 5] 100)).
Example checks_222 : check_s (TMatch [TCell (Some [ANY; ANY; ANY]); TCell (Some [ANY; ANY; ANY; ANY])]) = 1 /\ agree [viter (big [2; 3; 4] 0); viter (big [2; 4; 4; 5] 100) : ex] = false /\
  check e218 = false /\ both (fun f => fails (for_each_c f z_init gather_op [e218] [] m0)) = true.
Proof. vm_compute. auto. Qed.
(* checks.cc:237-269 *)
Definition sm (l : list Z) : ty := TCell (Some l).
Definition agree_s (l : list ty) : Z := check_s (TMatch l).
Example checks_241 : len_s (TMatch [sm [2; 2]; sm [3; 2]]) 0 false = MIS /\ agree_s [sm [2; 2]; sm [3; 2]] = 0 /\ agree_s [sm [3; 2]; sm [2; 2]] = 0.
Proof. auto. Qed.
Example checks_250 : let a := sm [2] in let b := sm [2; 2] in let c := sm [2; 3] in
  map agree_s [[a; b]; [a; c]; [b; a]; [c; a]] = [2; 2; 2; 2] /\ map agree_s [[a; TMatch [b; c]]; [TMatch [b; c]; a]; [TMatch [a; TMatch [b; c]]]; [TMatch [TMatch [b; c]; a]]] = [0; 0; 0; 0].
Proof. auto. Qed.
Example checks_265 : agree_s [sm [2; 2]; sm [2]] = 2 /\ agree_s [sm [2]; sm [2; 2]] = 2 /\ agree_s [sm []; sm [ANY]] = 1 /\ agree_s [sm [ANY]; sm []] = 1.
Proof. auto. Qed.
(* checks.cc:278-297 *)
Example checks_284 : len_s (TMatch [sm [2]; sm [ANY]]) 0 false = 2 /\ check_s (TMatch [sm [2]; sm [ANY]]) = 1 /\ agree [viter (big [2] 0); viter (big [1] 100) : ex] = false /\
  both (fun f => fails (assign f z_init set_ (viter (big [2] 0)) (viter (big [1] 100)) m0)) = true.
Proof. vm_compute. auto. Qed.
(* checks.cc:298-315. Big<int> {} has shape {0}; copied to rank 2. *)
Example checks_305 : make (T := Z) (Some 2%nat) (map len (adim (T := Z) default_any)) = None.
Proof. reflexivity. Qed.
(* checks.cc:321-346. *)
Example checks_327 : shape_at (Vw [] 0) 0 = None /\ both (fun f => fails (assign f z_init set_ (viter (Vw (adim (T := Z) default_any) 0)) (viter (big [1] 100)) m0)) = true.
Proof. vm_compute. auto. Qed.
(* checks.cc:347-368 *)
Definition row0 (a : view) : option ex := match from a [cidx 0] with Good v => Some (viter v) | _ => None end.
Example checks_352 : match row0 (big [1; 8] 0), row0 (big [2; 1] 100) with
  | Some v, Some b => match to_scalar (TCell (Some [ANY])) b (wr 100 7 m0) with Ok (VRef p) m => m p =? 7 | _ => false end && fails (to_scalar (TCell (Some [ANY])) v m0)
  | _, _ => false end = true.
Proof. vm_compute. auto. Qed.
(* checks.cc:375-390. The sequence of subscripts has no end, and a has 4 elements. *)
Example checks_384 : let a_iota := Map (op1 (fun x => match x with VI i => match indexer [Dim 4 1] 0 [i] with Some p => ret (VRef p) | None => fail end | _ => undef end)) [iota0] : ex in
  both (fun f => fails (for_each_c f z_init gather_op [plus_ (viter (big [5] 100)) a_iota] [] m0)) = true.
Proof. vm_compute. auto. Qed.
(* checks.cc:397-410 *)
Example checks_403 : fails (braces_assign (fun _ => false) (fun _ => z_init) 2 (big [2; 3] 0) (Braces [Braces [Item 4; Item 5]; Braces [Item 7; Item 8]]) m0) = true.
Proof. vm_compute. auto. Qed.
(* checks.cc:417-436, both with static and with dynamic rank *)
Example checks_424 : agree_s [sm [ANY]; sm [ANY]] = 1 /\ agree_s [TCell None; TCell None] = 1 /\ agree [viter (big [3] 0); viter (big [4] 100) : ex] = false /\
  fails (for_each_c false z_init gather_op [plus_ (viter (big [3] 0)) (viter (big [4] 100))] [] m0) = true.
Proof. vm_compute. auto. Qed.
