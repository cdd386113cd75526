(* Examples from test/ra-0.cc. *)
From Coq Require Import ZArith List Bool Ascii String.
From Verif Require Import Spec M_Base M_Expr M_Ply M_Val M_View M_Slice M_Frame M_Mat M_Cell M_Cells M_Array M_Fill M_Access M_Text Spec_View T_Base.
From Verif Require M_Static.
Import ListNotations.
Open Scope Z_scope.

Notation ex := (expr (val Z) (mem Z)).
Definition m0 : mem Z := fun _ => 0.
Definition set_ (_ x : Z) : Z := x.
(* rpool: 1, 2, ... from 0 *)
Definition mr : mem Z := fun p => p + 1.
Definition got (o : out (mem Z) view) : option (list Z * list Z) := match o with Ok v m => Some (vshape v, elems m v) | _ => None end.
(* the same with both traversals *)
Definition made (e : ex) (s : list Z) : option (list Z * list Z) :=
  match got (array_from false z_init 50 s e mr), got (array_from true z_init 50 s e mr) with
  | Some (s1, l), Some (_, l') => if list_eq_dec Z.eq_dec l l' then Some (s1, l) else None | _, _ => None end.
Definition op_ (f : Z -> Z -> Z) (a b : ex) : ex := Map (op2 (fun x y => fun m => match num x m, num y m with Some a, Some b => Ok (VT (f a b)) m | _, _ => Undef end)) [a; b].
(* integers as elements *)
Definition el (e : ex) : ex := Map (op1 (fun x => fun m => match num x m with Some a => Ok (VT a) m | _ => Undef end)) [e].
(* what std::copy from begin() to end() gives *)
Definition copied_ (e : ex) (m : mem Z) : option (list Z) :=
  match stl_begin (lift (C := list Z) e) with
  | Some it => match stl_for 100 (fun x s => match num x (fst s) with Some k => Ok tt (fst s, snd s ++ [k]) | None => Undef end) it (m, []) with Ok _ (_, l) => Some l | _ => None end
  | None => None end.

(* ra-0.cc:54-60, 61-77 *)
Example ra0_len : shape (op_ Z.add (viter (big [4] 0)) (viter (big [4] 10))) = [4] /\ M_Static.len_s (M_Static.TMatch [M_Static.TCell (Some [4]); M_Static.TCell (Some [ANY])]) 0 false = 4 /\ M_Static.len_s (M_Static.TMatch [M_Static.TCell (Some [ANY]); M_Static.TCell (Some [4])]) 0 false = 4 /\
  seen (fun p => if p =? 0 then 99 else p + 1) (from (Vw [Dim 3 2; Dim 2 1] 0) [cidx 1; cidx 1]) = Some ([], [4]).
Proof. vm_compute. repeat split. Qed.
(* ra-0.cc:227-244 iter<1>(AA) = iter<1>(A) *)
Definition mA := filled_by [6; 7] (fun i => i0 i - i1 i).
Example ra0_cells : after (assign_cells false true z_init z_init set_ (big [6; 7] 100) 1 (big [6; 7] 0) 1 mA) (big [6; 7] 100) = option_map snd (ref_ [6; 7] (fun i => i0 i - i1 i)) /\
  after (assign_cells true false z_init z_init set_ (big [6; 7] 100) 1 (big [6; 7] 0) 1 mA) (big [6; 7] 100) = option_map snd (ref_ [6; 7] (fun i => i0 i - i1 i)).
Proof. vm_compute. auto. Qed.
(* ra-0.cc:265-280 shapes of iter<k>(A) *)
Example ra0_iter : map (fun k => match icell (W := mem Z) (big [6; 7] 0) k with Good e => Some (shape e) | _ => None end) [0; -2; 1; -1; 2] = [Some [6; 7]; Some [6; 7]; Some [6]; Some [6]; Some []].
Proof. vm_compute. reflexivity. Qed.
(* ra-0.cc:281-293 copy to s.begin(); 311-322 r.begin(), to_ravel *)
Definition r32 := Vw [Dim 3 1; Dim 2 3] 0.
Definition aft (o : out (mem Z) unit) (v : view) : option (list Z) := match o with Ok _ m => Some (elems m v) | _ => None end.
Definition into (l : list Z) : option (list Z) := match stl_begin (viter r32 : ex) with Some it => aft (copy_iterator l it m0) (big [6] 0) | None => None end.
Definition out_of (l : option (list Z)) : option (list Z) := match l with Some l => aft (to_ravel true l (big [3; 2] 50) mr) (big [6] 50) | None => None end.
Example ra0_stl : into [1; 2; 3; 4; 5; 6] = Some [1; 3; 5; 2; 4; 6] /\
  copied_ (viter (big [6] 0)) mr = Some [1; 2; 3; 4; 5; 6] /\ copied_ (viter (big [3; 2] 0)) mr = Some [1; 2; 3; 4; 5; 6] /\ copied_ (viter r32) mr = Some [1; 4; 2; 5; 3; 6] /\
  out_of (copied_ (viter r32) mr) = Some [1; 4; 2; 5; 3; 6].
Proof. vm_compute. repeat split. Qed.
(* ra-0.cc:294-310 *)
Example ra0_storage : got (array_fill 50 [3; 2] [1; 2; 3; 4; 5; 6] m0) = Some ([3; 2], [1; 2; 3; 4; 5; 6]).
Proof. vm_compute. reflexivity. Qed.
(* ra-0.cc:329-347 Small<double, 3, 2>(ptr(rr)); 350-382 *)
Definition ti (k : nat) : ex := tindex k.
Example ra0_from : made (Cell [Dim UNB 1] 1 (fun p => VRef p) 0) [3; 2] = Some ([3; 2], [1; 1; 2; 2; 3; 3]) /\ made (el (ti 0)) [3; 2] = Some ([3; 2], [0; 0; 1; 1; 2; 2]) /\
  made (op_ Z.add (Scalar (VT 3)) (ti 0)) [3; 2] = Some ([3; 2], [3; 3; 4; 4; 5; 5]) /\ made (op_ Z.sub (ti 0) (ti 1)) [3; 2] = Some ([3; 2], [0; -1; 1; 0; 2; 1]) /\
  made (Scalar (VT 9)) [3; 2] = Some ([3; 2], [9; 9; 9; 9; 9; 9]) /\ made (el (ivec [11; 22; 33])) [3; 2] = Some ([3; 2], [11; 11; 22; 22; 33; 33]) /\ made (Scalar (VT 44)) [] = Some ([], [44]).
Proof. vm_compute. repeat split. Qed.
(* ra-0.cc:438-469 *)
Example ra0_list : got (array_fill 50 [2; 3] [2; 3; 1; 4; 8; 9] m0) = Some ([2; 3], [2; 3; 1; 4; 8; 9]) /\ got (array_fill 50 [6] [2; 3; 1; 4; 8; 9] m0) = Some ([6], [2; 3; 1; 4; 8; 9]) /\ got (array_fill 50 [2; 3] [2; 3; 1; 4; 8] m0) = None.
Proof. vm_compute. repeat split. Qed.
(* ra-0.cc:470-511 a = { ... } and through the transpose *)
Definition bt := match transpose (big [3; 2] 0) [1; 0] with Good v => v | _ => Vw [] 0 end.
Example ra0_assign : aft (view_fill false false [2; 3; 1; 4; 8; 9] (big [3; 2] 0) m0) (big [3; 2] 0) = Some [2; 3; 1; 4; 8; 9] /\ vshape bt = [2; 3] /\ vcp bt = 0 /\
  aft (view_fill false false [2; 3; 1; 4; 8; 9] bt m0) bt = Some [2; 3; 1; 4; 8; 9] /\ aft (view_fill false false [2; 3; 1; 4; 8; 9] bt m0) (big [3; 2] 0) = Some [2; 4; 3; 8; 1; 9] /\
  aft (view_fill false false [2; 3; 1; 4; 8] (big [5] 0) m0) (big [5] 0) = Some [2; 3; 1; 4; 8].
Proof. vm_compute. repeat split. Qed.
(* ra-0.cc:514-527: y = v for views of rank 0 *)
Example ra0_rank0 : after_e set_ (Good (viter (Vw [] 0))) (viter (Vw [] 1)) (fun p => if p =? 0 then 99 else 77) (big [2] 0) = Some [77; 77].
Proof. vm_compute. reflexivity. Qed.
(* ra-0.cc:528-565, 585-622 *)
Definition atv (i : list Z) : option (list Z * list Z) := match at_view r32 i mr with Ok w m => Some (vshape w, elems m w) | _ => None end.
Example ra0_subs : seen mr (from r32 []) = Some ([3; 2], [1; 4; 2; 5; 3; 6]) /\ atv [] = Some ([3; 2], [1; 4; 2; 5; 3; 6]) /\ seen mr (from r32 [cidx 1]) = Some ([2], [2; 5]) /\ atv [1] = Some ([2], [2; 5]) /\
  seen mr (from r32 [cidx 1; cidx 1]) = Some ([], [5]) /\ atv [1; 1] = Some ([], [5]) /\ lists (at_each r32 (fun _ => [1; 1]) (Scalar VUnit)) mr = Some ([], [5]).
Proof. vm_compute. repeat split. Qed.
(* ra-0.cc:567-583 *)
Example ra0_unbeaten : seen_e mr (from_any (big [4] 0) [SArr] [ivec [3; 1; 2]]) = Some ([3], [4; 2; 3]) /\
  after_e set_ (from_any (big [4] 0) [SArr] [ivec [3; 1; 2]]) (el (ivec [7; 8; 9])) mr (big [4] 0) = Some [1; 8; 9; 7].
Proof. vm_compute. auto. Qed.
(* ra-0.cc:624-633 *)
Definition put_ (i j x : Z) (r : option (mem Z)) : option (mem Z) :=
  match r, from (big [2; 3] 0) [cidx i; cidx j] with
  | Some m, Good v => match assign false z_init set_ (viter v) (Scalar (VT x)) m with Ok _ m' => Some m' | _ => None end
  | _, _ => None end.
Example ra0_put : option_map (fun m => elems m (big [2; 3] 0)) (put_ 1 2 44 (put_ 1 1 55 (put_ 1 0 66 (put_ 0 2 77 (put_ 0 1 88 (put_ 0 0 99 (Some (fun _ => 11)))))))) = Some [99; 88; 77; 66; 55; 44].
Proof. vm_compute. reflexivity. Qed.
(* ra-0.cc:635-656 *)
Definition less_ (k : Z) : lx := LMap (fun xs => nth 0 xs 0 - nth 1 xs 0) [LLen; LScalar k].
Example ra0_shape : map (shape_at (big [3; 2; 4] 0)) [0; 1; 2; 3; -1] = [Some 3; Some 2; Some 4; None; None] /\ shape_scalar (big [3; 2; 4] 0) (less_ 1) = Some 4 /\ shape_scalar (big [4; 3; 2] 0) (less_ 2) = Some 3.
Proof. vm_compute. repeat split. Qed.
(* ra-0.cc:657-752 the numbers that are printed *)
Definition mz (s l : list Z) : expr Z unit := Cell (at_row s) (List.length s) (fun p => nth (Z.to_nat p) l 0) 0.
Definition words (dynrank dynsize : bool) (e : expr Z unit) : option (list Z) :=
  match format show_int jstyle dynrank dynsize e tt with
  | Ok t _ => Some ((fix go (n : nat) (s : stream) : list Z := match n with O => [] | S n' => match read_int lo64 hi64 s with (Some x, s') => x :: go n' s' | (None, _) => [] end end) 100%nat (Stream t false))
  | _ => None end.
Definition z32 : expr Z unit := Cell [Dim 3 1; Dim 2 3] 2 (fun p => p + 1) 0.
Example ra0_io : words false false (mz [3; 2] [1; 4; 2; 5; 3; 6]) = Some [1; 4; 2; 5; 3; 6] /\ words false false (mz [3] [1; 4; 2]) = Some [1; 4; 2] /\ words false false (mz [] [77]) = Some [77] /\
  words false true (mz [2; 2; 2] [1; 2; 3; 4; 5; 6; 7; 8]) = Some [2; 2; 2; 1; 2; 3; 4; 5; 6; 7; 8] /\ words false true z32 = Some [3; 2; 1; 4; 2; 5; 3; 6] /\ words false true (mz [3] [1; 2; 3]) = Some [3; 1; 2; 3] /\
  words false false (mz [] [88]) = Some [88] /\ words true true (mz [] [88]) = Some [0; 88] /\ words true true (mz [2; 2; 2] [1; 2; 3; 4; 5; 6; 7; 8]) = Some [3; 2; 2; 2; 1; 2; 3; 4; 5; 6; 7; 8].
Proof. vm_compute. repeat split. Qed.
(* ra-0.cc:770-779 scalar(a) as the destination *)
Definition sa_ (f : Z -> Z -> Z) (e : ex) : option (list Z) := after_e f (Good (Scalar (VRef 0))) e (fun _ => 3) (Vw [] 0).
Example ra0_scalar : sa_ Z.add (el (ivec [4; 5; 6])) = Some [18] /\ sa_ set_ (op_ Z.add (Scalar (VT 3)) (ivec [4; 5; 6])) = Some [9].
Proof. vm_compute. auto. Qed.
(* ra-0.cc:780-789. v[i].a at 2i, v[i].b at 2i+1. *)
Definition mv := fun p : Z => p + 1.
Definition neg1 (e : ex) : ex := Map (op1 (fun x => fun m => match num x m with Some a => Ok (VT (- a)) m | _ => Undef end)) [e].
Example ra0_member : lists (viter (Vw [Dim 2 2] 0)) mv = Some ([2], [1; 3]) /\ lists (viter (Vw [Dim 2 2] 1)) mv = Some ([2], [2; 4]) /\
  after_e set_ (Good (viter (Vw [Dim 2 2] 0))) (neg1 (viter (Vw [Dim 2 2] 1))) mv (big [4] 0) = Some [-2; 2; -4; 4].
Proof. vm_compute. repeat split. Qed.
