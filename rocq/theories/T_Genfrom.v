(* Examples from test/genfrom.cc, test/ra-3.cc and test/ra-12.cc. *)
From Coq Require Import ZArith List Bool.
From Verif Require Import Spec M_Base M_Expr M_Ply M_Val M_View M_Slice M_Frame M_Mat M_Cell M_Cells M_Elem Spec_View T_Base.
Import ListNotations.
Open Scope Z_scope.

Notation ex := (expr (val Z) (mem Z)).
(* The arrays in genfrom.cc are iota({ ... }): each element is its own place. *)
Definition mi : mem Z := fun p => p.
Definition iotan (s : list Z) : sub := SSeqN (fun _ => Some 0) (at_row s).
Definition g34 := big [3; 4] 0.
Definition g323 := big [3; 2; 3] 0.

(* genfrom.cc:56-83 the results; 85-157 *)
Example genfrom_rank : map (frombrank g34) [[]; [iotan [2]; iotan [3]]; [cidx 1; iotan [3]]; [iotan [2]; cidx 1]; [cidx 1; cidx 1]; [cidx 1]; [iotan [2]]; [all; iotan [2; 2]]; [SDots (Some 1%nat); cidx 1]; [cidx 1; SDots (Some 1%nat)]] = [2; 2; 1; 1; 0; 1; 2; 3; 1; 1] /\
  map (frombrank g323) [[]; [cidx 1; SDots None]; [SDots None; cidx 1]; [cidx 1; SDots None; cidx 1]] = [3; 2; 2; 1].
Proof. vm_compute. auto. Qed.
Example genfrom_a : seen mi (from g34 []) = Some ([3; 4], [0; 1; 2; 3; 4; 5; 6; 7; 8; 9; 10; 11]) /\ seen mi (from g34 [iotan [2]; iotan [3]]) = Some ([2; 3], [0; 1; 2; 4; 5; 6]) /\
  seen mi (from g34 [cidx 1; iotan [3]]) = Some ([3], [4; 5; 6]) /\ seen mi (from g34 [iotan [2]; cidx 1]) = Some ([2], [1; 5]) /\ seen mi (from g34 [cidx 1; cidx 1]) = Some ([], [5]) /\
  seen mi (from g34 [cidx 1]) = Some ([4], [4; 5; 6; 7]) /\ seen mi (from g34 [iotan [2]]) = Some ([2; 4], [0; 1; 2; 3; 4; 5; 6; 7]) /\
  seen mi (from g34 [all; iotan [2; 2]]) = Some ([3; 2; 2], [0; 1; 2; 3; 4; 5; 6; 7; 8; 9; 10; 11]) /\ seen mi (from g34 [SDots (Some 1%nat); cidx 1]) = Some ([3], [1; 5; 9]) /\
  seen mi (from g34 [cidx 1; SDots (Some 1%nat)]) = Some ([4], [4; 5; 6; 7]) /\ match from g34 [SDots (Some 1%nat); SInsert 1] with Good v => vshape v | _ => [] end = [3; UNB; 4] /\ seen mi (from g34 [cidx 2; cidx 3]) = Some ([], [11]).
Proof. vm_compute. repeat split. Qed.
Example genfrom_b : seen mi (from g323 [cidx 1; SDots None]) = Some ([2; 3], [6; 7; 8; 9; 10; 11]) /\ seen mi (from g323 [SDots None; cidx 1]) = Some ([3; 2], [1; 4; 7; 10; 13; 16]) /\ seen mi (from g323 [cidx 1; SDots None; cidx 1]) = Some ([2], [7; 10]).
Proof. vm_compute. auto. Qed.

(* genfrom.cc:159-196 len *)
Definition lless (k : Z) : lx := LMap (fun xs => nth 0 xs 0 - nth 1 xs 0) [LLen; LScalar k].
Definition lhalf : lx := LMap (fun xs => nth 0 xs 0 / nth 1 xs 0) [LLen; LScalar 2].
Example genfrom_len : seen mi (from (big [3; 6; 4] 0) [SIdx (lval (lless 1)); ciota 3 0 1; SIdx (lval lhalf)]) = Some ([3], [50; 54; 58]) /\ seen mi (from (big [3; 6; 4] 0) [cidx 2; ciota 3 0 1; cidx 2]) = Some ([3], [50; 54; 58]) /\
  seen mi (from (big [3; 4; 3] 0) [cidx 2; ciota 2 2 1; cidx 2]) = Some ([2], [32; 35]) /\
  seen_e mi (from_u true (big [3; 4; 3] 0) [cidx 2; SArr; cidx 2] [ivec (map (fun k => match wlen 4 (LMap (fun xs => nth 0 xs 0 + nth 1 xs 0) [LScalar k; lhalf]) with Some e => match lat e [] with Some x => x | None => 99 end | None => 99 end) [0; 1])]) = Some ([2], [32; 35]) /\
  seen mi (from (big [3; 4; 3] 0) [cidx 2; SSeq (fun _ => Some 0) (lval LLen) (fun _ => Some 1); cidx 2]) = Some ([4], [26; 29; 32; 35]) /\ seen mi (from (big [3; 4; 3] 0) [cidx 2; ciota 4 0 1; cidx 2]) = Some ([4], [26; 29; 32; 35]) /\
  seen mi (from (big [20] 0) [SSeqN (lval (lless 10)) (at_row [10])]) = Some ([10], [10; 11; 12; 13; 14; 15; 16; 17; 18; 19]).
Proof. vm_compute. repeat split. Qed.
(* genfrom.cc:197-226 *)
Example genfrom_ptr : from (big [3; 6; 4] 0) [cidx 1; ciota 3 0 1; cidx 2] = from (big [3; 6; 4] 0) [cidx 1; iotan [3]; cidx 2] /\ seen mi (from (big [3; 6; 4] 0) [cidx 1; ciota 3 0 1; cidx 2]) = Some ([3], [26; 30; 34]) /\
  seen mi (from (big [3; 6; 4] 0) [cidx 1; ciota 3 0 1; iotan [2]]) = Some ([3; 2], [24; 25; 28; 29; 32; 33]) /\ from (big [3; 6; 4] 0) [cidx 1; ciota 3 0 1; iotan [2]] = from (big [3; 6; 4] 0) [cidx 1; iotan [3]; ciota 2 0 1].
Proof. vm_compute. repeat split. Qed.

(* genfrom.cc:227-298, 326-339 unbeaten subscripts, read and written *)
Definition g2332 := big [2; 3; 3; 2] 0.
Definition u0 := [0; 1; 4; 5; 12; 13; 16; 17; 18; 19; 22; 23; 30; 31; 34; 35].
Definition u1 := [0; 0; 2; 3; 0; 0; 6; 7; 8; 9; 10; 11; 0; 0; 14; 15; 0; 0; 0; 0; 20; 21; 0; 0; 24; 25; 26; 27; 28; 29; 0; 0; 32; 33; 0; 0].
Definition sub02 st : res ex := from_u st g2332 [all; SArr; SArr; all] [ivec [0; 2]; ivec [0; 2]].
Example genfrom_unbeaten : seen_e mi (sub02 true) = Some ([2; 2; 2; 2], u0) /\ seen_e mi (sub02 false) = Some ([2; 2; 2; 2], u0) /\
  after_e (fun _ x => x) (sub02 true) (Scalar (VT 0)) (fun p => if p =? 0 then 99 else p) g2332 = Some u1 /\ after_e (fun _ x => x) (sub02 false) (Scalar (VT 0)) (fun p => if p =? 0 then 99 else p) g2332 = Some u1.
Proof. vm_compute. repeat split. Qed.
Example genfrom_pure : seen_e mi (from_u false (big [2; 3] 0) [SArr; SArr] [ivec [1; 0]; ivec [2; 1]]) = Some ([2; 2], [5; 4; 2; 1]) /\ seen_e mi (from_any (big [2; 3] 0) [SArr; SArr] [ivec [1; 0]; ivec [2; 1]]) = Some ([2; 2], [5; 4; 2; 1]).
Proof. vm_compute. auto. Qed.
(* genfrom.cc:313-325, 340-355 *)
Definition i23 : ex := iarr [2; 3] [3; 2; 1; 4; 5; 6].
Example genfrom_over : seen_e mi (from_u true (big [10] 0) [SArr] [i23]) = Some ([2; 3], [3; 2; 1; 4; 5; 6]) /\ seen_e mi (from_any (big [10] 0) [SArr] [i23]) = Some ([2; 3], [3; 2; 1; 4; 5; 6]) /\
  seen_e mi (from_any (big [10; 2] 0) [SArr; cidx 0] [i23]) = Some ([2; 3], [6; 4; 2; 8; 10; 12]).
Proof. vm_compute. repeat split. Qed.
(* genfrom.cc:356-375 *)
Definition seq_ (n o : Z) : ex := Cell [Dim n 1] 1 (fun p => VI p) o.
Definition nums (xs : list (val Z)) : option (list Z) := fold_right (fun x r => match x, r with VI i, Some l => Some (i :: l) | _, _ => None end) (Some []) xs.
Definition opi (f : list Z -> Z) (xs : list (val Z)) : M (mem Z) (val Z) := match nums xs with Some l => ret (VT (f l)) | None => undef end.
Definition minus (l : list Z) : Z := nth 0 l 0 - nth 1 l 0.
Definition plus3 (l : list Z) : Z := fold_left Z.add l 3.
Definition outer_ f (t : list ex) : option (list Z * list Z) := match from_op (opi f) t with Some e => lists e mi | None => None end.
Example genfrom_op : outer_ minus [seq_ 3 0; seq_ 4 0] = Some ([3; 4], [0; -1; -2; -3; 1; 0; -1; -2; 2; 1; 0; -1]) /\ outer_ plus3 [seq_ 3 (-3)] = Some ([3], [0; 1; 2]) /\
  outer_ plus3 [seq_ 3 (-3); seq_ 3 (-2)] = Some ([3; 3], [-2; -1; 0; -1; 0; 1; 0; 1; 2]) /\
  outer_ plus3 [seq_ 3 (-3); seq_ 3 (-2); seq_ 3 (-1)] = Some ([3; 3; 3], flat_map (fun x => [x - 1; x; x + 1]) [-2; -1; 0; -1; 0; 1; 0; 1; 2]).
Proof. vm_compute. repeat split. Qed.
(* genfrom.cc:376-388 *)
Example genfrom_slice : match from (big [7] 0) [ciota 5 1 1] with Good v => vcp v | _ => 99 end = 1 /\ match from (big [7] 0) [SSeqN (fun _ => Some 1) [Dim 5 1]] with Good v => vcp v | _ => 99 end = 1.
Proof. vm_compute. auto. Qed.

(* ra-3.cc:24-81 assignment with scalars, or with fewer axes *)
Definition set_ (_ x : Z) : Z := x.
Definition m123 : mem Z := fun p => nth (Z.to_nat (p - 100)) [1; 2; 3; 4; 5; 6] 99.
Example ra3 : after_e set_ (Good (viter (big [] 0))) (Scalar (VT 77)) m123 (big [] 0) = Some [77] /\ after_e set_ (Good (viter (big [3; 2] 0))) (Scalar (VT 77)) m123 (big [3; 2] 0) = Some [77; 77; 77; 77; 77; 77] /\
  after_e set_ (Good (viter (big [3; 2] 0))) (viter (big [3] 100)) m123 (big [3; 2] 0) = Some [1; 1; 2; 2; 3; 3] /\
  after_e set_ (Good (viter (big [3; 2; 4] 0))) (viter (big [3; 2] 100)) m123 (big [3; 2; 4] 0) = Some (flat_map (fun x => [x; x; x; x]) [1; 2; 3; 4; 5; 6]) /\
(* the commented out case at 84-92: the lengths 4 and 3 don't agree *)
  after_e set_ (Good (viter (big [4] 0))) (viter (big [3; 2] 100)) m123 (big [4] 0) = None.
Proof. vm_compute. repeat split. Qed.
(* ra-12.cc:20-56 *)
Definition m12 : mem Z := fun p => if p <? 100 then nth (Z.to_nat p) [1; 2; 3; 1; 2; 3; 0; 0; 0; 0; -1; 1] 0 else 0.
Example ra12 : after_e set_ (Good (viter (big [2; 3] 200))) (bin Z.mul (viter (big [2; 3] 0)) (viter (big [2] 10))) m12 (big [2; 3] 200) = Some [-1; -2; -3; 1; 2; 3] /\
  after_e Z.add (Good (viter (big [2] 200))) (bin Z.mul (viter (big [2; 3] 0)) (viter (big [2] 10))) m12 (big [2] 200) = Some [-6; 6].
Proof. vm_compute. auto. Qed.
