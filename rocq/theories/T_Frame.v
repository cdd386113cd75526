(* Examples from test/wrank.cc, test/frame-new.cc, test/frame-old.cc, test/tensorindex.cc, test/self-assign.cc, test/at.cc, test/cellrank.cc. *)
From Coq Require Import ZArith List Bool.
From Verif Require Import Spec M_Base M_Expr M_Ply M_Val M_View M_Slice M_Frame M_Mat M_Cell M_Cells M_Static M_Access M_Doc M_Fill Spec_View T_Base.
Import ListNotations.
Open Scope Z_scope.

Notation ex := (expr (val Z) (mem Z)).
Definition m0 : mem Z := fun _ => 0.
Definition set_ (_ x : Z) : Z := x.
Definition opn (f : Z -> Z -> Z) : list (val Z) -> M (mem Z) (val Z) := op2 (fun x y => fun m => match num x m, num y m with Some a, Some b => Ok (VT (f a b)) m | _, _ => Undef end).
Definition map2 (f : Z -> Z -> Z) (a b : ex) : ex := Map (opn f) [a; b].
(* c = f(a, b), where c is a reference *)
Definition set3 (f : Z -> Z -> Z) (xs : list (val Z)) : M (mem Z) (val Z) :=
  match xs with [VRef c; a; b] => fun m => match num a m, num b m with Some x, Some y => Ok VUnit (wr c (f x y) m) | _, _ => Undef end | _ => undef end.
Definition eqo (a b : option (list Z)) : bool := match a, b with Some a, Some b => if list_eq_dec Z.eq_dec a b then true else false | _, _ => false end.
Definition each (e : option ex) (m : mem Z) (v : view) : option (list Z) :=
  match e with
  | Some e => let a := after (ply false no_stop z_init e m) v in let b := after (ply true no_stop z_init e m) v in if eqo a b then a else None
  | None => None
  end.
Definition lists_o (e : option ex) (m : mem Z) : option (list Z * list Z) := match e with Some e => lists e m | None => None end.
Definition memo (l : list (Z * list Z)) : mem Z := fold_right (fun x m => with_ (fst x) [Z.of_nat (length (snd x))] (fun i => nth (Z.to_nat (i0 i)) (snd x) 0) m) m0 l.

(* wrank.cc:142-166 *)
Definition m142 := memo [(0, [10; 11; 12]); (10, [1; 2; 3; 4])].
Definition c34 := [9; 8; 7; 6; 10; 9; 8; 7; 11; 10; 9; 8].
Example wrank_150 : each (map_verb [[1; 0; 1]]%nat (set3 Z.sub) [viter (big [3; 4] 100); viter (big [3] 0); viter (big [4] 10)]) m142 (big [3; 4] 100) = Some c34 /\
  lists_o (map_verb [[0; 1]]%nat (opn Z.sub) [viter (big [3] 0); viter (big [4] 10)]) m142 = Some ([3; 4], c34) /\
  lists_o (map_verb [[1; 0]]%nat (opn Z.sub) [viter (big [3] 0); viter (big [4] 10)]) m142 = Some ([4; 3], [9; 10; 11; 8; 9; 10; 7; 8; 9; 6; 7; 8]).
Proof. vm_compute. repeat split. Qed.
(* wrank.cc:167-200. The array c is at 0; the subscripts aren't in memory. *)
Definition m167 : mem Z := filled_by [100; 100] (fun i => 100 * i0 i + i1 i).
Definition look : option ex := map_verb [[0; 1]]%nat (view_op (big [100; 100] 0)) [ivec [10; 11; 12]; ivec [1; 2; 3; 4]].
Example wrank_184 : lists_o look m167 = Some ([3; 4], [1001; 1002; 1003; 1004; 1101; 1102; 1103; 1104; 1201; 1202; 1203; 1204]) /\
  match look with Some e => match assign false z_init set_ e (Scalar (VT 7)) m167 with Ok _ m => forallb (fun i => m (vplace (big [100; 100] 0) i) =? (if (10 <=? i0 i) && (i0 i <=? 12) && (1 <=? i1 i) && (i1 i <=? 4) then 7 else 100 * i0 i + i1 i)) (indices [20; 10]) | _ => false end | None => false end = true.
Proof. vm_compute. auto. Qed.
(* wrank.cc:214-238 *)
Definition m214 := with_ 20 [3; 2] (fun i => i1 i - 2 * i0 i) (filled_by [2; 3] (fun i => i0 i - i1 i)).
Definition c1 : option (list Z) := match gemm2 Z.add Z.mul false z_init 900 0 (big [2; 3] 0) (big [3; 2] 20) m214 with Ok (Some v) m => Some (elems m v) | _ => None end.
Definition mac : list (val Z) -> M (mem Z) (val Z) := mac_op Z.add Z.mul.
Example wrank_220 : c1 = Some [10; 7; 4; 4] /\
  lists_o (map_verb [[1; 2]; [0; 1]]%nat (opn Z.mul) [viter (big [2; 3] 0); viter (big [3; 2] 20)]) m214 = Some ([2; 3; 2], map (fun i => (i0 i - i1 i) * (i2 i - 2 * i1 i)) (indices [2; 3; 2])) /\
  each (map_verb [[1; 1; 2]; [1; 0; 1]]%nat mac [viter (big [2; 2] 900); viter (big [2; 3] 0); viter (big [3; 2] 20)]) m214 (big [2; 2] 900) = c1.
Proof. vm_compute. repeat split. Qed.
(* wrank.cc:291-307, 313-334 *)
Example wrank_293 : lists_o (from_op (opn Z.sub) [ivec [0; 1; 2]; ivec [0; 1; 2]]) m0 = Some ([3; 3], [0; -1; -2; 1; 0; -1; 2; 1; 0]) /\
  lists_o (from_op (opn Z.sub) [Cell [Dim 7 1] 1 VI 0; Cell [Dim 9 1] 1 VI 0]) m0 = ref_ [7; 9] (fun i => i0 i - i1 i).
Proof. vm_compute. repeat split. Qed.
(* wrank.cc:323-334 *)
Definition a323 : ex := Cell [Dim 3 1] 1 (fun p => VT (2 + p)) 0.
Definition b323 (s : list Z) : ex := Cell (at_row s) 2 (fun p => VT (4 - i0 (unravel s p))) 0.
Example wrank_326 : lists_o (map_verb [[1; 1]]%nat (opn Z.mul) [a323; b323 [2; 3]]) m0 = Some ([2; 3], [8; 12; 16; 6; 9; 12]) /\ option_map check (map_verb [[1; 1]]%nat (opn Z.mul) [a323; b323 [2; 3]]) = Some true /\ option_map check (map_verb [[1; 1]]%nat (opn Z.mul) [a323; b323 [3; 2]]) = Some false.
Proof. vm_compute. repeat split. Qed.
(* wrank.cc:335-342 *)
Definition o335 : option ex := from_op (opn Z.mul) [Cell [Dim 3 1] 1 (fun p => VT (p - 10)) 0; Cell [Dim 4 1] 1 (fun p => VT (10 - p)) 0].
Example wrank_337 : match o335 with Some e => forallb (fun i => match at_ e i m0 with Ok (VT x) _ => x =? (i0 i - 10) * (10 - i1 i) | _ => false end) (indices [3; 4]) | None => false end = true.
Proof. vm_compute. auto. Qed.
(* wrank.cc:343-353 *)
Definition a343 : view := big [2; 3; 4] 0.
Definition iterates (v : view) : ex := Cell (vdv v) (vrank v) VI (vcp v).
Definition same_transpose (d : list nat) : bool :=
  match transpose a343 (map Z.of_nat d) with
  | Good v => match lists (iterates v) m0, lists (reframe (iterates a343) d) m0 with Some (s, l), Some (s', l') => eqo (Some s) (Some s') && eqo (Some l) (Some l') | _, _ => false end
  | _ => false end.
Example wrank_346 : forallb same_transpose [[0; 1; 2]; [1; 2; 0]; [2; 0; 1]; [2; 1; 0]; [1; 0; 2]; [0; 2; 1]]%nat = true.
Proof. vm_compute. auto. Qed.

(* frame-new.cc:47-67, 80-101 *)
Definition ta (l : list Z) : ty := TCell (Some l).
Definition sum4 (a b : ty) : Z * list Z * Z := let t := TMatch [a; b] in (rank_s t, map (fun k => len_s t k false) (seq 0 4), size_s t).
Example frame_61 : sum4 (ta [2; 3; 4]) (ta [2; 3; 4; 5]) = (4, [2; 3; 4; 5], 120) /\ sum4 (ta [ANY; ANY; ANY]) (ta [ANY; ANY; ANY; ANY]) = (4, [ANY; ANY; ANY; ANY], ANY) /\
  sum4 (ta [ANY; ANY; ANY]) (TCell None) = (ANY, [ANY; ANY; ANY; ANY], ANY) /\ sum4 (TCell None) (ta [ANY; ANY; ANY; ANY]) = (ANY, [ANY; ANY; ANY; ANY], ANY) /\ sum4 (TCell None) (TCell None) = (ANY, [ANY; ANY; ANY; ANY], ANY).
Proof. vm_compute. repeat split. Qed.
Definition e47 : ex := map2 Z.add (viter (big [2; 3; 4] 0)) (viter (big [2; 3; 4; 5] 100)).
Example frame_51 : rank e47 = 4 /\ shape e47 = [2; 3; 4; 5] /\ sizee e47 = 120 /\ agree [viter (big [2; 3; 4] 0); viter (big [2; 4; 4; 5] 100) : ex] = false /\ agree [viter (big [2; 3; 4] 0); viter (big [2; 3; 4; 5] 100) : ex] = true.
Proof. vm_compute. repeat split. Qed.
(* frame-new.cc:151-183. *)
Definition m151 := filled_by [2; 3; 4] (fun i => (i0 i + 1) * 100 + (i1 i + 1) * 10 + (i2 i + 1)).
Definition b151 : res view := from (big [2; 3; 4] 0) [all; SInsert 1; ciota 4 0 0].
Example frame_156 : match b151 with
  | Good b => let e := map2 Z.add (viter (big [2; 3; 4] 0)) (viter b) in let e' := map2 Z.add (viter b) (viter (big [2; 3; 4] 0)) in
    rank e = 4 /\ shape e = [2; 3; 4; 4] /\ sizee e = 96 /\ (let r := ref_ [2; 3; 4; 4] (fun i => (i0 i + 1) * 100 + (i1 i + 1) * 10 + (i2 i + 1) + ((i0 i + 1) * 100 + 10 + (i3 i + 1))) in lists e m151 = r /\ lists e' m151 = r)
  | _ => False end.
Proof. vm_compute. repeat split. Qed.
(* frame-new.cc:184-201 *)
Definition m184 := with_ 50 [5] i0 (filled_by [4; 3] (fun i => 10 * i1 i + 100 * i0 i)).
Example frame_189 : match from (big [4; 3] 0) [SDots (Some 2%nat); SInsert 1], from (big [5] 50) [SInsert 2; SDots (Some 1%nat)] with
  | Good a, Good b => let r := ref_ [4; 3; 5] (fun i => 10 * i1 i + 100 * i0 i - i2 i) in lists (map2 Z.sub (viter a) (viter b)) m184 = r /\ lists_o (from_op (opn Z.sub) [viter (big [4; 3] 0); viter (big [5] 50)]) m184 = r
  | _, _ => False end.
Proof. vm_compute. auto. Qed.
(* frame-new.cc:202-219. The array of rank 3 with lengths 5 1 2, steps 1 0 5. *)
Definition ti (k : nat) : ex := tindex k.
Example frame_204 : after_e Z.add (Good (Map (op1 (fun v => ret v)) [viter (big [4; 3] 0)])) (Scalar (VT 1)) m184 (big [4; 3] 0) = Some (map (fun i => 10 * i1 i + 100 * i0 i + 1) (indices [4; 3])) /\
  (let e := map2 (fun x y => if x =? y then 1 else 0) (map2 Z.add (map2 Z.add (ti 0) (map2 Z.mul (ti 1) (Scalar (VT 0)))) (map2 (fun x y => x * y + 1) (ti 2) (Scalar (VT 5)))) (viter (Vw [Dim 5 1; Dim 1 0; Dim 2 5] 0)) in
   lists e (fun p => p + 1) = Some ([5; 1; 2], repeat 1 10) /\ sizee e = 10).
Proof. vm_compute. repeat split. Qed.
(* frame-new.cc:220-229 *)
Definition tk (k : nat) : ty := match k with O => TCell (Some [UNB]) | _ => TReframe (TCell (Some [UNB])) [k] end.
Example frame_222 : map (fun k => size_s (TMatch [tk k; TScalar])) [0; 1; 2]%nat = [UNB; UNB; UNB] /\ rank_s (TMatch [tk 0; TScalar]) = 1 /\ len_s (TMatch [tk 0; TScalar]) 0 false = UNB.
Proof. vm_compute. repeat split. Qed.

(* frame-old.cc:26-55 *)
Definition m26 := memo [(0, [1; 2; 3; 4; 5; 6]); (10, [1; 2; 3])].
Definition A26 : ex := viter (big [3; 2] 0).
Definition C26 : ex := viter (big [3; 2] 100).
(* the arguments in another order: c is the last *)
Definition last_ (f : Z -> Z -> Z) (xs : list (val Z)) : M (mem Z) (val Z) := match xs with [a; b; c] => set3 f [c; a; b] | _ => undef end.
Example frame_33 : each (Some (Map (set3 (fun a b => a - (b + 1))) [C26; A26; ti 0])) m26 (big [3; 2] 100) = Some [0; 1; 1; 2; 2; 3] /\ each (Some (Map (set3 (fun a b => b - (a + 1))) [C26; ti 0; A26])) m26 (big [3; 2] 100) = Some [0; 1; 1; 2; 2; 3] /\
  each (Some (Map (last_ (fun a b => a - (b + 1))) [A26; ti 1; C26])) m26 (big [3; 2] 100) = Some [0; 0; 2; 2; 4; 4] /\ each (Some (Map (last_ (fun a b => b - (a + 1))) [ti 1; A26; C26])) m26 (big [3; 2] 100) = Some [0; 0; 2; 2; 4; 4] /\
  each (Some (Map (set3 Z.sub) [C26; A26; viter (big [3] 10)])) m26 (big [3; 2] 100) = Some [0; 1; 1; 2; 2; 3] /\ each (Some (Map (set3 (fun x y => y - x)) [C26; viter (big [3] 10); A26])) m26 (big [3; 2] 100) = Some [0; 1; 1; 2; 2; 3].
Proof. vm_compute. repeat split. Qed.
(* frame-old.cc:108-122 *)
Example frame_116 : each (Some (Map (fun xs => match xs with [a; bc] => set3 (fun x _ => x) [a; bc; bc] | _ => undef end) [viter (big [2; 2] 100); map2 Z.sub (viter (big [2] 10)) (ti 1)])) (memo [(10, [1; 2])]) (big [2; 2] 100) = Some [1; 0; 2; 1].
Proof. vm_compute. reflexivity. Qed.

(* tensorindex.cc:20-60. x is at 0, y at 10, A at 100, B at 200, z at 300. *)
Definition m20 := memo [(0, [1; 2; 3; 4]); (10, [1; 0; 2; -1])].
Definition through (v : view) (t : list ex) : ex := Map (view_op v) t.
Definition A44 := big [4; 4] 100.
Definition B44 := big [4; 4] 200.
Definition outer44 := [1; 0; 2; -1; 2; 0; 4; -2; 3; 0; 6; -3; 4; 0; 8; -4].
Definition m44 := memo [(100, outer44)].
Example tensor_30 : after_e set_ (Good (viter A44)) (map2 Z.mul (through (big [4] 0) [ti 0]) (through (big [4] 10) [ti 1])) m20 A44 = Some outer44 /\
  after_e set_ (Good (viter (big [4] 300))) (through A44 [ti 0; ti 0]) m44 (big [4] 300) = Some [1; 0; 6; -4] /\ after_e set_ (Good (viter B44)) (through A44 [ti 0; ti 1]) m44 B44 = Some outer44 /\
  (let t := option_map snd (seen m44 (transpose A44 [1; 0])) in after_e set_ (Good (viter B44)) (through A44 [ti 1; ti 0]) m44 B44 = t /\ after_e set_ (Good (through B44 [ti 1; ti 0])) (viter A44) m44 B44 = t) /\
  after_e Z.add (Good (viter (big [4] 300))) (viter A44) m44 (big [4] 300) = Some [2; 4; 6; 8].
Proof. vm_compute. repeat split. Qed.

(* self-assign.cc:18-29, at.cc:97-113. The subscripts are the values of I, by position. *)
Definition ix (l : list (list Z)) (v : val Z) : list Z := match v with VI i => nth (Z.to_nat i) l [] | _ => [] end.
Definition numbers (n : Z) : ex := Cell [Dim n 1] 1 VI 0.
Definition at_list (v : view) (l : list (list Z)) : ex := at_each v (ix l) (numbers (Z.of_nat (length l))).
Definition I2 := [[1; 1]; [2; 2]].
Definition mAB := with_ 200 [4; 4] (fun i => 10 * i0 i + i1 i) m0.
Example at_20 : after_e set_ (Good (at_list A44 I2)) (Scalar (VT 9)) m0 A44 = Some [0; 0; 0; 0; 0; 9; 0; 0; 0; 0; 9; 0; 0; 0; 0; 0] /\
  after_e set_ (Good (at_list A44 I2)) (at_list B44 I2) mAB A44 = Some [0; 0; 0; 0; 0; 11; 0; 0; 0; 0; 22; 0; 0; 0; 0; 0] /\
  after_e set_ (Good (at_each A44 (fun _ => [3; 2]) (Scalar VUnit))) (Scalar (VT 99)) m0 A44 = Some [0; 0; 0; 0; 0; 0; 0; 0; 0; 0; 0; 0; 0; 0; 99; 0].
Proof. vm_compute. repeat split. Qed.
(* self-assign.cc:30-42. A at 0, B at 100, C at 200, D at 300. *)
Definition mABCD := with_ 0 [4; 4] (fun _ => 4) (with_ 100 [4; 4] (fun _ => 8) (with_ 200 [4; 4] (fun _ => 2) m0)).
Definition sz (l : list Z) (a b : Z) : ex := Pick selv [ivec l; viter (big [4; 4] a); viter (big [4; 4] b)].
Example self_38 : after_e set_ (Good (sz [0; 1; 0; 1] 0 100)) (sz [1; 0; 0; 1] 200 300) mABCD (Vw [Dim 2 100; Dim 4 4; Dim 4 1] 0) =
  Some [0; 0; 0; 0; 4; 4; 4; 4; 2; 2; 2; 2; 4; 4; 4; 4; 8; 8; 8; 8; 2; 2; 2; 2; 8; 8; 8; 8; 0; 0; 0; 0].
Proof. vm_compute. reflexivity. Qed.
(* at.cc:20-28, 110-150. [A]: {{100, 101}, {110, 111}, {120, 121}} at 0. *)
Definition mA := memo [(0, [100; 101; 110; 111; 120; 121]); (10, [1; 4; 2; 5; 3; 6])].
Definition A32 := big [3; 2] 0.
Definition atv (v : view) (i : list Z) : option (list Z * list Z) := match at_view v i mA with Ok w m => Some (vshape w, elems m w) | _ => None end.
Example at_120 : lists (at_each A32 (ix [[0; 1]; [2; 0]; [1; 0]; [2; 1]]) (Cell [Dim 2 2; Dim 2 1] 2 VI 0)) mA = Some ([2; 2], [101; 120; 110; 121]) /\
  atv A32 [] = Some ([3; 2], [100; 101; 110; 111; 120; 121]) /\ atv A32 [2] = Some ([2], [120; 121]) /\ atv A32 [2; 0] = Some ([], [120]) /\ lists (at_list A32 [[0; 1]; [2; 0]; [1; 0]]) mA = Some ([3], [101; 120; 110]) /\
  map (fun i => atv A32 i) [[0; 1]; [2; 0]; [1; 0]] = [Some ([], [101]); Some ([], [120]); Some ([], [110])] /\ atv (big [3; 2] 10) [1] = Some ([2], [2; 5]) /\ atv (big [3; 2] 10) [1; 1] = Some ([], [5]).
Proof. vm_compute. repeat split. Qed.
