(* Examples from test/fromb.cc, test/fromu.cc. *)
From Coq Require Import ZArith List Bool.
From Verif Require Import Spec M_Base M_Expr M_Ply M_Val M_View M_Slice M_Frame M_Mat Spec_View T_Base.
Import ListNotations.
Open Scope Z_scope.

Definition set (_ x : Z) : Z := x.
Definition L (k : Z) : sub := SIdx (lval (LMap (fun x => nth 0 x 0 - nth 1 x 0) [LLen; LScalar k])).

(* fromb.cc:25-42. The lengths of Small are in its type but that's not in the view; the last isn't a view there. *)
Definition A10 := big [10] 0.
Definition M10 := filled_by [10] i0.
Example fromb_25 : seen M10 (from A10 [ciota 4 0 1]) = ref_ [4] i0 /\ from A10 [ciota 4 0 1] = Good (big [4] 0).
Proof. vm_compute. auto. Qed.
Example fromb_32 : seen M10 (from A10 [SSeq (lval (LScalar 5)) (lval (LMap (fun x => nth 0 x 0 - nth 1 x 0) [LLen; LScalar 5])) (lval (LScalar 1))]) = ref_ [5] (fun i => i0 i + 5).
Proof. vm_compute. auto. Qed.
(* fromb.cc:44-88 *)
Definition A1010 := big [10; 10] 0.
Definition M1010 := filled_by [10; 10] (fun i => i1 i + 10 * i0 i).
Definition at_ (r : res view) : option Z := match r with Good v => Some (vcp v) | _ => None end.
Example fromb_46 :
  (seen M1010 (from A1010 [cidx 3; all]) = ref_ [10] (fun i => 30 + i0 i) /\ at_ (from A1010 [cidx 3; all]) = Some 30) /\
  (seen M1010 (from A1010 [ciota 4 0 1]) = ref_ [4; 10] (fun i => i1 i + 10 * i0 i) /\ at_ (from A1010 [ciota 4 0 1]) = Some 0) /\
  (seen M1010 (from A1010 [ciota 4 4 1]) = ref_ [4; 10] (fun i => i1 i + 10 * (i0 i + 4)) /\ at_ (from A1010 [ciota 4 4 1]) = Some 40) /\
  (seen M1010 (from A1010 [cidx 3; ciota 5 4 1]) = ref_ [5] (fun i => 30 + i0 i + 4) /\ at_ (from A1010 [cidx 3; ciota 5 4 1]) = Some (30 + 4)) /\
  (seen M1010 (from A1010 [all; ciota 4 2 2]) = ref_ [10; 4] (fun i => 10 * i0 i + 2 * (1 + i1 i)) /\ at_ (from A1010 [all; ciota 4 2 2]) = Some 2) /\
  (seen M1010 (from A1010 [ciota 3 1 2; ciota 2 2 3]) = ref_ [3; 2] (fun i => 10 * (1 + 2 * i0 i) + 2 + i1 i * 3) /\ at_ (from A1010 [ciota 3 1 2; ciota 2 2 3]) = Some 12) /\
  (seen M1010 (from A1010 [ciota 3 9 (-2); ciota 2 2 3]) = ref_ [3; 2] (fun i => 10 * (9 - 2 * i0 i) + 2 + i1 i * 3) /\ at_ (from A1010 [ciota 3 9 (-2); ciota 2 2 3]) = Some 92).
Proof. vm_compute. repeat split. Qed.
(* fromb.cc:83-92: the run time iota on Small is one of the arrays, cf C38 *)
Example fromb_83 : seen_e M1010 (from_u true A1010 [SArr] [ivec [0; 1; 2; 3]]) = ref_ [4; 10] (fun i => i1 i + 10 * i0 i) /\
  seen_e M1010 (from_u true A1010 [all; SArr] [ivec [0; 1; 2; 3]]) = ref_ [10; 4] (fun i => i1 i + 10 * i0 i).
Proof. vm_compute. repeat split. Qed.
(* fromb.cc:96-110 zero length iota. The places are in skipped tests (FIXME there). *)
Example fromb_100 : seen M10 (from A10 [ciota 0 10 1]) = ref_ [0] i0 /\ seen M10 (from A10 [ciota 0 10 (-1)]) = ref_ [0] i0.
Proof. vm_compute. auto. Qed.
(* fromb.cc:112-125 *)
Example fromb_114 : from (big [4; 4] 0) [ciota 2 1 1] = Good (Vw [Dim 2 4; Dim 4 1] 4).
Proof. reflexivity. Qed.
(* fromb.cc:129-130 *)
Definition A234 := big [2; 3; 4] 0.
Definition M234 := filled_by [2; 3; 4] (fun i => i0 i * 100 + i1 i * 10 + i2 i).
Example fromb_129 : seen M234 (from A234 []) = ref_ [2; 3; 4] (fun i => i0 i * 100 + i1 i * 10 + i2 i).
Proof. vm_compute. auto. Qed.
(* fromb.cc:132-146 *)
Example fromb_134 : from A234 [cidx 1; cidx 0; cidx 0] = from A234 [L 1; cidx 0; cidx 0] /\ from A234 [cidx 0; cidx 2; cidx 0] = from A234 [cidx 0; L 1; cidx 0] /\ from A234 [cidx 0; cidx 0; cidx 3] = from A234 [cidx 0; cidx 0; L 1] /\
  from (big [4; 3; 2] 0) [cidx 3; cidx 2; cidx 1] = from (big [4; 3; 2] 0) [L 1; L 1; L 1] /\ from (big [4; 3; 2] 0) [L 1; L 1; L 1] = Good (Vw [] 23).
Proof. vm_compute. repeat split. Qed.
(* fromb.cc:147-163 *)
Definition len0 := LMap (fun x => nth 0 x 0 * nth 1 x 0) [LLen; LScalar 0].
Definition len_2 := LMap (fun x => Z.quot (nth 0 x 0) (nth 1 x 0)) [LLen; LScalar 2].
Definition sq_ (o n s : lx) : sub := SSeq (lval o) (lval n) (lval s).
Example fromb_149 :
  (from A234 [ciota 2 0 1; cidx 0; cidx 0] = from A234 [sq_ (LScalar 0) LLen (LScalar 1); cidx 0; cidx 0] /\ from A234 [cidx 0; ciota 3 0 1; cidx 0] = from A234 [cidx 0; sq_ (LScalar 0) LLen (LScalar 1); cidx 0] /\
   from A234 [cidx 0; cidx 0; ciota 4 0 1] = from A234 [cidx 0; cidx 0; sq_ (LScalar 0) LLen (LScalar 1)]) /\
  (from A234 [ciota 2 0 1; cidx 0; cidx 0] = from A234 [sq_ len0 LLen (LScalar 1); cidx 0; cidx 0] /\ from A234 [cidx 0; ciota 3 0 1; cidx 0] = from A234 [cidx 0; sq_ len0 LLen (LScalar 1); cidx 0] /\
   from A234 [cidx 0; cidx 0; ciota 4 0 1] = from A234 [cidx 0; cidx 0; sq_ len0 LLen (LScalar 1)]) /\
  from A234 [cidx 0; cidx 0; ciota 2 0 2] = from A234 [cidx 0; cidx 0; sq_ (LScalar 0) (LScalar 2) len_2] /\ from A234 [cidx 0; cidx 0; ciota 2 0 2] = Good (Vw [Dim 2 2] 0).
Proof. vm_compute. repeat split. Qed.
(* fromb.cc:167-196. The views have the same lengths and elements because they're the same. *)
Definition dots (n : nat) := SDots (Some n).
Definition rest := SDots None.
Example fromb_171 :
  from A234 [cidx 0] = from A234 [dots 0; cidx 0] /\ from A234 [cidx 1] = from A234 [dots 0; cidx 1] /\ from A234 [all; cidx 0] = from A234 [dots 1; cidx 0] /\ from A234 [all; cidx 1] = from A234 [dots 1; cidx 1] /\
  from A234 [all; all; cidx 0] = from A234 [dots 2; cidx 0] /\ from A234 [all; all; cidx 1] = from A234 [dots 2; cidx 1] /\ from A234 [all; all; cidx 3] = from A234 [dots 2; L 1] /\ from A234 [all; all; cidx 1] = from A234 [rest; cidx 1] /\
  from A234 [cidx 0; all; all] = from A234 [cidx 0] /\ from A234 [cidx 1; all; all] = from A234 [cidx 1] /\ from A234 [cidx 0; all; all] = from A234 [cidx 0; dots 2] /\ from A234 [cidx 1; all; all] = from A234 [cidx 1; dots 2] /\
  from A234 [cidx 1; all; all] = from A234 [L 1; dots 2] /\ from A234 [cidx 1; all; all] = from A234 [cidx 1; rest] /\ from A234 [cidx 0; all; cidx 1] = from A234 [cidx 0; rest; cidx 1] /\ from A234 [cidx 1; all; cidx 0] = from A234 [cidx 1; rest; cidx 0].
Proof. vm_compute. repeat split. Qed.
Example fromb_188 : refused (from A234 [rest; cidx 1; rest]) = true.
Proof. reflexivity. Qed.
(* fromb.cc:197-228. An inserted axis has no length; matched with a1 (of length 1) it takes that one. *)
Definition ins (n : nat) := SInsert n.
Definition same (m1 : mem Z) (a : view) (b : view) : option (list Z * list Z) := lists (Map (op2 (fun x y => a <- rd x ;; b <- rd y ;; ret (VB (a =? b)))) [viter a; viter b]) m1.
Definition same_r (m1 : mem Z) (a : view) (b : res view) : bool := match b with Good v => match same m1 a v with Some (_, l) => forallb (Z.eqb 1) l | None => false end | _ => false end.
Definition Mins : mem Z :=
  with_ 100 [1; 2; 3; 4] (fun i => i1 i * 100 + i2 i * 10 + i3 i) (with_ 200 [2; 1; 3; 4] (fun i => i0 i * 100 + i2 i * 10 + i3 i) (with_ 300 [2; 1; 1; 3; 4] (fun i => i0 i * 100 + i3 i * 10 + i4 i) M234)).
Definition a1 := big [1; 2; 3; 4] 100.
Definition a2 := big [2; 1; 3; 4] 200.
Definition a3 := big [2; 1; 1; 3; 4] 300.
Example fromb_200 : from A234 [cidx 0] = from A234 [ins 0; cidx 0] /\ same_r Mins a1 (from A234 [ins 1]) = true /\ same_r Mins a2 (from A234 [all; ins 1]) = true /\ same_r Mins a3 (from A234 [all; ins 2]) = true /\
  (forall b, from a1 [all; cidx 0] = Good b -> same_r Mins b (from A234 [cidx 0; ins 1]) = true /\ same_r Mins b (from A234 [ins 1; cidx 0]) = true).
Proof. split; [reflexivity|]. split; [vm_compute; reflexivity|]. split; [vm_compute; reflexivity|]. split; [vm_compute; reflexivity|]. intros b H. injection H as <-. vm_compute. auto. Qed.
Example fromb_210 : after_e set (Good (viter (big [2; 2; 3; 4] 500))) (match from A234 [ins 1] with Good v => viter v | _ => Scalar (VI 0) end) M234 (big [2; 2; 3; 4] 500) = Some (elems M234 A234 ++ elems M234 A234).
Proof. vm_compute. auto. Qed.
(* fromb.cc:230-257 *)
Example fromb_234 : from A234 [ins 0; dots 3] = from A234 [ins 0; rest] /\ from A234 [ins 0; all; all; all] = from A234 [ins 0; rest] /\ from A234 [ins 0] = from A234 [ins 0; rest] /\
  from A234 [ins 1; dots 3] = from A234 [ins 1; rest] /\ from A234 [ins 1; all; all; all] = from A234 [ins 1; rest] /\ from A234 [ins 1] = from A234 [ins 1; rest] /\
  from A234 [dots 3; ins 1] = from A234 [rest; ins 1] /\ from A234 [all; all; all; ins 1] = from A234 [rest; ins 1] /\ from A234 [rest; ins 1] = Good (Vw [Dim 2 12; Dim 3 4; Dim 4 1; Dim UNB 0] 0).
Proof. vm_compute. repeat split. Qed.
(* fromb.cc:259-280 *)
Definition A44 := big [4; 4] 0.
Definition M44 := filled_by [4; 4] (fun i => i0 i - i1 i).
Example fromb_262 :
  seen M44 (from A44 []) = ref_ [4; 4] (fun i => i0 i - i1 i) /\ seen M44 (from A44 [cidx 2; all]) = ref_ [4] (fun i => 2 - i0 i) /\ seen M44 (from A44 [cidx 2]) = ref_ [4] (fun i => 2 - i0 i) /\
  seen M44 (from A44 [all; cidx 3]) = ref_ [4] (fun i => i0 i - 3) /\ seen M44 (from A44 [all; all]) = ref_ [4; 4] (fun i => i0 i - i1 i) /\ seen M44 (from A44 [all]) = ref_ [4; 4] (fun i => i0 i - i1 i) /\
  seen M44 (from A44 [cidx 1]) = ref_ [4] (fun i => 1 - i0 i) /\ seen M44 (from A44 [cidx 2; cidx 2]) = ref_ [] (fun i => 0) /\
  seen M44 (from A44 [ciota 2 0 2; ciota 2 0 2]) = ref_ [2; 2] (fun i => 2 * (i0 i - i1 i)) /\ seen M44 (from A44 [ciota 2 1 2; ciota 2 0 2]) = ref_ [2; 2] (fun i => 2 * i0 i + 1 - 2 * i1 i) /\
  seen M44 (from A44 [ciota 2 0 2; all]) = ref_ [2; 4] (fun i => 2 * i0 i - i1 i) /\ from A44 [ciota 2 0 2; all] = from A44 [ciota 2 0 2].
Proof. vm_compute. repeat split. Qed.
(* fromb.cc:281-298 *)
Example fromb_283 : from (big [4] 0) [ins 1; all] = Good (Vw [Dim UNB 0; Dim 4 1] 0).
Proof. reflexivity. Qed.

(* fromu.cc:23-42. len in an array subscript: the elements are after wlen (ply.hh:243-295). *)
Definition len_minus (l : list Z) (n : Z) : list Z := match wlen n (LMap (fun x => nth 0 x 0 - nth 1 x 0) [LLen; LArr [Z.of_nat (length l)] (fun j => nth (Z.to_nat (nth 0 j 0)) l 0)]) with
  | Some e => map (fun k => match lat e [Z.of_nat k] with Some x => x | None => -1 end) (seq 0 (length l)) | None => [] end.
Example fromu_25 : seen_e M10 (from_u false A10 [SArr] [ivec (len_minus [1; 2; 3; 4] 10)]) = ref_ [4] (fun i => nth (Z.to_nat (i0 i)) [9; 8; 7; 6] 0).
Proof. vm_compute. auto. Qed.
Definition Mb := filled_by [10; 10] (fun i => i0 i - i1 i).
Example fromu_28 : after_e Z.add (from_u false A1010 [SArr] [ivec (len_minus [1; 3; 4] 10)]) (Scalar (VT 100)) Mb A1010 =
  Some (map (fun i => i0 i - i1 i + if (i0 i =? 9) || (i0 i =? 7) || (i0 i =? 6) then 100 else 0) (indices [10; 10])).
Proof. vm_compute. auto. Qed.
(* fromu.cc:43-69 *)
Definition m4 : mem Z := filled_by [4] (fun i => nth (Z.to_nat (i0 i)) [7; 9; 3; 4] 0).
Definition A4 := big [4] 0.
Definition p4 : list (expr (val Z) (mem Z)) := [ivec [3; 2; 0; 1]].
Definition v4 (l : list Z) : expr (val Z) (mem Z) := iarr [4] l.
Definition t_arr (s l : list Z) : expr (val Z) (mem Z) := Cell (at_row s) (length s) (fun p => VT (nth (Z.to_nat p) l 0)) 0.
Example fromu_48 : seen_e m4 (from_u false A4 [SArr] p4) = Some ([4], [4; 3; 7; 9]) /\ seen_e m4 (from_u true A4 [SArr] p4) = Some ([4], [4; 3; 7; 9]) /\ seen_e m4 (from_any A4 [SArr] p4) = Some ([4], [4; 3; 7; 9]) /\
  after_e set (from_u false A4 [SArr] p4) (t_arr [4] [9; 7; 1; 4]) (fun _ => 0) A4 = Some [1; 4; 7; 9] /\ after_e set (from_any A4 [SArr] p4) (t_arr [4] [9; 7; 1; 4]) (fun _ => 0) A4 = Some [1; 4; 7; 9] /\
  after_e set (from_u false A4 [SArr] p4) (Scalar (VT 77)) (fun _ => 0) A4 = Some [77; 77; 77; 77] /\
  seen_e m4 (from_u false A4 [SArr] [iarr [2; 2] [3; 2; 0; 1]]) = Some ([2; 2], [4; 3; 7; 9]).
Proof. vm_compute. repeat split. Qed.
(* fromu.cc:70-108 *)
Definition A22 := big [2; 2] 0.
Definition m22 (l : list Z) : mem Z := filled_by [2; 2] (fun i => nth (Z.to_nat (2 * i0 i + i1 i)) l 0).
Definition u2 (a b : list Z) : res (expr (val Z) (mem Z)) := from_u false A22 [SArr; SArr] [ivec a; ivec b].
Example fromu_76 : seen_e (m22 [1; 2; 3; 4]) (u2 [0; 1] [0; 1]) = Some ([2; 2], [1; 2; 3; 4]) /\ seen_e (m22 [1; 2; 3; 4]) (u2 [0; 1] [1; 0]) = Some ([2; 2], [2; 1; 4; 3]) /\
  seen_e (m22 [1; 2; 3; 4]) (u2 [1; 0] [0; 1]) = Some ([2; 2], [3; 4; 1; 2]) /\ seen_e (m22 [1; 2; 3; 4]) (u2 [1; 0] [1; 0]) = Some ([2; 2], [4; 3; 2; 1]) /\
  after_e set (u2 [1; 0] [1; 0]) (t_arr [2; 2] [9; 7; 1; 4]) (fun _ => 0) A22 = Some [4; 1; 7; 9] /\ after_e Z.mul (u2 [1; 0] [1; 0]) (t_arr [2; 2] [9; 7; 1; 4]) (m22 [4; 1; 7; 9]) A22 = Some [16; 1; 49; 81] /\
  after_e set (u2 [1; 0] [1; 0]) (t_arr [2] [9; 7]) (fun _ => 0) A22 = Some [7; 7; 9; 9].
Proof. vm_compute. repeat split. Qed.
Example fromu_96 : forallb (fun r => match seen_e (m22 [4; 1; 7; 9]) r with Some (s, l) => if list_eq_dec Z.eq_dec l [9; 1] then true else false | None => false end)
    [from_u false A22 [SArr; cidx 1] [ivec [1; 0]]; from_u true A22 [SArr; cidx 1] [ivec [1; 0]]; from_any A22 [SArr; cidx 1] [ivec [1; 0]]] = true /\
  forallb (fun r => match seen_e (m22 [4; 1; 7; 9]) r with Some (s, l) => if list_eq_dec Z.eq_dec l [9; 7] then true else false | None => false end)
    [from_u false A22 [cidx 1; SArr] [ivec [1; 0]]; from_u true A22 [cidx 1; SArr] [ivec [1; 0]]; from_any A22 [cidx 1; SArr] [ivec [1; 0]]] = true.
Proof. vm_compute. auto. Qed.
(* fromu.cc:110-124 *)
Example fromu_113 : seen_e (m22 [1; 2; 3; 4]) (from_u false A22 [SArr; cidx 1] [ivec [0; 1]]) = Some ([2], [2; 4]) /\ seen_e (m22 [1; 2; 3; 4]) (from_u false A22 [SArr; cidx 1] [ivec [1; 0]]) = Some ([2], [4; 2]) /\
  seen_e (m22 [1; 2; 3; 4]) (from_u false A22 [cidx 1; SArr] [ivec [0; 1]]) = Some ([2], [3; 4]) /\ seen_e (m22 [1; 2; 3; 4]) (from_u false A22 [cidx 1; SArr] [ivec [1; 0]]) = Some ([2], [4; 3]).
Proof. vm_compute. auto. Qed.
(* fromu.cc:154-161 b = map([&a](int i, int j) { return a(i, j); }, j, i) *)
Example fromu_157 : after_e set (Good (viter (big [3; 4] 100))) (Map (view_op (big [4; 3] 0)) [tindex 1; tindex 0]) (filled_by [4; 3] (fun i => i0 i - i1 i)) (big [3; 4] 100) = Some (map (fun i => i1 i - i0 i) (indices [3; 4])).
Proof. vm_compute. auto. Qed.
(* fromu.cc:163-171 b = a(3-ra::_0); b(3-ra::_0) = a *)
Definition three_minus : expr (val Z) (mem Z) := Map (op1 (fun v => match v with VI i => ret (VI (3 - i)) | _ => undef end)) [tindex 0].
Definition m163 : mem Z := filled_by [4] (fun i => nth (Z.to_nat (i0 i)) [1; 4; 2; 3] 0).
Example fromu_167 : (match from_u false A4 [SArr] [three_minus] with Good e => after_e set (Good (viter (big [4] 100))) e m163 (big [4] 100) | _ => None end) = Some [3; 2; 4; 1] /\
  after_e set (from_u false (big [4] 100) [SArr] [three_minus]) (viter A4) m163 (big [4] 100) = Some [3; 2; 4; 1].
Proof. vm_compute. auto. Qed.
(* fromu.cc:196-200 *)
Example fromu_199 : seen_e (filled_by [4] i0) (from_u true A4 [SArr] [Cell [Dim 2 1] 1 VI 1]) = Some ([2], [1; 2]).
Proof. vm_compute. auto. Qed.
