(* Examples from test/view-ops.cc, test/reshape.cc, test/len.cc, test/iota.cc. *)
From Coq Require Import ZArith List Bool.
From Verif Require Import Spec M_Base M_Expr M_Ply M_Val M_View M_Slice M_Frame M_Mat Spec_View M_Access M_Static T_Base.
From Verif Require M_Opt.
Import ListNotations.
Open Scope Z_scope.

Definition from1 (n : Z) : mem Z := fun p => p + n.
Definition elements (m : mem Z) (r : res view) : option (list Z) := option_map snd (seen m r).
Definition lenm1 := LMap (fun x => nth 0 x 0 - nth 1 x 0) [LLen; LScalar 1].
Definition back_ : sub := SSeq (lval lenm1) (lval LLen) (lval (LScalar (-1))).
(* view-ops.cc:17-53 *)
Definition A324 := big [3; 2; 4] 0.
Example view_21 : elements (from1 1) (reverse A324 0) = Some [17; 18; 19; 20; 21; 22; 23; 24; 9; 10; 11; 12; 13; 14; 15; 16; 1; 2; 3; 4; 5; 6; 7; 8] /\
  elements (from1 1) (reverse A324 1) = Some [5; 6; 7; 8; 1; 2; 3; 4; 13; 14; 15; 16; 9; 10; 11; 12; 21; 22; 23; 24; 17; 18; 19; 20] /\
  elements (from1 1) (reverse A324 2) = Some [4; 3; 2; 1; 8; 7; 6; 5; 12; 11; 10; 9; 16; 15; 14; 13; 20; 19; 18; 17; 24; 23; 22; 21] /\
  reverse A324 0 = from A324 [back_] /\ reverse A324 1 = from A324 [SDots (Some 1%nat); back_] /\ reverse A324 2 = from A324 [SDots (Some 2%nat); back_].
Proof. vm_compute. repeat split. Qed.
(* view-ops.cc:55-78 *)
Example view_60 : seen (from1 1) (transpose (big [3; 2] 0) [1; 0]) = Some ([2; 3], [1; 3; 5; 2; 4; 6]) /\ transpose10 (big [3; 2] 0) = transpose (big [3; 2] 0) [1; 0].
Proof. vm_compute. auto. Qed.
(* view-ops.cc:90-119 *)
Example view_93 : transpose (Vw [] 7) [] = Good (Vw [] 7) /\ c_order [] true = true.
Proof. vm_compute. auto. Qed.
(* view-ops.cc:125-172 *)
Example view_128 : seen (from1 1) (transpose (big [3; 2] 0) [0; 0]) = Some ([2], [1; 4]) /\ c_order (vdv (big [3; 2] 0)) true = true /\
  match transpose (big [3; 2] 0) [0; 0] with Good b => c_order (vdv b) true | _ => true end = false /\ seen (from1 1) (transpose (big [2; 3] 0) [0; 0]) = Some ([2], [1; 5]).
Proof. vm_compute. repeat split. Qed.
(* view-ops.cc:173-196 *)
Definition minus_e (a b : expr (val Z) (mem Z)) : expr (val Z) (mem Z) := Map (op2 (fun x y => a <- rd x ;; b <- rd y ;; ret (VT (a - b)))) [a; b].
Definition v_ (r : res view) : expr (val Z) (mem Z) := match r with Good v => viter v | _ => Map (fun _ => undef) [] end.
Example view_175 : lists (minus_e (viter (big [3] 0)) (v_ (from (big [3] 0) [SInsert 1]))) (from1 1) = lists (minus_e (viter (big [3] 0)) (v_ (transpose (big [3] 0) [1]))) (from1 1) /\
  (match transpose (big [3] 0) [1] with Good v => dimv_size (vdv v) | _ => 0 end) = UNB /\
  lists (minus_e (v_ (transpose (big [3] 0) [1])) (viter (big [3] 0))) (from1 1) = Some ([3; 3], [0; 1; 2; -1; 0; 1; -2; -1; 0]) /\
  lists (minus_e (v_ (from (big [3] 0) [SInsert 1])) (viter (big [3] 0))) (from1 1) = Some ([3; 3], [0; 1; 2; -1; 0; 1; -2; -1; 0]).
Proof. vm_compute. repeat split. Qed.
(* view-ops.cc:205-225 *)
Example view_208 : c_order [Dim 2 3; Dim 3 1] false = true /\ c_order [Dim 3 1; Dim 2 3] false = false /\
  c_order [Dim 2 1; Dim 1 3] false = true /\ elements (from1 1) (ravel_free (Vw [Dim 2 1; Dim 1 3] 0)) = Some [1; 2] /\
  c_order [Dim 2 10; Dim 1 8; Dim 5 2] false = true /\ elements (from1 0) (ravel_free (Vw [Dim 2 10; Dim 1 8; Dim 5 2] 0)) = Some (map (fun k => 2 * k) [0; 1; 2; 3; 4; 5; 6; 7; 8; 9]).
Proof. vm_compute. repeat split. Qed.

(* reshape.cc:19-44 *)
Definition Maa := filled_by [2; 3; 3] (fun i => i0 i * 3 + i1 i).
Definition a_ : view := Vw [Dim 2 9; Dim 3 3] 0.
Example reshape_19 : from (big [2; 3; 3] 0) [all; all; cidx 0] = Good a_ /\ seen Maa (ravel_free a_) = Some ([6], [0; 1; 2; 3; 4; 5]) /\ seen Maa (reshape a_ [3]) = Some ([3], [0; 1; 2]) /\
  seen Maa (reshape a_ [2; 2; 3]) = Some ([2; 2; 3], [0; 1; 2; 3; 4; 5; 0; 1; 2; 3; 4; 5]) /\ (match reshape a_ [2; 2; 3] with Good v => Some (step (nth 0 (vdv v) dim0), vcp v) | _ => None end) = Some (0, 0) /\
  seen Maa (reshape a_ [3; 2]) = Some ([3; 2], [0; 1; 2; 3; 4; 5]) /\ seen Maa (reshape a_ [2; 1; 2]) = Some ([2; 1; 2], [0; 1; 2; 3]) /\ seen Maa (reshape a_ [-1; 2]) = Some ([3; 2], [0; 1; 2; 3; 4; 5]) /\
  seen Maa (reshape a_ [2; -1]) = Some ([2; 3], [0; 1; 2; 3; 4; 5]) /\ seen Maa (reshape a_ [2; -1; 3]) = Some ([2; 1; 3], [0; 1; 2; 3; 4; 5]).
Proof. vm_compute. repeat split. Qed.
(* reshape.cc:46-80 *)
Definition Mr := filled_by [2; 3] (fun i => i0 i * 3 + i1 i).
Example reshape_48 : seen Mr (reshape (big [2; 3] 0) [3]) = Some ([3], [0; 1; 2]) /\ seen Mr (reshape (big [2; 3] 0) [3; 2]) = Some ([3; 2], [0; 1; 2; 3; 4; 5]).
Proof. vm_compute. auto. Qed.

(* len.cc:46-67 *)
Definition plus_l (a b : lx) : lx := LMap (fun x => nth 0 x 0 + nth 1 x 0) [a; b].
Definition l10 : lx := LSeq (LScalar 0) (LScalar 10) (LScalar 1).
Definition at_len (n : Z) (e : lx) (l : Z) : option (list Z) :=
  match wlen n e with Some e' => fold_right (fun k r => match lat e' [k], r with Some x, Some r => Some (x :: r) | _, _ => None end) (Some []) (map Z.of_nat (seq 0 (Z.to_nat l))) | None => None end.
Example len_49 : lval (LScalar 3) 5 = Some 3 /\ lval LLen 5 = Some 5 /\ lval (plus_l LLen LLen) 5 = Some 10 /\ lval (plus_l (plus_l LLen LLen) (plus_l LLen LLen)) 5 = Some 20 /\ lval (plus_l (LScalar 99) (LScalar 1)) 5 = Some 100 /\
  lval (plus_l (LScalar 99) LLen) 5 = Some 104 /\ lval (plus_l LLen (plus_l (LScalar 3) LLen)) 8 = Some 19 /\ at_len 8 (plus_l l10 (plus_l (LScalar 3) LLen)) 10 = Some (map (fun k => k + 11) [0; 1; 2; 3; 4; 5; 6; 7; 8; 9]) /\
  at_len 8 (plus_l l10 (LScalar 3)) 10 = Some (map (fun k => k + 3) [0; 1; 2; 3; 4; 5; 6; 7; 8; 9]) /\ at_len 4 (LPick [LArr [3] (fun j => nth (Z.to_nat (nth 0 j 0)) [0; 1; 0] 0); LLen; LScalar 3]) 3 = Some [4; 3; 4].
Proof. vm_compute. repeat split. Qed.
(* len.cc:68-81 *)
Example len_75 : wlen 5 (LSeq (LScalar 0) LLen (LScalar 1)) = Some (LSeq (LScalar 0) (LScalar 5) (LScalar 1)) /\ wlen 5 (LSeq LLen LLen (LScalar 1)) = Some (LSeq (LScalar 5) (LScalar 5) (LScalar 1)) /\
  wlen 10 (LSeq (plus_l LLen LLen) (LScalar 5) (LScalar 1)) = Some (LSeq (LScalar 20) (LScalar 5) (LScalar 1)) /\ wlen 10 (LSeq (plus_l LLen LLen) LLen (LScalar 1)) = Some (LSeq (LScalar 20) (LScalar 10) (LScalar 1)) /\
  wlen 10 (LSeq (plus_l LLen LLen) (plus_l LLen (LScalar 1)) (LScalar 1)) = Some (LSeq (LScalar 20) (LScalar 11) (LScalar 1)) /\
  wlen 10 (LSeq (plus_l LLen LLen) LLen (LMap (fun x => Z.quot (nth 0 x 0) (nth 1 x 0)) [LLen; LScalar 5])) = Some (LSeq (LScalar 20) (LScalar 10) (LScalar 2)).
Proof. vm_compute. repeat split. Qed.

(* iota.cc:32-49 *)
Definition iota_ (n o s : Z) : expr (val Z) (mem Z) := Cell [Dim n s] 1 VI o.
Example iota_37 : (match transpose (big [3; 4; 2] 0) [0; 2; 1] with
  | Good v => after_e (fun _ x => x) (Good (viter v)) (Cell [Dim 3 1] 1 VT 1) (fun _ => 0) (big [3; 4; 2] 0) | _ => None end) = Some (map (fun i => i0 i + 1) (indices [3; 4; 2])).
Proof. vm_compute. auto. Qed.
(* iota.cc:50-67 *)
Definition plus_e (a b : expr (val Z) (mem Z)) : expr (val Z) (mem Z) :=
  Map (op2 (fun x y => match num x (fun _ => 0), num y (fun _ => 0) with Some a, Some b => ret (VT (a + b)) | _, _ => undef end)) [a; b].
Example iota_52 : lists (plus_e (iota_ UNB 0 1) (iota_ 4 0 1)) (fun _ => 0) = Some ([4], [0; 2; 4; 6]) /\ lists (plus_e (ivec [3; 5; 0; -1]) (iota_ UNB 0 1)) (fun _ => 0) = Some ([4], [3; 6; 2; 2]) /\
  at_ (iota_ UNB 0 1) [99] (fun _ => 0) = Ok (VI 99) (fun _ => 0).
Proof. vm_compute. repeat split. Qed.
(* iota.cc:91-128 *)
Example iota_93 : reverse (Vw [Dim 5 (-2)] 3) 0 = Good (Vw [Dim 5 2] (-5)) /\ seen (fun p => p) (reverse (Vw [Dim 5 (-2)] 3) 0) = Some ([5], [-5; -3; -1; 1; 3]) /\
  M_Opt.opt_neg (M_Opt.Sq (M_Opt.Run 3) 1 2) = Good (M_Opt.Sq (M_Opt.Run 3) (-1) (-2)) /\ M_Opt.sq_list (M_Opt.Sq (M_Opt.Run 3) (-1) (-2)) = Good [-1; -3; -5].
Proof. vm_compute. repeat split. Qed.
(* iota.cc:137-144 *)
Example iota_139 : from (Vw [Dim 9 1] 3) [ciota 3 1 2] = Good (Vw [Dim 3 2] 4).
Proof. reflexivity. Qed.
