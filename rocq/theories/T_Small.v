(* Examples from test/small-1.cc, test/concrete.cc. *)
From Coq Require Import ZArith List Bool.
From Verif Require Import Spec M_Base M_Expr M_Ply M_Val M_View M_Slice M_Mat M_Array M_Fill M_Small M_Ext M_Access M_Whole M_Static Spec_View T_Base.
Import ListNotations.
Open Scope Z_scope.

Notation ex := (expr (val Z) (mem Z)).
Definition m0 : mem Z := fun _ => 0.
Definition set_ (_ x : Z) : Z := x.
Definition of_ (l : list Z) : mem Z := with_ 0 [Z.of_nat (length l)] (fun i => nth (Z.to_nat (i0 i)) l 0) m0.
(* what is in a view after it's filled with a list; both kinds of iterator *)
Definition refill (l : list Z) (m : mem Z) (r : res view) (v : view) : option (list Z) := match r with Good b => match view_fill true true l b m with Ok _ m' => Some (elems m' v) | _ => None end | _ => None end.
(* small-1.cc:22-38 *)
Example small_25 : map (fun i => get i (big [2] 5)) [0; 1] = [Good 5; Good 6] /\ tuple_size (big [2] 5) = 2.
Proof. vm_compute. auto. Qed.
(* small-1.cc:39-66 *)
Definition M23 := filled_by [2; 3] (fun i => i0 i + 10 * i1 i).
Example small_43 : seen M23 (transpose (big [2; 3] 0) [0; 1]) = seen M23 (Good (big [2; 3] 0)) /\ seen M23 (transpose (big [2; 3] 0) [1; 0]) = ref_ [3; 2] (fun i => 10 * i0 i + i1 i) /\ seen M23 (transpose10 (big [2; 3] 0)) = ref_ [3; 2] (fun i => 10 * i0 i + i1 i) /\
  seen M23 (transpose (big [2; 3] 0) [0; 0]) = Some ([2], [0; 11]) /\ refill [7; 9] M23 (transpose (big [2; 3] 0) [0; 0]) (big [2; 3] 0) = Some [7; 10; 20; 1; 9; 21] /\
  seen (of_ [99]) (transpose (big [] 0) []) = Some ([], [99]).
Proof. vm_compute. repeat split. Qed.
Example small_60 : let x3 := filled_by [3; 3] (fun i => i0 i - i1 i) in
  match transpose (big [3; 3] 0) [1; 0], transpose (big [3; 3] 50) [1; 0] with
  | Good xt, Good yt => match assign true z_init set_ (viter (big [3; 3] 50)) (viter xt) x3 with
                        | Ok _ m => elems m (big [3; 3] 50) = map (fun i => i1 i - i0 i) (indices [3; 3]) /\ after_e set_ (Good (viter (big [3; 3] 0))) (viter yt) m (big [3; 3] 0) = Some (elems x3 (big [3; 3] 0))
                        | _ => False end
  | _, _ => False end.
Proof. vm_compute. auto. Qed.
(* small-1.cc:92-99 *)
Example small_94 : filldimv [3; 4; 5] = Some ([Dim 3 20; Dim 4 5; Dim 5 1], 60).
Proof. vm_compute. auto. Qed.
(* small-1.cc:100-135 *)
Definition s32 := of_ [1; 4; 2; 5; 3; 6].
Definition b32 := big [3; 2] 0.
Example small_105 : seen s32 (from b32 []) = Some ([3; 2], [1; 4; 2; 5; 3; 6]) /\ seen s32 (from b32 [cidx 1]) = Some ([2], [2; 5]) /\ seen s32 (from b32 [cidx 1; cidx 1]) = Some ([], [5]) /\
  seen s32 (from b32 [all; cidx 0]) = Some ([3], [1; 2; 3]) /\ seen s32 (from b32 [all; cidx 1]) = Some ([3], [4; 5; 6]).
Proof. vm_compute. repeat split. Qed.
Definition then_ (o : option (mem Z)) (f : mem Z -> out (mem Z) (option unit)) : option (mem Z) := match o with Some m => match f m with Ok _ m' => Some m' | _ => None end | None => None end.
Definition row_of (q k : Z) : ex := match from (big [3; 2] q) [cidx k] with Good v => viter v | _ => Scalar VUnit end.
Example small_117 : let m := with_ 50 [6] (fun i => nth (Z.to_nat (i0 i)) [-3; -2; -5; -4; -7; -6] 0) (of_ [3; 2; 5; 4; 7; 6]) in
  match then_ (then_ (then_ (Some m) (assign false z_init set_ (row_of 0 0) (row_of 50 2))) (assign true z_init set_ (row_of 0 1) (row_of 50 1))) (assign false z_init set_ (row_of 0 2) (row_of 50 0)) with
  | Some m' => elems m' b32 = [-7; -6; -5; -4; -3; -2] /\ elems m' (big [6] 50) = [-3; -2; -5; -4; -7; -6] | None => False end.
Proof. vm_compute. auto. Qed.
(* small-1.cc:136-150 *)
Example small_146 : match at_view b32 [1; 1] m0 with Ok v _ => Some (elems s32 v) | _ => None end = Some [5] /\ match at_view b32 [1] m0 with Ok v _ => Some (elems s32 v) | _ => None end = Some [2; 5] /\ match at_view b32 [] m0 with Ok v _ => Some (elems s32 v) | _ => None end = Some [1; 4; 2; 5; 3; 6].
Proof. vm_compute. repeat split. Qed.
(* small-1.cc:185-207 *)
Example small_190 : match from (big [3; 2; 2] 0) [all; cidx 1; all] with Good t => vdv t = [Dim 3 4; Dim 2 1] | _ => False end /\
  seen (filled_by [3; 2; 2] (fun i => 100 * i0 i + 10 * i1 i + i2 i)) (from (big [3; 2; 2] 0) [all; cidx 1; all]) = Some ([3; 2], [10; 11; 110; 111; 210; 211]).
Proof. vm_compute. auto. Qed.
(* small-1.cc:208-219 *)
Example small_214 : match sum true z_init Z.add 0 (viter (big [2; 2] 0)) (of_ [1; 2; 3; 4]) with Ok x _ => x | _ => 0 end = 10 /\ match small_scalar 0 [] 9 m0 with Ok _ m => m 0 | _ => 0 end = 9.
Proof. vm_compute. auto. Qed.
(* small-1.cc:220-279: column-major steps; list initialization is row-major *)
Definition ax : view := Vw [Dim 2 1; Dim 3 2] 0.
Definition row (l : list Z) : nest Z := Braces (map (@Item Z) l).
Example small_248 : refill [1; 2; 3; 4; 5; 6] m0 (Good ax) ax = Some [1; 2; 3; 4; 5; 6] /\ refill [1; 2; 3; 4; 5; 6] m0 (Good ax) (big [6] 0) = Some [1; 4; 2; 5; 3; 6] /\
  map (fun b => after (braces_assign (fun _ => b) (fun _ => z_init) 2 ax (Braces [row [1; 2; 3]; row [4; 5; 6]]) m0) (big [6] 0)) [true; false] = [Some [1; 4; 2; 5; 3; 6]; Some [1; 4; 2; 5; 3; 6]] /\
  match from ax [cidx 0] with Good v => vdv v = [Dim 3 2] | _ => False end /\ after_e set_ (Good (viter ax)) (Scalar (VT 77)) m0 ax = Some (repeat 77 6).
Proof. vm_compute. repeat split. Qed.
(* small-1.cc:364-378 *)
Example small_367 : seen (of_ [1; 2; 3; 4; 5; 6]) (transpose (big [2; 3] 0) [1; 0]) = Some ([3; 2], [1; 4; 2; 5; 3; 6]) /\ refill [1; 2; 3; 4; 5; 6] m0 (transpose (big [2; 3] 0) [1; 0]) (big [2; 3] 0) = Some [1; 3; 5; 2; 4; 6] /\
  seen (filled_by [3; 3] (fun i => 3 * i0 i + i1 i)) (diag (big [3; 3] 0)) = Some ([3], [0; 4; 8]) /\ refill [11; 22; 33] (filled_by [3; 3] (fun i => 3 * i0 i + i1 i)) (diag (big [3; 3] 0)) (big [3; 3] 0) = Some [11; 1; 2; 3; 22; 5; 6; 7; 33].
Proof. vm_compute. repeat split. Qed.
(* small-1.cc:379-389: back() is the last item *)
Definition l1 : sub := SIdx (fun n => Some (n - 1)).
Example small_384 : seen (filled_by [3] (fun i => 3 * i0 i)) (from (big [3] 0) [l1]) = Some ([], [6]) /\ seen (fun p => p) (from (Vw [Dim 3 4] 0) [l1]) = Some ([], [8]) /\ seen (fun p => p) (from (big [3; 4] 0) [l1]) = Some ([4], [8; 9; 10; 11]).
Proof. vm_compute. repeat split. Qed.
(* small-1.cc:391-446: as<n, o>() *)
Example small_405 : seen (of_ [1; 2; 3]) (from (big [3] 0) [ciota 2 0 1]) = Some ([2], [1; 2]) /\ refill [7; 8] (of_ [1; 2; 3]) (from (big [3] 0) [ciota 2 0 1]) (big [3] 0) = Some [7; 8; 3] /\
  refill [7; 8] (of_ [1; 99; 2; 99; 3; 99]) (from (Vw [Dim 3 2] 0) [ciota 2 1 1]) (Vw [Dim 3 2] 0) = Some [1; 7; 8] /\
  seen (of_ [1; 2; 99; 99; 3; 4; 99; 99; 5; 6; 99; 99]) (from (Vw [Dim 3 4; Dim 2 1] 0) [ciota 2 1 1]) = Some ([2; 2], [3; 4; 5; 6]) /\
  refill [13; 14; 15; 16] (of_ [1; 2; 99; 99; 3; 4; 99; 99; 5; 6; 99; 99]) (from (Vw [Dim 3 4; Dim 2 1] 0) [ciota 2 1 1]) (Vw [Dim 3 4; Dim 2 1] 0) = Some [1; 2; 13; 14; 15; 16].
Proof. vm_compute. repeat split. Qed.
(* small-1.cc:447-453 *)
Definition nums (l : list Z) : ex := Cell [Dim (Z.of_nat (length l)) 1] 1 (fun p => VT (nth (Z.to_nat p) l 0)) 0.
Definition got (o : out (mem Z) view) : option (list Z * list Z) := match o with Ok v m => Some (vshape v, elems m v) | _ => None end.
Example small_449 : forallb (fun b => match got (cat b (negb b) z_init z_init 50 (nums [1; 2; 3]) (Scalar (VT 4)) m0), got (cat b b z_init z_init 50 (Scalar (VT 4)) (nums [1; 2; 3]) m0), got (cat b b z_init z_init 50 (nums [1; 2]) (nums [3; 4; 5]) m0) with
  | Some ([4], [1; 2; 3; 4]), Some ([4], [4; 1; 2; 3]), Some ([5], [1; 2; 3; 4; 5]) => true | _, _, _ => false end) [true; false] = true.
Proof. vm_compute. auto. Qed.
(* small-1.cc:466-471 *)
Example small_468 : after_e Z.add (Good (viter (big [3] 0))) (Scalar (VT 9)) (of_ [1; 2; 3]) (big [3] 0) = Some [10; 11; 12].
Proof. vm_compute. auto. Qed.

(* concrete.cc: which type, from the type of the expression *)
Definition small_s (ls : list Z) := TCell (Some ls).
Definition big_s (n : nat) := TCell (Some (repeat ANY n)).
Example concrete_57 : let t := TMatch [small_s [3]; small_s [3]] in rank_s t = 1 /\ size_s t = 3 /\ compiles t = true.
Proof. vm_compute. auto. Qed.
Example concrete_115 : let t := TMatch [small_s [3; 2]; big_s 1] in rank_s t = 2 /\ size_s t = 6 /\ let u := TMatch [big_s 1; big_s 1] in rank_s u = 1 /\ size_s u = ANY /\ let w := TMatch [big_s 1; TCell None] in rank_s w = ANY /\ size_s w = ANY.
Proof. vm_compute. repeat split. Qed.
Definition add_e (a b : ex) : ex := Map (op2 (fun x y => a <- rd x ;; b <- rd y ;; ret (VT (a + b)))) [a; b].
Example concrete_121 : forallb (fun b => match got (concrete b z_init 50 (add_e (viter (big [3; 2] 0)) (nums [4; 5; 6])) (of_ [1; 2; 3; 4; 5; 6])) with Some ([3; 2], [5; 6; 8; 9; 11; 12]) => true | _ => false end) [true; false] = true.
Proof. vm_compute. auto. Qed.
(* concrete.cc:140-168: concrete() makes copies *)
Example concrete_147 : match concrete false z_init 50 (viter (big [3] 0)) (of_ [1; 2; 3]) with Ok c m => match assign false z_init set_ (viter (big [3] 0)) (Scalar (VT 99)) m with Ok _ m' => elems m' (big [3] 0) = [99; 99; 99] /\ elems m' c = [1; 2; 3] | _ => False end | _ => False end.
Proof. vm_compute. auto. Qed.
