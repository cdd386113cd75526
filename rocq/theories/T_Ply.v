(* Examples from test/explode-0.cc, test/ply.cc, test/iterator-small.cc, test/cellrank.cc, test/cellptr.cc. *)
From Coq Require Import ZArith List Bool Ascii String.
From Verif Require Import Spec M_Base M_Expr M_Ply M_Val M_View M_Slice M_Mat M_Cell M_Cells M_Stencil M_Opt M_Text Spec_View T_Base.
Import ListNotations.
Open Scope Z_scope.

Notation ex := (expr (val Z) (mem Z)).
Definition m0 : mem Z := fun _ => 0.
(* explode-0.cc. The types: int has 4 bytes, double 8, complex 16 *)
Definition t_int := Ety [] 4 4.
Definition t_double := Ety [] 8 8.
Definition t_complex := Ety [] 16 16.
Definition t_small (s : list Z) (b : Z) := Ety (at_row s) b (b * fold_right Z.mul 1 s).
(* element k of an element of type t at place p, counted in units of the smallest *)
Definition part_at (m : mem Z) (b : res view) (unit_ : Z) (j : list Z) (k : Z) : option Z := match b with Good v => Some (m (vplace v j * unit_ + k)) | _ => None end.
Definition A23 := filled_by [2; 3] (fun i => i0 i - i1 i).
Definition B23 := explode (big [2; 3] 0) 4 (t_small [3] 4).
Example explode_25 : map (part_at A23 B23 3 [0]) [0; 1; 2] = [Some 0; Some (-1); Some (-2)] /\ map (part_at A23 B23 3 [1]) [0; 1; 2] = [Some 1; Some 0; Some (-1)].
Proof. vm_compute. auto. Qed.
Definition A232 := filled_by [2; 3; 2] (fun i => i0 i - i1 i + i2 i).
Definition B232 := explode (big [2; 3; 2] 0) 8 t_complex.
Definition parts (k : Z) := map (fun j => part_at A232 B232 2 j k) (indices [2; 3]).
Example explode_52 : match B232 with Good v => vrank v | _ => 9%nat end = 2%nat /\ parts 0 = map (@Some Z) [0; -1; -2; 1; 0; -1] /\ parts 1 = map (@Some Z) [1; 0; -1; 2; 1; 0].
Proof. vm_compute. auto. Qed.
(* explode-0.cc:75-166 *)
Definition dims_of (r : res view) : option (list dim) := match r with Good v => Some (vdv v) | _ => None end.
Example collapse_77 : dims_of (collapse (big [4; 4] 0) t_complex t_double) = Some (at_row [4; 4; 2]) /\ dims_of (collapse (big [4; 4] 0) (t_small [2] 4) t_int) = Some (at_row [4; 4; 2]) /\
  dims_of (collapse (big [2; 2] 0) (t_small [2; 3] 4) t_int) = Some (at_row [2; 2; 2; 3]) /\ dims_of (collapse (big [2; 2] 0) (t_small [2; 3] 4) (t_small [3] 4)) = Some (at_row [2; 2; 2]) /\
  dims_of (collapse (big [4; 4] 0) (t_small [2; 2] 16) t_double) = Some (at_row [4; 4; 2; 2; 2]).
Proof. vm_compute. repeat split. Qed.
(* explode-0.cc:167-245 *)
Example explode_167 : dims_of (explode (big [4; 2] 0) 8 (t_small [2] 8)) = Some (at_row [4]) /\ dims_of (explode (big [4; 2] 0) 8 t_complex) = Some (at_row [4]) /\ dims_of (explode (big [4; 2; 2] 0) 8 (t_small [2; 2] 8)) = Some (at_row [4]) /\
  dims_of (explode (big [2; 3] 0) 8 (t_small [3] 8)) = Some [Dim 2 1] /\ dims_of (explode (big [3; 2] 0) 8 t_complex) = Some [Dim 3 1] /\ dims_of (explode (big [2; 3; 2] 0) 8 (t_small [3] 16)) = Some [Dim 2 1] /\
  dims_of (explode (big [1; 0] 0) 4 (t_small [0] 4)) = Some [Dim 1 0].
Proof. vm_compute. repeat split. Qed.

(* ply.cc:27-47 *)
Definition op_m (f : Z -> Z -> Z) (a b : ex) : ex := Map (op2 (fun x y => fun m => match num x m, num y m with Some a, Some b => Ok (VT (f a b)) m | _, _ => Undef end)) [a; b].
Definition sub_m := op_m Z.sub.
Definition set_ (_ x : Z) : Z := x.
Definition iota_at (q n o : Z) : mem Z := with_ q [n] (fun i => o + i0 i) m0.
Example ply_31 : after_e set_ (Good (viter (big [3; 2] 50))) (sub_m (viter (big [3; 2] 0)) (Scalar (VT 3))) (iota_at 0 6 0) (big [3; 2] 50) = Some [-3; -2; -1; 0; 1; 2].
Proof. vm_compute. auto. Qed.
(* ply.cc:50-65 *)
Example ply_52 : after_e set_ (Good (viter (big [3] 50))) (op_m Z.mul (ivec [1; 2; 3]) (ivec [1; -2; 3])) m0 (big [3] 50) = Some [1; -4; 9] /\
  after_e set_ (Good (viter (big [3; 2; 4] 50))) (sub_m (viter (big [3; 2; 4] 0)) (viter (big [3; 2; 4] 0))) (iota_at 0 24 0) (big [3; 2; 4] 50) = Some (repeat 0 24).
Proof. vm_compute. auto. Qed.
(* ply.cc:84-108: rank 0 *)
Example ply_88 : after_e set_ (Good (viter (big [] 50))) (sub_m (viter (big [] 0)) (Scalar (VT 3))) (iota_at 0 1 7) (big [] 50) = Some [4].
Proof. vm_compute. auto. Qed.
(* ply.cc:111-160: the operation isn't used if the array is empty *)
Definition used (e : ex) : option bool := match listed false e m0, listed true e m0 with Some (_, l), Some (_, l') => if Nat.eqb (List.length l) (List.length l') then Some (negb (Nat.eqb (List.length l) 0)) else None | _, _ => None end.
Example ply_115 : map (fun s => used (viter (big s 0))) [[0]; [2; 0]; [0; 2]; []] = [Some false; Some false; Some false; Some true] /\
  map (fun s => used (sub_m (viter (big s 0)) (viter (big s 0)))) [[0]; [2; 0]; [0; 2]] = [Some false; Some false; Some false] /\ map (fun s => used (sub_m (viter (big s 0)) (Scalar (VT 1)))) [[0]; [2; 0]; [0; 2]] = [Some false; Some false; Some false].
Proof. vm_compute. repeat split. Qed.
(* ply.cc:188-247 *)
Example ply_192 : after_e set_ (Good (viter (big [] 50))) (Scalar (VT 77)) m0 (big [] 50) = Some [77] /\ after_e set_ (Good (viter (big [3; 2] 50))) (Scalar (VT 77)) m0 (big [3; 2] 50) = Some (repeat 77 6) /\
  after_e set_ (Good (viter (big [3; 2] 50))) (viter (big [3] 0)) (iota_at 0 3 1) (big [3; 2] 50) = Some [1; 1; 2; 2; 3; 3] /\
  after_e set_ (Good (viter (big [3; 2; 4] 50))) (viter (big [3; 2] 0)) (iota_at 0 6 1) (big [3; 2; 4] 50) = Some (flat_map (fun x => repeat x 4) [1; 2; 3; 4; 5; 6]) /\
  after_e set_ (Good (viter (big [4] 50))) (viter (big [3; 2] 0)) (iota_at 0 6 1) (big [4] 50) = None.
Proof. vm_compute. repeat split. Qed.
(* ply.cc:249-265 *)
Example ply_253 : after_e set_ (Good (viter (big [3] 50))) (Scalar (VT 7)) m0 (big [3] 50) = Some [7; 7; 7] /\ after_e set_ (Good (viter (big [3] 50))) (op_m Z.add iota0 (Scalar (VT 0))) m0 (big [3] 50) = Some [0; 1; 2].
Proof. vm_compute. auto. Qed.
(* ply.cc:267-295 *)
Example ply_276 : let m := with_ 50 [6] (fun i => 1 + i0 i) (iota_at 0 24 1) in let check := [0; 1; 2; 3; 3; 4; 5; 6; 6; 7; 8; 9; 9; 10; 11; 12; 12; 13; 14; 15; 15; 16; 17; 18] in
  after_e set_ (Good (viter (big [3; 2; 4] 100))) (sub_m (viter (big [3; 2; 4] 0)) (viter (big [3; 2] 50))) m (big [24] 100) = Some check /\
  after_e set_ (Good (viter (big [3; 2; 4] 100))) (op_m (fun x y => y - x) (viter (big [3; 2] 50)) (viter (big [3; 2; 4] 0))) m (big [24] 100) = Some check.
Proof. vm_compute. auto. Qed.
(* ply.cc:323-335 *)
Example ply_326 : used (sub_m (viter (Vw [Dim 0 22; Dim 11 2; Dim 2 1] 0)) (viter (Vw [Dim 0 1; Dim 11 2; Dim 2 1] 0))) = Some false.
Proof. vm_compute. auto. Qed.

(* iterator-small.cc:44-61 *)
Definition stl_list (e : ex) (m : mem Z) : option (list Z) :=
  match stl_begin (lift (C := list Z) e) with
  | Some b => match stl_for 100 (fun v s => match num v (fst s) with Some x => Ok tt (fst s, snd s ++ [x]) | None => Undef end) b (m, []) with Ok _ (_, l) => Some l | _ => None end
  | None => None
  end.
Example iterator_small_44 : stl_list (viter (big [2; 3] 0)) (iota_at 0 6 1) = Some [1; 2; 3; 4; 5; 6] /\ match transpose (big [2; 3] 0) [1; 0] with Good b => stl_list (viter b) (iota_at 0 6 1) | _ => None end = Some [1; 4; 2; 5; 3; 6].
Proof. vm_compute. auto. Qed.
(* iterator-small.cc:62-78 *)
Definition style_bar := Style Noshape [] [] (txt "|") (txt "-") [nl] false.
Definition show_view (f : style) (m : mem Z) (v : view) : text := match format show_int f false false (Cell (W := unit) (vdv v) (vrank v) m (vcp v)) tt with Ok t _ => t | _ => [] end.
Definition by_cell (a : view) (cr : Z) (m : mem Z) : option string :=
  match icell (W := unit) a cr with Good e => match format (show_view nstyle m) style_bar false false e tt with Ok t _ => Some (string_of_list_ascii t) | _ => None end | _ => None end.
Definition a_of (r : res view) : view := match r with Good v => v | _ => Vw [] 0 end.
Example iterator_small_64 :
  let check a m := map (fun cr => by_cell a cr m) [-2; -1; 0; 1; 2] = map (@Some string) ["1|2|3-4|5|6"; "1 2 3|4 5 6"; "1|2|3-4|5|6"; "1 2 3|4 5 6"; "1 2 3
4 5 6"]%string in
  check (big [2; 3] 0) (iota_at 0 6 1) /\ check (a_of (transpose (big [3; 2] 0) [1; 0])) (with_ 0 [6] (fun i => nth (Z.to_nat (i0 i)) [1; 4; 2; 5; 3; 6] 0) m0).
Proof. vm_compute. auto. Qed.

(* cellrank.cc:18-33: in each cell a = b + c or a += b + c, with b the cell of B and c the element of C *)
Definition cell3 (fi : bool) (f : Z -> Z -> Z) (xs : list view) : M (mem Z) view :=
  match xs with [a; b; c] => _ <- assign fi z_init f (viter a) (op_m Z.add (viter b) (viter c)) ;; ret a | _ => undef end.
Definition cells3 (fixed fi : bool) (f : Z -> Z -> Z) (m : mem Z) : out (mem Z) (option unit) :=
  match icell (big [4; 2; 3] 0) 2, icell (big [4; 2] 50) 1, icell (big [4] 70) 0 with Good a, Good b, Good c => ply fixed no_stop z_init (Map (cell3 fi f) [a; b; c]) m | _, _, _ => Undef end.
Definition m_cr := with_ 70 [4] (fun _ => 10) (with_ 50 [4; 2] (fun _ => 1) m0).
Example cellrank_23 : forallb (fun b => match cells3 (fst b) (snd b) set_ m_cr with Ok _ m => match cells3 (fst b) (snd b) Z.add m with Ok _ m' => forallb (Z.eqb 11) (elems m (big [24] 0)) && forallb (Z.eqb 22) (elems m' (big [24] 0)) | _ => false end | _ => false end)
  [(true, true); (true, false); (false, true); (false, false)] = true.
Proof. vm_compute. auto. Qed.
(* cellrank.cc:45-53 *)
Example cellrank_48 : forallb (fun b => match after (assign_cells b b z_init z_init set_ (big [3; 2] 0) 1 (Vw [Dim 3 0; Dim 2 1] 50) 1 (with_ 50 [2] (fun i => 3 + 4 * i0 i) m0)) (big [3; 2] 0) with Some l => if list_eq_dec Z.eq_dec l [3; 7; 3; 7; 3; 7] then true else false | None => false end) [true; false] = true.
Proof. vm_compute. auto. Qed.
(* cellptr.cc:91-107: len in the length and in the step *)
Definition ldiv (k : Z) : lx := LMap (fun x => Z.quot (nth 0 x 0) (nth 1 x 0)) [LLen; LScalar k].
Example cellptr_98 : wlen 5 (LSeq (LScalar 0) LLen (LScalar 1)) = Some (LSeq (LScalar 0) (LScalar 5) (LScalar 1)) /\
  match wlen 6 (LSeq (LScalar 1) (ldiv 2) (ldiv 3)) with Some (LSeq o n s) => map (fun e => lat e []) [o; n; s] | _ => [] end = [Some 1; Some 3; Some 2].
Proof. vm_compute. auto. Qed.
