(* Examples from test/big-0.cc, test/big-1.cc, test/swap.cc, test/optimize.cc. *)
From Coq Require Import ZArith List Bool.
From Verif Require Import Spec M_Base M_Expr M_Ply M_Val M_View M_Slice M_Frame M_Mat M_Array M_Fill M_Ext M_Access Spec_View T_Base.
From Verif Require M_Opt.
Import ListNotations.
Open Scope Z_scope.

Notation ex := (expr (val Z) (mem Z)).
Definition m0 : mem Z := fun _ => 0.
Definition set_ (_ x : Z) : Z := x.
Definition got (o : out (mem Z) view) : option (list Z * list Z) := match o with Ok v m => Some (vshape v, elems m v) | _ => None end.
(* big-0.cc:64-112: the shape may be any expression of rank 1; without end only if the rank is static *)
Example big_68 : got (array_fill 50 [3; 2] [0; 1; 2; 3; 4; 5] m0) = Some ([3; 2], [0; 1; 2; 3; 4; 5]) /\
  view_lens (Static [(None, None); (None, None)]) (Given [2; 3]) 7 = Good (big [2; 3] 7) /\ view_lens Any (Given [2; 3]) 7 = Good (big [2; 3] 7) /\
  view_lens (Static [(None, None); (None, None)]) (Endless (fun i => Z.of_nat i + 2)) 7 = Good (big [2; 3] 7) /\ view_lens Any (Endless (fun i => Z.of_nat i + 2)) 7 = Refused.
Proof. vm_compute. repeat split. Qed.
(* big-0.cc:20-39, what doesn't compile *)
Example big_31 : view_lens (Static [(None, None); (None, None)]) (Given [2]) 0 = Refused /\ view_lens (Static [(None, None); (None, None)]) (Given [2; 3; 4]) 0 = Refused.
Proof. auto. Qed.
(* big-0.cc:121-149 *)
Definition row (l : list Z) : nest Z := Braces (map (@Item Z) l).
Definition braces2 (v : view) (n : nest Z) (m : mem Z) : option (list Z) :=
  match after (braces_assign (fun _ => false) (fun _ => z_init) 2 v n m) v, after (braces_assign (fun _ => true) (fun _ => z_init) 2 v n m) v with
  | Some l, Some l' => if list_eq_dec Z.eq_dec l l' then Some l else None | _, _ => None end.
Example big_126 : braces2 (big [2; 3] 0) (Braces [row [4; 5; 6]; row [7; 8; 9]]) (fun p => p) = Some [4; 5; 6; 7; 8; 9] /\
  got (array_braces (fun _ => false) (fun _ => z_init) 50 2 (Braces [row [4; 5; 6]; row [7; 8; 9]]) m0) = Some ([2; 3], [4; 5; 6; 7; 8; 9]) /\
  got (array_braces (fun _ => true) (fun _ => z_init) 50 2 (Braces [row [1; 2; 3; 4]; row [5; 6; 7; 8]]) m0) = Some ([2; 4], [1; 2; 3; 4; 5; 6; 7; 8]) /\ got (array_fill 50 [2; 4] [1; 2; 3; 4; 5; 6; 7; 8] m0) = Some ([2; 4], [1; 2; 3; 4; 5; 6; 7; 8]) /\
  got (array_braces (fun _ => false) (fun _ => z_init) 50 1 (row [1; 3; 5; 7]) m0) = Some ([4], [1; 3; 5; 7]).
Proof. vm_compute. repeat split. Qed.
(* big-0.cc:239-281 *)
Example big_243 : map len (adim (T := Z) default_any) = map len (adim (T := Z) (default_static 1)) /\ got (array_from false z_init 50 [3] (tindex 0) m0) = None /\ length (astore (T := Z) (default_static 0)) = 1%nat.
Proof. vm_compute. auto. Qed.
(* big-0.cc:289-301 *)
Example big_291 : forallb (fun s => match M_Access.to_scalar (M_Static.TCell (Some (repeat ANY (length s)))) (viter (big s 0) : ex) (fun _ => 3) with Ok (VRef p) m => m p =? 3 | _ => false end) [[]; [1]; [1; 1]] = true.
Proof. vm_compute. auto. Qed.
(* big-1.cc:27-39 push_back; 39-63 resize *)
Definition of_list (s l : list Z) : arr Z := Arr (at_row s) (map Some l).
Example big_33 : push_back (default_static 1) 7 = Done (of_list [1] [7]) /\ push_back (default_any) 7 = Done (of_list [1] [7]) /\
  resize1 (match resize1 (of_list [6] [1; 2; 3; 4; 5; 6]) 3 None with Done a => a | Refuse a => a end) 6 (Some 0) = Done (of_list [6] [1; 2; 3; 0; 0; 0]) /\ resize1 (of_list [3; 2] [1; 2; 3; 4; 5; 6]) 2 None = Done (of_list [2; 2] [1; 2; 3; 4]).
Proof. vm_compute. repeat split. Qed.
(* big-1.cc:75-88: the dimensions of a are set to those of a transposed array *)
Definition c75 := transpose (big [3; 2] 0) [1; 0].
Example big_78 : match c75 with Good v => vdv v = [Dim 2 1; Dim 3 2] /\ vcp v = 0 /\ after_e set_ (Good (viter v)) (viter (big [2; 3] 100)) (with_ 100 [2; 3] (fun i => 3 * i0 i + i1 i) m0) (big [6] 0) = Some [0; 3; 1; 4; 2; 5] | _ => False end.
Proof. vm_compute. repeat split. Qed.
(* big-1.cc:89-98 *)
Definition v324 := big [3; 2; 4] 0.
Definition lmin (k : Z) : lx := LMap (fun x => nth 0 x 0 - nth 1 x 0) [LLen; LScalar k].
Definition each2 (e : lx) : list (option Z) := [shape_each v324 e [0]; shape_each v324 e [1]].
Definition liota (n o : lx) : lx := LSeq o n (LScalar 1).
Example big_91 : each2 (liota (LScalar 2) (LScalar 0)) = [Some 3; Some 2] /\ each2 (liota (LScalar 2) (LScalar 1)) = [Some 2; Some 4] /\ each2 (liota (LScalar 2) (lmin 2)) = [Some 2; Some 4] /\ each2 (liota (lmin 1) (LScalar 0)) = [Some 3; Some 2].
Proof. vm_compute. repeat split. Qed.
(* big-1.cc:155-172 *)
Definition seqs (dv : list dim) (o : Z) : ex := Cell dv (length dv) VI o.
Definition plus_ (f : Z -> Z -> Z) (a b : ex) : ex := Map (op2 (fun x y => fun m => match num x m, num y m with Some a, Some b => Ok (VT (f a b)) m | _, _ => Undef end)) [a; b].
Example big_163 : lists (seqs (at_row [3; 2]) 1) m0 = Some ([3; 2], [1; 2; 3; 4; 5; 6]) /\ lists (plus_ Z.add (seqs [Dim UNB 1] 0) (ivec [1; 2; 3])) m0 = Some ([3], [1; 3; 5]) /\
  after_e set_ (Good (viter (big [3; 4] 0))) (plus_ Z.sub (seqs [Dim UNB 1] 0) (seqs [Dim UNB 0; Dim UNB 1] 0)) m0 (big [3; 4] 0) = Some [0; -1; -2; -3; 1; 0; -1; -2; 2; 1; 0; -1].
Proof. vm_compute. repeat split. Qed.
(* swap.cc:35-62 *)
Definition a1 := of_list [2; 3] [1; 0; -1; 2; 1; 0].
Definition b1 := of_list [3; 2] [1; 2; 0; 1; -1; 0].
Example swap_44 : swap_any_static b1 a1 = Some (a1, b1) /\ swap_any_static a1 b1 = Some (b1, a1) /\ swap_same a1 b1 = (b1, a1) /\ swap_any_static (of_list [6] [1; 2; 3; 4; 5; 6]) b1 = None.
Proof. vm_compute. repeat split. Qed.
(* optimize.cc:22-32 *)
Import M_Opt.
Definition lst (r : res sq) : res (list Z) := match r with Good q => sq_list q | Refused => Refused | UB => UB end.
Definition len_of (r : res sq) : option slen := match r with Good q => Some (qlen q) | _ => None end.
Example optimize_26 : let i4 := Sq (Lit 4) 0 1 in let j4 := Sq (Run 4) 0 2 in let k4 := Sq (Run 4) 0 1 in let l4 := Sq (Lit 4) 0 2 in
  map len_of [opt_add i4 j4; opt_add k4 l4; opt_sub i4 j4; opt_sub k4 l4] = [Some (Lit 4); Some (Lit 4); Some (Lit 4); Some (Lit 4)] /\ lst (opt_sub k4 l4) = Good [0; -1; -2; -3] /\ lst (opt_add i4 j4) = Good [0; 3; 6; 9].
Proof. vm_compute. repeat split. Qed.
(* optimize.cc:65-140 *)
Example optimize_74 : let i := Sq (Run 5) 0 1 in
  [opt_add_sq_k i 1; opt_add_k_sq 1 i] = [Good (Sq (Run 5) 1 1); Good (Sq (Run 5) 1 1)] /\ lst (opt_add_sq_k i 1) = Good [1; 2; 3; 4; 5] /\ opt_neg i = Good (Sq (Run 5) 0 (-1)) /\ lst (opt_neg i) = Good [0; -1; -2; -3; -4] /\
  [opt_mul_sq_k i 2; opt_mul_k_sq 2 i] = [Good (Sq (Run 5) 0 2); Good (Sq (Run 5) 0 2)] /\ lst (opt_mul_k_sq 2 i) = Good [0; 2; 4; 6; 8].
Proof. vm_compute. repeat split. Qed.
