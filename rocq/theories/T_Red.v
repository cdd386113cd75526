(* Examples from test/where.cc, test/early.cc, test/reduction.cc. *)
From Coq Require Import ZArith List Bool.
From Verif Require Import Spec M_Base M_Expr M_Ply M_Val M_View M_Slice M_Frame M_Mat M_Zero M_Whole Spec_View T_Base.
Import ListNotations.
Open Scope Z_scope.

Notation ex := (expr (val Z) (mem Z)).
Definition tob (x : Z) : bool := negb (x =? 0).
Definition v_ (q : Z) (l : list Z) : view := big [Z.of_nat (length l)] q.
(* memory with lists at places *)
Definition put (q : Z) (l : list Z) (m : mem Z) : mem Z := with_ q [Z.of_nat (length l)] (fun i => nth (Z.to_nat (i0 i)) l 0) m.
Definition none_ : mem Z := fun _ => 0.
Definition t_vec (l : list Z) : ex := Cell [Dim (Z.of_nat (length l)) 1] 1 (fun p => VT (nth (Z.to_nat p) l 0)) 0.
Definition set (_ x : Z) : Z := x.
(* an operation that counts, at place 999 *)
Definition count (e : ex) : ex := Map (op1 (fun v => fun m => Ok v (wr 999 (m 999 + 1) m))) [e].
Definition counted (o : out (mem Z) (option unit)) (v : view) : option (list Z * Z) := match o with Ok _ m => Some (elems m v, m 999) | _ => None end.
(* where.cc:22-39 *)
Definition m22 := put 0 [1; 2; 3] (put 10 [10; 20; 30] none_).
Definition p_ (l : list Z) : ex := ivec l.
Definition D := big [3] 20.
Example where_29 : counted (assign false z_init set (viter D) (Pick selv [p_ [0; 1; 0]; count (viter (big [3] 0)); count (viter (big [3] 10))]) m22) D = Some ([1; 20; 3], 3) /\
  counted (assign true z_init set (viter D) (where_ tob (t_vec [0; 1; 0]) (count (viter (big [3] 0))) (count (viter (big [3] 10)))) m22) D = Some ([10; 2; 30], 3).
Proof. vm_compute. auto. Qed.
(* where.cc:40-54 *)
Definition m40 := put 0 [1; 2] (put 10 [10; 20] none_).
Definition pick2 : ex := Pick selv [p_ [0; 1]; count (viter (big [2] 0)); count (viter (big [2] 10))].
Example where_47 : counted (assign false z_init set pick2 (t_vec [7; 9]) m40) (Vw [Dim 2 10; Dim 2 1] 0) = Some ([7; 2; 10; 9], 2).
Proof. vm_compute. auto. Qed.
(* where.cc:55-63 *)
Definition add_ (a b : ex) : ex := Map (op2 (fun x y => fun m => match num x m, num y m with Some a, Some b => Ok (VT (a + b)) m | _, _ => Undef end)) [a; b].
Example where_60 : lists (add_ (Scalar (VT 3)) (Pick selv [p_ [0; 1]; viter (big [2] 0); viter (big [2] 10)])) m40 = Some ([2], [4; 23]).
Proof. vm_compute. auto. Qed.
(* where.cc:64-76 *)
Example where_71 : counted (assign true z_init Z.add pick2 (add_ (tindex 0) (Scalar (VT 5))) m40) (Vw [Dim 2 10; Dim 2 1] 0) = Some ([6; 2; 10; 26], 2).
Proof. vm_compute. auto. Qed.
(* where.cc:77-98. The first argument is a scalar. *)
Definition neg_ (a : ex) : ex := Map (op1 (fun x => fun m => match num x m with Some a => Ok (VT (- a)) m | _ => Undef end)) [a].
Example where_86 : lists (where_ tob (Scalar (VB true)) (viter (big [2] 0)) (neg_ (viter (big [2] 0)))) m40 = Some ([2], [1; 2]) /\ at_ (where_ tob (Scalar (VB true)) (viter (big [2] 0)) (neg_ (viter (big [2] 0)))) [0] m40 = Ok (VRef 0) m40 /\
  lists (where_ tob (Scalar (VB true)) (add_ (viter (big [2] 0)) (Scalar (VT (-3)))) (neg_ (viter (big [2] 0)))) m40 = Some ([2], [-2; -1]).
Proof. vm_compute. auto. Qed.
(* where.cc:99-110 *)
Definition cmp (f : Z -> Z -> bool) (a b : ex) : ex := Map (op2 (fun x y => fun m => match num x m, num y m with Some a, Some b => Ok (VB (f a b)) m | _, _ => Undef end)) [a; b].
Definition inner_ : ex := and_ tob (cmp Z.gtb (tindex 0) (Scalar (VT 0))) (cmp Z.ltb (tindex 0) (Scalar (VT 3))).
Definition times_ (k : Z) (a : ex) : ex := Map (op1 (fun x => fun m => match num x m with Some a => Ok (VT (k * a)) m | _ => Undef end)) [a].
Example where_101 : lists (where_ tob (t_vec [1; 0; 0; 1]) (Scalar (VT 1)) (Scalar (VT 2))) none_ = Some ([4], [1; 2; 2; 1]) /\ lists (where_ tob inner_ (t_vec [1; 2; 3; 4]) (Scalar (VT 17))) none_ = Some ([4], [17; 2; 3; 17]) /\
  lists (where_ tob (t_vec [1; 0; 0; 1]) (add_ (times_ 2 (tindex 0)) (Scalar (VT 1))) (times_ 2 (tindex 0))) none_ = Some ([4], [1; 2; 4; 7]) /\
  lists (where_ tob (t_vec [1; 0; 0; 1]) (Scalar (VT 99)) (viter (big [4; 3] 0))) (filled_by [4; 3] (fun i => i0 i - i1 i)) = Some ([4; 3], [99; 99; 99; 1; 0; -1; 2; 1; 0; 99; 99; 99]).
Proof. vm_compute. repeat split. Qed.
(* where.cc:111-123 *)
Example where_114 : lists (where_ tob (cmp Z.geb (t_vec [-1; 0; 1]) (Scalar (VT 0))) (where_ tob (cmp Z.ltb (t_vec [-1; 0; 1]) (Scalar (VT 1))) (Scalar (VT 77)) (Scalar (VT 99))) (Scalar (VT 44))) none_ = Some ([3], [44; 77; 99]).
Proof. vm_compute. auto. Qed.
(* where.cc:147-161 *)
Example where_151 : (match assign false z_init set (where_ tob inner_ (viter (big [4] 0)) (viter (big [4] 10))) (Scalar (VT 7)) none_ with
  | Ok _ m => Some (elems m (Vw [Dim 2 10; Dim 4 1] 0), after (assign true z_init Z.add (where_ tob (or_ tob (cmp Z.leb (tindex 0) (Scalar (VT 0))) (cmp Z.geb (tindex 0) (Scalar (VT 3)))) (viter (big [4] 0)) (viter (big [4] 10))) (Scalar (VT 2)) m) (Vw [Dim 2 10; Dim 4 1] 0))
  | _ => None end) = Some ([0; 7; 7; 0; 7; 0; 0; 7], Some [2; 7; 7; 2; 7; 2; 2; 7]).
Proof. vm_compute. auto. Qed.
(* where.cc:162-166 *)
Example where_164 : lists (where_ tob (t_vec [1; 0]) (tindex 0) (tindex 0)) none_ = Some ([2], [0; 1]) /\ lists (where_ tob (t_vec [1; 0]) (times_ 3 (tindex 0)) (times_ 2 (tindex 0))) none_ = Some ([2], [0; 2]).
Proof. vm_compute. auto. Qed.
(* where.cc:167-177 *)
Definition mb : ex := count (t_vec [1; 0; 1; 0]).
Definition total_ (e : ex) : option (list Z * Z) := match for_each_c false z_init gather_op [e] [] none_ with Ok l m => Some (l, m 999) | _ => None end.
Example where_172 : total_ (and_ tob (t_vec [1; 1; 0; 0]) mb) = Some ([1; 0; 0; 0], 2) /\ total_ (or_ tob (t_vec [1; 1; 0; 0]) mb) = Some ([1; 1; 1; 0], 2).
Proof. vm_compute. auto. Qed.

(* early.cc:17-28 *)
Definition eq_ (a : ex) (k : Z) : ex := cmp Z.eqb a (Scalar (VT k)).
Definition yes {A} (f g : out (mem Z) A) (P : A -> bool) : bool := match f, g with Ok a _, Ok b _ => P a && P b | _, _ => false end.
Definition any_ (e : ex) (m : mem Z) : bool := yes (any false z_init tob e m) (any true z_init tob e m) id.
Definition none_of (e : ex) (m : mem Z) : bool := yes (any false z_init tob e m) (any true z_init tob e m) negb.
Definition every_ (e : ex) (m : mem Z) : bool := yes (every false z_init tob e m) (every true z_init tob e m) id.
Definition not_every (e : ex) (m : mem Z) : bool := yes (every false z_init tob e m) (every true z_init tob e m) negb.
Definition index_is (k : Z) (e : ex) (m : mem Z) : bool := yes (index false z_init tob e m) (index true z_init tob e m) (Z.eqb k).
Example early_19 : any_ (eq_ (viter (Vw [] 5)) 99) (fun _ => 99) = true /\ every_ (eq_ (viter (Vw [] 5)) 99) (fun _ => 99) = true.
Proof. vm_compute. auto. Qed.
(* early.cc:29-67 *)
Definition odd (e : ex) : ex := Map (op1 (fun x => fun m => match num x m with Some a => Ok (VB (Z.odd a)) m | _ => Undef end)) [e].
Definition even (e : ex) : ex := Map (op1 (fun x => fun m => match num x m with Some a => Ok (VB (Z.even a)) m | _ => Undef end)) [e].
Definition m29 := filled_by [2; 3] (fun i => i0 i * 2 + i1 i * 10).
Definition m37 := put 0 [1; 1; 1; 1; 0; 1] none_.
Example early_32 : none_of (odd (viter (big [2; 3] 0))) m29 = true /\ every_ (even (viter (big [2; 3] 0))) m29 = true /\ not_every (eq_ (viter (big [2; 3] 0)) 1) m37 = true /\ any_ (eq_ (viter (big [2; 3] 0)) 0) m37 = true /\
  match transpose (big [2; 3] 0) [1; 0] with Good b => not_every (eq_ (viter b) 1) m37 && any_ (eq_ (viter b) 0) m37 | _ => false end = true.
Proof. vm_compute. repeat split. Qed.
(* early.cc:68-88 *)
Definition lt0 (e : ex) : ex := cmp Z.ltb e (Scalar (VT 0)).
Definition gt10 (e : ex) : ex := cmp Z.gtb e (Scalar (VT 10)).
Definition m68 := put 0 [1; 3; -1; 9] none_.
Example early_71 : index_is 2 (lt0 (viter (big [4] 0))) m68 = true /\ index_is (-1) (gt10 (viter (big [4] 0))) m68 = true /\ index_is 1 (lt0 (viter (big [2; 2] 0))) m68 = true /\ index_is (-1) (gt10 (viter (big [2; 2] 0))) m68 = true.
Proof. vm_compute. repeat split. Qed.

(* reduction.cc:22-35 *)
Definition m22r := put 0 [1; 2; 9; -10] (put 10 [1; 1; 1; 1] none_).
Definition is_ (k : Z) (f : bool -> M (mem Z) Z) (m : mem Z) : bool := yes (f false m) (f true m) (Z.eqb k).
Example reduction_26 : is_ 9 (fun f => amax f z_init Z.ltb (-1000000) (viter (big [2; 2] 0))) m22r = true /\ is_ 10 (fun f => amax f z_init Z.ltb (-1000000) (add_ (viter (big [2; 2] 0)) (viter (big [2; 2] 10)))) m22r = true.
Proof. vm_compute. auto. Qed.
(* reduction.cc:36-54 *)
Example reduction_38 : every_ (viter (big [4; 4] 0)) (filled_by [4; 4] (fun i => 10 + i0 i - i1 i)) = true /\ any_ (viter (big [4; 4] 0)) (filled_by [4; 4] (fun i => i0 i - i1 i)) = true /\
  every_ (Scalar (VB true)) none_ = true /\ not_every (Scalar (VB false)) none_ = true /\ any_ (Scalar (VB true)) none_ = true /\ none_of (Scalar (VB false)) none_ = true /\
  every_ (eq_ (t_vec [5; 5]) 5) none_ = true /\ not_every (eq_ (t_vec [2; 5]) 5) none_ = true /\ not_every (eq_ (t_vec [5; 2]) 5) none_ = true /\ not_every (eq_ (t_vec [2; 3]) 5) none_ = true /\
  any_ (eq_ (t_vec [5; 5]) 5) none_ = true /\ any_ (eq_ (t_vec [2; 5]) 5) none_ = true /\ any_ (eq_ (t_vec [5; 2]) 5) none_ = true /\ none_of (eq_ (t_vec [2; 3]) 5) none_ = true.
Proof. vm_compute. repeat split. Qed.
(* reduction.cc:86-132, with integers *)
Example reduction_110 : is_ 11 (fun f => dot f z_init Z.add Z.mul 0 (t_vec [1; 2]) (t_vec [3; 4])) none_ = true /\ is_ 8 (fun f => reduce_sqrm f z_init Z.add (fun x => x * x) 0 (add_ (t_vec [1; 2]) (neg_ (t_vec [3; 4])))) none_ = true /\
  is_ 10 (fun f => sum f z_init Z.add 0 (t_vec [4; 6])) none_ = true /\ is_ 24 (fun f => prod f z_init Z.mul 1 (t_vec [4; 6])) none_ = true /\ is_ 4 (fun f => amin f z_init Z.ltb 1000000 (t_vec [4; 6])) none_ = true.
Proof. vm_compute. repeat split. Qed.
(* reduction.cc:144-177, with smaller lengths *)
Definition m144 := filled_by [10; 11] (fun i => i0 i - i1 i).
Definition row_total (i : Z) : Z := 11 * i - 55.
Example reduction_153 : after_e Z.add (Good (viter (big [10] 900))) (viter (big [10; 11] 0)) m144 (big [10] 900) = Some (map row_total [0; 1; 2; 3; 4; 5; 6; 7; 8; 9]) /\
  after_e set (Good (viter (big [10] 900))) (add_ (viter (big [10] 900)) (viter (big [10; 11] 0))) m144 (big [10] 900) = Some (map row_total [0; 1; 2; 3; 4; 5; 6; 7; 8; 9]) /\
  after_e Z.add (Good (viter (Vw [] 900))) (viter (big [11] 0)) m144 (Vw [] 900) = Some [row_total 0].
Proof. vm_compute. repeat split. Qed.
(* reduction.cc:252-291 *)
Definition got (o : out (mem Z) (option view)) : option (list Z * list Z) := match o with Ok (Some v) m => Some (vshape v, elems m v) | _ => None end.
Definition mv := put 500 [1; 2; 3; 4] (filled_by [3; 4] (fun i => i0 i - i1 i)).
Definition mw := put 500 [1; 2; 3; 4] (filled_by [4; 3] (fun i => i1 i - i0 i)).
Example reduction_262 : forallb (fun f => match got (gemv2 Z.add Z.mul f z_init 900 0 (big [3; 4] 0) (big [4] 500) mv), got (gevm2 Z.add Z.mul f z_init 900 0 (big [4] 500) (big [4; 3] 0) mw) with
  | Some ([3], [-20; -10; 0]), Some ([3], [-20; -10; 0]) => true | _, _ => false end) [false; true] = true.
Proof. vm_compute. auto. Qed.
(* reduction.cc:292-347 *)
Definition m32 := with_ 100 [2; 4] (fun _ => 3) (filled_by [3; 2] (fun _ => 2)).
Example reduction_295 : got (gemm2 Z.add Z.mul false z_init 900 0 (big [0; 0] 0) (big [0; 0] 100) m32) = Some ([0; 0], []) /\
  got (gemm2 Z.add Z.mul false z_init 900 0 (big [3; 2] 0) (big [2; 4] 100) m32) = Some ([3; 4], [12; 12; 12; 12; 12; 12; 12; 12; 12; 12; 12; 12]) /\
  got (gemm2 Z.add Z.mul true z_init 900 0 (big [3; 2] 0) (big [2; 4] 100) m32) = Some ([3; 4], [12; 12; 12; 12; 12; 12; 12; 12; 12; 12; 12; 12]) /\
  after (gemm_e Z.add Z.mul false z_init (big [3; 2] 0) (big [2; 4] 100) (viter (big [3; 4] 900)) (with_ 900 [3; 4] (fun _ => 1) m32)) (big [3; 4] 900) = Some [13; 13; 13; 13; 13; 13; 13; 13; 13; 13; 13; 13].
Proof. vm_compute. repeat split. Qed.
(* reduction.cc:404-423 *)
Definition m404 := filled_by [2; 3] (fun i => i1 i - i0 i).
Definition A23 := big [2; 3] 0.
Example reduction_407 : is_ (vplace A23 [1; 0]) (fun f => refmin f z_init Z.ltb (vdv A23) (vcp A23)) m404 = true /\ is_ (vplace A23 [0; 2]) (fun f => refmin f z_init Z.gtb (vdv A23) (vcp A23)) m404 = true /\
  is_ (vplace A23 [0; 1]) (fun f => refmax f z_init Z.ltb (vdv A23) (vcp A23)) (wr 2 0 (wr 3 (-99) m404)) = true.
Proof. vm_compute. auto. Qed.
