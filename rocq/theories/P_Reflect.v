(* Property C156: the functions of examples/small.cc. *)
From Coq Require Import ZArith List Lia Bool Ring QArith.QArith_base QArith.Qcanon.
From Verif Require Import Spec L_Spec Spec_Ply Spec_Expr M_Base M_Expr M_Ply M_Val Spec_Val L_Expr L_Agree L_Ply L_Stl L_Run L_Val P_Ply P_Reduce M_View Spec_View L_View P_View M_Slice Spec_Slice L_Slice P_Slice M_Frame Spec_Frame L_Frame P_Frame M_Mat Spec_Mat P_Mat P_Ext P_Outer M_Cell M_Fill P_Fill M_Cells P_Cells P_Ref M_Stencil P_Stencil P_Roll M_Access P_Accum M_Elem P_Elem M_Vec P_Vec P_Sums M_Vecs P_Vecs M_Reflect.
Import ListNotations.
Open Scope Z_scope.

(* an element of x is no element of a other than the one in the same position *)
Definition in_line (x a : view) : Prop := forall i j, inshape i (vshape x) -> inshape j (vshape a) -> vplace x i = vplace a j -> i = j.

Section Any.
Context {T : Type}.
Variables (fixed fi : bool) (z zi : list zt) (add sub mul : T -> T -> T) (zero : T).
Hypothesis (Hz : zclean z) (Hzi : zclean zi).
(* the sum of the products of the elements of a and b *)
Definition product (n : Z) (a b : view) (m : mem T) : T := fold_left add (map (fun i => mul (m (vplace a [i])) (m (vplace b [i]))) (zrange n)) zero.

Lemma one_in : forall n i, 0 <= i < n -> inshape [i] [n]. Proof. intros. constructor; [auto|constructor]. Qed.
Lemma line_source : forall (x a : view) s (m : mem T), vshape x = s -> vshape a = s -> in_line x a -> source (viter a) s (vplace x) m (fun j => m (vplace a j)).
Proof.
  intros x a s m Ex Ea L j m' Hj U. exists (VRef (vplace a j)). rewrite viter_element, vrank_shape, Ea, whole_in by auto. split; [reflexivity|]. cbn [value_of]. f_equal. apply U. intros i Hi Hl E.
  assert (i = j) by (apply L; [rewrite Ex|rewrite Ea|]; auto). subst i. exact (lexlt_irrefl _ Hl).
Qed.

(* the result is that of the values before, also if reflection is ray or normal *)
Theorem C156_reflect : forall k x a b n (m : mem T), 0 <= n -> vshape x = [n] -> vshape a = [n] -> vshape b = [n] -> apart_at x -> in_line x a -> in_line x b ->
  exists m', reflect fixed fi z zi add sub mul zero k x a b m = Ok None m' /\
    (forall i, 0 <= i < n -> m' (vplace x [i]) = sub (m (vplace a [i])) (mul (mul k (product n a b m)) (m (vplace b [i])))) /\ forall p, (forall i, 0 <= i < n -> p <> vplace x [i]) -> m' p = m p.
Proof.
  intros k x a b n m Hn Ex Ea Eb Ax La Lb. assert (Nn : nonneg [n]) by (apply Forall_cons; [auto|constructor]).
  destruct (view_shape (T := T) x _ Ex Nn) as (Wx & Sx), (view_shape (T := T) a _ Ea Nn) as (Wa & Sa), (view_shape (T := T) b _ Eb Nn) as (Wb & Sb).
  unfold reflect, bind. rewrite (dot_at add mul zero fi zi Hzi a b n m Ea Eb Hn). change (accum add zero n _) with (product n a b m). set (c := mul k (product n a b m)).
  assert (W2 : wf (bin mul (Scalar (VT c)) (viter b))) by (apply wf_map; [discriminate|]; apply Forall_cons; [exact I|]; apply Forall_cons; [auto|constructor]).
  assert (W1 : wf (bin sub (viter a) (bin mul (Scalar (VT c)) (viter b)))) by (apply wf_map; [discriminate|]; apply Forall_cons; [auto|]; apply Forall_cons; [auto|constructor]).
  destruct (assign_ref T put (viter x) (bin sub (viter a) (bin mul (Scalar (VT c)) (viter b))) [n] m (vplace x) (fun j => sub (m (vplace a j)) (mul c (m (vplace b j)))) fixed z) as (m' & E & S); auto.
  - apply (joint_cover _ _ _ (viter x)); [left; auto|auto|]. apply Forall_cons; [apply inner_whole; auto|]. apply Forall_cons; [|constructor]. apply inner_map. apply Forall_cons; [apply inner_whole; auto|]. apply Forall_cons; [|constructor]. apply inner_map. apply Forall_cons; [apply inner_scalar|]. apply Forall_cons; [apply inner_whole; auto|constructor].
  - intros j m1 Hj U. rewrite viter_element, vrank_shape, Ex, whole_in by auto. reflexivity.
  - intros j m1 Hj U. destruct (line_source x a [n] m Ex Ea La j m1 Hj U) as (v & E1 & E2), (line_source x b [n] m Ex Eb Lb j m1 Hj U) as (u & E3 & E4).
    exists (VT (sub (m (vplace a j)) (mul c (m (vplace b j))))). split; [|reflexivity]. unfold bin at 1. cbn [element map]. rewrite (in_order_2 _ _ _ _ _ v m1 (VT (mul c (m (vplace b j)))) m1); auto.
    + cbn. unfold bind. rewrite (rd_value _ _ (m (vplace a j))) by auto. reflexivity.
    + unfold bin. cbn [element map]. rewrite (in_order_2 _ _ _ _ _ (VT c) m1 u m1); auto. cbn. unfold bind. rewrite (rd_value _ _ (m (vplace b j))) by auto. reflexivity.
  - exists m'. split; [auto|]. destruct (scattered_distinct _ _ _ _ _ _ _ S) as (V & O); [rewrite <- Ex; exact Ax|]. split.
    + intros i Hi. rewrite V by (apply one_in; auto). reflexivity.
    + intros p Hp. apply O. intros j Hj. destruct (in_one _ _ Hj) as (i & -> & Hi). auto.
Qed.
Theorem C156_add : forall c a b (m : mem T), exists m', add_vectors fi zi add c a b m = Ok (vec_at 4 c) m' /\
  (forall k, 0 <= k < 4 -> m' (4 * c + k) = add (m (4 * a + k)) (m (4 * b + k))) /\ forall p, ~ 4 * c <= p < 4 * c + 4 -> m' p = m p.
Proof. intros c a b m. destruct (vec_step fi zi add Hzi true 4 c a b m) as (m' & E & S); [lia|]. exists m'. auto. Qed.
End Any.

(* In a commutative ring, and if the normal has length 1 *)
Section Ring.
Context {T : Type}.
Variables (rO rI : T) (add mul sub : T -> T -> T) (opp : T -> T).
Hypothesis (RT : ring_theory rO rI add mul sub opp eq).
Add Ring T_ring : RT.
Variables (fixed fi : bool) (z zi : list zt).
Hypothesis (Hz : zclean z) (Hzi : zclean zi).
Notation product := (product add mul rO).

Lemma fold_from : forall (l : list T) c, fold_left add l c = add c (fold_left add l rO).
Proof. induction l as [|x l IH]; intros c; cbn [fold_left]; [ring|]. rewrite IH, (IH (add rO x)). ring. Qed.
Lemma fold_mix : forall (l : list Z) (f g h : Z -> T) c d, (forall i, In i l -> f i = add (mul c (g i)) (mul d (h i))) -> fold_left add (map f l) rO = add (mul c (fold_left add (map g l) rO)) (mul d (fold_left add (map h l) rO)).
Proof.
  induction l as [|i l IH]; intros f g h c d H; cbn [map fold_left]; [ring|]. rewrite !(fold_from _ (add rO _)). rewrite (IH f g h c d), H by (intros; apply H || idtac; cbn; auto). ring.
Qed.

(* the part along the normal is multiplied by 1-k, and the rest is the same *)
Theorem C156_parts : forall k x a b n (m m' : mem T), 0 <= n -> vshape x = [n] -> vshape a = [n] -> vshape b = [n] -> apart_at x -> in_line x a -> P_Cells.separate x b -> product n b b m = rI ->
  reflect fixed fi z zi add sub mul rO k x a b m = Ok None m' -> product n x b m' = mul (sub rI k) (product n a b m) /\
  forall w, vshape w = [n] -> P_Cells.separate x w -> product n w b m = rO -> product n w x m' = product n w a m.
Proof.
  intros k x a b n m m' Hn Ex Ea Eb Ax La Lb Hb E. destruct (C156_reflect fixed fi z zi add sub mul rO Hz Hzi k x a b n m) as (m2 & E2 & V & O); auto; [intros i j Hi Hj F; destruct (Lb i j); auto|]. rewrite E in E2. injection E2 as <-.
  assert (K : forall (w : view) i, vshape w = [n] -> P_Cells.separate x w -> 0 <= i < n -> m' (vplace w [i]) = m (vplace w [i])) by (intros w i Ew Hw Hi; apply O; intros j Hj F; apply (Hw [j] [i]); [rewrite Ex|rewrite Ew|]; auto using one_in).
  set (p := product n a b m) in *. split.
  - unfold P_Reflect.product at 1. rewrite (fold_mix (zrange n) _ (fun i => mul (m (vplace a [i])) (m (vplace b [i]))) (fun i => mul (m (vplace b [i])) (m (vplace b [i]))) rI (opp (mul k p))).
    + change (add (mul rI p) (mul (opp (mul k p)) (product n b b m)) = mul (sub rI k) p). rewrite Hb. ring.
    + intros i Hi. apply in_zrange in Hi. rewrite V, (K b) by auto. ring.
  - intros w Ew Hw H0. unfold P_Reflect.product at 1. rewrite (fold_mix (zrange n) _ (fun i => mul (m (vplace w [i])) (m (vplace a [i]))) (fun i => mul (m (vplace w [i])) (m (vplace b [i]))) rI (opp (mul k p))).
    + change (add (mul rI (product n w a m)) (mul (opp (mul k p)) (product n w b m)) = product n w a m). rewrite H0. ring.
    + intros i Hi. apply in_zrange in Hi. rewrite V, (K w) by auto. ring.
Qed.
(* with k = 2 it's a reflection: twice gives the ray back, and the length is the same *)
Theorem C156_two : forall x a b n (m : mem T), 0 <= n -> vshape x = [n] -> vshape a = [n] -> vshape b = [n] -> apart_at x -> in_line x a -> P_Cells.separate x b -> product n b b m = rI ->
  exists m1 m2, reflect fixed fi z zi add sub mul rO (add rI rI) x a b m = Ok None m1 /\ product n x x m1 = product n a a m /\
    reflect fixed fi z zi add sub mul rO (add rI rI) x x b m1 = Ok None m2 /\ forall i, 0 <= i < n -> m2 (vplace x [i]) = m (vplace a [i]).
Proof.
  intros x a b n m Hn Ex Ea Eb Ax La Lb Hb. set (k := add rI rI). assert (Lx : in_line x b) by (intros i j Hi Hj F; destruct (Lb i j); auto).
  destruct (C156_reflect fixed fi z zi add sub mul rO Hz Hzi k x a b n m) as (m1 & E1 & V1 & O1); auto. destruct (C156_reflect fixed fi z zi add sub mul rO Hz Hzi k x x b n m1) as (m2 & E2 & V2 & O2); auto.
  exists m1, m2. split; [auto|]. pose proof (C156_parts k x a b n m m1 Hn Ex Ea Eb Ax La Lb Hb E1) as (P & _).
  assert (K : forall i, 0 <= i < n -> m1 (vplace b [i]) = m (vplace b [i])) by (intros i Hi; apply O1; intros j Hj F; apply (Lb [j] [i]); [rewrite Ex|rewrite Eb|]; auto using one_in).
  set (p := product n a b m) in *. repeat split; auto.
  - unfold P_Reflect.product at 1. set (c := mul k p) in *.
    rewrite (fold_mix (zrange n) _ (fun i => mul (m (vplace a [i])) (m (vplace a [i]))) (fun i => add (mul (opp k) (mul (m (vplace a [i])) (m (vplace b [i])))) (mul c (mul (m (vplace b [i])) (m (vplace b [i]))))) rI c).
    + rewrite (fold_mix (zrange n) (fun i => add (mul (opp k) (mul (m (vplace a [i])) (m (vplace b [i])))) (mul c (mul (m (vplace b [i])) (m (vplace b [i]))))) (fun i => mul (m (vplace a [i])) (m (vplace b [i]))) (fun i => mul (m (vplace b [i])) (m (vplace b [i]))) (opp k) c) by reflexivity.
      change (add (mul rI (product n a a m)) (mul c (add (mul (opp k) p) (mul c (product n b b m)))) = product n a a m). rewrite Hb. unfold c. ring.
    + intros i Hi. apply in_zrange in Hi. rewrite V1 by auto. fold c. unfold c, k. ring.
  - intros i Hi. rewrite V2, V1, P, K by auto. unfold k. ring.
Qed.
End Ring.

(* It isn't with the 2.7 of the program: [1 0 -1] goes to [1 0 1.7], that is longer, and this one to [1 0 -2.89] *)
Definition qc (n d : Z) : Qc := Q2Qc (Qmake n (Z.to_pos d)).
Definition rays (p : Z) : Qc := nth (Z.to_nat p) [qc 9 1; qc 9 1; qc 9 1; qc 1 1; qc 0 1; qc (-1) 1; qc 0 1; qc 0 1; qc 1 1] (qc 0 1).
Theorem C156_refuted : exists (x a b : view) (m m1 m2 : mem Qc), vshape x = [3] /\ vshape a = [3] /\ vshape b = [3] /\ apart_at x /\ P_Cells.separate x a /\ P_Cells.separate x b /\ P_Cells.separate a b /\ product Qcplus Qcmult (qc 0 1) 3 b b m = qc 1 1 /\
  reflect true true z_init z_init Qcplus Qcminus Qcmult (qc 0 1) (qc 27 10) x a b m = Ok None m1 /\ map (fun i => m1 (vplace x [i])) [0; 1; 2] = [qc 1 1; qc 0 1; qc 17 10] /\
  product Qcplus Qcmult (qc 0 1) 3 x x m1 <> product Qcplus Qcmult (qc 0 1) 3 a a m /\
  reflect true true z_init z_init Qcplus Qcminus Qcmult (qc 0 1) (qc 27 10) x x b m1 = Ok None m2 /\ m2 (vplace x [2]) = qc (-289) 100 /\ m2 (vplace x [2]) <> m (vplace a [2]).
Proof.
  exists (Vw [Dim 3 1] 0), (Vw [Dim 3 1] 3), (Vw [Dim 3 1] 6), rays. do 2 eexists. do 3 (split; [reflexivity|]).
  split; [intros i j Hi Hj E; destruct (in_one i 3 Hi) as (u & -> & Hu), (in_one j 3 Hj) as (v & -> & Hv); unfold vplace in E; cbn [vcp vdv place step] in E; f_equal; lia|].
  do 3 (split; [intros i j Hi Hj E; destruct (in_one i 3 Hi) as (u & -> & Hu), (in_one j 3 Hj) as (v & -> & Hv); unfold vplace in E; cbn [vcp vdv place step] in E; lia|]).
  split; [vm_compute; reflexivity|]. split; [cbv -[Qcplus Qcmult Qcminus qc rays]; reflexivity|]. split; [vm_compute; reflexivity|]. split; [vm_compute; discriminate|]. split; [cbv -[Qcplus Qcmult Qcminus qc rays]; reflexivity|]. split; [apply Qc_is_canon; vm_compute; reflexivity|vm_compute; discriminate].
Qed.

(* small.cc:30-42 with 2, in place (x is a), and the normal [0 0 1]: the last element changes its sign. reflection may also be the normal. *)
Example C156_ex : let m := fun p => nth (Z.to_nat p) [1; 0; -1; 0; 0; 1] 7 in let a := Vw [Dim 3 1] 0 in let b := Vw [Dim 3 1] 3 in
  apart_at a /\ in_line a a /\ P_Cells.separate a b /\ product Z.add Z.mul 0 3 b b m = 1 /\ exists m1 m2, reflect true false z_init z_init Z.add Z.sub Z.mul 0 2 a a b m = Ok None m1 /\ map m1 [0; 1; 2; 3; 4; 5] = [1; 0; 1; 0; 0; 1] /\
  reflect false true z_init z_init Z.add Z.sub Z.mul 0 2 b a b m = Ok None m2 /\ map m2 [0; 1; 2; 3; 4; 5] = [1; 0; -1; 1; 0; 1].
Proof.
  cbv zeta. assert (A : apart_at (Vw [Dim 3 1] 0)) by (intros i j Hi Hj E; destruct (in_one i 3 Hi) as (u & -> & Hu), (in_one j 3 Hj) as (v & -> & Hv); unfold vplace in E; cbn [vcp vdv place step] in E; f_equal; lia).
  split; [exact A|]. split; [exact A|]. split; [intros i j Hi Hj E; destruct (in_one i 3 Hi) as (u & -> & Hu), (in_one j 3 Hj) as (v & -> & Hv); unfold vplace in E; cbn [vcp vdv place step] in E; lia|]. split; [reflexivity|].
  do 2 eexists. split; [vm_compute; reflexivity|]. split; [reflexivity|]. split; [vm_compute; reflexivity|reflexivity].
Qed.
(* small.cc:43-48 *)
Example C156_add_ex : exists m', add_vectors true z_init Z.add 0 1 2 (fun p => nth (Z.to_nat p) [0; 0; 0; 0; 1; 2; 3; 4; 10; 11; 12; 13] 7) = Ok (vec_at 4 0) m' /\ map m' [0; 1; 2; 3; 4] = [11; 13; 15; 17; 1].
Proof. eexists. split; [vm_compute; reflexivity|reflexivity]. Qed.
Print Assumptions C156_reflect. Print Assumptions C156_add. Print Assumptions C156_parts. Print Assumptions C156_two. Print Assumptions C156_refuted.
