(* Properties of the ways to fill an array of complex numbers: C135. *)
From Coq Require Import ZArith List Lia Bool Arith.
From Verif Require Import Spec M_Base M_Expr M_Ply L_Spec L_Expr Spec_Ply L_Ply Spec_Expr L_Agree L_Run M_Val Spec_Val L_Val P_Reduce M_View L_View Spec_View P_View M_Slice Spec_Slice L_Slice P_Slice M_Frame Spec_Frame L_Frame P_Frame M_Mat Spec_Mat P_Mat M_Ref P_Ref M_Cells P_Cells M_Stencil P_Stencil M_Roll P_Roll M_Gemm P_Gemm M_Pack.
Import ListNotations.
Open Scope Z_scope.

(* ---- statement ---- *)

(* The array has n elements, the first at p and the others at distance s, in units of complex numbers. From m to m' element i becomes x i + y i sqrt(-1), and the rest of the memory is the same. *)
Definition complex_filled {A} (p s n : Z) (x y : Z -> A) (m m' : mem A) : Prop :=
  (forall i, 0 <= i < n -> m' (2 * (p + i * s)) = x i /\ m' (2 * (p + i * s) + 1) = y i) /\
  forall q, (forall i, 0 <= i < n -> q <> 2 * (p + i * s) /\ q <> 2 * (p + i * s) + 1) -> m' q = m q.
(* the memory of real numbers that has the parts of those in mc *)
Definition parts {A} (mc : mem (A * A)) (m : mem A) : Prop := forall p, m (2 * p) = fst (mc p) /\ m (2 * p + 1) = snd (mc p).

(* ---- proof ---- *)

Section Seqs.
Context {A : Type}.

Lemma up_element : forall W i (w : W) n, element (@up A W n) [i] w = Ok (VI i) w.
Proof. intros. unfold up. cbn [element firstn place step]. repeat f_equal. ring. Qed.
Lemma down_element : forall W i (w : W) n, element (@down A W n) [i] w = Ok (VI (n - i)) w.
Proof. intros. unfold down. cbn [element map]. rewrite (in_order_1 _ _ _ _ (VI i) w) by apply up_element. reflexivity. Qed.
Lemma up_wf : forall W n, 0 <= n -> wf (@up A W n).
Proof. intros. unfold up. cbn [wf length firstn len]. split; [auto|]. apply Forall_cons; [|constructor]. left. exact H. Qed.
Lemma down_wf : forall W n, 0 <= n -> wf (@down A W n).
Proof. intros. apply wf_map; [discriminate|]. constructor; [apply up_wf; auto|constructor]. Qed.
Lemma up_inner : forall n, inner (T:=A) (@up A (mem A) n) [n].
Proof. intros n. split; [cbn; lia|]. intros [|k]; cbn; [|destruct k; constructor]. constructor; [left; reflexivity|constructor]. Qed.
Lemma down_inner : forall n, inner (T:=A) (@down A (mem A) n) [n].
Proof. intros n. apply inner_map. apply Forall_cons; [apply up_inner|constructor]. Qed.
End Seqs.

Section Real.
Context {A : Type}.
Variables (fixed : bool) (z : list zt) (num : Z -> A).
Hypothesis Hz : zclean z.

Lemma real_wf : forall e, wf e -> wf (as_real num e).
Proof. intros. apply wf_map; [discriminate|]. constructor; [auto|constructor]. Qed.
Lemma real_inner : forall e s, inner (T:=A) e s -> inner (T:=A) (as_real num e) s.
Proof. intros. apply inner_map. apply Forall_cons; [auto|constructor]. Qed.
Lemma up_real : forall i n (m : mem A), element (as_real num (up n)) [i] m = Ok (VT (num i)) m.
Proof. intros. unfold as_real. cbn [element map]. rewrite (in_order_1 _ _ _ _ (VI i) m) by apply up_element. reflexivity. Qed.
Lemma down_real : forall i n (m : mem A), element (as_real num (down n)) [i] m = Ok (VT (num (n - i))) m.
Proof. intros. unfold as_real. cbn [element map]. rewrite (in_order_1 _ _ _ _ (VI (n - i)) m) by apply down_element. reflexivity. Qed.

(* assignment to a vector of real numbers at p, with step s *)
Definition reals_filled (p s n : Z) (x : Z -> A) (m m' : mem A) : Prop :=
  (forall i, 0 <= i < n -> m' (p + i * s) = x i) /\ forall q, (forall i, 0 <= i < n -> q <> p + i * s) -> m' q = m q.
Lemma both_filled : forall p s n x y (m m1 m2 : mem A), reals_filled (2 * p) (2 * s) n x m m1 -> reals_filled (2 * p + 1) (2 * s) n y m1 m2 -> complex_filled p s n x y m m2.
Proof.
  intros p s n x y m m1 m2 (V1 & O1) (V2 & O2). split.
  - intros i Hi. split.
    + rewrite O2 by (intros; lia). replace (2 * (p + i * s)) with (2 * p + i * (2 * s)) by ring. auto.
    + replace (2 * (p + i * s) + 1) with (2 * p + 1 + i * (2 * s)) by ring. auto.
  - intros q Hq. rewrite O2, O1; auto; intros i Hi E; destruct (Hq i Hi); lia.
Qed.
Lemma part_filled : forall p s n k (d e : expr (val A) (mem A)) x m, 0 <= n -> s <> 0 -> wf d -> shape_is d [n] -> (forall i m', element d [i] m' = Ok (VRef (p + i * s + k)) m') ->
  wf e -> inner (T:=A) e [n] -> (forall i m', element e [i] m' = Ok (VT (x i)) m') -> exists m', assign fixed z (fun _ v => v) d e m = Ok None m' /\ reals_filled (p + k) s n x m m'.
Proof.
  intros p s n k d e x m Hn Hs Wd Sd Hd We Ne He.
  destruct (C29_assign A (fun _ v => v) d e [n] m (fun j => p + nth 0 j 0 * s + k) (fun j => x (nth 0 j 0)) fixed z) as (m' & E & V & O); auto.
  - apply (joint_cover _ _ _ d); [left; auto|auto|]. apply Forall_cons; [apply inner_whole; auto|]. apply Forall_cons; [auto|constructor].
  - intros j m' Hj. apply in1e in Hj as (i & -> & Hi). apply Hd.
  - intros i j Hi Hj. apply in1e in Hi as (i' & -> & Hi). apply in1e in Hj as (j' & -> & Hj). cbn [nth]. intros Eq. f_equal. nia.
  - intros j m' Hj _. apply in1e in Hj as (i & -> & Hi). exists (VT (x i)). split; [apply He|reflexivity].
  - exists m'. split; auto. split.
    + intros i Hi. specialize (V [i] (proj2 (P_Mat.in1 _ _) Hi)). cbn [nth] in V. rewrite <- V. f_equal. ring.
    + intros q Hq. apply O. intros j Hj. apply in1e in Hj as (i & -> & Hi). cbn [nth]. specialize (Hq i Hi). lia.
Qed.
Lemma citer_part : forall p s n i (m : mem A), element (citer (Vw [Dim n s] p)) [i] m = Ok (VRef (2 * (p + i * s))) m.
Proof. intros. unfold citer. cbn [vdv vcp element]. unfold vrank. cbn [vdv length firstn place step]. do 3 f_equal. lia. Qed.
Lemma map1_shape : forall op (e : expr (val A) (mem A)) n, wf e -> shape_is e [n] -> shape_is (Map op [e]) [n].
Proof.
  intros op e n We (L & P). split.
  - rewrite L. cbn [axes map fold_right]. lia.
  - intros k Hk. cbn [axes map fold_right] in Hk. destruct (P k) as (H1 & H2); [lia|]. split; [exact H1|]. cbn [leaf_lens flat_map]. rewrite app_nil_r. exact H2.
Qed.

Theorem C135_reim : forall p s n m, 0 <= n -> s <> 0 ->
  exists m', fill_reim fixed z num n (Vw [Dim n s] p) m = Ok None m' /\ complex_filled p s n num (fun i => num (n - i)) m m'.
Proof.
  intros p s n m Hn Hs. set (a := Vw [Dim n s] p). assert (Sa : vshape a = [n]) by reflexivity. assert (Nn : nonneg [n]) by (apply Forall_cons; [lia|constructor]).
  assert (Wa : wf (@citer A a)) by (unfold citer, a, vrank; wfauto). assert (Ha : shape_is (@citer A a) [n]).
  { destruct (view_shape (T:=A) a _ Sa Nn) as (_ & H). exact H. }
  unfold fill_reim, bind.
  destruct (part_filled (2 * p) (2 * s) n 0 (real_part (citer a)) (as_real num (up n)) num m) as (m1 & E1 & F1); auto using up_real, real_wf, up_wf, real_inner, up_inner; try lia.
  - apply wf_map; [discriminate|]. constructor; auto.
  - apply map1_shape; auto.
  - intros i m'. unfold real_part. cbn [element map]. rewrite (in_order_1 _ _ _ _ (VRef (2 * (p + i * s))) m') by apply citer_part. unfold real_op, op1, ret. f_equal. f_equal. ring.
  - rewrite E1. destruct (part_filled (2 * p) (2 * s) n 1 (imag_part (citer a)) (as_real num (down n)) (fun i => num (n - i)) m1) as (m2 & E2 & F2); auto using down_real, real_wf, down_wf, real_inner, down_inner; try lia.
    + apply wf_map; [discriminate|]. constructor; auto.
    + apply map1_shape; auto.
    + intros i m'. unfold imag_part. cbn [element map]. rewrite (in_order_1 _ _ _ _ (VRef (2 * (p + i * s))) m') by apply citer_part. unfold imag_op, op1, ret. f_equal. f_equal. ring.
    + exists m2. split; auto. rewrite Z.add_0_r in F1. apply (both_filled _ _ _ _ _ _ m1); auto.
Qed.

Theorem C135_collapse : forall w p s n m, 0 < w -> 0 <= n -> s <> 0 ->
  exists m', fill_collapse fixed z num w n (Vw [Dim n s] p) m = Ok None m' /\ complex_filled p s n num (fun i => num (n - i)) m m'.
Proof.
  intros w p s n m Hw Hn Hs. unfold fill_collapse.
  assert (Ec : collapse_real w (Vw [Dim n s] p) = Good (Vw [Dim n (s * 2); Dim 2 1] (2 * p))).
  { unfold collapse_real, collapse. cbn [tdv tsize vsize length Nat.ltb Nat.leb Nat.sub firstn collapse_sup vdv vcp map app len step]. rewrite Z.quot_mul by lia. rewrite Z.eqb_refl. cbn [negb].
    destruct (Z.geb_spec (2 * w) 1); [|lia]. reflexivity. }
  rewrite Ec. cbn [onres]. rewrite (col_at (fun x _ => x) (fun x _ => x) (num 0)) by (cbn [len]; lia). cbn [onres step]. assert (Nn : nonneg [n]) by (apply Forall_cons; [lia|constructor]). unfold bind.
  assert (Ev : forall q i (m' : mem A), element (viter (Vw [Dim n (s * 2)] q)) [i] m' = Ok (VRef (q + i * (s * 2))) m').
  { intros. unfold viter. cbn [vdv vcp element]. unfold vrank. cbn [vdv length firstn place step]. do 3 f_equal. lia. }
  destruct (view_shape (T:=A) (Vw [Dim n (s * 2)] (2 * p + 0 * 1)) [n] eq_refl Nn) as (W0 & S0). destruct (view_shape (T:=A) (Vw [Dim n (s * 2)] (2 * p + 1 * 1)) [n] eq_refl Nn) as (W1 & S1).
  destruct (part_filled (2 * p) (2 * s) n 0 (viter (Vw [Dim n (s * 2)] (2 * p + 0 * 1))) (as_real num (up n)) num m) as (m1 & E1 & F1); auto using up_real, real_wf, up_wf, real_inner, up_inner; try lia.
  - intros. rewrite Ev. f_equal. f_equal. ring.
  - rewrite E1. rewrite (col_at (fun x _ => x) (fun x _ => x) (num 0)) by (cbn [len]; lia). cbn [onres step].
    destruct (part_filled (2 * p) (2 * s) n 1 (viter (Vw [Dim n (s * 2)] (2 * p + 1 * 1))) (as_real num (down n)) (fun i => num (n - i)) m1) as (m2 & E2 & F2); auto using down_real, real_wf, down_wf, real_inner, down_inner; try lia.
    + intros. rewrite Ev. f_equal. f_equal. ring.
    + exists m2. split; auto. rewrite Z.add_0_r in F1. apply (both_filled _ _ _ _ _ _ m1); auto.
Qed.

Theorem C135_raw : forall p n m, 0 <= n ->
  exists m', fill_raw num n (Vw [Dim n 1] p) m = Ok None m' /\ complex_filled p 1 n num (fun i => num (n - i)) m m'.
Proof.
  intros p n m Hn. unfold fill_raw. cbn [vcp].
  apply (loop_spec (fun x _ => x) (fun x _ => x) (num 0) _ (fun k m' => complex_filled p 1 k num (fun i => num (n - i)) m m')); auto.
  - split; [intros; lia|auto].
  - intros i m1 Hi (V & O). eexists. split; [reflexivity|]. unfold wr. split.
    + intros j Hj. destruct (Z.eq_dec j i) as [->|Ne].
      * replace (2 * (p + i * 1)) with (2 * p + 2 * i) by ring. rewrite !Z.eqb_refl. destruct (Z.eqb_spec (2 * p + 2 * i) (2 * p + 2 * i + 1)); [lia|auto].
      * destruct (V j) as (V1 & V2); [lia|]. repeat (match goal with |- context [?x =? ?y] => destruct (Z.eqb_spec x y); [lia|] end). auto.
    + intros q Hq. destruct (Hq i) as (H1 & H2); [lia|]. repeat (match goal with |- context [?x =? ?y] => destruct (Z.eqb_spec x y); [lia|] end). apply O. intros j Hj. apply Hq. lia.
Qed.
End Real.

Section Complex.
Context {A : Type}.
Variables (fixed : bool) (z : list zt) (num : Z -> A) (zero : A) (add : A -> A -> A).
Hypothesis Hz : zclean z.
Notation C := (A * A)%type.

Lemma whole_filled : forall p s n (e : expr (val C) (mem C)) x y mc m, 0 <= n -> s <> 0 -> wf e -> inner (T:=C) e [n] -> (forall i m', element e [i] m' = Ok (VT (x i, y i)) m') -> parts mc m ->
  exists mc' m', assign fixed z (fun _ v => v) (viter (Vw [Dim n s] p)) e mc = Ok None mc' /\ parts mc' m' /\ complex_filled p s n x y m m'.
Proof.
  intros p s n e x y mc m Hn Hs We Ne He Hp. assert (Nn : nonneg [n]) by (apply Forall_cons; [lia|constructor]).
  destruct (view_shape (T:=C) (Vw [Dim n s] p) [n] eq_refl Nn) as (Wa & Sa).
  destruct (part_filled (A:=C) fixed z (fun i => (num i, zero)) Hz p s n 0 (viter (Vw [Dim n s] p)) e (fun i => (x i, y i)) mc) as (mc' & E & V & O); auto.
  { intros. unfold viter. cbn [vdv vcp element]. unfold vrank. cbn [vdv length firstn place step]. f_equal. f_equal. ring. }
  rewrite Z.add_0_r in V, O. exists mc', (fun q => if Z.even q then fst (mc' (q / 2)) else snd (mc' (q / 2))). split; [exact E|].
  assert (Pe : parts mc' (fun q => if Z.even q then fst (mc' (q / 2)) else snd (mc' (q / 2)))).
  { intros q. rewrite Z.even_add, Z.even_mul. cbn [Z.even orb eqb]. replace (2 * q) with (q * 2) by ring. rewrite Z.div_mul by lia. rewrite Z.div_add_l by lia. replace (q + 1 / 2) with q by (change (1 / 2) with 0; lia). auto. }
  split; [exact Pe|]. split.
  - intros i Hi. destruct (Pe (p + i * s)) as (-> & ->). rewrite V by auto. auto.
  - intros q Hq. assert (O' : mc' (q / 2) = mc (q / 2)).
    { apply O. intros i Hi Eq. destruct (Hq i Hi). pose proof (Z.div_mod q 2). pose proof (Z.mod_pos_bound q 2). lia. }
    rewrite O'. destruct (Hp (q / 2)) as (P1 & P2). pose proof (Z.div_mod q 2 ltac:(lia)) as Dq. rewrite (Zmod_even q) in Dq. destruct (Z.even q).
    + rewrite <- P1. f_equal. lia.
    + rewrite <- P2. f_equal. lia.
Qed.

Theorem C135_pack : forall p s n mc m, 0 <= n -> s <> 0 -> parts mc m ->
  exists mc' m', fill_pack fixed z num n (Vw [Dim n s] p) mc = Ok None mc' /\ parts mc' m' /\ complex_filled p s n num (fun i => num (n - i)) m m'.
Proof.
  intros p s n mc m Hn Hs Hp. apply whole_filled; auto.
  - apply wf_map; [discriminate|]. constructor; [apply up_wf; auto|]. constructor; [apply down_wf; auto|constructor].
  - apply inner_map. constructor; [apply up_inner|]. constructor; [apply down_inner|constructor].
  - intros i m'. unfold pack. cbn [element map]. rewrite (in_order_2 _ _ _ _ _ (VI i) m' (VI (n - i)) m'); [reflexivity|apply up_element|apply down_element].
Qed.
Theorem C135_xi : forall p s n mc m, 0 <= n -> s <> 0 -> (forall x, add zero x = x) -> parts mc m ->
  exists mc' m', fill_xi fixed z num zero add n (Vw [Dim n s] p) mc = Ok None mc' /\ parts mc' m' /\ complex_filled p s n num (fun i => num (n - i)) m m'.
Proof.
  intros p s n mc m Hn Hs Hadd Hp. apply whole_filled; auto.
  - apply wf_map; [discriminate|]. constructor; [apply up_wf; auto|]. constructor; [|constructor]. apply wf_map; [discriminate|]. constructor; [apply down_wf; auto|constructor].
  - apply inner_map. apply Forall_cons; [apply up_inner|]. apply Forall_cons; [|constructor]. apply inner_map. apply Forall_cons; [apply down_inner|constructor].
  - intros i m'. unfold plus_real. cbn [element map].
    rewrite (in_order_2 _ _ _ _ _ (VI i) m' (VT (zero, num (n - i))) m'); [|apply up_element|].
    + unfold op2, bind, rd, ret. cbn [fst snd]. rewrite Hadd. reflexivity.
    + unfold xi. cbn [element map]. rewrite (in_order_1 _ _ _ _ (VI (n - i)) m') by apply down_element. reflexivity.
Qed.
End Complex.

(* With these all the ways leave the same memory. *)
Theorem C135_same : forall A p s n (x y : Z -> A) m m1 m2, complex_filled p s n x y m m1 -> complex_filled p s n x y m m2 -> forall q, m1 q = m2 q.
Proof.
  intros A p s n x y m m1 m2 (V1 & O1) (V2 & O2) q.
  assert (D : (exists i, 0 <= i < n /\ (q = 2 * (p + i * s) \/ q = 2 * (p + i * s) + 1)) \/ forall i, 0 <= i < n -> q <> 2 * (p + i * s) /\ q <> 2 * (p + i * s) + 1).
  { destruct (existsb (fun i => (q =? 2 * (p + i * s)) || (q =? 2 * (p + i * s) + 1)) (zrange n)) eqn:E.
    - left. apply existsb_exists in E as (i & Hi & H). apply P_Mat.in_zrange in Hi. exists i. split; [lia|]. apply orb_true_iff in H. lia.
    - right. intros i Hi. assert (In i (zrange n)) by (apply P_Mat.in_zrange; auto). destruct (Z.eqb_spec q (2 * (p + i * s))) as [e|e]; [|destruct (Z.eqb_spec q (2 * (p + i * s) + 1)) as [e'|e']; [|auto]].
      + exfalso. assert (T : existsb (fun i => (q =? 2 * (p + i * s)) || (q =? 2 * (p + i * s) + 1)) (zrange n) = true); [|congruence]. apply existsb_exists. exists i. split; auto. apply orb_true_iff. left. lia.
      + exfalso. assert (T : existsb (fun i => (q =? 2 * (p + i * s)) || (q =? 2 * (p + i * s) + 1)) (zrange n) = true); [|congruence]. apply existsb_exists. exists i. split; auto. apply orb_true_iff. right. lia. }
  destruct D as [(i & Hi & [->| ->])|D].
  - destruct (V1 i Hi) as (-> & _), (V2 i Hi) as (-> & _). reflexivity.
  - destruct (V1 i Hi) as (_ & ->), (V2 i Hi) as (_ & ->). reflexivity.
  - rewrite O1, O2; auto.
Qed.

(* 3 elements at 1, 2, 3 *)
Example ex_pack : let a := Vw [Dim 3 1] 1 in
  map (fun f => match f (fun q => q) with Ok _ m' => map m' (zrange 9) | _ => [] end) [fill_raw (fun i => 10 * i) 3 a; fill_reim false z_init (fun i => 10 * i) 3 a; fill_collapse true z_init (fun i => 10 * i) 8 3 a] = repeat [0; 1; 0; 30; 10; 20; 20; 10; 8] 3 /\
  map (fun f => match f (fun q => (2 * q, 2 * q + 1)) with Ok _ m' => map m' (zrange 5) | _ => [] end) [fill_pack false z_init (fun i => 10 * i) 3 a; fill_xi true z_init (fun i => 10 * i) 0 Z.add 3 a] = repeat [(0, 1); (0, 30); (10, 20); (20, 10); (8, 9)] 2.
Proof. split; vm_compute; reflexivity. Qed.

Print Assumptions C135_reim. Print Assumptions C135_collapse. Print Assumptions C135_raw. Print Assumptions C135_pack. Print Assumptions C135_xi. Print Assumptions C135_same.
