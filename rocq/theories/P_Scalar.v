(* Properties of complex helpers and dual numbers: C44, C45. *)
From Coq Require Import Reals Lra Lia ZArith Psatz Bool.
From Verif Require Import M_Scalar Spec_Scalar.
Open Scope R_scope.

(* ---- C44 ---- *)
Lemma cplx_eq : forall a b, real a = real b -> imag a = imag b -> a = b.
Proof. intros [] []; cbn; intros; subst; reflexivity. Qed.
Ltac cx := intros; apply cplx_eq; cbn; unfold fma_r, sqrm_c, sqr_r; cbn; ring.
Theorem C44_fma : forall a b c, fma_c a b c = cadd (cmul a b) c.
Proof. cx. Qed.
Theorem C44_mul_conj : forall a b, mul_conj a b = cmul (conj a) b.
Proof. cx. Qed.
Theorem C44_fma_conj : forall a b c, fma_conj a b c = cadd (cmul (conj a) b) c.
Proof. cx. Qed.
Theorem C44_sqrm : forall a b, inject (sqrm_c a) = cmul a (conj a) /\ sqrm_cc a b = sqrm_c (csub a b) /\ sqrm_c (inject (real a)) = sqrm_r (real a) /\ (forall x y, sqrm_rr x y = sqrm_cc (inject x) (inject y)) /\ forall c, fma_sqrm a c = sqrm_c a + c.
Proof. intros a b. split; [cx|]. split; [reflexivity|]. split; [|split]; intros; unfold fma_sqrm, sqrm_r, sqrm_rr, sqrm_cc, sqrm_c, fma_r, sqr_r; cbn; ring. Qed.
Theorem C44_xi : forall a x, xi_c a = cmul i a /\ xi_r x = cmul i (inject x).
Proof. split; cx. Qed.
Lemma sqrt_sq : forall x, sqrt (x * x) = Rabs x.
Proof. intros x. rewrite <- sqrt_Rsqr_abs. reflexivity. Qed.
Theorem C44_norm2 : forall a b, norm2_c a * norm2_c a = sqrm_c a /\ norm2_cc a b = norm2_c (csub a b) /\ (forall x, norm2_c (inject x) = norm2_r x) /\ forall x y, norm2_rr x y = norm2_r (x - y).
Proof.
  intros a b. split; [apply sqrt_sqrt; unfold sqrm_c, sqr_r; nra|]. split; [reflexivity|]. split; [|reflexivity].
  intros x. unfold norm2_c, sqrm_c, sqr_r, inject, norm2_r. cbn. replace (x * x + 0 * 0) with (x * x) by ring. apply sqrt_sq.
Qed.
Lemma squares : forall x y, 0 <= x * x + y * y.
Proof. intros x y. pose proof (Rle_0_sqr x). pose proof (Rle_0_sqr y). unfold Rsqr in *. lra. Qed.
(* distance *)
Lemma triangle : forall a b, norm2_cc a b <= abs_c a + abs_c b.
Proof.
  intros [x y] [u v]. unfold norm2_cc, sqrm_cc, abs_c, sqr_r. cbn. set (P := x * x + y * y). set (Q := u * u + v * v).
  assert (HP : 0 <= P) by apply squares. assert (HQ : 0 <= Q) by apply squares.
  pose proof (sqrt_pos P). pose proof (sqrt_pos Q). pose proof (sqrt_sqrt P HP). pose proof (sqrt_sqrt Q HQ).
  apply Rsqr_incr_0_var; [|lra]. unfold Rsqr. rewrite sqrt_sqrt by apply squares.
  assert (CS : - (x * u + y * v) <= sqrt P * sqrt Q).
  { rewrite <- sqrt_mult by auto. apply Rle_trans with (Rabs (x * u + y * v)); [pose proof (Rle_abs (- (x * u + y * v))) as L; rewrite Rabs_Ropp in L; exact L|].
    rewrite <- sqrt_sq. apply sqrt_le_1; [apply Rle_0_sqr|apply Rmult_le_pos; auto|].
    replace (P * Q) with ((x * u + y * v) * (x * u + y * v) + Rsqr (x * v - y * u)) by (unfold P, Q, Rsqr; ring). pose proof (Rle_0_sqr (x * v - y * u)). lra. }
  replace ((sqrt P + sqrt Q) * (sqrt P + sqrt Q)) with (P + Q + 2 * (sqrt P * sqrt Q)) by (rewrite <- H1, <- H2 at 1; ring).
  replace ((x - u) * (x - u) + (y - v) * (y - v)) with (P + Q - 2 * (x * u + y * v)) by (unfold P, Q; ring). lra.
Qed.
Lemma abs_c_pos : forall a, 0 <= abs_c a.
Proof. intros. apply sqrt_pos. Qed.
Lemma abs_c_0 : forall a, abs_c a = 0 -> a = C 0 0.
Proof. intros [x y] H. unfold abs_c in H. cbn in H. apply sqrt_eq_0 in H; [|apply squares]. apply Rplus_sqr_eq_0 in H as (? & ?). apply cplx_eq; cbn; lra. Qed.
Lemma norm2_0 : forall a b, norm2_cc a b = 0 <-> a = b.
Proof.
  intros [x y] [u v]. unfold norm2_cc, sqrm_cc, sqr_r. cbn. split; intros H.
  - apply sqrt_eq_0 in H; [|apply squares]. apply Rplus_sqr_eq_0 in H as (? & ?). apply cplx_eq; cbn; lra.
  - injection H as -> ->. replace ((u - u) * (u - u) + (v - v) * (v - v)) with 0 by ring. apply sqrt_0.
Qed.
Lemma norm2_sym : forall a b, norm2_cc a b = norm2_cc b a.
Proof. intros a b. unfold norm2_cc, sqrm_cc, sqr_r. f_equal. ring. Qed.
Lemma ratio : forall n d, 0 <= n -> n <= d -> d <> 0 -> 0 <= 2 * n / d <= 2 /\ (2 * n / d = 0 <-> n = 0).
Proof.
  intros n d H1 H2 H3. assert (0 < d) by lra. assert (E : 2 * n / d * d = 2 * n) by (field; auto). assert (0 <= / d) by (left; apply Rinv_0_lt_compat; auto). split; [split|split].
  - unfold Rdiv. apply Rmult_le_pos; lra.
  - apply Rmult_le_reg_r with d; auto. rewrite E. lra.
  - intros Z. rewrite Z in E. lra.
  - intros ->. unfold Rdiv. ring.
Qed.
Theorem C44_rel_error : forall a b, rel_error_c a b = rel_error_c b a /\ 0 <= rel_error_c a b <= 2 /\ (rel_error_c a b = 0 <-> a = b).
Proof.
  intros a b. pose proof (abs_c_pos a). pose proof (abs_c_pos b). unfold rel_error_c. cbv zeta. rewrite (Rplus_comm (abs_c b)), (norm2_sym b). split; [reflexivity|].
  destruct (Req_EM_T _ 0) as [E|E].
  - split; [lra|]. split; auto. intros _. rewrite (abs_c_0 a), (abs_c_0 b) by lra. reflexivity.
  - rewrite <- norm2_0. apply ratio; auto using triangle. apply sqrt_pos.
Qed.
Theorem C44_rel_error_r : forall a b, rel_error_r a b = rel_error_r b a /\ 0 <= rel_error_r a b <= 2 /\ (rel_error_r a b = 0 <-> a = b).
Proof.
  intros a b. unfold rel_error_r, norm2_rr. cbv zeta. rewrite (Rplus_comm (Rabs b)), (Rabs_minus_sym b a). split; [reflexivity|]. pose proof (Rabs_pos a). pose proof (Rabs_pos b).
  destruct (Req_EM_T _ 0) as [E|E].
  - split; [lra|]. split; auto. intros _. assert (Ha : Rabs a = 0) by lra. assert (Hb : Rabs b = 0) by lra. destruct (Req_EM_T a 0) as [->|N]; [|apply Rabs_no_R0 in N; lra]. destruct (Req_EM_T b 0) as [->|N]; [auto|apply Rabs_no_R0 in N; lra].
  - assert (T : Rabs (a - b) <= Rabs a + Rabs b) by (pose proof (Rabs_triang a (- b)) as T; rewrite Rabs_Ropp in T; exact T).
    destruct (ratio _ _ (Rabs_pos (a - b)) T E) as (H1 & H2). split; auto. rewrite H2. split; intros Z; [|subst; rewrite Rminus_diag_eq by auto; apply Rabs_R0].
    destruct (Req_EM_T (a - b) 0) as [Z'|N]; [lra|apply Rabs_no_R0 in N; lra].
Qed.
(* one and only one of isfinite, isinf, isnan *)
Theorem C44_kinds : forall re im, (if isfinite_c re im then 1 else 0) + (if isinf_c re im then 1 else 0) + (if isnan_c re im then 1 else 0) = 1 /\
  (isfinite_c re im = true <-> re = Finite /\ im = Finite) /\ (isnan_c re im = true <-> re = NotANumber \/ im = NotANumber).
Proof. intros [] []; cbn; (split; [ring|]); split; split; intuition congruence. Qed.
Example C44_ex : fma_c (C 1 2) (C 3 4) (C 5 6) = C 0 16 /\ mul_conj (C 1 2) (C 3 4) = C 11 (-2) /\ fma_conj (C 1 2) (C 3 4) (C 5 6) = C 16 4 /\ sqrm_c (C 3 4) = 25 /\ xi_c (C 1 2) = C (-2) 1.
Proof. repeat split; try (apply cplx_eq); cbn; unfold fma_r, sqrm_c, sqr_r; cbn; ring. Qed.

(* ---- C45 ---- *)
Lemma int_part_z : forall n, Int_part (IZR n) = n.
Proof. intros n. destruct (base_Int_part (IZR n)) as (H1 & H2). assert (Int_part (IZR n) - n = 0)%Z; [|lia]. apply one_IZR_lt1. rewrite minus_IZR. lra. Qed.
Lemma power_int : forall x n, power x (IZR n) = powerRZ x n.
Proof. intros x n. unfold power. rewrite int_part_z. destruct (Req_EM_T _ _); [reflexivity|congruence]. Qed.
Lemma power_pos : forall x y, 0 < x -> power x y = Rpower x y.
Proof. intros x y H. unfold power. destruct (Req_EM_T _ _) as [E|E]; [|reflexivity]. rewrite powerRZ_Rpower by auto. rewrite <- E. reflexivity. Qed.
Lemma pow_r_pos : forall x y, 0 < x -> pow_r x y = Some (Rpower x y).
Proof. intros x y H. unfold pow_r. destruct (Rlt_dec 0 x); [reflexivity|lra]. Qed.
Lemma pow_r_int : forall x n, x <> 0 \/ (0 <= n)%Z -> pow_r x (IZR n) = Some (powerRZ x n).
Proof.
  intros x n H. unfold pow_r. rewrite int_part_z. destruct (Rlt_dec 0 x); [rewrite powerRZ_Rpower by auto; reflexivity|]. destruct (Req_EM_T (IZR n) (IZR n)); [|congruence].
  destruct (Req_EM_T x 0) as [E|E]; [|reflexivity]. destruct (Rlt_dec (IZR n) 0) as [L|L]; [|reflexivity]. apply lt_IZR in L. destruct H; [congruence|lia].
Qed.
(* derivative of x^n *)
Lemma derivable_powerRZ : forall x n, x <> 0 \/ (1 <= n)%Z -> derivable_pt_lim (fun y => powerRZ y n) x (IZR n * powerRZ x (n - 1)).
Proof.
  intros x n H. destruct n as [|p|p].
  - cbn [powerRZ]. replace (0 * _) with 0 by ring. apply derivable_pt_lim_const.
  - cbn [powerRZ]. replace (IZR (Zpos p) * powerRZ x (Zpos p - 1)) with (INR (Pos.to_nat p) * x ^ pred (Pos.to_nat p)).
    + apply derivable_pt_lim_pow.
    + rewrite INR_IZR_INZ, positive_nat_Z. f_equal. rewrite pow_powerRZ. f_equal. lia.
  - destruct H as [H|H]; [|lia]. cbn [powerRZ]. set (k := Pos.to_nat p). assert (N : x ^ k <> 0) by (apply pow_nonzero; auto).
    assert (Dn : derivable_pt_lim (fun y => y ^ k) x (INR k * x ^ pred k)) by apply derivable_pt_lim_pow.
    pose proof (derivable_pt_lim_div (fct_cte 1) (fun y => y ^ k) x 0 (INR k * x ^ pred k) (derivable_pt_lim_const 1 x) Dn N) as Q.
    replace (IZR (Zneg p) * powerRZ x (Zneg p - 1)) with ((0 * x ^ k - INR k * x ^ pred k * fct_cte 1 x) / Rsqr (x ^ k)).
    + intros eps He. destruct (Q eps He) as (d & Hd). exists d. intros h Hh Hl. specialize (Hd h Hh Hl). unfold div_fct, fct_cte in Hd. unfold Rdiv in *. rewrite !Rmult_1_l in Hd. exact Hd.
    + unfold fct_cte, Rsqr. replace (Z.neg p - 1)%Z with (Z.opp (Z.of_nat (S k))) by (unfold k; lia). rewrite powerRZ_neg', <- pow_powerRZ.
      replace (IZR (Z.neg p)) with (- INR k) by (rewrite INR_IZR_INZ; unfold k; rewrite positive_nat_Z; rewrite <- opp_IZR; reflexivity).
      assert (Ek : x ^ k = x * x ^ pred k) by (unfold k; destruct (Pos.to_nat p) eqn:Ep; [lia|reflexivity]). assert (N2 : x ^ pred k <> 0) by (apply pow_nonzero; auto).
      cbn [pow]. rewrite Ek. field. auto.
Qed.
Lemma ext_lim : forall f g x d, (forall y, f y = g y) -> derivable_pt_lim f x d -> derivable_pt_lim g x d.
Proof. intros f g x d E H eps He. destruct (H eps He) as (dl & Hd). exists dl. intros h Hh Hl. rewrite <- !E. auto. Qed.
Lemma chain : forall f g x d e, derivable_pt_lim g x d -> derivable_pt_lim f (g x) e -> derivable_pt_lim (fun y => f (g y)) x (e * d).
Proof. intros. apply (derivable_pt_lim_comp g f); auto. Qed.
Lemma inv_lim : forall f x d, derivable_pt_lim f x d -> f x <> 0 -> derivable_pt_lim (fun y => / f y) x (- d * (/ f x * / f x)).
Proof.
  intros f x d H N. pose proof (derivable_pt_lim_div (fct_cte 1) f x 0 d (derivable_pt_lim_const 1 x) H N) as Q. unfold fct_cte, Rsqr in Q.
  replace (- d * (/ f x * / f x)) with ((0 * f x - d * 1) / (f x * f x)) by (field; auto). refine (ext_lim _ _ _ _ _ Q). intros y. unfold div_fct, Rdiv. ring.
Qed.

Lemma div_some : forall x y, y <> 0 -> div x y = Some (x / y).
Proof. intros x y H. unfold div. destruct (Req_EM_T y 0); [contradiction|reflexivity]. Qed.
Lemma inv_some : forall a, re a <> 0 -> inv a = Some (D (/ re a) (- du a * (/ re a * / re a))).
Proof. intros a H. unfold inv. rewrite div_some by auto. cbn. unfold sqr_r. rewrite Rdiv_1_l || unfold Rdiv; rewrite ?Rmult_1_l. reflexivity. Qed.

(* Any program on dual numbers, from a differentiable function of x and its derivative, gives the value of the program and its derivative. *)
Theorem C45_chain_partial : forall p g x g', derivable_pt_lim g x g' -> regular p (g x) ->
  exists d, run p (D (g x) g') = Some (D (value p (g x)) d) /\ derivable_pt_lim (fun y => value p (g y)) x d.
Proof.
  intros p g x g' Hg. induction p; intros Hr; cbn [regular] in Hr; cbn [run value].
  - exists g'. split; auto.
  - exists 0. split; [reflexivity|apply derivable_pt_lim_const].
  - destruct Hr as (R1 & R2). destruct (IHp1 R1) as (d1 & -> & D1). destruct (IHp2 R2) as (d2 & -> & D2). eexists. split; [reflexivity|]. cbn. apply (derivable_pt_lim_plus (fun y => value p1 (g y)) (fun y => value p2 (g y))); auto.
  - destruct Hr as (R1 & R2). destruct (IHp1 R1) as (d1 & -> & D1). destruct (IHp2 R2) as (d2 & -> & D2). eexists. split; [reflexivity|]. cbn. apply (derivable_pt_lim_minus (fun y => value p1 (g y)) (fun y => value p2 (g y))); auto.
  - destruct Hr as (R1 & R2). destruct (IHp1 R1) as (d1 & -> & D1). destruct (IHp2 R2) as (d2 & -> & D2). eexists. split; [reflexivity|]. cbn. rewrite Rplus_comm. apply (derivable_pt_lim_mult (fun y => value p1 (g y)) (fun y => value p2 (g y))); auto.
  - destruct Hr as (R1 & R2 & N). destruct (IHp1 R1) as (d1 & -> & D1). destruct (IHp2 R2) as (d2 & -> & D2). cbn [bind]. unfold quot. rewrite inv_some by auto. cbn. eexists. split; [reflexivity|]. cbn [re du dual1].
    rewrite Rplus_comm. apply (derivable_pt_lim_mult (fun y => value p1 (g y)) (fun y => / value p2 (g y))); auto. apply (inv_lim (fun y => value p2 (g y))); auto.
  - destruct (IHp Hr) as (d1 & -> & D1). eexists. split; [reflexivity|]. cbn. apply (derivable_pt_lim_opp (fun y => value p (g y))); auto.
  - destruct (IHp Hr) as (d1 & -> & D1). eexists. split; [reflexivity|]. cbn. rewrite <- (Rplus_0_r d1). apply (derivable_pt_lim_plus (fun y => value p (g y)) (fct_cte c)); auto. apply derivable_pt_lim_const.
  - destruct (IHp Hr) as (d1 & -> & D1). eexists. split; [cbn; rewrite Rplus_comm; reflexivity|]. cbn. rewrite <- (Rplus_0_r d1). apply (derivable_pt_lim_plus (fun y => value p (g y)) (fct_cte c)); auto. apply derivable_pt_lim_const.
  - destruct (IHp Hr) as (d1 & -> & D1). eexists. split; [reflexivity|]. cbn. rewrite <- (Rminus_0_r d1). apply (derivable_pt_lim_minus (fun y => value p (g y)) (fct_cte c)); auto. apply derivable_pt_lim_const.
  - destruct (IHp Hr) as (d1 & -> & D1). eexists. split; [reflexivity|]. cbn. rewrite <- (Rminus_0_l d1). apply (derivable_pt_lim_minus (fct_cte c) (fun y => value p (g y))); auto. apply derivable_pt_lim_const.
  - destruct (IHp Hr) as (d1 & -> & D1). eexists. split; [reflexivity|]. cbn. rewrite <- (Rplus_0_r (d1 * c)). rewrite <- (Rmult_0_r (value p (g x))). apply (derivable_pt_lim_mult (fun y => value p (g y)) (fct_cte c)); auto. apply derivable_pt_lim_const.
  - destruct (IHp Hr) as (d1 & -> & D1). eexists. split; [cbn; rewrite Rmult_comm; reflexivity|]. cbn. rewrite (Rmult_comm c). rewrite <- (Rplus_0_r (d1 * c)). rewrite <- (Rmult_0_r (value p (g x))). apply (derivable_pt_lim_mult (fun y => value p (g y)) (fct_cte c)); auto. apply derivable_pt_lim_const.
  - destruct Hr as (R1 & N). destruct (IHp R1) as (d1 & -> & D1). cbn [bind]. unfold quot_ds. rewrite inv_some by auto. cbn. eexists. split; [reflexivity|].
    cbn [re du dual1]. replace (value p (g x) * (- 0 * (/ c * / c)) + d1 * / c) with (d1 * / c + value p (g x) * 0) by ring. apply (derivable_pt_lim_mult (fun y => value p (g y)) (fct_cte (/ c))); auto. apply derivable_pt_lim_const.
  - destruct Hr as (R1 & N). destruct (IHp R1) as (d1 & -> & D1). cbn [bind]. unfold quot_sd. rewrite inv_some by auto. cbn. eexists. split; [reflexivity|]. cbn [re du dual1].
    rewrite Rplus_comm. apply (derivable_pt_lim_mult (fct_cte c) (fun y => / value p (g y))); [apply derivable_pt_lim_const|]. apply (inv_lim (fun y => value p (g y))); auto.
  - destruct Hr as (R1 & R2 & R3). destruct (IHp1 R1) as (d1 & -> & D1). destruct (IHp2 R2) as (d2 & -> & D2). destruct (IHp3 R3) as (d3 & -> & D3). eexists. split; [reflexivity|]. cbn. unfold fma_r.
    replace (value p1 (g x) * d2 + (d1 * value p2 (g x) + d3)) with (d1 * value p2 (g x) + value p1 (g x) * d2 + d3) by ring.
    apply (derivable_pt_lim_plus (fun y => value p1 (g y) * value p2 (g y)) (fun y => value p3 (g y))); auto. apply (derivable_pt_lim_mult (fun y => value p1 (g y)) (fun y => value p2 (g y))); auto.
  - destruct (IHp Hr) as (d1 & -> & D1). eexists. split; [reflexivity|]. cbn. rewrite Rplus_comm. apply (derivable_pt_lim_mult (fun y => value p (g y)) (fun y => value p (g y))); auto.
  - destruct Hr as (R1 & N). destruct (IHp R1) as (d1 & -> & D1). cbn [bind]. rewrite inv_some by auto. cbn. eexists. split; [reflexivity|]. apply (inv_lim (fun y => value p (g y))); auto.
  - destruct (IHp Hr) as (d1 & -> & D1). eexists. split; [reflexivity|]. cbn. apply (chain cos (fun y => value p (g y))); auto. apply derivable_pt_lim_cos.
  - destruct (IHp Hr) as (d1 & -> & D1). eexists. split; [reflexivity|]. cbn. apply (chain sin (fun y => value p (g y))); auto. apply derivable_pt_lim_sin.
  - destruct (IHp Hr) as (d1 & -> & D1). eexists. split; [reflexivity|]. cbn. apply (chain cosh (fun y => value p (g y))); auto. apply derivable_pt_lim_cosh.
  - destruct (IHp Hr) as (d1 & -> & D1). eexists. split; [reflexivity|]. cbn. apply (chain sinh (fun y => value p (g y))); auto. apply derivable_pt_lim_sinh.
  - destruct (IHp Hr) as (d1 & -> & D1). eexists. split; [reflexivity|]. cbn. apply (chain exp (fun y => value p (g y))); auto. apply derivable_pt_lim_exp.
  - destruct Hr as (R1 & H). destruct (IHp R1) as (d1 & -> & D1). cbn [bind]. unfold pow_d. cbn [re du]. set (v := value p (g x)) in *.
    assert (G : exists q, pow_r v c = Some (power v c) /\ pow_r v (c - 1) = Some q /\ derivable_pt_lim (fun y => power y c) v (c * q)).
    { destruct (Req_EM_T c (IZR (Int_part c))) as [Ec|Ec].
      - assert (H' : v <> 0 \/ (1 <= Int_part c)%Z) by (destruct H as [H|(n & -> & H)]; [left; lra|rewrite int_part_z; auto]). rewrite Ec. set (n := Int_part c) in *.
        exists (powerRZ v (n - 1)). rewrite power_int, <- minus_IZR. rewrite !pow_r_int by (destruct H'; auto; right; lia). split; auto. split; auto.
        apply (ext_lim (fun y => powerRZ y n)); [intros; symmetry; apply power_int|]. apply derivable_powerRZ; auto.
      - destruct H as [H|(n & -> & H)]; [|rewrite int_part_z in Ec; congruence]. exists (Rpower v (c - 1)). rewrite power_pos, !pow_r_pos by auto. split; auto. split; auto.
        apply (ext_lim (fun y => Rpower y c)); [|apply derivable_pt_lim_power; auto]. intros y. unfold power. destruct (Req_EM_T _ _); [congruence|reflexivity]. }
    destruct G as (q & -> & -> & Dq). cbn. eexists. split; [reflexivity|]. apply (chain (fun y => power y c) (fun y => value p (g y))); auto.
  - destruct Hr as (R1 & N). destruct (IHp R1) as (d1 & -> & D1). cbn [bind]. unfold log_d, log_r. cbn [re du]. destruct (Rlt_dec 0 _); [|contradiction]. rewrite div_some by lra. cbn. eexists. split; [reflexivity|].
    unfold Rdiv. rewrite Rmult_comm. apply (chain ln (fun y => value p (g y))); auto. apply derivable_pt_lim_ln; auto.
  - destruct Hr as (R1 & N). destruct (IHp R1) as (d1 & -> & D1). cbn [bind]. unfold sqrt_d, sqrt_r. cbn [re du]. destruct (Rle_dec 0 _); [|lra]. pose proof (sqrt_lt_R0 _ N). cbn [bind]. rewrite div_some by lra. cbn. eexists. split; [reflexivity|].
    unfold Rdiv. rewrite Rmult_comm. apply (chain sqrt (fun y => value p (g y))); auto. apply derivable_pt_lim_sqrt; auto.
Qed.
(* at a point *)
Corollary C45_derivative : forall p x, regular p x -> exists d, run p (D x 1) = Some (D (value p x) d) /\ derivable_pt_lim (value p) x d.
Proof. intros p x H. apply (C45_chain_partial p (fun y => y) x 1); auto. apply derivable_pt_lim_id. Qed.

(* tan at 0 gives 1/cos(1)^2; the derivative is 1 *)
Theorem C45_tan_refuted : exists d, tan_d (D 0 1) = Some (D (tan 0) d) /\ derivable_pt_lim tan 0 1 /\ d <> 1.
Proof.
  assert (P : 1 < PI / 2) by apply PI2_1. assert (C1 : 0 < cos 1) by (apply cos_gt_0; pose proof PI2_1; lra). assert (S1 : 0 < sin 1) by (apply sin_gt_0; lra).
  exists (1 / (cos 1 * cos 1)). unfold tan_d, tan_r. cbn [re du]. rewrite !div_some by (rewrite ?cos_0; nra). cbn. split; [reflexivity|]. split.
  - pose proof (derivable_pt_lim_div sin cos 0 (cos 0) (- sin 0) (derivable_pt_lim_sin 0) (derivable_pt_lim_cos 0)) as Q. rewrite cos_0, sin_0 in Q. unfold Rsqr in Q.
    replace ((1 * 1 - -0 * 0) / (1 * 1)) with 1 in Q by field. apply Q. lra.
  - intros E. assert (H : cos 1 * cos 1 = 1) by (apply (f_equal (fun z => z * (cos 1 * cos 1))) in E; field_simplify in E; [|lra]; lra).
    pose proof (sin2_cos2 1) as T. unfold Rsqr in T. nra.
Qed.
(* it's right if the derivative is 0 *)
Theorem C45_tan_const : forall x, cos x <> 0 -> tan_d (dual1 x) = Some (dual1 (tan x)).
Proof.
  intros x H. unfold tan_d, tan_r, dual1. cbn [re du]. rewrite div_some by auto. cbn [bind]. rewrite cos_0, div_some by lra. cbn. f_equal. f_equal. unfold Rdiv. ring.
Qed.
(* abs(a) isn't a dual number. If it's used as one then its derivative is 0. *)
Theorem C45_abs_refuted : exists x, derivable_pt_lim Rabs x 1 /\ dual1 (abs_d (D x 1)) = D (Rabs x) 0.
Proof. exists 1. split; [|reflexivity]. apply Rabs_derive_1. lra. Qed.
(* x^0 at 0: the code has 0*pow(0, -1) *)
Theorem C45_pow_refuted : pow_d (D 0 1) 0 = None /\ derivable_pt_lim (fun y => power y 0) 0 0 /\ pow_d (D 1 1) 0 = Some (D 1 0).
Proof.
  unfold pow_d. cbn [re du]. split; [|split].
  - replace (pow_r 0 (0 - 1)) with (@None R); [destruct (pow_r 0 0); reflexivity|]. unfold pow_r. destruct (Rlt_dec 0 0); [lra|]. replace (0 - 1) with (IZR (-1)) by (rewrite <- minus_IZR; reflexivity). rewrite int_part_z.
    destruct (Req_EM_T (IZR (-1)) (IZR (-1))); [|congruence]. destruct (Req_EM_T 0 0); [|congruence]. destruct (Rlt_dec (IZR (-1)) 0); [reflexivity|lra].
  - apply (ext_lim (fct_cte 1)); [|apply derivable_pt_lim_const]. intros y. rewrite (power_int y 0). reflexivity.
  - rewrite !pow_r_pos by lra. cbn. rewrite Rpower_O by lra. f_equal. f_equal. ring.
Qed.
(* x^c at 0. If c > 1 then x^c has derivative 0 at 0, from the right if c isn't an integer, and so it is; if c is between 0 and 1, it has none. *)
Theorem C45_pow_origin : forall c t, (1 < c -> pow_d (D 0 t) c = Some (D 0 0) /\ forall eps, 0 < eps -> exists del, 0 < del /\ forall h, 0 < h < del -> Rabs (power h c / h) < eps) /\ (0 < c < 1 -> pow_d (D 0 t) c = None).
Proof.
  assert (Zi : forall y, 0 < y -> pow_r 0 y = Some 0).
  { intros y Hy. unfold pow_r. destruct (Rlt_dec 0 0); [lra|]. destruct (Req_EM_T 0 0); [|congruence]. destruct (Rlt_dec y 0); [lra|]. destruct (Req_EM_T y (IZR (Int_part y))) as [E|E]; auto. f_equal.
    assert (P : (0 < Int_part y)%Z) by (apply lt_IZR; rewrite <- E; auto). destruct (Int_part y) as [|p|p]; try lia. cbn [powerRZ]. rewrite pow_ne_zero; auto. lia. }
  intros c t. unfold pow_d. cbn [re du]. split.
  - intros Hc. split; [rewrite !Zi by lra; cbn; f_equal; f_equal; ring|]. intros eps He. exists (Rpower eps (/ (c - 1))). split; [apply exp_pos|]. intros h (H1 & H2). rewrite power_pos by auto.
    assert (E : Rpower h c / h = Rpower h (c - 1)) by (replace c with (c - 1 + 1) at 1 by ring; rewrite Rpower_plus, Rpower_1 by auto; field; lra). rewrite E, Rabs_right by (left; apply exp_pos).
    replace eps with (Rpower (Rpower eps (/ (c - 1))) (c - 1)) by (rewrite Rpower_mult, Rinv_l, Rpower_1; auto; lra). unfold Rpower at 1 2. apply exp_increasing. apply Rmult_lt_compat_l; [lra|]. apply ln_increasing; auto.
  - intros Hc. rewrite Zi by lra. cbn [bind]. replace (pow_r 0 (c - 1)) with (@None R); [reflexivity|]. unfold pow_r. destruct (Rlt_dec 0 0); [lra|]. destruct (Req_EM_T 0 0); [|congruence]. destruct (Rlt_dec (c - 1) 0); [|lra]. destruct (Req_EM_T _ _); reflexivity.
Qed.
Example C45_ex : let p := Quot (Mul (Sin Arg) (Pow (AddDS Arg 2) 3)) (Fma (Sqrt Arg) (Log Arg) (Const 5)) in regular p 1 /\ run (Sqr (Sqr Arg)) (D 3 1) = Some (D 81 108).
Proof.
  cbn. split.
  - rewrite ln_1, sqrt_1. repeat split; try lra.
  - unfold sqr_d, mul. cbn [re du]. apply f_equal. f_equal; ring.
Qed.
Print Assumptions C44_fma.
Print Assumptions C44_rel_error.
Print Assumptions C45_chain_partial.
Print Assumptions C45_tan_refuted.
Print Assumptions C45_abs_refuted.
Print Assumptions C45_pow_refuted.
Print Assumptions C45_pow_origin.
