(* Lemmas on the rounding of double, for P_Fma.v *)
From Coq Require Import ZArith Reals List Lia Lra Bool.
From Flocq Require Import Core Relative Plus_error BinarySingleNaN.
From Verif Require Import M_Fma Spec_Float.
Import ListNotations.
Open Scope R_scope.

Definition rnd (x : R) : R := round radix2 (SpecFloat.fexp 53 1024) ZnearestE x.

Lemma pow_bpow : forall n, 2 ^ n = bpow radix2 (Z.of_nat n).
Proof. intros n. rewrite <- (IZR_Zpower radix2) by lia. rewrite pow_IZR. reflexivity. Qed.
Lemma huge_bpow : huge = bpow radix2 1024.
Proof. apply (pow_bpow 1024). Qed.
Lemma u_eq : u = / 2 * bpow radix2 (- 53 + 1).
Proof.
  unfold u. rewrite (pow_bpow 53), <- bpow_opp. change (/ 2) with (bpow radix2 (-1)). rewrite <- bpow_plus. reflexivity.
Qed.
Lemma tiny_eq : tiny = / 2 * bpow radix2 (3 - 1024 - 53).
Proof.
  unfold tiny. rewrite (pow_bpow 1075), <- bpow_opp. change (/ 2) with (bpow radix2 (-1)). rewrite <- bpow_plus. reflexivity.
Qed.
Lemma u_pos : 0 < u.
Proof. unfold u. apply Rinv_0_lt_compat, pow_lt. lra. Qed.
Lemma tiny_pos : 0 < tiny.
Proof. unfold tiny. apply Rinv_0_lt_compat, pow_lt. lra. Qed.
Global Opaque u tiny huge.

Lemma rnd_err : forall x, exists e h, Rabs e <= u /\ Rabs h <= tiny /\ rnd x = x * (1 + e) + h.
Proof.
  intros x. destruct (error_N_FLT radix2 (3 - 1024 - 53) 53 eq_refl (fun x => negb (Z.even x)) x) as (e & h & He & Hh & _ & E).
  exists e, h. rewrite u_eq, tiny_eq. auto.
Qed.
Lemma rnd_sum : forall x y : double, exists e, Rabs e <= u /\ rnd (B2R x + B2R y) = (B2R x + B2R y) * (1 + e).
Proof.
  intros x y. destruct (@FLT_plus_error_N_ex radix2 (3 - 1024 - 53) 53 eq_refl (fun x => negb (Z.even x)) (B2R x) (B2R y)) as (e & He & E).
  - apply (generic_format_B2R 53 1024 x).
  - apply (generic_format_B2R 53 1024 y).
  - exists e. split; [|exact E]. eapply Rle_trans; [exact He|]. replace u with (u_ro radix2 53) by (symmetry; exact u_eq). pose proof (u_ro_pos radix2 53) as P.
    apply (Rmult_le_reg_r (1 + u_ro radix2 53)); [lra|]. unfold Rdiv. rewrite Rmult_assoc, Rinv_l by lra. pose proof (Rmult_le_pos _ _ P P). rewrite Rmult_plus_distr_l. lra.
Qed.

(* the operations, if the result isn't too large *)
Definition fin (x : double) : Prop := is_finite x = true.
Lemma add_fin : forall x y, fin x -> fin y -> Rabs (rnd (B2R x + B2R y)) < huge -> fin (add_d x y) /\ B2R (add_d x y) = rnd (B2R x + B2R y).
Proof.
  intros x y Fx Fy H. rewrite huge_bpow in H. pose proof (Bplus_correct 53 1024 eq_refl eq_refl mode_NE x y Fx Fy) as C.
  change (round_mode mode_NE) with ZnearestE in C. fold (rnd (B2R x + B2R y)) in C. rewrite (Rlt_bool_true _ _ H) in C. destruct C as (C1 & C2 & _). split; auto.
Qed.
Lemma mul_fin : forall x y, fin x -> fin y -> Rabs (rnd (B2R x * B2R y)) < huge -> fin (mul_d x y) /\ B2R (mul_d x y) = rnd (B2R x * B2R y).
Proof.
  intros x y Fx Fy H. rewrite huge_bpow in H. pose proof (Bmult_correct 53 1024 eq_refl eq_refl mode_NE x y) as C.
  change (round_mode mode_NE) with ZnearestE in C. fold (rnd (B2R x * B2R y)) in C. rewrite (Rlt_bool_true _ _ H) in C. destruct C as (C1 & C2 & _).
  rewrite Fx, Fy in C2. split; auto.
Qed.
Lemma fma_fin : forall x y c, fin x -> fin y -> fin c -> Rabs (rnd (B2R x * B2R y + B2R c)) < huge -> fin (fma_d x y c) /\ B2R (fma_d x y c) = rnd (B2R x * B2R y + B2R c).
Proof.
  intros x y c Fx Fy Fc H. rewrite huge_bpow in H. pose proof (Bfma_correct 53 1024 eq_refl eq_refl mode_NE x y c Fx Fy Fc) as C. cbv zeta in C.
  change (round_mode mode_NE) with ZnearestE in C. fold (rnd (B2R x * B2R y + B2R c)) in C. rewrite (Rlt_bool_true _ _ H) in C. destruct C as (C1 & C2 & _). split; auto.
Qed.
Lemma rnd_B2R : forall x : double, rnd (B2R x) = B2R x.
Proof. intros x. apply round_generic; [apply valid_rnd_N|]. apply (generic_format_B2R 53 1024 x). Qed.
Lemma B2R_huge : forall x : double, Rabs (B2R x) < huge.
Proof. intros x. rewrite huge_bpow. apply abs_B2R_lt_emax. Qed.
Lemma zero_fin : fin zero_d /\ B2R zero_d = 0.
Proof. split; reflexivity. Qed.
(* integers up to 2^53 are double *)
Lemma rnd_int : forall k, (Z.abs k <= 2 ^ 53)%Z -> rnd (IZR k) = IZR k.
Proof.
  intros k H. apply round_generic; [apply valid_rnd_N|]. apply (generic_format_FLT radix2 (3 - 1024 - 53) 53).
  destruct (Z.eq_dec (Z.abs k) (2 ^ 53)) as [E|E].
  - apply (FLT_spec _ _ _ _ (Float radix2 (Z.sgn k) 53)); cbn [Fnum Fexp]; [|change (Zpower radix2 53) with (2 ^ 53)%Z; lia|lia].
    unfold F2R. cbn [Fnum Fexp]. rewrite <- IZR_Zpower by lia. rewrite <- mult_IZR. f_equal. change (Zpower radix2 53) with (2 ^ 53)%Z. lia.
  - apply (FLT_spec _ _ _ _ (Float radix2 k 0)); cbn [Fnum Fexp]; [|change (Zpower radix2 53) with (2 ^ 53)%Z; lia|lia].
    unfold F2R. cbn [Fnum Fexp bpow]. lra.
Qed.
Lemma int_huge : forall k, (Z.abs k <= 2 ^ 53)%Z -> Rabs (IZR k) < huge.
Proof.
  intros k H. rewrite huge_bpow, <- abs_IZR, <- IZR_Zpower by lia. apply IZR_lt. eapply Z.le_lt_trans; [exact H|]. reflexivity.
Qed.

(* ---- many roundings ---- *)
Lemma total_nonneg : forall l, (forall x, In x l -> 0 <= x) -> 0 <= total l.
Proof. induction l as [|a l IH]; intros H; cbn [total fold_right]; [lra|]. pose proof (H a (or_introl eq_refl)). pose proof (IH (fun x h => H x (or_intror h))) as Q. unfold total in Q. lra. Qed.
Lemma abs_total : forall {A} (f : A -> R) l, 0 <= total (map (fun a => Rabs (f a)) l).
Proof. intros. apply total_nonneg. intros x H. apply in_map_iff in H. destruct H as (y & <- & _). apply Rabs_pos. Qed.
Lemma grow_ge : forall n, 1 <= (1 + u) ^ n.
Proof. intros. apply pow_R1_Rle. pose proof u_pos. lra. Qed.

(* c becomes f a c for each a: each is c + t a but for a rounding with relative error u and absolute error h *)
Lemma many : forall {A} (f : double -> A -> double) (t : A -> R) (h : R) (l : list A), 0 <= h ->
  (forall a c, In a l -> fin c -> (1 + u) * (Rabs (B2R c) + Rabs (t a)) + h < huge ->
    fin (f c a) /\ exists e d, Rabs e <= u /\ Rabs d <= h /\ B2R (f c a) = (B2R c + t a) * (1 + e) + d) ->
  forall c, fin c -> let S := Rabs (B2R c) + total (map (fun a => Rabs (t a)) l) in let n := length l in
  (1 + u) ^ n * (S + INR n * h) < huge ->
  fin (fold_left f l c) /\ Rabs (B2R (fold_left f l c) - (B2R c + total (map t l))) <= ((1 + u) ^ n - 1) * S + (1 + u) ^ n * (INR n * h).
Proof.
  intros A f t h l Hh. induction l as [|a l IH]; intros Hf c Fc S n Hs.
  - subst n S. cbn in *. split; auto. rewrite Rplus_0_r, Rminus_diag_eq, Rabs_R0 by auto. lra.
  - subst n S. cbn [fold_left map length total fold_right] in *. fold (total (map (fun a => Rabs (t a)) l)) in *. fold (total (map t l)). set (W := total (map (fun a => Rabs (t a)) l)) in *.
    set (P := (1 + u) ^ length l). change ((1 + u) ^ S (length l)) with ((1 + u) * P) in *. set (k := INR (length l)). rewrite S_INR in *. fold k in Hs |- *.
    pose proof u_pos as U. pose proof (grow_ge (length l)) as P1. fold P in P1. assert (W0 : 0 <= W) by apply abs_total. assert (K0 : 0 <= k) by apply pos_INR.
    set (B := Rabs (B2R c) + Rabs (t a)) in *. assert (B0 : 0 <= B) by (unfold B; pose proof (Rabs_pos (B2R c)); pose proof (Rabs_pos (t a)); lra).
    replace (Rabs (B2R c) + (Rabs (t a) + W)) with (B + W) in * by (unfold B; lra).
    assert (UB : 0 <= u * B) by (apply Rmult_le_pos; lra). assert (UR : 0 <= u * W) by (apply Rmult_le_pos; lra). assert (KH : 0 <= k * h) by (apply Rmult_le_pos; lra).
    destruct (Hf a c) as (F1 & e & d & He & Hd & E); [left; auto|auto| |].
    { fold B. eapply Rle_lt_trans; [|exact Hs]. rewrite (Rmult_comm (1 + u) P), Rmult_assoc. 
      apply (Rle_trans _ (1 * ((1 + u) * (B + W + (k + 1) * h)))).
      - assert (0 <= u * ((k + 1) * h)) by (apply Rmult_le_pos; lra). lra.
      - apply Rmult_le_compat_r; [|lra]. assert (0 <= u * ((k + 1) * h)) by (apply Rmult_le_pos; lra). lra. }
    set (c1 := f c a) in *.
    assert (Ct : Rabs (B2R c + t a) <= B) by (unfold B; apply Rabs_triang).
    assert (D1 : Rabs (B2R c1 - (B2R c + t a)) <= u * B + h).
    { replace (B2R c1 - (B2R c + t a)) with ((B2R c + t a) * e + d) by lra. eapply Rle_trans; [apply Rabs_triang|]. rewrite Rabs_mult.
      pose proof (Rmult_le_compat _ _ _ _ (Rabs_pos (B2R c + t a)) (Rabs_pos e) Ct He). lra. }
    assert (C1 : Rabs (B2R c1) <= (1 + u) * B + h).
    { replace (B2R c1) with ((B2R c + t a) + (B2R c1 - (B2R c + t a))) by lra. eapply Rle_trans; [apply Rabs_triang|]. lra. }
    assert (UK : 0 <= u * (k * h)) by (apply Rmult_le_pos; lra). assert (UH : 0 <= u * h) by (apply Rmult_le_pos; lra).
    destruct (IH (fun a' c' Hin => Hf a' c' (or_intror Hin)) c1 F1) as (G1 & G2).
    { fold W P k. eapply Rle_lt_trans; [|exact Hs]. rewrite (Rmult_comm (1 + u) P), Rmult_assoc. apply Rmult_le_compat_l; lra. }
    split; auto. fold W P k in G2.
    replace (B2R (fold_left f l c1) - (B2R c + (t a + total (map t l)))) with ((B2R (fold_left f l c1) - (B2R c1 + total (map t l))) + (B2R c1 - (B2R c + t a))) by lra.
    eapply Rle_trans; [apply Rabs_triang|]. eapply Rle_trans; [apply Rplus_le_compat; [exact G2|exact D1]|].
    apply (Rle_trans _ ((P - 1) * ((1 + u) * B + h + W) + P * (k * h) + (u * B + h))).
    + apply Rplus_le_compat_r, Rplus_le_compat_r, Rmult_le_compat_l; lra.
    + assert (0 <= P * u * W) by (repeat apply Rmult_le_pos; lra). assert (0 <= P * u * (k * h)) by (repeat apply Rmult_le_pos; lra). assert (0 <= P * u * h) by (repeat apply Rmult_le_pos; lra). lra.
Qed.

(* the usual bound of the factor *)
Lemma grow_gamma : forall n, (1 + u) ^ n * (1 - INR n * u) <= 1.
Proof.
  pose proof u_pos as U. induction n as [|n IH]; [cbn; lra|]. change ((1 + u) ^ S n) with ((1 + u) * (1 + u) ^ n). rewrite S_INR. eapply Rle_trans; [|exact IH].
  replace ((1 + u) * (1 + u) ^ n * (1 - (INR n + 1) * u)) with ((1 + u) ^ n * ((1 + u) * (1 - (INR n + 1) * u))) by lra. pose proof (grow_ge n). apply Rmult_le_compat_l; [lra|].
  assert (0 <= (INR n + 1) * u * u) by (repeat apply Rmult_le_pos; try lra; pose proof (pos_INR n); lra). lra.
Qed.
