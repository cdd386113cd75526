(* Properties C130, C131: the reductions with fma (RA_FMA), and how far the reductions of double are from the exact values. *)
From Coq Require Import ZArith Reals List Lia Lra Bool.
From Flocq Require Import Core BinarySingleNaN.
From Verif Require Import M_Scalar Spec_Scalar P_Scalar.
From Verif Require Import Spec L_Spec Spec_Ply Spec_Expr M_Base M_Expr M_Ply M_Val Spec_Val L_Expr L_Agree L_Ply L_Stl L_Run L_Val P_Reduce M_View Spec_View L_View P_View M_Slice L_Slice Spec_Slice M_Mat Spec_Mat P_Mat M_Fma Spec_Float L_Float.
Import ListNotations.
Open Scope Z_scope.

(* ---- C130 ---- *)
Lemma then_fold : forall {T J} (f : J -> T -> option T) (g : J -> T -> T) (P : T -> Prop) js c, P c -> (forall j c, In j js -> P c -> f j c = Some (g j c) /\ P (g j c)) ->
  fold_left (fun c j => then_ (f j) c) js (Some c) = Some (fold_left (fun c j => g j c) js c).
Proof.
  induction js as [|j js IH]; intros c Hc H; auto. cbn [fold_left then_]. destruct (H j c (or_introl eq_refl) Hc) as (-> & Hg). apply IH; auto. intros. apply H; auto. right; auto.
Qed.
Lemma dot_fma_fold : forall {T} (fma : T -> T -> T -> option T) zero (a b : expr (val T) (mem T)) s js m x y fixed z, wf a -> wf b -> joint_shape [a; b] s -> row_major s js -> zclean z ->
  reads a s m x -> reads b s m y ->
  dot_fma fixed z fma zero a b m = match fold_left (fun c j => then_ (fma (x j) (y j)) c) js (Some zero) with Some r => Ok r m | None => Undef end.
Proof.
  intros. unfold dot_fma, defined. unfold bind at 1. rewrite (reduce2_spec (option T) fixed z (fun x y => then_ (fma x y)) a b s js m x y) by auto.
  destruct (fold_left _ js (Some zero)); reflexivity.
Qed.
Lemma dot_fma_total : forall {T} (fma : T -> T -> T -> T) zero (a b : expr (val T) (mem T)) s js m x y fixed z, wf a -> wf b -> joint_shape [a; b] s -> row_major s js -> zclean z ->
  reads a s m x -> reads b s m y ->
  dot_fma fixed z (fun x y c => Some (fma x y c)) zero a b m = Ok (fold_left (fun c j => fma (x j) (y j) c) js zero) m.
Proof.
  intros. rewrite (dot_fma_fold _ zero a b s js m x y) by auto. rewrite (then_fold _ (fun j c => fma (x j) (y j) c) (fun _ => True)); auto.
Qed.

(* On real numbers fma makes no difference. *)
Theorem C130_dot_real : forall (a b : expr (val R) (mem R)) s js m x y fixed z, wf a -> wf b -> joint_shape [a; b] s -> row_major s js -> zclean z -> reads a s m x -> reads b s m y ->
  dot_fma fixed z (fun x y c => Some (fma_r x y c)) 0%R a b m = Ok (total (map (fun j => x j * y j)%R js)) m.
Proof.
  intros a b s js m x y fixed z Wa Wb Hs Hj Hz Ha Hb. rewrite (dot_fma_total fma_r 0%R a b s js m x y) by auto. f_equal. clear.
  enough (E : forall c, fold_left (fun c j => fma_r (x j) (y j) c) js c = (c + total (map (fun j => x j * y j)%R js))%R) by (rewrite E; lra).
  induction js as [|j js IH]; intros c; cbn; [lra|]. rewrite IH. unfold fma_r, total. lra.
Qed.
Lemma cadd_assoc : forall p q r, cadd (cadd p q) r = cadd p (cadd q r).
Proof. intros [] [] []. unfold cadd. cbn. f_equal; lra. Qed.
Theorem C130_dot_complex : forall (a b : expr (val cplx) (mem cplx)) s js m x y fixed z, wf a -> wf b -> joint_shape [a; b] s -> row_major s js -> zclean z -> reads a s m x -> reads b s m y ->
  dot_fma fixed z (fun x y c => Some (fma_c x y c)) (C 0 0) a b m = Ok (ctotal (map (fun j => cmul (x j) (y j)) js)) m /\
  cdot_fma fixed z fma_conj (C 0 0) a b m = Ok (ctotal (map (fun j => cmul (conj (x j)) (y j)) js)) m.
Proof.
  intros a b s js m x y fixed z Wa Wb Hs Hj Hz Ha Hb. 
  assert (Sum : forall (f : list Z -> cplx) js c, fold_left (fun c j => cadd (f j) c) js c = cadd c (ctotal (map f js))).
  { clear. intros f. induction js as [|j js IH]; intros c; cbn [fold_left map ctotal fold_right].
    - destruct c. unfold cadd. cbn. f_equal; lra.
    - rewrite IH. fold (ctotal (map f js)). rewrite <- cadd_assoc. f_equal. destruct (f j), c. unfold cadd. cbn. f_equal; lra. }
  assert (Z0 : forall c, cadd (C 0 0) c = c) by (intros []; unfold cadd; cbn; f_equal; lra).
  split.
  - rewrite (dot_fma_total fma_c (C 0 0) a b s js m x y) by auto. f_equal. rewrite <- (Z0 (ctotal _)), <- Sum. clear. generalize (C 0 0). induction js as [|j js IH]; intros c; auto. cbn [fold_left]. rewrite C44_fma. apply IH.
  - unfold cdot_fma. rewrite (reduce2_spec cplx fixed z fma_conj a b s js m x y) by auto. f_equal. rewrite <- (Z0 (ctotal _)), <- Sum. clear. generalize (C 0 0). induction js as [|j js IH]; intros c; auto.
    cbn [fold_left]. replace (fma_conj (x j) (y j) c) with (cadd (cmul (conj (x j)) (y j)) c) by (destruct (x j), (y j), c; unfold fma_conj, cadd, cmul, conj, fma_r; cbn; f_equal; lra). apply IH.
Qed.
Theorem C130_sqrm_complex : forall (a : expr (val cplx) (mem cplx)) s js m x fixed z, wf a -> shape_is a s -> row_major s js -> zclean z -> reads a s m x ->
  reduce_sqrm_fma fixed z fma_sqrm 0%R a m = Ok (total (map (fun j => real (x j) * real (x j) + imag (x j) * imag (x j))%R js)) m.
Proof.
  intros a s js m x fixed z Wa Hs Hj Hz Ha. unfold reduce_sqrm_fma. rewrite (reduce1_spec R fixed z fma_sqrm a s js m x) by auto. f_equal. rewrite <- fold_left_map. clear.
  enough (E : forall c, fold_left (fun c j => fma_sqrm (x j) c) js c = (c + total (map (fun j => real (x j) * real (x j) + imag (x j) * imag (x j))%R js))%R) by (rewrite E; lra).
  induction js as [|j js IH]; intros c; cbn [fold_left map total fold_right]; [lra|]. rewrite IH. unfold fma_sqrm, fma_r, total. lra.
Qed.

(* ---- integers as double ---- *)
Lemma int_add : forall x y k n, is_int x k -> is_int y n -> Z.abs (k + n) <= 2 ^ 53 -> is_int (add_d x y) (k + n).
Proof.
  intros x y k n (Fx & Ex) (Fy & Ey) H. destruct (add_fin x y Fx Fy) as (F & E).
  - rewrite Ex, Ey, <- plus_IZR, rnd_int by auto. apply int_huge; auto.
  - split; auto. rewrite E, Ex, Ey, <- plus_IZR, rnd_int; auto.
Qed.
Lemma int_mul : forall x y k n, is_int x k -> is_int y n -> Z.abs (k * n) <= 2 ^ 53 -> is_int (mul_d x y) (k * n).
Proof.
  intros x y k n (Fx & Ex) (Fy & Ey) H. destruct (mul_fin x y Fx Fy) as (F & E).
  - rewrite Ex, Ey, <- mult_IZR, rnd_int by auto. apply int_huge; auto.
  - split; auto. rewrite E, Ex, Ey, <- mult_IZR, rnd_int; auto.
Qed.
Lemma int_fma : forall x y c k n h, is_int x k -> is_int y n -> is_int c h -> Z.abs (k * n + h) <= 2 ^ 53 -> is_int (fma_d x y c) (k * n + h).
Proof.
  intros x y c k n h (Fx & Ex) (Fy & Ey) (Fc & Ec) H. destruct (fma_fin x y c Fx Fy Fc) as (F & E).
  - rewrite Ex, Ey, Ec, <- mult_IZR, <- plus_IZR, rnd_int by auto. apply int_huge; auto.
  - split; auto. rewrite E, Ex, Ey, Ec, <- mult_IZR, <- plus_IZR, rnd_int; auto.
Qed.
Lemma int_zero : is_int zero_d 0.
Proof. split; reflexivity. Qed.
Lemma abs_ztotal : forall {J} (f : J -> Z) l, 0 <= ztotal (map (fun j => Z.abs (f j)) l).
Proof. induction l; cbn; [lia|]. unfold ztotal in *. lia. Qed.
Lemma ztotal_in : forall {J} (f : J -> Z) l j, In j l -> Z.abs (f j) <= ztotal (map (fun j => Z.abs (f j)) l).
Proof.
  induction l as [|i l IH]; intros j H; [destruct H|]. cbn. fold (ztotal (map (fun j => Z.abs (f j)) l)). pose proof (abs_ztotal f l). destruct H as [->|H]; [lia|]. pose proof (IH j H). lia.
Qed.
(* a value that changes by f j at each step j, of type double *)
Lemma int_fold : forall {J} (g : double -> J -> double) (f : J -> Z) js c k, is_int c k -> 
  (forall c k j, In j js -> is_int c k -> Z.abs (k + f j) <= 2 ^ 53 -> is_int (g c j) (k + f j)) ->
  Z.abs k + ztotal (map (fun j => Z.abs (f j)) js) <= 2 ^ 53 -> is_int (fold_left g js c) (k + ztotal (map f js)).
Proof.
  induction js as [|j js IH]; intros c k Hc Hg H; cbn [fold_left map ztotal fold_right] in *; [rewrite Z.add_0_r; auto|].
  fold (ztotal (map f js)). fold (ztotal (map (fun j => Z.abs (f j)) js)) in H. pose proof (abs_ztotal f js). rewrite Z.add_assoc. apply IH.
  - apply Hg; [left; auto|auto|lia].
  - intros. apply Hg; auto. right; auto.
  - lia.
Qed.

(* conversions *)
Lemma of_int_ok : forall k, Z.abs k <= 2 ^ 53 -> is_int (of_int k) k.
Proof.
  intros k H. pose proof (binary_normalize_correct 53 1024 eq_refl eq_refl mode_NE k 0 false) as Q. cbv zeta in Q.
  replace (F2R {| Fnum := k; Fexp := 0 |} : R) with (IZR k) in Q by (unfold F2R; cbn; lra).
  change (round_mode mode_NE) with ZnearestE in Q. fold (rnd (IZR k)) in Q. rewrite rnd_int in Q by auto. rewrite Rlt_bool_true in Q.
  - destruct Q as (E & F & _). split; auto.
  - rewrite <- huge_bpow. apply int_huge; auto.
Qed.
Lemma to_int_ok : forall x k, is_int x k -> - 2 ^ 63 <= k < 2 ^ 63 -> to_int x = Some k.
Proof.
  intros x k (F & E) H. assert (Tr : Btrunc x = k).
  { apply eq_IZR. rewrite (Btrunc_correct 53 1024 eq_refl), E. apply round_generic; [apply valid_rnd_ZR|]. apply (generic_format_FIX radix2 0). 
    apply (FIX_spec _ _ _ (Float radix2 k 0)); auto. unfold F2R. cbn. lra. }
  unfold to_int. rewrite F, Tr. replace (- 2 ^ 63 <=? k) with true by (symmetry; apply Z.leb_le; lia). replace (k <? 2 ^ 63) with true by (symmetry; apply Z.ltb_lt; lia). auto.
Qed.
Lemma fma_i_ok : forall a b c, Z.abs a <= 2 ^ 53 -> Z.abs b <= 2 ^ 53 -> Z.abs c <= 2 ^ 53 -> Z.abs (a * b + c) <= 2 ^ 53 -> fma_i a b c = Some (a * b + c).
Proof.
  intros a b c Ha Hb Hc H. unfold fma_i. apply to_int_ok; [apply int_fma; auto using of_int_ok|]. lia.
Qed.

(* dot of integers, with fma: the sum of the products if everything is within 2^53 ... *)
Theorem C130_int_partial : forall (a b : expr (val Z) (mem Z)) s js m x y fixed z, wf a -> wf b -> joint_shape [a; b] s -> row_major s js -> zclean z -> reads a s m x -> reads b s m y ->
  (forall j, In j js -> Z.abs (x j) <= 2 ^ 53 /\ Z.abs (y j) <= 2 ^ 53) -> ztotal (map (fun j => Z.abs (x j * y j)) js) <= 2 ^ 53 ->
  dot_fma fixed z fma_i 0 a b m = Ok (ztotal (map (fun j => x j * y j) js)) m.
Proof.
  intros a b s js m x y fixed z Wa Wb Hs Hj Hz Ha Hb Hx Ht. rewrite (dot_fma_fold fma_i 0 a b s js m x y) by auto. clear - Hx Ht.
  enough (E : forall c, Z.abs c + ztotal (map (fun j => Z.abs (x j * y j)) js) <= 2 ^ 53 -> fold_left (fun c j => then_ (fma_i (x j) (y j)) c) js (Some c) = Some (c + ztotal (map (fun j => x j * y j) js))).
  { rewrite E by (cbn; lia). reflexivity. }
  clear Ht. induction js as [|j js IH]; intros c H; cbn [fold_left map ztotal fold_right then_] in *; [f_equal; lia|].
  fold (ztotal (map (fun j => x j * y j) js)). fold (ztotal (map (fun j => Z.abs (x j * y j)) js)) in H. pose proof (abs_ztotal (fun j => x j * y j) js). destruct (Hx j (or_introl eq_refl)).
  rewrite fma_i_ok by lia. rewrite IH; [f_equal; lia| |lia]. intros. apply Hx. right; auto.
Qed.
(* ... but not in general: {2^53+1} . {1} is 2^53, and without fma 2^53+1. Both are integers of 64 bits. *)
Definition big : mem Z := fun p => if p =? 0 then 2 ^ 53 + 1 else 1.
Theorem C130_int_refuted : exists (a b : expr (val Z) (mem Z)) s m x y, wf a /\ wf b /\ joint_shape [a; b] s /\ reads a s m x /\ reads b s m y /\
  forall fixed, dot fixed z_init Z.add Z.mul 0 a b m = Ok (ztotal (map (fun j => x j * y j) (indices s))) m /\
    exists r, dot_fma fixed z_init fma_i 0 a b m = Ok r m /\ r = ztotal (map (fun j => x j * y j) (indices s)) - 1.
Proof.
  set (a := exV [Dim 1 1] 0). set (b := exV [Dim 1 1] 1).
  assert (Wa : wf a) by (unfold a, exV; wfauto). assert (Wb : wf b) by (unfold b, exV; wfauto).
  assert (Ra : reads a [1] big (fun j => big (0 + place [Dim 1 1] (firstn 1 j)))) by (apply (refers_reads _ _ _ (fun j => 0 + place [Dim 1 1] (firstn 1 j))); apply cell_refers).
  assert (Rb : reads b [1] big (fun j => big (1 + place [Dim 1 1] (firstn 1 j)))) by (apply (refers_reads _ _ _ (fun j => 1 + place [Dim 1 1] (firstn 1 j))); apply cell_refers).
  assert (Hs : joint_shape [a; b] [1]).
  { split; [reflexivity|]. intros [|k] Hk; cbn in *; try lia; (split; [lia|]); split; auto. }
  exists a, b, [1], big. do 2 eexists. split; [exact Wa|]. split; [exact Wb|]. split; [exact Hs|]. split; [exact Ra|]. split; [exact Rb|]. intros fixed.
  pose proof (row_major_indices [1]) as Hj. split.
  - erewrite C31_dot; eauto using z_init_clean; reflexivity.
  - erewrite dot_fma_fold; eauto using z_init_clean. eexists. split; vm_compute; reflexivity.
Qed.

(* ---- C131 ---- *)
Open Scope R_scope.

Lemma first_add : forall x, fin x -> fin (add_d zero_d x) /\ B2R (add_d zero_d x) = B2R x.
Proof.
  intros x F. assert (E : B2R zero_d + B2R x = B2R x) by (rewrite (proj2 zero_fin); lra). destruct (add_fin zero_d x (proj1 zero_fin) F) as (F' & E').
  - rewrite E, rnd_B2R. apply B2R_huge.
  - split; auto. rewrite E', E. apply rnd_B2R.
Qed.
Lemma abs_grow : forall e x, Rabs e <= u -> Rabs (x * (1 + e)) <= (1 + u) * Rabs x.
Proof.
  intros e x H. rewrite Rabs_mult, Rmult_comm. apply Rmult_le_compat_r; [apply Rabs_pos|]. eapply Rle_trans; [apply Rabs_triang|]. rewrite Rabs_R1. lra.
Qed.
Lemma sum_list : forall {J} (x : J -> double) js, (forall j, In j js -> fin (x j)) -> let q := total (map (fun j => Rabs (B2R (x j))) js) in let n := Nat.pred (length js) in
  (1 + u) ^ n * q < huge -> let r := fold_left (fun c j => add_d c (x j)) js zero_d in
  fin r /\ Rabs (B2R r - total (map (fun j => B2R (x j)) js)) <= ((1 + u) ^ n - 1) * q.
Proof.
  intros J x [|j js] Hf q n H r.
  - cbn in r. unfold r. split; [apply zero_fin|]. rewrite (proj2 zero_fin). cbn. rewrite Rminus_0_r, Rabs_R0. lra.
  - cbn [length Nat.pred] in n. cbn [fold_left] in r. destruct (first_add (x j) (Hf j (or_introl eq_refl))) as (F0 & E0).
    destruct (many (fun c j => add_d c (x j)) (fun j => B2R (x j)) 0 js (Rle_refl 0)) with (c := add_d zero_d (x j)) as (F & E); auto.
    + intros i c Hi Fc Hs. destruct (rnd_sum c (x i)) as (e & He & Er). destruct (add_fin c (x i) Fc (Hf i (or_intror Hi))) as (F1 & E1).
      * rewrite Er. eapply Rle_lt_trans; [apply abs_grow; eauto|]. eapply Rle_lt_trans; [|exact Hs]. rewrite Rplus_0_r. apply Rmult_le_compat_l; [pose proof u_pos; lra|]. apply Rabs_triang.
      * split; auto. exists e, 0. rewrite Rabs_R0. split; [auto|]. split; [lra|]. rewrite E1, Er. lra.
    + rewrite E0, Rmult_0_r, Rplus_0_r. exact H.
    + split; [exact F|]. rewrite E0, !Rmult_0_r, Rplus_0_r in E. exact E.
Qed.
Lemma total_le : forall {J} (f g : J -> R) js, (forall j, In j js -> f j <= g j) -> total (map f js) <= total (map g js).
Proof. induction js as [|j js IH]; intros H; cbn; [lra|]. pose proof (H j (or_introl eq_refl)). pose proof (IH (fun i h => H i (or_intror h))) as Q. unfold total in Q. lra. Qed.
Lemma total_in : forall {J} (f : J -> R) js j, In j js -> Rabs (f j) <= total (map (fun j => Rabs (f j)) js).
Proof.
  induction js as [|i js IH]; intros j H; [destruct H|]. cbn [map total fold_right]. pose proof (abs_total f js) as P. pose proof (Rabs_pos (f i)). fold (total (map (fun j => Rabs (f j)) js)).
  destruct H as [->|H]; [lra|]. pose proof (IH j H). lra.
Qed.
Lemma total_affine : forall {J} (f : J -> R) c d js, total (map (fun j => c * f j + d) js) = c * total (map f js) + INR (length js) * d.
Proof. induction js as [|j js IH]; cbn [map total fold_right length]; [cbn; lra|]. fold (total (map (fun j => c * f j + d) js)). fold (total (map f js)). rewrite IH, S_INR. lra. Qed.
Lemma total_diff : forall {J} (f g : J -> R) js, Rabs (total (map f js) - total (map g js)) <= total (map (fun j => Rabs (f j - g j)) js).
Proof.
  induction js as [|j js IH]; cbn [map total fold_right]; [rewrite Rminus_diag_eq, Rabs_R0 by auto; lra|]. fold (total (map f js)). fold (total (map g js)). fold (total (map (fun j => Rabs (f j - g j)) js)).
  replace (f j + total (map f js) - (g j + total (map g js))) with ((f j - g j) + (total (map f js) - total (map g js))) by lra. eapply Rle_trans; [apply Rabs_triang|]. lra.
Qed.
Lemma rnd_size : forall x, Rabs (rnd x) <= (1 + u) * Rabs x + tiny /\ Rabs (rnd x - x) <= u * Rabs x + tiny.
Proof.
  intros x. destruct (rnd_err x) as (e & h & He & Hh & E). split; rewrite E.
  - eapply Rle_trans; [apply Rabs_triang|]. pose proof (abs_grow e x He). lra.
  - replace (x * (1 + e) + h - x) with (x * e + h) by lra. eapply Rle_trans; [apply Rabs_triang|]. rewrite Rabs_mult. pose proof (Rmult_le_compat_l _ _ _ (Rabs_pos x) He). lra.
Qed.
Lemma pow_pred : forall n, (1 + u) ^ Nat.pred n <= (1 + u) ^ n.
Proof. intros [|n]; cbn [Nat.pred pow]; [lra|]. pose proof (grow_ge n). pose proof u_pos as U. pose proof (Rmult_le_pos u ((1 + u) ^ n)). lra. Qed.

(* products that are rounded and then added *)
Lemma dot_list : forall {J} (x y : J -> double) js, (forall j, In j js -> fin (x j) /\ fin (y j)) -> let t j := B2R (x j) * B2R (y j) in
  let q := total (map (fun j => Rabs (t j)) js) in let n := length js in
  (1 + u) ^ n * (q + INR n * tiny) < huge -> close n q (total (map t js)) (fold_left (fun c j => add_d c (mul_d (x j) (y j))) js zero_d).
Proof.
  intros J x y js Hf t q n H. pose proof u_pos as U. pose proof tiny_pos as Ty. assert (Q0 : 0 <= q) by apply abs_total. assert (N0 : 0 <= INR n * tiny) by (apply Rmult_le_pos; [apply pos_INR|lra]).
  destruct js as [|j0 js0]; [subst n q; cbn; split; [apply zero_fin|]; rewrite (proj2 zero_fin); cbn; rewrite Rminus_0_r, Rabs_R0; lra|].
  set (js := j0 :: js0) in *. set (k := length js0). set (P := (1 + u) ^ k). pose proof (grow_ge k) as P1. fold P in P1. change ((1 + u) ^ n) with ((1 + u) * P) in *.
  assert (N1 : 1 <= INR n). { unfold n, js. cbn [length]. rewrite S_INR. pose proof (pos_INR (length js0)). lra. }
  assert (T1 : tiny <= INR n * tiny). { rewrite <- (Rmult_1_l tiny) at 1. apply Rmult_le_compat_r; lra. }
  assert (Big : (1 + u) * q + INR n * tiny <= (1 + u) * P * (q + INR n * tiny)).
  { apply (Rle_trans _ ((1 + u) * 1 * (q + INR n * tiny))); [assert (0 <= u * (INR n * tiny)) by (apply Rmult_le_pos; lra); lra|].
    apply Rmult_le_compat_r; [lra|]. apply Rmult_le_compat_l; lra. }
  assert (Hp : forall j, In j js -> fin (mul_d (x j) (y j)) /\ B2R (mul_d (x j) (y j)) = rnd (t j)).
  { intros j Hj. destruct (Hf j Hj) as (Fx & Fy). apply mul_fin; auto. fold (t j). eapply Rle_lt_trans; [apply rnd_size|]. eapply Rle_lt_trans; [|exact H]. eapply Rle_trans; [|exact Big].
    pose proof (total_in t js j Hj) as I. fold q in I. pose proof (Rmult_le_compat_l (1 + u) _ _ ltac:(lra) I). lra. }
  set (p := fun j => mul_d (x j) (y j)) in *.
  assert (Qp : total (map (fun j => Rabs (B2R (p j))) js) <= (1 + u) * q + INR n * tiny).
  { eapply Rle_trans; [apply (total_le _ (fun j => (1 + u) * Rabs (t j) + tiny))|].
    - intros j Hj. unfold p. rewrite (proj2 (Hp j Hj)). apply rnd_size.
    - rewrite total_affine. fold q n. lra. }
  assert (Dp : Rabs (total (map (fun j => B2R (p j)) js) - total (map t js)) <= u * q + INR n * tiny).
  { eapply Rle_trans; [apply total_diff|]. eapply Rle_trans; [apply (total_le _ (fun j => u * Rabs (t j) + tiny))|].
    - intros j Hj. unfold p. rewrite (proj2 (Hp j Hj)). apply rnd_size.
    - rewrite total_affine. fold q n. lra. }
  destruct (sum_list p js) as (F & E).
  - intros j Hj. apply Hp; auto.
  - change (Nat.pred (length js)) with k. fold P. eapply Rle_lt_trans; [|exact H]. apply (Rle_trans _ (P * ((1 + u) * q + INR n * tiny))); [apply Rmult_le_compat_l; lra|].
    rewrite (Rmult_comm (1 + u) P), Rmult_assoc. apply Rmult_le_compat_l; [lra|]. assert (0 <= u * (INR n * tiny)) by (apply Rmult_le_pos; lra). lra.
  - split; [exact F|]. change (Nat.pred (length js)) with k in E. fold P in E. set (r := fold_left _ js zero_d) in *. change ((1 + u) ^ n) with ((1 + u) * P). fold (p) in r.
    replace (B2R r - total (map t js)) with ((B2R r - total (map (fun j => B2R (p j)) js)) + (total (map (fun j => B2R (p j)) js) - total (map t js))) by lra.
    eapply Rle_trans; [apply Rabs_triang|]. eapply Rle_trans; [apply Rplus_le_compat; [exact E|exact Dp]|].
    apply (Rle_trans _ ((P - 1) * ((1 + u) * q + INR n * tiny) + (u * q + INR n * tiny))); [apply Rplus_le_compat_r, Rmult_le_compat_l; lra|].
    assert (0 <= P * u * (INR n * tiny)) by (repeat apply Rmult_le_pos; lra). lra.
Qed.
(* products that are added and then rounded *)
Lemma fma_list : forall {J} (x y : J -> double) js, (forall j, In j js -> fin (x j) /\ fin (y j)) -> let t j := B2R (x j) * B2R (y j) in
  let q := total (map (fun j => Rabs (t j)) js) in let n := length js in
  (1 + u) ^ n * (q + INR n * tiny) < huge -> close n q (total (map t js)) (fold_left (fun c j => fma_d (x j) (y j) c) js zero_d).
Proof.
  intros J x y js Hf t q n H. pose proof tiny_pos as Ty. destruct zero_fin as (F0 & E0).
  destruct (many (fun c j => fma_d (x j) (y j) c) t tiny js ltac:(lra)) with (c := zero_d) as (F & E); auto.
  - intros j c Hj Fc Hs. destruct (Hf j Hj) as (Fx & Fy). destruct (rnd_err (t j + B2R c)) as (e & h & He & Hh & Er). destruct (fma_fin (x j) (y j) c Fx Fy Fc) as (F1 & E1).
    + fold (t j). eapply Rle_lt_trans; [apply rnd_size|]. eapply Rle_lt_trans; [|exact Hs]. apply Rplus_le_compat_r, Rmult_le_compat_l; [pose proof u_pos; lra|]. rewrite Rplus_comm. apply Rabs_triang.
    + split; auto. exists e, h. split; auto. split; auto. rewrite E1. fold (t j). rewrite Er. lra.
  - rewrite E0, Rabs_R0, Rplus_0_l. exact H.
  - rewrite E0, Rabs_R0, !Rplus_0_l in E. split; auto.
Qed.

Open Scope Z_scope.
Section Reductions.
Variables (fixed : bool) (z : list zt).
Hypothesis (Hz : zclean z).
Notation ex := (expr (val double) (mem double)).

(* sum of double. The first addition, to 0, is exact. *)
Theorem C131_sum : forall (a : ex) s js m x, wf a -> shape_is a s -> row_major s js -> reads a s m x -> (exists j, inshape j s) -> (forall j, inshape j s -> is_finite (x j) = true) ->
  let q := total (map (fun j => Rabs (B2R (x j))) js) in let n := (length js - 1)%nat in ((1 + u) ^ n * q < huge)%R ->
  exists r, sum fixed z add_d zero_d a m = Ok r m /\ is_finite r = true /\ (Rabs (B2R r - total (map (fun j => B2R (x j)) js)) <= ((1 + u) ^ n - 1) * q)%R.
Proof.
  intros a s js m x Wa Hs Hj Ha He Hf q n H. eexists. split; [apply (C31_sum_partial _ add_d zero_d a s js m x); auto|]. rewrite <- fold_left_map.
  destruct (sum_list x js) as (F & E).
  - intros j Hin. apply Hf, Hj, Hin.
  - replace (Nat.pred (length js)) with n by (unfold n; lia). exact H.
  - replace (Nat.pred (length js)) with n in E by (unfold n; lia). split; auto.
Qed.

(* dot of double, either way *)
Theorem C131_dot : forall (a b : ex) s js m x y, wf a -> wf b -> joint_shape [a; b] s -> row_major s js -> reads a s m x -> reads b s m y ->
  (forall j, inshape j s -> is_finite (x j) = true /\ is_finite (y j) = true) ->
  let t j := (B2R (x j) * B2R (y j))%R in let q := total (map (fun j => Rabs (t j)) js) in let n := length js in ((1 + u) ^ n * (q + INR n * tiny) < huge)%R ->
  (exists r, dot fixed z add_d mul_d zero_d a b m = Ok r m /\ close n q (total (map t js)) r) /\
  (exists r, dot_fma fixed z (fun x y c => Some (fma_d x y c)) zero_d a b m = Ok r m /\ close n q (total (map t js)) r) /\
  (exists r, cdot_fma fixed z fma_conj_d zero_d a b m = Ok r m /\ close n q (total (map t js)) r).
Proof.
  intros a b s js m x y Wa Wb Hs Hj Ha Hb Hf t q n H. 
  assert (Hf' : forall j, In j js -> fin (x j) /\ fin (y j)) by (intros j Hin; apply Hf, Hj, Hin). split; [|split].
  - eexists. split; [apply (C31_dot _ add_d mul_d zero_d a b s js m x y); auto|]. rewrite <- fold_left_map. apply (dot_list x y js); auto.
  - eexists. split; [apply (dot_fma_total fma_d zero_d a b s js m x y); auto|]. apply (fma_list x y js); auto.
  - eexists. unfold cdot_fma. split; [apply (reduce2_spec double fixed z fma_conj_d a b s js m x y); auto|]. apply (fma_list x y js); auto.
Qed.

Lemma fma_zero : forall c, fin c -> fin (fma_d zero_d zero_d c) /\ B2R (fma_d zero_d zero_d c) = B2R c.
Proof.
  intros c F. assert (E : (B2R zero_d * B2R zero_d + B2R c)%R = B2R c) by (rewrite (proj2 zero_fin); lra). destruct (fma_fin zero_d zero_d c) as (F' & E'); try apply zero_fin; auto.
  - rewrite E, rnd_B2R. apply B2R_huge.
  - split; auto. rewrite E', E. apply rnd_B2R.
Qed.
Theorem C131_sqrm : forall (a : ex) s js m x, wf a -> shape_is a s -> row_major s js -> reads a s m x -> (forall j, inshape j s -> is_finite (x j) = true) ->
  let q := total (map (fun j => B2R (x j) * B2R (x j))%R js) in let n := length js in ((1 + u) ^ n * (q + INR n * tiny) < huge)%R ->
  (exists r, reduce_sqrm fixed z add_d sqrm_d zero_d a m = Ok r m /\ close n q q r) /\ (exists r, reduce_sqrm_fma fixed z fma_sqrm_d zero_d a m = Ok r m /\ close n q q r).
Proof.
  intros a s js m x Wa Hs Hj Ha Hf q n H.
  assert (Eq : total (map (fun j => Rabs (B2R (x j) * B2R (x j))) js) = q).
  { unfold q. f_equal. apply map_ext. intros j. apply Rabs_right. apply Rle_ge, Rle_0_sqr. }
  assert (Hf' : forall j, In j js -> fin (x j)) by (intros j Hin; apply Hf, Hj, Hin). split.
  - eexists. split; [apply (C31_reduce_sqrm _ add_d sqrm_d zero_d a s js m x); auto|]. rewrite <- fold_left_map. unfold sqrm_d.
    pose proof (dot_list x x js) as D. cbv beta zeta in D. rewrite Eq in D. apply D; auto.
  - eexists. split; [unfold reduce_sqrm_fma; apply (reduce1_spec double fixed z fma_sqrm_d a s js m x); auto|]. rewrite <- fold_left_map.
    pose proof tiny_pos as Ty. destruct zero_fin as (F0 & E0). set (t := fun j => (B2R (x j) * B2R (x j))%R). change (total (map (fun j => Rabs (t j)) js) = q) in Eq.
    destruct (many (fun c j => fma_sqrm_d (x j) c) t tiny js ltac:(lra)) with (c := zero_d) as (F & E); auto.
    + intros j c Hin Fc Hb. pose proof (Hf' j Hin) as Fx. unfold fma_sqrm_d. destruct (fma_zero c Fc) as (Fz & Ez). set (c' := fma_d zero_d zero_d c) in *.
      destruct (rnd_err (t j + B2R c)) as (e & h & He & Hh & Er). destruct (fma_fin (x j) (x j) c' Fx Fx Fz) as (F1 & E1).
      * rewrite Ez. fold (t j). eapply Rle_lt_trans; [apply rnd_size|]. eapply Rle_lt_trans; [|exact Hb]. apply Rplus_le_compat_r, Rmult_le_compat_l; [pose proof u_pos; lra|]. rewrite Rplus_comm. apply Rabs_triang.
      * split; auto. exists e, h. split; auto. split; auto. rewrite E1, Ez. fold (t j). rewrite Er. lra.
    + rewrite E0, Rabs_R0, Rplus_0_l. rewrite Eq. exact H.
    + rewrite E0, Rabs_R0, !Rplus_0_l, Eq in E. split; auto.
Qed.

(* each element of the product of matrices, and of that of a matrix and a vector *)
Lemma accum_fold : forall {T} add (c : T) n f, accum add c n f = fold_left (fun c k => add c (f k)) (zrange n) c.
Proof. intros. unfold accum. rewrite <- fold_left_map. auto. Qed.
Theorem C131_gemm : forall (a b : view) n l p q m, vshape a = [n; l] -> vshape b = [l; p] -> 0 <= n -> 0 <= l -> 0 <= p -> free_of a q (n * p) -> free_of b q (n * p) ->
  (forall i k, 0 <= i < n -> 0 <= k < l -> is_finite (m (vplace a [i; k])) = true) -> (forall k j, 0 <= k < l -> 0 <= j < p -> is_finite (m (vplace b [k; j])) = true) ->
  let t i j k := (B2R (m (vplace a [i; k])) * B2R (m (vplace b [k; j])))%R in let size i j := total (map (fun k => Rabs (t i j k)) (zrange l)) in let h := length (zrange l) in
  (forall i j, 0 <= i < n -> 0 <= j < p -> ((1 + u) ^ h * (size i j + INR h * tiny) < huge)%R) ->
  exists c m', gemm2 add_d mul_d fixed z q zero_d a b m = Ok (Some c) m' /\ vshape c = [n; p] /\
    forall i j, 0 <= i < n -> 0 <= j < p -> close h (size i j) (total (map (t i j) (zrange l))) (m' (vplace c [i; j])).
Proof.
  intros a b n l p q m Sa Sb Hn Hl Hp Fa Fb Ea Eb t size h H. destruct (C33_gemm2 add_d mul_d a b n l p q zero_d m fixed z) as (c & m' & E & Sc & _ & V & _); auto.
  exists c, m'. split; auto. split; auto. intros i j Hi Hj. rewrite (proj2 (V i j Hi Hj)), accum_fold.
  apply (dot_list (fun k => m (vplace a [i; k])) (fun k => m (vplace b [k; j])) (zrange l)); [|apply H; auto].
  intros k Hk. apply L_Spec.in_zrange in Hk. split; [apply Ea|apply Eb]; auto.
Qed.
Theorem C131_gemv : forall (a b : view) n l q m, vshape a = [n; l] -> vshape b = [l] -> 0 <= n -> 0 <= l -> free_of a q n -> free_of b q n ->
  (forall i k, 0 <= i < n -> 0 <= k < l -> is_finite (m (vplace a [i; k])) = true) -> (forall k, 0 <= k < l -> is_finite (m (vplace b [k])) = true) ->
  let t i k := (B2R (m (vplace a [i; k])) * B2R (m (vplace b [k])))%R in let size i := total (map (fun k => Rabs (t i k)) (zrange l)) in let h := length (zrange l) in
  (forall i, 0 <= i < n -> ((1 + u) ^ h * (size i + INR h * tiny) < huge)%R) ->
  exists c m', gemv2 add_d mul_d fixed z q zero_d a b m = Ok (Some c) m' /\ vshape c = [n] /\ forall i, 0 <= i < n -> close h (size i) (total (map (t i) (zrange l))) (m' (vplace c [i])).
Proof.
  intros a b n l q m Sa Sb Hn Hl Fa Fb Ea Eb t size h H. destruct (C34_gemv2 add_d mul_d a b n l q zero_d m fixed z) as (c & m' & E & Sc & _ & V & _); auto.
  exists c, m'. split; auto. split; auto. intros i Hi. rewrite (proj2 (V i Hi)), accum_fold.
  apply (dot_list (fun k => m (vplace a [i; k])) (fun k => m (vplace b [k])) (zrange l)); [|apply H; auto].
  intros k Hk. apply L_Spec.in_zrange in Hk. split; [apply Ea|apply Eb]; auto.
Qed.

(* Numbers that are integers, as long as they aren't too large, are added and multiplied without errors. *)
(* The sum of zeros is +0, even if they are all -0, and so is the inner product of empty arrays. *)
Theorem C131_zero : (forall (a : ex) s js m x, wf a -> shape_is a s -> row_major s js -> reads a s m x -> (exists j, inshape j s) -> (forall j, inshape j s -> exists sign, B2SF (x j) = SpecFloat.S754_zero sign) ->
    exists r, sum fixed z add_d zero_d a m = Ok r m /\ B2SF r = SpecFloat.S754_zero false) /\
  (forall (a b : ex) s js m x y, wf a -> wf b -> joint_shape [a; b] s -> row_major s js -> reads a s m x -> reads b s m y -> (forall j, ~ inshape j s) ->
    exists r, dot fixed z add_d mul_d zero_d a b m = Ok r m /\ B2SF r = SpecFloat.S754_zero false).
Proof.
  split.
  - intros a s js m x Wa Hs Hj Ha He H. eexists. split; [apply (C31_sum_partial _ add_d zero_d a s js m x); auto|]. rewrite <- fold_left_map.
    assert (Hx : forall j, In j js -> exists sign, x j = B754_zero sign).
    { intros j Hin. destruct (H j) as (sign & E); [apply Hj, Hin|]. exists sign. destruct (x j); cbn in E; try discriminate. congruence. }
    enough (E : fold_left (fun c j => add_d c (x j)) js zero_d = B754_zero false) by (rewrite E; reflexivity). clear - Hx. induction js as [|j js IH]; [reflexivity|]. cbn [fold_left].
    destruct (Hx j (or_introl eq_refl)) as (sign & ->). replace (add_d zero_d (B754_zero sign)) with zero_d by (destruct sign; reflexivity). apply IH. intros; apply Hx; right; auto.
  - intros a b s js m x y Wa Wb Hs Hj Ha Hb He. eexists. split; [apply (C31_dot _ add_d mul_d zero_d a b s js m x y); auto|].
    destruct js as [|j js]; [reflexivity|]. destruct (He j). apply Hj. left; auto.
Qed.
Theorem C131_exact_sum : forall (a : ex) s js m x k, wf a -> shape_is a s -> row_major s js -> reads a s m x -> (exists j, inshape j s) -> (forall j, inshape j s -> is_int (x j) (k j)) ->
  ztotal (map (fun j => Z.abs (k j)) js) <= 2 ^ 53 -> exists r, sum fixed z add_d zero_d a m = Ok r m /\ is_int r (ztotal (map k js)).
Proof.
  intros a s js m x k Wa Hs Hj Ha He Hf H. eexists. split; [apply (C31_sum_partial _ add_d zero_d a s js m x); auto|]. rewrite <- fold_left_map.
  apply (int_fold (fun c j => add_d c (x j)) k js zero_d 0 int_zero); [|exact H]. intros c h j Hin Hc Hb. apply int_add; auto. apply Hf, Hj, Hin.
Qed.
Lemma int_dot : forall {J} (x y : J -> double) (kx ky : J -> Z) js, (forall j, In j js -> is_int (x j) (kx j) /\ is_int (y j) (ky j)) -> ztotal (map (fun j => Z.abs (kx j * ky j)) js) <= 2 ^ 53 ->
  is_int (fold_left (fun c j => add_d c (mul_d (x j) (y j))) js zero_d) (ztotal (map (fun j => kx j * ky j) js)) /\
  is_int (fold_left (fun c j => fma_d (x j) (y j) c) js zero_d) (ztotal (map (fun j => kx j * ky j) js)).
Proof.
  intros J x y kx ky js Hf H. split.
  - apply (int_fold (fun c j => add_d c (mul_d (x j) (y j))) (fun j => kx j * ky j) js zero_d 0 int_zero); [|exact H]. intros c h j Hin Hc Hb. destruct (Hf j Hin). apply int_add; auto. apply int_mul; auto.
    pose proof (ztotal_in (fun j => kx j * ky j) js j Hin). cbv beta in *. lia.
  - apply (int_fold (fun c j => fma_d (x j) (y j) c) (fun j => kx j * ky j) js zero_d 0 int_zero); [|exact H]. intros c h j Hin Hc Hb. destruct (Hf j Hin). rewrite Z.add_comm. apply int_fma; auto. rewrite Z.add_comm. auto.
Qed.
Theorem C131_exact_dot : forall (a b : ex) s js m x y kx ky, wf a -> wf b -> joint_shape [a; b] s -> row_major s js -> reads a s m x -> reads b s m y ->
  (forall j, inshape j s -> is_int (x j) (kx j) /\ is_int (y j) (ky j)) -> ztotal (map (fun j => Z.abs (kx j * ky j)) js) <= 2 ^ 53 ->
  (exists r, dot fixed z add_d mul_d zero_d a b m = Ok r m /\ is_int r (ztotal (map (fun j => kx j * ky j) js))) /\
  (exists r, dot_fma fixed z (fun x y c => Some (fma_d x y c)) zero_d a b m = Ok r m /\ is_int r (ztotal (map (fun j => kx j * ky j) js))).
Proof.
  intros a b s js m x y kx ky Wa Wb Hs Hj Ha Hb Hf H. 
  destruct (int_dot x y kx ky js) as (D1 & D2); auto. { intros j Hin. apply Hf, Hj, Hin. } split.
  - eexists. split; [apply (C31_dot _ add_d mul_d zero_d a b s js m x y); auto|]. rewrite <- fold_left_map. exact D1.
  - eexists. split; [apply (dot_fma_total fma_d zero_d a b s js m x y); auto|]. exact D2.
Qed.
Theorem C131_exact_gemm : forall (a b : view) n l p q m (ka kb : Z -> Z -> Z), vshape a = [n; l] -> vshape b = [l; p] -> 0 <= n -> 0 <= l -> 0 <= p -> free_of a q (n * p) -> free_of b q (n * p) ->
  (forall i k, 0 <= i < n -> 0 <= k < l -> is_int (m (vplace a [i; k])) (ka i k)) -> (forall k j, 0 <= k < l -> 0 <= j < p -> is_int (m (vplace b [k; j])) (kb k j)) ->
  (forall i j, 0 <= i < n -> 0 <= j < p -> ztotal (map (fun k => Z.abs (ka i k * kb k j)) (zrange l)) <= 2 ^ 53) ->
  exists c m', gemm2 add_d mul_d fixed z q zero_d a b m = Ok (Some c) m' /\ vshape c = [n; p] /\
    forall i j, 0 <= i < n -> 0 <= j < p -> is_int (m' (vplace c [i; j])) (ztotal (map (fun k => ka i k * kb k j) (zrange l))).
Proof.
  intros a b n l p q m ka kb Sa Sb Hn Hl Hp Fa Fb Ea Eb H. destruct (C33_gemm2 add_d mul_d a b n l p q zero_d m fixed z) as (c & m' & E & Sc & _ & V & _); auto.
  exists c, m'. split; auto. split; auto. intros i j Hi Hj. rewrite (proj2 (V i j Hi Hj)), accum_fold.
  apply (int_dot (fun k => m (vplace a [i; k])) (fun k => m (vplace b [k; j])) (ka i) (fun k => kb k j) (zrange l)); [|apply H; auto].
  intros k Hk. apply L_Spec.in_zrange in Hk. split; [apply Ea|apply Eb]; auto.
Qed.
End Reductions.

(* The factor of the relative error, as it is usually written. *)
Theorem C131_factor : forall n, (INR n * u < 1 -> (1 + u) ^ n - 1 <= INR n * u / (1 - INR n * u))%R.
Proof.
  intros n H. pose proof (grow_gamma n) as G. apply (Rmult_le_reg_r (1 - INR n * u)%R); [lra|]. unfold Rdiv. rewrite Rmult_assoc, Rinv_l by lra. lra.
Qed.

(* On double, fma isn't the same: {1, 1+2^-52} . {-(1+2^-51), 1+2^-52} is 0 without it and 2^-104 with it. So dot isn't always what gemm gives, which doesn't use it (ra.hh:403-412). *)
Definition dbl (m e : Z) : double := @binary_normalize 53 1024 eq_refl eq_refl mode_NE m e false.
Definition near1 : mem double := fun p => if p =? 0 then dbl 1 0 else if p =? 2 then dbl (- (2 ^ 51 + 1)) (-51) else dbl (2 ^ 52 + 1) (-52).
Theorem C130_double_refuted : exists (a b : expr (val double) (mem double)) s m, wf a /\ wf b /\ joint_shape [a; b] s /\
  forall fixed, exists r r', dot fixed z_init add_d mul_d zero_d a b m = Ok r m /\ dot_fma fixed z_init (fun x y c => Some (fma_d x y c)) zero_d a b m = Ok r' m /\
    B2SF r = SpecFloat.S754_zero false /\ B2SF r' = SpecFloat.S754_finite false (2 ^ 52) (-156).
Proof.
  set (a := Cell [Dim 2 1] 1 (VRef (T:=double)) 0 : expr (val double) (mem double)). set (b := Cell [Dim 2 1] 1 (VRef (T:=double)) 2 : expr (val double) (mem double)).
  assert (Wa : wf a) by (unfold a; wfauto). assert (Wb : wf b) by (unfold b; wfauto).
  assert (Ra : reads a [2] near1 (fun j => near1 (0 + place [Dim 2 1] (firstn 1 j)))) by (apply (refers_reads _ _ _ (fun j => 0 + place [Dim 2 1] (firstn 1 j))); apply cell_refers).
  assert (Rb : reads b [2] near1 (fun j => near1 (2 + place [Dim 2 1] (firstn 1 j)))) by (apply (refers_reads _ _ _ (fun j => 2 + place [Dim 2 1] (firstn 1 j))); apply cell_refers).
  assert (Hs : joint_shape [a; b] [2]).
  { split; [reflexivity|]. intros [|k] Hk; cbn in *; try lia; (split; [lia|]); split; auto. }
  exists a, b, [2], near1. split; [exact Wa|]. split; [exact Wb|]. split; [exact Hs|]. intros fixed. pose proof (row_major_indices [2]) as Hj. do 2 eexists. split; [|split].
  - eapply C31_dot; eauto using z_init_clean.
  - eapply dot_fma_total; eauto using z_init_clean.
  - split; vm_compute; reflexivity.
Qed.

(* ---- examples ---- *)
(* {2^53, 1, 1}: the sum is 2^53, 2 less than the exact one *)
Definition lost : mem double := fun p => if p =? 0 then of_int (2 ^ 53) else of_int 1.
Definition lost_k (j : list Z) : Z := match j with 0 :: _ => 2 ^ 53 | _ => 1 end.
Example ex_sum : let a := Cell [Dim 3 1] 1 (VRef (T:=double)) 0 : expr (val double) (mem double) in let x := fun j => lost (0 + place [Dim 3 1] (firstn 1 j)) in
  wf a /\ shape_is a [3] /\ row_major [3] (indices [3]) /\ reads a [3] lost x /\ (forall j, inshape j [3] -> is_int (x j) (lost_k j)) /\
  ((1 + u) ^ 2 * total (map (fun j => Rabs (B2R (x j))) (indices [3%Z])) < huge)%R /\
  (exists r, sum true z_init add_d zero_d a lost = Ok r lost /\ is_int r (2 ^ 53) /\ total (map (fun j => B2R (x j)) (indices [3])) = IZR (2 ^ 53 + 2)).
Proof.
  intros a x. assert (Wa : wf a) by (unfold a; wfauto).
  assert (Ra : reads a [3] lost x) by (apply (refers_reads _ _ _ (fun j => 0 + place [Dim 3 1] (firstn 1 j))); apply cell_refers).
  assert (Sa : shape_is a [3]) by (apply (shape_shape_is _ Wa); reflexivity). pose proof (row_major_indices [3]) as Hj.
  assert (I : forall j, inshape j [3] -> is_int (x j) (lost_k j)).
  { intros j Hin. apply in_indices in Hin. cbn in Hin. destruct Hin as [<-|[<-|[<-|[]]]]; apply of_int_ok; cbn; lia. }
  split; auto. split; auto. split; auto. split; auto. split; auto.
  assert (E : forall j, In j (indices [3]) -> B2R (x j) = IZR (lost_k j)) by (intros j Hin; apply I, in_indices, Hin).
  split.
  - assert (Q : total (map (fun j => Rabs (B2R (x j))) (indices [3])) = IZR (2 ^ 53 + 2)).
    { rewrite (map_ext_in _ (fun j => IZR (Z.abs (lost_k j)))) by (intros j Hin; rewrite E by auto; rewrite abs_IZR; auto). replace (indices [3]) with [[0]; [1]; [2]] by reflexivity. cbn [map lost_k total fold_right]. rewrite Rplus_0_r, <- !plus_IZR. apply f_equal. reflexivity. }
    rewrite Q. rewrite huge_bpow, <- IZR_Zpower by lia. apply (Rle_lt_trans _ (2 * 2 * IZR (2 ^ 53 + 2))).
    + apply Rmult_le_compat_r; [apply IZR_le; lia|]. assert (u <= 1)%R. { rewrite u_eq. change (/ 2)%R with (bpow radix2 (-1)). rewrite <- bpow_plus. change 1%R with (bpow radix2 0). apply bpow_le. lia. }
      pose proof u_pos. cbn [pow]. rewrite Rmult_1_r. apply Rmult_le_compat; lra.
    + rewrite <- !mult_IZR. apply IZR_lt. reflexivity.
  - eexists. split; [|split].
    + eapply (C31_sum_partial double add_d zero_d a [3] (indices [3]) lost x); auto using z_init_clean. exists [0]. apply in_indices. left. reflexivity.
    + assert (X : forall r : double, B2SF r = SpecFloat.S754_finite false (2 ^ 52) 1 -> is_int r (2 ^ 53)).
      { intros [ | | |s mm e Hb]; cbn; intros Hr; try discriminate. injection Hr as -> -> ->. split; [reflexivity|]. unfold B2R, F2R. cbn. lra. }
      apply X. vm_compute. reflexivity.
    + rewrite (map_ext_in _ (fun j => IZR (lost_k j))) by (intros; apply E; auto). replace (indices [3]) with [[0]; [1]; [2]] by reflexivity. cbn [map lost_k total fold_right]. rewrite Rplus_0_r, <- !plus_IZR. apply f_equal. reflexivity.
Qed.
(* matrices of integers: {{1, 2}, {3, 4}} by itself *)
Definition ints4 : mem double := fun p => of_int (p + 1).
Definition sq : view := Vw [Dim 2 2; Dim 2 1] 0.
Example ex_gemm : vshape sq = [2; 2] /\ free_of sq 10 (2 * 2) /\ (forall i k, 0 <= i < 2 -> 0 <= k < 2 -> is_int (ints4 (vplace sq [i; k])) (2 * i + k + 1)) /\
  (forall i j, 0 <= i < 2 -> 0 <= j < 2 -> ztotal (map (fun k => Z.abs ((2 * i + k + 1) * (2 * k + j + 1))) (zrange 2)) <= 2 ^ 53) /\
  exists c m', gemm2 add_d mul_d false z_init 10 zero_d sq sq ints4 = Ok (Some c) m' /\ vshape c = [2; 2] /\ is_int (m' (vplace c [1; 0])) 15.
Proof.
  assert (F : free_of sq 10 (2 * 2)). { intros i Hi. cbv [vshape sq vdv map len] in Hi. apply in_indices in Hi. cbn in Hi. destruct Hi as [<-|[<-|[<-|[<-|[]]]]]; vm_compute; intuition discriminate. }
  assert (I : forall i k, 0 <= i < 2 -> 0 <= k < 2 -> is_int (ints4 (vplace sq [i; k])) (2 * i + k + 1)).
  { intros i k Hi Hk. replace (2 * i + k + 1) with (vplace sq [i; k] + 1) by (unfold vplace; cbn [sq vcp vdv place step]; lia). apply of_int_ok. unfold vplace. cbn [sq vcp vdv place step]. lia. }
  assert (B : forall i j, 0 <= i < 2 -> 0 <= j < 2 -> ztotal (map (fun k => Z.abs ((2 * i + k + 1) * (2 * k + j + 1))) (zrange 2)) <= 2 ^ 53).
  { intros i j Hi Hj. assert (i = 0 \/ i = 1) as [-> | ->] by lia; assert (j = 0 \/ j = 1) as [-> | ->] by lia; vm_compute; discriminate. }
  split; [reflexivity|]. split; auto. split; auto. split; auto.
  destruct (C131_exact_gemm false z_init z_init_clean sq sq 2 2 2 10 ints4 (fun i k => 2 * i + k + 1) (fun k j => 2 * k + j + 1)) as (c & m' & E & S & V); auto; try lia.
  exists c, m'. split; auto. split; auto. apply (V 1 0); lia.
Qed.

(* {-0., -0.} *)
Example ex_zero : let a := Cell [Dim 2 1] 1 (VRef (T:=double)) 0 in let m := fun _ => B754_zero true in wf a /\ shape_is a [2] /\ reads a [2] m (fun _ => B754_zero true) /\
  map (fun fixed => match sum fixed z_init add_d zero_d a m with Ok r _ => Some (B2SF r) | _ => None end) [true; false] = [Some (SpecFloat.S754_zero false); Some (SpecFloat.S754_zero false)].
Proof.
  split; [wfauto|]. split; [split; [reflexivity|]; intros [|k] Hk; cbn in Hk; try lia; cbn; split; [lia|]; split; [left; reflexivity|]; constructor; [left; reflexivity|constructor]|].
  split; [|vm_compute; reflexivity]. intros j Hj. exists (VRef (0 + place [Dim 2 1] (firstn 1 j))). split; reflexivity.
Qed.

Print Assumptions C130_dot_real.
Print Assumptions C130_dot_complex.
Print Assumptions C130_sqrm_complex.
Print Assumptions C130_int_partial.
Print Assumptions C130_int_refuted.
Print Assumptions C130_double_refuted.
Print Assumptions C131_sum.
Print Assumptions C131_dot.
Print Assumptions C131_sqrm.
Print Assumptions C131_gemm.
Print Assumptions C131_gemv.
Print Assumptions C131_exact_sum.
Print Assumptions C131_exact_dot.
Print Assumptions C131_exact_gemm.
Print Assumptions C131_factor. Print Assumptions C131_zero.
