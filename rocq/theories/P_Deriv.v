(* Property C134: the second derivative in examples/deriv.cc, with the elements in the real numbers. *)
From Coq Require Import ZArith List Lia Bool Reals Lra.
From Verif Require Import Spec L_Spec Spec_Ply Spec_Expr M_Base M_Expr M_Ply M_Val Spec_Val L_Expr L_Agree L_Ply L_Run L_Val P_Reduce M_View Spec_View L_View P_View M_Slice M_Frame M_Mat P_Mat P_Outer M_Cells P_Cells M_Opt M_Stencil P_Stencil P_Roll M_Elem P_Elem M_Laplace M_Deriv.
Import ListNotations.
Open Scope Z_scope.

(* ---- the functions ---- *)

(* 1 - x^2/2 <= cos x <= 1 - x^2/2 + x^4/24 *)
Lemma cos_bounds : forall x, (-2 <= x <= 2 -> 1 - x ^ 2 / 2 <= cos x <= 1 - x ^ 2 / 2 + x ^ 4 / 24)%R.
Proof.
  intros x (H1 & H2). pose proof (pre_cos_bound x 0 H1 H2) as (L & U). unfold cos_approx, cos_term in L, U. cbn in L, U. split.
  - eapply Rle_trans; [|exact L]. right. field.
  - eapply Rle_trans; [exact U|]. right. field.
Qed.
(* the difference of the samples of cos^2 at distance h *)
Lemma second_cos : forall x h, (cos (x - h) * cos (x - h) - 2 * (cos x * cos x) + cos (x + h) * cos (x + h) = (sin x * sin x - cos x * cos x) * (1 - cos (2 * h)))%R.
Proof.
  intros x h. rewrite cos_minus, cos_plus, cos_2a_sin. pose proof (sin2_cos2 x) as S1. pose proof (sin2_cos2 h) as S2. unfold Rsqr in *.
  replace (cos h * cos h)%R with (1 - sin h * sin h)%R by lra. transitivity (2 * (cos x * cos x) * (cos h * cos h) + 2 * (sin x * sin x) * (sin h * sin h) - 2 * (cos x * cos x))%R; [ring|].
  replace (cos h * cos h)%R with (1 - sin h * sin h)%R by lra. ring.
Qed.
Lemma second_error : forall x h, (0 < h <= 1 -> Rabs ((cos (x - h) * cos (x - h) - 2 * (cos x * cos x) + cos (x + h) * cos (x + h)) / (h * h) - 2 * (sin x * sin x - cos x * cos x)) <= 2 / 3 * (h * h))%R.
Proof.
  intros x h (H0 & H1). rewrite second_cos. destruct (cos_bounds (2 * h) ltac:(lra)) as (L & U).
  set (c := (sin x * sin x - cos x * cos x)%R). assert (Hc : (-1 <= c <= 1)%R). { pose proof (sin2_cos2 x) as S. unfold Rsqr in S. pose proof (Rle_0_sqr (sin x)) as P1. pose proof (Rle_0_sqr (cos x)) as P2. unfold Rsqr in *. unfold c. lra. }
  replace (c * (1 - cos (2 * h)) / (h * h) - 2 * c)%R with (c * ((1 - cos (2 * h)) / (h * h) - 2))%R by (field; lra).
  rewrite Rabs_mult. assert (P : (0 < h * h)%R) by nra.
  assert (E1 : ((1 - cos (2 * h)) / (h * h) <= 2)%R). { apply Rmult_le_reg_r with (h * h)%R; auto. unfold Rdiv. rewrite Rmult_assoc, Rinv_l by lra. nra. }
  assert (E2 : (2 - 2 / 3 * (h * h) <= (1 - cos (2 * h)) / (h * h))%R). { apply Rmult_le_reg_r with (h * h)%R; auto. unfold Rdiv at 2. rewrite Rmult_assoc, Rinv_l by lra. nra. }
  assert (A1 : (Rabs c <= 1)%R) by (apply Rabs_le; lra). assert (A2 : (Rabs ((1 - cos (2 * h)) / (h * h) - 2) <= 2 / 3 * (h * h))%R) by (apply Rabs_le; lra).
  pose proof (Rabs_pos c). pose proof (Rabs_pos ((1 - cos (2 * h)) / (h * h) - 2)). nra.
Qed.

(* ---- the program ---- *)

Definition deriv_R fixed z fi zi := deriv fixed z fi zi 0%R 1%R 2%R Rplus Rmult Rminus Rdiv IZR cos sin sqrt.
(* sample i *)
Definition x_ (n i : Z) : R := (IZR i * (1 / IZR n))%R.
Definition total_R (l : list R) : R := fold_right Rplus 0%R l.

Section Run.
Variables (fixed : bool) (z : list zt) (fi : bool) (zi : list zt).
Hypothesis (Hz : zclean z) (Hzi : zclean zi).
Variables (n : Z) (y e2 y2 : view).
Hypothesis Hn : 3 <= n.
Hypothesis (Sy : vshape y = [n]) (Se : vshape e2 = [n]) (S2 : vshape y2 = [n]).
Hypothesis (Ay : apart_at y) (Ae : apart_at e2) (A2 : apart_at y2).
Hypothesis (Dye : P_Cells.separate y e2) (D2y : P_Cells.separate y2 y) (D2e : P_Cells.separate y2 e2).
Let d : R := (1 / IZR n)%R.
Notation ex := (expr (val R) (mem R)).
Notation places := (places Rmult IZR).

Lemma places_wf : wf (places d).
Proof.
  apply wf_map; [discriminate|]. apply Forall_cons; [|apply Forall_cons; [exact I|constructor]]. split; [|split].
  - split; [cbn; lia|]. cbn. constructor; [right; reflexivity|constructor].
  - constructor; [intros []|constructor].
  - reflexivity.
Qed.
Lemma places_inner : inner (places d) [n].
Proof.
  apply inner_map. apply Forall_cons; [|apply Forall_cons; [apply inner_scalar|constructor]]. split; [cbn; lia|]. intros [|k]; cbn; constructor; auto.
Qed.
Lemma places_reads : forall m, reads (places d) [n] m (fun j => x_ n (nth 0 j 0)).
Proof.
  intros m j Hj. inversion Hj as [|i ? j' ? Hi Hj' E1 E2]; subst. inversion Hj'; subst. exists (VT (x_ n i)). split; [|reflexivity]. cbn. unfold scale_op, ret, x_. do 4 f_equal. lia.
Qed.
Lemma una_wf : forall g (a : ex), wf a -> wf (una g a).
Proof. intros. apply wf_map; [discriminate|]. auto. Qed.
Lemma una_inner : forall g (a : ex) s, inner a s -> inner (una g a) s.
Proof. intros. apply inner_map. auto. Qed.
Lemma times_inner : forall g (a b : ex) s, inner a s -> inner b s -> inner (times g a b) s.
Proof. intros. apply inner_map. auto. Qed.
Hint Resolve places_wf places_inner places_reads una_wf una_inner times_inner una_reads times_reads times_wf inner_scalar : dv.

Let f (i : Z) : R := (cos (x_ n i) * cos (x_ n i))%R.
Let g (i : Z) : R := (2 * (sin (x_ n i) * sin (x_ n i) - cos (x_ n i) * cos (x_ n i)))%R.
Let h (i : Z) : R := ((f (i - 1) - 2 * f i + f (i + 1)) / (d * d))%R.

Lemma n_nonneg : nonneg [n].
Proof. apply Forall_cons; [lia|constructor]. Qed.
Lemma fill_y : forall m, exists m', assign fixed z put (viter y) (una (sqr Rmult) (una cos (places d))) m = Ok None m' /\ becomes y (fun j => f (nth 0 j 0)) m m'.
Proof.
  intros m. apply (assign_to fixed z Hz put y _ [n] (fun j => f (nth 0 j 0)) m); auto with dv; [apply n_nonneg|]. intros m1 _. apply (una_reads (sqr Rmult)). apply una_reads. apply places_reads.
Qed.
Lemma fill_e : forall m, exists m', assign fixed z put (viter e2) (times Rmult (Scalar (VT 2%R)) (times Rminus (una (sqr Rmult) (una sin (places d))) (una (sqr Rmult) (una cos (places d))))) m = Ok None m' /\
  becomes e2 (fun j => g (nth 0 j 0)) m m'.
Proof.
  intros m. apply (assign_to fixed z Hz put e2 _ [n] (fun j => g (nth 0 j 0)) m); auto with dv; [apply n_nonneg|apply times_wf; [exact I|auto with dv]|].
  intros m1 _. apply (times_reads Rmult _ _ _ _ (fun _ => 2%R)); [apply scalar_reads; reflexivity|]. apply (times_reads Rminus _ _ _ _ (fun j => sqr Rmult (sin (x_ n (nth 0 j 0)))) (fun j => sqr Rmult (cos (x_ n (nth 0 j 0))))); apply una_reads, una_reads, places_reads.
Qed.
Lemma in_n : forall i, 0 <= i < n -> inshape [i] [n].
Proof. intros. constructor; [lia|constructor]. Qed.

(* what the program computes, before its meaning *)
Lemma deriv_runs : forall m, exists m', deriv_R fixed z fi zi n y e2 y2 m = Ok (sqrt (total_R (map (fun i => (h i - g i) * (h i - g i))%R (map (fun i => i + 1) (zrange (n - 2)))) / IZR (n - 2))) m' /\
  (forall i, 0 <= i < n -> m' (vplace y [i]) = f i /\ m' (vplace e2 [i]) = g i /\ (1 <= i < n - 1 -> m' (vplace y2 [i]) = h i)) /\
  forall p, (forall i, 0 <= i < n -> p <> vplace y [i] /\ p <> vplace e2 [i] /\ (1 <= i < n - 1 -> p <> vplace y2 [i])) -> m' p = m p.
Proof.
  intros m. unfold deriv_R, deriv. fold d. destruct (fill_y m) as (m1 & E1 & B1). unfold bind. rewrite E1. destruct (fill_e m1) as (m2 & E2 & B2). rewrite E2.
  unfold iota. destruct (Z.ltb_spec (n - 2) 0); [lia|]. cbn [onres].
  assert (Y2 : forall i, 0 <= i < n -> m2 (vplace y [i]) = f i).
  { intros i Hi. rewrite (proj2 B2). { rewrite (proj1 B1); auto. rewrite Sy. apply in_n; auto. } intros j Hj E. apply (Dye [i] j); auto. rewrite Sy. apply in_n; auto. }
  assert (Ro : room [1] [1] (vshape y)) by (rewrite Sy; constructor; [lia|lia|lia|constructor]).
  destruct (C114_slices fixed z Hz y2 y [1] [1] Ro ltac:(congruence) D2y A2 (second 2%R Rplus Rmult Rminus Rdiv d) m2) as (m3 & E3 & F3 & O3).
  { cbn. repeat (apply Forall_cons; [constructor; [lia|constructor]|]). constructor. }
  rewrite E3.
  assert (R2 : room [1] [1] (vshape y2)) by (rewrite S2; constructor; [lia|lia|lia|constructor]).
  assert (V3 : forall i, 0 <= i < n -> m3 (vplace y [i]) = f i /\ m3 (vplace e2 [i]) = g i /\ (1 <= i < n - 1 -> m3 (vplace y2 [i]) = h i)).
  { intros i Hi. split; [|split].
    - rewrite O3; auto. intros j Hj E. apply (D2y j [i]); auto; [apply (interior_in [1] [1]); auto|rewrite Sy; apply in_n; auto].
    - rewrite O3. { rewrite (proj1 B2); auto. rewrite Se. apply in_n; auto. } intros j Hj E. apply (D2e j [i]); auto; [apply (interior_in [1] [1]); auto|rewrite Se; apply in_n; auto].
    - intros Hi'. rewrite F3 by (rewrite S2; constructor; [lia|constructor]). cbn [around second plus]. rewrite !Y2 by lia. unfold h. do 4 f_equal; try (f_equal; lia). }
  change [Sq (Run (n - 2)) 1 1] with (map mksq [(n - 2, 1)]).
  assert (Pok : Forall2 part_ok [(n - 2, 1)] [n]) by (apply Forall2_cons; [split; cbn [fst snd]; lia|constructor]).
  rewrite !window_part by (rewrite ?S2, ?Se; exact Pok). cbn [onres].
  assert (K2 : length [(n - 2, 1)] = vrank y2) by (rewrite vrank_shape, S2; reflexivity). assert (Ke : length [(n - 2, 1)] = vrank e2) by (rewrite vrank_shape, Se; reflexivity).
  set (a := part [(n - 2, 1)] y2). set (b := part [(n - 2, 1)] e2).
  assert (Sa : vshape a = [n - 2]) by (unfold a; rewrite part_shape; auto). assert (Sb : vshape b = [n - 2]) by (unfold b; rewrite part_shape; auto).
  assert (Pa : forall i, vplace a [i] = vplace y2 [i + 1]) by (intros i; unfold a; rewrite part_place by (auto; rewrite <- K2; reflexivity); reflexivity).
  assert (Pb : forall i, vplace b [i] = vplace e2 [i + 1]) by (intros i; unfold b; rewrite part_place by (auto; rewrite <- Ke; reflexivity); reflexivity).
  assert (Nn : nonneg [n - 2]) by (apply Forall_cons; [lia|constructor]).
  destruct (view_shape (T:=R) a _ Sa Nn) as (Wa & Ha). destruct (view_shape (T:=R) b _ Sb Nn) as (Wb & Hb).
  assert (Ra : reads (viter a) [n - 2] m3 (fun j => m3 (vplace a j))). { intros j Hj. exists (VRef (vplace a j)). rewrite viter_element, vrank_shape, whole_in by (rewrite Sa; auto). split; reflexivity. }
  assert (Rb : reads (viter b) [n - 2] m3 (fun j => m3 (vplace b j))). { intros j Hj. exists (VRef (vplace b j)). rewrite viter_element, vrank_shape, whole_in by (rewrite Sb; auto). split; reflexivity. }
  rewrite (C31_sum_partial R Rplus 0%R (una (sqr Rmult) (times Rminus (viter a) (viter b))) [n - 2] (indices [n - 2]) m3 (fun j => sqr Rmult (m3 (vplace a j) - m3 (vplace b j))%R) fi zi); auto.
  - unfold ret. eexists. split; [|split; [exact V3|]].
    + do 4 f_equal. rewrite fold_symmetric by (intros; ring). unfold total_R. cbn [indices]. clear - V3 Pa Pb Hn.
      assert (Fl : forall l : list Z, flat_map (fun i => map (cons i) [[]]) l = map (fun i => [i]) l) by (induction l as [|i l IH]; [reflexivity|exact (f_equal (cons [i]) IH)]).
      etransitivity; [apply f_equal, f_equal, Fl|]. rewrite !map_map.
      assert (Q : forall l, (forall i, In i l -> 0 <= i < n - 2) -> fold_right Rplus 0%R (map (fun i => sqr Rmult (m3 (vplace a [i]) - m3 (vplace b [i]))%R) l) =
        fold_right Rplus 0%R (map (fun i => (h (i + 1) - g (i + 1)) * (h (i + 1) - g (i + 1)))%R l)).
      { induction l as [|i l IH]; intros Hl; auto. cbn [map fold_right]. rewrite IH by (intros; apply Hl; right; auto). f_equal. pose proof (Hl i (or_introl eq_refl)). rewrite Pa, Pb. destruct (V3 (i + 1) ltac:(lia)) as (_ & -> & Q). rewrite Q by lia. reflexivity. }
      apply Q. intros i Hi. apply in_zrange in Hi. lia.
    + intros p Hp. rewrite O3, (proj2 B2), (proj2 B1); auto.
      * intros j Hj. rewrite Sy in Hj. inversion Hj as [|i ? j' ? Hi Hj']; subst. inversion Hj'; subst. apply Hp; auto.
      * intros j Hj. rewrite Se in Hj. inversion Hj as [|i ? j' ? Hi Hj']; subst. inversion Hj'; subst. apply Hp; auto.
      * intros j Hj. rewrite S2 in Hj. inversion Hj as [|? ? ? i ? ? ? j' Hi Hj']; subst. inversion Hj'; subst. apply Hp; lia.
  - apply una_wf, times_wf; auto.
  - apply (joint_shape_map _ _ _ [times Rminus (viter a) (viter b)]), joint_shape_1, (joint_shape_map _ _ _ [viter a; viter b]). apply (joint_cover _ _ _ (viter a)); [left; auto|auto|]. apply Forall_cons; [apply inner_whole; auto|]. apply Forall_cons; [apply inner_whole; auto|constructor].
  - apply row_major_indices.
  - apply (una_reads (sqr Rmult)). apply (times_reads Rminus _ _ _ _ (fun j => m3 (vplace a j)) (fun j => m3 (vplace b j))); auto.
  - exists [0]. constructor; [lia|constructor].
Qed.

Lemma total_R_le : forall (c : R) (F : Z -> R) l, (forall i, In i l -> (0 <= F i <= c)%R) -> (0 <= total_R (map F l) <= INR (length l) * c)%R.
Proof.
  intros c F l. induction l as [|i l IH]; intros H; [cbn; lra|]. cbn [map length total_R fold_right]. fold (total_R (map F l)). rewrite S_INR. pose proof (H i (or_introl eq_refl)). assert (0 <= total_R (map F l) <= INR (length l) * c)%R by (apply IH; intros; apply H; right; auto). lra.
Qed.
(* The program samples cos^2 at i/n; away from the ends, y2 is within 2/3 n^-2 of the second derivative of cos^2 there, so is the error that it gives. Nothing else is changed. *)
Theorem C134_deriv : forall m, exists err m', deriv_R fixed z fi zi n y e2 y2 m = Ok err m' /\ (0 <= err <= 2 / 3 / (IZR n * IZR n))%R /\
  (forall i, 0 <= i < n -> m' (vplace y [i]) = (cos (IZR i / IZR n) ^ 2)%R) /\
  (forall i, 1 <= i < n - 1 -> (Rabs (m' (vplace y2 [i]) - 2 * (sin (IZR i / IZR n) ^ 2 - cos (IZR i / IZR n) ^ 2)) <= 2 / 3 / (IZR n * IZR n))%R) /\
  err = sqrt (total_R (map (fun i => (m' (vplace y2 [i]) - 2 * (sin (IZR i / IZR n) ^ 2 - cos (IZR i / IZR n) ^ 2)) ^ 2)%R (map (fun i => i + 1) (zrange (n - 2)))) / IZR (n - 2)) /\
  forall p, (forall i, 0 <= i < n -> p <> vplace y [i] /\ p <> vplace e2 [i] /\ (1 <= i < n - 1 -> p <> vplace y2 [i])) -> m' p = m p.
Proof.
  intros m. destruct (deriv_runs m) as (m' & E & V & O). eexists. exists m'. split; [exact E|]. clear E.
  assert (N0 : (0 < IZR n)%R) by (apply IZR_lt; lia). assert (N3 : (3 <= IZR n)%R) by (apply IZR_le; lia). assert (N2 : (0 < IZR (n - 2))%R) by (apply IZR_lt; lia).
  assert (Dd : (0 < d <= 1)%R). { unfold d. split; [apply Rdiv_lt_0_compat; lra|]. apply Rmult_le_reg_r with (IZR n); auto. unfold Rdiv. rewrite Rmult_assoc, Rinv_l by lra. lra. }
  assert (D2 : (d * d = 1 / (IZR n * IZR n))%R) by (unfold d; field; lra).
  assert (X : forall i, x_ n i = (IZR i / IZR n)%R) by (intros i; unfold x_; field; lra).
  assert (Er : forall i, 1 <= i < n - 1 -> (Rabs (h i - g i) <= 2 / 3 * (d * d))%R).
  { intros i Hi. unfold h, g, f. replace (x_ n (i - 1)) with (x_ n i - d)%R by (unfold x_; fold d; rewrite minus_IZR; ring). replace (x_ n (i + 1)) with (x_ n i + d)%R by (unfold x_; fold d; rewrite plus_IZR; ring). apply second_error; auto. }
  assert (Vg : forall i, g i = (2 * (sin (IZR i / IZR n) ^ 2 - cos (IZR i / IZR n) ^ 2))%R) by (intros i; unfold g; rewrite X; ring).
  split; [|split; [|split; [|split]]].
  - set (t := total_R _). assert (Ht : (0 <= t <= IZR (n - 2) * ((2 / 3 * (d * d)) * (2 / 3 * (d * d))))%R).
    { unfold t. replace (IZR (n - 2)) with (INR (length (map (fun i => i + 1) (zrange (n - 2))))) by (rewrite map_length, zrange_length, INR_IZR_INZ, Z2Nat.id by lia; reflexivity).
      apply total_R_le. intros i Hi. apply in_map_iff in Hi. destruct Hi as (k & <- & Hk). apply in_zrange in Hk. specialize (Er (k + 1) ltac:(lia)). pose proof (Rle_abs (h (k + 1) - g (k + 1))) as Q1. pose proof (Rle_abs (- (h (k + 1) - g (k + 1)))) as Q2. rewrite Rabs_Ropp in Q2. split; [apply Rle_0_sqr|]. fold (Rsqr (h (k + 1) - g (k + 1))) (Rsqr (2 / 3 * (d * d))). apply neg_pos_Rsqr_le; lra. }
    assert (Hq : (0 <= t / IZR (n - 2) <= (2 / 3 * (d * d)) * (2 / 3 * (d * d)))%R).
    { split; [apply Rmult_le_pos; [tauto|left; apply Rinv_0_lt_compat; auto]|]. apply Rmult_le_reg_r with (IZR (n - 2)); auto. unfold Rdiv at 1. rewrite Rmult_assoc, Rinv_l by lra. lra. }
    split; [apply sqrt_pos|]. replace (2 / 3 / (IZR n * IZR n))%R with (2 / 3 * (d * d))%R by (rewrite D2; field; lra).
    rewrite <- (sqrt_square (2 / 3 * (d * d))) by nra. apply sqrt_le_1_alt. tauto.
  - intros i Hi. rewrite (proj1 (V i Hi)). unfold f. rewrite X. ring.
  - intros i Hi. rewrite (proj2 (proj2 (V i ltac:(lia))) Hi), <- Vg. replace (2 / 3 / (IZR n * IZR n))%R with (2 / 3 * (d * d))%R by (rewrite D2; field; lra). apply Er; auto.
  - do 3 f_equal. apply map_ext_in. intros i Hi. apply in_map_iff in Hi. destruct Hi as (k & <- & Hk). apply in_zrange in Hk. rewrite (proj2 (proj2 (V (k + 1) ltac:(lia))) ltac:(lia)), <- Vg. ring.
  - exact O.
Qed.
End Run.

(* 2(sin^2 - cos^2) is the second derivative of cos^2 *)
Theorem C134_exact : forall x, derivable_pt_lim (fun x => cos x ^ 2)%R x (- 2 * (cos x * sin x))%R /\ derivable_pt_lim (fun x => - 2 * (cos x * sin x))%R x (2 * (sin x ^ 2 - cos x ^ 2))%R.
Proof.
  intros x. split.
  - replace (- 2 * (cos x * sin x))%R with (INR 2 * cos x ^ Nat.pred 2 * - sin x)%R by (cbn; ring). apply (derivable_pt_lim_comp cos (fun y => y ^ 2)%R); [apply derivable_pt_lim_cos|apply derivable_pt_lim_pow].
  - replace (2 * (sin x ^ 2 - cos x ^ 2))%R with (- 2 * (- sin x * sin x + cos x * cos x))%R by ring. apply (derivable_pt_lim_scal (fun y => cos y * sin y)%R). apply (derivable_pt_lim_mult cos sin); [apply derivable_pt_lim_cos|apply derivable_pt_lim_sin].
Qed.
(* as in examples/deriv.cc, 100 samples: less than 7e-5 *)
Example ex_deriv : let v i := Vw [Dim 100 1] (100 * i) in
  exists err m', deriv_R true z_init false z_init 100 (v 0) (v 1) (v 2) (fun _ => 0%R) = Ok err m' /\ (0 <= err < 7 / 100000)%R.
Proof.
  cbv zeta. assert (Ap : forall i, apart_at (Vw [Dim 100 1] (100 * i))). { intros i j k Hj Hk E. apply P_Mat.in1e in Hj as (j0 & -> & Hj0). apply P_Mat.in1e in Hk as (k0 & -> & Hk0). unfold vplace in E. cbn [vcp vdv place step] in E. f_equal. lia. }
  assert (Se : forall i k, i <> k -> P_Cells.separate (Vw [Dim 100 1] (100 * i)) (Vw [Dim 100 1] (100 * k))). { intros i k Hik a b Ha Hb E. apply P_Mat.in1e in Ha as (a0 & -> & Ha0). apply P_Mat.in1e in Hb as (b0 & -> & Hb0). cbn in Ha0, Hb0. unfold vplace in E. cbn [vcp vdv place step] in E. lia. }
  destruct (C134_deriv true z_init false z_init z_init_clean z_init_clean 100 (Vw [Dim 100 1] (100 * 0)) (Vw [Dim 100 1] (100 * 1)) (Vw [Dim 100 1] (100 * 2)) ltac:(lia) eq_refl eq_refl eq_refl (Ap 0) (Ap 1) (Ap 2) (Se 0 1 ltac:(lia)) (Se 2 0 ltac:(lia)) (Se 2 1 ltac:(lia)) (fun _ => 0%R)) as (err & m' & E & B & _).
  exists err, m'. split; [exact E|]. lra.
Qed.

Print Assumptions C134_deriv.
Print Assumptions C134_exact.
