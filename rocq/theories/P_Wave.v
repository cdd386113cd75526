(* Property C125: the result of examples/laplace3d.cc. *)
From Coq Require Import ZArith Reals List Lia Lra Bool Machin Field_theory RealField.
From Verif Require Import Spec L_Spec Spec_View M_Base M_Expr M_Ply M_Val Spec_Val L_Ply M_View Spec_Cg L_Cg M_Cg P_Cells P_Cg M_Assembly P_Assembly M_Mesh P_Mesh M_Wave.
Import ListNotations.
Open Scope R_scope.

Definition rltb (a b : R) : bool := if Rlt_dec a b then true else false.
Lemma rltb_iff : forall a b, rltb a b = true <-> a < b.
Proof. intros a b. unfold rltb. destruct (Rlt_dec a b); split; auto; discriminate. Qed.
Lemma rltb_not : forall a b, rltb a b = false <-> b <= a.
Proof. intros a b. unfold rltb. destruct (Rlt_dec a b); split; auto; try discriminate; lra. Qed.
Lemma r_ordered : ordered 0 1 Rplus Rmult Rminus Ropp Rdiv Rinv rltb.
Proof.
  split; [exact Rfield|]. split; [split; [|split]|split].
  - intros a. apply rltb_not. lra.
  - intros a b c. rewrite !rltb_iff. lra.
  - intros a b. rewrite !rltb_not. lra.
  - intros a b c. rewrite !rltb_iff. lra.
  - intros a b. rewrite !rltb_iff. intros. apply Rmult_lt_0_compat; auto.
Qed.

(* ---- numbers ---- *)
Lemma pi_bound : PI * PI < 99 / 10.
Proof.
  pose proof (PI_2_3_7_ineq 1) as [_ H]. assert (B : PI <= 3.1464).
  { apply Rmult_le_reg_r with (/ 4); [lra|]. eapply Rle_trans; [unfold Rdiv in H; exact H|]. cbn [Nat.mul Nat.add sum_f_R0]. unfold tg_alt, PI_2_3_7_tg, Ratan_seq. cbn [pow Nat.mul Nat.add INR]. lra. }
  pose proof PI_RGT_0. apply Rle_lt_trans with (3.1464 * 3.1464); [apply Rmult_le_compat; lra|lra].
Qed.
(* the cosine between the terms of its series *)
Lemma cos_between : forall a, - PI / 2 <= a <= PI / 2 -> 1 - a * a / 2 + a * a * (a * a) / 24 - a * a * (a * a) * (a * a) / 720 <= cos a <= 1 - a * a / 2 + a * a * (a * a) / 24.
Proof.
  intros a Ha. destruct (cos_bound a 1 (proj1 Ha) (proj2 Ha)) as [L _]. destruct (cos_bound a 0 (proj1 Ha) (proj2 Ha)) as [_ U]. split.
  - eapply Rle_trans; [|exact L]. unfold cos_approx, cos_term. cbn [Nat.mul Nat.add sum_f_R0 fact pow]. cbn [INR]. rewrite ?mult_INR. cbn [INR]. lra.
  - eapply Rle_trans; [exact U|]. unfold cos_approx, cos_term. cbn [Nat.mul Nat.add sum_f_R0 fact pow]. cbn [INR]. lra.
Qed.
Section Ratio.
Variable a : R.
Hypothesis (Ha : 0 < a <= PI / 2).
Lemma a_square : 0 < a * a < 6.
Proof.
  destruct Ha as [H0 H1]. split; [apply Rmult_lt_0_compat; lra|]. pose proof pi_bound. apply Rle_lt_trans with (PI / 2 * (PI / 2)); [apply Rmult_le_compat; lra|lra].
Qed.
Lemma cos_less : cos a < 1.
Proof. pose proof a_square as [A0 A1]. destruct (cos_between a) as [_ U]; [lra|]. set (t := a * a) in *. assert (t * t < 6 * t) by (apply Rmult_lt_compat_r; lra). lra. Qed.
Lemma cos_more : 0 <= cos a.
Proof. apply cos_ge_0; lra. Qed.
Definition ratio : R := a * a * (2 + cos a) / (6 * (1 - cos a)).
Lemma ratio_between : 1 - a * a / 12 <= ratio <= 1.
Proof.
  pose proof a_square as [A0 A1]. pose proof cos_less as C1. destruct (cos_between a) as [L U]; [lra|]. set (t := a * a) in *. set (c := cos a) in *.
  assert (T2 : 0 < t * t) by (apply Rmult_lt_0_compat; lra). assert (T3 : 0 < t * t * t) by (apply Rmult_lt_0_compat; lra). unfold ratio. fold t c. split.
  - apply Rmult_le_reg_r with (6 * (1 - c)); [lra|]. replace (t * (2 + c) / (6 * (1 - c)) * (6 * (1 - c))) with (t * (2 + c)) by (field; lra).
    assert (Q : (1 - t / 2 + t * t / 24 - t * t * t / 720) * (6 + t / 2) <= c * (6 + t / 2)) by (apply Rmult_le_compat_r; lra).
    assert (T4 : t * t * t * t <= 6 * (t * t * t)) by (rewrite (Rmult_comm (t * t * t) t); apply Rmult_le_compat_r; lra).
    assert (E : (1 - t / 2 + t * t / 24 - t * t * t / 720) * (6 + t / 2) = 6 - 5 * t / 2 + (t * t * t) / 80 - (t * t * t * t) / 1440) by field. rewrite E in Q. lra.
  - apply Rmult_le_reg_r with (6 * (1 - c)); [lra|]. replace (t * (2 + c) / (6 * (1 - c)) * (6 * (1 - c))) with (t * (2 + c)) by (field; lra).
    assert (Q : c * (6 + t) <= (1 - t / 2 + t * t / 24) * (6 + t)) by (apply Rmult_le_compat_r; lra).
    assert (T4 : t * t * t <= 6 * (t * t)) by (rewrite (Rmult_comm (t * t) t); apply Rmult_le_compat_r; lra).
    assert (E : (1 - t / 2 + t * t / 24) * (6 + t) = 6 - 2 * t - t * t / 4 + t * t * t / 24) by field. rewrite E in Q. lra.
Qed.
End Ratio.

(* ---- the wave ---- *)
Section Wave.
Variable n : Z.
Hypothesis Hn : (2 <= n)%Z.
Definition wave (i : Z) : R := cos (/ 2 * PI * coord n i).
Notation th := (PI * step_ n).
Lemma n_pos : 2 <= IZR n.
Proof. apply IZR_le in Hn. exact Hn. Qed.
Lemma th_range : 0 < th <= PI / 2.
Proof.
  pose proof n_pos. pose proof PI_RGT_0. unfold step_. assert (0 < 1 / IZR n) by (apply Rdiv_lt_0_compat; lra). split; [apply Rmult_lt_0_compat; lra|].
  unfold Rdiv at 1. rewrite Rmult_1_l. apply Rmult_le_compat_l; [lra|]. apply Rinv_le_contravar; lra.
Qed.
Lemma wave_0 : wave 0 = 0.
Proof. unfold wave, coord. replace (/ 2 * PI * (-1 + 2 * 0 * step_ n)) with (- (PI / 2)) by field. rewrite cos_neg. apply cos_PI2. Qed.
Lemma wave_n : wave n = 0.
Proof. pose proof n_pos. unfold wave, coord, step_. replace (/ 2 * PI * (-1 + 2 * IZR n * (1 / IZR n))) with (PI / 2) by (field; lra). apply cos_PI2. Qed.
Lemma wave_next : forall i, wave (i - 1) + wave (i + 1) = 2 * cos th * wave i.
Proof.
  intros i. unfold wave, coord. rewrite minus_IZR, plus_IZR. set (y := / 2 * PI * (-1 + 2 * IZR i * step_ n)).
  replace (/ 2 * PI * (-1 + 2 * (IZR i - 1) * step_ n)) with (y - th) by (unfold y; field). replace (/ 2 * PI * (-1 + 2 * (IZR i + 1) * step_ n)) with (y + th) by (unfold y; field). rewrite cos_minus, cos_plus. ring.
Qed.
Lemma wave_1 : 0 < wave 1.
Proof.
  pose proof th_range as [T0 T1]. pose proof PI_RGT_0. unfold wave, coord. replace (/ 2 * PI * (-1 + 2 * 1 * step_ n)) with (- (PI / 2 - th)) by field. rewrite cos_neg. apply cos_gt_0; lra.
Qed.
Lemma wave_small : forall i, Rabs (wave i) <= 1.
Proof. intros i. apply Rabs_le. apply COS_bound. Qed.
Lemma f_wave : forall i j k, f_right (coord n i) (coord n j) (coord n k) = (/ 4 * 3 * PI * PI) * (wave i * wave j * wave k).
Proof. intros. unfold f_right, wave. ring. Qed.
Lemma g_wave : forall i j k, g_exact (coord n i) (coord n j) (coord n k) = wave i * wave j * wave k.
Proof. reflexivity. Qed.
Lemma values : forall c, value_S 0 1 Rplus Rmult Rminus Rdiv (2 * c) = (2 - 2 * c) * ((4 + 2 * c) * (4 + 2 * c)) / 6 /\ value_M 0 1 Rplus Rmult Rdiv (2 * c) = (4 + 2 * c) * ((4 + 2 * c) * (4 + 2 * c)) / 27.
Proof. intros c. unfold value_S, value_M. cbn [lit]. split; field. Qed.
End Wave.

Section Program.
Variables (mi : mem Z) (e0 b0 r0 n : Z).
Hypothesis (Hn : (2 <= n)%Z) (Hmesh : meshed mi e0 b0 n).
Notation N := ((n + 1) * (n + 1) * (n + 1))%Z.
Notation es := (elements_of mi e0 r0 n).
Notation bnd := (border_of mi b0 n).
Notation at_ := (pos (n + 1)).
Variables (fixed : bool) (z : list zt) (fi : bool) (zi : list zt) (Mv Mv2 : view) (mult multM : view -> view -> M (mem R) (option unit)).
Hypothesis (Hz : zclean z) (Hzi : zclean zi) (HMv : table_at r0 n Mv) (HMv2 : table_at r0 n Mv2) (Dtab : P_Cells.separate Mv Mv2).
Notation h := (step_ n).
Hypothesis (Hmult : product_by 0 Rplus Rmult mi e0 b0 r0 n fixed z zi Mv h mult) (HmultM : product_by 0 Rplus Rmult mi e0 b0 r0 n fixed z zi Mv2 (h * h * h) multM).
Variables (aux b x work : view).
Hypothesis (Saux : vshape aux = [N]) (Sb : vshape b = [N]) (Sx : vshape x = [N]) (Sw : vshape work = [3%Z; N]) (Ab : apart_at b) (Ax : apart_at x) (Aw : apart_at work).
Hypothesis (Dba : P_Cells.separate b aux) (Dxb : P_Cells.separate x b) (Dwx : P_Cells.separate work x) (Dwb : P_Cells.separate work b).
Hypothesis (Cb : clear_of (mine 8 Mv es) b) (Cx : clear_of (mine 8 Mv es) x) (Cw : clear_of (mine 8 Mv es) work) (Caux : clear_of (mine 8 Mv2 es) aux) (Cb2 : clear_of (mine 8 Mv2 es) b) (Cx2 : clear_of (mine 8 Mv2 es) x).
Theorem C125_error : forall eps c m, eps * eps < 1 -> ok 8 Mv (entry 0 (SM 0 1 Rplus Rdiv Ropp)) m -> ok 8 Mv2 (entry 0 (MM 0 1 Rplus Rdiv)) m ->
  (forall i j k, vertex n i j k -> m (vplace aux [at_ i j k]) = f_right (coord n i) (coord n j) (coord n k)) -> (forall i j k, vertex n i j k -> m (vplace b [at_ i j k]) = 0) -> (forall i j k, vertex n i j k -> m (vplace x [at_ i j k]) = 0) -> (1 < c)%nat ->
  exists m1 m', multM aux b m = Ok None m1 /\ cghs fixed z fi zi Rplus Rminus Rmult Rdiv 0 rltb mult c b x work eps m1 = Ok 1%Z m' /\
  forall i j k, vertex n i j k -> Rabs (g_exact (coord n i) (coord n j) (coord n k) - m' (vplace x [at_ i j k])) <= PI * PI / (12 * (IZR n * IZR n)).
Proof.
  intros eps c m He K K2 Haux Hb Hx Hc. set (th := PI * step_ n). pose proof (th_range n Hn) as Th. fold th in Th. pose proof (cos_less th Th) as C1. pose proof (cos_more th Th) as C0. pose proof (n_pos n Hn) as Np.
  assert (H0 : 0 < step_ n) by (unfold step_; apply Rdiv_lt_0_compat; lra). destruct (values (cos th)) as [VS VM].
  assert (VSp : 0 < value_S 0 1 Rplus Rmult Rminus Rdiv (2 * cos th)) by (rewrite VS; apply Rdiv_lt_0_compat; [|lra]; apply Rmult_lt_0_compat; [lra|apply Rmult_lt_0_compat; lra]).
  assert (VMp : 0 < value_M 0 1 Rplus Rmult Rdiv (2 * cos th)) by (rewrite VM; apply Rdiv_lt_0_compat; [|lra]; apply Rmult_lt_0_compat; [lra|apply Rmult_lt_0_compat; lra]).
  pose proof PI_RGT_0 as Pp. assert (Ap : 0 < / 4 * 3 * PI * PI) by (apply Rmult_lt_0_compat; [|lra]; apply Rmult_lt_0_compat; lra). assert (Hhh : 0 < h * h * h) by (apply Rmult_lt_0_compat; [apply Rmult_lt_0_compat|]; lra).
  destruct (C124_program 0 1 Rplus Rmult Rminus Ropp Rdiv Rinv rltb r_ordered mi e0 b0 r0 n ltac:(lia) Hmesh fixed z fi zi Hz Hzi Mv h mult HMv Hmult b x work Sb Sx Sw Ax Aw Dxb Dwx Dwb Cb Cx Cw Mv2 (h * h * h) multM aux HMv2 HmultM Dtab Saux Ab Dba Caux Cb2 Cx2
    (wave n) (2 * cos th) (/ 4 * 3 * PI * PI) eps c m (wave_0 n) (wave_n n Hn) (fun i _ => wave_next n i)) as (m1 & t & m' & E1 & B1 & E2 & Q); auto.
  { apply Rgt_not_eq. apply Rmult_lt_0_compat; lra. }
  { intros i j k V. rewrite Haux by auto. apply f_wave. }
  exists m1, m'. split; [exact E1|]. destruct Q as [(-> & Q)|(-> & _ & Q)].
  - split; [exact E2|]. intros i j k V. specialize (Q i j k V). rewrite g_wave. set (w := wave n i * wave n j * wave n k) in *. assert (E : m' (vplace x [at_ i j k]) = ratio th * w).
    { apply Rmult_eq_reg_l with (value_S 0 1 Rplus Rmult Rminus Rdiv (2 * cos th) * step_ n); [|apply Rgt_not_eq; apply Rmult_lt_0_compat; lra]. rewrite Q. rewrite VS, VM. unfold ratio. replace (th * th) with (PI * PI * (step_ n * step_ n)) by (unfold th; ring). field. lra. }
    rewrite E. replace (w - ratio th * w) with ((1 - ratio th) * w) by ring. rewrite Rabs_mult. pose proof (ratio_between th Th) as [R1 R2]. rewrite (Rabs_pos_eq (1 - ratio th)) by lra.
    assert (W : Rabs w <= 1).
    { unfold w. rewrite !Rabs_mult. pose proof (wave_small n i). pose proof (wave_small n j). pose proof (wave_small n k). pose proof (Rabs_pos (wave n i)). pose proof (Rabs_pos (wave n j)). pose proof (Rabs_pos (wave n k)).
      replace 1 with (1 * 1 * 1) by ring. apply Rmult_le_compat; auto; [apply Rmult_le_pos; auto|apply Rmult_le_compat; auto]. }
    apply Rle_trans with ((1 - ratio th) * 1); [apply Rmult_le_compat_l; lra|]. rewrite Rmult_1_r. apply Rle_trans with (th * th / 12); [lra|]. right. unfold th, step_. field. lra.
  - exfalso. apply rltb_not in Q. assert (Bp : 0 < scalar_product 0 Rplus Rmult [N] (P_Cg.at_ m1 b) (P_Cg.at_ m1 b)).
    { apply rltb_iff. apply (ip_pos 0 1 Rplus Rmult Rminus Ropp Rdiv Rinv rltb r_ordered). exists [at_ 1 1 1]%Z. split; [apply Nin; lia|]. unfold P_Cg.at_. rewrite B1 by (repeat split; lia). apply Rgt_not_eq. pose proof (wave_1 n Hn).
      apply Rmult_lt_0_compat; [apply Rmult_lt_0_compat; lra|]. apply Rmult_lt_0_compat; [lra|]. apply Rmult_lt_0_compat; [apply Rmult_lt_0_compat; lra|lra]. }
    set (B := scalar_product 0 Rplus Rmult [N] (P_Cg.at_ m1 b) (P_Cg.at_ m1 b)) in *. assert (eps * eps * B < 1 * B) by (apply Rmult_lt_compat_r; lra). lra.
Qed.
(* the tests in the program *)
Corollary C125_tests : forall c m, n = 50%Z -> ok 8 Mv (entry 0 (SM 0 1 Rplus Rdiv Ropp)) m -> ok 8 Mv2 (entry 0 (MM 0 1 Rplus Rdiv)) m ->
  (forall i j k, vertex n i j k -> m (vplace aux [at_ i j k]) = f_right (coord n i) (coord n j) (coord n k)) -> (forall i j k, vertex n i j k -> m (vplace b [at_ i j k]) = 0) -> (forall i j k, vertex n i j k -> m (vplace x [at_ i j k]) = 0) -> (1 < c)%nat ->
  exists m1 its m', multM aux b m = Ok None m1 /\ cghs fixed z fi zi Rplus Rminus Rmult Rdiv 0 rltb mult c b x work (1 / 100000) m1 = Ok its m' /\ (its <= 1)%Z /\
  forall i j k, vertex n i j k -> Rabs (g_exact (coord n i) (coord n j) (coord n k) - m' (vplace x [at_ i j k])) <= 0.00033.
Proof.
  intros c m Nn K K2 Haux Hb Hx Hc. destruct (C125_error (1 / 100000) c m ltac:(lra) K K2 Haux Hb Hx Hc) as (m1 & m' & E1 & E2 & Q). exists m1, 1%Z, m'. split; [exact E1|]. split; [exact E2|]. split; [lia|].
  intros i j k V. eapply Rle_trans; [apply Q; auto|]. rewrite Nn. pose proof pi_bound. lra.
Qed.
End Program.

(* ---- example: n = 50, one array after another ---- *)
Open Scope Z_scope.
Definition wMem (n : Z) : mem R := fun p =>
  if p <? 64 then entry 0%R (SM 0%R 1%R Rplus Rdiv Ropp) (p / 8) (p mod 8) else if p <? 128 then entry 0%R (MM 0%R 1%R Rplus Rdiv) ((p - 64) / 8) ((p - 64) mod 8)
  else if p <? 128 + (n + 1) * (n + 1) * (n + 1) then let q := p - 128 in f_right (coord n (q / (n + 1) / (n + 1))) (coord n ((q / (n + 1)) mod (n + 1))) (coord n (q mod (n + 1))) else 0%R.
Example ex_tests : exists mi, meshed mi 0 (8 * (50 * 50 * 50)) 50 /\ forall mult, mult = (fun Mv h => mult0 false [] [] Rplus Rmult 0%R Mv (elements_of mi 0 (128 + 6 * (51 * 51 * 51)) 50) (border_of mi (8 * (50 * 50 * 50)) 50) h) \/ mult = (fun Mv h => mult1 false [] [] Rplus Rmult 0%R 8 Mv (elements_of mi 0 (128 + 6 * (51 * 51 * 51)) 50) (border_of mi (8 * (50 * 50 * 50)) 50) h) ->
  exists m1 its m', mult mMs (step_ 50 * step_ 50 * step_ 50)%R (mA 50) (mB 50) (wMem 50) = Ok None m1 /\ cghs false [] false [] Rplus Rminus Rmult Rdiv 0%R rltb (mult mS (step_ 50)) 2 (mB 50) (mX 50) (mW 50) (1 / 100000)%R m1 = Ok its m' /\ its <= 1 /\
  forall i j k, vertex 50 i j k -> (Rabs (g_exact (coord 50 i) (coord 50 j) (coord 50 k) - m' (vplace (mX 50) [pos 51 i j k])) <= 0.00033)%R.
Proof.
  destruct (C124_mesh false [] 0 (8 * (50 * 50 * 50)) 50 (fun _ => 0)) as (m1 & mi & _ & _ & Hm); [lia|constructor|lia|]. exists mi. split; [exact Hm|]. intros mult HM.
  destruct (ex_layout mi 0 50) as (L1 & L2 & L3 & L4 & L5 & L6 & L7 & L8 & L9 & L10 & L11 & L12 & L13 & L14 & L15 & L16 & L17 & L18 & L19 & L20); [lia|].
  assert (D : forall d i k, 0 <= k < d -> (d * i + k) / d = i /\ (d * i + k) mod d = k) by (intros d i k Hk; split; [symmetry; apply Z.div_unique with k; lia|symmetry; apply Z.mod_unique with i; lia]).
  apply (C125_tests mi 0 (8 * (50 * 50 * 50)) (128 + 6 * (51 * 51 * 51)) 50 ltac:(lia) Hm false [] false [] mS mMs (mult mS (step_ 50)) (mult mMs (step_ 50 * step_ 50 * step_ 50)%R) ltac:(constructor) ltac:(constructor) L1 L2 L3); auto; try (destruct HM as [-> | ->]; [left; reflexivity|right; reflexivity]).
  - intros i k Hi Hk. unfold mS. rewrite table_place. unfold wMem. destruct (Z.ltb_spec (0 + 8 * i + k) 64); [|lia]. rewrite Z.add_0_l. destruct (D 8 i k Hk) as [-> ->]. reflexivity.
  - intros i k Hi Hk. unfold mMs. rewrite table_place. unfold wMem. destruct (Z.ltb_spec (64 + 8 * i + k) 64); [lia|]. destruct (Z.ltb_spec (64 + 8 * i + k) 128); [|lia]. replace (64 + 8 * i + k - 64) with (8 * i + k) by lia. destruct (D 8 i k Hk) as [-> ->]. reflexivity.
  - intros i j k (Vi & Vj & Vk). unfold mA. rewrite one_place. pose proof (pos_range (50 + 1) i j k ltac:(lia) ltac:(lia) ltac:(lia)) as R. unfold wMem. set (q := pos (50 + 1) i j k) in *. destruct (Z.ltb_spec (128 + q) 64); [lia|]. destruct (Z.ltb_spec (128 + q) 128); [lia|]. destruct (Z.ltb_spec (128 + q) (128 + (50 + 1) * (50 + 1) * (50 + 1))); [|lia].
    cbv zeta. replace (128 + q - 128) with q by lia. unfold q, pos. destruct (D (50 + 1) ((50 + 1) * i + j) k ltac:(lia)) as [-> ->]. destruct (D (50 + 1) i j ltac:(lia)) as [-> ->]. reflexivity.
  - intros i j k (Vi & Vj & Vk). unfold mB. rewrite one_place. pose proof (pos_range (50 + 1) i j k ltac:(lia) ltac:(lia) ltac:(lia)) as R. unfold wMem. set (q := pos (50 + 1) i j k) in *. destruct (Z.ltb_spec (128 + (50 + 1) * (50 + 1) * (50 + 1) + q) 64); [lia|]. destruct (Z.ltb_spec (128 + (50 + 1) * (50 + 1) * (50 + 1) + q) 128); [lia|]. destruct (Z.ltb_spec (128 + (50 + 1) * (50 + 1) * (50 + 1) + q) (128 + (50 + 1) * (50 + 1) * (50 + 1))); [lia|reflexivity].
  - intros i j k (Vi & Vj & Vk). unfold mX. rewrite one_place. pose proof (pos_range (50 + 1) i j k ltac:(lia) ltac:(lia) ltac:(lia)) as R. unfold wMem. set (q := pos (50 + 1) i j k) in *. destruct (Z.ltb_spec (128 + 2 * ((50 + 1) * (50 + 1) * (50 + 1)) + q) 64); [lia|]. destruct (Z.ltb_spec (128 + 2 * ((50 + 1) * (50 + 1) * (50 + 1)) + q) 128); [lia|]. destruct (Z.ltb_spec (128 + 2 * ((50 + 1) * (50 + 1) * (50 + 1)) + q) (128 + (50 + 1) * (50 + 1) * (50 + 1))); [lia|reflexivity].
Qed.

Print Assumptions C125_error.
Print Assumptions C125_tests.
