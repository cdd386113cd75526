(* Binomial coefficients, combinations, signs, Hodge, wedge product: C46-C49, C68-C70. *)
From Coq Require Import ZArith List Lia Bool Permutation Ring.
From Verif Require Import M_Wedge Spec_Wedge L_Wedge.
Import ListNotations.
Open Scope nat_scope.

(* ---- C46 ---- *)
Lemma pascal_S : forall n p, pascal (S n) (S p) = (pascal n p + pascal n (S p))%Z.
Proof. reflexivity. Qed.
Lemma pascal_next : forall n i, (Z.of_nat (S i) * pascal n (S i) = (Z.of_nat n - Z.of_nat i) * pascal n i)%Z.
Proof.
  induction n as [|n IH]; intros i.
  - destruct i; cbn [pascal]; [reflexivity|ring].
  - rewrite pascal_S, Z.mul_add_distr_l, IH. destruct i as [|i]; [rewrite !pascal_0; lia|]. rewrite pascal_S. specialize (IH i).
    replace ((Z.of_nat (S n) - Z.of_nat (S i)) * (pascal n i + pascal n (S i)))%Z with ((Z.of_nat n - Z.of_nat i) * pascal n i + (Z.of_nat n - Z.of_nat i) * pascal n (S i))%Z by (rewrite !Nat2Z.inj_succ; ring).
    rewrite <- IH. rewrite !Nat2Z.inj_succ. ring.
Qed.
Lemma pascal_sym : forall n p, p <= n -> pascal n p = pascal n (n - p).
Proof.
  induction n as [|n IH]; intros p H; [replace p with 0 by lia; reflexivity|]. destruct p as [|p]; [rewrite pascal_0, Nat.sub_0_r, pascal_full; reflexivity|].
  destruct (Nat.eq_dec p n) as [->|Hp]; [rewrite Nat.sub_diag, pascal_full, pascal_0; reflexivity|].
  replace (S n - S p) with (S (n - S p)) by lia. rewrite !pascal_S. rewrite (IH p), (IH (S p)) by lia. replace (S (n - S p)) with (n - p) by lia. ring.
Qed.
Lemma pascal_nonneg : forall n p, (0 <= pascal n p)%Z.
Proof. induction n as [|n IH]; intros [|p]; try (cbn; lia). rewrite pascal_S. pose proof (IH p). pose proof (IH (S p)). lia. Qed.
Lemma pascal_mono : forall n m p, n <= m -> (pascal n p <= pascal m p)%Z.
Proof.
  intros n m p H. induction H as [|m H IH]; [lia|]. destruct p as [|p]; [rewrite !pascal_0; lia|]. rewrite pascal_S. pose proof (pascal_nonneg m p). lia.
Qed.

Lemma loop_exact : forall (w : Z -> Z) n k i, (forall j, i <= j < i + k -> w (pascal n j * (Z.of_nat n - Z.of_nat j))%Z = (pascal n j * (Z.of_nat n - Z.of_nat j))%Z) ->
  binom_loop w k (Z.of_nat n) (Z.of_nat i) (pascal n i) = pascal n (i + k).
Proof.
  intros w n. induction k as [|k IH]; intros i H; cbn [binom_loop]; [rewrite Nat.add_0_r; reflexivity|]. rewrite H by lia.
  replace (pascal n i * (Z.of_nat n - Z.of_nat i))%Z with (pascal n (S i) * (Z.of_nat i + 1))%Z by (pose proof (pascal_next n i); lia).
  rewrite Z.div_mul by lia. replace (Z.of_nat i + 1)%Z with (Z.of_nat (S i)) by lia. rewrite IH; [f_equal; lia|]. intros j Hj. apply H. lia.
Qed.
Lemma binom_exact : forall (w : Z -> Z) n p, (forall j, j < Nat.min p (n - p) -> w (pascal n j * (Z.of_nat n - Z.of_nat j))%Z = (pascal n j * (Z.of_nat n - Z.of_nat j))%Z) ->
  binom w (Z.of_nat n) (Z.of_nat p) = pascal n p.
Proof.
  intros w n p H. unfold binom. destruct (Z.gtb_spec (Z.of_nat p) (Z.of_nat n)); [rewrite pascal_zero by lia; reflexivity|]. cbv zeta.
  change 1%Z with (pascal n 0) at 1 || rewrite <- (pascal_0 n) at 1.
  destruct (Z.gtb_spec (Z.of_nat p) (Z.of_nat n - Z.of_nat p)).
  - replace (Z.to_nat (Z.of_nat n - Z.of_nat p)) with (n - p) by lia. change 0%Z with (Z.of_nat 0). rewrite loop_exact; [cbn [Nat.add]; symmetry; apply pascal_sym; lia|]. intros j Hj. apply H. lia.
  - rewrite Nat2Z.id. change 0%Z with (Z.of_nat 0). rewrite loop_exact; [reflexivity|]. intros j Hj. apply H. lia.
Qed.

(* binom() is the binomial coefficient if there's no overflow *)
Theorem C46_exact : forall n p, binom unlimited (Z.of_nat n) (Z.of_nat p) = pascal n p.
Proof. intros. apply binom_exact. reflexivity. Qed.
(* and if the products in the loop fit in 64 bits *)
Theorem C46_fits : forall n p, (forall i, i < Nat.min p (n - p) -> (pascal n i * (Z.of_nat n - Z.of_nat i) < 2 ^ 64)%Z) -> binom word64 (Z.of_nat n) (Z.of_nat p) = pascal n p.
Proof.
  intros n p H. apply binom_exact. intros j Hj. unfold word64. apply Z.mod_small. split; [|apply H; auto]. apply Z.mul_nonneg_nonneg; [apply pascal_nonneg|lia].
Qed.
Lemma small_products : forall b n, forallb (fun i => (binom unlimited (Z.of_nat n) (Z.of_nat i) * (Z.of_nat n - Z.of_nat i) <? 2 ^ 64)%Z) (seq 0 b) = true ->
  forall i, i < b -> (pascal n i * (Z.of_nat n - Z.of_nat i) < 2 ^ 64)%Z.
Proof. intros b n H i Hi. rewrite forallb_forall in H. rewrite <- C46_exact. apply Z.ltb_lt. apply H. apply in_seq. lia. Qed.
Theorem C46_62 : forall n p, n <= 62 -> (forall i, i < Nat.min p (n - p) -> (pascal n i * (Z.of_nat n - Z.of_nat i) < 2 ^ 64)%Z) /\ binom word64 (Z.of_nat n) (Z.of_nat p) = pascal n p.
Proof.
  intros n p Hn. assert (B : forall i, i < Nat.min p (n - p) -> (pascal n i * (Z.of_nat n - Z.of_nat i) < 2 ^ 64)%Z); [|split; [exact B|apply C46_fits; exact B]].
  intros i Hi. assert (S62 : forall k, k < 31 -> (pascal 62 k * (Z.of_nat 62 - Z.of_nat k) < 2 ^ 64)%Z) by (apply small_products; vm_compute; reflexivity).
  eapply Z.le_lt_trans; [|apply (S62 i); lia]. pose proof (pascal_mono n 62 i Hn). pose proof (pascal_nonneg n i). apply Z.mul_le_mono_nonneg; lia.
Qed.
Theorem C46_63 : forall p, p <= 28 \/ 35 <= p -> binom word64 63 (Z.of_nat p) = pascal 63 p.
Proof.
  intros p Hp. change 63%Z with (Z.of_nat 63). apply C46_fits. intros i Hi. revert i Hi. assert (S63 : forall k, k < 28 -> (pascal 63 k * (Z.of_nat 63 - Z.of_nat k) < 2 ^ 64)%Z) by (apply small_products; vm_compute; reflexivity).
  intros i Hi. apply S63. lia.
Qed.
(* the documented limit is exact *)
Theorem C46_limit : forall p, 29 <= p <= 34 -> binom word64 63 (Z.of_nat p) <> pascal 63 p.
Proof.
  intros p Hp. rewrite <- C46_exact. assert (E : forallb (fun p => negb (binom word64 63 (Z.of_nat p) =? binom unlimited (Z.of_nat 63) (Z.of_nat p))%Z) (seq 29 6) = true) by (vm_compute; reflexivity).
  rewrite forallb_forall in E. specialize (E p). apply Z.eqb_neq. apply negb_true_iff, E, in_seq. lia.
Qed.
Print Assumptions C46_exact.
Print Assumptions C46_fits.
Print Assumptions C46_62.
Print Assumptions C46_63.
Print Assumptions C46_limit.
Example C46_ex : binom word64 5 2 = 10%Z /\ binom word64 2 5 = 0%Z /\ pascal 5 2 = 10%Z /\ binom word64 62 31 = 465428353255261088%Z.
Proof. vm_compute. auto. Qed.

(* ---- C68: permsign ---- *)
Theorem C68_sign : forall C R, NoDup R -> (Permutation C R -> permsign C R = sign C R) /\ (~ Permutation C R -> permsign C R = 0%Z).
Proof.
  intros C R N. split; intros H; [rewrite sign_par; apply permsign_sign; auto|apply permsign_zero; auto].
Qed.
(* exchange of two neighbours changes the sign *)
Theorem C68_exchange : forall C1 x y C2 R, NoDup R -> Permutation (C1 ++ x :: y :: C2) R -> permsign (C1 ++ y :: x :: C2) R = (- permsign (C1 ++ x :: y :: C2) R)%Z.
Proof.
  intros C1 x y C2 R N P. assert (P' : Permutation (C1 ++ y :: x :: C2) R) by (rewrite <- P; apply Permutation_app_head; constructor).
  rewrite !permsign_sign by auto. rewrite par_swap2.
  - destruct (par (C1 ++ x :: y :: C2)), (par R); reflexivity.
  - intros ->. apply Permutation_sym in P. apply (Permutation_NoDup P) in N. apply NoDup_remove_2 in N. apply N. apply in_app_iff. right. left. auto.
Qed.
Print Assumptions C68_sign.
Print Assumptions C68_exchange.
Example C68_ex : permsign [2; 0; 3; 1] [0; 1; 2; 3] = (-1)%Z /\ inversions [2; 0; 3; 1] = 3 /\ permsign [2; 0; 1] [1; 2; 0] = 1%Z /\ permsign [2; 0; 0] [0; 1; 2] = 0%Z.
Proof. vm_compute. auto. Qed.

(* ---- C47 ---- *)
Lemma choose_length : forall D O, O <= D -> Z.of_nat (length (choose D O)) = pascal D O.
Proof.
  intros D O HO. assert (Li : length (iota D) = D) by apply seq_length.
  destruct (le_lt_dec (2 * O) D) as [H|H]; [rewrite choose_low, combs_length, Li by auto; reflexivity|].
  destruct (le_lt_dec D 1) as [H1|H1]; [rewrite choose_low, combs_length, Li by auto; reflexivity|].
  rewrite choose_high by auto. rewrite map_length, combs_length, Li. symmetry. apply pascal_sym; auto.
Qed.
Theorem C47_choose : forall D O, O <= D -> enumerates D O (choose D O) /\ Z.of_nat (length (choose D O)) = binom unlimited (Z.of_nat D) (Z.of_nat O).
Proof. intros D O HO. split; [apply enum_choose; auto|]. rewrite C46_exact. apply choose_length; auto. Qed.
(* in lexical order if 2*O<=D; otherwise the i-th is what completes the i-th of D-O to an even permutation *)
Theorem C47_even : forall D O i, D < 2 * O -> 1 < D -> O <= D -> i < length (choose D O) -> Permutation (nth i (choose D (D - O)) [] ++ nth i (choose D O) []) (iota D) /\
  sign (nth i (choose D (D - O)) [] ++ nth i (choose D O) []) (iota D) = 1%Z.
Proof.
  intros D O i H H1 HO Hi. rewrite (choose_high D O) in Hi |- * by auto. rewrite (choose_low D (D - O)) by (left; lia). rewrite map_length in Hi.
  set (c := nth i (combs (iota D) (D - O)) []). assert (Hc : comb D (D - O) c) by (apply combs_comb, nth_In; auto).
  replace (nth i (map (fun C => anticomb C D) (combs (iota D) (D - O))) []) with (anticomb c D).
  2: { rewrite (nth_indep _ [] (anticomb [] D)) by (rewrite map_length; auto). rewrite (map_nth (fun C => anticomb C D)). reflexivity. }
  pose proof (complement_long D O c H H1 HO Hc) as L2. assert (P : Permutation (c ++ anticomb c D) (iota D)) by (rewrite anticomb_perm by auto; eapply comb_split; eauto).
  split; [exact P|]. rewrite sign_par, <- permsign_sign by auto using iota_nodup. eapply anticomb_sign; eauto.
Qed.
Print Assumptions C47_choose.
Print Assumptions C47_even.
Example C47_ex : choose 4 2 = [[0; 1]; [0; 2]; [0; 3]; [1; 2]; [1; 3]; [2; 3]] /\ choose 3 2 = [[1; 2]; [2; 0]; [0; 1]] /\ choose 4 3 = [[1; 2; 3]; [2; 0; 3]; [0; 1; 3]; [1; 0; 2]].
Proof. vm_compute. auto. Qed.

(* ---- C48, C69: Hodge ---- *)
Lemma choose_full : forall D, choose D D = [iota D].
Proof.
  intros D. destruct (le_lt_dec D 1) as [H|H].
  - rewrite choose_low by auto. destruct D as [|[|D]]; [reflexivity|reflexivity|lia].
  - rewrite choose_high by lia. rewrite Nat.sub_diag. assert (E : combs (iota D) 0 = [[]]) by (destruct D; reflexivity). rewrite E. cbn [map]. f_equal.
    assert (C0 : complement [] D = iota D) by (unfold complement; rewrite complement_filter; cbn; clear; induction (iota D) as [|x l IH]; cbn; congruence).
    assert (L2 : 2 <= length (complement [] D)) by (rewrite C0; unfold iota; rewrite seq_length; lia).
    destruct (anticomb_cases [] D L2) as (x & y & l & E1 & ->). rewrite E1, <- E1, C0. cbn [app]. rewrite permsign_sign by auto using iota_nodup. rewrite sg_neg, par_iota. cbn [xorb]. rewrite <- C0, E1. reflexivity.
Qed.
(* b[w] gets a[i], with the sign of [Ca[i], Cb[w]] *)
Lemma hodge_step_spec : forall D O i, O <= D -> i < length (choose D O) -> exists w, w < length (choose D (D - O)) /\
  hodge_step D O i = Some (w, sign (nth i (choose D O) [] ++ nth w (choose D (D - O)) []) (iota D)) /\
  Permutation (nth i (choose D O) [] ++ nth w (choose D (D - O)) []) (iota D) /\
  forall k, k < length (choose D (D - O)) -> Permutation (nth i (choose D O) [] ++ nth k (choose D (D - O)) []) (iota D) -> k = w.
Proof.
  intros D O i HO Hi. unfold hodge_step. set (Cai := nth i (choose D O) []). assert (Hc : comb D O Cai) by (apply (enum_choose D O HO), nth_In; auto).
  destruct (find_enum D O _ Cai (enum_combs D O HO) Hc) as (k & -> & Hk & Pk & _). set (S := nth k (combs (iota D) O) []) in *.
  assert (Es : complement S D = complement Cai D) by (apply complement_perm, Permutation_sym; auto).
  rewrite Es. pose proof (comb_complement D O Cai Hc) as Hcc. destruct (find_enum D (D - O) _ _ (enum_choose D (D - O) ltac:(lia)) Hcc) as (w & -> & Hw & Pw & _ & U).
  assert (Pf : Permutation (Cai ++ nth w (choose D (D - O)) []) (iota D)) by (rewrite <- Pw; eapply comb_split; eauto).
  exists w. split; auto. split; [|split; auto].
  - replace (O + (D - O)) with D by lia. rewrite choose_full. unfold findcomb_sign. cbn [findcomb_where].
    rewrite permsign_sign by auto using iota_nodup. rewrite sign_par. set (b := xorb _ _). replace (negb (sg b =? 0)%Z) with true by (destruct b; reflexivity). cbn [nth].
    unfold b. rewrite permsign_sign by auto using iota_nodup. reflexivity.
  - intros k' Hk' Pk'. apply U; auto. apply (Permutation_app_inv_l Cai). rewrite Pk'. eapply comb_split; eauto.
Qed.

Section Hodge.
Variables (R : Type) (rmul : R -> R -> R) (rsign : Z -> R).

Lemma hodge_aux_spec : forall D O, O <= D -> forall (a : nat -> R) k i b, i + k = length (choose D O) ->
  exists b', hodge_aux R rmul rsign D O k i a b = Some b' /\
    (forall i' w s, i <= i' < i + k -> hodge_step D O i' = Some (w, s) -> b' w = rmul (rsign s) (a i')) /\
    (forall j, length (choose D (D - O)) <= j -> b' j = b j) /\
    (forall j, (forall i' w s, i <= i' < i + k -> hodge_step D O i' = Some (w, s) -> j <> w) -> b' j = b j).
Proof.
  intros D O HO a. induction k as [|k IH]; intros i b Hk; cbn [hodge_aux].
  - exists b. split; auto. split; [intros; lia|]. auto.
  - destruct (hodge_step_spec D O i HO) as (w & Hw & E & P & U); [lia|]. rewrite E.
    destruct (IH (S i) (fun j => if Nat.eqb j w then rmul (rsign (sign (nth i (choose D O) [] ++ nth w (choose D (D - O)) []) (iota D))) (a i) else b j)) as (b' & E' & H1 & H2 & H3); [lia|].
    exists b'. split; auto. split; [|split].
    + intros i' w' s' Hi' Es. destruct (Nat.eq_dec i' i) as [->|Ne].
      * rewrite E in Es. inversion Es; subst. rewrite H3.
        -- rewrite Nat.eqb_refl. reflexivity.
        -- intros i'' w'' s'' Hi'' Es'' <-. destruct (hodge_step_spec D O i'' HO) as (w3 & _ & E3 & P3 & _); [lia|]. rewrite E3 in Es''. inversion Es''; subst.
           assert (i'' = i); [|lia]. pose proof (enum_choose D O HO) as (N1 & N2). destruct (N2 (nth i (choose D O) [])) as (q & _ & _ & Uq); [apply N1, nth_In; lia|].
           rewrite (Uq i) by (auto; lia). apply Uq; [lia|]. apply (Permutation_app_inv_r (nth w' (choose D (D - O)) [])). rewrite P, P3. reflexivity.
      * apply (H1 i' w' s'); auto. lia.
    + intros j Hj. rewrite H2 by auto. destruct (Nat.eqb_spec j w); [lia|reflexivity].
    + intros j Hj. rewrite H3.
      * destruct (Nat.eqb_spec j w); [|reflexivity]. exfalso. eapply (Hj i); eauto. lia.
      * intros i' w' s' Hi' Es. eapply Hj; eauto. lia.
Qed.
Lemma choose_len_sym : forall D O, O <= D -> length (choose D O) = length (choose D (D - O)).
Proof. intros D O H. apply Nat2Z.inj. rewrite !choose_length by lia. apply pascal_sym; auto. Qed.

(* the step in the trivial case *)
Lemma trivial_step : forall D O i, O <= D -> hodge_trivial D O = true -> i < length (choose D O) -> hodge_step D O i = Some (i, 1%Z).
Proof.
  intros D O i HO T Hi. destruct (hodge_step_spec D O i HO Hi) as (w & Hw & E & P & U). rewrite E.
  unfold hodge_trivial in T. apply andb_true_iff in T as (T1 & T2). apply negb_true_iff, Nat.eqb_neq in T1.
  assert (Pi : Permutation (nth i (choose D O) [] ++ nth i (choose D (D - O)) []) (iota D) /\ sign (nth i (choose D O) [] ++ nth i (choose D (D - O)) []) (iota D) = 1%Z).
  2: { destruct Pi as (Pi & Si). rewrite <- (U i) by (auto; rewrite <- choose_len_sym; auto). rewrite Si. reflexivity. }
  destruct (le_lt_dec D 1) as [D1|D1].
  { destruct D as [|[|D]]; [cbn in T1; lia| |lia]. destruct O as [|[|O]]; [| |lia]; cbn in Hi; (destruct i; [|lia]); split; cbn; auto. }
  apply orb_true_iff in T2 as [T2|T2].
  - apply Nat.ltb_lt in T2. pose proof (C47_even D (D - O) i) as H. replace (D - (D - O)) with O in H by lia. apply H; try lia. rewrite <- choose_len_sym; auto.
  - destruct (le_lt_dec (2 * O) D) as [L|L].
    + pose proof (C47_even D (D - O) i) as H. replace (D - (D - O)) with O in H by lia. apply H; try lia. rewrite <- choose_len_sym; auto.
    + destruct (C47_even D O i L D1 HO Hi) as (P1 & S1). split; [rewrite Permutation_app_comm; auto|]. rewrite sign_par in S1 |- *. rewrite sign_swap.
      * assert (L1 : length (nth i (choose D O) []) = O) by (apply (enum_choose D O HO); apply nth_In; auto).
        assert (L2 : length (nth i (choose D (D - O)) []) = D - O) by (apply (enum_choose D (D - O) ltac:(lia)); apply nth_In; rewrite <- choose_len_sym; auto).
        rewrite L1, L2. apply negb_true_iff in T2. rewrite T2, xorb_false_r. exact S1.
      * intros x H1 H2. apply Permutation_sym in P1. apply (Permutation_NoDup P1) in iota_nodup || pose proof (Permutation_NoDup P1 (iota_nodup D)) as N.
        apply in_split in H1 as (l1 & l2 & El). rewrite El in N. rewrite app_assoc in N. apply NoDup_remove_2 in N. apply N. rewrite !in_app_iff. auto.
Qed.

Hypothesis one_mul : forall x, rmul (rsign 1) x = x.
(* if Hodge is declared trivial then the general component shuffle is the same as the copy that's done instead *)
Theorem C48_trivial : forall D O (a b : nat -> R), O <= D -> hodge_trivial D O = true -> length (choose D O) = length (choose D (D - O)) /\
  exists b1 b2, hodgex R rmul rsign D O a b = Some b1 /\ hodge R rmul rsign D O a b = Some b2 /\ (forall j, b1 j = b2 j) /\ forall j, j < length (choose D O) -> b1 j = a j.
Proof.
  intros D O a b HO T. split; [apply choose_len_sym; auto|]. unfold hodge. rewrite T. unfold hodgex. destruct (hodge_aux_spec D O HO a (length (choose D O)) 0 b eq_refl) as (b1 & E1 & H1 & H2 & _).
  rewrite E1. eexists b1, _. split; auto. split; [reflexivity|].
  assert (G : forall j, j < length (choose D O) -> b1 j = a j).
  { intros j Hj. rewrite (H1 j j 1%Z); [apply one_mul|lia|apply trivial_step; auto]. }
  split; auto. intros j. destruct (Nat.ltb_spec j (length (choose D O))); auto. apply H2. rewrite <- choose_len_sym; auto.
Qed.
Hypothesis mul_signs : forall s t x, rmul (rsign s) (rmul (rsign t) x) = rmul (rsign (s * t)) x.
(* Hodge twice is the identity, or the negative if O*(D-O) is odd *)
Theorem C69_twice : forall D O (a b c : nat -> R), O <= D -> exists b' c', hodgex R rmul rsign D O a b = Some b' /\ hodgex R rmul rsign D (D - O) b' c = Some c' /\
  forall j, j < length (choose D O) -> c' j = rmul (rsign (if Nat.odd (O * (D - O)) then -1 else 1)) (a j).
Proof.
  intros D O a b c HO. assert (HO' : D - O <= D) by lia. assert (Edd : D - (D - O) = O) by lia.
  destruct (hodge_aux_spec D O HO a (length (choose D O)) 0 b eq_refl) as (b1 & E1 & H1 & _).
  destruct (hodge_aux_spec D (D - O) HO' b1 (length (choose D (D - O))) 0 c eq_refl) as (c1 & E2 & H2 & _).
  exists b1, c1. split; auto. split; auto. intros j Hj. destruct (hodge_step_spec D O j HO Hj) as (w & Hw & Ew & Pw & Uw).
  destruct (hodge_step_spec D (D - O) w HO' Hw) as (j' & Hj' & Ej & Pj & Uj). rewrite Edd in *.
  assert (j = j') by (apply Uj; auto; rewrite Permutation_app_comm; auto). subst j'. rewrite (H2 w j _ ltac:(lia) Ej). rewrite (H1 j w _ ltac:(lia) Ew). rewrite mul_signs. do 2 f_equal.
  rewrite !sign_par, sg_mul. set (F := nth j (choose D O) []) in *. set (G := nth w (choose D (D - O)) []) in *.
  assert (LF : length F = O) by (apply (enum_choose D O HO); apply nth_In; auto).
  assert (LG : length G = D - O) by (apply (enum_choose D (D - O) HO'); apply nth_In; auto).
  rewrite (sign_swap F G).
  - rewrite LF, LG. destruct (par (G ++ F)), (par (iota D)), (Nat.odd (O * (D - O))); reflexivity.
  - intros x I1 I2. apply Permutation_sym in Pw. pose proof (Permutation_NoDup Pw (iota_nodup D)) as N. apply in_split in I2 as (l1 & l2 & El). rewrite El in N. rewrite app_assoc in N. apply NoDup_remove_2 in N. apply N. rewrite !in_app_iff. auto.
Qed.
End Hodge.
Print Assumptions C48_trivial.
Print Assumptions C69_twice.
Definition zsign (s : Z) : Z := s.
Example C48_ex : hodge_trivial 3 1 = true /\ hodge_trivial 3 2 = true /\ hodge_trivial 4 3 = false /\ hodge_trivial 4 2 = false /\ hodge_trivial 5 3 = true /\
  (forall x, (zsign 1 * x = x)%Z) /\ (forall s t x, (zsign s * (zsign t * x) = zsign (s * t) * x)%Z) /\
  option_map (fun b => map b [0; 1; 2; 3]) (hodgex Z Z.mul zsign 4 3 (fun i => Z.of_nat i + 1)%Z (fun _ => 0%Z)) = Some [-1; -2; -3; -4]%Z /\
  option_map (fun b => map b [0; 1; 2; 3; 4; 5; 6]) (hodgex Z Z.mul zsign 4 2 (fun i => Z.of_nat i + 1)%Z (fun _ => 0%Z)) = Some [6; -5; 4; 3; -2; 1; 0]%Z.
Proof. repeat split; try (vm_compute; reflexivity); unfold zsign; intros; ring. Qed.

(* ---- C70, C49: wedge product ---- *)
Lemma count_notin : forall l x, ~ In x l -> count_occ Nat.eq_dec l x = 0.
Proof. intros. apply count_occ_not_In; auto. Qed.
Lemma same_perm : forall a b, same a b = true <-> Permutation a b.
Proof.
  intros a b. unfold same. rewrite forallb_forall. rewrite (Permutation_count_occ Nat.eq_dec). split; intros H x.
  - destruct (in_dec Nat.eq_dec x (a ++ b)) as [I|I]; [apply Nat.eqb_eq, H; auto|]. rewrite in_app_iff in I. rewrite !count_notin by tauto. reflexivity.
  - intros _. apply Nat.eqb_eq; auto.
Qed.
Lemma eps_yes : forall a b, Permutation a b -> eps a b = sign a b.
Proof. intros a b H. unfold eps. apply same_perm in H. rewrite H. reflexivity. Qed.
Lemma eps_no : forall a b, ~ Permutation a b -> eps a b = 0%Z.
Proof. intros a b H. unfold eps. destruct (same a b) eqn:E; auto. apply same_perm in E. contradiction. Qed.
Lemma perm_dec : forall a b : list nat, Permutation a b \/ ~ Permutation a b.
Proof. intros a b. destruct (same a b) eqn:E; [left; apply same_perm; auto|right; rewrite <- same_perm; congruence]. Qed.
Lemma eps_permsign : forall a b, NoDup b -> permsign a b = eps a b.
Proof.
  intros a b N. destruct (perm_dec a b) as [P|P].
  - rewrite eps_yes by auto. rewrite sign_par. apply permsign_sign; auto.
  - rewrite eps_no by auto. apply permsign_zero; auto.
Qed.

Section Ring.
Variables (R : Type) (rO rI : R) (radd rmul rsub : R -> R -> R) (ropp : R -> R) (rsign : Z -> R).
Hypothesis RT : ring_theory rO rI radd rmul rsub ropp eq.
Hypothesis sign_one : rsign 1 = rI.
Hypothesis sign_minus : rsign (-1) = ropp rI.
Add Ring RR : RT.
Notation "x + y" := (radd x y).
Notation "x * y" := (rmul x y).
Notation "- x" := (ropp x).
Notation sum := (sum R rO radd).
Notation signed := (signed R rO ropp).
Notation alternate := (alternate R ropp).

Lemma sum_ext : forall A (f g : A -> R) l, (forall x, In x l -> f x = g x) -> sum f l = sum g l.
Proof. induction l; intros H; cbn; auto. rewrite H by (left; auto). rewrite IHl; auto. intros; apply H; right; auto. Qed.
Lemma sum_zero : forall A (f : A -> R) l, (forall x, In x l -> f x = rO) -> sum f l = rO.
Proof. induction l; intros H; cbn; auto. rewrite H by (left; auto). rewrite IHl; [ring|]. intros; apply H; right; auto. Qed.
Lemma sum_plus : forall A (f g : A -> R) l, sum (fun x => f x + g x) l = sum f l + sum g l.
Proof. induction l; cbn; [ring|]. rewrite IHl. ring. Qed.
Lemma sum_scale : forall A s (f : A -> R) l, sum (fun x => s * f x) l = s * sum f l.
Proof. induction l; cbn; [ring|]. rewrite IHl. ring. Qed.
Lemma sum_opp : forall A (f : A -> R) l, sum (fun x => - f x) l = - sum f l.
Proof. induction l; cbn; [ring|]. rewrite IHl. ring. Qed.
Lemma sum_swap : forall A B (f : A -> B -> R) l m, sum (fun x => sum (fun y => f x y) m) l = sum (fun y => sum (fun x => f x y) l) m.
Proof. induction l; intros m; cbn. symmetry; apply sum_zero; auto. rewrite IHl, <- sum_plus. reflexivity. Qed.
Lemma sum_single : forall A (f : A -> R) l x, NoDup l -> In x l -> (forall y, In y l -> y <> x -> f y = rO) -> sum f l = f x.
Proof.
  induction l as [|z l IH]; intros x N I H; [easy|]. apply NoDup_cons_iff in N as (N1 & N2). cbn. destruct I as [->|I].
  - rewrite (sum_zero _ f l); [ring|]. intros y Hy. apply H; [right; auto|]. intros ->; contradiction.
  - rewrite (IH x); auto; [|intros; apply H; auto; right; auto]. rewrite (H z); [ring|left; auto|]. intros ->; contradiction.
Qed.
Lemma sum_anti : forall A (f : A -> A -> R) l, (forall x y, f x y = - f y x) -> (forall x, f x x = rO) -> sum (fun x => sum (fun y => f x y) l) l = rO.
Proof.
  induction l as [|z l IH]; intros H1 H2; cbn; auto. rewrite H2, sum_plus. rewrite IH by auto.
  rewrite (sum_ext _ (fun x => f x z) (fun x => - f z x)) by auto. rewrite sum_opp. change (sum (fun x => f z x) l) with (sum (f z) l). ring.
Qed.

Lemma signed_0 : forall x, signed 0 x = rO.
Proof. reflexivity. Qed.
Lemma signed_sg : forall b x, signed (sg b) x = if b then - x else x.
Proof. intros []; reflexivity. Qed.
Lemma rsign_sg : forall b, rsign (sg b) = if b then - rI else rI.
Proof. intros []; auto. Qed.
Lemma eps_cases : forall a b, eps a b = 0%Z \/ exists s, eps a b = sg s.
Proof. intros a b. destruct (perm_dec a b); [right; rewrite eps_yes, sign_par by auto; eauto|left; apply eps_no; auto]. Qed.
Lemma signed_add : forall a b x y, signed (eps a b) (x + y) = signed (eps a b) x + signed (eps a b) y.
Proof. intros a b x y. destruct (eps_cases a b) as [->|(s & ->)]; [cbn; ring|]. rewrite !signed_sg. destruct s; ring. Qed.
Lemma signed_mul : forall a b s x, signed (eps a b) (s * x) = s * signed (eps a b) x.
Proof. intros a b s x. destruct (eps_cases a b) as [->|(t & ->)]; [cbn; ring|]. rewrite !signed_sg. destruct t; ring. Qed.

(* the term for F and its complement *)
Lemma piece : forall D Oa Ob X F, comb D (Oa + Ob) X -> In F (combs X Oa) -> exists wa wb,
  findcomb_where F (choose D Oa) = Some wa /\ wa < length (choose D Oa) /\ Permutation F (nth wa (choose D Oa) []) /\
  findcomb_where (complement_list F X) (choose D Ob) = Some wb /\ wb < length (choose D Ob) /\ Permutation (complement_list F X) (nth wb (choose D Ob) []) /\
  (forall i, i < length (choose D Oa) -> Permutation F (nth i (choose D Oa) []) -> i = wa) /\
  (forall j, j < length (choose D Ob) -> Permutation (nth wa (choose D Oa) [] ++ nth j (choose D Ob) []) X -> j = wb) /\
  Permutation (nth wa (choose D Oa) [] ++ nth wb (choose D Ob) []) X /\
  (findcomb_sign F (choose D Oa) * findcomb_sign (complement_list F X) (choose D Ob) * permsign (F ++ complement_list F X) X)%Z = sign (nth wa (choose D Oa) [] ++ nth wb (choose D Ob) []) X.
Proof.
  intros D Oa Ob X F HX HF. pose proof (comb_le _ _ _ HX) as HD. destruct HX as (NX & LX & BX). rewrite Forall_forall in BX.
  apply combs_in in HF as (LF & WF); auto. pose proof (within_self _ _ WF) as IF.
  assert (NF : NoDup F) by (rewrite <- WF; apply within_nodup; auto).
  assert (CF : comb D Oa F) by (split; auto; split; auto; apply Forall_forall; auto).
  pose proof (split_perm F X NX NF IF) as SP.
  assert (CG : comb D Ob (complement_list F X)).
  { split; [apply complement_nodup; auto|]. split.
    - apply Permutation_length in SP. rewrite app_length in SP. lia.
    - apply Forall_forall. intros x Hx. apply complement_in in Hx as (Hx & _). auto. }
  destruct (find_enum D Oa _ F (enum_choose D Oa ltac:(lia)) CF) as (wa & E1 & L1 & P1 & S1 & U1).
  destruct (find_enum D Ob _ _ (enum_choose D Ob ltac:(lia)) CG) as (wb & E2 & L2 & P2 & S2 & U2).
  set (G := complement_list F X) in *. set (A := nth wa _ []) in *. set (B := nth wb _ []) in *.
  assert (PX : Permutation (A ++ B) X) by (rewrite <- P1, <- P2; auto).
  exists wa, wb. do 6 (split; auto). split; [intros; apply U1; auto|]. split; [|split; auto].
  - intros j Hj Pj. apply U2; auto. apply (Permutation_app_inv_l A). fold A in Pj. rewrite Pj, <- P1. exact SP.
  - unfold findcomb_sign. rewrite E1, E2. fold A B. assert (NA : NoDup A) by (eapply Permutation_NoDup; eauto). assert (NB : NoDup B) by (eapply Permutation_NoDup; [exact P2|apply CG]).
    rewrite !permsign_sign by auto. rewrite sign_par, !sg_mul. f_equal. rewrite !par_app. rewrite (between_perm F A G B) by auto.
    destruct (par F), (par G), (par A), (par B), (par X), (Nat.odd (between A B)); reflexivity.
Qed.
Definition delta (F C : list nat) (x : R) : R := if same F C then x else rO.
Definition summand (D Oa Ob : nat) (a b : nat -> R) (X : list nat) (i j : nat) : R :=
  signed (eps (nth i (choose D Oa) [] ++ nth j (choose D Ob) []) X) (a i * b j).

Lemma term_sum : forall D Oa Ob X, comb D (Oa + Ob) X -> forall a b Fa, incl Fa (combs X Oa) ->
  term R rO radd rmul rsign (choose D Oa) (choose D Ob) X Fa a b =
  sum (fun F => sum (fun i => sum (fun j => delta F (nth i (choose D Oa) []) (summand D Oa Ob a b X i j)) (seq 0 (length (choose D Ob)))) (seq 0 (length (choose D Oa)))) Fa.
Proof.
  intros D Oa Ob X HX a b Fa. induction Fa as [|F Fa IH]; intros HI; [reflexivity|]. cbn [term Spec_Wedge.sum].
  destruct (piece D Oa Ob X F HX) as (wa & wb & E1 & L1 & P1 & E2 & L2 & P2 & U1 & U2 & PX & ES); [apply HI; left; auto|].
  rewrite E1, E2, ES. rewrite IH by (intros c Hc; apply HI; right; auto). f_equal.
  rewrite (sum_single _ _ _ wa); [|apply seq_NoDup|apply in_seq; lia|].
  - rewrite (sum_single _ _ _ wb); [|apply seq_NoDup|apply in_seq; lia|].
    + unfold delta. apply same_perm in P1. rewrite P1. unfold summand. rewrite eps_yes by auto. rewrite sign_par, rsign_sg, signed_sg. destruct (xorb _ _); ring.
    + intros j Hj Ne. apply in_seq in Hj. unfold delta. destruct (same _ _); auto. unfold summand. rewrite eps_no; [apply signed_0|]. intros P. apply Ne, U2; auto. lia.
  - intros i Hi Ne. apply in_seq in Hi. apply sum_zero. intros j _. unfold delta. destruct (same _ _) eqn:E; auto. apply same_perm in E. exfalso. apply Ne, U1; auto. lia.
Qed.
(* every component of wedge(a, b) is the one that follows from the products of the elements of the bases *)
Theorem C70_components : forall D Oa Ob (a b : nat -> R), Oa + Ob <= D ->
  wedge R rO radd rmul rsign D Oa Ob a b = map (exterior R rO radd rmul ropp (choose D Oa) (choose D Ob) a b) (choose D (Oa + Ob)).
Proof.
  intros D Oa Ob a b HD. unfold wedge. apply map_ext_in. intros X IX. assert (HX : comb D (Oa + Ob) X) by (apply (enum_choose D (Oa + Ob)); auto).
  rewrite (term_sum D Oa Ob X HX) by apply incl_refl. unfold exterior. rewrite sum_swap. apply sum_ext. intros i Hi. rewrite sum_swap. apply sum_ext. intros j Hj.
  apply in_seq in Hi, Hj. fold (summand D Oa Ob a b X i j). destruct HX as (NX & LX & BX). set (A := nth i (choose D Oa) []). set (B := nth j (choose D Ob) []).
  assert (CA : comb D Oa A) by (apply (enum_choose D Oa ltac:(lia)), nth_In; lia).
  destruct (perm_dec (A ++ B) X) as [P|P].
  - assert (IA : incl A X) by (intros x Hx; apply (Permutation_in _ P), in_app_iff; auto). destruct CA as (NA & LA & _). pose proof (within_perm A X NX NA IA) as W.
    assert (IW : In (within A X) (combs X Oa)).
    { apply combs_in; auto. split; [rewrite (Permutation_length W); auto|]. apply within_ext. intros x Hx. rewrite within_in. tauto. }
    rewrite (sum_single _ _ _ (within A X)); auto using combs_nodup.
    + unfold delta. apply same_perm in W. rewrite W. reflexivity.
    + intros F HF Ne. unfold delta. destruct (same F A) eqn:E; auto. apply same_perm in E. exfalso. apply Ne. apply (combs_unique X Oa); auto. rewrite E. symmetry. auto.
  - rewrite sum_zero.
    + unfold summand. fold A B. rewrite eps_no by auto. reflexivity.
    + intros F _. unfold delta, summand. fold A B. rewrite eps_no by auto. destruct (same _ _); reflexivity.
Qed.

Lemma exterior_ext : forall Ca Cb a a' b b' X, (forall i, i < length Ca -> a i = a' i) -> (forall i, i < length Cb -> b i = b' i) ->
  exterior R rO radd rmul ropp Ca Cb a b X = exterior R rO radd rmul ropp Ca Cb a' b' X.
Proof. intros. unfold exterior. apply sum_ext. intros i Hi. apply sum_ext. intros j Hj. apply in_seq in Hi, Hj. rewrite H, H0 by lia. reflexivity. Qed.

Notation wedge := (wedge R rO radd rmul rsign).
Lemma wedge_nth : forall D Oa Ob a b k, Oa + Ob <= D -> k < length (choose D (Oa + Ob)) ->
  nth k (wedge D Oa Ob a b) rO = exterior R rO radd rmul ropp (choose D Oa) (choose D Ob) a b (nth k (choose D (Oa + Ob)) []).
Proof.
  intros D Oa Ob a b k HD Hk. rewrite C70_components by auto. rewrite (nth_indep _ _ (exterior R rO radd rmul ropp (choose D Oa) (choose D Ob) a b [])) by (rewrite map_length; auto).
  apply map_nth.
Qed.
Lemma wedge_len : forall D Oa Ob a b, length (wedge D Oa Ob a b) = length (choose D (Oa + Ob)).
Proof. intros. unfold M_Wedge.wedge. apply map_length. Qed.

Theorem C49_linear_a : forall D Oa Ob (a a' b : nat -> R) s t k, Oa + Ob <= D -> k < length (choose D (Oa + Ob)) ->
  nth k (wedge D Oa Ob (fun i => radd (rmul s (a i)) (rmul t (a' i))) b) rO = radd (rmul s (nth k (wedge D Oa Ob a b) rO)) (rmul t (nth k (wedge D Oa Ob a' b) rO)).
Proof.
  intros D Oa Ob a a' b s t k HD Hk. rewrite !wedge_nth by auto. unfold exterior. rewrite <- !sum_scale, <- sum_plus. apply sum_ext. intros i _. rewrite <- !sum_scale, <- sum_plus. apply sum_ext. intros j _.
  rewrite <- !signed_mul, <- signed_add. f_equal. ring.
Qed.
Theorem C49_linear_b : forall D Oa Ob (a b b' : nat -> R) s t k, Oa + Ob <= D -> k < length (choose D (Oa + Ob)) ->
  nth k (wedge D Oa Ob a (fun i => radd (rmul s (b i)) (rmul t (b' i)))) rO = radd (rmul s (nth k (wedge D Oa Ob a b) rO)) (rmul t (nth k (wedge D Oa Ob a b') rO)).
Proof.
  intros D Oa Ob a b b' s t k HD Hk. rewrite !wedge_nth by auto. unfold exterior. rewrite <- !sum_scale, <- sum_plus. apply sum_ext. intros i _. rewrite <- !sum_scale, <- sum_plus. apply sum_ext. intros j _.
  rewrite <- !signed_mul, <- signed_add. f_equal. ring.
Qed.
(* exchange of the factors in one sign *)
Lemma eps_swap : forall A B X x, NoDup X -> signed (eps (A ++ B) X) x = alternate (length A * length B) (signed (eps (B ++ A) X) x).
Proof.
  intros A B X x NX. destruct (perm_dec (A ++ B) X) as [P|P].
  - assert (P' : Permutation (B ++ A) X) by (rewrite Permutation_app_comm; auto). rewrite !eps_yes by auto. rewrite !sign_par, !signed_sg. rewrite (sign_swap A B).
    + unfold Spec_Wedge.alternate. destruct (par (B ++ A)), (par X), (Nat.odd _); cbn; ring.
    + intros y I1 I2. apply Permutation_sym in P. pose proof (Permutation_NoDup P NX) as N. apply in_split in I2 as (l1 & l2 & El). rewrite El, app_assoc in N. apply NoDup_remove_2 in N. apply N. rewrite !in_app_iff. auto.
  - rewrite !eps_no; auto; [|rewrite Permutation_app_comm; auto]. unfold Spec_Wedge.alternate. rewrite signed_0. destruct (Nat.odd _); ring.
Qed.
Lemma sum_alternate : forall A n (f : A -> R) l, sum (fun x => alternate n (f x)) l = alternate n (sum f l).
Proof. intros A n f l. unfold Spec_Wedge.alternate. destruct (Nat.odd n); [apply sum_opp|reflexivity]. Qed.
Lemma basis : forall D O i, O <= D -> i < length (choose D O) -> comb D O (nth i (choose D O) []).
Proof. intros D O i HO Hi. apply (enum_choose D O HO), nth_In. auto. Qed.
Theorem C49_exchange : forall D Oa Ob (a b : nat -> R), Oa + Ob <= D -> wedge D Oa Ob a b = map (alternate (Oa * Ob)) (wedge D Ob Oa b a).
Proof.
  intros D Oa Ob a b HD. rewrite !C70_components by lia. rewrite map_map. rewrite (Nat.add_comm Ob Oa). apply map_ext_in. intros X IX. assert (HX : comb D (Oa + Ob) X) by (apply (enum_choose D (Oa + Ob)); auto).
  unfold exterior. rewrite sum_swap. rewrite <- sum_alternate. apply sum_ext. intros j Hj. rewrite <- sum_alternate. apply sum_ext. intros i Hi. apply in_seq in Hi, Hj.
  rewrite eps_swap by apply HX. destruct (basis D Oa i ltac:(lia) ltac:(lia)) as (_ & -> & _). destruct (basis D Ob j ltac:(lia) ltac:(lia)) as (_ & -> & _). f_equal. f_equal. ring.
Qed.
(* so a wedge a is 0 for odd orders, whatever the ring. The case of order 1 is cross(a, a). *)
Theorem C49_self : forall D Oa (a : nat -> R), Oa + Oa <= D -> Nat.odd Oa = true -> wedge D Oa Oa a a = repeat rO (length (choose D (Oa + Oa))).
Proof.
  intros D Oa a HD Od. rewrite C70_components by auto. rewrite <- (map_length (exterior R rO radd rmul ropp (choose D Oa) (choose D Oa) a a)).
  apply Forall_eq_repeat. apply Forall_forall. intros y Hy. apply in_map_iff in Hy as (X & <- & IX). assert (HX : comb D (Oa + Oa) X) by (apply (enum_choose D (Oa + Oa)); auto).
  symmetry. unfold exterior. set (l := seq 0 (length (choose D Oa))).
  set (g := fun i j => if (i <? length (choose D Oa)) && (j <? length (choose D Oa)) then signed (eps (nth i (choose D Oa) [] ++ nth j (choose D Oa) []) X) (a i * a j) else rO).
  transitivity (sum (fun i => sum (fun j => g i j) l) l).
  { apply sum_ext. intros i Hi. apply sum_ext. intros j Hj. apply in_seq in Hi, Hj. unfold g. rewrite !(proj2 (Nat.ltb_lt _ _)) by lia. reflexivity. }
  apply sum_anti.
  - intros i j. unfold g. rewrite andb_comm. destruct ((j <? _) && (i <? _)) eqn:E; [|ring]. apply andb_true_iff in E as (E1 & E2). apply Nat.ltb_lt in E1, E2.
    rewrite eps_swap by apply HX. destruct (basis D Oa i ltac:(lia) E2) as (_ & -> & _). destruct (basis D Oa j ltac:(lia) E1) as (_ & -> & _). unfold Spec_Wedge.alternate. rewrite Nat.odd_mul, Od. cbn. do 2 f_equal. ring.
  - intros i. unfold g. destruct ((i <? _) && (i <? _)) eqn:E; auto. apply andb_true_iff in E as (E1 & _). apply Nat.ltb_lt in E1. destruct (basis D Oa i ltac:(lia) E1) as (NA & LA & _).
    rewrite eps_no; [reflexivity|]. intros P. apply Permutation_sym in P. pose proof (Permutation_NoDup P (proj1 HX)) as N. destruct (nth i (choose D Oa) []) as [|x l1]; [cbn in LA; subst; discriminate|].
    cbn in N. apply NoDup_cons_iff in N as (N & _). apply N. apply in_app_iff. right. left. auto.
Qed.
Corollary C49_cross : forall D (a : nat -> R), 2 <= D -> cross R rO radd rmul rsign D a a = repeat rO (length (choose D 2)).
Proof. intros D a HD. apply (C49_self D 1 a); auto. Qed.

(* ---- associativity ---- *)
Lemma eps_through : forall D O A B M Y, comb D O (A ++ B) -> comb D O M -> NoDup Y -> Permutation (A ++ B) M -> forall E x,
  signed (eps (A ++ B) M) (signed (eps (M ++ E) Y) x) = signed (eps ((A ++ B) ++ E) Y) x.
Proof.
  intros D O A B M Y HAB HM NY P E x. rewrite (eps_yes _ M) by auto. destruct (perm_dec (M ++ E) Y) as [Q|Q].
  - assert (Q' : Permutation ((A ++ B) ++ E) Y) by (rewrite P; auto). rewrite !eps_yes by auto. rewrite !sign_par, !signed_sg. rewrite (par_app M E), (par_app (A ++ B) E). rewrite (between_perm (A ++ B) M E E) by auto.
    destruct (par (A ++ B)), (par M), (par E), (par Y), (Nat.odd (between M E)); cbn; ring.
  - rewrite !eps_no; auto; [|rewrite P; auto]. rewrite sign_par, !signed_0, signed_sg. destruct (xorb _ _); ring.
Qed.
Lemma eps_through_r : forall D O A B M Y, comb D O (A ++ B) -> comb D O M -> NoDup Y -> Permutation (A ++ B) M -> forall E x,
  signed (eps (A ++ B) M) (signed (eps (E ++ M) Y) x) = signed (eps (E ++ (A ++ B)) Y) x.
Proof.
  intros D O A B M Y HAB HM NY P E x. rewrite (eps_yes _ M) by auto. destruct (perm_dec (E ++ M) Y) as [Q|Q].
  - assert (Q' : Permutation (E ++ (A ++ B)) Y) by (rewrite P; auto). rewrite !eps_yes by auto. rewrite !sign_par, !signed_sg. rewrite (par_app E M), (par_app E (A ++ B)). rewrite (between_perm E E (A ++ B) M) by auto.
    destruct (par (A ++ B)), (par M), (par E), (par Y), (Nat.odd (between E M)); cbn; ring.
  - rewrite !eps_no; auto; [|rewrite P; auto]. rewrite sign_par, !signed_0, signed_sg. destruct (xorb _ _); ring.
Qed.
Lemma zsigned_sum : forall A z (f : A -> R) l, signed z (sum f l) = sum (fun x => signed z (f x)) l.
Proof. intros A z f l. unfold Spec_Wedge.signed. destruct (Z.eqb z 0); [symmetry; apply sum_zero; auto|]. destruct (Z.ltb z 0); [symmetry; apply sum_opp|reflexivity]. Qed.
Lemma zsigned_mul : forall z x y, signed z x * y = signed z (x * y).
Proof. intros z x y. unfold Spec_Wedge.signed. destruct (Z.eqb z 0); [ring|]. destruct (Z.ltb z 0); ring. Qed.
Lemma zsigned_mul_r : forall z x y, x * signed z y = signed z (x * y).
Proof. intros z x y. unfold Spec_Wedge.signed. destruct (Z.eqb z 0); [ring|]. destruct (Z.ltb z 0); ring. Qed.
Lemma zsigned_comm : forall z w x, signed z (signed w x) = signed w (signed z x).
Proof. intros z w x. unfold Spec_Wedge.signed. destruct (Z.eqb z 0), (Z.eqb w 0), (Z.ltb z 0), (Z.ltb w 0); ring. Qed.
Lemma sum_scale_r : forall A s (f : A -> R) l, sum f l * s = sum (fun x => f x * s) l.
Proof. induction l; cbn; [ring|]. rewrite <- IHl. ring. Qed.

(* one element of the basis in between *)
Lemma between_left : forall D O P E Y x, O <= D -> length P = O -> (forall y, In y P -> y < D) -> NoDup Y ->
  sum (fun m => signed (eps P (nth m (choose D O) [])) (signed (eps (nth m (choose D O) [] ++ E) Y) x)) (seq 0 (length (choose D O))) = signed (eps (P ++ E) Y) x.
Proof.
  intros D O P E Y x HO LP BP NY. destruct (perm_dec (P ++ E) Y) as [Q|Q].
  - assert (NP : NoDup P). { apply Permutation_sym in Q. pose proof (Permutation_NoDup Q NY) as N. clear -N. induction P; [constructor|]. cbn in N. apply NoDup_cons_iff in N as (N1 & N2). constructor; auto. intros H. apply N1, in_app_iff. auto. }
    destruct (enum_choose D O HO) as (_ & U). destruct (U P) as (m & Hm & Pm & Um); [split; auto; split; auto; apply Forall_forall; auto|].
    rewrite (sum_single _ _ _ m); [|apply seq_NoDup|apply in_seq; lia|].
    + rewrite <- (app_nil_r P) at 1. rewrite (eps_through D O P [] _ Y); rewrite ?app_nil_r; auto. split; auto; split; auto; apply Forall_forall; auto. apply basis; auto.
    + intros k Hk Ne. apply in_seq in Hk. rewrite eps_no; auto. intros Pk. apply Ne, Um; auto. lia.
  - rewrite (eps_no _ _ Q). apply sum_zero. intros m Hm. destruct (perm_dec P (nth m (choose D O) [])) as [Pm|Pm]; [|rewrite (eps_no _ _ Pm); reflexivity].
    rewrite (eps_no (_ ++ E)); [|rewrite <- Pm; auto]. rewrite signed_0. unfold Spec_Wedge.signed. destruct (Z.eqb _ _); auto. destruct (Z.ltb _ _); ring.
Qed.
Lemma between_right : forall D O P E Y x, O <= D -> length P = O -> (forall y, In y P -> y < D) -> NoDup Y ->
  sum (fun m => signed (eps P (nth m (choose D O) [])) (signed (eps (E ++ nth m (choose D O) []) Y) x)) (seq 0 (length (choose D O))) = signed (eps (E ++ P) Y) x.
Proof.
  intros D O P E Y x HO LP BP NY. destruct (perm_dec (E ++ P) Y) as [Q|Q].
  - assert (NP : NoDup P). { apply Permutation_sym in Q. pose proof (Permutation_NoDup Q NY) as N. clear -N. induction E; auto. cbn in N. apply NoDup_cons_iff in N as (N1 & N2). auto. }
    destruct (enum_choose D O HO) as (_ & U). destruct (U P) as (m & Hm & Pm & Um); [split; auto; split; auto; apply Forall_forall; auto|].
    rewrite (sum_single _ _ _ m); [|apply seq_NoDup|apply in_seq; lia|].
    + rewrite <- (app_nil_r P) at 1. rewrite (eps_through_r D O P [] _ Y); rewrite ?app_nil_r; auto. split; auto; split; auto; apply Forall_forall; auto. apply basis; auto.
    + intros k Hk Ne. apply in_seq in Hk. rewrite eps_no; auto. intros Pk. apply Ne, Um; auto. lia.
  - rewrite (eps_no _ _ Q). apply sum_zero. intros m Hm. destruct (perm_dec P (nth m (choose D O) [])) as [Pm|Pm]; [|rewrite (eps_no _ _ Pm); reflexivity].
    rewrite (eps_no (E ++ _)); [|rewrite <- Pm; auto]. rewrite signed_0. unfold Spec_Wedge.signed. destruct (Z.eqb _ _); auto. destruct (Z.ltb _ _); ring.
Qed.
Definition triple D Oa Ob Oc (a b c : nat -> R) Y : R :=
  sum (fun i => sum (fun j => sum (fun k => signed (eps (nth i (choose D Oa) [] ++ nth j (choose D Ob) [] ++ nth k (choose D Oc) []) Y) (a i * b j * c k))
    (seq 0 (length (choose D Oc)))) (seq 0 (length (choose D Ob)))) (seq 0 (length (choose D Oa))).
Lemma comb_app_len : forall D Oa Ob i j, Oa <= D -> Ob <= D -> i < length (choose D Oa) -> j < length (choose D Ob) ->
  length (nth i (choose D Oa) [] ++ nth j (choose D Ob) []) = (Oa + Ob)%nat /\ forall y, In y (nth i (choose D Oa) [] ++ nth j (choose D Ob) []) -> y < D.
Proof.
  intros D Oa Ob i j H1 H2 Hi Hj. destruct (basis D Oa i H1 Hi) as (_ & L1 & F1). destruct (basis D Ob j H2 Hj) as (_ & L2 & F2). rewrite Forall_forall in F1, F2.
  split; [rewrite app_length; lia|]. intros y Hy. apply in_app_iff in Hy as [Hy|Hy]; auto.
Qed.
Theorem C70_associative : forall D Oa Ob Oc (a b c : nat -> R), Oa + Ob + Oc <= D ->
  wedge D (Oa + Ob) Oc (fun i => nth i (wedge D Oa Ob a b) rO) c = wedge D Oa (Ob + Oc) a (fun i => nth i (wedge D Ob Oc b c) rO).
Proof.
  intros D Oa Ob Oc a b c HD. rewrite !C70_components by lia. rewrite Nat.add_assoc. apply map_ext_in. intros Y IY. assert (NY : NoDup Y) by (apply (enum_choose D (Oa + Ob + Oc) HD); auto).
  transitivity (triple D Oa Ob Oc a b c Y); [|symmetry].
  - unfold exterior at 1. transitivity (sum (fun m => sum (fun k => sum (fun i => sum (fun j =>
      signed (eps (nth i (choose D Oa) [] ++ nth j (choose D Ob) []) (nth m (choose D (Oa + Ob)) [])) (signed (eps (nth m (choose D (Oa + Ob)) [] ++ nth k (choose D Oc) []) Y) (a i * b j * c k)))
      (seq 0 (length (choose D Ob)))) (seq 0 (length (choose D Oa)))) (seq 0 (length (choose D Oc)))) (seq 0 (length (choose D (Oa + Ob))))).
    { apply sum_ext. intros m Hm. apply sum_ext. intros k Hk. apply in_seq in Hm, Hk. rewrite <- C70_components by lia. rewrite wedge_nth by lia. unfold exterior. rewrite sum_scale_r, zsigned_sum. apply sum_ext. intros i Hi.
      rewrite sum_scale_r, zsigned_sum. apply sum_ext. intros j Hj. rewrite zsigned_mul. apply zsigned_comm. }
    rewrite sum_swap. unfold triple.
    transitivity (sum (fun k => sum (fun i => sum (fun j => signed (eps (nth i (choose D Oa) [] ++ nth j (choose D Ob) [] ++ nth k (choose D Oc) []) Y) (a i * b j * c k)) (seq 0 (length (choose D Ob)))) (seq 0 (length (choose D Oa)))) (seq 0 (length (choose D Oc)))).
    + apply sum_ext. intros k Hk. rewrite sum_swap. apply sum_ext. intros i Hi. rewrite sum_swap. apply sum_ext. intros j Hj. apply in_seq in Hi, Hj, Hk.
      destruct (comb_app_len D Oa Ob i j) as (L & B); try lia. rewrite between_left; auto; [|lia]. rewrite app_assoc. reflexivity.
    + rewrite sum_swap. apply sum_ext. intros i Hi. apply sum_swap.
  - unfold exterior at 1. transitivity (sum (fun i => sum (fun m => sum (fun j => sum (fun k =>
      signed (eps (nth j (choose D Ob) [] ++ nth k (choose D Oc) []) (nth m (choose D (Ob + Oc)) [])) (signed (eps (nth i (choose D Oa) [] ++ nth m (choose D (Ob + Oc)) []) Y) (a i * b j * c k)))
      (seq 0 (length (choose D Oc)))) (seq 0 (length (choose D Ob)))) (seq 0 (length (choose D (Ob + Oc))))) (seq 0 (length (choose D Oa)))).
    { apply sum_ext. intros i Hi. apply sum_ext. intros m Hm. apply in_seq in Hm, Hi. rewrite <- C70_components by lia. rewrite wedge_nth by lia. unfold exterior. rewrite <- sum_scale, zsigned_sum. apply sum_ext. intros j Hj.
      rewrite <- sum_scale, zsigned_sum. apply sum_ext. intros k Hk. rewrite zsigned_mul_r, zsigned_comm. do 2 f_equal. ring. }
    unfold triple. apply sum_ext. intros i Hi. rewrite sum_swap. apply sum_ext. intros j Hj. rewrite sum_swap. apply sum_ext. intros k Hk. apply in_seq in Hi, Hj, Hk.
    destruct (comb_app_len D Ob Oc j k) as (L & B); try lia. apply between_right; auto. lia.
Qed.

(* ---- Hodge and wedge product ---- *)
Notation hodgex := (hodgex R rmul rsign).
Lemma top : forall D, choose D (D - 0) = [iota D].
Proof. intros D. rewrite Nat.sub_0_r. apply choose_full. Qed.
(* a wedge *b is the dot product *)
Theorem C70_dot : forall D O (a b b0 : nat -> R), O <= D -> exists b', hodgex D O b b0 = Some b' /\
  wedge D O (D - O) a b' = [sum (fun i => a i * b i) (seq 0 (length (choose D O)))].
Proof.
  intros D O a b b0 HO. destruct (hodge_aux_spec R rmul rsign D O HO b (length (choose D O)) 0 b0 eq_refl) as (b' & E & H1 & _). exists b'. split; auto.
  rewrite C70_components by lia. replace (O + (D - O))%nat with D by lia. rewrite choose_full. cbn [map]. f_equal. unfold exterior. apply sum_ext. intros i Hi. apply in_seq in Hi.
  destruct (hodge_step_spec D O i HO) as (w & Hw & Ew & Pw & Uw); [lia|]. rewrite (sum_single _ _ _ w); [|apply seq_NoDup|apply in_seq; lia|].
  - rewrite (H1 i w _ ltac:(lia) Ew). rewrite eps_yes by auto. rewrite sign_par, signed_sg, rsign_sg. destruct (xorb _ _); ring.
  - intros j Hj Ne. apply in_seq in Hj. rewrite eps_no; [reflexivity|]. intros P. apply Ne, Uw; auto. lia.
Qed.
(* the usual cross product *)
Theorem C49_cross_3 : forall a b : nat -> R,
  cross R rO radd rmul rsign 3 a b = [rsub (rmul (a 1) (b 2)) (rmul (a 2) (b 1)); rsub (rmul (a 2) (b 0)) (rmul (a 0) (b 2)); rsub (rmul (a 0) (b 1)) (rmul (a 1) (b 0))].
Proof.
  intros a b. unfold cross, M_Wedge.wedge. replace (choose 3 (1 + 1)) with [[1; 2]; [2; 0]; [0; 1]] by reflexivity. replace (choose 3 1) with [[0]; [1]; [2]] by reflexivity.
  cbn [map combs length Nat.eqb Nat.sub app]. repeat (apply f_equal2; [match goal with |- ?x = _ => let y := eval cbn in x in change x with y end; rewrite sign_one, sign_minus; ring|]). reflexivity.
Qed.
End Ring.
Print Assumptions C70_components.
Print Assumptions C70_associative.
Print Assumptions C70_dot.
Print Assumptions C49_linear_a.
Print Assumptions C49_linear_b.
Print Assumptions C49_exchange.
Print Assumptions C49_self.
Print Assumptions C49_cross.
Print Assumptions C49_cross_3.
Example C70_ex : ring_theory 0%Z 1%Z Z.add Z.mul Z.sub Z.opp eq /\ zsign 1 = 1%Z /\ zsign (-1) = (-1)%Z /\
  wedge Z 0%Z Z.add Z.mul zsign 4 1 2 (fun i => nth i [2; 3; 5; 7]%Z 0%Z) (fun i => nth i [1; -1; 2; 4; 3; 1]%Z 0%Z) = [16; 15; 7; -16]%Z /\
  wedge Z 0%Z Z.add Z.mul zsign 4 2 1 (fun i => nth i [1; -1; 2; 4; 3; 1]%Z 0%Z) (fun i => nth i [2; 3; 5; 7]%Z 0%Z) = [16; 15; 7; -16]%Z /\
  wedge Z 0%Z Z.add Z.mul zsign 4 2 2 (fun i => nth i [1; -1; 2; 4; 3; 1]%Z 0%Z) (fun i => nth i [1; -1; 2; 4; 3; 1]%Z 0%Z) = [24]%Z.
Proof. split; [exact Zth|]. vm_compute. auto 10. Qed.
