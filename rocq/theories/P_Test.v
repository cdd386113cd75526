(* Properties C76-C80: statistics of the benchmarks, test recorder. *)
From Coq Require Import ZArith List Lia Bool Reals Lra Permutation.
From Coq Require Import ZifyBool ZifyNat.
From Verif Require Import Spec L_Spec Spec_Ply Spec_Expr M_Base M_Expr M_Ply M_Val Spec_Val L_Expr L_Agree L_Ply L_Stl L_Run L_Val P_Ply P_Reduce.
From Verif Require Import M_View M_Static Spec_Static P_Static M_Test Spec_Test.
Import ListNotations.
Open Scope Z_scope.

(* ---- C76, C77 ---- *)

Lemma insert_perm : forall x l, Permutation (x :: l) (insert_sorted x l).
Proof. induction l as [|y l IH]; cbn [insert_sorted]; [auto|]. destruct (x <=? y); [auto|]. rewrite perm_swap. auto. Qed.
Lemma sorted_perm : forall l, Permutation l (sorted l).
Proof. induction l as [|x l IH]; cbn; [auto|]. rewrite <- insert_perm. auto. Qed.
Lemma insert_incr : forall x l, increasing l -> increasing (insert_sorted x l).
Proof.
  induction l as [|y l IH]; cbn [insert_sorted increasing]; intros H; [auto|]. destruct H as (Hy & Hl). destruct (Z.leb_spec x y).
  - cbn [increasing]. split; [|auto]. constructor; auto. eapply Forall_impl; [|exact Hy]. cbn. intros; lia.
  - cbn [increasing]. split; [|auto]. rewrite <- insert_perm. constructor; [lia|auto].
Qed.
Lemma sorted_incr : forall l, increasing (sorted l).
Proof. induction l as [|x l IH]; cbn; [auto|]. apply insert_incr. auto. Qed.
Lemma incr_unique : forall l l', increasing l -> increasing l' -> Permutation l l' -> l = l'.
Proof.
  induction l as [|x l IH]; intros [|y l'] H H' P.
  - reflexivity.
  - apply Permutation_nil in P. discriminate.
  - apply Permutation_sym, Permutation_nil in P. discriminate.
  - cbn [increasing] in H, H'. destruct H as (Hx & Hl), H' as (Hy & Hl'). assert (x = y).
    { rewrite Forall_forall in *. assert (Ix : In x (y :: l')) by (rewrite <- P; left; auto). assert (Iy : In y (x :: l)) by (rewrite P; left; auto).
      destruct Ix as [|Ix]; [auto|]. destruct Iy as [|Iy]; [auto|]. specialize (Hx _ Iy). specialize (Hy _ Ix). lia. }
    subst y. f_equal. apply IH; auto. apply Permutation_cons_inv in P. auto.
Qed.
Lemma twice_median_sorted : forall t m, twice_median t m <-> m = nth (length t / 2) (sorted t) 0 + nth ((length t - 1) / 2) (sorted t) 0.
Proof.
  intros t m. split.
  - intros (u & P & I & ->). rewrite (incr_unique u (sorted t)); auto; [apply sorted_incr|]. rewrite <- P. apply sorted_perm.
  - intros ->. exists (sorted t). split; [apply sorted_perm|]. split; [apply sorted_incr|reflexivity].
Qed.
Lemma lxor_one : forall n, Z.lxor n 1 = 0 <-> n = 1.
Proof. intros n. split; [intros H; apply Z.lxor_eq in H; auto|intros ->; reflexivity]. Qed.

Theorem C76_partial : forall t, Nat.odd (length t) = true -> (1 < length t)%nat -> exists m, median2 t = Good m /\ twice_median t m.
Proof.
  intros t Ho Hl. destruct t as [|x t]; [discriminate|]. set (l := x :: t) in *. exists (2 * nth (length l / 2) (sorted l) 0). split.
  - unfold median2. destruct (Z.eqb_spec (Z.lxor (Z.of_nat (length l)) 1) 0) as [E|E]; [apply lxor_one in E; lia|]. subst l. cbn [negb]. do 3 f_equal.
    change 2 with (Z.of_nat 2). rewrite <- Nat2Z.inj_div. apply Nat2Z.id.
  - apply twice_median_sorted. apply Nat.odd_spec in Ho as (k & Ek). rewrite Ek. replace (2 * k + 1 - 1)%nat with (k * 2)%nat by lia.
    rewrite (Nat.div_mul k 2) by lia. replace (2 * k + 1)%nat with (1 + k * 2)%nat by lia. rewrite Nat.div_add by lia. cbn [Nat.div Nat.divmod fst Nat.add]. lia.
Qed.
(* With an even number of runs it's the larger one of the two in the middle. *)
Theorem C76_even : forall t, t <> [] -> Nat.even (length t) = true -> median2 t = Good (2 * nth (length t / 2) (sorted t) 0).
Proof.
  intros t Hn He. destruct t as [|x t]; [contradiction|]. set (l := x :: t) in *. unfold median2. destruct (Z.eqb_spec (Z.lxor (Z.of_nat (length l)) 1) 0) as [E|E].
  - apply lxor_one in E. assert (length l = 1%nat) as E1 by lia. rewrite E1 in He. discriminate.
  - subst l. cbn [negb]. do 3 f_equal. change 2 with (Z.of_nat 2). rewrite <- Nat2Z.inj_div. apply Nat2Z.id.
Qed.
Theorem C76_even_refuted : exists t m, median2 t = Good m /\ ~ twice_median t m.
Proof. exists [5; 1], 10. split; [reflexivity|]. rewrite twice_median_sorted. cbv. discriminate. Qed.
(* With one run, which is the default, it reads out of the vector. *)
Theorem C76_single_refuted : forall x, median2 [x] = UB.
Proof. reflexivity. Qed.

Lemma sorted_map : forall m l, sorted (map (fun s => 2 * s - m) l) = map (fun s => 2 * s - m) (sorted l).
Proof.
  intros m l. induction l as [|x l IH]; [reflexivity|]. cbn [map sorted fold_right]. change (fold_right insert_sorted [] (map (fun s => 2 * s - m) l)) with (sorted (map (fun s => 2 * s - m) l)).
  rewrite IH. change (fold_right insert_sorted [] l) with (sorted l). generalize (sorted l) as u. clear. induction u as [|y u IH]; [reflexivity|].
  cbn [insert_sorted map]. destruct (Z.leb_spec (2 * x - m) (2 * y - m)), (Z.leb_spec x y); try lia; [reflexivity|]. cbn [map]. rewrite IH. reflexivity.
Qed.
(* The deviation that is reported is always zero. *)
Theorem C77_zero : forall secs, length secs <> 1%nat -> exists med, med_mad secs = Good (med, 0).
Proof.
  intros secs Hl. destruct secs as [|x t]; [exists 0; reflexivity|]. set (l := x :: t) in *. exists (2 * nth (length l / 2) (sorted l) 0).
  assert (H : forall u, length u = length l -> median2 u = Good (2 * nth (length l / 2) (sorted u) 0)).
  { intros u E. unfold median2. destruct u as [|y u]; [discriminate|]. set (v := y :: u) in *. destruct (Z.eqb_spec (Z.lxor (Z.of_nat (length v)) 1) 0) as [F|F]; [apply lxor_one in F; lia|].
    rewrite E. subst v. cbn [negb]. do 3 f_equal. change 2 with (Z.of_nat 2). rewrite <- Nat2Z.inj_div. apply Nat2Z.id. }
  unfold med_mad. rewrite (H l eq_refl). cbn [rbind]. rewrite (H (map _ l)) by apply map_length. cbn [rbind]. do 2 f_equal. rewrite sorted_map.
  set (m := 2 * nth (length l / 2) (sorted l) 0). rewrite (nth_indep _ 0 (2 * 0 - m)).
  - rewrite (map_nth (fun s => 2 * s - m)). unfold m. ring.
  - rewrite map_length. rewrite <- (Permutation_length (sorted_perm l)). apply Nat.div_lt; cbn; lia.
Qed.
Theorem C77_refuted : exists secs med mad, length secs = 3%nat /\ med_mad secs = Good (med, mad) /\ twice_median secs med /\
  ~ twice_median (map (fun s => Z.abs (2 * s - med)) secs) mad.
Proof.
  exists [7; 1; 4], 8, 0. split; [reflexivity|]. split; [reflexivity|]. split; [apply twice_median_sorted; reflexivity|]. rewrite twice_median_sorted. cbv. discriminate.
Qed.
Example C76_ex : median2 [7; 1; 4] = Good 8 /\ twice_median [7; 1; 4] 8 /\ Nat.odd (length [7; 1; 4]) = true /\ median2 [3; 1; 2; 4] = Good 6 /\ med_mad [3; 1; 2; 4] = Good (6, 0) /\ med_mad [3] = UB.
Proof. repeat split. apply twice_median_sorted. reflexivity. Qed.
Print Assumptions C76_partial.
Print Assumptions C76_even.
Print Assumptions C76_even_refuted.
Print Assumptions C76_single_refuted.
Print Assumptions C77_zero.
Print Assumptions C77_refuted.

(* ---- C78 ---- *)

Definition passes (e c : bool) (t : list option_call * bool) : bool := negb (skips (fst t)) && Bool.eqb (expects_failure (fst t)) e && Bool.eqb (snd t) c.

Lemma count_cons : forall A (p : A -> bool) x l, count p (x :: l) = (if p x then 1 else 0) + count p l.
Proof. intros. unfold count. cbn [filter]. destruct (p x); cbn [length]; lia. Qed.
Lemma calls_counts : forall o t, fold_left call o t = Rec (fold_left (fun b c => match c with CallSkip x => x | _ => b end) o (willskip t))
  (fold_left (fun b c => match c with CallExpectFail x => x | _ => b end) o (willexpectfail t)) (fold_left (fun b c => match c with CallStrict x => x | _ => b end) o (willstrict t))
  (total t) (skipped t) (passed_good t) (passed_bad t) (failed_good t) (failed_bad t) (bad t).
Proof. induction o as [|c o IH]; intros [sk ef st n s pg pb fg fb l]; [reflexivity|]. cbn [fold_left]. rewrite IH. destruct c; reflexivity. Qed.
Lemma last_skips : forall o b, fold_left (fun b c => match c with CallSkip x => x | _ => b end) o b = fold_left (fun b c => match (match c with CallSkip b => Some b | _ => None end) with Some x => x | None => b end) o b.
Proof. induction o as [|c o IH]; intros b; [reflexivity|]. cbn [fold_left]. rewrite IH. destruct c; reflexivity. Qed.
Lemma last_expects : forall o b, fold_left (fun b c => match c with CallExpectFail x => x | _ => b end) o b = fold_left (fun b c => match (match c with CallExpectFail b => Some b | _ => None end) with Some x => x | None => b end) o b.
Proof. induction o as [|c o IH]; intros b; [reflexivity|]. cbn [fold_left]. rewrite IH. destruct c; reflexivity. Qed.

Lemma run_counts : forall s t, willskip t = false -> willexpectfail t = false -> let r := run_tests s t in
  total r = total t + Z.of_nat (length s) /\ skipped r = skipped t + count (fun x => skips (fst x)) s /\
  passed_good r = passed_good t + count (passes false true) s /\ failed_bad r = failed_bad t + count (passes false false) s /\
  passed_bad r = passed_bad t + count (passes true true) s /\ failed_good r = failed_good t + count (passes true false) s /\
  bad r = bad t ++ numbers unexpected (total t) s.
Proof.
  induction s as [|(o, c) s IH]; intros t H1 H2 r; subst r; cbn [run_tests].
  - unfold count. cbn. rewrite app_nil_r. repeat split; lia.
  - rewrite calls_counts, H1, H2, last_skips, last_expects. fold (last_value (fun c => match c with CallSkip b => Some b | _ => None end) o). fold (skips o).
    fold (last_value (fun c => match c with CallExpectFail b => Some b | _ => None end) o). fold (expects_failure o).
    rewrite !count_cons. cbn [numbers]. unfold passes at 1 3 5 7, unexpected at 1. cbn [fst snd]. unfold test.
    destruct (skips o), (expects_failure o), c; cbn [negb andb Bool.eqb app];
      match goal with |- context [run_tests s ?u] => specialize (IH u eq_refl eq_refl); cbn [total skipped passed_good passed_bad failed_good failed_bad bad] in IH end;
      destruct IH as (I1 & I2 & I3 & I4 & I5 & I6 & I7); rewrite I1, I2, I3, I4, I5, I6, I7; cbn [length]; rewrite <- ?app_assoc; cbn [app]; repeat split; lia.
Qed.

(* After any tests: how many of each kind, and the numbers of those that came out as they shouldn't have. The options of a test are for that test only. *)
Theorem C78_record : forall s, let r := run_tests s fresh in
  total r = Z.of_nat (length s) /\ skipped r = count (fun t => skips (fst t)) s /\
  passed_good r = count (passes false true) s /\ failed_bad r = count (passes false false) s /\
  passed_bad r = count (passes true true) s /\ failed_good r = count (passes true false) s /\
  bad r = numbers unexpected 0 s /\ summary r = count unexpected s.
Proof.
  intros s r. destruct (run_counts s fresh eq_refl eq_refl) as (H1 & H2 & H3 & H4 & H5 & H6 & H7). fold r in H1, H2, H3, H4, H5, H6, H7. repeat (split; [assumption|]).
  unfold summary. rewrite H7. cbn [fresh bad app total]. generalize 0 as k. clear. induction s as [|x s IH]; intros k; [reflexivity|]. cbn [numbers]. rewrite count_cons, app_length, Nat2Z.inj_add, IH.
  destruct (unexpected x); reflexivity.
Qed.
Theorem C78_sum : forall s, let r := run_tests s fresh in
  total r = passed_good r + passed_bad r + failed_good r + failed_bad r + skipped r /\ summary r = passed_bad r + failed_bad r /\ (summary r = 0 <-> forall t, In t s -> unexpected t = false).
Proof.
  intros s r. destruct (C78_record s) as (H1 & H2 & H3 & H4 & H5 & H6 & H7 & H8). fold r in H1, H2, H3, H4, H5, H6, H7, H8. rewrite H1, H2, H3, H4, H5, H6, H8. clear. split; [|split].
  - induction s as [|(o, c) s IH]; [reflexivity|]. rewrite !count_cons. cbn [length]. unfold passes at 1 3 5 7. cbn [fst snd]. destruct (skips o), (expects_failure o), c; cbn [negb andb Bool.eqb]; lia.
  - induction s as [|(o, c) s IH]; [reflexivity|]. rewrite !count_cons. unfold passes at 1 3, unexpected at 1. cbn [fst snd]. destruct (skips o), (expects_failure o), c; cbn [negb andb Bool.eqb]; lia.
  - unfold count. split.
    + intros H t Ht. destruct (unexpected t) eqn:E; auto. assert (In t (filter unexpected s)) by (apply filter_In; auto). destruct (filter unexpected s); [contradiction|cbn in H; lia].
    + intros H. rewrite filter_none by auto. reflexivity.
Qed.
Example C78_ex : let r := run_tests [([], true); ([CallExpectFail true], false); ([], false); ([CallSkip true], false); ([CallExpectFail true; CallStrict true], true); ([CallSkip true; CallSkip false], true)] fresh in
  total r = 6 /\ skipped r = 1 /\ passed_good r = 2 /\ failed_good r = 1 /\ failed_bad r = 1 /\ passed_bad r = 1 /\ bad r = [2; 4] /\ summary r = 2.
Proof. repeat split. Qed.
Print Assumptions C78_record.
Print Assumptions C78_sum.

(* ---- C79 ---- *)

Definition comp_expr {T} (comp : T -> T -> bool) (a b : expr (val T) (mem T)) : expr (val T) (mem T) :=
  Map (op2 (fun u v => x <- rd u ;; y <- rd v ;; ret (VB (comp x y)))) [a; b].

Lemma comp_reads : forall T (comp : T -> T -> bool) (a b : expr (val T) (mem T)) s m x y, reads a s m x -> reads b s m y ->
  reads_bool (fun _ => false) (comp_expr comp a b) s m (fun j => comp (x j) (y j)).
Proof.
  intros T comp a b s m x y Ha Hb j Hj. destruct (Ha j Hj) as (u & E1 & F1), (Hb j Hj) as (v & E2 & F2). exists (VB (comp (x j) (y j))). split; [|reflexivity].
  unfold comp_expr. cbn [element map]. rewrite (in_order_2 _ _ _ _ _ u m v m) by auto. unfold op2, bind. rewrite (rd_value _ _ (x j)) by auto. rewrite (rd_value _ _ (y j)) by auto. reflexivity.
Qed.
Lemma comp_every : forall T fixed z (comp : T -> T -> bool) (a b : expr (val T) (mem T)) s m x y, wf a -> wf b -> joint_shape [a; b] s -> zclean z -> reads a s m x -> reads b s m y ->
  exists c, every fixed z (fun _ => false) (comp_expr comp a b) m = Ok c m /\ (c = true <-> forall j, inshape j s -> comp (x j) (y j) = true).
Proof.
  intros T fixed z comp a b s m x y Ha Hb Hs Hz Hx Hy. apply (C08_every T (fun _ => false) (comp_expr comp a b) s m); auto.
  - apply wf_map; [discriminate|]. auto.
  - apply comp_reads; auto.
Qed.

(* t is the type of the two arguments together *)
Lemma agree_ct_iff : forall X W t (a b : expr X W), instance t (Map (fun _ => fail) [a; b]) -> wf a -> wf b -> settled t -> (agree_ct t [a; b] = true <-> agreeing [a; b]).
Proof.
  intros X W t a b Hi Ha Hb Hs. set (e := Map (fun _ => fail) [a; b]) in *. assert (Hw : wf e) by (apply wf_map; [discriminate|auto]).
  assert (Ea : agreeing [e] <-> agreeing [a; b]).
  { unfold agreeing. cbn [fold_right flat_map axes leaf_lens e]. unfold e. cbn [axes leaf_lens fold_right flat_map]. split; intros H k Hk.
    - specialize (H k ltac:(lia)). rewrite !app_nil_r in *. auto.
    - specialize (H k ltac:(lia)). rewrite !app_nil_r in *. auto. }
  unfold agree_ct. destruct (Z.eqb_spec 1 (check_s t)) as [E|E].
  - rewrite <- Ea. rewrite <- validate_iff by auto. unfold validate, agree. cbn [e]. change (match e with Map _ _ | Pick _ _ => check e | _ => 0 <=? sizee e end) with (check e).
    fold e. pose proof (rank_nonneg e Hw). destruct (Z.leb_spec 0 (rank e)); [|lia]. reflexivity.
  - destruct (Z.eqb_spec 0 (check_s t)) as [E0|E0]; cbn [negb].
    + split; [discriminate|]. intros H. exfalso. apply (C52_fail t e Hi Hw Hs (eq_sym E0)). apply Ea. auto.
    + split; [|auto]. intros _. apply Ea. apply (C52_pass t e Hi Hw Hs). unfold check_s in *. destruct (rank_s t =? ANY); [congruence|].
      destruct (check_s_loop_range t (Z.to_nat (rank_s t)) 0 0) as [F|[F|F]]; congruence.
Qed.

(* not strict: the shapes agree (prefix) and all the elements compare true; a mismatch isn't an error *)
Theorem C79_agree : forall T fixed z t (comp : T -> T -> bool) (a b : expr (val T) (mem T)) s m x y, instance t (Map (fun _ => fail) [a; b]) -> wf a -> wf b -> settled t ->
  joint_shape [a; b] s -> zclean z -> reads a s m x -> reads b s m y ->
  exists c, test_comp fixed z false t comp a b m = Ok c m /\ (c = true <-> forall j, inshape j s -> comp (x j) (y j) = true).
Proof.
  intros T fixed z t comp a b s m x y Hi Ha Hb Ht Hs Hz Hx Hy. unfold test_comp. replace (agree_ct t [a; b]) with true; [apply comp_every; auto|].
  symmetry. apply agree_ct_iff; auto. intros k Hk. destruct Hs as (H1 & H2). exists (nth k s 0). apply H2. auto.
Qed.
Theorem C79_mismatch : forall T fixed z t (comp : T -> T -> bool) (a b : expr (val T) (mem T)) m, instance t (Map (fun _ => fail) [a; b]) -> wf a -> wf b -> settled t ->
  ~ agreeing [a; b] -> test_comp fixed z false t comp a b m = Ok false m.
Proof.
  intros T fixed z t comp a b m Hi Ha Hb Ht Hn. unfold test_comp. destruct (agree_ct t [a; b]) eqn:E; [|reflexivity]. apply agree_ct_iff in E; auto. contradiction.
Qed.
(* strict: the shapes are the same *)
Lemma same_lens_eq : forall s t, length s = length t -> (same_lens s t = true <-> s = t).
Proof.
  induction s as [|x s IH]; intros [|y t] H; try discriminate; [split; auto|]. cbn [same_lens]. rewrite andb_true_iff, IH by (cbn in H; lia). rewrite Z.eqb_eq. split; [intros (-> & ->); auto|intros E; inversion E; auto].
Qed.
Theorem C79_strict : forall T fixed z t (comp : T -> T -> bool) (a b : expr (val T) (mem T)) sa sb m x y, wf a -> wf b -> shape_is a sa -> shape_is b sb -> zclean z ->
  reads a sa m x -> reads b sb m y ->
  exists c, test_comp fixed z true t comp a b m = Ok c m /\ (c = true <-> sa = sb /\ forall j, inshape j sa -> comp (x j) (y j) = true).
Proof.
  intros T fixed z t comp a b sa sb m x y Ha Hb Hsa Hsb Hz Hx Hy. unfold test_comp, strict_shapes.
  destruct (shape_is_shape a sa Ha Hsa) as (Ea & _), (shape_is_shape b sb Hb Hsb) as (Eb & _).
  assert (La : Z.of_nat (length sa) = rank a) by (rewrite Ea, L_Expr.shape_length; unfold rankn; pose proof (rank_nonneg a Ha); lia).
  assert (Lb : Z.of_nat (length sb) = rank b) by (rewrite Eb, L_Expr.shape_length; unfold rankn; pose proof (rank_nonneg b Hb); lia).
  rewrite <- Ea, <- Eb. destruct (Z.eqb_spec (rank a) (rank b)) as [E|E]; cbn [andb].
  - destruct (same_lens sa sb) eqn:F.
    + apply same_lens_eq in F; [|lia]. clear Ea Eb. subst sb. destruct (comp_every T fixed z comp a b sa m x y) as (c & H1 & H2); auto.
      * destruct Hsa as (A1 & A2), Hsb as (B1 & B2). split; cbn [fold_right flat_map]; [lia|]. intros k Hk. assert (Hk' : (k < axes a)%nat) by lia. destruct (A2 k Hk') as (P1 & P2 & P3), (B2 k ltac:(lia)) as (Q1 & Q2 & Q3).
        split; auto. split; [apply in_or_app; auto|]. apply Forall_app. split; auto. apply Forall_app. split; [auto|constructor].
      * exists c. split; [exact H1|]. rewrite H2. tauto.
    + exists false. split; [reflexivity|]. split; [discriminate|]. intros (-> & _). rewrite (proj2 (same_lens_eq sb sb eq_refl) eq_refl) in F. discriminate.
  - exists false. split; [reflexivity|]. split; [discriminate|]. intros (-> & _). lia.
Qed.
(* a 2x3 array with rows 0 0 0 and 1 1 1, and the vector 0 1: equal, but not strictly so *)
Definition ex_rows : expr (val Z) (mem Z) := Map (fun xs => match xs with [VI k] => ret (VT (k / 3)) | _ => undef end) [Cell [Dim 2 3; Dim 3 1] 2 VI 0].
Definition ex_vec (n : Z) : expr (val Z) (mem Z) := Map (fun xs => match xs with [VI k] => ret (VT k) | _ => undef end) [Cell [Dim n 1] 1 VI 0].
Definition ex_ty : ty := TMatch [TMatch [TCell (Some [2; 3])]; TMatch [TCell None]].
Example C79_ex : wf ex_rows /\ wf (ex_vec 2) /\ settled ex_ty /\ instance ex_ty (Map (fun _ => fail) [ex_rows; ex_vec 2]) /\ shape_is ex_rows [2; 3] /\ shape_is (ex_vec 2) [2] /\
  test_comp true z_init false ex_ty Z.eqb ex_rows (ex_vec 2) (fun _ => 0) = Ok true (fun _ => 0) /\ test_comp true z_init true ex_ty Z.eqb ex_rows (ex_vec 2) (fun _ => 0) = Ok false (fun _ => 0) /\
  test_comp true z_init false ex_ty Z.eqb ex_rows (ex_vec 3) (fun _ => 0) = Ok false (fun _ => 0) /\ test_comp true z_init false ex_ty Z.ltb ex_rows (ex_vec 2) (fun _ => 0) = Ok false (fun _ => 0).
Proof.
  assert (W1 : wf ex_rows) by (cbn; split; [discriminate|]; repeat split; auto; repeat constructor; unfold oklen; cbn; lia).
  assert (W2 : wf (ex_vec 2)) by (cbn; split; [discriminate|]; repeat split; auto; repeat constructor; unfold oklen; cbn; lia).
  split; [exact W1|]. split; [exact W2|]. split; [cbn; auto|]. split.
  { apply i_map. constructor; [|constructor; [|constructor]]; apply i_map; (constructor; [|constructor]); [|constructor]. apply i_cell; auto. intros k Hk. destruct k as [|[|k]]; cbn; auto; lia. }
  split; [exact (shape_shape_is _ W1 eq_refl)|]. split; [exact (shape_shape_is _ W2 eq_refl)|]. repeat split.
Qed.
Print Assumptions C79_agree.
Print Assumptions C79_mismatch.
Print Assumptions C79_strict.

(* ---- C80 ---- *)

(* what is compared: zero or more, or NaN *)
Definition err_ok (x : fl) : Prop := match x with Fin r => (0 <= r)%R | PInf => True | NInf => False | NaN => True end.

Lemma visit_amax : forall (x : list Z -> fl) (get : list Z -> M (mem fl * fl) (val fl)) m js c,
  (forall j c, In j js -> get j (m, c) = Ok (if fl_isnan (x j) then VT NaN else VUnit) (m, if fl_lt c (x j) then x j else c)) ->
  exists c', visit post_t get js (m, c) = Ok (if existsb (fun j => fl_isnan (x j)) js then Some NaN else None) (m, c') /\
    (existsb (fun j => fl_isnan (x j)) js = false -> c' = fold_left (fun c j => if fl_lt c (x j) then x j else c) js c).
Proof.
  induction js as [|j js IH]; intros c H; cbn [visit existsb fold_left].
  - exists c. split; auto.
  - rewrite H by (left; auto). destruct (fl_isnan (x j)) eqn:E; cbn [post_t orb].
    + eexists. split; [reflexivity|]. discriminate.
    + apply IH. intros; apply H; right; auto.
Qed.

Lemma amax_strict_spec : forall fixed z e s m x, wf e -> shape_is e s -> zclean z -> reads e s m x ->
  amax_strict fixed z e m = Ok (if existsb (fun j => fl_isnan (x j)) (indices s) then NaN else fold_left (fun c j => if fl_lt c (x j) then x j else c) (indices s) NInf) m.
Proof.
  intros fixed z e s m x Hw Hs Hz Hr. unfold amax_strict. pose proof (row_major_indices s) as Hj.
  rewrite (ply_spec _ _ _ post_t fixed z _ s (indices s)); auto.
  - destruct (visit_amax x (element (Map amax_strict_op [lift e])) m (indices s) NInf) as (c' & -> & Hc).
    + intros j c Hin. apply in_indices in Hin. destruct (Hr j Hin) as (v & E & F). cbn [element map in_order]. rewrite lift_element. unfold lift_op. cbn [fst snd]. rewrite E.
      unfold amax_strict_op, op1, bind. rewrite (rdl_value _ _ _ (x j)) by auto. cbn [fst snd]. reflexivity.
    + destruct (existsb _ _); [reflexivity|]. cbn [fst snd]. rewrite Hc by reflexivity. reflexivity.
  - apply wf_map; [discriminate|]. constructor; [apply lift_wf; auto|constructor].
  - apply joint_shape_map. apply (lift_joint _ _ fl [e]). apply joint_shape_1. auto.
Qed.

Lemma fl_le_fin : forall x r, fl_le x (Fin r) = true <-> match x with Fin a => (a <= r)%R | NInf => True | _ => False end.
Proof.
  intros [a| | |] r; unfold fl_le; cbn; [|split; [discriminate|contradiction]|split; auto|split; [discriminate|contradiction]].
  destruct (Rlt_dec a r), (Req_EM_T a r); cbn; split; intros; auto; try lra; try discriminate.
Qed.
Lemma fl_lt_le : forall c d r, fl_lt c d = true -> fl_le d (Fin r) = true -> fl_le c (Fin r) = true.
Proof. intros c d r E H. apply fl_le_fin. apply fl_le_fin in H. destruct c, d; cbn in E; try discriminate; try contradiction; auto. destruct (Rlt_dec r0 r1); [lra|discriminate]. Qed.
Lemma fl_nlt_le : forall c d r, c <> NaN -> d <> NaN -> fl_lt c d = false -> fl_le c (Fin r) = true -> fl_le d (Fin r) = true.
Proof. intros c d r Hc Hd E H. apply fl_le_fin. apply fl_le_fin in H. destruct c, d; cbn in E; try discriminate; auto; try contradiction; try congruence. destruct (Rlt_dec r0 r1); [discriminate|lra]. Qed.
(* the largest of them is at most r iff all of them are *)
Lemma fold_amax_le : forall (x : list Z -> fl) r js c, c <> NaN -> (forall j, In j js -> x j <> NaN) ->
  (fl_le (fold_left (fun c j => if fl_lt c (x j) then x j else c) js c) (Fin r) = true <-> fl_le c (Fin r) = true /\ forall j, In j js -> fl_le (x j) (Fin r) = true).
Proof.
  intros x r. induction js as [|j js IH]; intros c Hc Hx; cbn [fold_left].
  - split; [intros H; split; [exact H|intros j []]|tauto].
  - assert (Hj : x j <> NaN) by (apply Hx; left; auto). rewrite IH.
    + split.
      * intros (H1 & H2). destruct (fl_lt c (x j)) eqn:E.
        -- split; [apply (fl_lt_le c (x j)); auto|intros k [->|Hk]; auto].
        -- split; [auto|]. intros k [<-|Hk]; auto. apply (fl_nlt_le c (x j)); auto.
      * intros (H1 & H2). split; [destruct (fl_lt c (x j)); [apply H2; left|]; auto|]. intros k Hk. apply H2. right; auto.
    + destruct (fl_lt c (x j)); auto.
    + intros k Hk. apply Hx. right; auto.
Qed.
Lemma fold_amax_ok : forall (x : list Z -> fl) js c, (c = NInf \/ err_ok c) -> (forall j, In j js -> err_ok (x j) /\ x j <> NaN) ->
  let r := fold_left (fun c j => if fl_lt c (x j) then x j else c) js c in (js = [] /\ r = c) \/ (err_ok r /\ (r = NaN -> c = NaN)).
Proof.
  intros x. induction js as [|j js IH]; intros c Hc Hx; cbn [fold_left]; [left; auto|]. right. destruct (Hx j (or_introl eq_refl)) as (H1 & H2).
  assert (E : err_ok (if fl_lt c (x j) then x j else c) /\ ((if fl_lt c (x j) then x j else c) = NaN -> c = NaN)).
  { destruct (fl_lt c (x j)) eqn:E; [split; auto; congruence|]. split; auto. destruct Hc as [->|Hc]; auto. destruct (x j); cbn in *; try discriminate; try contradiction; congruence. }
  destruct E as (E1 & E2). destruct (IH (if fl_lt c (x j) then x j else c)) as [(F1 & F2)|(F1 & F2)]; [right; auto|intros; apply Hx; right; auto| |].
  - rewrite F2. auto.
  - split; auto.
Qed.

(* the result is at most req iff there are elements and each is *)
Lemma amax_le : forall (d : list Z -> fl) s req, (forall j, err_ok (d j)) ->
  (fl_le (fl_abs (if existsb (fun j => fl_isnan (d j)) (indices s) then NaN else fold_left (fun c j => if fl_lt c (d j) then d j else c) (indices s) NInf)) (Fin req) = true
   <-> indices s <> [] /\ forall j, inshape j s -> fl_le (d j) (Fin req) = true).
Proof.
  intros d s req He. destruct (existsb (fun j => fl_isnan (d j)) (indices s)) eqn:E.
  - apply existsb_exists in E as (j & Hj & Ej). cbn [fl_abs]. rewrite fl_le_fin. split; [contradiction|]. intros (_ & H). specialize (H j ltac:(apply in_indices; auto)).
    destruct (d j); try discriminate.
  - assert (Hn : forall j, In j (indices s) -> d j <> NaN).
    { intros j Hj F. assert (existsb (fun j => fl_isnan (d j)) (indices s) = true); [|congruence]. apply existsb_exists. exists j. rewrite F. auto. }
    pose proof (fold_amax_le d req (indices s) NInf ltac:(discriminate) Hn) as HL.
    destruct (fold_amax_ok d (indices s) NInf (or_introl eq_refl)) as [(F1 & F2)|(F1 & F2)]; [intros j Hj; split; [apply He|apply Hn; auto]| |].
    + rewrite F2. split; [cbn; discriminate|]. intros (G & _). contradiction.
    + set (r := fold_left (fun c j => if fl_lt c (d j) then d j else c) (indices s) NInf) in *.
      assert (Er : fl_abs r = r). { destruct r; cbn in *; auto; [rewrite Rabs_pos_eq; auto|contradiction]. } rewrite Er, HL. split.
      * intros (_ & H). split; [|intros j Hj; apply H; apply in_indices; auto]. intros G. subst r. rewrite G in F1. cbn in F1. contradiction.
      * intros (_ & H). split; [reflexivity|]. intros j Hj. apply H. apply in_indices. auto.
Qed.
Lemma nanny_le : forall fixed z err (ref a : expr (val fl) (mem fl)) s m x y req, wf ref -> wf a -> joint_shape [ref; a] s -> zclean z -> reads ref s m x -> reads a s m y ->
  (forall u v, err_ok (nan_err err u v)) ->
  exists e, nanny fixed z err ref a m = Ok e m /\ (fl_le e (Fin req) = true <-> indices s <> [] /\ forall j, inshape j s -> fl_le (nan_err err (x j) (y j)) (Fin req) = true).
Proof.
  intros fixed z err ref a s m x y req Hr Ha Hs Hz Hx Hy He. unfold nanny, bind.
  rewrite (amax_strict_spec fixed z _ s m (fun j => nan_err err (x j) (y j))); auto.
  - eexists. split; [reflexivity|]. apply (amax_le (fun j => nan_err err (x j) (y j))). intros; apply He.
  - apply wf_map; [discriminate|]. auto.
  - intros j Hj. destruct (Hx j Hj) as (u & E1 & F1), (Hy j Hj) as (v & E2 & F2). exists (VT (nan_err err (x j) (y j))). split; [|reflexivity].
    cbn [element map]. rewrite (in_order_2 _ _ _ _ _ u m v m) by auto. unfold op2, bind. rewrite (rd_value _ _ (x j)) by auto. rewrite (rd_value _ _ (y j)) by auto. reflexivity.
Qed.

(* Errors of finite numbers: 0 or more, and not finite unless both are *)
Lemma nan_err_within : forall err near req, (0 <= req)%R -> (forall r q, exists e, err (Fin r) (Fin q) = Fin e /\ (0 <= e)%R /\ ((e <= req)%R <-> near r q)) ->
  (forall r y, (forall q, y <> Fin q) -> err (Fin r) y = PInf \/ err (Fin r) y = NaN) ->
  forall x y, err_ok (nan_err err x y) /\ (fl_le (nan_err err x y) (Fin req) = true <-> within near x y).
Proof.
  intros err near req Hq H1 H2 x y. destruct x as [r| | |]; cbn [nan_err fl_isfinite fl_isinf within].
  - destruct y as [q| | |].
    + destruct (H1 r q) as (e & -> & He & Hn). split; [exact He|]. rewrite fl_le_fin, Hn. split; [eauto|intros (q' & E & F); inversion E; auto].
    + destruct (H2 r PInf) as [->| ->]; try discriminate; (split; [exact I|]); rewrite fl_le_fin; (split; [contradiction|intros (q & E & _); discriminate]).
    + destruct (H2 r NInf) as [->| ->]; try discriminate; (split; [exact I|]); rewrite fl_le_fin; (split; [contradiction|intros (q & E & _); discriminate]).
    + destruct (H2 r NaN) as [->| ->]; try discriminate; (split; [exact I|]); rewrite fl_le_fin; (split; [contradiction|intros (q & E & _); discriminate]).
  - destruct y; cbn [fl_eq]; (split; [cbn; auto; lra|]); rewrite fl_le_fin; split; try discriminate; try contradiction; auto.
  - destruct y; cbn [fl_eq]; (split; [cbn; auto; lra|]); rewrite fl_le_fin; split; try discriminate; try contradiction; auto.
  - destruct y; cbn [fl_isnan]; (split; [cbn; auto; lra|]); rewrite fl_le_fin; split; try discriminate; try contradiction; auto.
Qed.


Lemma abs_within : forall req, (0 <= req)%R -> forall x y, err_ok (nan_err (fun x y => fl_abs (fl_sub x y)) x y) /\ (fl_le (nan_err (fun x y => fl_abs (fl_sub x y)) x y) (Fin req) = true <-> within (near_abs req) x y).
Proof.
  intros req Hq. apply nan_err_within; auto.
  - intros r q. exists (Rabs (r - q)). split; [reflexivity|]. split; [apply Rabs_pos|unfold near_abs; tauto].
  - intros r [q| | |] H; [destruct (H q); auto|cbn; auto|cbn; auto|cbn; auto].
Qed.
Lemma level_within : forall req level, (0 <= req)%R -> (0 < level)%R ->
  forall x y, err_ok (nan_err (fun x y => fl_div (fl_abs (fl_sub x y)) (Fin level)) x y) /\ (fl_le (nan_err (fun x y => fl_div (fl_abs (fl_sub x y)) (Fin level)) x y) (Fin req) = true <-> within (near_abs (req * level)) x y).
Proof.
  intros req level Hq Hl. apply nan_err_within; auto.
  - intros r q. exists (Rabs (r - q) / level)%R. split; [reflexivity|]. pose proof (Rabs_pos (r - q)) as Hp. split; [apply Rle_mult_inv_pos; auto|].
    unfold near_abs. split; intros H.
    + apply (Rmult_le_compat_r level) in H; [|lra]. unfold Rdiv in H. rewrite Rmult_assoc, Rinv_l, Rmult_1_r in H by lra. exact H.
    + apply (Rmult_le_reg_r level); [lra|]. unfold Rdiv. rewrite Rmult_assoc, Rinv_l, Rmult_1_r by lra. exact H.
  - intros r [q| | |] H; [destruct (H q); auto|cbn; auto|cbn; auto|cbn; auto].
Qed.
Lemma rel_within : forall req, (0 <= req)%R -> forall x y, err_ok (nan_err rel_error x y) /\ (fl_le (nan_err rel_error x y) (Fin req) = true <-> within (near_rel req) x y).
Proof.
  intros req Hq. apply nan_err_within; auto.
  - intros r q. unfold rel_error, near_rel. cbn [fl_abs fl_add fl_eq]. pose proof (Rabs_pos r) as Hr. pose proof (Rabs_pos q) as Hqq. pose proof (Rabs_pos (r - q)) as Hp. destruct (Req_EM_T (Rabs r + Rabs q) 0) as [E|E].
    + exists 0%R. split; [reflexivity|]. split; [lra|]. assert (r = 0)%R by (destruct (Req_dec r 0); auto; pose proof (Rabs_pos_lt r H); lra). assert (q = 0)%R by (destruct (Req_dec q 0); auto; pose proof (Rabs_pos_lt q H0); lra).
      subst. replace (0 - 0)%R with 0%R by ring. rewrite !Rabs_R0. split; intros; lra.
    + eexists. split; [reflexivity|]. cbn [fl_sub fl_neg fl_add fl_abs fl_div]. change (r + - q)%R with (r - q)%R. set (D := (Rabs r + Rabs q)%R) in *. assert (HD : (0 < D)%R) by (unfold D in *; lra). set (n := Rabs (r - q)) in *. split; [apply Rle_mult_inv_pos; lra|]. split; intros H.
      * apply (Rmult_le_compat_r D) in H; [|lra]. unfold Rdiv in H. rewrite Rmult_assoc, Rinv_l, Rmult_1_r in H by lra. lra.
      * apply (Rmult_le_reg_r D); [lra|]. unfold Rdiv. rewrite Rmult_assoc, Rinv_l, Rmult_1_r by lra. lra.
  - intros r [q| | |] H; [destruct (H q); auto|cbn; auto|cbn; auto|cbn; auto].
Qed.

(* arrays with elements: the test succeeds iff every pair is near enough. NaN is near only to itself, as are the infinities. *)
Theorem C80_abs_partial : forall fixed z req (ref a : expr (val fl) (mem fl)) s m x y, (0 <= req)%R -> wf ref -> wf a -> joint_shape [ref; a] s -> zclean z -> reads ref s m x -> reads a s m y ->
  (exists j, inshape j s) ->
  exists c, test_abs fixed z req ref a m = Ok c m /\ (c = true <-> forall j, inshape j s -> within (near_abs req) (x j) (y j)).
Proof.
  intros fixed z req ref a s m x y Hq Hr Ha Hs Hz Hx Hy (j0 & Hj0). unfold test_abs.
  destruct (nanny_le fixed z (fun x y => fl_abs (fl_sub x y)) ref a s m x y req) as (e & E & F); auto; [intros; apply (abs_within req Hq)|].
  unfold bind. rewrite E. eexists. split; [reflexivity|]. rewrite F. split.
  - intros (_ & H) j Hj. apply (abs_within req Hq). auto.
  - intros H. split; [intros G; apply in_indices in Hj0; rewrite G in Hj0; destruct Hj0|]. intros j Hj. apply (abs_within req Hq). auto.
Qed.
Theorem C80_rel_partial : forall fixed z req level (ref a : expr (val fl) (mem fl)) s m x y, (0 <= req)%R -> wf ref -> wf a -> joint_shape [ref; a] s -> zclean z -> reads ref s m x -> reads a s m y ->
  (exists j, inshape j s) ->
  exists c, test_rel fixed z req level ref a m = Ok c m /\
    ((level <= 0)%R -> (c = true <-> forall j, inshape j s -> within (near_rel req) (x j) (y j))) /\
    ((0 < level)%R -> (c = true <-> forall j, inshape j s -> within (near_abs (req * level)) (x j) (y j))).
Proof.
  intros fixed z req level ref a s m x y Hq Hr Ha Hs Hz Hx Hy (j0 & Hj0). unfold test_rel. destruct (Rle_dec level 0) as [Hl|Hl].
  - destruct (nanny_le fixed z rel_error ref a s m x y req) as (e & E & F); auto; [intros; apply (rel_within req Hq)|].
    unfold bind. rewrite E. eexists. split; [reflexivity|]. split; [|lra]. intros _. rewrite F. split.
    + intros (_ & H) j Hj. apply (rel_within req Hq). auto.
    + intros H. split; [intros G; apply in_indices in Hj0; rewrite G in Hj0; destruct Hj0|]. intros j Hj. apply (rel_within req Hq). auto.
  - assert (Hl' : (0 < level)%R) by lra. destruct (nanny_le fixed z (fun x y => fl_div (fl_abs (fl_sub x y)) (Fin level)) ref a s m x y req) as (e & E & F); auto; [intros; apply (level_within req level Hq Hl')|].
    unfold bind. rewrite E. eexists. split; [reflexivity|]. split; [lra|]. intros _. rewrite F. split.
    + intros (_ & H) j Hj. apply (level_within req level Hq Hl'). auto.
    + intros H. split; [intros G; apply in_indices in Hj0; rewrite G in Hj0; destruct Hj0|]. intros j Hj. apply (level_within req level Hq Hl'). auto.
Qed.
(* arrays without elements: always a failure, and it isn't the case that there's a pair which isn't near *)
Theorem C80_empty_refuted : forall fixed z req (ref a : expr (val fl) (mem fl)) s m x y, wf ref -> wf a -> joint_shape [ref; a] s -> zclean z -> reads ref s m x -> reads a s m y ->
  ~ (exists j, inshape j s) -> (0 <= req)%R ->
  (forall near j, inshape j s -> within near (x j) (y j)) /\ test_abs fixed z req ref a m = Ok false m /\ forall level, test_rel fixed z req level ref a m = Ok false m.
Proof.
  intros fixed z req ref a s m x y Hr Ha Hs Hz Hx Hy He Hq.
  assert (N : forall err, (forall u v, err_ok (nan_err err u v)) -> exists e, nanny fixed z err ref a m = Ok e m /\ fl_le e (Fin req) = false).
  { intros err Herr. destruct (nanny_le fixed z err ref a s m x y req) as (e & E & F); auto. exists e. split; auto. apply not_true_iff_false. rewrite F. intros (G & _). destruct (indices s) as [|j l] eqn:Ej; [congruence|].
    apply He. exists j. apply in_indices. rewrite Ej. left; auto. }
  split; [intros near j Hj; destruct He; eauto|]. split; [|intros level].
  - unfold test_abs, bind. destruct (N (fun x y => fl_abs (fl_sub x y))) as (e & -> & F); [intros; apply (abs_within req Hq)|]. unfold ret. rewrite F. reflexivity.
  - unfold test_rel, bind. destruct (Rle_dec level 0) as [Hl|Hl].
    + destruct (N rel_error) as (e & -> & F); [intros; apply (rel_within req Hq)|]. unfold ret. rewrite F. reflexivity.
    + destruct (N (fun x y => fl_div (fl_abs (fl_sub x y)) (Fin level))) as (e & -> & F); [intros; apply (level_within req level Hq); lra|]. unfold ret. rewrite F. reflexivity.
Qed.

(* the vector NaN 1 against NaN 1.5: near by 1/2 but not by 1/4, and by 2/5 relatively; and the empty vectors *)
Definition ex_fl (n : Z) (r : R) : expr (val fl) (mem fl) := Map (fun xs => match xs with [VI k] => ret (VT (if k =? 0 then NaN else Fin r)) | _ => undef end) [Cell [Dim n 1] 1 VI 0].
Definition ex_flv (r : R) (j : list Z) : fl := match j with [0] => NaN | _ => Fin r end.
Lemma ex_fl_ok : forall n r m, 0 <= n -> wf (ex_fl n r) /\ shape_is (ex_fl n r) [n] /\ reads (ex_fl n r) [n] m (ex_flv r).
Proof.
  intros n r m Hn. assert (W : wf (ex_fl n r)) by (cbn; split; [discriminate|]; repeat split; auto; repeat constructor; unfold oklen; cbn; lia). split; [exact W|]. split.
  - split; [reflexivity|]. intros k Hk. cbn in Hk. destruct k; [|lia]. cbn. repeat split; auto.
  - intros j Hj. destruct j as [|i [|? ?]]; try (inversion Hj; fail); [|inversion Hj; subst; inversion H4]. exists (VT (ex_flv r [i])). split; [|reflexivity].
    cbn. rewrite Z.mul_1_r, !Z.add_0_r. destruct i; reflexivity.
Qed.
Example C80_ex : wf (ex_fl 2 1) /\ joint_shape [ex_fl 2 1; ex_fl 2 (3/2)] [2] /\ (forall m, reads (ex_fl 2 1) [2] m (ex_flv 1)) /\ inshape [1] [2] /\
  (forall m, test_abs true z_init (1/2) (ex_fl 2 1) (ex_fl 2 (3/2)) m = Ok true m) /\ (forall m, test_abs true z_init (1/4) (ex_fl 2 1) (ex_fl 2 (3/2)) m = Ok false m) /\
  (forall m, test_rel true z_init (2/5) 0 (ex_fl 2 1) (ex_fl 2 (3/2)) m = Ok true m) /\
  (joint_shape [ex_fl 0 1; ex_fl 0 1] [0] /\ ~ (exists j, inshape j [0]) /\ forall m, test_abs true z_init 1 (ex_fl 0 1) (ex_fl 0 1) m = Ok false m).
Proof.
  assert (Js : forall n r q, 0 <= n -> joint_shape [ex_fl n r; ex_fl n q] [n]).
  { intros n r q Hn. split; [reflexivity|]. intros k Hk. cbn in Hk. destruct k; [|lia]. cbn. repeat split; auto; try lia. }
  assert (I1 : inshape [1] [2]) by (repeat constructor; lia).
  assert (Hr : Rabs (1 - 3 / 2) = (1 / 2)%R) by (rewrite Rabs_left; lra).
  split; [apply ex_fl_ok; [exact (fun _ => Fin 0)|lia]|]. split; [apply Js; lia|]. split; [intros m; apply ex_fl_ok; lia|]. split; [exact I1|].
  assert (X : forall P : list Z -> Prop, P [0] -> P [1] -> forall j, inshape j [2] -> P j).
  { intros P P0 P1 j Hj. inversion Hj; subst. inversion H3; subst. assert (Hx : x = 0 \/ x = 1) by lia. destruct Hx; subst; auto. }
  split; [|split; [|split]].
  - intros m. destruct (C80_abs_partial true z_init (1/2) (ex_fl 2 1) (ex_fl 2 (3/2)) [2] m (ex_flv 1) (ex_flv (3/2))) as (c & E & F); try apply ex_fl_ok; try apply Js; try lia; try lra; try exact z_init_clean; eauto.
    rewrite E. f_equal. apply F. apply X; cbn; [reflexivity|]. eexists; split; [reflexivity|]. unfold near_abs. lra.
  - intros m. destruct (C80_abs_partial true z_init (1/4) (ex_fl 2 1) (ex_fl 2 (3/2)) [2] m (ex_flv 1) (ex_flv (3/2))) as (c & E & F); try apply ex_fl_ok; try apply Js; try lia; try lra; try exact z_init_clean; eauto.
    rewrite E. f_equal. apply not_true_iff_false. rewrite F. intros H. destruct (H [1] I1) as (q & G1 & G2). cbn in G1. inversion G1; subst. unfold near_abs in G2. lra.
  - intros m. destruct (C80_rel_partial true z_init (2/5) 0 (ex_fl 2 1) (ex_fl 2 (3/2)) [2] m (ex_flv 1) (ex_flv (3/2))) as (c & E & F & _); try apply ex_fl_ok; try apply Js; try lia; try lra; try exact z_init_clean; eauto.
    rewrite E. f_equal. apply F; [lra|]. apply X; cbn; [reflexivity|]. eexists; split; [reflexivity|]. unfold near_rel. rewrite Hr, !Rabs_pos_eq by lra. lra.
  - assert (N0 : ~ exists j, inshape j [0]) by (intros (j & Hj); inversion Hj; lia). split; [apply Js; lia|]. split; [exact N0|]. intros m.
    apply (C80_empty_refuted true z_init 1 (ex_fl 0 1) (ex_fl 0 1) [0] m (ex_flv 1) (ex_flv 1)); try apply ex_fl_ok; try apply Js; try lia; try lra; try exact z_init_clean; auto.
Qed.
Print Assumptions C80_abs_partial.
Print Assumptions C80_rel_partial.
Print Assumptions C80_empty_refuted.
