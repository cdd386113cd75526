(* Properties C12-C22, C61: memory layout and view operations. *)
From Coq Require Import ZArith List Lia Bool Permutation.
From Coq Require Import ZifyBool ZifyNat.
From Verif Require Import Spec L_Spec M_Base M_Expr Spec_Expr M_View Spec_View L_View.
Import ListNotations.
Open Scope Z_scope.

(* proves that a concrete index is in a concrete shape *)
Ltac ins := apply in_indices; vm_compute; intuition.

(* ---- C12 ---- *)

Theorem C12_dense : forall s, nonneg s -> exists dv, filldimv s = Some (dv, zprod s) /\ map len dv = s /\
  (forall j, inshape j s -> 0 <= place dv j < zprod s) /\
  (forall i j, inshape i s -> inshape j s -> place dv i = place dv j -> i = j) /\
  (forall p, 0 <= p < zprod s -> exists j, inshape j s /\ place dv j = p) /\
  (forall i j, inshape i s -> inshape j s -> (lexlt i j <-> place dv i < place dv j)).
Proof.
  intros s H. destruct (filldimv_some s H) as (dv & E1 & E2 & E3). exists dv. split; auto. split; auto.
  assert (P : forall j, inshape j s -> place dv j = rm s j) by (intros; apply E3; apply inshape_length; auto).
  repeat split; intros.
  - rewrite P by auto. apply rm_range; auto.
  - rewrite P by auto. apply rm_range; auto.
  - rewrite !P in H2 by auto. eapply rm_inj; eauto.
  - destruct (rm_onto s p H H0) as (j & Hj & E). exists j. split; auto. rewrite P; auto.
  - rewrite !P by auto. apply lex_rm_lt; auto.
  - rewrite !P in H2 by auto. eapply rm_lt_lex; eauto.
Qed.

Theorem C12_refused : forall s, (exists n, In n s /\ n < 0) -> filldimv s = None.
Proof. intros s (n & Hn & H). apply filldimv_none. intros F. rewrite Forall_forall in F. specialize (F n Hn). cbn in F. lia. Qed.

(* with static rank the number of lengths must be right *)
Theorem C12_rank : forall r s, (nonneg s -> length s = r -> exists dv, filldimv_rank (Some r) s = Some (dv, zprod s) /\ map len dv = s) /\
  (length s <> r \/ ~ nonneg s -> filldimv_rank (Some r) s = None) /\ filldimv_rank None s = filldimv s.
Proof.
  intros r s. unfold filldimv_rank. split; [|split; [|reflexivity]].
  - intros H E. destruct (Nat.eqb_spec (length s) r); [|congruence]. destruct (filldimv_some s H) as (dv & E1 & E2 & E3). exists dv; auto.
  - destruct (Nat.eqb_spec (length s) r); [|reflexivity]. intros [|H]; [congruence|]. apply filldimv_none. exact H.
Qed.
Example C12_rank_ex : filldimv_rank (Some 2%nat) [4; 3] = Some ([Dim 4 3; Dim 3 1], 12) /\ filldimv_rank (Some 3%nat) [4; 3] = None.
Proof. split; reflexivity. Qed.

Example C12_example : nonneg [2; 0; 3] /\ nonneg [2; 3] /\ filldimv [2; 3] = Some ([Dim 2 3; Dim 3 1], 6) /\ filldimv [2; -1] = None.
Proof. repeat split; repeat constructor; lia. Qed.

(* ---- C13 ---- *)

Theorem C13_contiguous : forall dv, nonneg (map len dv) ->
  (c_order dv true = true <-> forall j, inshape j (map len dv) -> place dv j = rm (map len dv) j).
Proof.
  intros dv Hn. unfold c_order. rewrite c_order_loop_spec. rewrite Z.mul_1_l. split.
  - intros [H|H] j Hj.
    + pose proof (zprod_pos _ (inshape_pos _ _ Hj)). lia.
    + rewrite (compact_place _ _ _ H Hj). lia.
  - intros H. destruct (Z.eq_dec (zprod (map len dv)) 0) as [E|E]; [left; auto|right].
    assert (Hp : Forall (fun n => 0 < n) (map len dv)).
    { clear H. induction dv; cbn in *; constructor; inversion Hn; subst. { destruct (Z.eq_dec (len a) 0); [exfalso; apply E; lia|lia]. } apply IHdv; auto. intros Z; apply E; lia. }
    clear E Hn. induction dv; cbn [compact]; auto. inversion Hp; subst. split.
    + apply IHdv; auto. intros j Hj. specialize (H (0 :: j)). cbn in H. rewrite <- H; [auto|]. constructor; [lia|auto].
    + destruct (Z.eq_dec (len a) 1); auto. right. specialize (H (1 :: repeat 0 (length (map len dv)))). cbn [map place rm] in H. rewrite place_zeros, rm_zeros in H.
      rewrite Z.mul_1_l. rewrite <- (Z.add_0_r (zprod _)), <- (Z.mul_1_l (zprod _)), <- H; [lia|]. constructor; [lia|]. apply zeros_inshape; auto.
Qed.

Example C13_example : c_order [Dim 2 3; Dim 1 77; Dim 3 1] true = true /\ c_order [Dim 2 4; Dim 3 1] true = false /\ c_order [Dim 2 9; Dim 0 5] true = true.
Proof. auto. Qed.

(* ---- C14 ---- *)

(* Missing from C14: views where the innermost axis with length other than 1 has step 0 and some other axis hasn't. *)
Theorem C14_ravel_partial : forall a b j, nonneg (vshape a) -> ravel_free a = Good b ->
  (forall d e, innermost (vdv a) d -> step d = 0 -> In e (vdv a) -> len e <> 1 -> step e = 0) ->
  inshape j (vshape a) -> vshape b = [zprod (vshape a)] /\ vplace b [rm (vshape a) j] = vplace a j.
Proof.
  unfold ravel_free, vshape, vplace. intros a b j Hn H Hi Hj. destruct (c_order (vdv a) false) eqn:Ec; [|discriminate]. inversion H; subst. cbn [vdv vcp map len place step].
  rewrite dimv_size_prod by auto. split; auto. f_equal. rewrite Z.add_0_r.
  destruct (Z.eq_dec (inner_step (vdv a)) 0) as [E|E]; [|symmetry; apply ravel_place; auto].
  rewrite E, Z.mul_0_r. unfold inner_step in E. destruct (tail_cases (vdv a)) as [(_ & Es)|(pre & d & ones & E1 & Hd & Ho & Es)]; rewrite Es in E; [discriminate|].
  assert (Z0 : Forall (fun e => len e = 1 \/ step e = 0) (vdv a)).
  { apply Forall_forall. intros e He. destruct (Z.eq_dec (len e) 1); auto. right. apply (Hi d e); auto. exists pre, ones. auto. }
  clear - Z0 Hj. revert j Hj. induction (vdv a); intros j Hj; inversion Hj; subst; cbn; auto. inversion Z0; subst. rewrite <- IHl by auto. destruct H1; [assert (x = 0) by lia; subst; lia|nia].
Qed.

(* a(2 axes of length 2 and 3) with steps 1 and 0: all the axes but the last are ignored by c_order() when the last step is 0 *)
Theorem C14_ravel_refuted : exists a b j, nonneg (vshape a) /\ ravel_free a = Good b /\ inshape j (vshape a) /\ vplace b [rm (vshape a) j] <> vplace a j.
Proof.
  exists (Vw [Dim 2 1; Dim 3 0] 0). eexists. exists [1; 0]. split; [repeat constructor; cbn; lia|]. split; [reflexivity|]. split; [ins|]. cbv. discriminate.
Qed.

Example C14_example : exists b, ravel_free (Vw [Dim 2 12; Dim 3 4; Dim 1 1] 7) = Good b /\ vplace b [5] = 27.
Proof. eexists. split; [reflexivity|]. reflexivity. Qed.

(* ---- C15 ---- *)

(* b's element at j is the element of a in position (position of j) modulo (size of a) *)
Definition reshaped (a b : view) : Prop := forall j, inshape j (vshape b) -> exists i, inshape i (vshape a) /\
  rm (vshape a) i = rm (vshape b) j mod zprod (vshape a) /\ vplace b j = vplace a i.

Lemma map_len_zero : forall l, map len (map (fun n => Dim n 0) l) = l.
Proof. induction l; cbn; congruence. Qed.
Lemma place_zero_steps : forall l j, place (map (fun n => Dim n 0) l) j = 0.
Proof. induction l; intros; cbn; auto. destruct j; auto. rewrite IHl. lia. Qed.

Lemma reshape_tail : forall dv cp s bdv, nonneg (map len dv) -> (0 < zprod (map len dv) \/ (length dv <= length s)%nat) ->
  tail_match (rev dv) (rev s) [] = Some bdv -> map len bdv = s /\ reshaped (Vw dv cp) (Vw bdv cp).
Proof.
  intros dv cp s bdv Hn Hp H. apply tail_match_spec in H. destruct H as [(rx & E1 & E2)|(rx & ry & E1 & Hy & E2 & E3)].
  - rewrite rev_involutive, app_nil_r in E2. assert (Es : s = rev rx ++ map len dv).
    { rewrite <- (rev_involutive s), E1, rev_app_distr, map_rev, rev_involutive. auto. }
    split. { rewrite E2, map_app, map_len_zero. auto. }
    unfold reshaped, vshape, vplace. cbn [vdv vcp]. intros j Hj. rewrite E2, map_app, map_len_zero in Hj. apply Forall2_app_inv_r in Hj. destruct Hj as (j1 & j2 & F1 & F2 & ->).
    exists j2. split; auto. pose proof (rm_range _ _ F2) as R. split.
    + rewrite E2, map_app, map_len_zero. rewrite rm_app by (apply (inshape_length _ _ F1)). rewrite Z.add_comm, Z.mod_add by lia. rewrite Z.mod_small; auto.
    + rewrite E2. rewrite place_app by (rewrite map_length; symmetry; apply (inshape_length _ _ F1)). rewrite place_zero_steps. lia.
  - rewrite app_nil_r in E3. assert (Ed : dv = rev ry ++ rev rx) by (rewrite <- rev_app_distr, <- E1, rev_involutive; auto).
    assert (Es : s = map len (rev rx)) by (rewrite map_rev, <- E2, rev_involutive; auto).
    split; [congruence|]. unfold reshaped, vshape, vplace. cbn [vdv vcp]. intros j Hj.
    assert (Hl : (length s < length dv)%nat). { rewrite Es, Ed, map_length, app_length. destruct ry; [contradiction|]. rewrite (rev_length (d :: ry)). cbn. lia. }
    assert (Hz : 0 < zprod (map len dv)) by (destruct Hp; [auto|lia]). clear Hp.
    rewrite Ed, map_app in Hz, Hn. rewrite zprod_app in Hz. apply Forall_app in Hn. destruct Hn as (N1 & N2).
    assert (Hry : Forall (fun n => 0 < n) (map len (rev ry))).
    { apply Forall_forall. intros n Hin. assert (0 <= n) by (rewrite Forall_forall in N1; apply N1; auto). destruct (Z.eq_dec n 0); [|lia]. subst n.
      apply in_split in Hin. destruct Hin as (x & y & E). rewrite E in Hz. rewrite zprod_app in Hz. cbn in Hz. lia. }
    exists (repeat 0 (length (rev ry)) ++ j). rewrite E3 in Hj. pose proof (rm_range _ _ Hj) as R.
    assert (Hzi : inshape (repeat 0 (length (rev ry))) (map len (rev ry))). { pose proof (zeros_inshape _ Hry) as Z. rewrite map_length in Z. auto. }
    split; [|split].
    + rewrite Ed, map_app. apply inshape_app; auto.
    + rewrite Ed, E3, map_app, rm_app by (rewrite repeat_length, map_length; auto). rewrite rm_zeros, zprod_app. rewrite Z.mod_small; [lia|].
      pose proof (zprod_pos _ Hry). nia.
    + rewrite Ed, E3, place_app by (rewrite repeat_length; auto). rewrite place_zeros. lia.
Qed.

Lemma placeholder_good : forall s la s' lb, 0 <= la -> nonneg (filter (fun n => negb (n =? -1)) s) -> placeholder la 1 s = Good (s', lb) ->
  length s' = length s /\ (In (-1) s -> lb = la /\ zprod s' = la) /\ (~ In (-1) s -> s' = s /\ lb = zprod s).
Proof.
  intros s la s' lb Hla Hn H. destruct (in_dec Z.eq_dec (-1) s) as [Hin|Hout].
  - assert (Hsp : exists s1 s2, s = s1 ++ -1 :: s2 /\ ~ In (-1) s1).
    { clear - Hin. induction s; [contradiction|]. destruct (Z.eq_dec a (-1)).
      - subst. exists [], s. auto.
      - destruct Hin as [|Hin]; [contradiction|]. destruct (IHs Hin) as (s1 & s2 & -> & Hn). exists (a :: s1), s2. split; auto. intros [|]; auto. }
    destruct Hsp as (s1 & s2 & -> & Hn1). rewrite placeholder_one in H by auto. rewrite Z.mul_1_l in H. destruct (quot_loop (zprod s1) s2) as [q|] eqn:Eq; [|discriminate].
    destruct (Z.eqb_spec q 0); [discriminate|]. destruct (Z.eqb_spec (Z.rem la q) 0); [|discriminate]. cbn [andb] in H. destruct (Z.geb_spec (Z.quot la q) 0); [|discriminate].
    inversion H; subst. split; [rewrite !app_length; auto|]. split; [|intros X; exfalso; auto]. intros _. split; auto.
    apply quot_loop_spec in Eq. destruct Eq as (Eq & _). rewrite zprod_app. cbn [zprod]. pose proof (Z.quot_rem lb q n). nia.
  - rewrite placeholder_none in H by auto. rewrite Z.mul_1_l in H. injection H as H3 H4. subst s' lb. split; auto. split; [intros; contradiction|]. intros _. split; auto.
Qed.

(* Missing from C15:
   1. views where axes of length 1 at the end have a step different from that of the last axis that doesn't have length 1.
   2. views where the last axis with length other than 1 has step 0, and another axis hasn't.
   3. views without elements and target shape of lower rank. *)
Theorem C15_reshape_partial : forall a s b, nonneg (vshape a) -> nonneg (filter (fun n => negb (n =? -1)) s) -> reshape a s = Good b ->
  (forall d e, innermost (vdv a) d -> step d = 0 -> In e (vdv a) -> len e <> 1 -> step e = 0) ->
  (forall d, innermost (vdv a) d -> step (last (vdv a) dim0) = step d) ->
  (0 < zprod (vshape a) \/ (vrank a <= length s)%nat) ->
  reshaped a b.
Proof.
  intros [dv cp] s b Hn Hs H Hi Hl Hp. unfold reshape in H. cbn [vdv vcp vshape vrank] in *. rewrite dimv_size_prod in H by auto.
  pose proof (zprod_nonneg _ Hn) as Hla.
  destruct (placeholder (zprod (map len dv)) 1 s) as [[s' lb]| |] eqn:Ep; cbn [rbind] in H; try discriminate.
  destruct (placeholder_good _ _ _ _ Hla Hs Ep) as (Gl & G1 & G2).
  destruct (tail_match (rev dv) (rev s') []) as [bdv|] eqn:Et.
  - inversion H; subst. apply reshape_tail with (s := s'); auto. unfold vrank, vshape in Hp. cbn in Hp. destruct Hp; [left; auto|right; lia].
  - destruct (c_order dv false) eqn:Ec; [|discriminate]. destruct (Z.geb_spec (zprod (map len dv)) lb); [|discriminate]. cbn [andb] in H.
    destruct (Forall_dec (fun n => 0 <= n) (fun n => Z_le_dec 0 n) s') as [Fs|Fs]; [|rewrite filldimv_none in H by auto; discriminate].
    destruct (filldimv_some s' Fs) as (fdv & E1 & E2 & E3). rewrite E1 in H. inversion H; subst. clear H.
    assert (Elb : lb = zprod (map len fdv)). { destruct (in_dec Z.eq_dec (-1) s) as [I|I]; [destruct (G1 I); lia|]. destruct (G2 I) as (-> & ->). auto. }
    unfold reshaped, vshape, vplace. cbn [vdv vcp]. rewrite map_map. cbn [len]. change (map (fun x => len x) fdv) with (map len fdv). intros j Hj.
    pose proof (rm_range _ _ Hj) as R.
    destruct (rm_onto (map len dv) (rm (map len fdv) j) Hn) as (i & Hi1 & Hi2); [lia|]. exists i. split; auto.
    split; [rewrite Z.mod_small; auto; lia|]. f_equal. rewrite place_scale, E3 by (apply inshape_length; auto).
    destruct (tail_cases dv) as [(Ho & Es)|(pre & d & ones & E4 & Hd & Ho & Es)].
    + destruct (ones_zero dv i Ho Hi1) as (-> & E0). rewrite <- Hi2, E0. auto.
    + assert (Hinn : innermost dv d) by (exists pre, ones; auto). rewrite (Hl d) by auto.
      destruct (Z.eq_dec (step d) 0) as [Ez|Ez].
      * rewrite Ez, Z.mul_0_r. symmetry. assert (Z0 : Forall (fun e => len e = 1 \/ step e = 0) dv).
        { apply Forall_forall. intros e He. destruct (Z.eq_dec (len e) 1); auto. right. apply (Hi d e); auto. }
        clear - Z0 Hi1. revert i Hi1. induction dv; intros i Hi1; inversion Hi1; subst; cbn; auto. inversion Z0; subst. rewrite IHdv by auto. destruct H1; [assert (x = 0) by lia; subst; lia|nia].
      * assert (Ein : inner_step dv = step d) by (unfold inner_step; rewrite Es; auto). rewrite (ravel_place dv i Ec) by (auto; lia). rewrite Hi2, Ein. auto.
Qed.

(* the shape of the result is the one asked for, with the placeholder replaced *)
Theorem C15_shape : forall a s b, reshape a s = Good b -> ~ In (-1) s -> vshape b = s.
Proof.
  intros [dv cp] s b H Hin. unfold reshape in H. cbn [vdv vcp] in *. rewrite placeholder_none in H by auto. cbn [rbind] in H.
  destruct (tail_match (rev dv) (rev s) []) as [bdv|] eqn:Et.
  - inversion H; subst. unfold vshape; cbn [vdv]. apply tail_match_spec in Et. destruct Et as [(rx & E1 & ->)|(rx & ry & E1 & Hy & E2 & ->)].
    + rewrite rev_involutive, app_nil_r, map_app, map_len_zero. rewrite <- (rev_involutive s), E1, rev_app_distr, map_rev, rev_involutive. auto.
    + rewrite app_nil_r, map_rev, <- E2, rev_involutive. auto.
  - destruct (c_order dv false && (dimv_size dv >=? 1 * zprod s)); [|discriminate]. destruct (Forall_dec (fun n => 0 <= n) (fun n => Z_le_dec 0 n) s) as [Fs|Fs]; [|rewrite filldimv_none in H by auto; discriminate].
    destruct (filldimv_some s Fs) as (fdv & E1 & E2 & E3). rewrite E1 in H. inversion H; subst. unfold vshape. cbn [vdv]. rewrite map_map. reflexivity.
Qed.

(* 1. a(all, iota(1)) for an array a of shape {3, 4}: the first column *)
Theorem C15_reshape_refuted : exists a s b, nonneg (vshape a) /\ nonneg s /\ reshape a s = Good b /\ ~ reshaped a b.
Proof.
  exists (Vw [Dim 3 4; Dim 1 1] 0), [1; 3]. eexists. split; [repeat constructor; cbn; lia|]. split; [repeat constructor; lia|]. split; [reflexivity|].
  intros H. destruct (H [0; 1]) as (i & Hi & E1 & E2); [ins|]. apply in_indices in Hi. vm_compute in Hi. repeat (destruct Hi as [<-|Hi]; [vm_compute in E1, E2; discriminate|]). destruct Hi.
Qed.
(* 2. the last step is 0 *)
Theorem C15_reshape_zero_step_refuted : exists a s b, nonneg (vshape a) /\ nonneg s /\ reshape a s = Good b /\ ~ reshaped a b.
Proof.
  exists (Vw [Dim 2 1; Dim 3 0] 0), [6]. eexists. split; [repeat constructor; cbn; lia|]. split; [repeat constructor; lia|]. split; [reflexivity|].
  intros H. destruct (H [3]) as (i & Hi & E1 & E2); [ins|]. apply in_indices in Hi. vm_compute in Hi. repeat (destruct Hi as [<-|Hi]; [vm_compute in E1, E2; discriminate|]). destruct Hi.
Qed.
(* 3. the array has no elements, the result has *)
Theorem C15_reshape_empty_refuted : exists a s b j, nonneg (vshape a) /\ nonneg s /\ reshape a s = Good b /\ zprod (vshape a) = 0 /\ inshape j (vshape b).
Proof.
  exists (Vw [Dim 0 3; Dim 3 1] 0), [3]. eexists. exists [2]. split; [repeat constructor; cbn; lia|]. split; [repeat constructor; lia|]. split; [reflexivity|].
  split; auto. ins.
Qed.

Example C15_example : exists b, reshape (Vw [Dim 2 12; Dim 3 4] 5) [4; -1] = Refused /\ reshape (Vw [Dim 2 12; Dim 3 4] 5) [3; 2] = Good b /\ vplace b [2; 1] = 25 /\
  reshape (Vw [Dim 2 12; Dim 3 4] 5) [2; 2; 3] = Good (Vw [Dim 2 0; Dim 2 12; Dim 3 4] 5) /\ reshape (Vw [Dim 2 12; Dim 3 4] 5) [3] = Good (Vw [Dim 3 4] 5).
Proof. eexists. split; [reflexivity|]. split; [reflexivity|]. split; [|split]; reflexivity. Qed.

(* ---- C16 ---- *)

(* Missing from C16: the product of the lengths before the placeholder is 0 and there is nothing after the placeholder. *)
Theorem C16_placeholder_partial : forall a s1 s2, nonneg (vshape a) -> nonneg s1 -> nonneg s2 -> (s2 <> [] \/ 0 < zprod s1) ->
  reshape a (s1 ++ -1 :: s2) = Refused \/
  exists n b, 0 <= n /\ zprod (s1 ++ n :: s2) = zprod (vshape a) /\ reshape a (s1 ++ -1 :: s2) = Good b /\ vshape b = s1 ++ n :: s2 /\ reshape a (s1 ++ n :: s2) = Good b.
Proof.
  intros a s1 s2 Ha H1 H2 Hp. unfold reshape. rewrite dimv_size_prod by auto. change (map len (vdv a)) with (vshape a). set (la := zprod (vshape a)).
  assert (N1 : ~ In (-1) s1) by (intros I; unfold nonneg in *; rewrite Forall_forall in H1; specialize (H1 _ I); cbn in H1; lia).
  assert (N2 : ~ In (-1) s2) by (intros I; unfold nonneg in *; rewrite Forall_forall in H2; specialize (H2 _ I); cbn in H2; lia).
  rewrite placeholder_one by auto. rewrite Z.mul_1_l. destruct (quot_loop (zprod s1) s2) as [q|] eqn:Eq; [|left; auto].
  apply quot_loop_spec in Eq. destruct Eq as (Eq & Hq). assert (q > 0). { destruct s2; [cbn in Eq; destruct Hp; [contradiction|lia]|]. assert (0 < q) by (apply Hq; discriminate). lia. }
  destruct (Z.eqb_spec q 0) as [|Hq0]; [lia|]. destruct (Z.eqb_spec (Z.rem la q) 0); [|left; auto]. cbn [andb]. destruct (Z.geb_spec (Z.quot la q) 0); [|left; auto]. cbn [rbind].
  set (n := Z.quot la q) in *. assert (En : zprod (s1 ++ n :: s2) = la). { rewrite zprod_app. cbn [zprod]. pose proof (Z.quot_rem la q). nia. }
  assert (N3 : ~ In (-1) (s1 ++ n :: s2)). { intros I. apply in_app_or in I. destruct I as [I|[I|I]]; auto. lia. }
  assert (Ep : placeholder la 1 (s1 ++ n :: s2) = Good (s1 ++ n :: s2, la)). { rewrite placeholder_none by auto. f_equal. f_equal. lia. }
  match goal with |- ?X = Refused \/ _ => destruct X as [b| |] eqn:Ex end.
  - right. exists n, b. split; [lia|]. split; [auto|]. split; [auto|]. assert (Hr : reshape a (s1 ++ n :: s2) = Good b).
    { unfold reshape. rewrite dimv_size_prod by auto. change (map len (vdv a)) with (vshape a). fold la. rewrite Ep. cbn [rbind]. auto. }
    split; [|rewrite Ep; auto]. eapply C15_shape; eauto.
  - left; auto.
  - exfalso. destruct (tail_match _ _ _); [discriminate|]. destruct (_ && _); [|discriminate]. destruct (filldimv _) as [[? ?]|]; discriminate.
Qed.

(* division by zero *)
Theorem C16_placeholder_refuted : exists a s1 s2, nonneg (vshape a) /\ nonneg s1 /\ nonneg s2 /\ reshape a (s1 ++ -1 :: s2) = UB.
Proof. exists (Vw [Dim 3 1] 0), [0], []. repeat split; repeat constructor; cbn; lia. Qed.

Example C16_example : reshape (Vw [Dim 6 1] 0) [2; -1] = Good (Vw [Dim 2 3; Dim 3 1] 0) /\ reshape (Vw [Dim 6 1] 0) [4; -1] = Refused /\ reshape (Vw [Dim 6 1] 0) [-1; 0] = Refused.
Proof. auto. Qed.

(* ---- C17 ---- *)

Theorem C17_element : forall a k n st, 0 <= k < Z.of_nat (vrank a) -> nth (Z.to_nat k) (vdv a) dim0 = Dim n st -> n <> UNB ->
  exists b, reverse a k = Good b /\ vshape b = vshape a /\
  forall j, inshape j (vshape a) -> vplace b j = vplace a (set_nth j (Z.to_nat k) (n - 1 - nth (Z.to_nat k) j 0)) /\ inshape (set_nth j (Z.to_nat k) (n - 1 - nth (Z.to_nat k) j 0)) (vshape a).
Proof.
  intros a k n st Hk Hd Hn. unfold reverse, inside. replace ((0 <=? k) && (k <? Z.of_nat (vrank a))) with true by lia. rewrite Hd. cbn [len step].
  destruct (Z.eqb_spec UNB n); [congruence|]. eexists. split; [reflexivity|]. unfold vrank in Hk.
  assert (Hs : forall (l : list dim) m x, len x = len (nth m l dim0) -> map len (set_nth l m x) = map len l).
  { induction l; intros m x E; destruct m; cbn in *; auto; [congruence|]. f_equal. apply IHl; auto. }
  split. { unfold vshape. cbn [vdv]. apply Hs. rewrite Hd. auto. }
  intros j Hj. pose proof (inshape_length _ _ Hj) as Hjl. unfold vshape in Hjl, Hj. rewrite map_length in Hjl.
  pose proof (inshape_nth _ _ Hj (Z.to_nat k)) as Hjk. rewrite map_length in Hjk. specialize (Hjk ltac:(lia)).
  rewrite (nth_map len _ _ dim0) in Hjk by lia. rewrite Hd in Hjk. cbn [len] in Hjk. split.
  - unfold vplace. cbn [vdv vcp]. rewrite place_set_nth by lia. rewrite Hd. cbn [step].
    assert (Hp : forall (l : list dim) m i x, (m < length l)%nat -> length i = length l -> place l (set_nth i m x) = place l i + (x - nth m i 0) * step (nth m l dim0)).
    { induction l; intros m i x Hm Hi; [cbn in Hm; lia|]. destruct i; [discriminate|]. destruct m; cbn [set_nth place nth]; [ring|]. rewrite IHl by (cbn in *; lia). ring. }
    rewrite Hp by lia. rewrite Hd. cbn [step]. destruct (Z.eqb_spec 0 n); [lia|]. ring.
  - unfold vshape. apply nth_inshape; [rewrite set_nth_length, map_length; lia|]. intros m Hm. rewrite set_nth_nth. rewrite map_length in Hm.
    destruct (Nat.eqb_spec m (Z.to_nat k)); cbn [andb].
    + subst m. destruct (Nat.ltb_spec (Z.to_nat k) (length j)); [|lia]. rewrite (nth_map len _ _ dim0) by lia. rewrite Hd. cbn [len]. lia.
    + apply inshape_nth; auto. rewrite map_length. auto.
Qed.

Lemma set_nth_twice : forall A (l : list A) k x y, set_nth (set_nth l k x) k y = set_nth l k y.
Proof. induction l; destruct k; cbn; intros; auto. f_equal; auto. Qed.
Lemma set_nth_id : forall A (l : list A) k d, (k < length l)%nat -> set_nth l k (nth k l d) = l.
Proof. induction l; destruct k; cbn; intros; auto; try lia. f_equal; apply IHl; lia. Qed.
Lemma set_nth_swap : forall A (l : list A) k m x y, k <> m -> set_nth (set_nth l k x) m y = set_nth (set_nth l m y) k x.
Proof. induction l; destruct k, m; cbn; intros; auto; try contradiction. f_equal; apply IHl; auto. Qed.

Theorem C17_involution : forall a k b, reverse a k = Good b -> reverse b k = Good a.
Proof.
  intros [dv cp] k b H. unfold reverse in H. cbn [vdv vcp] in H. unfold vrank in H. cbn [vdv] in H. unfold inside in H. destruct ((0 <=? k) && (k <? Z.of_nat (length dv))) eqn:Ek; [|discriminate].
  set (d := nth (Z.to_nat k) dv dim0) in *. destruct (Z.eqb_spec UNB (len d)); [discriminate|]. inversion H; subst. clear H.
  unfold reverse, vrank, inside. cbn [vdv vcp]. rewrite set_nth_length, Ek. rewrite set_nth_nth, Nat.eqb_refl. destruct (Nat.ltb_spec (Z.to_nat k) (length dv)); [|lia]. cbn [andb len step].
  destruct (Z.eqb_spec UNB (len d)); [contradiction|]. f_equal. rewrite set_nth_twice. f_equal.
  - replace (step d * -1 * -1) with (step d) by ring. replace (Dim (len d) (step d)) with d by (destruct d; auto). apply set_nth_id. auto.
  - change (match len d with 0 => true | _ => false end) with (0 =? len d). destruct (0 =? len d); ring.
Qed.

(* The origin of the result is a position on the reversed axis of the original, also if the axis is empty. *)
Theorem C17_origin : forall a k b, nonneg (vshape a) -> reverse a k = Good b ->
  exists i, 0 <= i /\ (i = 0 \/ i < nth (Z.to_nat k) (vshape a) 0) /\ vcp b = vcp a + i * step (nth (Z.to_nat k) (vdv a) dim0).
Proof.
  intros [dv cp] k b N H. unfold reverse, vrank, inside in H. cbn [vdv vcp] in *. destruct ((0 <=? k) && (k <? Z.of_nat (length dv))) eqn:Ek; [|discriminate].
  destruct (UNB =? _); [discriminate|]. inversion H; subst b. cbn [vcp]. unfold vshape, nonneg in *. cbn [vdv] in *.
  assert (Hk : (Z.to_nat k < length dv)%nat) by lia. rewrite (nth_map len _ _ dim0) by auto.
  assert (0 <= len (nth (Z.to_nat k) dv dim0)) by (rewrite Forall_map, Forall_forall in N; apply N, nth_In; auto).
  match goal with |- context [if ?b then _ else _] => destruct b eqn:E end.
  - exists 0. split; [lia|]. split; [auto|]. lia.
  - assert (len (nth (Z.to_nat k) dv dim0) <> 0) by (intros F; rewrite F in E; discriminate). exists (len (nth (Z.to_nat k) dv dim0) - 1). split; [lia|]. split; [lia|]. lia.
Qed.
Example C17_origin_ex : reverse (Vw [Dim 0 3; Dim 3 1] 7) 0 = Good (Vw [Dim 0 (-3); Dim 3 1] 7).
Proof. reflexivity. Qed.

Theorem C17_commute : forall a k m b c, k <> m -> reverse a k = Good b -> reverse b m = Good c -> exists b', reverse a m = Good b' /\ reverse b' k = Good c.
Proof.
  intros [dv cp] k m b c Hkm H1 H2. unfold reverse, vrank, inside in *. cbn [vdv vcp] in *. destruct ((0 <=? k) && (k <? Z.of_nat (length dv))) eqn:Ek; [|discriminate].
  destruct (Z.eqb_spec UNB (len (nth (Z.to_nat k) dv dim0))); [discriminate|]. inversion H1; subst. clear H1. cbn [vdv vcp] in *. rewrite set_nth_length in H2.
  destruct ((0 <=? m) && (m <? Z.of_nat (length dv))) eqn:Em; [|discriminate]. rewrite set_nth_nth in H2. destruct (Nat.eqb_spec (Z.to_nat m) (Z.to_nat k)); [lia|]. cbn [andb] in H2.
  destruct (Z.eqb_spec UNB (len (nth (Z.to_nat m) dv dim0))); [discriminate|]. eexists. split; [reflexivity|]. cbn [vdv vcp]. rewrite set_nth_length, Ek.
  rewrite set_nth_nth. destruct (Nat.eqb_spec (Z.to_nat k) (Z.to_nat m)); [lia|]. cbn [andb]. destruct (Z.eqb_spec UNB (len (nth (Z.to_nat k) dv dim0))); [contradiction|].
  rewrite <- H2. clear H2 c. f_equal. f_equal; [apply set_nth_swap; lia|]. change (match len (nth (Z.to_nat k) dv dim0) with 0 => true | _ => false end) with (0 =? len (nth (Z.to_nat k) dv dim0)). lia.
Qed.

Example C17_example : exists b, reverse (Vw [Dim 2 3; Dim 3 1] 0) 1 = Good b /\ vplace b [1; 0] = 5 /\ vplace b [0; 2] = 0.
Proof. eexists. split; [reflexivity|]. split; reflexivity. Qed.

(* ---- C61 ---- *)

(* the check on the axis comes after the length of the axis is read *)
Theorem C61_bad_axis_refuted : exists a k, ~ (0 <= k < Z.of_nat (vrank a)) /\ reverse a k = UB.
Proof. exists (Vw [Dim 2 1] 0), 1. split; [cbn; lia|auto]. Qed.
(* it is so for all such axes; accepted and refused axes are otherwise as documented *)
Theorem C61_bad_axis_partial : forall a k, 0 <= k < Z.of_nat (vrank a) -> (reverse a k = Refused <-> nth (Z.to_nat k) (vshape a) 0 = UNB) /\ reverse a k <> UB.
Proof.
  intros a k Hk. unfold reverse, inside. replace ((0 <=? k) && (k <? Z.of_nat (vrank a))) with true by lia. unfold vshape. unfold vrank in Hk. rewrite (nth_map len _ _ dim0) by lia.
  destruct (Z.eqb_spec UNB (len (nth (Z.to_nat k) (vdv a) dim0))); split; try discriminate; split; auto; intros; try discriminate; congruence.
Qed.

(* ---- C18 ---- *)

Lemma transpose_good : forall a s, Forall (fun sk => 0 <= sk) s -> length s = vrank a -> exists b, transpose a s = Good b.
Proof.
  intros a s Hs Hl. destruct (trank_bound s Hs) as (T1 & T2). unfold transpose. destruct (Z.ltb_spec (trank s) 0); [lia|]. rewrite Hl, Nat.eqb_refl. cbn [negb].
  destruct (transpose_loop_ok s (vdv a) (repeat (Dim UNB 0) (Z.to_nat (trank s)))) as (dst & ->). { rewrite repeat_length, Z2Nat.id by lia. auto. } cbn. eauto.
Qed.

Lemma transpose_inv : forall a s b, transpose a s = Good b -> Forall (fun sk => 0 <= sk) s ->
  length s = vrank a /\ vcp b = vcp a /\ Z.of_nat (vrank b) = trank s /\
  (forall j, length j = vrank b -> place (vdv b) j = place (vdv a) (map (fun sk => nth (Z.to_nat sk) j 0) s)) /\
  (forall d, (d < vrank b)%nat -> len (nth d (vdv b) dim0) = fold_left lmin (sources s (vdv a) (Z.of_nat d)) UNB) /\
  (forall d, (d < vrank b)%nat -> step (nth d (vdv b) dim0) = zsum (map (fun p => if fst p =? Z.of_nat d then step (snd p) else 0) (combine s (vdv a)))).
Proof.
  intros a s b H Hs. destruct (trank_bound s Hs) as (T1 & T2). unfold transpose in H. destruct (Z.ltb_spec (trank s) 0); [lia|]. destruct (Nat.eqb_spec (length s) (vrank a)) as [El|]; [|discriminate]. cbn [negb] in H.
  destruct (transpose_loop s (vdv a) (repeat (Dim UNB 0) (Z.to_nat (trank s)))) as [dst| |] eqn:E; try discriminate. cbn [rbind] in H. inversion H; subst. clear H.
  apply transpose_loop_spec in E; [|auto]. rewrite repeat_length in E. destruct E as (E1 & E2 & E3 & E4 & E5). unfold vrank. cbn [vdv vcp].
  assert (Hr : forall d, (d < Z.to_nat (trank s))%nat -> nth d (repeat (Dim UNB 0) (Z.to_nat (trank s))) dim0 = Dim UNB 0).
  { intros d Hd. rewrite (nth_indep _ dim0 (Dim UNB 0)) by (rewrite repeat_length; auto). apply nth_repeat. }
  split; auto. split; auto. split; [lia|]. split; [|split].
  - intros j Hj. rewrite E3 by lia. replace (place (repeat (Dim UNB 0) (Z.to_nat (trank s))) j) with 0; [lia|]. clear. generalize (Z.to_nat (trank s)). intros n. revert j. induction n; intros j; cbn; auto. destruct j; auto. rewrite <- IHn. lia.
  - intros d Hd. rewrite E4, Hr by lia. auto.
  - intros d Hd. rewrite E5, Hr by lia. cbn [step]. lia.
Qed.

Theorem C18_transpose : forall a s, Forall (fun sk => 0 <= sk) s -> length s = vrank a -> nonneg (vshape a) ->
  exists b, transpose a s = Good b /\ (s <> [] -> In (Z.of_nat (vrank b) - 1) s) /\ Forall (fun sk => sk < Z.of_nat (vrank b)) s /\
  (forall j, length j = vrank b -> vplace b j = vplace a (map (fun sk => nth (Z.to_nat sk) j 0) s)) /\
  forall d, (d < vrank b)%nat ->
    (~ In (Z.of_nat d) s -> nth d (vshape b) 0 = UNB) /\
    (In (Z.of_nat d) s -> exists k, (k < vrank a)%nat /\ nth k s 0 = Z.of_nat d /\ nth d (vshape b) 0 = nth k (vshape a) 0) /\
    (forall k, (k < vrank a)%nat -> nth k s 0 = Z.of_nat d -> nth d (vshape b) 0 <= nth k (vshape a) 0).
Proof.
  intros a s Hs Hl Hn. destruct (transpose_good a s Hs Hl) as (b & Hb). exists b. split; auto. destruct (trank_bound s Hs) as (T1 & T2).
  destruct (transpose_inv a s b Hb Hs) as (_ & Hc & Hr & Hp & Hlen & _). split; [|split; [|split]].
  - intros Hne. rewrite Hr. destruct s as [|x s]; [contradiction|]. cbn [trank]. replace (1 + fold_left Z.max s x - 1) with (fold_left Z.max s x) by lia.
    clear. assert (G : forall l c, fold_left Z.max l c = c \/ In (fold_left Z.max l c) l).
    { induction l; intros c; cbn; auto. destruct (IHl (Z.max c a)) as [E|E]; auto. rewrite E. destruct (Z.max_spec c a) as [(_ & ->)|(_ & ->)]; auto. }
    destruct (G s x) as [->|E]; [left|right]; auto.
  - rewrite Hr. rewrite Forall_forall in *. intros x Hx. specialize (T2 x Hx). cbv beta in T2. lia.
  - intros j Hj. unfold vplace. rewrite Hc, Hp by auto. auto.
  - intros d Hd. unfold vshape. rewrite (nth_map len _ _ dim0) by auto. rewrite Hlen by auto.
    assert (Hsrc : Forall (fun n => 0 <= n) (sources s (vdv a) (Z.of_nat d))).
    { apply Forall_forall. intros n Hin. apply in_sources in Hin; [|auto]. destruct Hin as (k & Hk & _ & <-). unfold nonneg, vshape in Hn. rewrite Forall_forall in Hn. apply Hn. apply in_map. apply nth_In. unfold vrank in Hl. lia. }
    destruct (fold_lmin_UNB _ Hsrc) as (A & B). cbv zeta in *.
    assert (Hlk : forall k, (k < vrank a)%nat -> nth k (map len (vdv a)) 0 = len (nth k (vdv a) dim0)) by (intros k Hk; rewrite (nth_map len _ _ dim0); auto).
    split; [|split].
    + intros Hno. apply A. destruct (sources s (vdv a) (Z.of_nat d)) as [|n l] eqn:E; auto. exfalso. assert (Hin : In n (sources s (vdv a) (Z.of_nat d))) by (rewrite E; left; auto).
      apply in_sources in Hin; [|auto]. destruct Hin as (k & Hk & E2 & _). apply Hno. rewrite <- E2. apply nth_In. auto.
    + intros Hin. apply (In_nth _ _ 0) in Hin. destruct Hin as (k & Hk & Ek).
      assert (Hin : In (len (nth k (vdv a) dim0)) (sources s (vdv a) (Z.of_nat d))) by (apply in_sources; auto; exists k; auto).
      destruct B as (_ & B & _). { intros E. rewrite E in Hin. destruct Hin. } apply in_sources in B; [|auto]. destruct B as (m & Hm & E1 & E2). exists m. split; [lia|]. split; auto. rewrite Hlk by lia. auto.
    + intros k Hk Ek. rewrite Hlk by lia. assert (Hin : In (len (nth k (vdv a) dim0)) (sources s (vdv a) (Z.of_nat d))) by (apply in_sources; auto; exists k; repeat split; auto; lia).
      destruct B as (_ & _ & B). { intros E. rewrite E in Hin. destruct Hin. } apply B; auto.
Qed.

(* so that an index in range of the result, where all axes are bounded, gives an index in range of the source *)
Theorem C18_in_range : forall a s b j, Forall (fun sk => 0 <= sk) s -> nonneg (vshape a) -> transpose a s = Good b -> inshape j (vshape b) ->
  inshape (map (fun sk => nth (Z.to_nat sk) j 0) s) (vshape a).
Proof.
  intros a s b j Hs Hn Hb Hj. assert (Hl : length s = vrank a) by (eapply transpose_inv; eauto).
  destruct (C18_transpose a s Hs Hl Hn) as (b' & Hb' & _ & Hr & _ & Hd). rewrite Hb in Hb'. inversion Hb'; subst b'.
  apply nth_inshape; unfold vshape; rewrite ?map_length; auto. intros k Hk. rewrite (nth_map (fun sk => nth (Z.to_nat sk) j 0) _ _ 0) by (unfold vrank in Hl; lia).
  set (d := Z.to_nat (nth k s 0)). assert (Hin : In (nth k s 0) s) by (apply nth_In; unfold vrank in Hl; lia). assert (0 <= nth k s 0) by (rewrite Forall_forall in Hs; apply Hs; auto).
  assert (nth k s 0 < Z.of_nat (vrank b)) by (rewrite Forall_forall in Hr; apply Hr; auto).
  destruct (Hd d) as (_ & _ & H3); [lia|]. specialize (H3 k Hk ltac:(lia)). unfold vshape in H3.
  pose proof (inshape_nth _ _ Hj d) as Hjd. unfold vshape in Hjd. rewrite map_length in Hjd. unfold vrank in *. specialize (Hjd ltac:(lia)). lia.
Qed.

(* A destination below 0 isn't refused: it's a place before the first of dst. *)
Lemma transpose_loop_negative : forall s src dst, length s = length src -> (forall x, In x s -> x < Z.of_nat (length dst)) -> (exists x, In x s /\ x < 0) -> transpose_loop s src dst = UB.
Proof.
  induction s as [|y s IH]; intros src dst Hl Hb (x & Hx & Hn); [contradiction|]. destruct src as [|d src]; [discriminate|]. cbn [transpose_loop]. unfold inside. destruct (Z.leb_spec 0 y) as [Hy|Hy]; [|reflexivity].
  pose proof (Hb y ltac:(left; auto)). destruct (Z.ltb_spec y (Z.of_nat (length dst))); [|lia]. cbn [andb]. apply IH.
  - injection Hl; auto.
  - intros z Hz. rewrite set_nth_length. apply Hb. right; auto.
  - exists x. destruct Hx as [->|Hx]; [lia|auto].
Qed.
Lemma trank_above : forall s x, In x s -> x < trank s.
Proof.
  intros [|y s] x H; [contradiction|]. cbn [trank]. assert (G : forall l c, c <= fold_left Z.max l c /\ forall x, In x l -> x <= fold_left Z.max l c).
  { induction l; intros c; cbn [fold_left]; [split; [lia|contradiction]|]. destruct (IHl (Z.max c a)) as (G1 & G2). split; [lia|]. intros z [->|Hz]; [lia|auto]. }
  destruct (G s y) as (G1 & G2). destruct H as [->|H]; [lia|]. specialize (G2 x H). lia.
Qed.
(* diag(a): the elements whose two indices are the same *)
Theorem C18_diag : forall a n m, vshape a = [n; m] -> 0 <= n -> 0 <= m -> exists b, diag a = Good b /\ vshape b = [Z.min n m] /\ forall i, vplace b [i] = vplace a [i; i].
Proof.
  intros a n m Sa Hn Hm. assert (R : vrank a = 2%nat) by (unfold vrank; rewrite <- (map_length len); change (map len (vdv a)) with (vshape a); rewrite Sa; reflexivity).
  destruct (C18_transpose a [0; 0]) as (b & E & _ & R1 & P & D); [repeat constructor; lia|rewrite R; reflexivity|rewrite Sa; repeat constructor; auto|]. exists b. split; [exact E|].
  assert (Rb : vrank b = 1%nat) by (unfold diag, transpose in E; rewrite R in E; cbn in E; destruct (vdv a) as [|d0 [|d1 [|d2 l]]]; cbn in E; try discriminate; inversion E; reflexivity).
  split; [|intros i; apply P; auto]. assert (Lb : length (vshape b) = 1%nat) by (unfold vshape; rewrite map_length; exact Rb). destruct (vshape b) as [|x [|y l]]; try discriminate. f_equal.
  destruct (D 0%nat ltac:(lia)) as (_ & D1 & D2). rewrite Sa, R in *. cbn [nth] in *. destruct (D1 ltac:(left; auto)) as (k & Hk & _ & ->). pose proof (D2 0%nat ltac:(lia) eq_refl). pose proof (D2 1%nat ltac:(lia) eq_refl). cbn [nth] in *. destruct k as [|[|k]]; cbn [nth] in *; lia.
Qed.
Example C18_diag_example : let a := Vw [Dim 3 4; Dim 4 1] 10 in vshape a = [3; 4] /\ exists b, diag a = Good b /\ vshape b = [3] /\ vplace b [2] = 20.
Proof. cbv zeta. split; [reflexivity|]. eexists. split; [reflexivity|]. split; reflexivity. Qed.
Theorem C18_negative : forall a s, length s = vrank a -> ~ Forall (fun sk => 0 <= sk) s -> transpose a s = UB.
Proof.
  intros a s Hl Hn. unfold transpose. destruct (Z.ltb_spec (trank s) 0) as [|Ht]; [reflexivity|]. rewrite Hl, Nat.eqb_refl. cbn [negb]. rewrite transpose_loop_negative; auto.
  - rewrite repeat_length, Z2Nat.id by auto. apply trank_above.
  - assert (E : Exists (fun sk => ~ 0 <= sk) s) by (apply neg_Forall_Exists_neg; auto; intros z; destruct (Z_le_dec 0 z); auto).
    apply Exists_exists in E. destruct E as (x & Hx & Hx0). exists x. split; [auto|lia].
Qed.
Example C18_negative_example : transpose (Vw [Dim 2 12; Dim 3 4; Dim 4 1] 0) [0; -1; 1] = UB.
Proof. reflexivity. Qed.

Example C18_example : exists b, transpose (Vw [Dim 2 12; Dim 3 4; Dim 4 1] 0) [2; 0; 2] = Good b /\ vdv b = [Dim 3 4; Dim UNB 0; Dim 2 13] /\ vplace b [1; 77; 1] = 17.
Proof. eexists. split; [reflexivity|]. split; reflexivity. Qed.

(* ---- C19 ---- *)

(* the axes 0 ... r-1 in some order *)
Definition axis_permutation (r : nat) (s : list Z) : Prop := Permutation s (map Z.of_nat (seq 0 r)).

Lemma perm_facts : forall r s, axis_permutation r s -> length s = r /\ NoDup s /\ (forall x, In x s <-> 0 <= x < Z.of_nat r).
Proof.
  unfold axis_permutation. intros r s H. split; [|split].
  - rewrite (Permutation_length H), map_length, seq_length. auto.
  - apply Permutation_sym in H. eapply Permutation_NoDup; eauto. apply FinFun.Injective_map_NoDup; [intros x y; lia|]. apply seq_NoDup.
  - intros x. split; intros Hx.
    + apply (Permutation_in _ H) in Hx. apply in_map_iff in Hx. destruct Hx as (y & <- & Hy). apply in_seq in Hy. lia.
    + apply (Permutation_in _ (Permutation_sym H)). apply in_map_iff. exists (Z.to_nat x). split; [lia|]. apply in_seq. lia.
Qed.

Lemma facts_perm : forall r s, length s = r -> NoDup s -> (forall x, In x s -> 0 <= x < Z.of_nat r) -> axis_permutation r s.
Proof.
  intros r s Hl Hd Hx. unfold axis_permutation. apply NoDup_Permutation_bis; auto.
  - rewrite map_length, seq_length. lia.
  - intros x Hi. apply in_map_iff. exists (Z.to_nat x). specialize (Hx x Hi). split; [lia|]. apply in_seq. lia.
Qed.

Lemma sources_one : forall s src k, length s = length src -> NoDup s -> (k < length s)%nat -> sources s src (nth k s 0) = [len (nth k src dim0)] /\
  zsum (map (fun p => if fst p =? nth k s 0 then step (snd p) else 0) (combine s src)) = step (nth k src dim0).
Proof.
  assert (Z0 : forall s src d, ~ In d s -> sources s src d = [] /\ zsum (map (fun p => if fst p =? d then step (snd p) else 0) (combine s src)) = 0).
  { induction s; intros src d Hd; cbn; auto. destruct src; cbn; auto. destruct (Z.eqb_spec a d); [exfalso; apply Hd; left; auto|]. destruct (IHs src d) as (-> & ->); auto. intros I; apply Hd; right; auto. }
  induction s; intros src k Hl Hd Hk; [cbn in Hk; lia|]. destruct src; [discriminate|]. inversion Hd; subst. destruct k; cbn [nth sources combine map zsum fst snd].
  - rewrite Z.eqb_refl. destruct (Z0 s src a) as (-> & ->); auto. split; auto. lia.
  - simpl in Hl, Hk. destruct (Z.eqb_spec a (nth k s 0)) as [E|E]; [exfalso; apply H1; rewrite E; apply nth_In; lia|]. destruct (IHs src k) as (-> & ->); auto; lia.
Qed.

Lemma transpose_perm : forall a s, axis_permutation (vrank a) s -> exists b, transpose a s = Good b /\ vrank b = vrank a /\ vcp b = vcp a /\
  forall k, (k < vrank a)%nat -> nth (Z.to_nat (nth k s 0)) (vdv b) dim0 = nth k (vdv a) dim0.
Proof.
  intros a s H. destruct (perm_facts _ _ H) as (Hl & Hd & Hx).
  assert (Hs : Forall (fun sk => 0 <= sk) s) by (apply Forall_forall; intros x Hi; apply Hx in Hi; lia).
  destruct (transpose_good a s Hs Hl) as (b & Hb). exists b. split; auto. destruct (transpose_inv a s b Hb Hs) as (_ & Hc & Hr & _ & Hlen & Hst).
  destruct (trank_bound s Hs) as (T1 & T2).
  assert (Er : vrank b = vrank a).
  { assert (trank s <= Z.of_nat (vrank a)).
    { destruct s as [|x s]; [cbn in *; lia|]. cbn [trank]. assert (G : forall l c, (forall x, In x l -> x < Z.of_nat (vrank a)) -> c < Z.of_nat (vrank a) -> fold_left Z.max l c < Z.of_nat (vrank a)).
      { induction l; intros c G1 G2; cbn; auto. apply IHl; [intros; apply G1; right; auto|]. assert (a0 < Z.of_nat (vrank a)) by (apply G1; left; auto). lia. }
      assert (fold_left Z.max s x < Z.of_nat (vrank a)). { apply G; [intros y Hy; apply Hx; right; auto|]. apply Hx; left; auto. } lia. }
    destruct (Nat.eq_dec (vrank a) 0); [lia|]. assert (Hin : In (Z.of_nat (vrank a) - 1) s) by (apply Hx; lia). rewrite Forall_forall in T2. specialize (T2 _ Hin). cbv beta in T2. lia. }
  split; auto. split; auto. intros k Hk. assert (Hin : In (nth k s 0) s) by (apply nth_In; lia). apply Hx in Hin.
  pose proof (Hlen (Z.to_nat (nth k s 0)) ltac:(lia)) as E1. pose proof (Hst (Z.to_nat (nth k s 0)) ltac:(lia)) as E2. rewrite Z2Nat.id in E1, E2 by lia.
  destruct (sources_one s (vdv a) k) as (S1 & S2); auto; [lia|]. rewrite S1 in E1. rewrite S2 in E2. cbn [fold_left] in E1. replace (lmin UNB (len (nth k (vdv a) dim0))) with (len (nth k (vdv a) dim0)) in E1 by reflexivity.
  destruct (nth (Z.to_nat (nth k s 0)) (vdv b) dim0), (nth k (vdv a) dim0). cbn in *. congruence.
Qed.

(* two views with the same axes are equal *)
Lemma view_eq : forall (a b : view) s r, axis_permutation r s -> vrank a = r -> vrank b = r -> vcp a = vcp b ->
  (forall k, (k < r)%nat -> nth (Z.to_nat (nth k s 0)) (vdv a) dim0 = nth (Z.to_nat (nth k s 0)) (vdv b) dim0) -> a = b.
Proof.
  intros [da ca] [db cb] s r H Ha Hb Hc Hk. cbn in Hc, Hk. unfold vrank in *. cbn in Ha, Hb. f_equal; auto. destruct (perm_facts _ _ H) as (Hl & Hd & Hx).
  apply (list_eq_nth _ _ _ dim0); [lia|]. intros d Hdl. assert (Hin : In (Z.of_nat d) s) by (apply Hx; lia). apply (In_nth _ _ 0) in Hin. destruct Hin as (k & Hkl & E).
  specialize (Hk k ltac:(lia)). rewrite E, Nat2Z.id in Hk. auto.
Qed.

Theorem C19_compose : forall a s t, axis_permutation (vrank a) s -> axis_permutation (vrank a) t ->
  exists b c, transpose a s = Good b /\ transpose b t = Good c /\ transpose a (map (fun x => nth (Z.to_nat x) t 0) s) = Good c.
Proof.
  intros a s t Hs Ht. destruct (transpose_perm a s Hs) as (b & Hb & Rb & Cb & Db). rewrite <- Rb in Ht. destruct (transpose_perm b t Ht) as (c & Hc & Rc & Cc & Dc).
  rewrite Rb in Ht. exists b, c. split; auto. split; auto. set (u := map (fun x => nth (Z.to_nat x) t 0) s).
  destruct (perm_facts _ _ Hs) as (Ls & Ds & Is). destruct (perm_facts _ _ Ht) as (Lt & Dt & It).
  assert (Hu : axis_permutation (vrank a) u).
  { apply facts_perm.
    - unfold u. rewrite map_length. auto.
    - unfold u. apply NoDup_nth with (d := 0). rewrite map_length. intros i j Hi Hj. rewrite !(nth_map (fun x => nth (Z.to_nat x) t 0) _ _ 0) by auto. intros E.
      assert (Ii : In (nth i s 0) s) by (apply nth_In; auto). assert (Ij : In (nth j s 0) s) by (apply nth_In; auto). apply Is in Ii, Ij.
      apply (proj1 (NoDup_nth t 0) Dt) in E; try lia. apply (proj1 (NoDup_nth s 0) Ds); auto; lia.
    - intros x Hx. unfold u in Hx. apply in_map_iff in Hx. destruct Hx as (y & <- & Hy). apply Is in Hy. apply It. apply nth_In. lia. }
  destruct (transpose_perm a u Hu) as (c' & Hc' & Rc' & Cc' & Dc'). rewrite Hc'. f_equal. apply (view_eq _ _ u (vrank a)); auto; try lia.
  intros k Hk. rewrite Dc' by auto. unfold u. rewrite (nth_map (fun x => nth (Z.to_nat x) t 0) _ _ 0) by lia.
  assert (Ik : In (nth k s 0) s) by (apply nth_In; lia). apply Is in Ik. rewrite Dc by lia. rewrite Db by auto. auto.
Qed.

Theorem C19_inverse : forall a s t, axis_permutation (vrank a) s -> axis_permutation (vrank a) t -> (forall k, (k < vrank a)%nat -> nth (Z.to_nat (nth k s 0)) t 0 = Z.of_nat k) ->
  exists b, transpose a s = Good b /\ transpose b t = Good a.
Proof.
  intros a s t Hs Ht Hi. destruct (C19_compose a s t Hs Ht) as (b & c & Hb & Hc & Hu). exists b. split; auto. rewrite Hc. f_equal.
  destruct (perm_facts _ _ Hs) as (Ls & _ & _).
  assert (Eu : map (fun x => nth (Z.to_nat x) t 0) s = map Z.of_nat (seq 0 (vrank a))).
  { apply (list_eq_nth _ _ _ 0); [rewrite !map_length, seq_length; auto|]. intros k Hk. rewrite map_length in Hk. rewrite (nth_map (fun x => nth (Z.to_nat x) t 0) _ _ 0) by lia.
    rewrite Hi by lia. rewrite (nth_map Z.of_nat _ _ 0%nat) by (rewrite seq_length; lia). rewrite seq_nth by lia. lia. }
  rewrite Eu in Hu. destruct (transpose_perm a (map Z.of_nat (seq 0 (vrank a)))) as (c' & Hc' & R & C & D); [unfold axis_permutation; auto|]. rewrite Hu in Hc'. inversion Hc'; subst c'.
  apply (view_eq _ _ (map Z.of_nat (seq 0 (vrank a))) (vrank a)); auto; [unfold axis_permutation; auto|]. intros k Hk. rewrite D by auto.
  rewrite (nth_map Z.of_nat _ _ 0%nat) by (rewrite seq_length; lia). rewrite seq_nth by lia. rewrite Nat2Z.id. auto.
Qed.

Example C19_example : exists b, axis_permutation 3 [2; 0; 1] /\ axis_permutation 3 [1; 2; 0] /\ transpose (Vw [Dim 2 12; Dim 3 4; Dim UNB 1] 0) [2; 0; 1] = Good b /\ transpose b [1; 2; 0] = Good (Vw [Dim 2 12; Dim 3 4; Dim UNB 1] 0).
Proof.
  eexists. split; [|split; [|split; reflexivity]]; (apply facts_perm; [auto| |]).
  - repeat (constructor; [cbn; intuition; discriminate|]). constructor.
  - cbn. intuition lia.
  - repeat (constructor; [cbn; intuition; discriminate|]). constructor.
  - cbn. intuition lia.
Qed.

(* ---- C20 ---- *)

(* the axes of two views are the same, with the same destinations, in different order *)
Definition same_sources (a : view) (s : list Z) (a' : view) (s' : list Z) : Prop := Permutation (combine s (vdv a)) (combine s' (vdv a')).

(* Missing from C20: unbounded axes. *)
Theorem C20_order_partial : forall a s b a' s' b', nonneg (vshape a) -> Forall (fun sk => 0 <= sk) s -> Forall (fun sk => 0 <= sk) s' -> same_sources a s a' s' ->
  transpose a s = Good b -> transpose a' s' = Good b' -> vdv b = vdv b'.
Proof.
  intros a s b a' s' b' Hn Hs Hs' Hp Hb Hb'. unfold same_sources in Hp.
  destruct (transpose_inv a s b Hb Hs) as (Hl & _ & Hr & _ & Hlen & Hst). destruct (transpose_inv a' s' b' Hb' Hs') as (Hl' & _ & Hr' & _ & Hlen' & Hst').
  assert (Hf : forall (t : list Z) (dv : list dim), length t = length dv -> map fst (combine t dv) = t).
  { induction t; intros dv E; destruct dv; try discriminate; cbn; auto. f_equal. apply IHt. simpl in E. lia. }
  assert (Hps : Permutation s s'). { rewrite <- (Hf s (vdv a)), <- (Hf s' (vdv a')) by auto. apply Permutation_map. auto. }
  assert (Et : trank s = trank s').
  { destruct (trank_bound s Hs) as (T1 & T2), (trank_bound s' Hs') as (T1' & T2').
    assert (G : forall t, Forall (fun sk => 0 <= sk) t -> t <> [] -> In (trank t - 1) t).
    { clear. intros t Ht Hne. destruct t as [|x s]; [contradiction|]. cbn [trank]. replace (1 + fold_left Z.max s x - 1) with (fold_left Z.max s x) by lia.
      assert (G : forall l c, fold_left Z.max l c = c \/ In (fold_left Z.max l c) l).
      { induction l; intros c; cbn; auto. destruct (IHl (Z.max c a)) as [E|E]; auto. rewrite E. destruct (Z.max_spec c a) as [(_ & ->)|(_ & ->)]; auto. }
      destruct (G s x) as [->|E]; [left|right]; auto. }
    destruct s as [|x s]. { apply Permutation_nil in Hps. subst s'. auto. } destruct s' as [|x' s']. { apply Permutation_sym, Permutation_nil in Hps. discriminate. }
    pose proof (G (x :: s) Hs ltac:(discriminate)) as G1. pose proof (G (x' :: s') Hs' ltac:(discriminate)) as G2.
    apply (Permutation_in _ Hps) in G1. apply (Permutation_in _ (Permutation_sym Hps)) in G2. rewrite Forall_forall in T2, T2'. specialize (T2 _ G2). specialize (T2' _ G1). cbv beta in *. lia. }
  assert (Hsrc : forall (t : list Z) (dv : list dim) d, sources t dv d = map (fun p => len (snd p)) (filter (fun p => fst p =? d) (combine t dv))).
  { induction t; intros dv d; cbn; auto. destruct dv; cbn; auto. destruct (a0 =? d); cbn; rewrite IHt; auto. }
  assert (Hflt : forall A (f : A -> bool) l m, Permutation l m -> Permutation (filter f l) (filter f m)).
  { induction 1; cbn; auto; [destruct (f x); auto|destruct (f x), (f y); auto; apply perm_swap|eapply perm_trans; eauto]. }
  assert (Hzs : forall l m, Permutation l m -> zsum l = zsum m) by (induction 1; cbn; lia).
  apply (list_eq_nth _ _ _ dim0); [unfold vrank in *; lia|]. intros d Hd. unfold vrank in *.
  pose proof (Hlen d Hd) as E1. pose proof (Hst d Hd) as E2. pose proof (Hlen' d ltac:(lia)) as E3. pose proof (Hst' d ltac:(lia)) as E4.
  assert (Es : step (nth d (vdv b) dim0) = step (nth d (vdv b') dim0)). { rewrite E2, E4. apply Hzs. apply Permutation_map. auto. }
  assert (El : len (nth d (vdv b) dim0) = len (nth d (vdv b') dim0)).
  { rewrite E1, E3. assert (P : Permutation (sources s (vdv a) (Z.of_nat d)) (sources s' (vdv a') (Z.of_nat d))) by (rewrite !Hsrc; apply Permutation_map, Hflt; auto).
    assert (F1 : Forall (fun n => 0 <= n) (sources s (vdv a) (Z.of_nat d))).
    { apply Forall_forall. intros n Hin. apply in_sources in Hin; [|auto]. destruct Hin as (k & Hk & _ & <-). unfold nonneg, vshape in Hn. rewrite Forall_forall in Hn. apply Hn. apply in_map. apply nth_In. lia. }
    assert (F2 : Forall (fun n => 0 <= n) (sources s' (vdv a') (Z.of_nat d))) by (eapply Permutation_Forall; eauto).
    destruct (fold_lmin_UNB _ F1) as (A & B). destruct (fold_lmin_UNB _ F2) as (A' & B'). cbv zeta in *.
    destruct (sources s (vdv a) (Z.of_nat d)) eqn:Ed. { apply Permutation_nil in P. rewrite P. reflexivity. }
    rewrite <- Ed in *. destruct (sources s' (vdv a') (Z.of_nat d)) eqn:Ed'. { apply Permutation_sym, Permutation_nil in P. congruence. } rewrite <- Ed' in *.
    destruct B as (_ & B1 & B2); [congruence|]. destruct B' as (_ & B1' & B2'); [congruence|]. apply (Permutation_in _ P) in B1. apply (Permutation_in _ (Permutation_sym P)) in B1'.
    specialize (B2 _ B1'). specialize (B2' _ B1). lia. }
  destruct (nth d (vdv b) dim0), (nth d (vdv b') dim0). cbn in *. congruence.
Qed.

(* an axis of length 3 and an unbounded axis, merged in the two orders *)
Theorem C20_order_refuted : exists a s b a' s' b', Forall (fun sk => 0 <= sk) s /\ Forall (fun sk => 0 <= sk) s' /\ same_sources a s a' s' /\
  transpose a s = Good b /\ transpose a' s' = Good b' /\ vshape b = [3] /\ vshape b' = [UNB].
Proof.
  exists (Vw [Dim UNB 5; Dim 3 1] 0), [0; 0]. eexists. exists (Vw [Dim 3 1; Dim UNB 5] 0), [0; 0]. eexists.
  split; [repeat constructor; lia|]. split; [repeat constructor; lia|]. split; [apply perm_swap|]. split; [reflexivity|]. split; [reflexivity|]. split; reflexivity.
Qed.

Example C20_example : exists b, transpose (Vw [Dim 4 1; Dim 3 5; Dim 2 20] 0) [0; 0; 1] = Good b /\ transpose (Vw [Dim 3 5; Dim 2 20; Dim 4 1] 0) [0; 1; 0] = Good b /\
  same_sources (Vw [Dim 4 1; Dim 3 5; Dim 2 20] 0) [0; 0; 1] (Vw [Dim 3 5; Dim 2 20; Dim 4 1] 0) [0; 1; 0].
Proof. eexists. split; [reflexivity|]. split; [reflexivity|]. unfold same_sources. cbn. eapply perm_trans; [apply perm_swap|]. apply perm_skip. apply perm_swap. Qed.

(* ---- C21 ---- *)

(* The bounds for each axis. *)
Definition given (r : nat) (b : bounds) (l : list Z) : Prop := length l = r /\ match b with BScalar n => forall x, In x l -> x = n | BVector v => v = l end.

Theorem C21_stencil : forall a lo hi b, nonneg (vshape a) -> stencil a lo hi = Good b ->
  exists l h, given (vrank a) lo l /\ given (vrank a) hi h /\ nonneg l /\ nonneg h /\ vrank b = (vrank a + vrank a)%nat /\
  (forall k, (k < vrank a)%nat -> nth k (vshape b) 0 = nth k (vshape a) 0 - nth k l 0 - nth k h 0 /\ nth (vrank a + k) (vshape b) 0 = nth k l 0 + nth k h 0 + 1) /\
  forall i j, inshape (i ++ j) (vshape b) -> length i = vrank a ->
    inshape (map (fun p => fst p + snd p) (combine i j)) (vshape a) /\ vplace b (i ++ j) = vplace a (map (fun p => fst p + snd p) (combine i j)).
Proof.
  intros a lo hi b Hn H. unfold stencil in H. destruct (bounds_nonneg lo && bounds_nonneg hi) eqn:Eb; [|discriminate].
  destruct (bounds_for (vrank a) lo) as [l|] eqn:El; [|discriminate]. destruct (bounds_for (vrank a) hi) as [h|] eqn:Eh; [|discriminate].
  destruct (stencil_outer (vdv a) l h) as [o|] eqn:Eo; [|discriminate]. inversion H; subst. clear H. apply andb_true_iff in Eb. destruct Eb as (Eb1 & Eb2).
  assert (G : forall bb ll, bounds_for (vrank a) bb = Some ll -> bounds_nonneg bb = true -> given (vrank a) bb ll /\ nonneg ll).
  { intros bb ll E1 E2. destruct bb; cbn in E1, E2.
    - inversion E1; subst. split; [split; [apply repeat_length|intros x Hx; eapply repeat_spec; eauto]|]. apply Forall_forall. intros x Hx. apply repeat_spec in Hx. lia.
    - destruct (Nat.eqb_spec (length v) (vrank a)); [|discriminate]. inversion E1; subst. split; [split; auto|]. apply Forall_forall. intros x Hx. rewrite forallb_forall in E2. specialize (E2 x Hx). lia. }
  destruct (G _ _ El Eb1) as (G1 & N1). destruct (G _ _ Eh Eb2) as (G2 & N2). exists l, h. split; auto. split; auto. split; auto. split; auto.
  destruct (stencil_outer_spec (vdv a) l h o (proj1 G1) (proj1 G2) Eo) as (A & B & C & D). unfold vrank, vshape, vplace in *. cbn [vdv vcp] in *.
  split; [rewrite app_length; lia|]. split.
  - intros k Hk. destruct (D k Hk) as (D1 & D2 & D3). rewrite !(nth_map len _ _ dim0); try (rewrite ?app_length; lia). rewrite app_nth1 by lia. rewrite app_nth2 by lia. rewrite A. replace (length (vdv a) + k - length (vdv a))%nat with k by lia. lia.
  - intros i j Hij Hi. rewrite map_app in Hij. apply Forall2_app_inv_l in Hij. destruct Hij as (s1 & s2 & F1 & F2 & E).
    assert (L1 : length i = length s1) by (eapply inshape_length; eauto). assert (L2 : length j = length s2) by (eapply inshape_length; eauto).
    assert (E12 : s1 = map len o /\ s2 = map len (stencil_inner (vdv a) l h)). { assert (EE : firstn (length s1) (s1 ++ s2) = firstn (length s1) (map len o ++ map len (stencil_inner (vdv a) l h))) by congruence.
      assert (Ll : length s1 = length (map len o)) by (rewrite map_length; lia). rewrite firstn_app, firstn_all, Nat.sub_diag in EE. cbn in EE. rewrite app_nil_r in EE. rewrite Ll, firstn_app, firstn_all, Nat.sub_diag in EE. cbn in EE. rewrite app_nil_r in EE.
      split; auto. subst s1. match goal with X : _ ++ s2 = _ |- _ => apply app_inv_head in X; auto | X : _ = _ ++ s2 |- _ => apply app_inv_head in X; auto end. }
    destruct E12 as (-> & ->). rewrite !map_length in *.
    assert (Lj : length j = length (vdv a)) by lia.
    split.
    + apply nth_inshape; [rewrite !map_length, combine_length; lia|]. rewrite map_length. intros k Hk. rewrite (nth_map (fun p => fst p + snd p) _ _ (0, 0)) by (rewrite combine_length; lia). rewrite combine_nth by lia. cbn [fst snd].
      pose proof (inshape_nth _ _ F1 k) as K1. pose proof (inshape_nth _ _ F2 k) as K2. rewrite map_length in K1, K2. rewrite (nth_map len _ _ dim0) in K1 by lia. rewrite (nth_map len _ _ dim0) in K2 by lia. specialize (K1 ltac:(lia)). specialize (K2 ltac:(lia)).
      rewrite (nth_map len _ _ dim0) by lia. destruct (D k Hk) as (D1 & D2 & D3). rewrite D1 in K1. rewrite D2 in K2. lia.
    + rewrite place_app by lia. destruct (C i Hi) as (-> & _). destruct (C j Lj) as (_ & ->). f_equal. clear - Hi Lj. revert i j Hi Lj. induction (vdv a); intros [|x i] [|y j] H1 H2; try discriminate; cbn; auto. rewrite <- IHl by (cbn in *; lia). ring.
Qed.

Theorem C21_accepted : forall a lo hi l h, given (vrank a) lo l -> given (vrank a) hi h -> nonneg l -> nonneg h -> (0 < vrank a)%nat ->
  (forall k, (k < vrank a)%nat -> nth k l 0 + nth k h 0 <= nth k (vshape a) 0) -> exists b, stencil a lo hi = Good b.
Proof.
  intros a lo hi l h (L1 & G1) (L2 & G2) N1 N2 Hr Hk. unfold stencil.
  assert (G : forall bb ll, length ll = vrank a -> match bb with BScalar n => forall x, In x ll -> x = n | BVector v => v = ll end -> nonneg ll -> bounds_nonneg bb = true /\ bounds_for (vrank a) bb = Some ll).
  { intros bb ll E1 E2 E3. destruct bb; cbn.
    - assert (El : ll = repeat n (vrank a)). { rewrite <- E1. clear - E2. induction ll; cbn; auto. rewrite (E2 a) by (left; auto). f_equal. apply IHll. intros; apply E2; right; auto. }
      split; [|congruence]. destruct ll as [|x ll]; [cbn in *; lia|]. inversion E3; subst. rewrite <- (E2 x) by (left; auto). lia.
    - subst v. rewrite E1, Nat.eqb_refl. split; auto. apply forallb_forall. intros x Hx. unfold nonneg in E3. rewrite Forall_forall in E3. specialize (E3 x Hx). cbv beta in E3. lia. }
  destruct (G _ _ L1 G1 N1) as (-> & ->). destruct (G _ _ L2 G2 N2) as (-> & ->). cbn [andb].
  assert (exists o, stencil_outer (vdv a) l h = Some o) as (o & ->); [|eauto].
  clear - Hk L1 L2. unfold vrank, vshape in *. revert l h L1 L2 Hk. induction (vdv a) as [|d dv IH]; intros l h L1 L2 Hk; cbn; eauto. destruct l as [|x l]; [discriminate|]. destruct h as [|y h]; [discriminate|].
  destruct (IH l h) as (o & ->); [simpl in L1; lia|simpl in L2; lia|intros k Hk2; apply (Hk (S k)); cbn; lia|]. pose proof (Hk 0%nat ltac:(cbn; lia)) as H0. cbn in H0. destruct (Z.geb_spec (len d) (x + y)); [eauto|lia].
Qed.

Example C21_example : exists b, stencil (Vw [Dim 4 5; Dim 5 1] 0) (BScalar 1) (BVector [1; 2]) = Good b /\ vshape b = [2; 2; 3; 4] /\ vplace b [1; 0; 2; 3] = 18.
Proof. eexists. split; [reflexivity|]. split; reflexivity. Qed.

(* ---- C22 ---- *)

(* An array type is stored without gaps. Its elements, of type value_t, have vsize bytes. *)
Definition packed (t : etype) : Prop := 0 < vsize t /\ nonneg (map len (tdv t)) /\ 0 < zprod (map len (tdv t)) /\ tsize t = vsize t * zprod (map len (tdv t)).
(* byte offset, within an object of type t, of the u-th part of w bytes of its element at k *)
Definition inner_byte (t : etype) (w : Z) (k : list Z) (u : Z) : Z := vsize t * place (tdv t) k + w * u.

Lemma skipn_skipn : forall A n m (l : list A), skipn n (skipn m l) = skipn (m + n) l.
Proof. induction m; intros; cbn; auto. destruct l; [destruct n; auto|apply IHm]. Qed.

Lemma explode_frame_spec : forall dv s b, explode_frame dv s = Some b -> map len b = map len dv /\ forall i, s * place b i = place dv i.
Proof.
  induction dv; intros s b H; cbn [explode_frame] in H.
  - inversion H; subst. split; auto. intros; cbn; lia.
  - destruct (Z.eqb_spec 0 s) as [E0|E0].
    + destruct (Z.eqb_spec 0 (step a)) as [Ea|]; [|discriminate]. destruct (explode_frame dv s) as [r|] eqn:E; [|discriminate]. inversion H; subst b. destruct (IHdv s r E) as (L & P). cbn [map len]. split; [congruence|].
      intros [|x i]; cbn [place step]; [lia|]. rewrite <- P, <- Ea, <- E0. lia.
    + destruct (Z.eqb_spec 0 (Z.rem (step a) s)) as [Ea|]; [|discriminate]. destruct (explode_frame dv s) as [r|] eqn:E; [|discriminate]. inversion H; subst b. destruct (IHdv s r E) as (L & P). cbn [map len]. split; [congruence|].
      intros [|x i]; cbn [place step]; [lia|]. rewrite <- P. assert (Eq : step a = s * Z.quot (step a) s) by (pose proof (Z.quot_rem (step a) s ltac:(lia)); lia). rewrite Eq at 2. ring.
Qed.

Lemma explode_match_spec : forall dv sup s, length dv = length sup -> explode_match dv sup s = true -> map len dv = map len sup /\ forall k, place dv k = s * place sup k.
Proof.
  induction dv; intros sup s Hl H; destruct sup; try discriminate; cbn [explode_match] in H.
  - split; auto. intros; cbn; lia.
  - apply andb_true_iff in H. destruct H as (H1 & H). apply andb_true_iff in H1. destruct H1 as (H1 & H2). destruct (IHdv sup s) as (L & P); [simpl in Hl; lia|auto|]. cbn [map]. split; [f_equal; [lia|auto]|].
    intros [|x k]; cbn [place]; [lia|]. rewrite P. nia.
Qed.

Lemma collapse_sup_spec : forall dv s t b, 0 < s -> collapse_sup dv s t = Some b -> map len b = map len dv /\ forall k, s * place b k = place dv k * t.
Proof.
  induction dv; intros s t b Hs H; cbn [collapse_sup] in H.
  - inversion H; subst. split; auto. intros; cbn; lia.
  - destruct (Z.eqb_spec 0 (Z.rem (step a) s)) as [Ea|]; [|discriminate]. destruct (collapse_sup dv s t) as [r|] eqn:E; [|discriminate]. inversion H; subst b. destruct (IHdv s t r Hs E) as (L & P). cbn [map len]. split; [congruence|].
    intros [|x k]; cbn [place step]; [lia|]. rewrite Z.mul_add_distr_l, P. assert (Eq : step a = s * Z.quot (step a) s) by (pose proof (Z.quot_rem (step a) s ltac:(lia)); lia). rewrite Eq at 2. ring.
Qed.
Lemma collapse_sup_one : forall dv t, exists b, collapse_sup dv 1 t = Some b.
Proof. induction dv as [|d dv IH]; intros t; cbn [collapse_sup]; [eauto|]. rewrite Z.rem_1_r. destruct (IH t) as (b & ->). cbn. eauto. Qed.

(* tz: size of the elements of a. us: the lengths of the axes of a (none or one) that make up the type of the elements of sup. *)
Theorem C22_explode : forall a tz sup b, 0 < tz -> packed sup -> explode a tz sup = Good b ->
  exists us, vshape a = vshape b ++ map len (tdv sup) ++ us /\ (us = [] \/ exists n, us = [n]) /\ zprod us * tz = vsize sup /\ vcp b = vcp a /\
  forall i k u, length i = vrank b -> length k = length (tdv sup) -> length u = length us ->
    tsize sup * place (vdv b) i + inner_byte sup tz k (rm us u) = tz * place (vdv a) (i ++ k ++ u).
Proof.
  intros a tz sup b Htz (Pv & Pn & Ps & Pt) H. unfold explode in H. set (ru := if vsize sup =? tz then 0%nat else 1%nat) in *. set (rs := length (tdv sup)) in *.
  destruct (Nat.ltb_spec (vrank a) (rs + ru)) as [|Hr]; [discriminate|]. set (rb := (vrank a - rs - ru)%nat) in *. unfold vrank in *.
  destruct (explode_sub (skipn (rb + rs) (vdv a)) 1) as [s|] eqn:Es; [|discriminate]. destruct (Z.eqb_spec (s * tz) (vsize sup)) as [Ez|]; [|discriminate]. cbn [negb] in H.
  destruct (explode_match (firstn rs (skipn rb (vdv a))) (tdv sup) s) eqn:Em; [|discriminate]. cbn [negb] in H. rewrite dimv_size_prod in H by auto.
  destruct (explode_frame (firstn rb (vdv a)) (s * zprod (map len (tdv sup)))) as [dv|] eqn:Ef; [|discriminate]. inversion H; subst b. clear H. unfold vshape. cbn [vdv vcp].
  assert (Ed : vdv a = firstn rb (vdv a) ++ firstn rs (skipn rb (vdv a)) ++ skipn (rb + rs) (vdv a)).
  { rewrite <- (firstn_skipn rb (vdv a)) at 1. f_equal. rewrite <- (firstn_skipn rs (skipn rb (vdv a))) at 1. f_equal. rewrite skipn_skipn. auto. }
  assert (L1 : length (firstn rb (vdv a)) = rb) by (rewrite firstn_length; lia).
  assert (L2 : length (firstn rs (skipn rb (vdv a))) = rs) by (rewrite firstn_length, skipn_length; lia).
  assert (L3 : length (skipn (rb + rs) (vdv a)) = ru) by (rewrite skipn_length; lia).
  destruct (explode_frame_spec _ _ _ Ef) as (F1 & F2). destruct (explode_match_spec _ _ _ L2 Em) as (M1 & M2).
  assert (Lb : length dv = rb) by (rewrite <- (map_length len dv), F1, map_length; auto).
  assert (Hu : exists us, map len (skipn (rb + rs) (vdv a)) = us /\ (us = [] \/ exists n, us = [n]) /\ zprod us = s /\ forall u, length u = length us -> place (skipn (rb + rs) (vdv a)) u = rm us u).
  { unfold ru in L3. destruct (vsize sup =? tz).
    - destruct (skipn (rb + rs) (vdv a)); [|discriminate]. cbn in Es. inversion Es; subst. exists []. repeat split; auto.
    - destruct (skipn (rb + rs) (vdv a)) as [|d [|]]; try discriminate. cbn [explode_sub] in Es. destruct (Z.eqb_spec (step d) 1); [|discriminate]. rewrite Z.mul_1_l in Es. injection Es as Es. exists [len d]. split; [auto|]. split; [eauto|]. split; [cbn [zprod]; lia|].
      intros [|x [|]] Hl; try discriminate. cbn. lia. }
  destruct Hu as (us & U1 & U2 & U3 & U4). exists us. split; [rewrite Ed at 1; rewrite !map_app; congruence|]. split; auto. split; [rewrite U3; auto|]. split; auto.
  intros i k u Hi Hk Hu. unfold vrank in Hi. cbn [vdv] in Hi. rewrite Ed. rewrite place_app by lia. rewrite place_app by lia. rewrite M2, U4 by auto. rewrite <- F2. unfold inner_byte. rewrite Pt, <- Ez. ring.
Qed.

(* The new type is a scalar of w bytes, t of which make an element of sup. *)
Theorem C22_collapse_scalar : forall a sup w t, 0 < w -> 0 < t -> packed sup -> vsize sup = t * w ->
  exists c, collapse a sup (Ety [] w w) = Good c /\ vcp c = vcp a /\ vshape c = vshape a ++ map len (tdv sup) ++ (if 1 <? t then [t] else []) /\
  forall i k u, length i = vrank a -> length k = length (tdv sup) -> length u = (if 1 <? t then 1%nat else 0%nat) ->
    w * place (vdv c) (i ++ k ++ u) = tsize sup * place (vdv a) i + inner_byte sup w k (nth 0 u 0).
Proof.
  intros a sup w t Hw Ht (Pv & Pn & Ps & Pt) Ev. unfold collapse. cbn [tdv tsize vsize length]. rewrite Nat.ltb_irrefl || idtac.
  destruct (Nat.ltb_spec (length (tdv sup)) 0); [lia|]. rewrite Nat.sub_0_r, firstn_all. rewrite Ev. rewrite Z.quot_mul by lia. rewrite Z.quot_same by lia. rewrite Pt, Ev.
  replace (t * w * zprod (map len (tdv sup))) with (t * zprod (map len (tdv sup)) * w) by ring. rewrite Z.quot_mul by lia. rewrite Z.eqb_refl. cbn [negb].
  destruct (Z.geb_spec (t * w) 1); [|nia]. cbn [negb]. destruct (collapse_sup_one (tdv sup) t) as (sd & Es). rewrite Es. eexists. split; [reflexivity|]. split; auto.
  destruct (collapse_sup_spec _ _ _ _ Z.lt_0_1 Es) as (S1 & S2). assert (Ls : length sd = length (tdv sup)) by (rewrite <- (map_length len sd), S1, map_length; auto).
  unfold vshape. cbn [vdv]. rewrite !map_app, map_map. cbn [len]. split.
  - f_equal. f_equal; [auto|]. replace (t >? 1) with (1 <? t) by lia. destruct (1 <? t); auto.
  - intros i k u Hi Hk Hu. rewrite place_app by (rewrite map_length; unfold vrank in Hi; lia). rewrite place_app by lia. rewrite place_scale. unfold inner_byte. rewrite Ev.
    replace (t >? 1) with (1 <? t) by lia. specialize (S2 k). replace (place sd k) with (place (tdv sup) k * t) by lia.
    destruct (1 <? t); [destruct u as [|x [|]]; try discriminate|destruct u; try discriminate]; cbn [place step nth]; ring.
Qed.

(* The new type is an array of the same elements with the shape of the last axes of sup. Partial: for other array types see C22_refuted. *)
Theorem C22_collapse_array_partial : forall a sup sub c d1, packed sup -> packed sub -> vsize sub = vsize sup -> tdv sup = d1 ++ tdv sub -> collapse a sup sub = Good c ->
  vcp c = vcp a /\ vshape c = vshape a ++ map len d1 /\
  forall i k l, length i = vrank a -> length k = length d1 -> length l = length (tdv sub) ->
    tsize sub * place (vdv c) (i ++ k) + inner_byte sub 0 l 0 = tsize sup * place (vdv a) i + inner_byte sup 0 (k ++ l) 0.
Proof.
  intros a sup sub c d1 (Pv & Pn & Ps & Pt) (Qv & Qn & Qs & Qt) Ev Ed H. unfold collapse in H. rewrite Ed in H. rewrite app_length in H. destruct (Nat.ltb_spec (length d1 + length (tdv sub)) (length (tdv sub))); [lia|].
  replace (length d1 + length (tdv sub) - length (tdv sub))%nat with (length d1) in H by lia. rewrite firstn_app, firstn_all, Nat.sub_diag in H. cbn [firstn] in H. rewrite app_nil_r in H.
  rewrite Ev in H. rewrite Z.quot_same in H by lia. rewrite Pt, Qt, Ev, Ed, map_app, zprod_app in H. set (v := vsize sup) in *. set (z1 := zprod (map len d1)) in *. set (z2 := zprod (map len (tdv sub))) in *.
  replace (v * (z1 * z2)) with (z1 * (v * z2)) in H by ring. rewrite Z.quot_mul in H by nia. rewrite Z.eqb_refl in H. cbn [negb] in H. destruct (Z.geb_spec (1 * v) 1); [|lia]. cbn [negb] in H.
  replace (v * z2) with (z2 * v) in H by ring. rewrite Z.quot_mul in H by lia. destruct (collapse_sup d1 z2 1) as [sd|] eqn:Es; [|discriminate].
  replace (Z.quot v (z2 * v) >? 1) with false in H. 2: { symmetry. destruct (Z.eq_dec z2 1) as [->|]. { rewrite Z.mul_1_l, Z.quot_same by lia. auto. } rewrite Z.quot_small by nia. auto. }
  inversion H; subst c. clear H. destruct (collapse_sup_spec _ _ _ _ Qs Es) as (S1 & S2). assert (Ls : length sd = length d1) by (rewrite <- (map_length len sd), S1, map_length; auto).
  split; auto. unfold vshape. cbn [vdv]. rewrite app_nil_r, map_app, map_map. cbn [len]. split; [f_equal; auto|].
  intros i k l Hi Hk Hl. unfold vrank in Hi. rewrite place_app by (rewrite map_length; lia). rewrite place_scale. unfold inner_byte. rewrite Ed. rewrite place_app by lia. rewrite Pt, Qt, Ev, Ed, map_app, zprod_app. fold v z1 z2.
  specialize (S2 k). fold z2 in S2. nia.
Qed.

Theorem C22_inverse : forall a tz sup b, 0 < tz -> packed sup -> nonneg (vshape a) -> explode a tz sup = Good b ->
  exists c, collapse b sup (Ety [] tz tz) = Good c /\ vshape c = vshape a /\ forall j, length j = vrank a -> vplace c j = vplace a j.
Proof.
  intros a tz sup b Htz Hp Hn H. pose proof H as H0. destruct (C22_explode a tz sup b Htz Hp H) as (us & E1 & E2 & E3 & E4 & E5).
  assert (Hus : 0 < zprod us) by (destruct Hp; nia). destruct (C22_collapse_scalar b sup tz (zprod us) Htz Hus Hp (eq_sym E3)) as (c & C1 & C2 & C3 & C4). exists c. split; auto.
  assert (Eu : (if 1 <? zprod us then [zprod us] else []) = us).
  { destruct E2 as [->|(n & ->)]; auto. cbn [zprod] in *. rewrite Z.mul_1_r in *. destruct (Z.ltb_spec 1 n); auto. exfalso. assert (n = 1) by lia. subst n.
    unfold explode in H0. replace (vsize sup =? tz) with true in H0 by lia. assert (Hl : length (vshape a) = (vrank b + (length (tdv sup) + 1))%nat) by (rewrite E1; unfold vshape, vrank; rewrite !app_length, !map_length; auto).
    unfold vshape in Hl. rewrite map_length in Hl. unfold vrank in *. destruct (Nat.ltb_spec (length (vdv a)) (length (tdv sup) + 0)); [discriminate|]. destruct (explode_sub _ 1); [|discriminate]. destruct (negb _); [discriminate|]. destruct (negb _); [discriminate|].
    destruct (explode_frame _ _) as [dv|] eqn:Ef; [|discriminate]. inversion H0; subst b. cbn [vdv] in Hl. destruct (explode_frame_spec _ _ _ Ef) as (F1 & _). apply (f_equal (@length Z)) in F1. rewrite !map_length, firstn_length in F1. lia. }
  split. { rewrite C3, Eu, E1. auto. }
  intros j Hj. unfold vplace. rewrite C2, E4. f_equal. assert (Lj : length j = (vrank b + (length (tdv sup) + length us))%nat).
  { rewrite Hj. transitivity (length (vshape a)); [unfold vshape, vrank; rewrite map_length; auto|]. rewrite E1. unfold vshape, vrank. rewrite !app_length, !map_length. auto. }
  set (i := firstn (vrank b) j). set (k := firstn (length (tdv sup)) (skipn (vrank b) j)). set (u := skipn (vrank b + length (tdv sup)) j).
  assert (Ej : j = i ++ k ++ u). { unfold i, k, u. rewrite <- (firstn_skipn (vrank b) j) at 1. f_equal. rewrite <- (firstn_skipn (length (tdv sup)) (skipn (vrank b) j)) at 1. f_equal. rewrite skipn_skipn. auto. }
  assert (Li : length i = vrank b) by (unfold i; rewrite firstn_length; lia). assert (Lk : length k = length (tdv sup)) by (unfold k; rewrite firstn_length, skipn_length; lia). assert (Lu : length u = length us) by (unfold u; rewrite skipn_length; lia).
  specialize (E5 i k u Li Lk Lu). specialize (C4 i k u Li Lk). rewrite <- Ej in *.
  assert (Hr : rm us u = nth 0 u 0). { destruct E2 as [->|(n & ->)]; [destruct u; [auto|discriminate]|]. destruct u as [|x [|]]; try discriminate. cbn. lia. }
  rewrite Hr in E5. assert (Lu2 : length u = (if 1 <? zprod us then 1%nat else 0%nat)) by (rewrite Lu; rewrite <- Eu at 1; destruct (1 <? zprod us); auto). specialize (C4 Lu2). nia.
Qed.

(* an array of shape {4, 2, 2} of 8 byte elements as shape {4} of Small<complex, 2>, and back *)
Example C22_example : packed (Ety [Dim 2 1] 16 32) /\ explode (Vw [Dim 4 4; Dim 2 2; Dim 2 1] 0) 8 (Ety [Dim 2 1] 16 32) = Good (Vw [Dim 4 1] 0) /\
  collapse (Vw [Dim 4 1] 0) (Ety [Dim 2 1] 16 32) (Ety [] 8 8) = Good (Vw [Dim 4 4; Dim 2 2; Dim 2 1] 0) /\
  collapse (Vw [Dim 4 1] 0) (Ety [Dim 3 2; Dim 2 1] 8 48) (Ety [Dim 2 1] 8 16) = Good (Vw [Dim 4 3; Dim 3 1] 0).
Proof. split; [unfold packed; cbn; repeat split; try lia; repeat constructor; lia|]. repeat split; auto. Qed.

(* For other array types, whose size divides that of sup, the result may leave out part of the elements, as in collapse<Small<int, 2>>(a) with a of Small<int, 6>,
   or have elements outside of the array, as in collapse<Small<double, 2>>(a) with a of Small<Small<double, 4>, 1>. *)
Theorem C22_refuted :
  (exists a sup sub c, packed sup /\ packed sub /\ collapse a sup sub = Good c /\ zprod (vshape c) * tsize sub < zprod (vshape a) * tsize sup) /\
  (exists a sup sub c j, packed sup /\ packed sub /\ collapse a sup sub = Good c /\ inshape j (vshape c) /\
    forall i x, inshape i (vshape a) -> 0 <= x < tsize sup -> tsize sub * place (vdv c) j <> tsize sup * place (vdv a) i + x).
Proof.
  split.
  - exists (Vw [Dim 5 1] 0), (Ety [Dim 6 1] 4 24), (Ety [Dim 2 1] 4 8), (Vw [Dim 5 3] 0). unfold packed. cbn. repeat split; try lia; repeat constructor; lia.
  - exists (Vw [Dim 5 1] 0), (Ety [Dim 1 1] 32 32), (Ety [Dim 2 1] 8 16), (Vw [Dim 5 2; Dim 4 1] 0), [4; 3]. split; [unfold packed; cbn; repeat split; try lia; repeat constructor; lia|]. split; [unfold packed; cbn; repeat split; try lia; repeat constructor; lia|].
    split; [reflexivity|]. split; [unfold vshape; cbn; repeat constructor; cbn; lia|]. intros i x Hi Hx. unfold vshape in Hi. cbn in Hi. change (0 <= x < 32) in Hx. inversion Hi as [|? ? ? ? H1 H2]; subst. inversion H2; subst. cbn [place tsize vdv map len step]. lia.
Qed.

Print Assumptions C12_dense. Print Assumptions C13_contiguous. Print Assumptions C14_ravel_partial. Print Assumptions C15_reshape_partial. Print Assumptions C16_placeholder_partial.
Print Assumptions C17_element. Print Assumptions C18_transpose. Print Assumptions C18_negative. Print Assumptions C18_diag. Print Assumptions C19_inverse. Print Assumptions C20_order_partial. Print Assumptions C21_stencil. Print Assumptions C22_inverse. Print Assumptions C22_refuted.
