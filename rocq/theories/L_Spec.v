(* Facts about the notions in Spec.v. *)
From Coq Require Import ZArith List Lia Sorted.
From Coq Require Import ZifyBool ZifyNat.
From Verif Require Import Spec.
Import ListNotations.
Open Scope Z_scope.

Lemma zrange_length : forall n, length (zrange n) = Z.to_nat n.
Proof. intros; unfold zrange; rewrite map_length, seq_length; reflexivity. Qed.

Lemma in_zrange : forall n i, In i (zrange n) <-> 0 <= i < n.
Proof.
  intros; unfold zrange; rewrite in_map_iff; split.
  - intros (x & <- & H). apply in_seq in H. lia.
  - intros H. exists (Z.to_nat i). split; [lia|]. apply in_seq. lia.
Qed.

Lemma seq_shift_add : forall n a b, seq (a+b) n = map (Nat.add a) (seq b n).
Proof.
  induction n; intros; simpl; [reflexivity|].
  f_equal. rewrite <- IHn. f_equal. lia.
Qed.

Lemma zrange_app : forall a b, 0 <= a -> 0 <= b -> zrange (a+b) = zrange a ++ map (Z.add a) (zrange b).
Proof.
  intros; unfold zrange.
  rewrite Z2Nat.inj_add by lia. rewrite seq_app, map_app. f_equal.
  rewrite Nat.add_comm. rewrite seq_shift_add. rewrite !map_map.
  apply map_ext. intros. lia.
Qed.

Lemma zrange_S : forall a, 0 <= a -> zrange (a+1) = zrange a ++ [a].
Proof. intros. rewrite zrange_app by lia. f_equal. unfold zrange. simpl. f_equal. lia. Qed.

Lemma zrange_cons : forall a, 0 < a -> zrange a = 0 :: map (Z.add 1) (zrange (a-1)).
Proof. intros. replace a with (1 + (a-1)) at 1 by lia. rewrite zrange_app by lia. reflexivity. Qed.

Lemma zrange_nil : forall n, n <= 0 -> zrange n = [].
Proof. intros. unfold zrange. replace (Z.to_nat n) with 0%nat by lia. reflexivity. Qed.

Lemma zrange_nth : forall n k d, (k < Z.to_nat n)%nat -> nth k (zrange n) d = Z.of_nat k.
Proof.
  intros. unfold zrange. rewrite nth_indep with (d' := Z.of_nat 0).
  - rewrite map_nth, seq_nth; lia.
  - rewrite map_length, seq_length; lia.
Qed.

Lemma zprod_app : forall s t, zprod (s ++ t) = zprod s * zprod t.
Proof. induction s; intros; cbn [app zprod]; [ring|]. rewrite IHs. ring. Qed.

Lemma zprod_nonneg : forall s, Forall (fun n => 0 <= n) s -> 0 <= zprod s.
Proof. induction 1; cbn [zprod]; nia. Qed.

Lemma zprod_pos : forall s, Forall (fun n => 0 < n) s -> 0 < zprod s.
Proof. induction 1; cbn [zprod]; nia. Qed.

Lemma flat_map_nil : forall {A B} (l : list A), flat_map (fun _ => @nil B) l = [].
Proof. induction l; simpl; auto. Qed.

Lemma flat_map_map : forall {A B C} (f : B -> list C) (g : A -> B) l, flat_map f (map g l) = flat_map (fun x => f (g x)) l.
Proof. induction l; simpl; [reflexivity|]. rewrite IHl; reflexivity. Qed.

Lemma map_flat_map : forall {A B C} (f : B -> C) (g : A -> list B) l, map f (flat_map g l) = flat_map (fun x => map f (g x)) l.
Proof. induction l; simpl; [reflexivity|]. rewrite map_app, IHl; reflexivity. Qed.

Lemma flat_map_flat_map : forall {A B C} (f : B -> list C) (g : A -> list B) l,
  flat_map f (flat_map g l) = flat_map (fun x => flat_map f (g x)) l.
Proof. induction l; simpl; [reflexivity|]. rewrite flat_map_app, IHl; reflexivity. Qed.

Lemma flat_map_ext_in : forall {A B} (f g : A -> list B) l, (forall a, In a l -> f a = g a) -> flat_map f l = flat_map g l.
Proof. induction l; simpl; intros; [reflexivity|]. rewrite H by auto. rewrite IHl by auto. reflexivity. Qed.

Lemma indices_app : forall s t, indices (s ++ t) = flat_map (fun i => map (app i) (indices t)) (indices s).
Proof.
  induction s; intros; simpl.
  - rewrite map_id, app_nil_r; reflexivity.
  - rewrite flat_map_flat_map. apply flat_map_ext. intros i.
    rewrite IHs. rewrite map_flat_map, flat_map_map. apply flat_map_ext. intros j.
    rewrite map_map. reflexivity.
Qed.

Lemma in_indices : forall s j, In j (indices s) <-> inshape j s.
Proof.
  unfold inshape. induction s; simpl; intros.
  - split; intros H.
    + destruct H as [<-|[]]. constructor.
    + inversion H; auto.
  - rewrite in_flat_map. split.
    + intros (i & Hi & H). apply in_map_iff in H. destruct H as (j' & <- & H).
      constructor; [apply in_zrange; auto|]. apply IHs; auto.
    + intros H. inversion H; subst. exists x. split; [apply in_zrange; auto|].
      apply in_map. apply IHs; auto.
Qed.

Lemma inshape_length : forall j s, inshape j s -> length j = length s.
Proof. induction 1; simpl; auto. Qed.

Lemma inshape_nth : forall j s, inshape j s -> forall k, (k < length s)%nat -> 0 <= nth k j 0 < nth k s 0.
Proof.
  induction 1; simpl; intros; [lia|].
  destruct k; [auto|]. apply IHForall2. lia.
Qed.

Lemma nth_inshape : forall j s, length j = length s -> (forall k, (k < length s)%nat -> 0 <= nth k j 0 < nth k s 0) -> inshape j s.
Proof.
  induction j; destruct s; simpl; intros; try discriminate; constructor.
  - apply (H0 0%nat); lia.
  - apply IHj; [lia|]. intros k Hk. apply (H0 (S k)); lia.
Qed.

Lemma inshape_app : forall i s j t, inshape i s -> inshape j t -> inshape (i++j) (s++t).
Proof. intros; apply Forall2_app; auto. Qed.

Lemma inshape_pos : forall j s, inshape j s -> Forall (fun n => 0 < n) s.
Proof. induction 1; constructor; auto; lia. Qed.

Lemma indices_length_in : forall s j, In j (indices s) -> length j = length s.
Proof. intros. apply in_indices in H. apply inshape_length; auto. Qed.

Lemma indices_count : forall s, Forall (fun n => 0 <= n) s -> Z.of_nat (length (indices s)) = zprod s.
Proof.
  induction 1; simpl; [reflexivity|].
  assert (Hl : forall m l', length (flat_map (fun i : Z => map (cons i) m) l') = (length l' * length m)%nat).
  { induction l'; simpl; [reflexivity|]. rewrite app_length, map_length, IHl'. reflexivity. }
  rewrite Hl, zrange_length. lia.
Qed.

Lemma rm_app : forall s t i j, length i = length s -> rm (s++t) (i++j) = rm s i * zprod t + rm t j.
Proof.
  induction s; destruct i; cbn [app rm zprod length]; intros; try discriminate; [ring|].
  rewrite IHs by lia. rewrite zprod_app. ring.
Qed.

Lemma rm_range : forall s j, inshape j s -> 0 <= rm s j < zprod s.
Proof.
  intros s j H; induction H; cbn [rm zprod]; [lia|]. nia.
Qed.

Lemma flat_map_range : forall n m, 0 <= n -> 0 <= m ->
  flat_map (fun i => map (fun x => i * m + x) (zrange m)) (zrange n) = zrange (n * m).
Proof.
  intros n m Hn Hm. pattern n. apply natlike_ind; auto.
  - intros x Hx IH. unfold Z.succ. rewrite zrange_S by lia. rewrite flat_map_app, IH.
    simpl. rewrite app_nil_r. replace ((x+1)*m) with (x*m+m) by ring.
    rewrite zrange_app by nia. reflexivity.
Qed.

Lemma rm_indices : forall s, Forall (fun n => 0 <= n) s -> map (rm s) (indices s) = zrange (zprod s).
Proof.
  induction 1; [reflexivity|].
  simpl indices. simpl zprod. rewrite map_flat_map.
  rewrite <- flat_map_range by (auto using zprod_nonneg).
  apply flat_map_ext. intros i. rewrite map_map. rewrite <- IHForall. rewrite map_map.
  apply map_ext. reflexivity.
Qed.

Lemma indices_zero : forall s, In 0 s -> indices s = [].
Proof.
  induction s; simpl; intros; [tauto|]. destruct H.
  - subst. reflexivity.
  - rewrite IHs by auto. simpl. apply flat_map_nil.
Qed.

Lemma indices_nonpos : forall s k, (k < length s)%nat -> nth k s 0 <= 0 -> indices s = [].
Proof.
  induction s; simpl; intros; [lia|]. destruct k.
  - rewrite zrange_nil; auto.
  - rewrite (IHs k) by (auto; lia). apply flat_map_nil.
Qed.

Lemma rm_inj : forall s j j', inshape j s -> inshape j' s -> rm s j = rm s j' -> j = j'.
Proof.
  intros s j j' H; revert j'. induction H; intros j' H' E; inversion H'; subst; [reflexivity|].
  simpl in E. pose proof (rm_range _ _ H0). pose proof (rm_range _ _ H5).
  assert (x = x0) by nia. subst. f_equal. apply IHForall2; auto. lia.
Qed.

Lemma rm_lt_lex : forall s j j', inshape j s -> inshape j' s -> rm s j < rm s j' -> lexlt j j'.
Proof.
  intros s j j' H; revert j'. induction H; intros j' H' E; inversion H'; subst; simpl in E; [lia|].
  pose proof (rm_range _ _ H0). pose proof (rm_range _ _ H5).
  destruct (Z.eq_dec x x0).
  - subst. apply lex_tl. apply IHForall2; auto. lia.
  - apply lex_hd. nia.
Qed.

Lemma lex_rm_lt : forall s j j', inshape j s -> inshape j' s -> lexlt j j' -> rm s j < rm s j'.
Proof.
  intros s j j' H; revert j'. induction H; intros j' H' E; inversion H'; subst; inversion E; subst; simpl.
  - pose proof (rm_range _ _ H0). pose proof (rm_range _ _ H5). nia.
  - specialize (IHForall2 _ H5 H2). lia.
Qed.

Lemma rm_nth : forall s j d, Forall (fun n => 0 <= n) s -> inshape j s -> nth (Z.to_nat (rm s j)) (indices s) d = j.
Proof.
  intros s j d Hs Hj.
  pose proof (rm_range _ _ Hj) as Hr. pose proof (indices_count _ Hs) as Hc.
  assert (Hk : (Z.to_nat (rm s j) < length (indices s))%nat) by lia.
  pose proof (nth_In (indices s) d Hk) as Hin. apply in_indices in Hin.
  apply (rm_inj s); auto.
  pose proof (rm_indices _ Hs) as E.
  rewrite <- (map_nth (rm s)). rewrite E.
  rewrite zrange_nth by lia. lia.
Qed.

Lemma SSorted_map_lt : forall (s : list Z) (l : list (list Z)), (forall j, In j l -> inshape j s) ->
  StronglySorted Z.lt (map (rm s) l) -> StronglySorted lexlt l.
Proof.
  induction l; simpl; intros; [constructor|].
  inversion H0; subst. constructor; [apply IHl; auto|].
  apply Forall_forall. intros x Hx. rewrite Forall_forall in H4.
  apply (rm_lt_lex s); auto. apply H4. apply in_map; auto.
Qed.

Lemma zrange_sorted : forall n, StronglySorted Z.lt (zrange n).
Proof.
  intros. unfold zrange. generalize (Z.to_nat n). intros m. generalize 0%nat.
  induction m; intros; simpl; [constructor|]. constructor; auto.
  apply Forall_forall. intros x Hx. apply in_map_iff in Hx. destruct Hx as (y & <- & Hy).
  apply in_seq in Hy. lia.
Qed.

(* Row-major order is the lexicographic order. *)
Lemma indices_sorted : forall s, StronglySorted lexlt (indices s).
Proof.
  intros s. destruct (Forall_Exists_dec (fun n => 0 <= n) (fun n => Z_le_dec 0 n) s) as [H|H].
  - apply (SSorted_map_lt s).
    + intros; apply in_indices; auto.
    + rewrite rm_indices by auto. apply zrange_sorted.
  - assert (indices s = []) as ->; [|constructor].
    clear - H. induction H; simpl.
    + rewrite zrange_nil by lia. reflexivity.
    + rewrite IHExists. apply flat_map_nil.
Qed.

Lemma dotp_app : forall s t i j, length s = length i -> dotp (s++t) (i++j) = dotp s i + dotp t j.
Proof. induction s; destruct i; simpl; intros; try discriminate; [reflexivity|]. rewrite IHs by lia. ring. Qed.

Lemma lexlt_irrefl : forall j, ~ lexlt j j.
Proof. induction j; intros H; inversion H; subst; [lia|auto]. Qed.

Lemma indices_nodup : forall s, NoDup (indices s).
Proof.
  intros s. pose proof (indices_sorted s) as H. induction H; constructor; auto.
  intros Hin. rewrite Forall_forall in H0. apply (lexlt_irrefl a); auto.
Qed.

Lemma nth_map : forall {A B} (f : A -> B) l k d d', (k < length l)%nat -> nth k (map f l) d' = f (nth k l d).
Proof. induction l; simpl; intros; [lia|]. destruct k; auto. apply IHl. lia. Qed.

Lemma lexlt_trans : forall i j k, lexlt i j -> lexlt j k -> lexlt i k.
Proof.
  intros i j k H. revert k. induction H; intros k Hk; inversion Hk; subst.
  - apply lex_hd. lia.
  - apply lex_hd. lia.
  - apply lex_hd. lia.
  - apply lex_tl. auto.
Qed.

Lemma sorted_unique : forall l m, StronglySorted lexlt l -> StronglySorted lexlt m -> (forall j, In j l <-> In j m) -> l = m.
Proof.
  induction l; intros m Hl Hm H.
  - destruct m; auto. exfalso. apply (H l). left; auto.
  - destruct m as [|b m]; [exfalso; apply (H a); left; auto|].
    inversion Hl; subst. inversion Hm; subst. rewrite Forall_forall in *.
    assert (a = b).
    { destruct (proj1 (H a) (or_introl eq_refl)) as [E|E]; [auto|].
      destruct (proj2 (H b) (or_introl eq_refl)) as [E'|E']; [auto|].
      exfalso. apply (lexlt_irrefl a). eapply lexlt_trans; eauto. }
    subst b. f_equal. apply IHl; auto. intros j. split; intros Hj.
    + destruct (proj1 (H j) (or_intror Hj)) as [E|E]; auto. subst. exfalso. apply (lexlt_irrefl j). auto.
    + destruct (proj2 (H j) (or_intror Hj)) as [E|E]; auto. subst. exfalso. apply (lexlt_irrefl j). auto.
Qed.

Lemma row_major_indices : forall s, row_major s (indices s).
Proof. intros. split; [apply indices_sorted|apply in_indices]. Qed.

Lemma row_major_unique : forall s js, row_major s js -> js = indices s.
Proof.
  intros s js (H1 & H2). apply sorted_unique; auto using indices_sorted.
  intros j. rewrite H2, in_indices. tauto.
Qed.
