(* Properties C08-C10, C29-C32, C35, C36: whole-array operations, assignment, selection. *)
From Coq Require Import ZArith List Lia Bool Sorted.
From Coq Require Import ZifyBool ZifyNat.
From Verif Require Import Spec L_Spec Spec_Ply Spec_Expr M_Base M_Expr M_Ply M_Val Spec_Val L_Expr L_Agree L_Ply L_Stl L_Run L_Val.
Import ListNotations.
Open Scope Z_scope.

(* ---- example arrays: a memory and some views on it ---- *)
Definition exm : mem Z := fun p => p * p - 6 * p.
Definition exV (dv : list dim) (cp : Z) : expr (val Z) (mem Z) := Cell dv (length dv) VRef cp.
Definition plus2 : list (val Z) -> M (mem Z) (val Z) := op2 (fun u v => x <- rd u ;; y <- rd v ;; ret (VT (x + y))).
Definition tobz (x : Z) : bool := negb (x =? 0).

(* views and sums of views are read without side effects *)
Lemma cell_refers : forall T dv cp s, @refers T (Cell dv (length dv) VRef cp) s (fun j => cp + place dv (firstn (length dv) j)).
Proof. intros T dv cp s j m H. cbn. rewrite firstn_all. auto. Qed.
Lemma refers_reads : forall T (e : expr (val T) (mem T)) s p m, refers e s p -> reads e s m (fun j => m (p j)).
Proof. intros T e s p m H j Hj. exists (VRef (p j)). split; auto. Qed.
Lemma plus2_reads : forall a b s m x y, reads a s m x -> reads b s m y -> reads (Map plus2 [a; b]) s m (fun j => x j + y j).
Proof.
  intros a b s m x y Ha Hb j Hj. destruct (Ha j Hj) as (v & E1 & E2), (Hb j Hj) as (u & E3 & E4). exists (VT (x j + y j)). split; auto.
  cbn [element map]. rewrite (in_order_2 _ _ _ _ _ v m u m); auto. cbn. unfold bind. rewrite (rd_value _ _ (x j)), (rd_value _ _ (y j)); auto.
Qed.
Lemma reads_true : forall T tob (e : expr (val T) (mem T)) s m x, reads e s m x -> reads_bool tob e s m (fun j => tob (x j)).
Proof. intros T tob e s m x H j Hj. destruct (H j Hj) as (v & E & E2). exists v. split; auto. destruct v; cbn in *; inversion E2; auto. Qed.

(* ---- C08 ---- *)

Theorem C08_any : forall T tob (a : expr (val T) (mem T)) s m x fixed z, wf a -> shape_is a s -> zclean z -> reads_bool tob a s m x ->
  exists b, any fixed z tob a m = Ok b m /\ (b = true <-> exists j, inshape j s /\ x j = true).
Proof.
  intros T tob a s m x fixed z Hw Hs Hz Hr.
  pose proof (row_major_indices s) as Hj.
  exists (value_or (first_some (fun j => if x j then Some true else None) (indices s)) false). split.
  - apply (early1_spec _ fixed z post_b false (any_op tob) [a] s (indices s) m (fun j => [vat a m j])); auto.
    + discriminate.
    + apply joint_shape_1; auto.
    + intros j Hin. destruct (reads_bool_vat _ _ _ _ _ Hr j Hin). apply in_order_1; auto.
    + intros j Hin. destruct (reads_bool_vat _ _ _ _ _ Hr j Hin) as (_ & E). unfold any_op, op1, bind. rewrite (rdb_truth _ _ _ (x j)) by auto.
      eexists. split; [reflexivity|]. reflexivity.
  - destruct (first_some _ _) as [r|] eqn:E.
    + apply (first_some_row _ _ s) in E; auto. destruct E as (j & Hin & E & _). destruct (x j) eqn:Ex; inversion E; subst.
      split; auto. intros _. exists j; auto.
    + pose proof (proj1 (first_some_row_none _ _ s _ Hj) E) as E'. cbn. split; [discriminate|]. intros (j & Hin & Ex). specialize (E' j Hin); cbv beta in E'. rewrite Ex in E'. discriminate.
Qed.

Theorem C08_every : forall T tob (a : expr (val T) (mem T)) s m x fixed z, wf a -> shape_is a s -> zclean z -> reads_bool tob a s m x ->
  exists b, every fixed z tob a m = Ok b m /\ (b = true <-> forall j, inshape j s -> x j = true).
Proof.
  intros T tob a s m x fixed z Hw Hs Hz Hr.
  pose proof (row_major_indices s) as Hj.
  exists (value_or (first_some (fun j => if negb (x j) then Some false else None) (indices s)) true). split.
  - apply (early1_spec _ fixed z post_b true (every_op tob) [a] s (indices s) m (fun j => [vat a m j])); auto.
    + discriminate.
    + apply joint_shape_1; auto.
    + intros j Hin. destruct (reads_bool_vat _ _ _ _ _ Hr j Hin). apply in_order_1; auto.
    + intros j Hin. destruct (reads_bool_vat _ _ _ _ _ Hr j Hin) as (_ & E). unfold every_op, op1, bind. rewrite (rdb_truth _ _ _ (x j)) by auto.
      eexists. split; [reflexivity|]. reflexivity.
  - destruct (first_some _ _) as [r|] eqn:E.
    + apply (first_some_row _ _ s) in E; auto. destruct E as (j & Hin & E & _). destruct (x j) eqn:Ex; inversion E; subst.
      cbn. split; [discriminate|]. intros H. rewrite (H j Hin) in Ex. discriminate.
    + pose proof (proj1 (first_some_row_none _ _ s _ Hj) E) as E'. cbn. split; auto. intros _ j Hin. specialize (E' j Hin); cbv beta in E'. destruct (x j); auto. discriminate.
Qed.
Print Assumptions C08_any.
Print Assumptions C08_every.

Example C08_example : let a := exV [Dim 2 4; Dim 2 3] 0 in
  wf a /\ shape_is a [2; 2] /\ reads_bool tobz a [2; 2] exm (fun j => tobz (exm (place [Dim 2 4; Dim 2 3] (firstn 2 j)))) /\
  any true z_init tobz a exm = Ok true exm /\ every false z_init tobz a exm = Ok false exm /\
  any false z_init tobz (exV [Dim 2 6; Dim 0 1] 0) exm = Ok false exm /\ every true z_init tobz (exV [Dim 2 6; Dim 0 1] 0) exm = Ok true exm.
Proof.
  assert (Hw : wf (exV [Dim 2 4; Dim 2 3] 0)). { unfold exV. wfauto. }
  cbv zeta. split; [exact Hw|]. split; [apply (shape_shape_is _ Hw); reflexivity|]. split.
  - apply reads_true. apply (refers_reads _ _ _ (fun j => 0 + place [Dim 2 4; Dim 2 3] (firstn 2 j))). apply cell_refers.
  - vm_compute. auto.
Qed.

(* ---- C09 ---- *)

Lemma joint_iota : forall T (a : expr (val T) (mem T)) n s, shape_is a (n :: s) -> joint_shape [a; iota0] (n :: s).
Proof.
  intros T a n s (H1 & H2). simpl length in H1. split.
  - cbn. rewrite <- H1. lia.
  - cbn [fold_right axes]. intros k Hk. specialize (H2 k). rewrite <- H1 in H2. simpl in Hk. specialize (H2 ltac:(lia)).
    destruct H2 as (H2 & H3 & H4). split; auto. cbn [flat_map]. rewrite app_nil_r. split.
    + apply in_or_app. auto.
    + apply Forall_app. split; auto. cbn. destruct k; cbn; auto.
Qed.

Theorem C09_index : forall T tob (a : expr (val T) (mem T)) n s m x fixed z, wf a -> shape_is a (n :: s) -> zclean z -> reads_bool tob a (n :: s) m x ->
  exists r, index fixed z tob a m = Ok r m /\
    (r = -1 <-> forall j, inshape j (n :: s) -> x j = false) /\
    (forall j, inshape j (n :: s) -> x j = true -> (forall j', inshape j' (n :: s) -> lexlt j' j -> x j' = false) -> r = nth 0 j 0).
Proof.
  intros T tob a n s m x fixed z Hw Hs Hz Hr. set (s0 := n :: s) in *.
  pose proof (row_major_indices s0) as Hj.
  exists (value_or (first_some (fun j => if x j then Some (nth 0 j 0) else None) (indices s0)) (-1)). split.
  - apply (early1_spec _ fixed z post_i (-1) (index_op tob) [a; iota0] s0 (indices s0) m (fun j => [vat a m j; VI (nth 0 j 0)])); auto.
    + discriminate.
    + constructor; auto. constructor; auto. cbn. split; auto. constructor; auto. right; auto.
    + apply joint_iota; auto.
    + intros j Hin. destruct (reads_bool_vat _ _ _ _ _ Hr j Hin). eapply in_order_2; eauto. cbn. destruct j; [inversion Hin|]. cbn. f_equal. f_equal. destruct z0; cbn; try lia.
    + intros j Hin. destruct (reads_bool_vat _ _ _ _ _ Hr j Hin) as (_ & E). unfold index_op, op2, bind. rewrite (rdb_truth _ _ _ (x j)) by auto.
      eexists. split; [reflexivity|]. reflexivity.
  - destruct (first_some _ _) as [r|] eqn:E.
    + apply (first_some_row _ _ s0) in E; auto. destruct E as (j & Hin & E & Hlt). destruct (x j) eqn:Ex; inversion E; subst. cbn [value_or]. split.
      * split; intros H.
        -- pose proof (inshape_nth _ _ Hin 0%nat ltac:(cbn; lia)). lia.
        -- rewrite H in Ex by auto. discriminate.
      * intros j1 Hin1 Ex1 H1. destruct (Z.lt_trichotomy (rm s0 j) (rm s0 j1)) as [C|[C|C]].
        -- apply rm_lt_lex in C; auto. rewrite H1 in Ex; auto. discriminate.
        -- apply rm_inj in C; auto. subst; auto.
        -- apply rm_lt_lex in C; auto. specialize (Hlt _ Hin1 C); cbv beta in Hlt. rewrite Ex1 in Hlt. discriminate.
    + pose proof (proj1 (first_some_row_none _ _ s0 _ Hj) E) as E'. cbn. split.
      * split; auto. intros _ j Hin. specialize (E' j Hin); cbv beta in E'. destruct (x j); auto. discriminate.
      * intros j Hin Ex _. specialize (E' j Hin); cbv beta in E'. rewrite Ex in E'. discriminate.
Qed.
Print Assumptions C09_index.

Example C09_example : let a := exV [Dim 3 6; Dim 2 1] 0 in wf a /\ shape_is a [3; 2] /\
  index true z_init (fun x => 0 <? x) a exm = Ok 1 exm /\ index false z_init (fun x => 10 <? x) a exm = Ok 2 exm /\ index false z_init (fun x => 1000 <? x) a exm = Ok (-1) exm.
Proof.
  assert (Hw : wf (exV [Dim 3 6; Dim 2 1] 0)). { unfold exV. wfauto. }
  cbv zeta. split; [exact Hw|]. split; [apply (shape_shape_is _ Hw); reflexivity|]. vm_compute. auto.
Qed.

(* ---- C10 ---- *)

Theorem C10_lexical_compare : forall T (eqb ltb : T -> T -> bool) (a b : expr (val T) (mem T)) s m x y fixed z,
  wf a -> wf b -> joint_shape [a; b] s -> zclean z -> reads a s m x -> reads b s m y ->
  exists r, lexical_compare fixed z eqb ltb a b m = Ok r m /\
    (r = true <-> exists j, inshape j s /\ eqb (x j) (y j) = false /\ ltb (x j) (y j) = true /\
                            forall j', inshape j' s -> lexlt j' j -> eqb (x j') (y j') = true).
Proof.
  intros T eqb ltb a b s m x y fixed z Hwa Hwb Hs Hz Hra Hrb.
  pose proof (row_major_indices s) as Hj.
  exists (value_or (first_some (fun j => if eqb (x j) (y j) then None else Some (ltb (x j) (y j))) (indices s)) false). split.
  - apply (early1_spec _ fixed z post_b false (lexcmp_op eqb ltb) [a; b] s (indices s) m (fun j => [vat a m j; vat b m j])); auto.
    + discriminate.
    + intros j Hin. destruct (reads_vat _ _ _ _ Hra j Hin), (reads_vat _ _ _ _ Hrb j Hin). eapply in_order_2; eauto.
    + intros j Hin. destruct (reads_vat _ _ _ _ Hra j Hin) as (_ & E1), (reads_vat _ _ _ _ Hrb j Hin) as (_ & E2). unfold lexcmp_op, op2, bind.
      rewrite (rd_value _ _ (x j)), (rd_value _ _ (y j)) by auto.
      eexists. split; [reflexivity|]. reflexivity.
  - destruct (first_some _ _) as [r|] eqn:E.
    + apply (first_some_row _ _ s) in E; auto. destruct E as (j & Hin & E & Hlt). destruct (eqb (x j) (y j)) eqn:Ex; inversion E; subst. cbn [value_or]. split.
      * intros H. exists j. repeat split; auto. intros j' H1 H2. specialize (Hlt j' H1 H2); cbv beta in Hlt. destruct (eqb (x j') (y j')); auto. discriminate.
      * intros (j1 & Hin1 & E1 & E2 & Hlt1). destruct (Z.lt_trichotomy (rm s j) (rm s j1)) as [C|[C|C]].
        -- apply rm_lt_lex in C; auto. rewrite Hlt1 in Ex; auto. discriminate.
        -- apply rm_inj in C; auto. subst; auto.
        -- apply rm_lt_lex in C; auto. specialize (Hlt _ Hin1 C); cbv beta in Hlt. rewrite E1 in Hlt. discriminate.
    + pose proof (proj1 (first_some_row_none _ _ s _ Hj) E) as E'. cbn. split; [discriminate|]. intros (j & Hin & E1 & _). specialize (E' j Hin); cbv beta in E'. rewrite E1 in E'. discriminate.
Qed.
Print Assumptions C10_lexical_compare.

(* the relation on elements that C10_lexical_compare shows is computed *)
Definition lexless {T} (eqb ltb : T -> T -> bool) (s : list Z) (x y : list Z -> T) : Prop :=
  exists j, inshape j s /\ eqb (x j) (y j) = false /\ ltb (x j) (y j) = true /\ forall j', inshape j' s -> lexlt j' j -> eqb (x j') (y j') = true.

Lemma first_diff : forall T (eqb : T -> T -> bool) s (x y : list Z -> T),
  (forall j, inshape j s -> eqb (x j) (y j) = true) \/
  exists j, inshape j s /\ eqb (x j) (y j) = false /\ forall j', inshape j' s -> lexlt j' j -> eqb (x j') (y j') = true.
Proof.
  intros. pose proof (row_major_indices s) as Hj.
  destruct (first_some (fun j => if eqb (x j) (y j) then None else Some tt) (indices s)) as [[]|] eqn:E.
  - right. apply (first_some_row _ _ s) in E; auto. destruct E as (j & Hin & E & Hlt). exists j. split; auto. split.
    + destruct (eqb (x j) (y j)); auto. discriminate.
    + intros j' H1 H2. specialize (Hlt j' H1 H2); cbv beta in Hlt. destruct (eqb (x j') (y j')); auto. discriminate.
  - left. pose proof (proj1 (first_some_row_none _ _ s _ Hj) E) as E'. intros j Hin. specialize (E' j Hin); cbv beta in E'. destruct (eqb (x j) (y j)); auto. discriminate.
Qed.

Theorem C10_strict_order : forall T (eqb ltb : T -> T -> bool) s, (forall a b, eqb a b = true <-> a = b) -> total_order ltb ->
  (forall x, ~ lexless eqb ltb s x x) /\
  (forall x y z, lexless eqb ltb s x y -> lexless eqb ltb s y z -> lexless eqb ltb s x z) /\
  (forall x y, lexless eqb ltb s x y \/ lexless eqb ltb s y x \/ forall j, inshape j s -> x j = y j).
Proof.
  intros T eqb ltb s He (Hir & Htr & Hto).
  assert (Hn : forall a b, eqb a b = false <-> a <> b). { intros. rewrite <- He. destruct (eqb a b); split; intros; auto; try discriminate; exfalso; auto. }
  repeat split.
  - intros x (j & _ & _ & H & _). rewrite Hir in H. discriminate.
  - intros x y z (j & Hj & E1 & L1 & P1) (k & Hk & E2 & L2 & P2). destruct (Z.lt_trichotomy (rm s j) (rm s k)) as [C|[C|C]].
    + apply rm_lt_lex in C; auto. exists j. pose proof (proj1 (He _ _) (P2 j Hj C)) as E. rewrite <- E. repeat split; auto.
      intros j' H1 H2. apply He. pose proof (proj1 (He _ _) (P1 j' H1 H2)) as Ea. pose proof (proj1 (He _ _) (P2 j' H1 (lexlt_trans _ _ _ H2 C))) as Eb. congruence.
    + apply rm_inj in C; auto. subst k. exists j. split; auto. split; [|split].
      * apply Hn. intros E. pose proof (Htr _ _ _ L1 L2) as F. rewrite E, Hir in F. discriminate.
      * eapply Htr; eauto.
      * intros j' H1 H2. apply He. pose proof (proj1 (He _ _) (P1 j' H1 H2)) as Ea. pose proof (proj1 (He _ _) (P2 j' H1 H2)) as Eb. congruence.
    + apply rm_lt_lex in C; auto. exists k. pose proof (proj1 (He _ _) (P1 k Hk C)) as E. rewrite E. repeat split; auto.
      intros j' H1 H2. apply He. pose proof (proj1 (He _ _) (P1 j' H1 (lexlt_trans _ _ _ H2 C))) as Ea. pose proof (proj1 (He _ _) (P2 j' H1 H2)) as Eb. congruence.
  - intros x y. destruct (first_diff _ eqb s x y) as [H|(j & Hj & E & P)].
    + right; right. intros. apply He. auto.
    + destruct (ltb (x j) (y j)) eqn:L1; [left; exists j; auto|]. destruct (ltb (y j) (x j)) eqn:L2.
      * right; left. exists j. repeat split; auto.
        -- apply Hn. apply Hn in E. congruence.
        -- intros j' H1 H2. apply He. symmetry. apply He. auto.
      * exfalso. apply Hn in E. auto.
Qed.
Print Assumptions C10_strict_order.

Example C10_example : let a := exV [Dim 2 6; Dim 2 1] 0 in let b := exV [Dim 2 6; Dim 2 2] 0 in wf a /\ wf b /\ joint_shape [a; b] [2; 2] /\
  lexical_compare true z_init Z.eqb Z.ltb a b exm = Ok false exm /\ lexical_compare false z_init Z.eqb Z.ltb b a exm = Ok true exm.
Proof.
  cbv zeta. split; [unfold exV; wfauto|]. split; [unfold exV; wfauto|]. split.
  - split; [reflexivity|]. intros [|[|k]] Hk; cbn in *; try lia; (split; [lia|]); split; auto.
  - vm_compute. auto.
Qed.

(* ---- C31 ---- *)

Lemma place_zeros : forall dv n, place dv (repeat 0 n) = 0.
Proof. induction dv as [|d dv IH]; intros [|n]; cbn [repeat place]; auto. rewrite IH. lia. Qed.
Lemma firstn_zeros : forall k n, firstn k (repeat 0 n) = repeat 0 (Nat.min k n).
Proof. induction k; intros [|n]; cbn; auto. rewrite IHk. auto. Qed.
Lemma deref_zero : forall X W (e : expr X W) n w, deref e w = element e (repeat 0 n) w.
Proof.
  intros X W e. induction e as [c|dv fr val cp|e di IH|op t IH|sel t IH] using expr_ind2; intros n w; cbn [deref element].
  - reflexivity.
  - rewrite firstn_zeros, place_zeros, Z.add_0_r. reflexivity.
  - rewrite (IH (length di)). f_equal. clear. induction di as [|d di IHd]; [reflexivity|]. cbn [length repeat map]. rewrite nth_repeat, IHd. reflexivity.
  - rewrite in_order_seqM. unfold bind. rewrite (seqM_ext _ (map (fun a => element a (repeat 0 n)) t)); [reflexivity|].
    apply Forall2_map_map. intros a Ha. rewrite Forall_forall in IH. auto.
  - assert (Hall : Forall2 (fun a b => forall w, a w = b w) (map deref t) (map (fun a => element a (repeat 0 n)) t)).
    { apply Forall2_map_map. intros a Ha. rewrite Forall_forall in IH. auto. }
    inversion Hall; subst; [reflexivity|]. unfold bind. rewrite H1. destruct (y w); auto. rewrite (pick_from_ext _ _ H2). apply pick_from_nth.
Qed.
Lemma zeros_inshape : forall s, Forall (fun n => 0 <= n) s -> ~ In 0 s -> inshape (repeat 0 (length s)) s.
Proof. induction 1 as [|n s Hn Hs IH]; intros H; cbn [length repeat]; constructor; [cbn in H; lia|]. apply IH. intros G. apply H. right; auto. Qed.
Lemma inshape_pos : forall j s, inshape j s -> ~ In 0 s.
Proof. induction 1 as [|i n j s Hi _ IH]; cbn; [auto|]. intros [->|G]; [lia|auto]. Qed.
Lemma shape_nonneg : forall X W (e : expr X W) s, shape_is e s -> Forall (fun n => 0 <= n) s.
Proof. intros X W e s (H1 & H2). apply Forall_forall. intros n Hn. apply (In_nth _ _ 0) in Hn as (k & Hk & <-). apply H2. lia. Qed.
Lemma deref_reads : forall T (a : expr (val T) (mem T)) s m x, shape_is a s -> reads a s m x -> (exists j, inshape j s) -> exists v, deref a m = Ok v m.
Proof.
  intros T a s m x Hs Hr (j & Hj). rewrite (deref_zero _ _ a (length s)). destruct (Hr (repeat 0 (length s))) as (v & E & _); [|eauto].
  apply zeros_inshape; [apply (shape_nonneg _ _ a); auto|apply (inshape_pos j); auto].
Qed.

(* Arguments with elements. The argument may do anything on indices out of its shape. *)
Theorem C31_sum_partial : forall T add (zero : T) (a : expr (val T) (mem T)) s js m x fixed z, wf a -> shape_is a s -> row_major s js -> zclean z -> reads a s m x -> (exists j, inshape j s) ->
  sum fixed z add zero a m = Ok (fold_left add (map x js) zero) m.
Proof. intros. unfold sum, bind. destruct (deref_reads T a s m x) as (v & ->); auto. apply (reduce1_spec T fixed z (fun x c => add c x) a s js m x); auto. Qed.

Theorem C31_prod_partial : forall T mul (one : T) (a : expr (val T) (mem T)) s js m x fixed z, wf a -> shape_is a s -> row_major s js -> zclean z -> reads a s m x -> (exists j, inshape j s) ->
  prod fixed z mul one a m = Ok (fold_left mul (map x js) one) m.
Proof. intros. unfold prod, bind. destruct (deref_reads T a s m x) as (v & ->); auto. apply (reduce1_spec T fixed z (fun x c => mul c x) a s js m x); auto. Qed.

Theorem C31_reduce_sqrm : forall T add sqrm (zero : T) (a : expr (val T) (mem T)) s js m x fixed z, wf a -> shape_is a s -> row_major s js -> zclean z -> reads a s m x ->
  reduce_sqrm fixed z add sqrm zero a m = Ok (fold_left add (map (fun j => sqrm (x j)) js) zero) m.
Proof.
  intros. rewrite <- fold_left_map. unfold reduce_sqrm.
  rewrite (reduce1_spec T fixed z (fun x c => add c (sqrm x)) a s js m x) by auto. rewrite <- fold_left_map. auto.
Qed.

Theorem C31_dot : forall T add mul (zero : T) (a b : expr (val T) (mem T)) s js m x y fixed z, wf a -> wf b -> joint_shape [a; b] s -> row_major s js -> zclean z ->
  reads a s m x -> reads b s m y ->
  dot fixed z add mul zero a b m = Ok (fold_left add (map (fun j => mul (x j) (y j)) js) zero) m.
Proof.
  intros. unfold dot. rewrite (reduce2_spec T fixed z (fun x y c => add c (mul x y)) a b s js m x y) by auto. rewrite <- fold_left_map. auto.
Qed.

Theorem C31_cdot : forall T add mul conj (zero : T) (a b : expr (val T) (mem T)) s js m x y fixed z, wf a -> wf b -> joint_shape [a; b] s -> row_major s js -> zclean z ->
  reads a s m x -> reads b s m y ->
  cdot fixed z add mul conj zero a b m = Ok (fold_left add (map (fun j => mul (conj (x j)) (y j)) js) zero) m.
Proof.
  intros. unfold cdot. rewrite (reduce2_spec T fixed z (fun x y c => add c (mul (conj x) y)) a b s js m x y) by auto. rewrite <- fold_left_map. auto.
Qed.

(* On an argument without elements: the neutral element, if the element at 0 ... 0, which isn't there, can be evaluated. In particular if the argument is a view, as
   then it is only a reference. *)
Theorem C31_empty_partial : forall T add mul (zero one : T) (a : expr (val T) (mem T)) s m fixed z v, wf a -> shape_is a s -> zclean z -> In 0 s -> element a (repeat 0 (length s)) m = Ok v m ->
  sum fixed z add zero a m = Ok zero m /\ prod fixed z mul one a m = Ok one m.
Proof.
  intros T add mul zero one a s m fixed z v Hw Hs Hz H0 Hv. pose proof (row_major_indices s) as Hj.
  assert (Hr : reads a s m (fun _ => zero)) by (intros j Hin; destruct (inshape_pos _ _ Hin H0)).
  assert (E : indices s = []) by (apply indices_zero; auto).
  unfold sum, prod, bind. rewrite (deref_zero _ _ a (length s)), Hv. 
  rewrite (reduce1_spec T fixed z (fun x c => add c x) a s (indices s) m (fun _ => zero)) by auto. rewrite (reduce1_spec T fixed z (fun x c => mul c x) a s (indices s) m (fun _ => zero)) by auto.
  rewrite E. auto.
Qed.
Theorem C31_view : forall T add mul (zero one : T) dv cp s js m fixed z, let a := Cell dv (length dv) VRef cp in wf a -> shape_is a s -> row_major s js -> zclean z ->
  sum fixed z add zero a m = Ok (fold_left add (map (fun j => m (cp + place dv j)) js) zero) m /\ prod fixed z mul one a m = Ok (fold_left mul (map (fun j => m (cp + place dv j)) js) one) m.
Proof.
  intros T add mul zero one dv cp s js m fixed z a Hw Hs Hj Hz.
  assert (Hr : reads a s m (fun j => m (cp + place dv (firstn (length dv) j)))) by (apply (refers_reads _ _ _ (fun j => cp + place dv (firstn (length dv) j))); apply cell_refers).
  unfold sum, prod, bind. cbn [a deref ret]. fold a.
  rewrite (reduce1_spec T fixed z (fun x c => add c x) a s js m _ Hw Hs Hj Hz Hr), (reduce1_spec T fixed z (fun x c => mul c x) a s js m _ Hw Hs Hj Hz Hr).
  assert (E : map (fun j => m (cp + place dv (firstn (length dv) j))) js = map (fun j => m (cp + place dv j)) js).
  { apply map_ext_in. intros j Hin. do 2 f_equal. f_equal. apply firstn_all2. apply Hj in Hin. rewrite (inshape_length _ _ Hin). destruct Hs as (L & _). rewrite L. cbn. lia. }
  rewrite E. auto.
Qed.
(* It can't in general: an operation on an array without elements (so, at 0, out of it) *)
Definition in_array (n : Z) : expr (val Z) (mem Z) := Map (fun xs => match xs with [VI k] => if (0 <=? k) && (k <? n) then ret (VT k) else undef | _ => undef end) [Cell [Dim n 1] 1 VI 0].
Theorem C31_empty_refuted : exists a s x, wf a /\ shape_is a s /\ (forall m : mem Z, reads a s m x) /\ In 0 s /\ forall m fixed, sum fixed z_init Z.add 0 a m = Undef /\ prod fixed z_init Z.mul 1 a m = Undef.
Proof.
  exists (in_array 0), [0], (fun _ => 0).
  assert (W : wf (in_array 0)) by (cbn; split; [discriminate|]; repeat split; auto; repeat constructor; unfold oklen; cbn; lia).
  split; [exact W|]. split; [apply (shape_shape_is _ W); reflexivity|]. split; [intros m j Hj; inversion Hj; lia|]. split; [left; auto|]. intros m fixed. split; reflexivity.
Qed.

(* ---- C81 ---- *)

Lemma visit_accumulate : forall T (a : expr (val T) (mem T)) (f : T -> T -> T) js c m,
  visit no_stop (element (Map (op1 (fun v => x <- rdl v ;; update (fun c => f c x))) (map lift [a]))) js (m, c) =
  match accumulate (element a) f js c m with Ok c' m' => Ok None (m', c') | Fail m' => match visit no_stop (element (Map (op1 (fun v => x <- rdl v ;; update (fun c => f c x))) (map lift [a]))) js (m, c) with Fail s => Fail s | r => r end | Undef => Undef end
  /\ (forall m', accumulate (element a) f js c m = Fail m' -> exists c', visit no_stop (element (Map (op1 (fun v => x <- rdl v ;; update (fun c => f c x))) (map lift [a]))) js (m, c) = Fail (m', c')).
Proof.
  intros T a f. induction js as [|j js IH]; intros c m; [split; [reflexivity|discriminate]|].
  cbn [visit accumulate]. 
  assert (E : element (Map (op1 (fun v => x <- rdl v ;; update (fun c => f c x))) (map lift [a])) j (m, c) =
    match element a j m with Ok v m1 => match value_of v m1 with Some x => Ok VUnit (m1, f c x) | None => Undef end | Fail m1 => Fail (m1, c) | Undef => Undef end).
  { cbn [element map in_order]. rewrite lift_element. unfold lift_op. cbn [fst snd]. destruct (element a j m) as [v m1|m1|]; auto.
    unfold op1, bind, rdl, lift_op, update. cbn [fst snd]. destruct v; reflexivity. }
  rewrite E. destruct (element a j m) as [v m1|m1|].
  - destruct (value_of v m1) as [x|]; [|split; [reflexivity|discriminate]]. cbn [no_stop]. apply IH.
  - split; [reflexivity|]. intros m' H. inversion H. eauto.
  - split; [reflexivity|discriminate].
Qed.
Lemma for_each_accumulate : forall T fixed z (f : T -> T -> T) (a : expr (val T) (mem T)) s js, wf a -> shape_is a s -> row_major s js -> zclean z ->
  forall c m, for_each_c fixed z (op1 (fun v => x <- rdl v ;; update (fun c => f c x))) [a] c m = accumulate (element a) f js c m.
Proof.
  intros T fixed z f a s js Hw Hs Hj Hz c m. unfold for_each_c. rewrite (ply_spec _ _ _ no_stop fixed z _ s js); auto.
  - destruct (visit_accumulate T a f js c m) as (E & F). destruct (accumulate (element a) f js c m) as [c' m'|m'|]; [rewrite E; reflexivity| |rewrite E; reflexivity].
    destruct (F m' eq_refl) as (c' & ->). reflexivity.
  - apply wf_map; [discriminate|]. repeat constructor. apply lift_wf. auto.
  - apply joint_shape_map. apply lift_joint. apply joint_shape_1. auto.
Qed.

(* With any side effects in the elements: after the first element is evaluated, each is evaluated once, in order. *)
Theorem C81_partial : forall T f (c : T) (a : expr (val T) (mem T)) s js m fixed z, wf a -> shape_is a s -> row_major s js -> zclean z ->
  let r := match element a (repeat 0 (length s)) m with Ok _ m1 => accumulate (element a) f js c m1 | Fail m1 => Fail m1 | Undef => Undef end in
  sum fixed z f c a m = r /\ prod fixed z f c a m = r.
Proof.
  intros T f c a s js m fixed z Hw Hs Hj Hz r. subst r. unfold sum, prod, bind. rewrite (deref_zero _ _ a (length s)).
  destruct (element a (repeat 0 (length s)) m); auto. rewrite (for_each_accumulate T fixed z f a s js) by auto. auto.
Qed.
(* Each once is false: this one counts in place 9 *)
Definition counting : expr (val Z) (mem Z) := Map (op1 (fun v m => match v with VRef p => Ok (VT (m p)) (wr 9 (m 9 + 1) m) | _ => Undef end)) [Cell [Dim 3 1] 1 VRef 0].
Theorem C81_refuted : exists (a : expr (val Z) (mem Z)) s js, wf a /\ shape_is a s /\ row_major s js /\ forall m fixed, exists r m1 m2,
  accumulate (element a) Z.add js 0 m = Ok r m1 /\ sum fixed z_init Z.add 0 a m = Ok r m2 /\ m1 9 = m 9 + 3 /\ m2 9 = m 9 + 4.
Proof.
  assert (W : wf counting) by (cbn; split; [discriminate|]; repeat split; auto; repeat constructor; unfold oklen; cbn; lia).
  assert (S : shape_is counting [3]) by (apply (shape_shape_is _ W); reflexivity).
  exists counting, [3], (indices [3]). split; [exact W|]. split; [exact S|]. split; [apply row_major_indices|]. intros m fixed.
  destruct (C81_partial Z Z.add 0 counting [3] (indices [3]) m fixed z_init W S (row_major_indices [3]) z_init_clean) as (-> & _).
  cbn. unfold wr. cbn. do 3 eexists. split; [reflexivity|]. split; [reflexivity|]. cbn. lia.
Qed.
Example C81_ex : exists m2, sum true z_init Z.add 0 counting exm = Ok (exm 0 + exm 1 + exm 2) m2 /\ m2 9 = exm 9 + 4.
Proof. eexists. split; [reflexivity|]. reflexivity. Qed.
Print Assumptions C81_partial.
Print Assumptions C81_refuted.
Print Assumptions C31_sum_partial.
Print Assumptions C31_prod_partial.
Print Assumptions C31_view.
Print Assumptions C31_empty_refuted.
Print Assumptions C31_dot.
Print Assumptions C31_cdot.
Print Assumptions C31_reduce_sqrm.
Print Assumptions C31_empty_partial.

Example C31_example : let a := exV [Dim 2 4; Dim 3 1] 10 in let b := exV [Dim 2 (-1)] 10 in wf a /\ shape_is a [2; 3] /\ reads a [2; 3] exm (fun j => exm (10 + place [Dim 2 4; Dim 3 1] (firstn 2 j))) /\
  sum false z_init Z.add 0 a exm = Ok (exm 10 + exm 11 + exm 12 + exm 14 + exm 15 + exm 16) exm /\
  dot true z_init Z.add Z.mul 0 a b exm = Ok (exm 10 * (exm 10 + exm 11 + exm 12) + exm 9 * (exm 14 + exm 15 + exm 16)) exm.
Proof.
  assert (Hw : wf (exV [Dim 2 4; Dim 3 1] 10)). { unfold exV. wfauto. }
  cbv zeta. split; [exact Hw|]. split; [apply (shape_shape_is _ Hw); reflexivity|]. split.
  - apply (refers_reads _ _ _ (fun j => 10 + place [Dim 2 4; Dim 3 1] (firstn 2 j))). apply cell_refers.
  - vm_compute. auto.
Qed.

(* ---- C32 ---- *)

(* running extreme: 'better x c' replaces c by x *)
Lemma fold_best : forall T (better : T -> T -> bool), total_order better ->
  forall l c, let r := fold_left (fun c x => if better x c then x else c) l c in
    (r = c \/ In r l) /\ better c r = false /\ forall x, In x l -> better x r = false.
Proof.
  intros T better (Hir & Htr & Hto).
  assert (Hng : forall a b c, better a b = false -> better b c = false -> better a c = false).
  { intros a b c H1 H2. destruct (better a c) eqn:E; auto. destruct (better b a) eqn:E1.
    - rewrite (Htr _ _ _ E1 E) in H2. discriminate.
    - rewrite (Hto _ _ H1 E1) in E. congruence. }
  induction l; intros c; cbn.
  - repeat split; auto. intros x [].
  - destruct (IHl (if better a c then a else c)) as (H1 & H2 & H3). cbv zeta in *.
    set (r := fold_left _ l _) in *. destruct (better a c) eqn:E.
    + split; [destruct H1 as [->|H1]; auto|]. split.
      * apply (Hng c a r); auto. destruct (better c a) eqn:E1; auto. pose proof (Htr _ _ _ E E1) as F. rewrite Hir in F. discriminate.
      * intros x [<-|Hx]; auto.
    + split; [destruct H1 as [->|H1]; auto|]. split; auto. intros x [<-|Hx]; auto. apply (Hng a c r); auto.
Qed.

(* the value that amin starts from may be any that isn't less than an element *)
Theorem C32_amin : forall T ltb top (a : expr (val T) (mem T)) s m x fixed z, total_order ltb -> (forall j, inshape j s -> ltb top (x j) = false) ->
  wf a -> shape_is a s -> zclean z -> reads a s m x ->
  exists c, amin fixed z ltb top a m = Ok c m /\ (forall j, inshape j s -> ltb (x j) c = false) /\
    ((exists j, inshape j s) -> exists j, inshape j s /\ c = x j) /\ (~ (exists j, inshape j s) -> c = top).
Proof.
  intros T ltb top a s m x fixed z Ho Ht Hw Hs Hz Hr. pose proof (row_major_indices s) as Hj.
  exists (fold_left (fun c x => if ltb x c then x else c) (map x (indices s)) top).
  destruct (fold_best T ltb Ho (map x (indices s)) top) as (H1 & H2 & H3). cbv zeta in *. set (r := fold_left _ _ _) in *.
  split; [|split; [|split]].
  - apply (reduce1_spec T fixed z (fun x c => if ltb x c then x else c) a s (indices s) m x); auto.
  - intros j Hin. apply H3. apply in_map. apply in_indices. auto.
  - intros (j0 & Hj0). destruct H1 as [E|H1].
    + exists j0. split; auto. destruct Ho as (_ & _ & Hto). apply Hto; [rewrite E; auto|]. apply H3. apply in_map. apply in_indices. auto.
    + apply in_map_iff in H1. destruct H1 as (j & E & Hin). exists j. split; auto. apply in_indices. auto.
  - intros Hn. destruct H1; auto. apply in_map_iff in H. destruct H as (j & _ & Hin). exfalso. apply Hn. exists j. apply in_indices. auto.
Qed.

Theorem C32_amax : forall T ltb bot (a : expr (val T) (mem T)) s m x fixed z, total_order ltb -> (forall j, inshape j s -> ltb (x j) bot = false) ->
  wf a -> shape_is a s -> zclean z -> reads a s m x ->
  exists c, amax fixed z ltb bot a m = Ok c m /\ (forall j, inshape j s -> ltb c (x j) = false) /\
    ((exists j, inshape j s) -> exists j, inshape j s /\ c = x j) /\ (~ (exists j, inshape j s) -> c = bot).
Proof.
  intros T ltb bot a s m x fixed z Ho Ht Hw Hs Hz Hr. pose proof (row_major_indices s) as Hj.
  assert (Ho' : total_order (fun a b => ltb b a)).
  { destruct Ho as (A & B & C). repeat split; auto. intros; eauto. }
  exists (fold_left (fun c x => if ltb c x then x else c) (map x (indices s)) bot).
  destruct (fold_best T (fun a b => ltb b a) Ho' (map x (indices s)) bot) as (H1 & H2 & H3). cbv zeta in *. set (r := fold_left _ _ _) in *.
  split; [|split; [|split]].
  - apply (reduce1_spec T fixed z (fun x c => if ltb c x then x else c) a s (indices s) m x); auto.
  - intros j Hin. apply H3. apply in_map. apply in_indices. auto.
  - intros (j0 & Hj0). destruct H1 as [E|H1].
    + exists j0. split; auto. destruct Ho as (_ & _ & Hto). apply Hto; [|rewrite E; auto]. apply H3. apply in_map. apply in_indices. auto.
    + apply in_map_iff in H1. destruct H1 as (j & E & Hin). exists j. split; auto. apply in_indices. auto.
  - intros Hn. destruct H1; auto. apply in_map_iff in H. destruct H as (j & _ & Hin). exfalso. apply Hn. exists j. apply in_indices. auto.
Qed.

Lemma dimv_size_pos : forall dv, 0 < dimv_size dv <-> Forall (fun d => 0 < len d) dv.
Proof.
  intros dv. unfold dimv_size.
  assert (H : forall dv s, 0 <= s -> (0 < dimv_size_loop dv s <-> 0 < s /\ Forall (fun d => 0 < len d) dv)).
  { clear dv. induction dv; intros s Hs; cbn.
    - split; [intros; split; auto|tauto].
    - destruct (Z.ltb_spec (len a) 0).
      + split; [lia|]. intros (_ & F). inversion F; subst. lia.
      + rewrite IHdv by nia. split.
        * intros (A & B). split; [nia|]. constructor; auto. nia.
        * intros (A & B). inversion B; subst. split; auto. nia. }
  rewrite H by lia. split; [tauto|]. split; auto. lia.
Qed.

Lemma cell_shape : forall X W dv val cp, Forall (fun d => 0 <= len d) dv -> shape_is (Cell dv (length dv) val cp : expr X W) (map len dv).
Proof.
  intros X W dv val cp H. split; [apply map_length|]. cbn [axes leaf_lens]. intros k Hk.
  destruct (Nat.ltb_spec k (length dv)); [|lia]. replace 0 with (len dim0) by reflexivity. rewrite map_nth. rewrite Forall_forall in H.
  split; [apply H; apply nth_In; auto|]. split; [left; auto|]. constructor; auto.
Qed.

Lemma first_pos : forall dv, Forall (fun d => 0 < len d) dv -> exists l, indices (map len dv) = repeat 0 (length dv) :: l.
Proof.
  induction 1; cbn.
  - exists []. auto.
  - destruct IHForall as (l0 & ->). unfold zrange. replace (Z.to_nat (len x)) with (S (pred (Z.to_nat (len x)))) by lia. cbn [seq map flat_map].
    eexists. cbn. reflexivity.
Qed.

Lemma place_zero : forall dv n, place dv (repeat 0 n) = 0.
Proof. induction dv; intros; cbn; auto. destruct n; cbn; auto. Qed.

(* the fold of the places: the first best one *)
Lemma fold_refbest : forall (better : Z -> Z -> bool),
  (forall a, better a a = false) -> (forall a b c, better a b = true -> better b c = true -> better a c = true) ->
  (forall a b c, better a b = false -> better b c = false -> better a c = false) ->
  forall (pl : list Z -> Z) l j0, let r := fold_left (fun c j => if better (pl j) c then pl j else c) l (pl j0) in
  exists l1 j l2, j0 :: l = l1 ++ j :: l2 /\ r = pl j /\ (forall i, In i (j0 :: l) -> better (pl i) r = false) /\ (forall i, In i l1 -> better r (pl i) = true).
Proof.
  intros better Hir Htr Hng pl l j0. cbv zeta.
  assert (Hmix : forall a b c, better a b = false -> better c b = true -> better c a = true).
  { intros a b c H1 H2. destruct (better c a) eqn:E; auto. rewrite (Hng _ _ _ E H1) in H2. discriminate. }
  assert (G : forall l l0 j0 lm, (forall i, In i (l0 ++ j0 :: lm) -> better (pl i) (pl j0) = false) -> (forall i, In i l0 -> better (pl j0) (pl i) = true) ->
    let r := fold_left (fun c j => if better (pl j) c then pl j else c) l (pl j0) in
    exists l1 j l2, l0 ++ j0 :: lm ++ l = l1 ++ j :: l2 /\ r = pl j /\ (forall i, In i (l0 ++ j0 :: lm ++ l) -> better (pl i) r = false) /\ (forall i, In i l1 -> better r (pl i) = true)).
  { clear l j0. induction l as [|a l IH]; intros l0 j0 lm H1 H2; cbv zeta.
    - exists l0, j0, lm. rewrite app_nil_r. cbn. auto.
    - cbn [fold_left]. destruct (better (pl a) (pl j0)) eqn:E.
      + destruct (IH (l0 ++ j0 :: lm) a []) as (l1 & j & l2 & A & B & C & D).
        * intros i Hi. apply in_app_or in Hi. destruct Hi as [Hi|[<-|[]]]; auto.
          destruct (better (pl i) (pl a)) eqn:E1; auto. pose proof (Htr _ _ _ E1 E) as F. rewrite H1 in F by auto. discriminate.
        * intros i Hi. apply (Hmix (pl i) (pl j0)); auto.
        * rewrite <- app_assoc in A, C. cbn in A, C. exists l1, j, l2. auto.
      + destruct (IH l0 j0 (lm ++ [a])) as (l1 & j & l2 & A & B & C & D).
        * intros i Hi. apply in_app_or in Hi. destruct Hi as [Hi|[<-|Hi]]; auto.
          -- apply H1. apply in_or_app; auto.
          -- apply in_app_or in Hi. destruct Hi as [Hi|[<-|[]]]; auto. apply H1. apply in_or_app. right; right; auto.
        * auto.
        * rewrite <- app_assoc in A, C. exists l1, j, l2. auto. }
  apply (G l [] j0 []).
  - intros i [<-|[]]. auto.
  - intros i [].
Qed.

Lemma ref_spec : forall T (better : mem T -> Z -> Z -> bool) fixed z dv cp m, Forall (fun d => 0 < len d) dv -> zclean z ->
  for_each_c fixed z (op1 (fun v => match v with VRef q => fun s => Ok VUnit (fst s, if better (fst s) q (snd s) then q else snd s) | _ => undef end))
    [Cell dv (length dv) (@VRef T) cp] cp m
  = Ok (fold_left (fun c j => if better m (cp + place dv j) c then cp + place dv j else c) (indices (map len dv)) cp) m.
Proof.
  intros T better fixed z dv cp m Hp Hz.
  apply (for_each_c_spec (mem T) Z T fixed z _ [Cell dv (length dv) VRef cp] (map len dv) (indices (map len dv)) m (fun j => [VRef (cp + place dv j)])
    (fun j c => if better m (cp + place dv j) c then cp + place dv j else c)); auto.
  - discriminate.
  - constructor; auto. cbn. split; auto. rewrite firstn_all. eapply Forall_impl; [|exact Hp]. intros; left; cbn in *; lia.
  - apply joint_shape_1. apply cell_shape. eapply Forall_impl; [|exact Hp]. cbn; intros; lia.
  - apply row_major_indices.
  - intros j Hj. apply in_order_1. cbn. rewrite firstn_all. rewrite firstn_all2; auto. apply inshape_length in Hj. rewrite map_length in Hj. lia.
  - intros j c Hj. exists VUnit. reflexivity.
Qed.

Theorem C32_refmin : forall T less dv cp (m : mem T) fixed z, weak_order less -> zclean z ->
  (Forall (fun d => 0 < len d) dv ->
   exists j, inshape j (map len dv) /\ refmin fixed z less dv cp m = Ok (cp + place dv j) m /\
     (forall i, inshape i (map len dv) -> less (m (cp + place dv i)) (m (cp + place dv j)) = false) /\
     (forall i, inshape i (map len dv) -> lexlt i j -> less (m (cp + place dv j)) (m (cp + place dv i)) = true)) /\
  (~ Forall (fun d => 0 < len d) dv -> refmin fixed z less dv cp m = Fail m).
Proof.
  intros T less dv cp m fixed z (Hir & Htr & Hng) Hz. unfold refmin. split; intros Hp.
  - replace (0 <? dimv_size dv) with true by (symmetry; apply Z.ltb_lt; apply dimv_size_pos; auto).
    unfold refmin_op. rewrite (ref_spec T (fun m q p => less (m q) (m p))) by auto.
    destruct (first_pos dv Hp) as (l & El).
    destruct (fold_refbest (fun q p => less (m q) (m p)) ltac:(cbn; auto) ltac:(cbn; eauto) ltac:(cbn; eauto) (fun j => cp + place dv j) (indices (map len dv)) (repeat 0 (length dv)))
      as (l1 & j & l2 & A & B & C & D).
    cbv zeta in *. rewrite place_zero, Z.add_0_r in *. set (r := fold_left _ _ cp) in *.
    (* the first index is there twice: drop one of them *)
    assert (Hsub : forall i, inshape i (map len dv) -> In i (repeat 0 (length dv) :: indices (map len dv))) by (intros; right; apply in_indices; auto).
    destruct l1 as [|b l1].
    + inversion A; subst j. exists (repeat 0 (length dv)). rewrite place_zero, Z.add_0_r in *.
      assert (Hin : inshape (repeat 0 (length dv)) (map len dv)) by (apply in_indices; rewrite El; left; auto).
      split; auto. split; [rewrite B; auto|]. split.
      * intros i Hi. specialize (C i (Hsub i Hi)). rewrite B in C. exact C.
      * intros i Hi Hlt. exfalso. pose proof (row_major_split _ _ [] _ l (row_major_indices (map len dv)) El) as (_ & G). apply (G i). auto.
    + cbn [app] in A. injection A as Ab A. exists j. pose proof (row_major_split _ _ _ _ _ (row_major_indices (map len dv)) A) as (G1 & G2).
      split; auto. split; [rewrite B; auto|]. rewrite <- B. split.
      * intros i Hi. apply C. auto.
      * intros i Hi Hlt. apply D. right. apply G2; auto.
  - destruct (Z.ltb_spec 0 (dimv_size dv)); auto. exfalso. apply Hp. apply dimv_size_pos; auto.
Qed.

Theorem C32_refmax : forall T less dv cp (m : mem T) fixed z, weak_order less -> zclean z ->
  (Forall (fun d => 0 < len d) dv ->
   exists j, inshape j (map len dv) /\ refmax fixed z less dv cp m = Ok (cp + place dv j) m /\
     (forall i, inshape i (map len dv) -> less (m (cp + place dv j)) (m (cp + place dv i)) = false) /\
     (forall i, inshape i (map len dv) -> lexlt i j -> less (m (cp + place dv i)) (m (cp + place dv j)) = true)) /\
  (~ Forall (fun d => 0 < len d) dv -> refmax fixed z less dv cp m = Fail m).
Proof.
  intros T less dv cp m fixed z (Hir & Htr & Hng) Hz. destruct (C32_refmin T (fun a b => less b a) dv cp m fixed z) as (H1 & H2); auto.
  repeat split; cbn; eauto.
Qed.
Print Assumptions C32_amin.
Print Assumptions C32_amax.
Print Assumptions C32_refmin.
Print Assumptions C32_refmax.

Lemma z_total : total_order Z.ltb.
Proof. repeat split; intros; lia. Qed.
Example C32_example : amin true z_init (fun a b => if b =? 1000000 then negb (a =? 1000000) else if a =? 1000000 then false else a <? b) 1000000 (exV [Dim 2 4; Dim 2 1] 0) exm = Ok (-8) exm /\
  (* the least values are at places 2 and 4 *)
  refmin false z_init Z.ltb [Dim 3 2; Dim 1 1] 0 exm = Ok 2 exm /\ refmin true z_init Z.ltb [Dim 2 (-2)] 4 exm = Ok 4 exm /\ refmax true z_init Z.ltb [Dim 2 3; Dim 2 3] 0 exm = Ok 0 exm.
Proof. vm_compute. auto. Qed.

(* ---- C29, C30 ---- *)

Lemma assign_scatter : forall T f (d e : expr (val T) (mem T)) s m pl x fixed z, wf d -> wf e -> joint_shape [d; e] s -> zclean z ->
  refers d s pl ->
  (forall j m', inshape j s -> (forall p, (forall j', inshape j' s -> lexlt j' j -> p <> pl j') -> m' p = m p) ->
     exists v, element e j m' = Ok v m' /\ value_of v m' = Some (x j)) ->
  exists m', assign fixed z f d e m = Ok None m' /\ forall p, m' p = fold_left f (map x (filter (fun j => pl j =? p) (indices s))) (m p).
Proof.
  intros T f d e s m pl x fixed z Hd He Hs Hz Hpl Hx. unfold assign.
  pose proof (row_major_indices s) as Hj.
  destruct (each_scatter (val T) (element (Map (assign_op f) [d; e])) f pl x (indices s) m []) with (m := m) as (m' & E1 & E2).
  - intros l1 j l2 m1 E Hm1. destruct (row_major_split _ _ _ _ _ Hj E) as (Hin & Hl). cbn [app] in Hm1.
    destruct (Hx j m1 Hin) as (v & F1 & F2).
    { intros p Hp. apply Hm1. intros j' Hj'. apply Hp; apply Hl; auto. }
    cbn [element map]. exists VUnit. rewrite (in_order_2 _ _ _ _ _ (VRef (pl j)) m1 v m1); auto. unfold assign_op, op2, bind. rewrite (rd_value _ _ (x j)); auto.
  - auto.
  - exists m'. split; auto. rewrite (ply_spec _ _ _ no_stop fixed z _ s (indices s)); auto.
    + rewrite visit_each, E1. auto.
    + apply wf_map; [discriminate|]. constructor; auto.
Qed.

Lemma filter_one : forall (A : Type) (P : A -> bool) l x, NoDup l -> In x l -> (forall y, In y l -> (P y = true <-> y = x)) -> filter P l = [x].
Proof.
  induction 1; intros Hin H1; [contradiction|]. cbn. destruct Hin as [->|Hin].
  - rewrite (proj2 (H1 x (or_introl eq_refl))) by auto. f_equal.
    assert (G : forall y, In y l -> P y = false).
    { intros y Hy. destruct (P y) eqn:E; auto. apply H1 in E; [|right; auto]. subst. contradiction. }
    clear -G. induction l; cbn; auto. rewrite (G a) by (left; auto). apply IHl. intros; apply G; right; auto.
  - destruct (P x0) eqn:E.
    + apply H1 in E; [|left; auto]. subst. contradiction.
    + apply IHNoDup; auto. intros. apply H1. right; auto.
Qed.
Lemma filter_none : forall (A : Type) (P : A -> bool) l, (forall y, In y l -> P y = false) -> filter P l = [].
Proof. induction l; intros; cbn; auto. rewrite (H a) by (left; auto). apply IHl. intros; apply H; right; auto. Qed.

(* f t u is the new value: u for '=', t+u for '+=' ... The element of e at j may be read from the destination, but not from what has been written already;
   in particular e may read the same element that is being written. *)
Theorem C29_assign : forall T f (d e : expr (val T) (mem T)) s m pl x fixed z, wf d -> wf e -> joint_shape [d; e] s -> zclean z ->
  refers d s pl -> (forall i j, inshape i s -> inshape j s -> pl i = pl j -> i = j) ->
  (forall j m', inshape j s -> (forall p, (forall j', inshape j' s -> lexlt j' j -> p <> pl j') -> m' p = m p) ->
     exists v, element e j m' = Ok v m' /\ value_of v m' = Some (x j)) ->
  exists m', assign fixed z f d e m = Ok None m' /\ (forall j, inshape j s -> m' (pl j) = f (m (pl j)) (x j)) /\
    (forall p, (forall j, inshape j s -> p <> pl j) -> m' p = m p).
Proof.
  intros T f d e s m pl x fixed z Hd He Hs Hz Hpl Hinj Hx.
  destruct (assign_scatter T f d e s m pl x fixed z) as (m' & E1 & E2); auto. exists m'. split; auto. split.
  - intros j Hj. rewrite E2. rewrite (filter_one _ _ _ j).
    + auto.
    + apply indices_nodup.
    + apply in_indices; auto.
    + intros y Hy. apply in_indices in Hy. rewrite Z.eqb_eq. split; intros; subst; auto.
  - intros p Hp. rewrite E2. rewrite filter_none; auto. intros y Hy. apply in_indices in Hy. apply Z.eqb_neq. intros Eq. apply (Hp y); auto.
Qed.
Print Assumptions C29_assign.

(* dst(i) += src(2*i) on the same array; and dst = vector + scalar *)
Example C29_example : let d := exV [Dim 3 1] 0 in let e := Map plus2 [exV [Dim 3 2] 0; Scalar (VT 1)] in
  wf d /\ wf e /\ joint_shape [d; e] [3] /\ refers d [3] (fun j => nth 0 j 0) /\
  (forall j m', inshape j [3] -> (forall p, (forall j', inshape j' [3] -> lexlt j' j -> p <> nth 0 j' 0) -> m' p = exm p) ->
     exists v, element e j m' = Ok v m' /\ value_of v m' = Some (exm (2 * nth 0 j 0) + 1)) /\
  exists m', assign false z_init Z.add d e exm = Ok None m' /\ m' 0 = 1 /\ m' 1 = -5 + -8 + 1 /\ m' 2 = -8 + -8 + 1 /\ m' 3 = exm 3.
Proof.
  cbv zeta. split; [unfold exV; wfauto|]. split; [unfold exV; wfauto|].
  split; [|split; [|split]].
  - split; [reflexivity|]. intros [|k] Hk; cbn in *; try lia. split; [lia|]. split; auto.
  - intros j m Hj. inversion Hj; subst. inversion H3; subst. cbn. rewrite Z.mul_1_r, Z.add_0_r. auto.
  - intros j m Hj Hm. inversion Hj; subst. inversion H3; subst. eexists. split; [cbn; reflexivity|]. cbn [value_of nth]. f_equal. f_equal.
    rewrite <- Hm; [f_equal; lia|]. intros j' Hj' Hl. inversion Hl as [? ? ? ? Hlt|? ? ? Hlt]; subst; [|inversion Hlt]. cbn [nth]. lia.
  - eexists. split; [vm_compute; reflexivity|]. vm_compute. auto.
Qed.

Lemma joint_prefix : forall T (d e : expr (val T) (mem T)) s1 s2, wf d -> wf e -> shape_is d s1 -> shape_is e (s1 ++ s2) -> joint_shape [d; e] (s1 ++ s2).
Proof.
  intros T d e s1 s2 Hwd Hwe (H1 & H2) (H3 & H4). rewrite app_length in H3. split.
  - cbn. rewrite app_length. lia.
  - cbn [fold_right flat_map]. intros k Hk. rewrite app_nil_r. specialize (H4 k ltac:(lia)). destruct H4 as (H5 & H6 & H7). split; auto. split.
    + apply in_or_app. auto.
    + apply Forall_app. split; auto. destruct (Nat.lt_ge_cases k (axes d)).
      * specialize (H2 k H). rewrite app_nth1 by lia. tauto.
      * rewrite leaf_lens_out; auto. rewrite axes_rank in H by auto. auto.
Qed.

Theorem C30_reduce_assign : forall T f (d e : expr (val T) (mem T)) s1 s2 ks m pl x fixed z, wf d -> wf e -> shape_is d s1 -> shape_is e (s1 ++ s2) -> row_major s2 ks -> zclean z ->
  refers d s1 pl -> (forall i j, inshape i s1 -> inshape j s1 -> pl i = pl j -> i = j) ->
  (forall m', (forall p, (forall i, inshape i s1 -> p <> pl i) -> m' p = m p) -> reads e (s1 ++ s2) m' x) ->
  exists m', assign fixed z f d e m = Ok None m' /\
    (forall i, inshape i s1 -> m' (pl i) = fold_left f (map (fun k => x (i ++ k)) ks) (m (pl i))) /\
    (forall p, (forall i, inshape i s1 -> p <> pl i) -> m' p = m p).
Proof.
  intros T f d e s1 s2 ks m pl x fixed z Hwd Hwe Hsd Hse Hk Hz Hpl Hinj Hx.
  apply row_major_unique in Hk. subst ks.
  assert (Hlen : length s1 = rankn d). { destruct Hsd as (H & _). rewrite axes_rank in H; auto. }
  assert (Hpre : forall j, inshape j (s1 ++ s2) -> inshape (firstn (length s1) j) s1).
  { intros j Hj. unfold inshape in *. apply Forall2_app_inv_r in Hj. destruct Hj as (j1 & j2 & F1 & F2 & ->).
    assert (length j1 = length s1) by (eapply inshape_length; eauto). rewrite firstn_app, H, Nat.sub_diag. cbn. rewrite app_nil_r, firstn_all2 by lia. auto. }
  destruct (assign_scatter T f d e (s1 ++ s2) m (fun j => pl (firstn (length s1) j)) x fixed z) as (m' & E1 & E2); auto.
  - apply joint_prefix; auto.
  - intros j m' Hj. rewrite <- (element_prefix d Hwd (length s1)) by lia. apply Hpl. auto.
  - intros j m' Hj Hm. apply (Hx m'); [|auto]. intros p Hp. apply Hm. intros j' Hj' _. apply Hp; auto.
  - exists m'. split; auto. split.
    + intros i Hi. rewrite E2. f_equal. rewrite <- (map_map (app i) x). f_equal.
      pose proof (inshape_length _ _ Hi) as Hli.
      rewrite indices_app.
      assert (G : forall l, NoDup l -> (forall a, In a l -> inshape a s1) ->
        filter (fun j => pl (firstn (length s1) j) =? pl i) (flat_map (fun i => map (app i) (indices s2)) l) = if in_dec (list_eq_dec Z.eq_dec) i l then map (app i) (indices s2) else []).
      { induction l as [|a l IH]; intros Hn Ha; [reflexivity|]. cbn [flat_map]. rewrite filter_app. inversion Hn; subst.
        assert (Hla : length a = length s1) by (apply inshape_length; apply Ha; left; auto).
        assert (Ga : forall k, firstn (length s1) (a ++ k) = a). { intros. rewrite firstn_app, <- Hla, Nat.sub_diag. cbn. rewrite app_nil_r, firstn_all. auto. }
        rewrite IH; auto; [|intros; apply Ha; right; auto].
        destruct (list_eq_dec Z.eq_dec a i) as [->|Hne].
        - destruct (in_dec (list_eq_dec Z.eq_dec) i (i :: l)) as [_|Hx0]; [|exfalso; apply Hx0; left; auto].
          destruct (in_dec (list_eq_dec Z.eq_dec) i l); [contradiction|]. rewrite app_nil_r.
          clear -Ga. induction (indices s2); cbn; auto. rewrite Ga, Z.eqb_refl. f_equal. auto.
        - replace (filter (fun j => pl (firstn (length s1) j) =? pl i) (map (app a) (indices s2))) with (@nil (list Z)).
          2: { symmetry. apply filter_none. intros y Hy. apply in_map_iff in Hy. destruct Hy as (k & <- & _). rewrite Ga. apply Z.eqb_neq. intros E. apply Hne.
               apply Hinj; auto. apply Ha. left; auto. }
          cbn [app]. destruct (in_dec (list_eq_dec Z.eq_dec) i l), (in_dec (list_eq_dec Z.eq_dec) i (a :: l)); auto.
          + exfalso. apply n. right; auto.
          + destruct i0; [contradiction|]. contradiction. }
      rewrite G.
      * destruct (in_dec (list_eq_dec Z.eq_dec) i (indices s1)); auto. exfalso. apply n. apply in_indices; auto.
      * apply indices_nodup.
      * intros. apply in_indices; auto.
    + intros p Hp. rewrite E2. rewrite filter_none; auto. intros y Hy. apply in_indices in Hy. apply Z.eqb_neq. intros E. apply (Hp (firstn (length s1) y)); auto.
Qed.
Print Assumptions C30_reduce_assign.

Example C30_example : let d := exV [Dim 2 1] 100 in let e := exV [Dim 2 1; Dim 3 2] 0 in
  wf d /\ wf e /\ shape_is d [2] /\ shape_is e ([2] ++ [3]) /\
  exists m', assign true z_init Z.add d e exm = Ok None m' /\ m' 100 = exm 100 + exm 0 + exm 2 + exm 4 /\ m' 101 = exm 101 + exm 1 + exm 3 + exm 5.
Proof.
  assert (H1 : wf (exV [Dim 2 1] 100)) by (unfold exV; wfauto).
  assert (H2 : wf (exV [Dim 2 1; Dim 3 2] 0)) by (unfold exV; wfauto).
  cbv zeta. split; [exact H1|]. split; [exact H2|]. split; [apply (shape_shape_is _ H1); reflexivity|]. split; [apply (shape_shape_is _ H2); reflexivity|].
  eexists. split; [vm_compute; reflexivity|]. vm_compute. auto.
Qed.

(* ---- C35, C36 ---- *)

(* Reading pick(sel, e0, e1 ...) at j, in terms of reading its arguments at their part of j. Operations may have any effect. *)
Theorem C35_pick : forall X W (sel : X -> Z) (a : expr X W) t s j, wf (Pick sel (a :: t)) -> shape_is (Pick sel (a :: t)) s -> inshape j s ->
  forall w, at_ (Pick sel (a :: t)) j w =
    match at_ a (firstn (axes a) j) w with
    | Ok x w' => match nth_error t (Z.to_nat (sel x)) with
                 | Some e => if 0 <=? sel x then at_ e (firstn (axes e) j) w' else Fail w'
                 | None => Fail w'
                 end
    | Fail w' => Fail w' | Undef => Undef
    end.
Proof.
  intros X W sel a t s j Hw Hs Hj w.
  pose proof Hw as (Hn & Hwt). apply wf_Forall in Hwt.
  pose proof Hs as Hs'. apply shape_is_shape in Hs; auto. destruct Hs as (-> & _).
  rewrite element_at by auto.
  pose proof (okidx_inshape _ _ Hj) as Ho. pose proof (okidx_sub (a :: t) (fz j) Hn Hwt Ho) as Hsub.
  assert (G : forall b, In b (a :: t) -> forall w', element b j w' = at_ b (firstn (axes b) j) w').
  { intros b Hb w'. pose proof (rankn_sub (fun _ => fail) (a :: t) Hn Hwt b Hb) as Hr. rewrite Forall_forall in Hwt, Hsub. rewrite axes_rank by auto.
    pose proof (inshape_length _ _ Hj) as Hl. rewrite shape_length in Hl. change (rankn (Pick sel (a :: t))) with (rankn (Map (fun _ => @fail W X) (a :: t))) in Hl.
    rewrite at_element; auto.
    - rewrite element_prefix; auto.
    - rewrite firstn_length. lia.
    - intros k Hk. specialize (Hsub b Hb k Hk). unfold fz in *. rewrite nth_firstn by lia. exact Hsub. }
  cbn [element map]. rewrite (G a) by (left; auto). destruct (at_ a (firstn (axes a) j) w); auto.
  rewrite nth_error_map. destruct (0 <=? sel a0).
  - destruct (nth_error t (Z.to_nat (sel a0))) eqn:E; cbn; auto. apply G. right. eapply nth_error_In; eauto.
  - destruct (nth_error t (Z.to_nat (sel a0))); auto.
Qed.
Print Assumptions C35_pick.

(* a traversal does the same at each index in turn *)
Theorem C35_pick_traversal : forall X W (sel : X -> Z) t s js fixed z, wf (Pick sel t) -> shape_is (Pick sel t) s -> row_major s js -> zclean z ->
  forall w : W, ply fixed no_stop z (Pick sel t) w = finish (each (at_ (Pick sel t)) js w).
Proof.
  intros X W sel t s js fixed z Hw Hs Hj Hz w. rewrite (ply_spec _ _ _ no_stop fixed z _ s js) by auto. rewrite visit_each. f_equal.
  assert (G : forall l, (forall j, In j l -> inshape j s) -> forall w : W, each (element (Pick sel t)) l w = each (at_ (Pick sel t)) l w).
  { apply shape_is_shape in Hs; auto. destruct Hs as (-> & _).
    induction l; intros Hl w0; cbn [each]; auto. rewrite <- element_at; auto; [|apply Hl; left; auto]. destruct (at_ (Pick sel t) a w0); auto. apply IHl. intros. apply Hl. right; auto. }
  apply G. intros. apply Hj; auto.
Qed.
Print Assumptions C35_pick_traversal.

Theorem C35_where : forall T tob (w t f : expr (val T) (mem T)) s j m b, wf w -> wf t -> wf f -> joint_shape [w; f; t] s -> inshape j s ->
  (exists v, element w j m = Ok v m /\ truth_of tob v m = Some b) ->
  at_ (where_ tob w t f) j m = if b then at_ t (firstn (axes t) j) m else at_ f (firstn (axes f) j) m.
Proof.
  intros T tob w t f s j m b Hww Hwt Hwf Hs Hj (v & E1 & E2).
  assert (Hwp : wf (where_ tob w t f)). { cbn. split; [discriminate|]. split; [split; [discriminate|auto]|auto]. }
  assert (Hax : axes (castb tob w) = axes w) by (cbn; lia).
  assert (Hsp : shape_is (where_ tob w t f) s).
  { destruct Hs as (H1 & H2). split; [cbn in *; rewrite Nat.max_0_r; auto|]. intros k Hk. cbn [axes where_ fold_right castb] in Hk. rewrite Nat.max_0_r in Hk.
    specialize (H2 k Hk). unfold where_, castb. cbn [leaf_lens flat_map]. rewrite !app_nil_r. cbn [flat_map] in H2. rewrite !app_nil_r in H2. exact H2. }
  unfold where_. rewrite (C35_pick _ _ selv (castb tob w) [f; t] s j Hwp Hsp Hj m).
  assert (Hc : at_ (castb tob w) (firstn (axes (castb tob w)) j) m = Ok (VB b) m).
  { rewrite Hax.
    assert (Hinw : at_ w (firstn (axes w) j) m = Ok v m).
    { rewrite <- E1. pose proof Hsp as Hsp2. apply shape_is_shape in Hsp2; auto. destruct Hsp2 as (Es & _). rewrite Es in Hj.
      pose proof (inshape_length _ _ Hj) as Hl. rewrite shape_length in Hl.
      pose proof Hwp as (Hn & Hwt0). apply wf_Forall in Hwt0.
      pose proof (okidx_inshape _ _ Hj) as Ho. pose proof (okidx_sub _ (fz j) Hn Hwt0 Ho) as Hsub. rewrite Forall_forall in Hsub.
      pose proof (rankn_sub (fun _ => fail) _ Hn Hwt0 (castb tob w) (or_introl eq_refl)) as Hr.
      specialize (Hsub _ (or_introl eq_refl)). unfold castb in Hsub at 1.
      pose proof (okidx_sub [w] (fz j) ltac:(discriminate) ltac:(auto) Hsub) as Hsw. inversion Hsw; subst.
      assert (Hrw : rankn (castb tob w) = rankn w). { rewrite <- !axes_rank; auto. cbn. split; [discriminate|auto]. }
      rewrite axes_rank by auto. rewrite at_element; auto.
      - apply element_prefix; auto.
      - rewrite firstn_length. unfold where_ in Hl. change (rankn (Pick selv [castb tob w; f; t])) with (rankn (Map (fun _ => @fail (mem T) (val T)) [castb tob w; f; t])) in Hl. lia.
      - intros k Hk. specialize (H1 k Hk). unfold fz in *. rewrite nth_firstn by lia. exact H1. }
    cbn [castb at_ map]. unfold bind, ret. cbn. unfold bind. rewrite Hinw. cbn. unfold bind. rewrite (rdb_truth _ _ _ b); auto. }
  rewrite Hc. destruct b; reflexivity.
Qed.
Print Assumptions C35_where.

Example C35_example : (* the alternatives log when they are evaluated *)
  let lg (n : Z) : expr Z (list Z) := Map (fun xs => fun w => Ok n (w ++ [n])) [Scalar 0] in
  let sel : expr Z (list Z) := Cell [Dim 4 1] 1 (fun p => nth (Z.to_nat p) [1; 0; 1; 2] 0) 0 in
  let e := Pick (fun x => x) [sel; lg 10; lg 20] in wf e /\ shape_is e [4] /\
  ply true no_stop z_init (Pick (fun x => x) [Cell [Dim 3 1] 1 (fun p => nth (Z.to_nat p) [1; 0; 1; 2] 0) 0; lg 10; lg 20]) [] = Ok None [20; 10; 20] /\
  ply false no_stop z_init e [] = Fail [20; 10; 20].
Proof.
  cbv zeta. split; [|split].
  - wfauto.
  - split; [reflexivity|]. intros [|k] Hk; cbn in *; try lia. split; [lia|]. split; auto.
  - vm_compute. auto.
Qed.

(* && and ||: the element of b is not evaluated where that of a decides *)
Theorem C36_and : forall T tob (a b : expr (val T) (mem T)) s j m va, wf a -> wf b -> joint_shape [a; b] s -> inshape j s ->
  (exists v, element a j m = Ok v m /\ truth_of tob v m = Some va) ->
  at_ (and_ tob a b) j m = if va then (v <- at_ b (firstn (axes b) j) ;; x <- rdb tob v ;; ret (VB x)) m else Ok (VB false) m.
Proof.
  intros T tob a b s j m va Hwa Hwb Hs Hj Ha. unfold and_.
  rewrite (C35_where T tob a (castb tob b) (Scalar (VB false)) s j m va); auto.
  - destruct va; [|reflexivity]. replace (axes (castb tob b)) with (axes b) by (cbn; lia).
    cbn [castb at_ map]. unfold bind, ret. cbn. unfold bind. destruct (at_ b (firstn (axes b) j) m); auto.
  - cbn. split; [discriminate|auto].
  - exact I.
  - unfold joint_shape, castb in *. cbn [fold_right axes flat_map leaf_lens] in *. destruct Hs as (H1 & H2). split; [lia|]. intros k Hk.
    specialize (H2 k ltac:(lia)). rewrite ?app_nil_r in *. auto.
Qed.

Theorem C36_or : forall T tob (a b : expr (val T) (mem T)) s j m va, wf a -> wf b -> joint_shape [a; b] s -> inshape j s ->
  (exists v, element a j m = Ok v m /\ truth_of tob v m = Some va) ->
  at_ (or_ tob a b) j m = if va then Ok (VB true) m else (v <- at_ b (firstn (axes b) j) ;; x <- rdb tob v ;; ret (VB x)) m.
Proof.
  intros T tob a b s j m va Hwa Hwb Hs Hj Ha. unfold or_.
  rewrite (C35_where T tob a (Scalar (VB true)) (castb tob b) s j m va); auto.
  - destruct va; [reflexivity|]. replace (axes (castb tob b)) with (axes b) by (cbn; lia).
    cbn [castb at_ map]. unfold bind, ret. cbn. unfold bind. destruct (at_ b (firstn (axes b) j) m); auto.
  - exact I.
  - cbn. split; [discriminate|auto].
  - unfold joint_shape, castb in *. cbn [fold_right axes flat_map leaf_lens] in *. destruct Hs as (H1 & H2). split; [lia|]. intros k Hk.
    specialize (H2 k ltac:(lia)). rewrite ?app_nil_r in *. auto.
Qed.
Print Assumptions C36_and.
Print Assumptions C36_or.

(* the right operand fails where it is evaluated *)
Example C36_example : let a := exV [Dim 7 1] 0 in let bad := Map (fun _ => fail) [exV [Dim 7 1] 0] in
  wf a /\ wf bad /\ joint_shape [a; bad] [7] /\ at_ (and_ tobz a bad) [6] exm = Ok (VB false) exm /\ at_ (and_ tobz a bad) [1] exm = Fail exm /\ at_ (or_ tobz a bad) [1] exm = Ok (VB true) exm.
Proof.
  cbv zeta. split; [unfold exV; wfauto|]. split; [unfold exV; wfauto|].
  split; [|vm_compute; auto].
  split; [reflexivity|]. intros [|k] Hk; cbn in *; try lia. split; [lia|]. split; auto.
Qed.
