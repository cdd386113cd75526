(* Lemmas for M_Val.v. *)
From Coq Require Import ZArith List Lia Bool Sorted.
From Coq Require Import ZifyBool ZifyNat.
From Verif Require Import Spec L_Spec Spec_Ply Spec_Expr M_Base M_Expr M_Ply M_Val Spec_Val L_Expr L_Agree L_Ply L_Stl L_Run.
Import ListNotations.
Open Scope Z_scope.

Lemma joint_shape_map : forall X W (op : list X -> M W X) t s, joint_shape t s -> shape_is (Map op t) s.
Proof. intros. exact H. Qed.

Lemma joint_shape_1 : forall X W (a : expr X W) s, shape_is a s -> joint_shape [a] s.
Proof.
  intros X W a s (H1 & H2). split.
  - cbn. lia.
  - cbn [fold_right flat_map]. rewrite Nat.max_0_r. intros k Hk. rewrite app_nil_r. auto.
Qed.

(* ---- lift ---- *)
Section Lift.
Context {X W C : Type}.
Notation lift := (@lift X W C).

Lemma lift_rank : forall e : expr X W, rank (lift e) = rank e.
Proof.
  induction e using expr_ind2; cbn [M_Val.lift rank]; auto; f_equal; rewrite map_map; apply map_ext_in; intros; rewrite Forall_forall in H; auto.
Qed.

Lemma lift_wf : forall e : expr X W, wf e -> wf (lift e).
Proof.
  induction e using expr_ind2; cbn [M_Val.lift wf]; intros; auto.
  - rewrite lift_rank. tauto.
  - destruct H0 as (Hn & Hw). split; [destruct t; [contradiction|discriminate]|]. apply wf_Forall in Hw. apply wf_Forall.
    rewrite Forall_forall in *. intros x Hx. apply in_map_iff in Hx. destruct Hx as (y & <- & Hy). auto.
  - destruct H0 as (Hn & Hw). split; [destruct t; [contradiction|discriminate]|]. apply wf_Forall in Hw. apply wf_Forall.
    rewrite Forall_forall in *. intros x Hx. apply in_map_iff in Hx. destruct Hx as (y & <- & Hy). auto.
Qed.

Lemma lift_axes : forall e : expr X W, axes (lift e) = axes e.
Proof.
  induction e using expr_ind2; cbn [M_Val.lift axes]; auto; induction H; cbn; auto.
Qed.

Lemma lift_lens : forall (e : expr X W) k, leaf_lens (lift e) k = leaf_lens e k.
Proof.
  induction e using expr_ind2; cbn [M_Val.lift leaf_lens]; intros; auto.
  - apply flat_map_ext. auto.
  - induction H; cbn; auto. rewrite H, IHForall. auto.
  - induction H; cbn; auto. rewrite H, IHForall. auto.
Qed.

Lemma lift_in_order : forall A (t : list (M W A)) (t' : list (M (W*C) A)), Forall2 (fun f g => forall w c, g (w, c) = lift_op f (w, c)) t t' ->
  forall w c, in_order t' (w, c) = lift_op (in_order t) (w, c).
Proof.
  induction 1; intros; cbn; auto. rewrite H. unfold lift_op. cbn [fst snd]. destruct (x w); auto. rewrite IHForall2. unfold lift_op. cbn [fst snd]. destruct (in_order l w0); auto.
Qed.

Lemma lift_element : forall (e : expr X W) j w c, element (lift e) j (w, c) = lift_op (element e j) (w, c).
Proof.
  induction e using expr_ind2; intros; cbn [M_Val.lift element]; auto.
  - assert (HF : Forall2 (fun f g => forall w c, g (w, c) = lift_op f (w, c)) (map (fun a => element a j) t) (map (fun a => element a j) (map lift t))).
    { clear w c. induction H; cbn; constructor; auto. }
    rewrite (lift_in_order _ _ _ HF). unfold lift_op. cbn [fst snd]. destruct (in_order (map (fun a => element a j) t) w); auto.
  - destruct t as [|a t]; [reflexivity|]. inversion H; subst. cbn [map]. rewrite H2. unfold lift_op. cbn [fst snd].
    destruct (element a j w); auto. destruct (0 <=? sel a0); auto.
    rewrite map_map. clear H H2. revert H3. generalize (Z.to_nat (sel a0)). induction t; intros.
    + destruct n; auto.
    + inversion H3; subst. destruct n; cbn [map nth_error].
      * rewrite H1. unfold lift_op. auto.
      * apply IHt; auto.
Qed.
End Lift.

Lemma lift_joint : forall X W C (t : list (expr X W)) s, joint_shape t s -> joint_shape (map (@lift X W C) t) s.
Proof.
  intros X W C t s (H1 & H2).
  assert (E : fold_right (fun a r => Nat.max (axes a) r) 0%nat (map (@lift X W C) t) = fold_right (fun a r => Nat.max (axes a) r) 0%nat t).
  { clear. induction t; cbn; auto. rewrite lift_axes, IHt. auto. }
  split; rewrite E; auto. intros k Hk.
  replace (flat_map (fun a => leaf_lens a k) (map (@lift X W C) t)) with (flat_map (fun a => leaf_lens a k) t); auto.
  clear. induction t; cbn; auto. rewrite lift_lens, IHt. auto.
Qed.

(* ---- ply ---- *)

Lemma ply_spec : forall X W R (post : X -> option R) fixed z (e : expr X W) s js, wf e -> shape_is e s -> row_major s js -> zclean z ->
  forall w, ply fixed post z e w = visit post (element e) js w.
Proof.
  intros. unfold ply. destruct fixed.
  - apply fixed_element with (s := s); auto.
  - apply ravel_element with (s := s); auto.
Qed.

Lemma wf_map : forall X W (op : list X -> M W X) t, t <> [] -> Forall wf t -> wf (Map op t).
Proof. intros. cbn. split; auto. apply wf_Forall; auto. Qed.

Fixpoint first_some {A R} (f : A -> option R) (l : list A) : option R :=
  match l with [] => None | x::l' => match f x with Some r => Some r | None => first_some f l' end end.

Lemma visit_pure : forall X W R (post : X -> option R) (get : list Z -> M W X) (f : list Z -> option R) js w,
  (forall j, In j js -> exists x, get j w = Ok x w /\ post x = f j) -> visit post get js w = Ok (first_some f js) w.
Proof.
  induction js; intros; cbn; auto. destruct (H a (or_introl eq_refl)) as (x & -> & ->). destruct (f a); auto.
  apply IHjs. intros. apply H. right; auto.
Qed.

Lemma first_some_none : forall A R (f : A -> option R) l, first_some f l = None <-> forall x, In x l -> f x = None.
Proof.
  induction l; cbn; split; intros; auto.
  - contradiction.
  - destruct (f a) eqn:E; [discriminate|]. destruct H0; [subst; auto|]. apply IHl; auto.
  - rewrite (H a) by auto. apply IHl. auto.
Qed.

Lemma first_some_some : forall A R (f : A -> option R) l r, first_some f l = Some r <->
  exists l1 x l2, l = l1 ++ x :: l2 /\ f x = Some r /\ forall y, In y l1 -> f y = None.
Proof.
  induction l; cbn; intros; split; intros H.
  - discriminate.
  - destruct H as (l1 & x & l2 & E & _). destruct l1; discriminate.
  - destruct (f a) eqn:E.
    + inversion H; subst. exists [], a, l. repeat split; auto. intros y [].
    + apply IHl in H. destruct H as (l1 & x & l2 & -> & E1 & E2). exists (a :: l1), x, l2. repeat split; auto.
      intros y [<-|Hy]; auto.
  - destruct H as (l1 & x & l2 & E & E1 & E2). destruct l1; cbn in E; inversion E; subst.
    + rewrite E1. auto.
    + rewrite (E2 a0) by (left; auto). apply IHl. exists l1, x, l2. repeat split; auto. intros. apply E2. right; auto.
Qed.

(* the elements before a given one in a row-major list are the lesser ones *)
Lemma row_major_split : forall s js l1 j l2, row_major s js -> js = l1 ++ j :: l2 ->
  inshape j s /\ forall j', In j' l1 <-> inshape j' s /\ lexlt j' j.
Proof.
  intros s js l1 j l2 (Hs & Hin) ->. split; [apply Hin; apply in_or_app; right; left; auto|].
  assert (G1 : forall x, In x l1 -> lexlt x j).
  { clear Hin. induction l1; cbn in *; intros x Hx; [contradiction|]. apply StronglySorted_inv in Hs. destruct Hs as (Hs & Hf). destruct Hx as [<-|Hx].
    - rewrite Forall_forall in Hf. apply Hf. apply in_or_app. right; left; auto.
    - apply IHl1; auto. }
  assert (G2 : forall x, In x l2 -> lexlt j x).
  { clear Hin G1. induction l1; cbn in *; apply StronglySorted_inv in Hs; destruct Hs as (Hs & Hf); intros.
    - rewrite Forall_forall in Hf. auto.
    - apply IHl1; auto. }
  intros j'. split.
  - intros H. split; auto. apply Hin. apply in_or_app. auto.
  - intros (H1 & H2). apply Hin in H1. apply in_app_or in H1. destruct H1 as [|[<-|H1]]; auto.
    + exfalso. eapply lexlt_irrefl; eauto.
    + exfalso. apply G2 in H1. eapply lexlt_irrefl. eapply lexlt_trans; eauto.
Qed.

Lemma row_major_at : forall s js j, row_major s js -> inshape j s -> exists l1 l2, js = l1 ++ j :: l2.
Proof. intros s js j (_ & H) Hj. apply H in Hj. apply in_split in Hj. auto. Qed.

Lemma first_some_row : forall R (f : list Z -> option R) s js r, row_major s js ->
  (first_some f js = Some r <-> exists j, inshape j s /\ f j = Some r /\ forall j', inshape j' s -> lexlt j' j -> f j' = None).
Proof.
  intros. rewrite first_some_some. split.
  - intros (l1 & x & l2 & E & E1 & E2). destruct (row_major_split _ _ _ _ _ H E) as (Hx & Hl). exists x. repeat split; auto.
    intros. apply E2. apply Hl. auto.
  - intros (j & Hj & E1 & E2). destruct (row_major_at _ _ _ H Hj) as (l1 & l2 & E). exists l1, j, l2. repeat split; auto.
    intros y Hy. destruct (row_major_split _ _ _ _ _ H E) as (_ & Hl). apply Hl in Hy. apply E2; tauto.
Qed.

Lemma first_some_row_none : forall R (f : list Z -> option R) s js, row_major s js ->
  (first_some f js = None <-> forall j, inshape j s -> f j = None).
Proof.
  intros R f s js (_ & H). rewrite first_some_none. split; intros G j Hj; apply G; apply H; auto.
Qed.

(* ---- for_each with a local ---- *)

Lemma each_fold : forall X W C (get : list Z -> M (W * C) X) (g : list Z -> C -> C) w js,
  (forall j c, In j js -> exists x, get j (w, c) = Ok x (w, g j c)) ->
  forall c, each get js (w, c) = Ok tt (w, fold_left (fun c j => g j c) js c).
Proof.
  induction js; intros; cbn; auto. destruct (H a c (or_introl eq_refl)) as (x & ->). apply IHjs. intros. apply H. right; auto.
Qed.

Lemma for_each_c_spec : forall W C T fixed z (op : list (val T) -> M (W * C) (val T)) t s js w (vs : list Z -> list (val T)) (g : list Z -> C -> C),
  t <> [] -> Forall wf t -> joint_shape t s -> row_major s js -> zclean z ->
  (forall j, inshape j s -> in_order (map (fun a => element a j) t) w = Ok (vs j) w) ->
  (forall j c, inshape j s -> exists u, op (vs j) (w, c) = Ok u (w, g j c)) ->
  forall c, for_each_c fixed z op t c w = Ok (fold_left (fun c j => g j c) js c) w.
Proof.
  intros W C T fixed z op t s js w vs g Hn Hw Hj Hr Hz Hin Hop c. unfold for_each_c.
  rewrite (ply_spec _ _ _ no_stop fixed z _ s js); auto.
  - rewrite visit_each. erewrite each_fold; [reflexivity|].
    intros j c' Hjs. apply Hr in Hjs. cbn [element].
    rewrite map_map.
    rewrite (lift_in_order _ (map (fun a => element a j) t)).
    + unfold lift_op at 1. cbn [fst snd]. rewrite Hin by auto. apply Hop; auto.
    + clear. induction t; cbn; constructor; auto. intros. apply lift_element.
  - apply wf_map; [destruct t; [contradiction|discriminate]|]. apply Forall_forall. intros x Hx. apply in_map_iff in Hx. destruct Hx as (y & <- & Hy).
    apply lift_wf. rewrite Forall_forall in Hw. auto.
  - apply joint_shape_map. apply lift_joint. auto.
Qed.

Lemma in_order_1 : forall W A (a : M W A) w x w', a w = Ok x w' -> in_order [a] w = Ok [x] w'.
Proof. intros. cbn. rewrite H. auto. Qed.
Lemma in_order_2 : forall W A (a b : M W A) w x w' y w'', a w = Ok x w' -> b w' = Ok y w'' -> in_order [a; b] w = Ok [x; y] w''.
Proof. intros. cbn. rewrite H, H0. auto. Qed.

(* choice of a function on the indices of a shape *)
Lemma inshape_dec : forall j s, {inshape j s} + {~ inshape j s}.
Proof.
  induction j; destruct s.
  - left. constructor.
  - right. intros H. inversion H.
  - right. intros H. inversion H.
  - destruct (Z_le_dec 0 a); [|right; intros H; inversion H; subst; lia].
    destruct (Z_lt_dec a z); [|right; intros H; inversion H; subst; lia].
    destruct (IHj s); [left; constructor; auto|right; intros H; inversion H; subst; auto].
Qed.

Section Reads.
Context {T : Type}.
(* what evaluating e gives: a total function *)
Definition vat (e : expr (val T) (mem T)) (m : mem T) (j : list Z) : val T := match element e j m with Ok v _ => v | _ => VUnit end.
Lemma reads_vat : forall (e : expr (val T) (mem T)) s m x, reads e s m x ->
  forall j, inshape j s -> element e j m = Ok (vat e m j) m /\ value_of (vat e m j) m = Some (x j).
Proof. intros. destruct (H j H0) as (v & E & E2). unfold vat. rewrite E. auto. Qed.
Lemma reads_bool_vat : forall tob (e : expr (val T) (mem T)) s m x, reads_bool tob e s m x ->
  forall j, inshape j s -> element e j m = Ok (vat e m j) m /\ truth_of tob (vat e m j) m = Some (x j).
Proof. intros. destruct (H j H0) as (v & E & E2). unfold vat. rewrite E. auto. Qed.
Lemma rd_value : forall (v : val T) m x, value_of v m = Some x -> rd v m = Ok x m.
Proof. intros. destruct v; cbn in *; inversion H; auto. Qed.
Lemma rdl_value : forall C (v : val T) m x (c : C), value_of v m = Some x -> rdl v (m, c) = Ok x (m, c).
Proof. intros. unfold rdl, lift_op. cbn [fst snd]. rewrite (rd_value _ _ x); auto. Qed.
Lemma rdb_truth : forall tob (v : val T) m x, truth_of tob v m = Some x -> rdb tob v m = Ok x m.
Proof. intros. destruct v; cbn in *; inversion H; auto. Qed.

Lemma fold_left_map : forall A B C (f : C -> B -> C) (g : A -> B) l c, fold_left (fun c j => f c (g j)) l c = fold_left f (map g l) c.
Proof. induction l; intros; cbn; auto. Qed.

Lemma reduce1_spec : forall C fixed z (g : T -> C -> C) (a : expr (val T) (mem T)) s js m x, wf a -> shape_is a s -> row_major s js -> zclean z -> reads a s m x ->
  forall c, for_each_c fixed z (op1 (fun v => t <- rdl v ;; update (g t))) [a] c m = Ok (fold_left (fun c t => g t c) (map x js) c) m.
Proof.
  intros C fixed z g a s js m x Hw Hs Hj Hz Hr c. rewrite <- fold_left_map.
  apply (for_each_c_spec (mem T) C T fixed z _ [a] s js m (fun j => [vat a m j]) (fun j c => g (x j) c)); auto.
  - discriminate.
  - apply joint_shape_1; auto.
  - intros j Hin. destruct (reads_vat _ _ _ _ Hr j Hin). apply in_order_1; auto.
  - intros j c' Hin. destruct (reads_vat _ _ _ _ Hr j Hin). exists VUnit. unfold op1, bind. rewrite (rdl_value _ _ _ (x j)); auto.
Qed.

Lemma reduce2_spec : forall C fixed z (g : T -> T -> C -> C) (a b : expr (val T) (mem T)) s js m x y, wf a -> wf b -> joint_shape [a; b] s -> row_major s js -> zclean z ->
  reads a s m x -> reads b s m y ->
  forall c, for_each_c fixed z (op2 (fun v u => t <- rdl v ;; r <- rdl u ;; update (g t r))) [a; b] c m = Ok (fold_left (fun c j => g (x j) (y j) c) js c) m.
Proof.
  intros C fixed z g a b s js m x y Hwa Hwb Hs Hj Hz Hra Hrb c.
  apply (for_each_c_spec (mem T) C T fixed z _ [a; b] s js m (fun j => [vat a m j; vat b m j]) (fun j c => g (x j) (y j) c)); auto.
  - discriminate.
  - intros j Hin. destruct (reads_vat _ _ _ _ Hra j Hin), (reads_vat _ _ _ _ Hrb j Hin). eapply in_order_2; eauto.
  - intros j c' Hin. destruct (reads_vat _ _ _ _ Hra j Hin), (reads_vat _ _ _ _ Hrb j Hin). exists VUnit. unfold op2, bind.
    rewrite (rdl_value _ _ _ (x j)); auto. rewrite (rdl_value _ _ _ (y j)); auto.
Qed.

Lemma early1_spec : forall R fixed z (post : val T -> option R) (d : R) (op : list (val T) -> M (mem T) (val T)) t s js m (vs : list Z -> list (val T)) (f : list Z -> option R),
  t <> [] -> Forall wf t -> joint_shape t s -> row_major s js -> zclean z ->
  (forall j, inshape j s -> in_order (map (fun a => element a j) t) m = Ok (vs j) m) ->
  (forall j, inshape j s -> exists u, op (vs j) m = Ok u m /\ post u = f j) ->
  to_value d (ply fixed post z (Map op t)) m = Ok (value_or (first_some f js) d) m.
Proof.
  intros R fixed z post d op t s js m vs f Hn Hw Hs Hj Hz Hin Hop. unfold to_value, bind.
  rewrite (ply_spec _ _ _ post fixed z _ s js); auto.
  - erewrite visit_pure; [reflexivity|]. intros j Hjs. apply Hj in Hjs. cbn [element]. rewrite Hin by auto. apply Hop; auto.
  - apply wf_map; auto.
Qed.
End Reads.

(* ---- scattered updates ---- *)
Section Scatter.
Context {T : Type}.

Lemma wr_same : forall p (t : T) m, wr p t m p = t.
Proof. intros. unfold wr. rewrite Z.eqb_refl. auto. Qed.
Lemma wr_other : forall p q (t : T) m, q <> p -> wr p t m q = m q.
Proof. intros. unfold wr. destruct (Z.eqb_spec q p); [contradiction|auto]. Qed.

(* updates in order: the state is built from pl and x *)
Lemma each_scatter : forall X (get : list Z -> M (mem T) X) (f : T -> T -> T) (pl : list Z -> Z) (x : list Z -> T) js (m0 : mem T) pre,
  (forall l1 j l2 m, js = l1 ++ j :: l2 -> (forall p, (forall j', In j' (pre ++ l1) -> p <> pl j') -> m p = m0 p) ->
     exists u, get j m = Ok u (wr (pl j) (f (m (pl j)) (x j)) m)) ->
  forall m, (forall p, (forall j', In j' pre -> p <> pl j') -> m p = m0 p) ->
  exists m', each get js m = Ok tt m' /\ forall p, m' p = fold_left f (map x (filter (fun j => pl j =? p) js)) (m p).
Proof.
  induction js as [|j js IH]; intros m0 pre Hg m Hm.
  - exists m. split; auto.
  - destruct (Hg [] j js m eq_refl) as (u & E). { rewrite app_nil_r. auto. }
    destruct (IH m0 (pre ++ [j])) with (m := wr (pl j) (f (m (pl j)) (x j)) m) as (m' & E1 & E2).
    + intros l1 j1 l2 m1 -> Hm1. apply (Hg (j :: l1) j1 l2); auto. intros p Hp. apply Hm1. intros j' Hj'. apply Hp.
      rewrite <- app_assoc in Hj'. auto.
    + intros p Hp. rewrite wr_other.
      * apply Hm. intros j' Hj'. apply Hp. apply in_or_app; auto.
      * apply Hp. apply in_or_app. right; left; auto.
    + exists m'. cbn [each]. rewrite E. split; auto. intros p. rewrite E2. cbn [filter]. destruct (Z.eqb_spec (pl j) p).
      * subst p. rewrite wr_same. cbn [map fold_left]. auto.
      * rewrite wr_other by auto. auto.
Qed.
End Scatter.
