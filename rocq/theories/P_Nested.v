(* C71: traversals run by the operations of a traversal. *)
From Coq Require Import ZArith List Lia Bool.
From Coq Require Import ZifyBool ZifyNat.
From Verif Require Import Spec L_Spec Spec_Ply M_Base M_Expr L_Expr M_Ply L_Ply Spec_Expr L_Agree L_Run M_Nested P_Ply.
Import ListNotations.
Open Scope Z_scope.

(* the result o, with vector z *)
Definition put {W A} (z : list zt) (o : out W A) : out (W * list zt) A :=
  match o with Ok a w => Ok a (w, z) | Fail w => Fail (w, z) | Undef => Undef end.
Definition strip {W A} (o : out (W * list zt) A) : out W A :=
  match o with Ok a (w, _) => Ok a w | Fail (w, _) => Fail w | Undef => Undef end.

Lemma strip_put : forall W A z (o : out W A), strip (put z o) = o.
Proof. destruct o; reflexivity. Qed.

(* The steps of every leaf of e are those of consecutive elements in row-major order of s, so that the axes are traversed as one. *)
Fixpoint even {X W} (e : expr X W) (s : list Z) : Prop :=
  match e with
  | Scalar _ => True
  | Cell dv fr _ _ =>
    let st k := if (k <? fr)%nat then step (nth k dv dim0) else 0 in
    forall k, (S k < length s)%nat -> st k = nth (S k) s 0 * st (S k)
  | Reframe _ _ => False
  | Map _ t | Pick _ t => fold_right (fun a p => even a s /\ p) True t
  end.
Definition flat {X W} (e : expr X W) (s : list Z) : Prop := (length s <= 1)%nat \/ even e s.

Section Nested.
Context {X W R : Type}.
Notation expr := (expr X (W * list zt)).
Variable post : X -> option R.

Lemma even_keep : forall s r, (S r < length s)%nat -> forall e : expr, even e s ->
  keep e (zprod (skipn (S r) s)) (length s - 1) r = true.
Proof.
  intros s r Hr.
  assert (Hm : forall t : list expr, Forall (fun e => even e s -> keep e (zprod (skipn (S r) s)) (length s - 1) r = true) t ->
    fold_right (fun a p => even a s /\ p) True t -> forallb (fun a => keep a (zprod (skipn (S r) s)) (length s - 1) r) t = true).
  { induction 1; intros; [reflexivity|]. cbn [fold_right] in H1. cbn [forallb]. rewrite H, IHForall; tauto. }
  induction e using expr_ind2; cbn [even keep]; intros; auto; try contradiction.
  apply Z.eqb_eq. set (st := fun k => if (k <? fr)%nat then step (nth k dv dim0) else 0) in *.
  change (zprod (skipn (S r) s) * st (length s - 1)%nat = st r).
  assert (H' : forall k, (S k < length s)%nat -> st k = nth (S k) s 0 * st (S k)) by exact H. clear H Hm. clearbody st.
  remember (length s - 2 - r)%nat as m eqn:Em. revert r Hr Em. induction m; intros.
  - replace (length s - 1)%nat with (S r) by lia. rewrite (skipn_cons s (S r) 0) by lia. rewrite skipn_all2 by lia. cbn [zprod].
    rewrite (H' r) by lia. ring.
  - rewrite (skipn_cons s (S r) 0) by lia. cbn [zprod]. rewrite <- Z.mul_assoc. rewrite IHm by lia. rewrite (H' r) by lia. reflexivity.
Qed.

Lemma flat_merge : forall (e : expr) rk z, rankn e = rk -> zord rk z -> even e (shape e) ->
  forall r o ss, (r + o = rk)%nat -> (0 < o)%nat -> ss = zprod (skipn r (shape e)) -> exists o' ss', merge e z r o ss = (0%nat, o', ss').
Proof.
  intros e rk z Hr (Hl & Hz) He. induction r; intros o ss Hro Ho Hss.
  - exists o, ss. auto.
  - cbn [merge]. rewrite !Hz by lia. rewrite Nat.sub_0_r.
    assert (E : keep e ss (rk-1) (rk-1-o) = true).
    { pose proof (even_keep (shape e) r) as H. rewrite !shape_length, Hr in H. replace (rk - 1 - o)%nat with r by lia. rewrite Hss. apply H; auto. lia. }
    rewrite E. apply IHr; try lia. subst ss. rewrite (skipn_cons (shape e) r 0) by (rewrite shape_length; lia). cbn [zprod].
    rewrite shape_nth by lia. replace (rk - 1 - o)%nat with r by lia. ring.
Qed.

Lemma zrep_zord : forall rk r so z i, zrep rk r so z i -> zord rk z.
Proof. intros rk r so z i (Hl & H). split; auto. intros k Hk. apply H; auto. Qed.

(* a list of computations that leave vectors of size rk alone *)
Lemma runs_put : forall rk (l : list (M (W * list zt) X)) (m : list (M W X)),
  Forall2 (fun a b => forall w z, zord rk z -> a (w, z) = put z (b w)) l m ->
  forall w z, zord rk z -> runs post l (w, z) = put z (runs post m w).
Proof.
  induction 1; intros; [reflexivity|]. cbn [runs]. rewrite H by auto. destruct (y w) as [x0 w'|w'|]; cbn [put]; auto.
  destruct (post x0); auto.
Qed.

Lemma ravel_loop_n_spec : forall (e : expr) rk r o so, wf e -> rankn e = rk -> (r + o = rk)%nat -> (0 < o)%nat -> length so = r ->
  forall ss, 0 <= ss ->
  let D i t := deref (goto e (fz (i ++ repeat 0 (rk-r-1) ++ [t]))) in
  forall G : list Z -> Z -> M W X,
  (forall i t w z, inshape i so -> 0 <= t < ss -> zord rk z -> D i t (w, z) = put z (G i t w)) ->
  forall fuel z i w, inshape i so -> (length (indices_from so i) <= fuel)%nat -> zrep rk r so z i ->
  exists z', ravel_loop_n post fuel rk r o ss (stepe e (rk-1)) (goto e (fz (i ++ repeat 0 (rk-r)))) (w, z) =
    put z' (runs post (flat_map (fun i => map (G i) (zrange ss)) (indices_from so i)) w) /\
    (forall w', runs post (flat_map (fun i => map (G i) (zrange ss)) (indices_from so i)) w = Ok None w' -> zclean z').
Proof.
  intros e rk r o so Hw Hr Hro Ho Hso ss Hss D G HG. induction fuel; intros z i w Hi Hf Hz.
  { rewrite indices_from_succ in Hf by auto. simpl in Hf. lia. }
  rewrite indices_from_succ in * by auto. cbn [flat_map ravel_loop_n].
  pose proof (inshape_length _ _ Hi) as Hil.
  destruct (inner_spec_z post e (rk-1) Hw ss (fz (i ++ repeat 0 (rk-r))) (w, z) Hss) as (a & ->).
  rewrite (map_ext (fun t => deref (goto e (upd (fz (i ++ repeat 0 (rk-r))) (rk-1) t))) (D i)).
  2: { intros t. unfold D. f_equal. apply goto_ext; auto. intros k _. replace t with (0 + t) at 2 by lia. rewrite fz_last.
       rewrite Hil, Hso. replace (r + (rk-r-1))%nat with (rk-1)%nat by lia. unfold upd.
       replace (fz (i ++ repeat 0 (rk-r-1) ++ [0]) k) with (fz (i ++ repeat 0 (rk-r)) k); auto.
       change [0] with (repeat 0 1). rewrite <- repeat_app. replace (rk-r-1+1)%nat with (rk-r)%nat by lia. reflexivity. }
  assert (Hzo : zord rk z) by (eapply zrep_zord; eauto).
  rewrite (runs_put rk (map (D i) (zrange ss)) (map (G i) (zrange ss))); auto.
  2: { assert (Hz0 : Forall (fun t => 0 <= t < ss) (zrange ss)) by (apply Forall_forall; intros t; apply in_zrange).
       clear - HG Hi Hz0. induction Hz0; cbn [map]; constructor; auto. }
  rewrite runs_app.
  destruct (runs post (map (G i) (zrange ss)) w) as [[x|] w1|w1|] eqn:E; cbn [res_of put].
  - exists z. split; auto. discriminate.
  - rewrite goto_load.
    pose proof (odo_spec e rk r o so Hw Hro Hso r 0 z i ltac:(lia)) as Hodo.
    assert (Hfa : firstn r so = so) by (rewrite <- Hso; apply firstn_all).
    rewrite Hfa in Hodo. cbn [repeat] in Hodo. rewrite app_nil_r in Hodo.
    specialize (Hodo Hi Hz).
    replace (goto e (fz (i ++ repeat 0 (rk-r)))) with (goto e (fz i)).
    2: { apply goto_ext; auto. intros. unfold fz. rewrite nth_app_zeros. reflexivity. }
    replace (length z =? rk)%nat with true by (symmetry; apply Nat.eqb_eq; apply Hzo). cbn [negb].
    destruct (succ so i) as [i'|] eqn:Es.
    + destruct Hodo as (z' & Eo & Hz'). rewrite app_nil_r in Eo. rewrite Eo. rewrite app_nil_r in Hz'.
      destruct (Nat.eqb_spec r 0). { subst r. destruct so; [|discriminate]. destruct i; discriminate. }
      assert (Hi' : inshape i' so) by (eapply succ_inshape; eauto).
      replace (goto e (fz i')) with (goto e (fz (i' ++ repeat 0 (rk-r)))).
      2: { apply goto_ext; auto. intros. unfold fz. rewrite nth_app_zeros. reflexivity. }
      apply IHfuel; auto. simpl in Hf. lia.
    + destruct Hodo as (z' & a' & Eo & Hz'). rewrite Eo. cbn [flat_map runs].
      destruct (Nat.eqb_spec r 0).
      * subst r. exists z. split; [reflexivity|]. intros _ _. destruct so; [|discriminate]. destruct i; [|discriminate].
        cbn [odo] in Eo. injection Eo as <- _. eapply zrep_clean; eauto.
      * exists z'. split; [reflexivity|]. intros _ _. eapply zrep_clean; eauto.
  - exists z. split; auto. discriminate.
  - exists z. split; auto. discriminate.
Qed.

(* once, with no axis left, whatever the operations do *)
Lemma ravel_loop_n_flat : forall (e : expr) rk o ss, wf e -> 0 <= ss -> (0 < rk)%nat -> forall fuel w, (0 < fuel)%nat ->
  ravel_loop_n post fuel rk 0 o ss (stepe e (rk-1)) e w =
  runs post (map (fun t => deref (goto e (fz (repeat 0 (rk-1) ++ [t])))) (zrange ss)) w.
Proof.
  intros e rk o ss Hw Hss Hrk [|fuel] w Hf; [lia|]. cbn [ravel_loop_n].
  pose proof (inner_spec_z post e (rk-1) Hw ss (fz (repeat 0 rk)) w Hss) as (a & H).
  replace (goto e (fz (repeat 0 rk))) with e in H.
  2: { rewrite <- (goto_zero e) at 1. apply goto_ext; auto. intros. unfold fz. rewrite nth_repeat0. reflexivity. }
  rewrite H.
  rewrite (map_ext (fun t => deref (goto e (upd (fz (repeat 0 rk)) (rk-1) t))) (fun t => deref (goto e (fz (repeat 0 (rk-1) ++ [t]))))).
  2: { intros t. f_equal. apply goto_ext; auto. intros k _. unfold upd, fz. rewrite nth_repeat0. destruct (Nat.eqb_spec k (rk-1)).
       - subst. rewrite app_nth2 by (rewrite repeat_length; lia). rewrite repeat_length, Nat.sub_diag. reflexivity.
       - destruct (Nat.lt_ge_cases k (rk-1)).
         + rewrite app_nth1 by (rewrite repeat_length; lia). rewrite nth_repeat0. reflexivity.
         + rewrite nth_overflow; [reflexivity|]. rewrite app_length, repeat_length. simpl. lia. }
  clear H. destruct (runs _ _ w) as [[x|] [w1 z1]|w1|]; reflexivity.
Qed.

Lemma zord_same : forall rk z, zord rk z -> zsetorder rk 0 (zresize z rk) = z.
Proof.
  intros rk z (Hl & H). unfold zresize. rewrite firstn_all2 by lia. replace (rk - length z)%nat with 0%nat by lia. cbn [repeat]. rewrite app_nil_r.
  apply nth_ext with (d := zt0) (d' := zt0); [apply zsetorder_length|]. intros k Hk. rewrite zsetorder_length in Hk.
  change (zk (zsetorder rk 0 z) k = zk z k). rewrite zsetorder_nth by auto. rewrite Nat.add_0_l. rewrite <- (H k) by lia. destruct (zk z k); reflexivity.
Qed.

Lemma zord_new : forall rk z, zord rk (zsetorder rk 0 (zresize z rk)).
Proof.
  intros. split; [rewrite zsetorder_length, zresize_length; auto|]. intros k Hk. rewrite zsetorder_nth by (rewrite zresize_length; auto). reflexivity.
Qed.

Lemma zclean_new : forall rk z, zclean z -> zclean (zsetorder rk 0 (zresize z rk)).
Proof.
  intros rk z H. apply Forall_forall. intros x Hx. apply (In_nth _ _ zt0) in Hx. destruct Hx as (k & Hk & <-).
  change (zind (zk (zsetorder rk 0 (zresize z rk)) k) = 0). rewrite zsetorder_length in Hk. rewrite zsetorder_nth by auto. cbn [zind].
  apply zclean_nth. apply zresize_clean; auto.
Qed.

(* Vectors that the operations find while an expression of rank rk is being traversed (with rank 0, the vector is not used). *)
Definition own (rk : nat) (z : list zt) : Prop := rk = 0%nat \/ zord rk z.

Lemma deref_at_goto : forall e : expr, wf e -> forall j w, inshape j (shape e) -> deref (goto e (fz j)) w = at_ e j w.
Proof.
  intros e Hw j w Hj. apply deref_at; auto.
  - rewrite (inshape_length _ _ Hj), shape_length. lia.
  - apply okidx_inshape; auto.
Qed.

Lemma Forall2_flat_map : forall A B C (P : B -> C -> Prop) (f : A -> list B) (g : A -> list C) l,
  (forall x, In x l -> Forall2 P (f x) (g x)) -> Forall2 P (flat_map f l) (flat_map g l).
Proof.
  induction l; intros; cbn [flat_map]; [constructor|]. apply Forall2_app; [apply H; left; auto|]. apply IHl. intros. apply H. right; auto.
Qed.

Lemma ply_ravel_n_apart : forall e : expr, wf e -> validate e = true -> forall g : list Z -> M W X,
  (forall j w z, inshape j (shape e) -> own (rankn e) z -> at_ e j (w, z) = put z (g j w)) ->
  forall z w, zclean z -> exists N, forall fuel, (N <= fuel)%nat -> exists z',
    ply_ravel_n post fuel e (w, z) = put z' (visit post g (indices (shape e)) w) /\
    (forall w', visit post g (indices (shape e)) w = Ok None w' -> zclean z').
Proof.
  intros e Hw Hv g Hg z w Hc. unfold ply_ravel_n. rewrite Hv. apply validate_spec in Hv. destruct Hv as (_ & Hs).
  destruct (rankn e) as [|r] eqn:Hr.
  { exists 0%nat. intros _ _. rewrite rank0_visit by auto. exists z.
    replace (shape e) with (@nil Z) in * by (symmetry; apply length_zero_iff_nil; rewrite shape_length; lia).
    cbn [indices visit]. rewrite Hg by (constructor || left; reflexivity).
    destruct (g [] w) as [x w'|w'|]; cbn [put]; [destruct (post x)| |]; split; auto; discriminate. }
  set (z1 := zsetorder (S r) 0 (zresize z (S r))).
  assert (Hz1 : zord (S r) z1) by apply zord_new.
  assert (Hc1 : zclean z1) by (apply zclean_new; auto).
  replace (zorder (zk z1 0)) with r by (destruct Hz1 as (_ & H); rewrite H by lia; lia).
  destruct (merge_spec e (S r) z1 Hw Hr Hz1 r 1 (lene e r)) as (r' & o & ss & -> & Hro & Ho & Hss & Hm); try lia.
  { rewrite (skipn_cons (shape e) r 0) by (rewrite shape_length; lia). rewrite skipn_all2 by (rewrite shape_length; lia).
    rewrite shape_nth by lia. cbn [zprod]. ring. }
  { apply merged_base; auto. }
  destruct (setsha_spec e (S r) r' o (firstn r' (shape e)) Hr Hro Ho eq_refl r' 0 z1) as (z2 & b & -> & Hc2 & Hbt & Hbf); auto; try lia.
  destruct b.
  - exists 0%nat. intros _ _. destruct (Hbt eq_refl) as (k & Hk & Hle). rewrite (indices_nonpos (shape e) k) by (rewrite ?shape_length; auto; lia).
    exists z2. split; auto.
  - destruct (Hbf eq_refl) as (Hz2 & Hpos).
    replace (zorder (zk z2 0)) with (S r - 1)%nat by (destruct Hz2 as (_ & H); destruct (H 0%nat ltac:(lia)) as (-> & _); lia).
    set (so := firstn r' (shape e)) in *.
    assert (Hsol : length so = r') by (unfold so; rewrite firstn_length, shape_length; lia).
    assert (Hsp : Forall (fun n => 0 <= n) (skipn r' (shape e))).
    { rewrite <- (firstn_skipn r' (shape e)) in Hs. apply Forall_app in Hs. tauto. }
    assert (Hss0 : 0 <= ss) by (subst ss; apply zprod_nonneg; auto).
    assert (Hmz : map (fun _ => 0) so = repeat 0 r').
    { rewrite <- Hsol. clear. induction so; simpl; congruence. }
    pose (D := fun i t => deref (goto e (fz (i ++ repeat 0 (S r - r' - 1) ++ [t])))).
    pose (G := fun i t w => strip (D i t (w, z1))).
    assert (HD : forall i j, inshape i so -> inshape j (skipn r' (shape e)) -> D i (rm (skipn r' (shape e)) j) = deref (goto e (fz (i ++ j)))).
    { intros i j Hi Hj. unfold D. f_equal. symmetry. apply Hm; [rewrite (inshape_length _ _ Hi); auto|].
      rewrite (inshape_length _ _ Hj). rewrite skipn_length, shape_length. lia. }
    assert (Hat : forall i j, inshape i so -> inshape j (skipn r' (shape e)) -> inshape (i ++ j) (shape e)).
    { intros. rewrite <- (firstn_skipn r' (shape e)). apply inshape_app; auto. }
    assert (HG : forall i t w z, inshape i so -> 0 <= t < ss -> zord (S r) z -> D i t (w, z) = put z (G i t w)).
    { intros i t w0 z0 Hi Ht Hz0. assert (Hin : In t (map (rm (skipn r' (shape e))) (indices (skipn r' (shape e))))).
      { rewrite rm_indices by auto. apply in_zrange. lia. }
      apply in_map_iff in Hin. destruct Hin as (j & <- & Hj). apply in_indices in Hj. unfold G. rewrite HD by auto.
      rewrite !(deref_at_goto e) by auto. rewrite !Hg by (auto; right; auto). rewrite strip_put. reflexivity. }
    exists (length (indices so)). intros fuel Hfuel.
    pose proof (ravel_loop_n_spec e (S r) r' o so Hw Hr Hro Ho Hsol ss Hss0 G HG fuel z2 (repeat 0 r') w) as H.
    rewrite <- Hmz in H. rewrite indices_from_zero in H by auto. rewrite Hmz in H.
    replace (goto e (fz (repeat 0 r' ++ repeat 0 (S r - r')))) with e in H.
    2: { rewrite <- (goto_zero e) at 1. apply goto_ext; auto. intros. unfold fz. rewrite nth_app_zeros, nth_repeat0. reflexivity. }
    assert (Hin : inshape (repeat 0 r') so).
    { apply nth_inshape; [rewrite repeat_length; auto|]. intros k Hk. rewrite nth_repeat0. rewrite Forall_forall in Hpos.
      split; [lia|]. apply Hpos. apply nth_In; auto. }
    specialize (H Hin Hfuel Hz2).
    assert (Ev : forall w, runs post (flat_map (fun i => map (G i) (zrange ss)) (indices so)) w = visit post g (indices (shape e)) w).
    { intros w'. rewrite visit_runs. apply runs_ext.
      rewrite <- (firstn_skipn r' (shape e)) at 1. fold so. rewrite indices_app. rewrite map_flat_map.
      apply Forall2_flat_map. intros i Hi. rewrite map_map. subst ss. rewrite <- rm_indices by auto. rewrite map_map.
      apply Forall2_map_map. intros j Hj w0. apply in_indices in Hi. apply in_indices in Hj. unfold G. rewrite HD by auto.
      rewrite (deref_at_goto e) by auto. rewrite Hg by (auto; right; auto). apply strip_put. }
    rewrite Ev in H. exact H.
Qed.

Lemma ply_ravel_n_flat : forall e : expr, wf e -> validate e = true -> flat e (shape e) -> forall z w fuel, (0 < fuel)%nat -> exists z',
  ply_ravel_n post fuel e (w, z) = visit post (at_ e) (indices (shape e)) (w, z') /\ (own (rankn e) z -> z' = z).
Proof.
  intros e Hw Hv Hfl z w fuel Hf. unfold ply_ravel_n. rewrite Hv. apply validate_spec in Hv. destruct Hv as (_ & Hs).
  destruct (rankn e) as [|r] eqn:Hr.
  { exists z. rewrite rank0_visit by auto. auto. }
  set (z1 := zsetorder (S r) 0 (zresize z (S r))).
  assert (Hz1 : zord (S r) z1) by apply zord_new.
  replace (zorder (zk z1 0)) with r by (destruct Hz1 as (_ & H); rewrite H by lia; lia).
  assert (Hl0 : lene e r = zprod (skipn r (shape e))).
  { rewrite (skipn_cons (shape e) r 0) by (rewrite shape_length; lia). rewrite skipn_all2 by (rewrite shape_length; lia).
    rewrite shape_nth by lia. cbn [zprod]. ring. }
  assert (Hm0 : exists o ss, merge e z1 r 1 (lene e r) = (0%nat, o, ss)).
  { destruct Hfl as [Hl|He].
    - rewrite shape_length in Hl. replace r with 0%nat in * by lia. cbn [merge]. eauto.
    - apply (flat_merge e (S r)); auto; lia. }
  destruct (merge_spec e (S r) z1 Hw Hr Hz1 r 1 (lene e r)) as (r' & o & ss & E & Hro & Ho & Hss & Hm); try lia; auto.
  { apply merged_base; auto. }
  destruct Hm0 as (o' & ss' & E'). rewrite E' in E. injection E as <- <- <-. rewrite E'. cbn [setsha].
  exists z1. split; [|intros [H|H]; [discriminate|apply zord_same; auto]].
  replace (zorder (zk z1 0)) with (S r - 1)%nat by (destruct Hz1 as (_ & H); rewrite H by lia; lia).
  assert (Hss0 : 0 <= ss') by (subst ss'; apply zprod_nonneg; auto).
  rewrite ravel_loop_n_flat by (auto; lia). rewrite <- visit_at by auto. subst ss'. cbn [skipn]. rewrite <- rm_indices by auto. rewrite map_map.
  f_equal. apply map_ext_in. intros j Hj. f_equal. apply in_indices in Hj. specialize (Hm [] j eq_refl). cbn [app skipn] in Hm.
  rewrite Hm by (rewrite (inshape_length _ _ Hj), shape_length; lia). rewrite Nat.sub_0_r. reflexivity.
Qed.

End Nested.

(* ---- C71 ---- *)

(* If the operations leave the vector of the traversal as it is, in particular if they don't traverse expressions of the same type, then the traversal
   gives what it should for them. Missing: operations that traverse expressions of the same type, except as in C71_flat. *)
Theorem C71_apart_partial : forall X W R (post : X -> option R) (e : expr X (W * list zt)) s js (g : list Z -> M W X), wf e -> shape_is e s -> row_major s js ->
  (forall j w z, inshape j s -> own (length s) z -> element e j (w, z) = put z (g j w)) ->
  forall z w, zclean z -> exists N, forall fuel, (N <= fuel)%nat -> exists z',
    ply_ravel_n post fuel e (w, z) = put z' (visit post g js w) /\ (forall w', visit post g js w = Ok None w' -> zclean z').
Proof.
  intros X W R post e s js g Hw Hs Hj Hg z w Hz. apply shape_is_shape in Hs; auto. destruct Hs as (-> & Hv).
  apply row_major_unique in Hj. subst js. rewrite shape_length in Hg. apply ply_ravel_n_apart; auto.
  intros. rewrite element_at by auto. apply Hg; auto.
Qed.
Print Assumptions C71_apart_partial.

(* With rank 1 at most, or if the elements of the leaves are consecutive, the operations may do anything with the vector, that is they may
   traverse any expressions. *)
Theorem C71_flat : forall X W R (post : X -> option R) (e : expr X (W * list zt)) s js, wf e -> shape_is e s -> row_major s js -> flat e s ->
  forall z w fuel, (0 < fuel)%nat -> exists z', ply_ravel_n post fuel e (w, z) = visit post (element e) js (w, z') /\ (own (length s) z -> z' = z).
Proof.
  intros X W R post e s js Hw Hs Hj Hf z w fuel H. apply shape_is_shape in Hs; auto. destruct Hs as (-> & Hv).
  apply row_major_unique in Hj. subst js. rewrite shape_length.
  destruct (ply_ravel_n_flat post e Hw Hv Hf z w fuel H) as (z' & E & Hz). exists z'. split; auto. rewrite E.
  apply visit_get_ext. intros. apply element_at; auto. apply in_indices; auto.
Qed.
Print Assumptions C71_flat.

(* So an operation may traverse expressions of the same type and rank if these have consecutive elements: the vector is as it was. *)
Theorem C71_flat_inside : forall X W R (post : X -> option R) (e : expr X (W * list zt)) s js (g : list Z -> M W X), wf e -> shape_is e s -> row_major s js -> flat e s ->
  (forall j w z, inshape j s -> own (length s) z -> element e j (w, z) = put z (g j w)) ->
  forall z w fuel, (0 < fuel)%nat -> own (length s) z -> ply_ravel_n post fuel e (w, z) = put z (visit post g js w).
Proof.
  intros X W R post e s js g Hw Hs Hj Hf Hg z w fuel H Hz.
  destruct (C71_flat X W R post e s js Hw Hs Hj Hf z w fuel H) as (z' & -> & E). rewrite (E Hz). clear E.
  assert (Hin : forall j, In j js -> inshape j s) by (intros; apply Hj; auto). clear Hj. revert w. induction js; intros; [reflexivity|]. cbn [visit].
  rewrite Hg by (auto; apply Hin; left; auto). destruct (g a w) as [x w'|w'|]; cbn [put]; auto. destruct (post x); auto.
  apply IHjs. intros. apply Hin. right; auto.
Qed.
Print Assumptions C71_flat_inside.

(* Views with rows that are not consecutive, at o, and an operation that notes its argument. *)
Definition exN (op : list Z -> M (list Z * list zt) Z) (o : Z) : expr Z (list Z * list zt) := Map op [Cell [Dim 2 10; Dim 2 1] 2 (fun p => p) o].
Definition note (xs : list Z) : M (list Z * list zt) Z := fun '(w, z) => Ok (zsum xs) (w ++ xs, z).
(* ... and, if it is 11, runs another traversal *)
Definition note_and (f : M (list Z * list zt) (option unit)) (xs : list Z) : M (list Z * list zt) Z :=
  fun w => match note xs w with
           | Ok x w1 => if x =? 11 then match f w1 with Ok _ w2 => Ok x w2 | Fail w2 => Fail w2 | Undef => Undef end else Ok x w1
           | o => o
           end.

(* What it should do: after 11, note the elements at 100. *)
Definition note_want (j : list Z) : M (list Z) Z :=
  fun w => let x := dotp [10; 1] j in Ok x (w ++ x :: (if x =? 11 then [100; 101; 110; 111] else [])).

(* The traversal that is run by the operation starts in the second row by the counter, and leaves the counter at 0. So it misses the second row of its
   own expression, and the outer traversal goes on to a third row, which is outside of the view. *)
Theorem C71_nested_refuted :
  let b := exN note 100 in let e := exN (note_and (ply_ravel_n no_stop 3 b)) 0 in
  exists s js, wf e /\ wf b /\ shape_is e s /\ shape_is b s /\ row_major s js /\
  visit no_stop note_want js [] = Ok None [0; 1; 10; 11; 100; 101; 110; 111] /\
  forall n, exists z, ply_ravel_n no_stop (3 + n) e ([], z_init) = Ok None ([0; 1; 10; 11; 100; 101; 20; 21], z).
Proof.
  intros b e. exists [2; 2], (indices [2; 2]).
  assert (H : forall op o, wf (exN op o)) by (intros; wfauto).
  split; [apply H|]. split; [apply H|]. split; [apply (shape_shape_is e (H _ _)); reflexivity|].
  split; [apply (shape_shape_is b (H _ _)); reflexivity|]. split; [apply row_major_indices|]. split; [reflexivity|].
  intros n. eexists. vm_compute. reflexivity.
Qed.
Print Assumptions C71_nested_refuted.

(* The same with one axis or consecutive rows is right, at any depth. *)
Definition exC (op : list Z -> M (list Z * list zt) Z) (o : Z) : expr Z (list Z * list zt) := Map op [Cell [Dim 2 2; Dim 2 1] 2 (fun p => p) o].
Example C71_ex :
  (forall op o, wf (exC op o) /\ shape_is (exC op o) [2; 2] /\ flat (exC op o) [2; 2]) /\ zclean z_init /\
  (forall j w z, inshape j [2; 2] -> element (exC note 100) j (w, z) = put z (let x := 100 + dotp [2; 1] j in Ok x (w ++ [x]))) /\
  (exists z, ply_ravel_n no_stop 1 (exC (note_and (ply_ravel_n no_stop 1 (exC note 100))) 9) ([], z_init) = Ok None ([9; 10; 11; 100; 101; 102; 103; 12], z)) /\
  (exists z, ply_ravel_n no_stop 3 (exN (note_and (ply_ravel_n no_stop 1 (exC note 100))) 0) ([], z_init) = Ok None ([0; 1; 10; 11; 100; 101; 102; 103], z)) /\
  ~ flat (exN note 0) [2; 2].
Proof.
  assert (H : forall op o, wf (exC op o)) by (intros; wfauto).
  split; [|split; [exact z_init_clean|split; [|split; [|split]]]].
  - intros. split; [apply H|]. split; [apply (shape_shape_is _ (H op o)); reflexivity|]. right. cbn. split; auto.
    intros k Hk. destruct k as [|[|]]; try lia. reflexivity.
  - intros j w z Hj. inversion Hj as [|x ? j' ? Hx Hj']; subst. inversion Hj' as [|y ? j'' ? Hy Hj'']; subst. inversion Hj''; subst.
    cbn -[Z.add Z.mul]. replace (100 + (x * 2 + (y * 1 + 0)) + 0) with (100 + (x * 2 + (y * 1 + 0))) by ring. reflexivity.
  - eexists. vm_compute. reflexivity.
  - eexists. vm_compute. reflexivity.
  - intros [Hl|He]; [cbn in Hl; lia|]. cbn in He. destruct He as (He & _). specialize (He 0%nat). cbn in He. lia.
Qed.
