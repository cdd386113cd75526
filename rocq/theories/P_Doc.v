(* Property C113: the reductions over axes and the matrix product of the manual. *)
From Coq Require Import ZArith List Lia Bool Sorting.Sorted.
From Verif Require Import Spec L_Spec Spec_Ply Spec_Expr M_Base M_Expr M_Ply M_Val Spec_Val L_Expr L_Agree L_Ply L_Stl L_Run L_Val P_Reduce M_View Spec_View L_View P_View M_Slice Spec_Slice L_Slice P_Slice M_Frame Spec_Frame L_Frame P_Frame M_Mat Spec_Mat P_Mat P_Outer M_Cell P_Cell M_Cells P_Cells M_Doc.
Import ListNotations.
Open Scope Z_scope.

(* Each element of c, of place pc j, has been joined with the elements of a at k ++ j, in row-major order of k, and nothing else has changed. *)
Definition summed {T} (f : T -> T -> T) (c a : view) (s : list Z) (m m' : mem T) : Prop :=
  (forall j ks, inshape j (vshape c) -> row_major s ks -> m' (vplace c j) = fold_left f (map (fun k => m (vplace a (k ++ j))) ks) (m (vplace c j))) /\
  forall p, (forall j, inshape j (vshape c) -> p <> vplace c j) -> m' p = m p.

Section Doc.
Context {T : Type}.
Variables (fixed : bool) (z : list zt).
Hypothesis Hz : zclean z.
Notation ex := (expr (val T) (mem T)).

(* wrank<r, r> *)
Lemma eqb_list_refl : forall l, eqb_list l l = true.
Proof. induction l; cbn; [auto|]. rewrite Nat.eqb_refl. auto. Qed.
Lemma reframe_same : forall (e : ex) n, reframe e (seq 0 n) = e.
Proof. intros. unfold reframe. rewrite seq_length, eqb_list_refl. reflexivity. Qed.
Lemma rank_viter : forall v, rankn (viter (T:=T) v) = vrank v.
Proof. intros. unfold rankn, viter. cbn [rank]. apply Nat2Z.id. Qed.
Lemma shift_seq : forall n k, map (Nat.add k) (seq 0 n) = seq k n.
Proof. intros n k. rewrite <- (Nat.add_0_r k) at 2. generalize 0%nat. induction n; intros s; cbn [seq map]; [auto|]. f_equal. rewrite IHn. f_equal. lia. Qed.
Lemma verb_rows_expr : forall op (c a : view), (vrank c <= vrank a)%nat ->
  map_verb [[vrank c; vrank c]] op [viter c; viter a] = Some (Map op [reframe (viter (T:=T) c) (seq (vrank a - vrank c) (vrank c)); viter a]).
Proof.
  intros op c a H. apply map_verb_iff. cbn [map]. rewrite !rank_viter. split; [cbn [verb_ok]; split; [repeat constructor; auto|exact I]|]. f_equal.
  cbn [dest each2 map maxl]. rewrite !Nat.sub_diag, Nat.max_0_l, Nat.max_0_r, shift_seq. cbn [seq app]. f_equal. f_equal.
  change (seq (vrank a - vrank c) (vrank c)) with (seq (0 + (vrank a - vrank c)) (vrank c)). rewrite <- seq_app. rewrite reframe_same. reflexivity.
Qed.
Lemma filter_back : forall s t j0, inshape j0 t -> forall q : list Z -> bool, (forall i j, inshape i s -> inshape j t -> q (i ++ j) = true <-> j = j0) -> filter q (indices (s ++ t)) = map (fun i => i ++ j0) (indices s).
Proof.
  intros s t j0 Hj q Hq. apply sorted_unique.
  - apply filter_sorted, indices_sorted.
  - assert (L : forall i i', length i = length i' -> lexlt i i' -> lexlt (i ++ j0) (i' ++ j0)).
    { clear. intros i i' E H. induction H as [x y k k' H|x k k' H IH]; cbn [app]; [apply lex_hd; auto|]. apply lex_tl. apply IH. cbn in E. lia. }
    pose proof (indices_sorted s) as S. assert (E : forall i, In i (indices s) -> length i = length s) by (intros i Hi; apply in_indices in Hi; eapply inshape_length; eauto).
    induction S as [|x l S IH F]; cbn [map]; constructor.
    + apply IH. intros; apply E; right; auto.
    + rewrite Forall_forall in F |- *. intros y Hy. apply in_map_iff in Hy as (y' & <- & Hy'). apply L; auto. rewrite (E x), (E y'); auto; [right|left]; auto.
  - intros y. rewrite filter_In, in_map_iff, in_indices. split.
    + intros (Hy & Hq1). unfold inshape in Hy. apply Forall2_app_inv_r in Hy as (i & j & Hi & Hj' & ->). apply Hq in Hq1; auto. subst. exists i. split; [auto|]. apply in_indices; auto.
    + intros (i & <- & Hi). apply in_indices in Hi. split; [apply join_shape; auto|]. apply Hq; auto.
Qed.
Lemma rows_seq : forall (j : list Z) n r, length j = (n + r)%nat -> map (fun k => nth k j 0) (seq n r) = skipn n j.
Proof.
  intros j n r H. apply (list_eq_nth _ _ _ 0); [rewrite map_length, seq_length, skipn_length; lia|]. intros k Hk. rewrite map_length, seq_length in Hk.
  rewrite (nth_map (fun k => nth k j 0) _ _ 0%nat) by (rewrite seq_length; auto). rewrite seq_nth by auto. symmetry. apply nth_skipn.
Qed.

Lemma top_at : forall n r, (top (seq n r) <= n + r)%nat.
Proof. intros n r; revert n. induction r; intros n; [cbn; lia|]. change (top (seq n (S r))) with (Nat.max (S n) (top (seq (S n) r))). specialize (IHr (S n)). lia. Qed.
Theorem C113_verb : forall f (c a : view) s (m : mem T), vshape a = s ++ vshape c -> nonneg (vshape a) -> P_Cells.separate c a -> apart_at c ->
  exists m', verb_rows fixed z f c a m = Ok None m' /\ summed f c a s m m'.
Proof.
  intros f c a s m Ea Na Hca Hc. assert (Nc : nonneg (vshape c)) by (rewrite Ea in Na; unfold nonneg in *; rewrite Forall_app in Na; tauto).
  pose proof (vrank_shape c) as Rc. pose proof (vrank_shape a) as Ra. rewrite Ea, app_length in Ra.
  destruct (view_shape (T:=T) a _ eq_refl Na) as (Wa & Sa). destruct (view_shape (T:=T) c _ eq_refl Nc) as (Wc & Sc).
  unfold verb_rows, each_verb. rewrite verb_rows_expr by lia. replace (vrank a - vrank c)%nat with (length s) by lia.
  assert (Wr : wf (reframe (viter (T:=T) c) (seq (length s) (vrank c)))) by (apply reframe_wf; auto; [apply seq_NoDup|rewrite seq_length, rank_viter; auto]).
  set (pl := fun j => vplace c (skipn (length s) j)).
  destruct (assign_scatter T f (reframe (viter c) (seq (length s) (vrank c))) (viter a) (vshape a) m pl (fun j => m (vplace a j)) fixed z) as (m' & E1 & E2); auto.
  - split.
    + cbn [fold_right]. rewrite reframe_axes by (auto; rewrite seq_length, rank_viter; auto). replace (axes (viter (T:=T) a)) with (vrank a) by reflexivity. rewrite <- vrank_shape.
      assert ((top (seq (length s) (vrank c)) <= vrank a)%nat) by (rewrite Ra, <- Rc; apply top_at).
      lia.
    + intros k Hk. assert (Hka : (k < vrank a)%nat).
      { cbn [fold_right] in Hk. rewrite reframe_axes in Hk by (auto; rewrite seq_length, rank_viter; auto). replace (axes (viter (T:=T) a)) with (vrank a) in Hk by reflexivity.
        assert ((top (seq (length s) (vrank c)) <= vrank a)%nat) by (rewrite Ra, <- Rc; apply top_at). lia. }
      destruct (proj2 Sa k Hka) as (P1 & P2 & P3). split; [auto|]. cbn [flat_map]. rewrite app_nil_r. split; [apply in_or_app; right; auto|]. apply Forall_app. split; [|auto].
      rewrite reframe_lens by (auto; rewrite seq_length, rank_viter; auto). rewrite positions_seq. destruct (Nat.leb_spec (length s) k); cbn [andb]; [|constructor].
      destruct (Nat.ltb_spec k (length s + vrank c)); [|constructor]. cbn [flat_map]. rewrite app_nil_r, viter_lens. destruct (Nat.ltb_spec (0 + (k - length s)) (vrank c)); [|lia].
      constructor; [|constructor]. left. rewrite Ea, app_nth2 by lia. f_equal.
  - intros j m' Hj. rewrite reframe_element; [|auto|rewrite seq_length, rank_viter; auto|apply Forall_forall; intros k Hk; apply in_seq in Hk; rewrite (inshape_length _ _ Hj), <- vrank_shape; lia].
    rewrite rows_seq by (rewrite (inshape_length _ _ Hj), <- vrank_shape; lia). rewrite viter_element. rewrite firstn_all2; [reflexivity|]. rewrite skipn_length, (inshape_length _ _ Hj), <- vrank_shape. lia.
  - intros j m' Hj Hm. exists (VRef (vplace a j)). split.
    + rewrite viter_element, firstn_all2; [reflexivity|]. rewrite (inshape_length _ _ Hj), <- vrank_shape. lia.
    + cbn. f_equal. apply Hm. intros j' Hj' _. unfold pl. intros E. rewrite Ea in Hj'. unfold inshape in Hj'. apply Forall2_app_inv_r in Hj' as (i1 & i2 & Hi1 & Hi2 & ->).
      rewrite skipn_app, (inshape_length _ _ Hi1), Nat.sub_diag, skipn_all2 in E by (rewrite (inshape_length _ _ Hi1); auto). apply (Hca i2 j); auto.
  - exists m'. split; [exact E1|]. assert (Sk : forall i j, inshape i s -> skipn (length s) (i ++ j) = j).
    { intros i j Hi. rewrite skipn_app, (inshape_length _ _ Hi), Nat.sub_diag, skipn_all2 by (rewrite (inshape_length _ _ Hi); auto). reflexivity. }
    split.
    + intros j ks Hj Hks. apply row_major_unique in Hks. subst ks. rewrite E2. f_equal. rewrite Ea. rewrite (filter_back s (vshape c) j); auto; [rewrite map_map; reflexivity|].
      intros i j' Hi Hj'. unfold pl. rewrite Sk, Z.eqb_eq by auto. split; [|intros ->; auto]. intros E. apply Hc; auto.
    + intros p Hp. rewrite E2. rewrite filter_none; [reflexivity|]. intros y Hy. apply in_indices in Hy. rewrite Ea in Hy. unfold inshape in Hy. apply Forall2_app_inv_r in Hy as (i1 & i2 & Hi1 & Hi2 & ->).
      unfold pl. rewrite Sk by auto. apply Z.eqb_neq. intros E. apply (Hp i2); auto.
Qed.

Theorem C113_cells : forall fi zi f (c a : view) s (m : mem T), zclean zi -> vshape a = s ++ vshape c -> nonneg (vshape a) -> P_Cells.separate c a -> apart_at c ->
  exists m', cell_rows fixed z fi zi f c a m = Ok None m' /\ summed f c a s m m'.
Proof.
  intros fi zi f c a s m Hzi Ea Na Hca Hc. pose proof (vrank_shape c) as Rc. pose proof (vrank_shape a) as Ra. rewrite Ea, app_length in Ra.
  destruct (C108_reduce fixed fi z zi Hz Hzi f c (Z.of_nat (vrank c)) a (Z.of_nat (vrank c)) [] s (vshape c) [] m) as (m' & E & S & O); auto.
  - cbn [app]. rewrite app_nil_r. auto.
  - cbn [length]. unfold P_Cell.frame_axes. lia.
  - cbn [app]. unfold P_Cell.frame_axes. lia.
  - cbn [app]. rewrite app_nil_r, <- Ea. auto.
  - exists m'. split; [exact E|]. split; [|exact O]. intros j ks Hj Hks. apply row_major_unique in Hks. subst ks. specialize (S [] j ltac:(constructor) Hj). cbn [app] in S. rewrite S. f_equal.
    generalize (indices s) as l. induction l as [|k l IH]; [reflexivity|]. cbn [list_prod indices map app fst snd]. rewrite app_nil_r. f_equal. exact IH.
Qed.

Lemma last_perm : forall n r, axis_permutation (n + r) (last_axes n r).
Proof.
  intros n r. apply facts_perm.
  - unfold last_axes. rewrite map_length, app_length, !seq_length. lia.
  - unfold last_axes. apply FinFun.Injective_map_NoDup; [intros x y; lia|]. apply nodup_app; try apply seq_NoDup. intros x H1 H2. apply in_seq in H1, H2. lia.
  - intros x Hx. unfold last_axes in Hx. apply in_map_iff in Hx as (y & <- & Hy). apply in_app_iff in Hy as [Hy|Hy]; apply in_seq in Hy; lia.
Qed.
Lemma last_nth : forall n r k, (k < n + r)%nat -> nth k (last_axes n r) 0 = Z.of_nat (if (k <? n)%nat then r + k else k - n).
Proof.
  intros n r k Hk. unfold last_axes. rewrite (nth_map Z.of_nat _ _ 0%nat) by (rewrite app_length, !seq_length; lia). f_equal. destruct (Nat.ltb_spec k n).
  - rewrite app_nth1, seq_nth by (rewrite ?seq_length; auto). auto.
  - rewrite app_nth2, seq_length, seq_nth by (rewrite ?seq_length; lia). auto.
Qed.
Lemma transposed : forall (a : view) s t, vshape a = s ++ t -> nonneg (vshape a) -> exists b, transpose a (last_axes (length s) (length t)) = Good b /\ vshape b = t ++ s /\
  forall i k, length i = length t -> length k = length s -> vplace b (i ++ k) = vplace a (k ++ i).
Proof.
  intros a s t Ea Na. pose proof (vrank_shape a) as Ra. rewrite Ea, app_length in Ra. pose proof (last_perm (length s) (length t)) as P. rewrite <- Ra in P.
  destruct (transpose_perm a _ P) as (b & Hb & Rb & _ & Db). exists b. split; [auto|]. destruct (perm_facts _ _ P) as (Lp & _ & Ip).
  assert (Hs : Forall (fun sk => 0 <= sk) (last_axes (length s) (length t))) by (apply Forall_forall; intros x Hx; apply Ip in Hx; lia).
  destruct (C18_transpose a _ Hs Lp Na) as (b' & Hb' & _ & _ & Pl & _). rewrite Hb in Hb'. inversion Hb'; subst b'. split.
  - apply (list_eq_nth _ _ _ 0); [rewrite <- vrank_shape, Rb, app_length; lia|]. rewrite <- vrank_shape, Rb. intros k Hk. unfold vshape. rewrite (nth_map len _ _ dim0) by (unfold vrank in Rb, Ra, Hk; rewrite Rb; unfold vrank; auto).
    assert (Q : forall l, (l < vrank a)%nat -> (if (l <? length s)%nat then (length t + l) else (l - length s))%nat = k -> len (nth k (vdv b) dim0) = nth l (vshape a) 0).
    { intros l Hl El. specialize (Db l Hl). rewrite last_nth, El, Nat2Z.id in Db by lia. rewrite Db. unfold vshape. rewrite (nth_map len _ _ dim0) by exact Hl. reflexivity. }
    destruct (Nat.ltb_spec k (length t)).
    + rewrite (Q (length s + k)%nat); [|lia|destruct (Nat.ltb_spec (length s + k) (length s)); lia]. rewrite Ea, app_nth2, app_nth1 by lia. f_equal. lia.
    + rewrite (Q (k - length t)%nat); [|lia|destruct (Nat.ltb_spec (k - length t) (length s)); lia]. rewrite Ea, app_nth1, app_nth2 by lia. reflexivity.
  - intros i k Hi Hk. rewrite Pl by (rewrite app_length; lia). f_equal. unfold last_axes. rewrite map_map. rewrite (map_ext _ (fun n => nth n (i ++ k) 0)) by (intros; rewrite Nat2Z.id; reflexivity).
    rewrite map_app. f_equal.
    + rewrite rows_seq by (rewrite app_length; lia). rewrite <- Hi, skipn_app, Nat.sub_diag, skipn_all. reflexivity.
    + rewrite <- Hi. clear. apply (list_eq_nth _ _ _ 0); [rewrite map_length, seq_length; auto|]. intros n Hn. rewrite map_length, seq_length in Hn.
      rewrite (nth_map (fun n => nth n (i ++ k) 0) _ _ 0%nat) by (rewrite seq_length; auto). rewrite seq_nth, app_nth1 by auto. reflexivity.
Qed.
Theorem C113_transpose : forall f (c a : view) s (m : mem T), vshape a = s ++ vshape c -> nonneg (vshape a) -> P_Cells.separate c a -> apart_at c ->
  exists m', transpose_rows fixed z f c a m = Ok None m' /\ summed f c a s m m'.
Proof.
  intros f c a s m Ea Na Hca Hc. assert (Nc : nonneg s /\ nonneg (vshape c)) by (rewrite Ea in Na; unfold nonneg in *; rewrite Forall_app in Na; auto). destruct Nc as (Ns & Nc).
  pose proof (vrank_shape c) as Rc. pose proof (vrank_shape a) as Ra. rewrite Ea, app_length in Ra.
  unfold transpose_rows. replace (vrank a - vrank c)%nat with (length s) by lia. rewrite Rc. destruct (transposed a s (vshape c) Ea Na) as (b & Hb & Sb & Pb). rewrite Hb. cbn [onres].
  assert (Nb : nonneg (vshape c ++ s)) by (unfold nonneg; apply Forall_app; auto).
  destruct (view_shape (T:=T) b _ Sb Nb) as (Wb & Shb). destruct (view_shape (T:=T) c _ eq_refl Nc) as (Wc & Shc).
  destruct (C30_reduce_assign T f (viter c) (viter b) (vshape c) s (indices s) m (vplace c) (fun j => m (vplace b j)) fixed z) as (m' & E & S & O); auto.
  - apply row_major_indices.
  - intros j m' Hj. rewrite viter_element, Rc, whole_in; auto.
  - intros m' Hm j Hj. exists (VRef (vplace b j)). rewrite viter_element, vrank_shape, Sb, whole_in by auto. split; [reflexivity|]. cbn. f_equal. apply Hm. intros i Hi E.
    unfold inshape in Hj. apply Forall2_app_inv_r in Hj as (i1 & i2 & Hi1 & Hi2 & ->). rewrite Pb in E by (eapply inshape_length; eauto). apply (Hca i (i2 ++ i1)); auto. rewrite Ea. apply join_shape; auto.
  - exists m'. split; [exact E|]. split; [|exact O]. intros j ks Hj Hks. apply row_major_unique in Hks. subst ks. rewrite S by auto. f_equal. apply map_ext_in. intros k Hk. apply in_indices in Hk.
    rewrite Pb; auto; eapply inshape_length; eauto.
Qed.
(* the three are the same *)
Theorem C113_same : forall fi zi f (c a : view) s (m : mem T), zclean zi -> vshape a = s ++ vshape c -> nonneg (vshape a) -> P_Cells.separate c a -> apart_at c ->
  exists m1 m2 m3, verb_rows fixed z f c a m = Ok None m1 /\ cell_rows fixed z fi zi f c a m = Ok None m2 /\ transpose_rows fixed z f c a m = Ok None m3 /\ forall p, m1 p = m2 p /\ m2 p = m3 p.
Proof.
  intros fi zi f c a s m Hzi Ea Na Hca Hc. destruct (C113_verb f c a s m) as (m1 & E1 & S1 & O1); auto. destruct (C113_cells fi zi f c a s m) as (m2 & E2 & S2 & O2); auto.
  destruct (C113_transpose f c a s m) as (m3 & E3 & S3 & O3); auto. exists m1, m2, m3. split; [auto|]. split; [auto|]. split; [auto|]. intros p.
  destruct (in_dec Z.eq_dec p (map (vplace c) (indices (vshape c)))) as [Hi|Hn].
  - apply in_map_iff in Hi as (j & <- & Hj). apply in_indices in Hj. rewrite (S1 j (indices s)), (S2 j (indices s)), (S3 j (indices s)); auto; apply row_major_indices.
  - assert (N : forall j, inshape j (vshape c) -> p <> vplace c j) by (intros j Hj ->; apply Hn; apply in_map; apply in_indices; auto). rewrite O1, O2, O3; auto.
Qed.

(* lengths that don't agree *)
Theorem C113_refused : forall f (c a : view) k (m : mem T), nonneg (vshape a) -> nonneg (vshape c) -> (vrank c <= vrank a)%nat -> (k < vrank c)%nat -> nth k (vshape c) 0 <> nth (vrank a - vrank c + k) (vshape a) 0 ->
  verb_rows fixed z f c a m = Fail m /\ transpose_rows fixed z f c a m = Fail m.
Proof.
  intros f c a k m Na Nc Hr Hk Hd. destruct (view_shape (T:=T) a _ eq_refl Na) as (Wa & Sa). destruct (view_shape (T:=T) c _ eq_refl Nc) as (Wc & Sc).
  pose proof (vrank_shape c) as Rc. pose proof (vrank_shape a) as Ra. set (n := (vrank a - vrank c)%nat) in *. split.
  - unfold verb_rows, each_verb. rewrite verb_rows_expr by lia. fold n.
    assert (Wr : wf (reframe (viter (T:=T) c) (seq n (vrank c)))) by (apply reframe_wf; auto; [apply seq_NoDup|rewrite seq_length, rank_viter; auto]).
    match goal with |- ply _ _ _ ?e _ = _ => assert (We : wf e) by (apply wf_map; [discriminate|repeat (constructor; auto)]) end. apply ply_refused; [auto|]. apply (lens_refused _ _ (n + k) (nth k (vshape c) 0) (nth (n + k) (vshape a) 0)); auto.
    + cbn [leaf_lens flat_map]. apply in_or_app. left. rewrite reframe_lens by (auto; rewrite seq_length, rank_viter; auto). rewrite positions_seq. destruct (Nat.leb_spec n (n + k)); [|lia]. destruct (Nat.ltb_spec (n + k) (n + vrank c)); [|lia].
      cbn [andb flat_map]. rewrite app_nil_r, viter_lens. destruct (Nat.ltb_spec (0 + (n + k - n)) (vrank c)); [|lia]. left. f_equal. lia.
    + cbn [leaf_lens flat_map]. apply in_or_app. right. rewrite app_nil_r, viter_lens. destruct (Nat.ltb_spec (n + k) (vrank a)); [|lia]. left. reflexivity.
    + unfold nonneg in Nc. rewrite Forall_forall in Nc. apply Nc, nth_In. lia.
    + unfold nonneg in Na. rewrite Forall_forall in Na. apply Na, nth_In. lia.
  - set (s := firstn n (vshape a)). set (t := skipn n (vshape a)). assert (Ea : vshape a = s ++ t) by (symmetry; apply firstn_skipn).
    assert (Ls : length s = n) by (unfold s; rewrite firstn_length; lia). assert (Lt : length t = vrank c) by (unfold t; rewrite skipn_length; lia).
    unfold transpose_rows. fold n. destruct (transposed a s t Ea Na) as (b & Hb & Sb & _). rewrite Ls, Lt in Hb. rewrite Hb. cbn [onres].
    assert (Nb : nonneg (t ++ s)) by (rewrite Ea in Na; unfold nonneg in *; rewrite Forall_app in *; tauto). destruct (view_shape (T:=T) b _ Sb Nb) as (Wb & _).
    assert (Rb : vrank b = vrank a) by (rewrite vrank_shape, Sb, app_length, Ra, Ea, app_length; lia).
    unfold assign. match goal with |- ply _ _ _ ?e _ = _ => assert (We : wf e) by (apply wf_map; [discriminate|repeat (constructor; auto)]) end. apply ply_refused; [auto|]. apply (lens_refused _ _ k (nth k (vshape c) 0) (nth (n + k) (vshape a) 0)); auto.
    + cbn [leaf_lens flat_map]. apply in_or_app. left. rewrite viter_lens. destruct (Nat.ltb_spec k (vrank c)); [|lia]. left. reflexivity.
    + cbn [leaf_lens flat_map]. apply in_or_app. right. rewrite app_nil_r, viter_lens. destruct (Nat.ltb_spec k (vrank b)); [|lia]. left. rewrite Sb, app_nth1 by lia. unfold t. rewrite nth_skipn. reflexivity.
    + unfold nonneg in Nc. rewrite Forall_forall in Nc. apply Nc, nth_In. lia.
    + unfold nonneg in Na. rewrite Forall_forall in Na. apply Na, nth_In. lia.
Qed.

(* expressions with the same lengths, other than those without bound, and the same elements *)
Lemma ply_same_finite : forall (e1 e2 : ex) (m : mem T), wf e1 -> wf e2 -> axes e1 = axes e2 -> (forall k x, x <> UNB -> In x (leaf_lens e1 k) <-> In x (leaf_lens e2 k)) ->
  (forall j m', element e1 j m' = element e2 j m') -> ply fixed no_stop z e1 m = ply fixed no_stop z e2 m.
Proof.
  intros e1 e2 m W1 W2 Ha Hl He.
  assert (Q : forall (e1 e2 : ex), wf e1 -> axes e1 = axes e2 -> (forall k x, x <> UNB -> In x (leaf_lens e1 k) <-> In x (leaf_lens e2 k)) -> forall s, shape_is e1 s -> shape_is e2 s).
  { clear. intros e1 e2 W1 Ha Hl s (L & S). split; [lia|]. intros k Hk. rewrite <- Ha in Hk. destruct (S k Hk) as (H1 & H2 & H3). split; [auto|].
    split; [apply Hl; auto; unfold UNB; lia|]. rewrite Forall_forall in *. intros x Hx. destruct (Z.eq_dec x UNB) as [->|Hn]; [auto|]. apply H3, Hl; auto. }
  destruct (validate e1) eqn:V.
  - pose proof (shape_shape_is e1 W1 V) as S1. rewrite (ply_spec _ _ _ no_stop fixed z e1 (shape e1) (indices (shape e1))); auto; [|apply row_major_indices].
    rewrite (ply_spec _ _ _ no_stop fixed z e2 (shape e1) (indices (shape e1))); auto; [|apply (Q e1 e2); auto|apply row_major_indices]. apply visit_get_ext. auto.
  - rewrite !ply_refused; auto.
    + intros A. apply agreeing_shape in A as (s & S); auto. apply shape_is_shape with (s := s) in W1 as (_ & V'); [congruence|]. apply (Q e2 e1); auto. intros k x Hx. symmetry. auto.
    + intros A. apply validate_iff in A; auto. congruence.
Qed.

(* the matrix product *)
Theorem C113_product_same : forall add mul (a b c : view) (m : mem T), vrank a = 2%nat -> vrank b = 2%nat -> vrank c = 2%nat -> Forall oklen (vshape a) -> Forall oklen (vshape b) -> Forall oklen (vshape c) ->
  verb_product fixed z add mul a b c m = gemm_c add mul fixed z (viter a) b c m.
Proof.
  intros add mul a b c m Ra Rb Rc Na Nb Nc. destruct a as [da pa], b as [db pb], c as [dc pc]. unfold vrank in Ra, Rb, Rc. cbn [vdv] in *.
  destruct da as [|a0 [|a1 [|? ?]]]; try discriminate. destruct db as [|b0 [|b1 [|? ?]]]; try discriminate. destruct dc as [|c0 [|c1 [|? ?]]]; try discriminate.
  unfold gemm_c. replace (from (Vw [c0; c1] pc) [all; SInsert 1]) with (Good (Vw [c0; Dim UNB 0; c1] pc)) by reflexivity.
  replace (from (Vw [b0; b1] pb) [SInsert 1]) with (Good (Vw [Dim UNB 0; b0; b1] pb)) by reflexivity. cbn [onres].
  unfold verb_product, each_verb.
  replace (map_verb [[1; 1; 2]; [1; 0; 1]]%nat (mac_op add mul) [viter (Vw [c0; c1] pc); viter (Vw [a0; a1] pa); viter (Vw [b0; b1] pb)])
    with (Some (Map (mac_op add mul) [Reframe (viter (T:=T) (Vw [c0; c1] pc)) [0; 2]%nat; viter (Vw [a0; a1] pa); Reframe (viter (Vw [b0; b1] pb)) [1; 2]%nat])) by reflexivity.
  unfold assign.
  assert (O : forall x y p, Forall oklen (vshape (Vw [x; y] p)) -> oklen (len x) /\ oklen (len y)).
  { intros x y p H. cbn [vshape vdv map] in H. inversion H as [|? ? H1 H2]; subst. inversion H2; subst. auto. }
  apply O in Na as (Na0 & Na1), Nb as (Nb0 & Nb1), Nc as (Nc0 & Nc1). assert (OU : oklen UNB) by (right; reflexivity).
  apply ply_same_finite; auto.
  - assert (ND : forall x y : nat, x <> y -> NoDup [x; y]) by (intros x y H; constructor; [intros [->|[]]; auto|repeat constructor; intros []]).
    assert (Wc : wf (viter (T:=T) (Vw [c0; c1] pc))) by (apply viter_wf; cbn [vdv]; auto). assert (Wa : wf (viter (T:=T) (Vw [a0; a1] pa))) by (apply viter_wf; cbn [vdv]; auto).
    assert (Wb : wf (viter (T:=T) (Vw [b0; b1] pb))) by (apply viter_wf; cbn [vdv]; auto).
    apply wf_map; [discriminate|]. apply Forall_cons; [split; [exact Wc|split; [apply ND; discriminate|reflexivity]]|]. apply Forall_cons; [exact Wa|].
    apply Forall_cons; [split; [exact Wb|split; [apply ND; discriminate|reflexivity]]|apply Forall_nil].
  - apply wf_map; [discriminate|]. apply Forall_cons; [apply viter_wf; cbn [vdv]; auto|]. apply Forall_cons; [|apply Forall_nil]. apply times_wf; apply viter_wf; cbn [vdv]; auto.
  - intros k x Hx. destruct k as [|[|[|k]]]; cbn; intuition congruence.
  - intros j m'. cbn [element times map].
    assert (Ec : element (viter (T:=T) (Vw [c0; Dim UNB 0; c1] pc)) j m' = element (viter (Vw [c0; c1] pc)) (map (fun k => nth k j 0) [0; 2]%nat) m').
    { rewrite !viter_element. f_equal. f_equal. destruct j as [|j0 [|j1 [|j2 j]]]; unfold vplace, vrank; cbn [vdv vcp length firstn place map nth step]; lia. }
    assert (Eb : element (viter (T:=T) (Vw [Dim UNB 0; b0; b1] pb)) j m' = element (viter (Vw [b0; b1] pb)) (map (fun k => nth k j 0) [1; 2]%nat) m').
    { rewrite !viter_element. f_equal. f_equal. destruct j as [|j0 [|j1 [|j2 j]]]; unfold vplace, vrank; cbn [vdv vcp length firstn place map nth step]; lia. }
    cbn [in_order]. unfold bind, ret. cbn [map] in *. rewrite Ec. cbn [element times map in_order]. unfold bind, ret.
    rewrite (viter_element (Vw [c0; c1] pc)), (viter_element (Vw [a0; a1] pa)). cbv beta iota. rewrite Eb, !viter_element. reflexivity.
Qed.
Theorem C113_product : forall add mul (a b c : view) n l p (m : mem T), vshape a = [n; l] -> vshape b = [l; p] -> vshape c = [n; p] -> 0 <= n -> 0 <= l -> 0 <= p ->
  P_Cells.separate c a -> P_Cells.separate c b -> apart_at c ->
  exists m', verb_product fixed z add mul a b c m = Ok None m' /\
    (forall i j, 0 <= i < n -> 0 <= j < p -> m' (vplace c [i; j]) = accum add (m (vplace c [i; j])) l (fun k => mul (m (vplace a [i; k])) (m (vplace b [k; j])))) /\
    forall q, (forall i, inshape i [n; p] -> q <> vplace c i) -> m' q = m q.
Proof.
  intros add mul a b c n l p m Sa Sb Sc Hn Hl Hp Ha Hb Hc.
  assert (N : forall x y, 0 <= x -> 0 <= y -> nonneg [x; y]) by (intros; repeat constructor; auto). assert (K : forall x y, 0 <= x -> 0 <= y -> Forall oklen [x; y]) by (intros; constructor; [left; auto|constructor; [left; auto|constructor]]).
  assert (Q : forall v x y, vshape v = [x; y] -> vrank v = 2%nat) by (intros v x y E; rewrite vrank_shape, E; reflexivity).
  rewrite C113_product_same; eauto; [|rewrite Sa; auto|rewrite Sb; auto|rewrite Sc; auto].
  destruct (view_shape (T:=T) a _ Sa (N _ _ Hn Hl)) as (Wa & Ha').
  destruct (C33_gemm_c add mul (viter a) b c n l p m (fun j => m (vplace a j)) fixed z) as (m' & G & V & O); auto.
  - intros i j Hi Hj. apply Hc; rewrite Sc; auto.
  - apply view_undisturbed; auto. intros i Hi j Hj E. rewrite Sa in Hi. apply (Ha j i); rewrite ?Sa, ?Sc; auto.
  - intros i Hi j Hj E. apply (Hb j i); rewrite ?Sc; auto.
  - exists m'. split; [exact G|]. split; [exact V|]. intros q Hq. apply O. exact Hq.
Qed.
Theorem C113_product_refused : forall add mul (a b c : view) n l l' p n' p' (m : mem T), vshape a = [n; l] -> vshape b = [l'; p] -> vshape c = [n'; p'] -> nonneg [n; l; l'; p; n'; p'] ->
  ~ (n = n' /\ l = l' /\ p = p') -> verb_product fixed z add mul a b c m = Fail m.
Proof.
  intros add mul a b c n l l' p n' p' m Sa Sb Sc H D. assert (0 <= n /\ 0 <= l /\ 0 <= l' /\ 0 <= p /\ 0 <= n' /\ 0 <= p') as (H1 & H2 & H3 & H4 & H5 & H6).
  { unfold nonneg in H. repeat match goal with H : Forall _ (_ :: _) |- _ => inversion H; clear H; subst end. auto 10. }
  assert (K : forall x y, 0 <= x -> 0 <= y -> Forall oklen [x; y]) by (intros; constructor; [left; auto|constructor; [left; auto|constructor]]).
  assert (Q : forall v x y, vshape v = [x; y] -> vrank v = 2%nat) by (intros v x y E; rewrite vrank_shape, E; reflexivity).
  rewrite C113_product_same; eauto; [|rewrite Sa; auto|rewrite Sb; auto|rewrite Sc; auto].
  destruct (view_shape (T:=T) a _ Sa) as (Wa & Ha'); [repeat constructor; auto|]. apply (C33_refused_c add mul (viter a) b c n l l' p n' p'); auto. repeat (constructor; auto).
Qed.
End Doc.

(* a of shape 3 2 at 100; the sum over rows of shape 2 at 10; the sum along axes 0 and 1 of an array of shape 2 3 2 *)
Definition memD : mem Z := fun p => p - 99.
Definition dA : view := Vw [Dim 3 2; Dim 2 1] 100.
Definition dA3 : view := Vw [Dim 2 6; Dim 3 2; Dim 2 1] 100.
Definition dS : view := Vw [Dim 2 1] 10.
Definition peeks (l : list Z) (o : out (mem Z) (option unit)) : list Z := match o with Ok _ m => map m l | _ => [] end.
Lemma dS_apart : apart_at dS.
Proof. intros i j Hi Hj E. cbn in Hi, Hj. inversion Hi as [|i0 ? i' ? Hi0 Hi']; subst. inversion Hj as [|j0 ? j' ? Hj0 Hj']; subst. inversion Hi'; subst. inversion Hj'; subst. unfold vplace in E. cbn [dS vcp vdv place step] in E. f_equal. lia. Qed.
Lemma dS_separate : forall v, (forall i, inshape i (vshape v) -> 100 <= vplace v i) -> P_Cells.separate dS v.
Proof. intros v Hv i j Hi Hj E. apply Hv in Hj. cbn in Hi. inversion Hi as [|i0 ? i' ? Hi0 Hi']; subst. inversion Hi'; subst. unfold vplace in E at 1. cbn [dS vcp vdv place step] in E. lia. Qed.
Example C113_ex : (vshape dA = [3] ++ vshape dS /\ P_Cells.separate dS dA /\ apart_at dS) /\ (vshape dA3 = [2; 3] ++ vshape dS /\ P_Cells.separate dS dA3) /\
  peeks [10; 11; 12; 9] (verb_rows false z_init Z.add dS dA memD) = [9 - 89; 12 - 88; -87; -90] /\
  peeks [10; 11; 12; 9] (cell_rows false z_init true z_init Z.add dS dA memD) = [9 - 89; 12 - 88; -87; -90] /\
  peeks [10; 11; 12; 9] (transpose_rows true z_init Z.add dS dA memD) = [9 - 89; 12 - 88; -87; -90] /\
  peeks [10; 11; 12; 9] (verb_rows true z_init Z.add dS dA3 memD) = [36 - 89; 42 - 88; -87; -90] /\
  peeks [10; 11; 12; 9] (transpose_rows false z_init Z.add dS dA3 memD) = [36 - 89; 42 - 88; -87; -90] /\
  (* an operation that doesn't commute shows the order *)
  peeks [10; 11] (verb_rows false z_init (fun x y => 10 * x + y) dS dA (fun p => if p <? 100 then 0 else p - 99)) = [135; 246] /\
  verb_rows true z_init Z.add dS (Vw [Dim 3 2; Dim 3 1] 100) memD = Fail memD.
Proof.
  split; [|split; [|repeat split]].
  - split; [reflexivity|]. split; [|apply dS_apart]. apply dS_separate. intros i Hi. cbn in Hi. inversion Hi as [|i0 ? i' ? Hi0 Hi']; subst. inversion Hi' as [|i1 ? i'' ? Hi1 Hi'']; subst. inversion Hi''; subst. unfold vplace. cbn [dA vcp vdv place step]. lia.
  - split; [reflexivity|]. apply dS_separate. intros i Hi. cbn in Hi. inversion Hi as [|i0 ? i' ? Hi0 Hi']; subst. inversion Hi' as [|i1 ? i'' ? Hi1 Hi'']; subst. inversion Hi'' as [|i2 ? i3 ? Hi2 Hi3]; subst. inversion Hi3; subst. unfold vplace. cbn [dA3 vcp vdv place step]. lia.
Qed.
(* docs/ra-ra.texi:1354-1362 *)
Example C113_product_ex : let m := fun p => if p <? 100 then 0 else p - 99 in
  peeks [10; 11; 12; 13; 14; 15; 16; 17; 18] (verb_product false z_init Z.add Z.mul dA (Vw [Dim 2 3; Dim 3 1] 106) (Vw [Dim 3 3; Dim 3 1] 10) m) = [27; 30; 33; 61; 68; 75; 95; 106; 117] /\
  verb_product true z_init Z.add Z.mul dA dA (Vw [Dim 3 3; Dim 3 1] 10) m = Fail m.
Proof. vm_compute. auto. Qed.

(* The results given in the manual that aren't those of the programs: docs/ra-ra.texi:1278-1281 (and 1316-1318) shows an array of shape 2 3 for the product of {1, 2, 3} with {40, 50}, and 924-925 one of shape 3 3
   for an expression of shape 3 2. *)
Definition docm : mem Z := fun p => nth (Z.to_nat p) [1; 2; 3; 40; 50; 0; 0; 0; 0; 0; 0] 0.
Definition doca : expr (val Z) (mem Z) := viter (Vw [Dim 3 1] 0).
Definition docb : expr (val Z) (mem Z) := viter (Vw [Dim 2 1] 3).
Definition docv (o : out (mem Z) (val Z)) : option Z := match o with Ok v m => value_of v m | _ => None end.
Definition sub2 : list (val Z) -> M (mem Z) (val Z) := fun xs => match xs with [a; VI i; VI j] => x <- rd a ;; ret (VT (x + i - j)) | _ => undef end.
Example manual_outer : exists e, map_verb [[0; 1]]%nat (mul_op Z.mul) [doca; docb] = Some e /\ from_op (mul_op Z.mul) [doca; docb] = Some e /\ shape e = [3; 2] /\
  map (fun j => docv (element e j docm)) (indices [3; 2]) = map Some [40; 50; 80; 100; 120; 150].
Proof. eexists. split; [reflexivity|]. split; [reflexivity|]. vm_compute. auto. Qed.
Example manual_tindex : let e := Map sub2 [viter (Vw [Dim 3 2; Dim 2 1] 5); tindex 0; tindex 1] in shape e = [3; 2] /\
  map (fun j => docv (element e j docm)) (indices [3; 2]) = map Some [0; -1; 1; 0; 2; 1].
Proof. vm_compute. auto. Qed.

Print Assumptions C113_verb.
Print Assumptions C113_cells.
Print Assumptions C113_transpose.
Print Assumptions C113_same.
Print Assumptions C113_refused.
Print Assumptions C113_product_same.
Print Assumptions C113_product.
Print Assumptions C113_product_refused.
