(* Property C138: an array on both sides of an assignment. *)
From Coq Require Import ZArith List Lia Bool.
From Verif Require Import Spec L_Spec Spec_Ply Spec_Expr M_Base M_Expr M_Ply M_Val Spec_Val L_Expr L_Agree L_Ply L_Run L_Val P_Reduce Spec_Overlap P_Overlap M_Elem P_Elem P_Cells M_Feed.
Import ListNotations.
Open Scope Z_scope.

Section Feed.
Context {T : Type}.
Notation ex := (expr (val T) (mem T)).

(* the steps of a loop where what's written in pl j depends on j and on what was there *)
Lemma each_feed : forall X (get : list Z -> M (mem T) X) (h : list Z -> T -> T) (pl : list Z -> Z) js (ok : mem T -> Prop),
  (forall j m, In j js -> ok m -> exists u, get j m = Ok u (wr (pl j) (h j (m (pl j))) m) /\ ok (wr (pl j) (h j (m (pl j))) m)) ->
  forall m, ok m -> exists m', each get js m = Ok tt m' /\ forall p, m' p = fold_left (fun y j => h j y) (filter (fun j => pl j =? p) js) (m p).
Proof.
  intros X get h pl js ok. induction js as [|j js IH]; intros Hg m Hm.
  - exists m. split; auto.
  - destruct (Hg j m (or_introl eq_refl) Hm) as (u & E & O). destruct (IH (fun k m' H => Hg k m' (or_intror H)) _ O) as (m' & E1 & E2).
    exists m'. cbn [each]. rewrite E. split; auto. intros p. rewrite E2. cbn [filter]. destruct (Z.eqb_spec (pl j) p).
    + subst p. rewrite wr_same. auto.
    + rewrite wr_other by auto. auto.
Qed.

Lemma filter_rows : forall s1 s2 (pl : list Z -> Z) i, (forall i j, inshape i s1 -> inshape j s1 -> pl i = pl j -> i = j) -> inshape i s1 ->
  filter (fun j => pl (firstn (length s1) j) =? pl i) (indices (s1 ++ s2)) = map (app i) (indices s2).
Proof.
  intros s1 s2 pl i Hinj Hi. rewrite indices_app.
  assert (G : forall l, NoDup l -> (forall a, In a l -> inshape a s1) ->
    filter (fun j => pl (firstn (length s1) j) =? pl i) (flat_map (fun i => map (app i) (indices s2)) l) = if in_dec (list_eq_dec Z.eq_dec) i l then map (app i) (indices s2) else []).
  { induction l as [|a l IH]; intros Hn Ha; [reflexivity|]. cbn [flat_map]. rewrite filter_app. inversion Hn; subst.
    assert (Hla : length a = length s1) by (apply inshape_length; apply Ha; left; auto).
    assert (Ga : forall k, firstn (length s1) (a ++ k) = a). { intros. rewrite firstn_app, <- Hla, Nat.sub_diag. cbn. rewrite app_nil_r, firstn_all. auto. }
    rewrite IH; auto; [|intros; apply Ha; right; auto].
    destruct (list_eq_dec Z.eq_dec a i) as [->|Hne].
    - destruct (in_dec (list_eq_dec Z.eq_dec) i (i :: l)) as [_|Hx0]; [|exfalso; apply Hx0; left; auto].
      destruct (in_dec (list_eq_dec Z.eq_dec) i l); [contradiction|]. rewrite app_nil_r.
      clear -Ga. induction (indices s2); cbn; auto. rewrite Ga, Z.eqb_refl. f_equal. auto.
    - replace (filter (fun j => pl (firstn (length s1) j) =? pl i) (map (app a) (indices s2))) with (@nil (list Z)).
      2: { symmetry. apply filter_none. intros y Hy. apply in_map_iff in Hy. destruct Hy as (k & <- & _). rewrite Ga. apply Z.eqb_neq. intros E. apply Hne.
           apply Hinj; auto. apply Ha. left; auto. }
      cbn [app]. destruct (in_dec (list_eq_dec Z.eq_dec) i l), (in_dec (list_eq_dec Z.eq_dec) i (a :: l)); auto.
      + exfalso. apply n. right; auto.
      + destruct i0; [contradiction|]. contradiction. }
  rewrite G.
  - destruct (in_dec (list_eq_dec Z.eq_dec) i (indices s1)); auto. exfalso. apply n. apply in_indices; auto.
  - apply indices_nodup.
  - intros. apply in_indices; auto.
Qed.

(* The element of e that goes with element i of d at step k is g i k y, where y is what's in element i of d at that time. Element i of d goes through the steps k in
   row-major order, each with the result of the previous one. Nothing else is written. *)
Theorem C138_fold : forall f (d e : ex) s1 s2 ks (m : mem T) pl g fixed z, wf d -> wf e -> shape_is d s1 -> joint_shape [d; e] (s1 ++ s2) -> row_major s2 ks -> zclean z ->
  refers d s1 pl -> (forall i j, inshape i s1 -> inshape j s1 -> pl i = pl j -> i = j) ->
  (forall i k m', inshape i s1 -> inshape k s2 -> (forall p, (forall i, inshape i s1 -> p <> pl i) -> m' p = m p) ->
     exists v, element e (i ++ k) m' = Ok v m' /\ value_of v m' = Some (g i k (m' (pl i)))) ->
  exists m', assign fixed z f d e m = Ok None m' /\
    (forall i, inshape i s1 -> m' (pl i) = fold_left (fun y k => f y (g i k y)) ks (m (pl i))) /\
    (forall p, (forall i, inshape i s1 -> p <> pl i) -> m' p = m p).
Proof.
  intros f d e s1 s2 ks m pl g fixed z Hwd Hwe Hsd Hs Hk Hz Hpl Hinj Hx.
  apply row_major_unique in Hk. subst ks. set (n := length s1).
  assert (Hlen : n = rankn d). { destruct Hsd as (H & _). rewrite axes_rank in H; auto. }
  assert (Hpre : forall j, inshape j (s1 ++ s2) -> exists i k, j = i ++ k /\ inshape i s1 /\ inshape k s2 /\ firstn n j = i /\ skipn n j = k).
  { intros j Hj. unfold inshape in *. apply Forall2_app_inv_r in Hj. destruct Hj as (j1 & j2 & F1 & F2 & ->).
    assert (L : length j1 = n) by (eapply inshape_length; eauto). exists j1, j2. split; auto. split; auto. split; auto.
    rewrite <- L, firstn_app, skipn_app, Nat.sub_diag, firstn_all, skipn_all, firstn_O, app_nil_r. auto. }
  destruct (each_feed (val T) (element (Map (assign_op f) [d; e])) (fun j y => f y (g (firstn n j) (skipn n j) y)) (fun j => pl (firstn n j)) (indices (s1 ++ s2))
    (fun m' => forall p, (forall i, inshape i s1 -> p <> pl i) -> m' p = m p)) with (m := m) as (m' & E1 & E2).
  - intros j m1 Hj Hm1. apply in_indices in Hj. destruct (Hpre j Hj) as (i & k & E & Hi & Hk' & -> & ->). destruct (Hx i k m1 Hi Hk' Hm1) as (v & F1 & F2).
    exists VUnit. split.
    + cbn [element map]. rewrite (in_order_2 _ _ _ _ _ (VRef (pl i)) m1 v m1); [|..].
      * unfold assign_op, op2, bind. rewrite (rd_value _ _ (g i k (m1 (pl i)))); auto.
      * rewrite <- (element_prefix d Hwd n) by lia. replace (firstn n j) with i; [apply Hpl; auto|]. subst j. rewrite firstn_app. pose proof (inshape_length _ _ Hi) as L. fold n in L.
        rewrite L, Nat.sub_diag, firstn_O, app_nil_r. rewrite <- L. symmetry. apply firstn_all.
      * subst j. exact F1.
    + intros p Hp. rewrite wr_other by auto. auto.
  - auto.
  - exists m'. split; [|split].
    + unfold assign. rewrite (ply_spec _ _ _ no_stop fixed z _ (s1 ++ s2) (indices (s1 ++ s2))); auto.
      * rewrite visit_each, E1. auto.
      * apply wf_map; [discriminate|]. constructor; auto.
      * apply row_major_indices.
    + intros i Hi. rewrite E2. subst n. rewrite (filter_rows s1 s2 pl i Hinj Hi).
      pose proof (inshape_length _ _ Hi) as L. generalize (m (pl i)). clear -L. induction (indices s2) as [|k ks IH]; intros y; [reflexivity|]. cbn [map fold_left].
      rewrite IH. rewrite <- L, firstn_app, skipn_app, Nat.sub_diag, firstn_all, skipn_all, firstn_O, app_nil_r. reflexivity.
    + intros p Hp. rewrite E2. rewrite filter_none; auto. intros y Hy. apply in_indices in Hy. apply Z.eqb_neq. intros E. destruct (Hpre y Hy) as (i & k & _ & Hi & _ & Ef & _). apply (Hp i); auto. congruence.
Qed.

Lemma joint_feed : forall g (d c : ex) s, joint_shape [d; c] s -> joint_shape [d; bin g c d] s /\ joint_shape [d; bin g d c] s.
Proof.
  intros g d c s (L & S).
  assert (G : forall e : ex, axes e = Nat.max (axes d) (axes c) -> (forall k x, In x (leaf_lens e k) <-> In x (leaf_lens d k) \/ In x (leaf_lens c k)) -> joint_shape [d; e] s).
  { intros e Ea El. unfold joint_shape in *. cbn [fold_right flat_map] in *. rewrite Ea. split; [lia|]. intros k Hk. destruct (S k ltac:(lia)) as (H1 & H2 & H3). split; [auto|].
    rewrite app_nil_r in *. rewrite Forall_forall in *. split; [|intros x Hx; apply H3]; rewrite in_app_iff, ?El in *; tauto. }
  split; apply G; try (unfold bin; cbn [axes fold_right map]; lia); intros k x; unfold bin; cbn [leaf_lens flat_map]; rewrite app_nil_r, in_app_iff; tauto.
Qed.

(* m = g(c, m) and m = g(m, c), where c doesn't read what's in m *)
Theorem C138_rows : forall g (d c : ex) s1 s2 ks (m : mem T) pl x fixed z, wf d -> wf c -> shape_is d s1 -> joint_shape [d; c] (s1 ++ s2) -> row_major s2 ks -> zclean z ->
  refers d s1 pl -> (forall i j, inshape i s1 -> inshape j s1 -> pl i = pl j -> i = j) ->
  (forall m', (forall p, (forall i, inshape i s1 -> p <> pl i) -> m' p = m p) -> reads c (s1 ++ s2) m' x) ->
  (exists m', feed fixed z g d c m = Ok None m' /\
    (forall i, inshape i s1 -> m' (pl i) = fold_left (fun y k => g (x (i ++ k)) y) ks (m (pl i))) /\
    (forall p, (forall i, inshape i s1 -> p <> pl i) -> m' p = m p)) /\
  (exists m', feed_left fixed z g d c m = Ok None m' /\
    (forall i, inshape i s1 -> m' (pl i) = fold_left (fun y k => g y (x (i ++ k))) ks (m (pl i))) /\
    (forall p, (forall i, inshape i s1 -> p <> pl i) -> m' p = m p)).
Proof.
  intros g d c s1 s2 ks m pl x fixed z Hwd Hwc Hsd Hs Hk Hz Hpl Hinj Hx.
  assert (Hlen : length s1 = rankn d). { destruct Hsd as (H & _). rewrite axes_rank in H; auto. }
  assert (D : forall i k m', inshape i s1 -> element d (i ++ k) m' = Ok (VRef (pl i)) m').
  { intros i k m' Hi. rewrite <- (element_prefix d Hwd (length s1)) by lia. rewrite firstn_app. rewrite <- (inshape_length _ _ Hi), Nat.sub_diag, firstn_O, app_nil_r, firstn_all. apply Hpl; auto. }
  assert (A : forall i k, inshape i s1 -> inshape k s2 -> inshape (i ++ k) (s1 ++ s2)) by (intros; apply Forall2_app; auto).
  unfold feed, feed_left. split.
  - apply (C138_fold (fun _ x => x) d (bin g c d) s1 s2 ks m pl (fun i k y => g (x (i ++ k)) y) fixed z); auto.
    + unfold bin. apply wf_map; [discriminate|]. constructor; auto.
    + apply joint_feed; auto.
    + intros i k m' Hi Hk' Hm'. destruct (Hx m' Hm' (i ++ k) (A i k Hi Hk')) as (v & F1 & F2). exists (VT (g (x (i ++ k)) (m' (pl i)))). split; auto.
      unfold bin. cbn [element map]. rewrite (in_order_2 _ _ _ _ _ v m' (VRef (pl i)) m'); auto. cbn. unfold bind. rewrite (rd_value _ _ (x (i ++ k))); auto.
  - apply (C138_fold (fun _ x => x) d (bin g d c) s1 s2 ks m pl (fun i k y => g y (x (i ++ k))) fixed z); auto.
    + unfold bin. apply wf_map; [discriminate|]. constructor; auto.
    + apply joint_feed; auto.
    + intros i k m' Hi Hk' Hm'. destruct (Hx m' Hm' (i ++ k) (A i k Hi Hk')) as (v & F1 & F2). exists (VT (g (m' (pl i)) (x (i ++ k)))). split; auto.
      unfold bin. cbn [element map]. rewrite (in_order_2 _ _ _ _ _ (VRef (pl i)) m' v m'); auto. cbn. unfold bind. rewrite (rd_value _ _ (x (i ++ k))); auto.
Qed.

(* a = a + e is a += e, whatever e is: it may read and write what's in a, and it may fail. The same if the shapes don't match: neither of them is done. *)
Theorem C138_compound : forall g (d e : ex) (m : mem T) fixed z, wf d -> wf e -> zclean z -> (forall j, exists p, forall m', element d j m' = Ok (VRef p) m') ->
  feed_left fixed z g d e m = assign fixed z g d e m.
Proof.
  intros g d e m fixed z Wd We Hz Hd. unfold feed_left, assign. apply ply_same; auto.
  - apply wf_map; [discriminate|]. constructor; auto. constructor; auto. unfold bin. apply wf_map; [discriminate|]. auto.
  - apply wf_map; [discriminate|]. auto.
  - unfold bin. cbn [axes fold_right map]. lia.
  - intros k x. unfold bin. cbn [leaf_lens flat_map]. rewrite !app_nil_r, !in_app_iff. tauto.
  - intros j m'. destruct (Hd j) as (p & Ep). unfold bin. cbn [element map in_order]. unfold bind, ret. rewrite !Ep. cbn [app]. rewrite ?Ep.
    destruct (element e j m') as [v m2|m2|]; [|reflexivity|reflexivity]. cbn. unfold bind. destruct v; reflexivity.
Qed.
End Feed.

(* m = max(c, m) leaves in each element of m the largest of what was there and of the elements of c that go with it. *)
Theorem C138_max : forall (d c : expr (val Z) (mem Z)) s1 s2 (m : mem Z) pl x fixed z, wf d -> wf c -> shape_is d s1 -> joint_shape [d; c] (s1 ++ s2) -> zclean z ->
  refers d s1 pl -> (forall i j, inshape i s1 -> inshape j s1 -> pl i = pl j -> i = j) ->
  (forall m', (forall p, (forall i, inshape i s1 -> p <> pl i) -> m' p = m p) -> reads c (s1 ++ s2) m' x) ->
  exists m', feed fixed z Z.max d c m = Ok None m' /\ (forall p, (forall i, inshape i s1 -> p <> pl i) -> m' p = m p) /\
    forall i, inshape i s1 -> m (pl i) <= m' (pl i) /\ (forall k, inshape k s2 -> x (i ++ k) <= m' (pl i)) /\
      (m' (pl i) = m (pl i) \/ exists k, inshape k s2 /\ m' (pl i) = x (i ++ k)).
Proof.
  intros d c s1 s2 m pl x fixed z Wd Wc Hd Hs Hz Hpl Hinj Hx.
  destruct (C138_rows Z.max d c s1 s2 (indices s2) m pl x fixed z) as ((m' & E & V & F) & _); auto; [apply row_major_indices|].
  exists m'. split; [auto|]. split; [auto|]. intros i Hi. rewrite (V i Hi).
  assert (G : forall ks y, let r := fold_left (fun y k => Z.max (x (i ++ k)) y) ks y in y <= r /\ (forall k, In k ks -> x (i ++ k) <= r) /\ (r = y \/ exists k, In k ks /\ r = x (i ++ k))).
  { induction ks as [|k ks IH]; intros y; cbn [fold_left].
    - cbv zeta. split; [lia|]. split; [intros k []|auto].
    - destruct (IH (Z.max (x (i ++ k)) y)) as (A & B & C). cbv zeta. split; [lia|]. split.
      + intros k' [<-|Hk]; [lia|auto].
      + destruct C as [C|(k' & Hk & C)].
        * destruct (Z.max_spec (x (i ++ k)) y) as [(_ & M)|(_ & M)]; [left; lia|right; exists k; split; [left; auto|lia]].
        * right. exists k'. split; [right; auto|auto]. }
  destruct (G (indices s2) (m (pl i))) as (A & B & C). split; [auto|]. split; [intros k Hk; apply B, in_indices; auto|].
  destruct C as [C|(k & Hk & C)]; [auto|]. right. exists k. split; [apply in_indices; auto|auto].
Qed.

(* test/reduction-1.cc:22-30, where c is {{1 3 2} {7 1 3}} in places 0 ... 5, and m is in places 10 11 *)
Example ex_max : let c := exV [Dim 2 3; Dim 3 1] 0 in let d := exV [Dim 2 1] 10 in let m := fun p => nth (Z.to_nat p) [1; 3; 2; 7; 1; 3] 0 in
  wf d /\ wf c /\ shape_is d [2] /\ joint_shape [d; c] ([2] ++ [3]) /\ refers d [2] (fun i => 10 + nth 0 i 0) /\
  (forall i j, inshape i [2] -> inshape j [2] -> 10 + nth 0 i 0 = 10 + nth 0 j 0 -> i = j) /\
  (forall m', (forall p, (forall i, inshape i [2] -> p <> 10 + nth 0 i 0) -> m' p = m p) -> reads c ([2] ++ [3]) m' (fun j => m (3 * nth 0 j 0 + nth 1 j 0))) /\
  exists m', feed false z_init Z.max d c m = Ok None m' /\ m' 10 = 3 /\ m' 11 = 7.
Proof.
  assert (H1 : wf (exV [Dim 2 1] 10)) by (unfold exV; wfauto). assert (H2 : wf (exV [Dim 2 3; Dim 3 1] 0)) by (unfold exV; wfauto).
  cbv zeta. split; [exact H1|]. split; [exact H2|]. split; [apply (shape_shape_is _ H1); reflexivity|].
  split; [apply joint_prefix; auto; [apply (shape_shape_is _ H1)|apply (shape_shape_is _ H2)]; reflexivity|].
  assert (I : forall j, inshape j [2] -> exists i, j = [i] /\ 0 <= i < 2). { intros j H. inversion H as [|i ? ? ? Hi H']; subst. inversion H'; subst. eauto. }
  split; [|split; [|split]].
  - intros j m Hj. destruct (I _ Hj) as (i & -> & Hi). cbn. rewrite Z.mul_1_r, Z.add_0_r. reflexivity.
  - intros i j Hi Hj E. destruct (I _ Hi) as (i' & -> & _), (I _ Hj) as (j' & -> & _). cbn [nth] in E. f_equal. lia.
  - intros m' Hm j Hj. inversion Hj as [|i ? ? ? Hi H']; subst. inversion H' as [|k ? ? ? Hk H'']; subst. inversion H''; subst. cbn in Hi, Hk.
    eexists. split; [cbn; reflexivity|]. cbn [value_of]. f_equal. rewrite Hm.
    + replace (3 * nth 0 [i; k] 0 + nth 1 [i; k] 0) with (i * 3 + (k * 1 + 0)) by (cbn [nth]; lia). reflexivity.
    + intros i' Hi'. destruct (I _ Hi') as (i2 & -> & Hi2). cbn [nth]. lia.
  - eexists. split; [vm_compute; reflexivity|]. vm_compute. auto.
Qed.
(* a(1:4) = a(1:4) + a(0:3), where the source reads what has just been written *)
Example ex_compound : let d := exV [Dim 4 1] 1 in let e := exV [Dim 4 1] 0 in let m := fun _ => 1 in
  wf d /\ wf e /\ (forall j, exists p, forall m', element d j m' = Ok (VRef p) m') /\
  exists m', feed_left true z_init Z.add d e m = Ok None m' /\ map m' [0; 1; 2; 3; 4; 5] = [1; 2; 3; 4; 5; 1].
Proof.
  cbv zeta. split; [unfold exV; wfauto|]. split; [unfold exV; wfauto|]. split; [intros j; eexists; intros m; reflexivity|].
  eexists. split; [vm_compute; reflexivity|]. vm_compute. auto.
Qed.

Print Assumptions C138_fold.
Print Assumptions C138_rows.
Print Assumptions C138_compound.
Print Assumptions C138_max.
