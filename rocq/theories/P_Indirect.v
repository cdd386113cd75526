(* Property C140: the programs in examples/indirect.cc. *)
From Coq Require Import ZArith List Lia Bool.
From Verif Require Import Spec L_Spec Spec_Ply Spec_Expr M_Base M_Expr M_Ply M_Val Spec_Val L_Expr L_Agree L_Ply L_Run L_Val P_Reduce M_View Spec_View L_View P_View M_Slice Spec_Slice L_Slice P_Slice M_Frame Spec_Frame L_Frame P_Frame M_Mat P_Mat M_Cells P_Cells P_Outer P_Doc M_Elem P_Elem P_Ext M_Access P_Access P_Stencil P_Roll M_Indirect.
Import ListNotations.
Open Scope Z_scope.

Section Indirect.
Context {T : Type}.
Variables (fixed : bool) (z : list zt).
Hypothesis Hz : zclean z.
Notation ex := (expr (val T) (mem T)).

(* at(A, I) = at(B, I) is the same as for_each([](c) { at(A, c) = at(B, c); }, I), whatever A, B and I are, and if it fails it's in the same way. *)
Theorem C140_at_same : forall a b ix (i : ex) (m : mem T), wf i -> (forall j m', exists x, element i j m' = Ok x m') -> at_copy fixed z a b ix i m = at_loop fixed z a b ix i m.
Proof.
  intros a b ix i m Wi Hi. unfold at_copy, at_loop, assign. apply ply_same; auto.
  - apply wf_map; [discriminate|]. constructor; [|constructor; [|constructor]]; unfold at_each; apply wf_map; try discriminate; auto.
  - apply wf_map; [discriminate|]. auto.
  - unfold at_each. cbn [axes fold_right map]. lia.
  - intros k x. unfold at_each. cbn [leaf_lens flat_map]. rewrite !app_nil_r, !in_app_iff. tauto.
  - intros j m'. destruct (Hi j m') as (x & Ex). unfold at_each. cbn [element map in_order]. unfold bind, ret. rewrite !Ex. unfold at_op, op1, copy_one.
    destruct (indexer (vdv a) (vcp a) (ix x)) as [p|] eqn:E1; destruct (indexer (vdv b) (vcp b) (ix x)) as [q|] eqn:E2; cbn; rewrite ?Ex; cbn; rewrite ?E1, ?E2; reflexivity.
Qed.
(* The elements of A at the indices in I are those of B. An index may be there more than once. *)
Lemma copied : forall (A : Type) (l : list (list Z)) (f : list Z -> A) (key : list Z -> Z) j y, In j l -> (forall k, In k l -> key k = key j -> f k = f j) ->
  fold_left (fun _ x => x) (map f (filter (fun k => key k =? key j) l)) y = f j.
Proof.
  intros A l f key j y Hj Hf.
  assert (G : forall l' y', (forall k, In k l' -> In k l) -> (y' = f j \/ In j l') -> fold_left (fun _ x => x) (map f (filter (fun k => key k =? key j) l')) y' = f j).
  { induction l' as [|k l' IH]; intros y' Hl Hy; [destruct Hy as [->|[]]; reflexivity|]. cbn [filter]. destruct (Z.eqb_spec (key k) (key j)) as [E|E].
    - cbn [map fold_left]. apply IH; [intros; apply Hl; right; auto|]. left. apply Hf; auto. apply Hl. left; auto.
    - apply IH; [intros; apply Hl; right; auto|]. destruct Hy as [Hy|[<-|Hy]]; auto. contradiction. }
  apply G; auto.
Qed.
Lemma legal_in : forall v k, inshape k (vshape v) -> P_Access.legal v k.
Proof.
  intros v k H. pose proof (inshape_length _ _ H) as L. rewrite <- vrank_shape in L. split; [lia|]. rewrite firstn_all2 by lia. intros n Hn. left.
  apply (inshape_nth _ _ H). rewrite <- vrank_shape. lia.
Qed.
Theorem C140_at : forall a b ix (i : ex) s I (m : mem T), wf i -> shape_is i s -> indices_are ix i s I -> (forall j, inshape j s -> inshape (I j) (vshape a) /\ inshape (I j) (vshape b)) ->
  P_Cells.separate a b -> apart_at a ->
  exists m', at_copy fixed z a b ix i m = Ok None m' /\ (forall j, inshape j s -> m' (vplace a (I j)) = m (vplace b (I j))) /\
    forall p, (forall j, inshape j s -> p <> vplace a (I j)) -> m' p = m p.
Proof.
  intros a b ix i s I m Wi Si HI Hin Hab Ha.

  destruct (C75_update T (fun _ x => x) a ix i (at_each b ix i) s I m (fun j => m (vplace b (I j))) fixed z) as (m' & E & V); auto.
  - unfold at_each. apply wf_map; [discriminate|]. auto.
  - destruct Si as (S1 & S2). assert (Ax : axes (at_each b ix i) = axes i) by (unfold at_each; cbn [axes fold_right map]; lia). unfold joint_shape. cbn [fold_right flat_map]. rewrite Ax. split; [lia|].
    intros k Hk. destruct (S2 k ltac:(lia)) as (K1 & K2 & K3). split; [lia|]. unfold at_each. cbn [leaf_lens flat_map]. rewrite !app_nil_r. split; [apply in_or_app; auto|apply Forall_app; auto].
  - intros j Hj. apply legal_in, Hin; auto.
  - intros j m1 Hj Hm1. destruct (at_each_element T b ix i s I HI j m1 Hj) as (G & _). exists (VRef (vplace b (I j))). split; [apply G, legal_in, Hin; auto|]. cbn. f_equal. apply Hm1.
    intros j' Hj' _ E. apply (Hab (I j') (I j)); [apply Hin; auto|apply Hin; auto|auto].
  - exists m'. split; [exact E|]. split.
    + intros j Hj. rewrite V. apply (copied T (indices s) (fun j => m (vplace b (I j))) (fun j => vplace a (I j))).
      * apply in_indices; auto.
      * intros k Hk Ek. apply in_indices in Hk. apply Ha in Ek; [congruence|apply Hin; auto|apply Hin; auto].
    + intros p Hp. rewrite V, filter_none; [reflexivity|]. intros k Hk. apply in_indices in Hk. apply Z.eqb_neq. intros <-. apply (Hp k); auto.
Qed.

(* A(I, J) = B(I, J) *)
Lemma within_app : forall s1 s2 j, within j (s1 ++ s2) -> exists j1 j2, j = j1 ++ j2 /\ length j1 = length s1 /\ within j1 s1 /\ within j2 s2.
Proof.
  intros s1 s2 j H. exists (firstn (length s1) j), (skipn (length s1) j). pose proof (within_length _ _ H) as L. rewrite app_length in L.
  assert (E : j = firstn (length s1) j ++ skipn (length s1) j) by (symmetry; apply firstn_skipn).
  assert (L1 : length (firstn (length s1) j) = length s1) by (rewrite firstn_length; lia).
  split; [exact E|]. split; [exact L1|]. apply within_split; auto. rewrite <- E. auto.
Qed.
Lemma gathers_all : forall subs fs ls rs, gathers_shape subs fs ls rs -> forall dv, ls = map len dv -> Spec_Slice.legal subs dv -> forall j, within j rs -> exists i, gathers subs fs ls j i.
Proof.
  induction 1 as [ls|f n subs fs ls rs G IH|o c s n c' subs fs ls rs E G IH|n subs fs ls1 ls rs L G IH|subs fs ls1 ls rs L G IH|n subs fs ls rs G IH|s f n subs fs ls rs G IH]; intros dv Ed Lg j Hj.
  - exists j. constructor. apply within_length in Hj. auto.
  - destruct dv as [|d dv]; [discriminate|]. injection Ed as -> ->. inversion Lg; subst. destruct (IH dv eq_refl ltac:(auto) j Hj) as (i & Hi). eexists. econstructor; eauto.
  - destruct dv as [|d dv]; [discriminate|]. injection Ed as -> ->. inversion Lg; subst. inversion Hj as [|x ? j' ? Hx Hj']; subst. destruct (IH dv eq_refl ltac:(auto) j' Hj') as (i & Hi). eexists. econstructor; eauto.
  - inversion Lg as [| | |? ? dv1 dv' L' Lg'| | |]; subst. rewrite map_app in Ed. apply app_inj in Ed as [-> ->]; [|rewrite map_length; congruence].
    destruct (within_app _ _ _ Hj) as (j1 & j2 & -> & L1 & W1 & W2). destruct (IH dv' eq_refl Lg' j2 W2) as (i & Hi). exists (j1 ++ i). constructor; auto.
  - inversion Lg as [| | | |? dv1 dv' L' Lg'| |]; subst. rewrite map_app in Ed. apply app_inj in Ed as [-> ->].
    2: { pose proof (f_equal (@length _) Ed) as El. rewrite !app_length, !map_length in El. rewrite map_length. lia. }
    destruct (within_app _ _ _ Hj) as (j1 & j2 & -> & L1 & W1 & W2). destruct (IH dv' eq_refl Lg' j2 W2) as (i & Hi). exists (j1 ++ i). constructor; auto.
  - inversion Lg; subst. destruct (within_app _ _ _ Hj) as (j1 & j2 & -> & L1 & W1 & W2). rewrite repeat_length in L1. destruct (IH dv eq_refl ltac:(auto) j2 W2) as (i & Hi). exists i. constructor; auto.
  - destruct dv as [|d dv]; [discriminate|]. injection Ed as -> ->. inversion Lg; subst. destruct (within_app _ _ _ Hj) as (j1 & j2 & -> & L1 & W1 & W2). destruct (IH dv eq_refl ltac:(auto) j2 W2) as (i & Hi). exists (f j1 :: i). constructor; auto.
Qed.
Lemma others_sub : forall subs fs ls rs, gathers_shape subs fs ls rs -> forall os, others subs ls os -> incl os rs.
Proof.
  induction 1; intros os H'; inversion H'; subst; try appeq; auto using incl_refl.
  - match goal with H1 : ?c ?n = Some ?a, H2 : ?c ?n = Some ?b |- _ => assert (a = b) as -> by congruence end. intros x [<-|Hx]; [left; auto|right; eapply IHgathers_shape; eauto].
  - intros x Hx. apply in_or_app. apply in_app_or in Hx as [Hx|Hx]; [auto|right; eapply IHgathers_shape; eauto].
  - intros x Hx. apply in_or_app. apply in_app_or in Hx as [Hx|Hx]; [auto|right; eapply IHgathers_shape; eauto].
  - intros x Hx. apply in_or_app. apply in_app_or in Hx as [Hx|Hx]; [auto|right; eapply IHgathers_shape; eauto].
  - intros x Hx. apply in_or_app. right; eapply IHgathers_shape; eauto.
Qed.
Lemma valid_in : forall i (v : view), inshape i (vshape v) -> valid i (vdv v).
Proof.
  intros i [dv p]. unfold vshape, inshape, valid. cbn [vdv]. revert dv. induction i as [|x i IH]; intros [|d dv] H; inversion H; subst; constructor; auto.
Qed.
Theorem C140_from : forall st a b subs (es : list ex) fs rs (m : mem T),
  Forall one_axis subs -> fits (vrank a) subs -> one_rest subs -> nonneg (vshape a) -> vshape b = vshape a -> Forall wf es -> Forall2 holds es fs -> es <> [] -> length es = arrays subs ->
  Spec_Slice.legal subs (vdv a) -> Spec_Slice.legal subs (vdv b) -> gathers_shape subs fs (vshape a) rs -> nonneg rs ->
  (forall j i, inshape j rs -> gathers subs fs (vshape a) j i -> inshape i (vshape a)) -> P_Cells.separate a b -> apart_at a ->
  exists m', from_copy fixed z st a b subs es m = Ok None m' /\
    (forall j i, inshape j rs -> gathers subs fs (vshape a) j i -> m' (vplace a i) = m (vplace b i)) /\
    forall p, (forall j i, inshape j rs -> gathers subs fs (vshape a) j i -> p <> vplace a i) -> m' p = m p.
Proof.
  intros st a b subs es fs rs m O F R N Eb Hw Hh Hn Ln La Lb Gs Nr Gi Hab Ha.
  assert (Er : vrank b = vrank a) by (rewrite !vrank_shape; congruence).
  assert (N' : Forall (fun n => 0 <= n \/ n = UNB) (vshape a)) by (eapply Forall_impl; [|exact N]; cbn; auto).
  destruct (proj1 (C27_gather T (mem T) st a subs es fs O F R N' Hw Hh Hn Ln) La) as (os & Oo & Gd & _).
  assert (Nos : ~ In UNB os). { intros H. apply (others_sub _ _ _ _ Gs _ Oo) in H. unfold nonneg in Nr. rewrite Forall_forall in Nr. specialize (Nr _ H). unfold UNB in Nr. lia. }
  destruct Gd as (d & rs1 & D1 & D2 & D3 & D4 & D5); auto. assert (rs1 = rs) as -> by (eapply gathers_shape_fun; eauto).
  destruct (proj1 (C27_gather T (mem T) st b subs es fs O ltac:(rewrite Er; auto) R ltac:(rewrite Eb; auto) Hw Hh Hn Ln) Lb) as (os2 & Oo2 & Gd2 & _). rewrite Eb in *.
  assert (Nos2 : ~ In UNB os2). { intros H. apply (others_sub _ _ _ _ Gs _ Oo2) in H. unfold nonneg in Nr. rewrite Forall_forall in Nr. specialize (Nr _ H). unfold UNB in Nr. lia. }
  destruct Gd2 as (e & rs2 & E1 & E2 & E3 & E4 & E5); auto. assert (rs2 = rs) as -> by (eapply gathers_shape_fun; eauto).
  unfold from_copy. rewrite D1. cbn [onres]. rewrite E1. cbn [onres].
  assert (All : forall j, inshape j rs -> exists i, gathers subs fs (vshape a) j i /\ within j rs /\ inshape i (vshape a)).
  { intros j Hj. assert (Wj : within j rs) by (apply inshape_within; auto). destruct (gathers_all _ _ _ _ Gs (vdv a) eq_refl La j Wj) as (i & Hi). exists i. split; auto. split; eauto. }
  assert (Da : forall j i w, inshape j rs -> gathers subs fs (vshape a) j i -> element d j w = Ok (VRef (vplace a i)) w).
  { intros j i w Hj G. apply (D5 j i w G); [apply inshape_within; auto|]. apply valid_in. eauto. }
  assert (Db : forall j i w, inshape j rs -> gathers subs fs (vshape a) j i -> element e j w = Ok (VRef (vplace b i)) w).
  { intros j i w Hj G. apply (E5 j i w G); [apply inshape_within; auto|]. apply valid_in. rewrite Eb. eauto. }
  set (pl := fun j => match element d j m with Ok (VRef p) _ => p | _ => 0 end). set (pr := fun j => match element e j m with Ok (VRef p) _ => p | _ => 0 end).
  assert (Pl : forall j i, inshape j rs -> gathers subs fs (vshape a) j i -> pl j = vplace a i) by (intros j i Hj G; unfold pl; rewrite (Da j i m Hj G); auto).
  assert (Pr : forall j i, inshape j rs -> gathers subs fs (vshape a) j i -> pr j = vplace b i) by (intros j i Hj G; unfold pr; rewrite (Db j i m Hj G); auto).
  destruct (assign_scatter T (fun _ x => x) d e rs m pl (fun j => m (pr j)) fixed z) as (m' & Q1 & Q2); auto.
  - destruct D4 as (A1 & A2). destruct E4 as (B1 & B2). unfold joint_shape. cbn [fold_right flat_map]. split; [lia|]. intros k Hk. destruct (A2 k ltac:(lia)) as (K1 & K2 & K3). destruct (B2 k ltac:(lia)) as (K4 & K5 & K6).
    rewrite app_nil_r. split; [|split; [apply in_or_app; auto|apply Forall_app; auto]]. unfold nonneg in Nr. rewrite Forall_forall in Nr. apply Nr. apply nth_In. lia.
  - intros j m1 Hj. destruct (All j Hj) as (i & G & _). rewrite (Pl j i Hj G). apply Da; auto.
  - intros j m1 Hj Hm1. destruct (All j Hj) as (i & G & _ & Ii). exists (VRef (vplace b i)). split; [apply Db; auto|]. rewrite (Pr j i Hj G). cbn. f_equal. apply Hm1.
    intros j' Hj' _ E. destruct (All j' Hj') as (i' & G' & _ & Ii'). rewrite (Pl j' i' Hj' G') in E. apply (Hab i' i); auto. rewrite Eb; auto.
  - exists m'. split; [exact Q1|]. split.
    + intros j i Hj G. rewrite <- (Pl j i Hj G), <- (Pr j i Hj G), Q2. apply (copied T (indices rs) (fun j => m (pr j)) pl); [apply in_indices; auto|].
      intros k Hk Ek. apply in_indices in Hk. destruct (All k Hk) as (i' & G' & _ & Ii'). rewrite (Pl j i Hj G), (Pl k i' Hk G') in Ek. rewrite (Pr j i Hj G), (Pr k i' Hk G'). apply Ha in Ek; eauto. congruence.
    + intros p Hp. rewrite Q2, filter_none; [reflexivity|]. intros k Hk. apply in_indices in Hk. apply Z.eqb_neq. intros <-. destruct (All k Hk) as (i & G & _). apply (Hp k i); auto.
Qed.

(* what A is after, when the elements of A with indices in p are replaced by those of B *)
Definition replaced (p : Z -> Z -> bool) (a b : view) (m m' : mem T) : Prop :=
  becomes a (fun k => if p (nth 0 k 0) (nth 1 k 0) then m (vplace b k) else m (vplace a k)) m m'.
Definition in_strip (i j : Z) (t : strip) : bool := let '(i0, j0, j1) := t in (i =? i0) && (j0 <=? j) && (j <=? j1).

Lemma strip_of : forall (v : view) n l i j0 j1, vshape v = [n; l] -> 0 <= i < n -> 0 <= j0 -> j1 < l -> j0 <= j1 + 1 ->
  exists d, from v [cidx i; ciota (j1 - j0 + 1) j0 1] = Good d /\ vshape d = [j1 - j0 + 1] /\ forall x, vplace d [x] = vplace v [i; j0 + x].
Proof.
  intros v n l i j0 j1 Sv Hi H0 H1 H2. set (subs := [cidx i; ciota (j1 - j0 + 1) j0 1]).
  assert (O : Forall one_axis subs) by (repeat constructor). assert (Rk : vrank v = 2%nat) by (rewrite vrank_shape, Sv; reflexivity). assert (F : fits (vrank v) subs) by (rewrite Rk; unfold fits; cbn; lia).
  assert (R : one_rest subs) by (apply one_rest_count; cbn; lia).
  destruct v as [[|d0 [|d1 [|d2 dv]]] cp]; try discriminate Rk. cbv [vshape vdv map] in Sv. injection Sv as S0 S1.
  assert (Lg : Spec_Slice.legal subs (vdv (Vw [d0; d1] cp))).
  { cbn [vdv]. unfold subs, cidx, ciota. eapply leg_idx; [reflexivity|left; lia|]. eapply leg_seq; try reflexivity; [lia|intros; lia|constructor]. }
  destruct (proj1 (C23_accepted _ _ O F R) Lg) as (d & E). destruct (C23_select _ _ _ E O F) as (A1 & A2 & A3). exists d. split; [exact E|]. split.
  - unfold subs, cidx, ciota in A1. inversion A1 as [|? ? ? ? ? B1| | | | |]; subst. inversion B1 as [| |? ? ? ? c' ? ? ? C1 C2| | | |]; subst. inversion C2; subst. congruence.
  - intros x. destruct (A3 [x] [i; j0 + x]) as (_ & _ & Q); [|exact Q]. cbv [vshape vdv map]. unfold subs, cidx, ciota. constructor; [reflexivity|].
    replace (j0 + x) with (j0 + x * 1) by lia. econstructor; [reflexivity|reflexivity|]. constructor. reflexivity.
Qed.
Lemma strip_ok : forall (a b : view) n l t (m : mem T), vshape a = [n; l] -> vshape b = [n; l] -> P_Cells.separate a b -> apart_at a ->
  (let '(i, j0, j1) := t in 0 <= i < n /\ 0 <= j0 /\ j1 < l /\ j0 <= j1 + 1) ->
  exists m', copy_strip fixed z a b t m = Ok None m' /\ replaced (fun i j => in_strip i j t) a b m m'.
Proof.
  intros a b n l [[i j0] j1] m Sa Sb Hab Ha (Hi & H0 & H1 & H2).
  destruct (strip_of a n l i j0 j1) as (d & E1 & E2 & E3); auto. destruct (strip_of b n l i j0 j1) as (e & F1 & F2 & F3); auto.
  assert (In2 : forall v k, vshape v = [n; l] -> inshape k [j1 - j0 + 1] -> exists x, k = [x] /\ 0 <= x < j1 - j0 + 1 /\ inshape [i; j0 + x] (vshape v)).
  { intros v k -> Hk. inversion Hk as [|x ? k' ? Hx Hk']; subst. inversion Hk'; subst. exists x. split; auto. split; [lia|]. repeat constructor; lia. }
  destruct (assign_view fixed z Hz (fun _ x : T => x) d e m) as (m' & Q1 & Q2 & Q3).
  - congruence.
  - rewrite E2. repeat constructor. lia.
  - intros k k' Hk Hk' E. rewrite E2 in *. destruct (In2 a k Sa Hk) as (x & -> & Hx & Ix). destruct (In2 a k' Sa Hk') as (y & -> & Hy & Iy). rewrite !E3 in E. apply Ha in E; auto. injection E as E. f_equal. lia.
  - intros k k' Hk Hk'. rewrite E2 in Hk. rewrite F2 in Hk'. destruct (In2 a k Sa Hk) as (x & -> & Hx & Ix). destruct (In2 b k' Sb Hk') as (y & -> & Hy & Iy). rewrite E3, F3. apply Hab; auto.
  - exists m'. split; [unfold copy_strip; rewrite E1; cbn [onres]; rewrite F1; cbn [onres]; exact Q1|]. split.
    + intros k Hk. destruct (in_strip (nth 0 k 0) (nth 1 k 0) (i, j0, j1)) eqn:B.
      * cbn [in_strip] in B. apply andb_prop in B as (B & B2). apply andb_prop in B as (B0 & B1). apply Z.eqb_eq in B0. apply Z.leb_le in B1, B2.
        rewrite Sa in Hk. apply in2e in Hk as (i' & j & -> & Hi' & Hj). cbn [nth] in *. subst i'.
        specialize (Q2 [j - j0]). rewrite E2, E3, F3 in Q2. replace (j0 + (j - j0)) with j in Q2 by lia. apply Q2. repeat constructor; lia.
      * apply Q3. intros k' Hk' E. rewrite E2 in Hk'. destruct (In2 a k' Sa Hk') as (x & -> & Hx & Ix). rewrite E3 in E. apply Ha in E; auto. subst k. cbn [nth in_strip] in B.
        rewrite Z.eqb_refl in B. destruct (Z.leb_spec j0 (j0 + x)), (Z.leb_spec (j0 + x) j1); try discriminate; lia.
    + intros p Hp. apply Q3. intros k' Hk' E. rewrite E2 in Hk'. destruct (In2 a k' Sa Hk') as (x & -> & Hx & Ix). rewrite E3 in E. exact (Hp _ Ix E).
Qed.
Theorem C140_strips : forall (a b : view) n l ts (m : mem T), vshape a = [n; l] -> vshape b = [n; l] -> P_Cells.separate a b -> apart_at a ->
  Forall (fun t : strip => let '(i, j0, j1) := t in 0 <= i < n /\ 0 <= j0 /\ j1 < l /\ j0 <= j1 + 1) ts ->
  exists m', copy_strips fixed z a b ts m = Ok None m' /\ replaced (fun i j => existsb (in_strip i j) ts) a b m m'.
Proof.
  intros a b n l ts m Sa Sb Hab Ha F. revert m. induction F as [|t ts Ft F IH]; intros m.
  - exists m. split; [reflexivity|]. split; auto.
  - destruct (strip_ok a b n l t m Sa Sb Hab Ha Ft) as (m1 & E1 & V1 & K1). destruct (IH m1) as (m' & E2 & V2 & K2). exists m'. split.
    { cbn [copy_strips]. unfold bind. rewrite E1. exact E2. }
    split.
    + intros k Hk. rewrite (V2 k Hk), (V1 k Hk). cbn [existsb]. assert (Kb : m1 (vplace b k) = m (vplace b k)).
      { apply K1. intros i Hi E. apply (Hab i k); auto. rewrite Sb, <- Sa; auto. }
      rewrite Kb. destruct (in_strip _ _ t), (existsb _ ts); reflexivity.
    + intros p Hp. rewrite K2, K1; auto.
Qed.
Theorem C140_where : forall (p : Z -> Z -> bool) tob (a b : view) n l (m : mem T), vshape a = [n; l] -> vshape b = [n; l] -> nonneg [n; l] -> P_Cells.separate a b -> apart_at a ->
  exists m', copy_where fixed z p tob a b m = Ok None m' /\ replaced p a b m m'.
Proof.
  intros p tob a b n l m Sa Sb Hn Hab Ha. destruct (view_shape (T:=T) a _ Sa Hn) as (Wa & Sha). destruct (view_shape (T:=T) b _ Sb Hn) as (Wb & Shb).
  destruct (C58_axes T (mem T) 0) as (W0 & A0 & L0 & M0). destruct (C58_axes T (mem T) 1) as (W1 & A1 & L1 & M1).
  assert (Wi : wf (on_index (T := T) p)) by (apply wf_map; [discriminate|]; auto).
  assert (Nt : forall k (q : expr (val T) (mem T)), (k < 2)%nat -> q = tindex k -> inner q [n; l]).
  { intros k q Hk ->. destruct (C58_axes T (mem T) k) as (W & A & L & M). split; [cbn [length]; lia|]. intros k'. destruct (Nat.eq_dec k' k) as [->|Hk']; [rewrite L; auto|rewrite M; auto]. }
  assert (Ni : inner (on_index (T := T) p) [n; l]).
  { apply inner_map. apply Forall_cons; [apply (Nt 0%nat); auto|]. apply Forall_cons; [apply (Nt 1%nat); auto|constructor]. }
  assert (Sy : forall j, inshape j [n; l] -> exists x y, j = [x; y]) by (intros j Hj; apply in2e in Hj as (x & y & -> & _); eauto).
  unfold copy_where.
  destruct (C29_assign T (fun _ x => x) (viter a) (where_ tob (on_index p) (viter b) (viter a)) [n; l] m (vplace a) (fun k => if p (nth 0 k 0) (nth 1 k 0) then m (vplace b k) else m (vplace a k)) fixed z) as (m' & E1 & E2 & E3); auto.
  - cbn. split; [discriminate|]. split; [split; [discriminate|auto]|auto].
  - apply (joint_cover _ _ _ (viter a)); [left; auto|auto|]. apply Forall_cons; [apply inner_whole; auto|]. apply Forall_cons; [|constructor].
    unfold where_. change (inner (Map (fun _ => @fail (mem T) (val T)) [castb tob (on_index p); viter a; viter b]) [n; l]).
    apply inner_map. apply Forall_cons; [apply inner_map; auto|]. apply Forall_cons; [apply inner_whole; auto|]. apply Forall_cons; [apply inner_whole; auto|constructor].
  - intros j m1 Hj. rewrite viter_element, vrank_shape, whole_in by (rewrite Sa; auto). reflexivity.
  - intros i j Hi Hj. rewrite <- Sa in Hi, Hj. apply Ha; auto.
  - intros j m1 Hj Hm.
    assert (Ea : element (viter a) j m1 = Ok (VRef (vplace a j)) m1) by (rewrite viter_element, vrank_shape, whole_in by (rewrite Sa; auto); reflexivity).
    assert (Eb : element (viter b) j m1 = Ok (VRef (vplace b j)) m1) by (rewrite viter_element, vrank_shape, whole_in by (rewrite Sb; auto); reflexivity).
    assert (Ep : element (castb tob (on_index p)) j m1 = Ok (VB (p (nth 0 j 0) (nth 1 j 0))) m1).
    { destruct (Sy j Hj) as (x & y & ->). unfold castb, on_index. cbn [element map in_order]. unfold bind, ret. rewrite (C58_value T (mem T) 0 [x; y] m1), (C58_value T (mem T) 1 [x; y] m1) by (cbn; lia). reflexivity. }
    assert (Ka : m1 (vplace a j) = m (vplace a j)).
    { apply Hm. intros j' Hj' L E. apply Ha in E; try (rewrite Sa; auto). subst j'. exact (lexlt_irrefl _ L). }
    assert (Kb : m1 (vplace b j) = m (vplace b j)).
    { apply Hm. intros j' Hj' L E. apply (Hab j' j); auto; [rewrite Sa|rewrite Sb]; auto. }
    unfold where_. cbn [element map]. rewrite Ep. destruct (p _ _).
    + exists (VRef (vplace b j)). split; [cbn; exact Eb|]. cbn. f_equal. exact Kb.
    + exists (VRef (vplace a j)). split; [cbn; exact Ea|]. cbn. f_equal. exact Ka.
  - exists m'. split; [exact E1|]. split.
    + intros k Hk. rewrite Sa in Hk. exact (E2 k Hk).
    + rewrite Sa. exact E3.
Qed.
(* For an odd n that isn't a multiple of 5 the strips are the interior of the circle. *)
Lemma strip_at_spec : forall c i, 0 <= i < 2 * c + 1 -> let n := 2 * c + 1 in forall t, In t (strip_at n i) ->
  let '(i0, j0, j1) := t in i0 = i /\ 0 <= j0 /\ j1 < n /\ j0 <= j1 + 1 /\ (forall j, j0 <= j <= j1 <-> 100 * ((i - c) * (i - c) + (j - c) * (j - c)) <= 16 * n * n).
Proof.
  intros c i Hi n t Ht. unfold strip_at in Ht. replace (2 * i - (n - 1)) with (2 * (i - c)) in Ht by (unfold n; lia). set (d := 16 * n * n - 25 * (2 * (i - c) * (2 * (i - c)))) in *. cbv zeta in Ht.
  destruct (Z.ltb_spec d 0) as [B|B]; [destruct Ht|]. destruct Ht as [<-|[]]. set (jd := Z.sqrt (d / 100)).
  assert (Q0 : 0 <= d / 100) by (apply Z.div_pos; lia). pose proof (Z.sqrt_spec _ Q0) as (S1 & S2). pose proof (Z.sqrt_nonneg (d / 100)) as S0. fold jd in S0, S1, S2.
  pose proof (Z.div_mod d 100 ltac:(lia)) as Dm. pose proof (Z.mod_pos_bound d 100 ltac:(lia)) as Dr.
  replace (n - 1 - 2 * jd) with ((c - jd) * 2) by (unfold n; lia). replace (n - 1 + 2 * jd) with ((c + jd) * 2) by (unfold n; lia). rewrite !Z.quot_mul by lia.
  assert (Hd : d <= 16 * n * n) by (unfold d; pose proof (Z.square_nonneg (i - c)); lia).
  assert (J : 5 * jd <= 2 * n).
  { destruct (Z.le_gt_cases (5 * jd) (2 * n)) as [|G]; auto. assert (2 * n * (2 * n) < 5 * jd * (5 * jd)) by (apply Z.square_lt_mono_nonneg; unfold n; lia). lia. }
  split; [reflexivity|]. split; [unfold n in *; lia|]. split; [unfold n in *; lia|]. split; [lia|]. intros j. set (y := j - c). set (x := i - c) in *.
  assert (Hy : c - jd <= j <= c + jd <-> Z.abs y <= jd) by (unfold y; lia). rewrite Hy.
  assert (Ha : Z.abs y * Z.abs y = y * y) by (rewrite <- Z.abs_mul, Z.abs_eq; [reflexivity|apply Z.square_nonneg]).
  assert (K : 100 * (x * x + y * y) <= 16 * n * n <-> 100 * (y * y) <= d) by (unfold d; lia). rewrite K. split; intros H.
  - assert (y * y <= jd * jd) by (rewrite <- Ha; apply Z.square_le_mono_nonneg; lia). lia.
  - destruct (Z.le_gt_cases (Z.abs y) jd) as [|G]; auto. assert ((jd + 1) * (jd + 1) <= Z.abs y * Z.abs y) by (apply Z.square_le_mono_nonneg; lia). unfold Z.succ in S2. lia.
Qed.
Lemma strip_at_some : forall n i, 25 * ((2 * i - (n - 1)) * (2 * i - (n - 1))) <= 16 * n * n -> strip_at n i <> [].
Proof. intros n i H. unfold strip_at. destruct (Z.ltb_spec (16 * n * n - 25 * ((2 * i - (n - 1)) * (2 * i - (n - 1)))) 0); [lia|discriminate]. Qed.
Lemma in_circle_list : forall n t, In t (circle n) <-> exists i, 0 <= i < n /\ In t (strip_at n i).
Proof.
  intros n t. unfold circle. rewrite in_flat_map. split.
  - intros (i & Hi & Ht). apply in_map_iff in Hi as (k & <- & Hk). apply in_seq in Hk. exists (Z.of_nat k). split; [lia|auto].
  - intros (i & Hi & Ht). exists i. split; [|auto]. apply in_map_iff. exists (Z.to_nat i). split; [lia|]. apply in_seq. lia.
Qed.
Lemma five : forall n x, n mod 5 <> 0 -> 25 * x <> 4 * (n * n).
Proof.
  intros n x H E. pose proof (Z.div_mod n 5 ltac:(lia)) as D. pose proof (Z.mod_pos_bound n 5 ltac:(lia)) as B. set (q := n / 5) in *. set (r := n mod 5) in *.
  assert (R : r = 1 \/ r = 2 \/ r = 3 \/ r = 4) by lia. clearbody q r. assert (N : n * n = 25 * (q * q) + 10 * (q * r) + r * r) by (rewrite D; ring). rewrite N in E.
  destruct R as [->|[->|[->| ->]]]; lia.
Qed.
Theorem C140_circle : forall n, Z.odd n = true -> n mod 5 <> 0 ->
  Forall (fun t : strip => let '(i, j0, j1) := t in 0 <= i < n /\ 0 <= j0 /\ j1 < n /\ j0 <= j1 + 1) (circle n) /\
  forall i j, 0 <= i < n -> existsb (in_strip i j) (circle n) = in_circle n i j.
Proof.
  intros n Ho H5. apply Z.odd_spec in Ho as (c & Ec). split.
  - apply Forall_forall. intros [[i0 j0] j1] Ht. apply in_circle_list in Ht as (i & Hi & Ht). rewrite Ec in Hi, Ht. pose proof (strip_at_spec c i Hi _ Ht) as (-> & A & B & C & _). lia.
  - intros i j Hi. apply eq_true_iff_eq. rewrite existsb_exists. unfold in_circle. rewrite Z.ltb_lt. split.
    + intros ([[i0 j0] j1] & Ht & B). apply in_circle_list in Ht as (i' & Hi' & Ht). rewrite Ec in Hi', Ht. pose proof (strip_at_spec c i' Hi' _ Ht) as (-> & _ & _ & _ & V). rewrite <- Ec in V.
      cbn [in_strip] in B. apply andb_prop in B as (B & B2). apply andb_prop in B as (B0 & B1). apply Z.eqb_eq in B0. apply Z.leb_le in B1, B2. subst i'. pose proof (proj1 (V j) (conj B1 B2)) as L.
      pose proof (five n ((i - c) * (i - c) + (j - c) * (j - c)) H5) as F. replace (2 * i - (n - 1)) with (2 * (i - c)) by lia. replace (2 * j - (n - 1)) with (2 * (j - c)) by lia. lia.
    + intros L. replace (2 * i - (n - 1)) with (2 * (i - c)) in L by lia. replace (2 * j - (n - 1)) with (2 * (j - c)) in L by lia.
      assert (L2 : 100 * ((i - c) * (i - c) + (j - c) * (j - c)) <= 16 * n * n) by lia. pose proof (Z.square_nonneg (j - c)) as Sq.
      destruct (strip_at n i) as [|t l] eqn:E. { exfalso. apply (strip_at_some n i) in E; auto. replace (2 * i - (n - 1)) with (2 * (i - c)) by lia. lia. }
      assert (Ht : In t (strip_at n i)) by (rewrite E; left; auto). exists t. split; [apply in_circle_list; eauto|]. rewrite Ec in Hi, Ht. pose proof (strip_at_spec c i Hi _ Ht) as V. destruct t as [[i0 j0] j1]. destruct V as (-> & _ & _ & _ & V). rewrite <- Ec in V.
      apply V in L2 as (V1 & V2). cbn [in_strip]. rewrite Z.eqb_refl. destruct (Z.leb_spec j0 j), (Z.leb_spec j j1); auto; lia.
Qed.
(* then the two ways in the program give the same *)
Theorem C140_disc : forall (a b : view) n tob (m : mem T), Z.odd n = true -> n mod 5 <> 0 -> 0 < n -> vshape a = [n; n] -> vshape b = [n; n] -> P_Cells.separate a b -> apart_at a ->
  exists m1 m2, copy_strips fixed z a b (circle n) m = Ok None m1 /\ copy_where fixed z (in_circle n) tob a b m = Ok None m2 /\ replaced (in_circle n) a b m m1 /\ replaced (in_circle n) a b m m2.
Proof.
  intros a b n tob m Ho H5 Hn Sa Sb Hab Ha. destruct (C140_circle n Ho H5) as (F & V).
  destruct (C140_strips a b n n (circle n) m Sa Sb Hab Ha F) as (m1 & E1 & V1 & K1). destruct (C140_where (in_circle n) tob a b n n m Sa Sb ltac:(repeat constructor; lia) Hab Ha) as (m2 & E2 & R2).
  exists m1, m2. split; [exact E1|]. split; [exact E2|]. split; [|exact R2]. split; [|exact K1]. intros k Hk. rewrite (V1 k Hk). rewrite Sa in Hk. apply in2e in Hk as (i & j & -> & Hi & Hj). cbn [nth]. rewrite V by auto. reflexivity.
Qed.

(* c = b + a(iota()): the length is that of b. If a is shorter, it fails when it gets to the end of a. *)
Lemma assign_stops : forall f (d e : ex) s (m : mem T) pl x js1 j js2, wf d -> wf e -> joint_shape [d; e] s -> refers d s pl -> row_major s (js1 ++ j :: js2) ->
  (forall j m', In j js1 -> (forall p, (forall j', inshape j' s -> lexlt j' j -> p <> pl j') -> m' p = m p) -> exists v, element e j m' = Ok v m' /\ value_of v m' = Some (x j)) ->
  (forall m', element e j m' = Fail m') ->
  exists m', assign fixed z f d e m = Fail m' /\ forall p, m' p = fold_left f (map x (filter (fun j => pl j =? p) js1)) (m p).
Proof.
  intros f d e s m pl x js1 j js2 Hd He Hs Hpl Hj Hx Hf. unfold assign.
  assert (Hin : forall k, In k (js1 ++ j :: js2) -> inshape k s).
  { intros k Hk. apply in_split in Hk as (a & b & E). exact (proj1 (row_major_split _ _ _ _ _ Hj E)). }
  destruct (each_scatter (val T) (element (Map (assign_op f) [d; e])) f pl x js1 m []) with (m := m) as (m' & E1 & E2).
  - intros l1 k l2 m1 E Hm1. cbn [app] in Hm1. assert (Ek : js1 ++ j :: js2 = l1 ++ k :: (l2 ++ j :: js2)) by (rewrite E, <- app_assoc; reflexivity).
    destruct (row_major_split _ _ _ _ _ Hj Ek) as (Hk & Hlt). assert (Kin : In k js1) by (rewrite E; apply in_or_app; right; left; auto).
    destruct (Hx k m1 Kin) as (u & F1 & F2). { intros p Hp. apply Hm1. intros j' Hj'. apply Hp; apply Hlt; auto. }
    cbn [element map]. exists VUnit. rewrite (in_order_2 _ _ _ _ _ (VRef (pl k)) m1 u m1); auto.
    unfold assign_op, op2, bind. rewrite (rd_value _ _ (x k)); auto.
  - auto.
  - exists m'. split; auto. rewrite (ply_spec _ _ _ no_stop fixed z _ s (js1 ++ j :: js2)); auto.
    + rewrite visit_each. assert (G : forall a b (w : mem T) w', each (element (Map (assign_op f) [d; e])) a w = Ok tt w' ->
        each (element (Map (assign_op f) [d; e])) (a ++ b) w = each (element (Map (assign_op f) [d; e])) b w').
      { induction a as [|y a IH]; intros b w w' E; cbn [each app] in *; [inversion E; reflexivity|]. destruct (element _ y w); try discriminate. apply IH. exact E. }
      rewrite (G js1 (j :: js2) m m' E1). cbn [each]. cbn [element map in_order]. rewrite Hpl by (apply Hin, in_or_app; right; left; auto). rewrite Hf. reflexivity.
    + apply wf_map; [discriminate|]. constructor; auto.
Qed.
Lemma first_of : forall st (a : view) na, vshape a = [na] -> 0 <= na -> exists e : ex, from_u st a [SArr] [Cell [Dim UNB 1] 1 VI 0] = Good e /\ wf e /\ (forall s, length s = 1%nat -> inner e s) /\
  forall i (w : mem T), 0 <= i -> (i < na -> element e [i] w = Ok (VRef (vplace a [i])) w) /\ (na <= i -> element e [i] w = Fail w).
Proof.
  intros st a na Sa Hna. destruct a as [[|d [|d' dv]] cp]; try discriminate Sa. cbv [vshape vdv map] in Sa. injection Sa as Sd.
  assert (Wc : wf (Cell (W := mem T) [Dim UNB 1] 1 (@VI T) 0)) by wfauto. assert (O : Forall one_axis [SArr]) by repeat constructor.
  assert (F : fits (vrank (Vw [d] cp)) [SArr]) by (unfold fits; cbn; lia). assert (R : one_rest [SArr]) by (apply one_rest_count; cbn; lia).
  assert (Ho : Forall2 holds [Cell (W := mem T) [Dim UNB 1] 1 (@VI T) 0] [([UNB], fun j => nth 0 j 0)]).
  { apply Forall2_cons; [|constructor]. split.
    - split; [reflexivity|]. intros k Hk. cbn in Hk. assert (k = 0%nat) by lia. subst k. cbn. split; [auto|]. split; [auto|]. repeat constructor; auto.
    - intros j w Hj. cbn [fst snd] in *. inversion Hj as [|x ? j' ? Hx Hj']; subst. inversion Hj'; subst. cbn [nth]. cbn. unfold ret. do 2 f_equal. lia. }
  assert (Lg : Spec_Slice.legal [SArr] (vdv (Vw [d] cp))) by (repeat constructor).
  destruct (proj1 (C27_gather T (mem T) st (Vw [d] cp) [SArr] _ _ O F R ltac:(cbv [vshape vdv map]; constructor; [left; lia|constructor]) (Forall_cons _ Wc (Forall_nil _)) Ho ltac:(discriminate) eq_refl) Lg) as (os & Oo & Gd & _).
  assert (os = []) as ->. { cbv [vshape vdv map] in Oo. inversion Oo as [| | | | | |? ? ? ? S1]; subst. inversion S1; subst. auto. }
  destruct Gd as (e & rs & E1 & E2 & E3 & E4 & E5); [right; intros []|]. cbv [vshape vdv map] in E3, E5. inversion E3 as [| | | | | |? ? ? ? ? ? rs' S1]; subst. inversion S1; subst. cbn [app] in *.
  exists e. split; [exact E1|]. split; [exact E2|]. split.
  - intros s Hs. destruct E4 as (A1 & A2). cbn [length] in A1. split; [lia|]. intros k. destruct (Nat.lt_ge_cases k (axes e)) as [Hk|Hk].
    + destruct (A2 k Hk) as (_ & _ & A3). assert (k = 0%nat) by lia. subst k. cbn [nth] in A3. eapply Forall_impl; [|exact A3]. intros q [->| ->]; auto.
    + rewrite leaf_lens_out by (auto; rewrite <- axes_rank by auto; auto). constructor.
  - intros i w Hi. assert (G : gathers [SArr] [([UNB], fun j => nth 0 j 0)] [len d] [i] [i]).
    { change (gathers [SArr] [([UNB], fun j => nth 0 j 0)] [len d] ([i] ++ []) [nth 0 [i] 0]). constructor; [|constructor; reflexivity]. repeat constructor; auto. }
    destruct (E5 [i] [i] w G ltac:(repeat constructor; auto)) as (V1 & V2). split; intros H.
    + apply V1. apply Forall2_cons; [left; lia|constructor].
    + apply V2. intros V. inversion V as [|? ? ? ? V0]; subst. unfold UNB in V0. lia.
Qed.
Theorem C140_iota : forall st add (c b a : view) n na (m : mem T), vshape c = [n] -> vshape b = [n] -> vshape a = [na] -> 0 <= n -> 0 <= na -> P_Cells.separate c a -> P_Cells.separate c b -> apart_at c ->
  exists m', add_first fixed z st add c b a m = (if n <=? na then Ok None m' else Fail m') /\
    (forall i, 0 <= i < n -> m' (vplace c [i]) = if i <? na then add (m (vplace b [i])) (m (vplace a [i])) else m (vplace c [i])) /\
    forall p, (forall i, 0 <= i < n -> p <> vplace c [i]) -> m' p = m p.
Proof.
  intros st add c b a n na m Sc Sb Sa Hn Hna Hca Hcb Hc. destruct (first_of st a na Sa Hna) as (e & E1 & We & Ne & Ve). unfold add_first. rewrite E1. cbn [onres].
  destruct (view_shape (T:=T) c _ Sc ltac:(repeat constructor; auto)) as (Wc & Shc). destruct (view_shape (T:=T) b _ Sb ltac:(repeat constructor; auto)) as (Wb & Shb).
  set (x := fun j => add (m (vplace b [nth 0 j 0])) (m (vplace a [nth 0 j 0]))).
  assert (Wx : wf (bin add (viter b) e)) by (unfold bin; apply wf_map; [discriminate|]; auto).
  assert (Jx : joint_shape [viter c; bin add (viter b) e] [n]).
  { apply (joint_cover _ _ _ (viter c)); [left; auto|auto|]. apply Forall_cons; [apply inner_whole; auto|]. apply Forall_cons; [|constructor]. apply inner_map. apply Forall_cons; [apply inner_whole; auto|]. apply Forall_cons; [apply Ne; auto|constructor]. }
  assert (Rc : refers (T := T) (viter c) [n] (vplace c)). { intros j m1 Hj. rewrite viter_element, vrank_shape, whole_in by (rewrite Sc; auto). reflexivity. }
  assert (Hx : forall j (m1 : mem T), inshape j [n] -> nth 0 j 0 < na -> (forall p, (forall j', inshape j' [n] -> lexlt j' j -> p <> vplace c j') -> m1 p = m p) -> exists v, element (bin add (viter b) e) j m1 = Ok v m1 /\ value_of v m1 = Some (x j)).
  { intros j m1 Hj Hl Hm. apply in1e in Hj as (i & -> & Hi). cbn [nth] in Hl. exists (VT (x [i])). split; [|reflexivity]. unfold bin. cbn [element map].
    rewrite (in_order_2 _ _ _ _ _ (VRef (vplace b [i])) m1 (VRef (vplace a [i])) m1); [|rewrite viter_element, vrank_shape, whole_in by (rewrite Sb; repeat constructor; lia); reflexivity|apply Ve; lia].
    unfold x. cbn [nth]. replace (m (vplace b [i])) with (m1 (vplace b [i])) by (apply Hm; intros j' Hj' _ E; apply (Hcb j' [i]); auto; [rewrite Sc; auto|rewrite Sb; repeat constructor; lia]).
    replace (m (vplace a [i])) with (m1 (vplace a [i])) by (apply Hm; intros j' Hj' _ E; apply (Hca j' [i]); auto; [rewrite Sc; auto|rewrite Sa; repeat constructor; lia]). reflexivity. }
  assert (Fin : forall js k, (forall j, In j js <-> exists i, j = [i] /\ 0 <= i < k) -> NoDup js -> k <= n -> forall m' : mem T, (forall p, m' p = fold_left (fun _ y => y) (map x (filter (fun j => vplace c j =? p) js)) (m p)) ->
    (forall i, 0 <= i < n -> m' (vplace c [i]) = if i <? k then x [i] else m (vplace c [i])) /\ forall p, (forall i, 0 <= i < n -> p <> vplace c [i]) -> m' p = m p).
  { intros js k Hjs Nd Hk m' V. split.
    - intros i Hi. rewrite V. destruct (Z.ltb_spec i k).
      + apply (copied T js x (vplace c)); [apply Hjs; exists i; split; auto; lia|]. intros q Hq Eq. apply Hjs in Hq as (i' & -> & Hi'). apply Hc in Eq; [rewrite Eq; auto| |]; rewrite Sc; repeat constructor; lia.
      + rewrite filter_none; [reflexivity|]. intros q Hq. apply Hjs in Hq as (i' & -> & Hi'). apply Z.eqb_neq. intros Eq. apply Hc in Eq; [injection Eq; lia| |]; rewrite Sc; repeat constructor; lia.
    - intros p Hp. rewrite V, filter_none; [reflexivity|]. intros q Hq. apply Hjs in Hq as (i' & -> & Hi'). apply Z.eqb_neq. intros <-. apply (Hp i'); auto. lia. }
  destruct (Z.leb_spec n na) as [L|L].
  - destruct (assign_scatter T (fun _ y => y) (viter c) (bin add (viter b) e) [n] m (vplace c) x fixed z) as (m' & Q1 & Q2); auto.
    { intros j m1 Hj Hm. apply Hx; auto. apply in1e in Hj as (i & -> & Hi). cbn; lia. }
    exists m'. split; [exact Q1|]. destruct (Fin (indices [n]) n) with (m' := m') as (F1 & F2); auto using indices_nodup; [|lia|].
    { intros j. rewrite in_indices. apply in1e. }
    split; [|exact F2]. intros i Hi. rewrite F1 by auto. destruct (Z.ltb_spec i n), (Z.ltb_spec i na); auto; lia.
  - assert (Sp : indices [n] = map (fun i => [i]) (zrange na) ++ [na] :: map (fun i => [na + 1 + i]) (zrange (n - na - 1))).
    { cbn [indices]. rewrite flat_map_concat_map. replace n with (na + (1 + (n - na - 1))) at 1 by lia. rewrite zrange_app, map_app, concat_app by lia. f_equal.
      - induction (zrange na) as [|y l IH]; [reflexivity|]. cbn [map concat app] in *. f_equal. exact IH.
      - rewrite (zrange_cons (1 + (n - na - 1))) by lia. replace (1 + (n - na - 1) - 1) with (n - na - 1) by lia. cbn [map concat app]. rewrite Z.add_0_r. f_equal.
        induction (zrange (n - na - 1)) as [|y l IH]; [reflexivity|]. cbn [map concat app] in *. f_equal; [f_equal; lia|exact IH]. }
    destruct (assign_stops (fun _ y => y) (viter c) (bin add (viter b) e) [n] m (vplace c) x (map (fun i => [i]) (zrange na)) [na] (map (fun i => [na + 1 + i]) (zrange (n - na - 1)))) as (m' & Q1 & Q2); auto.
    { rewrite <- Sp. apply row_major_indices. }
    { intros j m1 Hj Hm. apply in_map_iff in Hj as (i & <- & Hi). apply L_Spec.in_zrange in Hi. apply Hx; [repeat constructor; lia|cbn; lia|auto]. }
    { intros m1. unfold bin. cbn [element map in_order]. rewrite viter_element. cbv beta iota. rewrite (proj2 (Ve na m1 Hna)) by lia. reflexivity. }
    exists m'. split; [exact Q1|]. apply (Fin (map (fun i => [i]) (zrange na)) na) with (m' := m'); auto; [| |lia].
    { intros j. rewrite in_map_iff. split; [intros (i & <- & Hi); apply L_Spec.in_zrange in Hi; eauto|intros (i & -> & Hi); exists i; split; auto; apply L_Spec.in_zrange; auto]. }
    { apply FinFun.Injective_map_NoDup; [intros u v Q; congruence|unfold zrange; apply FinFun.Injective_map_NoDup; [intros u v Q; lia|apply seq_NoDup]]. }
Qed.
End Indirect.

(* ---- examples ---- *)
Definition eA : view := Vw [Dim 3 3; Dim 3 1] 0.
Definition eB : view := Vw [Dim 3 3; Dim 3 1] 100.
Definition em : mem Z := fun p => p.
Definition pts (x : val Z) : list Z := match x with VI k => nth (Z.to_nat k) [[2; 1]; [0; 0]; [2; 1]; [1; 2]] [] | _ => [] end.
Definition eI : expr (val Z) (mem Z) := Cell [Dim 4 1] 1 VI 0.
Lemma eA_apart : apart_at eA.
Proof. intros i j Hi Hj E. cbv [vshape eA eB vdv map len] in Hi, Hj. apply in2e in Hi as (a & b & -> & Ha & Hb). apply in2e in Hj as (c & d & -> & Hc & Hd). revert E. unfold vplace; cbn [eA vcp vdv place step]. intros E. assert (a = c) by lia. assert (b = d) by lia. congruence. Qed.
Lemma eAB : P_Cells.separate eA eB.
Proof. intros i j Hi Hj E. cbv [vshape eA eB vdv map len] in Hi, Hj. apply in2e in Hi as (a & b & -> & Ha & Hb). apply in2e in Hj as (c & d & -> & Hc & Hd). revert E. unfold vplace; cbn [eA eB vcp vdv place step]. lia. Qed.
Example ex_at : wf eI /\ shape_is eI [4] /\ indices_are pts eI [4] (fun j => nth (Z.to_nat (nth 0 j 0)) [[2; 1]; [0; 0]; [2; 1]; [1; 2]] []) /\
  (forall j, inshape j [4] -> inshape (nth (Z.to_nat (nth 0 j 0)) [[2; 1]; [0; 0]; [2; 1]; [1; 2]] []) [3; 3]) /\
  match at_copy false z_init eA eB pts eI em with Ok None m' => map m' (zrange 9) = [100; 1; 2; 3; 4; 105; 6; 107; 8] | _ => False end.
Proof.
  split; [wfauto|]. split. { split; [reflexivity|]. intros k Hk. cbn in Hk. assert (k = 0%nat) by lia. subst k. cbn. split; [lia|]. split; [auto|]. repeat constructor; auto. }
  split. { intros j m Hj. apply in1e in Hj as (x & -> & Hx). exists (VI (0 + (x * 1 + 0))). split; [reflexivity|]. replace (0 + (x * 1 + 0)) with x by lia. reflexivity. }
  split. { intros j Hj. apply in1e in Hj as (x & -> & Hx). cbn [nth]. assert (x = 0 \/ x = 1 \/ x = 2 \/ x = 3) as [->|[->|[->| ->]]] by lia; cbn; repeat constructor; lia. }
  vm_compute. reflexivity.
Qed.
(* A([2 0 2], [1 2]) = B([2 0 2], [1 2]) *)
Definition eJ : expr (val Z) (mem Z) := Cell [Dim 3 1] 1 (fun p => VI (nth (Z.to_nat p) [2; 0; 2] 0)) 0.
Definition eK : expr (val Z) (mem Z) := Cell [Dim 2 1] 1 (fun p => VI (p + 1)) 0.
Example ex_from : Forall2 holds [eJ; eK] [([3], fun j => nth (Z.to_nat (nth 0 j 0)) [2; 0; 2] 0); ([2], fun j => nth 0 j 0 + 1)] /\
  gathers_shape [SArr; SArr] [([3], fun j => nth (Z.to_nat (nth 0 j 0)) [2; 0; 2] 0); ([2], fun j => nth 0 j 0 + 1)] (vshape eA) [3; 2] /\
  (forall j i, inshape j [3; 2] -> gathers [SArr; SArr] [([3], fun j => nth (Z.to_nat (nth 0 j 0)) [2; 0; 2] 0); ([2], fun j => nth 0 j 0 + 1)] (vshape eA) j i -> inshape i (vshape eA)) /\
  match from_copy true z_init false eA eB [SArr; SArr] [eJ; eK] em with Ok None m' => map m' (zrange 9) = [0; 101; 102; 3; 4; 5; 6; 107; 108] | _ => False end.
Proof.
  assert (H : forall n (f : Z -> val Z) (g : list Z -> Z), 0 <= n -> (forall x, 0 <= x < n -> f x = VI (g [x])) -> holds (Cell (W := mem Z) [Dim n 1] 1 f 0) ([n], g)).
  { intros n f g Hn Hf. split.
    - split; [reflexivity|]. intros k Hk. cbn in Hk. assert (k = 0%nat) by lia. subst k. cbn. split; [auto|]. split; [auto|]. repeat constructor; auto.
    - intros j w Hj. cbn [fst snd] in *. inversion Hj as [|x ? j' ? Hx Hj']; subst. inversion Hj'; subst. unfold UNB in Hx. rewrite <- Hf by lia. cbn. unfold ret. do 2 f_equal. lia. }
  split. { apply Forall2_cons; [apply H; [lia|reflexivity]|]. apply Forall2_cons; [apply H; [lia|reflexivity]|constructor]. }
  split. { apply (gsh_arr [3] _ 3 [SArr] _ [3] [2]). apply (gsh_arr [2] _ 3 [] _ [] []). constructor. }
  split.
  { intros j i Hj G. cbv [vshape eA vdv map len] in *. inversion G as [| | | | | |s f n j1 ? ? ? j2 i2 W1 G2]; subst. inversion G2 as [| | | | | |s f n j3 ? ? ? j4 i4 W3 G4]; subst. inversion G4 as [? jj Lj| | | | | |]; subst. destruct i4; [|discriminate].
    inversion W1 as [|x ? y ? Hx Hy]; subst. inversion Hy; subst. inversion W3 as [|u ? v ? Hu Hv]; subst. inversion Hv; subst. unfold UNB in *. cbn [nth].
    assert (x = 0 \/ x = 1 \/ x = 2) as Ex by lia. apply in2e. eexists. eexists. split; [reflexivity|]. destruct Ex as [->|[->| ->]]; (split; [vm_compute; intuition discriminate|cbn; lia]). }
  vm_compute. reflexivity.
Qed.
(* n = 7, as in the program. The strips have other elements if n is even, and they have those on the circle if n is a multiple of 5. *)
Definition same_disc (n : Z) : bool := forallb (fun i => forallb (fun j => Bool.eqb (existsb (in_strip i j) (circle n)) (in_circle n i j)) (zrange n)) (zrange n).
Example ex_circle : circle 7 = [(1, 2, 4); (2, 1, 5); (3, 1, 5); (4, 1, 5); (5, 2, 4)] /\ map same_disc [7; 9; 11; 4; 5; 15] = [true; true; true; false; false; false] /\ existsb (in_strip 0 2) (circle 5) = true /\ in_circle 5 0 2 = false.
Proof. vm_compute. repeat split. Qed.
Example ex_strips : match copy_strips true z_init eA eB [(1, 0, 1); (2, 2, 1); (0, 2, 2)] em with Ok None m' => map m' (zrange 9) = [0; 1; 102; 103; 104; 5; 6; 7; 8] | _ => False end /\
  match copy_where false z_init (fun i j => i + j =? 2) (fun _ => true) eA eB em with Ok None m' => map m' (zrange 9) = [0; 1; 102; 3; 104; 5; 106; 7; 8] | _ => False end.
Proof. vm_compute. split; reflexivity. Qed.
(* a is longer than b, and a is shorter *)
Example ex_iota : match add_first true z_init false Z.add (Vw [Dim 3 1] 50) (Vw [Dim 3 2] 10) (Vw [Dim 5 1] 20) em with Ok None m' => map m' [49; 50; 51; 52; 53] = [49; 30; 33; 36; 53] | _ => False end /\
  match add_first true z_init false Z.add (Vw [Dim 3 1] 50) (Vw [Dim 3 2] 10) (Vw [Dim 2 1] 20) em with Fail m' => map m' [49; 50; 51; 52; 53] = [49; 30; 33; 52; 53] | _ => False end.
Proof. vm_compute. split; reflexivity. Qed.
Print Assumptions C140_at_same.
Print Assumptions C140_at.
Print Assumptions C140_from.
Print Assumptions C140_strips.
Print Assumptions C140_where.
Print Assumptions C140_circle.
Print Assumptions C140_disc.
Print Assumptions C140_iota.
