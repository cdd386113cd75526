(* Properties C153 and C154: the programs in examples/pitfall.cc and examples/explode-collapse.cc. *)
From Coq Require Import ZArith List Lia Bool.
From Verif Require Import Spec L_Spec Spec_Ply Spec_Expr M_Base M_Expr M_Ply M_Val Spec_Val L_Expr L_Agree L_Ply L_Run L_Val P_Reduce M_View Spec_View L_View P_View M_Slice Spec_Slice L_Slice P_Slice M_Frame Spec_Frame L_Frame P_Frame M_Mat P_Mat M_Cells P_Cells P_Outer M_Elem P_Elem M_Stencil P_Stencil P_Roll M_Indirect P_Indirect M_Examples P_Examples M_Blocks.
Import ListNotations.
Open Scope Z_scope.

(* place of element q of the element i of b, each of which is an array with dimensions dt, of sz elements *)
Definition in_block (o sz : Z) (dt : list dim) (b : view) (i q : list Z) : Z := o + sz * vplace b i + place dt q.

Lemma each_compose : forall X T (get : list Z -> M (mem T) X) (f : T -> T -> T) (out_ : list Z -> Z -> list T) js (P : mem T -> Prop),
  (forall j m, In j js -> P m -> exists u m1, get j m = Ok u m1 /\ P m1 /\ forall p, m1 p = fold_left f (out_ j p) (m p)) ->
  forall m, P m -> exists m', each get js m = Ok tt m' /\ P m' /\ forall p, m' p = fold_left f (flat_map (fun j => out_ j p) js) (m p).
Proof.
  induction js as [|j js IH]; intros P Hg m Hm.
  - exists m. split; [reflexivity|]. split; auto.
  - destruct (Hg j m (or_introl eq_refl) Hm) as (u & m1 & E1 & P1 & V1). destruct (IH P) with (m := m1) as (m' & E2 & P2 & V2); auto. { intros k m2 Hk. apply Hg. right; auto. }
    exists m'. split; [cbn [each]; rewrite E1; auto|]. split; auto. intros p. cbn [flat_map]. rewrite fold_left_app, <- V1. apply V2.
Qed.
Lemma flat_map_one : forall A B (l : list A) (P : A -> bool) (g : A -> B), flat_map (fun j => if P j then [g j] else []) l = map g (filter P l).
Proof. induction l as [|a l IH]; intros P g; cbn; auto. destruct (P a); cbn; rewrite IH; auto. Qed.
Lemma flat_map_same : forall A B (f g : A -> list B) l, (forall x, In x l -> f x = g x) -> flat_map f l = flat_map g l.
Proof. induction l as [|a l IH]; intros H; cbn; auto. rewrite (H a (or_introl eq_refl)), IH; auto. intros; apply H; right; auto. Qed.
Lemma flat_map_none : forall A B (f : A -> list B) l, (forall x, In x l -> f x = []) -> flat_map f l = [].
Proof. induction l as [|a l IH]; intros H; cbn; auto. rewrite (H a (or_introl eq_refl)), IH; auto. intros; apply H; right; auto. Qed.
Definition zl_eqb (i j : list Z) : bool := if list_eq_dec Z.eq_dec i j then true else false.
(* the indices that begin with i *)
Lemma begin_with : forall s1 s2 i, inshape i s1 -> filter (fun j => zl_eqb (firstn (length s1) j) i) (indices (s1 ++ s2)) = map (app i) (indices s2).
Proof.
  intros s1 s2 i Hi. rewrite indices_app.
  assert (G : forall l, (forall a, In a l -> length a = length s1) -> NoDup l -> filter (fun j => zl_eqb (firstn (length s1) j) i) (flat_map (fun i => map (app i) (indices s2)) l) = if in_dec (list_eq_dec Z.eq_dec) i l then map (app i) (indices s2) else []).
  { induction l as [|a l IH]; intros Ha Hn; [reflexivity|]. cbn [flat_map]. rewrite filter_app. inversion Hn; subst. assert (La : length a = length s1) by (apply Ha; left; auto).
    assert (Ga : forall k, firstn (length s1) (a ++ k) = a). { intros. rewrite firstn_app, <- La, Nat.sub_diag. cbn. rewrite app_nil_r, firstn_all. auto. }
    rewrite IH; auto; [|intros; apply Ha; right; auto]. assert (F : forall ks, filter (fun j => zl_eqb (firstn (length s1) j) i) (map (app a) ks) = if zl_eqb a i then map (app a) ks else []).
    { induction ks as [|k ks IHk]; cbn [map filter]; [destruct (zl_eqb a i); auto|]. rewrite Ga, IHk. destruct (zl_eqb a i); auto. }
    rewrite F. unfold zl_eqb. destruct (list_eq_dec Z.eq_dec a i) as [->|Hne].
    - destruct (in_dec (list_eq_dec Z.eq_dec) i l); [contradiction|]. rewrite app_nil_r. destruct (in_dec (list_eq_dec Z.eq_dec) i (i :: l)) as [|N]; auto. destruct N. left; auto.
    - cbn [app]. destruct (in_dec (list_eq_dec Z.eq_dec) i l) as [I1|N1], (in_dec (list_eq_dec Z.eq_dec) i (a :: l)) as [I2|N2]; auto; [destruct N2; right; auto|destruct I2; [contradiction|contradiction]]. }
  rewrite G; [|intros a Ha; apply in_indices in Ha; apply inshape_length in Ha; auto|apply indices_nodup]. destruct (in_dec (list_eq_dec Z.eq_dec) i (indices s1)) as [|N]; auto. destruct N. apply in_indices; auto.
Qed.
Lemma last_index : forall s, Forall (fun n => 0 < n) s -> exists l, indices s = l ++ [map (fun n => n - 1) s].
Proof.
  induction 1 as [|n s Hn F (l & E)]; [exists []; reflexivity|]. assert (Ez : zrange n = zrange (n - 1) ++ [n - 1]).
  { replace n with (n - 1 + 1) at 1 by lia. rewrite zrange_app by lia. change (zrange 1) with [0]. cbn [map]. rewrite Z.add_0_r. reflexivity. }
  cbn [indices map]. rewrite Ez, flat_map_app. cbn [flat_map]. rewrite app_nil_r, E, map_app. cbn [map]. rewrite app_assoc. eexists. reflexivity.
Qed.

Section Blocks.
Context {T : Type}.
Variables (fixed : bool) (z : list zt) (fi : bool) (zi : list zt).
Hypotheses (Hz : zclean z) (Hzi : zclean zi).
Notation ex := (expr (val T) (mem T)).
Variables (o sz : Z) (dt : list dim) (b : view).
Hypotheses (Nt : nonneg (map len dt)) (Nb : nonneg (vshape b)).
Notation at_b := (in_block o sz dt b).
(* m and m1 may differ only at the elements of the elements of b *)
Definition but_blocks (m m1 : mem T) : Prop := forall p, (forall i q, inshape i (vshape b) -> inshape q (map len dt) -> p <> at_b i q) -> m1 p = m p.

Lemma block_shape : wf (block_iter o sz b : ex) /\ shape_is (block_iter o sz b : ex) (vshape b).
Proof. exact (view_shape (T:=T) b _ eq_refl Nb). Qed.
Lemma block_element : forall j (m : mem T), element (block_iter o sz b) j m = Ok (VRef (o + sz * vplace b (firstn (vrank b) j))) m.
Proof. intros j m. unfold block_iter. cbn [element]. unfold vrank. rewrite firstn_all. reflexivity. Qed.
Lemma place_of_block : forall p q, vplace (Vw dt p) q = p + place dt q.
Proof. reflexivity. Qed.
Lemma block_once : forall f p x (m : mem T), exists m1, assign fi zi f (viter (Vw dt p)) (Scalar (VT x)) m = Ok None m1 /\ forall r, m1 r = fold_left f (map (fun _ => x) (filter (fun q => p + place dt q =? r) (indices (map len dt)))) (m r).
Proof.
  intros f p x m. destruct (view_shape (T:=T) (Vw dt p) (map len dt) eq_refl Nt) as (W & S).
  destruct (assign_scatter T f (viter (Vw dt p)) (Scalar (VT x)) (map len dt) m (vplace (Vw dt p)) (fun _ => x) fi zi) as (m1 & E1 & E2); auto.
  - exact I.
  - apply (joint_cover _ _ _ (viter (Vw dt p))); [left; auto|auto|]. apply Forall_cons; [apply inner_whole; auto|]. apply Forall_cons; [apply inner_scalar|constructor].
  - intros j m1 Hj. rewrite viter_element, vrank_shape, whole_in by auto. reflexivity.
  - intros j m1 _ _. exists (VT x). split; reflexivity.
  - exists m1. auto.
Qed.
(* what is done to each place *)
Lemma blocks : forall f (e : ex) s2 (m : mem T) x, wf e -> joint_shape [block_iter o sz b; e] (vshape b ++ s2) -> (forall m1, but_blocks m m1 -> reads e (vshape b ++ s2) m1 x) ->
  exists m', block_assign fixed z fi zi f o sz dt b e m = Ok None m' /\
    forall p, m' p = fold_left f (flat_map (fun j => map (fun _ => x j) (filter (fun q => at_b (firstn (vrank b) j) q =? p) (indices (map len dt)))) (indices (vshape b ++ s2))) (m p).
Proof.
  intros f e s2 m x We Hs Hx. destruct block_shape as (Wb & Sb). set (s := vshape b ++ s2) in *.
  assert (Pre : forall j, inshape j s -> inshape (firstn (vrank b) j) (vshape b)).
  { intros j Hj. unfold s in Hj. apply Forall2_app_inv_r in Hj as (j1 & j2 & F1 & F2 & ->). pose proof (inshape_length _ _ F1) as L. rewrite vrank_shape, firstn_app, L, Nat.sub_diag. cbn. rewrite app_nil_r, firstn_all2 by lia. auto. }
  destruct (each_compose (val T) T (element (Map (block_op fi zi f dt) [block_iter o sz b; e])) f (fun j p => map (fun _ => x j) (filter (fun q => at_b (firstn (vrank b) j) q =? p) (indices (map len dt)))) (indices s) (but_blocks m)) with (m := m) as (m' & E1 & _ & E2).
  - intros j m1 Hj Hm. apply in_indices in Hj. destruct (Hx m1 Hm j Hj) as (v & F1 & F2). destruct (block_once f (o + sz * vplace b (firstn (vrank b) j)) (x j) m1) as (m2 & G1 & G2).
    exists VUnit, m2. split; [|split].
    + cbn [element map]. rewrite (in_order_2 _ _ _ _ _ (VRef (o + sz * vplace b (firstn (vrank b) j))) m1 v m1); [|apply (block_element j m1)|auto]. unfold block_op, op2, bind. rewrite (rd_value _ _ (x j)) by auto. rewrite G1. reflexivity.
    + intros p Hp. rewrite G2, filter_none; [apply Hm; auto|]. intros q Hq. apply in_indices in Hq. apply Z.eqb_neq. intros E. exact (Hp _ q (Pre j Hj) Hq (eq_sym E)).
    + exact G2.
  - intros p _. reflexivity.
  - exists m'. split; auto. unfold block_assign. rewrite (ply_spec _ _ _ no_stop fixed z _ s (indices s)); auto.
    + rewrite visit_each, E1. reflexivity.
    + apply wf_map; [discriminate|]. constructor; auto.
    + apply row_major_indices.
Qed.

(* The elements of b, and of these, are all at different places. *)
Definition blocks_apart : Prop := forall i q i' q', inshape i (vshape b) -> inshape q (map len dt) -> inshape i' (vshape b) -> inshape q' (map len dt) -> at_b i q = at_b i' q' -> i = i' /\ q = q'.
(* 'b OP e', where e may have more axes than b *)
Theorem C153_assign : forall f (e : ex) s2 ks (m : mem T) x, wf e -> joint_shape [block_iter o sz b; e] (vshape b ++ s2) -> row_major s2 ks -> blocks_apart -> (forall m1, but_blocks m m1 -> reads e (vshape b ++ s2) m1 x) ->
  exists m', block_assign fixed z fi zi f o sz dt b e m = Ok None m' /\
    (forall i q, inshape i (vshape b) -> inshape q (map len dt) -> m' (at_b i q) = fold_left f (map (fun k => x (i ++ k)) ks) (m (at_b i q))) /\ but_blocks m m'.
Proof.
  intros f e s2 ks m x We Hs Hk Ha Hx. apply row_major_unique in Hk. subst ks. destruct (blocks f e s2 m x We Hs Hx) as (m' & E1 & E2). exists m'. split; auto.
  assert (Pre : forall j, inshape j (vshape b ++ s2) -> inshape (firstn (vrank b) j) (vshape b)).
  { intros j Hj. apply Forall2_app_inv_r in Hj as (j1 & j2 & F1 & F2 & ->). pose proof (inshape_length _ _ F1) as L. rewrite vrank_shape, firstn_app, L, Nat.sub_diag. cbn. rewrite app_nil_r, firstn_all2 by lia. auto. }
  split.
  - intros i q Hi Hq. rewrite E2. f_equal. rewrite <- (map_map (app i) x), <- (begin_with (vshape b) s2 i Hi), <- vrank_shape, <- flat_map_one. apply flat_map_same. intros j Hj. apply in_indices in Hj. unfold zl_eqb.
    destruct (list_eq_dec Z.eq_dec (firstn (vrank b) j) i) as [->|N].
    + rewrite (filter_one _ _ _ q); [reflexivity|apply indices_nodup|apply in_indices; auto|]. intros u Hu. apply in_indices in Hu. rewrite Z.eqb_eq. split; [|intros ->; auto]. intros E. apply Ha in E; auto. tauto.
    + rewrite filter_none; [reflexivity|]. intros u Hu. apply in_indices in Hu. apply Z.eqb_neq. intros E. apply Ha in E; auto. tauto.
  - intros p Hp. rewrite E2, flat_map_none; [reflexivity|]. intros j Hj. apply in_indices in Hj.
    rewrite filter_none; [reflexivity|]. intros u Hu. apply in_indices in Hu. apply Z.eqb_neq. intros E. exact (Hp _ _ (Pre j Hj) Hu (eq_sym E)).
Qed.

Section Flat.
Variables (a : view) (s2 : list Z).
Hypotheses (Ea : vshape a = vshape b ++ s2) (Na : nonneg s2).
Hypothesis Sep : forall i q j, inshape i (vshape b) -> inshape q (map len dt) -> inshape j (vshape a) -> at_b i q <> vplace a j.
Hypothesis Apart : blocks_apart.
Lemma flat_assign : forall (m : mem T), exists m', flat_to_nested fixed z fi zi o sz dt b a m = Ok None m' /\
    (forall i q, inshape i (vshape b) -> inshape q (map len dt) -> m' (at_b i q) = fold_left put (map (fun k => m (vplace a (i ++ k))) (indices s2)) (m (at_b i q))) /\ but_blocks m m'.
Proof.
  intros m. assert (Ns : nonneg (vshape b ++ s2)) by (apply Forall_app; split; auto). destruct (view_shape (T:=T) a _ Ea Ns) as (Wa & Sa). destruct block_shape as (Wb & Sb).
  apply (C153_assign put (viter a) s2 (indices s2) m (fun j => m (vplace a j))); auto.
  - apply joint_prefix; auto.
  - apply row_major_indices.
  - intros m1 Hm j Hj. exists (VRef (vplace a j)). rewrite viter_element, vrank_shape, whole_in by (rewrite Ea; auto). split; [reflexivity|]. cbn. f_equal. apply Hm. intros i q Hi Hq E. apply (Sep i q j); auto. rewrite Ea; auto.
Qed.
(* b = a: all the elements of b(i) are a(i, ...) at the end of the axes that b doesn't have. *)
Theorem C153_last : forall (m : mem T), Forall (fun n => 0 < n) s2 -> exists m', flat_to_nested fixed z fi zi o sz dt b a m = Ok None m' /\
  (forall i q, inshape i (vshape b) -> inshape q (map len dt) -> m' (at_b i q) = m (vplace a (i ++ map (fun n => n - 1) s2))) /\ but_blocks m m'.
Proof.
  intros m Hp. destruct (flat_assign m) as (m' & E1 & E2 & E3). exists m'. split; auto. split; auto. intros i q Hi Hq. rewrite E2 by auto. destruct (last_index s2 Hp) as (l & ->). rewrite map_app, fold_left_app. reflexivity.
Qed.
(* If one of those axes is empty nothing is assigned. *)
Theorem C153_empty : forall (m : mem T), In 0 s2 -> exists m', flat_to_nested fixed z fi zi o sz dt b a m = Ok None m' /\ forall p, m' p = m p.
Proof.
  intros m Hp. destruct (flat_assign m) as (m' & E1 & E2 & E3). exists m'. split; auto.
  assert (En : indices s2 = []). { destruct (indices s2) as [|j l] eqn:E; auto. assert (Hj : In j (indices s2)) by (rewrite E; left; auto). apply in_indices in Hj. exfalso. clear - Hp Hj. induction Hj; cbn in Hp; [auto|]. destruct Hp as [->|]; [lia|auto]. }
  intros p. assert (D : (exists i q, inshape i (vshape b) /\ inshape q (map len dt) /\ at_b i q = p) \/ forall i q, inshape i (vshape b) -> inshape q (map len dt) -> p <> at_b i q).
  { destruct (existsb (fun i => existsb (fun q => at_b i q =? p) (indices (map len dt))) (indices (vshape b))) eqn:X.
    - left. apply existsb_exists in X as (i & Hi & X). apply existsb_exists in X as (q & Hq & X). apply in_indices in Hi, Hq. apply Z.eqb_eq in X. eauto.
    - right. intros i q Hi Hq E. apply not_true_iff_false in X. apply X. apply existsb_exists. exists i. split; [apply in_indices; auto|]. apply existsb_exists. exists q. split; [apply in_indices; auto|]. apply Z.eqb_eq. auto. }
  destruct D as [(i & q & Hi & Hq & <-)|N]; [|apply E3; auto]. rewrite E2, En by auto. reflexivity.
Qed.
End Flat.
(* If a(i ...) doesn't agree with b then b isn't changed. *)
Theorem C153_refused : forall (a : view) k (m : mem T), nonneg (vshape a) -> (k < vrank b)%nat -> (k < vrank a)%nat -> nth k (vshape a) 0 <> nth k (vshape b) 0 -> flat_to_nested fixed z fi zi o sz dt b a m = Fail m.
Proof.
  intros a k m Na Kb Ka Hne. destruct block_shape as (Wb & Sb). destruct (view_shape (T:=T) a _ eq_refl Na) as (Wa & Sa). unfold flat_to_nested, block_assign.
  match goal with |- ply _ _ _ ?e _ = _ => assert (We : wf e) by (apply wf_map; [discriminate|repeat (constructor; auto)]) end. apply ply_refused; [auto|].
  destruct Sb as (Lb & Sb), Sa as (La & Sa). rewrite vrank_shape in Kb, Ka. destruct (Sb k) as (B1 & B2 & _); [lia|]. destruct (Sa k) as (A1 & A2 & _); [lia|].
  apply (lens_refused _ _ k (nth k (vshape a) 0) (nth k (vshape b) 0)); auto; cbn [leaf_lens flat_map]; rewrite !in_app_iff; auto.
Qed.

(* 'b = x': no need for the elements of b to be at different places. *)
Lemma block_fill : forall x (m : mem T), exists m', block_assign fixed z fi zi put o sz dt b (Scalar (VT x)) m = Ok None m' /\ (forall i q, inshape i (vshape b) -> inshape q (map len dt) -> m' (at_b i q) = x) /\ but_blocks m m'.
Proof.
  intros x m. destruct block_shape as (Wb & Sb). destruct (blocks put (Scalar (VT x)) [] m (fun _ => x)) as (m' & E1 & E2).
  - exact I.
  - rewrite app_nil_r. apply (joint_cover _ _ _ (block_iter o sz b)); [left; auto|auto|]. apply Forall_cons; [apply inner_whole; auto|]. apply Forall_cons; [apply inner_scalar|constructor].
  - intros m1 _ j _. exists (VT x). split; reflexivity.
  - exists m'. rewrite app_nil_r in E2. split; auto.
    assert (G : forall p (l : list T), Forall (eq x) l -> fold_left put l (m p) = match l with [] => m p | _ => x end).
    { intros p l F. generalize (m p) as y. clear - F. assert (K : forall y, l <> [] -> fold_left put l y = x). { induction F as [|v l Hv F IH]; intros y N; [contradiction|]. subst v. cbn [fold_left]. destruct l; [reflexivity|]. apply IH. discriminate. }
      intros y. destruct l; [reflexivity|]. apply K. discriminate. }
    assert (Fx : forall p js, Forall (eq x) (flat_map (fun j => map (fun _ => x) (filter (fun q => at_b (firstn (vrank b) j) q =? p) (indices (map len dt)))) js)).
    { intros p js. induction js as [|j js IH]; cbn; [constructor|]. apply Forall_app. split; auto. induction (filter _ _); cbn; constructor; auto. }
    split.
    + intros i q Hi Hq. rewrite E2, G by apply Fx. destruct (flat_map _ _) as [|y l] eqn:E; auto. exfalso.
      assert (Hin : In x (flat_map (fun j => map (fun _ => x) (filter (fun q0 => at_b (firstn (vrank b) j) q0 =? at_b i q) (indices (map len dt)))) (indices (vshape b)))).
      { apply in_flat_map. exists i. split; [apply in_indices; auto|]. apply in_map_iff. exists q. split; auto. apply filter_In. split; [apply in_indices; auto|]. rewrite vrank_shape, whole_in by auto. apply Z.eqb_refl. }
      rewrite E in Hin. destruct Hin.
    + intros p Hp. rewrite E2, flat_map_none; [reflexivity|]. intros j Hj. apply in_indices in Hj. rewrite filter_none; [reflexivity|]. intros u Hu. apply in_indices in Hu.
      apply Z.eqb_neq. rewrite vrank_shape, whole_in by auto. intros E. exact (Hp _ _ Hj Hu (eq_sym E)).
Qed.
End Blocks.

(* ---- C154 ---- *)
Section Explode.
Context {T : Type}.
Variables (fixed : bool) (z : list zt) (fi : bool) (zi : list zt).
Hypotheses (Hz : zclean z) (Hzi : zclean zi).

Lemma exploded : forall a w dt sz b, 0 < w -> nonneg (map len dt) -> 0 < zprod (map len dt) -> sz = zprod (map len dt) -> explode a w (Ety dt w (w * sz)) = Good b ->
  vshape a = vshape b ++ map len dt /\ forall i q, length i = vrank b -> length q = length dt -> vcp a + sz * place (vdv b) i + place dt q = vplace a (i ++ q).
Proof.
  intros a w dt sz b Hw Nt Pt Es E. subst sz. assert (Pk : packed (Ety dt w (w * zprod (map len dt)))) by (split; [exact Hw|]; split; [exact Nt|]; split; [exact Pt|reflexivity]).
  destruct (C22_explode a w _ b Hw Pk E) as (us & U1 & U2 & U3 & U4 & U5). cbn [tdv vsize tsize] in *.
  assert (Lb : (vrank b + length dt)%nat = vrank a).
  { unfold explode in E. cbn [tdv vsize tsize] in E. rewrite Z.eqb_refl in E. destruct (Nat.ltb_spec (vrank a) (length dt + 0)) as [|Hr]; [discriminate|].
    destruct (explode_sub _ 1) as [s|]; [|discriminate]. destruct (negb _); [discriminate|]. destruct (negb _); [discriminate|]. destruct (explode_frame _ _) as [dv|] eqn:F; [|discriminate]. inversion E; subst b.
    apply explode_frame_spec in F as (F & _). apply (f_equal (@length Z)) in F. rewrite !map_length, firstn_length in F. unfold vrank in *. cbn [vdv]. lia. }
  assert (us = []) as ->. { apply (f_equal (@length Z)) in U1. rewrite !app_length, <- !vrank_shape, map_length in U1. destruct us; auto. cbn in U1. lia. }
  rewrite app_nil_r in U1. split; auto. intros i q Hi Hq. specialize (U5 i q [] Hi Hq eq_refl). rewrite app_nil_r in U5. unfold inner_byte in U5. cbn [tdv vsize rm] in U5. unfold vplace. apply (Z.mul_reg_l _ _ w); [lia|]. nia.
Qed.
Theorem C154_explode : forall w sz dt (a b c : view) subs x (m : mem T), 0 < w -> nonneg (map len dt) -> 0 < zprod (map len dt) -> sz = zprod (map len dt) -> explode a w (Ety dt w (w * sz)) = Good b ->
  Forall one_axis subs -> fits (vrank b) subs -> from (Vw (vdv b) 0) subs = Good c -> nonneg (vshape c) ->
  exists s rs m', vshape a = s ++ map len dt /\ selects_shape subs s rs /\ explode_fill fixed z fi zi w sz dt a subs x m = Ok None m' /\
    (forall j i q, inshape j rs -> selects subs s j i -> inshape q (map len dt) -> m' (vplace a (i ++ q)) = x) /\
    forall p, (forall j i q, inshape j rs -> selects subs s j i -> inshape q (map len dt) -> p <> vplace a (i ++ q)) -> m' p = m p.
Proof.
  intros w sz dt a b c subs x m Hw Nt Pt Es E O F Ec Nc. destruct (exploded a w dt sz b Hw Nt Pt Es E) as (Sa & Pa).
  destruct (C23_select (Vw (vdv b) 0) subs c Ec O F) as (S1 & S2 & S3). change (vshape (Vw (vdv b) 0)) with (vshape b) in *.
  destruct (block_fill fixed z fi zi Hz Hzi (vcp a) sz dt c Nt Nc x m) as (m' & E1 & E2 & E3). exists (vshape b), (vshape c), m'. split; auto. split; auto. split; [unfold explode_fill; rewrite E; cbn [onres]; rewrite Ec; exact E1|].
  assert (Q : forall j i q, selects subs (vshape b) j i -> inshape q (map len dt) -> in_block (vcp a) sz dt c j q = vplace a (i ++ q)).
  { intros j i q Hs Hq. destruct (S3 j i Hs) as (_ & L & P). unfold in_block. rewrite P. unfold vplace at 1. cbn [vcp vdv]. rewrite Z.add_0_l. apply Pa; [exact L|]. apply inshape_length in Hq. rewrite map_length in Hq. auto. }
  split.
  - intros j i q Hj Hs Hq. rewrite <- (Q j i q) by auto. apply E2; auto.
  - intros p Hp. apply E3. intros j q Hj Hq. destruct (S2 j) as (i & Hi). { rewrite vrank_shape. apply inshape_length; auto. } rewrite (Q j i q) by auto. apply (Hp j); auto.
Qed.

Lemma collapsed : forall a w dt sz, 0 < w -> nonneg (map len dt) -> 0 < zprod (map len dt) -> sz = zprod (map len dt) -> exists b, collapse a (Ety dt w (w * sz)) (Ety [] w w) = Good b /\ vshape b = vshape a ++ map len dt /\
  forall i q, length i = vrank a -> length q = length dt -> place (vdv b) (i ++ q) = sz * place (vdv a) i + place dt q.
Proof.
  intros a w dt sz Hw Nt Pt ->. destruct (C22_collapse_scalar a (Ety dt w (w * zprod (map len dt))) w 1 Hw Z.lt_0_1) as (b & E1 & E2 & E3 & E4).
  - split; [exact Hw|]; split; [exact Nt|]; split; [exact Pt|reflexivity].
  - cbn [vsize]. lia.
  - cbn [tdv Z.ltb Z.compare Pos.compare Pos.compare_cont] in *. exists b. split; auto. rewrite app_nil_r in E3. split; auto. intros i q Hi Hq. specialize (E4 i q [] Hi Hq eq_refl). rewrite app_nil_r in E4. unfold inner_byte in E4. cbn [tdv vsize tsize nth] in E4.
    apply (Z.mul_reg_l _ _ w); [lia|]. nia.
Qed.
Theorem C154_collapse : forall o w sz dt (a b c : view) subs x (m : mem T), 0 < w -> nonneg (map len dt) -> 0 < zprod (map len dt) -> sz = zprod (map len dt) -> collapse a (Ety dt w (w * sz)) (Ety [] w w) = Good b ->
  Forall one_axis subs -> fits (vrank a + length dt) subs -> from (Vw (vdv b) (o + sz * vcp a)) subs = Good c -> nonneg (vshape c) ->
  exists rs m', selects_shape subs (vshape a ++ map len dt) rs /\ collapse_fill fixed z o w sz dt a subs x m = Ok None m' /\
    (forall j i q, inshape j rs -> length i = vrank a -> length q = length dt -> selects subs (vshape a ++ map len dt) j (i ++ q) -> m' (in_block o sz dt a i q) = x) /\
    forall p, (forall j i q, inshape j rs -> length i = vrank a -> length q = length dt -> selects subs (vshape a ++ map len dt) j (i ++ q) -> p <> in_block o sz dt a i q) -> m' p = m p.
Proof.
  intros o w sz dt a b c subs x m Hw Nt Pt Es E O F Ec Nc. destruct (collapsed a w dt sz Hw Nt Pt Es) as (b' & E' & Sb & Pb). rewrite E in E'. inversion E'; subst b'. clear E'.
  assert (Rb : vrank b = (vrank a + length dt)%nat) by (rewrite vrank_shape, Sb, app_length, <- vrank_shape, map_length; auto).
  destruct (C23_select (Vw (vdv b) (o + sz * vcp a)) subs c Ec O) as (S1 & S2 & S3). { change (fits (vrank b) subs). rewrite Rb. auto. }
  change (vshape (Vw (vdv b) (o + sz * vcp a))) with (vshape b) in *. change (vrank (Vw (vdv b) (o + sz * vcp a))) with (vrank b) in *. rewrite Sb in *.
  destruct (C149_fill fixed z Hz (Vw (vdv b) (o + sz * vcp a)) subs c x m Ec Nc) as (m' & E1 & E2 & E3). exists (vshape c), m'. split; auto. split.
  { unfold collapse_fill. rewrite E. cbn [onres]. exact E1. }
  assert (Q : forall j i q, length i = vrank a -> length q = length dt -> selects subs (vshape a ++ map len dt) j (i ++ q) -> vplace c j = in_block o sz dt a i q).
  { intros j i q Hi Hq Hs. destruct (S3 j _ Hs) as (_ & _ & P). rewrite P. unfold vplace, in_block. cbn [vcp vdv]. rewrite Pb by auto. unfold vplace. lia. }
  split.
  - intros j i q Hj Hi Hq Hs. rewrite <- (Q j i q) by auto. apply E2. exists j. auto.
  - intros p Hp. apply E3. intros (j & Hj & <-). destruct (S2 j) as (iq & Hs). { rewrite vrank_shape. apply inshape_length; auto. }
    destruct (S3 j iq Hs) as (_ & L & _). rewrite Rb in L. rewrite <- (firstn_skipn (vrank a) iq) in Hs.
    assert (L1 : length (firstn (vrank a) iq) = vrank a) by (rewrite firstn_length; lia). assert (L2 : length (skipn (vrank a) iq) = length dt) by (rewrite skipn_length; lia).
    apply (Hp j (firstn (vrank a) iq) (skipn (vrank a) iq)); auto.
Qed.

(* B(all, 0) = x0; B(all, 1) = x1; ... *)
Lemma component : forall o w n (a : view) len_ k x (m : mem T), 0 < w -> vshape a = [len_] -> 0 <= len_ -> 0 <= k < n -> exists m', collapse_fill fixed z o w n [Dim n 1] a [all; cidx k] x m = Ok None m' /\
  (forall i, 0 <= i < len_ -> m' (o + n * vplace a [i] + k) = x) /\ forall p, (forall i, 0 <= i < len_ -> p <> o + n * vplace a [i] + k) -> m' p = m p.
Proof.
  intros o w n a l k x m Hw Sa Hl Hk. assert (Ez : zprod (map len [Dim n 1]) = n) by (cbn; lia). assert (Nt : nonneg (map len [Dim n 1])) by (repeat constructor; cbn; lia). assert (Ra : vrank a = 1%nat) by (rewrite vrank_shape, Sa; auto).
  destruct (collapsed a w [Dim n 1] n Hw Nt) as (b & E1 & E2 & E3); [lia|auto|]. rewrite Sa in E2. cbn [map len app] in E2.
  assert (Hb : exists c, from (Vw (vdv b) (o + n * vcp a)) [all; cidx k] = Good c).
  { destruct (C23_accepted (Vw (vdv b) (o + n * vcp a)) [all; cidx k]) as (G & _).
    - repeat constructor.
    - unfold vrank. cbn [vdv]. apply (f_equal (@length Z)) in E2. unfold vshape in E2. rewrite map_length in E2. rewrite E2. unfold fits. cbn. lia.
    - apply one_rest_count. cbn. lia.
    - apply G. cbn [vdv]. destruct (vdv b) as [|d0 [|d1 [|]]] eqn:D; unfold vshape in E2; rewrite D in E2; cbn in E2; try discriminate. injection E2 as L0 L1. change [d0; d1] with ([d0] ++ [d1]). constructor; [reflexivity|]. econstructor; [reflexivity|lia|constructor]. }
  destruct Hb as (c & Ec).
  assert (Sh : vshape c = [l]).
  { destruct (C23_select _ _ c Ec) as (S1 & _ & _); [repeat constructor|unfold vrank; cbn [vdv]; apply (f_equal (@length Z)) in E2; unfold vshape in E2; rewrite map_length in E2; rewrite E2; unfold fits; cbn; lia|].
    change (vshape (Vw (vdv b) (o + n * vcp a))) with (vshape b) in S1. rewrite E2 in S1. inversion S1 as [| | |? ? ls1 ls rs L1 S2 X1 X2| | |]; subst. destruct ls1 as [|? [|]]; try discriminate. cbn [app] in X2. injection X2 as -> ->. inversion S2 as [|? ? ? ? ? S3| | | | |]; subst. inversion S3; subst. reflexivity. }
  destruct (C154_collapse o w n [Dim n 1] a b c [all; cidx k] x m) as (rs & m' & Q1 & Q2 & Q3 & Q4); auto; try lia.
  - repeat constructor.
  - rewrite Ra. unfold fits. cbn. lia.
  - rewrite Sh. repeat constructor; auto.
  - assert (rs = [l]) as ->.
    { rewrite Sa in Q1. cbn [map len app] in Q1. inversion Q1 as [| | |? ? ls1 ls rs' L1 S2 X1 X2| | |]; subst. destruct ls1 as [|? [|]]; try discriminate. cbn [app] in X2. injection X2 as -> ->. inversion S2 as [|? ? ? ? ? S3| | | | |]; subst. inversion S3; subst. reflexivity. }
    exists m'. split; auto. assert (Ib : forall i, in_block o n [Dim n 1] a [i] [k] = o + n * vplace a [i] + k) by (intros i; unfold in_block; cbn [place step]; lia). split.
    + intros i Hi. rewrite <- Ib. apply (Q3 [i]); [repeat constructor; lia|auto|auto|]. rewrite Sa. cbn [map len app]. change [l; n] with ([l] ++ [n]). change [i; k] with ([i] ++ [k]). change [i] with ([i] ++ []) at 1. constructor; [reflexivity|reflexivity|]. econstructor; [reflexivity|]. constructor. reflexivity.
    + intros p Hp. apply Q4. intros j i q Hj Hi Hq Hs. rewrite Ra in Hi. destruct i as [|i [|]]; try discriminate. destruct q as [|q [|]]; try discriminate. rewrite Sa in Hs. cbn [map len app] in Hs.
      inversion Hs as [| | |? ? ls1 ls j1 j2 i2 L1 L2 S2 X1 X2 X3 X4| | |]; subst. destruct ls1 as [|? [|]]; try discriminate. destruct j1 as [|y [|]]; try discriminate. cbn [app] in *. injection X2 as -> ->. injection X4 as -> ->.
      inversion S2 as [|? ? v ? ? ? ? G S3| | | | |]; subst. inversion S3; subst. injection G as <-. inversion Hj; subst. rewrite Ib. apply Hp; auto.
Qed.
Theorem C154_components : forall o w n (a : view) len_ xs (m : mem T), 0 < w -> vshape a = [len_] -> 0 <= len_ -> Z.of_nat (length xs) <= n ->
  exists m', fill_components fixed z o w n [Dim n 1] a 0 xs m = Ok None m' /\ (forall i k, 0 <= i < len_ -> (k < length xs)%nat -> forall d, m' (o + n * vplace a [i] + Z.of_nat k) = nth k xs d) /\
    forall p, (forall i k, 0 <= i < len_ -> (k < length xs)%nat -> p <> o + n * vplace a [i] + Z.of_nat k) -> m' p = m p.
Proof.
  intros o w n a l xs m Hw Sa Hl Hx.
  assert (Inj : forall i k i' k', 0 <= i < l -> 0 <= i' < l -> 0 <= k < n -> 0 <= k' < n -> o + n * vplace a [i] + k = o + n * vplace a [i'] + k' -> k = k').
  { intros i k i' k' Hi Hi' Hk Hk' E. assert (vplace a [i] = vplace a [i']) by nia. lia. }
  assert (G : forall xs k0 (m : mem T), 0 <= k0 -> k0 + Z.of_nat (length xs) <= n -> exists m', fill_components fixed z o w n [Dim n 1] a k0 xs m = Ok None m' /\
    (forall i k, 0 <= i < l -> (k < length xs)%nat -> forall d, m' (o + n * vplace a [i] + (k0 + Z.of_nat k)) = nth k xs d) /\ forall p, (forall i k, 0 <= i < l -> (k < length xs)%nat -> p <> o + n * vplace a [i] + (k0 + Z.of_nat k)) -> m' p = m p).
  { clear xs m Hx. induction xs as [|x xs IH]; intros k0 m H0 Hx; cbn [length] in Hx.
    - exists m. split; [reflexivity|]. split; [intros i k _ Hk; cbn in Hk; lia|auto].
    - destruct (component o w n a l k0 x m Hw Sa Hl) as (m1 & E1 & V1 & K1); [lia|]. destruct (IH (k0 + 1) m1) as (m2 & E2 & V2 & K2); [lia|lia|]. exists m2. split; [cbn [fill_components]; unfold bind; rewrite E1; exact E2|]. split.
      + intros i [|k] Hi Hk d; cbn [nth length] in *.
        * rewrite Z.add_0_r, K2; [apply V1; auto|]. intros i' k' Hi' Hk' E. apply Inj in E; try lia.
        * replace (k0 + Z.of_nat (S k)) with (k0 + 1 + Z.of_nat k) by lia. apply V2; [auto|lia].
      + intros p Hp. rewrite K2; [apply K1|]; [intros i Hi; specialize (Hp i 0%nat Hi); cbn [length] in Hp; rewrite Z.add_0_r in Hp; apply Hp; lia|].
        intros i k Hi Hk. specialize (Hp i (S k) Hi). cbn [length] in Hp. replace (k0 + 1 + Z.of_nat k) with (k0 + Z.of_nat (S k)) by lia. apply Hp. lia. }
  exact (G xs 0 m (Z.le_refl 0) Hx).
Qed.
End Explode.

(* pitfall.cc:21-25. a at 0, b at 100 *)
Definition pa : view := Vw [Dim 3 2; Dim 2 1] 0.
Definition pb : view := Vw [Dim 3 1] 0.
Definition pm : mem Z := fun p => p + 1.
Example C153_ex : vshape pa = vshape pb ++ [2] /\ (forall i q j, inshape i (vshape pb) -> inshape q [2] -> inshape j (vshape pa) -> in_block 100 2 [Dim 2 1] pb i q <> vplace pa j) /\ blocks_apart 100 2 [Dim 2 1] pb /\
  match flat_to_nested false z_init true z_init 100 2 [Dim 2 1] pb pa pm with Ok _ m => map m [99; 100; 101; 102; 103; 104; 105; 106] | _ => [] end = [100; 2; 2; 4; 4; 6; 6; 107] /\
  match block_assign false z_init true z_init Z.add 100 2 [Dim 2 1] pb (viter pa) pm with Ok _ m => map m [99; 100; 101; 102; 103; 104; 105; 106] | _ => [] end = [100; 104; 105; 110; 111; 116; 117; 107] /\
  flat_to_nested false z_init true z_init 100 2 [Dim 2 1] pb (Vw [Dim 2 3; Dim 3 1] 0) pm = Fail pm.
Proof.
  split; [reflexivity|]. split; [|split; [|split; [|split]]].
  - intros i q j Hi Hq Hj. apply in1e in Hi as (x & -> & Hx), Hq as (y & -> & Hy). apply in2e in Hj as (u & v & -> & Hu & Hv). unfold in_block, vplace. cbn [pa pb vcp vdv place step len] in *. lia.
  - intros i q i' q' Hi Hq Hi' Hq'. apply in1e in Hi as (x & -> & Hx), Hq as (y & -> & Hy), Hi' as (x' & -> & Hx'), Hq' as (y' & -> & Hy'). unfold in_block, vplace. cbn [pb vcp vdv place step len] in *. intros E. split; f_equal; lia.
  - vm_compute; reflexivity.
  - vm_compute; reflexivity.
  - vm_compute; reflexivity.
Qed.
(* explode-collapse.cc:29-36, 44-54 *)
Definition ea : view := Vw [Dim 2 3; Dim 3 1] 7.
Definition em : mem Z := fun p => (p - 7) / 3 - (p - 7) mod 3.
Example C154_ex : explode ea 4 (Ety [Dim 3 1] 4 (4 * 3)) = Good (Vw [Dim 2 1] 7) /\ fits 1 [cidx 1] /\ from (Vw [Dim 2 1] 0) [cidx 1] = Good (Vw [] 1) /\
  match explode_fill false z_init true z_init 4 3 [Dim 3 1] ea [cidx 1] 99 em with Ok _ m => map m [7; 8; 9; 10; 11; 12; 13] | _ => [] end = [0; -1; -2; 99; 99; 99; em 13] /\
  match fill_components false z_init 7 4 3 [Dim 3 1] (Vw [Dim 3 1] 0) 0 [9; 7; 3] em with Ok _ m => map m [6; 7; 8; 9; 10; 11; 12; 13; 14; 15; 16] | _ => [] end = [em 6; 9; 7; 3; 9; 7; 3; 9; 7; 3; em 16].
Proof. repeat split; vm_compute; auto. Qed.
Print Assumptions C153_assign. Print Assumptions C153_last. Print Assumptions C153_empty. Print Assumptions C153_refused. Print Assumptions C154_explode. Print Assumptions C154_collapse. Print Assumptions C154_components.
