(* Property C151: stencils on two arrays that change places. *)
From Coq Require Import ZArith List Lia Bool Sorting.Sorted Sorting.Permutation Ring.
From Verif Require Import Spec L_Spec Spec_Ply Spec_Expr M_Base M_Expr M_Ply M_Val Spec_Val L_Expr L_Agree L_Ply L_Stl L_Run L_Val P_Reduce M_View Spec_View L_View P_View M_Slice Spec_Slice L_Slice P_Slice M_Frame Spec_Frame L_Frame P_Frame M_Mat Spec_Mat P_Mat M_Opt P_Outer M_Cell P_Cell M_Cells P_Cells M_Ext P_Ext M_Doc P_Doc M_Stencil P_Stencil M_Roll P_Roll M_Gemm P_Gemm M_Select P_Select M_Leap.
Import ListNotations.
Open Scope Z_scope.

(* ---- what the property is stated with ---- *)
(* index i, with x more on axis k *)
Fixpoint bump (k : nat) (x : Z) (i : list Z) : list Z := match k, i with O, y::i' => y + x :: i' | S k', y::i' => y :: bump k' x i' | _, [] => [] end.
(* neither at the beginning nor at the end of any axis *)
Fixpoint mid (s i : list Z) : bool := match s, i with [], [] => true | n::s', x::i' => (0 <? x) && (x <? n - 1) && mid s' i' | _, _ => false end.
(* how many entries aren't 1 *)
Definition far (k : list Z) : nat := length (filter (fun x => negb (x =? 1)) k).
Section Spec.
Context {T : Type}.
Variables (add mul : T -> T -> T) (zero one c : T).
Definition field := list Z -> T.
(* c times the element, and its neighbors *)
Definition around_all (f : field) : field := fun i =>
  fold_left add (map (fun k => f (bump k 1 i)) (seq 0 (length i)) ++ map (fun k => f (bump k (-1) i)) (seq 0 (length i))) (mul c (f i)).
Definition next_field (s : list Z) (f g : field) : field := fun i => if mid s i then around_all f i else g i.
(* k times: the new one from the old one, and the old one is the next to be written on *)
Fixpoint leaps (k : nat) (s : list Z) (f g : field) : field * field := match k with O => (f, g) | S k' => leaps k' s (next_field s f g) f end.
(* c at the center of the mask, 1 on the neighbors, 0 elsewhere *)
Definition weight (k : list Z) : T := match far k with O => c | S O => one | _ => zero end.
Definition mask_ok (m : mem T) (mask : view) (d : nat) : Prop := vshape mask = repeat 3 d /\ forall k, inshape k (repeat 3 d) -> m (vplace mask k) = weight k.
Definition elems (m : mem T) (v : view) : field := fun i => m (vplace v i).
Definition like (s : list Z) (f g : field) : Prop := forall i, inshape i s -> f i = g i.
Definition place_of (v : view) (p : Z) : Prop := exists i, inshape i (vshape v) /\ p = vplace v i.
End Spec.

(* ---- indices ---- *)
Lemma ones_room : forall s, Forall (fun n => 2 <= n) s -> room (repeat 1 (length s)) (repeat 1 (length s)) s.
Proof. induction 1 as [|n s H _ IH]; cbn; constructor; auto; lia. Qed.
Lemma mid_interior : forall s i, mid s i = true <-> interior (repeat 1 (length s)) (repeat 1 (length s)) s i.
Proof.
  induction s as [|n s IH]; intros [|x i]; cbn [mid length repeat]; split; intros H; try discriminate; try constructor; try (inversion H; fail); auto.
  - apply andb_true_iff in H as (H & _). lia.
  - apply IH. apply andb_true_iff in H as (_ & H). exact H.
  - inversion H as [|? ? ? ? ? ? ? ? H1 H2]; subst. apply IH in H2. rewrite H2. apply andb_true_iff. split; auto. lia.
Qed.
Lemma plus_zero : forall i, plus i (repeat 0 (length i)) = i.
Proof. induction i; cbn; f_equal; auto; lia. Qed.
Lemma plus_offset : forall i k x, (k < length i)%nat -> plus i (offset_on (length i) k x) = bump k x i.
Proof.
  induction i as [|y i IH]; intros k x H; cbn [length] in H; [lia|]. unfold offset_on. destruct k as [|k].
  - cbn [repeat app plus bump length]. f_equal. replace (S (length i) - 0 - 1)%nat with (length i) by lia. apply plus_zero.
  - cbn [repeat app plus bump length]. f_equal; [lia|]. replace (S (length i) - S k - 1)%nat with (length i - k - 1)%nat by lia. apply IH. lia.
Qed.
Lemma offset_near : forall d k x, (k < d)%nat -> -1 <= x <= 1 -> near (repeat 1 d) (repeat 1 d) (offset_on d k x).
Proof.
  intros d k x H Hx. unfold offset_on. revert k H. induction d as [|d IH]; intros k H; [lia|]. destruct k as [|k]; cbn [repeat app].
  - constructor; [lia|]. replace (S d - 0 - 1)%nat with d by lia. clear. induction d; cbn; constructor; auto; lia.
  - constructor; [lia|]. replace (S d - S k - 1)%nat with (d - k - 1)%nat by lia. apply IH. lia.
Qed.
Lemma zero_near : forall d, near (repeat 1 d) (repeat 1 d) (repeat 0 d).
Proof. induction d; cbn; constructor; auto; lia. Qed.
Lemma bump_length : forall k x i, length (bump k x i) = length i.
Proof. induction k; intros x [|y i]; cbn; auto. Qed.
Lemma bump_in : forall s i k x, mid s i = true -> -1 <= x <= 1 -> inshape (bump k x i) s.
Proof.
  induction s as [|n s IH]; intros [|y i] k x H Hx; try discriminate H; [destruct k; constructor|]. cbn [mid] in H. apply andb_true_iff in H as (H1 & H2).
  assert (Hi : inshape i s). { clear - H2. revert i H2. induction s as [|n s IH]; intros [|y i] H; try discriminate H; constructor; cbn [mid] in H; apply andb_true_iff in H as (H1 & H2); [lia|apply IH; auto]. }
  destruct k as [|k]; cbn [bump]; constructor; auto; try lia. apply IH; auto.
Qed.
Lemma mid_in : forall s i, mid s i = true -> inshape i s.
Proof. induction s as [|n s IH]; intros [|y i] H; try discriminate H; constructor; cbn [mid] in H; apply andb_true_iff in H as (H1 & H2); [lia|apply IH; auto]. Qed.

Lemma mid_shift : forall s i, mid s i = true <-> exists j, inshape j (map (fun n => n - 2) s) /\ i = map (fun x => 1 + x) j.
Proof.
  induction s as [|n s IH]; intros [|x i]; cbn [mid map]; split; intros H; try discriminate; auto.
  - exists []. split; [constructor|reflexivity].
  - destruct H as (j & Hj & E). inversion Hj; subst. discriminate E.
  - destruct H as (j & Hj & E). inversion Hj; subst. discriminate E.
  - apply andb_true_iff in H as (H1 & H2). apply andb_true_iff in H1 as (H0 & H1). apply IH in H2 as (j & Hj & ->). exists (x - 1 :: j). split; [constructor; [lia|auto]|]. cbn [map]. f_equal. lia.
  - destruct H as (j & Hj & E). inversion Hj as [|y ? j' ? H1 H2]; subst. injection E as Ex Ei. subst i. apply andb_true_iff. split; [|apply IH; eauto]. apply andb_true_iff. rewrite !Z.ltb_lt. change (x = 1 + y) in Ex. cbn beta in H1. lia.
Qed.
Lemma shift_inj : forall i j, map (fun x => 1 + x) i = map (fun x => 1 + x) j -> i = j.
Proof. induction i as [|x i IH]; intros [|y j] E; try discriminate; auto. injection E as E1 E2. f_equal; [|auto]. change (1 + x = 1 + y) in E1. lia. Qed.

Lemma far_ones : forall d, far (repeat 1 d) = O.
Proof. induction d; cbn; auto. Qed.
Lemma far_bump : forall d k x, (k < d)%nat -> x <> 0 -> far (bump k x (repeat 1 d)) = 1%nat.
Proof.
  unfold far. induction d as [|d IH]; intros k x H Hx; [lia|]. destruct k as [|k]; cbn [repeat bump filter].
  - replace (1 + x =? 1) with false by (symmetry; apply Z.eqb_neq; lia). cbn [negb length]. f_equal. apply far_ones.
  - cbn. apply IH; auto; lia.
Qed.
Lemma far_none : forall d k, inshape k (repeat 3 d) -> far k = O -> k = repeat 1 d.
Proof.
  unfold far. induction d as [|d IH]; intros k H F; inversion H as [|x ? k' ? Hx H']; subst; [reflexivity|]. cbn [filter repeat] in *. destruct (Z.eqb_spec x 1) as [->|N]; cbn [negb] in F; [|discriminate F]. f_equal. auto.
Qed.
Lemma far_one : forall d k, inshape k (repeat 3 d) -> far k = 1%nat -> exists j, (j < d)%nat /\ (k = bump j 1 (repeat 1 d) \/ k = bump j (-1) (repeat 1 d)).
Proof.
  induction d as [|d IH]; intros k H F; inversion H as [|x ? k' ? Hx H']; subst; [discriminate F|]. unfold far in F. cbn [filter] in F. destruct (Z.eqb_spec x 1) as [->|N]; cbn [negb] in F.
  - destruct (IH k' H' F) as (j & Hj & Q). exists (S j). split; [lia|]. cbn [repeat bump]. destruct Q as [<-|<-]; auto.
  - exists O. split; [lia|]. cbn [length] in F. injection F as F. rewrite (far_none d k' H' F). cbn [repeat bump]. assert (x = 0 \/ x = 2) as [-> | ->] by lia; auto.
Qed.
Lemma bump_inj : forall d j j' x x', (j < d)%nat -> (j' < d)%nat -> x <> 0 -> x' <> 0 -> bump j x (repeat 1 d) = bump j' x' (repeat 1 d) -> j = j' /\ x = x'.
Proof.
  induction d as [|d IH]; intros j j' x x' H H' Hx Hx' E; [lia|]. destruct j as [|j], j' as [|j']; cbn [repeat bump] in E.
  - assert (1 + x = 1 + x') by congruence. split; lia.
  - assert (1 + x = 1) by congruence. lia.
  - assert (1 = 1 + x') by congruence. lia.
  - assert (Q : bump j x (repeat 1 d) = bump j' x' (repeat 1 d)) by congruence. apply IH in Q; auto; lia.
Qed.
Lemma bump_mask : forall d k x, (k < d)%nat -> -1 <= x <= 1 -> inshape (bump k x (repeat 1 d)) (repeat 3 d).
Proof.
  intros d k x _ Hx. apply bump_in; auto. clear. induction d; cbn; auto.
Qed.
Lemma mask_center : forall i, plus i (minus (repeat 1 (length i)) (repeat 1 (length i))) = i.
Proof. induction i as [|y i IH]; [reflexivity|]. cbn [length repeat minus plus]. rewrite IH. f_equal. lia. Qed.
Lemma mask_to : forall i k x, (k < length i)%nat -> plus i (minus (bump k x (repeat 1 (length i))) (repeat 1 (length i))) = bump k x i.
Proof.
  induction i as [|y i IH]; intros k x H; cbn [length] in H; [lia|]. destruct k as [|k]; cbn [length repeat bump minus plus]; f_equal; try lia.
  - apply mask_center.
  - apply IH. lia.
Qed.
Lemma map_nodup : forall A B (f : A -> B) l, NoDup l -> (forall x y, In x l -> In y l -> f x = f y -> x = y) -> NoDup (map f l).
Proof.
  intros A B f l N. induction N as [|x l Nx N IH]; intros H; cbn [map]; constructor.
  - intros Q. apply in_map_iff in Q as (y & E & Hy). apply Nx. rewrite (H x y); [exact Hy|left; reflexivity|right; exact Hy|symmetry; exact E].
  - apply IH. intros; apply H; auto; right; auto.
Qed.
Definition cross (d : nat) : list (list Z) := repeat 1 d :: map (fun k => bump k 1 (repeat 1 d)) (seq 0 d) ++ map (fun k => bump k (-1) (repeat 1 d)) (seq 0 d).
Lemma cross_nodup : forall d, NoDup (cross d).
Proof.
  intros d. unfold cross. constructor.
  - intros H. apply in_app_iff in H as [H|H]; apply in_map_iff in H as (k & E & Hk); apply in_seq in Hk; apply (f_equal far) in E; rewrite far_ones, far_bump in E by lia; discriminate.
  - apply nodup_app.
    + apply map_nodup; [apply seq_NoDup|]. intros x y Hx Hy E. apply in_seq in Hx. apply in_seq in Hy. apply bump_inj in E; try lia.
    + apply map_nodup; [apply seq_NoDup|]. intros x y Hx Hy E. apply in_seq in Hx. apply in_seq in Hy. apply bump_inj in E; try lia.
    + intros k H1 H2. apply in_map_iff in H1 as (x & <- & Hx). apply in_map_iff in H2 as (y & E & Hy). apply in_seq in Hx. apply in_seq in Hy. apply bump_inj in E; lia.
Qed.

(* ---- the steps that are the same for any numbers ---- *)
Section Steps.
Context {T : Type}.
Variables (fixed : bool) (z : list zt) (fi : bool) (zi : list zt).
Hypothesis (Hz : zclean z) (Hzi : zclean zi).
Variables (add mul : T -> T -> T) (zero c : T).
Notation lt d := (leap_term add mul c d).

Lemma terms_offsets : forall l (t : term T), offsets (fold_left (fun t o => TOp add t (TWin o)) l t) = offsets t ++ l.
Proof. induction l as [|o l IH]; intros t; cbn [fold_left]; [rewrite app_nil_r; auto|]. rewrite IH. cbn [offsets]. rewrite <- app_assoc. reflexivity. Qed.
Lemma leap_near : forall d, Forall (near (repeat 1 d) (repeat 1 d)) (offsets (lt d)).
Proof.
  intros d. unfold leap_term. rewrite terms_offsets. cbn [offsets app]. apply Forall_cons; [apply zero_near|]. apply Forall_app. split; apply Forall_forall; intros o Ho; apply in_map_iff in Ho as (k & <- & Hk); apply in_seq in Hk; apply offset_near; lia.
Qed.
Lemma terms_around : forall l (t : term T) m v i, around m v i (fold_left (fun t o => TOp add t (TWin o)) l t) = fold_left add (map (fun o => m (vplace v (plus i o))) l) (around m v i t).
Proof. induction l as [|o l IH]; intros t m v i; [reflexivity|]. cbn [fold_left map]. rewrite IH. reflexivity. Qed.
Lemma leap_around : forall m v i, around m v i (lt (length i)) = around_all add mul c (elems m v) i.
Proof.
  intros m v i. unfold leap_term, around_all, elems. rewrite terms_around. cbn [around]. rewrite plus_zero. f_equal. rewrite map_app, !map_map. f_equal; apply map_ext_in; intros k Hk; apply in_seq in Hk; rewrite plus_offset by lia; reflexivity.
Qed.

Variables (w v : view) (s : list Z).
Hypothesis (Sv : vshape v = s) (Sw : vshape w = s) (Hs : Forall (fun n => 2 <= n) s) (D : P_Cells.separate w v) (A : apart_at w).
Lemma r_margin : margin v = repeat 1 (length s).
Proof. unfold margin. rewrite vrank_shape, Sv. reflexivity. Qed.
Lemma r_room : room (margin v) (margin v) (vshape v).
Proof. rewrite r_margin, Sv. apply ones_room. exact Hs. Qed.
Lemma r_near : Forall (near (margin v) (margin v)) (offsets (lt (vrank v))).
Proof. unfold margin. apply leap_near. Qed.
Lemma around_of : forall (t : term T) i (m1 m2 : mem T), (forall k, inshape k (vshape v) -> m1 (vplace v k) = m2 (vplace v k)) -> Forall (fun o => inshape (plus i o) (vshape v)) (offsets t) -> around m1 v i t = around m2 v i t.
Proof.
  induction t as [o|x|g a IHa b IHb]; intros i m1 m2 H F; cbn [offsets around] in *; [|reflexivity|].
  - inversion F; subst. apply H. auto.
  - apply Forall_app in F as (F1 & F2). rewrite (IHa i m1 m2), (IHb i m1 m2); auto.
Qed.
(* cells of v *)
Lemma term_at : forall (t : term T) i m, Forall (fun o => length o = length i /\ inshape (plus i o) (vshape v)) (offsets t) -> cell_term i t v m = Ok (around m v i t) m.
Proof.
  induction t as [o|x|g a IHa b IHb]; intros i m H; cbn [offsets cell_term around] in *; [|reflexivity|].
  - inversion H as [|? ? (Ho & Hi) _]; subst. replace (map (fun p => cidx (fst p + snd p)) (combine i o)) with (map cidx (plus i o)) by (clear; revert o; induction i; intros [|y k]; cbn; f_equal; auto).
    rewrite all_indices by auto. cbn [onres vcp rd]. reflexivity.
  - apply Forall_app in H as (H1 & H2). unfold bind. rewrite IHa, IHb by auto. reflexivity.
Qed.
Theorem C151_raw : forall m : mem T, exists m', raw w v (lt (vrank v)) m = Ok None m' /\ filled w (margin v) (margin v) (fun i => around m v i (lt (vrank v))) m m'.
Proof.
  intros m. unfold raw. replace (map (fun d => len d - 2) (vdv v)) with (map (fun n => n - 2) s) by (rewrite <- Sv; unfold vshape; rewrite map_map; reflexivity). set (ns := map (fun n => n - 2) s). set (t := lt (vrank v)).
  assert (Hv : forall i, mid s i = true -> Forall (fun o => length o = length i /\ inshape (plus i o) (vshape v)) (offsets t)).
  { intros i Hi. pose proof (inshape_length _ _ (mid_in _ _ Hi)) as L. apply (Forall_impl _ (P := near (margin v) (margin v))); [|exact r_near]. intros o Ho. split.
    - destruct (near_length _ _ _ Ho) as (Q & _). rewrite r_margin, repeat_length in Q. lia.
    - apply (near_in (margin v) (margin v)); auto. rewrite r_margin, Sv. apply mid_interior. exact Hi. }
  set (pl := fun j => vplace w (map (fun x => 1 + x) j)). set (x := fun j => around m v (map (fun x => 1 + x) j) t).
  assert (Hm : forall j, inshape j ns -> mid s (map (fun x => 1 + x) j) = true) by (intros j Hj; apply mid_shift; eauto).
  rewrite loops_each.
  2: { intros j m1 r m' E. unfold bind in E. destruct (cell_term _ t v m1) as [y m2|m2|]; try discriminate. destruct (from w _); try discriminate. cbn [onres] in E. congruence. }
  pose proof (row_major_indices ns) as Hj.
  destruct (each_scatter _ (fun j => y <- cell_term (map (fun x => 1 + x) ([] ++ j)) t v ;; onres (from w (map cidx (map (fun x => 1 + x) ([] ++ j)))) (fun b m => Ok (@None unit) (wr (vcp b) y m))) put pl x (indices ns) m []) with (m := m) as (m' & E1 & E2); [|auto|].
  - intros l1 j l2 m1 E Hm1. destruct (row_major_split _ _ _ _ _ Hj E) as (Hin & Hl). cbn [app] in *. pose proof (Hm j Hin) as Mj. unfold bind. rewrite term_at by (apply Hv; auto).
    rewrite all_indices by (rewrite Sw; apply mid_in; auto). cbn [onres vcp]. exists None. f_equal. unfold put, x. f_equal. apply around_of; [|apply (Forall_impl _ (fun o Ho => proj2 Ho) (Hv _ Mj))].
    intros k Hk. apply Hm1. intros j' Hj'. intros Q. apply Hl in Hj' as (Hj' & _). apply (D (map (fun x => 1 + x) j') k); auto. rewrite Sw. apply mid_in. auto.
  - exists m'. rewrite E1. split; [reflexivity|]. split; rewrite Sw, r_margin.
    + intros i Hi. apply mid_interior, mid_shift in Hi as (j & Hj' & ->). fold (pl j). rewrite E2. rewrite (filter_one _ _ (indices ns) j); [reflexivity|apply indices_nodup|apply in_indices; auto|].
      intros k Hk. apply in_indices in Hk. split; [|intros ->; apply Z.eqb_refl]. intros Q. apply Z.eqb_eq in Q. apply A in Q; [apply shift_inj in Q; auto| |]; rewrite Sw; apply mid_in; auto.
    + intros p Hp. rewrite E2, filter_none; [reflexivity|]. intros j Hj'. apply in_indices in Hj'. apply Z.eqb_neq. intros Q. apply (Hp (map (fun x => 1 + x) j)); auto. apply mid_interior. auto.
Qed.

(* ---- the stencil view, moved to another array ---- *)
Lemma bounds_same : forall (u : view), (if bounds_nonneg (BScalar 1) then bounds_for (vrank u) (BScalar 1) else None) = (if bounds_nonneg (BVector (margin u)) then bounds_for (vrank u) (BVector (margin u)) else None).
Proof.
  intros u. cbn [bounds_nonneg bounds_for]. unfold margin. rewrite repeat_length, Nat.eqb_refl. replace (forallb (fun n => n >=? 0) (repeat 1 (vrank u))) with true; [reflexivity|]. symmetry. apply forallb_forall. intros x Hx. apply repeat_spec in Hx. subst. reflexivity.
Qed.
Lemma stencil_vector : forall u, stencil u (BScalar 1) (BScalar 1) = stencil u (BVector (margin u)) (BVector (margin u)).
Proof.
  intros u. unfold stencil. pose proof (bounds_same u) as Q. destruct (bounds_nonneg (BVector (margin u))) eqn:E.
  - change (bounds_nonneg (BScalar 1)) with true in *. cbv beta iota in Q. cbn [andb]. rewrite Q. reflexivity.
  - exfalso. cbn [bounds_nonneg] in E. assert (forallb (fun n => n >=? 0) (margin u) = true) by (apply forallb_forall; intros x Hx; unfold margin in Hx; apply repeat_spec in Hx; subst; reflexivity). congruence.
Qed.
(* stencil(A, 1, 1) with its pointer set to that of another array, with the same lengths and steps, is the stencil of that one. *)
Theorem C151_stencil : forall a0 st u, stencil a0 (BScalar 1) (BScalar 1) = Good st -> vdv u = vdv a0 -> stencil u (BScalar 1) (BScalar 1) = Good (stencil_on st u).
Proof.
  intros a0 st u E H. unfold stencil in *. unfold vrank in *. rewrite H. destruct (_ && _)%bool; [|discriminate]. destruct (bounds_for _ (BScalar 1)); [|discriminate]. destruct (stencil_outer _ _ _); [|discriminate]. injection E as <-. reflexivity.
Qed.
Variables (a0 st mask : view).
Hypothesis (Est : stencil a0 (BScalar 1) (BScalar 1) = Good st) (Hdv : vdv v = vdv a0).
Lemma st_good : stencil v (BVector (margin v)) (BVector (margin v)) = Good (stencil_on st v).
Proof. rewrite <- stencil_vector. apply (C151_stencil a0); auto. Qed.
Lemma explicit_same : forall (t : term T) (m : mem T), explicit_on fixed z st w v t m = explicit fixed z w v (margin v) (margin v) t m.
Proof. intros. unfold explicit_on, explicit. rewrite st_good. reflexivity. Qed.
Lemma arrayop_same : forall (m : mem T), arrayop_on fixed z fi zi add mul zero st w v mask m = arrayop fixed z add mul zero fi zi w v mask (margin v) (margin v) m.
Proof. intros. unfold arrayop_on, arrayop. rewrite st_good. reflexivity. Qed.
Lemma sumprod_same : forall (m : mem T), sumprod_on fixed z add mul zero st w v mask m = sumprod fixed z add mul zero w v mask (margin v) (margin v) m.
Proof. intros. unfold sumprod_on, sumprod. rewrite st_good. reflexivity. Qed.
Lemma sumprod2_same : forall (m : mem T), sumprod2_on fixed z add mul zero st w v mask m = sumprod2 fixed z add mul zero w v mask (margin v) (margin v) m.
Proof. intros. unfold sumprod2_on, sumprod2. rewrite st_good. reflexivity. Qed.

(* what a step does *)
Definition stepped (m m' : mem T) : Prop := like s (elems m' w) (next_field add mul c s (elems m v) (elems m w)) /\ forall p, ~ place_of w p -> m' p = m p.
Lemma filled_stepped : forall x (m m' : mem T), (forall i, mid s i = true -> x i = around_all add mul c (elems m v) i) -> filled w (margin v) (margin v) x m m' -> stepped m m'.
Proof.
  intros x m m' Hx (F1 & F2). rewrite Sw, r_margin in F1, F2. split.
  - intros i Hi. unfold next_field. destruct (mid s i) eqn:Q.
    + unfold elems at 1. rewrite F1 by (apply mid_interior; auto). apply Hx. auto.
    + unfold elems. apply F2. intros j Hj. apply mid_interior in Hj. intros E. apply A in E; [congruence| |]; rewrite Sw; auto. apply mid_in; auto.
  - intros p Hp. apply F2. intros j Hj ->. apply Hp. exists j. split; auto. rewrite Sw. apply mid_in. apply mid_interior. auto.
Qed.
Lemma around_ok : forall m i, mid s i = true -> around m v i (lt (vrank v)) = around_all add mul c (elems m v) i.
Proof. intros m i Hi. rewrite vrank_shape, Sv, <- (inshape_length _ _ (mid_in _ _ Hi)). apply leap_around. Qed.
(* The loops, the slices and the stencil with a function are the same for all kinds of numbers. *)
Theorem C151_exact : forall o (m : mem T), In o [Raw; Slices; Explicit] -> exists m', leap_step fixed z fi zi add mul zero c o st mask w v m = Ok None m' /\ stepped m m'.
Proof.
  intros o m Ho. assert (Q : forall m, exists m', leap_step fixed z fi zi add mul zero c o st mask w v m = Ok None m' /\ filled w (margin v) (margin v) (fun i => around m v i (lt (vrank v))) m m').
  { intros m1. assert (Ew : vshape w = vshape v) by congruence. destruct Ho as [<-|[<-|[<-|[]]]]; cbn [leap_step].
    - apply C151_raw.
    - apply (C114_slices fixed z Hz w v (margin v) (margin v) r_room Ew D A _ m1 r_near).
    - rewrite explicit_same. apply (C114_explicit fixed z Hz w v (margin v) (margin v) r_room Ew D A _ m1 r_near). }
  destruct (Q m) as (m' & E & F). exists m'. split; auto. eapply filled_stepped; [|exact F]. intros i Hi. apply around_ok. auto.
Qed.

(* ---- the steps with a mask ---- *)
Variables (one : T) (sub : T -> T -> T) (opp : T -> T).
Hypothesis Hring : ring_theory zero one add mul sub opp eq.
Add Ring Tring : Hring.
Lemma sum_from : forall l x, fold_left add l x = add x (fold_left add l zero).
Proof. induction l as [|y l IH]; intros x; cbn [fold_left]; [ring|]. rewrite (IH (add x y)), (IH (add zero y)). ring. Qed.
Lemma sum_perm : forall l l', Permutation l l' -> fold_left add l zero = fold_left add l' zero.
Proof. induction 1; auto; cbn [fold_left]; [rewrite (sum_from l), (sum_from l'), IHPermutation; auto|rewrite (sum_from l (add (add zero y) x)), (sum_from l (add (add zero x) y)); ring|congruence]. Qed.
Lemma sum_support : forall (F : list Z -> T) S ks, NoDup S -> NoDup ks -> incl S ks -> (forall k, In k ks -> ~ In k S -> F k = zero) -> fold_left add (map F ks) zero = fold_left add (map F S) zero.
Proof.
  intros F S ks NS Nk I H. set (P := fun k => if in_dec (list_eq_dec Z.eq_dec) k S then true else false).
  assert (Q : fold_left add (map F ks) zero = fold_left add (map F (filter P ks)) zero).
  { clear - H Hring. induction ks as [|k ks IH]; [reflexivity|]. cbn [map filter fold_left]. rewrite sum_from, IH by (intros; apply H; [right|]; auto). destruct (P k) eqn:E.
    - cbn [map fold_left]. rewrite (sum_from (map F (filter P ks)) (add zero (F k))). reflexivity.
    - unfold P in E. destruct (in_dec (list_eq_dec Z.eq_dec) k S) as [|N]; [discriminate|]. rewrite (H k (or_introl eq_refl) N). ring. }
  rewrite Q. apply sum_perm, Permutation_map, NoDup_Permutation; auto using NoDup_filter. intros k. rewrite filter_In. unfold P. destruct (in_dec (list_eq_dec Z.eq_dec) k S); split; intros G; try tauto; [split; auto|destruct G; discriminate].
Qed.
Lemma mask_shape : map (fun n => n + 1) (plus (margin v) (margin v)) = repeat 3 (vrank v).
Proof. unfold margin. induction (vrank v) as [|d IH]; cbn; f_equal; auto. Qed.
Lemma cross_sum : forall (m : mem T) i ks, length i = vrank v -> mask_ok zero one c m mask (vrank v) -> row_major (repeat 3 (vrank v)) ks -> weighed add mul zero m v mask (margin v) ks i = around_all add mul c (elems m v) i.
Proof.
  intros m i ks Li (Sm & Hm) Hk. unfold weighed, margin. rewrite (row_major_unique _ _ Hk). set (d := vrank v) in *.
  rewrite (sum_support _ (cross d)).
  - unfold cross. cbn [map fold_left]. rewrite map_app, !map_map. rewrite Hm by (clear; induction d; cbn; constructor; auto; lia). rewrite <- Li, mask_center. unfold around_all, elems. unfold weight at 1. rewrite far_ones.
    replace (add zero (mul (m (vplace v i)) c)) with (mul c (m (vplace v i))) by ring. f_equal. f_equal; apply map_ext_in; intros k H; apply in_seq in H; rewrite mask_to by lia; rewrite Hm by (rewrite Li; apply bump_mask; lia); unfold weight; rewrite far_bump by lia; ring.
  - apply cross_nodup.
  - apply indices_nodup.
  - intros k [<-|H]; apply in_indices; [clear; induction d; cbn; constructor; auto; lia|]. apply in_app_iff in H as [H|H]; apply in_map_iff in H as (j & <- & Hj); apply in_seq in Hj; apply bump_mask; lia.
  - intros k H N. apply in_indices in H. rewrite Hm by auto. unfold weight. destruct (far k) as [|[|f]] eqn:F; [| |ring]; exfalso; apply N; unfold cross.
    + left. symmetry. apply far_none; auto.
    + right. apply in_app_iff. destruct (far_one d k H F) as (j & Hj & [-> | ->]); [left|right]; apply in_map_iff; exists j; split; auto; apply in_seq; lia.
Qed.
(* All of them are the same for the numbers of a ring, if the mask has what the term says. *)
Theorem C151_mask : forall o (m : mem T), P_Cells.separate w mask -> mask_ok zero one c m mask (length s) -> exists m', leap_step fixed z fi zi add mul zero c o st mask w v m = Ok None m' /\ stepped m m'.
Proof.
  intros o m Dm Hm. assert (Hd : vrank v = length s) by (rewrite vrank_shape, Sv; reflexivity). rewrite <- Hd in Hm. assert (Ew : vshape w = vshape v) by congruence. assert (Em : vshape mask = map (fun n => n + 1) (plus (margin v) (margin v))) by (rewrite mask_shape; apply Hm).
  pose proof (row_major_indices (repeat 3 (vrank v))) as Hk.
  assert (Hk' : row_major (map (fun n => n + 1) (plus (margin v) (margin v))) (indices (repeat 3 (vrank v)))) by (rewrite mask_shape; exact Hk).
  assert (Q : forall i, mid s i = true -> weighed add mul zero m v mask (margin v) (indices (repeat 3 (vrank v))) i = around_all add mul c (elems m v) i) by (intros i Hi; apply cross_sum; auto; rewrite (inshape_length _ _ (mid_in _ _ Hi)); auto).
  destruct o; try (apply C151_exact; cbn; auto; fail); cbn [leap_step].
  - rewrite arrayop_same. destruct (C115_arrayop fixed z Hz w v (margin v) (margin v) r_room Ew D A add mul zero mask Em Dm fi zi _ m Hzi Hk') as (m' & E & F). exists m'. split; auto. eapply filled_stepped; [|exact F]. exact Q.
  - rewrite sumprod_same. destruct (C115_sumprod fixed z Hz w v (margin v) (margin v) r_room Ew D A add mul zero mask Em Dm _ m Hk') as (m' & E & F). exists m'. split; auto. eapply filled_stepped; [|exact F]. exact Q.
  - rewrite sumprod2_same. destruct (C115_sumprod2 fixed z Hz w v (margin v) (margin v) r_room Ew D A add mul zero mask Em Dm _ m Hk') as (m' & E & F). exists m'. split; auto. eapply filled_stepped; [|exact F]. exact Q.
Qed.
End Steps.

(* ---- the loop ---- *)
Section Loop.
Context {T : Type}.
Variables (fixed : bool) (z : list zt) (fi : bool) (zi : list zt).
Hypothesis (Hz : zclean z) (Hzi : zclean zi).
Variables (add mul : T -> T -> T) (zero c : T).
Notation leap_ := (leap fixed z fi zi add mul zero c).
Notation step_ := (leap_step fixed z fi zi add mul zero c).
Notation leaps_ := (leaps add mul c).
Notation next_ := (next_field add mul c).

Lemma around_like : forall s (f f' : field (T:=T)) i, like s f f' -> mid s i = true -> around_all add mul c f i = around_all add mul c f' i.
Proof.
  intros s f f' i H Hi. unfold around_all. rewrite (H i) by (apply mid_in; auto). f_equal. f_equal; apply map_ext_in; intros k _; apply H, bump_in; auto; lia.
Qed.
Lemma next_like : forall s (f f' g g' : field (T:=T)), like s f f' -> like s g g' -> like s (next_ s f g) (next_ s f' g').
Proof. intros s f f' g g' H1 H2 i Hi. unfold next_field. destruct (mid s i) eqn:Q; [apply (around_like s); auto|auto]. Qed.
Lemma leaps_like : forall k s (f f' g g' : field (T:=T)), like s f f' -> like s g g' -> like s (fst (leaps_ k s f g)) (fst (leaps_ k s f' g')) /\ like s (snd (leaps_ k s f g)) (snd (leaps_ k s f' g')).
Proof. induction k as [|k IH]; intros s f f' g g' H1 H2; [split; auto|]. cbn [leaps]. apply IH; auto. apply next_like; auto. Qed.
Lemma like_trans : forall s (f g h : field (T:=T)), like s f g -> like s g h -> like s f h.
Proof. intros s f g h H1 H2 i Hi. rewrite H1, H2; auto. Qed.

(* The two arrays have the same lengths and steps. *)
Variables (dv : list dim) (p q : Z) (a0 st mask : view).
Let s := map len dv.
Hypothesis (Hs : Forall (fun n => 2 <= n) s) (Ap : apart_at (Vw dv p)) (Aq : apart_at (Vw dv q)) (D : P_Cells.separate (Vw dv p) (Vw dv q)).
Hypothesis (Est : stencil a0 (BScalar 1) (BScalar 1) = Good st) (Hdv : dv = vdv a0).
Definition elsewhere (x : Z) : Prop := ~ place_of (Vw dv p) x /\ ~ place_of (Vw dv q) x.
Lemma sep_swap : forall u v, P_Cells.separate u v -> P_Cells.separate v u.
Proof. intros u v H i j Hi Hj E. apply (H j i); auto. Qed.
Definition runs (o : way) (x y : Z) (k : nat) (m : mem T) : Prop :=
  exists m', leap_ k o st mask (Vw dv x) (Vw dv y) m = Ok (if Nat.even k then (Vw dv x, Vw dv y) else (Vw dv y, Vw dv x)) m' /\
    like s (elems m' (Vw dv (if Nat.even k then x else y))) (fst (leaps_ k s (elems m (Vw dv x)) (elems m (Vw dv y)))) /\
    like s (elems m' (Vw dv (if Nat.even k then y else x))) (snd (leaps_ k s (elems m (Vw dv x)) (elems m (Vw dv y)))) /\ forall e, elsewhere e -> m' e = m e.
Lemma loop_gen : forall (P : mem T -> Prop) o, (forall m m', P m -> (forall e, elsewhere e -> m' e = m e) -> P m') ->
  (forall m, P m -> exists m', step_ o st mask (Vw dv q) (Vw dv p) m = Ok None m' /\ stepped add mul c (Vw dv q) (Vw dv p) s m m') ->
  (forall m, P m -> exists m', step_ o st mask (Vw dv p) (Vw dv q) m = Ok None m' /\ stepped add mul c (Vw dv p) (Vw dv q) s m m') ->
  forall k m, P m -> runs o p q k m /\ runs o q p k m.
Proof.
  intros P o HP H1 H2. assert (G : forall k x y, (x = p /\ y = q) \/ (x = q /\ y = p) -> forall m, P m -> runs o x y k m); [|intros k m Hm; split; apply G; auto].
  induction k as [|k IH]; intros x y Hxy m Hm.
  - exists m. cbn. split; [reflexivity|]. split; [intros i _; reflexivity|]. split; [intros i _; reflexivity|reflexivity].
  - assert (Q : exists m1, step_ o st mask (Vw dv y) (Vw dv x) m = Ok None m1 /\ stepped add mul c (Vw dv y) (Vw dv x) s m m1) by (destruct Hxy as [(-> & ->)|(-> & ->)]; auto). destruct Q as (m1 & E1 & N1 & O1).
    assert (Dxy : P_Cells.separate (Vw dv y) (Vw dv x)) by (destruct Hxy as [(-> & ->)|(-> & ->)]; auto using sep_swap).
    assert (K1 : like s (elems m1 (Vw dv x)) (elems m (Vw dv x))). { intros i Hi. unfold elems. apply O1. intros (j & Hj & E). apply (Dxy j i); auto. }
    assert (O1' : forall e, elsewhere e -> m1 e = m e) by (intros e (He1 & He2); apply O1; destruct Hxy as [(-> & ->)|(-> & ->)]; auto).
    destruct (IH y x ltac:(tauto) m1 (HP _ _ Hm O1')) as (m' & E & A' & B' & O'). exists m'. cbn [leap]. unfold bind. rewrite E1. cbn [vdv vcp]. rewrite E.
    assert (Ev : Nat.even (S k) = negb (Nat.even k)) by (rewrite Nat.even_succ, <- Nat.negb_even; reflexivity). rewrite Ev. cbn [leaps]. destruct (leaps_like k s _ _ _ _ N1 K1) as (L1 & L2).
    split; [destruct (Nat.even k); reflexivity|]. split; [destruct (Nat.even k); cbn [negb]; eapply like_trans; [exact A'|exact L1|exact A'|exact L1]|]. split; [destruct (Nat.even k); cbn [negb]; eapply like_trans; [exact B'|exact L2|exact B'|exact L2]|].
    intros e He. rewrite O', O1'; auto.
Qed.
(* any number of times; A and Anext have changed places if it's odd *)
Theorem C151_loop : forall o k (m : mem T), In o [Raw; Slices; Explicit] -> runs o p q k m.
Proof.
  intros o k m Ho. apply (loop_gen (fun _ => True) o); auto; intros m1 _; apply (C151_exact fixed z fi zi Hz add mul zero c (Vw dv _) (Vw dv _) s eq_refl eq_refl Hs) with (a0 := a0); auto using sep_swap.
Qed.
Variables (one : T) (sub : T -> T -> T) (opp : T -> T).
Hypothesis Hring : ring_theory zero one add mul sub opp eq.
Hypothesis (Dmp : P_Cells.separate (Vw dv p) mask) (Dmq : P_Cells.separate (Vw dv q) mask).
Lemma mask_stays : forall m m' : mem T, mask_ok zero one c m mask (length s) -> (forall e, elsewhere e -> m' e = m e) -> mask_ok zero one c m' mask (length s).
Proof.
  intros m m' (H1 & H2) H. split; auto. intros k Hk. rewrite H; auto. split; intros (i & Hi & E); [apply (Dmp i k)|apply (Dmq i k)]; auto; rewrite H1; auto.
Qed.
Theorem C151_loop_mask : forall o k (m : mem T), mask_ok zero one c m mask (length s) -> runs o p q k m.
Proof.
  intros o k m Hm. apply (loop_gen (fun m => mask_ok zero one c m mask (length s)) o); auto; [exact mask_stays| |]; intros m1 H1; apply (C151_mask fixed z fi zi Hz Hzi add mul zero c (Vw dv _) (Vw dv _) s eq_refl eq_refl Hs) with (a0 := a0) (one := one) (sub := sub) (opp := opp); auto using sep_swap.
Qed.
(* One run of the benchmark: what is in A at the end doesn't depend on the operation, nor on what was in the arrays. *)
Lemma fill_all : forall v x (m : mem T), nonneg (vshape v) -> apart_at v -> exists m', assign fixed z put (viter v) (Scalar (VT x)) m = Ok None m' /\ becomes v (fun _ => x) m m'.
Proof.
  intros v x m Nv Av. destruct (assign_to fixed z Hz put v (Scalar (VT x)) (vshape v) (fun _ => x) m) as (m' & E & B); auto.
  - exact I.
  - apply inner_scalar.
  - intros m1 _ j _. exists (VT x). split; reflexivity.
  - exists m'. split; auto.
Qed.
Theorem C151_bench : forall o k value (m : mem T), In o [Raw; Slices; Explicit] \/ mask_ok zero one c m mask (length s) -> exists x y m',
  leap_bench fixed z fi zi add mul zero c k o st mask (Vw dv p) (Vw dv q) value m = Ok (Vw dv x, Vw dv y) m' /\ (x, y) = (if Nat.even k then (p, q) else (q, p)) /\
  like s (elems m' (Vw dv x)) (fst (leaps_ k s (fun _ => value) (fun _ => zero))) /\ forall e, elsewhere e -> m' e = m e.
Proof.
  intros o k value m Ho. assert (Nn : nonneg s) by (apply Forall_forall; intros n H; rewrite Forall_forall in Hs; specialize (Hs n H); cbn beta in Hs; lia).
  destruct (fill_all (Vw dv q) zero m Nn Aq) as (m1 & E1 & B1 & O1). destruct (fill_all (Vw dv p) value m1 Nn Ap) as (m2 & E2 & B2 & O2).
  assert (O : forall e, elsewhere e -> m2 e = m e) by (intros e (H1 & H2); rewrite O2, O1; auto; intros i Hi E; [apply H2|apply H1]; exists i; auto).
  assert (R : runs o p q k m2) by (destruct Ho as [Ho|Ho]; [apply C151_loop; auto|apply C151_loop_mask; apply (mask_stays m); auto]). destruct R as (m' & E & A' & _ & O').
  exists (if Nat.even k then p else q), (if Nat.even k then q else p), m'. split; [|split; [|split]].
  - unfold leap_bench, bind. rewrite E1, E2, E. destruct (Nat.even k); reflexivity.
  - destruct (Nat.even k); reflexivity.
  - eapply like_trans; [exact A'|]. apply leaps_like; intros i Hi; unfold elems.
    + apply B2. exact Hi.
    + rewrite O2 by (intros j Hj E'; apply (D j i); auto). apply B1. exact Hi.
  - intros e He. rewrite O', O; auto.
Qed.
End Loop.

(* With less than 2 elements on some axis the loops do nothing, and the others are refused. *)
Lemma loops_none : forall (T : Type) (f : list Z -> M (mem T) (option unit)) ns ix m, Exists (fun n => n <= 0) ns -> loops ns ix f m = Ok None m.
Proof.
  intros T f ns. induction ns as [|n ns IH]; intros ix m H; [inversion H|]. cbn [loops]. unfold loop. generalize 0 as k. destruct (Z_le_gt_dec n 0) as [L|L]; [replace (Z.to_nat n) with O by lia; reflexivity|].
  assert (H' : Exists (fun n => n <= 0) ns) by (inversion H; subst; auto; lia). induction (Z.to_nat n) as [|k IHk]; intros j; [reflexivity|]. cbn [loop_]. unfold bind. rewrite IH by auto. apply IHk.
Qed.
Theorem C151_small : forall (T : Type) fixed z fi zi (add mul : T -> T -> T) zero c o st mask w v (m : mem T), Exists (fun n => n < 2) (vshape v) ->
  leap_step fixed z fi zi add mul zero c o st mask w v m = match o with Raw => Ok None m | _ => Fail m end.
Proof.
  intros T fixed z fi zi add mul zero c o st mask w v m H. assert (Q : grid (map len (vdv v)) (margin v) (margin v) = Refused).
  { apply grid_refused. unfold margin. rewrite vrank_shape. change (map len (vdv v)) with (vshape v). clear - H. induction H as [n s H|n s H IH]; cbn; [apply crowd_here; lia|apply crowd_there; auto]. }
  destruct o; cbn [leap_step]; [|unfold slices|unfold explicit_on|unfold arrayop_on|unfold sumprod_on|unfold sumprod2_on]; try (rewrite Q; reflexivity).
  unfold raw. apply loops_none. unfold vshape in H. apply Exists_exists in H as (n & Hn & L). apply in_map_iff in Hn as (d & <- & Hd). apply Exists_exists. exists (len d - 2). split; [apply in_map_iff; eauto|lia].
Qed.

(* ---- examples ---- *)
Definition lD := [Dim 4 5; Dim 5 1].
Definition lMask := Vw [Dim 3 3; Dim 3 1] 50.
Definition lMem : mem Z := fun p => if (50 <=? p) && (p <? 59) then nth (Z.to_nat (p - 50)) [0; 1; 0; 1; -4; 1; 0; 1; 0] 0 else 100 + p.
Definition lRun (o : way) (k : nat) : option (Z * list Z) :=
  match stencil (Vw lD 0) (BScalar 1) (BScalar 1) with
  | Good st => match leap_bench false z_init true z_init Z.add Z.mul 0 (-4) k o st lMask (Vw lD 0) (Vw lD 20) 3 lMem with Ok (a, _) m => Some (vcp a, map m (map (fun i => vcp a + Z.of_nat i) (seq 0 20))) | _ => None end
  | _ => None
  end.
Example C151_ex : Forall (fun o => lRun o 0 = Some (0, repeat 3 20) /\ lRun o 1 = Some (20, repeat 0 20) /\
  lRun o 2 = Some (0, [3; 3; 3; 3; 3; 3; 0; 0; 0; 3; 3; 0; 0; 0; 3; 3; 3; 3; 3; 3]) /\ lRun o 3 = Some (20, [0; 0; 0; 0; 0; 0; 6; 3; 6; 0; 0; 6; 3; 6; 0; 0; 0; 0; 0; 0])) [Raw; Slices; Explicit; Arrayop; Sumprod; Sumprod2].
Proof. repeat (apply Forall_cons; [repeat split; vm_compute; reflexivity|]). constructor. Qed.
Example C151_hyps_ex : Forall (fun n => 2 <= n) (map len lD) /\ apart_at (Vw lD 0) /\ apart_at (Vw lD 20) /\ P_Cells.separate (Vw lD 0) (Vw lD 20) /\ P_Cells.separate (Vw lD 0) lMask /\ P_Cells.separate (Vw lD 20) lMask /\
  (exists st, stencil (Vw lD 0) (BScalar 1) (BScalar 1) = Good st) /\ mask_ok 0 1 (-4) lMem lMask (length (map len lD)) /\ ring_theory 0 1 Z.add Z.mul Z.sub Z.opp eq.
Proof.
  assert (C : forall p i, inshape i (vshape (Vw lD p)) -> exists x y, i = [x; y] /\ 0 <= x < 4 /\ 0 <= y < 5) by (intros p i H; apply P_Roll.in2 in H; exact H).
  assert (M : forall i, inshape i (vshape lMask) -> exists x y, i = [x; y] /\ 0 <= x < 3 /\ 0 <= y < 3) by (intros i H; apply P_Roll.in2 in H; exact H).
  assert (A : forall p, apart_at (Vw lD p)).
  { intros p i j Hi Hj. destruct (C p i Hi) as (x & y & -> & Hx & Hy). destruct (C p j Hj) as (x' & y' & -> & Hx' & Hy'). unfold vplace. cbn [lD vcp vdv place step]. intros E. assert (x = x') by lia. assert (y = y') by lia. congruence. }
  split; [repeat (apply Forall_cons; [cbn; lia|]); constructor|]. split; [apply A|]. split; [apply A|]. split; [|split; [|split; [|split; [|split]]]].
  - intros i j Hi Hj. destruct (C 0 i Hi) as (x & y & -> & Hx & Hy). destruct (C 20 j Hj) as (x' & y' & -> & Hx' & Hy'). unfold vplace. cbn [lD vcp vdv place step]. lia.
  - intros i j Hi Hj. destruct (C 0 i Hi) as (x & y & -> & Hx & Hy). destruct (M j Hj) as (x' & y' & -> & Hx' & Hy'). unfold vplace. cbn [lD lMask vcp vdv place step]. lia.
  - intros i j Hi Hj. destruct (C 20 i Hi) as (x & y & -> & Hx & Hy). destruct (M j Hj) as (x' & y' & -> & Hx' & Hy'). unfold vplace. cbn [lD lMask vcp vdv place step]. lia.
  - eexists. vm_compute. reflexivity.
  - split; [reflexivity|]. intros k Hk. apply M in Hk as (x & y & -> & Hx & Hy). assert (x = 0 \/ x = 1 \/ x = 2) as [-> | [-> | ->]] by lia; assert (y = 0 \/ y = 1 \/ y = 2) as [-> | [-> | ->]] by lia; vm_compute; reflexivity.
  - exact Zth.
Qed.
Example C151_small_ex : Exists (fun n => n < 2) (vshape (Vw [Dim 4 5; Dim 1 1] 0)).
Proof. apply Exists_cons_tl, Exists_cons_hd. reflexivity. Qed.

Print Assumptions C151_raw.
Print Assumptions C151_stencil.
Print Assumptions C151_exact.
Print Assumptions C151_mask.
Print Assumptions C151_loop.
Print Assumptions C151_loop_mask.
Print Assumptions C151_bench.
Print Assumptions C151_small.
