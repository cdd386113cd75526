(* Properties of matrix products: C33, C34. *)
From Coq Require Import ZArith List Lia Bool Arith Sorted.
From Verif Require Import Spec M_Base M_Expr M_Ply L_Spec L_Expr Spec_Ply L_Ply L_Run Spec_Expr L_Agree M_Val Spec_Val L_Val P_Reduce M_View L_View Spec_View M_Slice Spec_Slice L_Slice P_Slice M_Mat Spec_Mat.
Import ListNotations.
Open Scope Z_scope.

Section Mat.
Context {T : Type}.
Notation ex := (expr (val T) (mem T)).
Variables (add mul : T -> T -> T).

Lemma times_reads : forall (a b : ex) s m x y, reads a s m x -> reads b s m y -> reads (times mul a b) s m (fun j => mul (x j) (y j)).
Proof.
  intros a b s m x y Ha Hb j Hj. destruct (Ha j Hj) as (v & E1 & E2), (Hb j Hj) as (u & E3 & E4). exists (VT (mul (x j) (y j))). split; auto.
  unfold times. cbn [element map]. rewrite (in_order_2 _ _ _ _ _ v m u m); auto. cbn. unfold bind. rewrite (rd_value _ _ (x j)), (rd_value _ _ (y j)); auto.
Qed.
Lemma times_wf : forall a b : ex, wf a -> wf b -> wf (times mul a b).
Proof. intros. apply wf_map; [discriminate|]. auto. Qed.

Lemma filter_sorted : forall (P : list Z -> bool) l, StronglySorted lexlt l -> StronglySorted lexlt (filter P l).
Proof.
  induction 1 as [|a l H IH F]; cbn; [constructor|]. destruct (P a); auto. constructor; auto. apply Forall_forall. intros x Hx. apply filter_In in Hx as [Hx _].
  rewrite Forall_forall in F. auto.
Qed.

(* y += u * v *)
Lemma prod_assign : forall (d u v : ex) s m pl xu xv fixed z, wf d -> wf u -> wf v -> joint_shape [d; times mul u v] s -> zclean z -> refers d s pl ->
  (forall m', (forall q, outside pl s q -> m' q = m q) -> reads u s m' xu /\ reads v s m' xv) ->
  exists m', assign fixed z add d (times mul u v) m = Ok None m' /\
    forall q L, StronglySorted lexlt L -> (forall j, In j L <-> inshape j s /\ pl j = q) -> m' q = fold_left add (map (fun j => mul (xu j) (xv j)) L) (m q).
Proof.
  intros d u v s m pl xu xv fixed z Hd Hu Hv Hs Hz Hr Hx.
  destruct (assign_scatter T add d (times mul u v) s m pl (fun j => mul (xu j) (xv j)) fixed z) as (m' & E1 & E2); auto.
  - apply times_wf; auto.
  - intros j m' Hj Hm. destruct (Hx m') as [Ru Rv]; [|exact (times_reads _ _ _ _ _ _ Ru Rv j Hj)].
    intros q Hq. apply Hm. intros j' Hj' _. apply Hq; auto.
  - exists m'. split; [exact E1|]. intros q L SL HL. rewrite E2. f_equal. f_equal. apply sorted_unique; auto.
    + apply filter_sorted, indices_sorted.
    + intros j. rewrite HL, filter_In, in_indices, Z.eqb_eq. tauto.
Qed.

(* the lengths of e agree with s *)
Definition okay (e : ex) (s : list Z) : Prop := (axes e <= length s)%nat /\ forall k, Forall (fun m => m = nth k s 0 \/ m = UNB) (leaf_lens e k).
Lemma joint_okay : forall op (d u v : ex) s, wf d -> wf u -> wf v -> okay d s -> okay u s -> okay v s -> Forall (fun n => 0 <= n) s ->
  (forall k, (k < length s)%nat -> In (nth k s 0) (leaf_lens d k ++ leaf_lens u k ++ leaf_lens v k)) -> joint_shape [d; Map op [u; v]] s.
Proof.
  intros op d u v s Wd Wu Wv (Ad & Od) (Au & Ou) (Av & Ov) N C.
  assert (L : length s = fold_right (fun a r => Nat.max (axes a) r) 0%nat [d; Map op [u; v]]).
  { cbn [fold_right axes]. destruct (length s) as [|n] eqn:E; [lia|]. assert (I := C n ltac:(lia)).
    assert (Nz : forall e : ex, wf e -> (axes e <= n)%nat -> leaf_lens e n = []) by (intros; apply leaf_lens_out; auto; rewrite <- axes_rank; auto).
    destruct (Nat.le_gt_cases (axes d) n) as [Hd|]; [|lia]. destruct (Nat.le_gt_cases (axes u) n) as [Hu|]; [|lia]. destruct (Nat.le_gt_cases (axes v) n) as [Hv|]; [|lia].
    rewrite (Nz d), (Nz u), (Nz v) in I by auto. destruct I. }
  split; [exact L|]. rewrite <- L. intros k Hk. split; [rewrite Forall_forall in N; apply N, nth_In; auto|].
  cbn [flat_map leaf_lens]. rewrite !app_nil_r. split; [exact (C k Hk)|]. apply Forall_app; split; auto. apply Forall_app; split; auto.
Qed.

Lemma okay_shape : forall (e : ex) s1 s2, wf e -> shape_is e s1 -> okay e (s1 ++ s2).
Proof.
  intros e s1 s2 Hw [L P]. split; [rewrite app_length; lia|]. intros k. destruct (Nat.lt_ge_cases k (axes e)).
  - rewrite app_nth1 by lia. apply P; auto.
  - rewrite leaf_lens_out; auto. rewrite <- axes_rank; auto.
Qed.
Lemma okay_view : forall v s, (vrank v <= length s)%nat -> Forall2 (fun d n => len d = n \/ len d = UNB) (vdv v) (firstn (vrank v) s) -> okay (viter v) s.
Proof.
  intros v s L F. split; [exact L|]. intros k. cbn [viter leaf_lens]. unfold vrank in *. destruct (Nat.ltb_spec k (length (vdv v))); [|constructor]. constructor; [|constructor].
  revert s L F k H. generalize (vdv v) as dv. clear. induction dv as [|d dv IH]; intros [|n s] L F k Hk; cbn [length firstn] in *; try lia.
  inversion F; subst. destruct k; cbn; auto. apply IH; auto; lia.
Qed.

Lemma reads_extend : forall (e : ex) s1 s2 m x, wf e -> shape_is e s1 -> reads e s1 m x -> reads e (s1 ++ s2) m (fun j => x (firstn (length s1) j)).
Proof.
  intros e s1 s2 m x Hw [L P] R j Hj. assert (Hj' : inshape (firstn (length s1) j) s1).
  { apply Forall2_app_inv_r in Hj as (j1 & j2 & F1 & F2 & ->). assert (length j1 = length s1) as <- by (eapply inshape_length; eauto).
    rewrite firstn_app, firstn_all, Nat.sub_diag. cbn. rewrite app_nil_r. exact F1. }
  destruct (R _ Hj') as (v & E1 & E2). exists v. split; auto. rewrite <- E1. symmetry. apply element_prefix; auto. rewrite <- axes_rank; auto. lia.
Qed.
Lemma refers_extend : forall (e : ex) s1 s2 pl, wf e -> shape_is e s1 -> refers e s1 pl -> refers e (s1 ++ s2) (fun j => pl (firstn (length s1) j)).
Proof.
  intros e s1 s2 pl Hw [L P] R j m Hj. assert (Hj' : inshape (firstn (length s1) j) s1).
  { apply Forall2_app_inv_r in Hj as (j1 & j2 & F1 & F2 & ->). assert (length j1 = length s1) as <- by (eapply inshape_length; eauto).
    rewrite firstn_app, firstn_all, Nat.sub_diag. cbn. rewrite app_nil_r. exact F1. }
  rewrite <- (R _ m Hj'). symmetry. apply element_prefix; auto. rewrite <- axes_rank; auto. lia.
Qed.
Lemma viter_refers : forall v s, refers (viter (T:=T) v) s (fun j => vplace v (firstn (vrank v) j)).
Proof. intros v s. exact (cell_refers T (vdv v) (vcp v) s). Qed.
Lemma viter_wf : forall v, Forall (fun d => oklen (len d)) (vdv v) -> wf (viter (T:=T) v).
Proof. intros v H. cbn. split; [unfold vrank; lia|]. unfold vrank. rewrite firstn_all. exact H. Qed.

Lemma row_sorted : forall (f : Z -> list Z) n, (forall a b, a < b -> lexlt (f a) (f b)) -> StronglySorted lexlt (map f (zrange n)).
Proof.
  intros f n H. pose proof (zrange_sorted n) as S. induction S as [|a l S IH F]; cbn; constructor; auto.
  rewrite Forall_forall in *. intros x Hx. apply in_map_iff in Hx as (y & <- & Hy). auto.
Qed.
Lemma in_zrange : forall n k, In k (zrange n) <-> 0 <= k < n.
Proof.
  intros. unfold zrange. rewrite in_map_iff. split.
  - intros (y & <- & Hy). apply in_seq in Hy. lia.
  - intros H. exists (Z.to_nat k). split; [lia|]. apply in_seq. lia.
Qed.

Lemma in2 : forall i j n p, inshape [i; j] [n; p] <-> 0 <= i < n /\ 0 <= j < p.
Proof. intros. unfold inshape. split; intros H; [inversion H as [|? ? ? ? A B]; inversion B; auto|]. constructor; [tauto|constructor; [tauto|constructor]]. Qed.
Lemma in3 : forall l n k p, inshape l [n; k; p] <-> exists a b c, l = [a; b; c] /\ 0 <= a < n /\ 0 <= b < k /\ 0 <= c < p.
Proof.
  intros. unfold inshape. split.
  - intros H. inversion H as [|a ? l1 ? A1 H1]; subst. inversion H1 as [|b ? l2 ? A2 H2]; subst. inversion H2 as [|c ? l3 ? A3 H3]; subst. inversion H3; subst. exists a, b, c. auto.
  - intros (a & b & c & -> & A1 & A2 & A3). repeat constructor; lia.
Qed.

Ltac okl := cbn [vdv]; repeat (apply Forall_cons; [first [left; cbn [len]; lia|right; reflexivity]|]); apply Forall_nil.
Ltac okl2 := cbn [vdv vrank firstn length]; repeat (apply Forall2_cons; [first [left; assumption|right; reflexivity]|]); apply Forall2_nil.

Lemma view2 : forall v n p, vshape v = [n; p] -> exists d0 d1 cp, v = Vw [d0; d1] cp /\ len d0 = n /\ len d1 = p.
Proof. intros [dv cp] n p H. unfold vshape in H; cbn in H. destruct dv as [|d0 [|d1 [|d2 dv]]]; try discriminate. injection H as <- <-. exists d0, d1, cp. auto. Qed.
Lemma view1 : forall v n, vshape v = [n] -> exists d0 cp, v = Vw [d0] cp /\ len d0 = n.
Proof. intros [dv cp] n H. unfold vshape in H; cbn in H. destruct dv as [|d0 [|d1 dv]]; try discriminate. injection H as <-. exists d0, cp. auto. Qed.
Lemma shape2 : forall (a : ex) n l, shape_is a [n; l] -> 0 <= n /\ 0 <= l /\ In n (leaf_lens a 0) /\ In l (leaf_lens a 1).
Proof.
  intros a n l [L P]. cbn in L. destruct (P 0%nat) as (N0 & I0 & F0); [lia|]. destruct (P 1%nat) as (N1 & I1 & F1); [lia|]. auto.
Qed.
Lemma shape1 : forall (a : ex) n, shape_is a [n] -> 0 <= n /\ In n (leaf_lens a 0).
Proof. intros a n [L P]. cbn in L. destruct (P 0%nat) as (N0 & I0 & F0); [lia|]. auto. Qed.


(* the same, when each element of the result gets l products *)
Lemma prod_reduce : forall (d u v : ex) s sc l m pl plc row xu xv fixed z, wf d -> wf u -> wf v -> joint_shape [d; times mul u v] s -> zclean z -> refers d s pl ->
  (forall j, inshape j s <-> exists o k, inshape o sc /\ 0 <= k < l /\ j = row o k) -> (forall o k, inshape o sc -> pl (row o k) = plc o) ->
  (forall o a b, inshape o sc -> a < b -> lexlt (row o a) (row o b)) -> separate plc sc ->
  (forall m', (forall q, outside plc sc q -> m' q = m q) -> reads u s m' xu /\ reads v s m' xv) ->
  exists m', assign fixed z add d (times mul u v) m = Ok None m' /\
    (forall o, inshape o sc -> m' (plc o) = accum add (m (plc o)) l (fun k => mul (xu (row o k)) (xv (row o k)))) /\
    (forall q, outside plc sc q -> m' q = m q).
Proof.
  intros d u v s sc l m pl plc row xu xv fixed z Wd Wu Wv Js Hz Hr Hs Hp Hl Hsep Hx.
  assert (Out : forall q, outside plc sc q -> outside pl s q).
  { intros q Hq j Hj. apply Hs in Hj as (o & k & Ho & Hk & ->). rewrite Hp by auto. apply Hq; auto. }
  destruct (prod_assign d u v s m pl xu xv fixed z) as (m' & E & V); auto.
  exists m'. split; [exact E|]. split.
  - intros o Ho. rewrite (V _ (map (row o) (zrange l))).
    + unfold accum. f_equal. rewrite map_map. reflexivity.
    + apply row_sorted. auto.
    + intros j. rewrite in_map_iff. split.
      * intros (k & <- & Hk). apply in_zrange in Hk. split; [apply Hs; exists o, k; auto|apply Hp; auto].
      * intros [Hj Eq]. apply Hs in Hj as (o' & k & Ho' & Hk & ->). rewrite Hp in Eq by auto. apply Hsep in Eq; auto. subst o'. exists k. split; auto. apply in_zrange; auto.
  - intros q Hq. rewrite (V q []); [reflexivity|constructor|]. intros j. split; [intros []|]. intros [Hj Eq]. exfalso. exact (Out q Hq j Hj (eq_sym Eq)).
Qed.

Lemma in2e : forall l n p, inshape l [n; p] <-> exists a b, l = [a; b] /\ 0 <= a < n /\ 0 <= b < p.
Proof.
  intros. split.
  - intros H. inversion H as [|a ? l1 ? A1 H1]; subst. inversion H1 as [|b ? l2 ? A2 H2]; subst. inversion H2; subst. exists a, b. auto.
  - intros (a & b & -> & A). apply in2. auto.
Qed.
Lemma in1 : forall i n, inshape [i] [n] <-> 0 <= i < n.
Proof. intros. unfold inshape. split; intros H; [inversion H; auto|]. constructor; [auto|constructor]. Qed.
Lemma in1e : forall l n, inshape l [n] <-> exists a, l = [a] /\ 0 <= a < n.
Proof.
  intros. split.
  - intros H. inversion H as [|a ? l1 ? A1 H1]; subst. inversion H1; subst. exists a. auto.
  - intros (a & -> & A). apply in1. auto.
Qed.

(* a view that is read at a part of the index, and isn't written *)
Lemma view_part : forall (v w : view) s sub pl sc m m', (forall j, inshape j s -> inshape (sub j) (vshape w) /\ vplace v (firstn (vrank v) j) = vplace w (sub j)) ->
  apart w pl sc -> (forall q, outside pl sc q -> m' q = m q) -> reads (viter (T:=T) v) s m' (fun j => m (vplace w (sub j))).
Proof.
  intros v w s sub pl sc m m' H Ha Hm j Hj. destruct (refers_reads T _ _ _ m' (viter_refers v s) j Hj) as (x & V1 & V2). exists x. split; auto. rewrite V2. f_equal.
  destruct (H j Hj) as [H1 H2]. rewrite H2. apply Hm, Ha, H1.
Qed.

(* ---- C33 ---- *)

Theorem C33_gemm_c : forall (a : ex) (b c : view) n l p m xa fixed z, wf a -> shape_is a [n; l] -> vshape b = [l; p] -> vshape c = [n; p] -> 0 <= p -> zclean z ->
  separate (vplace c) [n; p] -> undisturbed a [n; l] m xa (vplace c) [n; p] -> apart b (vplace c) [n; p] ->
  exists m', gemm_c add mul fixed z a b c m = Ok None m' /\
    (forall i j, 0 <= i < n -> 0 <= j < p -> m' (vplace c [i; j]) = accum add (m (vplace c [i; j])) l (fun k => mul (xa [i; k]) (m (vplace b [k; j])))) /\
    (forall q, outside (vplace c) [n; p] q -> m' q = m q).
Proof.
  intros a b c n l p m xa fixed z Wa Sa Sb Sc Hp Hz Hsep Hu Hap.
  destruct (view2 _ _ _ Sb) as (b0 & b1 & pb & -> & Eb0 & Eb1), (view2 _ _ _ Sc) as (c0 & c1 & pc & -> & Ec0 & Ec1), (shape2 _ _ _ Sa) as (N0 & N1 & I0 & I1).
  unfold gemm_c. replace (from (Vw [c0; c1] pc) [all; SInsert 1]) with (Good (Vw [c0; Dim UNB 0; c1] pc)) by reflexivity.
  replace (from (Vw [b0; b1] pb) [SInsert 1]) with (Good (Vw [Dim UNB 0; b0; b1] pb)) by reflexivity. cbn [onres].
  set (c' := Vw [c0; Dim UNB 0; c1] pc). set (b' := Vw [Dim UNB 0; b0; b1] pb). set (c := Vw [c0; c1] pc) in *. set (b := Vw [b0; b1] pb) in *.
  assert (Wc : wf (viter (T:=T) c')) by (apply viter_wf; okl).
  assert (Wb : wf (viter (T:=T) b')) by (apply viter_wf; okl).
  destruct (prod_reduce (viter c') a (viter b') [n; l; p] [n; p] l m (fun j => vplace c' (firstn 3 j)) (vplace c) (fun o k => [nth 0 o 0; k; nth 1 o 0])
     (fun j => xa (firstn 2 j)) (fun j => m (vplace b (skipn 1 j))) fixed z Wc Wa Wb) with (2 := Hz) (3 := viter_refers c' [n; l; p]) as (m' & E & V & O); auto.
  - apply joint_okay; auto.
    + apply okay_view; [cbn; lia|]. okl2.
    + apply (okay_shape a [n; l] [p]); auto.
    + apply okay_view; [cbn; lia|]. okl2.
    + intros [|[|[|k]]] Hk; cbn in Hk |- *; try lia; auto. rewrite in_app_iff. auto.
  - intros j. rewrite in3. split.
    + intros (i & k & j' & -> & A & B & C). exists [i; j'], k. split; [apply in2; auto|]. auto.
    + intros (o & k & Ho & Hk & ->). apply in2e in Ho as (i & j' & -> & A & B). exists i, k, j'. auto.
  - intros o k Ho. apply in2e in Ho as (i & j' & -> & A & B). unfold vplace; cbn; lia.
  - intros o x y Ho Hxy. apply lex_tl, lex_hd; auto.
  - intros m' Hm. split; [apply (reads_extend a [n; l] [p]); auto|].
    apply (view_part b' b _ _ (vplace c) [n; p]); auto. intros j Hj. apply in3 in Hj as (i & k & j' & -> & A & B & C). split.
    + rewrite Sb. apply in2; auto.
    + unfold vplace; cbn; lia.
  - exists m'. split; [exact E|]. split; [|exact O]. intros i j Hi Hj. rewrite V by (apply in2; auto). reflexivity.
Qed.

Theorem C33_gemm_e : forall (a b : view) (c : ex) n l p m pl fixed z, wf c -> shape_is c [n; p] -> vshape a = [n; l] -> vshape b = [l; p] -> 0 <= l -> zclean z ->
  refers c [n; p] pl -> separate pl [n; p] -> apart a pl [n; p] -> apart b pl [n; p] ->
  exists m', gemm_e add mul fixed z a b c m = Ok None m' /\
    (forall i j, 0 <= i < n -> 0 <= j < p -> m' (pl [i; j]) = accum add (m (pl [i; j])) l (fun k => mul (m (vplace a [i; k])) (m (vplace b [k; j])))) /\
    (forall q, outside pl [n; p] q -> m' q = m q).
Proof.
  intros a b c n l p m pl fixed z Wc Sc Sa Sb Hl Hz Hr Hsep Hpa Hpb.
  destruct (view2 _ _ _ Sb) as (b0 & b1 & pb & -> & Eb0 & Eb1), (view2 _ _ _ Sa) as (a0 & a1 & pa & -> & Ea0 & Ea1), (shape2 _ _ _ Sc) as (N0 & N1 & I0 & I1).
  unfold gemm_e. replace (from (Vw [a0; a1] pa) [all; SInsert 1]) with (Good (Vw [a0; Dim UNB 0; a1] pa)) by reflexivity.
  replace (transpose (Vw [b0; b1] pb) [2; 1]) with (Good (Vw [Dim UNB 0; Dim (len b1) (step b1); Dim (len b0) (step b0)] pb)) by reflexivity. cbn [onres].
  set (a' := Vw [a0; Dim UNB 0; a1] pa). set (b' := Vw [Dim UNB 0; Dim (len b1) (step b1); Dim (len b0) (step b0)] pb). set (a := Vw [a0; a1] pa) in *. set (b := Vw [b0; b1] pb) in *.
  assert (Wa : wf (viter (T:=T) a')) by (apply viter_wf; okl).
  assert (Wb : wf (viter (T:=T) b')) by (apply viter_wf; okl).
  destruct (prod_reduce c (viter a') (viter b') [n; p; l] [n; p] l m (fun j => pl (firstn 2 j)) pl (fun o k => [nth 0 o 0; nth 1 o 0; k])
     (fun j => m (vplace a [nth 0 j 0; nth 2 j 0])) (fun j => m (vplace b [nth 2 j 0; nth 1 j 0])) fixed z Wc Wa Wb) with (2 := Hz) (3 := refers_extend c [n; p] [l] pl Wc Sc Hr) as (m' & E & V & O); auto.
  - apply joint_okay; auto.
    + apply (okay_shape c [n; p] [l]); auto.
    + apply okay_view; [cbn; lia|]. okl2.
    + apply okay_view; [cbn; lia|]. okl2.
    + intros [|[|[|k]]] Hk; cbn in Hk |- *; try lia; rewrite ?in_app_iff; auto. right; left; auto.
  - intros j. rewrite in3. split.
    + intros (i & j' & k & -> & A & B & C). exists [i; j'], k. split; [apply in2; auto|]. auto.
    + intros (o & k & Ho & Hk & ->). apply in2e in Ho as (i & j' & -> & A & B). exists i, j', k. auto.
  - intros o k Ho. apply in2e in Ho as (i & j' & -> & A & B). reflexivity.
  - intros o x y Ho Hxy. apply lex_tl, lex_tl, lex_hd; auto.
  - intros m' Hm. split.
    + apply (view_part a' a _ _ pl [n; p]); auto. intros j Hj. apply in3 in Hj as (i & j' & k & -> & A & B & C). split; [rewrite Sa; apply in2; auto|unfold vplace; cbn; lia].
    + apply (view_part b' b _ _ pl [n; p]); auto. intros j Hj. apply in3 in Hj as (i & j' & k & -> & A & B & C). split; [rewrite Sb; apply in2; auto|unfold vplace; cbn; lia].
  - exists m'. split; [exact E|]. split; [|exact O]. intros i j Hi Hj. rewrite V by (apply in2; auto). reflexivity.
Qed.

(* ---- C34 ---- *)

Theorem C34_gemv_b : forall (a : ex) (b : view) (c : ex) n l m xa pl fixed z, wf a -> wf c -> shape_is a [n; l] -> vshape b = [l] -> shape_is c [n] -> zclean z ->
  refers c [n] pl -> separate pl [n] -> undisturbed a [n; l] m xa pl [n] -> apart b pl [n] ->
  exists m', gemv_b add mul fixed z a b c m = Ok None m' /\
    (forall i, 0 <= i < n -> m' (pl [i]) = accum add (m (pl [i])) l (fun k => mul (xa [i; k]) (m (vplace b [k])))) /\
    (forall q, outside pl [n] q -> m' q = m q).
Proof.
  intros a b c n l m xa pl fixed z Wa Wc Sa Sb Sc Hz Hr Hsep Hu Hap.
  destruct (view1 _ _ Sb) as (b0 & pb & -> & Eb0), (shape2 _ _ _ Sa) as (N0 & N1 & I0 & I1).
  unfold gemv_b. replace (from (Vw [b0] pb) [SInsert 1]) with (Good (Vw [Dim UNB 0; b0] pb)) by reflexivity. cbn [onres].
  set (b' := Vw [Dim UNB 0; b0] pb). set (b := Vw [b0] pb) in *.
  assert (Wb : wf (viter (T:=T) b')) by (apply viter_wf; okl).
  destruct (prod_reduce c a (viter b') [n; l] [n] l m (fun j => pl (firstn 1 j)) pl (fun o k => [nth 0 o 0; k])
     (fun j => xa (firstn 2 j)) (fun j => m (vplace b [nth 1 j 0])) fixed z Wc Wa Wb) with (2 := Hz) (3 := refers_extend c [n] [l] pl Wc Sc Hr) as (m' & E & V & O); auto.
  - apply joint_okay; auto.
    + apply (okay_shape c [n] [l]); auto.
    + apply (okay_shape a [n; l] []); auto.
    + apply okay_view; [cbn; lia|]. okl2.
    + intros [|[|k]] Hk; cbn in Hk |- *; try lia; rewrite ?in_app_iff; auto.
  - intros j. rewrite in2e. split.
    + intros (i & k & -> & A & B). exists [i], k. split; [apply in1; auto|]. auto.
    + intros (o & k & Ho & Hk & ->). apply in1e in Ho as (i & -> & A). exists i, k. auto.
  - intros o k Ho. apply in1e in Ho as (i & -> & A). reflexivity.
  - intros o x y Ho Hxy. apply lex_tl, lex_hd; auto.
  - intros m' Hm. split.
    + apply (reads_extend a [n; l] []); auto.
    + apply (view_part b' b _ _ pl [n]); auto. intros j Hj. apply in2e in Hj as (i & k & -> & A & B). split; [rewrite Sb; apply in1; auto|unfold vplace; cbn; lia].
  - exists m'. split; [exact E|]. split; [|exact O]. intros i Hi. rewrite V by (apply in1; auto). reflexivity.
Qed.

Theorem C34_gemv_c : forall (a : view) (b : ex) (c : view) n l m xb fixed z, wf b -> vshape a = [n; l] -> shape_is b [l] -> vshape c = [n] -> 0 <= n -> zclean z ->
  separate (vplace c) [n] -> apart a (vplace c) [n] -> undisturbed b [l] m xb (vplace c) [n] ->
  exists m', gemv_c add mul fixed z a b c m = Ok None m' /\
    (forall i, 0 <= i < n -> m' (vplace c [i]) = accum add (m (vplace c [i])) l (fun k => mul (m (vplace a [i; k])) (xb [k]))) /\
    (forall q, outside (vplace c) [n] q -> m' q = m q).
Proof.
  intros a b c n l m xb fixed z Wb Sa Sb Sc Hn Hz Hsep Hap Hu.
  destruct (view2 _ _ _ Sa) as (a0 & a1 & pa & -> & Ea0 & Ea1), (view1 _ _ Sc) as (c0 & pc & -> & Ec0), (shape1 _ _ Sb) as (N0 & I0).
  unfold gemv_c. replace (from (Vw [c0] pc) [SInsert 1]) with (Good (Vw [Dim UNB 0; c0] pc)) by reflexivity.
  replace (transpose10 (Vw [a0; a1] pa)) with (Good (Vw [Dim (len a1) (step a1); Dim (len a0) (step a0)] pa)) by reflexivity. cbn [onres].
  set (c' := Vw [Dim UNB 0; c0] pc). set (c := Vw [c0] pc) in *. set (a' := Vw [Dim (len a1) (step a1); Dim (len a0) (step a0)] pa). set (a := Vw [a0; a1] pa) in *.
  assert (Wa : wf (viter (T:=T) a')) by (apply viter_wf; okl).
  assert (Wc : wf (viter (T:=T) c')) by (apply viter_wf; okl).
  destruct (prod_reduce (viter c') (viter a') b [l; n] [n] l m (fun j => vplace c' (firstn 2 j)) (vplace c) (fun o k => [k; nth 0 o 0])
     (fun j => m (vplace a [nth 1 j 0; nth 0 j 0])) (fun j => xb (firstn 1 j)) fixed z Wc Wa Wb) with (2 := Hz) (3 := viter_refers c' [l; n]) as (m' & E & V & O); auto.
  - apply joint_okay; auto.
    + apply okay_view; [cbn; lia|]. okl2.
    + apply okay_view; [cbn; lia|]. okl2.
    + apply (okay_shape b [l] [n]); auto.
    + intros [|[|k]] Hk; cbn in Hk |- *; try lia; rewrite ?in_app_iff; auto.
  - intros j. rewrite in2e. split.
    + intros (k & i & -> & A & B). exists [i], k. split; [apply in1; auto|]. auto.
    + intros (o & k & Ho & Hk & ->). apply in1e in Ho as (i & -> & A). exists k, i. auto.
  - intros o k Ho. apply in1e in Ho as (i & -> & A). unfold vplace; cbn; lia.
  - intros o x y Ho Hxy. apply lex_hd; auto.
  - intros m' Hm. split.
    + apply (view_part a' a _ _ (vplace c) [n]); auto. intros j Hj. apply in2e in Hj as (k & i & -> & A & B). split; [rewrite Sa; apply in2; auto|unfold vplace; cbn; lia].
    + apply (reads_extend b [l] [n]); auto.
  - exists m'. split; [exact E|]. split; [|exact O]. intros i Hi. rewrite V by (apply in1; auto). reflexivity.
Qed.

Theorem C34_gevm_c : forall (a b : ex) (c : view) l p m xa xb fixed z, wf a -> wf b -> shape_is a [l] -> shape_is b [l; p] -> vshape c = [p] -> zclean z ->
  separate (vplace c) [p] -> undisturbed a [l] m xa (vplace c) [p] -> undisturbed b [l; p] m xb (vplace c) [p] ->
  exists m', gevm_c add mul fixed z a b c m = Ok None m' /\
    (forall j, 0 <= j < p -> m' (vplace c [j]) = accum add (m (vplace c [j])) l (fun k => mul (xa [k]) (xb [k; j]))) /\
    (forall q, outside (vplace c) [p] q -> m' q = m q).
Proof.
  intros a b c l p m xa xb fixed z Wa Wb Sa Sb Sc Hz Hsep Hua Hub.
  destruct (view1 _ _ Sc) as (c0 & pc & -> & Ec0), (shape1 _ _ Sa) as (N0 & I0), (shape2 _ _ _ Sb) as (N1 & N2 & J0 & J1).
  unfold gevm_c. replace (from (Vw [c0] pc) [SInsert 1]) with (Good (Vw [Dim UNB 0; c0] pc)) by reflexivity. cbn [onres].
  set (c' := Vw [Dim UNB 0; c0] pc). set (c := Vw [c0] pc) in *.
  assert (Wc : wf (viter (T:=T) c')) by (apply viter_wf; okl).
  destruct (prod_reduce (viter c') a b [l; p] [p] l m (fun j => vplace c' (firstn 2 j)) (vplace c) (fun o k => [k; nth 0 o 0])
     (fun j => xa (firstn 1 j)) (fun j => xb (firstn 2 j)) fixed z Wc Wa Wb) with (2 := Hz) (3 := viter_refers c' [l; p]) as (m' & E & V & O); auto.
  - apply joint_okay; auto.
    + apply okay_view; [cbn; lia|]. okl2.
    + apply (okay_shape a [l] [p]); auto.
    + apply (okay_shape b [l; p] []); auto.
    + intros [|[|k]] Hk; cbn in Hk |- *; try lia; rewrite ?in_app_iff; auto.
  - intros j. rewrite in2e. split.
    + intros (k & i & -> & A & B). exists [i], k. split; [apply in1; auto|]. auto.
    + intros (o & k & Ho & Hk & ->). apply in1e in Ho as (i & -> & A). exists k, i. auto.
  - intros o k Ho. apply in1e in Ho as (i & -> & A). unfold vplace; cbn; lia.
  - intros o x y Ho Hxy. apply lex_hd; auto.
  - intros m' Hm. split; [apply (reads_extend a [l] [p]); auto|apply (reads_extend b [l; p] []); auto].
  - exists m'. split; [exact E|]. split; [|exact O]. intros i Hi. rewrite V by (apply in1; auto). reflexivity.
Qed.

Theorem C34_gevm_a : forall (a b : view) (c : ex) l p m pl fixed z, wf c -> vshape a = [l] -> vshape b = [l; p] -> shape_is c [p] -> 0 <= l -> zclean z ->
  refers c [p] pl -> separate pl [p] -> apart a pl [p] -> apart b pl [p] ->
  exists m', gevm_a add mul fixed z a b c m = Ok None m' /\
    (forall j, 0 <= j < p -> m' (pl [j]) = accum add (m (pl [j])) l (fun k => mul (m (vplace a [k])) (m (vplace b [k; j])))) /\
    (forall q, outside pl [p] q -> m' q = m q).
Proof.
  intros a b c l p m pl fixed z Wc Sa Sb Sc Hl Hz Hr Hsep Hpa Hpb.
  destruct (view1 _ _ Sa) as (a0 & pa & -> & Ea0), (view2 _ _ _ Sb) as (b0 & b1 & pb & -> & Eb0 & Eb1), (shape1 _ _ Sc) as (N0 & I0).
  unfold gevm_a. replace (from (Vw [a0] pa) [SInsert 1]) with (Good (Vw [Dim UNB 0; a0] pa)) by reflexivity.
  replace (transpose10 (Vw [b0; b1] pb)) with (Good (Vw [Dim (len b1) (step b1); Dim (len b0) (step b0)] pb)) by reflexivity. cbn [onres].
  set (a' := Vw [Dim UNB 0; a0] pa). set (a := Vw [a0] pa) in *. set (b' := Vw [Dim (len b1) (step b1); Dim (len b0) (step b0)] pb). set (b := Vw [b0; b1] pb) in *.
  assert (Wa : wf (viter (T:=T) a')) by (apply viter_wf; okl).
  assert (Wb : wf (viter (T:=T) b')) by (apply viter_wf; okl).
  destruct (prod_reduce c (viter a') (viter b') [p; l] [p] l m (fun j => pl (firstn 1 j)) pl (fun o k => [nth 0 o 0; k])
     (fun j => m (vplace a [nth 1 j 0])) (fun j => m (vplace b [nth 1 j 0; nth 0 j 0])) fixed z Wc Wa Wb) with (2 := Hz) (3 := refers_extend c [p] [l] pl Wc Sc Hr) as (m' & E & V & O); auto.
  - apply joint_okay; auto.
    + apply (okay_shape c [p] [l]); auto.
    + apply okay_view; [cbn; lia|]. okl2.
    + apply okay_view; [cbn; lia|]. okl2.
    + intros [|[|k]] Hk; cbn in Hk |- *; try lia; rewrite ?in_app_iff; auto. cbn; auto.
  - intros j. rewrite in2e. split.
    + intros (i & k & -> & A & B). exists [i], k. split; [apply in1; auto|]. auto.
    + intros (o & k & Ho & Hk & ->). apply in1e in Ho as (i & -> & A). exists i, k. auto.
  - intros o k Ho. apply in1e in Ho as (i & -> & A). reflexivity.
  - intros o x y Ho Hxy. apply lex_tl, lex_hd; auto.
  - intros m' Hm. split.
    + apply (view_part a' a _ _ pl [p]); auto. intros j Hj. apply in2e in Hj as (i & k & -> & A & B). split; [rewrite Sa; apply in1; auto|unfold vplace; cbn; lia].
    + apply (view_part b' b _ _ pl [p]); auto. intros j Hj. apply in2e in Hj as (i & k & -> & A & B). split; [rewrite Sb; apply in2; auto|unfold vplace; cbn; lia].
  - exists m'. split; [exact E|]. split; [|exact O]. intros i Hi. rewrite V by (apply in1; auto). reflexivity.
Qed.

(* ---- vals ---- *)
Definition okr {A} (o : out (mem T) (val T)) (f : val T -> A) : out (mem T) A := match o with Ok v w => Ok (f v) w | Fail w => Fail w | Undef => Undef end.

Lemma vals_rank : forall e : ex, rank (vals e) = rank e.
Proof. induction e using expr_ind2; cbn [vals rank]; auto; f_equal; rewrite map_map; apply map_ext_in; intros; rewrite Forall_forall in H; auto. Qed.
Lemma vals_wf : forall e : ex, wf e -> wf (vals e).
Proof.
  induction e using expr_ind2; cbn [vals wf]; intros; auto.
  - rewrite vals_rank. tauto.
  - destruct H0 as (Hn & Hw). split; [destruct t; [contradiction|discriminate]|]. apply wf_Forall in Hw. apply wf_Forall.
    rewrite Forall_forall in *. intros x Hx. apply in_map_iff in Hx. destruct Hx as (y & <- & Hy). auto.
  - destruct H0 as (Hn & Hw). split; [destruct t; [contradiction|discriminate]|]. apply wf_Forall in Hw. apply wf_Forall.
    rewrite Forall_forall in *. intros x Hx. apply in_map_iff in Hx. destruct Hx as (y & <- & Hy). auto.
Qed.
Lemma vals_axes : forall e : ex, axes (vals e) = axes e.
Proof. induction e using expr_ind2; cbn [vals axes]; auto; induction H; cbn; auto. Qed.
Lemma vals_lens : forall (e : ex) k, leaf_lens (vals e) k = leaf_lens e k.
Proof.
  induction e using expr_ind2; cbn [vals leaf_lens]; intros; auto.
  - apply flat_map_ext. auto.
  - induction H; cbn; auto. rewrite H, IHForall. auto.
  - induction H; cbn; auto. rewrite H, IHForall. auto.
Qed.
Lemma vals_element : forall (e : ex) j w, element (vals e) j w = okr (element e j w) inr.
Proof.
  induction e using expr_ind2; intros; cbn [vals element]; auto.
  - assert (HF : forall w, in_order (map (fun a => element a j) (map vals t)) w =
      match in_order (map (fun a => element a j) t) w with Ok l w' => Ok (map inr l) w' | Fail w' => Fail w' | Undef => Undef end).
    { clear w. induction H; intros w; cbn; auto. rewrite H. unfold okr. destruct (element x j w); auto. rewrite IHForall.
      destruct (in_order (map (fun a => element a j) l) w0); auto. }
    rewrite HF. destruct (in_order (map (fun a => element a j) t) w) as [l w'|w'|]; auto. unfold bind. rewrite map_map, map_id. unfold okr. destruct (op l w'); auto.
  - destruct t as [|a t]; [reflexivity|]. inversion H as [|? ? H2 H3]; subst. cbn [map]. rewrite H2. unfold okr. destruct (element a j w) as [v w'|w'|]; auto.
    destruct (0 <=? sel v); auto. rewrite map_map. clear H H2. revert H3. generalize (Z.to_nat (sel v)). induction t; intros.
    + destruct n; auto.
    + inversion H3; subst. destruct n; cbn [map nth_error].
      * rewrite H1. unfold okr. auto.
      * apply IHt; auto.
Qed.

Lemma each_seq : forall X (get : list Z -> M (mem T) X) (P : Z -> mem T -> Prop) n i m, P (Z.of_nat i) m ->
  (forall k w, Z.of_nat i <= k < Z.of_nat (i + n) -> P k w -> exists x w', get [k] w = Ok x w' /\ P (k+1) w') ->
  exists w', each get (map (fun k => [Z.of_nat k]) (seq i n)) m = Ok tt w' /\ P (Z.of_nat (i + n)) w'.
Proof.
  induction n as [|n IH]; intros i m H0 Hs; cbn [seq map each].
  - exists m. rewrite Nat.add_0_r. auto.
  - destruct (Hs (Z.of_nat i) m) as (x & w & E & P1); [lia|auto|]. rewrite E. replace (i + S n)%nat with (S i + n)%nat by lia. apply IH.
    + rewrite Nat2Z.inj_succ. exact P1.
    + intros k w0 Hk. apply Hs. lia.
Qed.
Lemma row_major_1 : forall l, row_major [l] (map (fun k => [k]) (zrange l)).
Proof.
  intros l. split; [apply row_sorted; intros; apply lex_hd; auto|]. intros j. rewrite in1e, in_map_iff. split.
  - intros (k & <- & H). apply in_zrange in H. exists k; auto.
  - intros (k & -> & H). exists k. split; auto. apply in_zrange; auto.
Qed.
Lemma ply_loop : forall X fixed z (e : expr X (mem T)) l m (P : Z -> mem T -> Prop), wf e -> shape_is e [l] -> zclean z -> 0 <= l -> P 0 m ->
  (forall k w, 0 <= k < l -> P k w -> exists x w', element e [k] w = Ok x w' /\ P (k+1) w') ->
  exists w', ply fixed no_stop z e m = Ok None w' /\ P l w'.
Proof.
  intros X fixed z e l m P We Se Hz Hl H0 Hs. rewrite (ply_spec _ _ _ _ _ _ _ _ _ We Se (row_major_1 l) Hz), visit_each.
  unfold zrange. rewrite map_map. destruct (each_seq _ (element e) P (Z.to_nat l) 0 m) as (w' & E & Pl); auto.
  - intros k w Hk. apply Hs. lia.
  - exists w'. rewrite E. split; auto. rewrite Nat.add_0_l, Z2Nat.id in Pl by auto. exact Pl.
Qed.
Lemma accum_step : forall c k (f : Z -> T), 0 <= k -> accum add c (k+1) f = add (accum add c k f) (f k).
Proof.
  intros c k f Hk. unfold accum, zrange. replace (Z.to_nat (k+1)) with (Z.to_nat k + 1)%nat by lia.
  rewrite seq_app, !map_app, fold_left_app. cbn. rewrite Z2Nat.id by auto. reflexivity.
Qed.

(* c += u * v, with as many elements in u * v as in c *)
Lemma prod_row : forall (c u v : ex) n m pl xu xv fixed z, wf c -> wf u -> wf v -> shape_is c [n] -> okay u [n] -> okay v [n] -> zclean z -> refers c [n] pl -> separate pl [n] ->
  (forall m', (forall q, outside pl [n] q -> m' q = m q) -> reads u [n] m' xu /\ reads v [n] m' xv) ->
  exists m', assign fixed z add c (times mul u v) m = Ok None m' /\
    (forall i, 0 <= i < n -> m' (pl [i]) = add (m (pl [i])) (mul (xu [i]) (xv [i]))) /\ (forall q, outside pl [n] q -> m' q = m q).
Proof.
  intros c u v n m pl xu xv fixed z Wc Wu Wv Sc Ou Ov Hz Hr Hsep Hx. destruct (shape1 _ _ Sc) as (N0 & I0).
  destruct (prod_assign c u v [n] m pl xu xv fixed z) as (m' & E & V); auto.
  - apply joint_okay; auto.
    + rewrite <- (app_nil_r [n]). apply okay_shape; auto.
    + intros [|k] Hk; cbn in Hk |- *; try lia. apply in_app_iff. auto.
  - exists m'. split; [exact E|]. split.
    + intros i Hi. rewrite (V _ [[i]]); [reflexivity|repeat constructor|]. intros j. split.
      * intros [<-|[]]. split; auto. apply in1; auto.
      * intros [Hj Hq]. left. apply Hsep; auto. apply in1; auto.
    + intros q Hq. rewrite (V _ []); [reflexivity|constructor|]. intros j. split; [intros []|]. intros [Hj <-]. exact (Hq j Hj eq_refl).
Qed.

Lemma map2_shape : forall X W (op : list X -> M W X) (u v : expr X W) n, axes u = 1%nat -> axes v = 1%nat -> 0 <= n -> In n (leaf_lens u 0 ++ leaf_lens v 0) ->
  Forall (fun m => m = n \/ m = UNB) (leaf_lens u 0) -> Forall (fun m => m = n \/ m = UNB) (leaf_lens v 0) -> shape_is (Map op [u; v]) [n].
Proof.
  intros X W op u v n A1 A2 Hn HI F1 F2. split; [cbn; rewrite A1, A2; reflexivity|]. intros k Hk. cbn [axes fold_right] in Hk. rewrite A1, A2 in Hk. cbn in Hk.
  replace k with 0%nat by lia. cbn [nth leaf_lens flat_map]. rewrite app_nil_r. split; auto. split; auto. apply Forall_app; auto.
Qed.
Lemma vals_shape1 : forall (b : ex) n, shape_is b [n] -> axes (vals b) = 1%nat /\ 0 <= n /\ In n (leaf_lens (vals b) 0) /\ Forall (fun m => m = n \/ m = UNB) (leaf_lens (vals b) 0).
Proof.
  intros b n [L P]. rewrite vals_axes, vals_lens. cbn in L. destruct (P 0%nat) as (N0 & I0 & F0); [lia|]. auto.
Qed.
Lemma scalar_reads : forall (v : val T) s m x, value_of v m = Some x -> reads (Scalar v) s m (fun _ => x).
Proof. intros v s m x H j Hj. exists v. auto. Qed.
Lemma scalar_okay : forall (v : val T) s, okay (Scalar v) s.
Proof. intros v s. split; [cbn; lia|]. intros k. cbn. constructor. Qed.

Theorem C34_gemv_e : forall (a : view) (b c : ex) n l m xb pl fixed z zi, wf b -> wf c -> vshape a = [n; l] -> shape_is b [l] -> shape_is c [n] -> zclean z -> zclean zi ->
  refers c [n] pl -> separate pl [n] -> apart a pl [n] -> steady b [l] m xb pl [n] ->
  exists m', gemv_e add mul fixed z zi a b c m = Ok None m' /\
    (forall i, 0 <= i < n -> m' (pl [i]) = accum add (m (pl [i])) l (fun k => mul (m (vplace a [i; k])) (xb [k]))) /\
    (forall q, outside pl [n] q -> m' q = m q).
Proof.
  intros a b c n l m xb pl fixed z zi Wb Wc Sa Sb Sc Hz Hzi Hr Hsep Hap Hu.
  destruct (view2 _ _ _ Sa) as (a0 & a1 & pa & -> & Ea0 & Ea1), (shape1 _ _ Sc) as (N0 & I0), (vals_shape1 _ _ Sb) as (A1 & N1 & I1 & F1).
  unfold gemv_e. replace (transpose10 (Vw [a0; a1] pa)) with (Good (Vw [Dim (len a1) (step a1); Dim (len a0) (step a0)] pa)) by reflexivity. cbn [onres].
  set (a := Vw [a0; a1] pa) in *.
  destruct (ply_loop item fixed z (Map (cell_op add mul fixed zi c false) [iter1 (Vw [Dim (len a1) (step a1); Dim (len a0) (step a0)] pa); vals b]) l m
    (fun k w => (forall i, 0 <= i < n -> w (pl [i]) = accum add (m (pl [i])) k (fun k => mul (m (vplace a [i; k])) (xb [k]))) /\ (forall q, outside pl [n] q -> w q = m q))) as (w' & E & V); auto.
  - apply wf_map; [discriminate|]. constructor; [|constructor; [apply vals_wf; auto|constructor]]. cbn. split; [lia|]. constructor; [left; cbn; lia|constructor].
  - apply map2_shape; auto; [apply in_app_iff; auto|]. cbn. constructor; auto. 
  - intros k w Hk (V & O). destruct (Hu w [k]) as (v & Ev & Hv); [exact O|apply in1; auto|].
    set (r := Vw [Dim (len a0) (step a0)] (pa + k * step a1)).
    destruct (prod_row c (viter r) (Scalar v) n w pl (fun j => m (vplace a [nth 0 j 0; k])) (fun _ => xb [k]) fixed zi) as (w' & E & V' & O'); auto.
    + apply viter_wf. okl.
    + exact I.
    + apply okay_view; [cbn; lia|]. okl2.
    + apply scalar_okay.
    + intros m' Hm. assert (Hm0 : forall q, outside pl [n] q -> m' q = m q) by (intros q Hq; rewrite Hm, O; auto). split.
      * apply (view_part r a _ (fun j => [nth 0 j 0; k]) pl [n]); auto. intros j Hj. apply in1e in Hj as (i & -> & A). split; [rewrite Sa; apply in2; auto|unfold vplace; cbn; lia].
      * apply scalar_reads. apply Hv. auto.
    + exists (inr VUnit), w'. split.
      * cbn [element map]. rewrite (in_order_2 _ _ _ _ _ (inl r) w (inr v) w).
        -- cbn [cell_op]. unfold bind. rewrite E. reflexivity.
        -- cbn. unfold ret. f_equal. f_equal. unfold r. f_equal. lia.
        -- rewrite vals_element, Ev. reflexivity.
      * split; [|intros q Hq; rewrite O', O; auto]. intros i Hi. rewrite V', V, accum_step by (auto; lia). reflexivity.
  - exists w'. destruct V. auto.
Qed.

Theorem C34_gevm_e : forall (a : ex) (b : view) (c : ex) l p m xa pl fixed z zi, wf a -> wf c -> shape_is a [l] -> vshape b = [l; p] -> shape_is c [p] -> zclean z -> zclean zi ->
  refers c [p] pl -> separate pl [p] -> apart b pl [p] -> steady a [l] m xa pl [p] ->
  exists m', gevm_e add mul fixed z zi a b c m = Ok None m' /\
    (forall j, 0 <= j < p -> m' (pl [j]) = accum add (m (pl [j])) l (fun k => mul (xa [k]) (m (vplace b [k; j])))) /\
    (forall q, outside pl [p] q -> m' q = m q).
Proof.
  intros a b c l p m xa pl fixed z zi Wa Wc Sa Sb Sc Hz Hzi Hr Hsep Hap Hu.
  destruct (view2 _ _ _ Sb) as (b0 & b1 & pb & -> & Eb0 & Eb1), (shape1 _ _ Sc) as (N0 & I0), (vals_shape1 _ _ Sa) as (A1 & N1 & I1 & F1).
  unfold gevm_e. set (b := Vw [b0; b1] pb) in *.
  destruct (ply_loop item fixed z (Map (cell_op add mul fixed zi c true) [vals a; iter1 b]) l m
    (fun k w => (forall i, 0 <= i < p -> w (pl [i]) = accum add (m (pl [i])) k (fun k => mul (xa [k]) (m (vplace b [k; i])))) /\ (forall q, outside pl [p] q -> w q = m q))) as (w' & E & V); auto.
  - apply wf_map; [discriminate|]. constructor; [apply vals_wf; auto|constructor; [|constructor]]. cbn. split; [lia|]. constructor; [left; cbn; lia|constructor].
  - apply map2_shape; auto; [apply in_app_iff; auto|]. cbn. constructor; auto. 
  - intros k w Hk (V & O). destruct (Hu w [k]) as (v & Ev & Hv); [exact O|apply in1; auto|].
    set (r := Vw [b1] (pb + k * step b0)).
    destruct (prod_row c (Scalar v) (viter r) p w pl (fun _ => xa [k]) (fun j => m (vplace b [k; nth 0 j 0])) fixed zi) as (w' & E & V' & O'); auto.
    + exact I.
    + apply viter_wf. okl.
    + apply scalar_okay.
    + apply okay_view; [cbn; lia|]. okl2.
    + intros m' Hm. assert (Hm0 : forall q, outside pl [p] q -> m' q = m q) by (intros q Hq; rewrite Hm, O; auto). split.
      * apply scalar_reads. apply Hv. auto.
      * apply (view_part r b _ (fun j => [k; nth 0 j 0]) pl [p]); auto. intros j Hj. apply in1e in Hj as (i & -> & A). split; [rewrite Sb; apply in2; auto|unfold vplace; cbn; lia].
    + exists (inr VUnit), w'. split.
      * cbn [element map]. rewrite (in_order_2 _ _ _ _ _ (inr v) w (inl r) w).
        -- cbn [cell_op]. unfold bind. rewrite E. reflexivity.
        -- rewrite vals_element, Ev. reflexivity.
        -- cbn. unfold ret. f_equal. f_equal. unfold r. f_equal. lia.
      * split; [|intros q Hq; rewrite O', O; auto]. intros i Hi. rewrite V', V, accum_step by (auto; lia). reflexivity.
  - exists w'. destruct V. auto.
Qed.

(* ---- refused ---- *)
Lemma ply_refused : forall X R (post : X -> option R) fixed z (e : expr X (mem T)) m, wf e -> ~ agreeing [e] -> ply fixed post z e m = Fail m.
Proof.
  intros X R post fixed z e m We H. assert (validate e = false) as V by (destruct (validate e) eqn:E; auto; apply validate_iff in E; auto; tauto).
  unfold ply, ply_fixed, ply_ravel. rewrite V. destruct fixed; reflexivity.
Qed.
Lemma lens_refused : forall X (e : expr X (mem T)) k x y, wf e -> In x (leaf_lens e k) -> In y (leaf_lens e k) -> 0 <= x -> 0 <= y -> x <> y -> ~ agreeing [e].
Proof.
  intros X e k x y We Hx Hy Nx Ny Hxy A. destruct (Nat.lt_ge_cases k (axes e)) as [Hk|Hk].
  - destruct (A k) as (n & Hn & HI & F); [cbn; lia|]. cbn [flat_map] in F. rewrite app_nil_r, Forall_forall in F.
    pose proof (F x Hx). pose proof (F y Hy). unfold UNB in *. lia.
  - rewrite leaf_lens_out in Hx; auto. rewrite <- axes_rank; auto.
Qed.
Lemma assign_refused : forall (d u v : ex) k x y m fixed z, wf d -> wf u -> wf v -> In x (leaf_lens d k ++ leaf_lens u k ++ leaf_lens v k) -> In y (leaf_lens d k ++ leaf_lens u k ++ leaf_lens v k) ->
  0 <= x -> 0 <= y -> x <> y -> assign fixed z add d (times mul u v) m = Fail m.
Proof.
  intros d u v k x y m fixed z Wd Wu Wv Hx Hy Nx Ny Hxy. assert (W : wf (Map (assign_op add) [d; times mul u v])) by (apply wf_map; [discriminate|]; auto using times_wf).
  apply ply_refused; auto. apply (lens_refused _ _ k x y); auto; cbn [leaf_lens flat_map times]; rewrite !app_nil_r; auto.
Qed.
Lemma neq2 : forall a b c d e f : Z, ~ (a = b /\ c = d /\ e = f) -> a <> b \/ c <> d \/ e <> f.
Proof. intros. lia. Qed.
Ltac inl := cbn [viter leaf_lens vdv vrank length Nat.ltb Nat.leb nth len]; rewrite ?in_app_iff; cbn [In]; auto.

Theorem C33_refused_c : forall (a : ex) (b c : view) n l l' p n' p' m fixed z, wf a -> shape_is a [n; l] -> vshape b = [l'; p] -> vshape c = [n'; p'] -> nonneg [l'; p; n'; p'] ->
  ~ (n = n' /\ l = l' /\ p = p') -> gemm_c add mul fixed z a b c m = Fail m.
Proof.
  intros a b c n l l' p n' p' m fixed z Wa Sa Sb Sc Hn H.
  assert (0 <= l' /\ 0 <= p /\ 0 <= n' /\ 0 <= p') as (M1 & M2 & M3 & M4) by (repeat match goal with H : nonneg _ |- _ => inversion H; clear H; subst | H : Forall _ (_ :: _) |- _ => inversion H; clear H; subst end; auto).
  destruct (view2 _ _ _ Sb) as (b0 & b1 & pb & -> & Eb0 & Eb1), (view2 _ _ _ Sc) as (c0 & c1 & pc & -> & Ec0 & Ec1), (shape2 _ _ _ Sa) as (N0 & N1 & I0 & I1).
  unfold gemm_c. replace (from (Vw [c0; c1] pc) [all; SInsert 1]) with (Good (Vw [c0; Dim UNB 0; c1] pc)) by reflexivity.
  replace (from (Vw [b0; b1] pb) [SInsert 1]) with (Good (Vw [Dim UNB 0; b0; b1] pb)) by reflexivity. cbn [onres].
  assert (Wb : wf (viter (T:=T) (Vw [Dim UNB 0; b0; b1] pb))) by (apply viter_wf; okl).
  assert (Wc : wf (viter (T:=T) (Vw [c0; Dim UNB 0; c1] pc))) by (apply viter_wf; okl).
  destruct (neq2 _ _ _ _ _ _ H) as [D|[D|D]].
  - apply (assign_refused _ _ _ 0 n n'); auto; inl.
  - apply (assign_refused _ _ _ 1 l l'); auto; inl.
  - apply (assign_refused _ _ _ 2 p p'); auto; inl.
Qed.
Theorem C33_refused_e : forall (a b : view) (c : ex) n l l' p n' p' m fixed z, wf c -> shape_is c [n'; p'] -> vshape a = [n; l] -> vshape b = [l'; p] -> nonneg [n; l; l'; p] ->
  ~ (n = n' /\ l = l' /\ p = p') -> gemm_e add mul fixed z a b c m = Fail m.
Proof.
  intros a b c n l l' p n' p' m fixed z Wc Sc Sa Sb Hn H.
  assert (0 <= n /\ 0 <= l /\ 0 <= l' /\ 0 <= p) as (M1 & M2 & M3 & M4) by (repeat match goal with H : nonneg _ |- _ => inversion H; clear H; subst | H : Forall _ (_ :: _) |- _ => inversion H; clear H; subst end; auto).
  destruct (view2 _ _ _ Sb) as (b0 & b1 & pb & -> & Eb0 & Eb1), (view2 _ _ _ Sa) as (a0 & a1 & pa & -> & Ea0 & Ea1), (shape2 _ _ _ Sc) as (N0 & N1 & I0 & I1).
  unfold gemm_e. replace (from (Vw [a0; a1] pa) [all; SInsert 1]) with (Good (Vw [a0; Dim UNB 0; a1] pa)) by reflexivity.
  replace (transpose (Vw [b0; b1] pb) [2; 1]) with (Good (Vw [Dim UNB 0; Dim (len b1) (step b1); Dim (len b0) (step b0)] pb)) by reflexivity. cbn [onres].
  assert (Wb : wf (viter (T:=T) (Vw [Dim UNB 0; Dim (len b1) (step b1); Dim (len b0) (step b0)] pb))) by (apply viter_wf; okl).
  assert (Wa : wf (viter (T:=T) (Vw [a0; Dim UNB 0; a1] pa))) by (apply viter_wf; okl).
  destruct (neq2 _ _ _ _ _ _ H) as [D|[D|D]].
  - apply (assign_refused _ _ _ 0 n n'); auto; inl.
  - apply (assign_refused _ _ _ 2 l l'); auto; inl.
  - apply (assign_refused _ _ _ 1 p p'); auto; inl.
Qed.

Theorem C34_refused_gemv_b : forall (a : ex) (b : view) (c : ex) n l l' n' m fixed z, wf a -> wf c -> shape_is a [n; l] -> vshape b = [l'] -> shape_is c [n'] -> 0 <= l' ->
  ~ (n = n' /\ l = l') -> gemv_b add mul fixed z a b c m = Fail m.
Proof.
  intros a b c n l l' n' m fixed z Wa Wc Sa Sb Sc M1 H.
  destruct (view1 _ _ Sb) as (b0 & pb & -> & Eb0), (shape2 _ _ _ Sa) as (N0 & N1 & I0 & I1), (shape1 _ _ Sc) as (N2 & I2).
  unfold gemv_b. replace (from (Vw [b0] pb) [SInsert 1]) with (Good (Vw [Dim UNB 0; b0] pb)) by reflexivity. cbn [onres].
  assert (Wb : wf (viter (T:=T) (Vw [Dim UNB 0; b0] pb))) by (apply viter_wf; okl).
  assert (n <> n' \/ l <> l') as [D|D] by lia.
  - apply (assign_refused _ _ _ 0 n n'); auto; inl.
  - apply (assign_refused _ _ _ 1 l l'); auto; inl.
Qed.
Theorem C34_refused_gemv_c : forall (a : view) (b : ex) (c : view) n l l' n' m fixed z, wf b -> vshape a = [n; l] -> shape_is b [l'] -> vshape c = [n'] -> nonneg [n; l; n'] ->
  ~ (n = n' /\ l = l') -> gemv_c add mul fixed z a b c m = Fail m.
Proof.
  intros a b c n l l' n' m fixed z Wb Sa Sb Sc Hn H.
  assert (0 <= n /\ 0 <= l /\ 0 <= n') as (M1 & M2 & M3) by (repeat match goal with H : nonneg _ |- _ => inversion H; clear H; subst | H : Forall _ (_ :: _) |- _ => inversion H; clear H; subst end; auto).
  destruct (view2 _ _ _ Sa) as (a0 & a1 & pa & -> & Ea0 & Ea1), (view1 _ _ Sc) as (c0 & pc & -> & Ec0), (shape1 _ _ Sb) as (N0 & I0).
  unfold gemv_c. replace (from (Vw [c0] pc) [SInsert 1]) with (Good (Vw [Dim UNB 0; c0] pc)) by reflexivity.
  replace (transpose10 (Vw [a0; a1] pa)) with (Good (Vw [Dim (len a1) (step a1); Dim (len a0) (step a0)] pa)) by reflexivity. cbn [onres].
  assert (Wa : wf (viter (T:=T) (Vw [Dim (len a1) (step a1); Dim (len a0) (step a0)] pa))) by (apply viter_wf; okl).
  assert (Wc : wf (viter (T:=T) (Vw [Dim UNB 0; c0] pc))) by (apply viter_wf; okl).
  assert (n <> n' \/ l <> l') as [D|D] by lia.
  - apply (assign_refused _ _ _ 1 n n'); auto; inl.
  - apply (assign_refused _ _ _ 0 l l'); auto; inl.
Qed.
Theorem C34_refused_gevm_c : forall (a b : ex) (c : view) l l' p p' m fixed z, wf a -> wf b -> shape_is a [l] -> shape_is b [l'; p] -> vshape c = [p'] -> 0 <= p' ->
  ~ (l = l' /\ p = p') -> gevm_c add mul fixed z a b c m = Fail m.
Proof.
  intros a b c l l' p p' m fixed z Wa Wb Sa Sb Sc Hn H.
  destruct (view1 _ _ Sc) as (c0 & pc & -> & Ec0), (shape1 _ _ Sa) as (N0 & I0), (shape2 _ _ _ Sb) as (N1 & N2 & J0 & J1).
  unfold gevm_c. replace (from (Vw [c0] pc) [SInsert 1]) with (Good (Vw [Dim UNB 0; c0] pc)) by reflexivity. cbn [onres].
  assert (Wc : wf (viter (T:=T) (Vw [Dim UNB 0; c0] pc))) by (apply viter_wf; okl).
  assert (l <> l' \/ p <> p') as [D|D] by lia.
  - apply (assign_refused _ _ _ 0 l l'); auto; inl.
  - apply (assign_refused _ _ _ 1 p p'); auto; inl.
Qed.
Theorem C34_refused_gevm_a : forall (a b : view) (c : ex) l l' p p' m fixed z, wf c -> vshape a = [l] -> vshape b = [l'; p] -> shape_is c [p'] -> nonneg [l; l'; p] ->
  ~ (l = l' /\ p = p') -> gevm_a add mul fixed z a b c m = Fail m.
Proof.
  intros a b c l l' p p' m fixed z Wc Sa Sb Sc Hn H.
  assert (0 <= l /\ 0 <= l' /\ 0 <= p) as (M1 & M2 & M3) by (repeat match goal with H : nonneg _ |- _ => inversion H; clear H; subst | H : Forall _ (_ :: _) |- _ => inversion H; clear H; subst end; auto).
  destruct (view1 _ _ Sa) as (a0 & pa & -> & Ea0), (view2 _ _ _ Sb) as (b0 & b1 & pb & -> & Eb0 & Eb1), (shape1 _ _ Sc) as (N0 & I0).
  unfold gevm_a. replace (from (Vw [a0] pa) [SInsert 1]) with (Good (Vw [Dim UNB 0; a0] pa)) by reflexivity.
  replace (transpose10 (Vw [b0; b1] pb)) with (Good (Vw [Dim (len b1) (step b1); Dim (len b0) (step b0)] pb)) by reflexivity. cbn [onres].
  assert (Wa : wf (viter (T:=T) (Vw [Dim UNB 0; a0] pa))) by (apply viter_wf; okl).
  assert (Wb : wf (viter (T:=T) (Vw [Dim (len b1) (step b1); Dim (len b0) (step b0)] pb))) by (apply viter_wf; okl).
  assert (l <> l' \/ p <> p') as [D|D] by lia.
  - apply (assign_refused _ _ _ 1 l l'); auto; inl.
  - apply (assign_refused _ _ _ 0 p p'); auto; inl.
Qed.
(* In the loops the sum index is checked first; the other one is checked in every step, so it isn't checked if there are no steps. *)
Theorem C34_refused_gemv_e : forall (a : view) (b c : ex) n l l' n' m fixed z zi, wf b -> wf c -> vshape a = [n; l] -> shape_is b [l'] -> shape_is c [n'] -> 0 <= n -> 0 <= l -> zclean z ->
  (forall j m', inshape j [l'] -> exists v, element b j m' = Ok v m') ->
  (l <> l' -> gemv_e add mul fixed z zi a b c m = Fail m) /\ (l = l' -> 0 < l -> n <> n' -> gemv_e add mul fixed z zi a b c m = Fail m).
Proof.
  intros a b c n l l' n' m fixed z zi Wb Wc Sa Sb Sc M1 M2 Hz Hb.
  destruct (view2 _ _ _ Sa) as (a0 & a1 & pa & -> & Ea0 & Ea1), (shape1 _ _ Sc) as (N0 & I0), (vals_shape1 _ _ Sb) as (A1 & N1 & I1 & F1).
  unfold gemv_e. replace (transpose10 (Vw [a0; a1] pa)) with (Good (Vw [Dim (len a1) (step a1); Dim (len a0) (step a0)] pa)) by reflexivity. cbn [onres].
  set (a' := Vw [Dim (len a1) (step a1); Dim (len a0) (step a0)] pa).
  assert (W : wf (Map (cell_op add mul fixed zi c false) [iter1 a'; vals b])).
  { apply wf_map; [discriminate|]. constructor; [|constructor; [apply vals_wf; auto|constructor]]. cbn. split; [lia|]. constructor; [left; cbn; lia|constructor]. }
  split.
  - intros D. apply ply_refused; auto. apply (lens_refused _ _ 0 l l'); auto; cbn [leaf_lens flat_map]; rewrite app_nil_r, in_app_iff; auto. left. cbn. auto.
  - intros <- Hl D. assert (S : shape_is (Map (cell_op add mul fixed zi c false) [iter1 a'; vals b]) [l]).
    { apply map2_shape; auto; [apply in_app_iff; auto|]. cbn. constructor; auto. }
    rewrite (ply_spec _ _ _ _ _ _ _ _ _ W S (row_major_1 l) Hz). unfold zrange. destruct (Z.to_nat l) as [|k] eqn:El; [lia|]. cbn [seq map visit].
    destruct (Hb [Z.of_nat 0] m) as (v & Ev); [apply in1; lia|].
    cbn [element map]. rewrite (in_order_2 _ _ _ _ _ (inl (Vw [Dim (len a0) (step a0)] (pa + 0))) m (inr v) m); [|reflexivity|rewrite vals_element, Ev; reflexivity].
    cbn [cell_op]. unfold bind. rewrite (assign_refused _ _ _ 0 n n'); auto; [|exact I| |]; [|inl|inl]. apply viter_wf; okl.
Qed.
Theorem C34_refused_gevm_e : forall (a : ex) (b : view) (c : ex) l l' p p' m fixed z zi, wf a -> wf c -> shape_is a [l] -> vshape b = [l'; p] -> shape_is c [p'] -> 0 <= l' -> 0 <= p -> zclean z ->
  (forall j m', inshape j [l] -> exists v, element a j m' = Ok v m') ->
  (l <> l' -> gevm_e add mul fixed z zi a b c m = Fail m) /\ (l = l' -> 0 < l -> p <> p' -> gevm_e add mul fixed z zi a b c m = Fail m).
Proof.
  intros a b c l l' p p' m fixed z zi Wa Wc Sa Sb Sc M1 M2 Hz Hb.
  destruct (view2 _ _ _ Sb) as (b0 & b1 & pb & -> & Eb0 & Eb1), (shape1 _ _ Sc) as (N0 & I0), (vals_shape1 _ _ Sa) as (A1 & N1 & I1 & F1).
  unfold gevm_e. set (b := Vw [b0; b1] pb).
  assert (W : wf (Map (cell_op add mul fixed zi c true) [vals a; iter1 b])).
  { apply wf_map; [discriminate|]. constructor; [apply vals_wf; auto|constructor; [|constructor]]. cbn. split; [lia|]. constructor; [left; cbn; lia|constructor]. }
  split.
  - intros D. apply ply_refused; auto. apply (lens_refused _ _ 0 l l'); auto; cbn [leaf_lens flat_map]; rewrite app_nil_r, in_app_iff; auto. right. cbn. auto.
  - intros <- Hl D. assert (S : shape_is (Map (cell_op add mul fixed zi c true) [vals a; iter1 b]) [l]).
    { apply map2_shape; auto; [apply in_app_iff; auto|]. cbn. constructor; auto. }
    rewrite (ply_spec _ _ _ _ _ _ _ _ _ W S (row_major_1 l) Hz). unfold zrange. destruct (Z.to_nat l) as [|k] eqn:El; [lia|]. cbn [seq map visit].
    destruct (Hb [Z.of_nat 0] m) as (v & Ev); [apply in1; lia|].
    cbn [element map]. rewrite (in_order_2 _ _ _ _ _ (inr v) m (inl (Vw [b1] (pb + 0))) m); [|rewrite vals_element, Ev; reflexivity|reflexivity].
    cbn [cell_op]. unfold bind. rewrite (assign_refused _ _ _ 0 p p'); auto; [exact I| | |]; [|inl|inl]. apply viter_wf; okl.
Qed.

(* ---- the result in a new array ---- *)
Lemma new_facts : forall s q, nonneg s -> exists dv, filldimv s = Some (dv, zprod s) /\ vshape (Vw dv q) = s /\ separate (vplace (Vw dv q)) s /\
  (forall x, outside (vplace (Vw dv q)) s x <-> ~ (q <= x < q + zprod s)) /\
  (forall x, ((q <=? x) && (x <? q + zprod s)) = true <-> q <= x < q + zprod s) /\
  forall j, inshape j s -> q <= vplace (Vw dv q) j < q + zprod s.
Proof.
  intros s q H. destruct (P_View.C12_dense s H) as (dv & E & L & R & I & O & _). exists dv. split; [auto|]. split; [auto|]. split; [|split; [|split]].
  - intros i j Hi Hj Hij. apply I; auto. unfold vplace in Hij; cbn in Hij. lia.
  - intros x. split.
    + intros Hx Hr. destruct (O (x - q)) as (j & Hj & Ej); [lia|]. apply (Hx j Hj). unfold vplace; cbn. lia.
    + intros Hx j Hj ->. apply Hx. specialize (R j Hj). unfold vplace; cbn. lia.
  - intros x. rewrite andb_true_iff, Z.leb_le, Z.ltb_lt. tauto.
  - intros j Hj. specialize (R j Hj). unfold vplace; cbn. lia.
Qed.
Lemma view_shape : forall v s, vshape v = s -> nonneg s -> wf (viter (T:=T) v) /\ shape_is (viter (T:=T) v) s.
Proof.
  intros v s <- Hn. split.
  - apply viter_wf. unfold nonneg, vshape in Hn. rewrite Forall_map in Hn. eapply Forall_impl; [|exact Hn]. intros d Hd. left. exact Hd.
  - split; [unfold vshape; rewrite map_length; reflexivity|]. intros k Hk. cbn [viter axes vrank] in Hk. unfold vrank in Hk. cbn [viter leaf_lens]. unfold vrank.
    destruct (Nat.ltb_spec k (length (vdv v))); [|lia]. unfold vshape. replace (nth k (map len (vdv v)) 0) with (len (nth k (vdv v) dim0)).
    + split; [|split; [left; reflexivity|repeat constructor]]. unfold nonneg, vshape in Hn. rewrite Forall_map, Forall_forall in Hn. apply Hn. apply nth_In; auto.
    + symmetry. rewrite (nth_indep _ 0 (len dim0)) by (rewrite map_length; auto). apply map_nth.
Qed.
Lemma view_undisturbed : forall v s m pl sc, vshape v = s -> apart v pl sc -> undisturbed (viter (T:=T) v) s m (fun j => m (vplace v j)) pl sc.
Proof.
  intros v s m pl sc Sv Hap m' Hm j Hj. exists (VRef (vplace v j)). split.
  - pose proof (viter_refers v s j m' Hj) as E. cbv beta in E. rewrite firstn_all2 in E; auto. rewrite (inshape_length _ _ Hj), <- Sv. unfold vshape. rewrite map_length. unfold vrank. lia.
  - cbn. f_equal. apply Hm. apply Hap. rewrite Sv. exact Hj.
Qed.

Theorem C33_gemm2 : forall (a b : view) n l p q zero m fixed z, vshape a = [n; l] -> vshape b = [l; p] -> 0 <= n -> 0 <= l -> 0 <= p -> zclean z ->
  free_of a q (n * p) -> free_of b q (n * p) ->
  exists c m', gemm2 add mul fixed z q zero a b m = Ok (Some c) m' /\ vshape c = [n; p] /\ separate (vplace c) [n; p] /\
    (forall i j, 0 <= i < n -> 0 <= j < p -> q <= vplace c [i; j] < q + n * p /\
      m' (vplace c [i; j]) = accum add zero l (fun k => mul (m (vplace a [i; k])) (m (vplace b [k; j])))) /\
    (forall x, ~ (q <= x < q + n * p) -> m' x = m x).
Proof.
  intros a b n l p q zero m fixed z Sa Sb Hn Hl Hp Hz Fa Fb.
  assert (Hs : nonneg [n; p]) by (repeat constructor; auto). assert (Hs' : nonneg [n; l]) by (repeat constructor; auto).
  destruct (new_facts [n; p] q Hs) as (dv & E & Sc & Sep & Out & B & R). cbn [zprod fold_right] in *. rewrite Z.mul_1_r in *.
  unfold gemm2, new_array.
  replace [len (nth 0 (vdv a) dim0); len (nth 1 (vdv b) dim0)] with [n; p] by (destruct (view2 _ _ _ Sa) as (? & ? & ? & -> & <- & ?), (view2 _ _ _ Sb) as (? & ? & ? & -> & ? & <-); reflexivity).
  rewrite E. set (m0 := fun p0 : Z => if (q <=? p0) && (p0 <? q + n * p) then zero else m p0). set (c := Vw dv q) in *.
  assert (M0 : forall x, ~ (q <= x < q + n * p) -> m0 x = m x) by (intros x Hx; unfold m0; destruct (_ && _) eqn:D; auto; apply B in D; contradiction).
  destruct (view_shape a _ Sa Hs') as [Wa Sa']. 
  assert (Aa : apart a (vplace c) [n; p]) by (intros i Hi; apply Out; auto).
  assert (Ab : apart b (vplace c) [n; p]) by (intros i Hi; apply Out; auto).
  destruct (C33_gemm_c (viter a) b c n l p m0 (fun j => m0 (vplace a j)) fixed z) as (m' & G & V & O); auto.
  { apply view_undisturbed; auto. }
  rewrite G. exists c, m'. split; [reflexivity|]. split; [auto|]. split; [auto|]. split.
  - intros i j Hi Hj. assert (Hij : inshape [i; j] [n; p]) by (apply in2; auto). split; [apply R; auto|]. rewrite V by auto.
    replace (m0 (vplace c [i; j])) with zero by (unfold m0; rewrite (proj2 (B _)); auto).
    unfold accum. f_equal. apply map_ext_in. intros k Hk. apply in_zrange in Hk. rewrite !M0; auto; [apply Fb; rewrite Sb|apply Fa; rewrite Sa]; apply in2; auto.
  - intros x Hx. rewrite O by (apply Out; auto). auto.
Qed.
Theorem C34_gemv2 : forall (a b : view) n l q zero m fixed z, vshape a = [n; l] -> vshape b = [l] -> 0 <= n -> 0 <= l -> zclean z ->
  free_of a q n -> free_of b q n ->
  exists c m', gemv2 add mul fixed z q zero a b m = Ok (Some c) m' /\ vshape c = [n] /\ separate (vplace c) [n] /\
    (forall i, 0 <= i < n -> q <= vplace c [i] < q + n /\ m' (vplace c [i]) = accum add zero l (fun k => mul (m (vplace a [i; k])) (m (vplace b [k])))) /\
    (forall x, ~ (q <= x < q + n) -> m' x = m x).
Proof.
  intros a b n l q zero m fixed z Sa Sb Hn Hl Hz Fa Fb.
  assert (Hs : nonneg [n]) by (repeat constructor; auto). assert (Hs' : nonneg [n; l]) by (repeat constructor; auto).
  destruct (new_facts [n] q Hs) as (dv & E & Sc & Sep & Out & B & R). cbn [zprod fold_right] in *. rewrite Z.mul_1_r in *.
  unfold gemv2, new_array.
  replace [len (nth 0 (vdv a) dim0)] with [n] by (destruct (view2 _ _ _ Sa) as (? & ? & ? & -> & <- & ?); reflexivity).
  rewrite E. set (m0 := fun p0 : Z => if (q <=? p0) && (p0 <? q + n) then zero else m p0). set (c := Vw dv q) in *.
  assert (M0 : forall x, ~ (q <= x < q + n) -> m0 x = m x) by (intros x Hx; unfold m0; destruct (_ && _) eqn:D; auto; apply B in D; contradiction).
  destruct (view_shape a _ Sa Hs') as [Wa Sa'], (view_shape c _ Sc Hs) as [Wc Sc'].
  assert (Aa : apart a (vplace c) [n]) by (intros i Hi; apply Out; auto).
  assert (Ab : apart b (vplace c) [n]) by (intros i Hi; apply Out; auto).
  assert (Hr : refers (viter (T:=T) c) [n] (vplace c)).
  { intros j w Hj. rewrite (viter_refers c [n] j w Hj), firstn_all2; auto. rewrite (inshape_length _ _ Hj), <- Sc. unfold vshape. rewrite map_length. unfold vrank. lia. }
  destruct (C34_gemv_b (viter a) b (viter c) n l m0 (fun j => m0 (vplace a j)) (vplace c) fixed z) as (m' & G & V & O); auto.
  { apply view_undisturbed; auto. }
  rewrite G. exists c, m'. split; [reflexivity|]. split; [auto|]. split; [auto|]. split.
  - intros i Hi. assert (Hij : inshape [i] [n]) by (apply in1; auto). split; [apply R; auto|]. rewrite V by auto.
    replace (m0 (vplace c [i])) with zero by (unfold m0; rewrite (proj2 (B _)); auto).
    unfold accum. f_equal. apply map_ext_in. intros k Hk. apply in_zrange in Hk. rewrite !M0; auto; [apply Fb; rewrite Sb; apply in1; auto|apply Fa; rewrite Sa; apply in2; auto].
  - intros x Hx. rewrite O by (apply Out; auto). auto.
Qed.
Theorem C34_gevm2 : forall (a b : view) l p q zero m fixed z, vshape a = [l] -> vshape b = [l; p] -> 0 <= l -> 0 <= p -> zclean z ->
  free_of a q p -> free_of b q p ->
  exists c m', gevm2 add mul fixed z q zero a b m = Ok (Some c) m' /\ vshape c = [p] /\ separate (vplace c) [p] /\
    (forall j, 0 <= j < p -> q <= vplace c [j] < q + p /\ m' (vplace c [j]) = accum add zero l (fun k => mul (m (vplace a [k])) (m (vplace b [k; j])))) /\
    (forall x, ~ (q <= x < q + p) -> m' x = m x).
Proof.
  intros a b l p q zero m fixed z Sa Sb Hl Hp Hz Fa Fb.
  assert (Hs : nonneg [p]) by (repeat constructor; auto). assert (Hs' : nonneg [l; p]) by (repeat constructor; auto). assert (Hs2 : nonneg [l]) by (repeat constructor; auto).
  destruct (new_facts [p] q Hs) as (dv & E & Sc & Sep & Out & B & R). cbn [zprod fold_right] in *. rewrite Z.mul_1_r in *.
  unfold gevm2, new_array.
  replace [len (nth 1 (vdv b) dim0)] with [p] by (destruct (view2 _ _ _ Sb) as (? & ? & ? & -> & ? & <-); reflexivity).
  rewrite E. set (m0 := fun p0 : Z => if (q <=? p0) && (p0 <? q + p) then zero else m p0). set (c := Vw dv q) in *.
  assert (M0 : forall x, ~ (q <= x < q + p) -> m0 x = m x) by (intros x Hx; unfold m0; destruct (_ && _) eqn:D; auto; apply B in D; contradiction).
  destruct (view_shape b _ Sb Hs') as [Wb Sb'], (view_shape a _ Sa Hs2) as [Wa Sa'].
  assert (Aa : apart a (vplace c) [p]) by (intros i Hi; apply Out; auto).
  assert (Ab : apart b (vplace c) [p]) by (intros i Hi; apply Out; auto).
  destruct (C34_gevm_c (viter a) (viter b) c l p m0 (fun j => m0 (vplace a j)) (fun j => m0 (vplace b j)) fixed z) as (m' & G & V & O); auto using view_undisturbed.
  rewrite G. exists c, m'. split; [reflexivity|]. split; [auto|]. split; [auto|]. split.
  - intros i Hi. assert (Hij : inshape [i] [p]) by (apply in1; auto). split; [apply R; auto|]. rewrite V by auto.
    replace (m0 (vplace c [i])) with zero by (unfold m0; rewrite (proj2 (B _)); auto).
    unfold accum. f_equal. apply map_ext_in. intros k Hk. apply in_zrange in Hk. rewrite !M0; auto; [apply Fb; rewrite Sb; apply in2; auto|apply Fa; rewrite Sa; apply in1; auto].
  - intros x Hx. rewrite O by (apply Out; auto). auto.
Qed.
End Mat.

(* Examples. The memory has 0 1 2 ...; a is {2, 3} in row-major order at 0, b is {3, 2} in column-major order at 10, u {3} at 20, v {2} at 30, c {2, 2} at 40 with rows of 5, r {2} at 60. *)
Definition mZ : mem Z := fun p => p.
Definition mA := Vw [Dim 2 3; Dim 3 1] 0.
Definition mB := Vw [Dim 3 1; Dim 2 3] 10.
Definition mU := Vw [Dim 3 1] 20.
Definition mV := Vw [Dim 2 1] 30.
Definition mC := Vw [Dim 2 5; Dim 2 1] 40.
Definition mR := Vw [Dim 2 1] 60.
Definition peek (l : list Z) {A} (o : out (mem Z) A) : list Z := match o with Ok _ m => map m l | _ => [] end.

Ltac allidx := repeat match goal with H : inshape _ [_; _] |- _ => apply in2e in H as (? & ? & -> & ? & ?) | H : inshape _ [_] |- _ => apply in1e in H as (? & -> & ?) end.
Lemma mC_separate : separate (vplace mC) [2; 2].
Proof. intros i j Hi Hj. allidx. unfold vplace; cbn [vcp mC vdv place step]. intros. f_equal; [lia|f_equal; lia]. Qed.
Lemma mR_separate : separate (vplace mR) [2].
Proof. intros i j Hi Hj. allidx. unfold vplace; cbn [vcp mR vdv place step]. intros. f_equal; lia. Qed.
Ltac aparts := unfold apart, outside, free_of, vshape; cbn [vdv mA mB mU mV mC mR map len]; intros; allidx; unfold vplace; cbn [vcp vdv place step mA mB mU mV mC mR]; lia.

Example C33_gemm_c_ex : (wf (viter (T:=Z) mA) /\ shape_is (viter (T:=Z) mA) [2; 3] /\ vshape mB = [3; 2] /\ vshape mC = [2; 2]) /\ separate (vplace mC) [2; 2] /\
  undisturbed (viter mA) [2; 3] mZ (fun j => mZ (vplace mA j)) (vplace mC) [2; 2] /\ apart mB (vplace mC) [2; 2] /\
  peek [40; 41; 45; 46] (gemm_c Z.add Z.mul true z_init (viter mA) mB mC mZ) = [40 + 35; 41 + 44; 45 + 134; 46 + 170] /\
  peek [40; 41; 45; 46] (gemm_c Z.add Z.mul false z_init (viter mA) mB mC mZ) = [40 + 35; 41 + 44; 45 + 134; 46 + 170].
Proof.
  split; [|split; [apply mC_separate|split; [apply view_undisturbed; [reflexivity|aparts]|split; [aparts|split; vm_compute; reflexivity]]]].
  assert (nonneg [2; 3]) by (repeat constructor; lia). destruct (view_shape (T:=Z) mA [2; 3] eq_refl); auto.
Qed.
Example C33_gemm_e_ex : refers (viter (T:=Z) mC) [2; 2] (vplace mC) /\ separate (vplace mC) [2; 2] /\ apart mA (vplace mC) [2; 2] /\ apart mB (vplace mC) [2; 2] /\
  peek [40; 41; 45; 46] (gemm_e Z.add Z.mul false z_init mA mB (viter mC) mZ) = [40 + 35; 41 + 44; 45 + 134; 46 + 170].
Proof. split; [intros j m Hj; allidx; reflexivity|split; [apply mC_separate|split; [aparts|split; [aparts|vm_compute; reflexivity]]]]. Qed.
Example C33_refused_ex : gemm_c Z.add Z.mul true z_init (viter mA) mA mC mZ = Fail mZ /\ gemm_e Z.add Z.mul false z_init mA mA (viter mC) mZ = Fail mZ.
Proof. split; reflexivity. Qed.
Example C33_gemm2_ex : free_of mA 100 4 /\ free_of mB 100 4 /\ peek [100; 101; 102; 103] (gemm2 Z.add Z.mul false z_init 100 0 mA mB mZ) = [35; 44; 134; 170].
Proof. split; [aparts|split; [aparts|vm_compute; reflexivity]]. Qed.

Definition mRw := viter (T:=Z) mR.
Example C34_gemv_ex : steady (viter (T:=Z) mU) [3] mZ (fun j => mZ (vplace mU j)) (vplace mR) [2] /\ apart mA (vplace mR) [2] /\ separate (vplace mR) [2] /\
  peek [60; 61] (gemv_b Z.add Z.mul true z_init (viter mA) mU mRw mZ) = [60 + 65; 61 + 254] /\
  peek [60; 61] (gemv_c Z.add Z.mul false z_init mA (viter mU) mR mZ) = [60 + 65; 61 + 254] /\
  peek [60; 61] (gemv_e Z.add Z.mul false z_init z_init mA (viter mU) mRw mZ) = [60 + 65; 61 + 254] /\
  peek [60; 61] (gemv_e Z.add Z.mul true z_init z_init mA (viter mU) mRw mZ) = [60 + 65; 61 + 254].
Proof.
  split; [|split; [aparts|split; [apply mR_separate|repeat split; vm_compute; reflexivity]]].
  intros m' j Hm Hj. allidx. exists (VRef (vplace mU [x])). split; [reflexivity|]. intros m'' Hm'. cbn [value_of]. f_equal. apply Hm'. unfold outside. intros i Hi. allidx. unfold vplace; cbn [vcp vdv place step mU mR]. lia.
Qed.
Example C34_gevm_ex : peek [60; 61] (gevm_c Z.add Z.mul true z_init (viter mU) (viter mB) mR mZ) = [60 + 695; 61 + 884] /\
  peek [60; 61] (gevm_a Z.add Z.mul false z_init mU mB mRw mZ) = [60 + 695; 61 + 884] /\
  peek [60; 61] (gevm_e Z.add Z.mul false z_init z_init (viter mU) mB mRw mZ) = [60 + 695; 61 + 884].
Proof. repeat split; vm_compute; reflexivity. Qed.
(* the result has the wrong length, and nothing is refused, because the loop does nothing *)
Example C34_loop_ex : gemv_e Z.add Z.mul true z_init z_init (Vw [Dim 3 0; Dim 0 1] 0) (viter (Vw [Dim 0 1] 0)) mRw mZ = Ok None mZ.
Proof. reflexivity. Qed.
Example C34_refused_ex : gemv_b Z.add Z.mul true z_init (viter mA) mV mRw mZ = Fail mZ /\ gemv_c Z.add Z.mul false z_init mA (viter mV) mR mZ = Fail mZ /\
  gemv_e Z.add Z.mul false z_init z_init mA (viter mV) mRw mZ = Fail mZ /\ gevm_c Z.add Z.mul true z_init (viter mV) (viter mB) mR mZ = Fail mZ /\
  gevm_a Z.add Z.mul false z_init mV mB mRw mZ = Fail mZ /\ gevm_e Z.add Z.mul false z_init z_init (viter mV) mB mRw mZ = Fail mZ.
Proof. repeat split; reflexivity. Qed.
Example C34_new_ex : free_of mA 100 2 /\ free_of mU 100 2 /\ free_of mB 100 2 /\ peek [100; 101] (gemv2 Z.add Z.mul false z_init 100 0 mA mU mZ) = [65; 254] /\
  peek [100; 101] (gevm2 Z.add Z.mul false z_init 100 0 mU mB mZ) = [695; 884].
Proof. split; [aparts|split; [aparts|split; [aparts|split; vm_compute; reflexivity]]]. Qed.

Print Assumptions C33_gemm_c.
Print Assumptions C33_gemm_e.
Print Assumptions C33_refused_c.
Print Assumptions C33_refused_e.
Print Assumptions C33_gemm2.
Print Assumptions C34_gemv_b.
Print Assumptions C34_gemv_c.
Print Assumptions C34_gemv_e.
Print Assumptions C34_gevm_c.
Print Assumptions C34_gevm_a.
Print Assumptions C34_gevm_e.
Print Assumptions C34_refused_gemv_b.
Print Assumptions C34_refused_gemv_c.
Print Assumptions C34_refused_gemv_e.
Print Assumptions C34_refused_gevm_c.
Print Assumptions C34_refused_gevm_a.
Print Assumptions C34_refused_gevm_e.
Print Assumptions C34_gemv2.
Print Assumptions C34_gevm2.
