(* Property C141: the ways to add up the cells of an array in examples/read-me.cc. *)
From Coq Require Import ZArith List Lia Bool.
From Verif Require Import Spec L_Spec Spec_Ply Spec_Expr M_Base M_Expr M_Ply M_Val Spec_Val L_Expr L_Agree L_Ply L_Stl L_Run L_Val P_Reduce M_View Spec_View L_View P_View M_Slice M_Frame M_Mat Spec_Mat P_Mat P_Outer M_Cell P_Cell M_Cells P_Cells M_Deep P_Deep M_Doc P_Doc M_Stencil P_Stencil P_Roll M_Total P_Total P_Feed M_Readme.
Import ListNotations.
Open Scope Z_scope.

Section Readme.
Context {T : Type}.
Variables (fixed fi : bool) (z zi : list zt) (add : T -> T -> T) (zero : T).
Hypothesis Hz : zclean z.
Hypothesis Hzi : zclean zi.

(* the sum of the elements of a whose index starts with i; t: the lengths of the other axes *)
Definition cell_sum (a : view) (t : list Z) (m : mem T) (i : list Z) (x : T) : Prop := forall ks, row_major t ks -> x = fold_left add (map (fun k => m (vplace a (i ++ k))) ks) zero.

(* iter<cr>(a), where the cells have the lengths t. b may have more axes than the frame. *)
Theorem C141_cells : forall cr (b a : view) s1 s2 t (m : mem T), vshape a = s1 ++ t -> vshape b = s1 ++ s2 -> P_Cell.frame_axes (vrank a) cr (length s1) -> nonneg (vshape a) -> nonneg (vshape b) -> P_Cells.separate b a -> apart_at b ->
  exists m', by_cells fixed fi z zi add zero cr b a m = Ok None m' /\ (forall i j, inshape i s1 -> inshape j s2 -> cell_sum a t m i (m' (vplace b (i ++ j)))) /\
    forall p, (forall i, inshape i (vshape b) -> p <> vplace b i) -> m' p = m p.
Proof.
  intros cr b a s1 s2 t m Ea Eb F Na Nb Hab Hb. unfold by_cells. rewrite (icell_frame _ _ _ _ F). cbn [onres items]. destruct F as (Hf & _).
  pose proof Na as N. rewrite Ea in N. unfold nonneg in N. apply Forall_app in N as (Ns & Nt). destruct (view_shape (T:=T) b _ eq_refl Nb) as (W0 & S0).
  set (ce := Cell (vdv a) (length s1) _ _). assert (Wc : wf ce).
  { cbn. split; [exact Hf|]. apply ok_lens. rewrite <- firstn_map. change (map len (vdv a)) with (vshape a). rewrite Ea, firstn_app, Nat.sub_diag, firstn_all, app_nil_r. exact Ns. }
  assert (Sc : shape_is ce s1).
  { split; [reflexivity|]. intros k Hk. unfold ce in Hk. cbn [axes] in Hk. unfold ce. cbn [leaf_lens]. destruct (Nat.ltb_spec k (length s1)); [|lia].
    replace (len (nth k (vdv a) dim0)) with (nth k s1 0). 2: { rewrite <- (map_nth len). change (map len (vdv a)) with (vshape a). rewrite Ea, app_nth1 by auto. apply nth_indep; auto. }
    split; [rewrite Forall_forall in Ns; apply Ns, nth_In; auto|]. split; [left; auto|]. repeat constructor; auto. }
  assert (Sv : shape_is (vals (viter (T:=T) b)) (vshape b)) by (destruct S0 as (Q1 & Q2); split; [rewrite vals_axes; auto|]; rewrite vals_axes; intros k Hk; rewrite vals_lens; auto).
  assert (Wv : wf (vals (viter (T:=T) b))) by (apply vals_wf; auto).
  set (x := fun j : list Z => fold_left add (map (fun k => m (vplace a (firstn (length s1) j ++ k))) (indices t)) zero).
  destruct (loop_scatter fixed z Hz _ (Map (sum_cell fi zi add zero) [vals (viter b); ce]) put (vshape b) (vplace b) x m) as (m' & E1 & E2).
  - apply wf_map; [discriminate|auto].
  - apply joint_shape_map. apply (joint_cover _ _ _ (vals (viter b))); [left; auto|auto|]. apply Forall_cons; [apply inner_whole; auto|]. apply Forall_cons; [|constructor]. rewrite Eb. apply inner_shape; auto.
  - intros j m1 Hj Hm. exists (inr VUnit). pose proof (inshape_length _ _ Hj) as Lj. cbn [element map in_order]. rewrite vals_element, viter_element, vrank_shape, whole_in by auto. cbn [okr].
    unfold ce. cbn [element map in_order]. cbn [sum_cell].
    replace (Vw _ _) with (cell_of a (length s1) (firstn (length s1) j)) by (unfold cell_of; do 2 f_equal; rewrite firstn_firstn, Nat.min_id; lia).
    rewrite Eb in Hj. assert (Hj1 : inshape (firstn (length s1) j) s1) by (apply (longer_in s1 (s1 ++ s2) (s1 ++ s2)); auto; split; [auto|]; split; [exists s2; auto|exists []; rewrite app_nil_r; auto]).
    pose proof (cell_of_shape a s1 t (firstn (length s1) j) Ea) as Scc. destruct (view_shape (T:=T) _ _ Scc Nt) as (Wcc & Shc).
    unfold bind at 1. assert (Es : sum fi zi add zero (viter (cell_of a (length s1) (firstn (length s1) j))) m1 = Ok (x j) m1).
    { unfold sum, bind. cbn [viter deref ret]. apply (reduce1_spec T fi zi (fun x c => add c x) (viter (cell_of a (length s1) (firstn (length s1) j))) t (indices t) m1 (fun k => m (vplace a (firstn (length s1) j ++ k)))); auto using row_major_indices.
      intros k Hk. exists (VRef (vplace a (firstn (length s1) j ++ k))). rewrite viter_element, vrank_shape, Scc, (whole_in k t) by auto. rewrite (cell_of_place a s1 t) by auto. split; [reflexivity|]. cbn. f_equal.
      apply Hm. intros i Hi E. symmetry in E. revert E. apply Hab; auto. rewrite Ea. apply join_shape; auto. }
    rewrite Es. reflexivity.
  - exists m'. split; [exact E1|]. split.
    + intros i j Hi Hj ks Hks. apply row_major_unique in Hks. subst ks. assert (Hij : inshape (i ++ j) (vshape b)) by (rewrite Eb; apply join_shape; auto).
      rewrite E2, (filter_one _ _ _ (i ++ j)); [|apply indices_nodup|apply in_indices; auto|]. { cbn. unfold put, x. rewrite front by auto. reflexivity. }
      intros y Hy. apply in_indices in Hy. rewrite Z.eqb_eq. split; [intros; apply Hb; auto|intros ->; auto].
    + intros p Hp. rewrite E2, filter_none; [reflexivity|]. intros y Hy. apply in_indices in Hy. apply Z.eqb_neq. intros E. apply (Hp y); auto.
Qed.

(* B = 0; B += A, and the sum of the cells with the cell rank or with the frame rank *)
Theorem C141_sums_partial : forall cr (b a : view) t (m : mem T), vshape a = vshape b ++ t -> P_Cell.frame_axes (vrank a) cr (vrank b) -> nonneg (vshape a) -> P_Cells.separate b a -> apart_at b ->
  exists m1 m2, by_plus fixed z add zero b a m = Ok None m1 /\ by_cells fixed fi z zi add zero cr b a m = Ok None m2 /\
    (forall i, inshape i (vshape b) -> cell_sum a t m i (m1 (vplace b i)) /\ cell_sum a t m i (m2 (vplace b i))) /\
    forall p, (forall i, inshape i (vshape b) -> p <> vplace b i) -> m1 p = m p /\ m2 p = m p.
Proof.
  intros cr b a t m Ea F Na Hab Hb. pose proof Na as N. rewrite Ea in N. unfold nonneg in N. apply Forall_app in N as (Nb & Nt).
  destruct (view_shape (T:=T) b _ eq_refl Nb) as (Wb & Sb). destruct (view_shape (T:=T) a _ eq_refl Na) as (Wa & Sa).
  assert (Rb : refers (T := T) (viter b) (vshape b) (vplace b)) by (intros j m1 Hj; rewrite viter_element, vrank_shape, whole_in by auto; reflexivity).
  destruct (C141_cells cr b a (vshape b) [] t m) as (m2 & E2 & V2 & K2); auto. { rewrite app_nil_r; auto. } { rewrite <- vrank_shape. exact F. }
  destruct (C29_assign T put (viter b) (Scalar (VT zero)) (vshape b) m (vplace b) (fun _ => zero) fixed z) as (m0 & E0 & V0 & K0); auto.
  { cbn. auto. } { apply (joint_cover _ _ _ (viter b)); [left; auto|auto|]. apply Forall_cons; [apply inner_whole; auto|]. apply Forall_cons; [apply inner_scalar|constructor]. }
  { intros j m' Hj _. exists (VT zero). split; reflexivity. }
  destruct (C30_reduce_assign T add (viter b) (viter a) (vshape b) t (indices t) m0 (vplace b) (fun j => m (vplace a j)) fixed z) as (m1 & E1 & V1 & K1); auto using row_major_indices.
  { rewrite <- Ea; auto. }
  { intros m' Hm'. rewrite <- Ea. intros j Hj. exists (VRef (vplace a j)). rewrite viter_element, vrank_shape, whole_in by auto. split; [reflexivity|]. cbn. f_equal.
    rewrite Hm', K0; [reflexivity| |]; intros i Hi E; symmetry in E; revert E; apply Hab; auto. }
  exists m1, m2. split; [unfold by_plus, bind; rewrite E0; exact E1|]. split; [exact E2|]. split.
  - intros i Hi. split.
    + intros ks Hks. apply row_major_unique in Hks. subst ks. rewrite V1, V0 by auto. reflexivity.
    + specialize (V2 i [] Hi). rewrite app_nil_r in V2. apply V2. constructor.
  - intros p Hp. split; [rewrite K1, K0; auto|apply K2; auto].
Qed.

(* for_each([](auto && b, auto && a) { b = sum(a); }, B, A) leaves the last element of each cell. *)
Theorem C141_elements : forall (b a : view) t (m : mem T), vshape a = vshape b ++ t -> nonneg (vshape a) -> P_Cells.separate b a -> apart_at b ->
  exists m', by_elements fixed fi z zi add zero b a m = Ok None m' /\
    (forall i k, inshape i (vshape b) -> inshape k t -> (forall k', inshape k' t -> k' = k \/ lexlt k' k) -> m' (vplace b i) = add zero (m (vplace a (i ++ k)))) /\
    (forall i, inshape i (vshape b) -> (forall k, ~ inshape k t) -> m' (vplace b i) = m (vplace b i)) /\
    forall p, (forall i, inshape i (vshape b) -> p <> vplace b i) -> m' p = m p.
Proof.
  intros b a t m Ea Na Hab Hb. pose proof Na as N. rewrite Ea in N. unfold nonneg in N. apply Forall_app in N as (Nb & Nt).
  destruct (view_shape (T:=T) b _ eq_refl Nb) as (Wb & Sb). destruct (view_shape (T:=T) a _ eq_refl Na) as (Wa & Sa).
  assert (Fi : forall j, inshape j (vshape a) -> inshape (firstn (length (vshape b)) j) (vshape b)).
  { intros j Hj. rewrite Ea in Hj. apply (longer_in (vshape b) (vshape b ++ t) (vshape b ++ t)); auto. split; [auto|]. split; [exists t; auto|exists []; rewrite app_nil_r; auto]. }
  destruct (loop_scatter fixed z Hz _ (Map (op2 (fun u v => x <- sum fi zi add zero (Scalar v) ;; assign_op put [u; VT x])) [viter b; viter a]) put (vshape a) (fun j => vplace b (firstn (length (vshape b)) j)) (fun j => add zero (m (vplace a j))) m) as (m' & E1 & E2).
  - apply wf_map; [discriminate|auto].
  - apply joint_shape_map. rewrite Ea. apply joint_prefix; auto. rewrite <- Ea; auto.
  - intros j m1 Hj Hm. exists VUnit. cbn [element map in_order]. rewrite viter_element. cbv beta iota. rewrite viter_element. cbv beta iota. rewrite vrank_shape, (vrank_shape a), (whole_in j (vshape a)) by auto. cbn [op2]. unfold bind at 1.
    assert (Es : sum fi zi add zero (Scalar (VRef (vplace a j))) m1 = Ok (add zero (m (vplace a j))) m1).
    { unfold sum, bind. cbn [deref ret]. rewrite (reduce1_spec T fi zi (fun x c => add c x) (Scalar (VRef (vplace a j))) [] [[]] m1 (fun _ => m (vplace a j))); auto; [cbn; auto| | |].
      - split; [reflexivity|]. intros k Hk. cbn in Hk. lia.
      - apply (row_major_indices []).
      - intros k Hk. exists (VRef (vplace a j)). split; [reflexivity|]. cbn. f_equal. apply Hm. intros j' Hj' E. symmetry in E. revert E. apply Hab; auto. }
    rewrite Es. reflexivity.
  - exists m'. split; [exact E1|]. rewrite Ea in E2. split; [|split].
    + intros i k Hi Hk Hl. rewrite E2. rewrite (filter_rows (vshape b) t (vplace b) i) by auto. rewrite map_map. pose proof (row_major_indices t) as Rm.
      destruct (exists_last (l := indices t)) as (l & k0 & El). { intros E. apply in_indices in Hk. rewrite E in Hk. exact Hk. }
      assert (k0 = k).
      { assert (Hk0 : inshape k0 t) by (apply in_indices; rewrite El; apply in_or_app; right; left; auto). destruct (Hl k0 Hk0) as [|L]; auto.
        assert (Ik : In k (l ++ [k0])) by (rewrite <- El; apply in_indices; auto). apply in_app_or in Ik as [Ik|[->|[]]]; auto.
        destruct (row_major_split _ _ _ _ _ Rm El) as (_ & Hlt). apply Hlt in Ik as (_ & Ik). exfalso. exact (lexlt_irrefl _ (lexlt_trans _ _ _ L Ik)). }
      subst k0. rewrite El, map_app, fold_left_app. reflexivity.
    + intros i Hi Hn. rewrite E2. rewrite (filter_rows (vshape b) t (vplace b) i) by auto. destruct (indices t) as [|k l] eqn:E; [reflexivity|]. exfalso. apply (Hn k). apply in_indices. rewrite E. left; auto.
    + intros p Hp. rewrite E2, filter_none; [reflexivity|]. intros y Hy. apply in_indices in Hy. apply Z.eqb_neq. intros E. rewrite <- Ea in Hy. apply (Hp _ (Fi y Hy)); auto.
Qed.
End Readme.

(* A[2; 3; 4] with A(i, j, k) = i + j + k at 100 and B[2; 3] at 0, in examples/read-me.cc *)
Definition exA : view := Vw [Dim 2 12; Dim 3 4; Dim 4 1] 100.
Definition exB : view := Vw [Dim 2 3; Dim 3 1] 0.
Definition exM : mem Z := fun p => let q := p - 100 in if (0 <=? q) && (q <? 24) then q / 12 + (q / 4) mod 3 + q mod 4 else 99.
Definition exOut (r : out (mem Z) (option unit)) : list Z := match r with Ok None m => map m (map Z.of_nat (seq 0 6)) | _ => [] end.
Example ex_ways : exOut (by_plus false [] Z.add 0 exB exA exM) = [6; 10; 14; 10; 14; 18] /\ exOut (by_cells false true [] [] Z.add 0 1 exB exA exM) = [6; 10; 14; 10; 14; 18] /\
  exOut (by_cells true false [] [] Z.add 0 (-2) exB exA exM) = [6; 10; 14; 10; 14; 18] /\ exOut (by_elements true false [] [] Z.add 0 exB exA exM) = [3; 4; 5; 4; 5; 6] /\
  exOut (by_cells true false [] [] Z.add 0 2 exB exA exM) = [30; 30; 30; 42; 42; 42].
Proof. vm_compute. auto. Qed.
Lemma exB_apart : apart_at exB.
Proof. intros i j Hi Hj. cbv [vshape exB vdv map len] in Hi, Hj. apply P_Mat.in2e in Hi as (i1 & i2 & -> & ? & ?). apply P_Mat.in2e in Hj as (j1 & j2 & -> & ? & ?). unfold vplace. cbn [exB vcp vdv place step]. intros. f_equal; [|f_equal]; lia. Qed.
Lemma exAB_separate : P_Cells.separate exB exA.
Proof. intros i j Hi Hj. cbv [vshape exA exB vdv map len] in Hi, Hj. apply P_Mat.in2e in Hi as (i1 & i2 & -> & ? & ?). apply P_Mat.in3 in Hj as (j1 & j2 & j3 & -> & ? & ? & ?). unfold vplace. cbn [exA exB vcp vdv place step]. lia. Qed.
Example ex_hyps : vshape exA = vshape exB ++ [4] /\ P_Cell.frame_axes (vrank exA) 1 (vrank exB) /\ P_Cell.frame_axes (vrank exA) (-2) (vrank exB) /\ P_Cell.frame_axes (vrank exA) 2 1 /\ nonneg (vshape exA) /\ P_Cells.separate exB exA /\ apart_at exB.
Proof. split; [reflexivity|]. split; [|split; [|split; [|split; [|split; [apply exAB_separate|apply exB_apart]]]]]; try (repeat constructor; vm_compute; congruence); vm_compute; repeat split; try lia; congruence. Qed.

(* "All these are equivalent", examples/read-me.cc:102, isn't so: the second loop leaves in B(i, j) the last element of A(i, j, ...) and not the sum. *)
Theorem C141_elements_refuted : ~ forall (b a : view) t (m : mem Z), vshape a = vshape b ++ t -> nonneg (vshape a) -> P_Cells.separate b a -> apart_at b ->
  exists m', by_elements true true [] [] Z.add 0 b a m = Ok None m' /\ forall i, inshape i (vshape b) -> cell_sum Z.add 0 a t m i (m' (vplace b i)).
Proof.
  intros H. destruct (H exB exA [4] exM) as (m' & E & V); [reflexivity|repeat constructor; vm_compute; congruence|apply exAB_separate|apply exB_apart|].
  specialize (V [0; 0]). assert (Hi : inshape [0; 0] (vshape exB)) by (repeat constructor; vm_compute; congruence). specialize (V Hi (indices [4]) (row_major_indices [4])).
  assert (E1 : exOut (by_elements true true [] [] Z.add 0 exB exA exM) = map m' (map Z.of_nat (seq 0 6))) by (rewrite E; reflexivity).
  change (m' 0 = 6) in V. assert (E0 : nth 0 (exOut (by_elements true true [] [] Z.add 0 exB exA exM)) 0 = m' 0) by (rewrite E1; reflexivity).
  rewrite V in E0. vm_compute in E0. discriminate.
Qed.

Print Assumptions C141_cells.
Print Assumptions C141_sums_partial.
Print Assumptions C141_elements.
Print Assumptions C141_elements_refuted.
