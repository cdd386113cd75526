(* Property C122: the ways to multiply matrices of bench/bench-gemm.cc. *)
From Coq Require Import ZArith List Lia Bool.
From Verif Require Import Spec L_Spec Spec_Ply Spec_Expr M_Base M_Expr M_Ply M_Val Spec_Val L_Expr L_Agree L_Ply L_Stl L_Run L_Val P_Reduce M_View Spec_View L_View P_View M_Slice L_Slice Spec_Slice M_Frame Spec_Frame L_Frame P_Frame M_Mat Spec_Mat P_Mat P_Outer M_Cells P_Cells P_Deep M_Ext P_Ext M_Doc P_Doc M_Stencil P_Stencil P_Roll M_Gemm.
Import ListNotations.
Open Scope Z_scope.

Section Gemm.
Context {T : Type}.
Variables (add mul : T -> T -> T) (zero : T).
Notation ex := (expr (val T) (mem T)).

(* The products of the elements of a and b have been added to each element of c, in order, and nothing else has changed. *)
Definition multiplied (a b c : view) (n l p : Z) (m m' : mem T) : Prop :=
  (forall i j, 0 <= i < n -> 0 <= j < p -> m' (vplace c [i; j]) = accum add (m (vplace c [i; j])) l (fun k => mul (m (vplace a [i; k])) (m (vplace b [k; j])))) /\
  forall q, (forall i j, 0 <= i < n -> 0 <= j < p -> q <> vplace c [i; j]) -> m' q = m q.
(* each element of c is the sum of those products, from zero *)
Definition product (a b c : view) (n l p : Z) (m m' : mem T) : Prop :=
  (forall i j, 0 <= i < n -> 0 <= j < p -> m' (vplace c [i; j]) = accum add zero l (fun k => mul (m (vplace a [i; k])) (m (vplace b [k; j])))) /\
  forall q, (forall i j, 0 <= i < n -> 0 <= j < p -> q <> vplace c [i; j]) -> m' q = m q.

(* ---- slices of matrices ---- *)
Lemma col_at : forall d0 d1 p k, 0 <= k < len d1 -> from (Vw [d0; d1] p) [all; cidx k] = Good (Vw [d0] (p + k * step d1)).
Proof.
  intros d0 d1 p k H. rewrite from_fromb; [|repeat constructor|unfold fits, vrank; cbn; lia|cbn; lia]. cbn [vdv vcp all cidx fromb length Nat.ltb Nat.leb andb skipn firstn app]. unfold inside. replace ((0 <=? k) && (k <? len d1))%bool with true by (symmetry; apply andb_true_iff; lia). reflexivity.
Qed.
Lemma row_at : forall d0 d1 p k, 0 <= k < len d0 -> from (Vw [d0; d1] p) [cidx k] = Good (Vw [d1] (p + k * step d0)).
Proof.
  intros d0 d1 p k H. rewrite from_fromb; [|repeat constructor|unfold fits, vrank; cbn; lia|cbn; lia]. cbn [vdv vcp cidx fromb]. unfold inside. replace ((0 <=? k) && (k <? len d0))%bool with true by (symmetry; apply andb_true_iff; lia). reflexivity.
Qed.
Lemma seq_fine : forall n o L, 0 <= n -> 0 <= o -> o + n <= L -> seq_ok L o (Dim n 1) = true.
Proof.
  intros n o L Hn Ho HL. unfold seq_ok. cbn [len step]. destruct (Z.eqb_spec 0 n); [reflexivity|]. cbn [orb]. unfold inside. rewrite !andb_true_iff, !Z.leb_le, !Z.ltb_lt. lia.
Qed.
Lemma rows_at : forall d0 d1 p n o, 0 <= n -> 0 <= o -> o + n <= len d0 -> from (Vw [d0; d1] p) [ciota n o 1] = Good (Vw [Dim n (step d0); d1] (p + o * step d0)).
Proof.
  intros d0 d1 p n o H1 H2 H3. rewrite from_fromb; [|repeat constructor|unfold fits, vrank; cbn; lia|cbn; lia]. cbn [vdv vcp ciota fromb]. destruct (Z.ltb_spec n 0); [lia|]. rewrite seq_fine by lia. cbn [app rbind fst snd]. rewrite Z.mul_1_l. reflexivity.
Qed.
Lemma cols_at : forall d0 d1 p n o, 0 <= n -> 0 <= o -> o + n <= len d1 -> from (Vw [d0; d1] p) [all; ciota n o 1] = Good (Vw [d0; Dim n (step d1)] (p + o * step d1)).
Proof.
  intros d0 d1 p n o H1 H2 H3. rewrite from_fromb; [|repeat constructor|unfold fits, vrank; cbn; lia|cbn; lia]. cbn [vdv vcp all ciota fromb length Nat.ltb Nat.leb andb skipn firstn app]. destruct (Z.ltb_spec n 0); [lia|]. rewrite seq_fine by lia. cbn [app rbind fst snd]. rewrite Z.mul_1_l. reflexivity.
Qed.

(* ---- loops ---- *)
Lemma loop_from : forall (f : Z -> M (mem T) (option unit)) (P : Z -> mem T -> Prop) n k m, P k m -> (forall i m, k <= i < k + Z.of_nat n -> P i m -> exists m', f i m = Ok None m' /\ P (i + 1) m') ->
  exists m', loop_ n k f m = Ok None m' /\ P (k + Z.of_nat n) m'.
Proof.
  intros f P n. induction n as [|n IH]; intros k m H0 Hs; cbn [loop_].
  - exists m. split; [reflexivity|]. replace (k + Z.of_nat 0) with k by lia. auto.
  - destruct (Hs k m) as (m1 & E1 & P1); auto; [lia|]. destruct (IH (k + 1) m1 P1) as (m2 & E2 & P2); [intros i mm Hi; apply Hs; lia|]. exists m2. unfold bind. rewrite E1, E2. split; auto. replace (k + Z.of_nat (S n)) with (k + 1 + Z.of_nat n) by lia. auto.
Qed.
Lemma loop_spec : forall (f : Z -> M (mem T) (option unit)) (P : Z -> mem T -> Prop) n m, 0 <= n -> P 0 m -> (forall i m, 0 <= i < n -> P i m -> exists m', f i m = Ok None m' /\ P (i + 1) m') -> exists m', loop n f m = Ok None m' /\ P n m'.
Proof.
  intros f P n m Hn H0 Hs. destruct (loop_from f P (Z.to_nat n) 0 m H0) as (m' & E & H); [intros i mm Hi; apply Hs; lia|]. exists m'. split; auto. replace (0 + Z.of_nat (Z.to_nat n)) with n in H by lia. auto.
Qed.

Variables (fixed : bool) (z : list zt) (fi : bool) (zi : list zt).
Hypothesis (Hz : zclean z) (Hzi : zclean zi).

(* the hypotheses on the arguments *)
Definition matrices (a b c : view) (n l p : Z) : Prop := vshape a = [n; l] /\ vshape b = [l; p] /\ vshape c = [n; p] /\ (0 <= n /\ 0 <= l /\ 0 <= p) /\ P_Cells.separate c a /\ P_Cells.separate c b /\ apart_at c.

(* ---- gemm5, gemm6 ---- *)
Theorem C122_gemm5 : forall a b c n l p m, matrices a b c n l p -> exists m', gemm_c add mul fixed z (viter a) b c m = Ok None m' /\ multiplied a b c n l p m m'.
Proof.
  intros a b c n l p m (Sa & Sb & Sc & (Hn & Hl & Hp) & Da & Db & Ac). destruct (view_shape (T:=T) a _ Sa) as (Wa & Ha); [repeat (apply Forall_cons; [auto|]); constructor|].
  destruct (C33_gemm_c add mul (viter a) b c n l p m (fun j => m (vplace a j)) fixed z) as (m' & G & V & O); auto.
  - intros i j Hi Hj. apply Ac; rewrite Sc; auto.
  - apply view_undisturbed; auto. intros i Hi j Hj E. rewrite Sa in Hi. apply (Da j i); rewrite ?Sa, ?Sc; auto.
  - intros i Hi j Hj E. apply (Db j i); rewrite ?Sc; auto.
  - exists m'. split; [exact G|]. split; [exact V|]. intros q Hq. apply O. intros ix Hx. apply in2e in Hx as (i & j & -> & Hi & Hj). auto.
Qed.

(* ---- gemm1 ---- *)
Lemma gemm1_same : forall (a b c : view) (m : mem T), vrank a = 2%nat -> vrank b = 2%nat -> vrank c = 2%nat -> Forall oklen (vshape a) -> Forall oklen (vshape b) -> Forall oklen (vshape c) ->
  gemm1 fixed z add mul a b c m = gemm_c add mul fixed z (viter a) b c m.
Proof.
  intros a b c m Ra Rb Rc Na Nb Nc. destruct a as [da pa], b as [db pb], c as [dc pc]. unfold vrank in Ra, Rb, Rc. cbn [vdv] in *.
  destruct da as [|a0 [|a1 [|? ?]]]; try discriminate. destruct db as [|b0 [|b1 [|? ?]]]; try discriminate. destruct dc as [|c0 [|c1 [|? ?]]]; try discriminate.
  unfold gemm_c. replace (from (Vw [c0; c1] pc) [all; SInsert 1]) with (Good (Vw [c0; Dim UNB 0; c1] pc)) by reflexivity.
  replace (from (Vw [b0; b1] pb) [SInsert 1]) with (Good (Vw [Dim UNB 0; b0; b1] pb)) by reflexivity. cbn [onres].
  unfold gemm1, each_verb.
  replace (map_verb [[1; 2; 1]; [0; 1; 1]]%nat (fma_op add mul) [viter (Vw [a0; a1] pa); viter (Vw [b0; b1] pb); viter (Vw [c0; c1] pc)])
    with (Some (Map (fma_op add mul) [viter (T:=T) (Vw [a0; a1] pa); Reframe (viter (Vw [b0; b1] pb)) [1; 2]%nat; Reframe (viter (Vw [c0; c1] pc)) [0; 2]%nat])) by reflexivity.
  unfold assign.
  assert (O : forall x y p, Forall oklen (vshape (Vw [x; y] p)) -> oklen (len x) /\ oklen (len y)).
  { intros x y p H. cbn [vshape vdv map] in H. inversion H as [|? ? H1 H2]; subst. inversion H2; subst. auto. }
  apply O in Na as (Na0 & Na1), Nb as (Nb0 & Nb1), Nc as (Nc0 & Nc1). assert (OU : oklen UNB) by (right; reflexivity).
  apply ply_same_finite; auto.
  - assert (ND : forall x y : nat, x <> y -> NoDup [x; y]) by (intros x y H; constructor; [intros [->|[]]; auto|repeat constructor; intros []]).
    assert (Wc : wf (viter (T:=T) (Vw [c0; c1] pc))) by (apply viter_wf; cbn [vdv]; auto). assert (Wa : wf (viter (T:=T) (Vw [a0; a1] pa))) by (apply viter_wf; cbn [vdv]; auto).
    assert (Wb : wf (viter (T:=T) (Vw [b0; b1] pb))) by (apply viter_wf; cbn [vdv]; auto).
    apply wf_map; [discriminate|]. apply Forall_cons; [exact Wa|]. apply Forall_cons; [split; [exact Wb|split; [apply ND; discriminate|reflexivity]]|]. apply Forall_cons; [split; [exact Wc|split; [apply ND; discriminate|reflexivity]]|]. apply Forall_nil.
  - apply wf_map; [discriminate|]. apply Forall_cons; [apply viter_wf; cbn [vdv]; auto|]. apply Forall_cons; [|apply Forall_nil]. apply times_wf; apply viter_wf; cbn [vdv]; auto.
  - intros k x Hx. destruct k as [|[|[|k]]]; cbn; intuition congruence.
  - intros j m'. cbn [element times map].
    assert (Ec : element (viter (T:=T) (Vw [c0; Dim UNB 0; c1] pc)) j m' = element (viter (Vw [c0; c1] pc)) (map (fun k => nth k j 0) [0; 2]%nat) m').
    { rewrite !viter_element. f_equal. f_equal. destruct j as [|j0 [|j1 [|j2 j]]]; unfold vplace, vrank; cbn [vdv vcp length firstn place map nth step]; lia. }
    assert (Eb : element (viter (T:=T) (Vw [Dim UNB 0; b0; b1] pb)) j m' = element (viter (Vw [b0; b1] pb)) (map (fun k => nth k j 0) [1; 2]%nat) m').
    { rewrite !viter_element. f_equal. f_equal. destruct j as [|j0 [|j1 [|j2 j]]]; unfold vplace, vrank; cbn [vdv vcp length firstn place map nth step]; lia. }
    cbn [in_order]. unfold bind, ret. cbn [map] in *. rewrite Ec. cbn [element times map in_order]. unfold bind, ret.
    rewrite (viter_element (Vw [c0; c1] pc)), (viter_element (Vw [a0; a1] pa)). cbv beta iota. rewrite Eb, !viter_element. reflexivity.
Qed.
Lemma ok2 : forall (v : view) x y, vshape v = [x; y] -> 0 <= x -> 0 <= y -> vrank v = 2%nat /\ Forall oklen (vshape v).
Proof. intros v x y E Hx Hy. split; [rewrite vrank_shape, E; reflexivity|]. rewrite E. apply Forall_cons; [left; auto|]. apply Forall_cons; [left; auto|constructor]. Qed.
Theorem C122_gemm1 : forall a b c n l p m, matrices a b c n l p -> exists m', gemm1 fixed z add mul a b c m = Ok None m' /\ multiplied a b c n l p m m'.
Proof.
  intros a b c n l p m H. pose proof H as (Sa & Sb & Sc & (Hn & Hl & Hp) & _). destruct (ok2 a n l Sa), (ok2 b l p Sb), (ok2 c n p Sc); auto. rewrite gemm1_same by auto. apply C122_gemm5. auto.
Qed.

(* ---- gemm2, gemm4 ---- *)
Lemma gemm2_k_same : forall a b c n l p k m, matrices a b c n l p -> 0 <= k < l -> gemm2_k fixed z add mul a b c k m = gemm4_k fixed z add mul a b c k m.
Proof.
  intros a b c n l p k m (Sa & Sb & Sc & (Hn & Hl & Hp) & _) Hk. destruct (view2 _ _ _ Sa) as (a0 & a1 & pa & -> & Ea0 & Ea1), (view2 _ _ _ Sb) as (b0 & b1 & pb & -> & Eb0 & Eb1), (view2 _ _ _ Sc) as (c0 & c1 & pc & -> & Ec0 & Ec1).
  unfold gemm2_k, gemm4_k. rewrite col_at, row_at by lia. cbn [onres]. set (qa := pa + k * step a1). set (qb := pb + k * step b0). unfold each_verb.
  replace (map_verb [[0; 1; 1]]%nat (fma_op add mul) [viter (Vw [a0] qa); viter (Vw [b1] qb); viter (Vw [c0; c1] pc)])
    with (Some (Map (fma_op add mul) [viter (T:=T) (Vw [a0] qa); Reframe (viter (Vw [b1] qb)) [1%nat]; viter (Vw [c0; c1] pc)])) by reflexivity.
  replace (from_op (mul_op mul) [viter (Vw [a0] qa); viter (Vw [b1] qb)]) with (Some (Map (mul_op mul) [viter (T:=T) (Vw [a0] qa); Reframe (viter (Vw [b1] qb)) [1%nat]])) by reflexivity.
  unfold assign. assert (K : forall x, 0 <= len x -> oklen (len x)) by (intros; left; auto).
  assert (Wa : wf (viter (T:=T) (Vw [a0] qa))) by (apply viter_wf; cbn [vdv]; apply Forall_cons; [apply K; lia|constructor]).
  assert (Wb : wf (Reframe (viter (T:=T) (Vw [b1] qb)) [1%nat])).
  { split; [apply viter_wf; cbn [vdv]; apply Forall_cons; [apply K; lia|constructor]|]. split; [repeat constructor; intros []|reflexivity]. }
  assert (Wc : wf (viter (T:=T) (Vw [c0; c1] pc))) by (apply viter_wf; cbn [vdv]; apply Forall_cons; [apply K; lia|]; apply Forall_cons; [apply K; lia|constructor]).
  apply ply_same_finite; auto.
  - apply wf_map; [discriminate|]. apply Forall_cons; [exact Wa|]. apply Forall_cons; [exact Wb|]. apply Forall_cons; [exact Wc|constructor].
  - apply wf_map; [discriminate|]. apply Forall_cons; [exact Wc|]. apply Forall_cons; [|constructor]. apply wf_map; [discriminate|]. apply Forall_cons; [exact Wa|]. apply Forall_cons; [exact Wb|constructor].
  - intros j x Hx. destruct j as [|[|j]]; cbn; intuition congruence.
Qed.
Lemma gemm4_step : forall a b c n l p k m, matrices a b c n l p -> 0 <= k < l ->
  exists m', gemm4_k fixed z add mul a b c k m = Ok None m' /\ becomes c (fun j => add (m (vplace c j)) (mul (m (vplace a [nth 0 j 0; k])) (m (vplace b [k; nth 1 j 0])))) m m'.
Proof.
  intros a b c n l p k m (Sa & Sb & Sc & (Hn & Hl & Hp) & Da & Db & Ac) Hk. destruct (view2 _ _ _ Sa) as (a0 & a1 & pa & -> & Ea0 & Ea1), (view2 _ _ _ Sb) as (b0 & b1 & pb & -> & Eb0 & Eb1).
  unfold gemm4_k. rewrite col_at, row_at by lia. cbn [onres]. set (ak := Vw [a0] (pa + k * step a1)). set (bk := Vw [b1] (pb + k * step b0)).
  assert (Na : nonneg (vshape ak)) by (apply Forall_cons; [lia|constructor]). assert (Nb : nonneg (vshape bk)) by (apply Forall_cons; [lia|constructor]).
  destruct (C92_from (mul_op mul) ak bk Na Nb) as (e & -> & We & Se & Ee). cbn [vshape vdv ak bk map app] in Se. rewrite Ea0, Eb1 in Se.
  apply (assign_to fixed z Hz add c e [n; p] (fun j => mul (m (vplace (Vw [a0; a1] pa) [nth 0 j 0; k])) (m (vplace (Vw [b0; b1] pb) [k; nth 1 j 0]))) m); auto; [repeat (apply Forall_cons; [auto|]); constructor|apply inner_whole; auto|].
  intros m1 Hm j Hj. apply in2e in Hj as (i & j' & -> & Hi & Hj). exists (VT (mul (m1 (vplace ak [i])) (m1 (vplace bk [j'])))). split; [change [i; j'] with ([i] ++ [j']); rewrite Ee by reflexivity; reflexivity|]. cbn [value_of nth]. f_equal.
  replace (vplace ak [i]) with (vplace (Vw [a0; a1] pa) [i; k]) by (unfold vplace; cbn [ak vcp vdv place step]; lia). replace (vplace bk [j']) with (vplace (Vw [b0; b1] pb) [k; j']) by (unfold vplace; cbn [bk vcp vdv place step]; lia).
  f_equal; apply Hm; intros ix Hx Q; [apply (Da ix [i; k])|apply (Db ix [k; j'])]; rewrite ?Sa, ?Sb, ?Sc; auto; apply P_Mat.in2; lia.
Qed.
Lemma multiplied_0 : forall a b c n p m, multiplied a b c n 0 p m m.
Proof. intros a b c n p m. split; auto. Qed.
Lemma multiplied_step : forall a b c n l p k m m1 m2, matrices a b c n l p -> 0 <= k < l -> multiplied a b c n k p m m1 ->
  becomes c (fun j => add (m1 (vplace c j)) (mul (m1 (vplace a [nth 0 j 0; k])) (m1 (vplace b [k; nth 1 j 0])))) m1 m2 -> multiplied a b c n (k + 1) p m m2.
Proof.
  intros a b c n l p k m m1 m2 (Sa & Sb & Sc & (Hn & Hl & Hp) & Da & Db & Ac) Hk (V & O) (B1 & B2). rewrite Sc in B1, B2. split.
  - intros i j Hi Hj. rewrite B1 by (apply P_Mat.in2; auto). cbn [nth]. rewrite (accum_step add mul) by lia. rewrite V by auto. f_equal. f_equal; apply O; intros i' j' Hi' Hj' E; [apply (Da [i'; j'] [i; k])|apply (Db [i'; j'] [k; j])]; rewrite ?Sa, ?Sb, ?Sc; auto; apply P_Mat.in2; lia.
  - intros q Hq. rewrite B2, O; auto. intros ix Hx. apply in2e in Hx as (i & j & -> & Hi & Hj). auto.
Qed.
Lemma len_facts : forall a b c n l p, matrices a b c n l p -> len0 a = n /\ len1 a = l /\ len0 b = l /\ len1 b = p /\ len0 c = n /\ len1 c = p.
Proof.
  intros a b c n l p (Sa & Sb & Sc & _). destruct (view2 _ _ _ Sa) as (a0 & a1 & pa & -> & Ea0 & Ea1), (view2 _ _ _ Sb) as (b0 & b1 & pb & -> & Eb0 & Eb1), (view2 _ _ _ Sc) as (c0 & c1 & pc & -> & Ec0 & Ec1). auto 10.
Qed.
Theorem C122_gemm4 : forall a b c n l p m, matrices a b c n l p -> exists m', gemm4 fixed z add mul a b c m = Ok None m' /\ multiplied a b c n l p m m'.
Proof.
  intros a b c n l p m H. destruct (len_facts _ _ _ _ _ _ H) as (_ & El & _). pose proof H as (_ & _ & _ & (_ & Hl & _) & _). unfold gemm4. rewrite El. apply (loop_spec _ (fun k m' => multiplied a b c n k p m m')); auto using multiplied_0.
  intros k m1 Hk M1. destruct (gemm4_step a b c n l p k m1 H Hk) as (m2 & E & B). exists m2. split; auto. eapply multiplied_step; eauto.
Qed.
Theorem C122_gemm2 : forall a b c n l p m, matrices a b c n l p -> exists m', gemm2 fixed z add mul a b c m = Ok None m' /\ multiplied a b c n l p m m'.
Proof.
  intros a b c n l p m H. destruct (len_facts _ _ _ _ _ _ H) as (_ & El & _). pose proof H as (_ & _ & _ & (_ & Hl & _) & _). unfold gemm2. rewrite El. apply (loop_spec _ (fun k m' => multiplied a b c n k p m m')); auto using multiplied_0.
  intros k m1 Hk M1. destruct (gemm4_step a b c n l p k m1 H Hk) as (m2 & E & B). exists m2. rewrite (gemm2_k_same a b c n l p) by auto. split; auto. eapply multiplied_step; eauto.
Qed.

(* ---- gemm3 ---- *)
Lemma gemm3_step : forall a b c n l p i j m, matrices a b c n l p -> 0 <= i < n -> 0 <= j < p ->
  gemm3_ij fi zi add mul zero a b c i j m = Ok None (wr (vplace c [i; j]) (accum add zero l (fun k => mul (m (vplace a [i; k])) (m (vplace b [k; j])))) m).
Proof.
  intros a b c n l p i j m (Sa & Sb & Sc & (Hn & Hl & Hp) & Da & Db & Ac) Hi Hj. destruct (view2 _ _ _ Sa) as (a0 & a1 & pa & -> & Ea0 & Ea1), (view2 _ _ _ Sb) as (b0 & b1 & pb & -> & Eb0 & Eb1).
  unfold gemm3_ij. rewrite col_at, row_at by lia. cbn [onres]. set (ai := Vw [a1] (pa + i * step a0)). set (bj := Vw [b0] (pb + j * step b1)).
  assert (Sai : vshape ai = [l]) by (cbn; congruence). assert (Sbj : vshape bj = [l]) by (cbn; congruence). assert (Nl : nonneg [l]) by (apply Forall_cons; [lia|constructor]).
  destruct (view_shape (T:=T) ai _ Sai Nl) as (Wa & Ha). destruct (view_shape (T:=T) bj _ Sbj Nl) as (Wb & Hb).
  unfold bind. rewrite (C31_dot T add mul zero (viter ai) (viter bj) [l] (map (fun k => [k]) (zrange l)) m (fun j => m (vplace ai j)) (fun j => m (vplace bj j))); auto.
  - unfold elem. change [cidx i; cidx j] with (map cidx [i; j]). rewrite all_indices by (rewrite Sc; apply P_Mat.in2; auto). cbn [onres vcp]. unfold set_to. f_equal. f_equal. unfold accum. rewrite map_map. f_equal. apply map_ext. intros k. f_equal; f_equal; unfold vplace; cbn [ai bj vcp vdv place step]; lia.
  - apply (same_joint add zero); auto.
  - apply row_major_1.
  - intros ix Hx. exists (VRef (vplace ai ix)). rewrite viter_element, vrank_shape, Sai, whole_in by auto. auto.
  - intros ix Hx. exists (VRef (vplace bj ix)). rewrite viter_element, vrank_shape, Sbj, whole_in by auto. auto.
Qed.
Theorem C122_gemm3 : forall a b c n l p m, matrices a b c n l p -> exists m', gemm3 fi zi add mul zero a b c m = Ok None m' /\ product a b c n l p m m'.
Proof.
  intros a b c n l p m H. destruct (len_facts _ _ _ _ _ _ H) as (En & _ & _ & Ep & _). pose proof H as (Sa & Sb & Sc & (Hn & Hl & Hp) & Da & Db & Ac). unfold gemm3. rewrite En, Ep.
  set (ab := fun i j => accum add zero l (fun k => mul (m (vplace a [i; k])) (m (vplace b [k; j])))).
  set (P := fun i j (m1 : mem T) => (forall i' j', 0 <= i' < n -> 0 <= j' < p -> i' < i \/ (i' = i /\ j' < j) -> m1 (vplace c [i'; j']) = ab i' j') /\ forall q, (forall i' j', 0 <= i' < n -> 0 <= j' < p -> q <> vplace c [i'; j']) -> m1 q = m q).
  destruct (loop_spec (fun i => loop p (gemm3_ij fi zi add mul zero a b c i)) (fun i => P i 0) n m) as (m' & E & V & O); auto.
  - split; auto. intros; lia.
  - intros i m1 Hi H1. destruct (loop_spec (gemm3_ij fi zi add mul zero a b c i) (P i) p m1) as (m2 & E2 & V2 & O2); auto.
    + intros j m2 Hj (V2 & O2). exists (wr (vplace c [i; j]) (ab i j) m2). split.
      * rewrite (gemm3_step a b c n l p) by auto. f_equal. f_equal. unfold ab, accum. f_equal. apply map_ext_in. intros k Hk. apply P_Mat.in_zrange in Hk. f_equal; apply O2; intros i' j' Hi' Hj' Q; [apply (Da [i'; j'] [i; k])|apply (Db [i'; j'] [k; j])]; rewrite ?Sa, ?Sb, ?Sc; auto; apply P_Mat.in2; lia.
      * split.
        -- intros i' j' Hi' Hj' C. unfold wr. destruct (Z.eqb_spec (vplace c [i'; j']) (vplace c [i; j])) as [Q|Q].
           ++ apply Ac in Q; [inversion Q; auto|rewrite Sc; apply P_Mat.in2; auto|rewrite Sc; apply P_Mat.in2; auto].
           ++ apply V2; auto. destruct C as [C|(-> & C)]; auto. right. split; auto. destruct (Z.eq_dec j' j) as [->|]; [congruence|lia].
        -- intros q Hq. unfold wr. destruct (Z.eqb_spec q (vplace c [i; j])) as [Q|_]; [exfalso; apply (Hq i j); auto|auto].
    + exists m2. split; auto. split; auto. intros i' j' Hi' Hj' C. apply V2; auto. lia.
  - exists m'. split; auto. split; auto. intros i j Hi Hj. apply V; auto. lia.
Qed.

(* ---- gemm_block ---- *)
(* w is a part of v: its element i is element f i of v *)
Definition part (v w : view) (f : list Z -> list Z) : Prop := forall i, inshape i (vshape w) -> inshape (f i) (vshape v) /\ vplace w i = vplace v (f i).
Lemma part_separate : forall c c' a a' f g, part c c' f -> part a a' g -> separate c a -> separate c' a'.
Proof. intros c c' a a' f g Pc Pa S i j Hi Hj E. destruct (Pc i Hi) as (I1 & E1), (Pa j Hj) as (I2 & E2). apply (S _ _ I1 I2). congruence. Qed.
Lemma part_apart : forall c c' f, part c c' f -> (forall i j, inshape i (vshape c') -> inshape j (vshape c') -> f i = f j -> i = j) -> apart_at c -> apart_at c'.
Proof. intros c c' f Pc If A i j Hi Hj E. destruct (Pc i Hi) as (I1 & E1), (Pc j Hj) as (I2 & E2). apply If; auto. apply A; auto. congruence. Qed.
Lemma part_whole : forall v, part v v (fun i => i).
Proof. intros v i Hi. auto. Qed.
Lemma part_rows : forall d0 d1 p x o, 0 <= o -> o + x <= len d0 -> part (Vw [d0; d1] p) (Vw [Dim x (step d0); d1] (p + o * step d0)) (fun i => match i with [i0; i1] => [o + i0; i1] | _ => i end).
Proof.
  intros d0 d1 p x o Ho Hx i Hi. apply in2e in Hi as (i0 & i1 & -> & H0 & H1). cbn [len] in H0. split; [apply P_Mat.in2; lia|]. unfold vplace; cbn [vcp vdv place step]; lia.
Qed.
Lemma part_cols : forall d0 d1 p x o, 0 <= o -> o + x <= len d1 -> part (Vw [d0; d1] p) (Vw [d0; Dim x (step d1)] (p + o * step d1)) (fun i => match i with [i0; i1] => [i0; o + i1] | _ => i end).
Proof.
  intros d0 d1 p x o Ho Hx i Hi. apply in2e in Hi as (i0 & i1 & -> & H0 & H1). cbn [len] in H1. split; [apply P_Mat.in2; lia|]. unfold vplace; cbn [vcp vdv place step]; lia.
Qed.
Lemma rows_inj : forall o (i j : list Z) s, length s = 2%nat -> inshape i s -> inshape j s -> match i with [i0; i1] => [o + i0; i1] | _ => i end = match j with [i0; i1] => [o + i0; i1] | _ => j end -> i = j.
Proof.
  intros o i j [|x [|y [|? ?]]] L Hi Hj E; try discriminate L. apply in2e in Hi as (i0 & i1 & -> & H0 & H1). apply in2e in Hj as (j0 & j1 & -> & G0 & G1). injection E as E0 E1. f_equal; [lia|congruence].
Qed.
Lemma cols_inj : forall o (i j : list Z) s, length s = 2%nat -> inshape i s -> inshape j s -> match i with [i0; i1] => [i0; o + i1] | _ => i end = match j with [i0; i1] => [i0; o + i1] | _ => j end -> i = j.
Proof.
  intros o i j [|x [|y [|? ?]]] L Hi Hj E; try discriminate L. apply in2e in Hi as (i0 & i1 & -> & H0 & H1). apply in2e in Hj as (j0 & j1 & -> & G0 & G1). injection E as E0 E1. f_equal; [congruence|]. f_equal. lia.
Qed.
Lemma accum_split : forall x y c (f : Z -> T), 0 <= x -> 0 <= y -> accum add c (x + y) f = accum add (accum add c x f) y (fun k => f (x + k)).
Proof. intros x y c f Hx Hy. unfold accum. rewrite <- fold_left_app, zrange_app, map_app, map_map by auto. reflexivity. Qed.
(* the parts of the arguments, as matrices *)
Lemma by_rows : forall a0 a1 pa b c0 c1 pc n l p x o, matrices (Vw [a0; a1] pa) b (Vw [c0; c1] pc) n l p -> 0 <= x -> 0 <= o -> o + x <= n ->
  matrices (Vw [Dim x (step a0); a1] (pa + o * step a0)) b (Vw [Dim x (step c0); c1] (pc + o * step c0)) x l p.
Proof.
  intros a0 a1 pa b c0 c1 pc n l p x o (Sa & Sb & Sc & (Hn & Hl & Hp) & Da & Db & Ac) Hx Ho Hox. injection Sa as E1 E2. injection Sc as E3 E4.
  split; [cbn; congruence|]. split; [auto|]. split; [cbn; congruence|]. split; [auto|]. split; [|split].
  - eapply part_separate; [apply part_rows|apply part_rows|exact Da]; lia.
  - eapply part_separate; [apply part_rows|apply part_whole|exact Db]; lia.
  - eapply part_apart; [apply part_rows; lia| |exact Ac]. intros i j. apply rows_inj. reflexivity.
Qed.
Lemma by_cols : forall a b0 b1 pb c0 c1 pc n l p x o, matrices a (Vw [b0; b1] pb) (Vw [c0; c1] pc) n l p -> 0 <= x -> 0 <= o -> o + x <= p ->
  matrices a (Vw [b0; Dim x (step b1)] (pb + o * step b1)) (Vw [c0; Dim x (step c1)] (pc + o * step c1)) n l x.
Proof.
  intros a b0 b1 pb c0 c1 pc n l p x o (Sa & Sb & Sc & (Hn & Hl & Hp) & Da & Db & Ac) Hx Ho Hox. injection Sb as E1 E2. injection Sc as E3 E4.
  split; [auto|]. split; [cbn; congruence|]. split; [cbn; congruence|]. split; [auto|]. split; [|split].
  - eapply part_separate; [apply part_cols|apply part_whole|exact Da]; lia.
  - eapply part_separate; [apply part_cols|apply part_cols|exact Db]; lia.
  - eapply part_apart; [apply part_cols; lia| |exact Ac]. intros i j. apply cols_inj. reflexivity.
Qed.
Lemma by_depth : forall a0 a1 pa b0 b1 pb c n l p x o, matrices (Vw [a0; a1] pa) (Vw [b0; b1] pb) c n l p -> 0 <= x -> 0 <= o -> o + x <= l ->
  matrices (Vw [a0; Dim x (step a1)] (pa + o * step a1)) (Vw [Dim x (step b0); b1] (pb + o * step b0)) c n x p.
Proof.
  intros a0 a1 pa b0 b1 pb c n l p x o (Sa & Sb & Sc & (Hn & Hl & Hp) & Da & Db & Ac) Hx Ho Hox. injection Sa as E1 E2. injection Sb as E3 E4.
  split; [cbn; congruence|]. split; [cbn; congruence|]. split; [auto|]. split; [auto|]. split; [|split]; auto.
  - eapply part_separate; [apply part_whole|apply part_cols|exact Da]; lia.
  - eapply part_separate; [apply part_whole|apply part_rows|exact Db]; lia.
Qed.
(* the elements of a and of b are not changed *)
Lemma kept : forall a b c n l p n' l' p' m m' a' b' c', matrices a b c n l p -> multiplied a' b' c' n' l' p' m m' -> (forall i j, 0 <= i < n' -> 0 <= j < p' -> exists i', inshape i' [n; p] /\ vplace c' [i; j] = vplace c i') ->
  (forall i k, 0 <= i < n -> 0 <= k < l -> m' (vplace a [i; k]) = m (vplace a [i; k])) /\ (forall k j, 0 <= k < l -> 0 <= j < p -> m' (vplace b [k; j]) = m (vplace b [k; j])).
Proof.
  intros a b c n l p n' l' p' m m' a' b' c' (Sa & Sb & Sc & _ & Da & Db & Ac) (V & O) Hc. split; intros x y Hx Hy; apply O; intros i j Hi Hj E; destruct (Hc i j Hi Hj) as (ix & Hix & Ei); rewrite Ei in E.
  - apply (Da ix [x; y]); rewrite ?Sa, ?Sc; auto. apply P_Mat.in2; auto.
  - apply (Db ix [x; y]); rewrite ?Sb, ?Sc; auto. apply P_Mat.in2; auto.
Qed.
Theorem C122_block : forall bound d a b c n l p m, matrices a b c n l p -> 1 <= bound -> n + l + p < Z.of_nat d -> exists m', gemm_block fixed z add mul bound d a b c m = Ok None m' /\ multiplied a b c n l p m m'.
Proof.
  intros bound d. induction d as [|d IH]; intros a b c n l p m H Hb Hd; [destruct H as (_ & _ & _ & H & _); lia|].
  cbn [gemm_block]. destruct (len_facts _ _ _ _ _ _ H) as (-> & -> & _ & -> & _). pose proof H as (Sa & Sb & Sc & (Hn & Hl & Hp) & Da & Db & Ac).
  destruct (Z.leb_spec (Z.max n (Z.max l p)) bound); [apply C122_gemm5; auto|].
  destruct (view2 _ _ _ Sa) as (a0 & a1 & pa & -> & Ea0 & Ea1), (view2 _ _ _ Sb) as (b0 & b1 & pb & -> & Eb0 & Eb1), (view2 _ _ _ Sc) as (c0 & c1 & pc & -> & Ec0 & Ec1).
  destruct (Z.leb_spec (Z.max l p) n); [|destruct (Z.leb_spec (Z.max n l) p)].
  - set (h := n / 2). assert (Hh : 0 < h < n) by (subst h; split; [apply Z.div_str_pos|apply Z.div_lt]; lia).
    rewrite !rows_at by lia. cbn [onres]. unfold bind.
    destruct (IH _ _ _ h l p m (by_rows _ _ _ _ _ _ _ _ _ _ h 0 H ltac:(lia) ltac:(lia) ltac:(lia)) Hb ltac:(lia)) as (m1 & -> & M1).
    destruct (IH _ _ _ (n - h) l p m1 (by_rows _ _ _ _ _ _ _ _ _ _ (n - h) h H ltac:(lia) ltac:(lia) ltac:(lia)) Hb ltac:(lia)) as (m2 & -> & M2).
    exists m2. split; [reflexivity|].
    destruct (kept _ _ _ _ _ _ _ _ _ _ _ _ _ _ H M1) as (Ka & Kb).
    { intros i j Hi Hj. exists [i; j]. split; [apply P_Mat.in2; lia|]. unfold vplace; cbn [vcp vdv place step]; lia. }
    destruct M1 as (V1 & O1), M2 as (V2 & O2).
    assert (Q : forall i j, 0 <= i -> vplace (Vw [c0; c1] pc) [h + i; j] = vplace (Vw [Dim (n - h) (step c0); c1] (pc + h * step c0)) [i; j]) by (intros i j _; unfold vplace; cbn [vcp vdv place step]; lia).
    assert (Q1 : forall i j, 0 <= i -> vplace (Vw [c0; c1] pc) [i; j] = vplace (Vw [Dim h (step c0); c1] (pc + 0 * step c0)) [i; j]) by (intros i j _; unfold vplace; cbn [vcp vdv place step]; lia).
    split.
    + intros i j Hi Hj. destruct (Z_lt_ge_dec i h) as [Lt|Ge].
      * rewrite O2.
        -- rewrite Q1, V1, <- Q1 by lia. unfold accum. f_equal. apply map_ext. intros k. f_equal. f_equal. unfold vplace; cbn [vcp vdv place step]; lia.
        -- intros i' j' Hi' Hj' E. rewrite <- Q in E by lia. apply Ac in E; [injection E as E1 E2; lia| |]; rewrite Sc; apply P_Mat.in2; lia.
      * replace i with (h + (i - h)) by lia. rewrite Q, V2, <- Q by lia. rewrite O1.
        -- unfold accum. f_equal. apply map_ext_in. intros k Hk. apply P_Mat.in_zrange in Hk. rewrite Kb by lia. f_equal. rewrite <- Ka by lia. f_equal. unfold vplace; cbn [vcp vdv place step]; lia.
        -- intros i' j' Hi' Hj' E. rewrite <- Q1 in E by lia. apply Ac in E; [injection E as E1 E2; lia| |]; rewrite Sc; apply P_Mat.in2; lia.
    + intros q Hq. rewrite O2, O1; auto; intros i j Hi Hj; [rewrite <- Q1 by lia|rewrite <- Q by lia]; apply Hq; lia.
  - set (h := p / 2). assert (Hh : 0 < h < p) by (subst h; split; [apply Z.div_str_pos|apply Z.div_lt]; lia).
    rewrite !cols_at by lia. cbn [onres]. unfold bind.
    destruct (IH _ _ _ n l h m (by_cols _ _ _ _ _ _ _ _ _ _ h 0 H ltac:(lia) ltac:(lia) ltac:(lia)) Hb ltac:(lia)) as (m1 & -> & M1).
    destruct (IH _ _ _ n l (p - h) m1 (by_cols _ _ _ _ _ _ _ _ _ _ (p - h) h H ltac:(lia) ltac:(lia) ltac:(lia)) Hb ltac:(lia)) as (m2 & -> & M2).
    exists m2. split; [reflexivity|].
    destruct (kept _ _ _ _ _ _ _ _ _ _ _ _ _ _ H M1) as (Ka & Kb).
    { intros i j Hi Hj. exists [i; j]. split; [apply P_Mat.in2; lia|]. unfold vplace; cbn [vcp vdv place step]; lia. }
    destruct M1 as (V1 & O1), M2 as (V2 & O2).
    assert (Q : forall i j, 0 <= i -> vplace (Vw [c0; c1] pc) [i; h + j] = vplace (Vw [c0; Dim (p - h) (step c1)] (pc + h * step c1)) [i; j]) by (intros i j _; unfold vplace; cbn [vcp vdv place step]; lia).
    assert (Q1 : forall i j, 0 <= i -> vplace (Vw [c0; c1] pc) [i; j] = vplace (Vw [c0; Dim h (step c1)] (pc + 0 * step c1)) [i; j]) by (intros i j _; unfold vplace; cbn [vcp vdv place step]; lia).
    split.
    + intros i j Hi Hj. destruct (Z_lt_ge_dec j h) as [Lt|Ge].
      * rewrite O2.
        -- rewrite Q1, V1, <- Q1 by lia. unfold accum. f_equal. apply map_ext. intros k. f_equal. f_equal. unfold vplace; cbn [vcp vdv place step]; lia.
        -- intros i' j' Hi' Hj' E. rewrite <- Q in E by lia. apply Ac in E; [injection E as E1 E2; lia| |]; rewrite Sc; apply P_Mat.in2; lia.
      * replace j with (h + (j - h)) by lia. rewrite Q, V2, <- Q by lia. rewrite O1.
        -- unfold accum. f_equal. apply map_ext_in. intros k Hk. apply P_Mat.in_zrange in Hk. rewrite Ka by lia. f_equal. rewrite <- Kb by lia. f_equal. unfold vplace; cbn [vcp vdv place step]; lia.
        -- intros i' j' Hi' Hj' E. rewrite <- Q1 in E by lia. apply Ac in E; [injection E as E1 E2; lia| |]; rewrite Sc; apply P_Mat.in2; lia.
    + intros q Hq. rewrite O2, O1; auto; intros i j Hi Hj; [rewrite <- Q1 by lia|rewrite <- Q by lia]; apply Hq; lia.
  - set (h := l / 2). assert (Hh : 0 < h < l) by (subst h; split; [apply Z.div_str_pos|apply Z.div_lt]; lia).
    rewrite !cols_at, !rows_at by lia. cbn [onres]. unfold bind.
    destruct (IH _ _ _ n h p m (by_depth _ _ _ _ _ _ _ _ _ _ h 0 H ltac:(lia) ltac:(lia) ltac:(lia)) Hb ltac:(lia)) as (m1 & -> & M1).
    destruct (IH _ _ _ n (l - h) p m1 (by_depth _ _ _ _ _ _ _ _ _ _ (l - h) h H ltac:(lia) ltac:(lia) ltac:(lia)) Hb ltac:(lia)) as (m2 & -> & M2).
    exists m2. split; [reflexivity|].
    destruct (kept _ _ _ _ _ _ _ _ _ _ _ _ _ _ H M1) as (Ka & Kb).
    { intros i j Hi Hj. exists [i; j]. split; [apply P_Mat.in2; lia|]. reflexivity. }
    destruct M1 as (V1 & O1), M2 as (V2 & O2). split.
    + intros i j Hi Hj. rewrite V2, V1 by auto. replace l with (h + (l - h)) at 2 by lia. rewrite accum_split by lia.
      replace (accum add (m (vplace (Vw [c0; c1] pc) [i; j])) h (fun k => mul (m (vplace (Vw [a0; Dim h (step a1)] (pa + 0 * step a1)) [i; k])) (m (vplace (Vw [Dim h (step b0); b1] (pb + 0 * step b0)) [k; j]))))
        with (accum add (m (vplace (Vw [c0; c1] pc) [i; j])) h (fun k => mul (m (vplace (Vw [a0; a1] pa) [i; k])) (m (vplace (Vw [b0; b1] pb) [k; j])))).
      * unfold accum. f_equal. apply map_ext_in. intros k Hk. apply P_Mat.in_zrange in Hk. rewrite <- Ka, <- Kb by lia. f_equal; f_equal; unfold vplace; cbn [vcp vdv place step]; lia.
      * unfold accum. f_equal. apply map_ext. intros k. f_equal; f_equal; unfold vplace; cbn [vcp vdv place step]; lia.
    + intros q Hq. rewrite O2, O1; auto.
Qed.

(* ---- the loops over raw memory ---- *)
(* the elements are contiguous in row-major order *)
Definition packed (v : view) (x y : Z) : Prop := forall i j, 0 <= i < x -> 0 <= j < y -> vplace v [i; j] = vcp v + (i * y + j).
(* cnt i j products have been added to element i, j of c *)
Definition partly (a b c : view) (n l p : Z) (cnt : Z -> Z -> Z) (m m' : mem T) : Prop :=
  (forall i j, 0 <= i < n -> 0 <= j < p -> m' (vplace c [i; j]) = accum add (m (vplace c [i; j])) (cnt i j) (fun k => mul (m (vplace a [i; k])) (m (vplace b [k; j])))) /\
  forall q, (forall i j, 0 <= i < n -> 0 <= j < p -> q <> vplace c [i; j]) -> m' q = m q.
Lemma partly_ext : forall a b c n l p f g m m', partly a b c n l p f m m' -> (forall i j, 0 <= i < n -> 0 <= j < p -> f i j = g i j) -> partly a b c n l p g m m'.
Proof. intros a b c n l p f g m m' (V & O) E. split; auto. intros i j Hi Hj. rewrite <- E by auto. auto. Qed.
Lemma raw_one : forall a b c n l p cnt i j k m m1, matrices a b c n l p -> packed a n l -> packed b l p -> packed c n p -> 0 <= i < n -> 0 <= j < p -> 0 <= k < l -> cnt i j = k -> partly a b c n l p cnt m m1 ->
  exists m2, raw_step add mul a b c i j k m1 = Ok None m2 /\ partly a b c n l p (fun i' j' => if (i' =? i) && (j' =? j) then k + 1 else cnt i' j') m m2.
Proof.
  intros a b c n l p cnt i j k m m1 H Ka Kb Kc Hi Hj Hk Hcnt (V & O). destruct (len_facts _ _ _ _ _ _ H) as (_ & El & _ & Ep & _). destruct H as (Sa & Sb & Sc & (Hn & Hl & Hp) & Da & Db & Ac).
  unfold raw_step, add_to. rewrite El, Ep, <- Ka, <- Kb, <- Kc by auto. eexists. split; [reflexivity|]. split.
  - intros i' j' Hi' Hj'. unfold wr. destruct (Z.eqb_spec (vplace c [i'; j']) (vplace c [i; j])) as [E|E].
    + apply Ac in E; [|rewrite Sc; apply P_Mat.in2; auto|rewrite Sc; apply P_Mat.in2; auto]. injection E as -> ->. rewrite !Z.eqb_refl. cbn [andb]. rewrite (accum_step add mul) by lia. rewrite V, Hcnt by auto. f_equal. f_equal; apply O; intros x y Hx Hy Q; [apply (Da [x; y] [i; k])|apply (Db [x; y] [k; j])]; rewrite ?Sa, ?Sb, ?Sc; auto; apply P_Mat.in2; lia.
    + rewrite V by auto. destruct (Z.eqb_spec i' i), (Z.eqb_spec j' j); cbn [andb]; auto. congruence.
  - intros q Hq. unfold wr. destruct (Z.eqb_spec q (vplace c [i; j])) as [E|_]; [exfalso; apply (Hq i j); auto|auto].
Qed.
Lemma partly_all : forall a b c n l p m m', partly a b c n l p (fun _ _ => l) m m' -> multiplied a b c n l p m m'.
Proof. auto. Qed.
Theorem C122_k_raw : forall a b c n l p m, matrices a b c n l p -> packed a n l -> packed b l p -> packed c n p -> exists m', gemm_k_raw add mul a b c m = Ok None m' /\ multiplied a b c n l p m m'.
Proof.
  intros a b c n l p m H Ka Kb Kc. destruct (len_facts _ _ _ _ _ _ H) as (En & El & _ & Ep & _). pose proof H as (_ & _ & _ & (Hn & Hl & Hp) & _). unfold gemm_k_raw. rewrite En, El, Ep.
  apply (loop_spec _ (fun k => partly a b c n l p (fun _ _ => k) m)); auto; [split; auto|]. intros k m1 Hk P1.
  destruct (loop_spec (fun i => loop p (fun j => raw_step add mul a b c i j k)) (fun i => partly a b c n l p (fun i' _ => if i' <? i then k + 1 else k) m) n m1) as (m2 & E2 & P2); auto.
  - eapply partly_ext; [exact P1|]. intros i j Hi Hj. destruct (Z.ltb_spec i 0); lia.
  - intros i m2 Hi P2. destruct (loop_spec (fun j => raw_step add mul a b c i j k) (fun j => partly a b c n l p (fun i' j' => if (i' <? i) || ((i' =? i) && (j' <? j)) then k + 1 else k) m) p m2) as (m3 & E3 & P3); auto.
    + eapply partly_ext; [exact P2|]. intros i' j' Hi' Hj'. cbv beta. destruct (Z.ltb_spec i' i), (Z.ltb_spec j' 0), (Z.eqb_spec i' i); cbn [orb andb]; first [reflexivity | lia].
    + intros j m3 Hj P3. destruct (fun Q => raw_one a b c n l p _ i j k m m3 H Ka Kb Kc Hi Hj Hk Q P3) as (m4 & E4 & P4); [rewrite Z.ltb_irrefl, Z.ltb_irrefl, andb_false_r; reflexivity|].
      exists m4. split; auto. eapply partly_ext; [exact P4|]. intros i' j' Hi' Hj'. cbv beta. destruct (Z.ltb_spec i' i), (Z.ltb_spec j' j), (Z.ltb_spec j' (j + 1)), (Z.eqb_spec i' i), (Z.eqb_spec j' j); cbn [orb andb]; first [reflexivity | lia].
    + exists m3. split; auto. eapply partly_ext; [exact P3|]. intros i' j' Hi' Hj'. cbv beta. destruct (Z.ltb_spec i' i), (Z.ltb_spec j' p), (Z.ltb_spec i' (i + 1)), (Z.eqb_spec i' i); cbn [orb andb]; first [reflexivity | lia].
  - exists m2. split; auto. eapply partly_ext; [exact P2|]. intros i j Hi Hj. cbv beta. destruct (Z.ltb_spec i n); lia.
Qed.
Theorem C122_ij_raw : forall a b c n l p m, matrices a b c n l p -> packed a n l -> packed b l p -> packed c n p -> exists m', gemm_ij_raw add mul a b c m = Ok None m' /\ multiplied a b c n l p m m'.
Proof.
  intros a b c n l p m H Ka Kb Kc. destruct (len_facts _ _ _ _ _ _ H) as (En & El & _ & Ep & _). pose proof H as (_ & _ & _ & (Hn & Hl & Hp) & _). unfold gemm_ij_raw. rewrite En, El, Ep.
  destruct (loop_spec (fun i => loop p (fun j => loop l (fun k => raw_step add mul a b c i j k))) (fun i => partly a b c n l p (fun i' _ => if i' <? i then l else 0) m) n m) as (m' & E & P); auto.
  - split; auto. intros i j Hi Hj. destruct (Z.ltb_spec i 0); [lia|reflexivity].
  - intros i m1 Hi P1. destruct (loop_spec (fun j => loop l (fun k => raw_step add mul a b c i j k)) (fun j => partly a b c n l p (fun i' j' => if (i' <? i) || ((i' =? i) && (j' <? j)) then l else 0) m) p m1) as (m2 & E2 & P2); auto.
    + eapply partly_ext; [exact P1|]. intros i' j' Hi' Hj'. cbv beta. destruct (Z.ltb_spec i' i), (Z.ltb_spec j' 0), (Z.eqb_spec i' i); cbn [orb andb]; first [reflexivity | lia].
    + intros j m2 Hj P2. destruct (loop_spec (fun k => raw_step add mul a b c i j k) (fun k => partly a b c n l p (fun i' j' => if (i' <? i) || ((i' =? i) && (j' <? j)) then l else if (i' =? i) && (j' =? j) then k else 0) m) l m2) as (m3 & E3 & P3); auto.
      * eapply partly_ext; [exact P2|]. intros i' j' Hi' Hj'. cbv beta. destruct (Z.ltb_spec i' i), (Z.ltb_spec j' j), (Z.eqb_spec i' i), (Z.eqb_spec j' j); cbn [orb andb]; first [reflexivity | lia].
      * intros k m3 Hk P3. destruct (fun Q => raw_one a b c n l p _ i j k m m3 H Ka Kb Kc Hi Hj Hk Q P3) as (m4 & E4 & P4); [rewrite !Z.ltb_irrefl, !Z.eqb_refl; reflexivity|].
        exists m4. split; auto. eapply partly_ext; [exact P4|]. intros i' j' Hi' Hj'. cbv beta. destruct (Z.ltb_spec i' i), (Z.ltb_spec j' j), (Z.eqb_spec i' i), (Z.eqb_spec j' j); cbn [orb andb]; first [reflexivity | lia].
      * exists m3. split; auto. eapply partly_ext; [exact P3|]. intros i' j' Hi' Hj'. cbv beta. destruct (Z.ltb_spec i' i), (Z.ltb_spec j' j), (Z.ltb_spec j' (j + 1)), (Z.eqb_spec i' i), (Z.eqb_spec j' j); cbn [orb andb]; first [reflexivity | lia].
    + exists m2. split; auto. eapply partly_ext; [exact P2|]. intros i' j' Hi' Hj'. cbv beta. destruct (Z.ltb_spec i' i), (Z.ltb_spec j' p), (Z.ltb_spec i' (i + 1)), (Z.eqb_spec i' i); cbn [orb andb]; first [reflexivity | lia].
  - exists m'. split; auto. apply partly_all. eapply partly_ext; [exact P|]. intros i j Hi Hj. cbv beta. destruct (Z.ltb_spec i n); lia.
Qed.

(* ---- all the ways give the same ---- *)
Lemma multiplied_one : forall a b c n l p m m1 m2, multiplied a b c n l p m m1 -> multiplied a b c n l p m m2 -> forall q, m1 q = m2 q.
Proof.
  intros a b c n l p m m1 m2 (V1 & O1) (V2 & O2) q. destruct (in_dec Z.eq_dec q (map (vplace c) (indices [n; p]))) as [I|I].
  - apply in_map_iff in I as (ix & <- & Hx). apply in_indices in Hx. apply in2e in Hx as (i & j & -> & Hi & Hj). rewrite V1, V2; auto.
  - assert (N : forall i j, 0 <= i < n -> 0 <= j < p -> q <> vplace c [i; j]) by (intros i j Hi Hj ->; apply I, in_map, in_indices, P_Mat.in2; auto). rewrite O1, O2; auto.
Qed.
(* Two ways that both succeed leave the same memory. *)
Definition agree (x y : out (mem T) (option unit)) : Prop := exists m1 m2, x = Ok None m1 /\ y = Ok None m2 /\ forall q, m1 q = m2 q.
Theorem C122_same : forall a b c n l p m bound d, matrices a b c n l p -> 1 <= bound -> n + l + p < Z.of_nat d ->
  agree (gemm1 fixed z add mul a b c m) (gemm_c add mul fixed z (viter a) b c m) /\
  agree (gemm2 fixed z add mul a b c m) (gemm_c add mul fixed z (viter a) b c m) /\
  agree (gemm4 fixed z add mul a b c m) (gemm_c add mul fixed z (viter a) b c m) /\
  agree (gemm_block fixed z add mul bound d a b c m) (gemm_c add mul fixed z (viter a) b c m) /\
  (packed a n l -> packed b l p -> packed c n p -> agree (gemm_k_raw add mul a b c m) (gemm_c add mul fixed z (viter a) b c m) /\ agree (gemm_ij_raw add mul a b c m) (gemm_c add mul fixed z (viter a) b c m)) /\
  ((forall i j, 0 <= i < n -> 0 <= j < p -> m (vplace c [i; j]) = zero) -> agree (gemm3 fi zi add mul zero a b c m) (gemm_c add mul fixed z (viter a) b c m)).
Proof.
  intros a b c n l p m bound d H Hb Hd. destruct (C122_gemm5 a b c n l p m H) as (m5 & E5 & M5).
  assert (K : forall x, (exists m', x = Ok None m' /\ multiplied a b c n l p m m') -> agree x (gemm_c add mul fixed z (viter a) b c m)).
  { intros x (m' & Ex & Mx). exists m', m5. split; auto. split; auto. eapply multiplied_one; eauto. }
  split; [apply K, C122_gemm1; auto|]. split; [apply K, C122_gemm2; auto|]. split; [apply K, C122_gemm4; auto|]. split; [apply K, C122_block; auto|].
  split; [intros Ka Kb Kc; split; apply K; [apply C122_k_raw|apply C122_ij_raw]; auto|].
  intros Z0. apply K. destruct (C122_gemm3 a b c n l p m H) as (m3 & E3 & V3 & O3). exists m3. split; auto. split; auto. intros i j Hi Hj. rewrite Z0 by auto. auto.
Qed.
End Gemm.

(* a of shape 3 5 at 100, b of shape 5 2 at 200, c of shape 3 2 at 300; the operation in place of the sum doesn't commute and isn't associative, and shows the order *)
Definition gA : view := Vw [Dim 3 5; Dim 5 1] 100.
Definition gB : view := Vw [Dim 5 2; Dim 2 1] 200.
Definition gC : view := Vw [Dim 3 2; Dim 2 1] 300.
Definition gM : mem Z := fun p => if p <? 200 then p - 99 else if p <? 300 then (p - 200) mod 3 else p - 300.
Definition gadd (x y : Z) : Z := 10 * x - y.
Definition gsees (o : out (mem Z) (option unit)) : list Z := match o with Ok _ m => map m (zrange 6 ++ [100; 114; 200; 209; 299; 300; 301; 302; 303; 304; 305; 306]) | _ => [] end.
Example C122_ex_hypotheses : matrices gA gB gC 3 5 2 /\ packed gA 3 5 /\ packed gB 5 2 /\ packed gC 3 2.
Proof.
  split; [|split; [|split]; intros i j _ _; unfold vplace; cbn [gA gB gC vcp vdv place step]; lia].
  split; [reflexivity|]. split; [reflexivity|]. split; [reflexivity|]. split; [lia|]. split; [|split].
  - intros i j Hi Hj E. apply in2e in Hi as (i0 & i1 & -> & H0 & H1). apply in2e in Hj as (j0 & j1 & -> & G0 & G1). unfold vplace in E. cbn [gA gB gC len vcp vdv place step] in *. lia.
  - intros i j Hi Hj E. apply in2e in Hi as (i0 & i1 & -> & H0 & H1). apply in2e in Hj as (j0 & j1 & -> & G0 & G1). unfold vplace in E. cbn [gA gB gC len vcp vdv place step] in *. lia.
  - intros i j Hi Hj E. apply in2e in Hi as (i0 & i1 & -> & H0 & H1). apply in2e in Hj as (j0 & j1 & -> & G0 & G1). unfold vplace in E. cbn [gA gB gC len vcp vdv place step] in *. f_equal; [lia|f_equal; lia].
Qed.
Definition gR : list Z := gsees (gemm_c gadd Z.mul true z_init (viter gA) gB gC gM).
Example C122_ex : gR = gsees (gemm1 false z_init gadd Z.mul gA gB gC gM) /\ gR = gsees (gemm2 true z_init gadd Z.mul gA gB gC gM) /\ gR = gsees (gemm4 false z_init gadd Z.mul gA gB gC gM) /\
  gR = gsees (gemm_block false z_init gadd Z.mul 2 11 gA gB gC gM) /\ gR = gsees (gemm_block true z_init gadd Z.mul 1 11 gA gB gC gM) /\ gR = gsees (gemm_k_raw gadd Z.mul gA gB gC gM) /\ gR = gsees (gemm_ij_raw gadd Z.mul gA gB gC gM) /\
  gR = [-99; -98; -97; -96; -95; -94; 1; 15; 0; 0; 0; -4310; 89360; 185180; 238310; 374670; 387260; 6].
Proof. vm_compute. auto 10. Qed.
Example C122_ex_gemm3 : gsees (gemm3 true z_init gadd Z.mul 0 gA gB gC gM) = [-99; -98; -97; -96; -95; -94; 1; 15; 0; 0; 0; -4310; -10640; -14820; -61690; -25330; -112740; 6] /\
  gsees (gemm3 true z_init gadd Z.mul 0 gA gB gC (fun p => if p <? 300 then gM p else 0)) = gsees (gemm_c gadd Z.mul true z_init (viter gA) gB gC (fun p => if p <? 300 then gM p else 0)).
Proof. vm_compute. auto. Qed.
(* The ways with a loop on k don't check that b has no more rows than a has columns; those that are a single expression do. *)
Example C122_ex_rows : let b := Vw [Dim 6 2; Dim 2 1] 200 in
  gemm_c gadd Z.mul true z_init (viter gA) b gC gM = Fail gM /\ gemm1 true z_init gadd Z.mul gA b gC gM = Fail gM /\ gsees (gemm4 true z_init gadd Z.mul gA b gC gM) = gR /\ gsees (gemm2 true z_init gadd Z.mul gA b gC gM) = gR.
Proof. vm_compute. auto. Qed.

Print Assumptions C122_same.
Print Assumptions C122_block.
Print Assumptions C122_gemm3.
