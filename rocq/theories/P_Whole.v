(* Properties of cat and normv: C86, C87. *)
From Coq Require Import ZArith List Lia Bool Reals Lra.
From Verif Require Import Spec L_Spec Spec_Ply M_Base M_Expr L_Expr M_Ply L_Ply L_Stl Spec_Expr L_Agree L_Run M_Val Spec_Val L_Val P_Reduce M_View L_View Spec_View P_View M_Slice L_Slice M_Mat Spec_Mat P_Mat M_Fill Spec_Fill P_Fill M_Whole.
Import ListNotations.
Open Scope Z_scope.

Section Whole.
Context {T : Type}.
Notation ex := (expr (val T) (mem T)).

(* ---- C86 ---- *)

Lemma from_part : forall q n o k, 0 <= k -> 0 <= o -> o + k <= n -> from (Vw [Dim n 1] q) [ciota k o 1] = Good (Vw [Dim k 1] (q + o)).
Proof.
  intros q n o k Hk Ho Hn. unfold from, ciota. cbn [filter is_rest length]. unfold frombrank, sumn, vrank. cbn [vdv vcp length map fold_right fsrc fdst].
  change (1 <? 0)%nat with false. cbv iota. change (Z.of_nat 1 - Z.of_nat (1 + 0) + Z.of_nat (1 + 0)) with 1. change (1 <? 0) with false. change (1 =? 0) with false. cbv iota.
  cbn [fromb]. destruct (Z.ltb_spec k 0); [lia|]. unfold seq_ok; cbn [len step].
  assert (E : (0 =? k) || (inside o n && inside (o + (k - 1) * 1) n) = true).
  { destruct (Z.eqb_spec 0 k); [reflexivity|]. cbn [orb]. apply andb_true_iff. rewrite !inside_iff. lia. }
  rewrite E. cbn [rbind fst snd app]. rewrite ?Z.mul_1_r, ?Z.mul_1_l. reflexivity.
Qed.

Lemma shape_len1 : forall s : list Z, (length s <= 1)%nat -> s = [] \/ exists n, s = [n].
Proof. intros [|n [|]] H; cbn in H; eauto; lia. Qed.

(* one part *)
Lemma set_part_spec : forall (a : ex) s x q n o m fixed z, wf a -> shape_is a s -> (length s <= 1)%nat -> zclean z -> 0 <= o -> o + zprod s <= n ->
  (forall m', (forall p, ~ (q <= p < q + n) -> m' p = m p) -> reads a s m' x) ->
  exists m', set_part fixed z (Vw [Dim n 1] q) (zprod s) o a m = Ok None m' /\ (forall j, inshape j s -> m' (q + o + rm s j) = x j) /\
    (forall p, ~ (q + o <= p < q + o + zprod s) -> m' p = m p).
Proof.
  intros a s x q n o m fixed z Wa Sa L Hz Ho Hn U. pose proof (shape_nonneg _ _ _ _ Sa) as Nn.
  assert (Np : 0 <= zprod s) by (apply zprod_nonneg; auto).
  unfold set_part. rewrite from_part by auto.
  assert (Pl : forall i, vplace (Vw [Dim (zprod s) 1] (q + o)) [i] = q + o + i) by (intros; unfold vplace; cbn; lia).
  assert (I1 : forall j, inshape j [zprod s] -> exists i, j = [i] /\ 0 <= i < zprod s).
  { intros j J. inversion J as [|i ? ? ? Hi J']; subst. inversion J'; subst. eauto. }
  assert (Pre : forall i, 0 <= i < zprod s -> inshape (firstn (length s) [i]) s /\ rm s (firstn (length s) [i]) = i).
  { intros i Hi. destruct (shape_len1 s L) as [->|(k & ->)]; cbn [firstn length rm] in *.
    - split; [constructor|]. cbn in Hi. lia.
    - cbn [zprod] in *. split; [constructor; [lia|constructor]|]. cbn. lia. }
  assert (Ax : (axes a <= length s)%nat) by (destruct Sa; lia).
  destruct (assign_new (Vw [Dim (zprod s) 1] (q + o)) a [zprod s] m (fun j => x (firstn (length s) j)) fixed z) as (m' & E & E1 & E2); auto.
  - constructor; auto.
  - intros i j Hi Hj. destruct (I1 _ Hi) as (i' & -> & _), (I1 _ Hj) as (j' & -> & _). rewrite !Pl. intros. f_equal. lia.
  - cbn; lia.
  - intros k. destruct Sa as (Ls & Ps). destruct (Nat.lt_ge_cases k (axes a)) as [Hk|Hk].
    + destruct (shape_len1 s L) as [->|(n1 & ->)]; [cbn in *; lia|]. destruct k; [|cbn in *; lia]. destruct (Ps 0%nat Hk) as (_ & _ & F). cbn [zprod nth] in *. rewrite Z.mul_1_r. exact F.
    + rewrite leaf_lens_out; auto. rewrite <- axes_rank; auto.
  - intros w Hw j Hj. destruct (I1 _ Hj) as (i & -> & Hi). destruct (Pre i Hi) as (P1 & P2).
    assert (R : reads a s w x).
    { apply U. intros p Hp. apply Hw. intros j' Hj'. destruct (I1 _ Hj') as (i' & -> & Hi'). rewrite Pl. lia. }
    destruct (R _ P1) as (v & V1 & V2). exists v. split; auto. rewrite <- V1. symmetry. apply element_prefix; auto. rewrite <- axes_rank; auto.
  - exists m'. split; auto. split.
    + intros j Hj. pose proof (rm_range s j Hj) as Rj. specialize (E1 [rm s j] ltac:(constructor; [lia|constructor])). rewrite Pl in E1. rewrite E1. f_equal.
      destruct (Pre _ Rj) as (P1 & P2). apply (rm_inj s); auto.
    + intros p Hp. apply E2. intros j Hj. destruct (I1 _ Hj) as (i & -> & Hi). rewrite Pl. lia.
Qed.

(* cat(a1, a2) for vectors and scalars: the elements of a1 and then those of a2. It's a new array. *)
Theorem C86_cat : forall (a1 a2 : ex) s1 s2 x1 x2 q m f1 f2 z1 z2, wf a1 -> wf a2 -> shape_is a1 s1 -> shape_is a2 s2 -> (length s1 <= 1)%nat -> (length s2 <= 1)%nat -> zclean z1 -> zclean z2 ->
  (forall m', (forall p, ~ (q <= p < q + (zprod s1 + zprod s2)) -> m' p = m p) -> reads a1 s1 m' x1 /\ reads a2 s2 m' x2) ->
  exists v m', cat f1 f2 z1 z2 q a1 a2 m = Ok v m' /\ vshape v = [zprod s1 + zprod s2] /\
    (forall j, inshape j s1 -> m' (vplace v [rm s1 j]) = x1 j) /\ (forall j, inshape j s2 -> m' (vplace v [zprod s1 + rm s2 j]) = x2 j) /\
    (forall i, inshape [i] (vshape v) -> vplace v [i] = q + i) /\ (forall p, ~ (q <= p < q + (zprod s1 + zprod s2)) -> m' p = m p).
Proof.
  intros a1 a2 s1 s2 x1 x2 q m f1 f2 z1 z2 W1 W2 S1 S2 L1 L2 Z1 Z2 U.
  pose proof (shape_nonneg _ _ _ _ S1) as N1. pose proof (shape_nonneg _ _ _ _ S2) as N2.
  assert (P1 : 0 <= zprod s1) by (apply zprod_nonneg; auto). assert (P2 : 0 <= zprod s2) by (apply zprod_nonneg; auto).
  assert (Sz : forall (a : ex) s, wf a -> shape_is a s -> nonneg s -> sizee a = zprod s /\ rankn a = length s).
  { intros a s Wa Sa Na. pose proof (proj1 Sa) as La. apply shape_is_shape in Sa; auto. destruct Sa as (-> & V). split; [apply size_prod; exact Na|]. rewrite La. symmetry. apply axes_rank; auto. }
  destruct (Sz a1 s1) as (E1 & R1); auto. destruct (Sz a2 s2) as (E2 & R2); auto.
  unfold cat. rewrite E1, E2, R1, R2.
  destruct (Z.leb_spec 0 (zprod s1)); [|lia]. destruct (Z.leb_spec 0 (zprod s2)); [|lia]. destruct (Nat.leb_spec (length s1) 1); [|lia]. destruct (Nat.leb_spec (length s2) 1); [|lia].
  cbn [andb]. unfold bind.
  destruct (set_part_spec a1 s1 x1 q (zprod s1 + zprod s2) 0 m f1 z1) as (m1 & A1 & B1 & C1); auto; [lia|lia|intros; apply U; auto|]. rewrite A1.
  destruct (set_part_spec a2 s2 x2 q (zprod s1 + zprod s2) (zprod s1) m1 f2 z2) as (m2 & A2 & B2 & C2); auto; [lia| |].
  { intros w Hw. apply U. intros p Hp. rewrite Hw by auto. apply C1. lia. }
  rewrite A2. exists (Vw [Dim (zprod s1 + zprod s2) 1] q), m2.
  assert (Pl : forall i, vplace (Vw [Dim (zprod s1 + zprod s2) 1] q) [i] = q + i) by (intros; unfold vplace; cbn; lia).
  split; [reflexivity|]. split; [reflexivity|]. split; [|split; [|split]].
  - intros j Hj. pose proof (rm_range s1 j Hj). rewrite Pl. rewrite C2 by lia. specialize (B1 j Hj). rewrite Z.add_0_r in B1. exact B1.
  - intros j Hj. rewrite Pl. rewrite Z.add_assoc. apply B2. auto.
  - intros i _. apply Pl.
  - intros p Hp. rewrite C2 by lia. apply C1. lia.
Qed.
Theorem C86_rank_refused : forall (a1 a2 : ex) s1 s2 q m f1 f2 z1 z2, wf a1 -> wf a2 -> shape_is a1 s1 -> shape_is a2 s2 -> (1 < length s1 \/ 1 < length s2)%nat ->
  cat f1 f2 z1 z2 q a1 a2 m = Fail m.
Proof.
  intros a1 a2 s1 s2 q m f1 f2 z1 z2 W1 W2 (L1 & _) (L2 & _) H. unfold cat. rewrite axes_rank in L1, L2 by auto.
  destruct (Nat.leb_spec (rankn a1) 1), (Nat.leb_spec (rankn a2) 1); cbn [andb]; try lia; rewrite ?andb_false_r; reflexivity.
Qed.

(* ---- C87 ---- *)
Context {U V : Type}.

Lemma divide_spec : forall v s m n (quo : T -> V -> T) fixed z, vshape v = s -> nonneg s -> separate (vplace v) s -> zclean z ->
  exists m', divide fixed z quo (viter v) n m = Ok None m' /\ (forall j, inshape j s -> m' (vplace v j) = quo (m (vplace v j)) n) /\ (forall q, outside (vplace v) s q -> m' q = m q).
Proof.
  intros v s m n quo fixed z Hs Nn Sep Hz. unfold divide. destruct (view_shape (T:=T) v s Hs Nn) as (Wv & Sv).
  assert (Rk : forall j, inshape j s -> firstn (vrank v) j = j).
  { intros j Hj. apply firstn_all2. rewrite (inshape_length _ _ Hj), <- Hs. unfold vshape. rewrite map_length. unfold vrank. lia. }
  pose proof (row_major_indices s) as Hj.
  rewrite (ply_spec _ _ _ no_stop fixed z _ s (indices s)); auto.
  2:{ apply wf_map; [discriminate|]. constructor; auto. constructor; auto. cbn. auto. }
  2:{ apply joint_shape_map. apply joint_new; auto; cbn; [auto|lia|intros; constructor]. }
  set (get := element _). 
  destruct (each_scatter _ get (fun t _ => quo t n) (vplace v) (fun j => m (vplace v j)) (indices s) m []) with (m := m) as (m' & E1 & E2).
  - intros l1 j l2 m1 E Hm1. destruct (row_major_split _ _ _ _ _ Hj E) as (Hin & Hl). subst get. exists VUnit. cbn [element map].
    rewrite (in_order_2 _ _ _ _ _ (VRef (vplace v j)) m1 VUnit m1); auto.
    rewrite <- (Rk j Hin) at 2. exact (viter_refers v s j m1 Hin).
  - auto.
  - exists m'. rewrite visit_each.
    split; [exact (f_equal _ E1)|]. split.
    + intros j J. rewrite E2. rewrite (filter_one _ _ _ j); [reflexivity|apply indices_nodup|apply in_indices; auto|].
      intros y Hy. apply in_indices in Hy. rewrite Z.eqb_eq. split; intros; subst; auto.
    + intros p Hp. rewrite E2. rewrite filter_none; auto. intros y Hy. apply in_indices in Hy. apply Z.eqb_neq. intros Eq. apply (Hp y); auto.
Qed.

(* Each element over the root of the sum of the squares; a new array. *)
Theorem C87_elements : forall (e : ex) s js x q m f1 f2 f3 z1 z2 z3 (add : U -> U -> U) (sqrm : T -> U) (root : U -> V) (quo : T -> V -> T) zero,
  wf e -> shape_is e s -> row_major s js -> zclean z1 -> zclean z2 -> zclean z3 ->
  (forall m', (forall p, ~ (q <= p < q + zprod s) -> m' p = m p) -> reads e s m' x) ->
  exists c m', normv f1 f2 f3 z1 z2 z3 add sqrm root quo zero q e m = Ok c m' /\ vshape c = s /\ separate (vplace c) s /\ (forall j, inshape j s -> q <= vplace c j < q + zprod s) /\
    (forall j, inshape j s -> m' (vplace c j) = quo (x j) (root (fold_left (fun c t => add c (sqrm t)) (map x js) zero))) /\
    (forall p, ~ (q <= p < q + zprod s) -> m' p = m p).
Proof.
  intros e s js x q m f1 f2 f3 z1 z2 z3 add sqrm root quo zero We Se Hj H1 H2 H3 Ux.
  pose proof (shape_nonneg _ _ _ _ Se) as Nn.
  destruct (C51_concrete e s x q m f1 z1 We Se H1 Ux) as (c & m1 & E & Vs & Sep & In & Rd & Out & _).
  unfold normv, norm2, bind. rewrite E. destruct (view_shape (T:=T) c s Vs Nn) as (Wv & Sv).
  rewrite (reduce1_spec U f2 z2 (fun x c => add c (sqrm x)) (viter c) s js m1 x) by auto. unfold ret.
  match goal with |- context [divide _ _ _ _ ?n _] => destruct (divide_spec c s m1 n quo f3 z3) as (m2 & D & D1 & D2) end; auto.
  rewrite D. exists c, m2. split; [reflexivity|]. split; auto. split; auto. split; auto. split.
  - intros j J. rewrite D1 by auto. destruct (Rd j J) as (v & V1 & V2). rewrite (viter_refers c s j m1 J) in V1. injection V1 as <-. cbn [value_of] in V2.
    rewrite firstn_all2 in V2 by (rewrite (inshape_length _ _ J), <- Vs; unfold vshape; rewrite map_length; unfold vrank; lia). injection V2 as ->. reflexivity.
  - intros p Hp. rewrite D2; [apply Out; auto|]. intros j J Eq. subst p. apply Hp. auto.
Qed.
End Whole.

(* With an exact quotient the norm of the result is 1, unless all the elements are zero. T may be R or C: the square of the absolute value of t/r is that of t over r*r. *)
Lemma fold_plus : forall T (f : T -> R) l c, fold_left (fun c t => (c + f t)%R) l c = (c + fold_left (fun c t => (c + f t)%R) l 0)%R.
Proof.
  induction l as [|t l IH]; intros c; cbn [fold_left]; [lra|]. rewrite IH, (IH (0 + f t)%R). lra.
Qed.
Lemma fold_scale : forall T (f g : T -> R) k l, (forall t, g t = (f t / k)%R) -> fold_left (fun c t => (c + g t)%R) l 0%R = (fold_left (fun c t => (c + f t)%R) l 0 / k)%R.
Proof.
  intros T f g k l H. induction l as [|t l IH]; cbn [fold_left]; [unfold Rdiv; lra|]. rewrite fold_plus, (fold_plus _ f). rewrite IH, H. unfold Rdiv. lra.
Qed.
Lemma fold_nonneg : forall T (f : T -> R) l, (forall t, (0 <= f t)%R) -> (0 <= fold_left (fun c t => (c + f t)%R) l 0)%R.
Proof. intros T f l H. induction l as [|t l IH]; cbn [fold_left]; [lra|]. rewrite fold_plus. specialize (H t). lra. Qed.
Theorem C87_unit : forall T (e : expr (val T) (mem T)) s js x q m f1 f2 f3 f4 z1 z2 z3 z4 (sqrm : T -> R) (quo : T -> R -> T),
  wf e -> shape_is e s -> row_major s js -> zclean z1 -> zclean z2 -> zclean z3 -> zclean z4 ->
  (forall m', (forall p, ~ (q <= p < q + zprod s) -> m' p = m p) -> reads e s m' x) ->
  (forall t, (0 <= sqrm t)%R) -> (forall t r, r <> 0%R -> sqrm (quo t r) = (sqrm t / (r * r))%R) -> (exists j, inshape j s /\ sqrm (x j) <> 0%R) ->
  exists c m', normv f1 f2 f3 z1 z2 z3 Rplus sqrm sqrt quo 0%R q e m = Ok c m' /\ norm2 f4 z4 Rplus sqrm sqrt 0%R (viter c) m' = Ok 1%R m'.
Proof.
  intros T e s js x q m f1 f2 f3 f4 z1 z2 z3 z4 sqrm quo We Se Hj H1 H2 H3 H4 Ux Pos Quo (j0 & J0 & Nz).
  destruct (C87_elements e s js x q m f1 f2 f3 z1 z2 z3 Rplus sqrm sqrt quo 0%R We Se Hj H1 H2 H3 Ux) as (c & m' & E & Vs & _ & _ & El & _).
  exists c, m'. split; [exact E|]. pose proof (shape_nonneg _ _ _ _ Se) as Nn. destruct (view_shape (T:=T) c s Vs Nn) as (Wv & Sv).
  set (n2 := fold_left (fun c t => (c + sqrm t)%R) (map x js) 0%R) in *.
  assert (P : (0 < n2)%R).
  { assert (In j0 js) as I by (apply (proj2 Hj); auto). apply (in_map x) in I. destruct (in_split _ _ I) as (l1 & l2 & El'). unfold n2. rewrite El', fold_left_app. cbn [fold_left].
    rewrite fold_plus. pose proof (fold_nonneg T sqrm l1 Pos). pose proof (fold_nonneg T sqrm l2 Pos). pose proof (Pos (x j0)). lra. }
  unfold norm2, bind.
  rewrite (reduce1_spec R f4 z4 (fun x c => (c + sqrm x)%R) (viter c) s js m' (fun j => quo (x j) (sqrt n2))); auto.
  - unfold ret. f_equal. rewrite <- map_map with (f := x) (g := fun t => quo t (sqrt n2)). rewrite <- fold_left_map.
    rewrite (fold_scale T sqrm (fun t => sqrm (quo t (sqrt n2))) n2).
    + change (sqrt (n2 / n2) = 1%R). replace (n2 / n2)%R with 1%R by (field; lra). apply sqrt_1.
    + intros t. rewrite Quo; [rewrite sqrt_sqrt; lra|]. pose proof (sqrt_lt_R0 n2 P). lra.
  - intros j J. exists (VRef (vplace c j)). split.
    + rewrite (viter_refers c s j m' J). do 3 f_equal. apply firstn_all2. rewrite (inshape_length _ _ J), <- Vs. unfold vshape. rewrite map_length. unfold vrank. lia.
    + cbn [value_of]. f_equal. apply El. auto.
Qed.


(* With an array of integers the quotient is truncated in place: normv({3, 4}) is {0, 0}. *)
Definition trunc (r : R) : Z := if Rle_dec 0 r then Int_part r else (- Int_part (- r))%Z.
Lemma trunc_small : forall r, (0 <= r < 1)%R -> trunc r = 0.
Proof.
  intros r H. unfold trunc. destruct (Rle_dec 0 r); [|lra]. unfold Int_part. rewrite <- (tech_up r 1); [reflexivity|lra|lra].
Qed.
Theorem C87_int_refuted : ~ (forall (e : expr (val Z) (mem Z)) s js x q m, wf e -> shape_is e s -> row_major s js ->
  (forall m', (forall p, ~ (q <= p < q + zprod s) -> m' p = m p) -> reads e s m' x) -> (exists j, inshape j s /\ x j <> 0) ->
  exists c m' r, normv true true true z_init z_init z_init Z.add (fun t => t * t) (fun n => sqrt (IZR n)) (fun t r => trunc (IZR t / r)) 0 q e m = Ok c m' /\
    norm2 true z_init Z.add (fun t => t * t) (fun n => sqrt (IZR n)) 0 (viter c) m' = Ok r m' /\ r = 1%R).
Proof.
  intros H. set (e := viter (T:=Z) (Vw [Dim 2 1] 0)). set (m := fun p : Z => if p =? 0 then 3 else 4).
  assert (We : wf e /\ shape_is e [2]) by (apply view_shape; [reflexivity|repeat constructor; lia]). destruct We as (We & Se).
  assert (I2 : forall j, inshape j [2] -> j = [0] \/ j = [1]).
  { intros j J. inversion J as [|i ? ? ? Hi J']; subst. inversion J'; subst. assert (i = 0 \/ i = 1) as [->| ->] by lia; auto. }
  assert (Rd : forall m', (forall p, ~ (10 <= p < 10 + zprod [2]) -> m' p = m p) -> reads e [2] m' (fun j => m (nth 0 j 0))).
  { intros m' Hm j J. exists (VRef (nth 0 j 0)). destruct (I2 j J) as [->| ->]; cbn in *; split; auto; rewrite Hm; auto; lia. }
  destruct (H e [2] [[0]; [1]] (fun j => m (nth 0 j 0)) 10 m) as (c & m' & r & E & N & Er); auto.
  - apply (row_major_indices [2]).
  - exists [0]. split; [repeat constructor; lia|]. cbn. discriminate.
  - destruct (C87_elements e [2] [[0]; [1]] (fun j => m (nth 0 j 0)) 10 m true true true z_init z_init z_init Z.add (fun t => t * t) (fun n => sqrt (IZR n)) (fun t r => trunc (IZR t / r)) 0)
      as (c' & m2 & E' & Vs & _ & _ & El & _); auto using z_init_clean; [apply (row_major_indices [2])|].
    rewrite E in E'. injection E' as <- <-.
    assert (S25 : sqrt (IZR 25) = 5%R). { replace (IZR 25) with (5 * 5)%R by lra. apply sqrt_square. lra. }
    change (fold_left _ _ _) with 25 in El. rewrite S25 in El.
    assert (V0 : m' (vplace c [0]) = 0). { rewrite El by (repeat constructor; lia). apply trunc_small. change (m (nth 0 [0] 0)) with 3. lra. }
    assert (V1 : m' (vplace c [1]) = 0). { rewrite El by (repeat constructor; lia). apply trunc_small. change (m (nth 0 [1] 0)) with 4. lra. }
    destruct (view_shape (T:=Z) c [2] Vs) as (Wv & Sv); [repeat constructor; lia|].
    unfold norm2, bind in N. rewrite (reduce1_spec Z true z_init (fun x c => c + x * x) (viter c) [2] [[0]; [1]] m' (fun _ => 0)) in N; auto using z_init_clean.
    + unfold ret in N. cbn in N. injection N as N. subst r. rewrite sqrt_0 in Er. lra.
    + apply (row_major_indices [2]).
    + intros j J. exists (VRef (vplace c j)). split.
      * rewrite (viter_refers c [2] j m' J). do 3 f_equal. apply firstn_all2. rewrite (inshape_length _ _ J), <- Vs. unfold vshape. rewrite map_length. unfold vrank. lia.
      * cbn [value_of]. destruct (I2 j J) as [->| ->]; congruence.
Qed.

(* cat of a vector of 3 with steps -2 and a number; of a number and an empty vector *)
Example C86_example : let a := viter (T:=Z) (Vw [Dim 3 (-2)] 4) in let b := Scalar (VT 7) in
  wf a /\ wf b /\ shape_is a [3] /\ shape_is b [] /\
  (forall m', (forall p, ~ (10 <= p < 14) -> m' p = exm p) -> reads a [3] m' (fun j => exm (4 - 2 * nth 0 j 0)) /\ reads b [] m' (fun _ => 7)) /\
  (exists m', cat true false z_init z_init 10 a b exm = Ok (Vw [Dim 4 1] 10) m' /\ map m' [10; 11; 12; 13] = [exm 4; exm 2; exm 0; 7]) /\
  (exists m', cat true false z_init z_init 10 b (viter (Vw [Dim 0 1] 0)) exm = Ok (Vw [Dim 1 1] 10) m' /\ m' 10 = 7).
Proof.
  cbv zeta. destruct (view_shape (T:=Z) (Vw [Dim 3 (-2)] 4) [3] eq_refl ltac:(repeat constructor; lia)) as (Wv & Sv).
  split; auto. split; [cbn; auto|]. split; auto. split; [split; [reflexivity|cbn; lia]|]. split; [|split].
  - intros m' Hm. split.
    + intros j J. inversion J as [|i ? ? ? Hi J']; subst. inversion J'; subst. assert (i = 0 \/ i = 1 \/ i = 2) as [->|[->| ->]] by lia; eexists; (split; [reflexivity|]); cbn [value_of nth]; f_equal; apply Hm; lia.
    + intros j J. exists (VT 7). split; reflexivity.
  - eexists. split; [vm_compute; reflexivity|vm_compute; reflexivity].
  - eexists. split; [vm_compute; reflexivity|vm_compute; reflexivity].
Qed.
(* the hypotheses on the quotient, for real numbers; a vector that isn't zero *)
Example C87_example : (forall t : R, (0 <= t * t)%R) /\ (forall t r : R, r <> 0%R -> ((t / r) * (t / r) = (t * t) / (r * r))%R) /\
  let e := viter (T:=R) (Vw [Dim 2 1] 0) in let m := fun p : Z => IZR (p + 3) in
  wf e /\ shape_is e [2] /\ (forall m', (forall p, ~ (10 <= p < 10 + zprod [2]) -> m' p = m p) -> reads e [2] m' (fun j => m (nth 0 j 0))) /\
  (exists j, inshape j [2] /\ (m (nth 0%nat j 0%Z) * m (nth 0%nat j 0%Z))%R <> 0%R).
Proof.
  split; [intros; nra|]. split; [intros; field; auto|]. cbv zeta.
  destruct (view_shape (T:=R) (Vw [Dim 2 1] 0) [2] eq_refl ltac:(repeat constructor; lia)) as (Wv & Sv). split; auto. split; auto. split.
  - intros m' Hm j J. inversion J as [|i ? ? ? Hi J']; subst. inversion J'; subst. exists (VRef i). split; [cbn; do 2 f_equal; lia|]. cbn [value_of nth]. f_equal. apply Hm. cbn. lia.
  - exists [0]. split; [repeat constructor; lia|]. cbn. lra.
Qed.

Print Assumptions C86_cat.
Print Assumptions C86_rank_refused.
Print Assumptions C87_elements.
Print Assumptions C87_unit.
Print Assumptions C87_int_refuted.
