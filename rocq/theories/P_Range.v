(* Properties of views and arrays as ranges, back(), as(), shared_borrowing(): C83-C85. *)
From Coq Require Import ZArith List Lia Bool Sorted.
From Verif Require Import Spec L_Spec Spec_Ply Spec_Expr M_Base M_Expr M_Ply M_Val Spec_Val L_Expr L_Agree L_Ply L_Stl L_Run L_Val P_Ply P_Reduce M_View L_View Spec_View P_View M_Slice Spec_Slice L_Slice P_Slice M_Range.
Import ListNotations.
Open Scope Z_scope.

(* ---- C83 ---- *)

Section Range.
Context {X W : Type}.
Variable val : Z -> X.

Lemma ptr_each : forall pl (f : X -> M W unit) js c i fuel w, map pl js = map (fun k => c + Z.of_nat k) (seq i (length js)) -> (length js < fuel)%nat ->
  ptr_for val fuel f (c + Z.of_nat i) (c + Z.of_nat i + Z.of_nat (length js)) w = each (fun j => f (val (pl j))) js w.
Proof.
  intros pl f. induction js as [|j js IH]; intros c i [|fuel] w E L; cbn [length] in *; try lia; cbn [ptr_for].
  - rewrite Z.add_0_r, Z.eqb_refl. reflexivity.
  - destruct (Z.eqb_spec (c + Z.of_nat i) (c + Z.of_nat i + Z.of_nat (S (length js)))); [lia|]. cbn [map seq] in E. injection E as E1 E2.
    cbn [each]. unfold bind. rewrite E1. destruct (f (val (c + Z.of_nat i)) w); auto.
    rewrite <- (IH c (S i) fuel) by (auto; lia). f_equal; lia.
Qed.

Lemma compact_each : forall dv cp js (f : X -> M W unit) fuel w, nonneg (map len dv) -> (forall j, inshape j (map len dv) -> place dv j = rm (map len dv) j) ->
  row_major (map len dv) js -> (length js < fuel)%nat ->
  ptr_for val fuel f cp (cp + dimv_size dv) w = each (fun j => f (val (cp + place dv j))) js w.
Proof.
  intros dv cp js f fuel w Hn Hp Hj L. apply row_major_unique in Hj. subst js.
  assert (M : map (fun j => cp + place dv j) (indices (map len dv)) = map (fun k => cp + Z.of_nat k) (seq 0 (length (indices (map len dv))))).
  { transitivity (map (fun k => cp + k) (map (rm (map len dv)) (indices (map len dv)))).
    - rewrite map_map. apply map_ext_in. intros j Hj. apply in_indices in Hj. rewrite Hp by auto. reflexivity.
    - rewrite rm_indices by auto. unfold zrange. rewrite map_map. f_equal. f_equal. rewrite <- indices_count by auto. lia. }
  rewrite <- (ptr_each _ f _ cp 0%nat fuel w M L).
  rewrite indices_count by auto. rewrite dimv_size_prod by auto. f_equal; lia.
Qed.

(* Every view with bounded lengths, whichever way it's iterated on. A step in the type that is 1 is the step of the view. *)
Theorem C83_view : forall ct step1 (a : view) js, nonneg (vshape a) -> (step1 = true -> exists n, vdv a = [Dim n 1]) -> row_major (vshape a) js ->
  exists r, view_range val ct step1 a = Some r /\
    forall (f : X -> M W unit) fuel w, (length js < fuel)%nat -> range_for val fuel f r w = each (fun j => f (val (vplace a j))) js w.
Proof.
  intros ct step1 a js Hn H1 Hj. unfold view_range, vshape, vplace in *.
  destruct (ct && c_order (vdv a) true || step1) eqn:E.
  - eexists; split; [reflexivity|]. intros f fuel w L. cbn [range_for]. apply compact_each; auto.
    apply orb_true_iff in E. destruct E as [E|E].
    + apply andb_true_iff in E. apply C13_contiguous; tauto.
    + destruct (H1 E) as (n & ->). intros j J. inversion J as [|x ? j' ? Hx J']; subst. inversion J'; subst. cbn. lia.
  - assert (Hw : wf (Cell (vdv a) (length (vdv a)) val (vcp a) : expr X W)).
    { cbn. split; [lia|]. clear - Hn. induction (vdv a) as [|d dv IH]; cbn in *; [constructor|]. inversion Hn; subst. constructor; auto. unfold oklen; lia. }
    assert (Hs : shape_is (Cell (vdv a) (length (vdv a)) val (vcp a) : expr X W) (map len (vdv a))).
    { apply cell_shape. clear - Hn. induction (vdv a) as [|d dv IH]; cbn in *; [constructor|]. inversion Hn; subst. constructor; auto. }
    destruct (C11_stl_range _ _ _ _ js Hw Hs Hj) as (_ & C).
    destruct (stl_begin _) as [s|] eqn:Es.
    + eexists; split; [reflexivity|]. intros f fuel w L. cbn [range_for]. destruct (C f fuel w L) as (it & E1 & E2). injection E1 as <-. rewrite E2.
      apply each_ext. intros j w' Hin. apply Hj in Hin. cbn [element]. unfold bind, ret.
      assert (Lj : (length j <= length (vdv a))%nat) by (rewrite (inshape_length _ _ Hin), map_length; auto).
      rewrite firstn_all, (firstn_all2 j Lj). destruct (f _ w'); auto.
    + apply shape_is_shape in Hs; auto. destruct Hs as (_ & Hv). unfold stl_begin in Es. rewrite Hv in Es. discriminate.
Qed.

(* Containers (cf C12, C39) *)
Theorem C83_array : forall s dv n cp js, filldimv s = Some (dv, n) -> row_major s js ->
  forall (f : X -> M W unit) fuel w, (length js < fuel)%nat -> range_for val fuel f (array_range (Vw dv cp)) w = each (fun j => f (val (vplace (Vw dv cp) j))) js w.
Proof.
  intros s dv n cp js E Hj f fuel w L. unfold vplace; cbn [array_range range_for vdv vcp].
  assert (Hn : nonneg s). { apply Forall_forall. intros x Hx. destruct (Z.lt_ge_cases x 0); auto. rewrite (C12_refused s) in E; [discriminate|eauto]. }
  destruct (filldimv_some s Hn) as (dv' & E1 & E2 & E3). rewrite E in E1. injection E1 as E4 E5. subst dv'. subst s.
  apply compact_each; auto. intros j J. apply E3. apply inshape_length; auto.
Qed.

(* An unbounded axis is refused if the view isn't iterated on with pointers. *)
Theorem C83_unbounded_partial : forall ct step1 (a : view), Forall (fun n => 0 <= n \/ n = UNB) (vshape a) -> In UNB (vshape a) -> (ct && c_order (vdv a) true) || step1 = false ->
  @view_range X W val ct step1 a = None.
Proof.
  intros ct step1 a Hn Hu E. unfold view_range. rewrite E. unfold vshape in *.
  assert (Hw : wf (Cell (vdv a) (length (vdv a)) val (vcp a) : expr X W)).
  { cbn. split; [lia|]. clear - Hn. induction (vdv a) as [|d dv IH]; cbn in *; [constructor|]. inversion Hn; subst. constructor; auto. }
  destruct (In_nth _ _ 0 Hu) as (k & Hk & Ek). rewrite map_length in Hk.
  destruct (C54_unbounded_refused _ _ unit no_stop (Cell (vdv a) (length (vdv a)) val (vcp a) : expr X W) k [] Hw) as (_ & _ & ->); auto.
  cbn [leaf_lens]. destruct (Nat.ltb_spec k (length (vdv a))); [|lia]. constructor; auto. rewrite <- Ek. change 0 with (len dim0). rewrite map_nth. reflexivity.
Qed.
End Range.
Example C83_ex : let log := (fun x w => Ok tt (w ++ [x])) : Z -> M (list Z) unit in
  (exists r, view_range (fun p => p) false false (Vw [Dim 3 1; Dim 2 3] 0) = Some r /\ range_for (fun p => p) 7 log r [] = Ok tt [0; 3; 1; 4; 2; 5]) /\
  (exists r, view_range (fun p => p) true false (Vw [Dim 2 3; Dim 3 1] 5) = Some r /\ range_for (fun p => p) 7 log r [] = Ok tt [5; 6; 7; 8; 9; 10]) /\
  (exists r, view_range (fun p => p) false true (Vw [Dim 3 1] 5) = Some r /\ range_for (fun p => p) 7 log r [] = Ok tt [5; 6; 7]) /\
  @view_range Z (list Z) (fun p => p) false false (Vw [Dim UNB 0; Dim 3 1] 0) = None.
Proof. cbv zeta. repeat split; try (eexists; split; reflexivity). Qed.

Definition log_up_to (n : nat) : Z -> M (list Z) unit := fun x w => if (length w <? n)%nat then Ok tt (w ++ [x]) else Fail w.
Lemma ptr_runs : forall n p e w, e < p -> ptr_for (fun p => p) (S n) (log_up_to (length w + n)) p e w = Fail (w ++ map (fun k => p + Z.of_nat k) (seq 0 n)).
Proof.
  induction n as [|n IH]; intros p e w H; cbn [ptr_for]; (destruct (Z.eqb_spec p e); [lia|]); unfold bind, log_up_to at 1.
  - destruct (Nat.ltb_spec (length w) (length w + 0)); [lia|]. rewrite app_nil_r. reflexivity.
  - destruct (Nat.ltb_spec (length w) (length w + S n)); [|lia].
    specialize (IH (p + 1) e (w ++ [p]) ltac:(lia)). rewrite app_length in IH. cbn [length] in IH. replace (length w + 1 + n)%nat with (length w + S n)%nat in IH by lia.
    cbn [ptr_for] in IH. unfold bind in IH. rewrite IH. rewrite <- app_assoc. cbn [seq map app]. rewrite <- seq_shift, map_map. do 3 f_equal.
    + lia.
    + apply map_ext. intros k. lia.
Qed.
(* iota() as a range goes through 0, 1, ... and never ends, instead of being refused. The same with a pointer, viewptr(p), reads beyond any array. *)
Theorem C83_unbounded_refuted : exists a n, vdv a = [Dim n 1] /\ n = UNB /\ forall ct, exists r, view_range (fun p => p) ct true a = Some r /\
  (forall fuel (f : Z -> M (list Z) unit) w, (forall x w, exists w', f x w = Ok tt w') -> range_for (fun p => p) fuel f r w = Undef) /\
  (forall n, range_for (fun p => p) (S n) (log_up_to n) r [] = Fail (zrange (Z.of_nat n))).
Proof.
  exists (Vw [Dim UNB 1] 0), UNB. split; [reflexivity|]. split; [reflexivity|]. intros ct.
  exists (RPtr 0 UNB). split; [unfold view_range; rewrite orb_true_r; reflexivity|]. split.
  - intros fuel f w Hf. cbn [range_for]. assert (G : forall fuel p w, UNB < p -> ptr_for (fun p => p) fuel f p UNB w = Undef).
    { clear fuel w. induction fuel; intros p w Hp; [reflexivity|]. cbn [ptr_for]. destruct (Z.eqb_spec p UNB); [lia|]. unfold bind. destruct (Hf p w) as (w' & ->). apply IHfuel. lia. }
    apply G. reflexivity.
  - intros n. cbn [range_for]. pose proof (ptr_runs n 0 UNB [] ltac:(reflexivity)) as E. cbn [length Nat.add app] in E. rewrite E. unfold zrange. rewrite Nat2Z.id. reflexivity.
Qed.

(* ---- C84 ---- *)

Theorem C84_same : forall r1 s b, (r1 = true -> vrank s = 1%nat) -> shared_borrowing r1 s = Good b -> vshape b = vshape s /\ forall j, vplace b j = vplace s j.
Proof.
  intros [|] [dv cp] b R E; unfold shared_borrowing, vrank in *; cbn [vdv vcp] in *.
  - destruct dv as [|[n st] [|]]; try discriminate. cbn [step] in E. destruct (Z.eqb_spec st 1) as [->|]; [|discriminate]. injection E as <-. auto.
  - injection E as <-. auto.
Qed.
Theorem C84_accepted : forall r1 s, (r1 = true -> vrank s = 1%nat) -> (exists b, shared_borrowing r1 s = Good b) \/ (shared_borrowing r1 s = Refused /\ r1 = true /\ exists n st, vdv s = [Dim n st] /\ st <> 1).
Proof.
  intros [|] [dv cp] R; unfold shared_borrowing, vrank in *; cbn [vdv vcp] in *; [|left; eauto].
  destruct dv as [|[n st] [|]]; try (specialize (R eq_refl); discriminate). cbn [step len]. destruct (Z.eqb_spec st 1); [left; eauto|right]. split; auto. split; auto. eauto.
Qed.
(* as a range, for rank 1 in the type *)
Theorem C84_range_rank1 : forall X W (val : Z -> X) s b js, nonneg (vshape s) -> shared_borrowing true s = Good b -> row_major (vshape s) js ->
  forall (f : X -> M W unit) fuel w, (length js < fuel)%nat -> range_for val fuel f (array_range b) w = each (fun j => f (val (vplace s j))) js w.
Proof.
  intros X W val [dv cp] b js Hn E Hj f fuel w L; unfold shared_borrowing, vshape, vplace in *; cbn [vdv vcp] in *.
  destruct dv as [|[n st] [|]]; try discriminate. cbn [step] in E. destruct (Z.eqb_spec st 1) as [->|]; [|discriminate]. injection E as <-.
  unfold array_range; cbn [range_for vdv vcp len]. apply compact_each; auto.
Qed.
(* any rank, if the elements are contiguous and in order *)
Theorem C84_range_partial : forall X W (val : Z -> X) s b js, nonneg (vshape s) -> (forall j, inshape j (vshape s) -> place (vdv s) j = rm (vshape s) j) ->
  shared_borrowing false s = Good b -> row_major (vshape s) js ->
  forall (f : X -> M W unit) fuel w, (length js < fuel)%nat -> range_for val fuel f (array_range b) w = each (fun j => f (val (vplace s j))) js w.
Proof.
  intros X W val [dv cp] b js Hn Hc E Hj f fuel w L. injection E as <-. unfold vplace, vshape in *; cbn [vdv vcp array_range range_for] in *. apply compact_each; auto.
Qed.
(* Not otherwise. This is a 2x2 piece of a matrix of 2x4 elements; the range goes through elements that are not in it. *)
Theorem C84_range_refuted : exists s b, shared_borrowing false s = Good b /\ nonneg (vshape s) /\
  range_for (fun p => p) 5 (fun x w => Ok tt (w ++ [x])) (array_range b) [] = Ok tt [0; 1; 2; 3] /\ map (vplace s) (indices (vshape s)) = [0; 1; 4; 5].
Proof. exists (Vw [Dim 2 4; Dim 2 1] 0), (Vw [Dim 2 4; Dim 2 1] 0). split; [reflexivity|]. split; [repeat constructor; cbn; lia|]. split; reflexivity. Qed.
Example C84_ex : shared_borrowing true (Vw [Dim 3 1] 7) = Good (Vw [Dim 3 1] 7) /\ shared_borrowing true (Vw [Dim 3 2] 7) = Refused /\
  nonneg (vshape (Vw [Dim 2 3; Dim 3 1] 7)) /\ (forall j, inshape j [2; 3] -> place [Dim 2 3; Dim 3 1] j = rm [2; 3] j) /\ shared_borrowing false (Vw [Dim 2 3; Dim 3 1] 7) = Good (Vw [Dim 2 3; Dim 3 1] 7).
Proof.
  split; [reflexivity|]. split; [reflexivity|]. split; [repeat constructor; cbn; lia|]. split; [|reflexivity].
  apply (proj1 (C13_contiguous [Dim 2 3; Dim 3 1] ltac:(repeat constructor; cbn; lia)) eq_refl).
Qed.

(* ---- C85 ---- *)

Theorem C85_back : forall a n st post, vdv a = Dim n st :: post -> 0 <= n ->
  (0 < n -> exists b, back a = Good b /\ vshape b = map len post /\ forall j, length j = length post -> vplace b j = vplace a (n - 1 :: j)) /\
  (n = 0 -> back a = Refused).
Proof.
  intros [dv cp] n st post E Hn. cbn [vdv] in E. subst dv.
  assert (F : fits (vrank (Vw (Dim n st :: post) cp)) [cidx (n - 1)]) by (unfold fits, vrank; cbn; lia).
  assert (O : Forall one_axis [cidx (n - 1)]) by (repeat constructor).
  assert (R : one_rest [cidx (n - 1)]) by (intros [|? [|]] l2 l3; discriminate).
  destruct (C23_accepted (Vw (Dim n st :: post) cp) [cidx (n - 1)] O F R) as (A & B). split.
  - intros Hp. unfold back; cbn [vdv len]. destruct A as (b & Eb). { apply leg_idx with (x := n - 1); [reflexivity|cbn [len]; left; lia|constructor]. }
    exists b. split; auto. destruct (C23_select _ _ _ Eb O F) as (S1 & S2 & S3). split.
    + unfold vshape in S1 at 1; cbn [vdv map] in S1. inversion S1 as [|? ? ? ? ? S1'| | | | |]; subst. inversion S1'; subst. reflexivity.
    + intros j Hj. apply S3. apply sel_idx; [reflexivity|]. constructor. etransitivity; [exact Hj|symmetry; apply map_length].
  - intros ->. unfold back; cbn [vdv len]. apply B. intros H. inversion H as [|? ? ? ? ? E H' | | | | |]; subst. cbn [len step] in *. injection E as <-.
    destruct H' as [H'|[H' _]]; [lia|discriminate].
Qed.
(* the rank not in the type, and it is 0 *)
Theorem C85_back_refuted : exists a, vrank a = 0%nat /\ back a = UB.
Proof. exists (Vw [] 0). split; reflexivity. Qed.
Theorem C85_as : forall a n st post s o, vdv a = Dim n st :: post -> 0 <= s ->
  ((forall x, 0 <= x < s -> 0 <= o + x < n) -> exists b, as_ s o a = Good b /\ vshape b = s :: map len post /\ forall i j, length j = length post -> vplace b (i :: j) = vplace a (o + i :: j)) /\
  (~ (forall x, 0 <= x < s -> 0 <= o + x < n) -> as_ s o a = Refused).
Proof.
  intros [dv cp] n st post s o E Hs. cbn [vdv] in E. subst dv. unfold as_.
  assert (F : fits (vrank (Vw (Dim n st :: post) cp)) [ciota s o 1]) by (unfold fits, vrank; cbn; lia).
  assert (O : Forall one_axis [ciota s o 1]) by (repeat constructor).
  assert (R : one_rest [ciota s o 1]) by (intros [|? [|]] l2 l3; discriminate).
  destruct (C23_accepted (Vw (Dim n st :: post) cp) [ciota s o 1] O F R) as (A & B). split.
  - intros Hx. destruct A as (b & Eb). { eapply leg_seq; try reflexivity; auto; [|constructor]. cbn [len]. intros x X. specialize (Hx x X). lia. }
    exists b. split; auto. destruct (C23_select _ _ _ Eb O F) as (S1 & S2 & S3). split.
    + unfold vshape in S1 at 1; cbn [vdv map] in S1. inversion S1 as [| |? ? ? ? ? ? ? ? C S1'| | | |]; subst. injection C as <-. inversion S1'; subst. reflexivity.
    + intros i j Hj. apply S3. replace (o + i) with (o + i * 1) by ring. eapply sel_seq; try reflexivity. constructor. etransitivity; [exact Hj|symmetry; apply map_length].
  - intros Hx. apply B. intros H. inversion H; subst. cbn [len] in *. apply Hx. intros x X.
    repeat match goal with H : Some _ = Some _ |- _ => injection H as <- end.
    match goal with H : forall x, 0 <= x < s -> _ |- _ => specialize (H x X); lia end.
Qed.
Example C85_ex : back (Vw [Dim 3 4; Dim 2 1] 5) = Good (Vw [Dim 2 1] 13) /\ back (Vw [Dim 0 4; Dim 2 1] 5) = Refused /\ as_ 2 1 (Vw [Dim 3 4; Dim 2 1] 5) = Good (Vw [Dim 2 4; Dim 2 1] 9) /\
  as_ 3 1 (Vw [Dim 3 4; Dim 2 1] 5) = Refused.
Proof. repeat split. Qed.
Print Assumptions C83_view. Print Assumptions C83_array. Print Assumptions C83_unbounded_partial. Print Assumptions C83_unbounded_refuted.
Print Assumptions C84_same. Print Assumptions C84_accepted. Print Assumptions C84_range_rank1. Print Assumptions C84_range_partial. Print Assumptions C84_range_refuted.
Print Assumptions C85_back. Print Assumptions C85_back_refuted. Print Assumptions C85_as.
