(* Properties C01-C07, C11, C28, C54: agreement, elements, traversal. *)
From Coq Require Import ZArith List Lia Bool Sorted.
From Coq Require Import ZifyBool ZifyNat.
From Verif Require Import Spec L_Spec Spec_Ply Spec_Expr M_Base M_Expr M_Ply L_Expr L_Agree L_Ply L_Stl L_Run.
Import ListNotations.
Open Scope Z_scope.

(* ---- examples: a 2x3 matrix, a vector on its first axis, an unbounded sequence, a scalar, an operation that keeps a log ---- *)
Definition exA (o : Z) : expr Z (list Z) := Cell [Dim 2 3; Dim 3 1] 2 (fun p => p) o.
Definition exG (o : Z) : expr Z (list Z) := Cell [Dim 2 10; Dim 3 1] 2 (fun p => p) o.  (* rows are not contiguous *)
Definition exB : expr Z (list Z) := Cell [Dim 2 (-1)] 1 (fun p => 100 + p) 0.
Definition exU : expr Z (list Z) := Cell [Dim UNB 1] 1 (fun p => p) 0.
Definition exlog (xs : list Z) : M (list Z) Z := fun w => Ok (zsum xs) (w ++ [zsum xs]).
Definition exE : expr Z (list Z) := Map exlog [exA 0; exB; Reframe exU [1%nat]; Scalar 1000; exU].

Lemma exA_wf : forall o, wf (exA o). Proof. intros; wfauto. Qed.
Lemma exG_wf : forall o, wf (exG o). Proof. intros; wfauto. Qed.
Lemma exE_wf : wf exE.
Proof. wfauto. Qed.

(* ---- C01 ---- *)

Theorem C01_agree_exact : forall X W (t : list (expr X W)), t <> [] -> Forall wf t -> (agree t = true <-> agreeing t).
Proof. intros X W t. exact (agree_iff t). Qed.

(* the check made before any traversal is the same one *)
Theorem C01_validate_exact : forall X W (e : expr X W), wf e -> (validate e = true <-> agreeing [e]).
Proof. intros X W e. exact (validate_iff e). Qed.

Example C01_example : agree [exA 0; exB; Reframe exU [1%nat]; Scalar 5] = true /\ agree [exA 0; exA 0; Cell [Dim 3 1] 1 (fun p => p) 0] = false
  /\ agree [exB; Reframe exU [1%nat]] = false.
Proof. vm_compute. auto. Qed.
Print Assumptions C01_agree_exact.
Print Assumptions C01_validate_exact.

(* ---- C02 ---- *)

Theorem C02_at_is_element : forall X W (e : expr X W) s j, wf e -> shape_is e s -> inshape j s -> forall w, at_ e j w = element e j w.
Proof.
  intros X W e s j Hw Hs Hj w. apply shape_is_shape in Hs; auto. destruct Hs as (-> & _). apply element_at; auto.
Qed.

Theorem C02_rank_extension : forall X W (op : list X -> M W X) t s j, wf (Map op t) -> shape_is (Map op t) s -> inshape j s ->
  forall w, at_ (Map op t) j w =
    match in_order (map (fun a => at_ a (firstn (axes a) j)) t) w with Ok xs w1 => op xs w1 | Fail w1 => Fail w1 | Undef => Undef end.
Proof.
  intros X W op t s j Hw Hs Hj w. rewrite (C02_at_is_element X W _ s) by auto. cbn [element].
  pose proof Hw as (Hn & Hwt). apply wf_Forall in Hwt.
  apply shape_is_shape in Hs; auto. destruct Hs as (-> & _).
  pose proof (okidx_inshape _ _ Hj) as Ho. pose proof (okidx_sub t (fz j) Hn Hwt Ho) as Hs.
  rewrite !in_order_seqM. rewrite (seqM_ext _ (map (fun a => at_ a (firstn (axes a) j)) t)); [reflexivity|].
  apply Forall2_map_map. intros a Ha w'.
  pose proof (rankn_sub op t Hn Hwt a Ha) as Hr. rewrite Forall_forall in Hwt, Hs. rewrite axes_rank by auto.
  pose proof (inshape_length _ _ Hj) as Hl. rewrite shape_length in Hl.
  rewrite at_element; auto.
  - rewrite element_prefix; auto.
  - rewrite firstn_length. lia.
  - intros k Hk. specialize (Hs a Ha k Hk). unfold fz in *. rewrite nth_firstn by lia. exact Hs.
Qed.

Example C02_example : wf exE /\ shape_is exE [2; 3] /\ inshape [1; 2] [2; 3] /\ at_ exE [1; 2] [] = Ok (5 + 99 + 2 + 1000 + 1) [1107].
Proof.
  split; [exact exE_wf|]. split.
  - apply (shape_shape_is exE exE_wf). reflexivity.
  - split; [repeat constructor; lia|reflexivity].
Qed.
Print Assumptions C02_at_is_element.
Print Assumptions C02_rank_extension.

(* ---- C03, C04, C05 ---- *)

Theorem C03_static_traversal : forall X W (e : expr X W) s js, wf e -> shape_is e s -> row_major s js ->
  forall w, ply_fixed no_stop e w = finish (each (element e) js w).
Proof. intros. rewrite (fixed_element _ _ _ _ e s js) by auto. apply visit_each. Qed.

Example C03_example : wf exE /\ shape_is exE [2; 3] /\ row_major [2; 3] (indices [2; 3]) /\
  ply_fixed no_stop exE [] = Ok None [1100; 1102; 1104; 1103; 1105; 1107].
Proof.
  split; [exact exE_wf|]. split; [apply (shape_shape_is exE exE_wf); reflexivity|]. split; [apply row_major_indices|reflexivity].
Qed.
Print Assumptions C03_static_traversal.

Theorem C04_dynamic_traversal : forall X W (e : expr X W) s js z, wf e -> shape_is e s -> row_major s js -> zclean z ->
  forall w, fst (ply_ravel no_stop z e w) = finish (each (element e) js w) /\
    (forall w', fst (ply_ravel no_stop z e w) = Ok None w' -> zclean (snd (ply_ravel no_stop z e w))).
Proof.
  intros. destruct (ravel_element _ _ _ no_stop e s js z H H0 H1 H2 w) as (E & Hc). rewrite E, visit_each in *. auto.
Qed.

(* exA is raveled in one loop, exG in two, exE cannot be raveled at all *)
Example C04_example : zclean z_init /\
  fst (ply_ravel no_stop z_init (Map exlog [exA 0]) []) = Ok None [0; 1; 2; 3; 4; 5] /\
  fst (ply_ravel no_stop z_init (Map exlog [exG 0]) []) = Ok None [0; 1; 2; 10; 11; 12] /\
  fst (ply_ravel no_stop z_init exE []) = Ok None [1100; 1102; 1104; 1103; 1105; 1107].
Proof. split; [exact z_init_clean|]. vm_compute. auto. Qed.
Print Assumptions C04_dynamic_traversal.

(* also for expressions that do not agree: then both refuse *)
Theorem C05_strategies_equal : forall X W R (post : X -> option R) (e : expr X W) z, wf e -> zclean z ->
  forall w, fst (ply_ravel post z e w) = ply_fixed post e w.
Proof.
  intros X W R post e z Hw Hz w. destruct (validate e) eqn:Hv.
  - rewrite (ply_fixed_spec post e Hw Hv w). destruct (ply_ravel_spec post e Hw Hv z Hz w) as (z' & -> & _). reflexivity.
  - unfold ply_ravel, ply_fixed. rewrite Hv. reflexivity.
Qed.
Example C05_example : fst (ply_ravel (fun x => if x =? 11 then Some x else None) z_init (Map exlog [exG 0]) []) = Ok (Some 11) [0; 1; 2; 10; 11].
Proof. reflexivity. Qed.
Print Assumptions C05_strategies_equal.

(* ---- C06 ---- *)

(* What early() gives: the first hit, evaluated last, or nothing after all have been evaluated; or the failure of an element. *)
Inductive first_hit {X W R} (post : X -> option R) (get : list Z -> M W X) (js : list (list Z)) (w : W) : out W (option R) -> Prop :=
| fh_none : forall w', each (fun j => fun w => match get j w with Ok x w' => if post x then Fail w' else Ok tt w' | Fail w' => Fail w' | Undef => Undef end) js w = Ok tt w' ->
    first_hit post get js w (Ok None w')
| fh_some : forall before j after w1 x r w2, js = before ++ j :: after ->
    each (fun j => fun w => match get j w with Ok x w' => if post x then Fail w' else Ok tt w' | Fail w' => Fail w' | Undef => Undef end) before w = Ok tt w1 ->
    get j w1 = Ok x w2 -> post x = Some r -> first_hit post get js w (Ok (Some r) w2)
| fh_fail : forall before j after w1 o, js = before ++ j :: after ->
    each (fun j => fun w => match get j w with Ok x w' => if post x then Fail w' else Ok tt w' | Fail w' => Fail w' | Undef => Undef end) before w = Ok tt w1 ->
    (get j w1 = Undef /\ o = Undef \/ exists w2, get j w1 = Fail w2 /\ o = Fail w2) -> first_hit post get js w o.

Lemma visit_first_hit : forall X W R (post : X -> option R) (get : list Z -> M W X) js w, first_hit post get js w (visit post get js w).
Proof.
  intros X W R post get. induction js; intros w.
  - constructor. reflexivity.
  - cbn. destruct (get a w) as [x w1|w1|] eqn:E.
    + destruct (post x) as [r|] eqn:Ep.
      * apply (fh_some post get _ w [] a js w x r w1); auto.
      * specialize (IHjs w1). inversion IHjs; subst.
        -- apply fh_none. cbn. rewrite E, Ep. auto.
        -- eapply (fh_some post get _ w (a :: before) j after); eauto. cbn. rewrite E, Ep. eauto.
        -- eapply (fh_fail post get _ w (a :: before) j after); eauto. cbn. rewrite E, Ep. eauto.
    + apply (fh_fail post get _ w [] a js w); auto. right. eauto.
    + apply (fh_fail post get _ w [] a js w); auto.
Qed.

Theorem C06_early_exit : forall X W R (post : X -> option R) (e : expr X W) s js z, wf e -> shape_is e s -> row_major s js -> zclean z ->
  forall w, first_hit post (element e) js w (ply_fixed post e w) /\ first_hit post (element e) js w (fst (ply_ravel post z e w)).
Proof.
  intros. destruct (ravel_element _ _ _ post e s js z H H0 H1 H2 w) as (-> & _). rewrite (fixed_element _ _ _ post e s js) by auto.
  split; apply visit_first_hit.
Qed.
Print Assumptions C06_early_exit.
Example C06_example : ply_fixed (fun x => if 2 <=? x then Some x else None) (Map exlog [exG 0]) [] = Ok (Some 2) [0; 1; 2] /\
  ply_fixed (fun x => if 20 <=? x then Some x else None) (Map exlog [exG 0]) [] = Ok None [0; 1; 2; 10; 11; 12].
Proof. vm_compute. auto. Qed.

(* ---- C07 ---- *)

(* Refuted. Two traversals of the same expression type on the same thread, on the data of exG:
   the first one stops in the second row (at 11), the second one looks for 12, which is there, and does not find it. *)
Theorem C07_history_independent_refuted :
  exists (e : expr Z unit) (p1 p2 : Z -> option Z) (s : list Z) (js : list (list Z)),
    wf e /\ shape_is e s /\ row_major s js /\
    let '(r1, z1) := ply_ravel p1 z_init e tt in
    r1 = visit p1 (element e) js tt /\
    fst (ply_ravel p2 z1 e tt) = Ok None tt /\ visit p2 (element e) js tt = Ok (Some 12) tt.
Proof.
  exists (Cell [Dim 2 10; Dim 3 1] 2 (fun p => p) 0), (fun x => if x =? 11 then Some x else None), (fun x => if x =? 12 then Some x else None), [2; 3], (indices [2; 3]).
  assert (Hw : wf (Cell [Dim 2 10; Dim 3 1] 2 (fun p => p) 0 : expr Z unit)) by wfauto.
  split; [exact Hw|]. split; [apply (shape_shape_is _ Hw); reflexivity|]. split; [apply row_major_indices|].
  vm_compute. auto.
Qed.
Print Assumptions C07_history_independent_refuted.

(* What holds: any sequence of traversals that run to completion (of any expressions of one type, with any operations) leaves the state clean,
   so that the next traversal, stopping or not, is right. Missing: histories with early stops or failures, where the claim is false. *)
Inductive history {X W R} : list zt -> list zt -> Prop :=
| hist_nil : forall z, history z z
| hist_step : forall z z' (e : expr X W) (post : X -> option R) w w', wf e ->
    ply_ravel post z e w = (Ok None w', z') -> forall z'', history z' z'' -> history z z''.

Lemma history_clean : forall X W R z z', @history X W R z z' -> zclean z -> zclean z'.
Proof.
  induction 1; intros; auto. apply IHhistory. destruct (validate e) eqn:Hv.
  - destruct (ply_ravel_spec post e H Hv z H2 w) as (z1 & E & Hc). rewrite E in H0. inversion H0; subst. eapply Hc; eauto.
  - unfold ply_ravel in H0. rewrite Hv in H0. discriminate.
Qed.

Theorem C07_history_partial : forall X W R z, @history X W R z_init z -> forall (e : expr X W) (post : X -> option R) s js, wf e -> shape_is e s -> row_major s js ->
  forall w, fst (ply_ravel post z e w) = visit post (element e) js w.
Proof.
  intros. apply history_clean in H; [|exact z_init_clean]. destruct (ravel_element _ _ _ post e s js z H0 H1 H2 H w). auto.
Qed.
Print Assumptions C07_history_partial.

Example C07_example : exists z, @history Z (list Z) unit z_init z /\ fst (ply_ravel no_stop z (Map exlog [exG 0]) []) = Ok None [0; 1; 2; 10; 11; 12].
Proof.
  eexists. split.
  - eapply (hist_step z_init _ (Map exlog [exG 5]) no_stop [] _); [wfauto|vm_compute; reflexivity|]. apply hist_nil.
  - vm_compute. reflexivity.
Qed.

(* ---- C11 ---- *)

Theorem C11_stl_range : forall X W (e : expr X W) s js, wf e -> shape_is e s -> row_major s js ->
  Z.of_nat (length js) = zprod s /\
  forall f fuel w, (length js < fuel)%nat ->
  exists it, stl_begin e = Some it /\ stl_for fuel f it w = each (fun j => x <- element e j ;; f x) js w.
Proof.
  intros X W e s js Hw Hs Hj. apply shape_is_shape in Hs; auto. destruct Hs as (-> & Hv).
  apply row_major_unique in Hj. subst js. split.
  - apply indices_count. apply validate_spec in Hv. tauto.
  - intros f fuel w Hf. destruct (stl_spec e Hw Hv f fuel w Hf) as (it & E1 & E2). exists it. split; [exact E1|]. rewrite E2.
    apply each_ext. intros j w' Hin. apply in_indices in Hin. unfold bind. rewrite (element_at e Hw j Hin).
    destruct (element e j w'); auto. destruct (f a w0); auto.
Qed.
Print Assumptions C11_stl_range.
Example C11_example : exists it, stl_begin (exG 0) = Some it /\ stl_for 7 (fun x => fun w => Ok tt (w ++ [x])) it [] = Ok tt [0; 1; 2; 10; 11; 12] /\
  exists it0, stl_begin (Cell [Dim 2 1; Dim 0 1] 2 (fun p => p) 0 : expr Z (list Z)) = Some it0 /\ stl_for 1 (fun x => fun w => Ok tt (w ++ [x])) it0 [] = Ok tt [].
Proof. eexists. split; [reflexivity|]. split; [reflexivity|]. eexists. split; reflexivity. Qed.

(* ---- C28 ---- *)

Theorem C28_at_exact : forall dv cp i p, indexer dv cp i = Some p <->
  (length dv <= length i)%nat /\ (forall k, (k < length dv)%nat -> 0 <= nth k i 0 < len (nth k dv dim0) \/ len (nth k dv dim0) = UNB) /\
  p = cp + place dv i.
Proof.
  intros dv cp i p. unfold indexer. destruct (Nat.leb_spec (length dv) (length i)).
  - revert cp i H. induction dv as [|d dv IH]; intros cp i H; cbn [indexer_loop place length] in *.
    + split.
      * intros E. inversion E. split; [lia|]. split; [lia|lia].
      * intros (_ & _ & ->). f_equal. lia.
    + destruct i as [|x i]; [simpl in H; lia|]. destruct (inside x (len d) || (UNB =? len d)) eqn:E.
      * rewrite IH by (simpl in H; lia). split.
        -- intros (H1 & H2 & ->). split; [simpl; lia|]. split; [|ring]. intros [|k] Hk; cbn [nth].
           ++ unfold inside in E. lia.
           ++ apply H2. lia.
        -- intros (H1 & H2 & ->). split; [simpl in H1; lia|]. split; [|ring]. intros k Hk. apply (H2 (S k)). lia.
      * split; [discriminate|]. intros (H1 & H2 & _). specialize (H2 0%nat ltac:(lia)). cbn [nth] in H2. unfold inside in E. lia.
  - split; [discriminate|]. lia.
Qed.
Print Assumptions C28_at_exact.
Example C28_example : indexer [Dim 2 10; Dim 3 1] 5 [1; 2; 99] = Some 17 /\ indexer [Dim 2 10; Dim 3 1] 5 [1; 3] = None /\ indexer [Dim 2 10; Dim 3 1] 5 [1] = None.
Proof. auto. Qed.

(* ---- C54 ---- *)

Theorem C54_unbounded_refused : forall X W R (post : X -> option R) (e : expr X W) k z, wf e ->
  (k < axes e)%nat -> Forall (fun n => n = UNB) (leaf_lens e k) ->
  (forall w, ply_fixed post e w = Fail w) /\ (forall w, ply_ravel post z e w = (Fail w, z)) /\ stl_begin e = None.
Proof.
  intros X W R post e k z Hw Hk Hf.
  assert (Hv : validate e = false).
  { destruct (validate e) eqn:E; auto. apply validate_iff in E; auto. specialize (E k). cbn [fold_right flat_map] in E.
    rewrite Nat.max_0_r, app_nil_r in E. destruct (E Hk) as (n & Hn & Hin & _). rewrite Forall_forall in Hf. specialize (Hf n Hin). unfold UNB in Hf. lia. }
  unfold ply_fixed, ply_ravel, stl_begin. rewrite Hv. auto.
Qed.
Print Assumptions C54_unbounded_refused.
Example C54_example : let e := Map exlog [exB; Reframe exU [1%nat]] in wf e /\ (1 < axes e)%nat /\ Forall (fun n => n = UNB) (leaf_lens e 1) /\ ply_fixed no_stop e [] = Fail [].
Proof. split; [wfauto|]. split; [cbn; lia|]. split; [repeat constructor|reflexivity]. Qed.
