(* Properties C72-C75: access by index, lengths of axes, conversion to scalar. *)
From Coq Require Import ZArith List Lia Bool.
From Coq Require Import ZifyBool ZifyNat.
From Verif Require Import Spec L_Spec Spec_Ply Spec_Expr M_Base M_Expr M_Ply M_Val Spec_Val L_Expr L_Agree L_Ply L_Stl L_Run L_Val P_Ply P_Reduce.
From Verif Require Import M_View Spec_View M_Slice Spec_Slice L_Slice P_Slice M_Cell P_Cell M_Static Spec_Static P_Static M_Access.
Import ListNotations.
Open Scope Z_scope.

(* ---- C72 ---- *)

(* each of the indices is on its axis of v; any index is, if the axis is unbounded *)
Definition on_axes (v : view) (i : list Z) : Prop :=
  forall k, (k < length i)%nat -> 0 <= nth k i 0 < nth k (vshape v) 0 \/ nth k (vshape v) 0 = UNB.

Lemma nth_shape : forall (v : view) k, (k < vrank v)%nat -> nth k (vshape v) 0 = len (nth k (vdv v) dim0).
Proof. intros v k H. unfold vshape. rewrite (nth_indep _ 0 (len dim0)) by (rewrite map_length; exact H). apply map_nth. Qed.
Lemma nth_firstn_lt : forall A (d : A) f l k, (k < f)%nat -> nth k (firstn f l) d = nth k l d.
Proof.
  intros A d f. induction f as [|f IH]; intros l k H; [lia|]. destruct l as [|a l]; [destruct k; reflexivity|]. destruct k; cbn [firstn nth]; [reflexivity|]. apply IH. lia.
Qed.

Lemma at_view_frame : forall W v (i : list Z) f, (f <= vrank v)%nat -> (f <= length i)%nat -> (f = length i \/ length i = (vrank v + f)%nat /\ (0 < f)%nat) -> forall w,
  (on_axes v (firstn f i) -> at_view (W := W) v i w = Ok (Vw (skipn f (vdv v)) (vplace v (firstn f i))) w) /\
  (~ on_axes v (firstn f i) -> at_view (W := W) v i w = Fail w).
Proof.
  intros W v i f H1 H2 H3 w. unfold at_view.
  rewrite (icell_frame W v _ f) by (unfold frame_axes; lia). cbn [at_].
  assert (Q : place (firstn f (vdv v)) i = place (vdv v) (firstn f i)).
  { clear. revert i. generalize (vdv v) as dv. induction f as [|f IH]; intros dv i; [destruct dv, i; reflexivity|].
    destruct dv as [|d dv], i as [|x i]; cbn [firstn place]; try reflexivity. rewrite IH. reflexivity. }
  unfold vrank in H1. assert (Lf : length (firstn f (vdv v)) = f) by (rewrite firstn_length; lia). split.
  - intros H. replace (indexer (firstn f (vdv v)) (vcp v) i) with (Some (vplace v (firstn f i))); [reflexivity|]. symmetry. apply C28_at_exact. rewrite Lf. split; [lia|]. split; [|unfold vplace; lia].
    intros k Hk. specialize (H k ltac:(rewrite firstn_length; lia)). rewrite nth_firstn_lt in H by lia. rewrite nth_firstn_lt by lia. rewrite <- nth_shape by (unfold vrank; lia). exact H.
  - intros H. destruct (indexer _ _ i) as [p|] eqn:E; [|reflexivity]. exfalso. apply H. apply C28_at_exact in E as (_ & E & _). rewrite Lf in E. intros k Hk.
    rewrite firstn_length in Hk. specialize (E k ltac:(lia)). rewrite nth_firstn_lt in E by lia. rewrite nth_firstn_lt by lia. rewrite nth_shape by (unfold vrank; lia). exact E.
Qed.

(* With no more indices than axes: refused if one of the indices isn't on its axis; or else the rest of the axes, at i. *)
Theorem C72_partial : forall W v (i : list Z), (length i <= vrank v)%nat -> forall w,
  (on_axes v i -> exists b, at_view (W := W) v i w = Ok b w /\ vshape b = skipn (length i) (vshape v) /\ forall j, vplace b j = vplace v (i ++ j)) /\
  (~ on_axes v i -> at_view (W := W) v i w = Fail w).
Proof.
  intros W v i H w. destruct (at_view_frame W v i (length i) H (le_n _) (or_introl eq_refl) w) as (E1 & E2). rewrite firstn_all in *. split; [|exact E2].
  intros Hi. eexists. split; [apply E1; auto|]. split.
  - unfold vshape. cbn [vdv]. rewrite skipn_map. reflexivity.
  - intros j. unfold vplace. cbn [vdv vcp]. rewrite place_split by exact H.
    assert (Q : place (vdv v) i = place (firstn (length i) (vdv v)) i).
    { clear. generalize (vdv v) as dv. induction i as [|x i IH]; intros dv; [destruct dv; reflexivity|]. destruct dv; cbn [length firstn place]; [reflexivity|]. rewrite IH. reflexivity. }
    lia.
Qed.
Theorem C72_from : forall W v (i : list Z), inshape i (firstn (length i) (vshape v)) -> forall w,
  exists b, at_view (W := W) v i w = Ok b w /\ from v (map cidx i) = Good b.
Proof.
  intros W v i H w. pose proof (inshape_length _ _ H) as L. rewrite firstn_length in L. unfold vshape in L. rewrite map_length in L.
  assert (F : frame_axes (vrank v) (Z.of_nat (vrank v) - Z.of_nat (length i)) (length i)) by (unfold frame_axes, vrank; lia).
  unfold at_view. destruct (C56_item W v _ _ _ i F (icell_frame W v _ _ F) H) as (b & Hb & _ & Hf & _). exists b. rewrite (icell_frame W v _ _ F), Hb. auto.
Qed.
(* With too many: not refused if there are at most twice as many. Only the first ones are used, as many as there are too many. *)
Theorem C72_extra : forall W v (i : list Z), (vrank v < length i)%nat -> forall w,
  ((length i <= 2 * vrank v)%nat -> at_view (W := W) v i w = at_view v (firstn (length i - vrank v) i) w) /\
  ((2 * vrank v < length i)%nat -> at_view (W := W) v i w = Fail w).
Proof.
  intros W v i H w. split; intros H2.
  - destruct (at_view_frame W v i (length i - vrank v) ltac:(lia) ltac:(lia) ltac:(right; lia) w) as (A1 & A2).
    assert (L : length (firstn (length i - vrank v) i) = (length i - vrank v)%nat) by (rewrite firstn_length; lia).
    destruct (at_view_frame W v (firstn (length i - vrank v) i) (length i - vrank v) ltac:(lia) ltac:(lia) ltac:(lia) w) as (B1 & B2).
    rewrite firstn_firstn, Nat.min_id in *.
    assert (D : on_axes v (firstn (length i - vrank v) i) \/ ~ on_axes v (firstn (length i - vrank v) i)).
    { unfold on_axes. generalize (firstn (length i - vrank v) i) as x. intros x. clear.
      assert (G : forall n, (forall k, (k < n)%nat -> 0 <= nth k x 0 < nth k (vshape v) 0 \/ nth k (vshape v) 0 = UNB) \/
                          ~ (forall k, (k < n)%nat -> 0 <= nth k x 0 < nth k (vshape v) 0 \/ nth k (vshape v) 0 = UNB)).
      { induction n as [|n [IH|IH]]; [left; lia| |right; intros H; apply IH; intros k Hk; apply H; lia].
        destruct (Z.eq_dec (nth n (vshape v) 0) UNB) as [E|E];
          [left; intros k Hk; destruct (Nat.eq_dec k n); [subst; auto|apply IH; lia]|].
        destruct (Z_le_dec 0 (nth n x 0)), (Z_lt_dec (nth n x 0) (nth n (vshape v) 0));
          try (right; intros H; specialize (H n ltac:(lia)); lia).
        left. intros k Hk. destruct (Nat.eq_dec k n); [subst; auto|apply IH; lia]. }
      apply G. }
    destruct D as [D|D]; [rewrite A1, B1 by auto|rewrite A2, B2 by auto]; reflexivity.
  - unfold at_view. destruct (C56_ranks W v (Z.of_nat (vrank v) - Z.of_nat (length i))) as [(f & F & _)|(_ & ->)]; [|reflexivity]. unfold frame_axes in F. lia.
Qed.
(* a 3x4 array: row 1 *)
Theorem C72_refuted : exists (v : view) (i : list Z), vshape v = [3; 4] /\ length i = 3%nat /\ forall w : unit, at_view v i w = Ok (Vw [Dim 4 1] 4) w.
Proof. exists (Vw [Dim 3 4; Dim 4 1] 0), [1; 2; 0]. split; [reflexivity|]. split; reflexivity. Qed.

(* an array of indices *)
Theorem C72_each : forall W v ix (e : expr view W) s (I : list Z -> list Z), shape_is e s ->
  (forall j w, inshape j s -> exists x, element e j w = Ok x w /\ ix x = I j) ->
  shape_is (at_view_each v ix e) s /\ forall j w, inshape j s -> element (at_view_each v ix e) j w = at_view v (I j) w.
Proof.
  intros W v ix e s I Hs He. split; [exact (joint_shape_1 _ _ e s Hs)|]. intros j w Hj. unfold at_view_each. cbn [element map in_order].
  destruct (He j w Hj) as (x & -> & <-). reflexivity.
Qed.
Example C72_ex : (length [1; 2] <= vrank a345)%nat /\ on_axes a345 [1; 2] /\ ~ on_axes a345 [1; 4] /\ inshape [1; 2] (firstn 2 (vshape a345)) /\
  at_view a345 [1; 2] tt = Ok (Vw [Dim 5 1] 130) tt /\ at_view a345 [1; 4] tt = Fail tt /\ at_view a345 [] tt = Ok a345 tt /\
  at_view a345 [2; 0; 0; 0] tt = at_view a345 [2] tt /\ at_view a345 [0; 0; 0; 0; 0; 0; 0] tt = Fail tt.
Proof.
  split; [cbn; lia|]. split; [intros [|[|[|k]]] H; cbn in *; lia|]. split; [intros H; specialize (H 1%nat); cbn in H; unfold UNB in H; lia|].
  split; [repeat constructor; lia|]. repeat split.
Qed.
Print Assumptions C72_partial.
Print Assumptions C72_from.
Print Assumptions C72_extra.
Print Assumptions C72_refuted.
Print Assumptions C72_each.

(* ---- C73 ---- *)

Theorem C73_exact : forall v e j n, sound_seqs (Z.of_nat (vrank v)) e ->
  (shape_each v e j = Some n <-> exists k, meaning (Z.of_nat (vrank v)) e j = Some (Z.of_nat k) /\ nth_error (vshape v) k = Some n).
Proof.
  intros v e j n S. unfold shape_each. destruct (C38_defined e _ S) as (e' & E). rewrite E. destruct (wlen_spec _ _ _ E) as (F & M & _).
  rewrite (lat_meaning _ (Z.of_nat (vrank v)) _ F), M. unfold shape_at, inside. destruct (meaning _ e j) as [x|]; [|split; [discriminate|intros (k & H & _); discriminate]].
  destruct (Z.leb_spec 0 x) as [Hx|Hx]; cbn [andb].
  - destruct (Z.ltb_spec x (Z.of_nat (vrank v))) as [Hr|Hr].
    + rewrite <- nth_shape by lia. split.
      * intros H. inversion H. exists (Z.to_nat x). rewrite Z2Nat.id by lia. split; [reflexivity|]. apply nth_error_nth'. unfold vshape, vrank in *. rewrite map_length. lia.
      * intros (k & H & Hn). inversion H. subst x. rewrite Nat2Z.id. f_equal. apply nth_error_nth. auto.
    + split; [discriminate|]. intros (k & H & Hn). inversion H. subst x. assert (k < length (vshape v))%nat by (apply nth_error_Some; congruence).
      unfold vshape, vrank in *. rewrite map_length in *. lia.
  - split; [discriminate|]. intros (k & H & Hn). inversion H. lia.
Qed.
Theorem C73_axis : forall v e n, sound_seqs (Z.of_nat (vrank v)) e ->
  (shape_scalar v e = Some n <-> exists k, meaning (Z.of_nat (vrank v)) e [] = Some (Z.of_nat k) /\ nth_error (vshape v) k = Some n).
Proof. intros v e n S. exact (C73_exact v e [] n S). Qed.
(* shape(a, len-1), shape(a, iota(2, len-2)), shape(a, {0, len-1}), and two that are refused *)
Definition len_minus (k : Z) : lx := LMap (fun xs => nth 0 xs 0 - k) [LLen].
Example C73_ex : sound_seqs 3 (len_minus 1) /\ sound_seqs 3 (LSeq (len_minus 2) (LScalar 2) (LScalar 1)) /\
  shape_scalar a345 (len_minus 1) = Some 5 /\ map (shape_each a345 (LSeq (len_minus 2) (LScalar 2) (LScalar 1))) [[0]; [1]] = [Some 4; Some 5] /\
  shape_scalar a345 LLen = None /\ shape_scalar a345 (LScalar (-1)) = None.
Proof. cbn -[Z.sub]. repeat split; try discriminate; try (exists 2; split; [reflexivity|lia]). Qed.
Print Assumptions C73_exact.

(* ---- C74 ---- *)

Lemma zprod_one : forall s, Forall (fun n => 0 <= n) s -> zprod s = 1 -> s = repeat 1 (length s).
Proof.
  induction 1 as [|n s Hn _ IH]; [reflexivity|]. cbn [zprod] in *. intros E. 
  assert (n = 1) by (apply Z.eq_mul_1_nonneg in E; lia). subst n. rewrite Z.mul_1_l in E. cbn [length repeat]. rewrite <- IH by auto. reflexivity.
Qed.

(* e as an instance of type t. If its arguments agree on a shape: the only element if there is only one, and refused (at compile time or not) if there isn't.
   If they don't: refused, unless the size in the type is 1. *)
Lemma deref_first : forall X W (e : expr X W) s, wf e -> shape_is e s -> zprod s = 1 -> forall w, deref e w = element e (repeat 0 (length s)) w.
Proof.
  intros X W e s Hw Hs H1 w. destruct (shape_is_shape e s Hw Hs) as (E & Hv). subst s. pose proof Hv as Hv'. apply validate_spec in Hv' as (_ & Hn).
  pose proof (zprod_one _ Hn H1) as E1. set (n := length (shape e)) in *.
  assert (Hin : inshape (repeat 0 n) (shape e)). { rewrite E1. clear. induction n; cbn [repeat]; constructor; auto. lia. }
  rewrite <- (element_at e Hw) by auto. rewrite <- deref_at; auto.
  - f_equal. rewrite <- (goto_zero e) at 1. apply goto_ext; auto. intros k Hk. unfold fz. symmetry. apply nth_repeat.
  - rewrite repeat_length. unfold n. rewrite L_Expr.shape_length. lia.
  - apply okidx_inshape; auto.
Qed.
Theorem C74_one : forall X W t (e : expr X W) s, instance t e -> wf e -> shape_is e s -> zprod s = 1 ->
  scalar_compiles t = true /\ exists j, indices s = [j] /\ forall w, to_scalar t e w = element e j w.
Proof.
  intros X W t e s Hi Hw Hs H1. destruct (C52_len t e s Hi Hw Hs) as (_ & _ & Hz). rewrite H1 in Hz. unfold scalar_compiles. split; [lia|].
  destruct (shape_is_shape e s Hw Hs) as (E & Hv). apply validate_spec in Hv as (_ & Hn).
  exists (repeat 0 (length s)). split.
  - rewrite <- E in Hn. rewrite (zprod_one s Hn H1) at 1. generalize (length s) as n. clear. induction n as [|n IH]; [reflexivity|].
    cbn [repeat indices]. rewrite IH. reflexivity.
  - intros w. rewrite <- (deref_first X W e s Hw Hs H1). unfold to_scalar. destruct (Z.eqb_spec 1 (size_s t)); [reflexivity|]. rewrite size_prod by exact Hn. rewrite <- E, H1. reflexivity.
Qed.
Theorem C74_not_one : forall X W t (e : expr X W) s, instance t e -> wf e -> shape_is e s -> zprod s <> 1 -> scalar_compiles t = true -> forall w, to_scalar t e w = Fail w.
Proof.
  intros X W t e s Hi Hw Hs H1 Hc w. destruct (C52_len t e s Hi Hw Hs) as (_ & _ & Hz). unfold scalar_compiles in Hc. unfold to_scalar.
  destruct (shape_is_shape e s Hw Hs) as (E & Hv). apply validate_spec in Hv as (_ & Hn). subst s. rewrite size_prod by exact Hn.
  destruct (Z.eqb_spec 1 (size_s t)); [destruct Hz; unfold ANY in *; lia|]. destruct (Z.eqb_spec 1 (zprod (shape e))); [lia|]. reflexivity.
Qed.
Theorem C74_disagree_partial : forall X W t (e : expr X W), instance t e -> wf e -> ~ agreeing [e] -> size_s t = ANY -> forall w, to_scalar t e w = Fail w.
Proof.
  intros X W t e Hi Hw Ha Ht w. unfold to_scalar. rewrite Ht. change (1 =? ANY) with false. cbv iota. destruct (Z.eqb_spec 1 (sizee e)) as [E|E]; [|reflexivity].
  exfalso. apply Ha. apply validate_iff; auto. apply validate_spec. split; [apply rank_nonneg; auto|].
  assert (H : 0 <= sizee e <-> Forall (fun k => 0 <= lene e k) (seq 0 (rankn e))) by (apply size_loop_nonneg; lia).
  unfold shape. rewrite Forall_map. apply H. lia.
Qed.
(* a sum of an array with one element in its type and another with three: converted to the sum of the first elements *)
Definition two_lens : expr Z unit := Map (fun xs => ret (nth 0 xs 0 + nth 1 xs 0)) [Cell [Dim 1 1] 1 (fun p => p) 100; Cell [Dim 3 1] 1 (fun p => p) 20].
Theorem C74_disagree_refuted : exists t, instance t two_lens /\ wf two_lens /\ ~ agreeing [two_lens] /\ scalar_compiles t = true /\ to_scalar t two_lens tt = Ok 120 tt.
Proof.
  exists (TMatch [TCell (Some [1]); TCell (Some [ANY])]). split; [|split; [|split; [|split; reflexivity]]].
  - apply i_map. constructor; [|constructor; [|constructor]]; apply i_cell; auto; intros k Hk; assert (k = 0%nat) by lia; subst; cbn; auto.
  - cbn. split; [discriminate|]. repeat split; auto; repeat constructor; unfold oklen; cbn; lia.
  - intros H. specialize (H 0%nat). cbn in H. destruct H as (n & _ & _ & H); [lia|]. inversion H as [|? ? A B]; subst. inversion B; subst. unfold UNB in *. lia.
Qed.
Example C74_ex : let t := TMatch [TCell (Some [1; ANY]); TScalar] in
  let e n := Map (fun xs => ret (nth 0 xs 0 + nth 1 xs 0)) [Cell [Dim 1 7; Dim n 1] 2 (fun p => p) 100; @Scalar Z unit 5] in
  instance t (e 1) /\ wf (e 1) /\ shape_is (e 1) [1; 1] /\ to_scalar t (e 1) tt = Ok 105 tt /\ shape_is (e 2) [1; 2] /\ to_scalar t (e 2) tt = Fail tt.
Proof.
  cbv zeta. assert (Hw : forall n, 0 <= n -> wf (Map (fun xs => ret (nth 0 xs 0 + nth 1 xs 0)) [Cell [Dim 1 7; Dim n 1] 2 (fun p => p) 100; @Scalar Z unit 5])) by (intros n Hn; cbn; split; [discriminate|]; repeat split; auto; repeat constructor; unfold oklen; cbn; lia).
  split.
  { apply i_map. constructor; [|constructor; [constructor|constructor]]. apply i_cell; auto. intros k Hk. destruct k as [|[|k]]; cbn; auto; lia. }
  split; [apply Hw; lia|]. split; [exact (shape_shape_is _ (Hw 1 ltac:(lia)) eq_refl)|]. split; [reflexivity|]. split; [exact (shape_shape_is _ (Hw 2 ltac:(lia)) eq_refl)|reflexivity].
Qed.
Print Assumptions C74_one.
Print Assumptions C74_not_one.
Print Assumptions C74_disagree_partial.
Print Assumptions C74_disagree_refuted.

(* ---- C75 ---- *)

(* an index that a(i ...) takes: at least one for each axis, each of them on its axis *)
Definition legal (v : view) (i : list Z) : Prop := (vrank v <= length i)%nat /\ on_axes v (firstn (vrank v) i).
(* the elements of i in shape s are the indices I *)
Definition indices_are {T} (ix : val T -> list Z) (i : expr (val T) (mem T)) (s : list Z) (I : list Z -> list Z) : Prop :=
  forall j m, inshape j s -> exists x, element i j m = Ok x m /\ ix x = I j.

Lemma indexer_legal : forall v i p, indexer (vdv v) (vcp v) i = Some p <-> legal v i /\ p = vplace v i.
Proof.
  intros v i p. rewrite C28_at_exact. unfold legal, vplace, on_axes. fold (vrank v). split.
  - intros (H1 & H2 & H3). split; [split|]; auto. intros k Hk. rewrite firstn_length in Hk. rewrite nth_firstn_lt by lia. rewrite nth_shape by lia. apply H2; lia.
  - intros ((H1 & H2) & H3). split; auto. split; auto. intros k Hk. specialize (H2 k). rewrite firstn_length, nth_firstn_lt, nth_shape in H2 by lia. apply H2. lia.
Qed.
Lemma at_each_element : forall T v ix (i : expr (val T) (mem T)) s I, indices_are ix i s I -> forall j m, inshape j s ->
  (legal v (I j) -> element (at_each v ix i) j m = Ok (VRef (vplace v (I j))) m) /\ (~ legal v (I j) -> element (at_each v ix i) j m = Fail m).
Proof.
  intros T v ix i s I Hi j m Hj. destruct (Hi j m Hj) as (x & E & Ex). unfold at_each. cbn [element map in_order]. rewrite E. unfold at_op, op1. rewrite Ex. split; intros H.
  - rewrite (proj2 (indexer_legal v (I j) _) (conj H eq_refl)). reflexivity.
  - destruct (indexer _ _ (I j)) as [p|] eqn:F; [|reflexivity]. apply indexer_legal in F as (F & _). contradiction.
Qed.

Lemma at_each_joint : forall T v ix (i e : expr (val T) (mem T)) s, joint_shape [i; e] s -> joint_shape [at_each v ix i; e] s.
Proof.
  intros T v ix i e s H. unfold joint_shape in *.
  assert (Ea : axes (at_each v ix i) = axes i) by (cbn; lia).
  assert (El : forall k, leaf_lens (at_each v ix i) k = leaf_lens i k) by (intros k; cbn; apply app_nil_r).
  cbn [fold_right flat_map] in *. rewrite Ea. destruct H as (H1 & H2). split; [exact H1|]. intros k Hk. rewrite El. apply H2. exact Hk.
Qed.

(* the shape is that of the indices, and the elements are those of v at each *)
Theorem C75_element : forall T v ix (i : expr (val T) (mem T)) s I, indices_are ix i s I -> shape_is i s ->
  shape_is (at_each v ix i) s /\ forall j m, inshape j s ->
    (legal v (I j) -> element (at_each v ix i) j m = Ok (VRef (vplace v (I j))) m) /\ (~ legal v (I j) -> element (at_each v ix i) j m = Fail m).
Proof. intros T v ix i s I Hi Hs. split; [exact (joint_shape_1 _ _ i s Hs)|]. exact (at_each_element T v ix i s I Hi). Qed.

(* at(v, i) OP= e: with an index more than once, OP= applies as many times, in order. *)
Theorem C75_update : forall T f v ix (i e : expr (val T) (mem T)) s I m x fixed z, wf i -> wf e -> joint_shape [i; e] s -> zclean z ->
  indices_are ix i s I -> (forall j, inshape j s -> legal v (I j)) ->
  (forall j m', inshape j s -> (forall p, (forall j', inshape j' s -> lexlt j' j -> p <> vplace v (I j')) -> m' p = m p) ->
     exists u, element e j m' = Ok u m' /\ value_of u m' = Some (x j)) ->
  exists m', assign fixed z f (at_each v ix i) e m = Ok None m' /\
    forall p, m' p = fold_left f (map x (filter (fun j => vplace v (I j) =? p) (indices s))) (m p).
Proof.
  intros T f v ix i e s I m x fixed z Hi He Hs Hz HI Hl Hx. apply assign_scatter; auto.
  - unfold at_each. apply wf_map; [discriminate|]. auto.
  - apply at_each_joint. auto.
  - intros j m' Hj. apply (at_each_element T v ix i s I HI j m' Hj). auto.
Qed.
(* the elements at a bad index and after aren't changed *)
Theorem C75_refused : forall T f v ix (i e : expr (val T) (mem T)) s I m x fixed z js1 j js2, wf i -> wf e -> joint_shape [i; e] s -> zclean z ->
  indices_are ix i s I -> row_major s (js1 ++ j :: js2) -> (forall j', In j' js1 -> legal v (I j')) -> ~ legal v (I j) ->
  (forall j m', In j js1 -> (forall p, (forall j', inshape j' s -> lexlt j' j -> p <> vplace v (I j')) -> m' p = m p) ->
     exists u, element e j m' = Ok u m' /\ value_of u m' = Some (x j)) ->
  exists m', assign fixed z f (at_each v ix i) e m = Fail m' /\
    forall p, m' p = fold_left f (map x (filter (fun j => vplace v (I j) =? p) js1)) (m p).
Proof.
  intros T f v ix i e s I m x fixed z js1 j js2 Hi He Hs Hz HI Hj Hl Hb Hx. unfold assign.
  assert (Hin : forall k, In k (js1 ++ j :: js2) -> inshape k s).
  { intros k Hk. apply in_split in Hk as (a & b & E). exact (proj1 (row_major_split _ _ _ _ _ Hj E)). }
  destruct (each_scatter (val T) (element (Map (assign_op f) [at_each v ix i; e])) f (fun j => vplace v (I j)) x js1 m []) with (m := m) as (m' & E1 & E2).
  - intros l1 k l2 m1 E Hm1. cbn [app] in Hm1. assert (Ek : js1 ++ j :: js2 = l1 ++ k :: (l2 ++ j :: js2)) by (rewrite E, <- app_assoc; reflexivity).
    destruct (row_major_split _ _ _ _ _ Hj Ek) as (Hk & Hlt). assert (Kin : In k js1) by (rewrite E; apply in_or_app; right; left; auto).
    destruct (Hx k m1 Kin) as (u & F1 & F2). { intros p Hp. apply Hm1. intros j' Hj'. apply Hp; apply Hlt; auto. }
    cbn [element map]. exists VUnit. rewrite (in_order_2 _ _ _ _ _ (VRef (vplace v (I k))) m1 u m1); auto.
    + unfold assign_op, op2, bind. rewrite (rd_value _ _ (x k)); auto.
    + apply (at_each_element T v ix i s I HI k m1 Hk). auto.
  - auto.
  - exists m'. split; auto. rewrite (ply_spec _ _ _ no_stop fixed z _ s (js1 ++ j :: js2)); auto.
    + rewrite visit_each. assert (G : forall a b (w : mem T) w', each (element (Map (assign_op f) [at_each v ix i; e])) a w = Ok tt w' ->
        each (element (Map (assign_op f) [at_each v ix i; e])) (a ++ b) w = each (element (Map (assign_op f) [at_each v ix i; e])) b w').
      { induction a as [|y a IH]; intros b w w' E; cbn [each app] in *; [inversion E; reflexivity|]. destruct (element _ y w); try discriminate. apply IH. exact E. }
      rewrite (G js1 (j :: js2) m m' E1). cbn [each]. cbn [element map in_order].
      destruct (at_each_element T v ix i s I HI j m' (Hin j ltac:(apply in_or_app; right; left; auto))) as (_ & Ef). rewrite Ef by auto. reflexivity.
    + apply wf_map; [discriminate|]. constructor; [unfold at_each; apply wf_map; [discriminate|]; auto|auto].
    + apply joint_shape_map. apply at_each_joint. auto.
Qed.
(* a 1-d array of 3 and the indices 2 0 2: both terms are added to element 2. If the last index is 3, it's an error after the first two. *)
Definition picks (l : list Z) (x : val Z) : list Z := match x with VI k => [nth (Z.to_nat k) l 0] | _ => [] end.
Definition three : expr (val Z) (mem Z) := Cell [Dim 3 1] 1 VI 0.
Definition tens : expr (val Z) (mem Z) := Map (fun xs => match xs with [VI k] => ret (VT (10 + k)) | _ => undef end) [three].
Example C75_ex : let v := Vw [Dim 3 2] 100 in let m := (fun p => p) : mem Z in
  wf three /\ wf tens /\ joint_shape [three; tens] [3] /\ indices_are (picks [2; 0; 2]) three [3] (fun j => [nth (Z.to_nat (nth 0 j 0)) [2; 0; 2] 0]) /\
  legal v [2] /\ legal v [0] /\ ~ legal v [3] /\
  (exists m', assign true z_init Z.add (at_each v (picks [2; 0; 2]) three) tens m = Ok None m' /\ map m' [100; 102; 104] = [111; 102; 126]) /\
  (exists m', assign false z_init Z.add (at_each v (picks [2; 0; 3]) three) tens m = Fail m' /\ map m' [100; 102; 104] = [111; 102; 114]).
Proof.
  cbv zeta. split; [cbn; repeat split; auto; repeat constructor; unfold oklen; cbn; lia|]. split; [cbn; split; [discriminate|]; repeat split; auto; repeat constructor; unfold oklen; cbn; lia|].
  split. { split; [reflexivity|]. intros k Hk. cbn in Hk. assert (k = 0%nat) by lia. subst. cbn. split; [lia|]. split; [auto|]. repeat constructor; auto. }
  split. { intros j m Hj. destruct j as [|x [|y j]]; [inversion Hj| |inversion Hj; subst; match goal with H : Forall2 _ (_ :: _) [] |- _ => inversion H end]. exists (VI (0 + (x * 1 + 0))). split; [reflexivity|]. cbn [picks nth]. rewrite Z.add_0_l, Z.add_0_r, Z.mul_1_r. reflexivity. }
  split; [split; [cbn; lia|]; intros [|k] Hk; cbn in *; lia|]. split; [split; [cbn; lia|]; intros [|k] Hk; cbn in *; lia|].
  split; [intros (_ & H); specialize (H 0%nat); cbn in H; unfold UNB in H; lia|].
  split; eexists; (split; [vm_compute; reflexivity|vm_compute; reflexivity]).
Qed.
Print Assumptions C75_element.
Print Assumptions C75_update.
Print Assumptions C75_refused.
