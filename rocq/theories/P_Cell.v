(* Properties of iteration on cells: C56. *)
From Coq Require Import ZArith List Lia Bool Arith.
From Verif Require Import Spec M_Base M_Expr M_Ply L_Spec L_Expr Spec_Ply Spec_Expr L_Agree L_Run L_Ply P_Ply M_Val M_View L_View Spec_View M_Slice Spec_Slice L_Slice P_Slice M_Cell.
Import ListNotations.
Open Scope Z_scope.

(* f is the number of frame axes for cell rank c>=0 or frame rank -c>0, when there are r *)
Definition frame_axes (r : nat) (c : Z) (f : nat) : Prop := (f <= r)%nat /\ (0 <= c -> Z.of_nat (r - f) = c) /\ (c < 0 -> Z.of_nat f = - c).

Lemma nth_seq_skipn : forall (dv : list dim) f, (f <= length dv)%nat -> map (fun k => nth (f + k) dv dim0) (seq 0 (length dv - f)) = skipn f dv.
Proof.
  induction dv as [|d dv IH]; intros f H.
  - cbn in H. replace f with 0%nat by lia. reflexivity.
  - destruct f as [|f]; cbn [skipn length Nat.sub].
    + cbn [seq map]. f_equal. rewrite <- seq_shift, map_map. specialize (IH 0%nat). rewrite Nat.sub_0_r in IH. cbn [skipn] in IH. rewrite <- IH at 2 by lia.
      apply map_ext. intros k. reflexivity.
    + rewrite <- IH by (cbn in H; lia). apply map_ext. intros k. reflexivity.
Qed.

Lemma icell_frame : forall W v c f, frame_axes (vrank v) c f -> @icell W v c = Good (Cell (vdv v) f (fun p => Vw (skipn f (vdv v)) p) (vcp v)).
Proof.
  intros W v c f (Hf & Hp & Hn). unfold icell, rank_cell. unfold vrank in *.
  assert (E : (if c >=? 0 then c else Z.of_nat (length (vdv v)) + c) = Z.of_nat (length (vdv v) - f)).
  { destruct (Z.geb_spec c 0); [rewrite Hp by lia; auto|]. specialize (Hn ltac:(lia)). lia. }
  rewrite E. destruct (Z.leb_spec 0 (Z.of_nat (length (vdv v)) - Z.of_nat (length (vdv v) - f))); [|lia]. destruct (Z.leb_spec 0 (Z.of_nat (length (vdv v) - f))); [|lia]. cbn [andb].
  replace (Z.to_nat (Z.of_nat (length (vdv v)) - Z.of_nat (length (vdv v) - f))) with f by lia. rewrite Nat2Z.id, nth_seq_skipn by lia. reflexivity.
Qed.
Lemma place_split : forall dv j i, (length j <= length dv)%nat -> place dv (j ++ i) = place (firstn (length j) dv) j + place (skipn (length j) dv) i.
Proof.
  induction dv as [|d dv IH]; intros j i H.
  - destruct j; cbn in *; [lia|lia].
  - destruct j as [|x j]; cbn [app place length firstn skipn] in *; [destruct i; cbn; lia|]. rewrite IH by lia. lia.
Qed.

(* ranks are accepted if they fit, and only then *)
Theorem C56_ranks : forall W v c, (exists f, frame_axes (vrank v) c f /\ exists e, @icell W v c = Good e /\ axes e = f /\ forall k, (k < f)%nat -> leaf_lens e k = [nth k (vshape v) 0])
  \/ (~ (exists f, frame_axes (vrank v) c f) /\ @icell W v c = Refused).
Proof.
  intros W v c. destruct (Z_le_dec 0 c) as [Hc|Hc].
  - destruct (Z_le_dec c (Z.of_nat (vrank v))) as [Hr|Hr].
    + left. exists (vrank v - Z.to_nat c)%nat. assert (F : frame_axes (vrank v) c (vrank v - Z.to_nat c)) by (unfold frame_axes; lia). split; auto.
      rewrite (icell_frame W v c _ F). eexists. split; [reflexivity|]. split; [reflexivity|]. intros k Hk. cbn [leaf_lens]. destruct (Nat.ltb_spec k (vrank v - Z.to_nat c)); [|lia].
      f_equal. unfold vshape. change 0 with (len dim0). rewrite map_nth. reflexivity.
    + right. split; [intros (f & Hf & Hp & _); specialize (Hp Hc); lia|]. unfold icell, rank_cell. destruct (Z.geb_spec c 0); [|lia].
      destruct (Z.leb_spec 0 (Z.of_nat (vrank v) - c)); [lia|reflexivity].
  - destruct (Z_le_dec (- c) (Z.of_nat (vrank v))) as [Hr|Hr].
    + left. exists (Z.to_nat (- c)). assert (F : frame_axes (vrank v) c (Z.to_nat (- c))) by (unfold frame_axes; lia). split; auto.
      rewrite (icell_frame W v c _ F). eexists. split; [reflexivity|]. split; [reflexivity|]. intros k Hk. cbn [leaf_lens]. destruct (Nat.ltb_spec k (Z.to_nat (- c))); [|lia].
      f_equal. unfold vshape. change 0 with (len dim0). rewrite map_nth. reflexivity.
    + right. split; [intros (f & Hf & _ & Hn); specialize (Hn ltac:(lia)); lia|]. unfold icell, rank_cell. destruct (Z.geb_spec c 0); [lia|].
      replace (Z.of_nat (vrank v) - (Z.of_nat (vrank v) + c)) with (- c) by lia. destruct (Z.leb_spec 0 (- c)); [|lia]. destruct (Z.leb_spec 0 (Z.of_nat (vrank v) + c)); [lia|reflexivity].
Qed.

(* the item at an index is the view with those subscripts, and its elements are those of v *)
(* the ranks of the frame and of the cells when they are static *)
Theorem C56_static_ranks : forall r c f, frame_axes r c f -> rank_frame (Z.of_nat r) c = Z.of_nat f /\ rank_cell (Z.of_nat r) c = Z.of_nat (r - f).
Proof. intros r c f (H1 & H2 & H3). unfold rank_frame, rank_cell. destruct (Z.geb_spec c 0); [specialize (H2 ltac:(lia))|specialize (H3 ltac:(lia))]; lia. Qed.
Example C56_static_example : frame_axes 3 1 2 /\ frame_axes 3 (-1) 1 /\ rank_frame 3 1 = 2 /\ rank_frame 3 (-1) = 1.
Proof. unfold frame_axes. repeat split; lia. Qed.
Theorem C56_item : forall W v c f e j, frame_axes (vrank v) c f -> @icell W v c = Good e -> inshape j (firstn f (vshape v)) ->
  exists b, (forall w, at_ e j w = Ok b w) /\ (forall w, element e j w = Ok b w) /\ from v (map cidx j) = Good b /\
    vshape b = skipn f (vshape v) /\ forall i, vplace b i = vplace v (j ++ i).
Proof.
  intros W v c f e j F E Hj. rewrite (icell_frame W v c f F) in E. inversion E; subst e; clear E. destruct F as (Hf & _).
  assert (Lj : length j = f). { rewrite (inshape_length _ _ Hj), firstn_length. unfold vshape, vrank in *. rewrite map_length. lia. }
  exists (Vw (skipn f (vdv v)) (vcp v + place (firstn f (vdv v)) j)).
  assert (I : indexer (firstn f (vdv v)) (vcp v) j = Some (vcp v + place (firstn f (vdv v)) j)).
  { apply C28_at_exact. unfold vrank in Hf. rewrite firstn_length, Nat.min_l by lia. split; [lia|]. split; [|reflexivity]. intros k Hk. left.
    unfold vshape in Hj. rewrite firstn_map in Hj. assert (G : forall i (l : list dim) k, inshape i (map len l) -> (k < length l)%nat -> 0 <= nth k i 0 < len (nth k l dim0)).
    { clear. induction i as [|x i IH]; intros l k H Hk; inversion H; subst; destruct l; try discriminate; cbn in *; [lia|]. destruct k; [congruence|]. injection H2 as -> ->. apply IH; auto; lia. }
    apply G; auto. rewrite firstn_length. lia. }
  split; [|split; [|split; [|split]]].
  - intros w. cbn [at_]. rewrite I. reflexivity.
  - intros w. cbn [element]. replace (firstn f j) with j by (rewrite <- Lj, firstn_all; reflexivity). reflexivity.
  - clear I. rewrite from_fromb.
    + destruct (fromb true (map cidx j) (vdv v) [] (vcp v)) as [r| |] eqn:Ef.
      * assert (G : forall j av bv pl, inshape j (firstn (length j) (map len av)) -> fromb true (map cidx j) av bv pl = Good (bv ++ skipn (length j) av, pl + place (firstn (length j) av) j)).
        { clear. induction j as [|x j IH]; intros av bv pl H.
          - cbn. rewrite Z.add_0_r. reflexivity.
          - destruct av as [|d av]; [inversion H|]. cbn [length firstn map] in H. inversion H; subst. cbn [map cidx fromb length skipn firstn place]. cbv beta.
            unfold inside. destruct (Z.leb_spec 0 x); [|lia]. destruct (Z.ltb_spec x (len d)); [|lia]. cbn [andb orb]. unfold cidx in IH. rewrite IH by auto. do 2 f_equal. lia. }
        rewrite G in Ef by (rewrite Lj; exact Hj). inversion Ef; subst. cbn [rbind fst snd app]. reflexivity.
      * exfalso. destruct (fromb_legal (map cidx j) (vdv v) [] (vcp v)) as [H _].
        { apply Forall_forall. intros s Hs. apply in_map_iff in Hs as (x & <- & _). exact I. }
        { unfold fits. enough (T : total takes (map cidx j) = length j) by (rewrite T; unfold vrank in Hf; lia). clear; induction j; cbn; lia. }
        destruct H as (r & Hr); [|congruence]. revert Hj. rewrite <- Lj. clear. unfold vshape. generalize (vdv v). induction j as [|x j IH]; intros dv H; [constructor|].
        destruct dv; [inversion H|]. cbn [length firstn map] in H. inversion H; subst. cbn [map]. eapply leg_idx; [reflexivity|left; auto|apply IH; auto].
      * exfalso. destruct (fromb_legal (map cidx j) (vdv v) [] (vcp v)) as [H _].
        { apply Forall_forall. intros s Hs. apply in_map_iff in Hs as (x & <- & _). exact I. }
        { unfold fits. enough (T : total takes (map cidx j) = length j) by (rewrite T; unfold vrank in Hf; lia). clear; induction j; cbn; lia. }
        destruct H as (r & Hr); [|congruence]. revert Hj. rewrite <- Lj. clear. unfold vshape. generalize (vdv v). induction j as [|x j IH]; intros dv H; [constructor|].
        destruct dv; [inversion H|]. cbn [length firstn map] in H. inversion H; subst. cbn [map]. eapply leg_idx; [reflexivity|left; auto|apply IH; auto].
    + apply Forall_forall. intros s Hs. apply in_map_iff in Hs as (x & <- & _). exact I.
    + unfold fits. enough (T : total takes (map cidx j) = length j) by (rewrite T; lia). clear; induction j; cbn; lia.
    + enough (T : filter is_rest (map cidx j) = []) by (rewrite T; cbn; lia). clear; induction j; cbn; auto.
  - unfold vshape. cbn [vdv]. rewrite skipn_map. reflexivity.
  - intros i. unfold vplace. cbn [vdv vcp]. rewrite place_split by (unfold vrank in Hf; lia). rewrite Lj. lia.
Qed.

(* other indices are refused *)
Theorem C56_outside : forall W v c f e j, frame_axes (vrank v) c f -> @icell W v c = Good e -> length j = f -> nonneg (vshape v) -> ~ inshape j (firstn f (vshape v)) ->
  forall w, at_ e j w = Fail w.
Proof.
  intros W v c f e j F E Lj Nn Hj w. rewrite (icell_frame W v c f F) in E. inversion E; subst e; clear E. destruct F as (Hf & _). cbn [at_].
  destruct (indexer (firstn f (vdv v)) (vcp v) j) as [p|] eqn:I; [|reflexivity]. exfalso. apply Hj. apply C28_at_exact in I as (_ & H & _).
  unfold vshape, nonneg in *. unfold vrank in Hf. revert H Nn Hf Lj. clear. revert j. generalize (vdv v) as dv. induction f as [|f IH]; intros dv j H Nn Hf Lj.
  - destruct j; [|discriminate]. constructor.
  - destruct dv as [|d dv]; [cbn in Hf; lia|]. destruct j as [|x j]; [discriminate|]. cbn [map firstn]. inversion Nn; subst. constructor.
    + specialize (H 0%nat). cbn [firstn length nth] in H. destruct H as [H|H]; [lia|auto|unfold UNB in H; lia].
    + apply IH; auto; cbn [length] in *; try lia. intros k Hk. apply (H (S k)). cbn [firstn length]. lia.
Qed.

(* a traversal visits the cells in row-major order of the frame *)
Theorem C56_traversal : forall W v c f e op js z fixed, frame_axes (vrank v) c f -> @icell W v c = Good e -> nonneg (vshape v) -> row_major (firstn f (vshape v)) js -> zclean z ->
  forall w, ply fixed no_stop z (Map op [e]) w = finish (each (fun j => op [Vw (skipn f (vdv v)) (vplace v j)]) js w).
Proof.
  intros W v c f e op js z fixed F E Nn Hjs Hz w.
  pose proof E as E'. rewrite (icell_frame W v c f F) in E. inversion E as [E1]. clear E.
  set (e' := Map op [e]).
  assert (Hw : wf e') by (subst e' e; destruct F as (Hf & _); unfold vrank in Hf; split; [discriminate|]; cbn; repeat split; auto;
    apply Forall_forall; intros d Hd; left; unfold nonneg, vshape in Nn; rewrite Forall_forall in Nn; apply Nn, in_map; rewrite <- (firstn_skipn f); apply in_or_app; auto).
  assert (Hs : shape_is e' (firstn f (vshape v))).
  { destruct F as (Hf & _). unfold vshape, vrank in *. subst e' e. unfold shape_is. cbn [axes fold_right]. rewrite firstn_length, map_length, Nat.max_0_r. split; [lia|]. intros k Hk.
    cbn [leaf_lens flat_map]. rewrite app_nil_r. destruct (Nat.ltb_spec k f); [|lia]. rewrite nth_firstn by lia. change 0 with (len dim0) at 2 3 4. rewrite map_nth.
    split; [|split; [left; auto|constructor; auto]]. unfold nonneg in Nn. rewrite Forall_forall in Nn. apply Nn. apply in_map, nth_In. lia. }
  assert (G : each (element e') js w = each (fun j => op [Vw (skipn f (vdv v)) (vplace v j)]) js w).
  { clear Hw Hs. destruct Hjs as (_ & Hjs). assert (A : forall j, In j js -> inshape j (firstn f (vshape v))) by (intros j Hj; apply Hjs; auto). clear Hjs.
    revert w A. induction js as [|j js IH]; intros w A; [reflexivity|]. cbn [each].
    assert (El : element e' j w = op [Vw (skipn f (vdv v)) (vplace v j)] w).
    { destruct F as (Hf & _). subst e' e. cbn [element map in_order]. pose proof (A j (or_introl eq_refl)) as Hj. apply inshape_length in Hj. unfold vshape in Hj. unfold vrank in Hf. rewrite firstn_length, map_length, Nat.min_l in Hj by lia.
      unfold vplace. rewrite <- (app_nil_r j) at 2. rewrite place_split by lia. rewrite Hj. replace (firstn f j) with j by (rewrite <- Hj, firstn_all; reflexivity). destruct (skipn f (vdv v)); cbn [place]; rewrite Z.add_0_r; reflexivity. }
    rewrite El. destruct (op _ w); auto. apply IH. intros; apply A; right; auto. }
  unfold ply. rewrite E1. fold e'. destruct fixed; cbv iota beta.
  - rewrite (C03_static_traversal _ _ e' _ js Hw Hs Hjs). rewrite G. reflexivity.
  - rewrite (proj1 (C04_dynamic_traversal _ _ e' _ js z Hw Hs Hjs Hz w)). rewrite G. reflexivity.
Qed.

(* rows of a 3 4 array, planes of a 3 4 5 array; a rank that doesn't fit *)
Example C56_ex : frame_axes 3 2 1 /\ frame_axes 3 (-1) 1 /\ frame_axes 3 (-2) 2 /\ frame_axes 3 0 3 /\
  (exists e, @icell (list view) a345 2 = Good e /\ at_ e [1] [] = Ok (Vw [Dim 4 5; Dim 5 1] 120) [] /\ at_ e [3] [] = Fail []) /\
  (exists e, @icell (list view) a345 (-2) = Good e /\ at_ e [1; 2] [] = Ok (Vw [Dim 5 1] 130) []) /\
  @icell (list view) a345 4 = Refused /\ @icell (list view) a345 (-4) = Refused.
Proof. unfold frame_axes. repeat (split; [lia|]). repeat split; try (eexists; repeat split). Qed.
Print Assumptions C56_ranks.
Print Assumptions C56_item.
Print Assumptions C56_outside.
Print Assumptions C56_traversal.
