(* Property C90: amin, amax, refmin, refmax if some elements aren't numbers. *)
From Coq Require Import ZArith List Lia Bool Reals Lra.
From Verif Require Import Spec L_Spec Spec_Ply Spec_Expr M_Base M_Expr M_Ply M_Val Spec_Val L_Expr L_Agree L_Ply L_Stl L_Run L_Val P_Reduce M_Test Spec_Nan.
Import ListNotations.
Open Scope Z_scope.

Lemma flip_nan : forall T nan (ltb : T -> T -> bool), order_with_nan nan ltb -> order_with_nan nan (fun a b => ltb b a).
Proof. intros T nan ltb (A & B & C & D). repeat split; intros; eauto. apply A. tauto. Qed.
Lemma fold_nan : forall T nan (better : T -> T -> bool), order_with_nan nan better ->
  forall l c, nan c = false -> let r := fold_left (fun c x => if better x c then x else c) l c in
    nan r = false /\ (r = c \/ In r l) /\ better c r = false /\ forall x, In x l -> better x r = false.
Proof.
  intros T nan better (Hn & Hir & Htr & Hto).
  assert (Hng : forall a b c, nan b = false -> better a b = false -> better b c = false -> better a c = false).
  { intros a b c Nb H1 H2. destruct (better a c) eqn:E; auto. destruct (nan a) eqn:Na; [rewrite Hn in E; auto|]. destruct (better b a) eqn:E1.
    - rewrite (Htr _ _ _ E1 E) in H2. discriminate.
    - rewrite (Hto a b) in E; auto. congruence. }
  induction l as [|a l IH]; intros c Nc; cbn.
  - repeat split; auto; intros x [].
  - destruct (better a c) eqn:E.
    + assert (Na : nan a = false) by (destruct (nan a) eqn:Na; auto; rewrite Hn in E by auto; discriminate).
      destruct (IH a Na) as (H0 & H1 & H2 & H3). set (r := fold_left _ l _) in *. split; auto. split; [destruct H1 as [->|H1]; auto|]. split.
      * apply (Hng c a r); auto. destruct (better c a) eqn:E1; auto. pose proof (Htr _ _ _ E E1) as F. rewrite Hir in F. discriminate.
      * intros x [<-|Hx]; auto.
    + destruct (IH c Nc) as (H0 & H1 & H2 & H3). set (r := fold_left _ l _) in *. split; auto. split; [destruct H1 as [->|H1]; auto|]. split; auto.
      intros x [<-|Hx]; auto. apply (Hng a c r); auto.
Qed.

(* amin is the least of the numbers, or top if there are none. It's never NaN. *)
Theorem C90_amin : forall T nan ltb top (a : expr (val T) (mem T)) s m x fixed z, order_with_nan nan ltb -> nan top = false -> (forall t, ltb top t = false) ->
  wf a -> shape_is a s -> zclean z -> reads a s m x ->
  exists c, amin fixed z ltb top a m = Ok c m /\ nan c = false /\ (forall j, inshape j s -> ltb (x j) c = false) /\
    ((exists j, inshape j s /\ nan (x j) = false) -> exists j, inshape j s /\ c = x j) /\ (~ (exists j, inshape j s /\ nan (x j) = false) -> c = top).
Proof.
  intros T nan ltb top a s m x fixed z Ho Nt Ht Hw Hs Hz Hr. pose proof (row_major_indices s) as Hj.
  exists (fold_left (fun c x => if ltb x c then x else c) (map x (indices s)) top).
  destruct (fold_nan T nan ltb Ho (map x (indices s)) top Nt) as (H0 & H1 & H2 & H3). cbv zeta in *. set (r := fold_left _ _ _) in *.
  split; [apply (reduce1_spec T fixed z (fun x c => if ltb x c then x else c) a s (indices s) m x); auto|]. split; auto. split; [|split].
  - intros j Hin. apply H3. apply in_map. apply in_indices. auto.
  - intros (j0 & Hj0 & Nj). destruct H1 as [E|H1].
    + exists j0. split; auto. destruct Ho as (_ & _ & _ & Hto). apply Hto; auto; [rewrite E; apply Ht|]. apply H3. apply in_map. apply in_indices. auto.
    + apply in_map_iff in H1. destruct H1 as (j & E & Hin). exists j. split; auto. apply in_indices. auto.
  - intros N. destruct H1; auto. apply in_map_iff in H. destruct H as (j & E & Hin). exfalso. apply N. exists j. split; [apply in_indices; auto|congruence].
Qed.
Theorem C90_amax : forall T nan ltb bot (a : expr (val T) (mem T)) s m x fixed z, order_with_nan nan ltb -> nan bot = false -> (forall t, ltb t bot = false) ->
  wf a -> shape_is a s -> zclean z -> reads a s m x ->
  exists c, amax fixed z ltb bot a m = Ok c m /\ nan c = false /\ (forall j, inshape j s -> ltb c (x j) = false) /\
    ((exists j, inshape j s /\ nan (x j) = false) -> exists j, inshape j s /\ c = x j) /\ (~ (exists j, inshape j s /\ nan (x j) = false) -> c = bot).
Proof.
  intros T nan ltb bot a s m x fixed z Ho Nt Ht Hw Hs Hz Hr.
  exact (C90_amin T nan (fun a b => ltb b a) bot a s m x fixed z (flip_nan _ _ _ Ho) Nt Ht Hw Hs Hz Hr).
Qed.

(* refmin, refmax. If the first element is a number, the result is the first of the least, or greatest, numbers. If the first element isn't a number, it's the result, in any case. *)
Lemma refmin_nan : forall T nan less dv cp (m : mem T) fixed z, order_with_nan nan less -> zclean z -> Forall (fun d => 0 < len d) dv ->
  (nan (m cp) = true -> refmin fixed z less dv cp m = Ok cp m) /\
  (nan (m cp) = false -> exists j, inshape j (map len dv) /\ refmin fixed z less dv cp m = Ok (cp + place dv j) m /\ nan (m (cp + place dv j)) = false /\
     (forall i, inshape i (map len dv) -> less (m (cp + place dv i)) (m (cp + place dv j)) = false) /\
     (forall i, inshape i (map len dv) -> lexlt i j -> nan (m (cp + place dv i)) = false -> less (m (cp + place dv j)) (m (cp + place dv i)) = true)).
Proof.
  intros T nan less dv cp m fixed z (Hn & Hir & Htr & Hto) Hz Hp.
  assert (Er : refmin fixed z less dv cp m = Ok (fold_left (fun c j => if less (m (cp + place dv j)) (m c) then cp + place dv j else c) (indices (map len dv)) cp) m).
  { unfold refmin. replace (0 <? dimv_size dv) with true by (symmetry; apply Z.ltb_lt; apply dimv_size_pos; auto).
    unfold refmin_op. rewrite (ref_spec T (fun m q p => less (m q) (m p))) by auto. reflexivity. }
  rewrite Er. split; intros N.
  - clear Er. f_equal. induction (indices (map len dv)) as [|j l IH]; cbn; auto. rewrite (Hn (m (cp + place dv j)) (m cp)) by auto. auto.
  - set (less' := fun x y => if nan x then false else if nan y then true else less x y).
    assert (Hng : forall a b c, nan b = false -> less a b = false -> less b c = false -> less a c = false).
    { intros a b c Nb H1 H2. destruct (less a c) eqn:E; auto. destruct (nan a) eqn:Na; [rewrite Hn in E; auto|]. destruct (less b a) eqn:E1.
      - rewrite (Htr _ _ _ E1 E) in H2. discriminate.
      - rewrite (Hto a b) in E; auto. congruence. }
    assert (W : weak_order less').
    { unfold less'. split; [|split].
      - intros a. destruct (nan a) eqn:E; auto.
      - intros a b c. destruct (nan a) eqn:Ea; [discriminate|]. destruct (nan b) eqn:Eb; [discriminate|]. destruct (nan c) eqn:Ec; eauto.
      - intros a b c. destruct (nan a) eqn:Ea; auto. destruct (nan b) eqn:Eb; [discriminate|]. destruct (nan c) eqn:Ec; [discriminate|]. eauto. }
    destruct (C32_refmin T less' dv cp m fixed z W Hz) as (R & _). destruct (R Hp) as (j & Hj & E & L & F). clear R.
    assert (Ef : refmin fixed z less' dv cp m = refmin fixed z less dv cp m).
    { rewrite Er. unfold refmin. replace (0 <? dimv_size dv) with true by (symmetry; apply Z.ltb_lt; apply dimv_size_pos; auto).
      unfold refmin_op. rewrite (ref_spec T (fun m q p => less' (m q) (m p))) by auto. f_equal.
      assert (G : forall l c, nan (m c) = false -> fold_left (fun c j => if less' (m (cp + place dv j)) (m c) then cp + place dv j else c) l c =
        fold_left (fun c j => if less (m (cp + place dv j)) (m c) then cp + place dv j else c) l c).
      { clear - Hn. unfold less'. induction l as [|j l IH]; intros c N; cbn; auto. rewrite N. destruct (nan (m (cp + place dv j))) eqn:Nj.
        - rewrite (Hn (m (cp + place dv j)) (m c)) by auto. apply IH; auto.
        - destruct (less (m (cp + place dv j)) (m c)) eqn:E; apply IH; auto. }
      apply (G (indices (map len dv)) cp N). }
    rewrite Ef, Er in E. exists j. split; auto. split; auto.
    assert (Z0 : inshape (repeat 0 (length dv)) (map len dv)) by (destruct (first_pos dv Hp) as (l & El); apply in_indices; rewrite El; left; auto).
    assert (Nj : nan (m (cp + place dv j)) = false).
    { specialize (L _ Z0). rewrite place_zero, Z.add_0_r in L. unfold less' in L. rewrite N in L. destruct (nan (m (cp + place dv j))); auto. }
    split; auto. split.
    + intros i Hi. specialize (L i Hi). unfold less' in L. rewrite Nj in L. destruct (nan (m (cp + place dv i))) eqn:Ni; auto.
    + intros i Hi Hlt Ni. specialize (F i Hi Hlt). unfold less' in F. rewrite Nj, Ni in F. auto.
Qed.
Theorem C90_refmin_partial : forall T nan less dv cp (m : mem T) fixed z, order_with_nan nan less -> zclean z -> Forall (fun d => 0 < len d) dv ->
  (nan (m cp) = true -> refmin fixed z less dv cp m = Ok cp m) /\
  (nan (m cp) = false -> exists j, inshape j (map len dv) /\ refmin fixed z less dv cp m = Ok (cp + place dv j) m /\ nan (m (cp + place dv j)) = false /\
     (forall i, inshape i (map len dv) -> less (m (cp + place dv i)) (m (cp + place dv j)) = false) /\
     (forall i, inshape i (map len dv) -> lexlt i j -> nan (m (cp + place dv i)) = false -> less (m (cp + place dv j)) (m (cp + place dv i)) = true)).
Proof. exact refmin_nan. Qed.
Theorem C90_refmax_partial : forall T nan less dv cp (m : mem T) fixed z, order_with_nan nan less -> zclean z -> Forall (fun d => 0 < len d) dv ->
  (nan (m cp) = true -> refmax fixed z less dv cp m = Ok cp m) /\
  (nan (m cp) = false -> exists j, inshape j (map len dv) /\ refmax fixed z less dv cp m = Ok (cp + place dv j) m /\ nan (m (cp + place dv j)) = false /\
     (forall i, inshape i (map len dv) -> less (m (cp + place dv j)) (m (cp + place dv i)) = false) /\
     (forall i, inshape i (map len dv) -> lexlt i j -> nan (m (cp + place dv i)) = false -> less (m (cp + place dv i)) (m (cp + place dv j)) = true)).
Proof. intros T nan less dv cp m fixed z Ho. exact (refmin_nan T nan (fun a b => less b a) dv cp m fixed z (flip_nan _ _ _ Ho)). Qed.

(* The numbers of M_Test.v are so ordered. *)
Lemma fl_order : order_with_nan fl_isnan fl_lt.
Proof.
  split; [|split; [|split]].
  - intros [a| | |] [b| | |] [H|H]; try discriminate; reflexivity.
  - intros [a| | |]; auto. cbn. destruct (Rlt_dec a a); auto. lra.
  - intros [a| | |] [b| | |] [c| | |]; cbn; try discriminate; auto. destruct (Rlt_dec a b), (Rlt_dec b c), (Rlt_dec a c); auto; try discriminate. lra.
  - intros [a| | |] [b| | |]; cbn; try discriminate; auto. intros _ _. destruct (Rlt_dec a b), (Rlt_dec b a); try discriminate. intros _ _. f_equal. lra.
Qed.
Lemma fl_ends : fl_isnan PInf = false /\ fl_isnan NInf = false /\ (forall t, fl_lt PInf t = false) /\ (forall t, fl_lt t NInf = false).
Proof. repeat split; auto; intros [a| | |]; reflexivity. Qed.

(* {NaN, 1, 2}: refmin and refmax give NaN. *)
Definition nan12 : mem fl := fun p => if p =? 0 then NaN else Fin (IZR p).
Theorem C90_refuted : exists dv cp (m : mem fl) j, inshape j (map len dv) /\ fl_isnan (m (cp + place dv j)) = false /\
  forall fixed, exists p, refmin fixed z_init fl_lt dv cp m = Ok p m /\ refmax fixed z_init fl_lt dv cp m = Ok p m /\ fl_isnan (m p) = true.
Proof.
  exists [Dim 3 1], 0, nan12, [1]. split; [repeat constructor; cbn; lia|]. split; [reflexivity|]. intros fixed. exists 0.
  assert (P : Forall (fun d => 0 < len d) [Dim 3 1]) by (repeat constructor).
  destruct (refmin_nan fl fl_isnan fl_lt [Dim 3 1] 0 nan12 fixed z_init fl_order z_init_clean P) as (R & _).
  destruct (C90_refmax_partial fl fl_isnan fl_lt [Dim 3 1] 0 nan12 fixed z_init fl_order z_init_clean P) as (S & _).
  split; [apply R; reflexivity|]. split; [apply S; reflexivity|reflexivity].
Qed.

(* {NaN, 1, 2} and {2, NaN, 1} *)
Example C90_ex : exists c, amin true z_init fl_lt PInf (Cell [Dim 3 1] 1 VRef 0) nan12 = Ok c nan12 /\ c = Fin 1.
Proof.
  destruct (C90_amin fl fl_isnan fl_lt PInf (Cell [Dim 3 1] 1 VRef 0) [3] nan12 (fun j => nan12 (0 + place [Dim 3 1] (firstn 1 j))) true z_init) as (c & E & N & L & F & _).
  - apply fl_order.
  - reflexivity.
  - apply fl_ends.
  - wfauto.
  - apply (cell_shape _ _ [Dim 3 1] VRef 0). repeat constructor. cbn. lia.
  - apply z_init_clean.
  - apply (refers_reads _ _ _ (fun j => 0 + place [Dim 3 1] (firstn 1 j))). apply (cell_refers fl [Dim 3 1] 0).
  - exists c. split; auto. destruct F as (j & Hj & E2).
    { exists [1]. split; [repeat constructor; lia|reflexivity]. }
    inversion Hj as [|k ? j' ? Hk Hj']; subst. inversion Hj'; subst. assert (K : k = 0 \/ k = 1 \/ k = 2) by lia. destruct K as [->|[->| ->]]; [discriminate|reflexivity|].
    exfalso. specialize (L [1] ltac:(repeat constructor; lia)). cbn in L. destruct (Rlt_dec 1 2); [discriminate|]. lra.
Qed.
Definition m2n1 : mem fl := fun p => if p =? 1 then NaN else Fin (IZR (2 - p)).
Example C90_refmin_ex : refmin true z_init fl_lt [Dim 3 1] 0 m2n1 = Ok 2 m2n1.
Proof.
  destruct (C90_refmin_partial fl fl_isnan fl_lt [Dim 3 1] 0 m2n1 true z_init fl_order z_init_clean ltac:(repeat constructor)) as (_ & R).
  destruct (R eq_refl) as (j & Hj & E & N & L & _). rewrite E. clear R E.
  inversion Hj as [|k ? j' ? Hk Hj']; subst. inversion Hj'; subst. cbn in Hk. assert (K : k = 0 \/ k = 1 \/ k = 2) by lia. destruct K as [->|[->| ->]]; [|discriminate|reflexivity].
  exfalso. specialize (L [2] ltac:(repeat constructor; cbn; lia)). cbn in L. destruct (Rlt_dec 0 2); [discriminate|]. lra.
Qed.
Print Assumptions C90_amin.
Print Assumptions C90_amax.
Print Assumptions C90_refmin_partial.
Print Assumptions C90_refmax_partial.
Print Assumptions C90_refuted.
