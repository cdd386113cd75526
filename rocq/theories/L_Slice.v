(* Lemmas on subscripts. *)
From Coq Require Import ZArith List Lia Bool Arith.
From Verif Require Import Spec M_Base M_Expr L_Spec Spec_Expr M_View L_View Spec_View M_Slice Spec_Slice.
Import ListNotations.
Open Scope Z_scope.

Lemma total_fsrc : forall l, sumn (map fsrc l) = total takes l.
Proof. induction l as [|[] l IH]; cbn; auto; rewrite <- IH; try destruct n; reflexivity. Qed.

Lemma inside_iff : forall i n, inside i n = true <-> 0 <= i < n.
Proof. intros; unfold inside; rewrite andb_true_iff, Z.leb_le, Z.ltb_lt; lia. Qed.

Lemma seq_ok_iff : forall la o n s, 0 <= n -> (seq_ok la o (Dim n s) = true <-> forall x, 0 <= x < n -> 0 <= o + x * s < la).
Proof.
  intros la o n s Hn; unfold seq_ok; cbn [len step]; rewrite orb_true_iff, andb_true_iff, !inside_iff, Z.eqb_eq; split.
  - intros [<-|[H1 H2]] x Hx; [lia|]. destruct (Z.le_gt_cases 0 s); nia.
  - intros H; destruct (Z.eq_dec n 0) as [->|Hz]; [left; reflexivity|right].
    pose proof (H 0 ltac:(lia)); pose proof (H (n-1) ltac:(lia)); lia.
Qed.

Lemma map_repeat : forall A B (f : A -> B) x n, map f (repeat x n) = repeat (f x) n.
Proof. induction n; cbn; congruence. Qed.

(* the axes and the place of the result *)
Lemma fromb_spec : forall subs av bv pl bv' pl', fromb true subs av bv pl = Good (bv', pl') ->
  Forall one_axis subs -> fits (length av) subs ->
  exists dv, bv' = bv ++ dv /\ selects_shape subs (map len av) (map len dv) /\
    (forall j, length j = length dv -> exists i, selects subs (map len av) j i) /\
    (forall j i, selects subs (map len av) j i -> length i = length av /\ length j = length dv /\ pl' + place dv j = pl + place av i) /\
    (forall j i, selects subs (map len av) j i -> inrange j (map len dv) -> inrange i (map len av)).
Proof.
  induction subs as [|s subs IH]; intros av bv pl bv' pl' E O F.
  - cbn in E; injection E as <- <-. exists av; split; [reflexivity|]. split; [constructor|]. split; [|split].
    + intros j L; exists j; constructor; rewrite map_length; exact L.
    + intros j i S; inversion S; subst. rewrite map_length in *; repeat split; auto.
    + intros j i S; inversion S; subst; auto.
  - inversion O as [|? ? O1 O2]; subst. unfold fits in F; cbn [total] in F.
    destruct s as [f|o c t|o dv|k|n|]; cbn [fromb takes] in E, F.
    + destruct av as [|d av]; [discriminate|]. destruct (f (len d)) as [x|] eqn:Ef; [|discriminate].
      destruct (inside x (len d) || _) eqn:Eb; [|discriminate].
      cbn [length] in F; destruct (IH _ _ _ _ _ E O2 ltac:(unfold fits; lia)) as (dv & -> & Sh & Ex & Pl & In).
      exists dv; split; [reflexivity|]. split; [constructor; exact Sh|]. split; [|split].
      * intros j L; destruct (Ex j L) as (i & Hi); exists (x :: i); cbn; econstructor; eauto.
      * intros j i S; inversion S; subst. assert (x0 = x) by congruence; subst x0.
        match goal with H : selects subs _ _ _ |- _ => destruct (Pl _ _ H) as (L1 & L2 & P) end.
        cbn [length place]; repeat split; auto. lia.
      * intros j i S I; inversion S; subst. assert (x0 = x) by congruence; subst x0.
        constructor; [|eapply In; eauto].
        apply orb_true_iff in Eb as [Eb|Eb]; [right; apply inside_iff; exact Eb|].
        apply andb_true_iff in Eb as [Eb _]; left; symmetry; apply Z.eqb_eq; exact Eb.
    + destruct av as [|d av]; [discriminate|].
      destruct (o (len d)) as [o'|] eqn:Eo, (c (len d)) as [c'|] eqn:Ec, (t (len d)) as [t'|] eqn:Et; try discriminate.
      destruct (c' <? 0) eqn:En; [discriminate|]. apply Z.ltb_ge in En.
      destruct (seq_ok (len d) o' (Dim c' t')) eqn:Eb; [|discriminate].
      pose proof (proj1 (seq_ok_iff _ _ _ _ En) Eb) as Hb.
      cbn [length] in F; destruct (IH _ _ _ _ _ E O2 ltac:(unfold fits; lia)) as (dv & -> & Sh & Ex & Pl & In).
      exists (Dim c' (t' * step d) :: dv); split; [rewrite <- app_assoc; reflexivity|]. split; [cbn; econstructor; eauto|]. split; [|split].
      * intros [|x j] L; [discriminate|]; cbn in L; destruct (Ex j ltac:(lia)) as (i & Hi); eexists; cbn; econstructor; eauto.
      * intros j i S; inversion S; subst.
        match goal with H : selects subs _ _ _ |- _ => destruct (Pl _ _ H) as (L1 & L2 & P) end.
        assert (o'0 = o') by congruence; assert (s' = t') by congruence; subst.
        cbn [length place len step]; repeat split; auto. rewrite Z.mul_add_distr_r, <- Z.mul_assoc. lia.
      * intros j i S I; inversion S; subst. cbn [map len] in I; inversion I; subst.
        assert (o'0 = o') by congruence; assert (s' = t') by congruence; subst.
        constructor; [|eapply In; eauto]. right. apply Hb.
        match goal with H : _ = UNB \/ _ |- _ => destruct H as [->|]; [unfold UNB in En; lia|assumption] end.
    + destruct O1.
    + cbn [andb] in E.
      set (n := match k with Some n => n | None => (length av - sumn (map fsrc subs))%nat end) in E.
      destruct (length av <? n)%nat eqn:En; [discriminate|]. apply Nat.ltb_ge in En.
      assert (Fk : (total takes subs <= length av - n)%nat).
      { unfold n; destruct k; [lia|rewrite total_fsrc; lia]. }
      destruct (IH _ _ _ _ _ E O2 ltac:(unfold fits; rewrite skipn_length; lia)) as (dv & -> & Sh & Ex & Pl & In).
      exists (firstn n av ++ dv); split; [rewrite app_assoc; reflexivity|].
      assert (L1 : length (firstn n av) = n) by (rewrite firstn_length; lia).
      assert (EA : map len av = map len (firstn n av) ++ map len (skipn n av)) by (rewrite <- map_app, firstn_skipn; reflexivity).
      assert (Cases : forall j i, selects (SDots k :: subs) (map len av) j i -> exists j1 j2 i2, j = j1 ++ j2 /\ i = j1 ++ i2 /\ length j1 = n /\ selects subs (map len (skipn n av)) j2 i2).
      { intros j i S; inversion S; subst.
        - match goal with H : ls1 ++ ls = _ |- _ => rewrite EA in H; rename H into Ha end.
          assert (X := f_equal (firstn (length ls1)) Ha). rewrite firstn_app, Nat.sub_diag, firstn_all, firstn_O, app_nil_r in X.
          unfold n in *. cbn in *.
          assert (Y := f_equal (skipn (length ls1)) Ha). rewrite skipn_app, Nat.sub_diag, skipn_all in Y; cbn [app skipn] in Y.
          rewrite skipn_app, map_length, L1, Nat.sub_diag, skipn_all2 in Y by (rewrite map_length; lia). cbn [app skipn] in Y. subst ls.
          exists j1, j0, i0; repeat split; auto.
        - match goal with H : ls1 ++ ls = _ |- _ => rename H into Ha end.
          assert (Ln : length ls1 = n).
          { assert (X := f_equal (@length _) Ha). rewrite app_length, map_length in X. unfold n; rewrite total_fsrc. lia. }
          rewrite EA in Ha. assert (Y := f_equal (skipn (length ls1)) Ha). rewrite skipn_app, Nat.sub_diag, skipn_all in Y; cbn [app skipn] in Y.
          rewrite skipn_app, map_length, L1, Ln, Nat.sub_diag, skipn_all2 in Y by (rewrite map_length; lia). cbn [app skipn] in Y. subst ls.
          exists j1, j0, i0; repeat split; auto. congruence. }
      assert (Ln : k = None -> length (map len (skipn n av)) = total takes subs).
      { intros ->. unfold n. rewrite map_length, skipn_length, total_fsrc. lia. }
      split; [|split; [|split]].
      * rewrite EA, map_app. destruct k as [k|].
        -- constructor; [rewrite map_length; exact L1|exact Sh].
        -- constructor; [auto|exact Sh].
      * intros j L. rewrite app_length, L1 in L.
        destruct (Ex (skipn n j)) as (i & Hi); [rewrite skipn_length; lia|].
        exists (firstn n j ++ i). rewrite EA. rewrite <- (firstn_skipn n j) at 1.
        assert (Lj : length (firstn n j) = n) by (rewrite firstn_length; lia).
        destruct k as [k|].
        -- apply sel_dots; auto. rewrite map_length; auto.
        -- apply sel_rest; auto. rewrite map_length, L1; auto.
      * intros j i S; destruct (Cases j i S) as (j1 & j2 & i2 & -> & -> & Lj & S2).
        destruct (Pl _ _ S2) as (La & Lb & P). rewrite skipn_length in La. rewrite !app_length, L1. repeat split; try lia.
        rewrite place_app by lia. rewrite <- (firstn_skipn n av) at 2. rewrite place_app by lia. lia.
      * intros j i S I; destruct (Cases j i S) as (j1 & j2 & i2 & -> & -> & Lj & S2).
        rewrite map_app in I. rewrite EA. unfold inrange in *. apply Forall2_app_inv_l in I as (s1 & s2 & I1 & I2 & Es).
        assert (s1 = map len (firstn n av) /\ s2 = map len dv) as [-> ->].
        { assert (length s1 = length (map len (firstn n av))).
          { rewrite map_length, L1, <- Lj. clear - I1. induction I1; cbn; congruence. }
          revert H Es; generalize (map len (firstn n av)) (map len dv). clear.
          induction s1; intros [|] ? H Es; cbn in *; try discriminate; auto. injection Es as <- Es.
          destruct (IHs1 l l0) as [-> ->]; auto. }
        apply Forall2_app; [exact I1|eapply In; eauto].
    + destruct (IH _ _ _ _ _ E O2 F) as (dv & -> & Sh & Ex & Pl & In).
      exists (repeat (Dim UNB 0) n ++ dv); split; [rewrite app_assoc; reflexivity|]. split; [|split; [|split]].
      * rewrite map_app, map_repeat. constructor; exact Sh.
      * intros j L. rewrite app_length, repeat_length in L. destruct (Ex (skipn n j)) as (i & Hi); [rewrite skipn_length; lia|].
        exists i. rewrite <- (firstn_skipn n j). constructor; auto. rewrite firstn_length; lia.
      * intros j i S; inversion S; subst. match goal with H : selects subs _ _ _ |- _ => destruct (Pl _ _ H) as (L1 & L2 & P) end.
        rewrite !app_length, repeat_length. repeat split; auto. rewrite place_app by (rewrite repeat_length; auto).
        assert (Z0 : forall n j, place (repeat (Dim UNB 0) n) j = 0).
        { clear. induction n; intros [|x j]; cbn [repeat place]; auto. rewrite IHn. cbn [step]. lia. }
        rewrite Z0. lia.
      * intros j i S I; inversion S; subst. eapply In; eauto.
        rewrite map_app, map_repeat in I. clear - I. unfold inrange in *.
        apply Forall2_app_inv_l in I as (s1 & s2 & I1 & I2 & Es).
        assert (s2 = map len dv) as ->; [|exact I2].
        assert (H : length s1 = length (repeat (len (Dim UNB 0)) (length j1))).
        { rewrite repeat_length. clear - I1. induction I1; cbn; congruence. }
        revert H Es; generalize (repeat (len (Dim UNB 0)) (length j1)) (map len dv). clear.
        induction s1; intros [|] ? H Es; cbn in *; try discriminate; auto. injection Es as <- Es.
        apply (IHs1 l l0); auto.
    + destruct av as [|d av]; [discriminate|].
      cbn [length] in F; destruct (IH _ _ _ _ _ E O2 ltac:(unfold fits; lia)) as (dv & -> & Sh & Ex & Pl & In).
      exists (d :: dv); split; [rewrite <- app_assoc; reflexivity|]. split; [cbn; constructor; exact Sh|]. split; [|split].
      * intros [|x j] L; [discriminate|]; cbn in L; destruct (Ex j ltac:(lia)) as (i & Hi); eexists; cbn; constructor; eauto.
      * intros j i S; inversion S; subst. match goal with H : selects subs _ _ _ |- _ => destruct (Pl _ _ H) as (L1 & L2 & P) end.
        cbn [length place]; repeat split; auto. lia.
      * intros j i S I; inversion S; subst. cbn [map] in I; inversion I; subst. constructor; auto. eapply In; eauto.
Qed.

(* which subscripts are accepted *)
Lemma fromb_legal : forall subs av bv pl, Forall one_axis subs -> fits (length av) subs ->
  (legal subs av -> exists r, fromb true subs av bv pl = Good r) /\ (~ legal subs av -> fromb true subs av bv pl = Refused).
Proof.
  induction subs as [|s subs IH]; intros av bv pl O F.
  - split; [intros _; eexists; reflexivity|]. intros N; destruct N; constructor.
  - inversion O as [|? ? O1 O2]; subst. unfold fits in F; cbn [total] in F.
    destruct s as [f|o c t|o dv|k|n|]; cbn [fromb takes] in *.
    + destruct av as [|d av]; [cbn in F; lia|]. cbn [length] in F.
      assert (F' : fits (length av) subs) by (unfold fits; lia).
      assert (B : forall x, inside x (len d) || (UNB =? len d) && (0 =? step d) = true <-> (0 <= x < len d \/ len d = UNB /\ step d = 0)).
      { intros; rewrite orb_true_iff, andb_true_iff, inside_iff, !Z.eqb_eq. split; intros [|[]]; auto. }
      split.
      * intros L; inversion L; subst. match goal with H : f _ = Some _ |- _ => rewrite H end.
        match goal with H : _ \/ _ |- _ => apply B in H; rewrite H end. apply IH; auto.
      * intros N. destruct (f (len d)) as [x|] eqn:Ef; [|reflexivity].
        destruct (inside x (len d) || _) eqn:Eb; [|reflexivity]. apply IH; auto.
        intros L; apply N; econstructor; eauto; apply B; exact Eb.
    + destruct av as [|d av]; [cbn in F; lia|]. cbn [length] in F.
      assert (F' : fits (length av) subs) by (unfold fits; lia).
      split.
      * intros L; inversion L; subst.
        repeat match goal with H : _ = Some _ |- _ => rewrite H; clear H end.
        destruct (Z.ltb_spec c' 0); [lia|]. rewrite (proj2 (seq_ok_iff _ _ _ _ ltac:(eassumption))) by assumption. apply IH; auto.
      * intros N. destruct (o (len d)) as [o'|] eqn:Eo, (c (len d)) as [c'|] eqn:Ec, (t (len d)) as [t'|] eqn:Et; try reflexivity.
        destruct (Z.ltb_spec c' 0) as [|Hc]; [reflexivity|]. destruct (seq_ok (len d) o' (Dim c' t')) eqn:Eb; [|reflexivity].
        apply IH; auto. intros L; apply N; econstructor; eauto. apply (seq_ok_iff _ _ _ _ Hc); exact Eb.
    + destruct O1.
    + set (n := match k with Some n => n | None => (length av - sumn (map fsrc subs))%nat end).
      assert (Hn : (n <= length av)%nat) by (unfold n; destruct k; lia).
      destruct (Nat.ltb_spec (length av) n) as [|_]; [lia|]. cbn [andb].
      assert (Fk : (total takes subs <= length av - n)%nat) by (unfold n; destruct k; [lia|rewrite total_fsrc; lia]).
      assert (F' : fits (length (skipn n av)) subs) by (unfold fits; rewrite skipn_length; lia).
      assert (L1 : length (firstn n av) = n) by (rewrite firstn_length; lia).
      assert (C : legal (SDots k :: subs) av <-> legal subs (skipn n av)).
      { split; intros L.
        - inversion L; subst.
          + unfold n. rewrite skipn_app, Nat.sub_diag, skipn_all; cbn. assumption.
          + assert (n = length dv1) as -> by (unfold n; rewrite total_fsrc, app_length; lia).
            rewrite skipn_app, Nat.sub_diag, skipn_all; cbn. assumption.
        - rewrite <- (firstn_skipn n av). destruct k as [k|].
          + constructor; auto.
          + constructor; auto. rewrite skipn_length; unfold n; rewrite total_fsrc; lia. }
      rewrite C. apply IH; auto.
    + assert (C : legal (SInsert n :: subs) av <-> legal subs av).
      { split; intros L; [inversion L; auto|constructor; auto]. }
      rewrite C. apply IH; auto.
    + destruct av as [|d av]; [cbn in F; lia|]. cbn [length] in F.
      assert (C : legal (SArr :: subs) (d :: av) <-> legal subs av).
      { split; intros L; [inversion L; auto|constructor; auto]. }
      rewrite C. apply IH; auto. unfold fits; lia.
Qed.

Lemma fromb_good_legal : forall subs av bv pl r, Forall one_axis subs -> fits (length av) subs -> fromb true subs av bv pl = Good r -> legal subs av.
Proof.
  induction subs as [|s subs IH]; intros av bv pl r O F E; [constructor|].
  inversion O as [|? ? O1 O2]; subst. unfold fits in F; cbn [total] in F.
  destruct s as [f|o c t|o dv|k|n|]; cbn [fromb takes] in *.
  - destruct av as [|d av]; [discriminate|]. cbn [length] in F. destruct (f (len d)) as [x|] eqn:Ef; [|discriminate].
    destruct (inside x (len d) || _) eqn:Eb; [|discriminate]. rewrite orb_true_iff, andb_true_iff, inside_iff, !Z.eqb_eq in Eb.
    econstructor; [eauto| |eapply IH; eauto; unfold fits; lia]. destruct Eb as [|[]]; auto.
  - destruct av as [|d av]; [discriminate|]. cbn [length] in F.
    destruct (o (len d)) as [o'|] eqn:Eo, (c (len d)) as [c'|] eqn:Ec, (t (len d)) as [t'|] eqn:Et; try discriminate.
    destruct (Z.ltb_spec c' 0) as [|Hc]; [discriminate|]. destruct (seq_ok (len d) o' (Dim c' t')) eqn:Eb; [|discriminate].
    econstructor; eauto; [apply (seq_ok_iff _ _ _ _ Hc); exact Eb|]. eapply IH; eauto. unfold fits; lia.
  - destruct O1.
  - set (n := match k with Some n => n | None => (length av - sumn (map fsrc subs))%nat end) in *.
    assert (Hn : (n <= length av)%nat) by (unfold n; destruct k; lia).
    assert (Fk : (total takes subs <= length av - n)%nat) by (unfold n; destruct k; [lia|rewrite total_fsrc; lia]).
    assert (F' : fits (length (skipn n av)) subs) by (unfold fits; rewrite skipn_length; lia).
    destruct (Nat.ltb_spec (length av) n) as [|_]; [lia|]. cbn [andb] in E.
    apply (IH _ _ _ _ O2 F') in E. rewrite <- (firstn_skipn n av). destruct k as [k|].
    + constructor; auto. rewrite firstn_length; unfold n in *; lia.
    + constructor; auto. rewrite skipn_length; unfold n; rewrite total_fsrc; lia.
  - constructor. eapply IH; eauto.
  - destruct av as [|d av]; [discriminate|]. cbn [length] in F. constructor. eapply IH; eauto. unfold fits; lia.
Qed.

Lemma fromb_false : forall subs av bv bv0 pl, Forall one_axis subs -> fits (length av) subs ->
  fromb false subs av bv0 pl = match fromb true subs av bv pl with Good r => Good (bv0, snd r) | Refused => Refused | UB => UB end.
Proof.
  induction subs as [|s subs IH]; intros av bv bv0 pl O F.
  - cbn. rewrite app_nil_r. reflexivity.
  - inversion O as [|? ? O1 O2]; subst. unfold fits in F; cbn [total] in F.
    destruct s as [f|o c t|o dv|k|n|]; cbn [fromb takes] in *.
    + destruct av as [|d av]; [reflexivity|]. cbn [length] in F. destruct (f (len d)); [|reflexivity].
      destruct (inside z (len d) || _); [|reflexivity]. apply IH; auto; unfold fits; lia.
    + destruct av as [|d av]; [reflexivity|]. cbn [length] in F.
      destruct (o (len d)), (c (len d)), (t (len d)); try reflexivity. destruct (z0 <? 0); [reflexivity|].
      destruct (seq_ok _ _ _); [|reflexivity]. rewrite app_nil_r. apply IH; auto; unfold fits; lia.
    + destruct O1.
    + cbn [andb]. set (n := match k with Some n => n | None => (length av - sumn (map fsrc subs))%nat end).
      assert (Hn : (n <= length av)%nat) by (unfold n; destruct k; lia).
      destruct (Nat.ltb_spec (length av) n) as [|_]; [lia|]. rewrite app_nil_r. apply IH; auto.
      unfold fits; rewrite skipn_length. unfold n; destruct k; [lia|rewrite total_fsrc; lia].
    + rewrite app_nil_r. apply IH; auto.
    + destruct av as [|d av]; [cbn in F; lia|]. cbn [length] in F. rewrite app_nil_r. apply IH; auto; unfold fits; lia.
Qed.

(* the rank of the result *)
Lemma shape_length : forall subs ls rs, selects_shape subs ls rs -> Forall one_axis subs -> (length (filter is_rest subs) <= 1)%nat ->
  (length rs + total takes subs = length ls + sumn (map fdst subs))%nat.
Proof.
  assert (G : forall subs ls rs, selects_shape subs ls rs -> Forall one_axis subs ->
    (length rs + total takes subs = length ls + sumn (map fdst subs))%nat).
  { induction 1; intros O; [cbn; lia|..]; inversion O as [|? ? O1 O2]; subst; specialize (IHselects_shape O2);
      unfold sumn in *; cbn [map fold_right total takes length fdst] in *; rewrite ?app_length, ?repeat_length in *; lia. }
  intros; apply G; auto.
Qed.

Lemma from_fromb : forall a subs, Forall one_axis subs -> fits (vrank a) subs -> (length (filter is_rest subs) <= 1)%nat ->
  from a subs = rbind (fromb true subs (vdv a) [] (vcp a)) (fun r => Good (Vw (fst r) (snd r))).
Proof.
  intros a subs O F R. unfold from. destruct (Nat.ltb_spec 1 (length (filter is_rest subs))) as [|_]; [lia|].
  unfold frombrank. rewrite total_fsrc. unfold fits in F.
  destruct (Z.ltb_spec (Z.of_nat (vrank a) - Z.of_nat (total takes subs) + Z.of_nat (sumn (map fdst subs))) 0) as [|_]; [lia|].
  destruct (Z.eqb_spec (Z.of_nat (vrank a) - Z.of_nat (total takes subs) + Z.of_nat (sumn (map fdst subs))) 0) as [Z0|_]; [|reflexivity].
  rewrite (fromb_false subs (vdv a) [] [] (vcp a) O F).
  destruct (fromb true subs (vdv a) [] (vcp a)) as [[dv pl]| |] eqn:E; auto. cbn.
  destruct (fromb_spec _ _ _ _ _ _ E O F) as (dv' & -> & Sh & _).
  pose proof (shape_length _ _ _ Sh O R) as L. rewrite !map_length in L. fold (vrank a) in L. cbn [app].
  destruct dv'; [reflexivity|cbn in L; lia].
Qed.

Lemma one_rest_count : forall l, one_rest l <-> (length (filter is_rest l) <= 1)%nat.
Proof.
  intros l; split.
  - intros H. destruct (Nat.le_gt_cases (length (filter is_rest l)) 1) as [|C]; auto. exfalso.
    assert (G : forall l, (0 < length (filter is_rest l))%nat -> exists a b, l = a ++ SDots None :: b /\ length (filter is_rest b) = (length (filter is_rest l) - 1)%nat).
    { clear. induction l as [|s l IH]; cbn [filter length]; [lia|]. destruct (is_rest s) eqn:E.
      - intros _. exists [], l. destruct s as [| | |[]| |]; try discriminate. split; [reflexivity|cbn; lia].
      - intros H; destruct (IH H) as (a & b & -> & L). exists (s :: a), b. split; [reflexivity|]. exact L. }
    destruct (G l ltac:(lia)) as (a & b & -> & L). destruct (G b ltac:(lia)) as (c & d & -> & _). eapply H; reflexivity.
  - intros H l1 l2 l3 ->. rewrite filter_app in H; cbn [filter is_rest] in H. rewrite app_length in H. cbn [length] in H.
    rewrite filter_app in H; cbn [filter is_rest] in H. rewrite app_length in H. cbn [length] in H. lia.
Qed.

(* ---- ra::len ---- *)

Section lx_ind2.
  Variable P : lx -> Prop.
  Hypothesis Hlen : P LLen.
  Hypothesis Hsc : forall c, P (LScalar c).
  Hypothesis Harr : forall ls f, P (LArr ls f).
  Hypothesis Hmap : forall op t, Forall P t -> P (LMap op t).
  Hypothesis Hpick : forall t, Forall P t -> P (LPick t).
  Hypothesis Hseq : forall o n s, P o -> P n -> P s -> P (LSeq o n s).
  Fixpoint lx_ind2 (e : lx) : P e :=
    let go := fix go (t : list lx) : Forall P t := match t with [] => Forall_nil P | a::t' => Forall_cons a (lx_ind2 a) (go t') end in
    match e with
    | LLen => Hlen
    | LScalar c => Hsc c
    | LArr ls f => Harr ls f
    | LMap op t => Hmap op t (go t)
    | LPick t => Hpick t (go t)
    | LSeq o n s => Hseq o n s (lx_ind2 o) (lx_ind2 n) (lx_ind2 s)
    end.
End lx_ind2.

Lemma has_len_iff : forall e, has_len e = false <-> len_free e.
Proof.
  induction e using lx_ind2; cbn; try (split; [discriminate|tauto]); try tauto.
  - induction H as [|a t Ha Ht IH]; cbn; [tauto|]. rewrite orb_false_iff, Ha, IH. tauto.
  - induction H as [|a t Ha Ht IH]; cbn; [tauto|]. rewrite orb_false_iff, Ha, IH. tauto.
  - rewrite !orb_false_iff, IHe1, IHe2, IHe3. tauto.
Qed.

Lemma lat_meaning : forall e ln j, len_free e -> lat e j = meaning ln e j.
Proof.
  induction e using lx_ind2; intros ln j F; cbn in F |- *; auto; try tauto.
  - assert (E : (fix go (t : list lx) : option (list Z) := match t with [] => Some [] | a :: t' => match lat a j with Some x => match go t' with Some r => Some (x :: r) | None => None end | None => None end end) t =
      (fix go (t : list lx) : option (list Z) := match t with [] => Some [] | a :: t' => match meaning ln a j with Some x => match go t' with Some r => Some (x :: r) | None => None end | None => None end end) t).
    { induction H as [|a t Ha Ht IH]; auto. destruct F as [F1 F2]. rewrite (Ha ln j F1), (IH F2). reflexivity. }
    rewrite E. reflexivity.
  - destruct H as [|p t Hp Ht]; auto. destruct F as [F1 F2]. rewrite (Hp ln j F1). destruct (meaning ln p j) as [i|]; auto.
    clear F1. revert i; induction Ht as [|a t Ha Ht IH]; intros i; auto. destruct F2 as [F1 F2]. rewrite (Ha ln j F1), (IH F2). reflexivity.
  - destruct F as (F1 & F2 & F3). rewrite (IHe1 ln [] F1), (IHe3 ln [] F3). reflexivity.
Qed.
Lemma wlen_spec : forall e ln e', wlen ln e = Some e' -> len_free e' /\ (forall ln' j, meaning ln' e' j = meaning ln e j) /\ (forall ln', seq_len ln' e' = seq_len ln e).
Proof.
  assert (Same : forall e ln, has_len e = false -> len_free e /\ (forall ln' j, meaning ln' e j = meaning ln e j) /\ (forall ln', seq_len ln' e = seq_len ln e)).
  { intros e ln H; apply has_len_iff in H. split; [exact H|]. split; intros.
    - rewrite <- !(lat_meaning e _ _ H); reflexivity.
    - destruct e; auto. destruct H as (_ & H & _). cbn [seq_len]. rewrite <- !(lat_meaning _ _ _ H); reflexivity. }
  assert (W : forall t ln t', Forall (fun e => forall ln e', wlen ln e = Some e' -> len_free e' /\ (forall ln' j, meaning ln' e' j = meaning ln e j) /\ (forall ln', seq_len ln' e' = seq_len ln e)) t ->
    (fix go (t : list lx) : option (list lx) := match t with [] => Some [] | a :: t' => match wlen ln a with Some x => match go t' with Some r => Some (x :: r) | None => None end | None => None end end) t = Some t' ->
    Forall2 (fun a a' => len_free a' /\ (forall ln' j, meaning ln' a' j = meaning ln a j)) t t').
  { induction t as [|a t IH]; intros ln t' F E.
    - injection E as <-; constructor.
    - inversion F; subst. destruct (wlen ln a) as [a'|] eqn:Ea; [|discriminate].
      match type of E with match ?g with _ => _ end = _ => destruct g as [r|] eqn:Er; [|discriminate] end.
      injection E as <-. constructor; [|apply IH; auto]. destruct (H1 _ _ Ea) as (? & ? & ?); auto. }
  assert (LF : forall ln t t', Forall2 (fun a a' => len_free a' /\ (forall ln' j, meaning ln' a' j = meaning ln a j)) t t' ->
    (fix go (t : list lx) : Prop := match t with [] => True | a :: t' => len_free a /\ go t' end) t').
  { induction 1; auto. tauto. }
  induction e using lx_ind2; intros ln e' E.
  - cbn in E; injection E as <-. cbn. auto.
  - cbn in E; injection E as <-. cbn. auto.
  - cbn in E; injection E as <-. cbn. auto.
  - cbn [wlen] in E. destruct (has_len (LMap op t)) eqn:Hl; [|injection E as <-; apply Same; exact Hl].
    match type of E with match ?g with _ => _ end = _ => destruct g as [t'|] eqn:Et; [|discriminate] end. injection E as <-.
    pose proof (W _ _ _ H Et) as F2. cbn [len_free seq_len]. split; [eapply LF; eauto|]. split; [|auto].
    intros ln' j; cbn [meaning].
    match goal with |- match ?g with _ => _ end = match ?h with _ => _ end => assert (g = h) as -> end; [|reflexivity].
    clear - F2. induction F2 as [|a a' t t' [_ Ha] _ IH]; auto. rewrite Ha, IH. reflexivity.
  - cbn [wlen] in E. destruct (has_len (LPick t)) eqn:Hl; [|injection E as <-; apply Same; exact Hl].
    match type of E with match ?g with _ => _ end = _ => destruct g as [t'|] eqn:Et; [|discriminate] end. injection E as <-.
    pose proof (W _ _ _ H Et) as F2. cbn [len_free seq_len]. split; [eapply LF; eauto|]. split; [|auto].
    intros ln' j; cbn [meaning]. clear - F2. destruct F2 as [|p p' t t' [_ Hp] F2]; auto.
    rewrite Hp. destruct (meaning ln p j) as [i|]; auto. revert i. induction F2 as [|a a' t t' [_ Ha] _ IH]; intros i; auto.
    rewrite Ha, IH. reflexivity.
  - cbn [wlen] in E. destruct (has_len (LSeq e1 e2 e3)) eqn:Hl; [|injection E as <-; apply Same; exact Hl].
    assert (V : forall e, (forall ln e', wlen ln e = Some e' -> len_free e' /\ (forall ln' j, meaning ln' e' j = meaning ln e j) /\ (forall ln', seq_len ln' e' = seq_len ln e)) ->
      forall x, match wlen ln e with Some e' => lat e' [] | None => None end = Some x -> meaning ln e [] = Some x).
    { intros e He x Hx. destruct (wlen ln e) as [e0|] eqn:E0; [|discriminate]. destruct (He _ _ E0) as (F & M & _).
      rewrite <- (M ln []), <- (lat_meaning _ _ _ F). exact Hx. }
    destruct (match wlen ln e1 with Some e' => lat e' [] | None => None end) as [o|] eqn:E1; [|discriminate].
    destruct (match wlen ln e2 with Some e' => lat e' [] | None => None end) as [n|] eqn:E2; [|discriminate].
    destruct (match wlen ln e3 with Some e' => lat e' [] | None => None end) as [s|] eqn:E3; [|discriminate].
    destruct (negb (has_len e2) || (0 <=? n)); [|discriminate]. injection E as <-.
    apply (V _ IHe1) in E1. apply (V _ IHe2) in E2. apply (V _ IHe3) in E3.
    cbn [len_free]. split; [tauto|]. split.
    + intros ln' j. cbn [meaning]. rewrite E1, E3. reflexivity.
    + intros ln'. cbn [seq_len meaning]. rewrite E2. reflexivity.
Qed.
