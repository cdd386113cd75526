(* Properties of subscripts applied to the result of subscripts: C102. *)
From Coq Require Import ZArith List Lia Bool Arith.
From Verif Require Import Spec M_Base M_Expr L_Spec Spec_Expr M_View L_View Spec_View P_View M_Slice Spec_Slice L_Slice P_Slice.
Import ListNotations.
Open Scope Z_scope.

(* ---- any subscripts: the element selected is the one selected in two steps ---- *)

Theorem C102_two_steps : forall a s1 s2 b c, from a s1 = Good b -> from b s2 = Good c ->
  Forall one_axis s1 -> Forall one_axis s2 -> fits (vrank a) s1 -> fits (vrank b) s2 ->
  forall k, length k = vrank c -> exists j i, selects s2 (vshape b) k j /\ selects s1 (vshape a) j i /\ vplace c k = vplace a i.
Proof.
  intros a s1 s2 b c E1 E2 O1 O2 F1 F2 k L.
  destruct (C23_select a s1 b E1 O1 F1) as (_ & X1 & P1). destruct (C23_select b s2 c E2 O2 F2) as (_ & X2 & P2).
  destruct (X2 k L) as (j & S2). destruct (P2 k j S2) as (_ & Lj & Q2). destruct (X1 j Lj) as (i & S1). destruct (P1 j i S1) as (_ & _ & Q1).
  exists j, i. repeat split; auto. congruence.
Qed.

(* ---- a(i ..., s ...) is a(i ...)(s ...) ---- *)

Definition plain (s : sub) : Prop := match s with SIdx _ => True | _ => False end.

Lemma plain_axis : forall s, Forall plain s -> Forall one_axis s.
Proof. intros s H. eapply Forall_impl; [|exact H]. intros []; cbn; tauto. Qed.
Lemma plain_rest : forall s t, Forall plain s -> length (filter is_rest (s ++ t)) = length (filter is_rest t).
Proof. induction 1 as [|[] s P _ IH]; cbn in *; try tauto; auto. Qed.
Lemma plain_takes : forall s t, Forall plain s -> total takes (s ++ t) = (length s + total takes t)%nat.
Proof. induction 1 as [|[] s P _ IH]; cbn in *; try tauto; auto. Qed.

Theorem C102_curry : forall a is s, Forall plain is -> Forall one_axis s -> one_rest s -> fits (vrank a) (is ++ s) ->
  from a (is ++ s) = rbind (from a is) (fun b => from b s).
Proof.
  intros a is s P O R F. apply one_rest_count in R.
  assert (T : fits (vrank a) is) by (unfold fits in *; rewrite plain_takes in F by auto; rewrite <- (app_nil_r is), plain_takes by auto; cbn; lia).
  rewrite (from_fromb a (is ++ s)); [|apply Forall_app; split; [apply plain_axis; auto|auto]|exact F|rewrite plain_rest; auto].
  rewrite (from_fromb a is); [|apply plain_axis; auto|exact T|rewrite <- (app_nil_r is), plain_rest; auto].
  unfold vrank in *. destruct a as [dv cp]. cbn [vdv vcp] in *. clear T. revert dv cp F. induction P as [|x is Px _ IH]; intros dv cp F.
  - cbn [app fromb rbind fst snd]. symmetry. apply (from_fromb (Vw dv cp) s O F R).
  - destruct x as [f| | | | |]; cbn in Px; try tauto. cbn [app fromb].
    destruct dv as [|d dv]; [unfold fits in F; cbn in F; lia|].
    destruct (f (len d)) as [x|]; [|reflexivity]. destruct (_ || _); [|reflexivity]. apply IH. unfold fits in *; cbn in F |- *; lia.
Qed.

(* a345(1, 2, iota(2, 4, -3)), by steps and at once. A position out of range is refused either way. *)
Example C102_curry_ex : from a345 [cidx 1; cidx 2; ciota 2 4 (-3)] = Good (Vw [Dim 2 (-3)] 134) /\ from a345 [cidx 1; cidx 2] = Good (Vw [Dim 5 1] 130) /\
  from (Vw [Dim 5 1] 130) [ciota 2 4 (-3)] = Good (Vw [Dim 2 (-3)] 134) /\ from a345 [cidx 3; cidx 2] = Refused.
Proof. repeat split. Qed.

(* ---- sequences on sequences ---- *)

(* an index, or the n positions o, o+s, o+2s ... *)
Inductive pos := At (x : Z) | Run (n o s : Z).
Definition sub_of (p : pos) : sub := match p with At x => cidx x | Run n o s => ciota n o s end.
(* what is selected by s2 from what is selected by s1 *)
Fixpoint andthen (s1 s2 : list pos) : list pos :=
  match s1 with
  | [] => s2
  | At x :: s1' => At x :: andthen s1' s2
  | Run n o s :: s1' =>
    match s2 with
    | [] => s1
    | At y :: s2' => At (o + y * s) :: andthen s1' s2'
    | Run m p t :: s2' => Run m (o + p * s) (s * t) :: andthen s1' s2'
    end
  end.

Lemma sub_axis : forall s, Forall one_axis (map sub_of s).
Proof. induction s as [|[] s IH]; cbn; constructor; cbn; auto. Qed.
Lemma sub_rest : forall s, (length (filter is_rest (map sub_of s)) <= 1)%nat.
Proof. intros s. assert (H : filter is_rest (map sub_of s) = []) by (induction s as [|[] s IH]; cbn; auto). rewrite H; cbn; lia. Qed.
Lemma sub_fits : forall s, total takes (map sub_of s) = length s.
Proof. induction s as [|[] s IH]; cbn; auto. Qed.
Lemma sub_good : forall s av bv pl r, fromb true (map sub_of s) av bv pl = Good r -> (length s <= length av)%nat.
Proof. intros s av bv pl r E. apply fromb_fits in E. unfold fits in E. rewrite sub_fits in E. exact E. Qed.
Lemma sub_bv : forall s av bv pl, fromb true (map sub_of s) av bv pl = rbind (fromb true (map sub_of s) av [] pl) (fun r => Good (bv ++ fst r, snd r)).
Proof.
  induction s as [|[x|n o s'] s IH]; intros av bv pl; cbn [map sub_of].
  - reflexivity.
  - unfold cidx; cbn [fromb]. destruct av as [|d av]; [reflexivity|]. destruct (_ || _); [|reflexivity]. apply IH.
  - unfold ciota; cbn [fromb]. destruct av as [|d av]; [reflexivity|]. destruct (n <? 0); [reflexivity|]. destruct (seq_ok _ _ _); [|reflexivity].
    rewrite (IH av (bv ++ _)), (IH av ([] ++ _)). destruct (fromb true (map sub_of s) av [] _) as [[dv p]| |]; cbn; rewrite <- ?app_assoc; reflexivity.
Qed.

(* the place is that of the axes that are left *)
Lemma sub_pl : forall s av pl dx c, fromb true (map sub_of s) av [] pl = Good dx -> fromb true (map sub_of s) av [] (pl + c) = Good (fst dx, snd dx + c).
Proof.
  induction s as [|[x|n o s'] s IH]; intros av pl dx c E; cbn [map sub_of] in *.
  - cbn in E. injection E as <-. reflexivity.
  - unfold cidx in *; cbn [fromb] in *. destruct av as [|d av]; [discriminate|]. destruct (_ || _); [|discriminate].
    replace (pl + c + x * step d) with (pl + x * step d + c) by ring. apply IH; exact E.
  - unfold ciota in *; cbn [fromb] in *. destruct av as [|d av]; [discriminate|]. destruct (n <? 0); [discriminate|]. destruct (seq_ok _ _ _); [|discriminate].
    rewrite sub_bv in E. destruct (fromb true (map sub_of s) av [] (pl + o * step d)) as [[dv q]| |] eqn:E'; try discriminate. cbn in E. injection E as <-.
    rewrite sub_bv. replace (pl + c + o * step d) with (pl + o * step d + c) by ring. rewrite (IH _ _ _ c E'). reflexivity.
Qed.

Lemma andthen_fromb : forall s1 av pl bv pb s2 r, fromb true (map sub_of s1) av [] pl = Good (bv, pb) -> fromb true (map sub_of s2) bv [] pb = Good r ->
  fromb true (map sub_of (andthen s1 s2)) av [] pl = Good r.
Proof.
  induction s1 as [|[x|n o s] s1 IH]; intros av pl bv pb s2 r E1 E2; cbn [andthen].
  - cbn in E1. injection E1 as <- <-. exact E2.
  - cbn [map sub_of] in *. unfold cidx in *; cbn [fromb] in *. destruct av as [|d av]; [discriminate|].
    destruct (_ || _); [|discriminate]. eapply IH; eauto.
  - destruct s2 as [|[y|m p t] s2].
    + cbn in E2. injection E2 as <-. exact E1.
    + cbn [map sub_of] in *. unfold cidx, ciota in *; cbn [fromb] in *. destruct av as [|d av]; [discriminate|].
      destruct (Z.ltb_spec n 0) as [|Hn]; [discriminate|]. destruct (seq_ok (len d) o (Dim n s)) eqn:So; [|discriminate].
      pose proof (proj1 (seq_ok_iff _ _ _ _ Hn) So) as Hs. change ([] ++ [Dim n (s * step d)]) with [Dim n (s * step d)] in E1. rewrite sub_bv in E1.
      destruct (fromb true (map sub_of s1) av [] (pl + o * step d)) as [[dv q]| |] eqn:E; try discriminate. cbn in E1. injection E1 as <- <-.
      cbn [len step] in E2. destruct (inside y n || _) eqn:I; [|discriminate].
      assert (Hy : 0 <= y < n).
      { apply orb_true_iff in I as [I|I]; [apply inside_iff; exact I|]. apply andb_true_iff in I as [I _]. apply Z.eqb_eq in I. unfold UNB in I. lia. }
      rewrite (proj2 (inside_iff (o + y * s) (len d))) by (apply Hs; exact Hy). cbn [orb].
      replace (pl + (o + y * s) * step d) with (pl + o * step d + y * (s * step d)) by ring.
      eapply IH; [apply (sub_pl _ _ _ _ _ E)|]. exact E2.
    + cbn [map sub_of] in *. unfold ciota in *; cbn [fromb] in *. destruct av as [|d av]; [discriminate|].
      destruct (Z.ltb_spec n 0) as [|Hn]; [discriminate|]. destruct (seq_ok (len d) o (Dim n s)) eqn:So; [|discriminate].
      pose proof (proj1 (seq_ok_iff _ _ _ _ Hn) So) as Hs. change ([] ++ [Dim n (s * step d)]) with [Dim n (s * step d)] in E1. rewrite sub_bv in E1.
      destruct (fromb true (map sub_of s1) av [] (pl + o * step d)) as [[dv q]| |] eqn:E; try discriminate. cbn in E1. injection E1 as <- <-.
      cbn [len step] in E2. destruct (Z.ltb_spec m 0) as [|Hm]; [discriminate|]. destruct (seq_ok n p (Dim m t)) eqn:Sp; [|discriminate].
      pose proof (proj1 (seq_ok_iff _ _ _ _ Hm) Sp) as Hp.
      rewrite (proj2 (seq_ok_iff (len d) (o + p * s) m (s * t) Hm)).
      2: { intros x Hx. replace (o + p * s + x * (s * t)) with (o + (p + x * t) * s) by ring. apply Hs, Hp, Hx. }
      change ([] ++ [Dim m (s * t * step d)]) with [Dim m (s * t * step d)]. change ([] ++ [Dim m (t * (s * step d))]) with [Dim m (t * (s * step d))] in E2.
      rewrite sub_bv in E2 |- *. destruct (fromb true (map sub_of s2) dv [] (q + p * (s * step d))) as [[dw u]| |] eqn:E'; try discriminate.
      cbn in E2. injection E2 as <-.
      replace (pl + (o + p * s) * step d) with (pl + o * step d + p * (s * step d)) by ring.
      rewrite (IH av (pl + o * step d + p * (s * step d)) dv (q + p * (s * step d)) s2 (dw, u)); [|apply (sub_pl _ _ _ _ _ E)|exact E'].
      cbn. replace (s * t * step d) with (t * (s * step d)) by ring. reflexivity.
Qed.

Theorem C102_sequences : forall a s1 s2 b c, (length s1 <= vrank a)%nat -> (length s2 <= vrank b)%nat ->
  from a (map sub_of s1) = Good b -> from b (map sub_of s2) = Good c -> from a (map sub_of (andthen s1 s2)) = Good c.
Proof.
  intros a s1 s2 b c L1 L2 E1 E2.
  rewrite from_fromb in E1; [|apply sub_axis|unfold fits; rewrite sub_fits; exact L1|apply sub_rest].
  rewrite from_fromb in E2; [|apply sub_axis|unfold fits; rewrite sub_fits; exact L2|apply sub_rest].
  destruct (fromb true (map sub_of s1) _ _ _) as [[dv p]| |] eqn:F1; try discriminate. cbn in E1. injection E1 as <-. cbn [vdv vcp] in *.
  destruct (fromb true (map sub_of s2) _ _ _) as [r| |] eqn:F2; try discriminate. cbn in E2. injection E2 as <-.
  pose proof (andthen_fromb _ _ _ _ _ _ _ F1 F2) as F3.
  rewrite from_fromb; [rewrite F3; reflexivity|apply sub_axis| |apply sub_rest].
  unfold fits. rewrite sub_fits. apply (sub_good _ _ _ _ _ F3).
Qed.

(* a345(iota(3, 2, -1), 3, iota(2, 0, 4))(iota(2, 0, 2), 1) is a345(iota(2, 2, -2), 3, 4). *)
Example C102_ex : from a345 (map sub_of [Run 3 2 (-1); At 3; Run 2 0 4]) = Good (Vw [Dim 3 (-20); Dim 2 4] 155) /\
  from (Vw [Dim 3 (-20); Dim 2 4] 155) (map sub_of [Run 2 0 2; At 1]) = Good (Vw [Dim 2 (-40)] 159) /\
  andthen [Run 3 2 (-1); At 3; Run 2 0 4] [Run 2 0 2; At 1] = [Run 2 2 (-2); At 3; At 4] /\
  from a345 (map sub_of [Run 2 2 (-2); At 3; At 4]) = Good (Vw [Dim 2 (-40)] 159).
Proof. repeat split. Qed.
(* The other direction needs the first step to be in range: v(iota(2, 1))(iota(2, 1)) is refused, v(iota(2, 2)) isn't. *)
Example C102_one_way : from (Vw [Dim 4 1] 0) (map sub_of [Run 2 1 1]) = Good (Vw [Dim 2 1] 1) /\ from (Vw [Dim 2 1] 1) (map sub_of [Run 2 1 1]) = Refused /\
  from (Vw [Dim 4 1] 0) (map sub_of (andthen [Run 2 1 1] [Run 2 1 1])) = Good (Vw [Dim 2 1] 2).
Proof. repeat split. Qed.

Print Assumptions C102_two_steps.
Print Assumptions C102_curry.
Print Assumptions C102_sequences.
