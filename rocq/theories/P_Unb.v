(* Properties of subscripts on axes of unbounded length: C93. *)
From Coq Require Import ZArith List Lia Bool Arith.
From Verif Require Import Spec M_Base M_Expr L_Spec Spec_Expr M_View L_View Spec_View P_View M_Slice Spec_Slice L_Slice P_Slice.
Import ListNotations.
Open Scope Z_scope.

Lemma fits_scalars : forall is k n, (k + length is <= n)%nat -> fits n (SDots (Some k) :: map cidx is).
Proof. intros is k n H. unfold fits. cbn [total takes]. assert (E : total takes (map cidx is) = length is) by (clear; induction is; cbn; lia). lia. Qed.
Lemma one_axis_scalars : forall is, Forall one_axis (map cidx is).
Proof. intros. apply Forall_map, Forall_forall. intros; exact I. Qed.
Lemma no_rest_scalars : forall is, length (filter is_rest (map cidx is)) = 0%nat.
Proof. induction is; auto. Qed.

Lemma fromb_dead : forall is r bv pl, fromb true (map cidx is) (repeat (Dim UNB 0) (length is) ++ r) bv pl = Good (bv ++ r, pl).
Proof.
  induction is as [|x is IH]; intros r bv pl; [reflexivity|]. cbn [map length repeat app fromb cidx len step]. rewrite !Z.eqb_refl. cbn [andb]. rewrite orb_true_r, Z.mul_0_r, Z.add_0_r. apply IH.
Qed.

(* Scalars on axes made with insert<m> give the original view, whatever their values. *)
Theorem C93_scalar_partial : forall a k is, (k <= vrank a)%nat -> exists b,
  from a [SDots (Some k); SInsert (length is)] = Good b /\ vshape b = firstn k (vshape a) ++ repeat UNB (length is) ++ skipn k (vshape a) /\
  from b (SDots (Some k) :: map cidx is) = Good a.
Proof.
  intros a k is Hk. unfold vrank in Hk. set (b := Vw (firstn k (vdv a) ++ repeat (Dim UNB 0) (length is) ++ skipn k (vdv a)) (vcp a)). exists b.
  split; [|split].
  - rewrite from_fromb; [|repeat constructor|unfold fits, vrank; cbn [total takes]; lia|cbn; lia]. cbn [fromb andb]. destruct (Nat.ltb_spec (length (vdv a)) k); [lia|]. cbn [rbind fst snd app]. rewrite <- app_assoc. reflexivity.
  - unfold b, vshape. cbn [vdv]. rewrite !map_app, firstn_map, skipn_map. do 2 f_equal. generalize (length is). induction n; cbn; congruence.
  - assert (Lf : length (firstn k (vdv a)) = k) by (rewrite firstn_length; lia). assert (Lb : length (vdv b) = (k + length is + (length (vdv a) - k))%nat) by (unfold b; cbn [vdv]; rewrite !app_length, repeat_length, skipn_length; lia).
    rewrite from_fromb; [|constructor; [exact I|apply one_axis_scalars]|apply fits_scalars; unfold vrank; lia|cbn [filter is_rest]; rewrite no_rest_scalars; lia].
    cbn [fromb andb]. destruct (Nat.ltb_spec (length (vdv b)) k); [lia|]. cbn [app]. unfold b. cbn [vdv vcp]. rewrite firstn_app, skipn_app, Lf, Nat.sub_diag, firstn_O, app_nil_r, firstn_firstn, Nat.min_id. rewrite (skipn_all2 (firstn k (vdv a))) by lia. cbn [app skipn].
    rewrite fromb_dead. cbn [rbind fst snd]. rewrite firstn_skipn. destruct a; reflexivity.
Qed.

(* A sequence without elements is accepted on any axis. *)
Theorem C93_empty_partial : forall a d post o s, vdv a = d :: post -> from a [ciota 0 o s] = Good (Vw (Dim 0 (s * step d) :: post) (vcp a + o * step d)).
Proof.
  intros a d post o s E. rewrite from_fromb; [|repeat constructor|unfold fits, vrank; rewrite E; cbn; lia|cbn; lia]. rewrite E. reflexivity.
Qed.

Example C93_ex : let b := Vw [Dim 3 20; Dim UNB 0; Dim UNB 0; Dim 4 5; Dim 5 1] 100 in
  from a345 [all; SInsert 2] = Good b /\ from b [all; cidx 7; cidx (-1)] = Good a345.
Proof. split; reflexivity. Qed.

(* In b = a(insert<1>) every b(i) is a, but b(iota(n, o, s)) with n > 0 is refused, although it means n times a. *)
Theorem C93_dead_refuted : forall a, exists b, from a [SInsert 1] = Good b /\ (forall i, from b [cidx i] = Good a) /\ forall n o s, 0 < n -> from b [ciota n o s] = Refused.
Proof.
  intros a. destruct (C93_scalar_partial a 0 [0] ltac:(lia)) as (b & E & Sh & _).
  assert (Eb : b = Vw (Dim UNB 0 :: vdv a) (vcp a)).
  { rewrite from_fromb in E; [|repeat constructor|unfold fits, vrank; cbn; lia|cbn; lia]. cbn in E. injection E as <-. reflexivity. }
  exists b. subst b. split; [|split].
  - rewrite from_fromb; [|repeat constructor|unfold fits, vrank; cbn; lia|cbn; lia]. reflexivity.
  - intros i. rewrite from_fromb; [|repeat constructor|unfold fits, vrank; cbn; lia|cbn; lia]. cbn [vdv fromb cidx len step vcp]. rewrite !Z.eqb_refl. cbn [andb]. rewrite orb_true_r. cbn [rbind fst snd app fromb]. rewrite Z.mul_0_r, Z.add_0_r. destruct a; reflexivity.
  - intros n o s Hn. rewrite from_fromb; [|repeat constructor|unfold fits, vrank; cbn; lia|cbn; lia]. cbn [vdv fromb ciota len]. destruct (Z.ltb_spec n 0); [lia|].
    replace (seq_ok UNB o (Dim n s)) with false; [reflexivity|]. symmetry. unfold seq_ok, inside, UNB. cbn [len]. destruct (Z.eqb_spec 0 n); [lia|]. cbn [orb]. apply andb_false_iff. left. apply andb_false_iff. destruct (Z.leb_spec 0 o); [right|left; auto]. apply Z.ltb_ge. lia.
Qed.

(* If the step isn't 0 (iota(), ptr(p)) every subscript but an empty sequence is refused, although all the places from 0 on have an element. *)
Theorem C93_step_refuted : forall a d post, vdv a = d :: post -> len d = UNB -> step d <> 0 ->
  (forall i, from a [cidx i] = Refused) /\ forall n o s, 0 < n -> from a [ciota n o s] = Refused.
Proof.
  intros a d post E El Es. assert (N : forall x, inside x UNB = false) by (intros; unfold inside, UNB; apply andb_false_iff; destruct (Z.leb_spec 0 x); [right; apply Z.ltb_ge; lia|left; auto]).
  split.
  - intros i. rewrite from_fromb; [|repeat constructor|unfold fits, vrank; rewrite E; cbn; lia|cbn; lia]. rewrite E. cbn [fromb cidx]. rewrite El, N, Z.eqb_refl. destruct (Z.eqb_spec 0 (step d)); [lia|]. reflexivity.
  - intros n o s Hn. rewrite from_fromb; [|repeat constructor|unfold fits, vrank; rewrite E; cbn; lia|cbn; lia]. rewrite E. cbn [fromb ciota]. rewrite El. destruct (Z.ltb_spec n 0); [lia|]. unfold seq_ok. rewrite N. cbn [len andb]. destruct (Z.eqb_spec 0 n); [lia|]. reflexivity.
Qed.
(* iota()(3) *)
Example C93_step_ex : from (Vw [Dim UNB 1] 0) [cidx 3] = Refused /\ from (Vw [Dim UNB 1] 0) [ciota 0 2 1] = Good (Vw [Dim 0 1] 2).
Proof. split; reflexivity. Qed.

Print Assumptions C93_scalar_partial. Print Assumptions C93_empty_partial. Print Assumptions C93_dead_refuted. Print Assumptions C93_step_refuted.
