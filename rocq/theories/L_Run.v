(* Lemmas: both traversals in terms of the specification. *)
From Coq Require Import ZArith List Lia Bool Sorted.
From Coq Require Import ZifyBool ZifyNat.
From Verif Require Import Spec L_Spec Spec_Ply Spec_Expr M_Base M_Expr M_Ply L_Expr L_Agree L_Ply L_Stl.
Import ListNotations.
Open Scope Z_scope.

Lemma visit_each : forall X W (get : list Z -> M W X) js w, visit no_stop get js w = finish (each get js w).
Proof. induction js; intros; [reflexivity|]. cbn. destruct (get a w); auto. Qed.

Lemma visit_get_ext : forall X W R (post : X -> option R) (f g : list Z -> M W X) js, (forall j w, In j js -> f j w = g j w) ->
  forall w, visit post f js w = visit post g js w.
Proof.
  induction js; intros; [reflexivity|]. cbn. rewrite H by (left; auto). destruct (g a w); auto. destruct (post a0); auto.
  apply IHjs. intros. apply H. right; auto.
Qed.

Lemma fixed_element : forall X W R (post : X -> option R) (e : expr X W) s js, wf e -> shape_is e s -> row_major s js ->
  forall w, ply_fixed post e w = visit post (element e) js w.
Proof.
  intros X W R post e s js Hw Hs Hj w. apply shape_is_shape in Hs; auto. destruct Hs as (-> & Hv).
  apply row_major_unique in Hj. subst js. rewrite ply_fixed_spec by auto.
  apply visit_get_ext. intros. apply element_at; auto. apply in_indices; auto.
Qed.

Lemma ravel_element : forall X W R (post : X -> option R) (e : expr X W) s js z, wf e -> shape_is e s -> row_major s js -> zclean z ->
  forall w, fst (ply_ravel post z e w) = visit post (element e) js w /\
    (forall w', visit post (element e) js w = Ok None w' -> zclean (snd (ply_ravel post z e w))).
Proof.
  intros X W R post e s js z Hw Hs Hj Hz w. apply shape_is_shape in Hs; auto. destruct Hs as (-> & Hv).
  apply row_major_unique in Hj. subst js.
  destruct (ply_ravel_spec post e Hw Hv z Hz w) as (z' & E & Hc).
  assert (Ev : visit post (at_ e) (indices (shape e)) w = visit post (element e) (indices (shape e)) w).
  { apply visit_get_ext. intros. apply element_at; auto. apply in_indices; auto. }
  rewrite Ev in *. rewrite E. auto.
Qed.

Lemma z_init_clean : zclean z_init.
Proof. repeat constructor. Qed.

