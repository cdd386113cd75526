(* Property C92: outer product by broadcasting. *)
From Coq Require Import ZArith List Lia Bool.
From Verif Require Import Spec L_Spec Spec_Ply Spec_Expr M_Base M_Expr M_Ply M_Val Spec_Val L_Expr L_Agree L_Ply L_Stl L_Run L_Val P_Reduce M_View Spec_View L_View M_Slice Spec_Slice L_Slice P_Slice M_Frame Spec_Frame L_Frame P_Frame M_Mat Spec_Mat P_Mat.
Import ListNotations.
Open Scope Z_scope.

Lemma nth_repeat_lt : forall (x y : Z) n k, (k < n)%nat -> nth k (repeat x n) y = x.
Proof. intros x y n k H. rewrite (nth_indep _ y x) by (rewrite repeat_length; auto). apply nth_repeat. Qed.

Section Outer.
Context {T : Type}.
Notation ex := (expr (val T) (mem T)).

(* the views *)
Lemma dots_insert : forall a n, exists b, from a [SDots None; SInsert n] = Good b /\ vshape b = vshape a ++ repeat UNB n /\
  forall i j, length i = vrank a -> length j = n -> vplace b (i ++ j) = vplace a i.
Proof.
  intros a n. assert (O : Forall one_axis [SDots None; SInsert n]) by (repeat constructor). assert (F : fits (vrank a) [SDots None; SInsert n]) by (unfold fits; cbn; lia).
  assert (R : one_rest [SDots None; SInsert n]) by (apply one_rest_count; cbn; lia).
  destruct (C23_accepted a _ O F R) as (L & _). destruct L as (b & E).
  { replace (vdv a) with (vdv a ++ []) by apply app_nil_r. apply leg_rest; auto. repeat constructor. }
  exists b. split; auto. destruct (C23_select a _ b E O F) as (Sh & _ & Pl). split.
  - inversion Sh as [| | | |? ls1 ls rs Hl Sh1 E1 E2 E3| |]; subst. cbn in Hl. destruct ls; [|discriminate]. inversion Sh1 as [| | | | |? ? ? rs' Sh2|]; subst. inversion Sh2; subst. rewrite !app_nil_r. reflexivity.
  - intros i j Hi Hj. apply Pl. replace i with (i ++ []) at 2 by apply app_nil_r. rewrite <- (app_nil_r (vshape a)). apply sel_rest; auto.
    + unfold vshape. rewrite map_length. auto.
    + rewrite <- (app_nil_r j). apply sel_insert; auto. constructor. reflexivity.
Qed.
Lemma insert_first : forall a n, exists b, from a [SInsert n] = Good b /\ from a [SInsert n; SDots None] = Good b /\ vshape b = repeat UNB n ++ vshape a /\
  forall i j, length i = n -> length j = vrank a -> vplace b (i ++ j) = vplace a j.
Proof.
  intros a n. assert (O : Forall one_axis [SInsert n]) by (repeat constructor). assert (F : fits (vrank a) [SInsert n]) by (unfold fits; cbn; lia).
  assert (R : one_rest [SInsert n]) by (apply one_rest_count; cbn; lia).
  destruct (C23_accepted a _ O F R) as (L & _). destruct L as (b & E); [repeat constructor|].
  exists b. split; auto. split; [rewrite <- E; apply (C23_rest_omitted a [SInsert n]); auto; apply one_rest_count; cbn; lia|].
  destruct (C23_select a _ b E O F) as (Sh & _ & Pl). split.
  - inversion Sh as [| | | | |? ? ? rs Sh1|]; subst. inversion Sh1; subst. reflexivity.
  - intros i j Hi Hj. apply Pl. apply sel_insert; auto. constructor. unfold vshape. rewrite map_length. auto.
Qed.

Lemma vrank_shape : forall v, vrank v = length (vshape v).
Proof. intros. unfold vrank, vshape. rewrite map_length. auto. Qed.
Lemma viter_lens : forall v k, leaf_lens (viter (T:=T) v) k = if (k <? vrank v)%nat then [nth k (vshape v) 0] else [].
Proof.
  intros v k. unfold viter. cbn [leaf_lens]. destruct (Nat.ltb_spec k (vrank v)); auto. f_equal. unfold vshape. rewrite (nth_indep _ 0 (len dim0)) by (rewrite map_length; auto). symmetry. apply map_nth.
Qed.
Lemma viter_element : forall v j m, element (viter (T:=T) v) j m = Ok (VRef (vplace v (firstn (vrank v) j))) m.
Proof. intros v j m. cbn [element viter]. unfold vplace, vrank. rewrite firstn_all. reflexivity. Qed.
Lemma oklen_view : forall v, Forall oklen (vshape v) -> wf (viter (T:=T) v).
Proof. intros v H. apply viter_wf. unfold vshape in H. exact (proj1 (Forall_map _ _ _) H). Qed.

(* an operation on the two parts of the index *)
Lemma outer_two : forall op (a b a' b' : view) n, nonneg (vshape a) -> nonneg (vshape b) -> vshape a' = vshape a ++ repeat UNB n -> (n = 0 \/ n = vrank b)%nat -> vshape b' = repeat UNB (vrank a) ++ vshape b ->
  (forall i j, length i = vrank a -> length j = n -> vplace a' (i ++ j) = vplace a i) ->
  (forall i j, length i = vrank a -> length j = vrank b -> vplace b' (i ++ j) = vplace b j) ->
  let e : ex := Map op [viter a'; viter b'] in
  wf e /\ shape_is e (vshape a ++ vshape b) /\
  forall i j m, length i = vrank a -> length j = vrank b -> element e (i ++ j) m = op [VRef (vplace a i); VRef (vplace b j)] m.
Proof.
  intros op a b a' b' n Ha Hb Sa Hn Sb Pa Pb e. pose proof (vrank_shape a) as Ra. pose proof (vrank_shape b) as Rb.
  pose proof (vrank_shape a') as Ra'. pose proof (vrank_shape b') as Rb'. rewrite Sa in Ra'. rewrite Sb in Rb'. rewrite app_length, repeat_length in Ra', Rb'.
  assert (Ok : forall l n, nonneg l -> Forall oklen (l ++ repeat UNB n) /\ Forall oklen (repeat UNB n ++ l)).
  { intros l n0 Hl. assert (A1 : Forall oklen l) by (eapply Forall_impl; [|exact Hl]; intros x Hx; left; auto).
    assert (A2 : Forall oklen (repeat UNB n0)) by (apply Forall_forall; intros x Hx; apply repeat_spec in Hx; subst; right; auto). split; apply Forall_app; auto. }
  split; [|split].
  - apply wf_map; [discriminate|]. constructor; [|constructor; [|constructor]]; apply oklen_view; [rewrite Sa|rewrite Sb]; apply Ok; auto.
  - unfold e. apply joint_shape_map. split; [cbn [fold_right axes viter]; rewrite app_length; lia|]. cbn [fold_right axes viter flat_map]. intros k Hk. rewrite !viter_lens, Sa, Sb.
    destruct (Nat.ltb_spec k (vrank a)) as [L|L].
    + replace (k <? vrank a')%nat with true by (symmetry; apply Nat.ltb_lt; lia). replace (k <? vrank b')%nat with true by (symmetry; apply Nat.ltb_lt; lia).
      rewrite !app_nth1 by (rewrite ?repeat_length; lia). rewrite nth_repeat_lt by lia. split; [|split].
      * unfold nonneg in Ha. rewrite Forall_forall in Ha. apply Ha. apply nth_In. lia.
      * cbn. auto.
      * constructor; [auto|constructor; auto].
    + replace (k <? vrank b')%nat with true by (symmetry; apply Nat.ltb_lt; lia). rewrite (app_nth2 (vshape a) (vshape b)) by lia. rewrite (app_nth2 (repeat UNB (vrank a)) (vshape b)) by (rewrite repeat_length; lia).
      rewrite repeat_length. replace (length (vshape a)) with (vrank a) by lia.
      assert (Hx : 0 <= nth (k - vrank a) (vshape b) 0) by (unfold nonneg in Hb; rewrite Forall_forall in Hb; apply Hb; apply nth_In; lia).
      split; auto. destruct (Nat.ltb_spec k (vrank a')) as [L'|L'].
      * rewrite app_nth2 by lia. rewrite nth_repeat_lt by lia. split; [cbn; auto|constructor; [auto|constructor; auto]].
      * split; [cbn; auto|repeat constructor; auto].
  - intros i j m Hi Hj. unfold e. cbn [element map in_order]. rewrite !viter_element. cbn [in_order].
    assert (E1 : vplace a' (firstn (vrank a') (i ++ j)) = vplace a i).
    { replace (firstn (vrank a') (i ++ j)) with (i ++ firstn n j); [apply Pa; auto; rewrite firstn_length; lia|]. rewrite firstn_app, (firstn_all2 i) by lia. f_equal. f_equal. lia. }
    assert (E2 : vplace b' (firstn (vrank b') (i ++ j)) = vplace b j) by (rewrite firstn_all2 by (rewrite app_length; lia); apply Pb; auto).
    rewrite E1, E2. reflexivity.
Qed.

Definition is_outer (op : list (val T) -> M (mem T) (val T)) (a b : view) (e : ex) : Prop := wf e /\ shape_is e (vshape a ++ vshape b) /\
  forall i j m, length i = vrank a -> length j = vrank b -> element e (i ++ j) m = op [VRef (vplace a i); VRef (vplace b j)] m.

(* A(dots<>, insert<rank B>) * B(insert<rank A>, dots<>) *)
Theorem C92_insert : forall op (a b : view), nonneg (vshape a) -> nonneg (vshape b) -> exists a' b', from a [SDots None; SInsert (vrank b)] = Good a' /\
  from b [SInsert (vrank a); SDots None] = Good b' /\ is_outer op a b (Map op [viter a'; viter b']).
Proof.
  intros op a b Ha Hb. destruct (dots_insert a (vrank b)) as (a' & Ea & Sa & Pa). destruct (insert_first b (vrank a)) as (b' & _ & Eb & Sb & Pb).
  exists a', b'. split; auto. split; auto. apply (outer_two op a b a' b' (vrank b)); auto.
Qed.
(* A * B(insert<rank A>) *)
Theorem C92_prefix : forall op (a b : view), nonneg (vshape a) -> nonneg (vshape b) -> exists b', from b [SInsert (vrank a)] = Good b' /\ is_outer op a b (Map op [viter a; viter b']).
Proof.
  intros op a b Ha Hb. destruct (insert_first b (vrank a)) as (b' & Eb & _ & Sb & Pb).
  exists b'. split; auto. apply (outer_two op a b a b' 0); auto; [cbn; rewrite app_nil_r; auto|]. intros i [|] Hi Hj; [rewrite app_nil_r; auto|discriminate].
Qed.
(* from(op, A, B) *)
Theorem C92_from : forall op (a b : view), nonneg (vshape a) -> nonneg (vshape b) -> exists e : ex, from_op op [viter a; viter b] = Some e /\ is_outer op a b e.
Proof.
  intros op a b Ha Hb. assert (W : forall v, nonneg (vshape v) -> wf (viter (T:=T) v) /\ extents (viter (T:=T) v) (vshape v)).
  { intros v Hv. split; [apply oklen_view; eapply Forall_impl; [|exact Hv]; intros x Hx; left; auto|].
    apply shape_extents. pose proof (cell_shape (val T) (mem T) (vdv v) VRef (vcp v)) as C. apply C. exact (proj1 (Forall_map _ _ _) Hv). }
  destruct (W a Ha) as (Wa & Xa), (W b Hb) as (Wb & Xb).
  destruct (C26_outer _ _ op [viter a; viter b] [vshape a; vshape b]) as (e & E & We & Xe & Ee); [discriminate|auto|auto|].
  exists e. split; auto. cbn [concat] in *. rewrite app_nil_r in *. split; auto. split.
  - apply shape_extents. split; auto. apply Forall_app; auto.
  - intros i j m Hi Hj. specialize (Ee [i; j] m). cbn [concat] in Ee. rewrite app_nil_r in Ee. rewrite Ee by (constructor; [rewrite <- vrank_shape; auto|constructor; [rewrite <- vrank_shape; auto|constructor]]).
    cbn [each2 in_order]. rewrite !viter_element. cbn [in_order]. rewrite !firstn_all2 by lia. reflexivity.
Qed.

(* The traversals are the same, whatever the operation does. *)
Theorem C92_same : forall op (a b : view) (e e' : ex) R (post : val T -> option R) fixed fixed' z z', is_outer op a b e -> is_outer op a b e' -> zclean z -> zclean z' ->
  forall m, ply fixed post z e m = ply fixed' post z' e' m.
Proof.
  intros op a b e e' R post fixed fixed' z z' (W & S & E) (W' & S' & E') Hz Hz' m.
  rewrite (ply_spec _ _ _ post fixed z e _ (indices (vshape a ++ vshape b)) W S (row_major_indices _) Hz), (ply_spec _ _ _ post fixed' z' e' _ (indices (vshape a ++ vshape b)) W' S' (row_major_indices _) Hz').
  assert (G : forall js, (forall j, In j js -> inshape j (vshape a ++ vshape b)) -> forall m, visit post (element e) js m = visit post (element e') js m).
  { induction js as [|j js IH]; intros H m0; cbn [visit]; auto. assert (Ej : element e j m0 = element e' j m0).
    { specialize (H j ltac:(cbn; auto)). apply inshape_length in H as L. rewrite app_length, <- !vrank_shape in L. rewrite <- (firstn_skipn (vrank a) j). rewrite E, E'; auto; rewrite ?firstn_length, ?skipn_length; lia. }
    rewrite Ej. destruct (element e' j m0) as [x w| |]; auto. destruct (post x); auto. apply IH. intros. apply H. cbn; auto. }
  apply G. intros j Hj. apply in_indices. auto.
Qed.
End Outer.

(* a of shape [2], b of shape [3 2] *)
Definition va : view := Vw [Dim 2 1] 0.
Definition vb : view := Vw [Dim 3 2; Dim 2 1] 10.
Example C92_ex : nonneg (vshape va) /\ nonneg (vshape vb) /\ from va [SDots None; SInsert 2] = Good (Vw [Dim 2 1; Dim UNB 0; Dim UNB 0] 0) /\ from vb [SInsert 1] = Good (Vw [Dim UNB 0; Dim 3 2; Dim 2 1] 10) /\
  let m : mem Z := fun p => p in
  sum true z_init Z.add 0 (times Z.mul (viter va) (viter (Vw [Dim UNB 0; Dim 3 2; Dim 2 1] 10))) m = Ok 75 m.
Proof. split; [repeat constructor; cbn; lia|]. split; [repeat constructor; cbn; lia|]. repeat split. Qed.
Print Assumptions C92_insert.
Print Assumptions C92_prefix.
Print Assumptions C92_from.
Print Assumptions C92_same.
