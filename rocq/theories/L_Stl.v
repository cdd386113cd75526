(* Facts about the STL-like iterator (M_Ply.v). *)
From Coq Require Import ZArith List Lia Bool.
From Coq Require Import ZifyBool ZifyNat.
From Verif Require Import Spec L_Spec Spec_Ply M_Base M_Expr L_Expr M_Ply L_Ply.
Import ListNotations.
Open Scope Z_scope.

Section LStl.
Context {X W : Type}.
Notation expr := (expr X W).

Lemma lupd_length : forall {A} (l : list A) k x, length (lupd l k x) = length l.
Proof. induction l; destruct k; simpl; intros; auto. Qed.

Lemma lupd_nth : forall {A} (l : list A) k x i d, (k < length l)%nat -> nth i (lupd l k x) d = if Nat.eqb i k then x else nth i l d.
Proof. induction l; simpl; intros; [lia|]. destruct k, i; simpl; auto. apply IHl. lia. Qed.

(* the counters are what is left of each axis *)
Definition srep (s ind i : list Z) : Prop := length ind = length s /\ forall k, (k < length s)%nat -> nth k ind 0 = nth k s 0 - nth k i 0.

Lemma firstn_S : forall {A} (l : list A) n d, (n < length l)%nat -> firstn (S n) l = firstn n l ++ [nth n l d].
Proof.
  induction l; intros; [simpl in H; lia|]. destruct n; [reflexivity|]. simpl in H.
  change (a :: firstn (S n) l = a :: (firstn n l ++ [nth n l d])). f_equal. apply IHl. lia.
Qed.

Lemma inshape_snoc : forall i s n, inshape i (s ++ [n]) -> exists i0 x, i = i0 ++ [x] /\ inshape i0 s /\ 0 <= x < n /\ length i0 = length s.
Proof.
  intros i s n H. apply Forall2_app_inv_r in H. destruct H as (i0 & i1 & H1 & H2 & ->).
  inversion H2; subst. inversion H5; subst. exists i0, x. repeat split; auto; try lia. eapply inshape_length; eauto.
Qed.

Lemma stl_next_spec : forall e : expr, wf e ->
  forall n k ind i, (n + k = rankn e)%nat -> inshape i (firstn n (shape e)) -> srep (shape e) ind (i ++ repeat 0 k) ->
  match succ (firstn n (shape e)) i with
  | Some i' => exists ind', stl_next_loop n (goto e (fz (i ++ repeat 0 k))) ind = Stl (goto e (fz (i' ++ repeat 0 k))) ind' false
                            /\ srep (shape e) ind' (i' ++ repeat 0 k)
  | None => exists a ind', stl_next_loop n (goto e (fz (i ++ repeat 0 k))) ind = Stl a ind' true
  end.
Proof.
  intros e Hw. induction n; intros k ind i Hnk Hi Hs.
  - cbn. inversion Hi; subst. eauto.
  - rewrite (firstn_S (shape e) n 0) in * by (rewrite shape_length; lia).
    destruct (inshape_snoc _ _ _ Hi) as (i0 & x & -> & Hi0 & Hx & Hl). rewrite firstn_length, shape_length in Hl.
    assert (Hl0 : length i0 = n) by lia. clear Hl.
    rewrite succ_snoc by (rewrite firstn_length, shape_length; lia).
    cbn [stl_next_loop]. rewrite goto_len. destruct Hs as (Hsl & Hs).
    assert (Hup : forall k0 d, upd (fz ((i0 ++ [x]) ++ repeat 0 k)) n d k0 = fz ((i0 ++ [x+d]) ++ repeat 0 k) k0).
    { intros. unfold upd, fz. rewrite !nth_app_zeros. destruct (Nat.eqb_spec k0 n).
      - subst. rewrite !app_nth2, Nat.sub_diag by lia. reflexivity.
      - destruct (Nat.lt_ge_cases k0 (length i0)); [rewrite !app_nth1; auto|].
        rewrite !app_nth2 by lia. destruct (k0 - length i0)%nat as [|m] eqn:E; [lia|]. destruct m; reflexivity. }
    rewrite Hs by (rewrite shape_length; lia).
    replace (nth n ((i0 ++ [x]) ++ repeat 0 k) 0) with x.
    2: { rewrite nth_app_zeros, app_nth2, Hl0, Nat.sub_diag by lia. reflexivity. }
    replace (0 <? nth n (shape e) 0 - x - 1) with (x + 1 <? nth n (shape e) 0) by lia.
    assert (Hnl : (n < length ind)%nat) by (rewrite Hsl, shape_length; lia).
    destruct (Z.ltb_spec (x+1) (nth n (shape e) 0)).
    + eexists. split.
      * f_equal. rewrite goto_adv by auto. apply goto_ext; auto.
      * split; [rewrite lupd_length; auto|]. intros q Hq. rewrite lupd_nth by auto.
        pose proof (Hup q 1) as HH. unfold upd, fz in HH. destruct (Nat.eqb_spec q n).
        -- subst q. rewrite <- HH. rewrite nth_app_zeros, app_nth2, Hl0, Nat.sub_diag by lia. cbn. lia.
        -- rewrite <- HH. apply Hs; auto.
    + rewrite goto_adv by auto. rewrite <- shape_nth by lia.
      replace (goto e (upd (fz ((i0 ++ [x]) ++ repeat 0 k)) n (1 - nth n (shape e) 0))) with (goto e (fz (i0 ++ repeat 0 (S k)))).
      2: { apply goto_ext; auto. intros. rewrite Hup. replace (x + (1 - nth n (shape e) 0)) with 0 by lia.
           rewrite <- app_assoc. reflexivity. }
      specialize (IHn (S k) (lupd ind n (nth n (shape e) 0)) i0 ltac:(lia) Hi0).
      assert (Hs' : srep (shape e) (lupd ind n (nth n (shape e) 0)) (i0 ++ repeat 0 (S k))).
      { split; [rewrite lupd_length; auto|]. intros q Hq. rewrite lupd_nth by auto. rewrite nth_app_zeros. destruct (Nat.eqb_spec q n).
        - subst q. rewrite (nth_overflow i0) by lia. lia.
        - rewrite Hs by auto. rewrite nth_app_zeros. destruct (Nat.lt_ge_cases q (length i0)); [rewrite app_nth1; auto|].
          rewrite app_nth2 by lia. rewrite (nth_overflow i0) by lia. destruct (q - length i0)%nat as [|m] eqn:E; [lia|]. destruct m; reflexivity. }
      specialize (IHn Hs').
      destruct (succ (firstn n (shape e)) i0) as [i'|] eqn:Es; [|exact IHn].
      rewrite <- app_assoc. exact IHn.
Qed.

Lemma stl_next_spec' : forall e : expr, wf e -> forall ind i, inshape i (shape e) -> srep (shape e) ind i ->
  match succ (shape e) i with
  | Some i' => exists ind', stl_next (Stl (goto e (fz i)) ind false) = Stl (goto e (fz i')) ind' false /\ srep (shape e) ind' i'
  | None => exists a ind', stl_next (Stl (goto e (fz i)) ind false) = Stl a ind' true
  end.
Proof.
  intros e Hw ind i Hi Hs. pose proof (stl_next_spec e Hw (rankn e) 0 ind i ltac:(lia)) as H.
  rewrite <- (shape_length e), firstn_all in H. cbn [repeat] in H. rewrite app_nil_r in H. specialize (H Hi Hs).
  unfold stl_next. cbn [sa sind]. rewrite goto_rankn, <- shape_length.
  destruct (succ (shape e) i); auto. rewrite app_nil_r in H. exact H.
Qed.

Lemma each_ext : forall {A B} (f : list Z -> M W A) (g : list Z -> M W B) js,
  (forall j w, In j js -> match f j w, g j w with Ok _ w1, Ok _ w2 => w1 = w2 | Fail w1, Fail w2 => w1 = w2 | Undef, Undef => True | _, _ => False end) ->
  forall w, each f js w = each g js w.
Proof.
  induction js; intros; [reflexivity|]. cbn [each]. pose proof (H a w (or_introl eq_refl)).
  destruct (f a w), (g a w); try tauto; subst; auto. apply IHjs. intros. apply H. right; auto.
Qed.

Lemma stl_for_spec : forall e : expr, wf e -> forall f fuel ind i w, inshape i (shape e) -> srep (shape e) ind i ->
  (length (indices_from (shape e) i) < fuel)%nat ->
  stl_for fuel f (Stl (goto e (fz i)) ind false) w = each (fun j => x <- at_ e j ;; f x) (indices_from (shape e) i) w.
Proof.
  intros e Hw f. induction fuel; intros ind i w Hi Hs Hf; [lia|].
  rewrite indices_from_succ in * by auto. cbn [stl_for over sa each].
  unfold bind at 1. rewrite deref_at; auto.
  2: { rewrite (inshape_length _ _ Hi), shape_length. lia. }
  2: { apply okidx_inshape; auto. }
  unfold bind. destruct (at_ e i w) as [x w1|w1|]; auto. destruct (f x w1) as [u w2|w2|]; auto.
  pose proof (stl_next_spec' e Hw ind i Hi Hs) as H. destruct (succ (shape e) i) as [i'|] eqn:Es.
  - destruct H as (ind' & -> & Hs'). apply IHfuel; auto; [eapply succ_inshape; eauto|]. simpl in Hf. lia.
  - destruct H as (a & ind' & ->). cbn in Hf. destruct fuel; [lia|]. reflexivity.
Qed.

Lemma size_prod_loop : forall (e : expr) n k s, Forall (fun l => 0 <= l) (map (lene e) (seq k n)) ->
  size_loop e n k s = s * zprod (map (lene e) (seq k n)).
Proof.
  induction n; cbn [size_loop seq map zprod]; intros; [ring|]. inversion H; subst.
  destruct (Z.ltb_spec (lene e k) 0); [lia|]. rewrite IHn by auto. ring.
Qed.

Lemma size_prod : forall e : expr, Forall (fun l => 0 <= l) (shape e) -> sizee e = zprod (shape e).
Proof. intros. unfold sizee. rewrite size_prod_loop by auto. unfold shape. ring. Qed.

Theorem stl_spec : forall e : expr, wf e -> validate e = true -> forall f fuel w, (length (indices (shape e)) < fuel)%nat ->
  exists s, stl_begin e = Some s /\ stl_for fuel f s w = each (fun j => x <- at_ e j ;; f x) (indices (shape e)) w.
Proof.
  intros e Hw Hv f fuel w Hf. unfold stl_begin. rewrite Hv. apply validate_spec in Hv. destruct Hv as (_ & Hs).
  eexists. split; [reflexivity|]. rewrite size_prod by auto. destruct (Z.eqb_spec 0 (zprod (shape e))).
  - destruct (indices (shape e)) eqn:E.
    + destruct fuel; [simpl in Hf; lia|]. reflexivity.
    + pose proof (indices_count _ Hs). rewrite E in H. simpl in H. lia.
  - assert (Hp : Forall (fun n => 0 < n) (shape e)).
    { clear - Hs n. induction Hs as [|x l Hx Hs IH]; [apply Forall_nil|]. cbn [zprod] in n.
      apply Forall_cons; [destruct (Z.eq_dec x 0); [subst; lia|lia]|]. apply IH. intros E. apply n. rewrite <- E. ring. }
    rewrite <- (indices_from_zero _ Hp).
    replace e with (goto e (fz (map (fun _ => 0) (shape e)))) at 1.
    2: { transitivity (goto e (fun _ => 0)); [|apply goto_zero]. apply goto_ext; auto. intros. unfold fz. rewrite (nth_map _ (shape e) k 0); auto. rewrite shape_length; auto. }
    apply stl_for_spec; auto.
    + clear - Hp. induction Hp as [|x l Hx Hp IH]; [constructor|]. constructor; [lia|exact IH].
    + split; auto. intros k Hk. rewrite (nth_map _ (shape e) k 0) by auto. lia.
    + rewrite indices_from_zero; auto.
Qed.

End LStl.
