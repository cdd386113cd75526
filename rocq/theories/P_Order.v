(* Property C132: the order of evaluation of the arguments. *)
From Coq Require Import ZArith List Lia Bool Permutation.
From Verif Require Import Spec L_Spec Spec_Ply Spec_Expr M_Base M_Expr M_Ply M_Val Spec_Val L_Expr L_Agree L_Ply L_Stl L_Run L_Val P_Reduce M_Order.
Import ListNotations.
Open Scope Z_scope.

(* m doesn't change the state, whether it is refused or not *)
Definition silent {W A} (m : M W A) : Prop := forall w, (exists x, m w = Ok x w) \/ m w = Fail w.
(* The arguments of each operation in e are silent. The operation at the root may do anything. *)
Fixpoint quiet {X W} (e : expr X W) : Prop :=
  match e with
  | Scalar _ | Cell _ _ _ _ => True
  | Reframe a _ => quiet a
  | Map _ t => fold_right (fun a p => (quiet a /\ forall j, silent (element a j)) /\ p) True t
  | Pick _ t => fold_right (fun a p => quiet a /\ p) True t
  end.
(* o gives an order of the arguments for each operation *)
Definition orders (o : list nat -> nat -> list nat) : Prop := forall q n, Permutation (o q n) (seq 0 n).

Section Lists.
Context {A B : Type}.
Lemma at_places_nth : forall p (l : list A) d, (forall i, In i p -> (i < length l)%nat) -> at_places p l = map (fun i => nth i l d) p.
Proof.
  induction p as [|i p IH]; intros l d H; auto. cbn [at_places flat_map map]. fold (at_places p l). rewrite (nth_error_nth' l d) by (apply H; left; auto). cbn. f_equal. apply IH. intros. apply H. right; auto.
Qed.
Lemma map_nth_seq : forall (l : list A) d, map (fun i => nth i l d) (seq 0 (length l)) = l.
Proof.
  intros l d. apply (nth_ext _ _ d d); rewrite map_length, seq_length; auto. intros k Hk. rewrite (nth_indep _ d (nth O l d)) by (rewrite map_length, seq_length; auto).
  rewrite (map_nth (fun i => nth i l d)). rewrite seq_nth; auto.
Qed.
Lemma at_places_perm : forall p (l : list A), Permutation p (seq 0 (length l)) -> Permutation (at_places p l) l.
Proof.
  intros p [|d l'] H.
  - apply Permutation_sym, Permutation_nil in H. subst. constructor.
  - set (l := d :: l') in *. rewrite (at_places_nth p l d).
    + eapply Permutation_trans; [apply Permutation_map; exact H|]. rewrite map_nth_seq. apply Permutation_refl.
    + intros i Hi. apply (Permutation_in _ H) in Hi. apply in_seq in Hi. lia.
Qed.
Lemma at_places_Forall2 : forall (R : A -> B -> Prop) p l l', Forall2 R l l' -> Forall2 R (at_places p l) (at_places p l').
Proof.
  intros R p l l' H. induction p as [|i p IH]; cbn; [constructor|]. apply Forall2_app; auto. clear IH. revert i. induction H; intros [|i]; cbn; try constructor; auto.
Qed.
Lemma at_places_map : forall (f : A -> B) p l, at_places p (map f l) = map f (at_places p l).
Proof.
  intros f p l. induction p as [|i p IH]; auto. unfold at_places in *. cbn [flat_map]. rewrite map_app, IH, nth_error_map. destruct (nth_error l i); auto.
Qed.
End Lists.

Lemma result_map : forall {X} (g : nat -> X) p i, In i p -> result_of i p (map g p) = Some (g i).
Proof. induction p as [|k p IH]; intros i H; [destruct H|]. cbn. destruct (Nat.eqb_spec k i); [subst; auto|]. apply IH. destruct H; [contradiction|auto]. Qed.
Lemma all_some_map : forall {X} (l : list X), all_some (map Some l) = Some l.
Proof. induction l as [|x l IH]; cbn; auto. rewrite IH. auto. Qed.
(* the operation gets its arguments in their places *)
Lemma call_spec : forall {X W} p (op : list X -> M W X) xs, Permutation p (seq 0 (length xs)) -> call p op (at_places p xs) = op xs.
Proof.
  intros X W p op [|d xs'] H.
  - apply Permutation_sym, Permutation_nil in H. subst. reflexivity.
  - set (xs := d :: xs') in *. pose proof (Permutation_length H) as L. rewrite seq_length in L. unfold call. rewrite L.
    rewrite (at_places_nth p xs d) by (intros i Hi; apply (Permutation_in _ H) in Hi; apply in_seq in Hi; lia).
    replace (map (fun i => result_of i p (map (fun i => nth i xs d) p)) (seq 0 (length xs))) with (map Some xs); [rewrite all_some_map; auto|].
    rewrite <- (map_nth_seq xs d) at 1. rewrite map_map. apply map_ext_in. intros i Hi. symmetry. apply (result_map (fun i => nth i xs d)).
    apply (Permutation_in _ (Permutation_sym H)); auto.
Qed.

Lemma in_order_silent : forall {X W} (l : list (M W X)) w, Forall silent l ->
  (exists xs, Forall2 (fun m x => m w = Ok x w) l xs /\ in_order l w = Ok xs w) \/ ((exists m, In m l /\ m w = Fail w) /\ in_order l w = Fail w).
Proof.
  intros X W l w H. induction H as [|m l Hm H IH]; [left; exists []; split; auto|]. cbn [in_order]. destruct (Hm w) as [(x & E)|E]; rewrite E.
  - destruct IH as [(xs & F & E')|((m' & Hin & Ef) & E')]; rewrite E'.
    + left. exists (x :: xs). split; auto.
    + right. split; auto. exists m'. split; auto. right; auto.
  - right. split; auto. exists m. split; auto. left; auto.
Qed.

Section Arrange.
Context {X W : Type}.
Variable o : list nat -> nat -> list nat.
Hypothesis Ho : orders o.
Fixpoint go (q : list nat) (i : nat) (t : list (expr X W)) : list (expr X W) := match t with [] => [] | a :: t' => arrange o (i :: q) a :: go q (S i) t' end.
Lemma arrange_map : forall q op t, arrange o q (Map op t) = Map (call (o q (length t)) op) (at_places (o q (length t)) (go q 0 t)).
Proof. intros. cbn [arrange]. do 2 f_equal. generalize O. induction t; intros; cbn; f_equal; auto. Qed.
Lemma arrange_pick : forall q sel t, arrange o q (Pick sel t) = Pick sel (go q 0 t).
Proof. intros. cbn [arrange]. f_equal. generalize O. induction t; intros; cbn; f_equal; auto. Qed.
Lemma go_length : forall q t i, length (go q i t) = length t.
Proof. induction t; intros; cbn; auto. Qed.
Lemma go_Forall2 : forall (R : expr X W -> expr X W -> Prop) q t i, Forall (fun e => forall q, R (arrange o q e) e) t -> Forall2 R (go q i t) t.
Proof. intros R q t i H. revert i. induction H; intros; cbn; constructor; auto. Qed.
Lemma order_go : forall q (t : list (expr X W)), Permutation (o q (length t)) (seq 0 (length (go q 0 t))).
Proof. intros. rewrite go_length. apply Ho. Qed.

Definition maxax (t : list (expr X W)) : nat := fold_right (fun a r => Nat.max (axes a) r) 0%nat t.
Lemma maxax_perm : forall t t' : list (expr X W), Permutation t t' -> maxax t = maxax t'.
Proof. unfold maxax. induction 1; cbn [fold_right]; lia. Qed.
Lemma maxax_Forall2 : forall t t' : list (expr X W), Forall2 (fun a b => axes a = axes b) t t' -> maxax t = maxax t'.
Proof. unfold maxax. induction 1; cbn [fold_right]; lia. Qed.
Lemma arrange_axes : forall (e : expr X W) q, axes (arrange o q e) = axes e.
Proof.
  induction e as [c|dv fr val cp|e di IH|op t IH|sel t IH] using expr_ind2; intros q; auto.
  - rewrite arrange_map. cbn [axes]. fold (maxax (at_places (o q (length t)) (go q 0 t))). fold (maxax t).
    rewrite (maxax_perm _ _ (at_places_perm _ _ (order_go q t))). apply maxax_Forall2, go_Forall2. auto.
  - rewrite arrange_pick. cbn [axes]. fold (maxax (go q 0 t)). fold (maxax t). apply maxax_Forall2, go_Forall2. auto.
Qed.
Lemma flat_map_Forall2 : forall k t t', Forall2 (fun a b : expr X W => Permutation (leaf_lens a k) (leaf_lens b k)) t t' -> Permutation (flat_map (fun a => leaf_lens a k) t) (flat_map (fun a => leaf_lens a k) t').
Proof. induction 1; cbn; auto. apply Permutation_app; auto. Qed.
Lemma arrange_lens : forall (e : expr X W) q k, Permutation (leaf_lens (arrange o q e) k) (leaf_lens e k).
Proof.
  induction e as [c|dv fr val cp|e di IH|op t IH|sel t IH] using expr_ind2; intros q k; auto.
  - cbn [arrange leaf_lens]. induction (positions_from 0 di k); cbn; auto. apply Permutation_app; auto.
  - rewrite arrange_map. cbn [leaf_lens]. eapply Permutation_trans; [apply Permutation_flat_map, (at_places_perm _ _ (order_go q t))|]. apply flat_map_Forall2. apply (go_Forall2 (fun a b => Permutation (leaf_lens a k) (leaf_lens b k))).
    eapply Forall_impl; [|exact IH]. auto.
  - rewrite arrange_pick. cbn [leaf_lens]. apply flat_map_Forall2. apply (go_Forall2 (fun a b => Permutation (leaf_lens a k) (leaf_lens b k))). eapply Forall_impl; [|exact IH]. auto.
Qed.
Lemma arrange_shape : forall (e : expr X W) q s, shape_is e s -> shape_is (arrange o q e) s.
Proof.
  intros e q s (L & H). split; [rewrite arrange_axes; auto|]. intros k Hk. rewrite arrange_axes in Hk. destruct (H k Hk) as (H0 & Hi & Hf). pose proof (arrange_lens e q k) as P. split; auto. split.
  - apply (Permutation_in _ (Permutation_sym P)); auto.
  - apply (Permutation_Forall (Permutation_sym P)); auto.
Qed.
Lemma go_wf : forall q t i, Forall (fun e => wf e -> forall q, wf (arrange o q e)) t -> Forall wf t -> Forall wf (go q i t).
Proof. intros q t i H. revert i. induction H; intros i Hw; cbn; constructor; inversion Hw; subst; auto. Qed.
Lemma arrange_wf : forall e : expr X W, wf e -> forall q, wf (arrange o q e).
Proof.
  induction e as [c|dv fr val cp|e di IH|op t IH|sel t IH] using expr_ind2; intros Hw q; auto.
  - cbn [arrange wf] in *. destruct Hw as (Hw & Hn & Hr). split; auto. split; auto. rewrite Hr. pose proof (IH Hw (O :: q)) as Hw'.
    pose proof (axes_rank _ Hw) as A1. pose proof (axes_rank _ Hw') as A2. rewrite arrange_axes in A2. unfold rankn in *. pose proof (rank_nonneg _ Hw). pose proof (rank_nonneg _ Hw'). lia.
  - rewrite arrange_map. cbn [wf] in *. destruct Hw as (Hn & Hw). apply wf_Forall in Hw. pose proof (at_places_perm _ _ (order_go q t)) as P. split.
    + intros E. rewrite E in P. apply Permutation_nil in P. destruct t; [contradiction|discriminate].
    + apply wf_Forall. apply (Permutation_Forall (Permutation_sym P)). apply go_wf; auto.
  - rewrite arrange_pick. cbn [wf] in *. destruct Hw as (Hn & Hw). apply wf_Forall in Hw. split; [destruct t; [contradiction|discriminate]|]. apply wf_Forall. apply go_wf; auto.
Qed.

Lemma quiet_map : forall (op : list X -> M W X) t, quiet (Map op t) -> Forall (fun a => quiet a /\ forall j, silent (element a j)) t.
Proof. intros op t. cbn. induction t; cbn; intros H; constructor; [apply H|apply IHt, H]. Qed.
Lemma quiet_pick : forall (sel : X -> Z) t, quiet (Pick sel t : expr X W) -> Forall quiet t.
Proof. intros sel t. cbn. induction t; cbn; intros H; constructor; [apply H|apply IHt, H]. Qed.

Lemma arrange_element : forall e : expr X W, quiet e -> forall q j w, element (arrange o q e) j w = element e j w.
Proof.
  induction e as [c|dv fr val cp|e di IH|op t IH|sel t IH] using expr_ind2; intros Hq q j w; auto.
  - cbn [arrange element]. apply IH, Hq.
  - apply quiet_map in Hq. rewrite arrange_map. cbn [element].
    set (l := map (fun a => element a j) t). set (p := o q (length t)). set (l' := map (fun a => element a j) (go q 0 t)).
    assert (Hp : Permutation p (seq 0 (length l))) by (unfold l, p; rewrite map_length; apply Ho).
    assert (E : Forall2 (fun m m' => forall w, m w = m' w) l' l).
    { unfold l, l'. generalize O. clear - IH Hq. induction t; intros i; cbn; constructor; inversion IH; inversion Hq; subst; auto. intros. apply H1. apply H5. }
    assert (Sl : Forall silent l). { unfold l. apply Forall_forall. intros m Hm. apply in_map_iff in Hm. destruct Hm as (a & <- & Ha). rewrite Forall_forall in Hq. apply Hq; auto. }
    assert (Sl' : Forall silent l'). { clear - E Sl. induction E; constructor; inversion Sl; subst; auto. intros w. rewrite H. apply H2. }
    replace (map (fun a => element a j) (at_places p (go q 0 t))) with (at_places p l').
    2: { unfold l'. apply at_places_map. }
    assert (Pl : Permutation (at_places p l') l'). { apply at_places_perm. unfold l'. rewrite map_length, go_length. apply Ho. }
    destruct (in_order_silent (at_places p l') w) as [(ys & F & Ey)|((m & Hin & Ef) & Ey)]; [apply (Permutation_Forall (Permutation_sym Pl)); auto| |].
    + destruct (in_order_silent l w Sl) as [(xs & F' & Ex)|((m & Hin & Ef) & Ex)].
      * rewrite Ey, Ex. assert (Fx : Forall2 (fun m x => m w = Ok x w) (at_places p l') (at_places p xs)).
        { apply at_places_Forall2. clear - E F'. revert xs F'. induction E; intros xs F'; inversion F'; subst; constructor; auto. rewrite H. auto. }
        assert (ys = at_places p xs).
        { clear - F Fx. revert F Fx. generalize (at_places p xs). generalize ys. induction (at_places p l'); intros zs us F Fx; inversion F; inversion Fx; subst; auto. f_equal; [congruence|auto]. }
        subst ys. rewrite call_spec; auto. replace (length xs) with (length l); [exact Hp|]. clear - F'. induction F'; cbn; auto.
      * exfalso. assert (exists m', In m' (at_places p l') /\ m' w = Fail w) as (m' & Hin' & Ef').
        { assert (exists m', In m' l' /\ m' w = Fail w) as (m' & Hi & Hf). { clear - E Hin Ef. induction E; [destruct Hin|]. destruct Hin as [->|Hin]; [exists x; split; [left; auto|rewrite H; auto]|]. destruct (IHE Hin) as (m' & Hi & Hf). exists m'. split; auto. right; auto. }
          exists m'. split; auto. apply (Permutation_in _ (Permutation_sym Pl)); auto. }
        clear - F Hin' Ef'. induction F; [destruct Hin'|]. destruct Hin' as [->|Hin']; [congruence|auto].
    + destruct (in_order_silent l w Sl) as [(xs & F' & Ex)|(_ & Ex)]; [|rewrite Ey, Ex; auto]. exfalso. apply (Permutation_in _ Pl) in Hin. clear - E F' Hin Ef. revert xs F'. induction E; intros xs F'; [destruct Hin|]. inversion F'; subst.
      destruct Hin as [->|Hin]; [rewrite H in Ef; congruence|eauto].
  - apply quiet_pick in Hq. rewrite arrange_pick. cbn [element].
    assert (E : Forall2 (fun m m' => forall w, m w = m' w) (map (fun a => element a j) (go q 0 t)) (map (fun a => element a j) t)).
    { generalize O. clear - IH Hq. induction t; intros i; cbn; constructor; inversion IH; inversion Hq; subst; auto. }
    destruct E as [|m m' l l' E0 E]; auto. rewrite E0. destruct (m' w) as [x w1|w1|]; auto. destruct (0 <=? sel x); auto.
    generalize (Z.to_nat (sel x)). clear - E. intros n. revert n. induction E; intros [|n]; cbn; auto.
Qed.
End Arrange.


Lemma shape_arrange : forall {X W} o (e : expr X W) q s, orders o -> (shape_is (arrange o q e) s <-> shape_is e s).
Proof.
  intros X W o e q s Ho. split; [|apply arrange_shape; auto]. intros (L & H). rewrite arrange_axes in L by auto. split; auto. intros k Hk.
  destruct (H k) as (H0 & Hi & Hf); [rewrite arrange_axes; auto|]. pose proof (arrange_lens o Ho e q k) as P. split; auto. split.
  - apply (Permutation_in _ P); auto.
  - apply (Permutation_Forall P); auto.
Qed.
(* The shape and the check of the shapes of the arguments are the same in every order *)
Theorem C132_agree : forall {X W} o q (e : expr X W), orders o -> wf e -> validate (arrange o q e) = validate e /\ (validate e = true -> shape (arrange o q e) = shape e).
Proof.
  intros X W o q e Ho Hw. pose proof (arrange_wf o Ho e Hw q) as Hw'. destruct (validate e) eqn:E.
  - pose proof (shape_shape_is e Hw E) as S. apply (shape_arrange o e q _ Ho) in S. destruct (shape_is_shape _ _ Hw' S) as (-> & ->). auto.
  - split; [|discriminate]. destruct (validate (arrange o q e)) eqn:E'; auto. pose proof (shape_shape_is _ Hw' E') as S. apply (shape_arrange o e q _ Ho) in S. destruct (shape_is_shape _ _ Hw S). congruence.
Qed.

(* An expression whose arguments have no effects is traversed with the same results and the same effects whatever the order in which the arguments of each operation are evaluated. *)
Theorem C132_order : forall {X W R} (post : X -> option R) o q fixed fixed' z z' (e : expr X W) s, orders o -> wf e -> shape_is e s -> quiet e -> zclean z -> zclean z' ->
  forall w, ply fixed post z (arrange o q e) w = ply fixed' post z' e w.
Proof.
  intros X W R post o q fixed fixed' z z' e s Ho Hw Hs Hq Hz Hz' w. pose proof (row_major_indices s) as Hj.
  rewrite (ply_spec _ _ _ post fixed z (arrange o q e) s (indices s)), (ply_spec _ _ _ post fixed' z' e s (indices s)) by auto using arrange_wf, arrange_shape.
  clear Hj. revert w. induction (indices s) as [|j js IH]; intros w; auto. cbn [visit]. rewrite arrange_element by auto. destruct (element e j w); auto. destruct (post a); auto.
Qed.

(* With P the values of the leaves, each operation in e, given values of P, is silent and if not refused gives a value of P *)
Definition silent_to {X W} (P : X -> Prop) (m : M W X) : Prop := forall w, (exists x, P x /\ m w = Ok x w) \/ m w = Fail w.
Fixpoint silent_ops {X W} (P : X -> Prop) (e : expr X W) : Prop :=
  match e with
  | Scalar c => P c
  | Cell _ _ val _ => forall p, P (val p)
  | Reframe a _ => silent_ops P a
  | Map op t => (forall xs, length xs = length t -> Forall P xs -> silent_to P (op xs)) /\ fold_right (fun a p => silent_ops P a /\ p) True t
  | Pick _ t => t <> [] /\ fold_right (fun a p => silent_ops P a /\ p) True t
  end.
Lemma to_silent : forall {X W} P (m : M W X), silent_to P m -> silent m.
Proof. intros X W P m H w. destruct (H w) as [(x & _ & E)|E]; eauto. Qed.
Lemma fold_Forall : forall {A} (P : A -> Prop) t, fold_right (fun a p => P a /\ p) True t <-> Forall P t.
Proof. induction t; cbn; split; intros H; auto; [constructor; tauto|inversion H; subst; tauto]. Qed.
Theorem C132_silent : forall {X W} P (e : expr X W), silent_ops P e -> quiet e /\ forall j, silent_to P (element e j).
Proof.
  intros X W P. induction e as [c|dv fr val cp|e di IH|op t IH|sel t IH] using expr_ind2; intros H.
  - split; [exact I|]. intros j w. left. eexists. split; [|reflexivity]. exact H.
  - split; [exact I|]. intros j w. left. eexists. split; [|reflexivity]. apply H.
  - destruct (IH H) as (Q & S). split; auto. intros j. apply S.
  - destruct H as (Hop & Ht). apply fold_Forall in Ht.
    assert (F : Forall (fun a => quiet a /\ forall j, silent_to P (element a j)) t). { clear Hop. induction t; constructor; inversion IH; inversion Ht; subst; auto. }
    split; [apply fold_Forall; eapply Forall_impl; [|exact F]; intros a (Q & S); split; eauto using to_silent|]. intros j w. cbn [element].
    destruct (in_order_silent (map (fun a => element a j) t) w) as [(xs & F2 & E)|(_ & E)].
    + apply Forall_map. eapply Forall_impl; [|exact F]. intros a (_ & Ha). eapply to_silent. apply Ha.
    + rewrite E. apply Hop.
      * clear - F2. rewrite <- (map_length (fun a => element a j) t). induction F2; cbn; auto.
      * clear - F2 F. revert xs F2. induction F as [|a t (_ & Ha) F IH]; intros xs F2; inversion F2; subst; constructor; auto. destruct (Ha j w) as [(x & Px & E)|E]; congruence.
    + rewrite E. auto.
  - destruct H as (Hn & Ht). apply fold_Forall in Ht.
    assert (F : Forall (fun a => quiet a /\ forall j, silent_to P (element a j)) t). { clear Hn. induction t; constructor; inversion IH; inversion Ht; subst; auto. }
    split; [apply fold_Forall; eapply Forall_impl; [|exact F]; cbn; tauto|]. intros j w. cbn [element]. destruct F as [|a t (_ & Ha) F]; [contradiction|]. cbn [map].
    destruct (Ha j w) as [(x & _ & E)|E]; rewrite E; auto. destruct (0 <=? sel x); auto. destruct (nth_error (map (fun a0 => element a0 j) t) (Z.to_nat (sel x))) as [m|] eqn:En; auto.
    apply nth_error_In, in_map_iff in En. destruct En as (b & <- & Hb). rewrite Forall_forall in F. apply F; auto.
Qed.
(* so an assignment to the elements of an expression, which is an effect, doesn't depend on the order either *)
Corollary C132_assign : forall {T} P P' (f : T -> T -> T) o fixed fixed' z z' dst src s, orders o -> wf (Map (assign_op f) [dst; src]) -> shape_is (Map (assign_op f) [dst; src]) s ->
  silent_ops P dst -> silent_ops P' src -> zclean z -> zclean z' ->
  forall m : mem T, ply fixed no_stop z (arrange o [] (Map (assign_op f) [dst; src])) m = assign fixed' z' f dst src m.
Proof.
  intros T P P' f o fixed fixed' z z' dst src s Ho Hw Hs Hd Hr Hz Hz' m. unfold assign. apply (C132_order _ _ _ _ _ _ _ _ s); auto. cbn. destruct (C132_silent _ _ Hd), (C132_silent _ _ Hr). repeat split; eauto using to_silent.
Qed.

(* c += a + b with a b of different ranks, where the sum of two elements is refused if it is 5, each operation from its last argument to its first *)
Definition backwards (q : list nat) (n : nat) : list nat := rev (seq 0 n).
Lemma backwards_orders : orders backwards.
Proof. intros q n. apply Permutation_sym, Permutation_rev. Qed.
Definition number (v : val Z) : Prop := match v with VT _ | VRef _ => True | _ => False end.
Definition picky : list (val Z) -> M (mem Z) (val Z) := op2 (fun u v => x <- rd u ;; y <- rd v ;; if x + y =? 5 then fail else ret (VT (x + y))).
Definition exsrc : expr (val Z) (mem Z) := Map picky [exV [Dim 2 3; Dim 3 1] 0; exV [Dim 2 1] 10].
Definition exall : expr (val Z) (mem Z) := Map (assign_op Z.add) [exV [Dim 2 1; Dim 3 2] 20; exsrc].
Lemma exsrc_ops : silent_ops number exsrc.
Proof.
  split; [|cbn; auto]. intros [|u [|v [|w xs]]] L F; try discriminate. inversion F as [|? ? Hu F1]; subst. inversion F1 as [|? ? Hv _]; subst. intros m.
  destruct u; try contradiction; destruct v; try contradiction; cbn; unfold bind; cbn; match goal with |- context [if ?b then _ else _] => destruct b end; auto; left; eexists; split; try reflexivity; exact I.
Qed.
Example ex_order : (wf exall /\ shape_is exall [2; 3] /\ silent_ops number exsrc /\ arrange backwards [] exall <> exall) /\
  match assign true z_init Z.add (exV [Dim 2 1; Dim 3 2] 20) exsrc (fun p => p) with Ok _ m => map m [20; 21; 22; 23; 24; 25] = [30; 35; 33; 38; 36; 41] | _ => False end /\
  match ply false no_stop z_init (arrange backwards [] exall) (fun p => p) with Ok _ m => map m [20; 21; 22; 23; 24; 25] = [30; 35; 33; 38; 36; 41] | _ => False end.
Proof.
  assert (Hw : wf exall) by (unfold exall, exsrc, exV; wfauto). split; [|split; vm_compute; reflexivity]. split; auto. split; [|split; [apply exsrc_ops|]].
  - exact (shape_shape_is exall Hw eq_refl).
  - intros E. discriminate.
Qed.
(* When the arguments do have effects the order shows: here two calls of the same counter *)
Definition next : expr Z Z := Map (fun _ w => Ok w (w + 1)) [Scalar 0].
Definition exeff : expr Z Z := Map (fun xs => ret (nth 0%nat xs 0 - nth 1%nat xs 0)) [next; next].
Example ex_effects : wf exeff /\ element exeff [] 0 = Ok (-1) 2 /\ element (arrange backwards [] exeff) [] 0 = Ok 1 2.
Proof. split; [|split; reflexivity]. unfold exeff, next. wfauto. Qed.

Print Assumptions C132_agree.
Print Assumptions C132_order.
Print Assumptions C132_silent.
Print Assumptions C132_assign.
