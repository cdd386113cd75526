(* Property C158: expressions that can be written for one another. *)
From Coq Require Import ZArith List Lia Bool Sorting.Permutation.
From Verif Require Import Spec L_Spec Spec_Ply Spec_Expr M_Base M_Expr M_Ply M_Val Spec_Val L_Expr L_Agree L_Ply L_Stl L_Run L_Val P_Ply P_Reduce M_View Spec_View M_Mat M_Frame M_Stencil M_Elem.
Import ListNotations.
Open Scope Z_scope.

(* They have the same axes, the same lengths in each, and the same elements and effects at each index. *)
Record alike {X W} (a b : expr X W) : Prop := Alike {
  alike_wf : wf a /\ wf b;
  alike_axes : axes a = axes b;
  alike_lens : forall k n, In n (leaf_lens a k) <-> In n (leaf_lens b k);
  alike_at : forall j w, element a j w = element b j w }.

Section Same.
Context {X W : Type}.
Notation ex := (expr X W).

Lemma alike_refl : forall a : ex, wf a -> alike a a. Proof. intros. constructor; auto; tauto. Qed.
Lemma alike_sym : forall a b : ex, alike a b -> alike b a. Proof. intros a b [(W1 & W2) A L E]. constructor; auto. intros. symmetry. apply L. Qed.
Lemma alike_trans : forall a b c : ex, alike a b -> alike b c -> alike a c.
Proof. intros a b c [(W1 & W2) A L E] [(W3 & W4) A' L' E']. constructor; auto; [congruence|intros; rewrite L; auto|intros; rewrite E; auto]. Qed.

Lemma lens_all : forall (a b : ex) k (P : Z -> Prop), alike a b -> Forall P (leaf_lens a k) -> Forall P (leaf_lens b k).
Proof. intros a b k P H F. rewrite Forall_forall in *. intros n Hn. apply F, (alike_lens _ _ H). auto. Qed.
Lemma alike_shape : forall (a b : ex) s, alike a b -> shape_is a s -> shape_is b s.
Proof.
  intros a b s H (L & S). split; [rewrite L; apply (alike_axes _ _ H)|]. intros k Hk. rewrite <- (alike_axes _ _ H) in Hk. destruct (S k Hk) as (S1 & S2 & S3). split; [auto|]. split; [apply (alike_lens _ _ H); auto|apply (lens_all a); auto].
Qed.
Lemma agree_shape : forall a : ex, agreeing [a] <-> exists s, shape_is a s.
Proof.
  intros a. unfold agreeing. cbn [fold_right flat_map]. rewrite Nat.max_0_r. split.
  - intros H. assert (G : forall n, (n <= axes a)%nat -> exists s, length s = n /\ forall k, (k < n)%nat -> 0 <= nth k s 0 /\ In (nth k s 0) (leaf_lens a k) /\ Forall (fun m => m = nth k s 0 \/ m = UNB) (leaf_lens a k)).
    { induction n as [|n IH]; intros Hn; [exists []; split; [reflexivity|lia]|]. destruct IH as (s & L & S); [lia|]. destruct (H n) as (x & X1 & X2 & X3); [lia|]. rewrite app_nil_r in X2, X3. exists (s ++ [x]). split; [rewrite app_length; cbn; lia|]. intros k Hk.
      destruct (Nat.eq_dec k n) as [->|D]; [rewrite app_nth2, L, Nat.sub_diag by lia; cbn [nth]; auto|rewrite app_nth1 by lia; apply S; lia]. }
    destruct (G (axes a) (le_n _)) as (s & L & S). exists s. split; auto.
  - intros (s & L & S) k Hk. rewrite app_nil_r. destruct (S k Hk) as (S1 & S2 & S3). exists (nth k s 0). auto.
Qed.

(* The same result of any traversal, also if it's refused, if there's a failure or if it stops before the end *)
Theorem C158_ply : forall R (post : X -> option R) fixed fixed' z z' (a b : ex) w, alike a b -> zclean z -> zclean z' -> ply fixed post z a w = ply fixed' post z' b w.
Proof.
  intros R post fixed fixed' z z' a b w H Hz Hz'. destruct (alike_wf _ _ H) as (Wa & Wb).
  destruct (validate a) eqn:V.
  - apply validate_iff in V; auto. apply agree_shape in V as (s & S). pose proof (alike_shape a b s H S) as S'.
    rewrite (ply_spec _ _ _ post fixed z a s (indices s)), (ply_spec _ _ _ post fixed' z' b s (indices s)) by auto using row_major_indices. apply visit_get_ext. intros j w' _. apply (alike_at _ _ H).
  - assert (V' : validate b = false). { destruct (validate b) eqn:V'; auto. apply validate_iff in V'; auto. apply agree_shape in V' as (s & S). apply (alike_shape b a) in S; [|apply alike_sym; auto]. assert (validate a = true) by (apply validate_iff; auto; apply agree_shape; exists s; auto). congruence. }
    unfold ply, ply_fixed, ply_ravel. rewrite V, V'. destruct fixed, fixed'; reflexivity.
Qed.

Lemma axes_fold : forall t u : list ex, Forall2 alike t u -> fold_right (fun a r => Nat.max (axes a) r) 0%nat t = fold_right (fun a r => Nat.max (axes a) r) 0%nat u.
Proof. induction 1 as [|a b t u H F IH]; cbn [fold_right]; [auto|]. rewrite IH, (alike_axes _ _ H). auto. Qed.
Lemma lens_fold : forall (t u : list ex) k n, Forall2 alike t u -> In n (flat_map (fun a => leaf_lens a k) t) <-> In n (flat_map (fun a => leaf_lens a k) u).
Proof. induction 1 as [|a b t u H F IH]; cbn [flat_map]; [tauto|]. rewrite !in_app_iff, IH, (alike_lens _ _ H). tauto. Qed.
Lemma wf_fold : forall t u : list ex, Forall2 alike t u -> Forall wf t /\ Forall wf u.
Proof. induction 1 as [|a b t u H F IH]; [auto|]. destruct (alike_wf _ _ H), IH. auto. Qed.
Lemma order_ext : forall (f g : list (M_Expr.M W X)), Forall2 (fun x y => forall w, x w = y w) f g -> forall w, in_order f w = in_order g w.
Proof. induction 1 as [|x y f g H F IH]; intros w; cbn [in_order]; [auto|]. rewrite H. destruct (y w) as [v w'| |]; auto. rewrite IH. auto. Qed.
Lemma at_fold : forall (t u : list ex) j, Forall2 alike t u -> Forall2 (fun x y => forall w : W, x w = y w) (map (fun a => element a j) t) (map (fun a => element a j) u).
Proof. induction 1 as [|a b t u H F IH]; cbn [map]; constructor; auto. intros w. apply (alike_at _ _ H). Qed.

Lemma nth_ext_at : forall (f g : list (M_Expr.M W X)), Forall2 (fun x y => forall w, x w = y w) f g -> forall n w,
  match nth_error f n with Some m => m w | None => Fail w end = match nth_error g n with Some m => m w | None => Fail w end.
Proof. induction 1 as [|p q f g E G IH]; intros [|n] w; cbn [nth_error]; [reflexivity|reflexivity|apply E|apply IH]. Qed.

(* ... and as an argument of any operation, or of pick *)
Theorem C158_inside : forall (t u : list ex), t <> [] -> Forall2 alike t u -> (forall op, alike (Map op t) (Map op u)) /\ (forall sel, alike (Pick sel t) (Pick sel u)).
Proof.
  intros t u Nt F. destruct (wf_fold t u F) as (Wt & Wu). assert (Nu : u <> []) by (destruct F; [contradiction|discriminate]). split.
  - intros op. constructor; [split; apply wf_map; auto|apply axes_fold; auto|intros; apply lens_fold; auto|]. intros j w. cbn [element]. rewrite (order_ext _ _ (at_fold t u j F)). reflexivity.
  - intros sel. constructor; [split; (split; [auto|]; apply wf_Forall; auto)|apply axes_fold; auto|intros; apply lens_fold; auto|]. intros j w. cbn [element]. pose proof (at_fold t u j F) as G. destruct G as [|x y f g H G]; [reflexivity|]. cbv beta. rewrite H. destruct (y w) as [v w'| |]; auto. destruct (0 <=? sel v); auto.
    apply nth_ext_at. exact G.
Qed.

(* map(g, map(f, a, ...)) is map(g o f, a, ...) *)
Theorem C158_fuse : forall (g f : list X -> M_Expr.M W X) (t : list ex), t <> [] -> Forall wf t -> alike (Map g [Map f t]) (Map (fun xs => y <- f xs ;; g [y]) t).
Proof.
  intros g f t Nt Wt. assert (W1 : wf (Map f t)) by (apply wf_map; auto). constructor.
  - split; [apply wf_map; [discriminate|]; auto|apply wf_map; auto].
  - cbn [axes fold_right]. lia.
  - intros k n. cbn [leaf_lens flat_map]. rewrite app_nil_r. tauto.
  - intros j w. cbn [element map in_order]. unfold bind. destruct (in_order _ w) as [xs w1| |]; auto. destruct (f xs w1) as [y w2| |]; auto.
Qed.
Lemma order_app : forall (l1 l2 : list (M_Expr.M W X)) w, in_order (l1 ++ l2) w = match in_order l1 w with Ok xs w1 => match in_order l2 w1 with Ok ys w2 => Ok (xs ++ ys) w2 | Fail w2 => Fail w2 | Undef => Undef end | Fail w1 => Fail w1 | Undef => Undef end.
Proof.
  induction l1 as [|m l1 IH]; intros l2 w; cbn [app in_order]; [destruct (in_order l2 w); auto|]. destruct (m w) as [x w1| |]; auto. rewrite IH. destruct (in_order l1 w1) as [xs w2| |]; auto. destruct (in_order l2 w2); auto.
Qed.
Lemma order_length : forall (l : list (M_Expr.M W X)) w xs w', in_order l w = Ok xs w' -> length xs = length l.
Proof. induction l as [|m l IH]; intros w xs w' H; cbn [in_order] in H; [injection H as <- <-; auto|]. destruct (m w) as [x w1| |]; try discriminate. destruct (in_order l w1) as [ys w2| |] eqn:E; try discriminate. injection H as <- <-. cbn. f_equal. eauto. Qed.
(* the same among other arguments, if f is a function of the values *)
Theorem C158_fuse_in : forall (g : list X -> M_Expr.M W X) (h : list X -> X) (l1 t l2 : list ex), t <> [] -> Forall wf (l1 ++ t ++ l2) ->
  alike (Map g (l1 ++ Map (fun xs => ret (h xs)) t :: l2)) (Map (fun xs => g (firstn (length l1) xs ++ h (firstn (length t) (skipn (length l1) xs)) :: skipn (length l1 + length t) xs)) (l1 ++ t ++ l2)).
Proof.
  intros g h l1 t l2 Nt Wf. apply Forall_app in Wf as (F1 & F2). apply Forall_app in F2 as (F2 & F3). assert (W1 : wf (Map (fun xs => ret (W := W) (h xs)) t)) by (apply wf_map; auto). constructor.
  - split; apply wf_map; auto; try (destruct l1; discriminate); try (destruct l1; [destruct t; [contradiction|discriminate]|discriminate]); apply Forall_app; split; auto. apply Forall_app. auto.
  - cbn [axes]. rewrite !fold_right_app. cbn [fold_right axes]. f_equal. generalize (fold_right (fun a r => Nat.max (axes a) r) 0%nat l2). intros n. clear. induction t as [|a t IH]; cbn [fold_right]; lia.
  - intros k n. cbn [leaf_lens]. rewrite !flat_map_app. cbn [flat_map leaf_lens]. tauto.
  - intros j w. cbn [element]. rewrite !map_app, !order_app. cbn [map in_order element]. destruct (in_order (map (fun a => element a j) l1) w) as [x1 w1| |] eqn:E1; auto. rewrite order_app. destruct (in_order (map (fun a => element a j) t) w1) as [x2 w2| |] eqn:E2; auto. cbn [ret]. destruct (in_order (map (fun a => element a j) l2) w2) as [x3 w3| |] eqn:E3; auto.
    apply order_length in E1. apply order_length in E2. rewrite map_length in E1, E2. rewrite <- E1, <- E2. rewrite firstn_app, firstn_all, Nat.sub_diag, firstn_O, app_nil_r. rewrite skipn_app, skipn_all, Nat.sub_diag, skipn_O. cbn [app]. rewrite firstn_app, firstn_all, Nat.sub_diag, firstn_O, app_nil_r.
    rewrite app_assoc, <- (app_length x1 x2), skipn_app, skipn_all, Nat.sub_diag, skipn_O. reflexivity.
Qed.
(* map(f, a, s) with a scalar s is map(f(., s), a) *)
Theorem C158_scalar : forall (g : list X -> M_Expr.M W X) (a : ex) (s : X), wf a -> alike (Map g [a; Scalar s]) (Map (fun xs => g (xs ++ [s])) [a]) /\ alike (Map g [Scalar s; a]) (Map (fun xs => g (s :: xs)) [a]).
Proof.
  intros g a s Wa. split; (constructor; [split; apply wf_map; try discriminate; repeat (apply Forall_cons; [auto; exact I|]); constructor|cbn; lia|intros k n; cbn [leaf_lens flat_map]; rewrite ?app_nil_r; tauto|]); intros j w; cbn [element map in_order]; [destruct (element a j w); auto|]. destruct (element a j w); auto.
Qed.
(* the arguments may be in another order if they have no effects *)
Definition pure (a : ex) : Prop := forall j w, exists x, element a j w = Ok x w.
Theorem C158_swap : forall (g : X -> X -> M_Expr.M W X) (a b : ex), wf a -> wf b -> pure a -> pure b -> alike (Map (fun xs => match xs with [x; y] => g x y | _ => undef end) [a; b]) (Map (fun xs => match xs with [y; x] => g x y | _ => undef end) [b; a]).
Proof.
  intros g a b Wa Wb Pa Pb. constructor; [split; apply wf_map; try discriminate; auto|cbn; lia|intros k n; cbn [leaf_lens flat_map]; rewrite !app_nil_r, !in_app_iff; tauto|]. intros j w. cbn [element map in_order]. destruct (Pa j w) as (x & Ex), (Pb j w) as (y & Ey). rewrite Ex, Ey, Ex. reflexivity.
Qed.
Theorem C158_pure : (forall s : X, pure (Scalar s)) /\ (forall dv fr val cp, pure (Cell dv fr val cp)) /\ (forall a di, pure a -> pure (Reframe a di)) /\ (forall h t, Forall pure t -> pure (Map (fun xs => ret (h xs)) t)).
Proof.
  split; [intros s j w; eexists; reflexivity|]. split; [intros dv fr val cp j w; eexists; reflexivity|]. split; [intros a di P j w; apply P|]. intros h t F j w. cbn [element].
  assert (G : exists xs, in_order (map (fun a => element a j) t) w = Ok xs w) by (induction F as [|a t Pa F IH]; cbn [map in_order]; [eexists; reflexivity|]; destruct (Pa j w) as (x & ->), IH as (xs & ->); eexists; reflexivity).
  destruct G as (xs & ->). eexists. reflexivity.
Qed.
(* ... and with the axes in another order *)
Lemma rank_axes : forall a : ex, wf a -> rank a = Z.of_nat (axes a).
Proof. intros a Wa. rewrite axes_rank by auto. unfold rankn. rewrite Z2Nat.id; auto. apply rank_nonneg; auto. Qed.
Theorem C158_reframe : forall (a b : ex) di, alike a b -> wf (Reframe a di) -> alike (Reframe a di) (Reframe b di).
Proof.
  intros a b di H (W1 & N & L). destruct (alike_wf _ _ H) as (Wa & Wb). constructor.
  - split; cbn [wf]; repeat split; auto. rewrite rank_axes, <- (alike_axes _ _ H), <- rank_axes; auto.
  - reflexivity.
  - intros k n. cbn [leaf_lens]. rewrite !in_flat_map. split; intros (l & Hl & Hn); exists l; (split; [auto|]); apply (alike_lens _ _ H); auto.
  - intros j w. cbn [element]. apply (alike_at _ _ H).
Qed.
(* the transpose of a map is the map of the transposes *)
Theorem C158_transpose : forall op (t : list ex) di, t <> [] -> Forall (fun a => wf (Reframe a di)) t -> alike (Reframe (Map op t) di) (Map op (map (fun a => Reframe a di) t)).
Proof.
  intros op t di Nt F. assert (Ft : Forall wf t) by (eapply Forall_impl; [|exact F]; intros a (H & _); auto).
  assert (Wm : wf (Map op t)) by (apply wf_map; auto).
  assert (Am : axes (Map op t) = length di).
  { cbn [axes]. clear Ft Wm. induction F as [|a t (Wa & N & L) F IH]; [contradiction|]. cbn [fold_right]. rewrite rank_axes in L by auto. destruct t as [|b t]; [cbn; lia|]. rewrite IH by discriminate. lia. }
  constructor.
  - split; [split; [auto|]; split; [destruct F as [|a t (_ & N & _) F]; [contradiction|auto]|rewrite rank_axes, Am; auto]|]. apply wf_map; [destruct t; [contradiction|discriminate]|]. rewrite Forall_map. auto.
  - cbn [axes]. clear - Nt. destruct t as [|a t]; [contradiction|]. clear Nt. revert a. induction t as [|b t IH]; intros a; cbn [map fold_right axes]; [lia|]. specialize (IH b). cbn [map fold_right axes] in IH. lia.
  - intros k n. cbn [leaf_lens]. rewrite !in_flat_map. split.
    + intros (l & Hl & Hn). apply in_flat_map in Hn as (a & Ha & Hn). exists (Reframe a di). split; [apply in_map_iff; exists a; auto|]. cbn [leaf_lens]. apply in_flat_map. exists l. auto.
    + intros (e & He & Hn). apply in_map_iff in He as (a & <- & Ha). cbn [leaf_lens] in Hn. apply in_flat_map in Hn as (l & Hl & Hn). exists l. split; [auto|]. apply in_flat_map. exists a. auto.
  - intros j w. cbn [element]. rewrite map_map. reflexivity.
Qed.
Lemma top_incl : forall l l' : list nat, incl l l' -> (fold_right (fun d r => Nat.max (S d) r) 0 l <= fold_right (fun d r => Nat.max (S d) r) 0 l')%nat.
Proof.
  assert (G : forall (l : list nat) d, In d l -> (S d <= fold_right (fun d r => Nat.max (S d) r) 0 l)%nat) by (induction l as [|x l IH]; [intros d []|]; intros d [->|H]; cbn [fold_right]; [lia|specialize (IH d H); lia]).
  induction l as [|x l IH]; intros l' H; cbn [fold_right]; [lia|]. apply Nat.max_lub; [apply G, H; left; auto|apply IH; intros y Hy; apply H; right; auto].
Qed.
Lemma in_positions : forall di i k l, In l (positions_from i di k) <-> (i <= l < i + length di)%nat /\ nth (l - i) di 0%nat = k.
Proof.
  induction di as [|d di IH]; intros i k l; cbn [positions_from length]; [cbn; lia|].
  assert (R : In l (positions_from (S i) di k) <-> (S i <= l < S i + length di)%nat /\ nth (l - i) (d :: di) 0%nat = k).
  { rewrite IH. split; intros (H & E); (split; [lia|]); [replace (l - i)%nat with (S (l - S i)) by lia; auto|replace (l - i)%nat with (S (l - S i)) in E by lia; auto]. }
  destruct (Nat.eqb_spec d k) as [->|D]; cbn [In]; rewrite R; split.
  - intros [<-|(H & E)]; [split; [lia|rewrite Nat.sub_diag; auto]|split; [lia|auto]].
  - intros (H & E). destruct (Nat.eq_dec i l); [left; auto|right; split; [lia|auto]].
  - intros (H & E); split; [lia|auto].
  - intros (H & E). destruct (Nat.eq_dec i l) as [->|]; [rewrite Nat.sub_diag in E; cbn in E; contradiction|split; [lia|auto]].
Qed.
(* two transposes are one *)
Theorem C158_twice : forall (a : ex) di dj, wf a -> Permutation di (seq 0 (axes a)) -> NoDup dj -> length dj = axes a -> alike (Reframe (Reframe a di) dj) (Reframe a (map (fun d => nth d dj 0%nat) di)).
Proof.
  intros a di dj Wa P Nj Lj. set (r := axes a) in *. assert (Ld : length di = r) by (rewrite (Permutation_length P), seq_length; auto). assert (Id : forall d, In d di <-> (d < r)%nat) by (intros d; split; [intros H; apply (Permutation_in _ P), in_seq in H; lia|intros H; apply (Permutation_in _ (Permutation_sym P)), in_seq; lia]).
  assert (Nd : NoDup di) by (apply (Permutation_NoDup (Permutation_sym P)), seq_NoDup).
  assert (W1 : wf (Reframe a di)) by (split; [auto|]; split; [auto|]; rewrite rank_axes by auto; fold r; lia).
  assert (A1 : axes (Reframe a di) = r). { cbn [axes]. apply Nat.le_antisymm.
    - clear - Id. assert (G : forall l, (forall d, In d l -> (d < r)%nat) -> (fold_right (fun d r => Nat.max (S d) r) 0 l <= r)%nat) by (induction l as [|x l IH]; intros H; cbn [fold_right]; [lia|]; apply Nat.max_lub; [apply H; left; auto|apply IH; intros; apply H; right; auto]). apply G. intros d. apply Id.
    - destruct r as [|r']; [lia|]. apply (Nat.le_trans _ (fold_right (fun d r => Nat.max (S d) r) 0%nat [r'])); [cbn; lia|]. apply top_incl. intros d [<-|[]]. apply Id. lia. }
  assert (Nm : NoDup (map (fun d => nth d dj 0%nat) di)).
  { clear - Nd Nj Id Lj. assert (H : forall d, In d di -> (d < length dj)%nat) by (intros d Hd; apply Id in Hd; lia). clear Id. induction Nd as [|d di Hd Nd IH]; cbn [map]; constructor; [|apply IH; intros; apply H; right; auto].
    intros I. apply in_map_iff in I as (d' & E & I). assert (d' = d) by (apply (proj1 (NoDup_nth dj 0%nat) Nj); auto; apply H; [right|left]; auto). subst. auto. }
  constructor.
  - split; [split; [exact W1|]; split; [auto|]; rewrite rank_axes, A1 by auto; lia|]. split; [auto|]. split; [auto|]. rewrite map_length, rank_axes by auto. fold r. lia.
  - cbn [axes]. apply Nat.le_antisymm; apply top_incl.
    + intros x Hx. destruct (In_nth dj x 0%nat Hx) as (d & Hd & <-). apply in_map_iff. exists d. split; [auto|]. apply Id. lia.
    + intros x Hx. apply in_map_iff in Hx as (d & <- & Hd). apply nth_In. apply Id in Hd. lia.
  - intros k n. cbn [leaf_lens]. rewrite !in_flat_map. split.
    + intros (p & Hp & Hn). apply in_flat_map in Hn as (l & Hl & Hn). exists l. split; [|auto]. apply in_positions in Hp as (Hp & Ep), Hl as (Hl & El). rewrite Nat.sub_0_r in *. apply in_positions. rewrite map_length, Nat.sub_0_r. split; [lia|]. rewrite (nth_indep _ 0%nat (nth 0 dj 0%nat)) by (rewrite map_length; lia). rewrite (map_nth (fun d => nth d dj 0%nat)). congruence.
    + intros (l & Hl & Hn). apply in_positions in Hl as (Hl & El). rewrite map_length, Nat.sub_0_r in *. rewrite (nth_indep _ 0%nat (nth 0 dj 0%nat)) in El by (rewrite map_length; lia). rewrite (map_nth (fun d => nth d dj 0%nat)) in El.
      assert (D : (nth l di 0 < r)%nat) by (apply Id, nth_In; lia). exists (nth l di 0%nat). split; [apply in_positions; rewrite Nat.sub_0_r; split; [lia|auto]|]. apply in_flat_map. exists l. split; [apply in_positions; rewrite Nat.sub_0_r; split; [lia|auto]|auto].
  - intros j w. cbn [element]. f_equal. rewrite map_map. apply map_ext_in. intros d Hd. apply Id in Hd. rewrite (nth_indep _ 0 (nth 0%nat j 0)) by (rewrite map_length; lia). apply (map_nth (fun d => nth d j 0)).
Qed.
End Same.

Section Where.
Context {T : Type}.
Variable tob : T -> bool.
Notation ex := (expr (val T) (mem T)).
(* where(!w, a, b) is where(w, b, a) *)
Theorem C158_not : forall w a b : ex, wf w -> wf a -> wf b -> alike (where_ tob (lnot tob w) a b) (where_ tob w b a).
Proof.
  intros w a b Ww Wa Wb. unfold where_, castb, lnot. constructor.
  - split; (split; [discriminate|]; apply wf_Forall; repeat (apply Forall_cons; [auto|]); auto; repeat (apply wf_map; [discriminate|]; apply Forall_cons; [|constructor]); auto).
  - cbn. lia.
  - intros k n. cbn [leaf_lens flat_map]. rewrite !app_nil_r, !in_app_iff. tauto.
  - intros j m. cbn [element map in_order]. destruct (element w j m) as [v m1| |]; auto. unfold op1, bind, ret. unfold rdb. destruct v as [t|i|b'|p| | |]; auto; cbn; [destruct (tob t)|destruct b'|destruct (tob (m1 p))]; reflexivity.
Qed.
Theorem C158_not_not : forall w a b : ex, wf w -> wf a -> wf b -> alike (where_ tob (lnot tob (lnot tob w)) a b) (where_ tob w a b).
Proof. intros w a b Ww Wa Wb. apply (alike_trans _ (where_ tob (lnot tob w) b a)); apply C158_not; auto. apply wf_map; [discriminate|]. auto. Qed.
(* !(a && b) is !a || !b; b is evaluated at the same indices in both *)
Theorem C158_de_morgan : forall a b : ex, wf a -> wf b -> alike (lnot tob (and_ tob a b)) (or_ tob (lnot tob a) (lnot tob b)) /\ alike (lnot tob (or_ tob a b)) (and_ tob (lnot tob a) (lnot tob b)).
Proof.
  intros a b Wa Wb. split; unfold and_, or_, where_, castb, lnot; (constructor; [|cbn; lia|intros k n; cbn [leaf_lens flat_map]; rewrite ?app_nil_r, ?in_app_iff; cbn; tauto|]).
  1, 3: cbn; repeat split; auto; discriminate.
  all: intros j m; cbn [element map in_order]; destruct (element a j m) as [v m1| |]; auto; unfold op1, bind, ret, rdb; destruct v as [t|i|b'|p| | |]; auto; cbn [selv]; [destruct (tob t)|destruct b'|destruct (tob (m1 p))]; cbn; change (Pos.to_nat 1) with 1%nat; cbn; auto; try (destruct (element b j m1) as [v m2| |]; cbn; auto; destruct v; cbn; auto).
Qed.
End Where.

(* An assignment of one or of the other leaves the same memory *)
Theorem C158_assign : forall T (f : T -> T -> T) fixed fixed' z z' (d a b : expr (val T) (mem T)) m, wf d -> alike a b -> zclean z -> zclean z' -> assign fixed z f d a m = assign fixed' z' f d b m.
Proof. intros T f fixed fixed' z z' d a b m Wd H Hz Hz'. unfold assign. apply C158_ply; auto. apply C158_inside; [discriminate|]. constructor; [apply alike_refl; auto|]. constructor; auto. Qed.

(* ... and in the reductions *)
Lemma alike_lift : forall X W C (a b : expr X W), alike a b -> alike (lift (C := C) a) (lift b).
Proof.
  intros X W C a b [(W1 & W2) A L E]. constructor; [split; apply lift_wf; auto|rewrite !lift_axes; auto|intros; rewrite !lift_lens; auto|]. intros j (w, c). rewrite !lift_element. unfold lift_op. cbn [fst snd]. rewrite E. reflexivity.
Qed.
Theorem C158_for_each : forall T W C fixed fixed' z z' (op : list (val T) -> M_Expr.M (W * C) (val T)) t u c w, t <> [] -> Forall2 alike t u -> zclean z -> zclean z' -> for_each_c fixed z op t c w = for_each_c fixed' z' op u c w.
Proof.
  intros T W C fixed fixed' z z' op t u c w Nt F Hz Hz'. unfold for_each_c. rewrite (C158_ply _ no_stop fixed fixed' z z' (Map op (map lift t)) (Map op (map lift u)) (w, c)); [reflexivity| |auto|auto]. apply C158_inside; [destruct t; [contradiction|discriminate]|]. clear - F. induction F; cbn [map]; constructor; auto using alike_lift.
Qed.
Theorem C158_reduce : forall T fixed fixed' z z' (a b : expr (val T) (mem T)) m, alike a b -> zclean z -> zclean z' ->
  (forall tob, any fixed z tob a m = any fixed' z' tob b m /\ every fixed z tob a m = every fixed' z' tob b m /\ index fixed z tob a m = index fixed' z' tob b m) /\
  (forall f x, sum fixed z f x a m = sum fixed' z' f x b m /\ prod fixed z f x a m = prod fixed' z' f x b m) /\
  (forall lt x, amin fixed z lt x a m = amin fixed' z' lt x b m /\ amax fixed z lt x a m = amax fixed' z' lt x b m) /\
  (forall add mul x c, wf c -> dot fixed z add mul x a c m = dot fixed' z' add mul x b c m /\ dot fixed z add mul x c a m = dot fixed' z' add mul x c b m).
Proof.
  intros T fixed fixed' z z' a b m H Hz Hz'. assert (F1 : Forall2 alike [a] [b]) by auto. assert (D : deref a m = deref b m) by (rewrite !(deref_zero _ _ _ 0); apply (alike_at _ _ H)).
  split; [|split; [|split]].
  - intros tob. unfold any, every, index, to_value, bind.
    assert (F2 : Forall2 alike [a; iota0] [b; iota0]) by (constructor; [exact H|]; constructor; [|constructor]; apply alike_refl; cbn; repeat split; auto; repeat constructor; unfold oklen; cbn; auto; lia).
    pose proof (proj1 (C158_inside [a] [b] (fun E => eq_ind [a] (fun l => match l with [] => False | _ => True end) I [] E) F1)) as A1. pose proof (proj1 (C158_inside [a; iota0] [b; iota0] (fun E => eq_ind [a; iota0] (fun l => match l with [] => False | _ => True end) I [] E) F2)) as A2.
    rewrite (C158_ply bool post_b fixed fixed' z z' _ _ m (A1 (any_op tob)) Hz Hz'), (C158_ply bool post_b fixed fixed' z z' _ _ m (A1 (every_op tob)) Hz Hz'), (C158_ply Z post_i fixed fixed' z z' _ _ m (A2 (index_op tob)) Hz Hz'). auto.
  - intros f x. unfold sum, prod, bind. rewrite D. split; (destruct (deref b m); auto; apply C158_for_each; auto; discriminate).
  - intros lt x. unfold amin, amax. split; (apply C158_for_each; auto; discriminate).
  - intros add mul x c Wc. unfold dot. split; (apply C158_for_each; auto; [discriminate|]); constructor; auto using alike_refl.
Qed.
(* every(a) is !any(!a), with the same effects, the same elements not evaluated, and refused or undefined in the same cases *)
Definition opposite {W} (o o' : out W bool) : Prop := match o, o' with Ok x w, Ok y w' => x = negb y /\ w = w' | Fail w, Fail w' => w = w' | Undef, Undef => True | _, _ => False end.
Theorem C158_every : forall T tob fixed fixed' z z' (a : expr (val T) (mem T)) m, wf a -> zclean z -> zclean z' -> opposite (every fixed z tob a m) (any fixed' z' tob (lnot tob a) m).
Proof.
  intros T tob fixed fixed' z z' a m Wa Hz Hz'. unfold every, any, to_value, bind.
  assert (H : alike (Map (any_op tob) [lnot tob a]) (Map (fun xs => y <- op1 (fun v => b <- rdb tob v ;; ret (VB (negb b))) xs ;; any_op tob [y]) [a])) by (apply C158_fuse; [discriminate|auto]).
  rewrite (C158_ply bool post_b fixed' true z' z' _ _ m H Hz' Hz').
  set (e1 := Map (every_op tob) [a]). set (e2 := Map _ [a]). assert (W1 : wf e1) by (apply wf_map; [discriminate|auto]). assert (W2 : wf e2) by (apply wf_map; [discriminate|auto]).
  assert (S12 : forall s, shape_is e1 s <-> shape_is e2 s) by (intros s; split; intros (L & S); split; auto).
  destruct (validate e1) eqn:V.
  - apply validate_iff in V; auto. apply agree_shape in V as (s & S). rewrite (ply_spec _ _ _ post_b fixed z e1 s (indices s)), (ply_spec _ _ _ post_b true z' e2 s (indices s)) by (auto using row_major_indices; apply S12; auto).
    generalize (indices s). intros js. revert m. induction js as [|j js IH]; intros m; cbn [visit]; [cbn; auto|]. unfold e1, e2. cbn [element map in_order]. destruct (element a j m) as [v m1|m1|]; [|cbn; auto|cbn; auto].
    unfold every_op, any_op, op1, bind, ret, rdb. destruct v as [t|i|b|p| | |]; try exact I; [destruct (tob t)|destruct b|destruct (tob (m1 p))]; cbn [negb post_b]; try apply IH; cbn; auto.
  - assert (V' : validate e2 = false). { destruct (validate e2) eqn:V'; auto. apply validate_iff in V'; auto. apply agree_shape in V' as (s & S). apply S12 in S. assert (validate e1 = true) by (apply validate_iff; auto; apply agree_shape; exists s; auto). congruence. }
    unfold ply, ply_fixed, ply_ravel. rewrite V, V'. destruct fixed; cbn; auto.
Qed.

(* With effects the order of the arguments counts: this one reads place 9 after or before the other adds to it *)
Theorem C158_order_refuted : exists (a b : expr (val Z) (mem Z)) (g : val Z -> val Z -> M_Expr.M (mem Z) (val Z)), wf a /\ wf b /\ pure b /\
  ~ alike (Map (fun xs => match xs with [x; y] => g x y | _ => undef end) [a; b]) (Map (fun xs => match xs with [y; x] => g x y | _ => undef end) [b; a]).
Proof.
  pose (b := Map (fun _ m => Ok (VT (m 9)) m) [Scalar (VT 0)] : expr (val Z) (mem Z)).
  pose (g := fun x y : val Z => @ret (mem Z) _ y).
  exists counting, b, g. split; [cbn; split; [discriminate|]; repeat split; auto; repeat constructor; unfold oklen; cbn; lia|]. split; [apply wf_map; [discriminate|]; repeat constructor|]. split; [intros j w; eexists; reflexivity|].
  intros H. pose proof (alike_at _ _ H [0] (fun _ => 0)) as E. cbn in E. injection E as E. cbn in E. discriminate E.
Qed.

(* d = where(!(c), a + 1, 5 + b) and d = where(c, 5 + b, a + 1), with a of two axes and b, c of one *)
Definition exS1 : expr (val Z) (mem Z) := let c := exV [Dim 2 (-1)] 1 in where_ (fun x => 0 <=? x) (lnot (fun x => 0 <=? x) c) (Map plus2 [exV [Dim 2 4; Dim 3 (-1)] 9; Scalar (VT 1)]) (Map plus2 [Scalar (VT 5); exV [Dim 2 1] 0]).
Definition exS2 : expr (val Z) (mem Z) := let c := exV [Dim 2 (-1)] 1 in where_ (fun x => 0 <=? x) c (Map plus2 [Scalar (VT 5); exV [Dim 2 1] 0]) (Map plus2 [exV [Dim 2 4; Dim 3 (-1)] 9; Scalar (VT 1)]).
Example C158_example : alike exS1 exS2 /\ shape_is exS1 [2; 3] /\ (exists m, assign true z_init (fun _ x => x) (exV [Dim 2 3; Dim 3 1] 100) exS1 exm = Ok None m /\ map m [100; 101; 102; 103; 104; 105] = [28; 17; 8; 0; 0; 0]).
Proof.
  assert (H : alike exS1 exS2). { apply C158_not; try apply wf_map; try discriminate; repeat constructor; unfold oklen; cbn; lia. }
  split; [exact H|]. split; [apply (shape_shape_is _ (proj1 (alike_wf _ _ H))); reflexivity|]. eexists. split; [reflexivity|]. vm_compute. reflexivity.
Qed.
(* -(a + 1) in one operation *)
Example C158_fused : alike (Map (op1 (fun v => x <- rd v ;; ret (VT (- x)))) [Map plus2 [exV [Dim 3 2] 0; Scalar (VT 1)]]) (Map (fun xs => y <- plus2 xs ;; op1 (fun v => x <- rd v ;; ret (VT (- x))) [y]) [exV [Dim 3 2] 0; Scalar (VT 1)]) /\
  exists m, assign true z_init (fun _ x => x) (exV [Dim 3 1] 100) (Map (op1 (fun v => x <- rd v ;; ret (VT (- x)))) [Map plus2 [exV [Dim 3 2] 0; Scalar (VT 1)]]) exm = Ok None m /\ map m [100; 101; 102] = [-1; 7; 7].
Proof.
  split; [apply C158_fuse; [discriminate|]; repeat constructor; unfold oklen; cbn; lia|]. eexists. split; [reflexivity|]. vm_compute. reflexivity.
Qed.
Example C158_refused_example : let a := exV [Dim 2 1] 0 in let b := exV [Dim 3 1] 0 in alike (Map plus2 [a; b]) (Map plus2 [a; b]) /\ (forall s, ~ shape_is (Map plus2 [a; b]) s) /\ ply true (@no_stop _) z_init (Map plus2 [a; b]) exm = Fail exm.
Proof.
  cbv zeta. split; [apply alike_refl; apply wf_map; [discriminate|]; repeat constructor; unfold oklen; cbn; lia|]. split; [|reflexivity].
  intros s (L & S). destruct (S 0%nat) as (_ & _ & F); [cbn; lia|]. cbn in F. inversion F as [|? ? [E|E] F2]; subst; [|discriminate]. inversion F2 as [|? ? [E2|E2] F3]; subst; [|discriminate]. rewrite <- E in E2. discriminate.
Qed.

(* the transpose of a + b of rank 2, with lengths 2 and 3 *)
Example C158_transpose_example : let a := exV [Dim 2 3; Dim 3 1] 0 in let b := exV [Dim 2 1; Dim 3 0] 4 in let e := Map plus2 [Reframe a [1; 0]%nat; Reframe b [1; 0]%nat] in
  alike (Reframe (Map plus2 [a; b]) [1; 0]%nat) e /\ shape e = [3; 2] /\ match assign true z_init (fun _ x => x) (exV [Dim 3 2; Dim 2 1] 100) e exm with Ok _ m => map m [100; 101; 102; 103; 104; 105] = [-8; -14; -13; -13; -16; -10] | _ => False end.
Proof.
  cbv zeta. split; [|split; [reflexivity|vm_compute; reflexivity]]. apply (C158_transpose plus2 [exV [Dim 2 3; Dim 3 1] 0; exV [Dim 2 1; Dim 3 0] 4] [1; 0]%nat); [discriminate|]. repeat constructor; unfold oklen; cbn; intuition (try discriminate; lia).
Qed.
Example C158_twice_example : let a := exV [Dim 2 12; Dim 3 4; Dim 4 1] 0 in alike (Reframe (Reframe a [2; 0; 1]%nat) [2; 0; 1]%nat) (Reframe a [1; 2; 0]%nat) /\ shape (Reframe a [1; 2; 0]%nat) = [4; 2; 3].
Proof.
  cbv zeta. split; [|reflexivity]. apply (C158_twice (exV [Dim 2 12; Dim 3 4; Dim 4 1] 0) [2; 0; 1]%nat [2; 0; 1]%nat); [repeat constructor; unfold oklen; cbn; lia| |repeat constructor; cbn; intuition lia|reflexivity].
  cbn. apply (Permutation_trans (l' := [0; 2; 1]%nat)); [apply perm_swap|]. apply perm_skip, perm_swap.
Qed.
(* counting adds to place 9 each time it's evaluated: as many in both *)
Example C158_every_example : let tob := fun x => x =? 0 in
  match every true z_init tob counting exm, any false z_init tob (lnot tob counting) exm with Ok x m, Ok y m' => x = false /\ y = true /\ m 9 = exm 9 + 2 /\ m' 9 = exm 9 + 2 | _, _ => False end.
Proof. vm_compute. auto. Qed.
Print Assumptions C158_ply.
Print Assumptions C158_inside.
Print Assumptions C158_reframe.
Print Assumptions C158_transpose.
Print Assumptions C158_twice.
Print Assumptions C158_fuse.
Print Assumptions C158_fuse_in.
Print Assumptions C158_scalar.
Print Assumptions C158_swap.
Print Assumptions C158_pure.
Print Assumptions C158_not.
Print Assumptions C158_not_not.
Print Assumptions C158_de_morgan.
Print Assumptions C158_assign.
Print Assumptions C158_for_each.
Print Assumptions C158_reduce.
Print Assumptions C158_every.
Print Assumptions C158_order_refuted.
