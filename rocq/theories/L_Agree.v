(* Agreement and elements: the model (M_Expr.v) against Spec_Expr.v. *)
From Coq Require Import ZArith List Lia Bool.
From Coq Require Import ZifyBool ZifyNat.
From Verif Require Import Spec L_Spec M_Base M_Expr L_Expr Spec_Expr.
Import ListNotations.
Open Scope Z_scope.

Section LAgree.
Context {X W : Type}.
Notation expr := (expr X W).

Definition Common (l : list Z) (c : Z) : Prop :=
  (0 <= c /\ In c l /\ Forall (fun m => m = c \/ m = UNB) l) \/
  (c = UNB /\ Forall (fun m => m = UNB) l) \/
  (c = MIS /\ exists m n, In m l /\ In n l /\ 0 <= m /\ 0 <= n /\ m <> n).

Lemma Common_fun : forall l c d, Common l c -> Common l d -> c = d.
Proof.
  unfold Common, UNB, MIS. intros l c d H1 H2.
  destruct H1 as [(Hc & Hi & Hf)|[(-> & Hf)|(-> & m & n & Hm & Hn & H0 & H1 & Hne)]];
  destruct H2 as [(Hc' & Hi' & Hf')|[(-> & Hf')|(-> & m' & n' & Hm' & Hn' & H0' & H1' & Hne')]]; auto;
  rewrite ?Forall_forall in *.
  - specialize (Hf _ Hi'). lia.
  - specialize (Hf' _ Hi). lia.
  - pose proof (Hf _ Hm'). pose proof (Hf _ Hn'). lia.
  - specialize (Hf _ Hi'). lia.
  - pose proof (Hf _ Hm'). lia.
  - pose proof (Hf' _ Hm). pose proof (Hf' _ Hn). lia.
  - pose proof (Hf' _ Hm). lia.
Qed.

Lemma Common_app : forall l m c d, Common l c -> Common m d ->
  Common (l ++ m) (if MIS =? c then MIS else if MIS =? d then MIS else colen c d).
Proof.
  intros l m c d H1 H2.
  assert (Hmis : forall a b, (exists x y, In x a /\ In y a /\ 0 <= x /\ 0 <= y /\ x <> y) -> (forall x, In x a -> In x b) -> Common b MIS).
  { intros a b (x & y & ?) Hs. right; right. split; auto. exists x, y. intuition auto. }
  destruct H1 as [(Hc & Hi & Hf)|[(-> & Hf)|(-> & H)]].
  - replace (MIS =? c) with false by (unfold MIS; lia).
    destruct H2 as [(Hd & Hi' & Hf')|[(-> & Hf')|(-> & H)]].
    + replace (MIS =? d) with false by (unfold MIS; lia). unfold colen.
      replace (0 <=? c) with true by lia. replace (0 <=? d) with true by lia.
      destruct (Z.eqb_spec c d).
      * subst. left. split; auto. split; [apply in_or_app; auto|]. apply Forall_app; auto.
      * right; right. split; auto. exists c, d. rewrite !in_app_iff. auto 10.
    + unfold colen. replace (MIS =? UNB) with false by reflexivity. replace (0 <=? c) with true by lia.
      replace (c =? UNB) with false by (unfold UNB; lia). replace (0 <=? UNB) with false by reflexivity.
      left. split; auto. split; [apply in_or_app; auto|]. apply Forall_app. split; auto.
      eapply Forall_impl; [|exact Hf']. simpl; auto.
    + rewrite Z.eqb_refl. eapply Hmis; eauto. intros. apply in_or_app; auto.
  - replace (MIS =? UNB) with false by reflexivity.
    destruct H2 as [(Hd & Hi' & Hf')|[(-> & Hf')|(-> & H)]].
    + replace (MIS =? d) with false by (unfold MIS; lia). cbn. left. split; auto. split; [apply in_or_app; auto|].
      apply Forall_app. split; auto. eapply Forall_impl; [|exact Hf]. simpl; auto.
    + cbn. right; left. split; auto. apply Forall_app; auto.
    + rewrite Z.eqb_refl. eapply Hmis; eauto. intros. apply in_or_app; auto.
  - rewrite Z.eqb_refl. eapply Hmis; eauto. intros. apply in_or_app; auto.
Qed.

Lemma Common_nil : Common [] UNB.
Proof. right; left. split; auto. Qed.

Lemma Common_comm : forall l m c, Common (l ++ m) c -> Common (m ++ l) c.
Proof.
  assert (Hi : forall l m (x : Z), In x (l ++ m) -> In x (m ++ l)) by (intros l m x; rewrite !in_app_iff; tauto).
  intros l m c [(Hc & Hin & Hf)|[(-> & Hf)|(-> & x & y & H)]].
  - left. split; auto. split; auto. apply Forall_app in Hf. apply Forall_app. tauto.
  - right; left. split; auto. apply Forall_app in Hf. apply Forall_app. tauto.
  - right; right. split; auto. exists x, y. intuition auto.
Qed.

Lemma match_len_common : forall k (t : list (Z * Z)) (ls : list (list Z)) s l0,
  Forall2 (fun p l => if k <? fst p then Common l (snd p) else l = []) t ls -> Common l0 s -> s <> MIS ->
  Common (l0 ++ concat ls) (match_len k t s).
Proof.
  intros k t ls s l0 H. revert s l0. induction H; intros s l0 Hc0 Hs; cbn [concat match_len].
  - rewrite app_nil_r. auto.
  - destruct x as [r sk]. cbn [fst snd] in H. destruct (Z.ltb_spec k r).
    + pose proof (Common_app _ _ _ _ H Hc0) as Ha. apply Common_comm in Ha.
      replace (MIS =? s) with false in Ha by (destruct (Z.eqb_spec MIS s); congruence).
      assert (Hgen : forall ss, ss = MIS -> Common (l0 ++ y) ss -> Common (l0 ++ y ++ concat l') MIS).
      { intros ss -> Hc. destruct Hc as [(Hc & _)|[(E & _)|(_ & x1 & x2 & Hx)]]; [unfold MIS in Hc; lia|unfold MIS, UNB in E; lia|].
        right; right. split; auto. exists x1, x2. rewrite !in_app_iff in *. tauto. }
      destruct (Z.eqb_spec MIS sk).
      * rewrite Z.eqb_refl. eapply Hgen; eauto.
      * destruct (Z.eqb_spec MIS (colen sk s)).
        -- rewrite <- e. eapply Hgen; [|exact Ha]; auto.
        -- rewrite app_assoc. apply IHForall2; auto.
    + subst y. destruct (Z.eqb_spec MIS s); [congruence|]. cbn [app]. apply IHForall2; auto.
Qed.

Lemma positions_none : forall di i k, orig_from i di k = None -> positions_from i di k = [].
Proof. induction di; simpl; intros; auto. destruct (Nat.eqb a k); [discriminate|]. auto. Qed.

Lemma positions_notin : forall di i k, ~ In k di -> positions_from i di k = [].
Proof. induction di; simpl; intros; auto. destruct (Nat.eqb_spec a k); [tauto|]. apply IHdi. tauto. Qed.

Lemma positions_some : forall di i k l, NoDup di -> orig_from i di k = Some l -> positions_from i di k = [l].
Proof.
  induction di; simpl; intros; [discriminate|]. inversion H; subst. destruct (Nat.eqb_spec a k).
  - inversion H0; subst. rewrite positions_notin; auto.
  - auto.
Qed.

Lemma axes_rank : forall e : expr, wf e -> axes e = rankn e.
Proof.
  assert (Hm : forall t : list expr, Forall (fun e => wf e -> axes e = rankn e) t -> t <> [] -> Forall wf t ->
    fold_right (fun a r => Nat.max (axes a) r) 0%nat t = Z.to_nat (match_rank (map rank t))).
  { intros t H Hn Hw.
    assert (Hr : Forall (fun x => 0 <= x) (map rank t)).
    { apply Forall_map. eapply Forall_impl; [|exact Hw]. intros. apply rank_nonneg; auto. }
    destruct (match_rank_max (map rank t)) as [Hin Hmax]; auto.
    { intros E. apply map_eq_nil in E. auto. }
    apply in_map_iff in Hin. destruct Hin as (a & Ha & Hin). rewrite Forall_map in Hmax.
    rewrite Forall_forall in H, Hw, Hmax.
    assert (Hle : forall t', (forall x, In x t' -> In x t) -> (fold_right (fun a r => Nat.max (axes a) r) 0 t' <= Z.to_nat (match_rank (map rank t)))%nat).
    { induction t'; simpl; intros; [lia|]. rewrite H by auto. pose proof (Hmax a0). unfold rankn.
      specialize (IHt' ltac:(auto)). specialize (H1 ltac:(auto)). lia. }
    assert (Hge : forall (t' : list expr) x, In x t' -> (axes x <= fold_right (fun a r => Nat.max (axes a) r) 0 t')%nat).
    { induction t'; simpl; intros; [tauto|]. destruct H0; [subst; lia|]. specialize (IHt' _ H0). lia. }
    specialize (Hle t ltac:(auto)). specialize (Hge t a Hin). rewrite H in Hge by auto. unfold rankn in Hge. rewrite Ha in Hge. lia. }
  induction e using expr_ind2; intros Hw; cbn [axes]; unfold rankn; cbn [rank].
  - reflexivity.
  - lia.
  - unfold reframe_rank. destruct di; [reflexivity|].
    assert (E : forall l, fold_right (fun d r => Nat.max (S d) r) 0%nat l = match l with [] => 0%nat | _ => S (fold_right Nat.max 0%nat l) end).
    { induction l as [|x l]; [reflexivity|]. cbn [fold_right]. rewrite IHl. destruct l; cbn [fold_right]; lia. }
    rewrite E. lia.
  - destruct Hw as (Hn & Hw). apply wf_Forall in Hw. auto.
  - destruct Hw as (Hn & Hw). apply wf_Forall in Hw. auto.
Qed.

Lemma leaf_lens_out : forall e : expr, wf e -> forall k, (rankn e <= k)%nat -> leaf_lens e k = [].
Proof.
  assert (Hm : forall t : list expr, Forall (fun e => wf e -> forall k, (rankn e <= k)%nat -> leaf_lens e k = []) t -> t <> [] -> Forall wf t ->
    forall k, (Z.to_nat (match_rank (map rank t)) <= k)%nat -> flat_map (fun a => leaf_lens a k) t = []).
  { intros t H Hn Hw k Hk. rewrite (flat_map_ext_in _ (fun _ => [])); [apply flat_map_nil|].
    intros a Ha. pose proof (rankn_sub (fun _ => fail) t Hn Hw a Ha) as Hr. unfold rankn in Hr at 2. cbn [rank] in Hr.
    rewrite Forall_forall in H, Hw. apply H; auto. lia. }
  induction e using expr_ind2; intros Hw k Hk; cbn [leaf_lens].
  - reflexivity.
  - unfold rankn in Hk. cbn [rank] in Hk. replace (k <? fr)%nat with false by lia. reflexivity.
  - destruct Hw as (Hw & Hd & Hr). rewrite positions_notin; [reflexivity|]. intros Hin.
    apply (In_nth _ _ 0%nat) in Hin. destruct Hin as (l & Hl & <-). pose proof (reframe_bound di l Hl). unfold rankn in Hk. cbn [rank] in Hk. lia.
  - destruct Hw as (Hn & Hw). apply wf_Forall in Hw. apply Hm; auto.
  - destruct Hw as (Hn & Hw). apply wf_Forall in Hw. apply Hm; auto.
Qed.

Lemma flat_map_concat : forall {A B} (f : A -> list B) l, flat_map f l = concat (map f l).
Proof. induction l; simpl; [reflexivity|]. rewrite IHl. reflexivity. Qed.

Lemma lene_common : forall e : expr, wf e -> forall k, (k < rankn e)%nat -> Common (leaf_lens e k) (lene e k).
Proof.
  assert (Hm : forall t : list expr, Forall (fun e => wf e -> forall k, (k < rankn e)%nat -> Common (leaf_lens e k) (lene e k)) t -> Forall wf t ->
    forall k, Common (flat_map (fun a => leaf_lens a k) t) (match_len (Z.of_nat k) (map (fun a => (rank a, lene a k)) t) UNB)).
  { intros t H Hw k. rewrite flat_map_concat. change (concat _) with ([] ++ concat (map (fun a => leaf_lens a k) t)).
    apply match_len_common; [|apply Common_nil|discriminate].
    apply Forall2_map_map. intros a Ha. cbn [fst snd]. rewrite Forall_forall in H, Hw. destruct (Z.ltb_spec (Z.of_nat k) (rank a)).
    - apply H; auto. unfold rankn. lia.
    - apply leaf_lens_out; auto. unfold rankn. lia. }
  induction e using expr_ind2; intros Hw k Hk; cbn [leaf_lens lene].
  - unfold rankn in Hk. simpl in Hk. lia.
  - unfold rankn in Hk. cbn [rank] in Hk. replace (k <? fr)%nat with true by lia.
    destruct Hw as (Hl & Hf).
    assert (Ho : oklen (len (nth k dv dim0))).
    { rewrite <- (firstn_skipn fr dv). rewrite app_nth1 by (rewrite firstn_length; lia). rewrite Forall_forall in Hf.
      apply Hf. apply nth_In. rewrite firstn_length. lia. }
    destruct Ho.
    + left. split; auto. split; [left; auto|]. constructor; auto.
    + right; left. auto.
  - destruct Hw as (Hw & Hd & Hr). unfold orig. destruct (orig_from 0 di k) eqn:E.
    + rewrite (positions_some _ _ _ _ Hd E). cbn [flat_map]. rewrite app_nil_r. apply IHe; auto.
      apply orig_some in E. unfold rankn. lia.
    + rewrite positions_none by auto. apply Common_nil.
  - destruct Hw as (Hn & Hw). apply wf_Forall in Hw. apply Hm; auto.
  - destruct Hw as (Hn & Hw). apply wf_Forall in Hw. apply Hm; auto.
Qed.

Lemma common_finite_iff : forall l c, Common l c -> (0 <= c <-> common_finite l).
Proof.
  intros l c H. split.
  - intros Hc. destruct H as [H|[(-> & _)|(-> & _)]]; [exists c; auto|unfold UNB in Hc; lia|unfold MIS in Hc; lia].
  - intros (n & Hn). assert (c = n) by (apply (Common_fun l); auto; left; auto). subst. tauto.
Qed.

(* the shape check of an expression is exactly agreement of the leaves *)
Lemma agree_iff : forall t : list expr, t <> [] -> Forall wf t -> (agree t = true <-> agreeing t).
Proof.
  intros t Hn Hw. set (e := Map (fun _ => fail) t : expr).
  assert (We : wf e) by (split; [auto|apply wf_Forall; auto]).
  unfold agree, agreeing. fold e. pose proof (axes_rank e We) as Ha. cbn [axes e] in Ha. rewrite Ha. 
  unfold check. rewrite forallb_forall. split.
  - intros H k Hk. specialize (H k ltac:(apply in_seq; lia)). pose proof (lene_common e We k Hk) as Hc.
    apply common_finite_iff in Hc. apply Hc. lia.
  - intros H k Hk. apply in_seq in Hk. specialize (H k ltac:(lia)). pose proof (lene_common e We k ltac:(lia)) as Hc.
    apply common_finite_iff in Hc. apply Hc in H. lia.
Qed.

Lemma validate_iff : forall e : expr, wf e -> (validate e = true <-> agreeing [e]).
Proof.
  intros e Hw. rewrite validate_spec. unfold agreeing. cbn [fold_right flat_map]. rewrite Nat.max_0_r.
  rewrite axes_rank by auto. split.
  - intros (_ & H) k Hk. rewrite app_nil_r. pose proof (lene_common e Hw k Hk) as Hc. apply common_finite_iff in Hc. apply Hc.
    rewrite <- shape_nth by auto. rewrite Forall_forall in H. apply H. apply nth_In. rewrite shape_length. auto.
  - intros H. split; [apply rank_nonneg; auto|]. apply Forall_forall. intros n Hin. apply (In_nth _ _ 0) in Hin.
    destruct Hin as (k & Hk & <-). rewrite shape_length in Hk. rewrite shape_nth by auto. specialize (H k Hk). rewrite app_nil_r in H.
    pose proof (lene_common e Hw k Hk) as Hc. apply common_finite_iff in Hc. apply Hc; auto.
Qed.

(* elements *)

Lemma place_dotp : forall dv j, place dv j = dotp (map step dv) j.
Proof. induction dv; destruct j; simpl; auto. rewrite IHdv. reflexivity. Qed.

Lemma in_order_seqM : forall {A} (l : list (M W A)) w, in_order l w = seqM l w.
Proof. induction l; intros; [reflexivity|]. cbn [in_order seqM]. unfold bind, ret. destruct (a w); auto. Qed.

Lemma pick_from_nth : forall {A} (l : list (M W A)) p w, pick_from p l w =
  if 0 <=? p then match nth_error l (Z.to_nat p) with Some m => m w | None => Fail w end else Fail w.
Proof.
  induction l; intros; cbn [pick_from].
  - destruct (0 <=? p); [|reflexivity]. destruct (Z.to_nat p); reflexivity.
  - destruct (Z.eqb_spec p 0); [subst; reflexivity|]. rewrite IHl. destruct (Z.leb_spec 0 p).
    + replace (0 <=? p - 1) with true by lia. replace (Z.to_nat p) with (S (Z.to_nat (p-1))) by lia. reflexivity.
    + replace (0 <=? p - 1) with false by lia. reflexivity.
Qed.

Lemma dotp_firstn : forall st n j, (length st <= n)%nat -> dotp st (firstn n j) = dotp st j.
Proof.
  induction st; intros; [reflexivity|]. destruct n; [simpl in H; lia|]. destruct j; [reflexivity|].
  cbn [firstn dotp]. rewrite IHst; auto. simpl in H. lia.
Qed.

Theorem at_element : forall e : expr, wf e -> forall j, (rankn e <= length j)%nat -> okidx e (fz j) -> forall w, at_ e j w = element e j w.
Proof.
  induction e using expr_ind2; intros Hw j Hj Hi w; cbn [at_ element].
  - reflexivity.
  - pose proof (deref_at (Cell dv fr val cp) Hw j Hj Hi w) as E. cbn [at_ goto deref] in E. rewrite <- E. unfold ret. clear E.
    destruct Hw as (Hl & Hf). unfold rankn in Hj. cbn [rank] in Hj. rewrite Nat2Z.id in Hj.
    rewrite cellpos_dotp by auto. rewrite place_dotp.
    rewrite dotp_firstn by (rewrite map_length, firstn_length; lia). reflexivity.
  - destruct Hw as (Hw & Hd & Hr).
    assert (Hb : forall l, (l < length di)%nat -> (nth l di 0 < length j)%nat).
    { intros l Hl. pose proof (reframe_bound di l Hl). unfold rankn in Hj. cbn [rank] in Hj. lia. }
    rewrite gather_ok by auto. apply IHe; auto.
    + rewrite map_length. unfold rankn. lia.
    + intros k Hk. pose proof (okidx_reframe e di (fz j) (conj Hw (conj Hd Hr)) Hi k Hk) as H.
      unfold fz in *. unfold rankn in Hk. rewrite (nth_map _ di k 0%nat) by lia. exact H.
  - destruct Hw as (Hn & Hw). apply wf_Forall in Hw.
    pose proof (okidx_sub t (fz j) Hn Hw Hi) as Hs.
    rewrite in_order_seqM. unfold bind. rewrite (seqM_ext _ (map (fun a => element a j) t)); [reflexivity|].
    apply Forall2_map_map. intros a Ha. rewrite Forall_forall in H, Hw, Hs.
    pose proof (rankn_sub op t Hn (proj2 (Forall_forall _ _) Hw) a Ha). apply H; auto. lia.
  - destruct Hw as (Hn & Hw). apply wf_Forall in Hw.
    pose proof (okidx_sub t (fz j) Hn Hw Hi) as Hs.
    assert (Hall : Forall2 (fun a b => forall w, a w = b w) (map (fun a => at_ a j) t) (map (fun a => element a j) t)).
    { apply Forall2_map_map. intros a Ha. rewrite Forall_forall in H, Hw, Hs.
      pose proof (rankn_sub (fun _ => fail) t Hn (proj2 (Forall_forall _ _) Hw) a Ha). apply H; auto.
      unfold rankn in *. cbn [rank] in *. lia. }
    inversion Hall; subst; [reflexivity|]. unfold bind. rewrite H2. destruct (y w); auto.
    rewrite (pick_from_ext _ _ H3). apply pick_from_nth.
Qed.

Lemma element_at : forall e : expr, wf e -> forall j, inshape j (shape e) -> forall w, at_ e j w = element e j w.
Proof.
  intros. apply at_element; auto.
  - rewrite (inshape_length _ _ H0), shape_length. lia.
  - apply okidx_inshape; auto.
Qed.

(* an argument of lower rank only sees the leading part of the index *)
Lemma nth_firstn : forall {A} (l : list A) n k d, (k < n)%nat -> nth k (firstn n l) d = nth k l d.
Proof. induction l; destruct n; simpl; intros; auto; [lia|]. destruct k; auto. apply IHl. lia. Qed.

Lemma element_prefix : forall e : expr, wf e -> forall n j w, (rankn e <= n)%nat -> element e (firstn n j) w = element e j w.
Proof.
  induction e using expr_ind2; intros Hw n j w Hn; cbn [element].
  - reflexivity.
  - unfold rankn in Hn. cbn [rank] in Hn. rewrite firstn_firstn, Nat.min_l by lia. reflexivity.
  - destruct Hw as (Hw & Hd & Hr). f_equal. apply map_ext_in. intros d Hdi. apply nth_firstn.
    apply (In_nth _ _ 0%nat) in Hdi. destruct Hdi as (l & Hl & <-). pose proof (reframe_bound di l Hl).
    unfold rankn in Hn. cbn [rank] in Hn. lia.
  - destruct Hw as (Hne & Hw). apply wf_Forall in Hw. rewrite !in_order_seqM.
    rewrite (seqM_ext _ (map (fun a => element a j) t)); [reflexivity|]. apply Forall2_map_map. intros a Ha w'.
    rewrite Forall_forall in H, Hw. pose proof (rankn_sub op t Hne (proj2 (Forall_forall _ _) Hw) a Ha). apply H; auto. lia.
  - destruct Hw as (Hne & Hw). apply wf_Forall in Hw.
    assert (Hall : Forall2 (fun a b => forall w, a w = b w) (map (fun a => element a (firstn n j)) t) (map (fun a => element a j) t)).
    { apply Forall2_map_map. intros a Ha w'. rewrite Forall_forall in H, Hw.
      pose proof (rankn_sub (fun _ => fail) t Hne (proj2 (Forall_forall _ _) Hw) a Ha). apply H; auto. unfold rankn in *. cbn [rank] in *. lia. }
    inversion Hall; subst; [reflexivity|]. rewrite H2. destruct (y w); auto.
    rewrite <- !pick_from_nth. apply pick_from_ext; auto.
Qed.


Lemma shape_is_shape : forall (e : expr) s, wf e -> shape_is e s -> s = shape e /\ validate e = true.
Proof.
  intros e s Hw (Hl & H). rewrite axes_rank in * by auto.
  assert (E : s = shape e).
  { apply nth_ext with (d := 0) (d' := 0); [rewrite shape_length; auto|]. intros k Hk. rewrite Hl in Hk. rewrite shape_nth by auto.
    apply (Common_fun (leaf_lens e k)); [left; apply H; auto | apply lene_common; auto]. }
  split; auto. apply validate_spec. split; [apply rank_nonneg; auto|]. rewrite <- E.
  apply Forall_forall. intros n Hn. apply (In_nth _ _ 0) in Hn. destruct Hn as (k & Hk & <-). apply H. lia.
Qed.

Lemma shape_shape_is : forall e : expr, wf e -> validate e = true -> shape_is e (shape e).
Proof.
  intros e Hw Hv. split; [rewrite shape_length, axes_rank; auto|]. intros k Hk. rewrite axes_rank in Hk by auto.
  rewrite shape_nth by auto. pose proof (lene_common e Hw k Hk) as Hc.
  apply validate_spec in Hv. destruct Hv as (_ & Hv). rewrite Forall_forall in Hv.
  assert (0 <= lene e k). { rewrite <- shape_nth by auto. apply Hv. apply nth_In. rewrite shape_length. auto. }
  destruct Hc as [Hc|[(E & _)|(E & _)]]; auto; rewrite E in H; unfold UNB, MIS in H; lia.
Qed.

Lemma agreeing_shape : forall e : expr, wf e -> agreeing [e] -> exists s, shape_is e s.
Proof. intros e Hw H. exists (shape e). apply shape_shape_is; auto. apply validate_iff; auto. Qed.

End LAgree.
