(* Properties of containers: C39, C50, C66, C67. *)
From Coq Require Import ZArith List Lia Bool Arith.
From Verif Require Import Spec M_Base M_Expr L_Spec Spec_Expr M_View L_View Spec_View P_View M_Array.
Import ListNotations.
Open Scope Z_scope.

Section P.
Context {T : Type}.
Notation array := (arr T).

Definition ashape (a : array) : list Z := map len (adim a).
(* The store holds as many elements as there are indices, and the element at j is in row-major position. *)
Definition consistent (a : array) : Prop :=
  nonneg (ashape a) /\ Z.of_nat (length (astore a)) = zprod (ashape a) /\
  forall j, inshape j (ashape a) -> exists x, aget a j = Some x /\ nth_error (astore a) (Z.to_nat (rm (ashape a) j)) = Some x.

(* Arrays that can be had, with static rank (Some r) or dynamic rank (None): after any sequence of operations. *)
Inductive reach (r : option nat) : array -> Prop :=
| r_static : forall n, r = Some n -> reach r (default_static n)
| r_any : r = None -> reach r default_any
| r_make : forall s a, make r s = Some a -> reach r a
| r_set : forall a j t b, reach r a -> aset a j t = Done b -> reach r b
| r_push : forall a t b, reach r a -> push_back a t = Done b -> reach r b
| r_pop : forall a b, reach r a -> pop_back a = Done b -> reach r b
| r_resize1 : forall a n t b, reach r a -> resize1 a n t = Done b -> reach r b
| r_resize : forall a s b, reach r a -> resize_shape r a s = Done b -> reach r b.

(* inductive invariant: the length of the first axis doesn't matter for the place of an element *)
Definition good (a : array) : Prop :=
  nonneg (ashape a) /\ Z.of_nat (length (astore a)) = zprod (ashape a) /\
  match adim a with [] => True | d::dv => forall i j, inshape j (map len dv) -> place (adim a) (i::j) = i * zprod (map len dv) + rm (map len dv) j end.

Lemma good_place : forall a j, good a -> inshape j (ashape a) -> place (adim a) j = rm (ashape a) j.
Proof.
  intros [dv st] j (_ & _ & H) Hj. unfold ashape in *. cbn [adim] in *. destruct dv as [|d dv]; [inversion Hj; reflexivity|].
  cbn [map] in *. inversion Hj; subst. rewrite H by auto. reflexivity.
Qed.
Lemma good_indexer : forall a j, good a -> inshape j (ashape a) -> indexer (adim a) 0 j = Some (rm (ashape a) j).
Proof.
  intros a j G Hj. rewrite <- (good_place a j G Hj). clear G. unfold ashape, indexer in *. rewrite (inshape_length _ _ Hj), map_length, Nat.leb_refl.
  change (place (adim a) j) with (0 + place (adim a) j). generalize 0. revert j Hj. induction (adim a) as [|d dv IH]; intros j Hj c; cbn [map] in Hj; inversion Hj; subst; cbn [indexer_loop place].
  - f_equal. lia.
  - unfold inside. destruct (Z.leb_spec 0 x); [|lia]. destruct (Z.ltb_spec x (len d)); [|lia]. cbn [andb orb]. rewrite IH by auto. f_equal. lia.
Qed.
Lemma good_aget : forall a j, good a -> inshape j (ashape a) -> aget a j = nth_error (astore a) (Z.to_nat (rm (ashape a) j)).
Proof. intros a j G Hj. unfold aget. rewrite good_indexer by auto. reflexivity. Qed.
Lemma good_consistent : forall a, good a -> consistent a.
Proof.
  intros a G. pose proof G as (Hn & Hl & _). split; [auto|]. split; [auto|]. intros j Hj.
  rewrite (good_aget a j G Hj). pose proof (rm_range _ _ Hj). destruct (nth_error (astore a) (Z.to_nat (rm (ashape a) j))) as [x|] eqn:E; [eauto|].
  apply nth_error_None in E. lia.
Qed.

Lemma fill_spec : forall p old dv n, fill p old = (dv, Some n) -> nonneg p /\ n = zprod p /\ map len dv = p /\ forall j, inshape j p -> place dv j = rm p j.
Proof.
  induction p as [|k p IH]; intros old dv n E; cbn [fill] in E.
  - inversion E; subst. split; [constructor|]. split; [reflexivity|]. split; [reflexivity|]. intros j Hj. inversion Hj. reflexivity.
  - destruct (fill p (tl old)) as [dv' [s|]] eqn:Ef; [|discriminate]. destruct (Z.geb_spec k 0); [|discriminate]. inversion E; subst.
    apply IH in Ef as (Hn & -> & L & P). split; [constructor; auto|]. split; [cbn [zprod]; lia|]. split; [cbn; f_equal; auto|].
    intros j Hj. inversion Hj; subst. cbn [place rm step]. rewrite P by auto. reflexivity.
Qed.
Lemma fill_first : forall p old dv n, fill p old = (dv, Some n) ->
  match dv with [] => True | d::dv' => forall i j, inshape j (map len dv') -> place dv (i::j) = i * zprod (map len dv') + rm (map len dv') j end.
Proof.
  intros [|k p] old dv n E; cbn [fill] in E; [inversion E; auto|].
  destruct (fill p (tl old)) as [dv' [s|]] eqn:Ef; [|discriminate]. destruct (k >=? 0); [|discriminate]. inversion E; subst. apply fill_spec in Ef as (Hn & -> & L & P).
  intros i j Hj. rewrite L in *. cbn [place step]. rewrite P by auto. reflexivity.
Qed.
Lemma fill_total : forall p old, nonneg p -> exists dv, fill p old = (dv, Some (zprod p)).
Proof.
  induction p as [|n p IH]; intros old H; [exists []; reflexivity|]. inversion H; subst. destruct (IH (tl old) H3) as (dv & E). cbn [fill]. rewrite E. destruct (Z.geb_spec n 0); [|lia].
  eexists. cbn [zprod]. rewrite Z.mul_comm. reflexivity.
Qed.
Lemma zprod_nonneg : forall s, nonneg s -> 0 <= zprod s.
Proof. induction 1; cbn [zprod]; nia. Qed.
Lemma vresize_length : forall n t (l : list (option T)), 0 <= n -> Z.of_nat (length (vresize n t l)) = n.
Proof. intros. unfold vresize. rewrite app_length, firstn_length, repeat_length. lia. Qed.
Lemma dimv_size_nonneg : forall dv, nonneg (map len dv) -> dimv_size dv = zprod (map len dv).
Proof.
  intros dv. unfold dimv_size. enough (G : forall dv s, nonneg (map len dv) -> dimv_size_loop dv s = s * zprod (map len dv)) by (intros H; rewrite G by auto; lia).
  induction dv0 as [|d dv0 IH]; intros s H; cbn [map dimv_size_loop zprod] in *; [lia|]. inversion H; subst. destruct (Z.ltb_spec (len d) 0); [lia|]. rewrite IH by auto. ring.
Qed.

Lemma push_good : forall a t b, good a -> push_back a t = Done b -> good b.
Proof.
  intros [dv st] t b (Hn & Hl & Hp) E. unfold push_back in E; cbn [adim astore] in *. destruct dv as [|d [|d' dv]]; try discriminate. inversion E; subst. unfold good, ashape in *. cbn in *.
  inversion Hn; subst. split; [constructor; [lia|constructor]|]. split; [rewrite app_length; cbn; lia|]. intros i j Hj. specialize (Hp i j Hj). exact Hp.
Qed.
Lemma pop_good : forall a b, good a -> pop_back a = Done b -> good b.
Proof.
  intros [dv st] b (Hn & Hl & Hp) E. unfold pop_back in E; cbn [adim astore] in *. destruct dv as [|d [|d' dv]]; try discriminate. destruct (Z.ltb_spec 0 (len d)); [|discriminate]. inversion E; subst. unfold good, ashape in *. cbn in *.
  inversion Hn; subst. split; [constructor; [lia|constructor]|]. split; [|intros i j Hj; specialize (Hp i j Hj); exact Hp].
  destruct st as [|x st] using rev_ind; [cbn in Hl; lia|]. rewrite removelast_last. rewrite app_length in Hl. cbn in Hl. lia.
Qed.
Lemma resize1_good : forall a n t b, good a -> resize1 a n t = Done b -> good b.
Proof.
  intros [dv st] n t b (Hn & Hl & Hp) E. unfold resize1 in E; cbn [adim astore] in *. destruct dv as [|d dv]; [discriminate|]. 
  destruct (Z.ltb_spec (dimv_size (Dim n (step d) :: dv)) 0) as [|Hs]; [discriminate|]. inversion E; subst. unfold good, ashape in *. cbn [adim astore map len] in *. inversion Hn; subst.
  assert (0 <= n). { unfold dimv_size in Hs. cbn [dimv_size_loop len] in Hs. destruct (Z.ltb_spec n 0); lia. }
  assert (Hnn : nonneg (n :: map len dv)) by (constructor; auto).
  split; [auto|]. split; [|intros i j Hj; specialize (Hp i j Hj); exact Hp].
  rewrite vresize_length by auto. rewrite dimv_size_nonneg by auto. reflexivity.
Qed.
Lemma resize_good : forall r a s b, resize_shape r a s = Done b -> good b.
Proof.
  intros r a s b E. unfold resize_shape in E. destruct (match r with Some _ => _ | None => _ end); [|discriminate].
  destruct (fill s (map step (adim a))) as [dv [n|]] eqn:Ef; [|discriminate]. inversion E; subst.
  pose proof (fill_first _ _ _ _ Ef). apply fill_spec in Ef as (Hn & -> & L & P). unfold good, ashape. cbn [adim astore]. rewrite L. split; auto. split; auto.
  apply vresize_length, zprod_nonneg; auto.
Qed.
Lemma done_inj : forall a b : array, Done a = Done b -> a = b.
Proof. congruence. Qed.
Lemma aset_good : forall a j t b, good a -> aset a j t = Done b -> good b.
Proof.
  intros a j t b G E. pose proof G as (Hn & Hl & Hp). unfold aset in E. destruct (indexer (adim a) 0 j) as [p|] eqn:I; [|discriminate]. apply done_inj in E. subst b.
  unfold good, ashape in *. cbn [adim astore]. split; auto. split; auto. rewrite <- Hl. rewrite app_length, firstn_length. match goal with |- context [length (?x :: ?l)] => change (length (x :: l)) with (S (length l)) end. rewrite skipn_length.
  assert (X : exists i, inshape i (ashape a) /\ p = rm (ashape a) i).
  { assert (Ig : indexer (adim a) 0 (firstn (length (adim a)) j) = Some p /\ inshape (firstn (length (adim a)) j) (ashape a)).
    { unfold indexer in *. destruct (Nat.leb_spec (length (adim a)) (length j)) as [Hle|]; [|discriminate]. rewrite firstn_length, Nat.min_l, Nat.leb_refl by lia.
      unfold ashape. clear -I Hn Hle. unfold nonneg, ashape in Hn. revert I Hn Hle. generalize 0 at 1 3. generalize (adim a) as dv. revert j. induction j as [|x j IH]; intros dv c I Hn Hle.
      - destruct dv; [|cbn in Hle; lia]. cbn in *. split; [auto|constructor].
      - destruct dv as [|d dv]; cbn [indexer_loop firstn length map] in *; [split; [auto|constructor]|]. inversion Hn; subst. destruct (inside x (len d) || (UNB =? len d)) eqn:Ei; [|discriminate].
        assert (0 <= x < len d). { unfold inside in Ei. destruct (Z.eqb_spec UNB (len d)); [unfold UNB in *; lia|]. rewrite orb_false_r in Ei. lia. }
        destruct (IH dv _ I H2 ltac:(lia)). split; auto. constructor; auto. }
    destruct Ig as (Ig & Hi). exists (firstn (length (adim a)) j). split; auto. rewrite (good_indexer a _ G Hi) in Ig. congruence. }
  destruct X as (i & Hi & ->). pose proof (rm_range _ _ Hi). unfold ashape in *. lia.
Qed.
Lemma reach_good : forall r a, reach r a -> good a.
Proof.
  induction 1.
  - unfold default_static, good, ashape. cbn [adim astore]. destruct n as [|n]; cbn [Nat.eqb repeat map length].
    + split; [constructor|]. split; [reflexivity|auto].
    + split; [constructor; cbn; [lia|]; clear; induction n; constructor; cbn; auto; lia|]. split; [reflexivity|]. cbn [len].
      intros i j Hj. destruct n as [|n]; cbn [repeat map len] in *; inversion Hj; subst; [cbn; lia|lia].
  - unfold default_any, good, ashape. cbn. split; [constructor; [lia|constructor]|]. split; [reflexivity|]. intros i j Hj. inversion Hj. cbn. lia.
  - unfold make in H. destruct (match r with Some _ => _ | None => _ end); [|discriminate]. destruct (fill s []) as [dv [n|]] eqn:Ef; [|discriminate]. inversion H; subst.
    pose proof (fill_first _ _ _ _ Ef). apply fill_spec in Ef as (Hn & -> & L & P). unfold good, ashape. cbn [adim astore]. rewrite L. split; auto. split; auto.
    rewrite repeat_length. apply Z2Nat.id, zprod_nonneg; auto.
  - eapply aset_good; eauto.
  - eapply push_good; eauto.
  - eapply pop_good; eauto.
  - eapply resize1_good; eauto.
  - eapply resize_good; eauto.
Qed.
Lemma reach_rank : forall r a, reach r a -> match r with Some n => length (adim a) = n | None => True end.
Proof.
  induction 1; destruct r as [n0|]; auto.
  - inversion H; subst. cbn. apply repeat_length.
  - discriminate.
  - unfold make in H. destruct (Nat.eqb_spec (length s) n0); [|discriminate]. destruct (fill s []) as [dv [n|]] eqn:Ef; [|discriminate]. inversion H; subst.
    apply fill_spec in Ef as (_ & _ & L & _). cbn [adim]. apply (f_equal (@length Z)) in L. rewrite map_length in L. congruence.
  - unfold aset in H0. destruct (indexer _ _ _); [|discriminate]. inversion H0; subst. auto.
  - unfold push_back in H0. destruct (adim a) as [|d [|]] eqn:E; try discriminate. inversion H0; subst. auto.
  - unfold pop_back in H0. destruct (adim a) as [|d [|]] eqn:E; try discriminate. destruct (0 <? len d); [|discriminate]. inversion H0; subst. auto.
  - unfold resize1 in H0. destruct (adim a) as [|d dv] eqn:E; try discriminate. destruct (_ <? 0); [discriminate|]. inversion H0; subst. auto.
  - unfold resize_shape in H0. destruct (Nat.eqb_spec (length s) n0); [|discriminate]. destruct (fill s _) as [dv [n|]] eqn:Ef; [|discriminate]. inversion H0; subst.
    apply fill_spec in Ef as (_ & _ & L & _). cbn [adim]. apply (f_equal (@length Z)) in L. rewrite map_length in L. congruence.
Qed.

(* ---- C39 ---- *)

Theorem C39_consistent : forall r a, reach r a -> consistent a.
Proof. intros r a H. eapply good_consistent, reach_good, H. Qed.
Theorem C39_make : forall r s, match r with Some n => length s = n | None => True end ->
  (nonneg s -> exists a : array, make r s = Some a /\ ashape a = s) /\ (~ nonneg s -> make r s = None :> option array).
Proof.
  intros r s Hr. unfold make. assert (E : (match r with Some n => Nat.eqb (length s) n | None => true end) = true) by (destruct r; auto; apply Nat.eqb_eq; auto). rewrite E. split; intros H.
  - destruct (fill_total s [] H) as (dv & Ef). rewrite Ef. eexists. split; [reflexivity|]. apply fill_spec in Ef as (_ & _ & L & _). exact L.
  - destruct (fill s []) as [dv [n|]] eqn:Ef; auto. apply fill_spec in Ef as (Hn & _). contradiction.
Qed.

Theorem C39_push_back : forall r a n t, reach r a -> ashape a = [n] ->
  exists b, push_back a t = Done b /\ ashape b = [n + 1] /\ aget b [n] = Some (Some t) /\ forall i, 0 <= i < n -> aget b [i] = aget a [i].
Proof.
  intros r a n t H S. apply reach_good in H. pose proof (push_good a t) as G. unfold push_back in *. pose proof H as (Hn & Hl & _).
  rewrite S in Hn, Hl. cbn [zprod] in Hl. inversion Hn; subst.
  destruct a as [dv st]. unfold ashape in S. cbn [adim astore] in *. destruct dv as [|d [|]]; try discriminate. inversion S as [Sd]. rewrite Sd in *.
  eexists. split; [reflexivity|]. specialize (G _ H eq_refl). assert (S' : ashape {| adim := [Dim (n + 1) (step d)]; astore := st ++ [Some t] |} = [n + 1]) by reflexivity.
  split; [exact S'|]. split.
  - rewrite good_aget; auto. { rewrite S'. cbn [astore rm zprod]. rewrite nth_error_app2 by lia. replace (Z.to_nat (n * 1 + 0) - length st)%nat with 0%nat by lia. reflexivity. }
    rewrite S'. constructor; [lia|constructor].
  - intros i Hi. rewrite !good_aget; auto.
    + rewrite S'. unfold ashape; cbn [adim map]. rewrite Sd. cbn [astore rm zprod]. rewrite nth_error_app1 by lia. reflexivity.
    + unfold ashape; cbn [adim map]. rewrite Sd. constructor; [lia|constructor].
    + rewrite S'. constructor; [lia|constructor].
Qed.
Theorem C39_pop_back : forall r a n, reach r a -> ashape a = [n] ->
  (n = 0 -> pop_back a = Refuse a) /\
  (n <> 0 -> exists b, pop_back a = Done b /\ ashape b = [n - 1] /\ forall i, 0 <= i < n - 1 -> aget b [i] = aget a [i]).
Proof.
  intros r a n H S. apply reach_good in H. pose proof (pop_good a) as G. unfold pop_back in *. pose proof H as (Hn & Hl & _).
  rewrite S in Hn, Hl. cbn [zprod] in Hl. inversion Hn; subst.
  destruct a as [dv st]. unfold ashape in S. cbn [adim astore] in *. destruct dv as [|d [|]]; try discriminate. inversion S as [Sd]. rewrite Sd in *.
  destruct (Z.ltb_spec 0 n) as [Hp|]; split; intros; try lia; [|reflexivity].
  eexists. split; [reflexivity|]. specialize (G _ H eq_refl). assert (S' : ashape {| adim := [Dim (n - 1) (step d)]; astore := removelast st |} = [n - 1]) by reflexivity.
  split; [exact S'|]. intros i Hi. rewrite !good_aget; auto.
  + rewrite S'. unfold ashape; cbn [adim map]. rewrite Sd. cbn [astore rm zprod]. destruct st as [|x st] using rev_ind; [cbn in Hl; lia|]. rewrite removelast_last. rewrite app_length in Hl. cbn [length] in Hl. rewrite nth_error_app1 by lia. reflexivity.
  + unfold ashape; cbn [adim map]. rewrite Sd. constructor; [lia|constructor].
  + rewrite S'. constructor; [lia|constructor].
Qed.

Lemma vresize_nth : forall n t (l : list (option T)) k, (k < Z.to_nat n)%nat -> nth_error (vresize n t l) k = if (k <? length l)%nat then nth_error l k else Some t.
Proof.
  intros n t l k H. unfold vresize. destruct (Nat.ltb_spec k (length l)).
  - rewrite nth_error_app1 by (rewrite firstn_length; lia). revert k n H H0. induction l as [|x l IH]; intros k n H H0; cbn [length] in H0; [lia|].
    destruct (Z.to_nat n) as [|m] eqn:E; [lia|]. destruct k; [reflexivity|]. cbn [firstn nth_error]. rewrite <- (Nat2Z.id m). apply IH; lia.
  - rewrite nth_error_app2 by (rewrite firstn_length; lia). rewrite firstn_length. rewrite nth_error_repeat by lia. reflexivity.
Qed.

(* resize of the first axis; t is the value of new elements, None if it isn't given *)
Theorem C39_resize : forall r a n s k t, reach r a -> ashape a = n :: s -> 0 <= k ->
  exists b, resize1 a k t = Done b /\ ashape b = k :: s /\
    forall i j, 0 <= i < k -> inshape j s -> aget b (i :: j) = if i <? n then aget a (i :: j) else Some t.
Proof.
  intros r a n s k t H S Hk. apply reach_good in H. pose proof (resize1_good a k t) as G. pose proof H as (Hn & Hl & _). rewrite S in Hn, Hl. cbn [zprod] in Hl. inversion Hn as [|? ? Hn1 Hn2]; subst.
  unfold resize1 in *. cbv zeta in *. destruct (adim a) as [|d dv] eqn:Ed; [unfold ashape in S; rewrite Ed in S; discriminate|].
  unfold ashape in S. rewrite Ed in S. cbn [map] in S. assert (Sd : len d = n) by congruence. assert (Ss : map len dv = s) by congruence. clear S.
  assert (Nn : nonneg (map len (Dim k (step d) :: dv))) by (cbn [map len]; constructor; [auto|rewrite Ss; auto]).
  rewrite (dimv_size_nonneg _ Nn) in G |- *. pose proof (zprod_nonneg _ Nn). destruct (Z.ltb_spec (zprod (map len (Dim k (step d) :: dv))) 0); [lia|].
  eexists. split; [reflexivity|]. specialize (G _ H eq_refl).
  match goal with |- ashape ?b = _ /\ _ => assert (S' : ashape b = k :: s) by (unfold ashape; cbn [adim map len]; f_equal; auto) end.
  split; [exact S'|]. intros i j Hi Hj. rewrite good_aget; auto; [|rewrite S'; constructor; auto; lia]. rewrite S'. cbn [astore rm].
  pose proof (rm_range _ _ Hj) as Hr. cbn [map len zprod] in *. rewrite Ss in *. rewrite vresize_nth by nia.
  destruct (Z.ltb_spec i n).
  - rewrite good_aget; auto; [|unfold ashape; rewrite Ed; cbn [map]; rewrite Sd, Ss; constructor; auto; lia]. unfold ashape at 1. rewrite Ed; cbn [map rm]. rewrite Ss. 
    destruct (Nat.ltb_spec (Z.to_nat (i * zprod s + rm s j)) (length (astore a))); [reflexivity|nia].
  - destruct (Nat.ltb_spec (Z.to_nat (i * zprod s + rm s j)) (length (astore a))); [nia|reflexivity].
Qed.

(* resize to a shape: elements stay in row-major order *)
Theorem C39_resize_shape : forall r a s, reach r a -> match r with Some n => length s = n | None => True end -> nonneg s ->
  exists b, resize_shape r a s = Done b /\ ashape b = s /\
    (forall i j, inshape i (ashape a) -> inshape j s -> rm (ashape a) i = rm s j -> aget b j = aget a i) /\
    (forall j, inshape j s -> zprod (ashape a) <= rm s j -> aget b j = Some None).
Proof.
  intros r a s H Hr Hn. apply reach_good in H. pose proof (resize_good r a s) as G. unfold resize_shape in *.
  assert (E : (match r with Some n => Nat.eqb (length s) n | None => true end) = true) by (destruct r; auto; apply Nat.eqb_eq; auto). rewrite E in *.
  destruct (fill_total s (map step (adim a)) Hn) as (dv & Ef). rewrite Ef in *. eexists. split; [reflexivity|]. specialize (G _ eq_refl).
  pose proof Ef as Ef'. apply fill_spec in Ef' as (_ & _ & L & _). 
  match goal with |- ashape ?b = _ /\ _ => assert (S' : ashape b = s) by (unfold ashape; cbn [adim]; auto) end.
  split; [exact S'|]. pose proof H as (_ & Hl & _). pose proof (zprod_nonneg _ Hn). split.
  - intros i j Hi Hj Eq. rewrite !good_aget; auto; [|rewrite S'; auto]. rewrite S', Eq. cbn [astore]. pose proof (rm_range _ _ Hj). pose proof (rm_range _ _ Hi). rewrite vresize_nth by lia.
    destruct (Nat.ltb_spec (Z.to_nat (rm s j)) (length (astore a))); [reflexivity|lia].
  - intros j Hj Hle. rewrite good_aget; auto; [|rewrite S'; auto]. rewrite S'. cbn [astore]. pose proof (rm_range _ _ Hj). rewrite vresize_nth by lia.
    destruct (Nat.ltb_spec (Z.to_nat (rm s j)) (length (astore a))); [lia|reflexivity].
Qed.

(* ---- C66: an operation that is refused leaves the array as it was ---- *)
Theorem C66_refused_partial : forall a : array,
  (forall t b, push_back a t = Refuse b -> b = a) /\ (forall b, pop_back a = Refuse b -> b = a) /\ (forall j t b, aset a j t = Refuse b -> b = a) /\
  (forall r s b, length s <> r -> resize_shape (Some r) a s = Refuse b -> b = a) /\ (forall n t b, adim a = [] -> resize1 a n t = Refuse b -> b = a).
Proof.
  intros a. split; [|split; [|split; [|split]]].
  - intros t b. unfold push_back. destruct (adim a) as [|d [|]]; intros E; inversion E; auto.
  - intros b. unfold pop_back. destruct (adim a) as [|d [|]]; [| destruct (0 <? len d)|]; intros E; inversion E; auto.
  - intros j t b. unfold aset. destruct (indexer _ _ _); intros E; inversion E; auto.
  - intros r s b H. unfold resize_shape. destruct (Nat.eqb_spec (length s) r); [contradiction|]. intros E; inversion E; auto.
  - intros n t b H. unfold resize1. rewrite H. intros E; inversion E; auto.
Qed.
(* a negative length is refused, but it stays in the array *)
Theorem C66_resize : forall (a : array) n t, n < 0 -> adim a <> [] -> exists b, resize1 a n t = Refuse b /\ hd 0 (ashape b) = n /\ astore b = astore a.
Proof.
  intros a n t H Ha. unfold resize1. destruct (adim a) as [|d dv]; [congruence|]. unfold dimv_size. cbn [dimv_size_loop len]. destruct (Z.ltb_spec n 0); [|lia].
  destruct (Z.ltb_spec n 0); [|lia]. eexists. split; [reflexivity|]. split; reflexivity.
Qed.
Lemma fill_lens : forall p old, map len (fst (fill p old)) = p.
Proof. induction p as [|n p IH]; intros old; cbn [fill]; [reflexivity|]. specialize (IH (tl old)). destruct (fill p (tl old)) as [dv [s|]]; cbn in *; f_equal; auto. Qed.
Theorem C66_resize_shape : forall r (a : array) s, match r with Some n => length s = n | None => True end -> ~ nonneg s -> exists b, resize_shape r a s = Refuse b /\ ashape b = s /\ astore b = astore a.
Proof.
  intros r a s Hr H. unfold resize_shape. assert (E : (match r with Some n => Nat.eqb (length s) n | None => true end) = true) by (destruct r; auto; apply Nat.eqb_eq; auto). rewrite E.
  destruct (fill s (map step (adim a))) as [dv [n|]] eqn:Ef; [apply fill_spec in Ef as (Hn & _); contradiction|]. eexists. split; [reflexivity|]. split; [|reflexivity].
  unfold ashape. cbn [adim]. pose proof (fill_lens s (map step (adim a))) as L. rewrite Ef in L. exact L.
Qed.

(* ---- C50 ---- *)
Theorem C50_same : forall a b : array, swap_same a b = (b, a).
Proof. reflexivity. Qed.
(* same shapes and elements, on whichever representation *)
Definition same_array (a b : array) : Prop := ashape a = ashape b /\ forall j, aget a j = aget b j.
Theorem C50_swap : forall n a b, reach None a -> reach (Some n) b ->
  (length (ashape a) = length (ashape b) -> exists a' b', swap_any_static a b = Some (a', b') /\ same_array a' b /\ same_array b' a /\ consistent a' /\ consistent b') /\
  (length (ashape a) <> length (ashape b) -> swap_any_static a b = None).
Proof.
  intros n a b Ha Hb. apply reach_good in Ha, Hb. unfold swap_any_static, ashape. rewrite !map_length. split; intros H.
  - rewrite H, Nat.eqb_refl. destruct a as [da sa], b as [db sb]. cbn [adim astore] in *. 
    assert (E : (match da with [d] => if step d =? 1 then Some [Dim (len d) 1] else None | _ => Some da end) = Some da).
    { destruct da as [|d [|]]; auto. destruct Ha as (_ & _ & Hp). cbn [adim] in Hp. specialize (Hp 1 [] (Forall2_nil _)). cbn [place map zprod rm] in Hp.
      destruct (Z.eqb_spec (step d) 1); [|lia]. destruct d; cbn in *; subst. reflexivity. }
    rewrite E. eexists _, _. split; [reflexivity|]. split; [split; reflexivity|]. split; [split; reflexivity|]. split; apply good_consistent; auto.
  - destruct (Nat.eqb_spec (length (adim a)) (length (adim b))); [contradiction|reflexivity].
Qed.

(* ---- C67: an array that has been moved from has as many elements as its shape says ---- *)
Theorem C67_target : forall a : array, fst (move_static a) = a /\ fst (move_any a) = a.
Proof. auto. Qed.
(* With static rank this is so only if it was empty, and with dynamic rank never. *)
Theorem C67_static_partial : forall n a, reach (Some n) a -> (consistent (snd (move_static a)) <-> zprod (ashape a) = 0).
Proof.
  intros n a H. apply reach_good in H as (Hn & Hl & _). unfold move_static. cbn [snd]. split.
  - intros (_ & L & _). unfold ashape in *. cbn in L. lia.
  - intros Z0. split; [exact Hn|]. split; [unfold ashape in *; cbn; lia|]. intros j Hj. pose proof (rm_range _ _ Hj). unfold ashape in *. cbn [adim] in *. lia.
Qed.
Theorem C67_any_refuted : forall a, reach None a -> ~ consistent (snd (move_any a)) /\ aget (snd (move_any a)) [] = None /\ ashape (snd (move_any a)) = [].
Proof. intros a _. split; [|split; reflexivity]. intros (_ & L & _). cbn in L. discriminate. Qed.
(* It can be resized and used again. *)
Theorem C67_resize : forall r (a : array) s, match r with Some n => length s = n | None => True end -> nonneg s ->
  exists b, resize_shape r (snd (match r with Some _ => move_static a | None => move_any a end)) s = Done b /\ ashape b = s /\ consistent b.
Proof.
  intros r a s Hr Hn. set (a' := snd _). pose proof (resize_good r a' s) as G. unfold resize_shape in *. assert (E : (match r with Some n => Nat.eqb (length s) n | None => true end) = true) by (destruct r; auto; apply Nat.eqb_eq; auto). rewrite E in *.
  destruct (fill_total s (map step (adim a')) Hn) as (dv & Ef). rewrite Ef in *. eexists. split; [reflexivity|]. split; [|apply good_consistent, G; reflexivity].
  apply fill_spec in Ef as (_ & _ & L & _). exact L.
Qed.
End P.

(* ---- examples ---- *)
Example C39_ex : exists a b c d : arr Z, make (Some 2%nat) [2; 3] = Some a /\ aset a [1; 0] 7 = Done b /\ resize1 b 3 (Some 9) = Done c /\ ashape c = [3; 3] /\ aget c [1; 0] = Some (Some 7) /\
  aget c [2; 2] = Some (Some 9) /\ aget c [0; 1] = Some None /\ resize_shape (Some 2%nat) c [1; 4] = Done d /\ aget d [0; 3] = Some (Some 7) /\ reach (Some 2%nat) d.
Proof.
  pose (a := Arr [Dim 2 3; Dim 3 1] (repeat (@None Z) 6)). pose (b := Arr [Dim 2 3; Dim 3 1] [None; None; None; Some 7; None; None]).
  pose (c := Arr [Dim 3 3; Dim 3 1] [None; None; None; Some 7; None; None; Some 9; Some 9; Some 9]). pose (d := Arr [Dim 1 4; Dim 4 1] [None; None; None; Some 7]).
  exists a, b, c, d. repeat (split; [reflexivity|]).
  apply (r_resize _ c [1; 4]); [|reflexivity]. apply (r_resize1 _ b 3 (Some 9)); [|reflexivity]. apply (r_set _ a [1; 0] 7); [|reflexivity]. apply (r_make _ [2; 3]). reflexivity.
Qed.
Example C39_ex2 : exists a b c : arr Z, push_back (default_static 1) 5 = Done a /\ push_back a 6 = Done b /\ pop_back b = Done c /\ ashape b = [2] /\ aget b [1] = Some (Some 6) /\ c = a /\
  pop_back (default_static 1 : arr Z) = Refuse (default_static 1) /\ push_back (Arr [Dim 0 1; Dim 0 1] []) 5 = Refuse (Arr [Dim 0 1; Dim 0 1] []).
Proof. eexists _, _, _. repeat (split; [reflexivity|]). reflexivity. Qed.
Theorem C66_resize_refuted : exists a b : arr Z, reach None a /\ resize1 a (-1) None = Refuse b /\ b <> a /\ ~ consistent b.
Proof.
  exists default_any. eexists. split; [apply r_any; reflexivity|]. split; [reflexivity|]. split; [discriminate|]. intros (H & _). inversion H. cbn in *. lia.
Qed.
Example C50_ex : exists a b a' b' : arr Z, make None [2; 3] = Some a /\ make (Some 2%nat) [4; 1] = Some b /\ swap_any_static a b = Some (a', b') /\ ashape a' = [4; 1] /\ ashape b' = [2; 3].
Proof. eexists _, _, _, _. repeat (split; [reflexivity|]). reflexivity. Qed.
Theorem C67_static_refuted : exists a : arr Z, reach (Some 1%nat) a /\ ashape (snd (move_static a)) = [1] /\ aget (snd (move_static a)) [0] = None.
Proof.
  exists (Arr [Dim 1 1] [Some 5]). split; [|split; reflexivity]. eapply r_push with (a := default_static 1) (t := 5); [apply r_static; reflexivity|reflexivity].
Qed.
Print Assumptions C39_consistent.
Print Assumptions C39_make.
Print Assumptions C39_push_back.
Print Assumptions C39_pop_back.
Print Assumptions C39_resize.
Print Assumptions C39_resize_shape.
Print Assumptions C66_refused_partial.
Print Assumptions C66_resize_refuted.
Print Assumptions C66_resize_shape.
Print Assumptions C50_swap.
Print Assumptions C67_static_partial.
Print Assumptions C67_static_refuted.
Print Assumptions C67_any_refuted.
Print Assumptions C67_resize.
