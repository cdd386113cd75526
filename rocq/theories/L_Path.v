(* Facts about the positions in a traversal (M_Path.v). *)
From Coq Require Import ZArith List Lia Bool.
From Coq Require Import ZifyBool ZifyNat.
From Verif Require Import Spec L_Spec Spec_Ply M_Base M_Expr L_Expr M_Ply L_Ply L_Stl Spec_Expr L_Agree L_Frame M_Path Spec_Path.
Import ListNotations.
Open Scope Z_scope.

Lemma touched_length : forall s i, touched s i -> length i = length s.
Proof. induction 1; cbn; auto. rewrite map_length; auto. Qed.

Lemma touched_inshape : forall s i, inshape i s -> touched s i.
Proof. intros s i H. induction H; constructor; auto. Qed.

Lemma touched_zero : forall s, Forall (fun n => 0 <= n) s -> touched s (map (fun _ => 0) s).
Proof.
  induction 1; cbn [map]; [constructor|]. destruct (Z.eq_dec x 0) as [->|]; [apply touched_end|]. apply touched_in; auto; lia.
Qed.

Lemma touched_app : forall s1 i1 s2 i2, inshape i1 s1 -> touched s2 i2 -> touched (s1 ++ s2) (i1 ++ i2).
Proof. intros s1 i1 s2 i2 H T. induction H; cbn [app]; auto. apply touched_in; auto. Qed.

Lemma touched_nonneg : forall s i, Forall (fun n => 0 <= n) s -> touched s i -> Forall (fun x => 0 <= x) i.
Proof.
  intros s i H T. induction T; inversion H; subst; constructor; auto; try lia. clear. induction s; cbn; constructor; auto; lia.
Qed.

Lemma fz_zeros : forall i (s : list Z) k, fz (i ++ map (fun _ => 0) s) k = fz i k.
Proof.
  intros. replace (map (fun _ => 0) s) with (repeat 0 (length s)) by (induction s; cbn; congruence).
  unfold fz. apply nth_app_zeros.
Qed.

Lemma fz_upd_last : forall i m d k, length i = m -> upd (fz i) m d k = fz (i ++ [d]) k.
Proof.
  intros i m d k <-. unfold upd, fz. destruct (Nat.eqb_spec k (length i)).
  - subst. rewrite nth_overflow by lia. rewrite app_nth2, Nat.sub_diag by lia. cbn. lia.
  - destruct (Nat.lt_ge_cases k (length i)); [rewrite app_nth1; auto|].
    rewrite nth_overflow by lia. rewrite nth_overflow; [reflexivity|]. rewrite app_length; cbn; lia.
Qed.

Lemma fz_upd_inc : forall i m x d k, length i = m -> upd (fz (i ++ [x])) m d k = fz (i ++ [x + d]) k.
Proof.
  intros i m x d k <-. unfold upd, fz. destruct (Nat.eqb_spec k (length i)).
  - subst. rewrite !app_nth2, Nat.sub_diag by lia. cbn. lia.
  - destruct (Nat.lt_ge_cases k (length i)); [rewrite !app_nth1; auto|].
    rewrite !nth_overflow; auto; rewrite app_length; cbn; lia.
Qed.

Lemma In_skipn : forall m (l : list Z) x, In x (skipn m l) -> In x l.
Proof. intros m l x H. rewrite <- (firstn_skipn m l). apply in_or_app. auto. Qed.

Section LPath.
Context {X W : Type}.
Notation expr := (expr X W).

Definition tstate (e b : expr) : Prop := exists i, touched (shape e) i /\ b = goto e (fz i).
Definition istate (e b : expr) : Prop := exists i, inshape i (shape e) /\ b = goto e (fz i).

Lemma istate_tstate : forall e b, istate e b -> tstate e b.
Proof. intros e b (i & H & ->). exists i. split; auto. apply touched_inshape; auto. Qed.

Lemma inner_path_spec : forall (e : expr) q, wf e -> forall n f,
  snd (inner_path n (stepe e q) (goto e f)) = goto e (upd f q (Z.of_nat n)) /\
  forall b, In b (fst (inner_path n (stepe e q) (goto e f))) -> exists t, 1 <= t <= Z.of_nat n /\ b = goto e (upd f q t).
Proof.
  intros e q Hw. induction n; intros f.
  - cbn. split; [|tauto]. apply goto_ext; auto. intros. unfold upd. destruct (Nat.eqb k q); lia.
  - cbn [inner_path]. rewrite goto_mov by auto. destruct (IHn (upd f q 1)) as (S & I).
    destruct (inner_path n (stepe e q) (goto e (upd f q 1))) as [l b0]. cbn [fst snd] in *. split.
    + rewrite S. apply goto_ext; auto. intros. rewrite upd_upd. f_equal. lia.
    + intros b [<-|H]; [exists 1; split; [lia|reflexivity]|]. destruct (I b H) as (t & Ht & ->). exists (1 + t). split; [lia|].
      apply goto_ext; auto. intros. rewrite upd_upd. reflexivity.
Qed.

(* the indices are in range up to some axis *)
Lemma tprefix : forall e : expr, wf e -> Forall (fun n => 0 <= n) (shape e) -> forall i m x, (m < rankn e)%nat ->
  inshape i (firstn m (shape e)) -> 0 <= x <= nth m (shape e) 0 -> tstate e (goto e (fz (i ++ [x]))).
Proof.
  intros e Hw Hs i m x Hm Hi Hx. pose proof (shape_length e) as Hl.
  exists ((i ++ [x]) ++ map (fun _ => 0) (skipn (S m) (shape e))). split.
  - rewrite <- (firstn_skipn m (shape e)) at 1. rewrite <- app_assoc. apply touched_app; auto.
    rewrite (skipn_cons (shape e) m 0) by lia. cbn [app].
    assert (Hz : Forall (fun n => 0 <= n) (skipn (S m) (shape e))) by (rewrite <- (firstn_skipn (S m) (shape e)) in Hs; apply Forall_app in Hs; tauto).
    destruct (Z.eq_dec x (nth m (shape e) 0)) as [->|]; [apply touched_end|]. apply touched_in; [lia|]. apply touched_zero; auto.
  - apply goto_ext; auto. intros. rewrite fz_zeros. reflexivity.
Qed.

Lemma inshape_firstn_len : forall (e : expr) i m, (m <= rankn e)%nat -> inshape i (firstn m (shape e)) -> length i = m.
Proof. intros e i m Hm Hi. rewrite (inshape_length _ _ Hi), firstn_length, shape_length. lia. Qed.

Lemma loop_path_spec : forall (e : expr) ax sub, wf e -> (ax < rankn e)%nat -> Forall (fun n => 0 <= n) (shape e) ->
  (forall i, inshape i (firstn (S ax) (shape e)) -> snd (sub (goto e (fz i))) = goto e (fz i) /\ forall b, In b (fst (sub (goto e (fz i)))) -> tstate e b) ->
  forall i, inshape i (firstn ax (shape e)) -> forall n x, 0 <= x -> x + Z.of_nat n = nth ax (shape e) 0 ->
  snd (loop_path n ax sub (goto e (fz (i ++ [x])))) = goto e (fz (i ++ [nth ax (shape e) 0])) /\
  forall b, In b (fst (loop_path n ax sub (goto e (fz (i ++ [x]))))) -> tstate e b.
Proof.
  intros e ax sub Hw Hax Hs Hsub i Hi. pose proof (inshape_firstn_len e i ax ltac:(lia) Hi) as Hil. induction n; intros x Hx Hn.
  - cbn. replace x with (nth ax (shape e) 0) by lia. tauto.
  - cbn [loop_path].
    assert (Hin : inshape (i ++ [x]) (firstn (S ax) (shape e))).
    { rewrite (firstn_S (shape e) ax 0) by (rewrite shape_length; lia). apply inshape_app; auto. constructor; [lia|constructor]. }
    destruct (Hsub _ Hin) as (S1 & I1). destruct (sub (goto e (fz (i ++ [x])))) as [l1 a1]. cbn [fst snd] in *. subst a1.
    rewrite goto_adv by auto.
    assert (E : goto e (upd (fz (i ++ [x])) ax 1) = goto e (fz (i ++ [x+1]))) by (apply goto_ext; auto; intros; apply fz_upd_inc; auto).
    rewrite E. destruct (IHn (x+1) ltac:(lia) ltac:(lia)) as (S2 & I2).
    destruct (loop_path n ax sub (goto e (fz (i ++ [x+1])))) as [l2 b2]. cbn [fst snd] in *. split; [exact S2|].
    intros b Hb. apply in_app_or in Hb as [Hb|[<-|Hb]]; auto. apply (tprefix e Hw Hs i ax); auto. lia.
Qed.

Lemma subply_path_spec : forall (e : expr) r, wf e -> rankn e = S r -> Forall (fun n => 0 <= n) (shape e) -> forall k, (k <= r)%nat ->
  forall i, inshape i (firstn (r-k) (shape e)) ->
  snd (subply_path (S r) k (lene e r) (stepe e r) (goto e (fz i))) = goto e (fz i) /\
  forall b, In b (fst (subply_path (S r) k (lene e r) (stepe e r) (goto e (fz i)))) -> tstate e b.
Proof.
  intros e r Hw Hr Hs. pose proof (shape_length e) as Hl. rewrite Hr in Hl.
  assert (Hnn : forall k, (k <= r)%nat -> 0 <= lene e k).
  { intros. rewrite <- shape_nth by lia. rewrite Forall_forall in Hs. apply Hs. apply nth_In. lia. }
  assert (Z0 : forall i m, inshape i (firstn m (shape e)) -> (m < rankn e)%nat -> tstate e (goto e (fz i))).
  { intros i m Hi Hm. replace (goto e (fz i)) with (goto e (fz (i ++ [0]))).
    - apply (tprefix e Hw Hs i m); auto. rewrite shape_nth by lia. specialize (Hnn m ltac:(lia)). lia.
    - apply goto_ext; auto. intros. unfold fz. change [0] with (repeat 0 1). rewrite nth_app_zeros. reflexivity. }
  induction k; intros Hk i Hi.
  - rewrite Nat.sub_0_r in Hi. pose proof (inshape_firstn_len e i r ltac:(lia) Hi) as Hil. cbn [subply_path].
    destruct (inner_path_spec e r Hw (Z.to_nat (lene e r)) (fz i)) as (S & I).
    destruct (inner_path _ _ _) as [l b0]. cbn [fst snd] in *. subst b0. rewrite goto_load. split; [reflexivity|].
    intros b Hb. apply in_app_or in Hb as [Hb|[<-|[]]].
    + destruct (I b Hb) as (t & Ht & ->). replace (goto e (upd (fz i) r t)) with (goto e (fz (i ++ [t]))).
      * apply (tprefix e Hw Hs i r); auto; try lia. rewrite shape_nth by lia. specialize (Hnn r ltac:(lia)). lia.
      * apply goto_ext; auto. intros. symmetry. apply fz_upd_last; auto.
    + apply (Z0 i r); auto; lia.
  - cbn [subply_path]. rewrite goto_len. replace (S r - 1 - S k)%nat with (r - S k)%nat by lia. set (ax := (r - S k)%nat) in *.
    assert (Hsub : forall i, inshape i (firstn (S ax) (shape e)) ->
      snd (subply_path (S r) k (lene e r) (stepe e r) (goto e (fz i))) = goto e (fz i) /\ forall b, In b (fst (subply_path (S r) k (lene e r) (stepe e r) (goto e (fz i)))) -> tstate e b).
    { replace (S ax) with (r - k)%nat by lia. apply IHk. lia. }
    pose proof (inshape_firstn_len e i ax ltac:(lia) Hi) as Hil.
    assert (E0 : goto e (fz i) = goto e (fz (i ++ [0]))).
    { apply goto_ext; auto. intros. unfold fz. change [0] with (repeat 0 1). rewrite nth_app_zeros. reflexivity. }
    destruct (loop_path_spec e ax _ Hw ltac:(lia) Hs Hsub i Hi (Z.to_nat (lene e ax)) 0 ltac:(lia)) as (S & I).
    { rewrite shape_nth by lia. rewrite Z2Nat.id; [lia|]. apply Hnn. lia. }
    rewrite <- E0 in S, I.
    destruct (loop_path _ _ _ _) as [l b0]. cbn [fst snd] in *. subst b0. rewrite goto_adv by auto.
    assert (E1 : goto e (upd (fz (i ++ [nth ax (shape e) 0])) ax (- lene e ax)) = goto e (fz i)).
    { rewrite E0. apply goto_ext; auto. intros. rewrite fz_upd_inc by auto. rewrite shape_nth by lia. replace (lene e ax + - lene e ax) with 0 by lia. reflexivity. }
    rewrite E1. split; [reflexivity|].
    intros b Hb. apply in_app_or in Hb as [Hb|[<-|[]]]; auto. apply (Z0 i ax); auto; lia.
Qed.

Lemma fixed_path_spec : forall e : expr, wf e -> validate e = true -> forall b, In b (fixed_path e) -> tstate e b.
Proof.
  intros e Hw Hv b Hb. apply validate_spec in Hv. destruct Hv as (_ & Hs). unfold fixed_path in Hb.
  assert (T0 : tstate e e).
  { exists (map (fun _ => 0) (shape e)). split; [apply touched_zero; auto|]. rewrite <- (goto_zero e) at 1. apply goto_ext; auto. intros.
    change (map (fun _ => 0) (shape e)) with ([] ++ map (fun _ => 0) (shape e)). rewrite fz_zeros. unfold fz. destruct k; reflexivity. }
  destruct (rankn e) as [|r] eqn:Hr.
  - destruct Hb as [<-|[]]. exact T0.
  - destruct Hb as [<-|Hb]; [exact T0|]. pose proof (subply_path_spec e r Hw Hr Hs r (le_n r) []) as H. rewrite Nat.sub_diag in H.
    replace (goto e (fz [])) with e in H.
    2: { rewrite <- (goto_zero e) at 1. apply goto_ext; auto. intros. unfold fz. destruct k; reflexivity. }
    apply H; auto. constructor.
Qed.

(* ---- ply_ravel ---- *)

Lemma odo_path_spec : forall (e : expr) rk r o so, wf e -> (r + o = rk)%nat -> length so = r -> Forall (fun n => 0 < n) so ->
  forall n k z i, (n + k = r)%nat -> inshape i (firstn n so) -> zrep rk r so z (i ++ repeat 0 k) ->
  forall b, In b (odo_path n k o z (goto e (fz (i ++ repeat 0 k)))) -> exists i', inshape i' so /\ b = goto e (fz i').
Proof.
  intros e rk r o so Hw Hro Hso Hp. induction n; intros k z i Hnk Hi Hz b Hb; [destruct Hb|].
  assert (Hfs : firstn (S n) so = firstn n so ++ [nth n so 0]) by (apply firstn_S; lia).
  rewrite Hfs in *. destruct (inshape_snoc _ _ _ Hi) as (i0 & x & -> & Hi0 & Hx & Hl0). rewrite firstn_length in Hl0.
  assert (Hi0l : length i0 = n) by lia. clear Hl0.
  assert (Hzs : forall m, (m <= r)%nat -> inshape (repeat 0 m) (skipn (r-m) so)).
  { intros m Hm. apply nth_inshape; [rewrite repeat_length, skipn_length; lia|]. intros q Hq. rewrite nth_repeat0. split; [lia|].
    rewrite Forall_forall in Hp. apply Hp. apply (In_skipn (r-m)). apply nth_In; auto. }
  pose proof Hz as (Hzl & Hz'). cbn [odo_path] in Hb.
  assert (Hkl : (k < length z)%nat) by lia.
  rewrite !zk_zupd in Hb by auto. rewrite Nat.eqb_refl in Hb. cbn [zind zsha] in Hb.
  destruct (Hz' k ltac:(lia)) as (Ho & Hind & Hsha). specialize (Hsha ltac:(lia)).
  replace (k <? r)%nat with true in Hind by lia. replace (r-1-k)%nat with n in * by lia.
  rewrite <- app_assoc in Hind. rewrite app_nth2 in Hind by lia. rewrite Hi0l, Nat.sub_diag in Hind. cbn in Hind.
  rewrite Hind, Hsha in Hb.
  assert (Hax : zorder (if Nat.eqb (o+k) k then {| zorder := zorder (zk z k); zsha := nth n so 0; zind := x+1 |} else zk z (o+k)) = n).
  { destruct (Nat.eqb_spec (o+k) k); cbn [zorder]; [rewrite Ho; lia|]. destruct (Hz' (o+k)%nat ltac:(lia)) as (-> & _). lia. }
  rewrite Hax in Hb.
  assert (Hup : forall k0 d, upd (fz ((i0 ++ [x]) ++ repeat 0 k)) n d k0 = fz ((i0 ++ [x+d]) ++ repeat 0 k) k0).
  { intros. unfold upd, fz. rewrite !nth_app_zeros. destruct (Nat.eqb_spec k0 n).
    - subst. rewrite !app_nth2, Nat.sub_diag by lia. reflexivity.
    - destruct (Nat.lt_ge_cases k0 (length i0)); [rewrite !app_nth1; auto|].
      rewrite !app_nth2 by lia. destruct (k0 - length i0)%nat as [|n1] eqn:E; [lia|]. destruct n1; reflexivity. }
  destruct (Z.ltb_spec (x+1) (nth n so 0)).
  - destruct Hb as [<-|[]]. rewrite goto_adv by auto. exists ((i0 ++ [x+1]) ++ repeat 0 k). split.
    + replace so with (firstn (S n) so ++ skipn (S n) so) by apply firstn_skipn. apply inshape_app.
      * rewrite Hfs. apply inshape_app; auto. constructor; [lia|constructor].
      * replace (S n) with (r - k)%nat by lia. apply Hzs. lia.
    + apply goto_ext; auto.
  - rewrite goto_adv in Hb by auto.
    replace (goto e (upd (fz ((i0 ++ [x]) ++ repeat 0 k)) n (1 - nth n so 0))) with (goto e (fz (i0 ++ repeat 0 (S k)))) in Hb.
    2: { apply goto_ext; auto. intros. rewrite Hup. replace (x + (1 - nth n so 0)) with 0 by lia. rewrite <- app_assoc. reflexivity. }
    destruct Hb as [<-|Hb].
    + exists (i0 ++ repeat 0 (S k)). split; [|reflexivity].
      replace so with (firstn n so ++ skipn n so) by apply firstn_skipn. apply inshape_app; auto.
      replace n with (r - S k)%nat at 1 by lia. apply Hzs. lia.
    + eapply (IHn (S k)); [lia|exact Hi0| |exact Hb]. split; [rewrite !zupd_length; auto|].
      intros k0 Hk0. rewrite !zk_zupd by (rewrite ?zupd_length; auto). rewrite Nat.eqb_refl. cbn [zorder zsha zind].
      destruct (Hz' k0 Hk0) as (Ho' & Hind' & Hsha'). destruct (Nat.eqb_spec k0 k).
      * subst k0. cbn [zorder zind zsha]. split; auto. split.
        -- replace (k <? r)%nat with true by lia. replace (r-1-k)%nat with n by lia. rewrite app_nth2, Hi0l, Nat.sub_diag by lia. reflexivity.
        -- intros. replace (r-1-k)%nat with n by lia. auto.
      * split; auto. split; auto. rewrite Hind'. destruct (Nat.ltb_spec k0 r); auto.
        rewrite !nth_app_zeros. destruct (Nat.lt_ge_cases (r-1-k0) (length i0)); [rewrite app_nth1; auto|].
        rewrite app_nth2 by lia. rewrite (nth_overflow i0) by lia. destruct (r-1-k0-length i0)%nat as [|n1] eqn:E; [lia|]. destruct n1; reflexivity.
Qed.

Lemma ravel_path_loop_spec : forall (e : expr) rk r o so, wf e -> rankn e = rk -> (r + o = rk)%nat -> (0 < o)%nat -> so = firstn r (shape e) ->
  Forall (fun n => 0 <= n) (shape e) -> Forall (fun n => 0 < n) so -> merged e rk r ->
  forall fuel z i, inshape i so -> zrep rk r so z i ->
  forall b, In b (ravel_path_loop fuel r o (zprod (skipn r (shape e))) (stepe e (rk-1)) z (goto e (fz i))) -> tstate e b.
Proof.
  intros e rk r o so Hw Hr Hro Ho Eso Hs Hp Hm. pose proof (shape_length e) as Hsl.
  assert (Hso : length so = r) by (rewrite Eso, firstn_length; lia).
  assert (Hnr : Forall (fun n => 0 <= n) (skipn r (shape e))) by (rewrite <- (firstn_skipn r (shape e)) in Hs; apply Forall_app in Hs; tauto).
  assert (Tj : forall i j, inshape i so -> touched (skipn r (shape e)) j -> tstate e (goto e (fz (i ++ j)))).
  { intros i j Hi Hj. exists (i ++ j). split; [|reflexivity]. rewrite <- (firstn_skipn r (shape e)), <- Eso. apply touched_app; auto. }
  assert (Ti : forall i, inshape i so -> tstate e (goto e (fz i))).
  { intros i Hi. replace (goto e (fz i)) with (goto e (fz (i ++ map (fun _ => 0) (skipn r (shape e))))).
    - apply Tj; auto. apply touched_zero; auto.
    - apply goto_ext; auto. intros. apply fz_zeros. }
  induction fuel; intros z i Hi Hz b Hb; [destruct Hb|]. cbn [ravel_path_loop] in Hb. pose proof (inshape_length _ _ Hi) as Hil.
  destruct (inner_path_spec e (rk-1) Hw (Z.to_nat (zprod (skipn r (shape e)))) (fz i)) as (S & I).
  destruct (inner_path _ _ _) as [l b0]. cbn [fst snd] in *. subst b0. rewrite goto_load in Hb.
  apply in_app_or in Hb as [Hb|[<-|Hb]].
  - destruct (I b Hb) as (t & Ht & ->). rewrite Z2Nat.id in Ht by (apply zprod_nonneg; auto).
    assert (exists j, touched (skipn r (shape e)) j /\ rm (skipn r (shape e)) j = t) as (j & Tt & Ej).
    { destruct (Z.eq_dec t (zprod (skipn r (shape e)))) as [->|Hne].
      - rewrite (skipn_cons (shape e) r 0) by lia. eexists. split; [apply touched_end|]. cbn [rm zprod].
        replace (rm (skipn (Datatypes.S r) (shape e)) (map (fun _ => 0) (skipn (Datatypes.S r) (shape e)))) with 0; [ring|].
        generalize (skipn (Datatypes.S r) (shape e)). clear. intros l. induction l as [|x l IHl]; [reflexivity|]. cbn [rm map]. rewrite <- IHl. ring.
      - assert (Hin : In t (map (rm (skipn r (shape e))) (indices (skipn r (shape e))))) by (rewrite rm_indices by auto; apply in_zrange; lia).
        apply in_map_iff in Hin as (j & <- & Hj). exists j. split; auto. apply touched_inshape, in_indices; auto. }
    replace (goto e (upd (fz i) (rk-1) t)) with (goto e (fz (i ++ j))); [apply Tj; auto|].
    rewrite Hm; [|lia|rewrite (touched_length _ _ Tt), skipn_length; lia]. rewrite Ej.
    apply goto_ext; auto. intros k _. replace t with (0 + t) at 1 by lia. rewrite fz_last. rewrite Hil, Hso.
    replace (r + (rk-r-1))%nat with (rk-1)%nat by lia. unfold upd.
    replace (fz (i ++ repeat 0 (rk-r-1) ++ [0]) k) with (fz i k); auto.
    change [0] with (repeat 0 1). rewrite <- repeat_app. unfold fz. rewrite nth_app_zeros. reflexivity.
  - apply Ti; auto.
  - apply in_app_or in Hb as [Hb|Hb].
    + pose proof (odo_path_spec e rk r o so Hw Hro Hso Hp r 0 z i ltac:(lia)) as H.
      replace (firstn r so) with so in H by (rewrite <- Hso, firstn_all; reflexivity). cbn [repeat] in H. rewrite app_nil_r in H.
      destruct (H Hi Hz b Hb) as (i' & Hi' & ->). apply Ti; auto.
    + pose proof (odo_spec e rk r o so Hw Hro Hso r 0 z i ltac:(lia)) as H.
      replace (firstn r so) with so in H by (rewrite <- Hso, firstn_all; reflexivity). cbn [repeat] in H. rewrite app_nil_r in H. specialize (H Hi Hz).
      destruct (succ so i) as [i'|] eqn:Es.
      * destruct H as (z' & Eo & Hz'). rewrite app_nil_r in Eo, Hz'. rewrite Eo in Hb. eapply IHfuel; [|exact Hz'|exact Hb]. eapply succ_inshape; eauto.
      * destruct H as (z' & a' & Eo & _). rewrite Eo in Hb. destruct Hb.
Qed.

Lemma ravel_path_spec : forall e : expr, wf e -> validate e = true -> forall z, zclean z -> forall b, In b (ravel_path z e) -> tstate e b.
Proof.
  intros e Hw Hv z Hc b Hb. apply validate_spec in Hv. destruct Hv as (_ & Hs). unfold ravel_path in Hb.
  assert (T0 : tstate e e).
  { exists (map (fun _ => 0) (shape e)). split; [apply touched_zero; auto|]. rewrite <- (goto_zero e) at 1. apply goto_ext; auto. intros.
    change (map (fun _ => 0) (shape e)) with ([] ++ map (fun _ => 0) (shape e)). rewrite fz_zeros. unfold fz. destruct k; reflexivity. }
  destruct (rankn e) as [|r] eqn:Hr; [destruct Hb as [<-|[]]; exact T0|].
  set (z1 := zsetorder (S r) 0 (zresize z (S r))) in *.
  assert (Hz1 : zord (S r) z1).
  { split; [unfold z1; rewrite zsetorder_length, zresize_length; auto|]. intros k Hk. unfold z1.
    rewrite zsetorder_nth by (rewrite zresize_length; auto). reflexivity. }
  assert (Hc1 : zclean z1).
  { unfold zclean. apply Forall_forall. intros x Hx. apply (In_nth _ _ zt0) in Hx. destruct Hx as (k & Hk & <-).
    change (zind (zk z1 k) = 0). unfold z1 in *. rewrite zsetorder_length in Hk. rewrite zsetorder_nth by auto. cbn [zind].
    apply zclean_nth. apply zresize_clean; auto. }
  replace (zorder (zk z1 0)) with r in Hb by (destruct Hz1 as (_ & H); rewrite H by lia; lia).
  destruct (merge_spec e (S r) z1 Hw Hr Hz1 r 1 (lene e r)) as (r' & o & ss & Em & Hro & Ho & Hss & Hm); try lia.
  { rewrite (skipn_cons (shape e) r 0) by (rewrite shape_length; lia). rewrite skipn_all2 by (rewrite shape_length; lia).
    rewrite shape_nth by lia. cbn [zprod]. ring. }
  { apply merged_base; auto. }
  rewrite Em in Hb.
  destruct (setsha_spec e (S r) r' o (firstn r' (shape e)) Hr Hro Ho eq_refl r' 0 z1) as (z2 & bb & Es & Hc2 & Hbt & Hbf); auto; try lia.
  rewrite Es in Hb. destruct bb; [destruct Hb as [<-|[]]; exact T0|]. destruct (Hbf eq_refl) as (Hz2 & Hpos).
  destruct Hb as [<-|Hb]; [exact T0|].
  replace (zorder (zk z2 0)) with (S r - 1)%nat in Hb by (destruct Hz2 as (_ & H); destruct (H 0%nat ltac:(lia)) as (-> & _); lia).
  subst ss. assert (Hsol : length (firstn r' (shape e)) = r') by (rewrite firstn_length, shape_length; lia).
  apply (ravel_path_loop_spec e (S r) r' o (firstn r' (shape e)) Hw Hr Hro Ho eq_refl Hs Hpos Hm (ravel_fuel z2 r') z2 (repeat 0 r')); auto.
  - apply nth_inshape; [rewrite repeat_length; auto|]. intros k Hk. rewrite nth_repeat0. rewrite Forall_forall in Hpos.
    split; [lia|]. apply Hpos. apply nth_In; auto.
  - replace (goto e (fz (repeat 0 r'))) with e; auto. rewrite <- (goto_zero e) at 1. apply goto_ext; auto. intros. unfold fz. rewrite nth_repeat0. reflexivity.
Qed.

(* ---- STL ---- *)

Lemma next_path_spec : forall e : expr, wf e -> Forall (fun n => 0 < n) (shape e) ->
  forall n k ind i, (n + k = rankn e)%nat -> inshape i (firstn n (shape e)) -> srep (shape e) ind (i ++ repeat 0 k) ->
  forall b, In b (next_path n (goto e (fz (i ++ repeat 0 k))) ind) -> istate e b.
Proof.
  intros e Hw Hp. assert (Hzs : forall m, (m <= rankn e)%nat -> inshape (repeat 0 m) (skipn (rankn e - m) (shape e))).
  { intros m Hm. apply nth_inshape; [rewrite repeat_length, skipn_length, shape_length; lia|]. intros q Hq. rewrite nth_repeat0. split; [lia|].
    rewrite Forall_forall in Hp. apply Hp. apply (In_skipn (rankn e - m)). apply nth_In; auto. }
  induction n; intros k ind i Hnk Hi Hs b Hb; [destruct Hb|].
  rewrite (firstn_S (shape e) n 0) in * by (rewrite shape_length; lia).
  destruct (inshape_snoc _ _ _ Hi) as (i0 & x & -> & Hi0 & Hx & Hl). rewrite firstn_length, shape_length in Hl.
  assert (Hl0 : length i0 = n) by lia. clear Hl.
  cbn [next_path] in Hb. rewrite goto_len in Hb. destruct Hs as (Hsl & Hs).
  assert (Hup : forall k0 d, upd (fz ((i0 ++ [x]) ++ repeat 0 k)) n d k0 = fz ((i0 ++ [x+d]) ++ repeat 0 k) k0).
  { intros. unfold upd, fz. rewrite !nth_app_zeros. destruct (Nat.eqb_spec k0 n).
    - subst. rewrite !app_nth2, Nat.sub_diag by lia. reflexivity.
    - destruct (Nat.lt_ge_cases k0 (length i0)); [rewrite !app_nth1; auto|].
      rewrite !app_nth2 by lia. destruct (k0 - length i0)%nat as [|m] eqn:E; [lia|]. destruct m; reflexivity. }
  rewrite Hs in Hb by (rewrite shape_length; lia).
  replace (nth n ((i0 ++ [x]) ++ repeat 0 k) 0) with x in Hb.
  2: { rewrite nth_app_zeros, app_nth2, Hl0, Nat.sub_diag by lia. reflexivity. }
  replace (0 <? nth n (shape e) 0 - x - 1) with (x + 1 <? nth n (shape e) 0) in Hb by lia.
  assert (Hnl : (n < length ind)%nat) by (rewrite Hsl, shape_length; lia).
  destruct (Z.ltb_spec (x+1) (nth n (shape e) 0)).
  - destruct Hb as [<-|[]]. rewrite goto_adv by auto. exists ((i0 ++ [x+1]) ++ repeat 0 k). split; [|apply goto_ext; auto].
    rewrite <- (firstn_skipn (S n) (shape e)). apply inshape_app.
    + rewrite (firstn_S (shape e) n 0) by (rewrite shape_length; lia). apply inshape_app; auto. constructor; [lia|constructor].
    + replace (S n) with (rankn e - k)%nat by lia. apply Hzs. lia.
  - rewrite goto_adv in Hb by auto. rewrite <- shape_nth in Hb by lia.
    replace (goto e (upd (fz ((i0 ++ [x]) ++ repeat 0 k)) n (1 - nth n (shape e) 0))) with (goto e (fz (i0 ++ repeat 0 (S k)))) in Hb.
    2: { apply goto_ext; auto. intros. rewrite Hup. replace (x + (1 - nth n (shape e) 0)) with 0 by lia. rewrite <- app_assoc. reflexivity. }
    destruct Hb as [<-|Hb].
    + exists (i0 ++ repeat 0 (S k)). split; [|reflexivity]. rewrite <- (firstn_skipn n (shape e)). apply inshape_app; auto.
      replace n with (rankn e - S k)%nat at 1 by lia. apply Hzs. lia.
    + eapply (IHn (S k)); [lia|exact Hi0| |exact Hb]. split; [rewrite lupd_length; auto|].
      intros q Hq. rewrite lupd_nth by auto. rewrite nth_app_zeros. destruct (Nat.eqb_spec q n).
      * subst q. rewrite (nth_overflow i0) by lia. lia.
      * rewrite Hs by auto. rewrite nth_app_zeros. destruct (Nat.lt_ge_cases q (length i0)); [rewrite app_nth1; auto|].
        rewrite app_nth2 by lia. rewrite (nth_overflow i0) by lia. destruct (q - length i0)%nat as [|m] eqn:E; [lia|]. destruct m; reflexivity.
Qed.

(* where the iterator is at the end *)
Lemma next_end : forall e : expr, wf e -> forall n k ind i, (n + k = rankn e)%nat -> inshape i (firstn n (shape e)) -> srep (shape e) ind (i ++ repeat 0 k) ->
  succ (firstn n (shape e)) i = None -> sa (stl_next_loop n (goto e (fz (i ++ repeat 0 k))) ind) = e.
Proof.
  intros e Hw. induction n; intros k ind i Hnk Hi Hs Hn.
  - cbn. inversion Hi; subst. cbn [app]. rewrite <- (goto_zero e) at 2. apply goto_ext; auto. intros. unfold fz. rewrite nth_repeat0. reflexivity.
  - rewrite (firstn_S (shape e) n 0) in * by (rewrite shape_length; lia).
    destruct (inshape_snoc _ _ _ Hi) as (i0 & x & -> & Hi0 & Hx & Hl). rewrite firstn_length, shape_length in Hl.
    assert (Hl0 : length i0 = n) by lia. clear Hl.
    rewrite succ_snoc in Hn by (rewrite firstn_length, shape_length; lia).
    cbn [stl_next_loop]. rewrite goto_len. destruct Hs as (Hsl & Hs).
    rewrite Hs by (rewrite shape_length; lia).
    replace (nth n ((i0 ++ [x]) ++ repeat 0 k) 0) with x.
    2: { rewrite nth_app_zeros, app_nth2, Hl0, Nat.sub_diag by lia. reflexivity. }
    replace (0 <? nth n (shape e) 0 - x - 1) with (x + 1 <? nth n (shape e) 0) by lia.
    assert (Hnl : (n < length ind)%nat) by (rewrite Hsl, shape_length; lia).
    destruct (Z.ltb_spec (x+1) (nth n (shape e) 0)); [discriminate|].
    destruct (succ (firstn n (shape e)) i0) eqn:Es; [discriminate|].
    rewrite goto_adv by auto. rewrite <- shape_nth by lia.
    replace (goto e (upd (fz ((i0 ++ [x]) ++ repeat 0 k)) n (1 - nth n (shape e) 0))) with (goto e (fz (i0 ++ repeat 0 (S k)))).
    2: { apply goto_ext; auto. intros. unfold upd, fz. rewrite !nth_app_zeros. destruct (Nat.eqb_spec k0 n).
         - subst. rewrite app_nth2, Nat.sub_diag by lia. rewrite (nth_overflow i0) by lia.
        change (nth 0 [x] 0) with x. lia.
         - destruct (Nat.lt_ge_cases k0 (length i0)); [rewrite app_nth1; auto|].
           rewrite (nth_overflow i0) by lia. rewrite nth_overflow; [reflexivity|]. rewrite app_length; cbn; lia. }
    apply IHn; auto; [lia|]. split; [rewrite lupd_length; auto|].
    intros q Hq. rewrite lupd_nth by auto. rewrite nth_app_zeros. destruct (Nat.eqb_spec q n).
    + subst q. rewrite (nth_overflow i0) by lia. lia.
    + rewrite Hs by auto. rewrite nth_app_zeros. destruct (Nat.lt_ge_cases q (length i0)); [rewrite app_nth1; auto|].
      rewrite app_nth2 by lia. rewrite (nth_overflow i0) by lia. destruct (q - length i0)%nat as [|m] eqn:E; [lia|]. destruct m; reflexivity.
Qed.

Lemma stl_path_loop_spec : forall e : expr, wf e -> Forall (fun n => 0 < n) (shape e) -> istate e e -> forall fuel ind i, inshape i (shape e) -> srep (shape e) ind i ->
  forall b, In b (stl_path fuel (Stl (goto e (fz i)) ind false)) -> istate e b.
Proof.
  intros e Hw Hp He. induction fuel; intros ind i Hi Hs b Hb; [destruct Hb|]. cbn [stl_path over sa sind] in Hb. destruct Hb as [<-|Hb].
  - exists i; auto.
  - rewrite goto_rankn in Hb. apply in_app_or in Hb as [Hb|Hb].
    + pose proof (next_path_spec e Hw Hp (rankn e) 0 ind i ltac:(lia)) as H. rewrite <- (shape_length e), firstn_all in H. cbn [repeat] in H.
      rewrite app_nil_r in H. apply (H Hi Hs b). rewrite <- (shape_length e) in Hb. exact Hb.
    + pose proof (stl_next_spec' e Hw ind i Hi Hs) as H. destruct (succ (shape e) i) as [i'|] eqn:Es.
      * destruct H as (ind' & E & Hs'). rewrite E in Hb. eapply IHfuel; [|exact Hs'|exact Hb]. eapply succ_inshape; eauto.
      * destruct H as (a & ind' & E).
        assert (Ea : a = e).
        { pose proof (next_end e Hw (rankn e) 0 ind i ltac:(lia)) as H. rewrite <- (shape_length e), firstn_all in H. cbn [repeat] in H.
          rewrite app_nil_r in H. specialize (H Hi Hs Es). unfold stl_next in E. cbn [sa sind] in E. rewrite goto_rankn, <- (shape_length e) in E.
          rewrite E in H. exact H. }
        rewrite E, Ea in Hb. destruct fuel; [destruct Hb|]. cbn in Hb. destruct Hb as [<-|[]]. exact He.
Qed.

Lemma stl_path_spec : forall e : expr, wf e -> validate e = true -> forall fuel s, stl_begin e = Some s ->
  forall b, In b (stl_path fuel s) -> b = e \/ istate e b.
Proof.
  intros e Hw Hv fuel s Es b Hb. unfold stl_begin in Es. rewrite Hv in Es. apply validate_spec in Hv. destruct Hv as (_ & Hs).
  rewrite size_prod in Es by auto. assert (E1 : s = Stl e (shape e) (0 =? zprod (shape e))) by congruence. subst s. clear Es.
  destruct (Z.eqb_spec 0 (zprod (shape e))).
  - destruct fuel; [destruct Hb|]. cbn in Hb. destruct Hb as [<-|[]]. auto.
  - right. assert (Hp : Forall (fun n => 0 < n) (shape e)).
    { clear - Hs n. induction Hs as [|x l Hx Hs IH]; [apply Forall_nil|]. cbn [zprod] in n.
      apply Forall_cons; [destruct (Z.eq_dec x 0); [subst; lia|lia]|]. apply IH. intros E. apply n. rewrite <- E. ring. }
    assert (E0 : e = goto e (fz (map (fun _ => 0) (shape e)))).
    { transitivity (goto e (fun _ => 0)); [symmetry; apply goto_zero|]. apply goto_ext; auto. intros. unfold fz. rewrite (nth_map _ (shape e) k 0); auto. rewrite shape_length; auto. }
    assert (Hin : inshape (map (fun _ => 0) (shape e)) (shape e)).
    { clear - Hp. induction Hp as [|x l Hx Hp IH]; [constructor|]. constructor; [lia|exact IH]. }
    assert (He : istate e e) by (exists (map (fun _ => 0) (shape e)); auto).
    rewrite E0 in Hb at 1. eapply (stl_path_loop_spec e Hw Hp He); [exact Hin| |exact Hb].
    split; auto. intros k Hk. rewrite (nth_map _ (shape e) k 0) by auto. lia.
Qed.

(* ---- all the positions are taken ---- *)

Lemma inner_path_in : forall (e : expr) q, wf e -> forall n f t, 0 <= t <= Z.of_nat n ->
  In (goto e (upd f q t)) (goto e f :: fst (inner_path n (stepe e q) (goto e f))).
Proof.
  intros e q Hw. induction n; intros f t Ht.
  - left. apply goto_ext; auto. intros. unfold upd. destruct (Nat.eqb k q); lia.
  - destruct (Z.eq_dec t 0) as [->|Hne].
    + left. apply goto_ext; auto. intros. unfold upd. destruct (Nat.eqb k q); lia.
    + right. cbn [inner_path]. rewrite goto_mov by auto. specialize (IHn (upd f q 1) (t-1) ltac:(lia)).
      destruct (inner_path n (stepe e q) (goto e (upd f q 1))) as [l b0]. cbn [fst] in *.
      replace (goto e (upd f q t)) with (goto e (upd (upd f q 1) q (t-1))); auto.
      apply goto_ext; auto. intros. rewrite upd_upd. f_equal. lia.
Qed.

Lemma goto_zeros : forall (e : expr) i (s : list Z), wf e -> goto e (fz (i ++ map (fun _ => 0) s)) = goto e (fz i).
Proof. intros. apply goto_ext; auto. intros. apply fz_zeros. Qed.

Lemma loop_path_in : forall (e : expr) ax sub, wf e -> (ax < rankn e)%nat -> Forall (fun n => 0 <= n) (shape e) ->
  (forall i, inshape i (firstn (S ax) (shape e)) -> snd (sub (goto e (fz i))) = goto e (fz i) /\
    forall j, touched (skipn (S ax) (shape e)) j -> In (goto e (fz (i ++ j))) (goto e (fz i) :: fst (sub (goto e (fz i))))) ->
  forall i, inshape i (firstn ax (shape e)) -> forall n x, 0 <= x -> x + Z.of_nat n = nth ax (shape e) 0 ->
  (forall y j, x <= y < nth ax (shape e) 0 -> touched (skipn (S ax) (shape e)) j ->
    In (goto e (fz ((i ++ [y]) ++ j))) (goto e (fz (i ++ [x])) :: fst (loop_path n ax sub (goto e (fz (i ++ [x])))))) /\
  In (goto e (fz (i ++ [nth ax (shape e) 0]))) (goto e (fz (i ++ [x])) :: fst (loop_path n ax sub (goto e (fz (i ++ [x]))))).
Proof.
  intros e ax sub Hw Hax Hs Hsub i Hi. pose proof (inshape_firstn_len e i ax ltac:(lia) Hi) as Hil. induction n; intros x Hx Hn.
  - split; [intros; lia|]. left. replace x with (nth ax (shape e) 0) by lia. reflexivity.
  - cbn [loop_path].
    assert (Hin : inshape (i ++ [x]) (firstn (S ax) (shape e))).
    { rewrite (firstn_S (shape e) ax 0) by (rewrite shape_length; lia). apply inshape_app; auto. constructor; [lia|constructor]. }
    destruct (Hsub _ Hin) as (S1 & I1). destruct (sub (goto e (fz (i ++ [x])))) as [l1 a1]. cbn [fst snd] in *. subst a1.
    rewrite goto_adv by auto.
    assert (E : goto e (upd (fz (i ++ [x])) ax 1) = goto e (fz (i ++ [x+1]))) by (apply goto_ext; auto; intros; apply fz_upd_inc; auto).
    rewrite E. destruct (IHn (x+1) ltac:(lia) ltac:(lia)) as (I2 & E2).
    destruct (loop_path n ax sub (goto e (fz (i ++ [x+1])))) as [l2 b2]. cbn [fst snd] in *. split.
    + intros y j Hy Hj. destruct (Z.eq_dec y x) as [->|Hne].
      * destruct (I1 j Hj) as [H|H]; [left; exact H|right; apply in_or_app; left; exact H].
      * right. apply in_or_app. right. apply I2; auto. lia.
    + right. apply in_or_app. right. exact E2.
Qed.

Lemma subply_path_in : forall (e : expr) r, wf e -> rankn e = S r -> Forall (fun n => 0 <= n) (shape e) -> forall k, (k <= r)%nat ->
  forall i, inshape i (firstn (r-k) (shape e)) -> forall j, touched (skipn (r-k) (shape e)) j ->
  In (goto e (fz (i ++ j))) (goto e (fz i) :: fst (subply_path (S r) k (lene e r) (stepe e r) (goto e (fz i)))).
Proof.
  intros e r Hw Hr Hs. pose proof (shape_length e) as Hl. rewrite Hr in Hl.
  assert (Hnn : forall k, (k <= r)%nat -> 0 <= lene e k).
  { intros. rewrite <- shape_nth by lia. rewrite Forall_forall in Hs. apply Hs. apply nth_In. lia. }
  induction k; intros Hk i Hi j Hj.
  - rewrite Nat.sub_0_r in *. pose proof (inshape_firstn_len e i r ltac:(lia) Hi) as Hil. cbn [subply_path].
    rewrite (skipn_cons (shape e) r 0), skipn_all2 in Hj by lia. rewrite shape_nth in Hj by lia.
    assert (exists t, j = [t] /\ 0 <= t <= lene e r) as (t & -> & Ht).
    { clear Hil. specialize (Hnn r ltac:(lia)). inversion Hj; subst; [match goal with H : touched [] _ |- _ => inversion H end; subst; exists x|exists (lene e r)]; split; auto; lia. }
    pose proof (inner_path_in e r Hw (Z.to_nat (lene e r)) (fz i) t ltac:(lia)) as H.
    destruct (inner_path _ _ _) as [l b0]. cbn [fst] in *.
    replace (goto e (fz (i ++ [t]))) with (goto e (upd (fz i) r t)) by (apply goto_ext; auto; intros; apply fz_upd_last; auto).
    destruct H as [H|H]; [left; exact H|right; apply in_or_app; left; exact H].
  - cbn [subply_path]. rewrite goto_len. replace (S r - 1 - S k)%nat with (r - S k)%nat by lia. set (ax := (r - S k)%nat) in *.
    assert (E0 : goto e (fz i) = goto e (fz (i ++ [0]))).
    { apply goto_ext; auto. intros. unfold fz. change [0] with (repeat 0 1). rewrite nth_app_zeros. reflexivity. }
    assert (Hsub : forall i, inshape i (firstn (S ax) (shape e)) -> snd (subply_path (S r) k (lene e r) (stepe e r) (goto e (fz i))) = goto e (fz i) /\
      forall j, touched (skipn (S ax) (shape e)) j -> In (goto e (fz (i ++ j))) (goto e (fz i) :: fst (subply_path (S r) k (lene e r) (stepe e r) (goto e (fz i))))).
    { replace (S ax) with (r - k)%nat by lia. intros i0 Hi0. split; [apply (subply_path_spec e r Hw Hr Hs k); auto; lia|]. intros; apply IHk; auto; lia. }
    destruct (loop_path_in e ax _ Hw ltac:(lia) Hs Hsub i Hi (Z.to_nat (lene e ax)) 0 ltac:(lia)) as (I & E).
    { rewrite shape_nth by lia. rewrite Z2Nat.id; [lia|]. apply Hnn. lia. }
    rewrite <- E0 in I, E. destruct (loop_path _ _ _ _) as [l b0]. cbn [fst snd] in *.
    assert (G : In (goto e (fz (i ++ j))) (goto e (fz i) :: l)).
    { rewrite (skipn_cons (shape e) ax 0) in Hj by lia. inversion Hj; subst.
      - change (i ++ x :: i0) with (i ++ [x] ++ i0). rewrite app_assoc. apply I; auto.
      - match goal with |- context [?n :: map ?f ?s] => change (i ++ n :: map f s) with (i ++ [n] ++ map f s) end.
        rewrite app_assoc, goto_zeros by auto. exact E. }
    destruct G as [G|G]; [left; exact G|right; apply in_or_app; left; exact G].
Qed.

Lemma fixed_path_in : forall e : expr, wf e -> validate e = true -> forall i, touched (shape e) i -> In (goto e (fz i)) (fixed_path e).
Proof.
  intros e Hw Hv i Hi. apply validate_spec in Hv. destruct Hv as (_ & Hs). unfold fixed_path.
  assert (Z0 : goto e (fz []) = e) by (rewrite <- (goto_zero e) at 2; apply goto_ext; auto; intros; unfold fz; destruct k; reflexivity).
  destruct (rankn e) as [|r] eqn:Hr.
  - pose proof (touched_length _ _ Hi) as Hl. rewrite shape_length, Hr in Hl. destruct i; [|discriminate]. left. auto.
  - pose proof (subply_path_in e r Hw Hr Hs r (le_n r) []) as H. rewrite Nat.sub_diag, Z0 in H. apply H; auto. constructor.
Qed.

Lemma ravel_path_loop_in : forall (e : expr) rk r o so, wf e -> rankn e = rk -> (r + o = rk)%nat -> (0 < o)%nat -> so = firstn r (shape e) ->
  Forall (fun n => 0 <= n) (shape e) -> merged e rk r ->
  forall fuel z i, inshape i so -> (length (indices_from so i) <= fuel)%nat -> zrep rk r so z i ->
  forall i' j t, In i' (indices_from so i) -> length j = o -> rm (skipn r (shape e)) j = t -> 0 <= t <= zprod (skipn r (shape e)) ->
  In (goto e (fz (i' ++ j))) (goto e (fz i) :: ravel_path_loop fuel r o (zprod (skipn r (shape e))) (stepe e (rk-1)) z (goto e (fz i))).
Proof.
  intros e rk r o so Hw Hr Hro Ho Eso Hs Hm. pose proof (shape_length e) as Hsl.
  assert (Hso : length so = r) by (rewrite Eso, firstn_length; lia).
  induction fuel; intros z i Hi Hf Hz i' j t Hin Hj Ej Ht.
  { rewrite indices_from_succ in Hf by auto. simpl in Hf. lia. }
  rewrite indices_from_succ in Hf, Hin by auto. pose proof (inshape_length _ _ Hi) as Hil. cbn [ravel_path_loop].
  pose proof (inner_path_in e (rk-1) Hw (Z.to_nat (zprod (skipn r (shape e)))) (fz i) t ltac:(lia)) as I.
  destruct (inner_path_spec e (rk-1) Hw (Z.to_nat (zprod (skipn r (shape e)))) (fz i)) as (S & _).
  destruct (inner_path _ _ _) as [l b0]. cbn [fst snd] in *. subst b0. rewrite goto_load.
  destruct Hin as [<-|Hin].
  - replace (goto e (fz (i ++ j))) with (goto e (upd (fz i) (rk-1) t)).
    + destruct I as [I|I]; [left; exact I|right; apply in_or_app; left; exact I].
    + rewrite Hm; [|lia|lia]. rewrite Ej. symmetry.
      apply goto_ext; auto. intros k _. replace t with (0 + t) at 1 by lia. rewrite fz_last. rewrite Hil, Hso.
      replace (r + (rk-r-1))%nat with (rk-1)%nat by lia. unfold upd.
      replace (fz (i ++ repeat 0 (rk-r-1) ++ [0]) k) with (fz i k); auto.
      change [0] with (repeat 0 1). rewrite <- repeat_app. unfold fz. rewrite nth_app_zeros. reflexivity.
  - pose proof (odo_spec e rk r o so Hw Hro Hso r 0 z i ltac:(lia)) as H.
    replace (firstn r so) with so in H by (rewrite <- Hso, firstn_all; reflexivity). cbn [repeat] in H. rewrite app_nil_r in H. specialize (H Hi Hz).
    destruct (succ so i) as [i2|] eqn:Es; [|destruct Hin].
    destruct H as (z' & Eo & Hz'). rewrite app_nil_r in Eo, Hz'. rewrite Eo.
    assert (Hi2 : inshape i2 so) by (eapply succ_inshape; eauto).
    specialize (IHfuel z' i2 Hi2 ltac:(simpl in Hf; lia) Hz' i' j t Hin Hj Ej Ht).
    right. apply in_or_app. right. right. apply in_or_app.
    destruct IHfuel as [E|E]; [left|right; exact E].
    rewrite <- E. clear - Hw Hro Hso Hi Hz Eo.
    enough (H : forall n k z a z' a', odo n k o z a = (false, z', a') -> In a' (odo_path n k o z a)) by (eapply H; eauto).
    clear. induction n; intros k z a z' a' H; cbn [odo odo_path] in *; [congruence|].
    match goal with |- context [if ?c then _ else _] => destruct c end; [left; congruence|]. right. eapply IHn; eauto.
Qed.

Lemma ravel_path_gen : forall e : expr, wf e -> validate e = true -> forall z, zclean z -> forall i, length i = rankn e -> Forall (fun n => 0 < n) (shape e) ->
  (forall r, (r < rankn e)%nat -> inshape (firstn r i) (firstn r (shape e)) /\ 0 <= rm (skipn r (shape e)) (skipn r i) <= zprod (skipn r (shape e))) ->
  In (goto e (fz i)) (ravel_path z e).
Proof.
  intros e Hw Hv z Hc i Hil Hpos0 Hi. apply validate_spec in Hv. destruct Hv as (_ & Hs). unfold ravel_path.
  assert (Z0 : goto e (fz []) = e) by (rewrite <- (goto_zero e) at 2; apply goto_ext; auto; intros; unfold fz; destruct k; reflexivity).
  destruct (rankn e) as [|r] eqn:Hr.
  { destruct i; [|discriminate]. left. auto. }
  set (z1 := zsetorder (S r) 0 (zresize z (S r))) in *.
  assert (Hz1 : zord (S r) z1).
  { split; [unfold z1; rewrite zsetorder_length, zresize_length; auto|]. intros k Hk. unfold z1.
    rewrite zsetorder_nth by (rewrite zresize_length; auto). reflexivity. }
  assert (Hc1 : zclean z1).
  { unfold zclean. apply Forall_forall. intros x Hx. apply (In_nth _ _ zt0) in Hx. destruct Hx as (k & Hk & <-).
    change (zind (zk z1 k) = 0). unfold z1 in *. rewrite zsetorder_length in Hk. rewrite zsetorder_nth by auto. cbn [zind].
    apply zclean_nth. apply zresize_clean; auto. }
  replace (zorder (zk z1 0)) with r by (destruct Hz1 as (_ & H); rewrite H by lia; lia).
  destruct (merge_spec e (S r) z1 Hw Hr Hz1 r 1 (lene e r)) as (r' & o & ss & Em & Hro & Ho & Hss & Hm); try lia.
  { rewrite (skipn_cons (shape e) r 0) by (rewrite shape_length; lia). rewrite skipn_all2 by (rewrite shape_length; lia).
    rewrite shape_nth by lia. cbn [zprod]. ring. }
  { apply merged_base; auto. }
  rewrite Em.
  destruct (setsha_spec e (S r) r' o (firstn r' (shape e)) Hr Hro Ho eq_refl r' 0 z1) as (z2 & bb & Es & Hc2 & Hbt & Hbf); auto; try lia.
  rewrite Es.
  destruct bb.
  { exfalso. destruct (Hbt eq_refl) as (k & Hk & Hle). rewrite Forall_forall in Hpos0.
    specialize (Hpos0 (nth k (shape e) 0)). pose proof (shape_length e). specialize (Hpos0 ltac:(apply nth_In; lia)). lia. }
  destruct (Hbf eq_refl) as (Hz2 & Hpos).
  replace (zorder (zk z2 0)) with (S r - 1)%nat by (destruct Hz2 as (_ & H); destruct (H 0%nat ltac:(lia)) as (-> & _); lia).
  subst ss. assert (Hsol : length (firstn r' (shape e)) = r') by (rewrite firstn_length, shape_length; lia).
  assert (Hmz : map (fun _ => 0) (firstn r' (shape e)) = repeat 0 r') by (rewrite <- Hsol at 2; clear; induction (firstn r' (shape e)); cbn; congruence).
  assert (Hin0 : inshape (repeat 0 r') (firstn r' (shape e))).
  { apply nth_inshape; [rewrite repeat_length; auto|]. intros k Hk. rewrite nth_repeat0. rewrite Forall_forall in Hpos.
    split; [lia|]. apply Hpos. apply nth_In; auto. }
  assert (Hf0 : indices_from (firstn r' (shape e)) (repeat 0 r') = indices (firstn r' (shape e))) by (rewrite <- Hmz; apply indices_from_zero; auto).
  pose proof (ravel_path_loop_in e (S r) r' o (firstn r' (shape e)) Hw Hr Hro Ho eq_refl Hs Hm (ravel_fuel z2 r') z2 (repeat 0 r') Hin0) as H.
  rewrite Hf0 in H. specialize (H ltac:(eapply ravel_fuel_ok; eauto; lia) Hz2).
  destruct (Hi r' ltac:(lia)) as (H1 & H2).
  specialize (H (firstn r' i) (skipn r' i) (rm (skipn r' (shape e)) (skipn r' i))). rewrite firstn_skipn in H.
  replace (goto e (fz (repeat 0 r'))) with e in H.
  2: { rewrite <- (goto_zero e) at 1. apply goto_ext; auto. intros. unfold fz. rewrite nth_repeat0. reflexivity. }
  apply H; auto.
  - apply in_indices; auto.
  - rewrite skipn_length. lia.
Qed.

Lemma ravel_path_in : forall e : expr, wf e -> validate e = true -> forall z, zclean z -> forall i, inshape i (shape e) -> In (goto e (fz i)) (ravel_path z e).
Proof.
  intros e Hw Hv z Hc i Hi. pose proof (inshape_length _ _ Hi) as Hl. rewrite shape_length in Hl.
  apply ravel_path_gen; auto; [apply (inshape_pos _ _ Hi)|]. intros r' Hr'. split.
  - apply nth_inshape; rewrite ?firstn_length, ?shape_length; try lia; intros q Hq.
    rewrite !nth_firstn by lia. apply inshape_nth; auto. rewrite shape_length. lia.
  - assert (H2 : inshape (skipn r' i) (skipn r' (shape e))); [|pose proof (rm_range _ _ H2); lia].
    apply nth_inshape; rewrite ?skipn_length, ?shape_length; try lia; intros q Hq.
    rewrite !L_Frame.nth_skipn. apply inshape_nth; auto. rewrite shape_length. lia.
Qed.

Lemma stl_path_loop_in : forall e : expr, wf e -> forall fuel ind i, inshape i (shape e) -> srep (shape e) ind i -> (length (indices_from (shape e) i) <= fuel)%nat ->
  forall i', In i' (indices_from (shape e) i) -> In (goto e (fz i')) (stl_path fuel (Stl (goto e (fz i)) ind false)).
Proof.
  intros e Hw. induction fuel; intros ind i Hi Hs Hf i' Hin; rewrite indices_from_succ in * by auto; [simpl in Hf; lia|].
  cbn [stl_path over sa sind]. destruct Hin as [<-|Hin]; [left; reflexivity|]. right. apply in_or_app. right.
  pose proof (stl_next_spec' e Hw ind i Hi Hs) as H. destruct (succ (shape e) i) as [i2|] eqn:Es; [|destruct Hin].
  destruct H as (ind' & E & Hs'). rewrite E. apply IHfuel; auto; [eapply succ_inshape; eauto|simpl in Hf; lia].
Qed.

Lemma stl_path_in : forall e : expr, wf e -> validate e = true -> forall fuel s, stl_begin e = Some s -> zprod (shape e) <= Z.of_nat fuel ->
  forall i, inshape i (shape e) -> In (goto e (fz i)) (stl_path fuel s).
Proof.
  intros e Hw Hv fuel s Es Hf i Hi. unfold stl_begin in Es. rewrite Hv in Es. apply validate_spec in Hv. destruct Hv as (_ & Hs).
  rewrite size_prod in Es by auto. assert (E1 : s = Stl e (shape e) (0 =? zprod (shape e))) by congruence. subst s. clear Es.
  pose proof (inshape_pos _ _ Hi) as Hp. pose proof (zprod_pos _ Hp). replace (0 =? zprod (shape e)) with false by lia.
  assert (E0 : e = goto e (fz (map (fun _ => 0) (shape e)))).
  { transitivity (goto e (fun _ => 0)); [symmetry; apply goto_zero|]. apply goto_ext; auto. intros. unfold fz. rewrite (nth_map _ (shape e) k 0); auto. rewrite shape_length; auto. }
  assert (Hin : inshape (map (fun _ => 0) (shape e)) (shape e)).
  { clear - Hp. induction Hp as [|x l Hx Hp IH]; [constructor|]. constructor; [lia|exact IH]. }
  rewrite E0 at 2. apply stl_path_loop_in; auto.
  - split; auto. intros k Hk. rewrite (nth_map _ (shape e) k 0) by auto. lia.
  - rewrite indices_from_zero by auto. rewrite <- (map_length (rm (shape e))), rm_indices, zrange_length by auto. lia.
  - rewrite indices_from_zero by auto. apply in_indices; auto.
Qed.

(* ---- places ---- *)

Lemma flat_map_map_ext : forall {A B} (f : B -> list Z) (g : A -> B) (h : A -> list Z) l, Forall (fun a => f (g a) = h a) l -> flat_map f (map g l) = flat_map h l.
Proof. induction 1; cbn; congruence. Qed.

Lemma places_goto : forall e : expr, wf e -> forall j, (rankn e <= length j)%nat -> places (goto e (fz j)) = leaf_places e j.
Proof.
  induction e as [c|dv fr val cp|a di IH|op t IH|sel t IH] using expr_ind2; intros Hw j Hj; cbn [goto places leaf_places].
  - reflexivity.
  - cbn in Hw. destruct Hw as [Hf _]. unfold rankn in Hj; cbn [rank] in Hj. rewrite Nat2Z.id in Hj.
    rewrite cellpos_dotp by auto. rewrite place_dotp, dotp_firstn; [reflexivity|]. rewrite map_length, firstn_length. lia.
  - destruct Hw as (Ha & Hn & Hd). rewrite <- IH; auto.
    + f_equal. apply goto_ext; auto. intros k Hk. unfold rankn in Hk. rewrite <- Hd, Nat2Z.id in Hk. unfold fz.
      rewrite (nth_map _ di k 0%nat) by auto. reflexivity.
    + rewrite map_length. unfold rankn. rewrite <- Hd, Nat2Z.id. lia.
  - destruct Hw as (Hne & Hf). apply wf_Forall in Hf. apply flat_map_map_ext. rewrite Forall_forall in *. intros a Ha. apply IH; auto.
    pose proof (rankn_sub op t Hne ltac:(rewrite Forall_forall; auto) a Ha). lia.
  - destruct Hw as (Hne & Hf). apply wf_Forall in Hf. apply flat_map_map_ext. rewrite Forall_forall in *. intros a Ha. apply IH; auto.
    pose proof (rankn_sub (fun _ => undef) t Hne ltac:(rewrite Forall_forall; auto) a Ha) as H. unfold rankn in *. cbn [rank] in *. lia.
Qed.

End LPath.
