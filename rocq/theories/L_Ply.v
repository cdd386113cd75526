(* Facts about traversal (M_Ply.v). *)
From Coq Require Import ZArith List Lia Bool.
From Coq Require Import ZifyBool ZifyNat.
From Verif Require Import Spec L_Spec Spec_Ply M_Base M_Expr L_Expr M_Ply.
Import ListNotations.
Open Scope Z_scope.

Section LPly.
Context {X W R : Type}.
Notation expr := (expr X W).
Variable post : X -> option R.

(* run a list of computations until one stops *)
Fixpoint runs (l : list (M W X)) : M W (option R) :=
  match l with
  | [] => ret None
  | m::l' => fun w => match m w with
                      | Ok x w' => match post x with Some r => Ok (Some r) w' | None => runs l' w' end
                      | Fail w' => Fail w'
                      | Undef => Undef
                      end
  end.

Lemma runs_app : forall l m w, runs (l ++ m) w =
  match runs l w with Ok None w' => runs m w' | o => o end.
Proof.
  induction l; intros; [reflexivity|]. cbn [runs app]. destruct (a w); auto. destruct (post a0); auto.
Qed.

Lemma visit_runs : forall (get : list Z -> M W X) js w, visit post get js w = runs (map get js) w.
Proof.
  induction js; intros; [reflexivity|]. cbn [visit runs map]. destruct (get a w); auto. destruct (post a0); auto.
Qed.

Lemma visit_app : forall (get : list Z -> M W X) js ks w, visit post get (js ++ ks) w =
  match visit post get js w with Ok None w' => visit post get ks w' | o => o end.
Proof. intros. rewrite !visit_runs, map_app, runs_app. destruct (runs _ w); auto. destruct a; auto. rewrite visit_runs; auto. Qed.

Lemma runs_ext : forall l m, Forall2 (fun a b => forall w, a w = b w) l m -> forall w, runs l w = runs m w.
Proof. induction 1; intros; [reflexivity|]. cbn [runs]. rewrite H. destruct (y w); auto. destruct (post a); auto. Qed.

Lemma upd_upd : forall f k a b i, upd (upd f k a) k b i = upd f k (a+b) i.
Proof. intros. unfold upd. destruct (Nat.eqb i k); lia. Qed.

Definition res_of (o : out W (option R)) (a fin : expr) : out W (option R * expr) :=
  match o with
  | Ok None w' => Ok (None, fin) w'
  | Ok (Some r) w' => Ok (Some r, a) w'
  | Fail w' => Fail w'
  | Undef => Undef
  end.

Lemma inner_spec : forall (e : expr) q, wf e -> forall n f w, exists a,
  inner post n (stepe e q) (goto e f) w =
  res_of (runs (map (fun t => deref (goto e (upd f q t))) (zrange (Z.of_nat n))) w) a (goto e (upd f q (Z.of_nat n))).
Proof.
  intros e q Hw. induction n; intros.
  - exists e. replace (goto e (upd f q (Z.of_nat 0))) with (goto e f); [reflexivity|].
    apply goto_ext; auto. intros. unfold upd. destruct (Nat.eqb k q); lia.
  - cbn [inner]. unfold bind. rewrite zrange_cons by lia. cbn [map runs].
    assert (E0 : goto e (upd f q 0) = goto e f).
    { apply goto_ext; auto. intros. unfold upd. destruct (Nat.eqb k q); lia. }
    rewrite E0. destruct (deref (goto e f) w) as [x w'|w'|].
    + destruct (post x).
      * exists (goto e f). reflexivity.
      * rewrite goto_mov by auto. destruct (IHn (upd f q 1) w') as (a & ->). exists a.
        replace (Z.of_nat (S n) - 1) with (Z.of_nat n) by lia. rewrite map_map.
        f_equal.
        -- f_equal. apply map_ext. intros t. f_equal. apply goto_ext; auto. intros. rewrite upd_upd. reflexivity.
        -- apply goto_ext; auto. intros. rewrite upd_upd. f_equal. lia.
    + exists e. reflexivity.
    + exists e. reflexivity.
Qed.

Lemma inner_spec_z : forall (e : expr) q, wf e -> forall n f w, 0 <= n -> exists a,
  inner post (Z.to_nat n) (stepe e q) (goto e f) w =
  res_of (runs (map (fun t => deref (goto e (upd f q t))) (zrange n)) w) a (goto e (upd f q n)).
Proof.
  intros. destruct (inner_spec e q H (Z.to_nat n) f w) as (a & E). exists a. rewrite Z2Nat.id in E by auto. exact E.
Qed.

(* add index j starting from axis m *)
Definition shiftf (f : nat -> Z) (m : nat) (j : list Z) : nat -> Z :=
  fun k => if (k <? m)%nat then f k else f k + nth (k-m) j 0.

Lemma shiftf_cons : forall f m i j k, shiftf f m (i::j) k = shiftf (upd f m i) (S m) j k.
Proof.
  intros. unfold shiftf, upd. destruct (Nat.eqb_spec k m).
  - subst. replace (m <? m)%nat with false by lia. replace (m <? S m)%nat with true by lia.
    rewrite Nat.sub_diag. reflexivity.
  - destruct (Nat.ltb_spec k m).
    + replace (k <? S m)%nat with true by lia. reflexivity.
    + replace (k <? S m)%nat with false by lia. replace (k - m)%nat with (S (k - S m)) by lia. reflexivity.
Qed.

Lemma skipn_cons : forall {A} (l : list A) k d, (k < length l)%nat -> skipn k l = nth k l d :: skipn (S k) l.
Proof.
  induction l; intros k d H; [simpl in H; lia|]. destruct k; [reflexivity|]. simpl in H.
  change (skipn k l = nth k l d :: skipn (S k) l). apply IHl. lia.
Qed.

Lemma flat_map_single : forall l : list Z, flat_map (fun i => map (cons i) [[]]) l = map (fun i => [i]) l.
Proof. induction l; [reflexivity|]. simpl in *. congruence. Qed.

Definition sub_ok (e : expr) (k : nat) (sub : expr -> M W (option R * expr)) : Prop :=
  forall f w, exists a, sub (goto e f) w =
    res_of (runs (map (fun j => deref (goto e (shiftf f k j))) (indices (skipn k (shape e)))) w) a (goto e f).

Lemma loop_spec : forall e ax sub, wf e -> sub_ok e (S ax) sub -> forall n f w, exists a,
  loopM n ax sub (goto e f) w =
  res_of (runs (flat_map (fun i => map (fun j => deref (goto e (shiftf (upd f ax i) (S ax) j))) (indices (skipn (S ax) (shape e)))) (zrange (Z.of_nat n))) w)
         a (goto e (upd f ax (Z.of_nat n))).
Proof.
  intros e ax sub Hw Hs. induction n; intros.
  - exists e. replace (goto e (upd f ax (Z.of_nat 0))) with (goto e f); [reflexivity|].
    apply goto_ext; auto. intros. unfold upd. destruct (Nat.eqb k ax); lia.
  - cbn [loopM]. unfold bind. rewrite zrange_cons by lia. cbn [flat_map]. rewrite runs_app.
    assert (E0 : forall j, goto e (shiftf (upd f ax 0) (S ax) j) = goto e (shiftf f (S ax) j)).
    { intros. apply goto_ext; auto. intros. unfold shiftf, upd. destruct (k <? S ax)%nat, (Nat.eqb k ax); lia. }
    rewrite (map_ext (fun j => deref (goto e (shiftf (upd f ax 0) (S ax) j))) (fun j => deref (goto e (shiftf f (S ax) j)))) by (intros; rewrite E0; reflexivity).
    destruct (Hs f w) as (a & ->).
    destruct (runs (map _ _) w) as [[r|] w'|w'|]; cbn [res_of]; try (exists a; reflexivity).
    rewrite goto_adv by auto. destruct (IHn (upd f ax 1) w') as (a' & ->). exists a'.
    replace (Z.of_nat (S n) - 1) with (Z.of_nat n) by lia. rewrite flat_map_map. f_equal.
    + f_equal. apply flat_map_ext. intros t. apply map_ext. intros j. f_equal. apply goto_ext; auto.
      intros. unfold shiftf. rewrite !upd_upd. reflexivity.
    + apply goto_ext; auto. intros. rewrite upd_upd. f_equal. lia.

Qed.

Lemma subply_spec : forall (e : expr) r, wf e -> rankn e = S r -> Forall (fun n => 0 <= n) (shape e) ->
  forall k, (k <= r)%nat -> sub_ok e (r-k) (subply post (S r) k (lene e r) (stepe e r)).
Proof.
  intros e r Hw Hr Hs. pose proof (shape_length e) as Hl. rewrite Hr in Hl.
  assert (Hnn : forall k, (k <= r)%nat -> 0 <= lene e k).
  { intros. rewrite <- shape_nth by lia. rewrite Forall_forall in Hs. apply Hs. apply nth_In. lia. }
  induction k; intros Hk f w.
  - cbn [subply]. unfold bind.
    destruct (inner_spec_z e r Hw (lene e r) f w (Hnn r (le_n r))) as (a & ->).
    rewrite Nat.sub_0_r. rewrite (skipn_cons (shape e) r 0) by lia. rewrite shape_nth by lia.
    rewrite skipn_all2 by lia. cbn [indices].
    replace (flat_map (fun i => map (cons i) [[]]) (zrange (lene e r))) with (map (fun i => [i]) (zrange (lene e r)))
      by (symmetry; apply flat_map_single).
    rewrite map_map.
    rewrite (map_ext (fun x => deref (goto e (shiftf f r [x]))) (fun t => deref (goto e (upd f r t)))).
    2: { intros t. f_equal. apply goto_ext; auto. intros. rewrite shiftf_cons. unfold shiftf. destruct (k <? S r)%nat eqn:E; [reflexivity|].
         destruct (k - S r)%nat; simpl; lia. }
    destruct (runs _ w) as [[x|] w'|w'|]; cbn [res_of]; try (exists a; reflexivity).
    unfold ret. rewrite goto_load. exists a. reflexivity.
  - cbn [subply]. unfold bind. rewrite goto_len.
    replace (S r - 1 - S k)%nat with (r - S k)%nat by lia. set (ax := (r - S k)%nat).
    assert (Hsub : sub_ok e (S ax) (subply post (S r) k (lene e r) (stepe e r))).
    { replace (S ax) with (r - k)%nat by lia. apply IHk. lia. }
    destruct (loop_spec e ax _ Hw Hsub (Z.to_nat (lene e ax)) f w) as (a & ->).
    rewrite Z2Nat.id by (apply Hnn; lia).
    rewrite (skipn_cons (shape e) ax 0) by lia. rewrite shape_nth by lia. cbn [indices].
    rewrite map_flat_map.
    rewrite (flat_map_ext (fun x => map (fun j => deref (goto e (shiftf f ax j))) (map (cons x) (indices (skipn (S ax) (shape e)))))
      (fun i => map (fun j => deref (goto e (shiftf (upd f ax i) (S ax) j))) (indices (skipn (S ax) (shape e))))).
    2: { intros i. rewrite map_map. apply map_ext. intros j. f_equal. apply goto_ext; auto. intros. apply shiftf_cons. }
    destruct (runs _ w) as [[x|] w'|w'|]; cbn [res_of]; try (exists a; reflexivity).
    unfold ret. rewrite goto_adv by auto. exists e. f_equal. f_equal. apply goto_ext; auto. intros.
    rewrite upd_upd. unfold upd. destruct (Nat.eqb k0 ax); lia.

Qed.

Lemma visit_at : forall e : expr, wf e -> forall w,
  runs (map (fun j => deref (goto e (fz j))) (indices (shape e))) w = visit post (at_ e) (indices (shape e)) w.
Proof.
  intros. rewrite visit_runs. apply runs_ext. apply Forall2_map_map. intros j Hj w'.
  apply in_indices in Hj. apply deref_at; auto.
  - rewrite (inshape_length _ _ Hj), shape_length. lia.
  - apply okidx_inshape; auto.
Qed.

Lemma rank0_visit : forall e : expr, wf e -> rankn e = 0%nat -> forall w,
  (x <- deref e ;; ret (post x)) w = visit post (at_ e) (indices (shape e)) w.
Proof.
  intros e Hw Hr w. unfold shape. rewrite Hr. cbn [seq map indices visit]. unfold bind.
  rewrite <- deref_at; auto.
  - replace (goto e (fz [])) with e.
    2: { rewrite <- (goto_zero e) at 1. apply goto_ext; auto. rewrite Hr. lia. }
    destruct (deref e w); auto. unfold ret. destruct (post a); reflexivity.
  - rewrite Hr. auto.
  - intros k Hk. lia.
Qed.

Theorem ply_fixed_spec : forall e : expr, wf e -> validate e = true -> forall w,
  ply_fixed post e w = visit post (at_ e) (indices (shape e)) w.
Proof.
  intros e Hw Hv w. unfold ply_fixed. rewrite Hv. apply validate_spec in Hv. destruct Hv as (_ & Hs).
  destruct (rankn e) as [|r] eqn:Hr.
  - apply rank0_visit; auto.
  - unfold bind. pose proof (subply_spec e r Hw Hr Hs r (le_n r)) as H. rewrite Nat.sub_diag in H.
    specialize (H (fun _ => 0) w). rewrite goto_zero in H. destruct H as (a & ->). cbn [skipn].
    rewrite (map_ext (fun j => deref (goto e (shiftf (fun _ => 0) 0 j))) (fun j => deref (goto e (fz j)))).
    2: { intros j. f_equal. apply goto_ext; auto. intros. unfold shiftf, fz. cbn. rewrite Nat.sub_0_r. reflexivity. }
    rewrite visit_at by auto.
    destruct (visit _ _ _ w) as [[x|] w'|w'|]; reflexivity.
Qed.

(* Odometer *)

Fixpoint succ (s i : list Z) : option (list Z) :=
  match s, i with
  | n::s', x::i' => match succ s' i' with
                    | Some j => Some (x::j)
                    | None => if x+1 <? n then Some (x+1 :: map (fun _ => 0) s') else None
                    end
  | _, _ => None
  end.

Fixpoint indices_from (s i : list Z) : list (list Z) :=
  match s, i with
  | n::s', x::i' => map (cons x) (indices_from s' i') ++ flat_map (fun y => map (cons y) (indices s')) (map (Z.add (x+1)) (zrange (n-x-1)))
  | _, _ => [[]]
  end.

Lemma indices_from_zero : forall s, Forall (fun n => 0 < n) s -> indices_from s (map (fun _ => 0) s) = indices s.
Proof.
  induction 1; [reflexivity|]. cbn [indices_from indices map]. rewrite IHForall. rewrite (zrange_cons x) by auto.
  cbn [flat_map]. f_equal. f_equal. rewrite Z.sub_0_r. reflexivity.
Qed.

Lemma indices_from_succ : forall s i, inshape i s ->
  indices_from s i = i :: match succ s i with Some i' => indices_from s i' | None => [] end.
Proof.
  intros s i H. pose proof (inshape_pos _ _ H) as Hp. induction H; [reflexivity|].
  inversion Hp; subst. specialize (IHForall2 H4). cbn [indices_from succ]. rewrite IHForall2.
  destruct (succ l' l) eqn:E.
  - cbn [map app]. reflexivity.
  - cbn [map app]. destruct (Z.ltb_spec (x+1) y).
    + cbn [indices_from]. rewrite indices_from_zero by auto. f_equal.
      rewrite (zrange_cons (y-x-1)) by lia. cbn [map flat_map]. rewrite Z.add_0_r. f_equal.
      rewrite map_map. f_equal. replace (y - (x+1) - 1) with (y-x-1-1) by lia. apply map_ext. intros; lia.
    + rewrite zrange_nil by lia. reflexivity.
Qed.

Lemma succ_inshape : forall s i i', inshape i s -> succ s i = Some i' -> inshape i' s.
Proof.
  intros s i i' H. pose proof (inshape_pos _ _ H) as Hp. revert i'. induction H; intros i' E; [discriminate|].
  inversion Hp; subst. cbn [succ] in E. destruct (succ l' l) eqn:E'.
  - inversion E; subst. constructor; auto. apply IHForall2; auto.
  - destruct (Z.ltb_spec (x+1) y); [|discriminate]. inversion E; subst. constructor; [lia|].
    clear - H4. induction H4; constructor; auto; lia.
Qed.

Lemma succ_snoc : forall s i n x, length i = length s ->
  succ (s++[n]) (i++[x]) = if x+1 <? n then Some (i++[x+1]) else match succ s i with Some i' => Some (i'++[0]) | None => None end.
Proof.
  induction s; destruct i; cbn [length app succ]; intros; try discriminate.
  - cbn [map]. destruct (x+1 <? n); reflexivity.
  - rewrite IHs by lia. destruct (Z.ltb_spec (x+1) n).
    + reflexivity.
    + destruct (succ s i); [reflexivity|]. destruct (z+1 <? a); [|reflexivity].
      rewrite map_app. reflexivity.
Qed.

Lemma zupd_length : forall z k f, length (zupd z k f) = length z.
Proof. induction z; destruct k; simpl; intros; auto. Qed.

Lemma zk_zupd : forall z k f i, (k < length z)%nat -> zk (zupd z k f) i = if Nat.eqb i k then f (zk z k) else zk z i.
Proof.
  unfold zk. induction z; simpl; intros; [lia|]. destruct k; destruct i; simpl; auto.
  rewrite IHz by lia. reflexivity.
Qed.

(* The state of the traversal of e represents outer index i. *)
Definition zrep (rk r : nat) (so : list Z) (z : list zt) (i : list Z) : Prop :=
  length z = rk /\ forall k, (k < rk)%nat ->
    zorder (zk z k) = (rk-1-k)%nat /\
    zind (zk z k) = (if (k <? r)%nat then nth (r-1-k) i 0 else 0) /\
    ((k < r)%nat -> zsha (zk z k) = nth (r-1-k) so 0).

Lemma nth_repeat0 : forall n k, nth k (repeat 0 n) 0 = 0.
Proof. induction n; destruct k; simpl; auto. Qed.

Lemma nth_app_zeros : forall i n k, nth k (i ++ repeat 0 n) 0 = nth k i 0.
Proof.
  intros. destruct (Nat.lt_ge_cases k (length i)).
  - rewrite app_nth1; auto.
  - rewrite app_nth2, nth_repeat0 by auto. rewrite nth_overflow; auto.
Qed.

Lemma odo_spec : forall (e : expr) rk r o so, wf e -> (r + o = rk)%nat -> length so = r ->
  forall n k z i, (n + k = r)%nat -> inshape i (firstn n so) -> zrep rk r so z (i ++ repeat 0 k) ->
  match succ (firstn n so) i with
  | Some i' => exists z', odo n k o z (goto e (fz (i ++ repeat 0 k))) = (false, z', goto e (fz (i' ++ repeat 0 k))) /\ zrep rk r so z' (i' ++ repeat 0 k)
  | None => exists z' a, odo n k o z (goto e (fz (i ++ repeat 0 k))) = (true, z', a) /\ zrep rk r so z' (repeat 0 r)
  end.
Proof.
  intros e rk r o so Hw Hro Hso. induction n; intros k z i Hnk Hi Hz.
  - cbn [firstn succ odo]. inversion Hi; subst. exists z. eexists. split; [reflexivity|].
    cbn in Hz. simpl in Hz. assert (k = length so) by lia. subst k. exact Hz.
  - assert (Hfs : firstn (S n) so = firstn n so ++ [nth n so 0]).
    { clear - Hnk Hso. assert (n < length so)%nat by lia. clear Hnk Hso. revert n H. induction so; intros; [simpl in H; lia|].
      destruct n; [reflexivity|]. cbn [firstn nth app]. f_equal. apply IHso. simpl in H. lia. }
    rewrite Hfs in *. pose proof (inshape_length _ _ Hi) as Hil. rewrite app_length, firstn_length in Hil. simpl in Hil.
    assert (exists i0 x, i = i0 ++ [x]) as (i0 & x & ->).
    { destruct i using rev_ind; [simpl in Hil; lia|]. eauto. }
    rewrite app_length in Hil. simpl in Hil.
    assert (Hi0 : inshape i0 (firstn n so) /\ 0 <= x < nth n so 0).
    { apply Forall2_app_inv_l in Hi. destruct Hi as (l1 & l2 & H1 & H2 & E). inversion H2; subst. inversion H5; subst.
      assert (El : length (firstn n so) = length l1) by (rewrite firstn_length; pose proof (inshape_length _ _ H1); lia).
      apply app_inj_tail in E. destruct E; subst. split; auto. }
    destruct Hi0 as (Hi0 & Hx).
    assert (Hi0l : length i0 = n) by lia.
    rewrite succ_snoc by (rewrite firstn_length; lia).
    destruct Hz as (Hzl & Hz). cbn [odo].
    assert (Hkl : (k < length z)%nat) by lia.
    rewrite !zk_zupd by auto. rewrite Nat.eqb_refl. cbn [zind zsha].
    destruct (Hz k ltac:(lia)) as (Ho & Hind & Hsha). specialize (Hsha ltac:(lia)).
    replace (k <? r)%nat with true in Hind by lia. replace (r-1-k)%nat with n in * by lia.
    rewrite <- app_assoc in Hind. rewrite app_nth2 in Hind by lia. rewrite Hi0l, Nat.sub_diag in Hind. cbn in Hind.
    rewrite Hind, Hsha.
    assert (Hax : zorder (if Nat.eqb (o+k) k then {| zorder := zorder (zk z k); zsha := nth n so 0; zind := x+1 |} else zk z (o+k)) = n).
    { destruct (Nat.eqb_spec (o+k) k); cbn [zorder]; [rewrite Ho; lia|]. destruct (Hz (o+k)%nat ltac:(lia)) as (-> & _). lia. }
    rewrite Hax.
    assert (Hup : forall k0 d, upd (fz ((i0 ++ [x]) ++ repeat 0 k)) n d k0 = fz ((i0 ++ [x+d]) ++ repeat 0 k) k0).
    { intros. unfold upd, fz. rewrite !nth_app_zeros. destruct (Nat.eqb_spec k0 n).
      - subst. rewrite !app_nth2, Nat.sub_diag by lia. reflexivity.
      - destruct (Nat.lt_ge_cases k0 (length i0)); [rewrite !app_nth1; auto|].
        rewrite !app_nth2 by lia. destruct (k0 - length i0)%nat eqn:E; [lia|]. destruct n1; reflexivity. }
    destruct (Z.ltb_spec (x+1) (nth n so 0)).
    + eexists. split.
      * f_equal. rewrite goto_adv by auto. apply goto_ext; auto.
      * split; [rewrite zupd_length; auto|]. intros k0 Hk0. rewrite zk_zupd by auto.
        destruct (Hz k0 Hk0) as (Ho' & Hind' & Hsha'). destruct (Nat.eqb_spec k0 k).
        -- subst k0. cbn [zorder zind zsha]. split; auto. split; auto.
           replace (k <? r)%nat with true by lia. replace (r-1-k)%nat with n by lia.
           rewrite <- app_assoc, app_nth2, Hi0l, Nat.sub_diag by lia. cbn. rewrite Hind. reflexivity.
        -- split; auto. split; auto. rewrite Hind'. destruct (Nat.ltb_spec k0 r); auto.
           pose proof (Hup (r-1-k0)%nat 1) as HH. unfold upd, fz in HH. destruct (Nat.eqb_spec (r-1-k0) n); [lia|exact HH].
    + rewrite goto_adv by auto.
      assert (Hx1 : x + 1 = nth n so 0) by lia.
      replace (goto e (upd (fz ((i0 ++ [x]) ++ repeat 0 k)) n (1 - nth n so 0))) with (goto e (fz (i0 ++ repeat 0 (S k)))).
      2: { apply goto_ext; auto. intros. rewrite Hup. replace (x + (1 - nth n so 0)) with 0 by lia.
           rewrite <- app_assoc. reflexivity. }
      specialize (IHn (S k) (zupd (zupd z k (fun x0 => {| zorder := zorder x0; zsha := zsha x0; zind := zind x0 + 1 |})) k
          (fun x0 => {| zorder := zorder x0; zsha := zsha x0; zind := 0 |})) i0 ltac:(lia) Hi0).
      destruct (succ (firstn n so) i0) as [i'|] eqn:Es.
      * rewrite <- app_assoc. change ([0] ++ repeat 0 k) with (repeat 0 (S k)). apply IHn. split.
        { rewrite !zupd_length; auto. }
        intros k0 Hk0. rewrite !zk_zupd by (rewrite ?zupd_length; auto). rewrite Nat.eqb_refl. cbn [zorder zsha zind].
        destruct (Hz k0 Hk0) as (Ho' & Hind' & Hsha'). destruct (Nat.eqb_spec k0 k).
        -- subst k0. cbn [zorder zind zsha]. split; auto. split.
           ++ replace (k <? r)%nat with true by lia. replace (r-1-k)%nat with n by lia.
              rewrite app_nth2, Hi0l, Nat.sub_diag by lia. reflexivity.
           ++ intros. replace (r-1-k)%nat with n by lia. auto.
        -- split; auto. split; auto. rewrite Hind'. destruct (Nat.ltb_spec k0 r); auto.
           rewrite !nth_app_zeros. destruct (Nat.lt_ge_cases (r-1-k0) (length i0)); [rewrite app_nth1; auto|].
           rewrite app_nth2 by lia. rewrite (nth_overflow i0) by lia. destruct (r-1-k0-length i0)%nat eqn:E; [lia|]. destruct n1; reflexivity.
      * apply IHn. split.
        { rewrite !zupd_length; auto. }
        intros k0 Hk0. rewrite !zk_zupd by (rewrite ?zupd_length; auto). rewrite Nat.eqb_refl. cbn [zorder zsha zind].
        destruct (Hz k0 Hk0) as (Ho' & Hind' & Hsha'). destruct (Nat.eqb_spec k0 k).
        -- subst k0. cbn [zorder zind zsha]. split; auto. split.
           ++ replace (k <? r)%nat with true by lia. replace (r-1-k)%nat with n by lia.
              rewrite app_nth2, Hi0l, Nat.sub_diag by lia. reflexivity.
           ++ intros. replace (r-1-k)%nat with n by lia. auto.
        -- split; auto. split; auto. rewrite Hind'. destruct (Nat.ltb_spec k0 r); auto.
           rewrite !nth_app_zeros. destruct (Nat.lt_ge_cases (r-1-k0) (length i0)); [rewrite app_nth1; auto|].
           rewrite app_nth2 by lia. rewrite (nth_overflow i0) by lia. destruct (r-1-k0-length i0)%nat eqn:E; [lia|]. destruct n1; reflexivity.
Qed.


(* ply_ravel *)

Definition zclean (z : list zt) : Prop := Forall (fun x => zind x = 0) z.

Lemma zrep_clean : forall rk r so z, zrep rk r so z (repeat 0 r) -> zclean z.
Proof.
  intros rk r so z (Hl & H). apply Forall_forall. intros x Hx. apply (In_nth _ _ zt0) in Hx. destruct Hx as (k & Hk & <-).
  destruct (H k ltac:(lia)) as (_ & E & _). unfold zk in E. rewrite E. destruct (k <? r)%nat; auto. apply nth_repeat0.
Qed.

Definition zord (rk : nat) (z : list zt) : Prop := length z = rk /\ forall k, (k < rk)%nat -> zorder (zk z k) = (rk-1-k)%nat.

Lemma zsetorder_length : forall z rk i, length (zsetorder rk i z) = length z.
Proof. induction z; simpl; intros; auto. Qed.

Lemma zsetorder_nth : forall z rk i k, (k < length z)%nat ->
  zk (zsetorder rk i z) k = Zt (rk-1-(i+k)) (zsha (zk z k)) (zind (zk z k)).
Proof.
  unfold zk. induction z; simpl; intros; [lia|]. destruct k.
  - rewrite Nat.add_0_r. reflexivity.
  - rewrite IHz by lia. replace (S i + k)%nat with (i + S k)%nat by lia. reflexivity.
Qed.

Lemma zresize_length : forall z n, length (zresize z n) = n.
Proof. intros. unfold zresize. rewrite app_length, firstn_length, repeat_length. lia. Qed.

Lemma zresize_clean : forall z n, zclean z -> zclean (zresize z n).
Proof.
  intros. unfold zresize. apply Forall_app. split.
  - rewrite <- (firstn_skipn n z) in H. apply Forall_app in H. tauto.
  - apply Forall_forall. intros x Hx. apply repeat_spec in Hx. subst. reflexivity.
Qed.

Lemma zclean_nth : forall z k, zclean z -> zind (zk z k) = 0.
Proof.
  intros. unfold zk. destruct (Nat.lt_ge_cases k (length z)).
  - unfold zclean in H. rewrite Forall_forall in H. apply H. apply nth_In; auto.
  - rewrite nth_overflow by auto. reflexivity.
Qed.

Definition merged (e : expr) (rk r : nat) : Prop :=
  forall i j, length i = r -> length j = (rk - r)%nat ->
  goto e (fz (i ++ j)) = goto e (fz (i ++ repeat 0 (rk-r-1) ++ [rm (skipn r (shape e)) j])).

Lemma merged_base : forall (e : expr) r, rankn e = S r -> merged e (S r) r.
Proof.
  intros e r Hr i j Hi Hj. replace (S r - r)%nat with 1%nat in * by lia. destruct j as [|x [|]]; try (simpl in Hj; lia).
  simpl repeat. cbn [app]. rewrite (skipn_cons (shape e) r 0) by (rewrite shape_length; lia).
  rewrite skipn_all2 by (rewrite shape_length; lia). cbn [rm zprod]. replace (x*1+0) with x by ring. reflexivity.
Qed.

Lemma fz_middle : forall i x y n k, fz (i ++ [x] ++ repeat 0 n ++ [y]) k = upd (fz (i ++ repeat 0 (S n) ++ [y])) (length i) x k.
Proof.
  intros. unfold fz, upd. destruct (Nat.eqb_spec k (length i)).
  - subst. rewrite !(app_nth2 i), Nat.sub_diag by lia. cbn. lia.
  - destruct (Nat.lt_ge_cases k (length i)); [rewrite !app_nth1; auto|].
    rewrite !(app_nth2 i) by lia. destruct (k - length i)%nat eqn:E; [lia|]. reflexivity.
Qed.

Lemma fz_last : forall i x y n k, fz (i ++ repeat 0 n ++ [y + x]) k = upd (fz (i ++ repeat 0 n ++ [y])) (length i + n) x k.
Proof.
  intros. unfold fz, upd. rewrite !app_assoc. assert (Hl : length (i ++ repeat 0 n) = (length i + n)%nat) by (rewrite app_length, repeat_length; lia).
  rewrite <- Hl. generalize (i ++ repeat 0 n). intros l. destruct (Nat.eqb_spec k (length l)).
  - subst. rewrite !(app_nth2 l) by lia. rewrite Nat.sub_diag. reflexivity.
  - destruct (Nat.lt_ge_cases k (length l)); [rewrite !(app_nth1 l); auto|].
    rewrite !(app_nth2 l) by auto. destruct (k - length l)%nat as [|m] eqn:E; [lia|]. destruct m; reflexivity.
Qed.

Lemma merged_step : forall (e : expr) rk r, wf e -> rankn e = rk -> (S r < rk)%nat -> merged e rk (S r) ->
  keep e (zprod (skipn (S r) (shape e))) (rk-1) r = true -> merged e rk r.
Proof.
  intros e rk r Hw Hr Hlt Hm Hk i j Hi Hj.
  destruct j as [|x j]; [simpl in Hj; lia|]. simpl in Hj.
  replace (i ++ x :: j) with ((i ++ [x]) ++ j) by (rewrite <- app_assoc; reflexivity).
  rewrite Hm by (rewrite ?app_length; simpl; lia).
  transitivity (goto e (upd (fz (i ++ repeat 0 (rk-r-1) ++ [rm (skipn (S r) (shape e)) j])) r x)).
  { apply goto_ext; auto. intros. rewrite <- app_assoc. rewrite fz_middle. rewrite Hi.
    replace (S (rk - S r - 1)) with (rk - r - 1)%nat by lia. reflexivity. }
  rewrite (goto_keep_move e _ _ _ Hw Hk).
  apply goto_ext; auto. intros.
  rewrite (skipn_cons (shape e) r 0) by (rewrite shape_length; lia). cbn [rm].
  rewrite Z.add_comm. rewrite fz_last. rewrite Hi. replace (r + (rk - r - 1))%nat with (rk - 1)%nat by lia.
  rewrite (Z.mul_comm x). reflexivity.
Qed.

Lemma merge_spec : forall (e : expr) rk z, wf e -> rankn e = rk -> zord rk z ->
  forall r o ss, (r + o = rk)%nat -> (0 < o)%nat -> ss = zprod (skipn r (shape e)) -> merged e rk r ->
  exists r' o' ss', merge e z r o ss = (r', o', ss') /\ (r' + o' = rk)%nat /\ (0 < o')%nat /\
    ss' = zprod (skipn r' (shape e)) /\ merged e rk r'.
Proof.
  intros e rk z Hw Hr (Hl & Hz). induction r; intros o ss Hro Ho Hss Hm.
  - exists 0%nat, o, ss. auto.
  - cbn [merge]. rewrite !Hz by lia. destruct (keep e ss (rk-1-0) (rk-1-o)) eqn:E.
    + apply IHr; try lia.
      * subst ss. rewrite (skipn_cons (shape e) r 0) by (rewrite shape_length; lia). cbn [zprod].
        rewrite shape_nth by lia. replace (rk - 1 - o)%nat with r by lia. ring.
      * apply merged_step; auto; try lia. subst ss. rewrite Nat.sub_0_r in E. replace (rk-1-o)%nat with r in E by lia. exact E.
    + exists (S r), o, ss. repeat split; auto.
Qed.

Lemma setsha_spec : forall (e : expr) rk r o so, rankn e = rk -> (r + o = rk)%nat -> (0 < o)%nat -> so = firstn r (shape e) ->
  forall n k z, (n + k = r)%nat -> zord rk z -> zclean z ->
  (forall k', (k' < k)%nat -> zsha (zk z k') = nth (r-1-k') so 0 /\ 0 < nth (r-1-k') so 0) ->
  exists z' b, setsha e z n k o = (z', b) /\ zclean z' /\
    (b = true -> exists k', (k' < r)%nat /\ nth k' (shape e) 0 <= 0) /\
    (b = false -> zrep rk r so z' (repeat 0 r) /\ Forall (fun n => 0 < n) so).
Proof.
  intros e rk r o so Hr Hro Ho Hso. assert (Hsol : length so = r) by (subst so; rewrite firstn_length, shape_length; lia).
  assert (Hson : forall k, (k < r)%nat -> nth k so 0 = nth k (shape e) 0).
  { intros. subst so. rewrite <- (firstn_skipn r (shape e)) at 2. rewrite app_nth1; auto. rewrite firstn_length, shape_length. lia. }
  induction n; intros k z Hnk (Hzl & Hz) Hc Hk.
  - exists z, false. split; [reflexivity|]. split; [auto|]. split; [discriminate|]. intros _.
    assert (k = r) by lia. subst k. split.
    + split; auto. intros k Hk'. split; auto. split.
      * rewrite zclean_nth by auto. destruct (k <? r)%nat; auto. rewrite nth_repeat0. auto.
      * intros. apply Hk; auto.
    + apply Forall_forall. intros x Hx. apply (In_nth _ _ 0) in Hx. destruct Hx as (q & Hq & <-).
      destruct (Hk (r-1-q)%nat) as (_ & H); [lia|]. replace (r-1-(r-1-q))%nat with q in H by lia. auto.
  - cbn [setsha]. rewrite Hz by lia. replace (rk - 1 - (o + k))%nat with (r-1-k)%nat by lia.
    assert (El : lene e (r-1-k) = nth (r-1-k) so 0).
    { rewrite Hson by lia. rewrite shape_nth by lia. reflexivity. }
    assert (Hc' : zclean (zupd z k (fun x => {| zorder := zorder x; zsha := lene e (r-1-k); zind := zind x |}))).
    { clear - Hc. unfold zclean in *. generalize (lene e (r-1-k)). intros l0. revert k. induction Hc; intros; simpl; [constructor|].
      destruct k; constructor; auto. }
    destruct (Z.geb_spec 0 (lene e (r-1-k))).
    + eexists. exists true. split; [reflexivity|]. split; [auto|]. split; [|discriminate]. intros _.
      exists (r-1-k)%nat. split; [lia|]. rewrite <- Hson by lia. lia.
    + apply IHn; auto; try lia.
      * split; [rewrite zupd_length; auto|]. intros k0 Hk0. rewrite zk_zupd by lia. destruct (Nat.eqb_spec k0 k).
        -- subst. cbn [zorder]. auto.
        -- auto.
      * intros k' Hk'. rewrite zk_zupd by lia. destruct (Nat.eqb_spec k' k).
        -- subst. cbn [zsha]. split; lia.
        -- apply Hk. lia.
Qed.

Lemma ravel_loop_spec : forall (e : expr) rk r o so, wf e -> rankn e = rk -> (r + o = rk)%nat -> (0 < o)%nat -> length so = r ->
  forall ss, 0 <= ss -> forall fuel z i w, inshape i so -> (length (indices_from so i) <= fuel)%nat -> zrep rk r so z i ->
  exists z', ravel_loop post fuel r o ss (stepe e (rk-1)) z (goto e (fz (i ++ repeat 0 (rk-r)))) w =
    (runs (flat_map (fun i => map (fun t => deref (goto e (fz (i ++ repeat 0 (rk-r-1) ++ [t])))) (zrange ss)) (indices_from so i)) w, z') /\
    (forall w', runs (flat_map (fun i => map (fun t => deref (goto e (fz (i ++ repeat 0 (rk-r-1) ++ [t])))) (zrange ss)) (indices_from so i)) w = Ok None w' ->
       zclean z').
Proof.
  intros e rk r o so Hw Hr Hro Ho Hso ss Hss. induction fuel; intros z i w Hi Hf Hz.
  { rewrite indices_from_succ in Hf by auto. simpl in Hf. lia. }
  rewrite indices_from_succ in * by auto. cbn [flat_map ravel_loop].
  pose proof (inshape_length _ _ Hi) as Hil.
  destruct (inner_spec_z e (rk-1) Hw ss (fz (i ++ repeat 0 (rk-r))) w Hss) as (a & ->).
  rewrite (map_ext (fun t => deref (goto e (upd (fz (i ++ repeat 0 (rk-r))) (rk-1) t))) (fun t => deref (goto e (fz (i ++ repeat 0 (rk-r-1) ++ [t]))))).
  2: { intros t. f_equal. apply goto_ext; auto. intros k _. replace t with (0 + t) at 2 by lia. rewrite fz_last.
       rewrite Hil, Hso. replace (r + (rk-r-1))%nat with (rk-1)%nat by lia. unfold upd.
       replace (fz (i ++ repeat 0 (rk-r-1) ++ [0]) k) with (fz (i ++ repeat 0 (rk-r)) k); auto.
       change [0] with (repeat 0 1). rewrite <- repeat_app. replace (rk-r-1+1)%nat with (rk-r)%nat by lia. reflexivity. }
  rewrite runs_app.
  destruct (runs (map _ _) w) as [[x|] w1|w1|] eqn:E; cbn [res_of].
  - exists z. split; auto. discriminate.
  - rewrite goto_load.
    pose proof (odo_spec e rk r o so Hw Hro Hso r 0 z i ltac:(lia)) as Hodo.
    assert (Hfa : firstn r so = so) by (rewrite <- Hso; apply firstn_all).
    rewrite Hfa in Hodo. cbn [repeat] in Hodo. rewrite app_nil_r in Hodo.
    specialize (Hodo Hi Hz).
    replace (goto e (fz (i ++ repeat 0 (rk-r)))) with (goto e (fz i)).
    2: { apply goto_ext; auto. intros. unfold fz. rewrite nth_app_zeros. reflexivity. }
    destruct (succ so i) as [i'|] eqn:Es.
    + destruct Hodo as (z' & Eo & Hz'). rewrite app_nil_r in Eo. rewrite Eo. rewrite app_nil_r in Hz'.
      assert (Hi' : inshape i' so) by (eapply succ_inshape; eauto).
      replace (goto e (fz i')) with (goto e (fz (i' ++ repeat 0 (rk-r)))).
      2: { apply goto_ext; auto. intros. unfold fz. rewrite nth_app_zeros. reflexivity. }
      apply IHfuel; auto. simpl in Hf. lia.
    + destruct Hodo as (z' & a' & Eo & Hz'). rewrite Eo. cbn [flat_map runs]. exists z'. split; [reflexivity|].
      intros _ _. eapply zrep_clean; eauto.
  - exists z. split; auto. discriminate.
  - exists z. split; auto. discriminate.
Qed.

Lemma ravel_fuel_ok : forall rk r so z i, zrep rk r so z i -> (r <= rk)%nat -> length so = r -> Forall (fun n => 0 < n) so ->
  (length (indices so) <= ravel_fuel z r)%nat.
Proof.
  intros rk r so z i (Hzl & Hz) Hr Hso Hp. unfold ravel_fuel.
  assert (Hf : map zsha (firstn r z) = rev so).
  { apply nth_ext with (d := zsha zt0) (d' := 0).
    - rewrite map_length, firstn_length, rev_length. lia.
    - intros k Hk. rewrite map_length, firstn_length in Hk. rewrite map_nth. rewrite rev_nth by lia.
      destruct (Hz k ltac:(lia)) as (_ & _ & H). specialize (H ltac:(lia)).
      rewrite Hso. replace (r - S k)%nat with (r-1-k)%nat by lia. rewrite <- H. f_equal. unfold zk.
      rewrite <- (firstn_skipn r z) at 2. rewrite app_nth1; auto. rewrite firstn_length. lia. }
  assert (Hp' : fold_right (fun x n => Z.to_nat (zsha x) * n)%nat 1%nat (firstn r z) = Z.to_nat (zprod (rev so))).
  { rewrite <- Hf. assert (Hq : Forall (fun n => 0 <= n) (map zsha (firstn r z))).
    { rewrite Hf. apply Forall_rev. eapply Forall_impl; [|exact Hp]. simpl; lia. }
    clear - Hq. induction (firstn r z); [reflexivity|]. cbn [fold_right map zprod] in *. inversion Hq; subst.
    rewrite IHl by auto. rewrite Z2Nat.inj_mul; auto. apply zprod_nonneg; auto. }
  assert (Hrev : zprod (rev so) = zprod so).
  { clear. induction so; [reflexivity|]. cbn [rev zprod]. rewrite zprod_app. cbn [zprod]. rewrite IHso. ring. }
  rewrite Hp', Hrev. assert (Hq : Forall (fun n => 0 <= n) so) by (eapply Forall_impl; [|exact Hp]; simpl; lia).
  pose proof (indices_count so Hq). lia.
Qed.

Theorem ply_ravel_spec : forall e : expr, wf e -> validate e = true -> forall z, zclean z -> forall w,
  exists z', ply_ravel post z e w = (visit post (at_ e) (indices (shape e)) w, z') /\
    (forall w', visit post (at_ e) (indices (shape e)) w = Ok None w' -> zclean z').
Proof.
  intros e Hw Hv z Hc w. unfold ply_ravel. rewrite Hv. apply validate_spec in Hv. destruct Hv as (_ & Hs).
  destruct (rankn e) as [|r] eqn:Hr.
  { rewrite rank0_visit by auto. exists z. auto. }
  set (z1 := zsetorder (S r) 0 (zresize z (S r))).
  assert (Hz1 : zord (S r) z1).
  { split; [unfold z1; rewrite zsetorder_length, zresize_length; auto|]. intros k Hk. unfold z1.
    rewrite zsetorder_nth by (rewrite zresize_length; auto). reflexivity. }
  assert (Hc1 : zclean z1).
  { unfold zclean. apply Forall_forall. intros x Hx. apply (In_nth _ _ zt0) in Hx. destruct Hx as (k & Hk & <-).
    change (zind (zk z1 k) = 0). unfold z1 in *. rewrite zsetorder_length in Hk. rewrite zsetorder_nth by auto. cbn [zind].
    apply zclean_nth. apply zresize_clean; auto. }
  replace (zorder (zk z1 0)) with r by (destruct Hz1 as (_ & H); rewrite H by lia; lia).
  destruct (merge_spec e (S r) z1 Hw Hr Hz1 r 1 (lene e r)) as (r' & o & ss & -> & Hro & Ho & Hss & Hm); try lia.
  { rewrite (skipn_cons (shape e) r 0) by (rewrite shape_length; lia). rewrite skipn_all2 by (rewrite shape_length; lia).
    rewrite shape_nth by lia. cbn [zprod]. ring. }
  { apply merged_base; auto. }
  destruct (setsha_spec e (S r) r' o (firstn r' (shape e)) Hr Hro Ho eq_refl r' 0 z1) as (z2 & b & -> & Hc2 & Hbt & Hbf); auto; try lia.
  destruct b.
  - destruct (Hbt eq_refl) as (k & Hk & Hle). rewrite (indices_nonpos (shape e) k) by (rewrite ?shape_length; auto; lia).
    exists z2. split; auto.
  - destruct (Hbf eq_refl) as (Hz2 & Hpos).
    replace (zorder (zk z2 0)) with (S r - 1)%nat by (destruct Hz2 as (_ & H); destruct (H 0%nat ltac:(lia)) as (-> & _); lia).
    set (so := firstn r' (shape e)) in *.
    assert (Hsol : length so = r') by (unfold so; rewrite firstn_length, shape_length; lia).
    assert (Hsp : Forall (fun n => 0 <= n) (skipn r' (shape e))).
    { rewrite <- (firstn_skipn r' (shape e)) in Hs. apply Forall_app in Hs. tauto. }
    assert (Hss0 : 0 <= ss) by (subst ss; apply zprod_nonneg; auto).
    assert (Hmz : map (fun _ => 0) so = repeat 0 r').
    { rewrite <- Hsol. clear. induction so; simpl; congruence. }
    pose proof (ravel_loop_spec e (S r) r' o so Hw Hr Hro Ho Hsol ss Hss0 (ravel_fuel z2 r') z2 (repeat 0 r') w) as H.
    rewrite <- Hmz in H. rewrite indices_from_zero in H by auto. rewrite Hmz in H.
    replace (goto e (fz (repeat 0 r' ++ repeat 0 (S r - r')))) with e in H.
    2: { rewrite <- (goto_zero e) at 1. apply goto_ext; auto. intros. unfold fz. rewrite nth_app_zeros, nth_repeat0. reflexivity. }
    assert (Hin : inshape (repeat 0 r') so).
    { apply nth_inshape; [rewrite repeat_length; auto|]. intros k Hk. rewrite nth_repeat0. rewrite Forall_forall in Hpos.
      split; [lia|]. apply Hpos. apply nth_In; auto. }
    assert (Hfu : (length (indices so) <= ravel_fuel z2 r')%nat) by (eapply ravel_fuel_ok; eauto; lia).
    specialize (H Hin Hfu Hz2).
    assert (Ev : forall w, runs (flat_map (fun i => map (fun t => deref (goto e (fz (i ++ repeat 0 (S r - r' - 1) ++ [t])))) (zrange ss)) (indices so)) w =
                 visit post (at_ e) (indices (shape e)) w).
    { intros w'. rewrite <- visit_at by auto. f_equal.
      rewrite <- (firstn_skipn r' (shape e)) at 1. fold so. rewrite indices_app. rewrite map_flat_map.
      apply flat_map_ext_in. intros i Hi. rewrite map_map. subst ss. rewrite <- rm_indices by auto. rewrite map_map.
      apply map_ext_in. intros j Hj. f_equal. symmetry. apply Hm.
      - rewrite (indices_length_in _ _ Hi). auto.
      - rewrite (indices_length_in _ _ Hj). rewrite skipn_length, shape_length. lia. }
    rewrite Ev in H. exact H.
Qed.

End LPly.
