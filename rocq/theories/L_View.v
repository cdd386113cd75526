(* Lemmas for M_View.v. *)
From Coq Require Import ZArith List Lia Bool Permutation.
From Coq Require Import ZifyBool ZifyNat.
From Verif Require Import Spec L_Spec Spec_Expr M_Base M_View.
Import ListNotations.
Open Scope Z_scope.

Lemma set_nth_length : forall A (l : list A) k x, length (set_nth l k x) = length l.
Proof. induction l; destruct k; cbn; auto. Qed.
Lemma set_nth_nth : forall A (l : list A) k x i d, nth i (set_nth l k x) d = if Nat.eqb i k && (k <? length l)%nat then x else nth i l d.
Proof.
  induction l; destruct k, i; cbn [set_nth nth Nat.eqb length andb]; rewrite ?IHl; auto.
  - destruct (Nat.eqb_spec i k); auto.
  - change (S k <? S (length l))%nat with (k <? length l)%nat. auto.
Qed.

Lemma place_app : forall dv dw i j, length dv = length i -> place (dv ++ dw) (i ++ j) = place dv i + place dw j.
Proof. induction dv; destruct i; cbn; intros; try lia. rewrite IHdv by lia. lia. Qed.

Lemma place_nil_r : forall dv, place dv [] = 0.
Proof. destruct dv; auto. Qed.

Lemma place_set_nth : forall dv k d j, (k < length dv)%nat -> (k < length j)%nat ->
  place (set_nth dv k d) j = place dv j + nth k j 0 * (step d - step (nth k dv dim0)).
Proof.
  induction dv; intros k d j Hk Hj; [simpl in Hk; lia|]. destruct j; [simpl in Hj; lia|]. destruct k; cbn [set_nth place nth].
  - ring.
  - rewrite IHdv by (simpl in *; lia). ring.
Qed.

Lemma place_sum : forall dv j, length dv = length j -> place dv j = zsum (map (fun k => nth k j 0 * step (nth k dv dim0)) (seq 0 (length dv))).
Proof.
  induction dv; destruct j; cbn [length]; intros; try lia; auto. cbn [place seq map zsum nth]. rewrite IHdv by lia. rewrite <- seq_shift, map_map. reflexivity.
Qed.

Lemma place_scale : forall c dv j, place (map (fun d => Dim (len d) (step d * c)) dv) j = place dv j * c.
Proof. induction dv; intros; cbn; auto. destruct j; cbn; auto. rewrite IHdv. lia. Qed.

(* ---- filldimv ---- *)
Lemma filldimv_some : forall p, Forall (fun n => 0 <= n) p -> exists dv, filldimv p = Some (dv, zprod p) /\ map len dv = p /\
  forall j, length j = length p -> place dv j = rm p j.
Proof.
  induction 1; cbn.
  - exists []. repeat split.
  - destruct IHForall as (dv & -> & E1 & E2). destruct (Z.geb_spec x 0); [|lia]. eexists. split; [f_equal; f_equal; ring|]. split; [cbn; congruence|].
    intros j Hj. destruct j; [discriminate|]. cbn. rewrite E2 by (simpl in Hj; lia). auto.
Qed.
Lemma filldimv_none : forall p, ~ Forall (fun n => 0 <= n) p -> filldimv p = None.
Proof.
  induction p; intros H; [exfalso; auto|]. cbn. destruct (Forall_dec (fun n => 0 <= n) (fun n => Z_le_dec 0 n) p).
  - destruct (filldimv_some p f) as (dv & -> & _). destruct (Z.geb_spec a 0); auto. exfalso. apply H. constructor; auto.
  - rewrite IHp; auto.
Qed.

(* ---- c_order ---- *)
Fixpoint compact (dv : list dim) (s : Z) : Prop :=
  match dv with
  | [] => True
  | d::dv' => compact dv' s /\ (len d = 1 \/ step d = s * zprod (map len dv'))
  end.


Lemma c_order_loop_spec : forall dv s, c_order_loop (rev dv) true s = true <-> s * zprod (map len dv) = 0 \/ compact dv s.
Proof.
  intros dv.
  assert (H : forall rdv b s, c_order_loop rdv b s = true <-> s * zprod (map len (rev rdv)) = 0 \/ (b = true /\ compact (rev rdv) s)).
  { clear dv. induction rdv; intros b s; cbn [c_order_loop rev].
    - cbn. rewrite Z.mul_1_r. destruct (Z.eqb_spec s 0); destruct b; cbn; intuition lia.
    - rewrite IHrdv. rewrite map_app, zprod_app. cbn [map zprod]. rewrite Z.mul_1_r.
      replace (s * len a * zprod (map len (rev rdv))) with (s * (zprod (map len (rev rdv)) * len a)) by ring.
      assert (Hc : forall rv, compact (rv ++ [a]) s <-> compact rv (s * len a) /\ (len a = 1 \/ step a = s)).
      { induction rv; cbn [app compact].
        - cbn. rewrite Z.mul_1_r. tauto.
        - rewrite IHrv, map_app, zprod_app. cbn [map zprod]. rewrite Z.mul_1_r.
          replace (s * len a * zprod (map len rv)) with (s * (zprod (map len rv) * len a)) by ring. tauto. }
      rewrite Hc. rewrite andb_true_iff, orb_true_iff, !Z.eqb_eq. intuition. }
  intros s. rewrite H, rev_involutive. intuition.
Qed.

Lemma compact_place : forall dv s j, compact dv s -> inshape j (map len dv) -> place dv j = s * rm (map len dv) j.
Proof.
  induction dv; intros s j Hc Hj; inversion Hj; subst; cbn.
  - lia.
  - destruct Hc as (Hc & Hd). rewrite (IHdv s) by auto. destruct Hd as [Hd|Hd].
    + assert (x = 0) by lia. subst. lia.
    + rewrite Hd. ring.
Qed.

(* ones at the end *)
Lemma skip_ones_spec : forall rdv, exists ones, rdv = ones ++ skip_ones rdv /\ Forall (fun d => len d = 1) ones /\ (forall d r, skip_ones rdv = d :: r -> len d <> 1).
Proof.
  induction rdv; cbn [skip_ones].
  - exists []. repeat split; auto. intros; discriminate.
  - destruct (Z.eqb_spec 1 (len a)).
    + destruct IHrdv as (ones & E & F & G). exists (a :: ones). split; [cbn; f_equal; exact E|]. split; auto.
    + exists []. repeat split; auto. intros d r E. inversion E; subst. auto.
Qed.

Lemma zprod_ones : forall dv, Forall (fun d => len d = 1) dv -> zprod (map len dv) = 1.
Proof. induction 1; cbn; auto. rewrite H, IHForall. auto. Qed.
Lemma ones_zero : forall dv j, Forall (fun d => len d = 1) dv -> inshape j (map len dv) -> place dv j = 0 /\ rm (map len dv) j = 0.
Proof.
  induction dv; intros j H Hj; inversion Hj; inversion H; subst; cbn; auto. destruct (IHdv l) as (-> & ->); auto. assert (x = 0) by lia. subst. lia.
Qed.

(* the view as: axes, an axis with length other than 1, axes with length 1; or only the last *)
Lemma tail_cases : forall dv, (Forall (fun d => len d = 1) dv /\ skip_ones (rev dv) = []) \/
  exists pre d ones, dv = pre ++ d :: ones /\ len d <> 1 /\ Forall (fun d => len d = 1) ones /\ skip_ones (rev dv) = d :: rev pre.
Proof.
  intros dv. destruct (skip_ones_spec (rev dv)) as (ones & E & F & G). destruct (skip_ones (rev dv)) as [|d r] eqn:Es.
  - left. rewrite app_nil_r in E. split; auto. rewrite <- (rev_involutive dv), E. apply Forall_rev. auto.
  - right. exists (rev r), d, (rev ones). assert (Ed : dv = rev (ones ++ d :: r)) by (rewrite <- E, rev_involutive; auto).
    rewrite rev_app_distr in Ed. cbn in Ed. rewrite <- app_assoc in Ed. cbn in Ed. split; auto. split; [eapply G; eauto|]. split; [apply Forall_rev; auto|]. rewrite rev_involutive. auto.
Qed.

Lemma zprod_split : forall pre d ones, Forall (fun d => len d = 1) ones -> zprod (map len (pre ++ d :: ones)) = zprod (map len pre) * len d.
Proof. intros. rewrite map_app, zprod_app. cbn. rewrite (zprod_ones ones) by auto. lia. Qed.

Lemma ravel_place : forall dv j, c_order dv false = true -> inner_step dv <> 0 -> inshape j (map len dv) ->
  place dv j = rm (map len dv) j * inner_step dv.
Proof.
  intros dv j Hc Hi Hj. destruct (tail_cases dv) as [(Ho & Es)|(pre & d & ones & E & Hd & Ho & Es)].
  - destruct (ones_zero dv j Ho Hj) as (-> & ->). lia.
  - unfold inner_step in *. rewrite Es in *. unfold c_order in Hc. rewrite Es in Hc.
    pose proof (inshape_pos _ _ Hj) as Hpos.
    assert (Hcp : compact pre (step d * len d)).
    { destruct (rev pre) as [|x r] eqn:Er.
      - assert (Ep : pre = []) by (rewrite <- (rev_involutive pre), Er; auto). subst pre. cbn. auto.
      - rewrite <- Er in Hc. apply c_order_loop_spec in Hc. destruct Hc as [Hc|Hc]; auto. exfalso.
        rewrite E, map_app in Hpos. cbn in Hpos. apply Forall_app in Hpos. destruct Hpos as (P1 & P2). inversion P2; subst.
        assert (0 < zprod (map len pre)) by (apply zprod_pos; auto). nia. }
    rewrite E in Hj. rewrite map_app in Hj. unfold inshape in Hj. apply Forall2_app_inv_r in Hj. destruct Hj as (j1 & j2 & F1 & F2 & ->).
    cbn in F2. inversion F2; subst. clear F2.
    rewrite place_app by (apply inshape_length in F1; rewrite map_length in F1; auto).
    rewrite (compact_place _ _ _ Hcp F1).
    destruct (ones_zero ones l Ho H3) as (G1 & G2). cbn [place]. rewrite G1.
    rewrite map_app. cbn [map]. rewrite rm_app.
    + cbn [rm zprod]. rewrite (zprod_ones ones) by auto. rewrite G2. ring.
    + apply inshape_length in F1. auto.
Qed.

(* ---- transpose ---- *)
Definition lmin (x y : Z) : Z := if x >=? 0 then Z.min x y else y.
(* lengths of the sources of axis d *)
Fixpoint sources (s : list Z) (src : list dim) (d : Z) : list Z :=
  match s, src with
  | sk::s', x::src' => if sk =? d then len x :: sources s' src' d else sources s' src' d
  | _, _ => []
  end.

Lemma transpose_loop_ok : forall s src dst, Forall (fun sk => 0 <= sk < Z.of_nat (length dst)) s -> exists dst', transpose_loop s src dst = Good dst'.
Proof.
  induction s; intros src dst H; cbn [transpose_loop]; [destruct src; eauto|]. destruct src; eauto. inversion H; subst.
  unfold inside. replace ((0 <=? a) && (a <? Z.of_nat (length dst))) with true by lia. apply IHs. rewrite set_nth_length. auto.
Qed.

Lemma transpose_loop_spec : forall s src dst dst', transpose_loop s src dst = Good dst' -> length s = length src ->
  length dst' = length dst /\ Forall (fun sk => 0 <= sk < Z.of_nat (length dst)) s /\
  (forall j, length j = length dst -> place dst' j = place dst j + place src (map (fun sk => nth (Z.to_nat sk) j 0) s)) /\
  (forall d, (d < length dst)%nat -> len (nth d dst' dim0) = fold_left lmin (sources s src (Z.of_nat d)) (len (nth d dst dim0))) /\
  (forall d, (d < length dst)%nat -> step (nth d dst' dim0) = step (nth d dst dim0) + zsum (map (fun p => if fst p =? Z.of_nat d then step (snd p) else 0) (combine s src))).
Proof.
  induction s; intros src dst dst' H Hl; cbn [transpose_loop] in H.
  - destruct src; [|discriminate]. inversion H; subst. cbn. repeat split; auto; intros; lia.
  - destruct src as [|x src]; [discriminate|]. unfold inside in H. destruct ((0 <=? a) && (a <? Z.of_nat (length dst))) eqn:Ea; [|discriminate].
    set (y := nth (Z.to_nat a) dst dim0) in *.
    destruct (IHs _ _ _ H) as (H1 & H2 & H3 & H4 & H5); [simpl in Hl; lia|]. rewrite set_nth_length in *.
    split; auto. split; [constructor; auto; lia|]. split; [|split].
    + intros j Hj. rewrite H3 by auto. rewrite place_set_nth by lia. cbn [map place step]. fold y. ring.
    + intros d Hd. rewrite H4 by auto. rewrite set_nth_nth. cbn [sources].
      destruct (Z.eqb_spec a (Z.of_nat d)).
      * subst a. rewrite Nat2Z.id. rewrite Nat.eqb_refl. destruct (Nat.ltb_spec d (length dst)); [|lia]. cbn [andb len fold_left]. subst y. rewrite Nat2Z.id. reflexivity.
      * destruct (Nat.eqb_spec d (Z.to_nat a)); [lia|]. cbn [andb]. reflexivity.
    + intros d Hd. rewrite H5 by auto. rewrite set_nth_nth. cbn [combine map zsum fst snd].
      destruct (Z.eqb_spec a (Z.of_nat d)).
      * subst a. rewrite Nat2Z.id. rewrite Nat.eqb_refl. destruct (Nat.ltb_spec d (length dst)); [|lia]. cbn [andb step]. subst y. rewrite Nat2Z.id. lia.
      * destruct (Nat.eqb_spec d (Z.to_nat a)); [lia|]. cbn [andb]. lia.
Qed.

Lemma in_sources : forall s src d n, length s = length src -> (In n (sources s src d) <-> exists k, (k < length s)%nat /\ nth k s 0 = d /\ len (nth k src dim0) = n).
Proof.
  induction s; intros src d n Hl; destruct src; try discriminate; cbn [sources].
  - split; [intros []|intros (k & Hk & _); simpl in Hk; lia].
  - simpl in Hl. assert (IH : In n (sources s src d) <-> exists k, (k < length s)%nat /\ nth k s 0 = d /\ len (nth k src dim0) = n) by (apply IHs; lia).
    destruct (Z.eqb_spec a d).
    + split.
      * intros [E|Hin]; [exists 0%nat; cbn; repeat split; auto; lia|]. apply IH in Hin. destruct Hin as (k & H1 & H2 & H3). exists (S k). cbn; repeat split; auto; lia.
      * intros ([|k] & H1 & H2 & H3); cbn in *; auto. right. apply IH. exists k. repeat split; auto; lia.
    + rewrite IH. split.
      * intros (k & H1 & H2 & H3). exists (S k). cbn; repeat split; auto; lia.
      * intros ([|k] & H1 & H2 & H3); cbn in *; [contradiction|]. exists k. repeat split; auto; lia.
Qed.

Lemma fold_lmin : forall l c, Forall (fun n => 0 <= n) l -> 0 <= c ->
  let r := fold_left lmin l c in r <= c /\ (forall n, In n l -> r <= n) /\ (r = c \/ In r l) /\ 0 <= r.
Proof.
  induction l; intros c H Hc; cbn [fold_left].
  - cbn. split; [lia|]. split; [intros n []|]. split; auto.
  - inversion H; subst. replace (lmin c a) with (Z.min c a) by (unfold lmin; destruct (Z.geb_spec c 0); [auto|lia]).
    destruct (IHl (Z.min c a)) as (A & B & C & D); auto; [lia|]. cbv zeta in *. set (r := fold_left lmin l (Z.min c a)) in *.
    split; [lia|]. split; [|split].
    + intros n [<-|Hn]; auto. lia.
    + destruct C as [C|C]; [|right; right; auto]. destruct (Z.min_spec c a) as [(_ & E)|(_ & E)]; rewrite E in C; auto. right; left; auto.
    + lia.
Qed.

Lemma fold_lmin_UNB : forall l, Forall (fun n => 0 <= n) l ->
  let r := fold_left lmin l UNB in (l = [] -> r = UNB) /\ (l <> [] -> 0 <= r /\ In r l /\ forall n, In n l -> r <= n).
Proof.
  intros l H. destruct l; cbn [fold_left].
  - split; auto. intros; contradiction.
  - inversion H; subst. replace (lmin UNB z) with z by reflexivity. destruct (fold_lmin l z) as (A & B & C & D); auto. cbv zeta in *.
    split; [discriminate|]. intros _. split; auto. split.
    + destruct C as [->|C]; [left|right]; auto.
    + intros n [<-|Hn]; auto.
Qed.

Lemma trank_bound : forall s, Forall (fun sk => 0 <= sk) s -> 0 <= trank s /\ Forall (fun sk => 0 <= sk < trank s) s.
Proof.
  intros s H. destruct s; cbn [trank]; [split; auto; lia|].
  assert (G : forall l c, c <= fold_left Z.max l c /\ Forall (fun x => x <= fold_left Z.max l c) l).
  { induction l; intros c; cbn; [split; auto; lia|]. destruct (IHl (Z.max c a)) as (A & B). split; [lia|]. constructor; [lia|auto]. }
  destruct (G s z) as (A & B). inversion H; subst. split; [lia|]. constructor; [lia|]. rewrite Forall_forall in *. intros x Hx. specialize (B x Hx). specialize (H3 x Hx). cbv beta in *; lia.
Qed.

Lemma list_eq_nth : forall A (l m : list A) d, length l = length m -> (forall k, (k < length l)%nat -> nth k l d = nth k m d) -> l = m.
Proof.
  induction l; destruct m; cbn; intros; try discriminate; auto. f_equal.
  - apply (H0 0%nat). lia.
  - apply (IHl m d); [lia|]. intros k Hk. apply (H0 (S k)). lia.
Qed.

(* ---- reshape ---- *)
Lemma tail_match_spec : forall rav rsb acc dv, tail_match rav rsb acc = Some dv ->
  (exists rx, rsb = map len rav ++ rx /\ dv = map (fun n => Dim n 0) (rev rx) ++ rev rav ++ acc) \/
  (exists rx ry, rav = rx ++ ry /\ ry <> [] /\ rsb = map len rx /\ dv = rev rx ++ acc).
Proof.
  induction rav as [|d rav IH]; intros rsb acc dv H; cbn [tail_match] in H.
  - inversion H; subst. left. exists rsb. auto.
  - destruct rsb as [|n rsb].
    + inversion H; subst. right. exists [], (d :: rav). repeat split; auto. discriminate.
    + destruct (Z.eqb_spec (len d) n); [|discriminate]. subst n. apply IH in H. destruct H as [(rx & -> & ->)|(rx & ry & -> & Hn & -> & ->)].
      * left. exists rx. cbn [map app rev]. split; auto. rewrite <- !app_assoc. auto.
      * right. exists (d :: rx), ry. cbn [map app rev]. repeat split; auto. rewrite <- app_assoc. auto.
Qed.

Lemma tail_match_exact : forall dv s, Forall (fun n => 0 <= n) (map len dv) -> length s = length dv -> map len dv = s -> tail_match (rev dv) (rev s) [] = Some dv.
Proof.
  intros dv s _ _ <-. rewrite <- map_rev. rewrite <- (rev_involutive dv) at 3. generalize (rev dv). clear dv. intros rdv.
  assert (G : forall acc, tail_match rdv (map len rdv) acc = Some (rev rdv ++ acc)).
  { induction rdv; intros; cbn; auto. rewrite Z.eqb_refl, IHrdv, <- app_assoc. auto. }
  rewrite G, app_nil_r. auto.
Qed.

Lemma quot_loop_spec : forall s q q', quot_loop q s = Some q' -> q' = q * zprod s /\ (s <> [] -> 0 < q').
Proof.
  induction s; intros q q' H; cbn [quot_loop zprod] in *.
  - inversion H; subst. split; [lia|contradiction].
  - destruct (Z.gtb_spec (q * a) 0); [|discriminate]. apply IHs in H. destruct H as (-> & H). split; [ring|]. intros _. destruct s; [cbn; lia|]. apply H. discriminate.
Qed.

Lemma placeholder_none : forall s la lb, ~ In (-1) s -> placeholder la lb s = Good (s, lb * zprod s).
Proof.
  induction s; intros la lb H; cbn [placeholder zprod].
  - rewrite Z.mul_1_r. auto.
  - destruct (Z.eqb_spec a (-1)); [exfalso; apply H; left; auto|]. rewrite IHs by (intros Hi; apply H; right; auto). cbn. f_equal. f_equal. ring.
Qed.

Lemma placeholder_one : forall s1 s2 la lb, ~ In (-1) s1 ->
  placeholder la lb (s1 ++ -1 :: s2) =
  match quot_loop (lb * zprod s1) s2 with
  | None => Refused
  | Some q => if q =? 0 then UB else if (Z.rem la q =? 0) && (Z.quot la q >=? 0) then Good (s1 ++ Z.quot la q :: s2, la) else Refused
  end.
Proof.
  induction s1; intros s2 la lb H; cbn [app placeholder zprod].
  - rewrite Z.mul_1_r. cbn [Z.eqb]. destruct (quot_loop lb s2); auto.
  - destruct (Z.eqb_spec a (-1)); [exfalso; apply H; left; auto|]. rewrite IHs1 by (intros Hi; apply H; right; auto).
    replace (lb * (a * zprod s1)) with (lb * a * zprod s1) by ring. destruct (quot_loop _ s2); auto. destruct (z =? 0); auto. destruct (_ && _); auto.
Qed.

Lemma dimv_size_prod : forall dv, Forall (fun n => 0 <= n) (map len dv) -> dimv_size dv = zprod (map len dv).
Proof.
  intros dv. unfold dimv_size.
  assert (G : forall s, Forall (fun n => 0 <= n) (map len dv) -> dimv_size_loop dv s = s * zprod (map len dv)).
  { induction dv; intros s H; cbn [dimv_size_loop map zprod]; [ring|]. inversion H; subst. destruct (Z.ltb_spec (len a) 0); [lia|]. rewrite IHdv by auto. ring. }
  intros H. rewrite G by auto. ring.
Qed.

(* an index for each position *)
Lemma rm_onto : forall s n, Forall (fun x => 0 <= x) s -> 0 <= n < zprod s -> exists j, inshape j s /\ rm s j = n.
Proof.
  induction s; intros n H Hn; cbn [zprod] in Hn.
  - exists []. split; [constructor|]. cbn. lia.
  - inversion H; subst. assert (0 < zprod s). { pose proof (zprod_nonneg s H3). nia. }
    destruct (IHs (n mod zprod s)) as (j & Hj & E); auto. { apply Z.mod_pos_bound; auto. }
    exists (n / zprod s :: j). split.
    + constructor; auto. split; [apply Z.div_pos; lia|]. apply Z.div_lt_upper_bound; auto. lia.
    + cbn [rm]. rewrite E. pose proof (Z.div_mod n (zprod s)). lia.
Qed.

Lemma zeros_inshape : forall s, Forall (fun n => 0 < n) s -> inshape (repeat 0 (length s)) s.
Proof. induction 1; cbn; constructor; auto. lia. Qed.
Lemma place_zeros : forall dv n, place dv (repeat 0 n) = 0.
Proof. induction dv; intros; cbn; auto. destruct n; cbn; auto. Qed.
Lemma rm_zeros : forall s n, rm s (repeat 0 n) = 0.
Proof. induction s; intros; cbn; auto. destruct n; cbn; auto. Qed.

(* ---- stencil ---- *)
Lemma stencil_outer_spec : forall dv lo hi o, length lo = length dv -> length hi = length dv -> stencil_outer dv lo hi = Some o ->
  length o = length dv /\ length (stencil_inner dv lo hi) = length dv /\
  (forall i, length i = length dv -> place o i = place dv i /\ place (stencil_inner dv lo hi) i = place dv i) /\
  (forall k, (k < length dv)%nat -> len (nth k o dim0) = len (nth k dv dim0) - nth k lo 0 - nth k hi 0 /\
     len (nth k (stencil_inner dv lo hi) dim0) = nth k lo 0 + nth k hi 0 + 1 /\ nth k lo 0 + nth k hi 0 <= len (nth k dv dim0)).
Proof.
  induction dv as [|d dv IH]; intros lo hi o Hl Hh H.
  - cbn in H. inversion H; subst. cbn. split; [auto|]. split; [auto|]. split; [intros; auto|]. intros; lia.
  - destruct lo as [|l lo]; [discriminate|]. destruct hi as [|h hi]; [discriminate|]. cbn [stencil_outer] in H.
    destruct (Z.geb_spec (len d) (l + h)); [|discriminate]. destruct (stencil_outer dv lo hi) as [r|] eqn:E; [|discriminate]. inversion H; subst o.
    destruct (IH lo hi r) as (A & B & C & D); [simpl in Hl; lia|simpl in Hh; lia|auto|].
    cbn [stencil_inner length]. split; [lia|]. split; [lia|]. split.
    + intros [|i j] Hi; [discriminate|]. cbn [place step]. destruct (C j) as (-> & ->); [simpl in Hi; lia|]. auto.
    + intros [|k] Hk; cbn [nth len]; [lia|]. apply D. simpl in Hk. lia.
Qed.
