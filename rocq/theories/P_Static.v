(* Properties of the checks that are done on the types: C52, C53. *)
From Coq Require Import ZArith List Lia Bool.
From Coq Require Import ZifyBool ZifyNat.
From Verif Require Import Spec L_Spec M_Base M_Expr L_Expr Spec_Expr L_Agree M_Static Spec_Static.
Import ListNotations.
Open Scope Z_scope.

Section Static.
Context {X W : Type}.
Notation expr := (expr X W).

(* rank *)
Lemma corank_any : forall rs, fold_left (fun r p => corank p r) rs ANY = ANY.
Proof. induction rs as [|r rs IH]; cbn [fold_left]; auto. replace (corank r ANY) with ANY; auto. unfold corank. destruct (Z.eqb_spec ANY r); auto. Qed.
Lemma fold_rank : forall rs qs, Forall2 (fun r q => r = ANY \/ r = q) rs qs -> Forall (fun q => 0 <= q) qs -> forall r,
  fold_left (fun r p => corank p r) rs r = ANY \/ (rs = qs /\ (rs <> [] -> r <> ANY)).
Proof.
  intros rs qs H. induction H as [|a q rs qs Ha H IH]; intros Hq r; [right; split; auto; congruence|]. apply Forall_cons_iff in Hq as (Hq0 & Hq). cbn [fold_left].
  assert (E : a = ANY \/ r = ANY -> corank a r = ANY) by (intros [E|E]; rewrite E; unfold corank; [reflexivity|destruct (Z.eqb_spec ANY a); auto]).
  destruct (Z.eq_dec a ANY) as [->|Na]; [left; rewrite E by auto; apply corank_any|]. destruct (Z.eq_dec r ANY) as [->|Nr]; [left; rewrite E by auto; apply corank_any|].
  destruct Ha as [Ha|Ha]; [contradiction|]. subst. destruct (IH Hq (corank q r)) as [IH'|(-> & IH')]; auto.
Qed.
Lemma match_rank_s : forall rs qs, Forall2 (fun r q => r = ANY \/ r = q) rs qs -> Forall (fun q => 0 <= q) qs -> match_rank rs = ANY \/ rs = qs.
Proof. intros rs qs H Hq. destruct (fold_rank rs qs H Hq UNB) as [E|(E & _)]; auto. Qed.

Lemma inst_forall : forall (Q : ty -> expr -> Prop) ts es, Forall (fun e => forall t, instance t e -> wf e -> Q t e) es -> Forall2 instance ts es -> Forall wf es -> Forall2 Q ts es.
Proof. intros Q ts es H F. induction F as [|t e ts es He F IH]; intros Hw; constructor; inversion H; inversion Hw; subst; auto. Qed.
Lemma Forall2_map2 : forall A B C D (R : C -> D -> Prop) (f : A -> C) (g : B -> D) l m, Forall2 (fun a b => R (f a) (g b)) l m -> Forall2 R (map f l) (map g m).
Proof. induction 1; cbn; constructor; auto. Qed.
Lemma rank_s_rank : forall (e : expr) t, instance t e -> wf e -> rank_s t = ANY \/ rank_s t = rank e.
Proof.
  assert (Hm : forall (es : list expr) ts, Forall (fun e => forall t, instance t e -> wf e -> rank_s t = ANY \/ rank_s t = rank e) es -> Forall2 instance ts es -> Forall wf es ->
    match_rank (map rank_s ts) = ANY \/ match_rank (map rank_s ts) = match_rank (map rank es)).
  { intros es ts H F Hw. destruct (match_rank_s (map rank_s ts) (map rank es)) as [E|E].
    - apply Forall2_map2. apply (inst_forall (fun t e => rank_s t = ANY \/ rank_s t = rank e)); auto.
    - apply Forall_map. eapply Forall_impl; [|exact Hw]. intros; apply rank_nonneg; auto.
    - auto.
    - right. rewrite E. reflexivity. }
  induction e using expr_ind2; intros ty Hi Hw; inversion Hi; subst; cbn [rank_s rank]; auto.
  - destruct Hw as (_ & Hw). apply wf_Forall in Hw. apply Hm; auto.
  - destruct Hw as (_ & Hw). apply wf_Forall in Hw. apply Hm; auto.
Qed.
Lemma ranks_static : forall es ts, Forall2 instance ts es -> Forall wf es -> match_rank (map rank_s ts) <> ANY -> Forall2 (fun t e => rank_s t = rank e) ts (es : list expr).
Proof.
  intros es ts F Hw N. destruct (match_rank_s (map rank_s ts) (map rank es)) as [E|E]; [| |contradiction|].
  - apply Forall2_map2. apply (inst_forall (fun t e => rank_s t = ANY \/ rank_s t = rank e)); auto. apply Forall_forall. intros. apply rank_s_rank; auto.
  - apply Forall_map. eapply Forall_impl; [|exact Hw]. intros; apply rank_nonneg; auto.
  - clear -F E. induction F; cbn in E; [constructor|]. injection E as E1 E2. constructor; auto.
Qed.

(* lengths with check=true *)
Lemma from_any : forall k ps, match_len_s k true ps ANY = ANY \/ match_len_s k true ps ANY = MIS.
Proof.
  induction ps as [|(r, sk) ps IH]; cbn [match_len_s]; auto. cbv zeta. replace (ANY =? ANY) with true by reflexivity. rewrite orb_true_r. cbn [andb].
  destruct ((r <? 0) || (k <? r)); [|replace (MIS =? ANY) with false by reflexivity; auto]. destruct (MIS =? sk); [cbn; auto|]. replace (MIS =? ANY) with false by reflexivity. auto.
Qed.
Lemma match_true : forall k ps qs, Forall2 (fun p q => fst p = fst q /\ 0 <= fst q /\ (k < fst q -> snd p = ANY \/ snd p = snd q)) ps qs ->
  Forall (fun q : Z * Z => k < fst q -> snd q = MIS \/ oklen (snd q)) qs -> forall s r, oklen r -> s = ANY \/ s = r ->
  match_len_s k true ps s = ANY \/ match_len_s k true ps s = match_len k qs r.
Proof.
  intros k ps qs F. induction F as [|(r, sk) (q, lk) ps qs (Hr & Hq & Hs) F IH]; intros Ho s z Hz Hsz; [auto|].
  apply Forall_cons_iff in Ho as (Ho1 & Ho). cbn [fst snd] in *. subst r. cbn [match_len_s match_len]. cbv zeta. replace (q <? 0) with false by lia. cbn [orb andb].
  set (s' := if k <? q then _ else s). set (z' := if k <? q then _ else z).
  assert (H : (s' = ANY \/ s' = z') /\ (z' = MIS \/ oklen z')).
  { subst s' z'. destruct (Z.ltb_spec k q) as [L|L]; [|auto]. specialize (Hs L). specialize (Ho1 L).
    assert (Z' : (if MIS =? lk then MIS else colen lk z) = MIS \/ oklen (if MIS =? lk then MIS else colen lk z)).
    { destruct (Z.eqb_spec MIS lk); auto. destruct (Z.eq_dec (colen lk z) MIS) as [|N]; auto. right. destruct Ho1 as [E|Ho1]; [congruence|]. apply (colen_spec lk z _ Ho1 Hz eq_refl N). }
    split; auto. destruct Hs as [E|E]; rewrite E; [left; reflexivity|]. destruct (Z.eqb_spec MIS lk); auto. destruct Hsz as [E'|E']; rewrite E'; [replace (ANY =? ANY) with true by reflexivity; rewrite orb_true_r; auto|].
    destruct ((ANY =? lk) || (ANY =? z)); auto. }
  destruct H as (H1 & H2). destruct (Z.eqb_spec MIS s') as [E|E].
  - right. destruct H1 as [H1|H1]; [unfold ANY, MIS in *; congruence|]. rewrite <- H1, <- E. replace (MIS =? MIS) with true by reflexivity. reflexivity.
  - destruct (Z.eqb_spec MIS z') as [E'|E'].
    + destruct H1 as [H1|H1]; [|congruence]. rewrite H1, <- E'. apply from_any.
    + apply IH; auto. destruct H2; [congruence|auto].
Qed.

Lemma F2_in : forall A B (R Q : A -> B -> Prop) l m, Forall2 R l m -> (forall a b, In a l -> In b m -> R a b -> Q a b) -> Forall2 Q l m.
Proof. induction 1; intros H1; constructor; [apply H1; cbn; auto|]. apply IHForall2. intros; apply H1; cbn; auto. Qed.
Lemma fold_settled : forall ts, fold_right (fun a p => settled a /\ p) True ts <-> Forall settled ts.
Proof. induction ts as [|a ts IH]; cbn; [split; auto|]. rewrite IH. split; [intros (H & H0); auto|intros H; inversion H; auto]. Qed.

Lemma lens_ok : forall (es : list expr) k, Forall wf es -> Forall (fun q : Z * Z => Z.of_nat k < fst q -> snd q = MIS \/ oklen (snd q)) (map (fun a => (rank a, lene a k)) es).
Proof. intros es k Hw. apply Forall_map. eapply Forall_impl; [|exact Hw]. intros a Ha H. cbn in *. apply lene_ok; auto. unfold rankn. lia. Qed.

Lemma len_s_true : forall (e : expr) t, instance t e -> wf e -> settled t -> 0 <= rank_s t -> forall k, (k < rankn e)%nat -> len_s t k true = ANY \/ len_s t k true = lene e k.
Proof.
  assert (Hm : forall (es : list expr) ts, Forall (fun e => forall t, instance t e -> wf e -> settled t -> 0 <= rank_s t -> forall k, (k < rankn e)%nat -> len_s t k true = ANY \/ len_s t k true = lene e k) es ->
    Forall2 instance ts es -> Forall wf es -> Forall settled ts -> 0 <= match_rank (map rank_s ts) -> forall k,
    match_len_s (Z.of_nat k) true (map (fun a => (rank_s a, len_s a k true)) ts) UNB = ANY \/
    match_len_s (Z.of_nat k) true (map (fun a => (rank_s a, len_s a k true)) ts) UNB = match_len (Z.of_nat k) (map (fun a => (rank a, lene a k)) es) UNB).
  { intros es ts H F Hw Hs Hr k. apply match_true; [|apply lens_ok; auto|right; reflexivity|auto]. apply Forall2_map2. cbn [fst snd].
    pose proof (ranks_static es ts F Hw ltac:(unfold ANY; lia)) as HR. clear Hr.
    assert (F2 : Forall2 (fun t e => instance t e /\ rank_s t = rank e) ts es) by (clear -F HR; induction F; constructor; inversion HR; subst; auto).
    eapply F2_in; [exact F2|]. cbn. intros a b Ia Ib (Hi & E). rewrite Forall_forall in H, Hw, Hs. pose proof (rank_nonneg b (Hw b Ib)). split; [auto|]. split; [auto|].
    intros Hk. apply H; auto; [lia|unfold rankn; lia]. }
  induction e using expr_ind2; intros ty Hi Hw Hs Hr k Hk; inversion Hi; subst; cbn [len_s lene settled rank_s] in *.
  - auto.
  - auto.
  - unfold rankn in Hk. cbn in Hk. match goal with H : forall k, _ -> nth k _ ANY = _ \/ _ |- _ => apply H; lia end.
  - destruct Hw as (Hw & Hd & Hl). destruct Hs as (Hs & Hr' & He). match goal with H : instance a e |- _ => rename H into Ha end. destruct (orig di k) as [l|] eqn:E; [|auto]. apply orig_some in E.
    pose proof (rank_s_rank e a Ha Hw) as [Er|Er]; [unfold ANY in *; lia|]. rewrite <- He by lia. apply IHe; auto. unfold rankn. lia.
  - destruct Hw as (_ & Hw). apply wf_Forall in Hw. apply fold_settled in Hs. apply Hm; auto.
  - destruct Hw as (_ & Hw). apply wf_Forall in Hw. apply fold_settled in Hs. apply Hm; auto.
Qed.

(* check_s *)
Lemma check_s_loop_spec : forall t n k val, 0 <= val ->
  (check_s_loop t n k val = 0 <-> exists i, (k <= i < k + n)%nat /\ (len_s t i true = MIS \/ len_s t i true = UNB)) /\
  (check_s_loop t n k val = 2 -> val = 0 /\ forall i, (k <= i < k + n)%nat -> len_s t i true <> MIS /\ len_s t i true <> UNB /\ len_s t i true <> ANY).
Proof.
  induction n as [|n IH]; intros k val Hv; cbn [check_s_loop].
  - split; [split; [destruct (Z.eqb_spec 0 val); discriminate|intros (i & Hi & _); lia]|]. destruct (Z.eqb_spec 0 val); [intros _; split; [lia|intros; lia]|discriminate].
  - cbv zeta. destruct (Z.eqb_spec MIS (len_s t k true)) as [E|E]; cbn [orb].
    { split; [|discriminate]. split; auto. intros _. exists k. split; [lia|auto]. }
    destruct (Z.eqb_spec UNB (len_s t k true)) as [E1|E1].
    { split; [|discriminate]. split; auto. intros _. exists k. split; [lia|auto]. }
    destruct (IH (S k) (if ANY =? len_s t k true then val + 1 else val) ltac:(destruct (ANY =? _); lia)) as (H1 & H2). split.
    + rewrite H1. split; intros (i & Hi & H); exists i; (split; [|auto]); [lia|]. destruct (Nat.eq_dec i k); [|lia]. subst. destruct H; congruence.
    + intros H. apply H2 in H as (H & H3). destruct (Z.eqb_spec ANY (len_s t k true)); [lia|]. split; auto. intros i Hi. destruct (Nat.eq_dec i k); [subst; auto|apply H3; lia].
Qed.

Lemma check_s_loop_range : forall t n k v, check_s_loop t n k v = 0 \/ check_s_loop t n k v = 1 \/ check_s_loop t n k v = 2.
Proof. intros t n. induction n as [|n IH]; intros k v; cbn [check_s_loop]; [destruct (0 =? v); auto|]. cbv zeta. destruct (_ || _); auto. Qed.

Lemma shape_agree : forall e : expr, wf e -> (agreeing [e] <-> forall k, (k < rankn e)%nat -> 0 <= lene e k).
Proof.
  intros e Hw. rewrite <- validate_iff by auto. rewrite validate_spec. unfold shape. rewrite Forall_map, Forall_forall. split.
  - intros (_ & H) k Hk. apply H. apply in_seq. lia.
  - intros H. split; [apply rank_nonneg; auto|]. intros k Hk. apply in_seq in Hk. apply H. lia.
Qed.

Theorem C52_pass : forall t (e : expr), instance t e -> wf e -> settled t -> check_s t = 2 -> agreeing [e].
Proof.
  intros t e Hi Hw Hs H. apply shape_agree; auto. intros k Hk. unfold check_s in H. destruct (Z.eqb_spec (rank_s t) ANY) as [|N]; [discriminate|].
  destruct (rank_s_rank e t Hi Hw) as [|Er]; [contradiction|]. pose proof (rank_nonneg e Hw). destruct (check_s_loop_spec t (Z.to_nat (rank_s t)) 0 0 ltac:(lia)) as (_ & H1).
  apply H1 in H as (_ & H). unfold rankn in Hk. specialize (H k ltac:(lia)). destruct (len_s_true e t Hi Hw Hs ltac:(lia) k ltac:(unfold rankn; lia)) as [E|E]; [tauto|].
  rewrite E in H. destruct (lene_ok e Hw k ltac:(unfold rankn; lia)) as [E'|[E'|E']]; tauto.
Qed.
Theorem C52_fail : forall t (e : expr), instance t e -> wf e -> settled t -> check_s t = 0 -> ~ agreeing [e].
Proof.
  intros t e Hi Hw Hs H. rewrite shape_agree by auto. intros Hf. unfold check_s in H. destruct (Z.eqb_spec (rank_s t) ANY) as [|N]; [discriminate|].
  destruct (rank_s_rank e t Hi Hw) as [|Er]; [contradiction|]. pose proof (rank_nonneg e Hw). destruct (check_s_loop_spec t (Z.to_nat (rank_s t)) 0 0 ltac:(lia)) as (H1 & _).
  apply H1 in H as (i & Hin & H). assert (Hk : (i < rankn e)%nat) by (unfold rankn; lia). specialize (Hf i Hk).
  destruct (len_s_true e t Hi Hw Hs ltac:(lia) i Hk) as [E|E]; rewrite E in H; destruct H as [H|H]; try discriminate; rewrite H in Hf; unfold MIS, UNB in Hf; lia.
Qed.

(* lengths with check=false: what's known is right, unless the shapes don't agree *)
Lemma match_false : forall k ps qs, Forall2 (fun p q => (0 <= fst p -> fst p = fst q) /\ (k < fst q -> snd q = MIS \/ (oklen (snd q) /\ (snd p = ANY \/ snd p = snd q))) /\ (fst q <= k -> snd p = ANY \/ snd p = UNB)) ps qs ->
  forall s r, oklen r -> s = ANY \/ s = r ->
  match_len k qs r = MIS \/ match_len_s k false ps s = ANY \/ match_len_s k false ps s = match_len k qs r.
Proof.
  intros k ps qs F. induction F as [|(r, sk) (q, lk) ps qs (Hr & Hs & Hu) F IH]; intros s z Hz Hsz; [auto|].
  cbn [fst snd] in *. cbn [match_len_s match_len]. cbv zeta. cbn [andb].
  set (s' := if (r <? 0) || (k <? r) then _ else s). set (z' := if k <? q then _ else z).
  assert (H : z' = MIS \/ (oklen z' /\ (s' = ANY \/ s' = z'))).
  { subst s' z'. destruct (Z.ltb_spec k q) as [L|L].
    - replace ((r <? 0) || (k <? r)) with true by (symmetry; apply orb_true_iff; lia). destruct (Hs L) as [E|(Ho & E)]; [rewrite E; auto|].
      destruct (Z.eqb_spec MIS lk); auto. destruct (Z.eq_dec (colen lk z) MIS) as [|N]; auto. right. split; [apply (colen_spec lk z _ Ho Hz eq_refl N)|].
      unfold oklen in *. unfold colen, ANY, UNB, MIS in *. destruct E as [E|E], Hsz as [E'|E']; rewrite E, E' in *;
      repeat match goal with |- context [if ?a =? ?b then _ else _] => destruct (Z.eqb_spec a b) | |- context [if ?a <=? ?b then _ else _] => destruct (Z.leb_spec a b)
        | H : context [if ?a =? ?b then _ else _] |- _ => destruct (Z.eqb_spec a b) | H : context [if ?a <=? ?b then _ else _] |- _ => destruct (Z.leb_spec a b) end; lia.
    - right. split; auto. destruct ((r <? 0) || (k <? r)); [|auto]. unfold oklen in *. unfold colen, ANY, UNB, MIS in *. destruct (Hu L) as [E|E], Hsz as [E'|E']; rewrite E, E' in *;
      repeat match goal with |- context [if ?a =? ?b then _ else _] => destruct (Z.eqb_spec a b) | |- context [if ?a <=? ?b then _ else _] => destruct (Z.leb_spec a b) end; lia. }
  destruct H as [H|(H1 & H2)]; [rewrite H; auto|].
  destruct (Z.eqb_spec MIS z') as [E'|E']; [rewrite <- E'; auto|]. destruct (Z.eqb_spec MIS s') as [E|E]; [destruct H2; [unfold ANY, MIS in *|]; congruence|]. apply IH; auto.
Qed.
Lemma match_beyond : forall k ps, Forall (fun p : Z * Z => snd p = ANY \/ snd p = UNB) ps -> forall s, s = ANY \/ s = UNB ->
  match_len_s k false ps s = ANY \/ match_len_s k false ps s = UNB.
Proof.
  intros k ps H. induction ps as [|(r, sk) ps IH]; intros s Hs; [auto|]. apply Forall_cons_iff in H as (H0 & H). cbn [fst snd match_len_s andb] in *. cbv zeta.
  set (s' := if (r <? 0) || (k <? r) then _ else s). assert (E : s' = ANY \/ s' = UNB).
  { subst s'. destruct ((r <? 0) || (k <? r)); auto. destruct H0 as [E|E], Hs as [E'|E']; rewrite E, E'; unfold colen, ANY, UNB, MIS; cbn; auto. }
  destruct (Z.eqb_spec MIS s'); auto.
Qed.

Lemma len_s_false : forall (e : expr) t, instance t e -> wf e ->
  (forall k, (k < rankn e)%nat -> lene e k = MIS \/ len_s t k false = ANY \/ len_s t k false = lene e k) /\ (forall k, (rankn e <= k)%nat -> len_s t k false = ANY \/ len_s t k false = UNB).
Proof.
  assert (Hm : forall (es : list expr) ts, Forall (fun e => forall t, instance t e -> wf e ->
      (forall k, (k < rankn e)%nat -> lene e k = MIS \/ len_s t k false = ANY \/ len_s t k false = lene e k) /\ (forall k, (rankn e <= k)%nat -> len_s t k false = ANY \/ len_s t k false = UNB)) es ->
    Forall2 instance ts es -> es <> [] -> Forall wf es ->
    (forall k, match_len (Z.of_nat k) (map (fun a => (rank a, lene a k)) es) UNB = MIS \/
     match_len_s (Z.of_nat k) false (map (fun a => (rank_s a, len_s a k false)) ts) UNB = ANY \/
     match_len_s (Z.of_nat k) false (map (fun a => (rank_s a, len_s a k false)) ts) UNB = match_len (Z.of_nat k) (map (fun a => (rank a, lene a k)) es) UNB) /\
    (forall k, (Z.to_nat (match_rank (map rank es)) <= k)%nat -> 
     match_len_s (Z.of_nat k) false (map (fun a => (rank_s a, len_s a k false)) ts) UNB = ANY \/
     match_len_s (Z.of_nat k) false (map (fun a => (rank_s a, len_s a k false)) ts) UNB = UNB)).
  { intros es ts H F Hn Hw. split.
    - intros k. apply match_false; [|right; reflexivity|auto]. apply Forall2_map2. eapply F2_in; [exact F|]. cbn [fst snd]. intros a b Ia Ib Hi. rewrite Forall_forall in H, Hw.
      pose proof (rank_nonneg b (Hw b Ib)). destruct (H b Ib a Hi (Hw b Ib)) as (H1 & H2). split; [|split].
      + intros Hr. destruct (rank_s_rank b a Hi (Hw b Ib)) as [E|E]; [unfold ANY in *; lia|auto].
      + intros Hk. assert (Hk' : (k < rankn b)%nat) by (unfold rankn; lia). destruct (lene_ok b (Hw b Ib) k Hk') as [E|E]; auto. destruct (H1 k Hk') as [E'|E']; auto.
      + intros Hk. apply H2. unfold rankn. lia.
    - intros k Hk. apply match_beyond; [|auto]. apply Forall_map. assert (Hall : forall b, In b es -> (rankn b <= k)%nat).
      { intros b Ib. pose proof (rankn_sub (fun _ => fail) es Hn Hw b Ib) as Hb. unfold rankn in Hb at 2. cbn [rank] in Hb. lia. }
      clear Hk Hn. induction F as [|a b ts es Hi F IH]; constructor.
      + cbn. apply Forall_cons_iff in H as (H & _). apply Forall_cons_iff in Hw as (Hw & _). apply (H a Hi Hw). apply Hall. left; auto.
      + apply Forall_cons_iff in H as (_ & H). apply Forall_cons_iff in Hw as (_ & Hw). apply IH; auto. intros; apply Hall; right; auto. }
  induction e using expr_ind2; intros ty Hi Hw; inversion Hi; subst; cbn [len_s lene].
  - split; [intros k Hk; unfold rankn in Hk; cbn in Hk; lia|auto].
  - split; auto.
  - match goal with H : forall k, _ -> nth k _ ANY = _ \/ _ |- _ => rename H into Hl end. split.
    + intros k Hk. unfold rankn in Hk. cbn in Hk. right. apply Hl. lia.
    + intros k Hk. unfold rankn in Hk. cbn in Hk. left. apply nth_overflow. lia.
  - destruct Hw as (Hw & Hd & Hl). match goal with H : instance a e |- _ => pose proof (proj1 (IHe a H Hw)) as HH end. split.
    + intros k Hk. destruct (orig di k) as [l|] eqn:E; [|auto]. apply orig_some in E. apply HH. unfold rankn. lia.
    + intros k Hk. destruct (orig di k) as [l|] eqn:E; [|auto]. apply orig_some in E as (E1 & E2). exfalso. unfold rankn in Hk. cbn [rank] in Hk.
      pose proof (reframe_bound di l E1). lia.
  - destruct Hw as (Hn & Hw). apply wf_Forall in Hw. match goal with F : Forall2 instance ts t |- _ => pose proof (Hm t ts H F Hn Hw) as (Ha & Hb) end. split; auto. 
  - destruct Hw as (Hn & Hw). apply wf_Forall in Hw. match goal with F : Forall2 instance ts t |- _ => pose proof (Hm t ts H F Hn Hw) as (Ha & Hb) end. split; auto.
Qed.

Lemma size_s_loop_neg : forall t n k s, size_s_loop t n k s < 0 -> 0 <= s -> exists i, (k <= i < k + n)%nat /\ len_s t i false = size_s_loop t n k s.
Proof.
  induction n as [|n IH]; intros k s H Hs; cbn [size_s_loop] in *; [lia|]. cbv zeta in *. destruct (Z.ltb_spec (len_s t k false) 0) as [L|L].
  - exists k. split; [lia|auto].
  - destruct (IH (S k) (s * len_s t k false) H ltac:(nia)) as (i & Hi & E). exists i. split; [lia|auto].
Qed.
Lemma size_s_loop_nonneg : forall t n k s, 0 <= size_s_loop t n k s -> forall i, (k <= i < k + n)%nat -> 0 <= len_s t i false.
Proof.
  induction n as [|n IH]; intros k s H i Hi; [lia|]. cbn [size_s_loop] in H. cbv zeta in H. destruct (Z.ltb_spec (len_s t k false) 0); [lia|].
  destruct (Nat.eq_dec i k); [subst; auto|]. apply (IH _ _ H). lia.
Qed.
Lemma size_s_loop_prod : forall t f n k s, (forall i, (k <= i < k + n)%nat -> len_s t i false = ANY \/ (0 <= f i /\ len_s t i false = f i)) ->
  size_s_loop t n k s = ANY \/ size_s_loop t n k s = s * zprod (map f (seq k n)).
Proof.
  induction n as [|n IH]; intros k s H; cbn [size_s_loop seq map zprod fold_right].
  - right. cbn. lia.
  - cbv zeta. destruct (H k ltac:(lia)) as [E|(E0 & E)]; rewrite E; [left; reflexivity|]. destruct (Z.ltb_spec (f k) 0); [lia|].
    destruct (IH (S k) (s * f k)) as [E'|E']; [intros; apply H; lia|auto|]. right. rewrite E'. unfold zprod. cbn [fold_right]. ring.
Qed.

(* What the type says of the rank, the lengths and the size is the same in every run. *)
Theorem C52_len : forall t (e : expr) s, instance t e -> wf e -> shape_is e s ->
  (rank_s t = ANY \/ rank_s t = Z.of_nat (length s)) /\
  (forall k, (k < length s)%nat -> len_s t k false = ANY \/ len_s t k false = nth k s 0) /\
  (size_s t = ANY \/ size_s t = zprod s).
Proof.
  intros t e s Hi Hw Hs. destruct (shape_is_shape e s Hw Hs) as (-> & Hv). apply validate_spec in Hv as (Hr & Hv). rewrite shape_length.
  destruct (len_s_false e t Hi Hw) as (Hl & _).
  assert (Hp : forall k, (k < rankn e)%nat -> 0 <= lene e k) by (intros k Hk; rewrite <- shape_nth by auto; rewrite Forall_forall in Hv; apply Hv; apply nth_In; rewrite shape_length; auto).
  assert (Hk : forall k, (k < rankn e)%nat -> len_s t k false = ANY \/ (0 <= lene e k /\ len_s t k false = lene e k)).
  { intros k Hk. specialize (Hp k Hk). destruct (Hl k Hk) as [E|[E|E]]; auto. unfold MIS in *. lia. }
  split; [|split].
  - destruct (rank_s_rank e t Hi Hw); auto. right. unfold rankn. lia.
  - intros k H. rewrite shape_nth by auto. destruct (Hk k H) as [|(_ & E)]; auto.
  - unfold size_s. destruct (Z.eqb_spec ANY (rank_s t)); auto. destruct (rank_s_rank e t Hi Hw) as [E|E]; [congruence|]. rewrite E.
    destruct (size_s_loop_prod t (lene e) (Z.to_nat (rank e)) 0 1) as [E'|E']; [intros i H; apply Hk; unfold rankn; lia|auto|]. right. rewrite E'. unfold shape, rankn. lia.
Qed.

Lemma size_s_neg : forall t (e : expr), instance t e -> wf e -> size_s t < 0 -> size_s t <> ANY -> ~ agreeing [e].
Proof.
  intros t e Hi Hw H N. rewrite shape_agree by auto. intros Hf. unfold size_s in *. destruct (Z.eqb_spec ANY (rank_s t)); [congruence|].
  destruct (rank_s_rank e t Hi Hw) as [E|E]; [congruence|]. destruct (size_s_loop_neg t _ _ _ H ltac:(lia)) as (k & Hk & Ek). assert (Hk' : (k < rankn e)%nat) by (unfold rankn; lia).
  specialize (Hf k Hk'). destruct (len_s_false e t Hi Hw) as (Hl & _). destruct (Hl k Hk') as [E'|[E'|E']]; [unfold MIS in *; lia|congruence|lia].
Qed.

Lemma simple_settled : forall t, simple t -> settled t.
Proof.
  fix IH 1. intros [|ls|a di|ts]; cbn; auto.
  - destruct a as [|[l|]| |]; try contradiction; intros _; cbn; (split; [auto|split; [lia|auto]]).
  - induction ts as [|a ts IHt]; cbn; auto. intros (H & H0). split; [apply IH; auto|apply IHt; auto].
Qed.

Lemma single_lens : forall t (e : expr), instance t e -> wf e -> simple t -> is_match t = false -> forall k, (k < rankn e)%nat ->
  lene e k <> MIS /\ (rank_s t <> ANY -> len_s t k false = ANY \/ len_s t k false = lene e k).
Proof.
  intros t e Hi Hw Hs Hm k Hk. assert (N : lene e k <> MIS).
  { inversion Hi; subst; cbn [is_match] in Hm; try discriminate; cbn [lene].
    - unfold rankn in Hk. cbn in Hk.
      destruct Hw as (Hl & Hf). rewrite Forall_forall in Hf. intros E. apply MIS_not_ok. rewrite <- E. apply Hf. rewrite <- (nth_firstn dv fr k dim0) by lia. apply nth_In. rewrite firstn_length. lia.
    - unfold rankn in Hk. cbn in Hk.
      destruct Hw as (Hl & Hf). rewrite Forall_forall in Hf. intros E. apply MIS_not_ok. rewrite <- E. apply Hf. rewrite <- (nth_firstn dv (length ls) k dim0) by lia. apply nth_In. rewrite firstn_length. lia.
    - destruct Hw as (Hw & Hd & Hl). destruct (orig di k) as [l|] eqn:E; [|discriminate]. apply orig_some in E as (E & _). cbn [simple] in Hs. destruct a as [|[ls|]| |]; try contradiction.
      + inversion H; subst. discriminate.
      + inversion H; subst. cbn [rank lene] in *. destruct Hw as (Hl' & Hf). rewrite Forall_forall in Hf. intros E'. apply MIS_not_ok. rewrite <- E'. apply Hf.
        rewrite <- (nth_firstn dv (length ls) l dim0) by lia. apply nth_In. rewrite firstn_length. lia. }
  split; auto. intros _. destruct (len_s_false e t Hi Hw) as (Hl & _). destruct (Hl k Hk) as [E|E]; [contradiction|auto].
Qed.

(* The checks that are done on the type and the checks that are left for the run time are together the check of the shapes. *)
Theorem C52_validate : forall t (e : expr), instance t e -> wf e -> (is_match t = true /\ settled t) \/ simple t ->
  (compiles t = true -> (accepts t e = true <-> agreeing [e])) /\ (compiles t = false -> ~ agreeing [e]).
Proof.
  intros t e Hi Hw Hs. assert (Hset : settled t) by (destruct Hs as [(_ & Hs)|Hs]; [auto|apply simple_settled; auto]).
  pose proof (rank_nonneg e Hw) as Hr. pose proof (rank_s_rank e t Hi Hw) as Hrs. split.
  - unfold compiles. rewrite !andb_true_iff. intros ((H1 & _) & H3). unfold accepts. replace (if rank_s t <? 0 then 0 <=? rank e else true) with true by (destruct (rank_s t <? 0); lia). cbn [andb].
    destruct (is_match t) eqn:Em.
    + destruct (Z.eqb_spec 0 (check_s t)) as [|N0]; [discriminate|]. destruct (Z.eqb_spec 1 (check_s t)) as [E1|N1].
      * rewrite <- validate_iff by auto. unfold validate. replace (0 <=? rank e) with true by lia. cbn [andb]. inversion Hi; subst; cbn [is_match] in Em; try discriminate; reflexivity.
      * split; auto. intros _. apply (C52_pass t e); auto. unfold check_s in *. destruct (rank_s t =? ANY); [congruence|]. destruct (check_s_loop_range t (Z.to_nat (rank_s t)) 0 0) as [E|[E|E]]; congruence.
    + destruct Hs as [(C & _)|Hs]; [discriminate|]. destruct (Z.eqb_spec ANY (size_s t)) as [Ea|Na].
      * rewrite <- validate_iff by auto. unfold validate. replace (0 <=? rank e) with true by lia. cbn [andb]. inversion Hi; subst; cbn [is_match] in Em; try discriminate; reflexivity.
      * split; auto. intros _. destruct (Z_lt_le_dec (size_s t) 0) as [L|L].
        { exfalso. unfold size_s in *. destruct (Z.eqb_spec ANY (rank_s t)); [congruence|]. destruct Hrs as [|Er]; [congruence|].
          destruct (size_s_loop_neg t _ _ _ L ltac:(lia)) as (k & Hk & Ek). assert (Hk' : (k < rankn e)%nat) by (unfold rankn; lia).
          destruct (single_lens t e Hi Hw Hs Em k Hk') as (N & Hl). destruct (Hl ltac:(congruence)) as [E|E]; [congruence|]. rewrite <- Ek, E in *.
          destruct (lene_ok e Hw k Hk') as [E'|[E'|E']]; [contradiction|lia|]. rewrite E' in H1. discriminate. }
        { apply shape_agree; auto. intros k Hk. unfold size_s in *. destruct (Z.eqb_spec ANY (rank_s t)) as [E|N]; [unfold ANY in L; lia|]. destruct Hrs as [|Er]; [congruence|].
          pose proof (size_s_loop_nonneg t _ _ _ L k ltac:(unfold rankn in Hk; lia)) as Hp. destruct (single_lens t e Hi Hw Hs Em k Hk) as (_ & Hl). destruct (Hl ltac:(congruence)) as [E|E]; [unfold ANY in *; lia|lia]. }
  - unfold compiles. rewrite !andb_false_iff. intros [[H|H]|H].
    + apply (size_s_neg t e); auto; destruct (Z.eqb_spec UNB (size_s t)) as [E|E]; try discriminate; rewrite <- E; [unfold UNB; lia|discriminate].
    + exfalso. destruct (Z.ltb_spec (rank_s t) 0); [|discriminate]. destruct Hrs as [E|E]; [rewrite E in H; discriminate|lia].
    + destruct (is_match t); [|discriminate]. apply (C52_fail t e); auto. destruct (Z.eqb_spec 0 (check_s t)); [auto|discriminate].
Qed.
End Static.

(* C53: as C52 (where the types may have reframed arguments) if in the type, the lengths of the reframed arguments are the same whether they are to be checked or not.
   Missing: other reframed arguments, for which it's false (C53_refuted). *)
Theorem C53_partial : forall X W t (e : expr X W), instance t e -> wf e -> settled t -> (check_s t = 2 -> agreeing [e]) /\ (check_s t = 0 -> ~ agreeing [e]).
Proof. intros. split; [eapply C52_pass|eapply C52_fail]; eauto. Qed.

Lemma fixed_match : forall k ps, Forall (fun p : Z * Z => k < fst p -> snd p <> ANY) ps -> Forall (fun p : Z * Z => 0 <= fst p) ps -> forall s, s <> ANY ->
  match_len_s k true ps s = match_len_s k false ps s /\ match_len_s k false ps s <> ANY.
Proof.
  intros k ps H. induction ps as [|(r, sk) ps IH]; intros Hr s Hs; cbn [match_len_s]; [auto|]. apply Forall_cons_iff in H as (H0 & H). apply Forall_cons_iff in Hr as (Hr0 & Hr). cbn [fst snd] in *.
  cbv zeta. replace (r <? 0) with false by lia. cbn [orb andb]. destruct (Z.ltb_spec k r) as [L|L].
  - specialize (H0 L). replace (ANY =? sk) with false by lia. replace (ANY =? s) with false by lia. cbn [orb]. destruct (Z.eqb_spec MIS sk) as [E|E]; [split; [reflexivity|discriminate]|].
    assert (N : colen sk s <> ANY) by (unfold colen; repeat match goal with |- context [if ?b then _ else _] => destruct b end; auto; discriminate).
    destruct (Z.eqb_spec MIS (colen sk s)); [auto|]. apply IH; auto.
  - destruct (Z.eqb_spec MIS s); [auto|]. apply IH; auto.
Qed.
Lemma fixed_len : forall t, fixed t -> 0 <= rank_s t /\ forall k, Z.of_nat k < rank_s t -> len_s t k true = len_s t k false /\ len_s t k false <> ANY.
Proof.
  fix IH 1. intros [|[ls|]|a di|ts] H; cbn [fixed rank_s len_s] in *.
  - split; [lia|]. intros; lia.
  - split; [lia|]. intros k Hk. split; auto. rewrite Forall_forall in H. apply H. apply nth_In. lia.
  - contradiction.
  - destruct H as (H & Hd). destruct (IH a H) as (Hr & Hl). split; [unfold reframe_rank; destruct di; lia|]. intros k Hk. destruct (orig di k) as [l|] eqn:E; [|split; [reflexivity|discriminate]].
    apply orig_some in E as (E & _). split; [reflexivity|]. apply Hl. lia.
  - destruct H as (Hn & H). assert (Hf : Forall (fun t => 0 <= rank_s t /\ forall k, Z.of_nat k < rank_s t -> len_s t k true = len_s t k false /\ len_s t k false <> ANY) ts).
    { clear Hn. induction ts as [|a ts IHt]; cbn in H; constructor; [apply IH; tauto|apply IHt; tauto]. }
    split.
    + destruct (match_rank_max (map rank_s ts)) as (Hi & _).
      * intros E. apply map_eq_nil in E. auto.
      * apply Forall_map. eapply Forall_impl; [|exact Hf]. cbn. tauto.
      * rewrite in_map_iff in Hi. destruct Hi as (a & <- & Ia). rewrite Forall_forall in Hf. apply Hf; auto.
    + intros k Hk. assert (Em : map (fun a => (rank_s a, len_s a k true)) ts = map (fun a => (rank_s a, if Z.of_nat k <? rank_s a then len_s a k false else len_s a k true)) ts).
      { apply map_ext_in. intros a Ia. rewrite Forall_forall in Hf. destruct (Z.ltb_spec (Z.of_nat k) (rank_s a)) as [L|L]; auto. rewrite (proj1 (proj2 (Hf a Ia) k L)). reflexivity. }
      assert (Ee : forall c s, match_len_s (Z.of_nat k) c (map (fun a => (rank_s a, len_s a k true)) ts) s = match_len_s (Z.of_nat k) c (map (fun a => (rank_s a, len_s a k false)) ts) s).
      { clear Hn H Hk Em. intros c. induction ts as [|a ts IHt]; intros s; cbn [map match_len_s]; [reflexivity|]. apply Forall_cons_iff in Hf as ((Hr & Hl) & Hf). cbv zeta. replace (rank_s a <? 0) with false by lia. cbn [orb].
        destruct (Z.ltb_spec (Z.of_nat k) (rank_s a)) as [L|L]; [rewrite (proj1 (Hl k L))|]; rewrite IHt by auto; reflexivity. }
      rewrite Ee. apply fixed_match; [| |discriminate]; apply Forall_map; (eapply Forall_impl; [|exact Hf]); cbn; intros a (Hr & Hl); [intros L; apply Hl; auto|auto].
Qed.
(* two cases of this: the reframed arguments are views or scalars, or they have all their lengths in the type *)
Theorem C53_settled_view : forall t, simple t -> settled t.
Proof. exact simple_settled. Qed.
Theorem C53_settled_fixed : forall a di, fixed a -> settled a -> settled (TReframe a di).
Proof. intros a di Hf Hs. destruct (fixed_len a Hf) as (Hr & Hl). split; [auto|]. split; [auto|]. intros k Hk. apply Hl. auto. Qed.

Definition cellz (ls : list Z) : expr Z unit := Cell (map (fun l => {| len := l; step := 1 |}) ls) (length ls) (fun x => x) 0.
Definition plus : list Z -> M unit Z := fun l => ret (fold_right Z.add 0 l).

(* map(wrank<0, 1>(f), a, b+c), where a is Small<2>, b is Small<3>, and c is Big<1> (the outer product with a sum). That b and c agree isn't checked at all, and the traversal goes over 2x3 elements. *)
Theorem C53_refuted : let t := TMatch [TCell (Some [2]); TReframe (TMatch [TCell (Some [3]); TCell (Some [ANY])]) [1%nat]] in
  forall n, 0 <= n -> n <> 3 -> let e := Map plus [cellz [2]; Reframe (Map plus [cellz [3]; cellz [n]]) [1%nat]] in
  instance t e /\ wf e /\ check_s t = 2 /\ size_s t = 6 /\ compiles t = true /\ accepts t e = true /\ ~ agreeing [e].
Proof.
  intros t n Hn N e. assert (We : wf e).
  { subst e. wfauto. }
  split; [|split; [auto|]].
  - assert (Hc : forall ls ms, length ls = length ms -> (forall k, nth k ls ANY = ANY \/ nth k ls ANY = nth k ms 0) -> instance (TCell (Some ls)) (cellz ms)).
    { intros ls ms Hl H. apply i_cell; [auto|]. intros k Hk. destruct (H k) as [E|E]; auto. right. rewrite E. rewrite (nth_indep (map (fun l => Dim l 1) ms) dim0 (Dim 0 1)) by (rewrite map_length; lia). rewrite (map_nth (fun l => Dim l 1) ms 0 k). reflexivity. }
    apply i_map. constructor; [|constructor; [apply i_reframe, i_map; constructor; [|constructor; [|constructor]]|constructor]]; apply Hc; auto; intros [|[|k]]; cbn; auto.
  - split; [reflexivity|]. split; [reflexivity|]. split; [reflexivity|]. split; [reflexivity|]. rewrite shape_agree by auto. intros H. specialize (H 1%nat ltac:(cbn; lia)).
    assert (E : lene e 1 = MIS); [|rewrite E in H; unfold MIS in H; lia]. subst e. unfold plus. cbn -[colen UNB MIS Z.eqb]. 
    change (colen 3 UNB) with 3. replace (MIS =? n) with false by (unfold MIS; lia). change (MIS =? 3) with false. cbn iota.
    replace (colen n 3) with MIS by (unfold colen; destruct (Z.leb_spec 0 n); [|lia]; destruct (Z.eqb_spec n 3); [contradiction|reflexivity]). reflexivity.
Qed.
(* reframe(b+c, ilist<1, 0>) alone, with b Small<3, 2> and c Small<4, 2>, which never agree: it's accepted. *)
Theorem C53_top_refuted : let t := TReframe (TMatch [TCell (Some [3; 2]); TCell (Some [4; 2])]) [1%nat; 0%nat] in
  let e := Reframe (Map plus [cellz [3; 2]; cellz [4; 2]]) [1%nat; 0%nat] in
  instance t e /\ wf e /\ compiles t = true /\ accepts t e = true /\ ~ agreeing [e].
Proof.
  intros t e. assert (We : wf e) by (subst e; wfauto; repeat constructor; cbn; lia). split; [|split; [auto|]].
  - apply i_reframe, i_map. constructor; [|constructor; [|constructor]]; (apply i_cell; [reflexivity|]; intros [|[|k]] Hk; cbn in *; auto; lia).
  - split; [reflexivity|]. split; [reflexivity|]. rewrite shape_agree by auto. intros H. specialize (H 1%nat ltac:(cbn; lia)). vm_compute in H. apply H. reflexivity.
Qed.

(* a 2x3 static array, a dynamic rank array (here of shape 2x3), and a vector with run time length 2: the check is at run time; with another static vector of length 3, it fails. *)
Example C52_ex : let t := TMatch [TCell (Some [2; 3]); TMatch [TCell None; TCell (Some [ANY])]; TScalar] in
  let e := Map plus [cellz [2; 3]; Map plus [cellz [2; 3]; cellz [2]]; Scalar 7] in
  instance t e /\ wf e /\ simple t /\ check_s t = 1 /\ compiles t = true /\ accepts t e = true /\ check_s (TMatch [TCell (Some [2; 3]); TCell (Some [2])]) = 2 /\
  check_s (TMatch [TCell (Some [2; 3]); TCell (Some [3])]) = 0 /\ size_s (TMatch [TCell (Some [2; 3]); TCell (Some [ANY])]) = 6 /\ check_s (TMatch [TCell (Some [2; 3]); TCell (Some [ANY])]) = 1.
Proof.
  intros t e. split; [|split; [subst e; wfauto|]].
  - apply i_map. constructor; [|constructor; [|constructor; [|constructor]]].
    + apply i_cell; [reflexivity|]. intros [|[|k]] Hk; cbn in *; auto; lia.
    + apply i_map. constructor; [|constructor; [|constructor]]; [apply i_any|]. apply i_cell; [reflexivity|]. intros [|k] Hk; cbn in *; auto; lia.
    + apply i_scalar.
  - cbn [simple t fold_right]. repeat split; reflexivity.
Qed.
(* outer product of Small<2>, Small<3>+Small<3> and Big<1>: in the part that's true *)
Example C53_ex : let t := TMatch [TReframe (TCell (Some [2])) [0%nat]; TReframe (TMatch [TCell (Some [3]); TCell (Some [3])]) [1%nat]; TReframe (TCell (Some [ANY])) [1%nat]] in
  settled t /\ check_s t = 1 /\ settled (TMatch [TReframe (TMatch [TCell (Some [3]); TCell (Some [3])]) [1%nat]]).
Proof.
  cbn -[len_s rank_s]. repeat split; try reflexivity; try (cbn; lia); intros [|k] Hk; cbn in *; auto; lia.
Qed.

Print Assumptions C52_pass.
Print Assumptions C52_fail.
Print Assumptions C52_len.
Print Assumptions C52_validate.
Print Assumptions C53_partial.
Print Assumptions C53_settled_view.
Print Assumptions C53_settled_fixed.
Print Assumptions C53_refuted.
Print Assumptions C53_top_refuted.
