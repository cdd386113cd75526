(* Properties of the owners of memory: C137. *)
From Coq Require Import ZArith List Lia Bool Arith.
From Verif Require Import Spec M_Base M_Expr L_Spec Spec_Expr M_View L_View Spec_View P_View M_Array P_Array M_Own Spec_Own.
Import ListNotations.
Open Scope Z_scope.

Section P.
Context {T : Type}.
Notation ent := (ent T).

Lemma upd_nth : forall A (l : list A) i x k, nth_error (upd l i x) k = if Nat.eqb k i then match nth_error l i with Some _ => Some x | None => None end else nth_error l k.
Proof.
  induction l as [|y l IH]; intros i x k; cbn [upd].
  - destruct (Nat.eqb_spec k i); destruct k; destruct i; cbn; auto.
  - destruct i; destruct k; cbn; auto.
Qed.
Lemma upd_twice : forall A (l : list A) i x y, upd (upd l i x) i y = upd l i y.
Proof. induction l as [|z l IH]; intros [|i] x y; cbn [upd]; auto. f_equal. auto. Qed.
Lemma upd_same : forall A (l : list A) i x, nth_error l i = Some x -> upd l i x = l.
Proof. induction l as [|z l IH]; intros [|i] x E; cbn in *; auto; try congruence. f_equal. auto. Qed.
Lemma upd_length : forall A (l : list A) i x, length (upd l i x) = length l.
Proof. induction l as [|z l IH]; intros [|i] x; cbn; auto. Qed.

Lemma map_repeat' : forall A B (f : A -> B) x n, map f (repeat x n) = repeat (f x) n.
Proof. induction n; cbn; auto. f_equal. auto. Qed.
Lemma nth_error_firstn' : forall A n (l : list A) k, (k < n)%nat -> nth_error (firstn n l) k = nth_error l k.
Proof. induction n; intros [|x l] [|k] H; cbn; auto; try lia. apply IHn. lia. Qed.

Definition owns (p : nat) (x : option obj) : bool :=
  match x with Some o => match optr o with Some q => Nat.eqb q p && oown o | None => false end | None => false end.
(* how many objects own the block *)
Definition cnt (p : nat) (l : list (option obj)) : nat := length (filter (owns p) l).
Definition b2n (b : bool) : nat := if b then 1%nat else 0%nat.
Lemma cnt_upd : forall l i y x p, nth_error l i = Some y -> (cnt p (upd l i x) + b2n (owns p y) = cnt p l + b2n (owns p x))%nat.
Proof.
  unfold cnt. induction l as [|z l IH]; intros [|i] y x p E; cbn [nth_error upd filter] in *; try discriminate.
  - injection E as ->. destruct (owns p x), (owns p y); cbn; lia.
  - specialize (IH i y x p E). destruct (owns p z); cbn [length]; lia.
Qed.
Lemma cnt_pos : forall l p, (0 < cnt p l)%nat -> exists i o, nth_error l i = Some (Some o) /\ optr o = Some p /\ oown o = true.
Proof.
  unfold cnt. induction l as [|z l IH]; intros p H; cbn [filter] in H; [cbn in H; lia|].
  destruct (owns p z) eqn:E.
  - exists 0%nat. destruct z as [o|]; cbn in E; [|discriminate]. destruct (optr o) as [q|] eqn:Eq; [|discriminate]. apply andb_prop in E as (E1 & E2). apply Nat.eqb_eq in E1. subst q. exists o. cbn. auto.
  - destruct (IH p H) as (i & o & H1). exists (S i), o. exact H1.
Qed.
Lemma cnt_owner : forall l p i o, nth_error l i = Some (Some o) -> optr o = Some p -> oown o = true -> (0 < cnt p l)%nat.
Proof.
  unfold cnt. induction l as [|z l IH]; intros p [|i] o E Eo Ew; cbn [nth_error filter] in *; try discriminate.
  - injection E as ->. unfold owns. rewrite Eo, Ew, Nat.eqb_refl. cbn. lia.
  - specialize (IH p i o E Eo Ew). destruct (owns p z); cbn [length]; lia.
Qed.
Lemma cnt_two : forall l p i j a b, i <> j -> nth_error l i = Some (Some a) -> nth_error l j = Some (Some b) -> optr a = Some p -> optr b = Some p -> oown a = true -> oown b = true -> (2 <= cnt p l)%nat.
Proof.
  intros l p i j a b Hij Ei Ej Pa Pb Oa Ob. pose proof (cnt_upd l i (Some a) None p Ei) as C. unfold owns at 1 2 in C. rewrite Pa, Oa, Nat.eqb_refl in C. cbn [andb b2n] in C.
  assert (0 < cnt p (upd l i None))%nat; [|lia]. apply (cnt_owner _ p j b); auto. rewrite upd_nth. destruct (Nat.eqb_spec j i); [congruence|auto].
Qed.

(* the object and its container *)
Definition tie (o : obj) (t : ent) : Prop :=
  okind o = ekind t /\ orank o = erank t /\ map len (odim o) = eshape t /\ nonneg (eshape t) /\ (forall j, inshape j (eshape t) -> place (odim o) j = rm (eshape t) j) /\ oown o = eown t /\
  (match optr o, ename t with Some _, Some _ | None, None => True | _, _ => False end) /\ (okind o <> KShared -> oown o = true).
Definition at_ (l : list (option obj)) (e : nat -> option ent) (i : nat) (o : obj) (t : ent) (p m : nat) : Prop :=
  nth_error l i = Some (Some o) /\ e i = Some t /\ optr o = Some p /\ ename t = Some m.
Definition holds (b : blk T) (t : ent) : Prop :=
  Z.of_nat (length (bdata b)) = zprod (eshape t) /\ forall j, inshape j (eshape t) -> nth_error (bdata b) (Z.to_nat (rm (eshape t) j)) = eval t j.

Record Inv (l : list (option obj)) (bk : nat -> option (blk T)) (e : nat -> option ent) (now : nat) : Prop := {
  iA : forall i, match nth_error l i with Some (Some o) => exists t, e i = Some t /\ tie o t | _ => e i = None end;
  iB : forall i j a b t u p q m n, at_ l e i a t p m -> at_ l e j b u q n -> (p = q <-> m = n) /\ (m = n -> eshape t = eshape u);
  iC : forall i a t p m, at_ l e i a t p m -> (m < now)%nat;
  iD : forall p, cnt p l = match bk p with Some b => bcount b | None => 0%nat end;
  iP : forall p b, bk p = Some b -> (0 < bcount b)%nat;
  iE : forall i a t p m b, at_ l e i a t p m -> bk p = Some b -> holds b t;
  iF : forall i a t p m, at_ l e i a t p m -> okind a <> KShared -> cnt p l = 1%nat }.

Lemma inv_ext : forall l bk bk' e e' n n', Inv l bk e n -> (forall p, bk' p = bk p) -> (forall i, e' i = e i) -> (n <= n')%nat -> Inv l bk' e' n'.
Proof.
  intros l bk bk' e e' n n' I Hb He Hn.
  assert (G : forall i a t p m, at_ l e' i a t p m -> at_ l e i a t p m) by (intros i a t p m H; unfold at_ in *; rewrite He in H; exact H).
  destruct I as [A B C D P E F]. constructor.
  - intros i. specialize (A i). destruct (nth_error l i) as [[o|]|]; rewrite He; auto.
  - intros i j a b t u p q m k H1 H2. eapply B; eauto.
  - intros i a t p m H. apply G in H. apply C in H. lia.
  - intros p. rewrite Hb. apply D.
  - intros p b. rewrite Hb. apply P.
  - intros i a t p m b H. rewrite Hb. apply (E i a t p m b). auto.
  - intros i a t p m H. apply (F i a t p m). auto.
Qed.

Lemma inv_S : forall l bk e n, Inv l bk e n -> Inv l bk e (S n).
Proof. intros l bk e n I. apply (inv_ext l bk bk e e n); auto. Qed.

Lemma inv_live : forall l bk e n i a t p m, Inv l bk e n -> at_ l e i a t p m -> oown a = true -> exists b, bk p = Some b.
Proof.
  intros l bk e n i a t p m I (H1 & H2 & H3 & H4) O. pose proof (cnt_owner l p i a H1 H3 O) as C. rewrite (iD _ _ _ _ I) in C. destruct (bk p); [eauto|lia].
Qed.
Lemma tie_ptr : forall o t p, tie o t -> optr o = Some p -> exists m, ename t = Some m.
Proof. intros o t p (_ & _ & _ & _ & _ & _ & H & _) E. rewrite E in H. destruct (ename t); [eauto|contradiction]. Qed.
Lemma tie_name : forall o t m, tie o t -> ename t = Some m -> exists p, optr o = Some p.
Proof. intros o t p (_ & _ & _ & _ & _ & _ & H & _) E. rewrite E in H. destruct (optr o); [eauto|contradiction]. Qed.

(* with a loan there's an owner, so the block is there *)
Lemma lent_live : forall l bk e n i a t p m, Inv l bk e n -> lent e -> at_ l e i a t p m -> exists b, bk p = Some b.
Proof.
  intros l bk e n i a t p m I L H. pose proof H as (H1 & H2 & H3 & H4). destruct (L i t m H2 H4) as (j & u & U1 & U2 & U3).
  pose proof (iA _ _ _ _ I j) as A. destruct (nth_error l j) as [[b|]|] eqn:Ej; [|congruence|congruence]. destruct A as (u' & U' & Tb). assert (u' = u) by congruence. subst u'.
  destruct (tie_name b u m Tb U2) as (q & Hq).
  assert (J : at_ l e j b u q m) by (unfold at_; auto). destruct (iB _ _ _ _ I _ _ _ _ _ _ _ _ _ _ H J) as (G & _). assert (p = q) by (apply G; auto). subst q.
  apply (inv_live l bk e n j b u p m); auto. destruct Tb as (_ & _ & _ & _ & _ & -> & _). auto.
Qed.

(* Objects that go elsewhere, or lose their contents: every one that has contents had them before. *)
Lemma inv_move : forall l bk e n l' bk' e', Inv l bk e n ->
  (forall i, match nth_error l' i with Some (Some o) => exists t, e' i = Some t /\ tie o t | _ => e' i = None end) ->
  (forall i a t p m, at_ l' e' i a t p m -> exists j b u, at_ l e j b u p m /\ eshape t = eshape u /\ (forall k, eval t k = eval u k) /\ (okind a <> KShared -> okind b <> KShared /\ cnt p l' = cnt p l)) ->
  (forall p, cnt p l' = match bk' p with Some b => bcount b | None => 0%nat end) ->
  (forall p b, bk' p = Some b -> (0 < bcount b)%nat /\ exists b0, bk p = Some b0 /\ bdata b = bdata b0) ->
  Inv l' bk' e' n.
Proof.
  intros l bk e n l' bk' e' I A S D P. constructor; auto.
  - intros i j a b t u p q m k H1 H2. destruct (S _ _ _ _ _ H1) as (i1 & a1 & t1 & J1 & -> & _). destruct (S _ _ _ _ _ H2) as (i2 & a2 & t2 & J2 & -> & _). eapply (iB _ _ _ _ I); eauto.
  - intros i a t p m H. destruct (S _ _ _ _ _ H) as (i1 & a1 & t1 & J1 & _). eapply (iC _ _ _ _ I); eauto.
  - intros p b H. apply (P p b H).
  - intros i a t p m b H Hb. destruct (S _ _ _ _ _ H) as (i1 & a1 & t1 & J1 & Es & Ev & _). destruct (P p b Hb) as (_ & b0 & Hb0 & Eb). pose proof (iE _ _ _ _ I _ _ _ _ _ _ J1 Hb0) as (E1 & E2).
    unfold holds. rewrite Eb, Es. split; [auto|]. intros k Hk. rewrite Ev. auto.
  - intros i a t p m H Hk. destruct (S _ _ _ _ _ H) as (i1 & a1 & t1 & J1 & Es & Ev & G). destruct (G Hk) as (G1 & ->). eapply (iF _ _ _ _ I); eauto.
Qed.

Lemma put_same : forall A (e : nat -> A) i x, put e i x i = x.
Proof. intros. unfold put. rewrite Nat.eqb_refl. auto. Qed.
Lemma put_other : forall A (e : nat -> A) i x k, k <> i -> put e i x k = e k.
Proof. intros. unfold put. destruct (Nat.eqb_spec k i); congruence. Qed.

(* the blocks after the store of o goes *)
Definition rel (bk : nat -> option (blk T)) (o : obj) : nat -> option (blk T) :=
  fun p => if owns p (Some o) then match bk p with Some b => match bcount b with S (S c) => Some (Blk (S c) (bdata b)) | _ => None end | None => None end else bk p.
Definition ret_ (bk : nat -> option (blk T)) (o : obj) : nat -> option (blk T) :=
  fun p => if owns p (Some o) then match bk p with Some b => Some (Blk (S (bcount b)) (bdata b)) | None => None end else bk p.

Lemma inv_drop : forall l bk e n i o, Inv l bk e n -> nth_error l i = Some (Some o) -> Inv (upd l i None) (rel bk o) (put e i None) n.
Proof.
  intros l bk e n i o I Ei. assert (C : forall p, (cnt p (upd l i None) + b2n (owns p (Some o)) = cnt p l)%nat) by (intros p; pose proof (cnt_upd l i (Some o) None p Ei) as C; change (owns p None) with false in C; cbn [b2n] in C; lia).
  assert (At : forall k a t p m, at_ (upd l i None) (put e i None) k a t p m -> k <> i /\ at_ l e k a t p m).
  { intros k a t p m (H1 & H2 & H3). rewrite upd_nth in H1. destruct (Nat.eqb_spec k i); [rewrite Ei in H1; discriminate|]. rewrite put_other in H2 by auto. unfold at_. auto. }
  apply (inv_move l bk e n); auto.
  - intros k. rewrite upd_nth. destruct (Nat.eqb_spec k i) as [->|N]; [rewrite Ei, put_same; auto|]. pose proof (iA _ _ _ _ I k) as A. rewrite put_other by auto. exact A.
  - intros k a t p m H. apply At in H as (N & H). exists k, a, t. split; auto. split; auto. split; auto. intros K. split; auto.
    specialize (C p). enough (owns p (Some o) = false) as Eo by (rewrite Eo in C; cbn in C; lia). destruct (owns p (Some o)) eqn:Eo; auto.
    unfold owns in Eo. destruct (optr o) as [q|] eqn:Eq; [|discriminate]. apply andb_prop in Eo as (E1 & E2). apply Nat.eqb_eq in E1. subst q.
    pose proof (iF _ _ _ _ I _ _ _ _ _ H K) as F1. destruct H as (H1 & H2 & H3 & H4). pose proof (iA _ _ _ _ I k) as A. rewrite H1 in A. destruct A as (t' & _ & Tt). destruct Tt as (_ & _ & _ & _ & _ & _ & _ & Tw).
    pose proof (cnt_two l p k i a o N H1 Ei H3 Eq (Tw K) E2). lia.
  - intros p. specialize (C p). pose proof (iD _ _ _ _ I p) as D. unfold rel. destruct (owns p (Some o)); cbn [b2n] in C.
    + destruct (bk p) as [b|] eqn:Eb; [|lia]. pose proof (iP _ _ _ _ I p b Eb). destruct (bcount b) as [|[|c]]; cbn [bcount]; lia.
    + lia.
  - intros p b Hb. unfold rel in Hb. destruct (owns p (Some o)); [|pose proof (iP _ _ _ _ I p b Hb); eauto].
    destruct (bk p) as [b0|] eqn:Eb; [|discriminate]. destruct (bcount b0) as [|[|c]] eqn:Ec; try discriminate. injection Hb as <-. cbn [bcount bdata]. split; [lia|eauto].
Qed.

Lemma inv_null : forall l bk e n i o t, Inv l bk e n -> nth_error l i = Some None -> tie o t -> optr o = None -> Inv (upd l i (Some o)) bk (put e i (Some t)) n.
Proof.
  intros l bk e n i o t I Ei Ho Hp. apply (inv_move l bk e n); auto.
  - intros k. rewrite upd_nth. destruct (Nat.eqb_spec k i) as [->|N]; [rewrite Ei, put_same; eauto|]. rewrite put_other by auto. apply (iA _ _ _ _ I k).
  - intros k a u p m (H1 & H2 & H3 & H4). rewrite upd_nth in H1. destruct (Nat.eqb_spec k i) as [->|N]; [rewrite Ei in H1; congruence|]. rewrite put_other in H2 by auto.
    exists k, a, u. split; [unfold at_; auto|]. split; auto. split; auto. intros K. split; auto. pose proof (cnt_upd l i None (Some o) p Ei) as C. unfold owns in C. rewrite Hp in C. cbn in C. lia.
  - intros p. pose proof (cnt_upd l i None (Some o) p Ei) as C. unfold owns in C. rewrite Hp in C. cbn in C. rewrite <- (iD _ _ _ _ I p). lia.
  - intros p b Hb. pose proof (iP _ _ _ _ I p b Hb). eauto.
Qed.

Lemma inv_share : forall l bk e n i j o, Inv l bk e n -> nth_error l i = Some None -> nth_error l j = Some (Some o) -> okind o = KShared -> Inv (upd l i (Some o)) (ret_ bk o) (put e i (e j)) n.
Proof.
  intros l bk e n i j o I Ei Ej Ko. assert (C : forall p, cnt p (upd l i (Some o)) = (cnt p l + b2n (owns p (Some o)))%nat) by (intros p; pose proof (cnt_upd l i None (Some o) p Ei) as C; change (owns p None) with false in C; cbn [b2n] in C; lia).
  pose proof (iA _ _ _ _ I j) as Aj. rewrite Ej in Aj. destruct Aj as (tj & Etj & Tj).
  assert (Hij : j <> i) by congruence.
  apply (inv_move l bk e n); auto.
  - intros k. rewrite upd_nth. destruct (Nat.eqb_spec k i) as [->|N]; [rewrite Ei, put_same; eauto|]. rewrite put_other by auto. apply (iA _ _ _ _ I k).
  - intros k a u p m (H1 & H2 & H3 & H4). rewrite upd_nth in H1. destruct (Nat.eqb_spec k i) as [->|N].
    + rewrite Ei in H1. injection H1 as <-. rewrite put_same in H2. exists j, o, u. split; [unfold at_; auto|]. split; auto. split; auto. intros K. congruence.
    + rewrite put_other in H2 by auto. exists k, a, u. split; [unfold at_; auto|]. split; auto. split; auto. intros K. split; auto. specialize (C p).
      enough (owns p (Some o) = false) as Eo. { rewrite Eo in C. cbn [b2n] in C. lia. } destruct (owns p (Some o)) eqn:Eo; auto. exfalso.
      unfold owns in Eo. destruct (optr o) as [q|] eqn:Eq; [|discriminate]. apply andb_prop in Eo as (E1 & E2). apply Nat.eqb_eq in E1. subst q.
      assert (J : at_ l e k a u p m) by (unfold at_; auto). pose proof (iF _ _ _ _ I _ _ _ _ _ J K) as F1.
      pose proof (iA _ _ _ _ I k) as A. rewrite H1 in A. destruct A as (t' & _ & Tt). destruct Tt as (_ & _ & _ & _ & _ & _ & _ & Tw).
      assert (k <> j) by congruence. pose proof (cnt_two l p k j a o H H1 Ej H3 Eq (Tw K) E2). lia.
  - intros p. specialize (C p). pose proof (iD _ _ _ _ I p) as D. unfold ret_. destruct (owns p (Some o)) eqn:Eo; cbn [b2n] in C.
    + unfold owns in Eo. destruct (optr o) as [q|] eqn:Eq; [|discriminate]. apply andb_prop in Eo as (E1 & E2). apply Nat.eqb_eq in E1. subst q. pose proof (cnt_owner l p j o Ej Eq E2). destruct (bk p) as [b|]; cbn [bcount]; lia.
    + lia.
  - intros p b Hb. unfold ret_ in Hb. destruct (owns p (Some o)); [|pose proof (iP _ _ _ _ I p b Hb); eauto].
    destruct (bk p) as [b0|] eqn:Eb; [|discriminate]. injection Hb as <-. cbn [bcount bdata]. split; [lia|eauto].
Qed.

Lemma inv_borrow : forall l bk e n i j o t, Inv l bk e n -> nth_error l i = Some None -> nth_error l j = Some (Some o) -> e j = Some t ->
  Inv (upd l i (Some (Obj KShared (orank o) (odim o) (optr o) false))) bk (put e i (Some (Ent KShared (erank t) (eshape t) (ename t) false (eval t)))) n.
Proof.
  intros l bk e n i j o t I Ei Ej Et. set (o' := Obj KShared (orank o) (odim o) (optr o) false). set (t' := Ent KShared (erank t) (eshape t) (ename t) false (eval t)).
  assert (C : forall p, cnt p (upd l i (Some o')) = cnt p l).
  { intros p. pose proof (cnt_upd l i None (Some o') p Ei) as C. assert (E : owns p (Some o') = false) by (unfold owns, o'; cbn [optr oown]; destruct (optr o); auto using andb_false_r). rewrite E in C. change (owns p None) with false in C. cbn [b2n] in C. lia. }
  pose proof (iA _ _ _ _ I j) as Aj. rewrite Ej in Aj. destruct Aj as (tj & Etj & Tj). assert (tj = t) by congruence. subst tj. destruct Tj as (T1 & T2 & T3 & T4 & T5 & T6 & T7 & T8).
  apply (inv_move l bk e n); auto.
  - intros k. rewrite upd_nth. destruct (Nat.eqb_spec k i) as [->|N]; [|rewrite put_other by auto; apply (iA _ _ _ _ I k)].
    rewrite Ei, put_same. exists t'. split; auto. unfold tie, o', t'. cbn [okind orank odim optr oown ekind erank eshape ename eown]. repeat (split; [auto; fail|]). congruence.
  - intros k a u p m (H1 & H2 & H3 & H4). rewrite upd_nth in H1. destruct (Nat.eqb_spec k i) as [->|N].
    + rewrite Ei in H1. injection H1 as <-. rewrite put_same in H2. injection H2 as <-. exists j, o, t. split; [unfold at_; auto|]. split; [reflexivity|]. split; [reflexivity|]. intros K. contradiction K. reflexivity.
    + rewrite put_other in H2 by auto. exists k, a, u. split; [unfold at_; auto|]. auto.
  - intros p. rewrite C. apply (iD _ _ _ _ I).
  - intros p b Hb. pose proof (iP _ _ _ _ I p b Hb). eauto.
Qed.

Lemma tie_hollow : forall o t, tie o t -> tie (hollow o) (spent t).
Proof.
  intros o t (T1 & T2 & T3 & T4 & T5 & T6 & T7 & T8). unfold tie, hollow, spent. cbn [okind orank odim optr oown ekind erank eshape ename eown]. split; auto. split; auto. rewrite <- T2. destruct (orank o).
  - repeat (split; [auto; fail|]). auto.
  - split; auto. split; [constructor|]. split; [intros j Hj; inversion Hj; reflexivity|]. auto.
Qed.

Lemma inv_go : forall l bk e n i j o, Inv l bk e n -> nth_error l i = Some None -> nth_error l j = Some (Some o) ->
  Inv (upd (upd l i (Some o)) j (Some (hollow o))) bk (put (put e i (e j)) j (option_map spent (e j))) n.
Proof.
  intros l bk e n i j o I Ei Ej. assert (Hij : j <> i) by congruence.
  assert (Nj : nth_error (upd l i (Some o)) j = Some (Some o)) by (rewrite upd_nth; destruct (Nat.eqb_spec j i); [congruence|auto]).
  assert (C : forall p, cnt p (upd (upd l i (Some o)) j (Some (hollow o))) = cnt p l).
  { intros p. pose proof (cnt_upd l i None (Some o) p Ei) as C1. pose proof (cnt_upd _ j (Some o) (Some (hollow o)) p Nj) as C2. change (owns p (Some (hollow o))) with false in C2. cbn [owns b2n] in *. lia. }
  pose proof (iA _ _ _ _ I j) as Aj. rewrite Ej in Aj. destruct Aj as (tj & Etj & Tj).
  apply (inv_move l bk e n); auto.
  - intros k. rewrite upd_nth. destruct (Nat.eqb_spec k j) as [->|N].
    + rewrite Nj, put_same, Etj. exists (spent tj). split; auto. apply tie_hollow; auto.
    + rewrite put_other by auto. rewrite upd_nth. destruct (Nat.eqb_spec k i) as [->|N']; [rewrite Ei, put_same; eauto|]. rewrite put_other by auto. apply (iA _ _ _ _ I k).
  - intros k a u p m (H1 & H2 & H3 & H4). rewrite upd_nth in H1. destruct (Nat.eqb_spec k j) as [->|N].
    { rewrite Nj in H1. injection H1 as <-. discriminate. }
    rewrite put_other in H2 by auto. rewrite upd_nth in H1. destruct (Nat.eqb_spec k i) as [->|N'].
    + rewrite Ei in H1. injection H1 as <-. rewrite put_same in H2. exists j, o, u. split; [unfold at_; auto|]. auto.
    + rewrite put_other in H2 by auto. exists k, a, u. split; [unfold at_; auto|]. auto.
  - intros p. rewrite C. apply (iD _ _ _ _ I).
  - intros p b Hb. pose proof (iP _ _ _ _ I p b Hb). eauto.
Qed.

Lemma inv_swap : forall l bk e n i j a b, Inv l bk e n -> nth_error l i = Some (Some a) -> nth_error l j = Some (Some b) ->
  Inv (upd (upd l i (Some b)) j (Some a)) bk (put (put e i (e j)) j (e i)) n.
Proof.
  intros l bk e n i j a b I Ei Ej. destruct (Nat.eq_dec i j) as [->|Hij].
  { rewrite upd_twice. rewrite upd_same by auto. apply (inv_ext l bk bk e _ n n); auto. intros k. unfold put. destruct (Nat.eqb_spec k j); subst; auto. }
  assert (Nj : nth_error (upd l i (Some b)) j = Some (Some b)) by (rewrite upd_nth; destruct (Nat.eqb_spec j i); [congruence|auto]).
  assert (C : forall p, cnt p (upd (upd l i (Some b)) j (Some a)) = cnt p l).
  { intros p. pose proof (cnt_upd l i (Some a) (Some b) p Ei) as C1. pose proof (cnt_upd _ j (Some b) (Some a) p Nj) as C2. lia. }
  apply (inv_move l bk e n); auto.
  - intros k. rewrite upd_nth. destruct (Nat.eqb_spec k j) as [->|N].
    + rewrite Nj, put_same. pose proof (iA _ _ _ _ I i) as A. rewrite Ei in A. exact A.
    + rewrite put_other by auto. rewrite upd_nth. destruct (Nat.eqb_spec k i) as [->|N']; [|rewrite put_other by auto; apply (iA _ _ _ _ I k)].
      rewrite Ei, put_same. pose proof (iA _ _ _ _ I j) as A. rewrite Ej in A. exact A.
  - intros k c u p m (H1 & H2 & H3 & H4). rewrite upd_nth in H1. destruct (Nat.eqb_spec k j) as [->|N].
    { rewrite Nj in H1. injection H1 as <-. rewrite put_same in H2. exists i, a, u. split; [unfold at_; auto|]. auto. }
    rewrite put_other in H2 by auto. rewrite upd_nth in H1. destruct (Nat.eqb_spec k i) as [->|N'].
    + rewrite Ei in H1. injection H1 as <-. rewrite put_same in H2. exists j, b, u. split; [unfold at_; auto|]. auto.
    + rewrite put_other in H2 by auto. exists k, c, u. split; [unfold at_; auto|]. auto.
  - intros p. rewrite C. apply (iD _ _ _ _ I).
  - intros p c Hb. pose proof (iP _ _ _ _ I p c Hb). eauto.
Qed.

(* new contents *)
Lemma inv_new : forall l bk e n i o t p d bk', Inv l bk e n -> lent e -> nth_error l i = Some None -> bk p = None -> bk' p = Some (Blk 1 d) -> (forall q, q <> p -> bk' q = bk q) ->
  tie o t -> optr o = Some p -> oown o = true -> ename t = Some n -> holds (Blk 1 d) t -> Inv (upd l i (Some o)) bk' (put e i (Some t)) (S n).
Proof.
  intros l bk e n i o t p d bk' I L Ei Hp Hp' Hq Ht Ho Hw Hn Hd.
  assert (At : forall k a u q m, at_ (upd l i (Some o)) (put e i (Some t)) k a u q m -> (k = i /\ a = o /\ u = t /\ q = p /\ m = n) \/ (k <> i /\ at_ l e k a u q m /\ q <> p /\ (m < n)%nat)).
  { intros k a u q m (H1 & H2 & H3 & H4). rewrite upd_nth in H1. destruct (Nat.eqb_spec k i) as [->|N].
    - left. rewrite Ei in H1. rewrite put_same in H2. assert (a = o) by congruence. assert (u = t) by congruence. subst. repeat split; congruence.
    - right. rewrite put_other in H2 by auto. assert (J : at_ l e k a u q m) by (unfold at_; auto). split; auto. split; auto. split; [|eapply (iC _ _ _ _ I); eauto].
      intros ->. destruct (lent_live _ _ _ _ _ _ _ _ _ I L J) as (b & Hb). congruence. }
  assert (C : forall q, cnt q (upd l i (Some o)) = (cnt q l + b2n (Nat.eqb q p))%nat).
  { intros q. pose proof (cnt_upd l i None (Some o) q Ei) as C. unfold owns in C. rewrite Ho, Hw, andb_true_r, Nat.eqb_sym in C. cbn [b2n] in C. lia. }
  constructor.
  - intros k. rewrite upd_nth. destruct (Nat.eqb_spec k i) as [->|N]; [rewrite Ei, put_same; eauto|]. rewrite put_other by auto. apply (iA _ _ _ _ I k).
  - intros k j a b u v q r m m' H1 H2. apply At in H1. apply At in H2. destruct H1 as [(-> & -> & -> & -> & ->)|(N1 & J1 & Q1 & M1)]; destruct H2 as [(-> & -> & -> & -> & ->)|(N2 & J2 & Q2 & M2)].
    + split; [tauto|auto].
    + split; [split; intros; [congruence|lia]|intros; lia].
    + split; [split; intros; [congruence|lia]|intros; lia].
    + eapply (iB _ _ _ _ I); eauto.
  - intros k a u q m H. apply At in H as [(_ & _ & _ & _ & ->)|(_ & _ & _ & H)]; lia.
  - intros q. rewrite C, (iD _ _ _ _ I). destruct (Nat.eqb_spec q p) as [->|N]; cbn [b2n]; [rewrite Hp, Hp'; auto|]. rewrite Hq by auto. lia.
  - intros q b Hb. destruct (Nat.eq_dec q p) as [->|N]; [rewrite Hp' in Hb; injection Hb as <-; cbn; lia|]. rewrite Hq in Hb by auto. eapply (iP _ _ _ _ I); eauto.
  - intros k a u q m b H Hb. apply At in H as [(-> & -> & -> & -> & ->)|(N1 & J1 & Q1 & M1)].
    + rewrite Hp' in Hb. injection Hb as <-. auto.
    + rewrite Hq in Hb by auto. eapply (iE _ _ _ _ I); eauto.
  - intros k a u q m H K. rewrite C. apply At in H as [(-> & -> & -> & -> & ->)|(N1 & J1 & Q1 & M1)].
    + rewrite Nat.eqb_refl, (iD _ _ _ _ I), Hp. reflexivity.
    + destruct (Nat.eqb_spec q p); [contradiction|]. cbn [b2n]. rewrite (iF _ _ _ _ I _ _ _ _ _ J1 K). reflexivity.
Qed.

(* other elements in a block *)
Lemma inv_write : forall l bk e n i o t p m b d f bk', Inv l bk e n -> at_ l e i o t p m -> bk p = Some b -> length d = length (bdata b) ->
  (forall u j, eshape u = eshape t -> holds b u -> inshape j (eshape t) -> nth_error d (Z.to_nat (rm (eshape t) j)) = f (eval u) j) ->
  bk' p = Some (Blk (bcount b) d) -> (forall q, q <> p -> bk' q = bk q) -> Inv l bk' (rewrite_ e t f) n.
Proof.
  intros l bk e n i o t p m b d f bk' I J Hb Hl Hf Hp Hq.
  assert (At : forall k a u q r, at_ l (rewrite_ e t f) k a u q r -> exists u0, at_ l e k a u0 q r /\ eshape u = eshape u0 /\ ((r = m /\ q = p /\ eval u = f (eval u0)) \/ (r <> m /\ q <> p /\ u = u0))).
  { intros k a u q r (H1 & H2 & H3 & H4). unfold rewrite_ in H2. destruct (e k) as [u0|] eqn:Ek; [|discriminate]. injection H2 as <-. exists u0. pose proof J as (J1 & J2 & J3 & J4).
    unfold named in *. rewrite J4 in *. destruct (ename u0) as [r'|] eqn:Er.
    - destruct (Nat.eqb_spec r' m) as [->|N].
      + cbn [ename eshape eval] in *. assert (r = m) by congruence. subst r. assert (J' : at_ l e k a u0 q m) by (unfold at_; auto). split; auto. split; auto. left. split; auto. split; auto.
        destruct (iB _ _ _ _ I _ _ _ _ _ _ _ _ _ _ J' J) as (G & _). apply G. auto.
      + assert (r = r') by congruence. subst r'. assert (J' : at_ l e k a u0 q r) by (unfold at_; auto). split; auto. split; auto. right. split; auto. split; auto.
        destruct (iB _ _ _ _ I _ _ _ _ _ _ _ _ _ _ J' J) as (G & _). intros Q. apply N. apply G. auto.
    - congruence. }
  constructor.
  - intros k. pose proof (iA _ _ _ _ I k) as A. unfold rewrite_. destruct (nth_error l k) as [[a|]|]; [|rewrite A; auto|rewrite A; auto]. destruct A as (u & -> & Tu). eexists. split; [reflexivity|]. destruct (named u t); auto.
  - intros k j a c u v q r m1 m2 H1 H2. apply At in H1 as (u0 & J1 & -> & _). apply At in H2 as (v0 & J2 & -> & _). eapply (iB _ _ _ _ I); eauto.
  - intros k a u q r H. apply At in H as (u0 & J1 & _). eapply (iC _ _ _ _ I); eauto.
  - intros q. rewrite (iD _ _ _ _ I). destruct (Nat.eq_dec q p) as [->|N]; [rewrite Hb, Hp; auto|rewrite Hq; auto].
  - intros q c Hc. destruct (Nat.eq_dec q p) as [->|N]; [|rewrite Hq in Hc by auto; eapply (iP _ _ _ _ I); eauto]. rewrite Hp in Hc. injection Hc as <-. apply (iP _ _ _ _ I p b Hb).
  - intros k a u q r c H Hc. apply At in H as (u0 & J1 & Es & [(-> & -> & Ev)|(Nr & Nq & ->)]).
    + rewrite Hp in Hc. injection Hc as <-. pose proof (iE _ _ _ _ I _ _ _ _ _ _ J1 Hb) as H0. destruct (iB _ _ _ _ I _ _ _ _ _ _ _ _ _ _ J1 J) as (_ & G). specialize (G eq_refl).
      pose proof H0 as (E1 & E2). unfold holds. cbn [bdata]. rewrite Hl, Es. split; auto. intros j Hj. rewrite Ev. rewrite G in *. apply Hf; auto.
    + rewrite Hq in Hc by auto. eapply (iE _ _ _ _ I); eauto.
  - intros k a u q r H K. apply At in H as (u0 & J1 & _). eapply (iF _ _ _ _ I); eauto.
Qed.

Lemma block_nth : forall (h : list (option (blk T))) p b, block h p = Some b -> nth_error h p = Some (Some b).
Proof. unfold block. intros h p b H. destruct (nth_error h p) as [[c|]|]; congruence. Qed.
Lemma block_upd : forall (h : list (option (blk T))) p b x q, block h p = Some b -> block (upd h p x) q = if Nat.eqb q p then x else block h q.
Proof.
  intros h p b x q H. apply block_nth in H. unfold block. rewrite upd_nth. destruct (Nat.eqb_spec q p) as [->|N]; auto. rewrite H. destruct x; auto.
Qed.
Lemma alloc_spec : forall (h : list (option (blk T))) b h' p, alloc h b = (h', p) -> block h p = None /\ block h' p = Some b /\ forall q, q <> p -> block h' q = block h q.
Proof.
  induction h as [|[c|] h IH]; intros b h' p E; cbn [alloc] in E.
  - injection E as <- <-. split; [auto|]. split; [auto|]. intros [|q] N; [congruence|]. unfold block. destruct q; auto.
  - destruct (alloc h b) as [h1 p1] eqn:E1. injection E as <- <-. destruct (IH b h1 p1 E1) as (A & B & C). split; [auto|]. split; [auto|]. intros [|q] N; [auto|]. apply (C q). congruence.
  - injection E as <- <-. split; [auto|]. split; [auto|]. intros [|q] N; [congruence|auto].
Qed.
Lemma owns_ptr : forall p o, owns p (Some o) = true <-> optr o = Some p /\ oown o = true.
Proof.
  intros p o. unfold owns. destruct (optr o) as [q|]; [|split; [discriminate|intros (H & _); discriminate]]. rewrite andb_true_iff, Nat.eqb_eq. split; intros (H1 & H2); split; auto; congruence.
Qed.
Lemma release_is : forall (h : list (option (blk T))) o, (forall p, owns p (Some o) = true -> exists b, block h p = Some b) -> exists h', release h o = Good h' /\ forall p, block h' p = rel (block h) o p.
Proof.
  intros h o H. unfold release, rel. destruct (optr o) as [q|] eqn:Eq.
  - destruct (oown o) eqn:Ew.
    + destruct (H q) as (b & Hb); [apply owns_ptr; auto|]. rewrite Hb. eexists. split; [reflexivity|]. intros p. rewrite (block_upd h q b) by auto. unfold owns. rewrite Eq, Ew, andb_true_r, Nat.eqb_sym.
      destruct (Nat.eqb_spec q p) as [->|N]; auto. rewrite Hb. auto.
    + exists h. split; auto. intros p. unfold owns. rewrite Eq, Ew, andb_false_r. auto.
  - exists h. split; auto. intros p. unfold owns. rewrite Eq. auto.
Qed.
Lemma retain_is : forall (h : list (option (blk T))) o, (forall p, owns p (Some o) = true -> exists b, block h p = Some b) -> exists h', retain h o = Good h' /\ forall p, block h' p = ret_ (block h) o p.
Proof.
  intros h o H. unfold retain, ret_. destruct (optr o) as [q|] eqn:Eq.
  - destruct (oown o) eqn:Ew.
    + destruct (H q) as (b & Hb); [apply owns_ptr; auto|]. rewrite Hb. eexists. split; [reflexivity|]. intros p. rewrite (block_upd h q b) by auto. unfold owns. rewrite Eq, Ew, andb_true_r, Nat.eqb_sym.
      destruct (Nat.eqb_spec q p) as [->|N]; auto. rewrite Hb. auto.
    + exists h. split; auto. intros p. unfold owns. rewrite Eq, Ew, andb_false_r. auto.
  - exists h. split; auto. intros p. unfold owns. rewrite Eq. auto.
Qed.
Lemma owner_live : forall l bk e n i o p, Inv l bk e n -> nth_error l i = Some (Some o) -> owns p (Some o) = true -> exists b, bk p = Some b.
Proof.
  intros l bk e n i o p I Ei Ho. apply owns_ptr in Ho as (Hp & Hw). pose proof (cnt_owner l p i o Ei Hp Hw) as C. rewrite (iD _ _ _ _ I) in C. destruct (bk p); [eauto|lia].
Qed.
Lemma object_nth : forall (w : world T) i o, object w i = Good o -> nth_error (objs w) i = Some (Some o).
Proof. unfold object. intros w i o H. destruct (nth_error (objs w) i) as [[a|]|]; congruence. Qed.
Lemma vacant_nth : forall (w : world T) i u, vacant w i = Good u -> nth_error (objs w) i = Some None.
Proof. unfold vacant. intros w i u H. destruct (nth_error (objs w) i) as [[a|]|]; congruence. Qed.
Lemma rbind_good : forall A B (m : res A) (f : A -> res B) b, rbind m f = Good b -> exists a, m = Good a /\ f a = Good b.
Proof. intros A B [a| |] f b H; cbn in H; try discriminate. eauto. Qed.
Lemma same_type_is : forall a b, same_type a b = true -> okind a = okind b /\ orank a = orank b.
Proof.
  unfold same_type. intros a b H. apply andb_prop in H as (H1 & H2). split; [destruct (okind a), (okind b); congruence|]. destruct (orank a), (orank b); try discriminate; auto. apply Nat.eqb_eq in H2. congruence.
Qed.
Lemma holds_data : forall b c t u, holds b t -> bdata c = bdata b -> eshape u = eshape t -> (forall j, eval u j = eval t j) -> holds c u.
Proof. intros b c t u (H1 & H2) Hb Hs He. unfold holds. rewrite Hb, Hs. split; auto. intros j Hj. rewrite He. auto. Qed.
Lemma obj_eq : forall a : obj, a = Obj (okind a) (orank a) (odim a) (optr a) (oown a).
Proof. destruct a; auto. Qed.
Lemma address_is : forall o t p a, tie o t -> address o p = Good a -> inshape p (eshape t) /\ a = rm (eshape t) p.
Proof.
  intros o t p a (_ & _ & L & N & P & _) H. unfold address in H. destruct (Nat.eqb_spec (length p) (length (odim o))) as [El|]; [|discriminate]. destruct (indexer (odim o) 0 p) as [b|] eqn:Ei; [|discriminate]. injection H as <-.
  assert (G : forall dv p c x, length p = length dv -> nonneg (map len dv) -> indexer_loop dv c p = Some x -> inshape p (map len dv) /\ x = c + place dv p).
  { clear. induction dv as [|d dv IH]; intros p c x El N H; destruct p as [|i p]; cbn in El; try discriminate; cbn [indexer_loop map place] in *.
    - split; [constructor|]. injection H as <-. lia.
    - inversion N; subst. destruct (inside i (len d) || (UNB =? len d)) eqn:Ed; [|discriminate]. assert (0 <= i < len d). { unfold inside in Ed. destruct (Z.eqb_spec UNB (len d)); [unfold UNB in *; lia|]. rewrite orb_false_r in Ed. lia. }
      destruct (IH p _ x ltac:(lia) H3 H) as (G1 & ->). split; [constructor; auto|lia]. }
  unfold indexer in Ei. rewrite El, Nat.leb_refl in Ei. destruct (G (odim o) p 0 b) as (G1 & ->); [lia|rewrite L; auto|auto|]. rewrite L in G1. split; auto. rewrite <- P by auto. lia.
Qed.
Lemma address_ok : forall o t p, tie o t -> inshape p (eshape t) -> address o p = Good (rm (eshape t) p).
Proof.
  intros o t p (_ & _ & L & N & P & _) H. unfold address. assert (El : length p = length (odim o)). { rewrite (inshape_length _ _ H), <- L, map_length. auto. } rewrite El, Nat.eqb_refl.
  rewrite <- P by auto. unfold indexer. rewrite El, Nat.leb_refl. change (place (odim o) p) with (0 + place (odim o) p). rewrite <- L in H. clear -H. revert p H. generalize 0. induction (odim o) as [|d dv IH]; intros c p H; cbn [map] in H; inversion H; subst; cbn [indexer_loop place].
  - do 2 f_equal. lia.
  - unfold inside. destruct (Z.leb_spec 0 x); [|lia]. destruct (Z.ltb_spec x (len d)); [|lia]. cbn [andb orb]. specialize (IH (c + x * step d) l H4). destruct (indexer_loop dv (c + x * step d) l); [|discriminate]. injection IH as ->. f_equal. lia.
Qed.
Lemma write_is : forall (h : list (option (blk T))) o q b l h1, optr o = Some q -> block h q = Some b -> write h o (length (bdata b)) l = Good h1 ->
  (forall r, r <> q -> block h1 r = block h r) /\ block h1 q = Some (Blk (bcount b) (firstn (length (bdata b)) l)).
Proof.
  intros h o q b l h1 Eq Eb E. unfold write in E. rewrite Eq, Eb, Nat.leb_refl, skipn_all, app_nil_r in E. destruct b as [c [|y d]]; cbn [bdata bcount length] in *.
  - assert (h1 = h) by congruence. subst. auto.
  - assert (E' : h1 = upd h q (Some (Blk c (firstn (S (length d)) l)))) by congruence. subst h1. split; [intros r Nr|]; rewrite (block_upd _ _ (Blk c (y :: d))) by auto; [destruct (Nat.eqb_spec r q); [contradiction|auto]|rewrite Nat.eqb_refl; auto].
Qed.
Lemma size_is : forall o t, tie o t -> dimv_size (odim o) = zprod (eshape t).
Proof. intros o t (_ & _ & L & N & _). rewrite dimv_size_nonneg by (rewrite L; auto). rewrite L. auto. Qed.

Lemma inv_step : forall (w w' : world T) c h, Inv (objs w) (block (heap w)) (after h) (length h) -> lent (after h) -> lent (after (c :: h)) -> act w c = Good w' ->
  Inv (objs w') (block (heap w')) (after (c :: h)) (S (length h)).
Proof.
  intros w w' c h I L L' E. set (e := after h) in *. set (n := length h) in *.
  assert (Ie : forall i o, nth_error (objs w) i = Some (Some o) -> exists t, e i = Some t /\ tie o t). { intros i o Ho. pose proof (iA _ _ _ _ I i) as A. rewrite Ho in A. exact A. }
  destruct c; cbn [act] in E; cbn [after] in *; fold e in L'; fold n in L'; fold e; fold n.
  - (* Dflt *) apply rbind_good in E as (u & Ev & E). apply vacant_nth in Ev.
    assert (G : exists dv, w' = place_new w i (heap w) (Obj k r dv None true) /\ tie (Obj k r dv None true) (Ent k r (match r with Some m => repeat 0 m | None => [0] end) None true (fun _ => None))).
    { unfold tie. cbn [okind orank odim optr oown ekind erank eshape ename eown]. destruct r as [[|m]|]; [discriminate| |]; injection E as <-; eexists; (split; [reflexivity|]); (split; [auto|]); (split; [auto|]).
      - split; [exact (map_repeat' _ _ len (Dim 0 1) (S m))|]. split; [apply Forall_forall; intros x Hx; apply repeat_spec in Hx; lia|]. split; [intros j Hj; inversion Hj; lia|]. auto.
      - split; [auto|]. split; [constructor; [lia|constructor]|]. split; [intros j Hj; inversion Hj; lia|]. auto. }
    destruct G as (dv & -> & Tt). cbn [place_new heap objs]. apply (inv_ext _ (block (heap w)) _ (put e i (Some (Ent k r (match r with Some m => repeat 0 m | None => [0] end) None true (fun _ => None)))) _ n); auto.
    apply inv_null; auto.
  - (* Make *) apply rbind_good in E as (u & Ev & E). apply vacant_nth in Ev. destruct (match r with Some m => Nat.eqb (length s) m | None => true end); [|discriminate].
    destruct (fill s []) as [dv [z|]] eqn:Ef; [|discriminate]. destruct (alloc (heap w) (Blk 1 (repeat x (Z.to_nat z)))) as [h' p] eqn:Ea. injection E as <-. cbn [place_new heap objs].
    apply alloc_spec in Ea as (A1 & A2 & A3). apply fill_spec in Ef as (F1 & -> & F3 & F4). pose proof (zprod_nonneg s F1) as Z0.
    apply (inv_new _ (block (heap w)) e n i _ _ p (repeat x (Z.to_nat (zprod s)))); auto.
    + unfold tie. cbn [okind orank odim optr oown ekind erank eshape ename eown]. auto 10.
    + unfold holds. cbn [bdata eshape eval]. split; [rewrite repeat_length; lia|]. intros j Hj. pose proof (rm_range _ _ Hj). apply nth_error_repeat. lia.
  - (* CopyNew *) apply rbind_good in E as (u & Ev & E). apply vacant_nth in Ev. apply rbind_good in E as (o & Eo & E). apply object_nth in Eo. destruct (Ie j o Eo) as (t & Et & Tt). rewrite Et. cbn [option_map].
    pose proof Tt as (T1 & T2 & T3 & T4 & T5 & T6 & T7 & T8). destruct (okind o) eqn:Ko; [|discriminate|].
    + assert (Ow : oown o = true) by (apply T8; congruence). unfold copy. rewrite <- T1. destruct (optr o) as [q|] eqn:Eq.
      * apply rbind_good in E as (d & Ed & E). destruct (alloc (heap w) (Blk 1 d)) as [h' p] eqn:Ea. injection E as <-. cbn [place_new heap objs]. apply alloc_spec in Ea as (A1 & A2 & A3).
        destruct (ename t) as [m|] eqn:Em; [|contradiction]. assert (J : at_ (objs w) e j o t q m) by (unfold at_; auto). unfold contents in Ed. rewrite Eq in Ed. destruct (block (heap w) q) as [b|] eqn:Eb; [|discriminate]. injection Ed as <-.
        apply (inv_new _ (block (heap w)) e n i _ _ p (bdata b)); auto.
        -- unfold tie. cbn [okind orank odim optr oown ekind erank eshape ename eown]. auto 10.
        -- apply (holds_data b _ t); auto. eapply (iE _ _ _ _ I); eauto.
      * injection E as <-. cbn [place_new heap objs]. destruct (ename t) eqn:Em; [contradiction|]. apply (inv_ext _ (block (heap w)) _ (put e i (Some (Ent KBig (erank t) (eshape t) None true (eval t)))) _ n); auto.
        apply inv_null; auto. unfold tie. cbn [ekind erank eshape ename eown]. rewrite Eq, Ko. auto 10.
    + apply rbind_good in E as (h' & Er & E). injection E as <-. cbn [place_new heap objs]. destruct (retain_is (heap w) o) as (h1 & R1 & R2); [intros p; eapply owner_live; eauto|]. rewrite R1 in Er. injection Er as <-.
      unfold copy. rewrite <- T1. apply (inv_ext _ (ret_ (block (heap w)) o) _ (put e i (e j)) _ n); auto; [|intros k; rewrite Et; auto]. apply inv_share; auto.
  - (* CopyTo *) apply rbind_good in E as (a & Ea & E). apply object_nth in Ea. apply rbind_good in E as (b & Eb & E). apply object_nth in Eb. destruct (same_type a b) eqn:Es; [|discriminate]. apply same_type_is in Es as (Ek & Er).
    destruct (Ie i a Ea) as (ta & Eta & Ta). destruct (Ie j b Eb) as (tb & Etb & Tb). pose proof Ta as (A1 & A2 & A3 & A4 & A5 & A6 & A7 & A8). pose proof Tb as (B1 & B2 & B3 & B4 & B5 & B6 & B7 & B8).
    destruct (okind a) eqn:Ka; [|discriminate|].
    + (* Big *) apply rbind_good in E as (d & Ed & E). assert (Oa : oown a = true) by (apply A8; congruence). assert (Ob : oown b = true) by (apply B8; congruence).
      destruct (Nat.eqb_spec i j) as [->|Hij].
      * assert (b = a) by congruence. subst b. assert (tb = ta) by congruence. subst tb. destruct (optr a) as [p|] eqn:Ep.
        -- apply rbind_good in E as (d' & Ed' & E). injection E as <-. cbn [place_new heap objs].
           unfold contents in Ed. rewrite Ep in Ed. destruct (block (heap w) p) as [bb|] eqn:Ebb; [|discriminate]. injection Ed as <-. destruct (ename ta) as [m|] eqn:Em; [|contradiction]. assert (J : at_ (objs w) e j a ta p m) by (unfold at_; auto).
           assert (Cb : bcount bb = 1%nat). { pose proof (iD _ _ _ _ I p) as D. rewrite Ebb in D. rewrite <- D. apply (iF _ _ _ _ I _ _ _ _ _ J). congruence. }
           assert (Eo : Obj KBig (orank a) (odim a) (Some p) true = a) by (rewrite (obj_eq a) at 3; rewrite Ka, Ep, Oa; auto). rewrite Eo, upd_same by auto.
           apply (inv_ext _ (block (heap w)) _ e _ n); auto. intros q. rewrite (block_upd _ _ bb) by auto. destruct (Nat.eqb_spec q p) as [->|]; auto. rewrite Ebb. f_equal. rewrite <- Cb. destruct bb; auto.
        -- unfold release in E. rewrite Ep in E. cbn [rbind] in E. injection E as <-. cbn [place_new heap objs]. rewrite upd_same by auto. apply (inv_ext _ (block (heap w)) _ e _ n); auto.
      * rewrite Etb in *. cbn [option_map] in *. pose proof (inv_drop _ _ _ _ _ _ I Ea) as I1. unfold copy in *. rewrite <- B1, <- Ek in *.
        assert (Nv : nth_error (upd (objs w) i None) i = Some None) by (rewrite upd_nth, Nat.eqb_refl, Ea; auto).
        destruct (optr b) as [q|] eqn:Eq.
        -- destruct (ename tb) as [m|] eqn:Em; [|contradiction]. assert (J : at_ (objs w) e j b tb q m) by (unfold at_; auto). unfold contents in Ed. rewrite Eq in Ed. destruct (block (heap w) q) as [bb|] eqn:Ebb; [|discriminate]. injection Ed as <-.
           assert (Hd : holds bb tb) by (eapply (iE _ _ _ _ I); eauto).
           assert (L1 : lent (put e i None)).
           { intros k u m' Hu Hm. destruct (Nat.eq_dec k i) as [->|N]; [rewrite put_same in Hu; discriminate|]. rewrite put_other in Hu by auto. destruct (L' k u m') as (k' & u' & U1 & U2 & U3); [rewrite put_other by auto; auto|auto|].
             destruct (Nat.eq_dec k' i) as [->|N'].
             - rewrite put_same in U1. injection U1 as <-. cbn [ename] in U2. injection U2 as <-. exfalso. pose proof (iA _ _ _ _ I k) as Ak. destruct (nth_error (objs w) k) as [[ok|]|] eqn:Enk; [|congruence|congruence]. destruct Ak as (u2 & Hu2 & Tu). assert (u2 = u) by congruence. subst u2.
               destruct (tie_name ok u n Tu Hm) as (pk & Hpk). assert (Jk : at_ (objs w) e k ok u pk n) by (unfold at_; auto). pose proof (iC _ _ _ _ I _ _ _ _ _ Jk). lia.
             - exists k', u'. rewrite put_other in * by auto. auto. }
           assert (G : exists p h', w' = place_new w i h' (Obj KBig (orank a) (odim b) (Some p) true) /\ rel (block (heap w)) a p = None /\ block h' p = Some (Blk 1 (bdata bb)) /\ forall r, r <> p -> block h' r = rel (block (heap w)) a r).
           { destruct (optr a) as [p|] eqn:Ep.
             - apply rbind_good in E as (d' & Ed' & E). injection E as <-. unfold contents in Ed'. rewrite Ep in Ed'. destruct (block (heap w) p) as [ba|] eqn:Eba; [|discriminate].
               exists p. eexists. split; [reflexivity|]. unfold rel, owns. rewrite Ep, Oa. destruct (ename ta) as [ma|] eqn:Ema; [|contradiction]. assert (Ja : at_ (objs w) e i a ta p ma) by (unfold at_; auto).
               assert (Cb : bcount ba = 1%nat). { pose proof (iD _ _ _ _ I p) as D. rewrite Eba in D. rewrite <- D. apply (iF _ _ _ _ I _ _ _ _ _ Ja). congruence. }
               rewrite Nat.eqb_refl, Eba, Cb. split; [reflexivity|]. split; [rewrite (block_upd _ _ ba), Nat.eqb_refl by auto; auto|]. intros r Nr. rewrite (block_upd _ _ ba) by auto. rewrite andb_true_r, (Nat.eqb_sym p r). destruct (Nat.eqb_spec r p); [contradiction|auto].
             - destruct (alloc (heap w) (Blk 1 (bdata bb))) as [h' p] eqn:Eal. injection E as <-. apply alloc_spec in Eal as (X1 & X2 & X3). exists p, h'. split; [reflexivity|]. unfold rel, owns. rewrite Ep. auto. }
           destruct G as (p & h' & -> & G1 & G2 & G3). cbn [place_new heap objs].
           pose proof (inv_new (upd (objs w) i None) (rel (block (heap w)) a) (put e i None) n i (Obj KBig (orank a) (odim b) (Some p) true) (Ent KBig (erank tb) (eshape tb) (Some n) true (eval tb)) p (bdata bb) (block h') I1 L1 Nv G1 G2 G3) as I2.
           rewrite upd_twice in I2. lapply I2; [clear I2; intros I2|unfold tie; cbn [okind orank odim optr oown ekind erank eshape ename eown]; rewrite Er; auto 10].
           specialize (I2 eq_refl eq_refl eq_refl). lapply I2; [clear I2; intros I2|apply (holds_data bb _ tb); auto].
           eapply inv_ext; [exact I2|auto| |auto]. intros k. unfold put. destruct (Nat.eqb k i); auto.
        -- destruct (ename tb) eqn:Em; [contradiction|]. destruct (release_is (heap w) a) as (h1 & R1 & R2); [intros p; eapply owner_live; eauto|].
           assert (G : w' = place_new w i h1 b) by (rewrite R1 in E; cbn [rbind] in E; destruct (optr a); congruence). subst w'. cbn [place_new heap objs].
           pose proof (inv_null (upd (objs w) i None) (rel (block (heap w)) a) (put e i None) n i b (Ent KBig (erank tb) (eshape tb) None true (eval tb)) I1 Nv) as I2. rewrite upd_twice in I2. lapply I2; [clear I2; intros I2|unfold tie; cbn [ekind erank eshape ename eown]; rewrite Eq, <- Ek; auto 10].
           specialize (I2 Eq). eapply inv_ext; [exact I2|auto| |auto]. intros k. unfold put. destruct (Nat.eqb k i); auto.
    + (* Shared *) apply rbind_good in E as (h1 & E1 & E). apply rbind_good in E as (h2 & E2 & E). injection E as <-. cbn [place_new heap objs].
      destruct (retain_is (heap w) b) as (r1 & R1 & R2); [intros p; eapply owner_live; eauto|]. rewrite R1 in E1. injection E1 as <-.
      destruct (release_is r1 a) as (r2 & Q1 & Q2). { intros p Hp. rewrite R2. unfold ret_. destruct (owner_live _ _ _ _ _ _ _ I Ea Hp) as (x & Hx). rewrite Hx. destruct (owns p (Some b)); eauto. }
      rewrite Q1 in E2. injection E2 as <-.
      destruct (Nat.eqb_spec i j) as [->|Hij].
      * assert (b = a) by congruence. subst b. rewrite upd_same by auto. apply (inv_ext _ (block (heap w)) _ e _ n); auto. intros p. rewrite Q2. unfold rel. rewrite R2. unfold ret_. destruct (owns p (Some a)) eqn:Eo; auto.
        destruct (block (heap w) p) as [x|] eqn:Ex; auto. cbn [bcount bdata]. pose proof (iP _ _ _ _ I _ _ Ex). destruct x as [[|c] d]; cbn [bcount bdata] in *; [lia|auto].
      * rewrite Etb. cbn [option_map]. unfold copy. rewrite <- B1, <- Ek.
        pose proof (inv_drop _ _ _ _ _ _ I Ea) as I1. assert (Nv : nth_error (upd (objs w) i None) i = Some None) by (rewrite upd_nth, Nat.eqb_refl, Ea; auto).
        assert (Nj : nth_error (upd (objs w) i None) j = Some (Some b)) by (rewrite upd_nth; destruct (Nat.eqb_spec j i); [congruence|auto]).
        pose proof (inv_share _ _ _ _ i j b I1 Nv Nj ltac:(congruence)) as I2. rewrite upd_twice in I2. eapply inv_ext; [apply I2| | |]; auto.
        -- intros p. rewrite Q2. unfold rel, ret_. rewrite !R2. unfold ret_. destruct (owns p (Some a)) eqn:Oa; destruct (owns p (Some b)) eqn:Ob; auto.
           destruct (block (heap w) p) as [x|] eqn:Ex; auto. cbn [bcount bdata]. apply owns_ptr in Oa as (Pa & Wa). apply owns_ptr in Ob as (Pb & Wb). pose proof (cnt_two _ p i j a b Hij Ea Eb Pa Pb Wa Wb) as C2. rewrite (iD _ _ _ _ I), Ex in C2.
           destruct (bcount x) as [|[|c]]; [lia|lia|]. auto.
        -- intros k. unfold put. destruct (Nat.eqb_spec k i) as [->|N]; auto. destruct (Nat.eqb_spec j i); congruence.
  - (* MoveNew *) apply rbind_good in E as (u & Ev & E). apply vacant_nth in Ev. apply rbind_good in E as (o & Eo & E). apply object_nth in Eo. injection E as <-. cbn [heap objs]. eapply inv_ext; [apply (inv_go _ _ _ _ i j o I Ev Eo)| | |]; auto.
  - (* MoveTo *) destruct (Nat.eqb_spec i j) as [|Hij]; [discriminate|]. apply rbind_good in E as (a & Ea & E). apply object_nth in Ea. apply rbind_good in E as (b & Eb & E). apply object_nth in Eb. destruct (same_type a b); [|discriminate].
    apply rbind_good in E as (h1 & E1 & E). injection E as <-. cbn [heap objs]. destruct (release_is (heap w) a) as (r1 & R1 & R2); [intros p; eapply owner_live; eauto|]. rewrite R1 in E1. injection E1 as <-.
    pose proof (inv_drop _ _ _ _ _ _ I Ea) as I1. assert (Nv : nth_error (upd (objs w) i None) i = Some None) by (rewrite upd_nth, Nat.eqb_refl, Ea; auto).
    assert (Nj : nth_error (upd (objs w) i None) j = Some (Some b)) by (rewrite upd_nth; destruct (Nat.eqb_spec j i); [congruence|auto]).
    pose proof (inv_go _ _ _ _ i j b I1 Nv Nj) as I2. rewrite upd_twice in I2. eapply inv_ext; [apply I2| | |]; auto.
    intros k. unfold put. destruct (Nat.eqb_spec k j) as [->|N]; [destruct (Nat.eqb_spec j i); [congruence|auto]|]. destruct (Nat.eqb_spec k i) as [->|N']; auto. destruct (Nat.eqb_spec j i); congruence.
  - (* Swap *) apply rbind_good in E as (a & Ea & E). apply object_nth in Ea. apply rbind_good in E as (b & Eb & E). apply object_nth in Eb. destruct (same_type a b); [|discriminate]. injection E as <-. cbn [heap objs].
    eapply inv_ext; [apply (inv_swap _ _ _ _ i j a b I Ea Eb)| | |]; auto.
  - (* Kill *) apply rbind_good in E as (a & Ea & E). apply object_nth in Ea. apply rbind_good in E as (h1 & E1 & E). injection E as <-. cbn [heap objs]. destruct (release_is (heap w) a) as (r1 & R1 & R2); [intros p; eapply owner_live; eauto|]. rewrite R1 in E1. injection E1 as <-.
    eapply inv_ext; [apply (inv_drop _ _ _ _ i a I Ea)| | |]; auto.
  - (* Put *) apply rbind_good in E as (a & Ea & E). apply object_nth in Ea. apply rbind_good in E as (z & Ez & E). destruct (Ie i a Ea) as (t & Et & Tt). rewrite Et. destruct (address_is _ _ _ _ Tt Ez) as (Hp & ->).
    destruct (optr a) as [q|] eqn:Eq; [|discriminate]. destruct (block (heap w) q) as [b|] eqn:Eb; [|discriminate]. destruct (Nat.ltb_spec (Z.to_nat (rm (eshape t) p)) (length (bdata b))) as [Hl|]; [|discriminate]. injection E as <-. cbn [heap objs].
    destruct (tie_ptr _ _ _ Tt Eq) as (m & Em). assert (J : at_ (objs w) e i a t q m) by (unfold at_; auto).
    apply inv_S. eapply (inv_write _ (block (heap w)) e n i a t q m b (upd (bdata b) (Z.to_nat (rm (eshape t) p)) x) _ (block (upd (heap w) q (Some (Blk (bcount b) (upd (bdata b) (Z.to_nat (rm (eshape t) p)) x)))) ) I J Eb); auto.
    + apply upd_length.
    + intros u j Es (_ & Hu) Hj. rewrite upd_nth. pose proof (rm_range _ _ Hj). pose proof (rm_range _ _ Hp). unfold index_eqb. destruct (list_eq_dec Z.eq_dec j p) as [->|N].
      * rewrite Nat.eqb_refl. destruct (nth_error (bdata b) (Z.to_nat (rm (eshape t) p))) eqn:En; auto. apply nth_error_None in En. lia.
      * destruct (Nat.eqb_spec (Z.to_nat (rm (eshape t) j)) (Z.to_nat (rm (eshape t) p))) as [E|_]; [exfalso; apply N; apply (rm_inj (eshape t)); auto; lia|]. rewrite <- Hu by (rewrite Es; auto). rewrite Es. auto.
    + rewrite (block_upd _ _ b), Nat.eqb_refl by auto. auto.
    + intros r Nr. rewrite (block_upd _ _ b) by auto. destruct (Nat.eqb_spec r q); [contradiction|auto].
  - (* Fill *) apply rbind_good in E as (a & Ea & E). apply object_nth in Ea. cbv zeta in E. apply rbind_good in E as (h1 & E1 & E). injection E as <-. cbn [heap objs]. destruct (Ie i a Ea) as (t & Et & Tt). rewrite Et.
    rewrite (size_is _ _ Tt) in E1. destruct (optr a) as [q|] eqn:Eq.
    + destruct (tie_ptr _ _ _ Tt Eq) as (m & Em). assert (J : at_ (objs w) e i a t q m) by (unfold at_; auto). destruct (lent_live _ _ _ _ _ _ _ _ _ I L J) as (b & Eb). pose proof (iE _ _ _ _ I _ _ _ _ _ _ J Eb) as (H1 & H2).
      assert (G : (forall r, r <> q -> block h1 r = block (heap w) r) /\ block h1 q = Some (Blk (bcount b) (repeat x (length (bdata b))))).
      { replace (Z.to_nat (zprod (eshape t))) with (length (bdata b)) in E1 by lia. destruct (write_is _ _ _ _ _ _ Eq Eb E1) as (G1 & G2). split; auto. rewrite G2, firstn_all2 by (rewrite repeat_length; auto). auto. }
      destruct G as (G1 & G2). apply inv_S. eapply (inv_write _ (block (heap w)) e n i a t q m b (repeat x (length (bdata b))) _ (block h1) I J Eb); auto.
      * apply repeat_length.
      * intros u j Es _ Hj. pose proof (rm_range _ _ Hj). apply nth_error_repeat. lia.
    + assert (h1 = heap w). { unfold write in E1. destruct (Z.to_nat (zprod (eshape t))); [congruence|]. rewrite Eq in E1. discriminate. } subst h1.
      apply (inv_ext _ (block (heap w)) _ e _ n); auto. intros k. unfold rewrite_. destruct (e k) as [u|]; auto. unfold named. pose proof Tt as (_ & _ & _ & _ & _ & _ & T7 & _). rewrite Eq in T7. destruct (ename t); [contradiction|]. destruct (ename u); auto.
  - (* Over *) apply rbind_good in E as (a & Ea & E). apply object_nth in Ea. apply rbind_good in E as (b & Eb & E). apply object_nth in Eb. cbv zeta in E. destruct (Ie i a Ea) as (t & Et & Tt). destruct (Ie j b Eb) as (tb & Etb & Tb). rewrite Et, Etb.
    destruct (forallb (fun x => fst x =? snd x) (combine (map len (odim a)) (map len (odim b))) && Nat.eqb (length (odim a)) (length (odim b))) eqn:Ec; [|discriminate]. apply andb_prop in Ec as (Ec & El). apply Nat.eqb_eq in El.
    assert (Es : eshape t = eshape tb).
    { pose proof Tt as (_ & _ & <- & _). pose proof Tb as (_ & _ & <- & _). rewrite <- (map_length len), <- (map_length len (odim b)) in El. revert Ec El. generalize (map len (odim a)) (map len (odim b)). clear. induction l as [|x l IH]; intros [|y k] Ec El; cbn in *; try discriminate; auto.
      apply andb_prop in Ec as (E1 & E2). apply Z.eqb_eq in E1. f_equal; auto. }
    rewrite (size_is _ _ Tt) in E. apply rbind_good in E as (d & Ed & E). destruct (Nat.leb_spec (Z.to_nat (zprod (eshape t))) (length d)) as [Hd|]; [|discriminate]. apply rbind_good in E as (h1 & E1 & E). injection E as <-. cbn [heap objs].
    destruct (optr a) as [q|] eqn:Eq.
    + destruct (tie_ptr _ _ _ Tt Eq) as (m & Em). assert (J : at_ (objs w) e i a t q m) by (unfold at_; auto). destruct (lent_live _ _ _ _ _ _ _ _ _ I L J) as (c & Ebc). pose proof (iE _ _ _ _ I _ _ _ _ _ _ J Ebc) as (H1 & H2).
      pose proof Tt as (_ & _ & _ & N0 & _). pose proof (zprod_nonneg _ N0) as Z0.
      assert (Gd : forall k, inshape k (eshape t) -> nth_error d (Z.to_nat (rm (eshape t) k)) = eval tb k).
      { intros k Hk. pose proof (rm_range _ _ Hk). unfold contents in Ed. destruct (optr b) as [p|] eqn:Ep; [|injection Ed as <-; cbn in Hd; lia].
        destruct (block (heap w) p) as [bb|] eqn:Ebb; [|discriminate]. injection Ed as <-. destruct (tie_ptr _ _ _ Tb Ep) as (mb & Emb). assert (Jb : at_ (objs w) e j b tb p mb) by (unfold at_; auto). pose proof (iE _ _ _ _ I _ _ _ _ _ _ Jb Ebb) as (_ & Hb). rewrite Es in *. auto. }
      assert (G : (forall r, r <> q -> block h1 r = block (heap w) r) /\ block h1 q = Some (Blk (bcount c) (firstn (length (bdata c)) d))).
      { replace (Z.to_nat (zprod (eshape t))) with (length (bdata c)) in E1 by lia. apply (write_is _ _ _ _ _ _ Eq Ebc E1). }
      destruct G as (G1 & G2). apply inv_S. eapply (inv_write _ (block (heap w)) e n i a t q m c (firstn (length (bdata c)) d) _ (block h1) I J Ebc); auto.
      * rewrite firstn_length. lia.
      * intros u k _ _ Hk. rewrite <- Gd by auto. pose proof (rm_range _ _ Hk). apply nth_error_firstn'. lia.
    + assert (h1 = heap w). { unfold write in E1. destruct (Z.to_nat (zprod (eshape t))); [congruence|]. rewrite Eq in E1. discriminate. } subst h1.
      apply (inv_ext _ (block (heap w)) _ e _ n); auto. intros k. unfold rewrite_. destruct (e k) as [u|]; auto. unfold named. pose proof Tt as (_ & _ & _ & _ & _ & _ & T7 & _). rewrite Eq in T7. destruct (ename t); [contradiction|]. destruct (ename u); auto.
  - (* Borrow *) apply rbind_good in E as (u & Ev & E). apply vacant_nth in Ev. apply rbind_good in E as (o & Eo & E). apply object_nth in Eo. injection E as <-. cbn [place_new heap objs]. destruct (Ie j o Eo) as (t & Et & Tt). rewrite Et. cbn [option_map].
    eapply inv_ext; [apply (inv_borrow _ _ _ _ i j o t I Ev Eo Et)| | |]; auto.
Qed.

Lemma lent_now : forall h : list (op T), always_lent h -> lent (after h).
Proof. intros [|c h] H; [intros i a n H1; discriminate|exact (proj1 H)]. Qed.
Lemma inv_run : forall N h (w : world T), run N h = Good w -> always_lent h -> Inv (objs w) (block (heap w)) (after h) (length h).
Proof.
  induction h as [|c h IH]; intros w E L.
  - cbn [run] in E. injection E as <-. cbn [objs heap].
    assert (R : forall i, match nth_error (repeat (@None obj) N) i with Some (Some _) => False | _ => True end).
    { intros i. destruct (nth_error (repeat None N) i) as [[o|]|] eqn:En; auto. apply nth_error_In, repeat_spec in En. discriminate. }
    assert (B : forall p, block (@nil (option (blk T))) p = None) by (intros [|p]; auto).
    assert (At : forall i a t p m, ~ at_ (repeat None N) (after []) i a t p m) by (intros i a t p m (H1 & _); specialize (R i); rewrite H1 in R; auto).
    constructor.
    + intros i. specialize (R i). destruct (nth_error (repeat None N) i) as [[o|]|]; [contradiction|auto|auto].
    + intros i j a b t u p q m n H. destruct (At _ _ _ _ _ H).
    + intros i a t p m H. destruct (At _ _ _ _ _ H).
    + intros p. rewrite B. unfold cnt. clear. induction N; auto.
    + intros p b. rewrite B. discriminate.
    + intros i a t p m b H. destruct (At _ _ _ _ _ H).
    + intros i a t p m H. destruct (At _ _ _ _ _ H).
  - cbn [run] in E. apply rbind_good in E as (w0 & E0 & E). pose proof (lent_now _ L) as L1. destruct L as (_ & L). apply (inv_step w0); auto. apply lent_now. auto.
Qed.

(* Any program: what's read through each of the containers is what the containers without memory have. *)
Theorem C137_values : forall N h (w : world T) i t m p, run N h = Good w -> always_lent h -> after h i = Some t -> ename t = Some m -> inshape p (eshape t) ->
  exists x, eval t p = Some x /\ read w i p = Good x.
Proof.
  intros N h w i t m p E L Et Em Hp. pose proof (inv_run N h w E L) as I. pose proof (iA _ _ _ _ I i) as A. destruct (nth_error (objs w) i) as [[o|]|] eqn:Eo; [|congruence|congruence]. destruct A as (t' & Et' & Tt). assert (t' = t) by congruence. subst t'.
  destruct (tie_name _ _ _ Tt Em) as (q & Eq). assert (J : at_ (objs w) (after h) i o t q m) by (unfold at_; auto). destruct (lent_live _ _ _ _ _ _ _ _ _ I (lent_now _ L) J) as (b & Eb). destruct (iE _ _ _ _ I _ _ _ _ _ _ J Eb) as (H1 & H2).
  pose proof (rm_range _ _ Hp) as R. specialize (H2 p Hp). destruct (nth_error (bdata b) (Z.to_nat (rm (eshape t) p))) as [x|] eqn:En; [|apply nth_error_None in En; lia].
  exists x. split; auto. unfold read, object. rewrite Eo. cbn [rbind]. rewrite (address_ok _ _ _ Tt Hp). cbn [rbind]. unfold contents. rewrite Eq, Eb. cbn [rbind]. rewrite En. auto.
Qed.
(* The containers there are, of what kind and shape. *)
Theorem C137_objects : forall N h (w : world T) i, run N h = Good w -> always_lent h ->
  match after h i with
  | Some t => exists o, object w i = Good o /\ okind o = ekind t /\ orank o = erank t /\ map len (odim o) = eshape t /\ (forall p, address o p <> Refused <-> inshape p (eshape t))
  | None => object w i = Refused
  end.
Proof.
  intros N h w i E L. pose proof (inv_run N h w E L) as I. pose proof (iA _ _ _ _ I i) as A. unfold object. destruct (nth_error (objs w) i) as [[o|]|] eqn:Eo; [|rewrite A; auto|rewrite A; auto].
  destruct A as (t & -> & Tt). exists o. pose proof Tt as (T1 & T2 & T3 & _). split; auto. split; auto. split; auto. split; auto. intros p. split; intros H.
  - destruct (address o p) as [a| |] eqn:Ea; [|contradiction|].
    + destruct (address_is _ _ _ _ Tt Ea); auto.
    + unfold address in Ea. destruct (Nat.eqb (length p) (length (odim o))); [|discriminate]. destruct (indexer (odim o) 0 p); discriminate.
  - rewrite (address_ok _ _ _ Tt H). discriminate.
Qed.
(* Each block in use has as many owners as it counts, at least one, and only one if it isn't Shared. Owners don't have other blocks. *)
Theorem C137_counts : forall N h (w : world T), run N h = Good w -> always_lent h ->
  (forall p, match block (heap w) p with Some b => (0 < bcount b)%nat /\ cnt p (objs w) = bcount b | None => cnt p (objs w) = 0%nat end) /\
  (forall i o p, object w i = Good o -> optr o = Some p -> okind o <> KShared -> cnt p (objs w) = 1%nat) /\
  (forall i o p, object w i = Good o -> optr o = Some p -> exists b, block (heap w) p = Some b).
Proof.
  intros N h w E L. pose proof (inv_run N h w E L) as I. split; [|split].
  - intros p. pose proof (iD _ _ _ _ I p) as D. destruct (block (heap w) p) as [b|] eqn:Eb; auto. pose proof (iP _ _ _ _ I p b Eb). auto.
  - intros i o p Eo Ep K. apply object_nth in Eo. pose proof (iA _ _ _ _ I i) as A. rewrite Eo in A. destruct A as (t & Et & Tt). destruct (tie_ptr _ _ _ Tt Ep) as (m & Em). apply (iF _ _ _ _ I i o t p m); [unfold at_; auto|auto].
  - intros i o p Eo Ep. apply object_nth in Eo. pose proof (iA _ _ _ _ I i) as A. rewrite Eo in A. destruct A as (t & Et & Tt). destruct (tie_ptr _ _ _ Tt Ep) as (m & Em). apply (lent_live _ _ _ _ i o t p m I (lent_now _ L)). unfold at_; auto.
Qed.
(* When there are no containers left then all of the memory has been freed. *)
Theorem C137_freed : forall N h (w : world T), run N h = Good w -> always_lent h -> (forall i, after h i = None) -> forall p, block (heap w) p = None.
Proof.
  intros N h w E L H p. pose proof (inv_run N h w E L) as I. destruct (block (heap w) p) as [b|] eqn:Eb; auto. exfalso.
  pose proof (iP _ _ _ _ I p b Eb). pose proof (iD _ _ _ _ I p) as D. rewrite Eb in D. destruct (cnt_pos (objs w) p ltac:(lia)) as (i & o & Eo & _). pose proof (iA _ _ _ _ I i) as A. rewrite Eo in A. destruct A as (t & Et & _). rewrite H in Et. discriminate.
Qed.
(* Two containers have the same memory if and only if they have the same contents. *)
Theorem C137_alias : forall N h (w : world T) i j a b p q, run N h = Good w -> always_lent h -> object w i = Good a -> object w j = Good b -> optr a = Some p -> optr b = Some q ->
  exists t u m n, after h i = Some t /\ after h j = Some u /\ ename t = Some m /\ ename u = Some n /\ (p = q <-> m = n).
Proof.
  intros N h w i j a b p q E L Ea Eb Ep Eq. pose proof (inv_run N h w E L) as I. apply object_nth in Ea. apply object_nth in Eb. pose proof (iA _ _ _ _ I i) as A. rewrite Ea in A. destruct A as (t & Et & Tt). pose proof (iA _ _ _ _ I j) as B. rewrite Eb in B. destruct B as (u & Eu & Tu).
  destruct (tie_ptr _ _ _ Tt Ep) as (m & Em). destruct (tie_ptr _ _ _ Tu Eq) as (n & En). exists t, u, m, n. repeat (split; auto). all: apply (iB _ _ _ _ I i j a b t u p q m n); unfold at_; auto.
Qed.
Definition empty_handed (e : nat -> option ent) (i : nat) : Prop := exists t, e i = Some t /\ ename t = None /\ 0 < zprod (eshape t).
(* The next operation isn't undefined, unless it uses the elements of something that has been moved from. *)
Theorem C137_defined : forall N h (w : world T) c, run N h = Good w -> always_lent h -> act w c = UB ->
  match c with Put i _ _ | Fill i _ => empty_handed (after h) i | Over i j => empty_handed (after h) i \/ empty_handed (after h) j | _ => False end.
Proof.
  intros N h w c E L U. pose proof (inv_run N h w E L) as I. pose proof (lent_now _ L) as L0.
  assert (Ie : forall i o, object w i = Good o -> exists t, after h i = Some t /\ tie o t). { intros i o Ho. apply object_nth in Ho. pose proof (iA _ _ _ _ I i) as A. rewrite Ho in A. exact A. }
  assert (Lv : forall i o p, object w i = Good o -> optr o = Some p -> exists b, block (heap w) p = Some b /\ exists t, after h i = Some t /\ holds b t /\ tie o t).
  { intros i o p Ho Hp. destruct (Ie _ _ Ho) as (t & Et & Tt). apply object_nth in Ho. destruct (tie_ptr _ _ _ Tt Hp) as (m & Em). assert (J : at_ (objs w) (after h) i o t p m) by (unfold at_; auto). destruct (lent_live _ _ _ _ _ _ _ _ _ I L0 J) as (b & Hb).
    exists b. split; auto. exists t. split; auto. split; auto. eapply (iE _ _ _ _ I); eauto. }
  assert (Vu : forall i, vacant w i <> UB) by (intros i; unfold vacant; destruct (nth_error (objs w) i) as [[o|]|]; discriminate).
  assert (Ou : forall i, object w i <> UB) by (intros i; unfold object; destruct (nth_error (objs w) i) as [[o|]|]; discriminate).
  assert (Ret : forall i o, object w i = Good o -> exists h', retain (heap w) o = Good h' /\ forall p, block h' p = ret_ (block (heap w)) o p).
  { intros i o Ho. apply retain_is. intros p Hp. apply object_nth in Ho. eapply owner_live; eauto. }
  assert (Rel : forall i o, object w i = Good o -> exists h', release (heap w) o = Good h').
  { intros i o Ho. destruct (release_is (heap w) o) as (h' & R & _); eauto. intros p Hp. apply object_nth in Ho. eapply owner_live; eauto. }
  assert (Con : forall i o, object w i = Good o -> exists d, contents (heap w) o = Good d).
  { intros i o Ho. unfold contents. destruct (optr o) as [p|] eqn:Ep; eauto. destruct (Lv i o p Ho Ep) as (b & -> & _). eauto. }
  assert (Na : forall i o t, object w i = Good o -> after h i = Some t -> tie o t -> optr o = None -> 0 < zprod (eshape t) -> empty_handed (after h) i).
  { intros i o t Ho Et Tt Hp Hs. exists t. split; auto. split; auto. destruct Tt as (_ & _ & _ & _ & _ & _ & T7 & _). rewrite Hp in T7. destruct (ename t); [contradiction|auto]. }
  destruct c; cbn [act] in U.
  - destruct (vacant w i) eqn:Ev; cbn [rbind] in U; [|discriminate|destruct (Vu _ Ev)]. destruct r as [[|m]|]; discriminate.
  - destruct (vacant w i) eqn:Ev; cbn [rbind] in U; [|discriminate|destruct (Vu _ Ev)]. destruct (match r with Some m => Nat.eqb (length s) m | None => true end); [|discriminate]. destruct (fill s []) as [dv [z|]]; [|discriminate]. destruct (alloc (heap w) (Blk 1 (repeat x (Z.to_nat z)))). discriminate.
  - destruct (vacant w i) eqn:Ev; cbn [rbind] in U; [|discriminate|destruct (Vu _ Ev)]. destruct (object w j) as [o| |] eqn:Eo; cbn [rbind] in U; [|discriminate|destruct (Ou _ Eo)].
    destruct (okind o); [|discriminate|].
    + destruct (optr o); [|discriminate]. destruct (Con j o Eo) as (d & Ed). rewrite Ed in U. cbn [rbind] in U. destruct (alloc (heap w) (Blk 1 d)). discriminate.
    + destruct (Ret j o Eo) as (h' & R & _). rewrite R in U. discriminate.
  - destruct (object w i) as [a| |] eqn:Ea; cbn [rbind] in U; [|discriminate|destruct (Ou _ Ea)]. destruct (object w j) as [b| |] eqn:Eb; cbn [rbind] in U; [|discriminate|destruct (Ou _ Eb)]. destruct (same_type a b); [|discriminate].
    destruct (okind a); [|discriminate|].
    + destruct (Con j b Eb) as (d & Ed). rewrite Ed in U. cbn [rbind] in U. destruct (Con i a Ea) as (d' & Ed'). destruct (Rel i a Ea) as (h' & R). destruct (optr a), (optr b); rewrite ?Ed', ?R in U; cbn [rbind] in U; try discriminate. destruct (alloc (heap w) (Blk 1 d)). discriminate.
    + destruct (Ret j b Eb) as (h' & R & R2). rewrite R in U. cbn [rbind] in U. destruct (release_is h' a) as (h2 & Q & _); [|rewrite Q in U; discriminate].
      intros p Hp. rewrite R2. unfold ret_. apply object_nth in Ea. destruct (owner_live _ _ _ _ _ _ _ I Ea Hp) as (x & ->). destruct (owns p (Some b)); eauto.
  - destruct (vacant w i) eqn:Ev; cbn [rbind] in U; [|discriminate|destruct (Vu _ Ev)]. destruct (object w j) as [o| |] eqn:Eo; cbn [rbind] in U; [|discriminate|destruct (Ou _ Eo)]. discriminate.
  - destruct (Nat.eqb i j); [discriminate|]. destruct (object w i) as [a| |] eqn:Ea; cbn [rbind] in U; [|discriminate|destruct (Ou _ Ea)]. destruct (object w j) as [b| |] eqn:Eb; cbn [rbind] in U; [|discriminate|destruct (Ou _ Eb)]. destruct (same_type a b); [|discriminate].
    destruct (Rel i a Ea) as (h' & R). rewrite R in U. discriminate.
  - destruct (object w i) as [a| |] eqn:Ea; cbn [rbind] in U; [|discriminate|destruct (Ou _ Ea)]. destruct (object w j) as [b| |] eqn:Eb; cbn [rbind] in U; [|discriminate|destruct (Ou _ Eb)]. destruct (same_type a b); discriminate.
  - destruct (object w i) as [a| |] eqn:Ea; cbn [rbind] in U; [|discriminate|destruct (Ou _ Ea)]. destruct (Rel i a Ea) as (h' & R). rewrite R in U. discriminate.
  - destruct (object w i) as [a| |] eqn:Ea; cbn [rbind] in U; [|discriminate|destruct (Ou _ Ea)]. destruct (address a p) as [z| |] eqn:Ez; cbn [rbind] in U; [|discriminate|].
    2: { unfold address in Ez. destruct (Nat.eqb (length p) (length (odim a))); [|discriminate]. destruct (indexer (odim a) 0 p); discriminate. }
    destruct (Ie i a Ea) as (t & Et & Tt). destruct (address_is _ _ _ _ Tt Ez) as (Hp & ->). pose proof (rm_range _ _ Hp). destruct (optr a) as [q|] eqn:Eq.
    + exfalso. destruct (Lv i a q Ea Eq) as (b & Eb & t' & Et' & (H1 & _) & _). assert (t' = t) by congruence. subst t'. rewrite Eb in U. destruct (Nat.ltb_spec (Z.to_nat (rm (eshape t) p)) (length (bdata b))); [discriminate|lia].
    + apply (Na i a t); auto. lia.
  - destruct (object w i) as [a| |] eqn:Ea; cbn [rbind] in U; [|discriminate|destruct (Ou _ Ea)]. destruct (Ie i a Ea) as (t & Et & Tt). cbv zeta in U. rewrite (size_is _ _ Tt) in U. unfold write in U. destruct (Z.to_nat (zprod (eshape t))) as [|k] eqn:Ek; [discriminate|]. destruct (optr a) as [q|] eqn:Eq.
    + exfalso. destruct (Lv i a q Ea Eq) as (b & Eb & t' & Et' & (H1 & _) & _). assert (t' = t) by congruence. subst t'. rewrite Eb in U. destruct (Nat.leb_spec (S k) (length (bdata b))); [discriminate|lia].
    + apply (Na i a t); auto. lia.
  - destruct (object w i) as [a| |] eqn:Ea; cbn [rbind] in U; [|discriminate|destruct (Ou _ Ea)]. destruct (object w j) as [b| |] eqn:Eb; cbn [rbind] in U; [|discriminate|destruct (Ou _ Eb)]. destruct (Ie i a Ea) as (t & Et & Tt). destruct (Ie j b Eb) as (tb & Etb & Tb). cbv zeta in U. rewrite (size_is _ _ Tt) in U.
    destruct (forallb (fun x => fst x =? snd x) (combine (map len (odim a)) (map len (odim b))) && Nat.eqb (length (odim a)) (length (odim b))) eqn:Ec; [|discriminate]. apply andb_prop in Ec as (Ec & El). apply Nat.eqb_eq in El.
    assert (Es : eshape t = eshape tb).
    { pose proof Tt as (_ & _ & <- & _). pose proof Tb as (_ & _ & <- & _). rewrite <- (map_length len), <- (map_length len (odim b)) in El. revert Ec El. generalize (map len (odim a)) (map len (odim b)). clear. induction l as [|x l IH]; intros [|y k] Ec El; cbn in *; try discriminate; auto.
      apply andb_prop in Ec as (E1 & E2). apply Z.eqb_eq in E1. f_equal; auto. }
    destruct (Con j b Eb) as (d & Ed). rewrite Ed in U. cbn [rbind] in U. pose proof Tt as (_ & _ & _ & N0 & _). pose proof (zprod_nonneg _ N0) as Z0.
    unfold contents in Ed. destruct (optr b) as [q|] eqn:Eq.
    + destruct (Lv j b q Eb Eq) as (bb & Ebb & t' & Et' & (H1 & _) & _). assert (t' = tb) by congruence. subst t'. rewrite Ebb in Ed. injection Ed as <-. rewrite Es in *. destruct (Nat.leb_spec (Z.to_nat (zprod (eshape tb))) (length (bdata bb))); [|lia].
      left. unfold write in U. destruct (Z.to_nat (zprod (eshape tb))) as [|k] eqn:Ek; [discriminate|]. destruct (optr a) as [r|] eqn:Er.
      * exfalso. destruct (Lv i a r Ea Er) as (ba & Eba & t' & Et2 & (H2 & _) & _). assert (t' = t) by congruence. subst t'. rewrite Eba in U. destruct (Nat.leb_spec (S k) (length (bdata ba))); [discriminate|]. rewrite Es in H2. lia.
      * apply (Na i a t); auto. rewrite Es. lia.
    + injection Ed as <-. destruct (Nat.leb_spec (Z.to_nat (zprod (eshape t))) 0).
      * replace (Z.to_nat (zprod (eshape t))) with 0%nat in U by lia. discriminate.
      * right. apply (Na j b tb); auto. rewrite <- Es. cbn [length] in *. lia.
  - destruct (vacant w i) eqn:Ev; cbn [rbind] in U; [|discriminate|destruct (Vu _ Ev)]. destruct (object w j) as [o| |] eqn:Eo; cbn [rbind] in U; [|discriminate|destruct (Ou _ Eo)]. discriminate.
Qed.
End P.

(* test/ownership.cc:101-125. o({5}, 11), z(o), o = 99, c(o), and o is destroyed; then there are Big ones with copies, in the memory that has been freed; and a loan. *)
Definition ex1 : list (op Z) := rev
  [Make 0 KShared (Some 1%nat) [5] 11; CopyNew 1 0; Fill 0 99; CopyNew 2 1; Kill 0; Put 2 [3] 7;
   Make 3 KBig (Some 2%nat) [2; 2] 4; CopyNew 4 3; Put 3 [1; 0] 5; Borrow 5 3; Put 5 [0; 1] 6; Kill 5; MoveTo 4 3;
   Make 0 KUnique None [2] 8; MoveNew 6 0; Kill 1; Kill 2; Make 1 KShared (Some 1%nat) [3] 1].
Lemma ex1_lent : always_lent ex1.
Proof.
  unfold ex1. cbn [rev app always_lent]. repeat split; auto.
  all: intros i a n Hi Hn; cbn in Hi; do 8 (try (destruct i as [|i]; [cbn in Hi; try discriminate; injection Hi as <-; cbn in Hn; try discriminate; injection Hn as <-; first
    [exists 0%nat; eexists; cbn; repeat split; reflexivity | exists 1%nat; eexists; cbn; repeat split; reflexivity | exists 2%nat; eexists; cbn; repeat split; reflexivity
    | exists 3%nat; eexists; cbn; repeat split; reflexivity | exists 4%nat; eexists; cbn; repeat split; reflexivity | exists 6%nat; eexists; cbn; repeat split; reflexivity]|])); try (cbn in Hi; discriminate).
Qed.
Definition first2 (w : res (world Z)) : list (res Z) := match w with Good w => [read w 1 [2]; read w 4 [0; 1]; read w 4 [1; 0]; read w 4 [0; 0]; read w 3 [0; 0]; read w 6 [1]; read w 0 [1]] | _ => [] end.
Example ex_own : always_lent ex1 /\ first2 (run 8 ex1) = [Good 1; Good 6; Good 5; Good 4; UB; Good 8; Refused] /\
  match run 8 ex1 with Good w => map (option_map (@bcount Z)) (heap w) = [Some 1%nat; Some 1%nat; Some 1%nat] | _ => False end /\
  match run 8 (skipn 12 ex1) with Good w => map (fun i => read w i [3]) [0; 1; 2]%nat = [Refused; Good 7; Good 7] | _ => False end.
Proof. split; [exact ex1_lent|]. split; [vm_compute; reflexivity|]. split; vm_compute; reflexivity. Qed.
(* If the lender goes then what the borrower has is undefined, or is of someone else. *)
Definition ex2 : list (op Z) := rev [Make 0 KBig (Some 1%nat) [3] 1; Borrow 1 0; Kill 0].
Theorem C137_loan : exists h : list (op Z), ~ always_lent h /\ (exists w, run 3 h = Good w /\ read w 1 [0] = UB) /\
  (exists w, run 3 (Make 2 KBig (Some 1%nat) [3] 8 :: h) = Good w /\ read w 1 [0] = Good 8).
Proof.
  exists ex2. split.
  - unfold ex2. cbn [rev app always_lent]. intros (H & _). destruct (H 1%nat _ 0%nat eq_refl eq_refl) as (j & b & H1 & H2 & H3). cbn in H1. do 3 (destruct j as [|j]; [cbn in H1; try discriminate; injection H1 as <-; discriminate|]). cbn in H1. discriminate.
  - split; eexists; (split; [vm_compute; reflexivity|]); vm_compute; reflexivity.
Qed.
Print Assumptions C137_values.
Print Assumptions C137_objects.
Print Assumptions C137_counts.
Print Assumptions C137_freed.
Print Assumptions C137_alias.
Print Assumptions C137_defined.
Print Assumptions C137_loan.
