(* The sequence of the conjugate gradient method: orthogonality, and how many terms it may have. *)
From Coq Require Import ZArith List Lia Bool Field_theory Field Ring.
From Verif Require Import Spec L_Spec Spec_Val Spec_Cg.
Import ListNotations.
Open Scope Z_scope.

Section Cg.
Context {T : Type}.
Variables (zero one : T) (add mul sub : T -> T -> T) (opp : T -> T) (div : T -> T -> T) (inv : T -> T) (ltb : T -> T -> bool).
Hypothesis (Hord : ordered zero one add mul sub opp div inv ltb).
Let Hf : field_theory zero one add mul sub opp div inv eq := proj1 Hord.
Add Field Tfield : Hf.
Notation vec := (list Z -> T).
Declare Scope T_scope.
Notation "0" := zero : T_scope. Notation "1" := one : T_scope. Infix "+" := add : T_scope. Infix "*" := mul : T_scope. Infix "-" := sub : T_scope. Infix "/" := div : T_scope.
Delimit Scope T_scope with T.
Definition le (a b : T) : Prop := ltb b a = false.

(* ---- order ---- *)
Lemma lt_irr : forall a, ltb a a = false.
Proof. apply Hord. Qed.
Lemma lt_tr : forall a b c, ltb a b = true -> ltb b c = true -> ltb a c = true.
Proof. apply Hord. Qed.
Lemma lt_tot : forall a b, ltb a b = false -> ltb b a = false -> a = b.
Proof. apply Hord. Qed.
Lemma lt_add : forall a b c, ltb a b = true -> ltb (a + c)%T (b + c)%T = true.
Proof. apply Hord. Qed.
Lemma lt_mul : forall a b, ltb zero a = true -> ltb zero b = true -> ltb zero (a * b)%T = true.
Proof. apply Hord. Qed.
Lemma le_refl : forall a, le a a.
Proof. intros. apply lt_irr. Qed.
Lemma lt_le : forall a b, ltb a b = true -> le a b.
Proof. intros a b H. unfold le. destruct (ltb b a) eqn:E; auto. pose proof (lt_tr _ _ _ H E) as C. rewrite lt_irr in C. discriminate. Qed.
Lemma le_cases : forall a b, le a b -> a = b \/ ltb a b = true.
Proof. intros a b H. destruct (ltb a b) eqn:E; auto. left. apply lt_tot; auto. Qed.
Lemma le_tr : forall a b c, le a b -> le b c -> le a c.
Proof. intros a b c H1 H2. destruct (le_cases _ _ H1) as [->|E1]; auto. destruct (le_cases _ _ H2) as [<-|E2]; auto. apply lt_le. eapply lt_tr; eauto. Qed.
Lemma le_add : forall a b c, le a b -> le (a + c)%T (b + c)%T.
Proof. intros a b c H. destruct (le_cases _ _ H) as [->|E]; [apply le_refl|]. apply lt_le, lt_add. auto. Qed.
Lemma le_add2 : forall a b c d, le a b -> le c d -> le (a + c)%T (b + d)%T.
Proof. intros a b c d H1 H2. eapply le_tr; [apply le_add; eauto|]. replace (b + c)%T with (c + b)%T by ring. replace (b + d)%T with (d + b)%T by ring. apply le_add; auto. Qed.
Lemma neg_pos : forall a, ltb a zero = true -> ltb zero (0 - a)%T = true.
Proof. intros a H. apply (lt_add _ _ (0 - a)%T) in H. replace (a + (0 - a))%T with zero in H by ring. replace (0 + (0 - a))%T with (0 - a)%T in H by ring. auto. Qed.
Lemma square_pos : forall a, a <> zero -> ltb zero (a * a)%T = true.
Proof.
  intros a H. destruct (ltb zero a) eqn:E; [apply lt_mul; auto|]. destruct (ltb a zero) eqn:E2; [|destruct H; apply lt_tot; auto]. apply neg_pos in E2. replace (a * a)%T with ((0 - a) * (0 - a))%T by ring. apply lt_mul; auto.
Qed.
Lemma square_nonneg : forall a, le zero (a * a)%T.
Proof. intros a. destruct (ltb zero (a * a)%T) eqn:E; [apply lt_le; auto|]. destruct (ltb (a*a)%T zero) eqn:E2; auto. exfalso. assert (H : a <> zero) by (intros ->; replace (0*0)%T with zero in E2 by ring; rewrite lt_irr in E2; discriminate). apply square_pos in H. congruence. Qed.
Lemma one_pos : ltb zero one = true.
Proof. replace one with (1 * 1)%T by ring. apply square_pos. apply (F_1_neq_0 Hf). Qed.
Fixpoint times_ (n : nat) : T := match n with O => zero | S n => (1 + times_ n)%T end.
Lemma times_mono : forall n m, le (times_ n) (times_ m) -> (n <= m)%nat.
Proof.
  intros n m H. destruct (Nat.le_gt_cases n m) as [|C]; auto. exfalso.
  assert (G : forall d a, le (times_ a) (times_ (d + a))). { induction d; intros a; [apply le_refl|]. cbn. replace (times_ a) with (0 + times_ a)%T by ring. apply le_add2; [apply lt_le, one_pos|apply IHd]. }
  assert (S1 : ltb (times_ m) (times_ (S m)) = true). { cbn. replace (times_ m) with (0 + times_ m)%T at 1 by ring. apply lt_add. apply one_pos. }
  specialize (G (n - S m)%nat (S m)). replace (n - S m + S m)%nat with n in G by lia. pose proof (le_tr _ _ _ G H) as Q. unfold le in Q. congruence.
Qed.

(* ---- sums ---- *)
Fixpoint tot {A} (f : A -> T) (l : list A) : T := match l with [] => zero | a :: r => (f a + tot f r)%T end.
Lemma tot_fold : forall A (f : A -> T) l c, fold_left add (map f l) c = (c + tot f l)%T.
Proof. intros A f l. induction l; intros c; cbn; [ring|]. rewrite IHl. ring. Qed.
Lemma tot_ext : forall A (f g : A -> T) l, (forall a, In a l -> f a = g a) -> tot f l = tot g l.
Proof. intros A f g l. induction l; intros H; cbn; auto. rewrite H, IHl by (intros; try apply H; cbn; auto). auto. Qed.
Lemma tot_add : forall A (f g : A -> T) l, tot (fun a => (f a + g a)%T) l = (tot f l + tot g l)%T.
Proof. intros A f g l. induction l; cbn; [ring|]. rewrite IHl. ring. Qed.
Lemma tot_scale : forall A c (f : A -> T) l, tot (fun a => (c * f a)%T) l = (c * tot f l)%T.
Proof. intros A c f l. induction l; cbn; [ring|]. rewrite IHl. ring. Qed.
Lemma tot_zero : forall A (f : A -> T) l, (forall a, In a l -> f a = zero) -> tot f l = zero.
Proof. intros A f l. induction l; intros H; cbn; auto. rewrite H, IHl by (intros; try apply H; cbn; auto). ring. Qed.
Lemma tot_le : forall A (f g : A -> T) l, (forall a, In a l -> le (f a) (g a)) -> le (tot f l) (tot g l).
Proof. intros A f g l. induction l; intros H; cbn; [apply le_refl|]. apply le_add2; [apply H; left; auto|apply IHl; intros; apply H; right; auto]. Qed.
Lemma tot_const : forall A (l : list A), tot (fun _ => one) l = times_ (length l).
Proof. intros A l. induction l; cbn; auto. rewrite IHl. auto. Qed.
Lemma tot_swap : forall A B (f : A -> B -> T) l k, tot (fun a => tot (fun b => f a b) k) l = tot (fun b => tot (fun a => f a b) l) k.
Proof. intros A B f l k. induction l; cbn; [rewrite tot_zero; auto|]. rewrite IHl. rewrite tot_add. auto. Qed.
Lemma tot_filter : forall A (f : A -> T) q l, (forall a, In a l -> q a = false -> f a = zero) -> tot f (filter q l) = tot f l.
Proof.
  intros A f q l. induction l; intros H; cbn; auto. rewrite <- IHl by (intros; apply H; cbn; auto). destruct (q a) eqn:E; cbn; auto. rewrite (H a (or_introl eq_refl) E). ring.
Qed.
Lemma tot_pos : forall A (f : A -> T) l, (forall a, In a l -> le zero (f a)) -> (exists a, In a l /\ f a <> zero) -> ltb zero (tot f l) = true.
Proof.
  intros A f l. induction l as [|a l IH]; intros H (b & Hb & N); [destruct Hb|]. cbn.
  assert (P : le zero (tot f l)). { replace zero with (tot (fun _ : A => zero) l) by (apply tot_zero; auto). apply tot_le. intros; apply H; right; auto. }
  destruct (le_cases _ _ (H a (or_introl eq_refl))) as [E|E].
  - rewrite <- E. replace (0 + tot f l)%T with (tot f l) by ring. apply IH; [intros; apply H; right; auto|]. destruct Hb as [->|Hb]; [congruence|eauto].
  - destruct (le_cases _ _ P) as [Q|Q]; [rewrite <- Q; replace (f a + 0)%T with (f a) by ring; auto|]. apply (lt_add _ _ (tot f l)) in E. replace (0 + tot f l)%T with (tot f l) in E by ring. eapply lt_tr; eauto.
Qed.

(* ---- scalar product ---- *)
Variable s : list Z.
Notation ip := (scalar_product zero add mul s).
Lemma ip_tot : forall u v, ip u v = tot (fun j => (u j * v j)%T) (indices s).
Proof. intros. unfold scalar_product. rewrite tot_fold. ring. Qed.
Lemma ip_ext : forall u u' v v', same s u u' -> same s v v' -> ip u v = ip u' v'.
Proof. intros u u' v v' H1 H2. rewrite !ip_tot. apply tot_ext. intros j Hj. apply in_indices in Hj. rewrite (H1 j Hj), (H2 j Hj). auto. Qed.
Lemma ip_comm : forall u v, ip u v = ip v u.
Proof. intros. rewrite !ip_tot. apply tot_ext. intros. ring. Qed.
Lemma ip_comb : forall u v w c, ip (fun j => (u j + c * v j)%T) w = (ip u w + c * ip v w)%T.
Proof. intros. rewrite !ip_tot. rewrite <- tot_scale, <- tot_add. apply tot_ext. intros. ring. Qed.
Lemma ip_diff : forall u v w c, ip (fun j => (u j - c * v j)%T) w = (ip u w - c * ip v w)%T.
Proof. intros. rewrite !ip_tot. replace (tot (fun j => (u j * w j)%T) (indices s) - c * tot (fun j => (v j * w j)%T) (indices s))%T with (tot (fun j => (u j * w j)%T) (indices s) + (0 - c) * tot (fun j => (v j * w j)%T) (indices s))%T by ring.
  rewrite <- tot_scale, <- tot_add. apply tot_ext. intros. ring. Qed.
Lemma ip_nonneg : forall u, le zero (ip u u).
Proof. intros. rewrite ip_tot. replace zero with (tot (fun _ : list Z => zero) (indices s)) by (apply tot_zero; auto). apply tot_le. intros. apply square_nonneg. Qed.
Lemma ip_pos : forall u, (exists j, inshape j s /\ u j <> zero) -> ltb zero (ip u u) = true.
Proof.
  intros u (j & Hj & N). rewrite ip_tot. apply tot_pos; [intros; apply square_nonneg|]. exists j. split; [apply in_indices; auto|]. intros E. apply square_pos in N. rewrite E, lt_irr in N. discriminate.
Qed.
Lemma ip_some : forall u v, ip u v <> zero -> exists j, inshape j s /\ u j <> zero.
Proof.
  intros u v H. destruct (Exists_dec (fun j => u j <> zero) (indices s)) as [E|E].
  - intros j. destruct (ltb (u j) zero) eqn:E1; [left; intros E; rewrite E, lt_irr in E1; discriminate|]. destruct (ltb zero (u j)) eqn:E2; [left; intros E; rewrite E, lt_irr in E2; discriminate|]. right. intros N. apply N. apply lt_tot; auto.
  - apply Exists_exists in E as (j & Hj & N). apply in_indices in Hj. eauto.
  - destruct H. rewrite ip_tot. apply tot_zero. intros j Hj. assert (Q : u j = zero).
    { destruct (ltb (u j) zero) eqn:E1; [destruct E; apply Exists_exists; exists j; split; auto; intros Q; rewrite Q, lt_irr in E1; discriminate|]. destruct (ltb zero (u j)) eqn:E2; [destruct E; apply Exists_exists; exists j; split; auto; intros Q; rewrite Q, lt_irr in E2; discriminate|]. apply lt_tot; auto. }
    rewrite Q. ring.
Qed.

(* ---- no more orthogonal vectors than there are places ---- *)
Variable part : list Z -> bool.
Definition orthogonal (l : list vec) : Prop := ForallOrdPairs (fun u v => ip u v = zero) l.
Definition unit_at (j : list Z) : vec := fun k => if list_eq_dec Z.eq_dec j k then one else zero.
Lemma ip_unit : forall j u, inshape j s -> ip (unit_at j) u = u j.
Proof.
  intros j u Hj. rewrite ip_tot. pose proof (proj2 (in_indices s j) Hj) as Hin. pose proof (proj1 (row_major_indices s)) as Hs. induction Hs as [|a l Hl IH Ha]; [destruct Hin|]. cbn. unfold unit_at at 1. destruct (list_eq_dec Z.eq_dec j a) as [->|N].
  - rewrite tot_zero; [ring|]. intros k Hk. unfold unit_at. destruct (list_eq_dec Z.eq_dec a k) as [->|]; [|ring]. rewrite Forall_forall in Ha. destruct (lexlt_irrefl k). auto.
  - destruct Hin as [->|Hin]; [congruence|]. rewrite IH by auto. ring.
Qed.
Fixpoint rest (j : list Z) (l : list vec) : vec := match l with [] => unit_at j | g :: l' => fun k => (rest j l' k - (g j / ip g g) * g k)%T end.
Lemma rest_ip : forall j g l, inshape j s -> Forall (fun u => ip g u = zero) l -> ip (rest j l) g = g j.
Proof.
  intros j g l Hj H. induction H as [|u l Hu Hl IH]; cbn [rest]; [apply ip_unit; auto|]. rewrite ip_diff, IH, (ip_comm u g), Hu. ring.
Qed.
Lemma rest_norm : forall j l, inshape j s -> orthogonal l -> Forall (fun g => ip g g <> zero) l -> ip (rest j l) (rest j l) = (1 - tot (fun g => (g j * g j) / ip g g)%T l)%T.
Proof.
  intros j l Hj H. induction H as [|g l Hg Hl IH]; intros Hn; cbn [rest tot].
  - rewrite ip_unit by auto. unfold unit_at. destruct (list_eq_dec Z.eq_dec j j); [ring|congruence].
  - apply Forall_inv in Hn as Hq. apply Forall_inv_tail in Hn. set (F := fun k : list Z => (rest j l k - g j / ip g g * g k)%T). assert (E : forall w, ip F w = (ip (rest j l) w - (g j / ip g g) * ip g w)%T) by (intros w; apply ip_diff).
    rewrite (E F), (ip_comm (rest j l) F), (ip_comm g F), (E (rest j l)), (E g), IH by auto. rewrite (ip_comm g (rest j l)), rest_ip by auto. field. auto.
Qed.
Theorem few : forall l, orthogonal l -> Forall (fun g => ip g g <> zero) l -> Forall (within zero s part) l -> (length l <= length (filter part (indices s)))%nat.
Proof.
  intros l Ho Hn Hw. apply times_mono. rewrite <- !tot_const.
  replace (tot (fun _ => one) l) with (tot (fun g => tot (fun j => ((g j * g j) / ip g g)%T) (filter part (indices s))) l).
  - rewrite tot_swap. apply tot_le. intros j Hj. apply filter_In in Hj as (Hj & _). apply in_indices in Hj. pose proof (ip_nonneg (rest j l)) as P. rewrite rest_norm in P by auto. apply (le_add _ _ (tot (fun g => ((g j * g j) / ip g g)%T) l)) in P.
    replace (0 + tot (fun g => ((g j * g j) / ip g g)%T) l)%T with (tot (fun g => ((g j * g j) / ip g g)%T) l) in P by ring. replace (1 - tot (fun g => ((g j * g j) / ip g g)%T) l + tot (fun g => ((g j * g j) / ip g g)%T) l)%T with one in P by ring. exact P.
  - apply tot_ext. intros g Hg. rewrite Forall_forall in Hn, Hw. specialize (Hn g Hg). specialize (Hw g Hg).
    rewrite (tot_ext _ _ (fun j => (inv (ip g g) * (g j * g j))%T)) by (intros; field; auto). rewrite tot_scale, tot_filter, <- ip_tot; [field; auto|]. intros j Hj E. apply in_indices in Hj. rewrite (Hw j Hj E). ring.
Qed.

(* ---- the sequence ---- *)
Variables (L : vec -> vec).
(* the elements of x, g, r *)
Record cg := St { cx : vec; cgr : vec; cdir : vec }.
Definition c_tau (a : cg) : T := ip (cgr a) (cdir a).
Definition c_sig (a : cg) : T := ip (cdir a) (L (cdir a)).
Definition c_rho (a : cg) : T := ip (L (cdir a)) (L (cdir a)).
Definition c_t (a : cg) : T := (c_tau a / c_sig a)%T.
Definition c_gam (a : cg) : T := ((c_t a * c_t a * c_rho a - c_tau a) / c_tau a)%T.
Definition cstep (a : cg) : cg :=
  let g := fun j => (cgr a j - c_t a * L (cdir a) j)%T in
  St (fun j => (cx a j + c_t a * cdir a j)%T) g (fun j => (cdir a j * c_gam a + g j)%T).
Fixpoint csteps (k : nat) (a : cg) : cg := match k with O => a | S k => cstep (csteps k a) end.

Hypothesis (HL : linear add mul s L).
(* what's left of the right hand side *)
Lemma residual_step : forall b a, same s (cgr a) (fun j => (b j - L (cx a) j)%T) -> same s (cgr (cstep a)) (fun j => (b j - L (cx (cstep a)) j)%T).
Proof.
  intros b a H j Hj. cbn [cstep cgr cx]. rewrite (H j Hj). rewrite (proj2 HL (cx a) (cdir a) (c_t a) j Hj). ring.
Qed.

Hypothesis (Hsym : symmetric zero add mul s part L) (Hpos : positive zero add mul ltb s part L) (Hin : forall u, within zero s part (L u)).
Variable (a0 : cg).
Hypothesis (Hstart : same s (cdir a0) (cgr a0)) (Hwithin : within zero s part (cgr a0)).
Notation A k := (csteps k a0).
Notation G k := (cgr (csteps k a0)).
Notation R k := (cdir (csteps k a0)).

Lemma seq_within : forall k, within zero s part (G k) /\ within zero s part (R k).
Proof.
  induction k as [|k (IG & IR)]; cbn [csteps].
  - split; auto. intros j Hj E. rewrite (Hstart j Hj). auto.
  - assert (Q : within zero s part (cgr (cstep (A k)))) by (intros j Hj E; cbn [cstep cgr]; rewrite (IG j Hj E), (Hin _ j Hj E); ring). split; auto.
    intros j Hj E. specialize (Q j Hj E). cbn [cstep cgr cdir] in *. rewrite Q, (IR j Hj E). ring.
Qed.
Lemma ip_G : forall k w, ip (G (S k)) w = (ip (G k) w - c_t (A k) * ip (L (R k)) w)%T.
Proof. intros. cbn [csteps cstep cgr]. apply ip_diff. Qed.
Lemma ip_R : forall k w, ip (R (S k)) w = (ip (G (S k)) w + c_gam (A k) * ip (R k) w)%T.
Proof. intros. rewrite <- ip_comb. apply ip_ext; [|intros j _; auto]. intros j _. cbn [csteps cstep cdir cgr]. ring. Qed.
Lemma sym_R : forall i k, ip (L (R i)) (R k) = ip (R i) (L (R k)).
Proof. intros. apply Hsym; apply seq_within. Qed.

Definition conj_at (k : nat) : Prop :=
  (forall i, (i < k)%nat -> ip (G k) (G i) = zero /\ ip (G k) (R i) = zero /\ ip (R k) (L (R i)) = zero) /\ ip (G k) (R k) = ip (G k) (G k) /\ ip (G k) (L (R k)) = ip (R k) (L (R k)).
Lemma conj_all : forall k, (forall i, (i < k)%nat -> ip (G i) (G i) <> zero) -> forall i, (i <= k)%nat -> conj_at i.
Proof.
  induction k as [|k IH]; intros Hg i Hi.
  - replace i with 0%nat by lia. split; [lia|]. cbn [csteps]. split; apply ip_ext; intros j Hj; auto. symmetry. auto.
  - destruct (Nat.eq_dec i (S k)) as [->|N]; [|apply IH; [intros; apply Hg|]; lia]. assert (C : forall i, (i <= k)%nat -> conj_at i) by (apply IH; intros; apply Hg; lia). clear IH Hi.
    assert (Sg : forall i, (i <= k)%nat -> c_sig (A i) <> zero /\ c_tau (A i) <> zero /\ c_t (A i) <> zero).
    { intros i Hi. assert (Tn : c_tau (A i) <> zero) by (unfold c_tau; rewrite (proj1 (proj2 (C i Hi))); apply Hg; lia).
      assert (Sn : c_sig (A i) <> zero).
      { intros E. unfold c_tau in Tn. rewrite ip_comm in Tn. apply ip_some in Tn. pose proof (Hpos (R i) (proj2 (seq_within i)) Tn) as P. unfold c_sig in E. rewrite ip_comm in E. rewrite E, lt_irr in P. discriminate. }
      split; auto. split; auto. unfold c_t. intros E. apply Tn. transitivity (c_sig (A i) * (c_tau (A i) / c_sig (A i)))%T; [field; auto|rewrite E; ring]. }
    destruct (Sg k (Nat.le_refl k)) as (Sk & Tk & _). destruct (C k (Nat.le_refl k)) as (Ck & Ek & Fk).
    assert (Q3 : forall i, (i <= k)%nat -> ip (G (S k)) (R i) = zero).
    { intros i Hi. rewrite ip_G. destruct (Nat.eq_dec i k) as [->|Ni].
      - rewrite (ip_comm (L _)). fold (c_tau (A k)) (c_sig (A k)). unfold c_t. field. auto.
      - destruct (Ck i ltac:(lia)) as (_ & -> & E). rewrite sym_R, E. ring. }
    assert (Q1 : forall i, (i <= k)%nat -> ip (G (S k)) (G i) = zero).
    { intros i Hi. destruct i as [|i]; [transitivity (ip (G (S k)) (R 0)); [apply ip_ext; intros j Hj; auto; symmetry; auto|apply Q3; auto]|].
      pose proof (ip_R i (G (S k))) as E. rewrite (ip_comm (R (S i))), (ip_comm (R i)), (ip_comm (G (S i))), (Q3 (S i)), (Q3 i) in E by lia. transitivity (ip (G (S k)) (G (S i)) + c_gam (A i) * 0)%T; [ring|congruence]. }
    assert (Q2 : forall i, (i <= k)%nat -> ip (R (S k)) (L (R i)) = zero).
    { intros i Hi. rewrite ip_R. destruct (Nat.eq_dec i k) as [->|Ni].
      - rewrite ip_G, Fk. fold (c_sig (A k)) (c_rho (A k)). unfold c_gam, c_t. field. auto.
      - destruct (Ck i ltac:(lia)) as (_ & _ & ->). destruct (Sg i ltac:(lia)) as (_ & _ & Ti). pose proof (ip_G i (G (S k))) as E. rewrite (ip_comm (G (S i))), (ip_comm (G i)), (Q1 (S i)), (Q1 i) in E by lia.
        assert (E2 : ip (L (R i)) (G (S k)) = zero). { transitivity (inv (c_t (A i)) * (0 - (0 - c_t (A i) * ip (L (R i)) (G (S k)))))%T; [field; auto|rewrite <- E; ring]. }
        rewrite (ip_comm (G (S k))), E2. ring. }
    split; [intros i Hi; split; [apply Q1; lia|split; [apply Q3; lia|apply Q2; lia]]|]. split.
    + rewrite (ip_comm (G (S k)) (R (S k))), ip_R, (ip_comm (R k)), Q3 by auto. ring.
    + rewrite (ip_R k (L (R (S k)))). rewrite <- (sym_R k (S k)), (ip_comm (L (R k))), Q2 by auto. ring.
Qed.

(* the steps end *)
Lemma steps_end : forall k, (forall i, (i <= k)%nat -> ip (G i) (G i) <> zero) -> (k < length (filter part (indices s)))%nat.
Proof.
  intros k H. assert (C : forall i, (i <= k)%nat -> conj_at i) by (apply conj_all; intros; apply H; lia).
  assert (Q : forall n, (n <= S k)%nat -> orthogonal (rev (map (fun i => G i) (seq 0 n))) /\ Forall (fun g => ip g g <> zero) (rev (map (fun i => G i) (seq 0 n))) /\ Forall (within zero s part) (rev (map (fun i => G i) (seq 0 n)))).
  { induction n as [|n IH]; intros Hn; [split; [constructor|split; constructor]|]. destruct IH as (I1 & I2 & I3); [lia|]. rewrite seq_S, map_app, rev_app_distr. cbn [map rev app Nat.add]. split; [|split].
    - constructor; auto. apply Forall_rev. apply Forall_forall. intros g Hg. apply in_map_iff in Hg as (i & <- & Hi). apply in_seq in Hi. apply (C n); lia.
    - constructor; auto. apply H. lia.
    - constructor; auto. apply seq_within. }
  destruct (Q (S k) (Nat.le_refl _)) as (Q1 & Q2 & Q3). pose proof (few _ Q1 Q2 Q3) as F. rewrite rev_length, map_length, seq_length in F. lia.
Qed.
End Cg.
