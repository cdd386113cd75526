(* Property C121: the equations of examples/laplace2d.cc solved with examples/cghs.hh. *)
From Coq Require Import ZArith List Lia Bool Field_theory.
From Verif Require Import Spec L_Spec Spec_Ply Spec_Expr M_Base M_Expr M_Ply M_Val Spec_Val L_Expr L_Agree L_Ply L_Run L_Val P_Reduce M_View Spec_View L_View M_Slice M_Mat Spec_Mat P_Mat M_Cells P_Cells M_Stencil P_Stencil P_Roll M_Cg Spec_Cg L_Cg P_Cg M_Poisson.
Import ListNotations.
Open Scope Z_scope.

Section Poisson.
Context {T : Type}.
Variables (zero one : T) (add mul sub : T -> T -> T) (opp : T -> T) (div : T -> T -> T) (inv : T -> T) (ltb : T -> T -> bool).
Hypothesis (Hord : ordered zero one add mul sub opp div inv ltb).
Notation vec := (list Z -> T).
Let Hf : field_theory zero one add mul sub opp div inv eq := proj1 Hord.
Add Field Tfield3 : Hf.
Declare Scope T_scope.
Delimit Scope T_scope with T.
Infix "+" := add : T_scope.
Infix "*" := mul : T_scope.
Infix "-" := sub : T_scope.
Notation "0" := zero : T_scope.
Notation "1" := one : T_scope.
Definition four : T := ((1 + 1) + (1 + 1))%T.
Notation tot := (tot zero add).
Notation tot_add := (tot_add zero one add mul sub opp div inv ltb Hord).
Notation tot_zero := (tot_zero zero one add mul sub opp div inv ltb Hord).
Notation tot_swap := (tot_swap zero one add mul sub opp div inv ltb Hord).
Notation tot_pos := (tot_pos zero one add mul sub opp div inv ltb Hord).
Notation le := (le ltb).

(* ---- sums ---- *)
Lemma tot_app : forall A (f : A -> T) l k, tot f (l ++ k) = (tot f l + tot f k)%T.
Proof. intros A f l k. induction l; cbn; [ring|]. rewrite IHl. ring. Qed.
Lemma tot_map : forall A B (f : B -> T) (g : A -> B) l, tot f (map g l) = tot (fun a => f (g a)) l.
Proof. intros A B f g l. induction l; cbn; congruence. Qed.
Lemma tot_flat : forall A B (f : B -> T) (g : A -> list B) l, tot f (flat_map g l) = tot (fun a => tot f (g a)) l.
Proof. intros A B f g l. induction l; cbn; auto. rewrite tot_app. congruence. Qed.
Lemma tot_two : forall (f : vec) n1 n2, tot f (indices [n1; n2]) = tot (fun i => tot (fun j => f [i; j]) (zrange n2)) (zrange n1).
Proof.
  intros f n1 n2. cbn [indices]. rewrite tot_flat. apply tot_ext. intros i _. rewrite tot_map, tot_flat. apply tot_ext. intros j _. cbn. ring.
Qed.
(* a sum without the first and the last *)
Lemma tot_ends : forall (f : Z -> T) n, 2 <= n -> f 0 = zero -> f (n - 1) = zero -> tot f (zrange n) = tot (fun i => f (i + 1)) (zrange (n - 2)).
Proof.
  intros f n Hn E1 E2. rewrite zrange_cons by lia. replace (n - 1) with (n - 2 + 1) by lia. rewrite zrange_S by lia. rewrite map_app. cbn [map L_Cg.tot]. rewrite tot_app, tot_map. cbn [L_Cg.tot]. replace (1 + (n - 2)) with (n - 1) by lia. rewrite E1, E2.
  rewrite (tot_ext zero add _ (fun a => f (1 + a)) (fun i => f (i + 1))) by (intros; f_equal; lia). ring.
Qed.
Definition second (f : Z -> T) (i : Z) : T := (f i + f i - f (i - 1)%Z - f (i + 1)%Z)%T.
Lemma by_parts : forall (f g : Z -> T) n, 0 <= n ->
  tot (fun i => (second f (i + 1)%Z * g (i + 1)%Z)%T) (zrange n) = (tot (fun i => ((f (i + 1)%Z - f i) * (g (i + 1)%Z - g i))%T) (zrange (n + 1)) + (f 1%Z - f 0%Z) * g 0%Z - (f (n + 1)%Z - f n) * g (n + 1)%Z)%T.
Proof.
  intros f g n Hn. pattern n. apply natlike_ind; auto.
  - change (zrange 0) with (@nil Z). change (zrange (0 + 1)) with [0%Z]. cbn [L_Cg.tot]. change (0 + 1)%Z with 1%Z. ring.
  - intros k Hk IH. replace (Z.succ k) with (k + 1) by lia. rewrite zrange_S by lia. rewrite tot_app, IH. rewrite (zrange_S (k + 1)) by lia. rewrite tot_app. unfold second. cbn [L_Cg.tot]. replace (k + 1 - 1) with k by lia. ring.
Qed.

(* ---- the operator ---- *)
Variables (n1 n2 : Z).
Hypothesis (H1 : 2 <= n1) (H2 : 2 <= n2).
Notation s := [n1; n2].
Notation ip := (scalar_product zero add mul s).
Definition inner_part (ix : list Z) : bool := match ix with [i; j] => (1 <=? i) && (i <? n1 - 1) && (1 <=? j) && (j <? n2 - 1) | _ => false end.
Definition lap (u : vec) : vec := fun ix => if inner_part ix then match ix with [i; j] => (four * u [i; j] - u [(i - 1)%Z; j] - u [i; (j - 1)%Z] - u [(i + 1)%Z; j] - u [i; (j + 1)%Z])%T | _ => zero end else zero.
Lemma inner_iff : forall i j, inner_part [i; j] = true <-> 1 <= i < n1 - 1 /\ 1 <= j < n2 - 1.
Proof. intros i j. cbn. rewrite !andb_true_iff, !Z.leb_le, !Z.ltb_lt. lia. Qed.
Lemma inner_not : forall i j, ~ (1 <= i < n1 - 1 /\ 1 <= j < n2 - 1) -> inner_part [i; j] = false.
Proof. intros i j H. destruct (inner_part [i; j]) eqn:E; auto. apply inner_iff in E. tauto. Qed.
Lemma lap_at : forall u i j, 1 <= i < n1 - 1 -> 1 <= j < n2 - 1 -> lap u [i; j] = (four * u [i; j] - u [(i - 1)%Z; j] - u [i; (j - 1)%Z] - u [(i + 1)%Z; j] - u [i; (j + 1)%Z])%T.
Proof. intros u i j Hi Hj. unfold lap. replace (inner_part [i; j]) with true by (symmetry; apply inner_iff; lia). auto. Qed.
Lemma in2_iff : forall i j, inshape [i; j] s <-> 0 <= i < n1 /\ 0 <= j < n2.
Proof. intros i j. split; [intros H; inversion H as [|? ? ? ? A H']; subst; inversion H'; subst; auto|intros (A & B)]. apply Forall2_cons; [auto|]. apply Forall2_cons; [auto|]. apply Forall2_nil. Qed.
Lemma in2_cases : forall ix, inshape ix s -> exists i j, ix = [i; j] /\ 0 <= i < n1 /\ 0 <= j < n2.
Proof. intros ix H. inversion H as [|i ? ix' ? Hi H']; subst. inversion H' as [|j ? ix'' ? Hj H'']; subst. inversion H''; subst. eauto 6. Qed.
Lemma lap_within : forall u, within zero s inner_part (lap u).
Proof. intros u ix _ E. unfold lap. rewrite E. auto. Qed.
Lemma lap_linear : linear add mul s lap.
Proof.
  split.
  - intros u v H ix Hx. destruct (in2_cases ix Hx) as (i & j & -> & Hi & Hj). unfold lap. destruct (inner_part [i; j]) eqn:E; auto. apply inner_iff in E. rewrite !H by (apply in2_iff; lia). auto.
  - intros u v t ix Hx. destruct (in2_cases ix Hx) as (i & j & -> & Hi & Hj). unfold lap. destruct (inner_part [i; j]) eqn:E; ring.
Qed.
Definition energy (u v : vec) : T :=
  (tot (fun j => tot (fun i => ((u [(i + 1)%Z; (j + 1)%Z] - u [i; (j + 1)%Z]) * (v [(i + 1)%Z; (j + 1)%Z] - v [i; (j + 1)%Z]))%T) (zrange (n1 - 1))) (zrange (n2 - 2)) +
   tot (fun i => tot (fun j => ((u [(i + 1)%Z; (j + 1)%Z] - u [(i + 1)%Z; j]) * (v [(i + 1)%Z; (j + 1)%Z] - v [(i + 1)%Z; j]))%T) (zrange (n2 - 1))) (zrange (n1 - 2)))%T.
Lemma lap_energy : forall u v, within zero s inner_part v -> ip (lap u) v = energy u v.
Proof.
  intros u v Hv. rewrite (ip_tot zero one add mul sub opp div inv ltb Hord), tot_two.
  assert (Z0 : forall i j, 0 <= i < n1 -> 0 <= j < n2 -> ~ (1 <= i < n1 - 1 /\ 1 <= j < n2 - 1) -> v [i; j] = zero) by (intros i j Hi Hj N; apply Hv; [apply in2_iff; lia|apply inner_not; auto]).
  rewrite tot_ends; auto; [|apply tot_zero; intros j Hj; apply in_zrange in Hj; rewrite Z0 by lia; ring|apply tot_zero; intros j Hj; apply in_zrange in Hj; rewrite Z0 by lia; ring].
  rewrite (tot_ext zero add _ _ (fun i => (tot (fun j => (second (fun k => u [k; (j + 1)%Z]) (i + 1)%Z * v [(i + 1)%Z; (j + 1)%Z])%T) (zrange (n2 - 2)) + tot (fun j => (second (fun k => u [(i + 1)%Z; k]) (j + 1)%Z * v [(i + 1)%Z; (j + 1)%Z])%T) (zrange (n2 - 2)))%T)).
  2: { intros i Hi. apply in_zrange in Hi. rewrite tot_ends; auto; try (rewrite Z0 by lia; ring). rewrite <- tot_add. apply tot_ext. intros j Hj. apply in_zrange in Hj. rewrite lap_at by lia. unfold second, four. ring. }
  rewrite tot_add, tot_swap. unfold energy. f_equal.
  - apply tot_ext. intros j Hj. apply in_zrange in Hj. rewrite (by_parts (fun k => u [k; (j + 1)%Z]) (fun k => v [k; (j + 1)%Z])) by lia. replace (n1 - 2 + 1) with (n1 - 1) by lia. rewrite (Z0 0), (Z0 (n1 - 1)) by lia. ring.
  - apply tot_ext. intros i Hi. apply in_zrange in Hi. rewrite (by_parts (fun k => u [(i + 1)%Z; k]) (fun k => v [(i + 1)%Z; k])) by lia. replace (n2 - 2 + 1) with (n2 - 1) by lia. rewrite (Z0 (i + 1) 0), (Z0 (i + 1) (n2 - 1)) by lia. ring.
Qed.
Theorem C121_symmetric : symmetric zero add mul s inner_part lap.
Proof.
  intros u v Hu Hv. rewrite lap_energy by auto. rewrite (ip_comm zero one add mul sub opp div inv ltb Hord). rewrite lap_energy by auto. unfold energy. f_equal; apply tot_ext; intros a _; apply tot_ext; intros c _; ring.
Qed.
Lemma tot_nonneg : forall A (f : A -> T) l, (forall a, In a l -> le zero (f a)) -> le zero (tot f l).
Proof.
  intros A f l H. replace zero with (tot (fun _ : A => zero) l) at 1 by (apply tot_zero; auto). apply (tot_le zero one add mul sub opp div inv ltb Hord). auto.
Qed.
Lemma changes : forall (f : Z -> T) k, 0 <= k -> f 0 = zero -> f k <> zero -> exists i, 0 <= i < k /\ (f (i + 1)%Z - f i)%T <> zero.
Proof.
  intros f k Hk E0. pattern k. apply natlike_ind; auto; [congruence|]. intros j Hj IH N. replace (Z.succ j) with (j + 1) in * by lia.
  assert (D : f j = zero \/ f j <> zero).
  { destruct (ltb (f j) zero) eqn:Q1; [right; intros W; rewrite W, (lt_irr zero one add mul sub opp div inv ltb Hord) in Q1; discriminate|]. destruct (ltb zero (f j)) eqn:Q2; [right; intros W; rewrite W, (lt_irr zero one add mul sub opp div inv ltb Hord) in Q2; discriminate|]. left. apply (lt_tot zero one add mul sub opp div inv ltb Hord); auto. }
  destruct D as [D|D]; [|destruct (IH D) as (i & Hi & Q); exists i; split; auto; lia]. exists j. split; [lia|]. rewrite D. intros Q. apply N. transitivity (f (j + 1)%Z - 0)%T; [ring|auto].
Qed.
Lemma square_some : forall a, a <> zero -> (a * a)%T <> zero.
Proof. intros a N Q. pose proof (square_pos zero one add mul sub opp div inv ltb Hord a N) as P. rewrite Q, (lt_irr zero one add mul sub opp div inv ltb Hord) in P. discriminate. Qed.
Theorem C121_positive : positive zero add mul ltb s inner_part lap.
Proof.
  intros u Hu (ix & Hx & N). rewrite lap_energy by auto. destruct (in2_cases ix Hx) as (i & j & -> & Hi & Hj).
  assert (B : inner_part [i; j] = true) by (destruct (inner_part [i; j]) eqn:E; auto; exfalso; apply N; apply Hu; auto). apply inner_iff in B.
  assert (Sq : forall a, le zero (a * a)%T) by apply (square_nonneg zero one add mul sub opp div inv ltb Hord).
  assert (P : ltb zero (tot (fun j => tot (fun i => ((u [(i + 1)%Z; (j + 1)%Z] - u [i; (j + 1)%Z]) * (u [(i + 1)%Z; (j + 1)%Z] - u [i; (j + 1)%Z]))%T) (zrange (n1 - 1))) (zrange (n2 - 2))) = true).
  { apply tot_pos; [intros a _; apply tot_nonneg; intros; apply Sq|]. exists (j - 1). split; [apply in_zrange; lia|]. replace (j - 1 + 1) with j by lia.
    destruct (changes (fun i => u [i; j]) i) as (k & Hk & D); auto; [lia|apply Hu; [apply in2_iff; lia|apply inner_not; lia]|].
    assert (P : ltb zero (tot (fun i => ((u [(i + 1)%Z; j] - u [i; j]) * (u [(i + 1)%Z; j] - u [i; j]))%T) (zrange (n1 - 1))) = true).
    { apply tot_pos; [intros; apply Sq|]. exists k. split; [apply in_zrange; lia|]. apply square_some. auto. }
    intros Q. rewrite Q, (lt_irr zero one add mul sub opp div inv ltb Hord) in P. discriminate. }
  unfold energy. set (A := tot _ (zrange (n2 - 2))) in *. set (B1 := tot _ (zrange (n1 - 2))).
  assert (Q : le zero B1) by (apply tot_nonneg; intros; apply tot_nonneg; intros; apply Sq).
  destruct (le_cases zero one add mul sub opp div inv ltb Hord _ _ Q) as [E|E]; [rewrite <- E; replace (A + 0)%T with A by ring; auto|].
  apply (lt_add zero one add mul sub opp div inv ltb Hord _ _ A) in E. replace (0 + A)%T with A in E by ring. replace (A + B1)%T with (B1 + A)%T by ring. eapply (lt_tr zero one add mul sub opp div inv ltb Hord); eauto.
Qed.

(* ---- mult ---- *)
Variables (fixed : bool) (z : list zt) (fi : bool) (zi : list zt).
Hypothesis (Hz : zclean z) (Hzi : zclean zi).
Notation mult := (stiff fixed z sub mul four).
Lemma s_nonneg : nonneg s.
Proof. apply Forall_cons; [lia|]. apply Forall_cons; [lia|constructor]. Qed.
Lemma interior_2 : forall ix, interior [1; 1] [1; 1] s ix <-> inshape ix s /\ inner_part ix = true.
Proof.
  intros ix. split.
  - intros H. inversion H as [|? ? ? i ? ? ? ix1 Hi H']; subst. inversion H' as [|? ? ? j ? ? ? ix2 Hj H'']; subst. inversion H''; subst. split; [apply in2_iff; lia|apply inner_iff; lia].
  - intros (Hx & E). destruct (in2_cases ix Hx) as (i & j & -> & Hi & Hj). apply inner_iff in E. apply int_cons; [lia|]. apply int_cons; [lia|]. apply int_nil.
Qed.
(* the matrix takes no places *)
Notation none := (fun _ : Z => False).
Notation any := (fun _ : mem T => True).
Lemma lap_mult : multiplies zero s inner_part lap mult none any.
Proof.
  split; [exact lap_within|]. intros v w m _ _ _ Sv Sw Aw D W0. assert (Rm : room [1; 1] [1; 1] (vshape v)) by (rewrite Sv; apply room_cons; [lia|lia|lia|]; apply room_cons; [lia|lia|lia|]; apply room_nil).
  destruct (C114_slices fixed z Hz w v [1; 1] [1; 1] Rm ltac:(congruence) D Aw (stiff_term sub mul four) m) as (m' & E & F1 & F2).
  { cbn. repeat (apply Forall_cons; [apply near_cons; [lia|]; apply near_cons; [lia|]; apply near_nil|]). constructor. }
  exists m'. split; [exact E|]. rewrite Sw in F1, F2. split.
  - rewrite Sw. intros ix Hx. destruct (inner_part ix) eqn:P.
    + rewrite F1 by (apply interior_2; auto). destruct (in2_cases ix Hx) as (i & j & -> & Hi & Hj). apply inner_iff in P. rewrite lap_at by lia. unfold stiff_term. cbn [around plus]. unfold at_. rewrite ?Z.add_0_r. reflexivity.
    + rewrite (lap_within _ ix Hx P). rewrite F2; [apply W0; auto|]. intros i Hi Q. apply interior_2 in Hi as (Hi & P'). apply Aw in Q; [congruence|rewrite Sw; auto|rewrite Sw; auto].
  - split; [|exact I]. rewrite Sw. intros q _ Hq. apply F2. intros i Hi. apply interior_2 in Hi as (Hi & _). auto.
Qed.

(* ---- the number of unknowns ---- *)
Lemma count_one : forall n, 2 <= n -> length (filter (fun i => (1 <=? i) && (i <? n - 1)) (zrange n)) = Z.to_nat (n - 2).
Proof.
  intros n Hn. rewrite zrange_cons by lia. replace (zrange (n - 1)) with (zrange (n - 2) ++ [n - 2]) by (rewrite <- zrange_S by lia; f_equal; lia). rewrite map_app. cbn [filter map]. change (1 <=? 0) with false. cbn [andb]. rewrite filter_app, app_length. cbn [filter].
  destruct (Z.ltb_spec (1 + (n - 2)) (n - 1)); [lia|]. rewrite andb_false_r. cbn [length]. rewrite Nat.add_0_r.
  rewrite <- (zrange_length (n - 2)). rewrite <- (map_length (Z.add 1) (zrange (n - 2))). f_equal.
  assert (H0 : forall l, (forall i, In i l -> 0 <= i < n - 2) -> filter (fun i => (1 <=? i) && (i <? n - 1)) (map (Z.add 1) l) = map (Z.add 1) l).
  { induction l as [|a l IH]; intros Hl; cbn [map filter]; auto. pose proof (Hl a ltac:(left; auto)). destruct (Z.leb_spec 1 (1 + a)); [|lia]. destruct (Z.ltb_spec (1 + a) (n - 1)); [|lia]. cbn [andb]. f_equal. apply IH. intros; apply Hl; right; auto. }
  apply H0. intros i Hi. apply in_zrange in Hi. auto.
Qed.
Lemma count_two : length (filter inner_part (indices s)) = Z.to_nat ((n1 - 2) * (n2 - 2)).
Proof.
  rewrite Z2Nat.inj_mul by lia. rewrite <- (count_one n1), <- (count_one n2) by auto. cbn [indices]. generalize (zrange n1). intros l. induction l as [|a l IH]; cbn [flat_map filter]; auto.
  cbn [map] in *. rewrite filter_app, app_length, IH. clear IH. set (c := length (filter _ l)).
  replace (length (filter inner_part (map (cons a) (flat_map (fun i => [[i]]) (zrange n2))))) with (if (1 <=? a) && (a <? n1 - 1) then length (filter (fun i => (1 <=? i) && (i <? n2 - 1)) (zrange n2)) else 0%nat).
  - destruct ((1 <=? a) && (a <? n1 - 1)); cbn [length Nat.mul]; fold c; auto.
  - generalize (zrange n2). induction l0 as [|d l0 IH]; cbn [flat_map map filter app]; [destruct (_ && _); auto|]. cbn [inner_part]. destruct ((1 <=? a) && (a <? n1 - 1)); cbn [andb]; auto. destruct ((1 <=? d) && (d <? n2 - 1)) eqn:Q; cbn [length]; rewrite ?Q; auto.
Qed.

(* ---- the solution ---- *)
(* four times each element in the interior is the sum of that of b and of those next to it *)
Definition equations (b u : vec) : Prop := forall i j, 1 <= i < n1 - 1 -> 1 <= j < n2 - 1 -> (four * u [i; j])%T = (b [i; j] + (u [(i - 1)%Z; j] + u [(i + 1)%Z; j] + u [i; (j - 1)%Z] + u [i; (j + 1)%Z]))%T.
Lemma equations_iff : forall b u, within zero s inner_part b -> (same s (lap u) b <-> equations b u).
Proof.
  intros b u Hb. split.
  - intros H i j Hi Hj. rewrite <- (H [i; j]) by (apply in2_iff; lia). rewrite lap_at by lia. ring.
  - intros H ix Hx. destruct (in2_cases ix Hx) as (i & j & -> & Hi & Hj). destruct (inner_part [i; j]) eqn:P; [|rewrite lap_within, Hb; auto]. apply inner_iff in P. rewrite lap_at by lia. rewrite (H i j) by lia. ring.
Qed.
(* there is only one solution with given elements on the border *)
Theorem C121_unique : forall b u v, equations b u -> equations b v -> (forall ix, inshape ix s -> inner_part ix = false -> u ix = v ix) -> same s u v.
Proof.
  intros b u v Hu Hv Hb ix Hx. set (d := fun ix => (u ix - v ix)%T).
  assert (W : within zero s inner_part d) by (intros jx Hj P; unfold d; rewrite (Hb jx Hj P); ring).
  assert (D : same s (lap d) (fun _ => zero)).
  { intros jx Hj. destruct (in2_cases jx Hj) as (i & j & -> & Hi & Hj'). destruct (inner_part [i; j]) eqn:P; [|apply lap_within; auto]. apply inner_iff in P. rewrite lap_at by lia. unfold d.
    transitivity ((four * u [i; j] - (u [(i - 1)%Z; j] + u [(i + 1)%Z; j] + u [i; (j - 1)%Z] + u [i; (j + 1)%Z])) - (four * v [i; j] - (v [(i - 1)%Z; j] + v [(i + 1)%Z; j] + v [i; (j - 1)%Z] + v [i; (j + 1)%Z])))%T; [ring|]. rewrite (Hu i j), (Hv i j) by lia. ring. }
  assert (Q : d ix = zero).
  { assert (N : ~ d ix <> zero).
    { intros N. pose proof (C121_positive d W (ex_intro _ ix (conj Hx N))) as P. rewrite (ip_tot zero one add mul sub opp div inv ltb Hord) in P. rewrite tot_zero in P; [rewrite (lt_irr zero one add mul sub opp div inv ltb Hord) in P; discriminate|]. intros a Ha. apply in_indices in Ha. rewrite (D a Ha). ring. }
    destruct (ltb (d ix) zero) eqn:Q1; [exfalso; apply N; intros E; rewrite E, (lt_irr zero one add mul sub opp div inv ltb Hord) in Q1; discriminate|]. destruct (ltb zero (d ix)) eqn:Q2; [exfalso; apply N; intros E; rewrite E, (lt_irr zero one add mul sub opp div inv ltb Hord) in Q2; discriminate|]. apply (lt_tot zero one add mul sub opp div inv ltb Hord); auto. }
  unfold d in Q. transitivity ((u ix - v ix) + v ix)%T; [ring|]. rewrite Q. ring.
Qed.

Lemma any_steady : steady_ok none any.
Proof. intros m1 m2 _ _. exact I. Qed.
Lemma no_clear : forall v, clear_of none v.
Proof. intros v i _ []. Qed.
Variables (b x work : view).
Hypothesis (Sb : vshape b = s) (Sx : vshape x = s) (Sw : vshape work = 3 :: s) (Ax : apart_at x) (Aw : apart_at work).
Hypothesis (Dxb : P_Cells.separate x b) (Dwx : P_Cells.separate work x) (Dwb : P_Cells.separate work b).
(* With any tolerance, the solver ends in as many iterations as unknowns at most, and it doesn't change the border of x, or anything but x and work *)
Theorem C121_ends : forall eps n m, within zero s inner_part (at_ m b) -> (n1 - 2) * (n2 - 2) < Z.of_nat n ->
  exists k m', cghs fixed z fi zi add sub mul div zero ltb mult n b x work eps m = Ok k m' /\ 0 <= k <= (n1 - 2) * (n2 - 2) /\
  ltb ((eps * eps) * ip (at_ m b) (at_ m b))%T (ip (left_of sub lap b x m m') (left_of sub lap b x m m')) = false /\
  (forall ix, inshape ix s -> inner_part ix = false -> m' (vplace x ix) = m (vplace x ix)) /\ forall q, elsewhere none x work q -> m' q = m q.
Proof.
  intros eps n m Hb Hn. pose proof s_nonneg as Hs. pose proof lap_linear as HL. pose proof lap_mult as HM.
  destruct (C120_terminates zero one add mul sub opp div inv ltb Hord fixed z fi zi Hz Hzi s inner_part lap mult none any any_steady Hs HL HM b x work eps Sb Sx Sw Ax Aw Dxb Dwx Dwb (no_clear _) (no_clear _) (no_clear _) m n) as (k & m' & E & Hk); auto using C121_symmetric, C121_positive.
  { rewrite count_two. assert (0 <= (n1 - 2) * (n2 - 2)) by (apply Z.mul_nonneg_nonneg; lia). lia. }
  rewrite count_two, Z2Nat.id in Hk by (apply Z.mul_nonneg_nonneg; lia). exists k, m'. split; [exact E|]. split; [exact Hk|].
  destruct (C120_residual zero one add mul sub opp div inv ltb Hord fixed z fi zi Hz Hzi s inner_part lap mult none any any_steady Hs HL HM b x work eps Sb Sx Sw Ax Aw Dxb Dwx Dwb (no_clear _) (no_clear _) (no_clear _) n m k m' I E) as (_ & R & _ & _ & _ & O).
  split; [exact R|]. split; [|exact O]. exact (C120_border zero one add mul sub opp div inv ltb Hord fixed z fi zi Hz Hzi s inner_part lap mult none any any_steady Hs HL HM b x work eps Sb Sx Sw Ax Aw Dwx Dwb (no_clear _) (no_clear _) (no_clear _) n m k m' I Hb E).
Qed.
(* With tolerance 0, x ends with the solution that has the border of x *)
Theorem C121_solves : forall n m, within zero s inner_part (at_ m b) -> (n1 - 2) * (n2 - 2) < Z.of_nat n ->
  exists k m', cghs fixed z fi zi add sub mul div zero ltb mult n b x work zero m = Ok k m' /\ 0 <= k <= (n1 - 2) * (n2 - 2) /\ equations (at_ m b) (at_ m' x) /\
  forall ix, inshape ix s -> inner_part ix = false -> m' (vplace x ix) = m (vplace x ix).
Proof.
  intros n m Hb Hn. destruct (C121_ends zero n m Hb Hn) as (k & m' & E & Hk & _ & B & _). exists k, m'. split; [exact E|]. split; [exact Hk|]. split; [|exact B].
  apply equations_iff; auto. exact (C120_exact zero one add mul sub opp div inv ltb Hord fixed z fi zi Hz Hzi s inner_part lap mult none any any_steady s_nonneg lap_linear lap_mult b x work zero Sb Sx Sw Ax Aw Dxb Dwx Dwb (no_clear _) (no_clear _) (no_clear _) n m k m' I eq_refl E).
Qed.
End Poisson.

(* ---- example: canonical rationals ---- *)
From Coq Require Import QArith Qcanon.
Open Scope Z_scope.
Definition qlt (a b : Qc) : bool := if Qclt_le_dec a b then true else false.
Lemma qlt_iff : forall a b, qlt a b = true <-> (a < b)%Qc.
Proof. intros a b. unfold qlt. destruct (Qclt_le_dec a b) as [H|H]; split; auto; [discriminate|]. intros Q. exfalso. apply (Qcle_not_lt _ _ H Q). Qed.
Example q_ordered : ordered (Q2Qc 0) (Q2Qc 1) Qcplus Qcmult Qcminus Qcopp Qcdiv Qcinv qlt.
Proof.
  split; [exact Qcft|]. split; [split; [|split]|split].
  - intros a. destruct (qlt a a) eqn:E; auto. apply qlt_iff in E. exfalso. apply (Qcle_not_lt a a (Qcle_refl a) E).
  - intros a b c. rewrite !qlt_iff. apply Qclt_trans.
  - intros a b. unfold qlt. destruct (Qclt_le_dec a b) as [H|H]; [discriminate|]. destruct (Qclt_le_dec b a) as [H'|H']; [discriminate|]. intros _ _. apply Qcle_antisym; auto.
  - intros a b c. rewrite !qlt_iff. intros H. unfold Qclt, Qcplus, Q2Qc in *. cbn [this]. rewrite !Qred_correct. apply Qplus_lt_l. auto.
  - intros a b. rewrite !qlt_iff. intros Ha Hb. unfold Qclt, Qcmult, Q2Qc in *. cbn [this] in *. rewrite !Qred_correct in *. apply (Qmult_lt_0_compat _ _ Ha Hb).
Qed.
Definition qz (k : Z) : Qc := Q2Qc (inject_Z k).
(* b at 0 and x at 100 are 4x5, work at 200 is 3x4x5. The interior of b is 1 2 3 / 4 5 6. The border of x is 7, the interior 0. *)
Definition pB : view := Vw [Dim 4 5; Dim 5 1] 0.
Definition pX : view := Vw [Dim 4 5; Dim 5 1] 100.
Definition pW : view := Vw [Dim 3 20; Dim 4 5; Dim 5 1] 200.
Definition pM : mem Qc := fun p => nth (Z.to_nat p) (map qz [0; 0; 0; 0; 0; 0; 1; 2; 3; 0; 0; 4; 5; 6; 0]) (if existsb (Z.eqb p) [106; 107; 108; 111; 112; 113] then qz 0 else if p <? 100 then qz 0 else qz 7).
Definition pRun (n : nat) (eps : Qc) := cghs false [] false [] Qcplus Qcminus Qcmult Qcdiv (Q2Qc 0) qlt (stiff false [] Qcminus Qcmult (four (Q2Qc 1) Qcplus)) n pB pX pW eps pM.
Definition pSees (o : out (mem Qc) Z) : option (Z * list (Z * positive)) := match o with Ok i m => Some (i, map (fun p => (Qnum (this (m p)), Qden (this (m p)))) [106; 107; 108; 111; 112; 113; 101]) | _ => None end.
Example ex_hypotheses : 2 <= 4 /\ 2 <= 5 /\ vshape pB = [4; 5] /\ vshape pX = [4; 5] /\ vshape pW = [3; 4; 5] /\ apart_at pX /\ apart_at pW /\ P_Cells.separate pX pB /\ P_Cells.separate pW pX /\ P_Cells.separate pW pB /\ within (Q2Qc 0) [4; 5] (inner_part 4 5) (at_ pM pB).
Proof.
  assert (A2 : forall i, inshape i [4; 5] -> exists a b, i = [a; b] /\ 0 <= a < 4 /\ 0 <= b < 5) by (intros; apply (in2_cases 4 5); auto).
  assert (A3 : forall i, inshape i [3; 4; 5] -> exists a b c, i = [a; b; c] /\ 0 <= a < 3 /\ 0 <= b < 4 /\ 0 <= c < 5).
  { intros i H. inversion H as [|a ? i' ? Ha H']; subst. destruct (A2 i' H') as (b & c & -> & Hb & Hc). eauto 10. }
  split; [lia|]. split; [lia|]. split; [reflexivity|]. split; [reflexivity|]. split; [reflexivity|]. split; [|split; [|split; [|split; [|split]]]].
  - intros i j Hi Hj. change (vshape pX) with [4; 5] in *. destruct (A2 i Hi) as (a & b & -> & Ha & Hb). destruct (A2 j Hj) as (c & d & -> & Hc & Hd). unfold vplace; cbn [pX vcp vdv place step]. intros E. assert (a = c) by lia. assert (b = d) by lia. congruence.
  - intros i j Hi Hj. change (vshape pW) with [3; 4; 5] in *. destruct (A3 i Hi) as (a & b & e & -> & Ha & Hb & He). destruct (A3 j Hj) as (c & d & f & -> & Hc & Hd & Hf). unfold vplace; cbn [pW vcp vdv place step]. intros E. assert (a = c) by lia. assert (b = d) by lia. assert (e = f) by lia. congruence.
  - intros i j Hi Hj. change (vshape pX) with [4; 5] in *. change (vshape pB) with [4; 5] in *. destruct (A2 i Hi) as (a & b & -> & Ha & Hb). destruct (A2 j Hj) as (c & d & -> & Hc & Hd). unfold vplace; cbn [pX pB vcp vdv place step]. lia.
  - intros i j Hi Hj. change (vshape pX) with [4; 5] in *. change (vshape pW) with [3; 4; 5] in *. destruct (A3 i Hi) as (a & b & e & -> & Ha & Hb & He). destruct (A2 j Hj) as (c & d & -> & Hc & Hd). unfold vplace; cbn [pX pW vcp vdv place step]. lia.
  - intros i j Hi Hj. change (vshape pB) with [4; 5] in *. change (vshape pW) with [3; 4; 5] in *. destruct (A3 i Hi) as (a & b & e & -> & Ha & Hb & He). destruct (A2 j Hj) as (c & d & -> & Hc & Hd). unfold vplace; cbn [pB pW vcp vdv place step]. lia.
  - intros i Hi. apply in_indices in Hi. assert (F : Forall (fun i => inner_part 4 5 i = false -> at_ pM pB i = Q2Qc 0) (indices [4; 5])).
    { repeat (apply Forall_cons; [first [intros _; reflexivity|intros Q; discriminate Q]|]). constructor. }
    rewrite Forall_forall in F. auto.
Qed.
(* with tolerance 0, five iterations and the solution; with tolerance 1/10, three *)
Example ex_exact : pSees (pRun 7 (Q2Qc 0)) = Some (5, [(571, 69%positive); (208, 23%positive); (617, 69%positive); (625, 69%positive); (229, 23%positive); (671, 69%positive); (7, 1%positive)]).
Proof. vm_compute. reflexivity. Qed.
Example ex_tolerance : match pSees (pRun 7 (Q2Qc (1 # 10))) with Some (i, l) => (i, Some (nth 0 l (0, 1%positive))) | None => (0, None) end = (3, Some (3061652620, 373413003%positive)).
Proof. vm_compute. reflexivity. Qed.
(* 4 * 208/23 = 2 + 571/69 + 617/69 + 7 + 229/23 *)
Example ex_equation : (qz 4 * Q2Qc (208 # 23) = qz 2 + (Q2Qc (571 # 69) + Q2Qc (617 # 69) + qz 7 + Q2Qc (229 # 23)))%Qc.
Proof. apply Qc_is_canon. vm_compute. reflexivity. Qed.
(* a bound on the number of tests that is exceeded *)
Example ex_bound : pRun 3 (Q2Qc 0) = Undef.
Proof. vm_compute. reflexivity. Qed.

Print Assumptions C121_symmetric.
Print Assumptions C121_positive.
Print Assumptions C121_unique.
Print Assumptions C121_ends.
Print Assumptions C121_solves.
