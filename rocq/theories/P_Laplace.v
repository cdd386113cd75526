(* Property C126: the mass matrix of examples/laplace2d.cc, and what the program gives. *)
From Coq Require Import ZArith List Lia Bool Ring Field Field_theory.
From Verif Require Import Spec L_Spec Spec_Ply Spec_Expr M_Base M_Expr M_Ply M_Val Spec_Val L_Expr L_Agree L_Ply L_Run L_Val P_Reduce M_View Spec_View L_View P_View M_Slice M_Frame Spec_Frame L_Frame P_Frame P_Outer M_Mat Spec_Mat P_Mat M_Cells P_Cells M_Opt M_Stencil P_Stencil P_Roll M_Elem P_Elem M_Cg Spec_Cg L_Cg P_Cg M_Poisson P_Poisson M_Laplace.
Import ListNotations.
Open Scope Z_scope.

Section Laplace.
Context {T : Type}.
Variables (zero one : T) (add mul sub : T -> T -> T) (opp : T -> T) (div : T -> T -> T) (inv : T -> T) (ltb : T -> T -> bool).
Hypothesis (Hord : ordered zero one add mul sub opp div inv ltb).
Notation vec := (list Z -> T).
Let Hf : field_theory zero one add mul sub opp div inv eq := proj1 Hord.
Add Field Tfield4 : Hf.
Declare Scope T_scope.
Delimit Scope T_scope with T.
Infix "+" := add : T_scope.
Infix "*" := mul : T_scope.
Infix "-" := sub : T_scope.
Infix "/" := div : T_scope.
Notation "0" := zero : T_scope.
Notation "1" := one : T_scope.
Definition two : T := (1 + 1)%T.
Notation four := (four one add).
Definition twelve : T := ((two + 1) * four)%T.
Notation tot := (L_Cg.tot zero add).
Notation tot_add := (L_Cg.tot_add zero one add mul sub opp div inv ltb Hord).
Notation tot_zero := (L_Cg.tot_zero zero one add mul sub opp div inv ltb Hord).
Notation tot_swap := (L_Cg.tot_swap zero one add mul sub opp div inv ltb Hord).
Notation tot_pos := (L_Cg.tot_pos zero one add mul sub opp div inv ltb Hord).
Notation tot_scale := (L_Cg.tot_scale zero one add mul sub opp div inv ltb Hord).
Notation tot_app := (tot_app zero one add mul sub opp div inv ltb Hord).
Notation tot_nonneg := (tot_nonneg zero one add mul sub opp div inv ltb Hord).
Notation square_some := (square_some zero one add mul sub opp div inv ltb Hord).
Notation lt_irr := (lt_irr zero one add mul sub opp div inv ltb Hord).
Notation lt_tr := (lt_tr zero one add mul sub opp div inv ltb Hord).
Notation lt_tot := (lt_tot zero one add mul sub opp div inv ltb Hord).
Notation lt_add := (lt_add zero one add mul sub opp div inv ltb Hord).
Notation lt_mul := (lt_mul zero one add mul sub opp div inv ltb Hord).
Notation le_refl := (le_refl zero one add mul sub opp div inv ltb Hord).
Notation lt_le := (lt_le zero one add mul sub opp div inv ltb Hord).
Notation le_cases := (le_cases zero one add mul sub opp div inv ltb Hord).
Notation le_tr := (le_tr zero one add mul sub opp div inv ltb Hord).
Notation le_add := (le_add zero one add mul sub opp div inv ltb Hord).
Notation le_add2 := (le_add2 zero one add mul sub opp div inv ltb Hord).
Notation square_nonneg := (square_nonneg zero one add mul sub opp div inv ltb Hord).
Notation square_pos := (square_pos zero one add mul sub opp div inv ltb Hord).
Notation one_pos := (one_pos zero one add mul sub opp div inv ltb Hord).
Notation le := (L_Cg.le ltb).

(* ---- numbers ---- *)
Lemma pos_some : forall a, ltb zero a = true -> a <> zero.
Proof. intros a H ->. rewrite lt_irr in H. discriminate. Qed.
Lemma pos_add : forall a b, ltb zero a = true -> le zero b -> ltb zero (a + b)%T = true.
Proof.
  intros a b H1 H2. destruct (le_cases _ _ H2) as [<-|E]; [replace (a + 0)%T with a by ring; auto|]. apply (lt_tr _ b); auto. apply (lt_add _ _ b) in H1. replace (0 + b)%T with b in H1 by ring. auto.
Qed.
Lemma two_pos : ltb zero two = true.
Proof. apply pos_add; [apply one_pos|apply lt_le, one_pos]. Qed.
Lemma four_pos : ltb zero four = true.
Proof. unfold P_Poisson.four. apply pos_add; [apply two_pos|apply lt_le, two_pos]. Qed.
Lemma twelve_pos : ltb zero twelve = true.
Proof. apply lt_mul; [apply pos_add; [apply two_pos|apply lt_le, one_pos]|apply four_pos]. Qed.

Lemma half : forall a, (a / two)%T = (((two * two + two) * a) / twelve)%T.
Proof.
  intros a. pose proof (pos_some _ two_pos) as N2. pose proof (pos_some _ twelve_pos) as N12. assert (E : twelve = (two * (two * two + two))%T) by (unfold twelve, two, P_Poisson.four; ring).
  rewrite E in *. assert (N6 : (two * two + two)%T <> zero) by (intros Q; apply N12; rewrite Q; ring). generalize dependent two. intros w. intros. field. auto.
Qed.

Section Mass.
(* ---- the mass matrix ---- *)
Variables (n1 n2 : Z).
Hypothesis (H1 : 2 <= n1) (H2 : 2 <= n2).
Notation s := [n1; n2].
Notation ip := (scalar_product zero add mul s).
Notation inner_part := (inner_part n1 n2).
Notation inner_iff := (inner_iff n1 n2).
Notation inner_not := (inner_not n1 n2).
Notation in2_iff := (in2_iff n1 n2).
Notation in2_cases := (in2_cases n1 n2).
(* h*h/12 times six times each element of the interior and the six next to it: on the same row, on the same column, and on the diagonal *)
Definition mass_of (h : T) (u : vec) : vec := fun ix => if inner_part ix then
  match ix with [i; j] => ((h * h) * (u [i; j] / two + (u [(i - 1)%Z; j] + u [i; (j - 1)%Z] + u [(i + 1)%Z; j] + u [i; (j + 1)%Z] + u [(i + 1)%Z; (j + 1)%Z] + u [(i - 1)%Z; (j - 1)%Z]) / twelve))%T | _ => zero end else zero.
Lemma mass_at : forall h u i j, 1 <= i < n1 - 1 -> 1 <= j < n2 - 1 -> mass_of h u [i; j] = ((h * h) * (u [i; j] / two + (u [(i - 1)%Z; j] + u [i; (j - 1)%Z] + u [(i + 1)%Z; j] + u [i; (j + 1)%Z] + u [(i + 1)%Z; (j + 1)%Z] + u [(i - 1)%Z; (j - 1)%Z]) / twelve))%T.
Proof. intros h u i j Hi Hj. unfold mass_of. replace (inner_part [i; j]) with true by (symmetry; apply inner_iff; lia). auto. Qed.
Lemma mass_within : forall h u, within zero s inner_part (mass_of h u).
Proof. intros h u ix _ E. unfold mass_of. rewrite E. auto. Qed.
Theorem C126_linear : forall h, linear add mul s (mass_of h).
Proof.
  intros h. split.
  - intros u v H ix Hx. destruct (in2_cases ix Hx) as (i & j & -> & Hi & Hj). unfold mass_of. destruct (inner_part [i; j]) eqn:E; auto. apply inner_iff in E. rewrite !H by (apply in2_iff; lia). auto.
  - intros u v t ix Hx. destruct (in2_cases ix Hx) as (i & j & -> & Hi & Hj). unfold mass_of. destruct (inner_part [i; j]) eqn:E; [|ring]. pose proof (pos_some _ two_pos). pose proof (pos_some _ twelve_pos). field. auto.
Qed.
(* sums where the first or the last is zero *)
Lemma tot_low : forall (f : Z -> T) n, 2 <= n -> f 0 = zero -> tot f (zrange (n - 1)) = tot (fun i => f (i + 1)) (zrange (n - 2)).
Proof.
  intros f n Hn E. rewrite zrange_cons by lia. cbn [L_Cg.tot]. rewrite (tot_map zero add), E. replace (n - 1 - 1) with (n - 2) by lia. rewrite (tot_ext zero add _ (fun a => f (1 + a)) (fun i => f (i + 1))) by (intros; f_equal; lia). ring.
Qed.
Lemma tot_high : forall (f : Z -> T) n, 2 <= n -> f (n - 1) = zero -> tot (fun i => f (i + 1)) (zrange (n - 1)) = tot (fun i => f (i + 1)) (zrange (n - 2)).
Proof.
  intros f n Hn E. replace (n - 1) with (n - 2 + 1) by lia. rewrite zrange_S by lia. rewrite tot_app. cbn [L_Cg.tot]. replace (n - 2 + 1) with (n - 1) by lia. rewrite E. ring.
Qed.
(* the sum over the interior *)
Lemma ip_inside : forall u v, within zero s inner_part v -> ip u v = tot (fun i => tot (fun j => (u [(i + 1)%Z; (j + 1)%Z] * v [(i + 1)%Z; (j + 1)%Z])%T) (zrange (n2 - 2))) (zrange (n1 - 2)).
Proof.
  intros u v Hv. rewrite (ip_tot zero one add mul sub opp div inv ltb Hord), (tot_two zero one add mul sub opp div inv ltb Hord).
  assert (Z0 : forall i j, 0 <= i < n1 -> 0 <= j < n2 -> ~ (1 <= i < n1 - 1 /\ 1 <= j < n2 - 1) -> v [i; j] = zero) by (intros i j Hi Hj N; apply Hv; [apply in2_iff; lia|apply inner_not; auto]).
  rewrite (tot_ends zero one add mul sub opp div inv ltb Hord); auto; try (apply tot_zero; intros j Hj; apply in_zrange in Hj; rewrite Z0 by lia; ring).
  apply tot_ext. intros i Hi. apply in_zrange in Hi. apply (tot_ends zero one add mul sub opp div inv ltb Hord); auto; rewrite Z0 by lia; ring.
Qed.
(* the sum over the pairs of places next to each other, on each direction *)
Definition pairs (u v : vec) : T :=
  (tot (fun i => tot (fun j => ((u [i; (j + 1)%Z] + u [(i + 1)%Z; (j + 1)%Z]) * (v [i; (j + 1)%Z] + v [(i + 1)%Z; (j + 1)%Z]))%T) (zrange (n2 - 2))) (zrange (n1 - 1)) +
   tot (fun i => tot (fun j => ((u [(i + 1)%Z; j] + u [(i + 1)%Z; (j + 1)%Z]) * (v [(i + 1)%Z; j] + v [(i + 1)%Z; (j + 1)%Z]))%T) (zrange (n2 - 1))) (zrange (n1 - 2)) +
   tot (fun i => tot (fun j => ((u [i; j] + u [(i + 1)%Z; (j + 1)%Z]) * (v [i; j] + v [(i + 1)%Z; (j + 1)%Z]))%T) (zrange (n2 - 1))) (zrange (n1 - 1)))%T.
Lemma split_two : forall (f g k : Z -> Z -> T) l1 l2, (forall i j, f i j = (g i j + k i j)%T) -> tot (fun i => tot (f i) l2) l1 = (tot (fun i => tot (g i) l2) l1 + tot (fun i => tot (k i) l2) l1)%T.
Proof. intros f g k l1 l2 H. rewrite <- tot_add. apply tot_ext. intros i _. rewrite <- tot_add. apply tot_ext. intros j _. apply H. Qed.
Lemma mass_pairs : forall h u v, within zero s inner_part v -> ip (mass_of h u) v = (((h * h) / twelve) * pairs u v)%T.
Proof.
  intros h u v Hv. rewrite ip_inside by auto. pose proof (pos_some _ two_pos) as N2. pose proof (pos_some _ twelve_pos) as N12.
  assert (Z0 : forall i j, 0 <= i < n1 -> 0 <= j < n2 -> ~ (1 <= i < n1 - 1 /\ 1 <= j < n2 - 1) -> v [i; j] = zero) by (intros i j Hi Hj N; apply Hv; [apply in2_iff; lia|apply inner_not; auto]).
  set (F := fun i j => v [(i + 1)%Z; (j + 1)%Z]).
  transitivity (((h * h) / twelve) * tot (fun i => tot (fun j => ((two * two + two) * u [(i + 1)%Z; (j + 1)%Z] + (u [i; (j + 1)%Z] + u [(i + 1)%Z; j] + u [(i + 1 + 1)%Z; (j + 1)%Z] + u [(i + 1)%Z; (j + 1 + 1)%Z] + u [(i + 1 + 1)%Z; (j + 1 + 1)%Z] + u [i; j])) * F i j)%T (zrange (n2 - 2))) (zrange (n1 - 2)))%T.
  { rewrite <- tot_scale. apply tot_ext. intros i Hi. apply in_zrange in Hi. rewrite <- tot_scale. apply tot_ext. intros j Hj. apply in_zrange in Hj. rewrite mass_at by lia. replace (i + 1 - 1) with i by lia. replace (j + 1 - 1) with j by lia. unfold F.
    rewrite half. rewrite !(Fdiv_def Hf). ring. }
  f_equal. unfold pairs.
  rewrite (split_two (fun i j => ((u [i; (j + 1)%Z] + u [(i + 1)%Z; (j + 1)%Z]) * (v [i; (j + 1)%Z] + v [(i + 1)%Z; (j + 1)%Z]))%T) (fun i j => ((u [i; (j + 1)%Z] + u [(i + 1)%Z; (j + 1)%Z]) * v [i; (j + 1)%Z])%T) (fun i j => ((u [(i + 1 - 1)%Z; (j + 1)%Z] + u [(i + 1)%Z; (j + 1)%Z]) * v [(i + 1)%Z; (j + 1)%Z])%T)) by (intros; replace (i + 1 - 1) with i by lia; ring).
  rewrite (split_two (fun i j => ((u [(i + 1)%Z; j] + u [(i + 1)%Z; (j + 1)%Z]) * (v [(i + 1)%Z; j] + v [(i + 1)%Z; (j + 1)%Z]))%T) (fun i j => ((u [(i + 1)%Z; j] + u [(i + 1)%Z; (j + 1)%Z]) * v [(i + 1)%Z; j])%T) (fun i j => ((u [(i + 1)%Z; (j + 1 - 1)%Z] + u [(i + 1)%Z; (j + 1)%Z]) * v [(i + 1)%Z; (j + 1)%Z])%T)) by (intros; replace (j + 1 - 1) with j by lia; ring).
  rewrite (split_two (fun i j => ((u [i; j] + u [(i + 1)%Z; (j + 1)%Z]) * (v [i; j] + v [(i + 1)%Z; (j + 1)%Z]))%T) (fun i j => ((u [i; j] + u [(i + 1)%Z; (j + 1)%Z]) * v [i; j])%T) (fun i j => ((u [(i + 1 - 1)%Z; (j + 1 - 1)%Z] + u [(i + 1)%Z; (j + 1)%Z]) * v [(i + 1)%Z; (j + 1)%Z])%T)) by (intros; replace (i + 1 - 1) with i by lia; replace (j + 1 - 1) with j by lia; ring).
  (* rows *)
  rewrite (tot_low (fun i => tot (fun j => ((u [i; (j + 1)%Z] + u [(i + 1)%Z; (j + 1)%Z]) * v [i; (j + 1)%Z])%T) (zrange (n2 - 2))) n1) by (auto; apply tot_zero; intros j Hj; apply in_zrange in Hj; rewrite Z0 by lia; ring).
  rewrite (tot_high (fun i => tot (fun j => ((u [(i - 1)%Z; (j + 1)%Z] + u [i; (j + 1)%Z]) * v [i; (j + 1)%Z])%T) (zrange (n2 - 2))) n1) by (auto; apply tot_zero; intros j Hj; apply in_zrange in Hj; rewrite Z0 by lia; ring).
  (* columns *)
  rewrite (tot_ext zero add _ (fun i => tot (fun j => ((u [(i + 1)%Z; j] + u [(i + 1)%Z; (j + 1)%Z]) * v [(i + 1)%Z; j])%T) (zrange (n2 - 1))) (fun i => tot (fun j => ((u [(i + 1)%Z; (j + 1)%Z] + u [(i + 1)%Z; (j + 1 + 1)%Z]) * v [(i + 1)%Z; (j + 1)%Z])%T) (zrange (n2 - 2)))).
  2: { intros i Hi. apply in_zrange in Hi. apply (tot_low (fun j => ((u [(i + 1)%Z; j] + u [(i + 1)%Z; (j + 1)%Z]) * v [(i + 1)%Z; j])%T) n2); auto. rewrite Z0 by lia. ring. }
  rewrite (tot_ext zero add _ (fun i => tot (fun j => ((u [(i + 1)%Z; (j + 1 - 1)%Z] + u [(i + 1)%Z; (j + 1)%Z]) * v [(i + 1)%Z; (j + 1)%Z])%T) (zrange (n2 - 1))) (fun i => tot (fun j => ((u [(i + 1)%Z; (j + 1 - 1)%Z] + u [(i + 1)%Z; (j + 1)%Z]) * v [(i + 1)%Z; (j + 1)%Z])%T) (zrange (n2 - 2)))).
  2: { intros i Hi. apply in_zrange in Hi. apply (tot_high (fun j => ((u [(i + 1)%Z; (j - 1)%Z] + u [(i + 1)%Z; j]) * v [(i + 1)%Z; j])%T) n2); auto. rewrite Z0 by lia. ring. }
  (* diagonals *)
  rewrite (tot_low (fun i => tot (fun j => ((u [i; j] + u [(i + 1)%Z; (j + 1)%Z]) * v [i; j])%T) (zrange (n2 - 1))) n1) by (auto; apply tot_zero; intros j Hj; apply in_zrange in Hj; rewrite Z0 by lia; ring).
  rewrite (tot_ext zero add _ (fun i => tot (fun j => ((u [(i + 1)%Z; j] + u [(i + 1 + 1)%Z; (j + 1)%Z]) * v [(i + 1)%Z; j])%T) (zrange (n2 - 1))) (fun i => tot (fun j => ((u [(i + 1)%Z; (j + 1)%Z] + u [(i + 1 + 1)%Z; (j + 1 + 1)%Z]) * v [(i + 1)%Z; (j + 1)%Z])%T) (zrange (n2 - 2)))).
  2: { intros i Hi. apply in_zrange in Hi. apply (tot_low (fun j => ((u [(i + 1)%Z; j] + u [(i + 1 + 1)%Z; (j + 1)%Z]) * v [(i + 1)%Z; j])%T) n2); auto. rewrite Z0 by lia. ring. }
  rewrite (tot_high (fun i => tot (fun j => ((u [(i - 1)%Z; (j + 1 - 1)%Z] + u [i; (j + 1)%Z]) * v [i; (j + 1)%Z])%T) (zrange (n2 - 1))) n1) by (auto; apply tot_zero; intros j Hj; apply in_zrange in Hj; rewrite Z0 by lia; ring).
  rewrite (tot_ext zero add _ (fun i => tot (fun j => ((u [(i + 1 - 1)%Z; (j + 1 - 1)%Z] + u [(i + 1)%Z; (j + 1)%Z]) * v [(i + 1)%Z; (j + 1)%Z])%T) (zrange (n2 - 1))) (fun i => tot (fun j => ((u [(i + 1 - 1)%Z; (j + 1 - 1)%Z] + u [(i + 1)%Z; (j + 1)%Z]) * v [(i + 1)%Z; (j + 1)%Z])%T) (zrange (n2 - 2)))).
  2: { intros i Hi. apply in_zrange in Hi. apply (tot_high (fun j => ((u [(i + 1 - 1)%Z; (j - 1)%Z] + u [(i + 1)%Z; j]) * v [(i + 1)%Z; j])%T) n2); auto. rewrite Z0 by lia. ring. }
  rewrite <- !tot_add. apply tot_ext. intros i Hi. apply in_zrange in Hi. rewrite <- !tot_add. apply tot_ext. intros j Hj. apply in_zrange in Hj. replace (i + 1 - 1) with i by lia. replace (j + 1 - 1) with j by lia. unfold F, two. ring.
Qed.
Theorem C126_symmetric : forall h, symmetric zero add mul s inner_part (mass_of h).
Proof.
  intros h u v Hu Hv. rewrite mass_pairs by auto. rewrite (ip_comm zero one add mul sub opp div inv ltb Hord). rewrite mass_pairs by auto. f_equal. unfold pairs. f_equal; [f_equal|]; apply tot_ext; intros a _; apply tot_ext; intros c _; ring.
Qed.
Lemma zero_or : forall a : T, a = zero \/ a <> zero.
Proof.
  intros a. destruct (ltb a zero) eqn:Q1; [right; intros W; rewrite W, lt_irr in Q1; discriminate|]. destruct (ltb zero a) eqn:Q2; [right; apply pos_some; auto|]. left. apply lt_tot; auto.
Qed.
Lemma changes_sum : forall (f : Z -> T) k, 0 <= k -> f 0 = zero -> f k <> zero -> exists i, 0 <= i < k /\ (f i + f (i + 1)%Z)%T <> zero.
Proof.
  intros f k Hk E0. pattern k. apply natlike_ind; auto; [congruence|]. intros j Hj IH N. replace (Z.succ j) with (j + 1) in * by lia.
  destruct (zero_or (f j)) as [D|D]; [|destruct (IH D) as (i & Hi & Q); exists i; split; auto; lia]. exists j. split; [lia|]. rewrite D. intros Q. apply N. transitivity (0 + f (j + 1)%Z)%T; [ring|auto].
Qed.
Theorem C126_positive : forall h, h <> zero -> positive zero add mul ltb s inner_part (mass_of h).
Proof.
  intros h Nh u Hu (ix & Hx & N). rewrite mass_pairs by auto. destruct (in2_cases ix Hx) as (i & j & -> & Hi & Hj).
  assert (B : inner_part [i; j] = true) by (destruct (inner_part [i; j]) eqn:E; auto; exfalso; apply N; apply Hu; auto). apply inner_iff in B.
  assert (P12 : ltb zero (inv twelve) = true).
  { pose proof (pos_some _ twelve_pos) as N12. assert (N0 : inv twelve <> zero) by (intros Q; apply (F_1_neq_0 Hf); rewrite <- (Finv_l Hf twelve N12), Q; ring). replace (inv twelve) with (twelve * (inv twelve * inv twelve))%T by (field; auto). apply lt_mul; [apply twelve_pos|apply square_pos; auto]. }
  rewrite (Fdiv_def Hf). apply lt_mul; [apply lt_mul; auto; apply square_pos; auto|]. unfold pairs.
  apply pos_add; [|apply tot_nonneg; intros; apply tot_nonneg; intros; apply square_nonneg]. replace (_ + _)%T with (tot (fun i => tot (fun j => ((u [(i + 1)%Z; j] + u [(i + 1)%Z; (j + 1)%Z]) * (u [(i + 1)%Z; j] + u [(i + 1)%Z; (j + 1)%Z]))%T) (zrange (n2 - 1))) (zrange (n1 - 2)) + tot (fun i => tot (fun j => ((u [i; (j + 1)%Z] + u [(i + 1)%Z; (j + 1)%Z]) * (u [i; (j + 1)%Z] + u [(i + 1)%Z; (j + 1)%Z]))%T) (zrange (n2 - 2))) (zrange (n1 - 1)))%T by ring.
  apply pos_add; [|apply tot_nonneg; intros; apply tot_nonneg; intros; apply square_nonneg].
  apply tot_pos; [intros; apply tot_nonneg; intros; apply square_nonneg|]. exists (i - 1). split; [apply in_zrange; lia|]. apply pos_some. replace (i - 1 + 1) with i by lia.
  destruct (changes_sum (fun j => u [i; j]) j) as (k & Hk & D); auto; [lia|apply Hu; [apply in2_iff; lia|apply inner_not; lia]|].
  apply tot_pos; [intros; apply square_nonneg|]. exists k. split; [apply in_zrange; lia|]. apply square_some. auto.
Qed.
(* ---- mult ---- *)
Variables (fixed : bool) (z : list zt).
Hypothesis (Hz : zclean z).
Lemma mass_mult : forall h, multiplies zero s inner_part (mass_of h) (mass fixed z two twelve add mul div h) (fun _ : Z => False) (fun _ : mem T => True).
Proof.
  intros h. split; [apply mass_within|]. intros v w m _ _ _ Sv Sw Aw D W0. assert (Rm : room [1; 1] [1; 1] (vshape v)) by (rewrite Sv; apply room_cons; [lia|lia|lia|]; apply room_cons; [lia|lia|lia|]; apply room_nil).
  destruct (C114_slices fixed z Hz w v [1; 1] [1; 1] Rm ltac:(congruence) D Aw (mass_term two twelve add mul div (mul h h)) m) as (m' & E & F1 & F2).
  { cbn. repeat (apply Forall_cons; [apply near_cons; [lia|]; apply near_cons; [lia|]; apply near_nil|]). constructor. }
  exists m'. split; [exact E|]. rewrite Sw in F1, F2. split.
  - rewrite Sw. intros ix Hx. destruct (inner_part ix) eqn:P.
    + rewrite F1 by (apply (interior_2 n1 n2); auto). destruct (in2_cases ix Hx) as (i & j & -> & Hi & Hj). apply inner_iff in P. rewrite mass_at by lia. unfold mass_term. cbn [around plus]. unfold at_. rewrite ?Z.add_0_r. reflexivity.
    + rewrite (mass_within _ _ ix Hx P). rewrite F2; [apply W0; auto|]. intros i Hi Q. apply (interior_2 n1 n2) in Hi as (Hi & P'). apply Aw in Q; [congruence|rewrite Sw; auto|rewrite Sw; auto].
  - split; [|exact I]. rewrite Sw. intros q _ Hq. apply F2. intros i Hi. apply (interior_2 n1 n2) in Hi as (Hi & _). auto.
Qed.
(* the product, from what is in memory *)
Theorem C126_mult : forall h v w (m : mem T), vshape v = s -> vshape w = s -> apart_at w -> P_Cells.separate w v -> within zero s inner_part (at_ m w) ->
  exists m', mass fixed z two twelve add mul div h v w m = Ok None m' /\ becomes w (mass_of h (at_ m v)) m m'.
Proof.
  intros h v w m Sv Sw Aw D W0. destruct (mass_mult h) as (_ & M). destruct (M v w m I) as (m' & E & D1 & D2 & _); auto; try (intros i _ []). exists m'. split; [exact E|]. split; auto.
Qed.

(* ---- the error ---- *)
Notation lap := (lap zero one add mul sub n1 n2).
Notation energy := (energy zero add mul sub n1 n2).
Lemma le_sub : forall a b, le a b <-> le zero (b - a)%T.
Proof.
  intros a b. split; intros H.
  - apply (le_add _ _ (0 - a)%T) in H. replace (a + (0 - a))%T with zero in H by ring. replace (b - a)%T with (b + (0 - a))%T by ring. auto.
  - apply (le_add _ _ a) in H. replace (0 + a)%T with a in H by ring. replace (b - a + a)%T with b in H by ring. auto.
Qed.
Lemma le_mul : forall a b, le zero a -> le zero b -> le zero (a * b)%T.
Proof.
  intros a b Ha Hb. destruct (le_cases _ _ Ha) as [<-|Pa]; [replace (0 * b)%T with zero by ring; apply le_refl|]. destruct (le_cases _ _ Hb) as [<-|Pb]; [replace (a * 0)%T with zero by ring; apply le_refl|]. apply lt_le, lt_mul; auto.
Qed.
Lemma le_or : forall a b, le a b \/ le b a.
Proof. intros a b. unfold L_Cg.le. destruct (ltb b a) eqn:E; auto. right. apply lt_le; auto. Qed.
Lemma le_not : forall a, ltb zero a = true -> le a zero -> False.
Proof. intros a H1' H2'. unfold L_Cg.le in H2'. congruence. Qed.
Definition above (a : T) : T := if ltb zero a then a else zero.
Lemma above_is : forall a, (above a = a /\ le zero a) \/ (above a = zero /\ le a zero).
Proof. intros a. unfold above. destruct (ltb zero a) eqn:E; [left|right]; split; auto. apply lt_le; auto. Qed.
Lemma above_step : forall a b, le ((above a - above b) * (above a - above b))%T ((a - b) * (above a - above b))%T.
Proof.
  intros a b. apply le_sub. destruct (above_is a) as [(-> & Ha)|(-> & Ha)], (above_is b) as [(-> & Hb)|(-> & Hb)].
  - replace (_ - _)%T with zero by ring. apply le_refl.
  - replace (_ - _)%T with (a * (0 - b))%T by ring. apply le_mul; auto. apply (proj1 (le_sub _ _)); auto.
  - replace (_ - _)%T with ((0 - a) * b)%T by ring. apply le_mul; auto. apply (proj1 (le_sub _ _)); auto.
  - replace (_ - _)%T with zero by ring. apply le_refl.
Qed.
(* if no element of the interior is over the average of the ones next to it, and none on the border is positive, none is *)
Theorem C126_maximum : forall w, (forall i j, 1 <= i < n1 - 1 -> 1 <= j < n2 - 1 -> le (four * w [i; j])%T (w [(i - 1)%Z; j] + w [(i + 1)%Z; j] + w [i; (j - 1)%Z] + w [i; (j + 1)%Z])%T) ->
  (forall ix, inshape ix s -> inner_part ix = false -> le (w ix) zero) -> forall ix, inshape ix s -> le (w ix) zero.
Proof.
  intros w Hi Hb ix Hx. set (p := fun ix => above (w ix)).
  assert (Wp : within zero s inner_part p) by (intros jx Hj E; unfold p; destruct (above_is (w jx)) as [(-> & Q)|(-> & Q)]; auto; apply lt_tot; [exact Q|exact (Hb jx Hj E)]).
  destruct (zero_or (p ix)) as [E|N].
  { unfold p in E. destruct (above_is (w ix)) as [(Q & _)|(_ & Q)]; auto. rewrite Q in E. rewrite E. apply le_refl. }
  exfalso. pose proof (C121_positive zero one add mul sub opp div inv ltb Hord n1 n2 H1 H2 p Wp (ex_intro _ ix (conj Hx N))) as P. rewrite (lap_energy zero one add mul sub opp div inv ltb Hord) in P by auto.
  apply (le_not _ P). apply (le_tr _ (energy w p)).
  { unfold P_Poisson.energy. apply le_add2; apply (tot_le zero one add mul sub opp div inv ltb Hord); intros; apply (tot_le zero one add mul sub opp div inv ltb Hord); intros; apply above_step. }
  rewrite <- (lap_energy zero one add mul sub opp div inv ltb Hord) by auto. rewrite (ip_tot zero one add mul sub opp div inv ltb Hord). apply (le_tr _ (tot (fun _ : list Z => zero) (indices s))); [apply (tot_le zero one add mul sub opp div inv ltb Hord)|rewrite tot_zero by auto; apply le_refl].
  intros jx Hj. apply in_indices in Hj. destruct (in2_cases jx Hj) as (i & j & -> & Bi & Bj). destruct (inner_part [i; j]) eqn:E.
  - apply inner_iff in E. rewrite (lap_at zero one add mul sub) by lia. apply le_sub. replace (_ - _)%T with ((w [(i - 1)%Z; j] + w [(i + 1)%Z; j] + w [i; (j - 1)%Z] + w [i; (j + 1)%Z] - four * w [i; j]) * p [i; j])%T by ring.
    apply le_mul; [apply (proj1 (le_sub _ _)), Hi; lia|]. unfold p. destruct (above_is (w [i; j])) as [(-> & Q)|(-> & Q)]; auto. apply le_refl.
  - rewrite (lap_within zero one add mul sub n1 n2 w [i; j] Hj E). replace (0 * p [i; j])%T with zero by ring. apply le_refl.
Qed.
Variable (of_int : Z -> T).
Hypothesis (H0 : of_int 0 = zero) (HS : forall i, 0 <= i -> of_int (i + 1) = (of_int i + 1)%T).
Lemma of_nonneg : forall i, 0 <= i -> le zero (of_int i).
Proof. apply natlike_ind; [rewrite H0; apply le_refl|]. intros i Hi IH. replace (Z.succ i) with (i + 1) by lia. rewrite HS by auto. replace zero with (0 + 0)%T by ring. apply le_add2; auto. apply lt_le, one_pos. Qed.
Lemma of_add : forall j i, 0 <= i -> 0 <= j -> of_int (i + j) = (of_int i + of_int j)%T.
Proof.
  intros j i Hi Hj. revert j Hj. apply natlike_ind; [rewrite H0, Z.add_0_r; ring|]. intros j Hj IH. replace (Z.succ j) with (j + 1) by lia. replace (i + (j + 1)) with (i + j + 1) by lia. rewrite !HS by lia. rewrite IH. ring.
Qed.
Notation N := (of_int (n1 - 1)).
(* twice as much as i*(n - i) when |lap d| is bounded by 1 *)
Lemma error_up : forall d K, within zero s inner_part d -> le zero K -> (forall i j, 1 <= i < n1 - 1 -> 1 <= j < n2 - 1 -> le (lap d [i; j]) K) ->
  forall i j, inshape [i; j] s -> le ((1 + 1) * d [i; j])%T (K * (of_int i * (N - of_int i)))%T.
Proof.
  intros d K Hd HK HL.
  assert (Np : forall i, 0 <= i < n1 -> le zero (K * (of_int i * (N - of_int i)))%T).
  { intros i Hi. apply le_mul; auto. apply le_mul; [apply of_nonneg; lia|]. replace (n1 - 1) with (i + (n1 - 1 - i)) by lia. rewrite of_add by lia. replace (_ - _)%T with (of_int (n1 - 1 - i)) by ring. apply of_nonneg. lia. }
  intros i j Hx. set (w := fun ix => match ix with [i; j] => ((1 + 1) * d [i; j] - K * (of_int i * (N - of_int i)))%T | _ => zero end).
  assert (Q : le (w [i; j]) zero).
  { apply C126_maximum; auto; clear i j Hx.
    - intros i j Hi Hj. apply le_sub. unfold w. specialize (HL i j Hi Hj). rewrite (lap_at zero one add mul sub) in HL by lia. apply le_sub in HL.
      assert (Ei : of_int i = (of_int (i - 1) + 1)%T) by (rewrite <- HS by lia; f_equal; lia). rewrite HS, Ei by lia.
      match goal with |- le zero ?x => replace x with (((1 + 1) * (K - (four * d [i; j] - d [(i - 1)%Z; j] - d [i; (j - 1)%Z] - d [(i + 1)%Z; j] - d [i; (j + 1)%Z])))%T) end; [apply le_mul; auto; apply lt_le, two_pos|]. unfold P_Poisson.four. ring.
    - intros ix Hx E. destruct (in2_cases ix Hx) as (i & j & -> & Hi & Hj). unfold w. rewrite (Hd _ Hx E). apply le_sub. replace (_ - _)%T with (K * (of_int i * (N - of_int i)))%T by ring. auto. }
  unfold w in Q. apply le_sub in Q. apply le_sub. replace (_ - _)%T with (0 - ((1 + 1) * d [i; j] - K * (of_int i * (N - of_int i))))%T by ring. auto.
Qed.
(* u is zero on the border and the elements of lap u are those of b but for R; those of lap v are those of b but for D *)
Theorem C126_error : forall u v b R D, within zero s inner_part u -> within zero s inner_part v -> le zero D -> le zero R ->
  (forall i j, 1 <= i < n1 - 1 -> 1 <= j < n2 - 1 -> le (0 - R)%T (b [i; j] - lap u [i; j])%T /\ le (b [i; j] - lap u [i; j])%T R) ->
  (forall i j, 1 <= i < n1 - 1 -> 1 <= j < n2 - 1 -> le (0 - D)%T (b [i; j] - lap v [i; j])%T /\ le (b [i; j] - lap v [i; j])%T D) ->
  forall i j, inshape [i; j] s -> le (0 - (D + R) * (of_int i * of_int (n1 - 1 - i)))%T ((1 + 1) * (u [i; j] - v [i; j]))%T /\ le ((1 + 1) * (u [i; j] - v [i; j]))%T ((D + R) * (of_int i * of_int (n1 - 1 - i)))%T.
Proof.
  intros u v b R D Hu Hv HD HR Bu Bv i j Hx. assert (HK : le zero (D + R)%T) by (replace zero with (0 + 0)%T by ring; apply le_add2; auto).
  assert (En : of_int (n1 - 1 - i) = (N - of_int i)%T). { apply in2_iff in Hx. replace (n1 - 1) with (i + (n1 - 1 - i)) at 2 by lia. rewrite of_add by lia. ring. }
  assert (EL : forall c c' i j, 1 <= i < n1 - 1 -> 1 <= j < n2 - 1 -> lap (fun ix => (c ix - c' ix)%T) [i; j] = (lap c [i; j] - lap c' [i; j])%T) by (intros; rewrite !(lap_at zero one add mul sub) by lia; ring).
  rewrite En. split.
  - pose proof (error_up (fun ix => (v ix - u ix)%T) (D + R)%T) as Q. cbv beta in Q. specialize (Q ltac:(intros jx Hj E; rewrite Hu, Hv; auto; ring) HK).
    assert (Q1 : forall i j, 1 <= i < n1 - 1 -> 1 <= j < n2 - 1 -> le (lap (fun ix => (v ix - u ix)%T) [i; j]) (D + R)%T).
    { intros i' j' Hi Hj. rewrite EL by auto. destruct (Bu i' j' Hi Hj) as (_ & B1). destruct (Bv i' j' Hi Hj) as (B2 & _). apply le_sub in B1. apply le_sub in B2. apply le_sub. pose proof (le_add2 _ _ _ _ B1 B2) as B3.
      match goal with |- le zero ?x => replace x with (R - (b [i'; j'] - lap u [i'; j']) + (b [i'; j'] - lap v [i'; j'] - (0 - D)))%T by ring end. replace zero with (0 + 0)%T at 1 by ring. exact B3. }
    specialize (Q Q1 i j Hx). apply le_sub in Q. apply le_sub. match goal with |- le zero ?x => match type of Q with le zero ?y => replace x with y by ring end end. exact Q.
  - pose proof (error_up (fun ix => (u ix - v ix)%T) (D + R)%T) as Q. cbv beta in Q. specialize (Q ltac:(intros jx Hj E; rewrite Hu, Hv; auto; ring) HK).
    apply Q; auto. intros i' j' Hi Hj. rewrite EL by auto. destruct (Bu i' j' Hi Hj) as (B1 & _). destruct (Bv i' j' Hi Hj) as (_ & B2). apply le_sub in B1. apply le_sub in B2. apply le_sub. pose proof (le_add2 _ _ _ _ B1 B2) as B3.
    match goal with |- le zero ?x => replace x with ((b [i'; j'] - lap u [i'; j'] - (0 - R)) + (D - (b [i'; j'] - lap v [i'; j'])))%T by ring end. replace zero with (0 + 0)%T at 1 by ring. exact B3.
Qed.
End Mass.

(* ---- the program ---- *)
Section Program.
Variables (fixed : bool) (z : list zt) (fi : bool) (zi : list zt).
Hypothesis (Hz : zclean z) (Hzi : zclean zi).
Variables (of_int : Z -> T) (abs : T -> T) (n : Z).
Hypothesis (Hn : 1 <= n).
Notation s := [n + 1; n + 1].
Notation ip := (scalar_product zero add mul s).
Notation inner_part := (inner_part (n + 1) (n + 1)).
Notation lap := (lap zero one add mul sub (n + 1) (n + 1)).
Notation h := (1 / of_int n)%T.
(* the values of g on the grid, and zero on the border *)
Definition on_grid (g : T -> T -> T) : vec := fun ix => if inner_part ix then match ix with [i; j] => g (of_int i * h)%T (of_int j * h)%T | _ => zero end else zero.
Lemma grid_within : forall g, within zero s inner_part (on_grid g).
Proof. intros g ix _ E. unfold on_grid. rewrite E. auto. Qed.
Let los := [(n - 1, 1); (n - 1, 1)].
Lemma point_wf : wf (points mul of_int n h).
Proof. apply wf_map; [discriminate|]. apply Forall_cons; [|apply Forall_cons; [exact I|constructor]]. split; [cbn; lia|]. cbn. constructor; [left; cbn; lia|constructor]. Qed.
Lemma point_shape : shape_is (points mul of_int n h) [n - 1].
Proof.
  split; [reflexivity|]. cbn. intros k Hk. assert (k = 0)%nat by lia. subst k. cbn. split; [lia|]. split; [left; reflexivity|]. constructor; [left; reflexivity|constructor].
Qed.
Lemma point_element : forall i (m : mem T), element (points mul of_int n h) [i] m = Ok (VT (of_int (i + 1)%Z * h)%T) m.
Proof. intros i m. cbn. unfold scale_op, ret. cbn [element]. f_equal. f_equal. f_equal. f_equal. change (1 + (i * 1 + 0) = i + 1). lia. Qed.
Lemma sample_ok : forall g v (m : mem T), vshape v = s -> apart_at v -> within zero s inner_part (at_ m v) ->
  exists m', sample fixed z mul of_int n h g v m = Ok None m' /\ becomes v (on_grid g) m m'.
Proof.
  intros g v m Sv Av Wv. unfold sample. unfold M_Opt.iota. destruct (Z.ltb_spec (n - 1) 0); [lia|]. cbn [onres]. change [Sq (Run (n - 1)) 1 1; Sq (Run (n - 1)) 1 1] with (map mksq los).
  assert (Rv : length los = vrank v) by (rewrite vrank_shape, Sv; reflexivity).
  rewrite window_part. 2: { rewrite Sv. unfold los. apply Forall2_cons; [split; cbn [fst snd]; lia|]. apply Forall2_cons; [split; cbn [fst snd]; lia|constructor]. }
  cbn [onres]. set (v0 := part los v). assert (S0 : vshape v0 = [n - 1; n - 1]) by (unfold v0; rewrite part_shape; auto).
  assert (P0 : forall i j, vplace v0 [i; j] = vplace v [i + 1; j + 1]) by (intros i j; unfold v0; rewrite part_place by (auto; rewrite <- Rv; reflexivity); reflexivity).
  destruct (C26_outer (val T) (mem T) (mul_op g) [points mul of_int n h; points mul of_int n h] [[n - 1]; [n - 1]]) as (e & E & We & Xe & El).
  { discriminate. }
  { apply Forall_cons; [apply point_wf|]. apply Forall_cons; [apply point_wf|constructor]. }
  { apply Forall2_cons; [apply shape_extents, point_shape|]. apply Forall2_cons; [apply shape_extents, point_shape|constructor]. }
  rewrite E. cbn [concat app] in Xe.
  assert (Nn : nonneg [n - 1; n - 1]) by (apply Forall_cons; [lia|]; apply Forall_cons; [lia|constructor]).
  destruct (assign_to fixed z Hz put v0 e [n - 1; n - 1] (fun ix => match ix with [i; j] => g (of_int (i + 1)%Z * h)%T (of_int (j + 1)%Z * h)%T | _ => zero end) m) as (m' & E1 & B1 & B2); auto.
  { intros i j. rewrite S0. intros Hi Hj. destruct (P_Poisson.in2_cases _ _ i Hi) as (i1 & i2 & -> & Hi1 & Hi2). destruct (P_Poisson.in2_cases _ _ j Hj) as (j1 & j2 & -> & Hj1 & Hj2). rewrite !P0. intros Q. apply Av in Q; [injection Q; intros; f_equal; [lia|f_equal; lia]| |]; rewrite Sv; apply P_Poisson.in2_iff; lia. }
  { apply inner_whole; auto. apply shape_extents. auto. }
  { intros m1 _ ix Hx. destruct (P_Poisson.in2_cases _ _ ix Hx) as (i & j & -> & Hi & Hj). exists (VT (g (of_int (i + 1)%Z * h)%T (of_int (j + 1)%Z * h)%T)). split; [|reflexivity].
    change [i; j] with (concat [[i]; [j]]). rewrite El by (apply Forall2_cons; [reflexivity|]; apply Forall2_cons; [reflexivity|constructor]). cbn [each2]. rewrite (in_order_2 _ _ _ _ _ (VT (of_int (i + 1)%Z * h)%T) m1 (VT (of_int (j + 1)%Z * h)%T) m1); auto using point_element. }
  exists m'. split; [exact E1|]. rewrite S0 in B1, B2. split; rewrite Sv.
  - intros ix Hx. destruct (P_Poisson.in2_cases _ _ ix Hx) as (i & j & -> & Hi & Hj). unfold on_grid. destruct (inner_part [i; j]) eqn:Q.
    + apply P_Poisson.inner_iff in Q. replace [i; j] with [i - 1 + 1; j - 1 + 1] by (f_equal; [lia|f_equal; lia]). rewrite <- P0, B1 by (apply P_Poisson.in2_iff; lia). unfold put. replace (i - 1 + 1) with i by lia. replace (j - 1 + 1) with j by lia. reflexivity.
    + rewrite B2; [apply (Wv [i; j]); auto|]. intros jx Hj0. destruct (P_Poisson.in2_cases _ _ jx Hj0) as (k & l & -> & Hk & Hl). rewrite P0. intros W. apply Av in W; [|rewrite Sv; auto|rewrite Sv; apply P_Poisson.in2_iff; lia]. injection W as -> ->. assert (inner_part [k + 1; l + 1] = true) by (apply P_Poisson.inner_iff; lia). congruence.
  - intros p Hp. apply B2. intros jx Hj0. destruct (P_Poisson.in2_cases _ _ jx Hj0) as (k & l & -> & Hk & Hl). rewrite P0. apply Hp. apply P_Poisson.in2_iff; lia.
Qed.
Lemma zeros_ok : forall v (m : mem T), vshape v = s -> apart_at v -> exists m', assign fixed z put (viter v) (Scalar (VT zero)) m = Ok None m' /\ becomes v (fun _ => zero) m m'.
Proof.
  intros v m Sv Av. destruct (assign_to fixed z Hz put v (Scalar (VT zero)) s (fun _ => zero) m) as (m' & E & B); auto.
  - apply Forall_cons; [lia|]. apply Forall_cons; [lia|constructor].
  - exact I.
  - apply inner_scalar.
  - intros m1 _ j _. exists (VT zero). split; reflexivity.
  - exists m'. split; auto.
Qed.
Variables (v u w b work : view).
Hypothesis (Sv : vshape v = s) (Su : vshape u = s) (Sw : vshape w = s) (Sb : vshape b = s) (Sk : vshape work = 3 :: s).
Hypothesis (Av : apart_at v) (Au : apart_at u) (Aw : apart_at w) (Ab : apart_at b) (Ak : apart_at work).
Hypothesis (Dvu : P_Cells.separate v u) (Dvw : P_Cells.separate v w) (Dvb : P_Cells.separate v b) (Duw : P_Cells.separate u w) (Dub : P_Cells.separate u b) (Dwb : P_Cells.separate w b).
Hypothesis (Dkv : P_Cells.separate work v) (Dku : P_Cells.separate work u) (Dkw : P_Cells.separate work w) (Dkb : P_Cells.separate work b).
(* what b - lap u is *)
Definition rest (f : T -> T -> T) (x : vec) : vec := fun ix => (mass_of (n + 1) (n + 1) h (on_grid f) ix - lap x ix)%T.
Lemma sep_sym : forall a c, P_Cells.separate a c -> P_Cells.separate c a.
Proof. intros a c H i j Hi Hj E. apply (H j i); auto. Qed.
Lemma keeps : forall a c g (m m' : mem T), becomes a g m m' -> vshape c = s -> P_Cells.separate a c -> same s (at_ m' c) (at_ m c).
Proof. intros a c g m m' B Sc D ix Hx. unfold at_. apply (becomes_keep a c g m m' ix B D). rewrite Sc. auto. Qed.
Lemma has : forall a g (m m' : mem T), becomes a g m m' -> vshape a = s -> same s (at_ m' a) g.
Proof. intros a g m m' (B & _) Sa ix Hx. apply B. rewrite Sa. auto. Qed.
Lemma same_trans : forall a c d : vec, same s a c -> same s c d -> same s a d.
Proof. intros a c d E1 E2 ix Hx. rewrite E1, E2; auto. Qed.
Lemma same_within : forall a c : vec, same s a c -> within zero s inner_part c -> within zero s inner_part a.
Proof. intros a c E W ix Hx Q. rewrite E; auto. Qed.
Lemma none_within : within zero s inner_part (fun _ => zero).
Proof. intros ix _ _. reflexivity. Qed.
Theorem C126_program : forall fuel f g eps bot (m : mem T), (n - 1) * (n - 1) < Z.of_nat fuel -> (forall x, ltb (abs x) bot = false) ->
  exists its mx m', laplace2d fixed z fi zi zero one two four twelve add mul sub div ltb of_int abs fuel n f g eps bot v u w b work m = Ok (its, mx) m' /\
  0 <= its <= (n - 1) * (n - 1) /\ same s (at_ m' v) (on_grid g) /\ same s (at_ m' w) (on_grid f) /\ same s (at_ m' b) (mass_of (n + 1) (n + 1) h (on_grid f)) /\
  within zero s inner_part (at_ m' u) /\ le (ip (rest f (at_ m' u)) (rest f (at_ m' u))) ((eps * eps) * ip (at_ m' b) (at_ m' b))%T /\
  (forall ix, inshape ix s -> le (abs (m' (vplace u ix) - m' (vplace v ix))%T) mx) /\ (exists ix, inshape ix s /\ mx = abs (m' (vplace u ix) - m' (vplace v ix))%T) /\
  forall q, Forall (fun a => forall ix, inshape ix (vshape a) -> q <> vplace a ix) [v; u; w; b; work] -> m' q = m q.
Proof.
  intros fuel f g eps bot m Hfuel Hbot. unfold laplace2d.
  destruct (zeros_ok v m Sv Av) as (m1 & E1 & B1). destruct (zeros_ok u m1 Su Au) as (m2 & E2 & B2). destruct (zeros_ok w m2 Sw Aw) as (m3 & E3 & B3). destruct (zeros_ok b m3 Sb Ab) as (m4 & E4 & B4).
  assert (V4 : same s (at_ m4 v) (fun _ => zero)) by (eapply same_trans; [apply (keeps b v _ m3 m4 B4 Sv), sep_sym; auto|]; eapply same_trans; [apply (keeps w v _ m2 m3 B3 Sv), sep_sym; auto|]; eapply same_trans; [apply (keeps u v _ m1 m2 B2 Sv), sep_sym; auto|]; apply (has v _ m m1); auto).
  assert (U4 : same s (at_ m4 u) (fun _ => zero)) by (eapply same_trans; [apply (keeps b u _ m3 m4 B4 Su), sep_sym; auto|]; eapply same_trans; [apply (keeps w u _ m2 m3 B3 Su), sep_sym; auto|]; apply (has u _ m1 m2); auto).
  assert (W4 : same s (at_ m4 w) (fun _ => zero)) by (eapply same_trans; [apply (keeps b w _ m3 m4 B4 Sw), sep_sym; auto|]; apply (has w _ m2 m3); auto).
  pose proof (has b _ m3 m4 B4 Sb) as B4'.
  destruct (sample_ok g v m4 Sv Av (same_within _ _ V4 none_within)) as (m5 & E5 & B5).
  assert (W5 : same s (at_ m5 w) (fun _ => zero)) by (eapply same_trans; [apply (keeps v w _ m4 m5 B5 Sw); auto|auto]).
  assert (U5 : same s (at_ m5 u) (fun _ => zero)) by (eapply same_trans; [apply (keeps v u _ m4 m5 B5 Su); auto|auto]).
  assert (B5' : same s (at_ m5 b) (fun _ => zero)) by (eapply same_trans; [apply (keeps v b _ m4 m5 B5 Sb); auto|auto]).
  pose proof (has v _ m4 m5 B5 Sv) as V5.
  destruct (sample_ok f w m5 Sw Aw (same_within _ _ W5 none_within)) as (m6 & E6 & B6).
  assert (V6 : same s (at_ m6 v) (on_grid g)) by (eapply same_trans; [apply (keeps w v _ m5 m6 B6 Sv), sep_sym; auto|auto]).
  assert (U6 : same s (at_ m6 u) (fun _ => zero)) by (eapply same_trans; [apply (keeps w u _ m5 m6 B6 Su), sep_sym; auto|auto]).
  assert (B6' : same s (at_ m6 b) (fun _ => zero)) by (eapply same_trans; [apply (keeps w b _ m5 m6 B6 Sb); auto|auto]).
  pose proof (has w _ m5 m6 B6 Sw) as W6.
  destruct (C126_mult (n + 1) (n + 1) ltac:(lia) ltac:(lia) fixed z Hz h w b m6 Sw Sb Ab (sep_sym _ _ Dwb) (same_within _ _ B6' none_within)) as (m7 & E7 & B7).
  assert (V7 : same s (at_ m7 v) (on_grid g)) by (eapply same_trans; [apply (keeps b v _ m6 m7 B7 Sv), sep_sym; auto|auto]).
  assert (U7 : same s (at_ m7 u) (fun _ => zero)) by (eapply same_trans; [apply (keeps b u _ m6 m7 B7 Su), sep_sym; auto|auto]).
  assert (W7 : same s (at_ m7 w) (on_grid f)) by (eapply same_trans; [apply (keeps b w _ m6 m7 B7 Sw), sep_sym; auto|auto]).
  assert (B7' : same s (at_ m7 b) (mass_of (n + 1) (n + 1) h (on_grid f))) .
  { eapply same_trans; [apply (has b _ m6 m7 B7); auto|]. apply (proj1 (C126_linear (n + 1) (n + 1) h)); auto. }
  destruct (C121_ends zero one add mul sub opp div inv ltb Hord (n + 1) (n + 1) ltac:(lia) ltac:(lia) fixed z fi zi Hz Hzi b u work Sb Su Sk Au Ak Dub Dku Dkb eps fuel m7) as (its & m8 & E8 & Hits & R8 & X8 & O8).
  { apply (same_within _ _ B7'). apply mass_within. }
  { replace (n + 1 - 2) with (n - 1) by lia. auto. }
  replace (n + 1 - 2) with (n - 1) in Hits by lia.
  assert (K8 : forall c, vshape c = s -> P_Cells.separate u c -> P_Cells.separate work c -> same s (at_ m8 c) (at_ m7 c)).
  { intros c Sc D1 D2 ix Hx. unfold at_. apply O8. split; [intros []|]. split; intros j Hj E; [apply (D1 j ix)|apply (D2 j ix)]; auto; rewrite Sc; auto. }
  assert (V8 : same s (at_ m8 v) (on_grid g)) by (eapply same_trans; [apply K8; auto using sep_sym|auto]).
  assert (W8 : same s (at_ m8 w) (on_grid f)) by (eapply same_trans; [apply K8; auto using sep_sym|auto]).
  assert (B8 : same s (at_ m8 b) (mass_of (n + 1) (n + 1) h (on_grid f))) by (eapply same_trans; [apply K8; auto using sep_sym|auto]).
  assert (Ns : nonneg s) by (apply Forall_cons; [lia|]; apply Forall_cons; [lia|constructor]).
  destruct (view_shape (T:=T) u s Su Ns) as (Wu & Hu). destruct (view_shape (T:=T) v s Sv Ns) as (Wv & Hv).
  assert (RV : forall a, vshape a = s -> reads (viter a) s m8 (fun j => m8 (vplace a j))) by (intros a Sa j Hj; exists (VRef (vplace a j)); rewrite viter_element, vrank_shape, whole_in by (rewrite Sa; auto); split; reflexivity).
  destruct (C32_amax T ltb bot (una abs (times sub (viter u) (viter v))) s m8 (fun j => abs (m8 (vplace u j) - m8 (vplace v j))%T) fi zi) as (mx & E9 & G1 & G2 & _); auto.
  { exact (proj1 (proj2 Hord)). }
  { apply one_wf, times_wf; auto. }
  { apply joint_shape_map, joint_shape_1, joint_shape_map. apply (joint_cover _ _ _ (viter u)); [left; auto|auto|]. apply Forall_cons; [apply inner_whole; auto|]. apply Forall_cons; [apply inner_whole; auto|constructor]. }
  { apply (una_reads abs (times sub (viter u) (viter v)) s m8 (fun j => (m8 (vplace u j) - m8 (vplace v j))%T)). apply (times_reads sub); auto. }
  exists its, mx, m8. split.
  { unfold bind. rewrite E1, E2, E3, E4, E5, E6, E7, E8, E9. reflexivity. }
  split; [exact Hits|]. split; [exact V8|]. split; [exact W8|]. split; [exact B8|]. split.
  { intros ix Hx Q. unfold at_. rewrite X8 by auto. apply U7. auto. }
  split.
  { assert (Q1 : same s (left_of sub lap b u m7 m8) (rest f (at_ m8 u))) by (intros ix Hx; unfold left_of, rest; fold (at_ m7 b ix); rewrite (B7' ix Hx); reflexivity).
    rewrite <- (ip_ext zero one add mul sub opp div inv ltb Hord s _ _ _ _ Q1 Q1). rewrite (ip_ext zero one add mul sub opp div inv ltb Hord s (at_ m8 b) (at_ m7 b) (at_ m8 b) (at_ m7 b)) by (apply K8; auto using sep_sym). exact R8. }
  split; [exact G1|]. split.
  { destruct G2 as (ix & Hx & Q); [exists [0; 0]; apply P_Poisson.in2_iff; lia|]. exists ix. auto. }
  intros q Hq. inversion Hq as [|? ? Qv Hq1]; subst. inversion Hq1 as [|? ? Qu Hq2]; subst. inversion Hq2 as [|? ? Qw Hq3]; subst. inversion Hq3 as [|? ? Qb Hq4]; subst. inversion Hq4 as [|? ? Qk _]; subst.
  rewrite O8 by (split; [intros []|auto]). destruct B7 as (_ & ->); auto. destruct B6 as (_ & ->); auto. destruct B5 as (_ & ->); auto. destruct B4 as (_ & ->); auto. destruct B3 as (_ & ->); auto. destruct B2 as (_ & ->); auto. destruct B1 as (_ & ->); auto.
Qed.
Lemma tot_one : forall A (f : A -> T) l a, (forall a, In a l -> le zero (f a)) -> In a l -> le (f a) (tot f l).
Proof.
  intros A f l a. induction l as [|c l IH]; intros P Ha; [destruct Ha|]. cbn [L_Cg.tot]. destruct Ha as [->|Ha].
  - replace (f a) with (f a + 0)%T at 1 by ring. apply le_add2; [apply le_refl|]. apply tot_nonneg. intros x Hx. apply P. right. auto.
  - replace (f a) with (0 + f a)%T at 1 by ring. apply le_add2; [apply P; left; auto|]. apply IH; auto. intros x Hx. apply P. right. auto.
Qed.
Lemma le_root : forall a c, le zero c -> le (a * a)%T (c * c)%T -> le a c.
Proof.
  intros a c Hc H. unfold L_Cg.le in *. destruct (ltb c a) eqn:E; auto. rewrite <- H. symmetry.
  assert (P : ltb zero (a - c)%T = true) by (apply (lt_add _ _ (0 - c)%T) in E; replace (c + (0 - c))%T with zero in E by ring; replace (a - c)%T with (a + (0 - c))%T by ring; auto).
  assert (P2 : ltb zero (a + c)%T = true). { apply pos_add; auto. destruct (le_cases _ _ Hc) as [<-|Q]; auto. apply (lt_tr _ c); auto. }
  pose proof (lt_mul _ _ P P2) as Q. apply (lt_add _ _ (c * c)%T) in Q. replace (0 + c * c)%T with (c * c)%T in Q by ring. replace ((a - c) * (a + c) + c * c)%T with (a * a)%T in Q by ring. exact Q.
Qed.
(* eight times the greatest error is at most n*n*(D + R), where D bounds what the equations are off by for the values of g, and R*R what the solver is allowed to leave *)
Theorem C126_bound : forall fuel f g eps bot D R (m : mem T), (n - 1) * (n - 1) < Z.of_nat fuel -> (forall x, ltb (abs x) bot = false) -> (forall x, abs x = x \/ abs x = (0 - x)%T) ->
  of_int 0 = zero -> (forall i, 0 <= i -> of_int (i + 1) = (of_int i + 1)%T) -> le zero D -> le zero R ->
  (forall i j, 1 <= i < n -> 1 <= j < n -> le (0 - D)%T (rest f (on_grid g) [i; j]) /\ le (rest f (on_grid g) [i; j]) D) ->
  le ((eps * eps) * ip (mass_of (n + 1) (n + 1) h (on_grid f)) (mass_of (n + 1) (n + 1) h (on_grid f)))%T (R * R)%T ->
  exists its mx m', laplace2d fixed z fi zi zero one two four twelve add mul sub div ltb of_int abs fuel n f g eps bot v u w b work m = Ok (its, mx) m' /\ 0 <= its <= (n - 1) * (n - 1) /\
  le (two * four * mx)%T ((D + R) * (of_int n * of_int n))%T.
Proof.
  intros fuel f g eps bot D R m Hfuel Hbot Habs H0 HS HD HR BD BR. destruct (C126_program fuel f g eps bot m Hfuel Hbot) as (its & mx & m' & E & Hits & Ev & Ew & Eb & Wu & Res & _ & (ix & Hx & Emx) & _).
  exists its, mx, m'. split; [exact E|]. split; [exact Hits|].
  rewrite (ip_ext zero one add mul sub opp div inv ltb Hord s _ _ _ _ Eb Eb) in Res. pose proof (le_tr _ _ _ Res BR) as Rr. rewrite (ip_tot zero one add mul sub opp div inv ltb Hord) in Rr.
  assert (Ru : forall jx, inshape jx s -> le (0 - R)%T (rest f (at_ m' u) jx) /\ le (rest f (at_ m' u) jx) R).
  { intros jx Hj. assert (Q : le (rest f (at_ m' u) jx * rest f (at_ m' u) jx)%T (R * R)%T) by (eapply le_tr; [|exact Rr]; apply (tot_one _ (fun jx => (rest f (at_ m' u) jx * rest f (at_ m' u) jx)%T)); [intros; apply square_nonneg|apply in_indices; auto]).
    split; [|apply le_root; auto]. apply le_sub. replace (rest f (at_ m' u) jx - (0 - R))%T with (R - (0 - rest f (at_ m' u) jx))%T by ring. apply (proj1 (le_sub _ _)). apply le_root; auto. replace ((0 - rest f (at_ m' u) jx) * (0 - rest f (at_ m' u) jx))%T with (rest f (at_ m' u) jx * rest f (at_ m' u) jx)%T by ring. auto. }
  destruct (P_Poisson.in2_cases _ _ ix Hx) as (i & j & -> & Hi & Hj).
  destruct (C126_error (n + 1) (n + 1) ltac:(lia) ltac:(lia) of_int H0 HS (at_ m' u) (on_grid g) (mass_of (n + 1) (n + 1) h (on_grid f)) R D Wu (grid_within g) HD HR) with (i := i) (j := j) as (L1 & L2); auto.
  { intros i' j' Hi' Hj'. apply Ru. apply P_Poisson.in2_iff; lia. }
  { intros i' j' Hi' Hj'. apply BD; lia. }
  replace (n + 1 - 1) with n in L1, L2 by lia.
  assert (A : le (two * mx)%T ((D + R) * (of_int i * of_int (n - i)))%T).
  { rewrite Emx. fold (at_ m' u [i; j]). fold (at_ m' v [i; j]). rewrite (Ev [i; j] Hx). destruct (Habs (at_ m' u [i; j] - on_grid g [i; j])%T) as [-> | ->]; [exact L2|]. apply le_sub in L1. apply le_sub. match goal with |- le zero ?x => match type of L1 with le zero ?y => replace x with y by (unfold two; ring) end end. exact L1. }
  apply le_sub. apply le_sub in A.
  replace (_ - _)%T with (four * ((D + R) * (of_int i * of_int (n - i)) - two * mx) + (D + R) * (of_int n * of_int n - four * (of_int i * of_int (n - i))))%T by ring.
  replace zero with (0 + 0)%T at 1 by ring. apply le_add2; [apply le_mul; auto; apply lt_le, four_pos|]. apply le_mul; [replace zero with (0 + 0)%T by ring; apply le_add2; auto|].
  assert (En : of_int n = (of_int i + of_int (n - i))%T). { rewrite <- (of_add of_int H0 HS) by lia. f_equal. lia. }
  rewrite En. replace (_ - _)%T with ((of_int i - of_int (n - i)) * (of_int i - of_int (n - i)))%T by (unfold P_Poisson.four; ring). apply square_nonneg.
Qed.
End Program.
End Laplace.

(* ---- example: canonical rationals, n = 3. v, u, w, b at 0, 100, 200, 300 are 4x4, and work at 400 is 3x4x4. f is 32*x*y, g is x*y*(1 - x)*(1 - y), and eps is 0 or 1/10. ---- *)
From Coq Require Import QArith Qcanon.
Open Scope Z_scope.
Definition lV (p : Z) : view := Vw [Dim 4 4; Dim 4 1] p.
Definition lW : view := Vw [Dim 3 16; Dim 4 4; Dim 4 1] 400.
Definition lf (x y : Qc) : Qc := (qz 32 * x * y)%Qc.
Definition lg (x y : Qc) : Qc := (x * y * (qz 1 - x) * (qz 1 - y))%Qc.
Definition lAbs (x : Qc) : Qc := if qlt x (qz 0) then (qz 0 - x)%Qc else x.
Definition lRun (n : nat) (eps : Qc) (m : mem Qc) := laplace2d false [] false [] (Q2Qc 0) (Q2Qc 1) (two (Q2Qc 1) Qcplus) (four (Q2Qc 1) Qcplus) (twelve (Q2Qc 1) Qcplus Qcmult) Qcplus Qcmult Qcminus Qcdiv qlt qz lAbs n 3 lf lg eps (Q2Qc 0) (lV 0) (lV 100) (lV 200) (lV 300) lW m.
Definition lSees (o : out (mem Qc) (Z * Qc)) := match o with Ok (i, x) m => Some (i, (Qnum (this x), Qden (this x)), map (fun p => (Qnum (this (m p)), Qden (this (m p)))) [5; 105; 205; 305; 310; 104; 500]) | _ => None end.
Example ex_result : lSees (lRun 5 (Q2Qc 0) (fun _ => qz 7)) = Some (3, (83, 243%positive), [(4, 81%positive); (65, 243%positive); (32, 9%positive); (112, 243%positive); (232, 243%positive); (0, 1%positive); (7, 1%positive)]) /\
  lSees (lRun 5 (Q2Qc (1 # 10)) (fun _ => qz 7)) = Some (2, (26293604, 76395069%positive), [(4, 81%positive); (19033880, 76395069%positive); (32, 9%positive); (112, 243%positive); (232, 243%positive); (0, 1%positive); (7, 1%positive)]).
Proof. split; vm_compute; reflexivity. Qed.
Lemma l_in3 : forall i, inshape i [3; 4; 4] -> exists a b c, i = [a; b; c] /\ 0 <= a < 3 /\ 0 <= b < 4 /\ 0 <= c < 4.
Proof. intros i H. inversion H as [|a ? i' ? Ha H']; subst. destruct (in2_cases 4 4 i' H') as (b & c & -> & Hb & Hc). eauto 10. Qed.
Example ex_views : Forall (fun a => vshape a = [3 + 1; 3 + 1] /\ apart_at a /\ P_Cells.separate lW a) [lV 0; lV 100; lV 200; lV 300] /\ vshape lW = 3 :: [3 + 1; 3 + 1] /\ apart_at lW /\
  P_Cells.separate (lV 0) (lV 100) /\ P_Cells.separate (lV 0) (lV 200) /\ P_Cells.separate (lV 0) (lV 300) /\ P_Cells.separate (lV 100) (lV 200) /\ P_Cells.separate (lV 100) (lV 300) /\ P_Cells.separate (lV 200) (lV 300).
Proof.
  assert (D : forall p q, q - p >= 16 -> P_Cells.separate (lV p) (lV q)).
  { intros p q H i j Hi Hj. change (vshape (lV p)) with [4; 4] in *. change (vshape (lV q)) with [4; 4] in *. destruct (in2_cases 4 4 i Hi) as (a & b & -> & Ha & Hb). destruct (in2_cases 4 4 j Hj) as (c & d & -> & Hc & Hd). unfold vplace; cbn [lV vcp vdv place step]. lia. }
  assert (A : forall p, p + 16 <= 400 -> vshape (lV p) = [3 + 1; 3 + 1] /\ apart_at (lV p) /\ P_Cells.separate lW (lV p)).
  { intros p Hp. split; [reflexivity|]. split.
    - intros i j Hi Hj. change (vshape (lV p)) with [4; 4] in *. destruct (in2_cases 4 4 i Hi) as (a & b & -> & Ha & Hb). destruct (in2_cases 4 4 j Hj) as (c & d & -> & Hc & Hd). unfold vplace; cbn [lV vcp vdv place step]. intros E. assert (a = c) by lia. assert (b = d) by lia. congruence.
    - intros i j Hi Hj. change (vshape (lV p)) with [4; 4] in *. change (vshape lW) with [3; 4; 4] in *. destruct (l_in3 i Hi) as (a & b & e & -> & Ha & Hb & He). destruct (in2_cases 4 4 j Hj) as (c & d & -> & Hc & Hd). unfold vplace; cbn [lV lW vcp vdv place step]. lia. }
  split; [repeat (apply Forall_cons; [apply A; lia|]); constructor|]. split; [reflexivity|]. split.
  { intros i j Hi Hj. change (vshape lW) with [3; 4; 4] in *. destruct (l_in3 i Hi) as (a & b & e & -> & Ha & Hb & He). destruct (l_in3 j Hj) as (c & d & k & -> & Hc & Hd & Hk). unfold vplace; cbn [lW vcp vdv place step]. intros E. assert (a = c) by lia. assert (b = d) by lia. assert (e = k) by lia. congruence. }
  repeat (split; [apply D; lia|]). apply D; lia.
Qed.
(* eight times 83/243 is no more than nine times 208/243, what the equations are off by for g *)
Example ex_bound : (3 - 1) * (3 - 1) < Z.of_nat 5 /\ (forall x, qlt (lAbs x) (Q2Qc 0) = false) /\ (forall x, lAbs x = x \/ lAbs x = (Q2Qc 0 - x)%Qc) /\ qz 0 = Q2Qc 0 /\ (forall i, 0 <= i -> qz (i + 1) = (qz i + Q2Qc 1)%Qc) /\
  (forall i j, 1 <= i < 3 -> 1 <= j < 3 -> let r := rest (Q2Qc 0) (Q2Qc 1) Qcplus Qcmult Qcminus Qcdiv qz 3 lf (on_grid (Q2Qc 0) (Q2Qc 1) Qcmult Qcdiv qz 3 lg) [i; j] in L_Cg.le qlt (Q2Qc 0 - Q2Qc (208 # 243))%Qc r /\ L_Cg.le qlt r (Q2Qc (208 # 243))) /\
  (let B := mass_of (Q2Qc 0) (Q2Qc 1) Qcplus Qcmult Qcdiv 4 4 (Q2Qc 1 / qz 3)%Qc (on_grid (Q2Qc 0) (Q2Qc 1) Qcmult Qcdiv qz 3 lf) in L_Cg.le qlt (Q2Qc (1 # 10) * Q2Qc (1 # 10) * scalar_product (Q2Qc 0) Qcplus Qcmult [4; 4] B B)%Qc (Q2Qc (1 # 6) * Q2Qc (1 # 6))%Qc).
Proof.
  split; [reflexivity|]. split.
  { intros x. unfold lAbs. destruct (qlt x (qz 0)) eqn:E; [|exact E]. apply qlt_iff in E. destruct (qlt (qz 0 - x)%Qc (Q2Qc 0)) eqn:Q; auto. apply qlt_iff in Q. exfalso. apply (Qcle_not_lt _ _ (Qclt_le_weak _ _ E)). change (Q2Qc 0) with (qz 0) in Q.
    unfold Qclt, Qcminus, Qcplus, Qcopp, Q2Qc in *. cbn [this] in *. rewrite !Qred_correct in *. setoid_replace (Qred (inject_Z 0)) with 0%Q in Q by reflexivity. rewrite ?Qred_correct in *. unfold Qlt, Qplus, Qopp in *. cbn in *. lia. }
  split; [intros x; unfold lAbs; destruct (qlt x (qz 0)); auto|]. split; [reflexivity|]. split.
  { intros i _. apply Qc_is_canon. unfold qz, Qcplus, Q2Qc. cbn [this]. rewrite !Qred_correct. rewrite inject_Z_plus. reflexivity. }
  split.
  - intros i j Hi Hj. assert (i = 1 \/ i = 2) as [-> | ->] by lia; assert (j = 1 \/ j = 2) as [-> | ->] by lia; split; vm_compute; reflexivity.
  - vm_compute. reflexivity.
Qed.

Print Assumptions C126_linear.
Print Assumptions C126_symmetric.
Print Assumptions C126_positive.
Print Assumptions C126_mult.
Print Assumptions C126_maximum.
Print Assumptions C126_error.
Print Assumptions C126_program.
Print Assumptions C126_bound.
