(* Hodge with the storage of the arguments, perp: C98-C100. *)
From Coq Require Import ZArith List Lia Bool Permutation Ring.
From Verif Require Import M_View M_Wedge M_Hodge Spec_Wedge L_Wedge P_Wedge.
Import ListNotations.
Open Scope nat_scope.

(* b is the Hodge dual of a: the component of b along the complement of Ca[i] is a[i], with the sign that Ca[i] and the complement have together *)
Definition dual {R} (rmul : R -> R -> R) (rsign : Z -> R) (D O : nat) (a b : nat -> R) : Prop :=
  forall i w, i < length (choose D O) -> w < length (choose D (D - O)) -> Permutation (nth i (choose D O) [] ++ nth w (choose D (D - O)) []) (iota D) ->
    b w = rmul (rsign (sign (nth i (choose D O) [] ++ nth w (choose D (D - O)) []) (iota D))) (a i).
(* different indices below n have different places *)
Definition apart (n : nat) (p : nat -> Z) : Prop := forall i j, i < n -> j < n -> p i = p j -> i = j.

Lemma step_inj : forall D O i j w s t, O <= D -> i < length (choose D O) -> j < length (choose D O) -> hodge_step D O i = Some (w, s) -> hodge_step D O j = Some (w, t) -> i = j.
Proof.
  intros D O i j w s t HO Hi Hj Ei Ej. destruct (hodge_step_spec D O i HO Hi) as (wi & _ & Fi & Pi & _). destruct (hodge_step_spec D O j HO Hj) as (wj & _ & Fj & Pj & _).
  rewrite Fi in Ei. rewrite Fj in Ej. inversion Ei; inversion Ej; subst. subst.
  pose proof (enum_choose D O HO) as (N1 & N2). destruct (N2 (nth i (choose D O) [])) as (q & _ & _ & Uq); [apply N1, nth_In; lia|].
  rewrite (Uq i) by auto. symmetry. apply Uq; auto. apply (Permutation_app_inv_r (nth w (choose D (D - O)) [])). rewrite Pi, Pj. reflexivity.
Qed.
Lemma step_below : forall D O i w s, O <= D -> i < length (choose D O) -> hodge_step D O i = Some (w, s) -> w < length (choose D (D - O)).
Proof. intros D O i w s HO Hi E. destruct (hodge_step_spec D O i HO Hi) as (w' & Hw & F & _). rewrite F in E. inversion E; subst; auto. Qed.
(* every component of the dual comes from one of a *)
Lemma dual_onto : forall D O w, O <= D -> w < length (choose D (D - O)) -> exists i, i < length (choose D O) /\ Permutation (nth i (choose D O) [] ++ nth w (choose D (D - O)) []) (iota D).
Proof.
  intros D O w HO Hw. assert (HO' : D - O <= D) by lia. assert (Hw' := Hw). destruct (hodge_step_spec D (D - O) w HO' Hw) as (i & Hi & _ & P & _).
  replace (D - (D - O)) with O in * by lia. exists i. split; auto. rewrite Permutation_app_comm. auto.
Qed.

Section Hodge.
Variables (R : Type) (rmul : R -> R -> R) (rsign : Z -> R).
Let mem := Z -> R.

Lemma hodge_mem_spec : forall D O c rd pb, O <= D -> amut c = false \/ aint c = true -> apart (length (choose D (D - O))) pb -> forall (a : nat -> R) k i m, i + k = length (choose D O) ->
  (forall (m' : mem) j, i <= j < i + k -> (forall p, (forall i' w s, i <= i' < j -> hodge_step D O i' = Some (w, s) -> p <> pb w) -> m' p = m p) -> rd m' j = a j) ->
  exists m', hodge_mem R rmul rsign D O k i c rd pb m = Good m' /\
    (forall i' w s, i <= i' < i + k -> hodge_step D O i' = Some (w, s) -> m' (pb w) = rmul (rsign s) (a i')) /\
    (forall p, (forall i' w s, i <= i' < i + k -> hodge_step D O i' = Some (w, s) -> p <> pb w) -> m' p = m p).
Proof.
  intros D O c rd pb HO Hc Hp a. assert (Es : forall s, sign_as R rsign c s = Good (rsign s)).
  { intros s. unfold sign_as. destruct (amut c), (aint c); try reflexivity. destruct Hc; discriminate. }
  induction k as [|k IH]; intros i m Hk Hr; cbn [hodge_mem].
  - exists m. split; auto. split; [intros; lia|auto].
  - destruct (hodge_step_spec D O i HO) as (w & Hw & E & _); [lia|]. rewrite E. set (s0 := sign _ _) in *. rewrite Es. cbn [rbind]. cbv zeta.
    rewrite (Hr m i) by (auto; lia). set (m1 := fun p => if (p =? pb w)%Z then rmul (rsign s0) (a i) else m p).
    destruct (IH (S i) m1) as (m' & E' & H1 & H2); [lia| |].
    { intros m' j Hj Hm. apply Hr; [lia|]. intros p Hpp. rewrite Hm.
      - unfold m1. destruct (Z.eqb_spec p (pb w)) as [->|]; [|reflexivity]. exfalso. apply (Hpp i w s0); auto. lia.
      - intros i' w' s' Hi' Ew'. apply (Hpp i' w' s'); auto. lia. }
    exists m'. split; auto. split.
    + intros i' w' s' Hi' Ew'. destruct (Nat.eq_dec i' i) as [->|Ne].
      * rewrite E in Ew'. inversion Ew'; subst w' s'. rewrite H2.
        -- unfold m1. rewrite Z.eqb_refl. reflexivity.
        -- intros i2 w2 s2 Hi2 Ew2 Ep. apply Hp in Ep; [|auto|eapply step_below; [exact HO| |exact Ew2]; lia]. subst w2.
           assert (i = i2); [|lia]. eapply (step_inj D O i i2 w); eauto; lia.
      * apply (H1 i' w' s'); auto. lia.
    + intros p Hpp. rewrite H2.
      * unfold m1. destruct (Z.eqb_spec p (pb w)) as [->|]; [|reflexivity]. exfalso. apply (Hpp i w s0); auto. lia.
      * intros i' w' s' Hi' Ew'. apply (Hpp i' w' s'); auto. lia.
Qed.

(* from steps to duals *)
Lemma steps_dual : forall D O (a b : nat -> R), O <= D -> (forall i w s, 0 <= i < length (choose D O) -> hodge_step D O i = Some (w, s) -> b w = rmul (rsign s) (a i)) -> dual rmul rsign D O a b.
Proof.
  intros D O a b HO H i w Hi Hw P. destruct (hodge_step_spec D O i HO Hi) as (w' & Hw' & E & P' & U). rewrite (U w Hw P). apply (H i w'); auto. lia.
Qed.

(* ---- C98: hodgex of any kind of argument. False for views of elements that may be written. ---- *)
Theorem C98_hodgex_partial : forall D O c pa pb (m : mem), O <= D -> amut c = false \/ aint c = true ->
  apart (length (choose D (D - O))) pb -> (forall i w, i < length (choose D O) -> w < length (choose D (D - O)) -> pa i <> pb w) ->
  exists m', hodgex_mem R rmul rsign D O c pa pb m = Good m' /\ dual rmul rsign D O (fun i => m (pa i)) (fun w => m' (pb w)) /\
    (forall p, (forall w, w < length (choose D (D - O)) -> p <> pb w) -> m' p = m p).
Proof.
  intros D O c pa pb m HO Hc Hp Ha. unfold hodgex_mem.
  destruct (hodge_mem_spec D O c (fun m i => m (pa i)) pb HO Hc Hp (fun i => m (pa i)) (length (choose D O)) 0 m eq_refl) as (m' & E & H1 & H2).
  { intros m' j Hj Hm. apply Hm. intros i' w s Hi' Ew. apply Ha; [lia|]. eapply step_below; [exact HO| |exact Ew]. lia. }
  exists m'. split; auto. split; [apply steps_dual; auto; intros; eapply H1; eauto; lia|].
  intros p Hpp. apply H2. intros i' w s Hi' Ew. apply Hpp. eapply step_below; [exact HO| |exact Ew]. lia.
Qed.
Lemma choose_some : forall D O, O <= D -> 0 < length (choose D O).
Proof.
  intros D O HO. pose proof (enum_choose D O HO) as (_ & N2). destruct (N2 (firstn O (iota D))) as (i & Hi & _); [|lia].
  split; [|split].
  - generalize (iota_nodup D). generalize (iota D) O. clear. induction l as [|x l IH]; intros [|n] N; cbn [firstn]; try constructor; inversion N; subst; auto.
    intros I. apply H1. rewrite <- (firstn_skipn n l). apply in_or_app. auto.
  - rewrite firstn_length. unfold iota. rewrite seq_length. lia.
  - apply Forall_forall. intros x Hx. assert (In x (iota D)). { rewrite <- (firstn_skipn O (iota D)). apply in_or_app. auto. } unfold iota in H. apply in_seq in H. lia.
Qed.
Theorem C98_view_refuted : forall D O pa pb (m : mem), O <= D -> hodgex_mem R rmul rsign D O (Elem true false) pa pb m = UB.
Proof.
  intros D O pa pb m HO. unfold hodgex_mem. pose proof (choose_some D O HO). destruct (length (choose D O)) as [|k] eqn:L; [lia|]. cbn [hodge_mem].
  destruct (hodge_step_spec D O 0 HO) as (w & _ & E & _); [lia|]. rewrite E. reflexivity.
Qed.

(* ---- C99: hodge(a) puts the dual of a in a. False for views. ---- *)
Hypothesis one_mul : forall x, rmul (rsign 1) x = x.
Lemma trivial_dual : forall D O (a : nat -> R), O <= D -> hodge_trivial D O = true -> dual rmul rsign D O a a.
Proof.
  intros D O a HO T. apply steps_dual; auto. intros i w s Hi E. rewrite trivial_step in E by (auto; lia). inversion E; subst. rewrite one_mul. reflexivity.
Qed.
(* where the places aren't written, for the result of hodge(a) *)
Definition kept (n : nat) (pa : nat -> Z) (m m' : mem) : Prop := forall p, (forall w, w < n -> p <> pa w) -> m' p = m p.
Theorem C99_container : forall D O b pa (m : mem), O <= D -> apart (length (choose D O)) pa ->
  exists m', hodge_self R rmul rsign D O AContainer b pa m = Good m' /\ dual rmul rsign D O (fun i => m (pa i)) (fun w => m' (pa w)) /\ kept (length (choose D O)) pa m m'.
Proof.
  intros D O b pa m HO Hp. unfold hodge_self. destruct (hodge_trivial D O) eqn:T.
  - exists m. split; auto. split; [apply trivial_dual; auto|]. intros p _. reflexivity.
  - rewrite (choose_len_sym D O HO) in Hp.
    destruct (hodge_mem_spec D O (Elem false b) (fun _ i => m (pa i)) pa HO (or_introl eq_refl) Hp (fun i => m (pa i)) (length (choose D O)) 0 m eq_refl) as (m' & E & H1 & H2); [auto|].
    exists m'. split; auto. split; [apply steps_dual; auto; intros; eapply H1; eauto; lia|].
    intros p Hpp. apply H2. intros i' w s Hi' Ew. apply Hpp. rewrite (choose_len_sym D O HO). eapply step_below; [exact HO| |exact Ew]. lia.
Qed.
(* if 2*O isn't D the dual is in place up to the sign *)
Lemma step_in_place : forall D O i w s, O <= D -> 2 * O <> D -> i < length (choose D O) -> hodge_step D O i = Some (w, s) -> w = i.
Proof.
  intros D O i w s HO H2 Hi E. destruct (hodge_step_spec D O i HO Hi) as (w' & Hw & E' & P & U). rewrite E in E'. inversion E'; subst. symmetry. apply U; [rewrite <- choose_len_sym; auto|].
  destruct (le_lt_dec D 1) as [D1|D1].
  - destruct D as [|[|D]]; [lia| |lia]. destruct O as [|[|O]]; [| |lia]; cbn in Hi; (destruct i; [|lia]); cbn; auto.
  - destruct (le_lt_dec (2 * O) D) as [L|L].
    + pose proof (C47_even D (D - O) i) as H. replace (D - (D - O)) with O in H by lia. apply H; try lia. rewrite <- choose_len_sym; auto.
    + rewrite Permutation_app_comm. apply (C47_even D O i); auto.
Qed.
Theorem C99_view_partial : forall D O pa (m : mem), O <= D -> 2 * O <> D -> apart (length (choose D O)) pa ->
  exists m', hodge_self R rmul rsign D O AView true pa m = Good m' /\ dual rmul rsign D O (fun i => m (pa i)) (fun w => m' (pa w)) /\ kept (length (choose D O)) pa m m'.
Proof.
  intros D O pa m HO Hne Hp. unfold hodge_self. destruct (hodge_trivial D O) eqn:T.
  - exists m. split; auto. split; [apply trivial_dual; auto|]. intros p _. reflexivity.
  - assert (Hp' := Hp). rewrite (choose_len_sym D O HO) in Hp'.
    destruct (hodge_mem_spec D O (Elem true true) (fun m i => m (pa i)) pa HO (or_intror eq_refl) Hp' (fun i => m (pa i)) (length (choose D O)) 0 m eq_refl) as (m' & E & H1 & H2).
    { intros m' j Hj Hm. apply Hm. intros i' w s Hi' Ew Ep. apply step_in_place in Ew; auto; [|lia]. subst w. apply Hp in Ep; lia. }
    exists m'. split; auto. split; [apply steps_dual; auto; intros; eapply H1; eauto; lia|].
    intros p Hpp. apply H2. intros i' w s Hi' Ew. apply Hpp. rewrite (choose_len_sym D O HO). eapply step_below; [exact HO| |exact Ew]. lia.
Qed.
End Hodge.

(* hodge<2, 1>(a) of a view {3, 4} of int gives {-3, 3} instead of {-4, 3}, and hodge<4, 2>(a) of {1, 2, 3, 4, 5, 6} gives {1, 2, 3, 3, -2, 1} instead of {6, -5, 4, 3, -2, 1} *)
Theorem C99_view_refuted : exists D O pa m m', O <= D /\ apart (length (choose D O)) pa /\ hodge_self Z Z.mul zsign D O AView true pa m = Good m' /\
  ~ dual Z.mul zsign D O (fun i => m (pa i)) (fun w => m' (pa w)).
Proof.
  exists 2, 1, Z.of_nat, (fun p => if (p =? 0)%Z then 3%Z else 4%Z). eexists. split; [lia|]. split; [intros i j _ _; lia|]. split; [vm_compute; reflexivity|].
  intros H. specialize (H 1 0). revert H. vm_compute. intros H. assert (F : (-3)%Z = (-4)%Z); [|discriminate]. apply H; [lia|lia|constructor].
Qed.
Definition six : Z -> Z := fun p => (p + 1)%Z.
Definition after (r : res (Z -> Z)) (n : nat) : res (list Z) := match r with Good m => Good (map (fun k => m (Z.of_nat k)) (seq 0 n)) | Refused => Refused | UB => UB end.
Example C99_ex : after (hodge_self Z Z.mul zsign 4 2 AContainer true Z.of_nat six) 7 = Good [6; -5; 4; 3; -2; 1; 7]%Z /\
  after (hodge_self Z Z.mul zsign 4 2 AView true Z.of_nat six) 7 = Good [1; 2; 3; 3; -2; 1; 7]%Z /\
  after (hodge_self Z Z.mul zsign 4 3 AView true Z.of_nat six) 5 = Good [-1; -2; -3; -4; 5]%Z /\
  hodge_self Z Z.mul zsign 4 3 AView false Z.of_nat six = UB /\
  after (hodge_self Z Z.mul zsign 4 1 AView false Z.of_nat six) 5 = Good [1; 2; 3; 4; 5]%Z /\
  (forall x, (zsign 1 * x = x)%Z) /\ dual Z.mul zsign 2 1 (fun i => nth i [3; 4]%Z 0%Z) (fun i => nth i [-4; 3]%Z 0%Z).
Proof.
  repeat split; try (vm_compute; reflexivity); [intros; unfold zsign; ring|]. intros i w Hi Hw P. cbn in Hi, Hw. destruct i as [|[|i]]; [| |lia]; (destruct w as [|[|w]]; [| |lia]); cbn in P |- *; try reflexivity; exfalso.
  all: pose proof (Permutation_NoDup (Permutation_sym P) (iota_nodup 2)) as N; inversion N; subst; cbn in *; tauto.
Qed.
(* rows of a double [2 3]: the elements of b after those of a *)
Example C98_ex : after (hodgex_mem Z Z.mul zsign 3 1 (Elem false false) Z.of_nat (fun i => Z.of_nat i + 3)%Z six) 7 = Good [1; 2; 3; 1; 2; 3; 7]%Z /\
  apart (length (choose 3 2)) (fun i => Z.of_nat i + 3)%Z /\ hodgex_mem Z Z.mul zsign 3 1 (Elem true false) Z.of_nat (fun i => Z.of_nat i + 3)%Z six = UB.
Proof. repeat split; try (vm_compute; reflexivity). intros i j _ _. lia. Qed.
Print Assumptions C98_hodgex_partial.
Print Assumptions C98_view_refuted.
Print Assumptions C99_container.
Print Assumptions C99_view_partial.
Print Assumptions C99_view_refuted.

(* ---- C100: perp ---- *)
Section Ring.
Variables (R : Type) (rO rI : R) (radd rmul rsub : R -> R -> R) (ropp : R -> R) (rsign : Z -> R).
Hypothesis RT : ring_theory rO rI radd rmul rsub ropp eq.
Hypothesis sign_one : rsign 1 = rI.
Hypothesis sign_minus : rsign (-1) = ropp rI.
Add Ring ring : RT.
Definition plane (v : nat -> R) (i : nat) : R := match i with 0 => v 0 | 1 => v 1 | _ => rO end.
Definition normal (n : R) (i : nat) : R := match i with 2 => n | _ => rO end.
(* perp(v, n) is the product of v, in the plane, by n, along the normal, and perp(v) is perp(v, 1). *)
Theorem C100_cross : forall (v : nat -> R) n, cross R rO radd rmul rsign 3 (plane v) (normal n) = perp_n R rmul ropp v n ++ [rO].
Proof.
  intros v n. rewrite (C49_cross_3 R rO rI radd rmul rsub ropp rsign RT sign_one sign_minus). unfold perp_n, plane, normal. cbn [app].
  repeat (apply f_equal2; [ring|]). reflexivity.
Qed.
Theorem C100_one : forall (v : nat -> R), perp R ropp v = perp_n R rmul ropp v rI.
Proof. intros v. unfold perp, perp_n. repeat (apply f_equal2; [ring|]). reflexivity. Qed.
(* it is a quarter of a turn: it's perpendicular to v, has the same length, and the product perp(v) v, in the plane, is the square of the length; applied twice it's -v *)
Theorem C100_turn : forall (v : nat -> R) x y, perp R ropp v = [x; y] ->
  radd (rmul (v 0) x) (rmul (v 1) y) = rO /\ radd (rmul x x) (rmul y y) = radd (rmul (v 0) (v 0)) (rmul (v 1) (v 1)) /\
  cross R rO radd rmul rsign 2 (fun i => nth i [x; y] rO) v = [radd (rmul (v 0) (v 0)) (rmul (v 1) (v 1))] /\
  perp R ropp (fun i => nth i [x; y] rO) = [ropp (v 0); ropp (v 1)].
Proof.
  intros v x y E. unfold perp in E. injection E as <- <-. split; [ring|]. split; [ring|]. split.
  - unfold cross, M_Wedge.wedge. replace (choose 2 (1 + 1)) with [[0; 1]] by reflexivity. replace (choose 2 1) with [[0]; [1]] by reflexivity.
    cbn [map combs length Nat.eqb Nat.sub app]. apply f_equal2; [|reflexivity]. match goal with |- ?x = _ => let y := eval cbn in x in change x with y end. rewrite sign_one, sign_minus. ring.
  - unfold perp. cbn [nth]. reflexivity.
Qed.
End Ring.
Example C100_ex : ring_theory 0%Z 1%Z Z.add Z.mul Z.sub Z.opp eq /\ perp Z Z.opp (fun i => nth i [2; 3]%Z 0%Z) = [3; -2]%Z /\ perp_n Z Z.mul Z.opp (fun i => nth i [2; 3]%Z 0%Z) 5%Z = [15; -10]%Z.
Proof. repeat split; try reflexivity; intros; try ring. all: try apply Z.mul_comm; try apply Z.add_comm. Qed.
Print Assumptions C100_cross.
Print Assumptions C100_one.
Print Assumptions C100_turn.
