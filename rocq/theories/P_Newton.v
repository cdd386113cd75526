(* Property C127: examples/newton.cc. *)
From Coq Require Import ZArith List Lia Bool Permutation Ring Field Field_theory.
From Verif Require Import Spec L_Spec Spec_Ply Spec_Expr M_Base M_Expr M_Ply M_Val Spec_Val L_Expr L_Agree L_Ply L_Run L_Val P_Reduce M_View Spec_View L_View P_View M_Slice M_Frame Spec_Frame L_Frame P_Frame P_Outer M_Mat Spec_Mat P_Mat M_Cells P_Cells M_Opt M_Doc P_Doc M_Stencil P_Stencil P_Roll P_Total P_Overlap M_Access P_Access P_Laplace M_Newton.
Import ListNotations.
Open Scope Z_scope.

(* ---- the motion, in numbers ---- *)
Section Motion.
Context {T : Type}.
Variables (add sub mul div : T -> T -> T) (zero : T) (pw : T -> T) (G delta : T).
(* n bodies in d dimensions. Ms i is the mass of i, X i k is its position on axis k, and V i k the speed. *)
Variables (n d : Z) (Ms : Z -> T).
Definition square (X : Z -> Z -> T) (i j : Z) : T := fold_left add (map (fun k => mul (sub (X j k) (X i k)) (sub (X j k) (X i k))) (zrange d)) zero.
(* the force on i from j *)
Definition pull (X : Z -> Z -> T) (i j k : Z) : T := if i =? j then zero else mul (sub (X j k) (X i k)) (div (mul (mul G (Ms i)) (Ms j)) (pw (square X i j))).
Definition accel (X : Z -> Z -> T) (i k : Z) : T := fold_left add (map (fun j => div (pull X i j k) (Ms i)) (zrange n)) zero.
Definition faster (X V : Z -> Z -> T) (i k : Z) : T := add (V i k) (mul (accel X i k) delta).
Definition advance (s : (Z -> Z -> T) * (Z -> Z -> T)) : (Z -> Z -> T) * (Z -> Z -> T) :=
  (fun i k => add (fst s i k) (mul (faster (fst s) (snd s) i k) delta), faster (fst s) (snd s)).
End Motion.
(* the same numbers, for n bodies in d dimensions *)
Definition same_for {T} (n d : Z) (X Y : Z -> Z -> T) : Prop := forall i k, 0 <= i < n -> 0 <= k < d -> X i k = Y i k.

(* ---- the program ---- *)
Definition laid_out (n d : Z) (ms x v a F tD tR : view) : Prop :=
  vshape ms = [n] /\ vshape x = [n; d] /\ vshape v = [n; d] /\ vshape a = [n; d] /\ vshape F = [n; n; d] /\ vshape tD = [d] /\ vshape tR = [d] /\
  Forall apart_at [x; v; a; F; tD; tR] /\ ForallOrdPairs P_Cells.separate [x; v; a; F; tD; tR; ms].

Lemma each_inv : forall X W (act : list Z -> M W X) (Inv : list (list Z) -> W -> Prop) l2 l1 w, Inv l1 w ->
  (forall l j l' w, l1 ++ l2 = l ++ j :: l' -> Inv l w -> exists u w', act j w = Ok u w' /\ Inv (l ++ [j]) w') -> exists w', each act l2 w = Ok tt w' /\ Inv (l1 ++ l2) w'.
Proof.
  induction l2 as [|j l2 IH]; intros l1 w H0 H; cbn [each].
  - exists w. rewrite app_nil_r. auto.
  - destruct (H l1 j l2 w eq_refl H0) as (u & w' & -> & H1). destruct (IH (l1 ++ [j]) w' H1) as (w2 & E & H2).
    + intros l j' l' w2 E. rewrite <- app_assoc in E. apply (H l j' l'). exact E.
    + exists w2. rewrite <- app_assoc in H2. auto.
Qed.
Lemma item_num : forall (b : view) N t, vshape b = [N] -> 0 <= t < N -> exists c, from b [cidx t] = Good c /\ vcp c = vplace b [t].
Proof. intros b N t E Ht. destruct (item_view b N [] t E Ht) as (c & E1 & E2 & E3). exists c. split; auto. rewrite <- (E3 []). destruct c as [[|? ?] p]; [|discriminate]. unfold vplace. cbn. lia. Qed.

Lemma iter_in : forall A (f : A -> A) k s, Nat.iter (S k) f s = Nat.iter k f (f s).
Proof. intros A f k s. induction k as [|k IH]; [reflexivity|]. cbn [Nat.iter nat_rect] in *. rewrite IH. reflexivity. Qed.

Section Newton.
Context {T : Type}.
Variables (fixed : bool) (z : list zt) (fi : bool) (zi : list zt).
Hypothesis Hz : zclean z.
Hypothesis Hzi : zclean zi.
Variables (add sub mul div : T -> T -> T) (zero : T) (pw : T -> T) (G delta : T).
Variables (n d : Z).
Hypothesis Hn : 0 <= n.
Hypothesis Hd : 0 < d.
Variables (ms x v a F tD tR : view).
Hypothesis Hl : laid_out n d ms x v a F tD tR.
Notation force := (force fi zi add sub mul div zero pw G ms x tD tR).
Notation forces := (forces fixed z fi zi add sub mul div zero pw G ms x F tD tR).
Notation step_ := (step_ fixed z fi zi add sub mul div zero pw G delta ms x v a F tD tR).
Notation steps_ := (steps_ fixed z fi zi add sub mul div zero pw G delta ms x v a F tD tR).
Notation pull := (pull add sub mul div zero pw G d).
Notation accel := (accel add sub mul div zero pw G n d).
Notation faster := (faster add sub mul div zero pw G delta n d).
Notation advance := (advance add sub mul div zero pw G delta n d).
(* what is in a memory *)
Definition mass_of (m : mem T) (i : Z) : T := m (vplace ms [i]).
Definition rows (y : view) (m : mem T) (i k : Z) : T := m (vplace y [i; k]).
Definition off (l : list view) (p : Z) : Prop := forall y, In y l -> forall i, inshape i (vshape y) -> p <> vplace y i.

Lemma s_ms : vshape ms = [n]. Proof. apply Hl. Qed.
Lemma s_x : vshape x = [n; d]. Proof. apply Hl. Qed.
Lemma s_v : vshape v = [n; d]. Proof. apply Hl. Qed.
Lemma s_a : vshape a = [n; d]. Proof. apply Hl. Qed.
Lemma s_F : vshape F = [n; n; d]. Proof. apply Hl. Qed.
Lemma s_D : vshape tD = [d]. Proof. apply Hl. Qed.
Lemma s_R : vshape tR = [d]. Proof. apply Hl. Qed.
Lemma ap : forall y, In y [x; v; a; F; tD; tR] -> apart_at y.
Proof. destruct Hl as (_ & _ & _ & _ & _ & _ & _ & H & _). apply Forall_forall. exact H. Qed.
Lemma sep_all : P_Cells.separate x v /\ P_Cells.separate x a /\ P_Cells.separate x F /\ P_Cells.separate x tD /\ P_Cells.separate x tR /\ P_Cells.separate x ms /\
  P_Cells.separate v a /\ P_Cells.separate v F /\ P_Cells.separate v tD /\ P_Cells.separate v tR /\ P_Cells.separate v ms /\
  P_Cells.separate a F /\ P_Cells.separate a tD /\ P_Cells.separate a tR /\ P_Cells.separate a ms /\
  P_Cells.separate F tD /\ P_Cells.separate F tR /\ P_Cells.separate F ms /\ P_Cells.separate tD tR /\ P_Cells.separate tD ms /\ P_Cells.separate tR ms.
Proof.
  destruct Hl as (_ & _ & _ & _ & _ & _ & _ & _ & H). 
  repeat match goal with H : ForallOrdPairs _ (_ :: _) |- _ => inversion H; clear H; subst end.
  repeat match goal with H : Forall _ (_ :: _) |- _ => inversion H; clear H; subst end. tauto.
Qed.
Lemma sym : forall b c, P_Cells.separate b c -> P_Cells.separate c b.
Proof. intros b c H i j Hi Hj E. symmetry in E. revert E. apply H; auto. Qed.
Ltac sp := solve [pose proof sep_all; tauto | apply sym; pose proof sep_all; tauto].

Lemma force_ok : forall i j (m : mem T), 0 <= i < n -> 0 <= j < n -> exists m', force i j m = Ok tR m' /\
  (forall k, 0 <= k < d -> m' (vplace tR [k]) = pull (mass_of m) (rows x m) i j k) /\ forall p, off [tD; tR] p -> m' p = m p.
Proof.
  intros i j m Hi Hj. pose proof s_D as sD. pose proof s_R as sR. assert (N1 : nonneg [d]) by (constructor; [lia|constructor]).
  destruct (view_shape (T:=T) tD _ sD N1) as (WD & SD). destruct (view_shape (T:=T) tR _ sR N1) as (WR & SR). unfold M_Newton.force, P_Newton.pull.
  destruct (Z.eqb_spec i j) as [->|Hij].
  - destruct (assign_to fi zi Hzi put tR (Scalar (VT zero)) [d] (fun _ => zero) m sR N1) as (m' & E & B1 & B2).
    + apply ap. cbn. tauto.
    + exact I.
    + apply inner_scalar.
    + intros m1 _. apply scalar_reads. reflexivity.
    + exists m'. unfold bind. rewrite E. split; [reflexivity|]. split.
      * intros k Hk. rewrite B1; [reflexivity|]. rewrite sR. apply P_Mat.in1. auto.
      * intros p Hp. apply B2. intros i0 Hi0. apply Hp; cbn; auto.
  - destruct (item_view x n [d] j s_x Hj) as (xj & Ej & Sj & Pj). destruct (item_view x n [d] i s_x Hi) as (xi & Ei & Si & Pi). rewrite Ej. cbn [onres]. rewrite Ei. cbn [onres].
    destruct (item_num ms n i s_ms Hi) as (bi & Ebi & Cbi). destruct (item_num ms n j s_ms Hj) as (bj & Ebj & Cbj).
    destruct (view_shape (T:=T) xj _ Sj N1) as (Wj & Shj). destruct (view_shape (T:=T) xi _ Si N1) as (Wi & Shi).
    assert (XD : forall l, 0 <= l < n -> forall k k', inshape k (vshape tD) -> inshape k' [d] -> vplace tD k <> vplace x (l :: k')).
    { intros l Hl0 k k' Hk Hk'. assert (Q : P_Cells.separate tD x) by sp. apply Q; auto. rewrite s_x. constructor; auto. }
    destruct (assign_to fi zi Hzi put tD (times sub (viter xj) (viter xi)) [d] (fun k => sub (m (vplace x (j :: k))) (m (vplace x (i :: k)))) m sD N1) as (m1 & E1 & B1 & B2).
    { apply ap. cbn. tauto. }
    { apply times_wf; auto. }
    { apply inner_map. apply Forall_cons; [apply inner_whole; auto|]. apply Forall_cons; [apply inner_whole; auto|constructor]. }
    { intros m1 Hm1. rewrite <- sD in Hm1. apply (times_reads sub (viter xj) (viter xi) [d] m1 (fun k => m (vplace x (j :: k))) (fun k => m (vplace x (i :: k)))); auto; intros k Hk.
      - destruct (view_reads xj tD [d] m m1 Sj) with (j := k) as (u & U1 & U2); auto; [intros; rewrite Pj; auto|]. exists u. rewrite U2, Pj. auto.
      - destruct (view_reads xi tD [d] m m1 Si) with (j := k) as (u & U1 & U2); auto; [intros; rewrite Pi; auto|]. exists u. rewrite U2, Pi. auto. }
    assert (Q1 : forall l, 0 <= l < n -> m1 (vplace ms [l]) = m (vplace ms [l])).
    { intros l Hl0. apply B2. intros k Hk. intros E. symmetry in E. revert E. assert (Q : P_Cells.separate tD ms) by sp. apply Q; auto. rewrite s_ms. apply P_Mat.in1. auto. }
    set (dl := fun k => sub (m (vplace x [j; k])) (m (vplace x [i; k]))) in *.
    assert (RD : forall m2, (forall k, 0 <= k < d -> m2 (vplace tD [k]) = dl k) -> reads (viter tD) [d] m2 (fun k => dl (nth 0 k 0))).
    { intros m2 H2 k Hk. exists (VRef (vplace tD k)). rewrite viter_element, vrank_shape, sD, whole_in by auto. split; [reflexivity|]. apply P_Mat.in1e in Hk as (k0 & -> & Hk0). cbn. rewrite H2 by auto. reflexivity. }
    assert (D1 : forall k, 0 <= k < d -> m1 (vplace tD [k]) = dl k). { intros k Hk. rewrite B1; [reflexivity|]. rewrite sD. apply P_Mat.in1. auto. }
    assert (SS : sum fi zi add zero (times mul (viter tD) (viter tD)) m1 = Ok (square add sub mul zero d (rows x m) i j) m1).
    { rewrite (C31_sum_partial T add zero _ [d] (indices [d]) m1 (fun k => mul (dl (nth 0 k 0)) (dl (nth 0 k 0)))); auto.
      - f_equal. unfold square. f_equal. rewrite indices_1, map_map. reflexivity.
      - apply times_wf; auto.
      - apply joint_shape_map. apply (joint_cover _ _ _ (viter tD)); [left; auto|auto|]. apply Forall_cons; [apply inner_whole; auto|]. apply Forall_cons; [apply inner_whole; auto|constructor].
      - apply row_major_indices.
      - apply (times_reads mul (viter tD) (viter tD) [d] m1 (fun k => dl (nth 0 k 0)) (fun k => dl (nth 0 k 0))); auto.
      - exists [0]. apply P_Mat.in1. lia. }
    set (c := div (mul (mul G (m (vplace ms [i]))) (m (vplace ms [j]))) (pw (square add sub mul zero d (rows x m) i j))).
    destruct (assign_to fi zi Hzi put tR (times mul (viter tD) (Scalar (VT c))) [d] (fun k => mul (dl (nth 0 k 0)) c) m1 sR N1) as (m2 & E2 & B3 & B4).
    { apply ap. cbn. tauto. }
    { apply times_wf; [auto|exact I]. }
    { apply inner_map. apply Forall_cons; [apply inner_whole; auto|]. apply Forall_cons; [apply inner_scalar|constructor]. }
    { intros m2 Hm2. apply (times_reads mul (viter tD) (Scalar (VT c)) [d] m2 (fun k => dl (nth 0 k 0)) (fun _ => c)); [|apply scalar_reads; reflexivity].
      apply RD. intros k Hk. rewrite Hm2; auto. intros k' Hk'. assert (Q : P_Cells.separate tD tR) by sp. apply Q; [rewrite sD; apply P_Mat.in1; auto|rewrite sR; auto]. }
    exists m2. unfold bind. rewrite E1. unfold mass_at. rewrite Ebi. cbn [onres rd]. rewrite Cbi, Ebj. cbn [onres rd]. rewrite Cbj, !Q1 by auto. rewrite SS. fold c. rewrite E2. split; [reflexivity|]. split.
    + intros k Hk. rewrite B3; [reflexivity|]. rewrite sR. apply P_Mat.in1. auto.
    + intros p Hp. rewrite B4, B2; [reflexivity| |]; intros k Hk; apply Hp; cbn; auto.
Qed.
Lemma pull_ext : forall Ms Ms' X X' i j k, (forall i, 0 <= i < n -> Ms i = Ms' i) -> same_for n d X X' -> 0 <= i < n -> 0 <= j < n -> 0 <= k < d -> pull Ms X i j k = pull Ms' X' i j k.
Proof.
  intros Ms Ms' X X' i j k HM HX Hi Hj Hk. unfold P_Newton.pull. rewrite !HM, !(HX i k), !(HX j k) by auto. replace (square add sub mul zero d X i j) with (square add sub mul zero d X' i j); [reflexivity|].
  unfold square. f_equal. apply map_ext_in. intros k' Hk'. apply L_Spec.in_zrange in Hk'. rewrite !HX by auto. reflexivity.
Qed.
Lemma accel_ext : forall Ms Ms' X X' i k, (forall i, 0 <= i < n -> Ms i = Ms' i) -> same_for n d X X' -> 0 <= i < n -> 0 <= k < d -> accel Ms X i k = accel Ms' X' i k.
Proof. intros Ms Ms' X X' i k HM HX Hi Hk. unfold P_Newton.accel. f_equal. apply map_ext_in. intros j Hj. apply L_Spec.in_zrange in Hj. rewrite (pull_ext Ms Ms' X X'), HM by auto. reflexivity. Qed.
Lemma faster_ext : forall Ms Ms' X X' V V', (forall i, 0 <= i < n -> Ms i = Ms' i) -> same_for n d X X' -> same_for n d V V' -> same_for n d (faster Ms X V) (faster Ms' X' V').
Proof. intros Ms Ms' X X' V V' HM HX HV i k Hi Hk. unfold P_Newton.faster. rewrite HV, (accel_ext Ms Ms' X X') by auto. reflexivity. Qed.
Lemma advance_ext : forall Ms Ms' s s', (forall i, 0 <= i < n -> Ms i = Ms' i) -> same_for n d (fst s) (fst s') -> same_for n d (snd s) (snd s') ->
  same_for n d (fst (advance Ms s)) (fst (advance Ms' s')) /\ same_for n d (snd (advance Ms s)) (snd (advance Ms' s')).
Proof.
  intros Ms Ms' s s' HM HX HV. unfold P_Newton.advance. cbn [fst snd]. split; [|apply faster_ext; auto]. intros i k Hi Hk. rewrite HX, (faster_ext Ms Ms' (fst s) (fst s') (snd s) (snd s')) by auto. reflexivity.
Qed.

Lemma forces_ok : forall (m : mem T), exists m', forces n m = Ok None m' /\
  (forall i j k, 0 <= i < n -> 0 <= j < n -> 0 <= k < d -> m' (vplace F [i; j; k]) = pull (mass_of m) (rows x m) i j k) /\ forall p, off [F; tD; tR] p -> m' p = m p.
Proof.
  intros m. pose proof s_F as sF. assert (N1 : nonneg [d]) by (constructor; [lia|constructor]). assert (N2 : nonneg [n; n]) by (constructor; [lia|constructor; [lia|constructor]]).
  assert (Wb : wf (bodies (T:=T) n)) by (cbn; split; [lia|]; constructor; [left; exact Hn|constructor]).
  assert (Sb : shape_is (bodies (T:=T) n) [n]).
  { split; [reflexivity|]. intros k Hk. cbn in Hk. assert (k = 0%nat) by lia. subst k. cbn. split; [lia|]. split; [left; auto|]. constructor; [auto|constructor]. }
  unfold M_Newton.forces. destruct (C26_bounded _ _ (force_op fi zi add sub mul div zero pw G ms x tD tR) [bodies n; bodies n] [[n]; [n]]) as (e & Ee & We & Se); [discriminate|auto|auto|].
  destruct (C26_outer _ _ (force_op fi zi add sub mul div zero pw G ms x tD tR) [bodies n; bodies n] [[n]; [n]]) as (e' & Ee' & _ & _ & El); [discriminate|auto|constructor; [apply shape_extents; auto|constructor; [apply shape_extents; auto|constructor]]|].
  rewrite Ee in Ee'. injection Ee' as <-. rewrite Ee. cbn [concat app] in Se.
  assert (RF : vrank F = 3%nat) by (rewrite vrank_shape, sF; reflexivity).
  assert (WF : wf (itern (T:=T) 1 F)). { unfold itern. cbn [wf]. split; [unfold vrank; lia|]. apply ok_lens. rewrite <- firstn_map. change (map len (vdv F)) with (vshape F). rewrite sF, RF. exact N2. }
  assert (SF : shape_is (itern (T:=T) 1 F) [n; n]).
  { unfold itern. rewrite RF. cbn [Nat.sub]. unfold vshape in sF. destruct (vdv F) as [|d0 [|d1 [|d2 [|? ?]]]]; try discriminate. injection sF as F0 F1 F2.
    split; [reflexivity|]. intros k Hk. cbn [axes] in Hk. destruct k as [|[|k]]; [| |lia]; cbn [leaf_lens Nat.ltb Nat.leb nth]; rewrite ?F0, ?F1; (split; [lia|]; split; [left; auto|]; constructor; [auto|constructor]). }
  assert (WM : wf (Map (cell_put fi zi) [itern (T:=T) 1 F; e])) by (apply wf_map; [discriminate|auto]).
  assert (SM : shape_is (Map (cell_put fi zi) [itern (T:=T) 1 F; e]) [n; n]).
  { apply joint_shape_map. apply (joint_cover _ _ _ e); [right; left; auto|auto|]. apply Forall_cons; [apply inner_whole; auto|]. apply Forall_cons; [apply inner_whole; auto|constructor]. }
  rewrite (ply_spec _ _ _ no_stop fixed z _ [n; n] (indices [n; n]) WM SM (row_major_indices _) Hz). rewrite visit_each.
  set (Inv := fun (l : list (list Z)) (m' : mem T) => (forall i j k, In [i; j] l -> 0 <= i < n -> 0 <= j < n -> 0 <= k < d -> m' (vplace F [i; j; k]) = pull (mass_of m) (rows x m) i j k) /\ forall p, off [F; tD; tR] p -> m' p = m p).
  destruct (each_inv _ _ (element (Map (cell_put fi zi) [itern (T:=T) 1 F; e])) Inv (indices [n; n]) [] m) as (m' & E & I1 & I2).
  - split; [intros i j k []|auto].
  - cbn [app]. intros l ix l' m1 Eix (I1 & I2). destruct (row_major_split _ _ _ _ _ (row_major_indices [n; n]) Eix) as (Hix & _). apply P_Mat.in2e in Hix as (i & j & -> & Hi & Hj).
    assert (XX : same_for n d (rows x m1) (rows x m)).
    { intros i0 k0 Hi0 Hk0. apply I2. intros y [<-|[<-|[<-|[]]]] iy Hiy; [assert (Q : P_Cells.separate x F) by sp|assert (Q : P_Cells.separate x tD) by sp|assert (Q : P_Cells.separate x tR) by sp]; apply Q; auto; rewrite s_x; apply P_Mat.in2; auto. }
    assert (MM : forall i0, 0 <= i0 < n -> mass_of m1 i0 = mass_of m i0).
    { intros i0 Hi0. apply I2. intros y [<-|[<-|[<-|[]]]] iy Hiy; [assert (Q : P_Cells.separate ms F) by sp|assert (Q : P_Cells.separate ms tD) by sp|assert (Q : P_Cells.separate ms tR) by sp]; apply Q; auto; rewrite s_ms; apply P_Mat.in1; auto. }
    destruct (force_ok i j m1 Hi Hj) as (m2 & E2 & V2 & O2).
    set (c := cell_of F 2 [i; j]). assert (Sc : vshape c = [d]) by (apply (cell_of_shape F [n; n] [d]); exact sF).
    assert (Hij : inshape [i; j] [n; n]) by (apply P_Mat.in2; auto).
    assert (Pc : forall k, vplace c k = vplace F (i :: j :: k)) by (intros k; apply (cell_of_place F [n; n] [d] [i; j] k); auto).
    assert (IF : forall k, inshape k [d] -> inshape (i :: j :: k) (vshape F)) by (intros k Hk; rewrite sF; constructor; [auto|constructor; auto]).
    destruct (assign_view fi zi Hzi put c tR m2) as (m3 & E3 & B1 & B2).
    { rewrite Sc. apply s_R. }
    { rewrite Sc. auto. }
    { intros k k' Hk Hk' Ek. rewrite !Pc in Ek. rewrite Sc in Hk, Hk'. assert (Q : apart_at F) by (apply ap; cbn; tauto). apply Q in Ek; auto. congruence. }
    { intros k k' Hk Hk'. rewrite Pc. rewrite Sc in Hk. assert (Q : P_Cells.separate F tR) by sp. apply Q; auto. }
    exists (inl c), m3. split.
    + cbn [element map].
      erewrite (in_order_2 _ (item (T:=T)) _ _ m1 (inl c : item (T:=T)) m1 (inl tR) m2).
      * cbn [cell_put]. unfold bind. rewrite E3. reflexivity.
      * unfold itern. cbn [element]. rewrite RF. cbn [Nat.sub firstn]. reflexivity.
      * change [i; j] with (concat [[i]; [j]]). rewrite (El [[i]; [j]] m1) by (constructor; [reflexivity|constructor; [reflexivity|constructor]]). cbn. unfold bind. rewrite !Z.add_0_r, !Z.mul_1_r, E2. reflexivity.
    + rewrite Sc in B1, B2. split.
      * intros i0 j0 k0 Hin Hi0 Hj0 Hk0. destruct (list_eq_dec Z.eq_dec [i0; j0] [i; j]) as [Eij|Nij].
        -- injection Eij as -> ->. rewrite <- (Pc [k0]), B1 by (apply P_Mat.in1; auto). unfold put. rewrite V2 by auto. apply pull_ext; auto.
        -- apply in_app_iff in Hin as [Hin|[Hin|[]]]; [|congruence]. rewrite B2, O2; [apply I1; auto| |].
           ++ intros y [<-|[<-|[]]] iy Hiy; [assert (Q : P_Cells.separate F tD) by sp|assert (Q : P_Cells.separate F tR) by sp]; (apply Q; auto; rewrite sF; constructor; [auto|apply P_Mat.in2; auto]).
           ++ intros k Hk Ek. rewrite Pc in Ek. assert (Q : apart_at F) by (apply ap; cbn; tauto). apply Q in Ek; [|rewrite sF; constructor; [auto|apply P_Mat.in2; auto]|auto]. congruence.
      * intros p Hp. rewrite B2, O2, I2; [reflexivity|auto| |].
        -- intros y [<-|[<-|[]]] iy Hiy; apply Hp; cbn; auto.
        -- intros k Hk. rewrite Pc. apply (Hp F); cbn; auto.
  - rewrite E. exists m'. split; [reflexivity|]. split; [|auto]. intros i j k Hi Hj Hk. apply I1; auto. apply in_indices. apply P_Mat.in2. auto.
Qed.
Lemma turned : exists Ft, transpose F [0; 2; 1] = Good Ft /\ vshape Ft = [n; d; n] /\ forall i k j, vplace Ft [i; k; j] = vplace F [i; j; k].
Proof.
  pose proof s_F as sF. unfold vshape in sF. destruct F as [dv p] eqn:EF. cbn [vdv] in sF. destruct dv as [|d0 [|d1 [|d2 [|? ?]]]]; try discriminate. injection sF as F0 F1 F2.
  destruct (transpose_perm (Vw [d0; d1; d2] p) [0; 2; 1]) as (b & Eb & Rb & Cb & Nb).
  - unfold axis_permutation. cbn. apply perm_skip. apply perm_swap.
  - exists b. split; [exact Eb|]. cbn [vrank vdv length] in Rb, Nb. destruct b as [bv q]. cbn [vcp] in Cb. subst q. unfold vrank in Rb. cbn [vdv] in Rb, Nb. destruct bv as [|b0 [|b1 [|b2 [|? ?]]]]; try discriminate.
    pose proof (Nb 0%nat ltac:(lia)) as A0. pose proof (Nb 1%nat ltac:(lia)) as A1. pose proof (Nb 2%nat ltac:(lia)) as A2. change (b0 = d0) in A0. change (b2 = d1) in A1. change (b1 = d2) in A2. subst b0 b1 b2.
    split; [unfold vshape; cbn; congruence|]. intros i k j. unfold vplace. cbn [vcp vdv place]. lia.
Qed.
Lemma accumulate : forall (m : mem T) Ft, vshape Ft = [n; d; n] -> (forall i k j, vplace Ft [i; k; j] = vplace F [i; j; k]) ->
  exists m', assign fixed z add (viter a) (times div (viter Ft) (viter ms)) m = Ok None m' /\
    becomes a (fun ix => fold_left add (map (fun j => div (m (vplace F [nth 0 ix 0; j; nth 1 ix 0])) (mass_of m (nth 0 ix 0))) (zrange n)) (m (vplace a ix))) m m'.
Proof.
  intros m Ft St Pt. pose proof s_a as sa. pose proof s_ms as sm. pose proof s_F as sF.
  assert (N1 : nonneg [n]) by (constructor; [lia|constructor]). assert (N2 : nonneg [n; d]) by (constructor; [lia|constructor; [lia|constructor]]). assert (N3 : nonneg [n; d; n]) by (constructor; [lia|constructor; [lia|auto]]).
  destruct (view_shape (T:=T) Ft _ St N3) as (Wt & Sht). destruct (view_shape (T:=T) a _ sa N2) as (Wa & Sha). destruct (view_shape (T:=T) ms _ sm N1) as (Wm & Shm).
  assert (It : inner (times div (viter Ft) (viter ms)) [n; d; n]).
  { apply inner_map. apply Forall_cons; [apply inner_whole; auto|]. apply Forall_cons; [apply (inner_shape _ _ [n] [d; n]); auto|constructor]. }
  unfold assign. destruct (loop_scatter fixed z Hz _ (Map (assign_op add) [viter a; times div (viter Ft) (viter ms)]) add [n; d; n] (fun j => vplace a (firstn 2 j)) (fun j => div (m (vplace F [nth 0 j 0; nth 2 j 0; nth 1 j 0])) (mass_of m (nth 0 j 0))) m) as (m' & E1 & E2).
  - apply wf_map; [discriminate|]. apply Forall_cons; [auto|]. apply Forall_cons; [apply times_wf; auto|constructor].
  - apply joint_shape_map. apply (joint_cover _ _ _ (times div (viter Ft) (viter ms))); [right; left; auto| |].
    + apply joint_shape_map. apply (joint_cover _ _ _ (viter Ft)); [left; auto|auto|]. apply Forall_cons; [apply inner_whole; auto|]. apply Forall_cons; [apply (inner_shape _ _ [n] [d; n]); auto|constructor].
    + apply Forall_cons; [apply (inner_shape _ _ [n; d] [n]); auto|]. apply Forall_cons; [auto|constructor].
  - intros ix m1 Hix Hm1. apply P_Mat.in3 in Hix as (i & k & j & -> & Hi & Hk & Hj).
    assert (Q : forall p, off [a] p -> m1 p = m p).
    { intros p Hp. apply Hm1. intros j' Hj'. apply P_Mat.in3 in Hj' as (i' & k' & l' & -> & Hi' & Hk' & Hl'). apply (Hp a); [left; auto|]. rewrite sa. apply P_Mat.in2. auto. }
    exists VUnit. cbn [element map times]. rewrite (in_order_2 _ _ _ _ m1 (VRef (vplace a [i; k])) m1 (VT (div (m (vplace F [i; j; k])) (mass_of m i))) m1).
    + cbn [assign_op op2]. unfold bind. cbn [rd]. reflexivity.
    + rewrite viter_element. rewrite vrank_shape, sa. reflexivity.
    + rewrite (in_order_2 _ _ _ _ m1 (VRef (vplace F [i; j; k])) m1 (VRef (vplace ms [i])) m1).
      * cbn [mul_op op2]. unfold bind. cbn [rd ret]. rewrite !Q; [reflexivity| |]; intros y [<-|[]] iy Hiy.
        -- assert (S : P_Cells.separate ms a) by sp. apply S; auto. rewrite sm. apply P_Mat.in1. auto.
        -- assert (S : P_Cells.separate F a) by sp. apply S; auto. rewrite sF. constructor; [auto|apply P_Mat.in2; auto].
      * rewrite viter_element, vrank_shape, St. cbn [length firstn]. rewrite Pt. reflexivity.
      * rewrite viter_element, vrank_shape, sm. reflexivity.
  - exists m'. split; [exact E1|]. split.
    + rewrite sa. intros ix Hix. rewrite E2. rewrite (filter_front [n; d] [n] ix Hix).
      * rewrite indices_1, !map_map. apply P_Mat.in2e in Hix as (i & k & -> & Hi & Hk). reflexivity.
      * intros i' j' Hi' Hj'. rewrite Z.eqb_eq. assert (L : firstn 2 (i' ++ j') = i') by (apply (front i' j' [n; d]); auto). rewrite L. split; [|intros ->; auto]. intros E. assert (Q : apart_at a) by (apply ap; cbn; tauto). apply Q; auto; rewrite sa; auto.
    + rewrite sa. intros p Hp. rewrite E2, filter_none; [reflexivity|]. intros y Hy. apply in_indices in Hy. apply P_Mat.in3 in Hy as (i & k & j & -> & Hi & Hk & Hj). apply Z.eqb_neq. intros E. apply (Hp [i; k]); [apply P_Mat.in2; auto|]. auto.
Qed.
(* y += w*delta *)
Lemma increase : forall y w (m : mem T), In y [x; v] -> vshape y = [n; d] -> vshape w = [n; d] -> P_Cells.separate y w ->
  exists m', assign fixed z add (viter y) (times mul (viter w) (Scalar (VT delta))) m = Ok None m' /\ becomes y (fun ix => add (m (vplace y ix)) (mul (m (vplace w ix)) delta)) m m'.
Proof.
  intros y w m Hy Sy Sw Sp. assert (N2 : nonneg [n; d]) by (constructor; [lia|constructor; [lia|constructor]]). destruct (view_shape (T:=T) w _ Sw N2) as (Ww & Shw).
  apply (assign_to fixed z Hz add y (times mul (viter w) (Scalar (VT delta))) [n; d] (fun ix => mul (m (vplace w ix)) delta)); auto.
  - apply ap. cbn in *. tauto.
  - apply times_wf; [auto|exact I].
  - apply inner_map. apply Forall_cons; [apply inner_whole; auto|]. apply Forall_cons; [apply inner_scalar|constructor].
  - intros m1 Hm1. apply (times_reads mul (viter w) (Scalar (VT delta)) [n; d] m1 (fun ix => m (vplace w ix)) (fun _ => delta)); [|apply scalar_reads; reflexivity].
    apply (view_reads w y); auto; [|rewrite Sy; auto]. intros i j Hi Hj. apply Sp; auto. rewrite Sw. auto.
Qed.
Theorem C127_step : forall (m : mem T), exists m', step_ n m = Ok None m' /\
  same_for n d (rows x m') (fst (advance (mass_of m) (rows x m, rows v m))) /\ same_for n d (rows v m') (snd (advance (mass_of m) (rows x m, rows v m))) /\
  forall p, off [x; v; a; F; tD; tR] p -> m' p = m p.
Proof.
  intros m. pose proof s_a as sa. pose proof s_x as sx. pose proof s_v as sv. assert (N2 : nonneg [n; d]) by (constructor; [lia|constructor; [lia|constructor]]).
  destruct (forces_ok m) as (m1 & E1 & F1 & O1). destruct turned as (Ft & Et & St & Pt).
  destruct (assign_to fixed z Hz put a (Scalar (VT zero)) [n; d] (fun _ => zero) m1 sa N2) as (m2 & E2 & B2 & O2); [apply ap; cbn; tauto|exact I|apply inner_scalar|intros m2 _; apply scalar_reads; reflexivity|].
  destruct (accumulate m2 Ft St Pt) as (m3 & E3 & B3 & O3).
  destruct (increase v a m3) as (m4 & E4 & B4 & O4); [cbn; tauto|auto|auto|sp|].
  destruct (increase x v m4) as (m5 & E5 & B5 & O5); [cbn; tauto|auto|auto|sp|].
  rewrite sa in B2, O2, B3, O3. rewrite sv in B4, O4. rewrite sx in B5, O5.
  assert (K2 : forall p, off [a; F; tD; tR] p -> m2 p = m p). { intros p Hp. rewrite O2, O1; [reflexivity| |]. - intros y Hy. apply Hp. cbn in *. tauto. - intros i Hi. apply (Hp a); [cbn; tauto|rewrite sa; auto]. }
  assert (K3 : forall p, off [a; F; tD; tR] p -> m3 p = m p). { intros p Hp. rewrite O3, K2; auto. intros i Hi. apply (Hp a); [cbn; tauto|rewrite sa; auto]. }
  assert (OX : forall y i, inshape i (vshape y) -> P_Cells.separate y a -> P_Cells.separate y F -> P_Cells.separate y tD -> P_Cells.separate y tR -> off [a; F; tD; tR] (vplace y i)).
  { intros y i Hi S1 S2 S3 S4 w [<-|[<-|[<-|[<-|[]]]]] j Hj; [apply S1|apply S2|apply S3|apply S4]; auto. }
  assert (Xa : forall i k, 0 <= i < n -> 0 <= k < d -> m3 (vplace x [i; k]) = m (vplace x [i; k])). { intros i k Hi Hk. apply K3. apply OX; [rewrite sx; apply P_Mat.in2; auto| | | |]; sp. }
  assert (Va : forall i k, 0 <= i < n -> 0 <= k < d -> m3 (vplace v [i; k]) = m (vplace v [i; k])). { intros i k Hi Hk. apply K3. apply OX; [rewrite sv; apply P_Mat.in2; auto| | | |]; sp. }
  assert (Aa : forall i k, 0 <= i < n -> 0 <= k < d -> m3 (vplace a [i; k]) = accel (mass_of m) (rows x m) i k).
  { intros i k Hi Hk. rewrite B3 by (apply P_Mat.in2; auto). rewrite B2 by (apply P_Mat.in2; auto). unfold put. cbn [nth]. unfold P_Newton.accel. f_equal. apply map_ext_in. intros j Hj. apply L_Spec.in_zrange in Hj.
    f_equal; [|apply K2; apply OX; [rewrite s_ms; apply P_Mat.in1; auto| | | |]; sp]. rewrite O2; [apply F1; auto|]. intros ix Hix. assert (Q : P_Cells.separate F a) by sp. apply Q; [rewrite s_F; constructor; [auto|apply P_Mat.in2; auto]|rewrite sa; auto]. }
  assert (V4 : forall i k, 0 <= i < n -> 0 <= k < d -> m4 (vplace v [i; k]) = faster (mass_of m) (rows x m) (rows v m) i k).
  { intros i k Hi Hk. rewrite B4 by (apply P_Mat.in2; auto). rewrite Va, Aa by auto. reflexivity. }
  exists m5. unfold M_Newton.step_, bind. rewrite E1, E2, Et. cbn [onres]. rewrite E3, E4, E5. split; [reflexivity|]. unfold P_Newton.advance. cbn [fst snd]. split; [|split].
  - intros i k Hi Hk. unfold rows at 1. rewrite B5 by (apply P_Mat.in2; auto). rewrite V4 by auto. f_equal. rewrite O4; [apply Xa; auto|]. intros j Hj. assert (Q : P_Cells.separate x v) by sp. apply Q; [rewrite sx; apply P_Mat.in2; auto|rewrite sv; auto].
  - intros i k Hi Hk. unfold rows at 1. rewrite O5; [apply V4; auto|]. intros j Hj. assert (Q : P_Cells.separate v x) by sp. apply Q; [rewrite sv; apply P_Mat.in2; auto|rewrite sx; auto].
  - intros p Hp. rewrite O5, O4, K3; [reflexivity| | |].
    + intros y Hy. apply Hp. cbn in *. tauto.
    + intros i Hi. apply (Hp v); [cbn; tauto|rewrite sv; auto].
    + intros i Hi. apply (Hp x); [cbn; tauto|rewrite sx; auto].
Qed.
Theorem C127_steps : forall k (m : mem T), exists m', steps_ n k m = Ok None m' /\
  same_for n d (rows x m') (fst (Nat.iter k (advance (mass_of m)) (rows x m, rows v m))) /\ same_for n d (rows v m') (snd (Nat.iter k (advance (mass_of m)) (rows x m, rows v m))) /\
  forall p, off [x; v; a; F; tD; tR] p -> m' p = m p.
Proof.
  induction k as [|k IH]; intros m.
  - exists m. cbn. unfold same_for. auto.
  - destruct (C127_step m) as (m1 & E1 & X1 & V1 & O1). destruct (IH m1) as (m2 & E2 & X2 & V2 & O2). exists m2. cbn [M_Newton.steps_]. unfold bind. rewrite E1. split; [exact E2|].
    assert (MM : forall i, 0 <= i < n -> mass_of m1 i = mass_of m i).
    { intros i Hi. apply O1. intros y Hy j Hj. assert (Q : P_Cells.separate ms y) by (cbn in Hy; repeat destruct Hy as [<-|Hy]; try sp; contradiction). apply Q; auto. rewrite s_ms. apply P_Mat.in1. auto. }
    assert (Q : forall l s s', same_for n d (fst s) (fst s') -> same_for n d (snd s) (snd s') -> same_for n d (fst (Nat.iter l (advance (mass_of m1)) s)) (fst (Nat.iter l (advance (mass_of m)) s')) /\ same_for n d (snd (Nat.iter l (advance (mass_of m1)) s)) (snd (Nat.iter l (advance (mass_of m)) s'))).
    { induction l as [|l IHl]; intros s s' H1 H2; [auto|]. cbn [Nat.iter nat_rect]. destruct (IHl s s' H1 H2) as (H3 & H4). apply advance_ext; auto. }
    destruct (Q k (rows x m1, rows v m1) (advance (mass_of m) (rows x m, rows v m)) X1 V1) as (Q1 & Q2).
    assert (C : Nat.iter (S k) (advance (mass_of m)) (rows x m, rows v m) = Nat.iter k (advance (mass_of m)) (advance (mass_of m) (rows x m, rows v m))) by (apply iter_in).
    rewrite C. split; [|split].
    + intros i l Hi Hl0. rewrite X2, Q1 by auto. reflexivity.
    + intros i l Hi Hl0. rewrite V2, Q2 by auto. reflexivity.
    + intros p Hp. rewrite O2, O1; auto.
Qed.
End Newton.

(* ---- in a field ---- *)
Section Laws.
Context {T : Type}.
Variables (zero one : T) (add mul sub : T -> T -> T) (opp : T -> T) (div : T -> T -> T) (inv : T -> T).
Hypothesis Hf : field_theory zero one add mul sub opp div inv eq.
Add Field Tfield5 : Hf.
Declare Scope W_scope.
Delimit Scope W_scope with W.
Infix "+" := add : W_scope.
Infix "*" := mul : W_scope.
Infix "-" := sub : W_scope.
Infix "/" := div : W_scope.
Notation "0" := zero : W_scope.
Variables (pw : T -> T) (G delta : T) (n d : Z) (Ms : Z -> T).
Hypothesis HM : forall i, 0 <= i < n -> Ms i <> zero.
Notation pull := (pull add sub mul div zero pw G d Ms).
Notation accel := (accel add sub mul div zero pw G n d Ms).
Notation faster := (faster add sub mul div zero pw G delta n d Ms).
Notation advance := (advance add sub mul div zero pw G delta n d Ms).
Definition total (l : list Z) (f : Z -> T) : T := fold_left add (map f l) zero.
(* the momentum on axis k, the sum of the positions weighed by the masses, and the angular momentum about the axis normal to k and l *)
Definition momentum (V : Z -> Z -> T) (k : Z) : T := total (zrange n) (fun i => (Ms i * V i k)%W).
Definition weighed_place (X : Z -> Z -> T) (k : Z) : T := total (zrange n) (fun i => (Ms i * X i k)%W).
Definition angular (X V : Z -> Z -> T) (k l : Z) : T := total (zrange n) (fun i => (Ms i * (X i k * V i l - X i l * V i k))%W).

Lemma from_on : forall l c, fold_left add l c = (c + fold_left add l 0)%W.
Proof. induction l as [|x l IH]; intros c; cbn [fold_left]; [ring|]. rewrite IH, (IH (0 + x)%W). ring. Qed.
Lemma total_cons : forall i l f, total (i :: l) f = (f i + total l f)%W.
Proof. intros. unfold total. cbn [map fold_left]. rewrite from_on. ring. Qed.
Lemma total_ext : forall l f g, (forall i, In i l -> f i = g i) -> total l f = total l g.
Proof. intros l f g H. unfold total. f_equal. apply map_ext_in. exact H. Qed.
Lemma total_add : forall l f g, total l (fun i => f i + g i)%W = (total l f + total l g)%W.
Proof. induction l as [|i l IH]; intros f g; [unfold total; cbn; ring|]. rewrite !total_cons, IH. ring. Qed.
Lemma total_scale : forall l c f, total l (fun i => c * f i)%W = (c * total l f)%W.
Proof. induction l as [|i l IH]; intros c f; [unfold total; cbn; ring|]. rewrite !total_cons, IH. ring. Qed.
Lemma total_pairs : forall l f, (forall i, f i i = 0%W) -> (forall i j, (f i j + f j i = 0)%W) -> total l (fun i => total l (f i)) = 0%W.
Proof.
  induction l as [|a l IH]; intros f H0 H1; [reflexivity|]. rewrite total_cons, total_cons, H0. rewrite (total_ext l (fun i => total (a :: l) (f i)) (fun i => f i a + total l (f i))%W) by (intros; apply total_cons).
  rewrite total_add, IH by auto. assert (E : (total l (f a) + total l (fun i => f i a))%W = 0%W).
  { rewrite <- total_add. rewrite (total_ext l _ (fun _ => 0 * 0)%W) by (intros; rewrite H1; ring). rewrite total_scale. ring. }
  transitivity (total l (f a) + total l (fun i => f i a))%W; [ring|exact E].
Qed.
Lemma square_swap : forall X i j, square add sub mul zero d X i j = square add sub mul zero d X j i.
Proof. intros. unfold square. f_equal. apply map_ext. intros k. ring. Qed.
(* the strength of the pull between i and j *)
Lemma pull_form : forall X i j k, i <> j -> pull X i j k = ((X j k - X i k) * (G * Ms i * Ms j * inv (pw (square add sub mul zero d X i j))))%W.
Proof. intros X i j k H. unfold P_Newton.pull. destruct (Z.eqb_spec i j); [contradiction|]. rewrite (Fdiv_def Hf). ring. Qed.
Lemma pull_self : forall X i k, pull X i i k = 0%W.
Proof. intros. unfold P_Newton.pull. rewrite Z.eqb_refl. reflexivity. Qed.
(* the third law *)
Theorem C127_opposite : forall X i j k, (pull X i j k + pull X j i k)%W = 0%W.
Proof.
  intros X i j k. destruct (Z.eq_dec i j) as [->|H]; [rewrite pull_self; ring|]. rewrite (pull_form X i j), (pull_form X j i), (square_swap X j i) by auto. ring.
Qed.
Lemma scaled_accel : forall X i k, 0 <= i < n -> (Ms i * accel X i k)%W = total (zrange n) (fun j => pull X i j k).
Proof. intros X i k Hi. unfold P_Newton.accel. change (fold_left add (map (fun j => (pull X i j k / Ms i)%W) (zrange n)) zero) with (total (zrange n) (fun j => (pull X i j k / Ms i)%W)). rewrite <- total_scale. apply total_ext. intros j _. generalize (pull X i j k). intros p. field. apply HM. exact Hi. Qed.
Theorem C127_momentum : forall X V k, momentum (faster X V) k = momentum V k.
Proof.
  intros X V k. unfold momentum, P_Newton.faster.
  rewrite (total_ext _ _ (fun i => Ms i * V i k + delta * total (zrange n) (fun j => pull X i j k))%W).
  - rewrite total_add, total_scale, total_pairs; [ring|intros; apply pull_self|intros; apply C127_opposite].
  - intros i Hi. apply L_Spec.in_zrange in Hi. rewrite <- scaled_accel by auto. ring.
Qed.
Theorem C127_center : forall X V k, weighed_place (fst (advance (X, V))) k = (weighed_place X k + momentum V k * delta)%W.
Proof.
  intros X V k. unfold P_Newton.advance. cbn [fst snd]. rewrite <- (C127_momentum X V k). unfold weighed_place, momentum.
  rewrite (total_ext _ _ (fun i => Ms i * X i k + delta * (Ms i * faster X V i k))%W) by (intros; ring). rewrite total_add, total_scale. ring.
Qed.
Theorem C127_angular : forall X V k l, angular (fst (advance (X, V))) (snd (advance (X, V))) k l = angular X V k l.
Proof.
  intros X V k l. unfold P_Newton.advance, angular. cbn [fst snd].
  rewrite (total_ext _ _ (fun i => Ms i * (X i k * V i l - X i l * V i k) + delta * total (zrange n) (fun j => X i k * pull X i j l + (opp one * X i l) * pull X i j k))%W).
  - rewrite total_add, total_scale, total_pairs; [ring| |].
    + intros i. rewrite !pull_self. ring.
    + intros i j. destruct (Z.eq_dec i j) as [->|H]; [rewrite !pull_self; ring|]. rewrite !(pull_form X i j), !(pull_form X j i), (square_swap X j i) by auto. ring.
  - intros i Hi. apply L_Spec.in_zrange in Hi. rewrite total_add, !total_scale, <- !scaled_accel by auto. unfold P_Newton.faster. ring.
Qed.
(* places are relative, and so are speeds *)
Theorem C127_relative : forall X V c u i k, fst (advance (fun i k => X i k + c k, fun i k => V i k + u k)%W) i k = (fst (advance (X, V)) i k + (c k + u k * delta))%W /\
  snd (advance (fun i k => X i k + c k, fun i k => V i k + u k)%W) i k = (snd (advance (X, V)) i k + u k)%W.
Proof.
  intros X V c u i k.
  assert (P : forall i j k, pull (fun i k => (X i k + c k)%W) i j k = pull X i j k).
  { intros i0 j0 k0. unfold P_Newton.pull. destruct (i0 =? j0); [reflexivity|]. f_equal; [ring|]. f_equal. f_equal. unfold square. f_equal. apply map_ext. intros k1. ring. }
  assert (A : forall i k, accel (fun i k => (X i k + c k)%W) i k = accel X i k) by (intros; unfold P_Newton.accel; f_equal; apply map_ext; intros; rewrite P; reflexivity).
  unfold P_Newton.advance, P_Newton.faster. cbn [fst snd]. rewrite A. split; ring.
Qed.
End Laws.
(* The program keeps the momentum and the angular momentum, and the center of mass goes on with the same speed. *)
Theorem C127_conserved : forall {T} (zero one : T) add mul sub opp div inv pw G delta n d ms x v a F tD tR fixed z fi zi, field_theory zero one add mul sub opp div inv eq -> zclean z -> zclean zi -> 0 <= n -> 0 < d -> laid_out n d ms x v a F tD tR ->
  forall k m, (forall i, 0 <= i < n -> mass_of ms m i <> zero) -> exists m', steps_ fixed z fi zi add sub mul div zero pw G delta ms x v a F tD tR n k m = Ok None m' /\ forall l, 0 <= l < d ->
    momentum zero add mul n (mass_of ms m) (rows v m') l = momentum zero add mul n (mass_of ms m) (rows v m) l /\
    weighed_place zero add mul n (mass_of ms m) (rows x m') l = Nat.iter k (fun c => add c (mul (momentum zero add mul n (mass_of ms m) (rows v m) l) delta)) (weighed_place zero add mul n (mass_of ms m) (rows x m) l) /\
    forall l', 0 <= l' < d -> angular zero add mul sub n (mass_of ms m) (rows x m') (rows v m') l l' = angular zero add mul sub n (mass_of ms m) (rows x m) (rows v m) l l'.
Proof.
  intros T zero one add mul sub opp div inv pw G delta n d ms x v a F tD tR fixed z fi zi Hf Hz Hzi Hn Hd Hl k m HM. destruct (C127_steps fixed z fi zi Hz Hzi add sub mul div zero pw G delta n d Hn Hd ms x v a F tD tR Hl k m) as (m' & E & X & V & _).
  exists m'. split; [exact E|]. set (Ms := mass_of ms m) in *. set (adv := advance add sub mul div zero pw G delta n d Ms) in *.
  assert (P : forall k s l, momentum zero add mul n Ms (snd (Nat.iter k adv s)) l = momentum zero add mul n Ms (snd s) l).
  { intros k0 s l. induction k0 as [|k0 IH]; [reflexivity|]. rewrite <- IH. cbn [Nat.iter nat_rect]. apply (C127_momentum zero one add mul sub opp div inv Hf pw G delta n d Ms HM). }
  assert (W : forall k s l, weighed_place zero add mul n Ms (fst (Nat.iter k adv s)) l = Nat.iter k (fun c => add c (mul (momentum zero add mul n Ms (snd s) l) delta)) (weighed_place zero add mul n Ms (fst s) l)).
  { intros k0 s l. induction k0 as [|k0 IH]; [reflexivity|]. cbn [Nat.iter nat_rect]. change (nat_rect (fun _ => ?A) s (fun _ => adv) k0) with (Nat.iter k0 adv s). unfold Nat.iter in IH at 2. rewrite <- IH, <- (P k0 s l). destruct (Nat.iter k0 adv s) as [X0 V0]. apply (C127_center zero one add mul sub opp div inv Hf pw G delta n d Ms HM). }
  assert (A : forall k s l l', angular zero add mul sub n Ms (fst (Nat.iter k adv s)) (snd (Nat.iter k adv s)) l l' = angular zero add mul sub n Ms (fst s) (snd s) l l').
  { intros k0 s l l'. induction k0 as [|k0 IH]; [reflexivity|]. rewrite <- IH. change (Nat.iter (S k0) adv s) with (adv (Nat.iter k0 adv s)). destruct (Nat.iter k0 adv s) as [X0 V0]. apply (C127_angular zero one add mul sub opp div inv Hf pw G delta n d Ms HM). }
  intros l Hl0. specialize (P k (rows x m, rows v m) l). specialize (W k (rows x m, rows v m) l). cbn [fst snd] in P, W. rewrite <- W, <- P. split; [|split].
  - unfold momentum. apply total_ext. intros i Hi. apply L_Spec.in_zrange in Hi. rewrite V by auto. reflexivity.
  - unfold weighed_place. apply total_ext. intros i Hi. apply L_Spec.in_zrange in Hi. rewrite X by auto. reflexivity.
  - intros l' Hl'. specialize (A k (rows x m, rows v m) l l'). cbn [fst snd] in A. rewrite <- A. unfold angular. apply total_ext. intros i Hi. apply L_Spec.in_zrange in Hi. rewrite !X, !V by auto. reflexivity.
Qed.

(* ---- the drawing ---- *)
(* body i is drawn in a picture of 50 x 50, where the last one goes over the others; both ways are the same *)
Definition spot {T} (rnd : T -> Z) (X : Z -> Z -> T) (i : Z) : list Z := [Z.max 0 (Z.min 49 (rnd (X i 0))); Z.max 0 (Z.min 49 (rnd (X i 1)))].
Theorem C127_draw : forall {T C} fixed z (rnd : T -> Z) (x orbit c : view) n d w (m : mem T) (mc : mem C), zclean z -> vshape x = [n; d] -> 0 <= n -> 2 <= Z.of_nat w <= d -> vshape orbit = [50; 50] -> apart_at orbit -> vshape c = [n] -> P_Cells.separate orbit c ->
  exists mc', draw fixed z rnd m x w n orbit c mc = Ok None mc' /\
    (forall i, 0 <= i < n -> (forall i', i < i' < n -> spot rnd (rows x m) i' <> spot rnd (rows x m) i) -> mc' (vplace orbit (spot rnd (rows x m) i)) = mc (vplace c [i])) /\
    forall p, (forall i, 0 <= i < n -> p <> vplace orbit (spot rnd (rows x m) i)) -> mc' p = mc p.
Proof.
  intros T C fixed z rnd x orbit c n d w m mc Hz Sx Hn Hw So Ha Sc Hs. unfold draw.
  assert (N1 : nonneg [n]) by (constructor; [lia|constructor]). destruct (view_shape (T:=C) c _ Sc N1) as (Wc & Shc).
  set (b := Cell [Dim n 1] 1 VI 0). set (sp := spot rnd (rows x m)).
  assert (Wb : wf (W:=mem C) b) by (cbn; split; [lia|]; constructor; [left; exact Hn|constructor]).
  assert (Sb : shape_is (W:=mem C) b [n]). { split; [reflexivity|]. intros k Hk. cbn in Hk. assert (k = 0%nat) by lia. subst k. cbn. split; [lia|]. split; [left; auto|]. constructor; [auto|constructor]. }
  assert (MC : forall t, mapc rnd t = Z.max 0 (Z.min 49 (rnd t))). { intros t. unfold mapc. destruct (Z.ltb_spec (rnd t) 0); [lia|]. destruct (Z.ltb_spec 49 (rnd t)); lia. }
  assert (Px : forall i, 0 <= i < n -> exists r, pixel (C:=C) rnd m x w (VI i) = sp i ++ r).
  { intros i Hi. destruct w as [|[|w]]; [lia|lia|]. unfold pixel. cbn [seq map Z.of_nat Pos.of_succ_nat].
    assert (Q : forall k, 0 <= k < d -> indexer (vdv x) (vcp x) [i; k] = Some (vplace x [i; k])).
    { intros k Hk. apply indexer_legal. split; [|reflexivity]. assert (R : vrank x = 2%nat) by (rewrite vrank_shape, Sx; reflexivity). split; [rewrite R; cbn; lia|]. rewrite R. unfold on_axes. cbn [firstn]. rewrite Sx. intros q Hq. cbn in Hq. left. destruct q as [|[|q]]; [| |lia]; cbn [nth]; lia. }
    change (Z.of_nat 0) with 0. change (Z.of_nat 1) with 1. rewrite !Q by lia. rewrite !MC. eexists. unfold sp, spot, rows. cbn [app]. reflexivity. }
  assert (Is : forall i, inshape (sp i) [50; 50]) by (intros i; unfold sp, spot; apply P_Mat.in2; lia).
  assert (Ro : vrank orbit = 2%nat) by (rewrite vrank_shape, So; reflexivity).
  assert (Vo : forall i, 0 <= i < n -> legal orbit (pixel (C:=C) rnd m x w (VI i)) /\ vplace orbit (pixel (C:=C) rnd m x w (VI i)) = vplace orbit (sp i)).
  { intros i Hi. destruct (Px i Hi) as (r & ->). split.
    - split; [rewrite Ro; cbn; lia|]. rewrite Ro. cbn [firstn app sp spot]. unfold on_axes. rewrite So. specialize (Is i). unfold sp, spot in *. apply P_Mat.in2 in Is. intros q Hq. cbn in Hq. left. destruct q as [|[|q]]; [| |lia]; cbn [nth]; lia.
    - unfold vplace. f_equal. destruct orbit as [dv p]. cbn [vdv vcp] in *. unfold vrank in Ro. cbn [vdv] in Ro. destruct dv as [|d0 [|d1 [|? ?]]]; try discriminate. reflexivity. }
  destruct (C75_update C put orbit (pixel rnd m x w) b (viter c) [n] (fun j => pixel (C:=C) rnd m x w (VI (nth 0 j 0))) mc (fun j => mc (vplace c j)) fixed z) as (mc' & E1 & E2); auto.
  - apply (joint_cover _ _ _ b); [left; auto|auto|]. apply Forall_cons; [apply inner_whole; auto|]. apply Forall_cons; [apply inner_whole; auto|constructor].
  - intros j m0 Hj. apply P_Mat.in1e in Hj as (i & -> & Hi). exists (VI i). split; [|reflexivity]. cbn. f_equal. f_equal. lia.
  - intros j Hj. apply P_Mat.in1e in Hj as (i & -> & Hi). apply Vo. auto.
  - intros j m' Hj Hm'. exists (VRef (vplace c j)). rewrite viter_element, vrank_shape, Sc, whole_in by auto. split; [reflexivity|]. cbn. f_equal. apply Hm'. intros j' Hj' _. apply P_Mat.in1e in Hj' as (i' & -> & Hi'). cbn [nth]. rewrite (proj2 (Vo i' Hi')). intros E. symmetry in E. revert E. apply Hs; [rewrite So; apply Is|rewrite Sc; auto].
  - exists mc'. split; [exact E1|]. split.
    + intros i Hi Hlast. rewrite E2, indices_1.
      assert (Z1 : zrange n = zrange i ++ i :: map (fun k => i + 1 + k) (zrange (n - i - 1))).
      { replace n with (i + (1 + (n - i - 1))) at 1 by lia. rewrite zrange_app by lia. f_equal. rewrite zrange_app by lia. change (zrange 1) with [0]. cbn [map app]. rewrite Z.add_0_r. f_equal. rewrite map_map. apply map_ext. intros; lia. }
      rewrite Z1, map_app, filter_app, map_app, fold_left_app. cbn [map filter nth]. rewrite (proj2 (Vo i Hi)), Z.eqb_refl. cbn [map fold_left]. rewrite filter_none; [reflexivity|].
      intros y Hy. apply in_map_iff in Hy as (i' & <- & Hy). apply in_map_iff in Hy as (k & <- & Hk). apply L_Spec.in_zrange in Hk. cbn [nth]. apply Z.eqb_neq. rewrite (proj2 (Vo (i + 1 + k) ltac:(lia))). intros E. apply Ha in E; [|rewrite So; apply Is|rewrite So; apply Is]. apply (Hlast (i + 1 + k)); [lia|]. exact E.
    + intros p Hp. rewrite E2, filter_none; [reflexivity|]. intros y Hy. apply in_indices in Hy. apply P_Mat.in1e in Hy as (i & -> & Hi). cbn [nth]. apply Z.eqb_neq. rewrite (proj2 (Vo i Hi)). intros E. apply (Hp i Hi). auto.
Qed.

(* ---- example: canonical rationals, 2 bodies. The places of x, v, a, F, deltax, the force and the masses are one after the other. The power 3/2 is taken as 1, that has rational results. ---- *)
From Coq Require Import QArith Qcanon.
From Verif Require Import P_Poisson.
Open Scope Z_scope.
Definition nX : view := Vw [Dim 2 3; Dim 3 1] 0.
Definition nV : view := Vw [Dim 2 3; Dim 3 1] 6.
Definition nA : view := Vw [Dim 2 3; Dim 3 1] 12.
Definition nF : view := Vw [Dim 2 9; Dim 2 3; Dim 3 1] 18.
Definition nD : view := Vw [Dim 3 1] 36.
Definition nR : view := Vw [Dim 3 1] 39.
Definition nM : view := Vw [Dim 2 1] 42.
Definition nMem : mem Qc := fun p => qz (nth (Z.to_nat p) ([0; 0; 0; 2; 0; 2] ++ [0; 0; 0; 0; 6; 0] ++ repeat 9 30 ++ [4; 2]) 0).
Definition nRun (k : nat) : out (mem Qc) (option unit) := steps_ false [] true [] Qcplus Qcminus Qcmult Qcdiv (qz 0) (fun s => s) (qz 8) (Q2Qc (1 # 2)) nM nX nV nA nF nD nR 2 k nMem.
Definition nSees (o : out (mem Qc) (option unit)) (l : list Z) := match o with Ok None m => Some (map (fun p => (Qnum (this (m p)), Qden (this (m p)))) l) | _ => None end.
Example ex_newton : nSees (nRun 1) [0; 1; 2; 3; 4; 5; 6; 7; 8; 9; 10; 11] = Some [(1, 1%positive); (0, 1%positive); (1, 1%positive); (0, 1%positive); (3, 1%positive); (0, 1%positive); (2, 1%positive); (0, 1%positive); (2, 1%positive); (-4, 1%positive); (6, 1%positive); (-4, 1%positive)] /\
  nSees (nRun 2) [0; 1; 2; 3; 4; 5; 6; 7; 8; 9; 10; 11] <> nSees (nRun 1) [0; 1; 2; 3; 4; 5; 6; 7; 8; 9; 10; 11].
Proof. split; [vm_compute; reflexivity|vm_compute; discriminate]. Qed.
Example ex_laid : laid_out 2 3 nM nX nV nA nF nD nR /\ (forall i, 0 <= i < 2 -> mass_of nM nMem i <> Q2Qc 0).
Proof.
  split; [repeat (split; [reflexivity|]); split|].
  - repeat (apply Forall_cons; [intros i j Hi Hj|]); [| | | | | |constructor].
    all: cbv [vshape nX nV nA nF nD nR vdv map len] in Hi, Hj.
    1-3: apply P_Mat.in2e in Hi as (i1 & i2 & -> & ? & ?); apply P_Mat.in2e in Hj as (j1 & j2 & -> & ? & ?); unfold vplace; cbn [nX nV nA vcp vdv place step]; intros; assert (i1 = j1) by lia; assert (i2 = j2) by lia; congruence.
    1: apply P_Mat.in3 in Hi as (i1 & i2 & i3 & -> & ? & ? & ?); apply P_Mat.in3 in Hj as (j1 & j2 & j3 & -> & ? & ? & ?); unfold vplace; cbn [nF vcp vdv place step]; intros; assert (i1 = j1) by lia; assert (i2 = j2) by lia; assert (i3 = j3) by lia; congruence.
    all: apply P_Mat.in1e in Hi as (i1 & -> & ?); apply P_Mat.in1e in Hj as (j1 & -> & ?); unfold vplace; cbn [nD nR vcp vdv place step]; intros; assert (i1 = j1) by lia; congruence.
  - assert (R : forall y lo hi, In (y, lo, hi) [(nX, 0, 6); (nV, 6, 12); (nA, 12, 18); (nF, 18, 36); (nD, 36, 39); (nR, 39, 42); (nM, 42, 44)] -> forall i, inshape i (vshape y) -> lo <= vplace y i < hi).
    { intros y lo hi H i Hi. cbn in H. repeat destruct H as [H|H]; try contradiction; injection H as <- <- <-; cbv [vshape nX nV nA nF nD nR nM vdv map len] in Hi.
      1-3: apply P_Mat.in2e in Hi as (i1 & i2 & -> & ? & ?); unfold vplace; cbn [nX nV nA vcp vdv place step]; lia.
      1: apply P_Mat.in3 in Hi as (i1 & i2 & i3 & -> & ? & ? & ?); unfold vplace; cbn [nF vcp vdv place step]; lia.
      all: apply P_Mat.in1e in Hi as (i1 & -> & ?); unfold vplace; cbn [nD nR nM vcp vdv place step]; lia. }
    assert (S : forall y lo hi y' lo' hi', In (y, lo, hi) [(nX, 0, 6); (nV, 6, 12); (nA, 12, 18); (nF, 18, 36); (nD, 36, 39); (nR, 39, 42); (nM, 42, 44)] -> In (y', lo', hi') [(nX, 0, 6); (nV, 6, 12); (nA, 12, 18); (nF, 18, 36); (nD, 36, 39); (nR, 39, 42); (nM, 42, 44)] -> hi <= lo' -> P_Cells.separate y y').
    { intros y lo hi y' lo' hi' H H' Hle i j Hi Hj. pose proof (R _ _ _ H i Hi). pose proof (R _ _ _ H' j Hj). lia. }
    assert (Q : forall l, (forall y lo hi, In (y, lo, hi) l -> In (y, lo, hi) [(nX, 0, 6); (nV, 6, 12); (nA, 12, 18); (nF, 18, 36); (nD, 36, 39); (nR, 39, 42); (nM, 42, 44)]) -> ForallOrdPairs (fun p q => snd p <= snd (fst q)) l -> ForallOrdPairs P_Cells.separate (map (fun p => fst (fst p)) l)).
    { clear R. induction l as [|((y & lo) & hi) l IH]; intros Hin Hp; cbn [map]; constructor; inversion Hp; subst.
      - apply Forall_forall. intros y' Hy'. apply in_map_iff in Hy' as (((y2 & lo') & hi') & <- & H'). cbn [fst snd]. apply (S y lo hi y2 lo' hi'); [apply Hin; left; auto|apply Hin; right; auto|]. match goal with H : Forall _ l |- _ => rewrite Forall_forall in H; specialize (H _ H'); cbn in H; auto end.
      - apply IH; auto. intros; apply Hin; right; auto. }
    apply (Q [(nX, 0, 6); (nV, 6, 12); (nA, 12, 18); (nF, 18, 36); (nD, 36, 39); (nR, 39, 42); (nM, 42, 44)]); [auto|]. repeat (constructor; [repeat (apply Forall_cons; [cbn; lia|]); constructor|]). constructor.
  - intros i Hi. assert (i = 0 \/ i = 1) as [-> | ->] by lia; vm_compute; discriminate.
Qed.
Definition nO : view := Vw [Dim 50 50; Dim 50 1] 0.
Definition nC : view := Vw [Dim 2 1] 2500.
Definition nMc (p : Z) : Z := if p =? 2500 then 7 else if p =? 2501 then 8 else 0.
Definition nDrawn (o : out (mem Z) (option unit)) (l : list Z) : list Z := match o with Ok None mc => map mc l | _ => [] end.
Example ex_draw : (nDrawn (draw false [] (fun q : Qc => Qnum (this q) * 30) nMem nX 2 2 nO nC nMc) [0; 1; 2450; 2451; 2500]) = [7; 0; 8; 0; 7].
Proof. vm_compute. reflexivity. Qed.
Example ex_draw_over : (nDrawn (draw true [] (fun q : Qc => Qnum (this q)) nMem nX 3 2 nO nC nMc) [0; 100; 2500]) = [7; 8; 7].
Proof. vm_compute; reflexivity. Qed.

Print Assumptions C127_step.
Print Assumptions C127_steps.
Print Assumptions C127_opposite.
Print Assumptions C127_momentum.
Print Assumptions C127_center.
Print Assumptions C127_angular.
Print Assumptions C127_relative.
Print Assumptions C127_conserved.
Print Assumptions C127_draw.
