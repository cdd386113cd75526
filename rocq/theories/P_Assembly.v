(* Property C123: the matrices by elements of examples/laplace3d.cc. *)
From Coq Require Import ZArith List Lia Bool Field_theory.
From Verif Require Import Spec L_Spec Spec_Ply Spec_Expr M_Base M_Expr M_Ply M_Val Spec_Val L_Expr L_Agree L_Ply L_Run L_Val P_Reduce M_View Spec_View L_View M_Slice M_Frame M_Mat Spec_Mat P_Mat P_Outer M_Cells P_Cells P_Ref M_Ext P_Ext M_Stencil P_Stencil P_Roll M_Cg Spec_Cg L_Cg P_Cg M_Poisson P_Poisson M_Assembly.
Import ListNotations.
Open Scope Z_scope.

Section Assembly.
Context {T : Type}.
Variables (zero one : T) (add mul sub : T -> T -> T) (opp : T -> T) (div : T -> T -> T) (inv : T -> T) (ltb : T -> T -> bool).
Hypothesis (Hord : ordered zero one add mul sub opp div inv ltb).
Notation vec := (list Z -> T).
Notation ex := (expr (val T) (mem T)).
Let Hf : field_theory zero one add mul sub opp div inv eq := proj1 Hord.
Add Field Tfield4 : Hf.
Declare Scope T_scope.
Delimit Scope T_scope with T.
Infix "+" := add : T_scope.
Infix "*" := mul : T_scope.
Infix "-" := sub : T_scope.
Notation "0" := zero : T_scope.
Notation "1" := one : T_scope.
Notation tot := (tot zero add).
Notation tot_zero := (tot_zero zero one add mul sub opp div inv ltb Hord).
Notation tot_add := (tot_add zero one add mul sub opp div inv ltb Hord).
Notation tot_scale := (tot_scale zero one add mul sub opp div inv ltb Hord).
Notation tot_swap := (tot_swap zero one add mul sub opp div inv ltb Hord).
Notation tot_fold := (tot_fold zero one add mul sub opp div inv ltb Hord).
Variables (fixed : bool) (z zi : list zt).
Hypothesis (Hz : zclean z) (Hzi : zclean zi).

(* ---- an array as subscript ---- *)
Lemma in1n : forall j n, inshape j [n] -> exists i, j = [i] /\ 0 <= i < n.
Proof. intros j n H. apply in1e in H as (i & -> & Hi). eauto. Qed.
Lemma picked_at : forall (v : view) N l, vshape v = [N] -> Forall (fun q => 0 <= q < N) l ->
  exists d : ex, from_u false v [SArr] [iarray l] = Good d /\ wf d /\ shape_is (d : ex) [Z.of_nat (length l)] /\ refers d [Z.of_nat (length l)] (fun j => vplace v [nth (Z.to_nat (nth 0 j 0)) l 0]).
Proof.
  intros v N l Sv Hl. destruct (view1 _ _ Sv) as (d0 & p & -> & Ed). exists (Map (view_op (Vw [d0] p)) [iarray l]). split; [reflexivity|].
  assert (Wi : wf (@iarray T l)) by (split; [cbn; lia|]; apply Forall_cons; [left; cbn [len]; lia|constructor]).
  split; [apply wf_map; [discriminate|]; apply Forall_cons; [exact Wi|constructor]|]. split.
  - split; [reflexivity|]. intros k Hk. cbn in Hk. replace k with 0%nat by lia. cbn. split; [lia|]. split; [auto|]. apply Forall_cons; [auto|constructor].
  - intros j m Hj. apply in1n in Hj as (i & -> & Hi). cbn [element map in_order iarray]. unfold bind, ret. cbn [firstn place step vcp nth].
    replace (0 + (i * 1 + 0)) with i by lia. cbn [view_op M_Frame.ints]. unfold view_op. cbn [M_Frame.ints].
    set (q := nth (Z.to_nat i) l 0). assert (Hq : 0 <= q < N) by (rewrite Forall_forall in Hl; apply Hl; apply nth_In; lia).
    change [cidx q] with (map cidx [q]). rewrite all_indices by (rewrite Sv; apply in1; auto). reflexivity.
Qed.

(* ---- what the matrix is ---- *)
Variables (nv N : Z) (Mv : view) (Mf : Z -> Z -> T) (es : list element_) (bnd : list Z) (h : T).
(* the vertex i of an element *)
Definition vert (e : element_) (i : Z) : Z := nth (Z.to_nat i) (ev e) 0.
(* the product of the matrix of the elements by those of u, row i *)
Definition row_ (e : element_) (u : vec) (i : Z) : T := tot (fun k => (Mf i k * u [vert e k])%T) (zrange nv).
Definition contrib (e : element_) (u : vec) (q : Z) : T := tot (fun i => if vert e i =? q then row_ e u i else zero) (zrange nv).
Definition assembled (u : vec) (q : Z) : T := tot (fun e => contrib e u q) es.
Definition free (j : list Z) : bool := match j with [q] => negb (existsb (Z.eqb q) bnd) | _ => false end.
(* the whole: the sum of the elements, zero at the border, times h *)
Definition matrix (u : vec) : vec := fun j => if free j then match j with [q] => (assembled u q * h)%T | _ => zero end else zero.

(* the places of the element matrix and of the registers *)
Definition mine_M (q : Z) : Prop := exists i k, 0 <= i < nv /\ 0 <= k < nv /\ q = vplace Mv [i; k].
Definition mine_regs (q : Z) : Prop := exists e i, In e es /\ 0 <= i < nv /\ (q = reg1 e + i \/ q = reg2 e + i).
Definition mine (q : Z) : Prop := mine_M q \/ mine_regs q.
Definition ok (m : mem T) : Prop := forall i k, 0 <= i < nv -> 0 <= k < nv -> m (vplace Mv [i; k]) = Mf i k.
Definition good_element (e : element_) : Prop := Z.of_nat (length (ev e)) = nv /\ Forall (fun q => 0 <= q < N) (ev e) /\ NoDup (ev e).
Definition good_regs : Prop := (forall e i j, In e es -> 0 <= i < nv -> 0 <= j < nv -> reg1 e + i <> reg2 e + j) /\ (forall q, mine_regs q -> ~ mine_M q).
Hypothesis (HN : 0 <= N) (Hnv : 0 <= nv) (SM : vshape Mv = [nv; nv]) (Hes : Forall good_element es) (Hbnd : Forall (fun q => 0 <= q < N) bnd).

Lemma ok_steady : steady_ok mine ok.
Proof. intros m m' K H i k Hi Hk. rewrite H; [apply K; auto|]. left. exists i, k. auto. Qed.
Lemma one_of : forall (g : Z -> Z) (f : Z -> T) l i, NoDup l -> In i l -> (forall j, In j l -> g j = g i -> j = i) -> tot (fun j => if g j =? g i then f j else zero) l = f i.
Proof.
  intros g f l i Hd Hi Hg. induction Hd as [|a l Ha Hd IH]; [destruct Hi|]. cbn. destruct Hi as [->|Hi].
  - rewrite Z.eqb_refl. rewrite tot_zero; [ring|]. intros b Hb. destruct (Z.eqb_spec (g b) (g i)) as [E|]; auto. apply Hg in E; [subst; contradiction|right; auto].
  - destruct (Z.eqb_spec (g a) (g i)) as [E|]; [apply Hg in E; [subst; contradiction|left; auto]|]. rewrite IH by (auto; intros; apply Hg; auto; right; auto). ring.
Qed.
Lemma zrange_nodup : forall n, NoDup (zrange n).
Proof. intros n. unfold zrange. apply FinFun.Injective_map_NoDup; [intros x y; lia|apply seq_NoDup]. Qed.
Lemma vert_inj : forall e i j, good_element e -> 0 <= i < nv -> 0 <= j < nv -> vert e i = vert e j -> i = j.
Proof. intros e i j (L & _ & D) Hi Hj E. rewrite (NoDup_nth (ev e) 0) in D. apply D in E; lia. Qed.
Lemma vert_in : forall e i, good_element e -> 0 <= i < nv -> 0 <= vert e i < N.
Proof. intros e i (L & F & _) Hi. rewrite Forall_forall in F. apply F. apply nth_In. lia. Qed.
Lemma contrib_at : forall e u i, good_element e -> 0 <= i < nv -> contrib e u (vert e i) = row_ e u i.
Proof. intros e u i G Hi. apply one_of; [apply zrange_nodup|apply in_zrange; auto|]. intros j Hj E. apply in_zrange in Hj. eapply vert_inj; eauto. Qed.
Lemma contrib_not : forall e u q, (forall i, 0 <= i < nv -> vert e i <> q) -> contrib e u q = zero.
Proof. intros e u q H. apply tot_zero. intros i Hi. apply in_zrange in Hi. destruct (Z.eqb_spec (vert e i) q); [destruct (H i Hi); auto|auto]. Qed.
Lemma row_ext : forall e u v i, good_element e -> same [N] u v -> row_ e u i = row_ e v i.
Proof. intros e u v i G S. apply tot_ext. intros k Hk. apply in_zrange in Hk. rewrite S; auto. apply in1. apply vert_in; auto. Qed.
Lemma contrib_ext : forall e u v q, good_element e -> same [N] u v -> contrib e u q = contrib e v q.
Proof. intros e u v q G S. apply tot_ext. intros i _. rewrite (row_ext e u v); auto. Qed.

Section Views.
Variables (v w : view).
Hypothesis (Cv : clear_of mine v) (Cw : clear_of mine w) (Sv : vshape v = [N]) (Sw : vshape w = [N]) (Aw : apart_at w) (Dwv : P_Cells.separate w v).
(* an element has been added *)
Definition added (e : element_) (m m' : mem T) : Prop :=
  (forall q, 0 <= q < N -> m' (vplace w [q]) = (m (vplace w [q]) + contrib e (at_ m v) q)%T) /\ (forall p, ~ mine p -> (forall q, 0 <= q < N -> p <> vplace w [q]) -> m' p = m p) /\ ok m'.
Lemma w_one : forall p q, 0 <= p < N -> 0 <= q < N -> vplace w [p] = vplace w [q] -> p = q.
Proof. intros p q Hp Hq E. apply Aw in E; [congruence|rewrite Sw; apply in1; auto|rewrite Sw; apply in1; auto]. Qed.
Lemma w_not_mine : forall p q, mine p -> 0 <= q < N -> p <> vplace w [q].
Proof. intros p q Hp Hq ->. apply (Cw [q]); auto. rewrite Sw. apply in1; auto. Qed.
Lemma v_not_w : forall p q, 0 <= p < N -> 0 <= q < N -> vplace v [p] <> vplace w [q].
Proof. intros p q Hp Hq E. apply (Dwv [q] [p]); auto; [rewrite Sw|rewrite Sv]; apply in1; auto. Qed.
(* from the rows of an element *)
Lemma added_rows : forall e m m', good_element e -> (forall i, 0 <= i < nv -> m' (vplace w [vert e i]) = (m (vplace w [vert e i]) + row_ e (at_ m v) i)%T) ->
  (forall p, ~ mine p -> (forall i, 0 <= i < nv -> p <> vplace w [vert e i]) -> m' p = m p) -> ok m' -> added e m m'.
Proof.
  intros e m m' G V O K. split; [|split; auto].
  - intros q Hq. destruct (in_dec Z.eq_dec q (map (vert e) (zrange nv))) as [I|I].
    + apply in_map_iff in I as (i & <- & Hi). apply in_zrange in Hi. rewrite contrib_at by auto. apply V; auto.
    + assert (Nq : forall i, 0 <= i < nv -> vert e i <> q) by (intros i Hi <-; apply I, in_map, in_zrange; auto). rewrite contrib_not by auto. rewrite O; [ring|apply Cw; rewrite Sw; apply in1; auto|].
      intros i Hi E. apply w_one in E; auto; [apply (Nq i); auto|apply vert_in; auto].
  - intros p Hp Hw. apply O; auto. intros i Hi. apply Hw. apply vert_in; auto.
Qed.
Lemma accum_row : forall e m u c i, good_element e -> 0 <= i < nv -> ok m -> accum add c nv (fun k => (m (vplace Mv [i; k]) * u [vert e k])%T) = (c + row_ e u i)%T.
Proof. intros e m u c i G Hi K. unfold accum. rewrite tot_fold. f_equal. apply tot_ext. intros k Hk. apply in_zrange in Hk. rewrite K by auto. reflexivity. Qed.
Lemma mult0_added : forall e m, In e es -> ok m -> exists m', mult0_on fixed z zi add mul Mv v w e m = Ok None m' /\ added e m m'.
Proof.
  intros e m He K. rewrite Forall_forall in Hes. pose proof (Hes e He) as G. pose proof G as (Le & Fe & De).
  unfold mult0_on, picked. destruct (picked_at v N (ev e) Sv Fe) as (b & Eb & Wb & Sb & Rb). destruct (picked_at w N (ev e) Sw Fe) as (c & Ec & Wc & Sc & Rc). rewrite Eb, Ec. cbn [onres]. rewrite Le in *.
  set (pl := fun j => vplace w [nth (Z.to_nat (nth 0 j 0)) (ev e) 0]) in *.
  assert (Hpl : forall j, inshape j [nv] -> exists i, j = [i] /\ 0 <= i < nv /\ pl j = vplace w [vert e i]) by (intros j Hj; apply in1n in Hj as (i & -> & Hi); exists i; auto).
  assert (Out : forall p, (forall q, 0 <= q < N -> p <> vplace w [q]) -> Spec_Mat.outside pl [nv] p) by (intros p Hp j Hj; destruct (Hpl j Hj) as (i & -> & Hi & ->); apply Hp; apply vert_in; auto).
  destruct (C34_gemv_e add mul Mv b c nv nv m (fun j => m (vplace v [vert e (nth 0 j 0)])) pl fixed z zi) as (m' & E & V & O); auto.
  - intros i j Hi Hj Q. destruct (Hpl i Hi) as (x & -> & Hx & Ex), (Hpl j Hj) as (y & -> & Hy & Ey). rewrite Ex, Ey in Q. apply w_one in Q; try (apply vert_in; auto). f_equal. eapply vert_inj; eauto.
  - intros i Hi. apply Out. intros q Hq. rewrite SM in Hi. apply in2e in Hi as (x & y & -> & Hx & Hy). apply w_not_mine; auto. left. exists x, y. auto.
  - intros m1 j Hm Hj. exists (VRef (vplace v [nth (Z.to_nat (nth 0 j 0)) (ev e) 0])). split; [apply Rb; auto|]. intros m2 Hm2. cbn [value_of]. f_equal. apply Hm2. apply Out. intros q Hq. apply in1n in Hj as (i & -> & Hi). apply v_not_w; auto. apply (vert_in e i); auto.
  - exists m'. split; [exact E|]. apply added_rows; auto.
    + intros i Hi. change (vplace w [vert e i]) with (pl [i]). rewrite V by auto. apply (accum_row e m (at_ m v)); auto.
    + intros p Hp Hi. apply O. intros j Hj. destruct (Hpl j Hj) as (i & -> & Hi' & ->). auto.
    + apply (ok_steady m); auto. intros q Hq. apply O. apply Out. intros q' Hq'. apply w_not_mine; auto.
Qed.
Lemma mult1_added : good_regs -> forall e m, In e es -> ok m -> exists m', mult1_on fixed z zi add mul zero nv Mv v w e m = Ok None m' /\ added e m m'.
Proof.
  intros (Rd & RM) e m He K. rewrite Forall_forall in Hes. pose proof (Hes e He) as G. pose proof G as (Le & Fe & De).
  unfold mult1_on, picked, bind. destruct (picked_at v N (ev e) Sv Fe) as (b & Eb & Wb & Sb & Rb). destruct (picked_at w N (ev e) Sw Fe) as (c & Ec & Wc & Sc & Rc). rewrite Eb, Ec. cbn [onres]. rewrite Le in *.
  set (r1 := reg nv (reg1 e)). set (r2 := reg nv (reg2 e)). assert (S1 : vshape r1 = [nv]) by reflexivity. assert (S2 : vshape r2 = [nv]) by reflexivity. assert (Nn : nonneg [nv]) by (apply Forall_cons; [auto|constructor]).
  assert (P1 : forall i, vplace r1 [i] = reg1 e + i) by (intros i; unfold vplace; cbn [r1 reg vcp vdv place step]; lia). assert (P2 : forall i, vplace r2 [i] = reg2 e + i) by (intros i; unfold vplace; cbn [r2 reg vcp vdv place step]; lia).
  assert (I1 : forall i, 0 <= i < nv -> mine_regs (vplace r1 [i])) by (intros i Hi; exists e, i; auto). assert (I2 : forall i, 0 <= i < nv -> mine_regs (vplace r2 [i])) by (intros i Hi; exists e, i; auto).
  assert (A1 : apart_at r1) by (intros i j Hi Hj E; apply in1n in Hi as (x & -> & Hx), Hj as (y & -> & Hy); rewrite !P1 in E; f_equal; lia). assert (A2 : apart_at r2) by (intros i j Hi Hj E; apply in1n in Hi as (x & -> & Hx), Hj as (y & -> & Hy); rewrite !P2 in E; f_equal; lia).
  assert (Vm : forall q, 0 <= q < N -> ~ mine_regs (vplace v [q])) by (intros q Hq Hm; apply (Cv [q]); [rewrite Sv; apply in1; auto|right; auto]).
  assert (Wm : forall q, 0 <= q < N -> ~ mine_regs (vplace w [q])) by (intros q Hq Hm; apply (Cw [q]); [rewrite Sw; apply in1; auto|right; auto]).
  assert (In1 : forall j, inshape j [nv] -> mine_regs (vplace r1 j)) by (intros j Hj; apply in1n in Hj as (i & -> & Hi); auto). assert (In2 : forall j, inshape j [nv] -> mine_regs (vplace r2 j)) by (intros j Hj; apply in1n in Hj as (i & -> & Hi); auto).
  (* reg1 *)
  destruct (assign_to fixed z Hz put r1 b [nv] (fun j => m (vplace v [vert e (nth 0 j 0)])) m) as (m1 & E1 & V1 & O1); auto; [apply inner_whole; auto| |].
  { intros mm Hm j Hj. eexists. split; [apply Rb; auto|]. cbn [value_of]. f_equal. apply Hm. intros i Hi E. apply in1n in Hj as (x & -> & Hx). apply (Vm (vert e x)); [apply vert_in; auto|]. apply In1 in Hi. destruct E. exact Hi. }
  rewrite E1. rewrite S1 in V1, O1. cbv beta in V1. unfold put in V1.
  (* reg2 *)
  destruct (assign_to fixed z Hz put r2 (Scalar (VT zero)) [nv] (fun _ => zero) m1) as (m2 & E2 & V2 & O2); auto; [exact I|apply inner_scalar|intros mm Hm j Hj; exists (VT zero); auto|].
  rewrite E2. rewrite S2 in V2, O2. cbv beta in V2. unfold put in V2.
  destruct (view_shape (T:=T) r1 _ S1 Nn) as (W1 & H1). destruct (view_shape (T:=T) r2 _ S2 Nn) as (W2 & H2).
  assert (K12 : forall p, ~ mine_regs p -> m2 p = m p) by (intros p Hp; rewrite O2 by (intros i Hi ->; auto); apply O1; intros i Hi ->; auto).
  assert (R12 : forall i, 0 <= i < nv -> m2 (vplace r1 [i]) = m (vplace v [vert e i])).
  { intros i Hi. rewrite O2; [apply V1; apply in1; auto|]. intros j Hj Q. apply in1n in Hj as (y & -> & Hy). rewrite P1, P2 in Q. apply (Rd e i y); auto. }
  assert (K2 : ok m2) by (intros i k Hi Hk; rewrite K12; [apply K; auto|]; intros Hm; apply (RM _ Hm); exists i, k; auto).
  destruct (C34_gemv_e add mul Mv (viter r1) (viter r2) nv nv m2 (fun j => m2 (vplace r1 j)) (vplace r2) fixed z zi) as (m3 & E3 & V3 & O3); auto.
  { intros j mm Hj. rewrite viter_element, vrank_shape, S2, whole_in by auto. reflexivity. }
  { intros i Hi j Hj Q. rewrite SM in Hi. apply in2e in Hi as (x & y & -> & Hx & Hy). apply (RM (vplace r2 j)); [apply In2; auto|]. exists x, y. auto. }
  { intros mm j Hm Hj. exists (VRef (vplace r1 j)). split; [rewrite viter_element, vrank_shape, S1, whole_in by auto; reflexivity|]. intros m4 H4. cbn [value_of]. f_equal. apply H4. intros i Hi Q. apply in1n in Hi as (y & -> & Hy). apply in1n in Hj as (x & -> & Hx). rewrite P1, P2 in Q. apply (Rd e x y); auto. }
  rewrite E3. set (pl := fun j => vplace w [nth (Z.to_nat (nth 0 j 0)) (ev e) 0]) in *.
  assert (Hpl : forall j, inshape j [nv] -> exists i, j = [i] /\ 0 <= i < nv /\ pl j = vplace w [vert e i]) by (intros j Hj; apply in1n in Hj as (i & -> & Hi); exists i; auto).
  assert (Ipl : forall i j, inshape i [nv] -> inshape j [nv] -> pl i = pl j -> i = j).
  { intros i j Hi Hj Q. destruct (Hpl i Hi) as (x & -> & Hx & Ex), (Hpl j Hj) as (y & -> & Hy & Ey). rewrite Ex, Ey in Q. apply w_one in Q; try (apply vert_in; auto). f_equal. eapply vert_inj; eauto. }
  destruct (assign_ref T add c (viter r2) [nv] m3 pl (fun j => m3 (vplace r2 j)) fixed z) as (m4 & E4 & S4); auto.
  { apply (joint_cover _ _ _ c); [left; auto|auto|]. apply Forall_cons; [apply inner_whole; auto|]. apply Forall_cons; [apply inner_whole; auto|constructor]. }
  { intros j mm Hj U. exists (VRef (vplace r2 j)). split; [rewrite viter_element, vrank_shape, S2, whole_in by auto; reflexivity|]. cbn [value_of]. f_equal. apply U. intros j' Hj' _ Q. destruct (Hpl j' Hj') as (i & -> & Hi & Ei). apply (Wm (vert e i)); [apply vert_in; auto|]. rewrite <- Ei, <- Q. apply In2; auto. }
  destruct (scattered_distinct T add [nv] pl _ m3 m4 S4 Ipl) as (V4 & O4).
  assert (K34 : forall p, ~ mine_regs p -> m3 p = m p) by (intros p Hp; rewrite O3 by (intros i Hi ->; auto); auto).
  exists m4. split; [exact E4|]. apply added_rows; auto.
  - intros i Hi. change (vplace w [vert e i]) with (pl [i]). rewrite V4 by (apply in1; auto). rewrite K34 by (apply (Wm (vert e i)); apply vert_in; auto). f_equal. rewrite V3 by auto. rewrite V2 by (apply in1; auto).
    replace (row_ e (at_ m v) i) with (0 + row_ e (at_ m v) i)%T by ring. rewrite <- (accum_row e m2 (at_ m v) zero i G Hi K2). unfold accum. f_equal. apply map_ext_in. intros k Hk. apply in_zrange in Hk. f_equal. apply R12; auto.
  - intros p Hp Hw. rewrite O4 by (intros j Hj; destruct (Hpl j Hj) as (i & -> & Hi & ->); auto). apply K34. intros Hm. apply Hp. right. auto.
  - intros i k Hi Hk. rewrite O4, K34; [apply K; auto|intros Hm; apply (RM _ Hm); exists i, k; auto|]. intros j Hj. destruct (Hpl j Hj) as (x & -> & Hx & ->). apply w_not_mine; [left; exists i, k; auto|apply vert_in; auto].
Qed.
(* all the elements *)
Lemma all_added : forall f l m, incl l es -> (forall e m, In e es -> ok m -> exists m', f e m = Ok None m' /\ added e m m') -> ok m ->
  exists m', each_element f l m = Ok None m' /\ (forall q, 0 <= q < N -> m' (vplace w [q]) = (m (vplace w [q]) + tot (fun e => contrib e (at_ m v) q) l)%T) /\ (forall p, ~ mine p -> (forall q, 0 <= q < N -> p <> vplace w [q]) -> m' p = m p) /\ ok m'.
Proof.
  intros f l. induction l as [|e l IH]; intros m Hl Hf0 K.
  - exists m. split; [reflexivity|]. split; [|auto]. intros q Hq. cbn. ring.
  - cbn [each_element]. unfold bind. destruct (Hf0 e m) as (m1 & E1 & V1 & O1 & K1); auto; [apply Hl; left; auto|]. rewrite E1.
    destruct (IH m1) as (m2 & E2 & V2 & O2 & K2); auto; [intros x Hx; apply Hl; right; auto|]. exists m2. split; [exact E2|]. split; [|split; [|auto]].
    + intros q Hq. rewrite V2, V1 by auto. cbn [L_Cg.tot]. rewrite (tot_ext zero add _ (fun e0 => contrib e0 (at_ m1 v) q) (fun e0 => contrib e0 (at_ m v) q)).
      * ring.
      * intros e' He'. apply contrib_ext; [rewrite Forall_forall in Hes; apply Hes, Hl; right; auto|]. intros j Hj. apply in1n in Hj as (x & -> & Hx). apply O1; [apply Cv; rewrite Sv; apply in1; auto|]. intros q' Hq'. apply v_not_w; auto.
    + intros p Hp Hw. rewrite O2, O1; auto.
Qed.
Lemma put_all : forall A (l : list A) (c : T), fold_left put (map (fun _ => zero) l) c = match l with [] => c | _ => zero end.
Proof. intros A l. induction l as [|a l IH]; intros c; cbn [map fold_left]; [reflexivity|]. unfold put at 2. rewrite IH. destruct l; reflexivity. Qed.
Lemma free_iff : forall q, free [q] = false <-> In q bnd.
Proof.
  intros q. unfold free. rewrite negb_false_iff, existsb_exists. split; [intros (x & Hx & E); apply Z.eqb_eq in E; subst; auto|]. intros H. exists q. split; auto. apply Z.eqb_refl.
Qed.
Lemma close_spec : forall m, ok m -> exists m', close fixed z mul zero w bnd h m = Ok None m' /\ (forall q, 0 <= q < N -> m' (vplace w [q]) = if free [q] then (m (vplace w [q]) * h)%T else zero) /\ (forall p, (forall q, 0 <= q < N -> p <> vplace w [q]) -> m' p = m p) /\ ok m'.
Proof.
  intros m K. unfold close, picked, bind. destruct (picked_at w N bnd Sw Hbnd) as (c & Ec & Wc & Sc & Rc). rewrite Ec. cbn [onres]. set (nb := Z.of_nat (length bnd)) in *. set (pl := fun j => vplace w [nth (Z.to_nat (nth 0 j 0)) bnd 0]) in *.
  assert (Hpl : forall j, inshape j [nb] -> exists q, In q bnd /\ 0 <= q < N /\ pl j = vplace w [q]).
  { intros j Hj. apply in1n in Hj as (i & -> & Hi). exists (nth (Z.to_nat i) bnd 0). assert (I : In (nth (Z.to_nat i) bnd 0) bnd) by (apply nth_In; unfold nb in Hi; lia). rewrite Forall_forall in Hbnd. auto. }
  destruct (assign_ref T put c (Scalar (VT zero)) [nb] m pl (fun _ => zero) fixed z) as (m1 & E1 & S1); auto; [exact I| | |].
  { apply (joint_cover _ _ _ c); [left; auto|auto|]. apply Forall_cons; [apply inner_whole; auto|]. apply Forall_cons; [apply inner_scalar|constructor]. }
  { intros j mm Hj _. exists (VT zero). auto. }
  rewrite E1. assert (O1 : forall p, (forall j, inshape j [nb] -> p <> pl j) -> m1 p = m p).
  { intros p Hp. rewrite S1, filter_none; auto. intros j Hj. apply in_indices in Hj. apply Z.eqb_neq. intros Q. apply (Hp j); auto. }
  assert (V1 : forall q, 0 <= q < N -> m1 (vplace w [q]) = if free [q] then m (vplace w [q]) else zero).
  { intros q Hq. destruct (free [q]) eqn:Fq.
    - apply O1. intros j Hj. destruct (Hpl j Hj) as (q' & I' & Hq' & ->). intros E. apply w_one in E; auto. subst q'. apply free_iff in I'. congruence.
    - apply free_iff in Fq. rewrite S1, put_all. destruct (In_nth _ _ 0 Fq) as (i & Hi & Ei). destruct (filter _ _) eqn:Ef; auto. exfalso. assert (I : In [Z.of_nat i] (filter (fun j => pl j =? vplace w [q]) (indices [nb]))).
      { apply filter_In. split; [apply in_indices, in1; unfold nb; lia|]. apply Z.eqb_eq. unfold pl. cbn [nth]. rewrite Nat2Z.id, Ei. reflexivity. }
      rewrite Ef in I. destruct I. }
  destruct (assign_own fixed z mul w (Scalar (VT h)) [N] (fun _ => h) m1) as (m2 & E2 & V2 & O2); auto; [apply Forall_cons; [auto|constructor]|exact I|apply inner_scalar|intros; apply gives_scalar|].
  exists m2. split; [exact E2|]. rewrite Sw in V2, O2. assert (Oa : forall p, (forall q, 0 <= q < N -> p <> vplace w [q]) -> m2 p = m p).
  { intros p Hp. rewrite O2 by (intros j Hj; apply in1n in Hj as (q & -> & Hq); auto). apply O1. intros j Hj. destruct (Hpl j Hj) as (q & _ & Hq & ->). auto. }
  split; [|split; auto].
  - intros q Hq. rewrite V2 by (apply in1; auto). rewrite V1 by auto. destruct (free [q]); [reflexivity|ring].
  - apply (ok_steady m); auto. intros q Hq. apply Oa. intros q' Hq'. apply w_not_mine; auto.
Qed.
Lemma mult_by : forall f m, (forall e m, In e es -> ok m -> exists m', f e m = Ok None m' /\ added e m m') -> ok m ->
  exists m', (_ <- assign fixed z put (viter w) (Scalar (VT zero)) ;; _ <- each_element f es ;; close fixed z mul zero w bnd h) m = Ok None m' /\ does mine ok w (matrix (at_ m v)) m m'.
Proof.
  intros f m Hf0 K. destruct (assign_own fixed z put w (Scalar (VT zero)) [N] (fun _ => zero) m) as (m1 & E1 & V1 & O1); auto; [apply Forall_cons; [auto|constructor]|exact I|apply inner_scalar|intros; apply gives_scalar|].
  unfold bind. rewrite E1. rewrite Sw in V1, O1. cbv beta in V1. unfold put in V1. assert (O1' : forall p, (forall q, 0 <= q < N -> p <> vplace w [q]) -> m1 p = m p) by (intros p Hp; apply O1; intros j Hj; apply in1n in Hj as (q & -> & Hq); auto).
  assert (K1 : ok m1) by (apply (ok_steady m); auto; intros q Hq; apply O1'; intros q' Hq'; apply w_not_mine; auto).
  destruct (all_added f es m1 (incl_refl _) Hf0 K1) as (m2 & E2 & V2 & O2 & K2). rewrite E2. destruct (close_spec m2 K2) as (m3 & E3 & V3 & O3 & K3). exists m3. split; [exact E3|]. split; [|split; [|exact K3]].
  - rewrite Sw. intros j Hj. apply in1n in Hj as (q & -> & Hq). rewrite V3 by auto. unfold matrix. destruct (free [q]); auto. f_equal. rewrite V2, V1 by (auto; apply in1; auto). unfold assembled.
    rewrite (tot_ext zero add _ (fun e => contrib e (at_ m1 v) q) (fun e => contrib e (at_ m v) q)); [ring|]. intros e He. apply contrib_ext; [rewrite Forall_forall in Hes; auto|]. intros j Hj. apply in1n in Hj as (x & -> & Hx). apply O1'. intros q' Hq'. apply v_not_w; auto.
  - rewrite Sw. intros p Hp Hw. assert (Hw' : forall q, 0 <= q < N -> p <> vplace w [q]) by (intros q Hq; apply Hw; apply in1; auto). rewrite O3, O2, O1'; auto.
Qed.
Theorem C123_mult0 : forall m, ok m -> exists m', mult0 fixed z zi add mul zero Mv es bnd h v w m = Ok None m' /\ does mine ok w (matrix (at_ m v)) m m'.
Proof. intros m K. apply mult_by; auto. intros e m0. apply mult0_added. Qed.
Theorem C123_mult1 : good_regs -> forall m, ok m -> exists m', mult1 fixed z zi add mul zero nv Mv es bnd h v w m = Ok None m' /\ does mine ok w (matrix (at_ m v)) m m'.
Proof. intros R m K. apply mult_by; auto. intros e m0. apply mult1_added. auto. Qed.
End Views.

(* ---- the matrix ---- *)
Notation ip := (scalar_product zero add mul [N]).
Lemma ip_range : forall u v, ip u v = tot (fun q => (u [q] * v [q])%T) (zrange N).
Proof.
  intros u v. rewrite (ip_tot zero one add mul sub opp div inv ltb Hord). replace (indices [N]) with (map (fun q => [q]) (zrange N)); [rewrite (tot_map zero add); reflexivity|]. cbn [indices map]. generalize (zrange N). intros l. induction l; cbn; [auto|]. f_equal.
Qed.
Theorem C123_linear : linear add mul [N] matrix.
Proof.
  rewrite Forall_forall in Hes. split.
  - intros u v H j Hj. apply in1n in Hj as (q & -> & Hq). unfold matrix. destruct (free [q]); auto. f_equal. apply tot_ext. intros e He. apply contrib_ext; auto.
  - intros u v t j Hj. apply in1n in Hj as (q & -> & Hq). unfold matrix. destruct (free [q]); [|ring].
    assert (R : forall e i, row_ e (fun j => (u j + t * v j)%T) i = (row_ e u i + t * row_ e v i)%T).
    { intros e i. unfold row_. rewrite <- tot_scale, <- tot_add. apply tot_ext. intros. ring. }
    assert (A : assembled (fun j => (u j + t * v j)%T) q = (assembled u q + t * assembled v q)%T); [|rewrite A; ring].
    unfold assembled. rewrite <- tot_scale, <- tot_add. apply tot_ext. intros e He. unfold contrib. rewrite <- tot_scale, <- tot_add. apply tot_ext. intros i Hi. destruct (vert e i =? q); [apply R|ring].
Qed.
Lemma matrix_within : forall u, within zero [N] free (matrix u).
Proof. intros u j Hj E. unfold matrix. rewrite E. reflexivity. Qed.
(* the sum of the energies of the elements *)
Definition energy_ (u v : vec) : T := tot (fun e => tot (fun i => tot (fun k => (Mf i k * (u [vert e k] * v [vert e i]))%T) (zrange nv)) (zrange nv)) es.
Theorem C123_energy : forall u v, within zero [N] free v -> ip (matrix u) v = (h * energy_ u v)%T.
Proof.
  intros u v Hv. rewrite ip_range. transitivity (tot (fun q => (h * tot (fun e => (contrib e u q * v [q])%T) es)%T) (zrange N)).
  - apply tot_ext. intros q Hq. apply in_zrange in Hq. unfold matrix. destruct (free [q]) eqn:F; [|rewrite (Hv [q]) by (auto; apply in1; auto); rewrite tot_zero; [ring|intros; ring]].
    unfold assembled. rewrite (tot_ext zero add _ (fun e => (contrib e u q * v [q])%T) (fun e => (v [q] * contrib e u q)%T)) by (intros; ring). rewrite tot_scale. ring.
  - rewrite tot_scale. f_equal. rewrite tot_swap. apply tot_ext. intros e He. rewrite Forall_forall in Hes. unfold contrib.
    transitivity (tot (fun q => tot (fun i => if q =? vert e i then (row_ e u i * v [q])%T else zero) (zrange nv)) (zrange N)).
    + apply tot_ext. intros q Hq. rewrite (tot_ext zero add _ (fun i => if q =? vert e i then (row_ e u i * v [q])%T else zero) (fun i => (v [q] * (if vert e i =? q then row_ e u i else zero))%T)) by (intros; rewrite Z.eqb_sym; destruct (_ =? _); ring). rewrite tot_scale. ring.
    + rewrite tot_swap. apply tot_ext. intros i Hi. apply in_zrange in Hi. rewrite (one_of (fun q => q) (fun q => (row_ e u i * v [q])%T) (zrange N) (vert e i)); [|apply zrange_nodup|apply in_zrange, vert_in; auto|auto].
      unfold row_. rewrite (tot_ext zero add _ (fun k => (Mf i k * (u [vert e k] * v [vert e i]))%T) (fun k => (v [vert e i] * (Mf i k * u [vert e k]))%T)) by (intros; ring). rewrite tot_scale. ring.
Qed.
Theorem C123_symmetric : (forall i k, 0 <= i < nv -> 0 <= k < nv -> Mf i k = Mf k i) -> symmetric zero add mul [N] free matrix.
Proof.
  intros HM u v Hu Hv. rewrite C123_energy by auto. rewrite (ip_comm zero one add mul sub opp div inv ltb Hord). rewrite C123_energy by auto. f_equal. apply tot_ext. intros e He. rewrite tot_swap. apply tot_ext. intros i Hi. apply tot_ext. intros k Hk. apply in_zrange in Hi. apply in_zrange in Hk. rewrite (HM k i) by auto. ring.
Qed.
Theorem C123_multiplies0 : multiplies zero [N] free matrix (mult0 fixed z zi add mul zero Mv es bnd h) mine ok.
Proof. split; [exact matrix_within|]. intros v w m K Cv Cw Sv Sw Aw D _. apply C123_mult0; auto. Qed.
Theorem C123_multiplies1 : good_regs -> multiplies zero [N] free matrix (mult1 fixed z zi add mul zero nv Mv es bnd h) mine ok.
Proof. intros R. split; [exact matrix_within|]. intros v w m K Cv Cw Sv Sw Aw D _. apply C123_mult1; auto. Qed.
End Assembly.

(* ---- example: two elements of two vertices, 0-1 and 1-2, with the matrix 1 -1 / -1 1; the border is 0 and 2, and 0 is there twice ---- *)
From Coq Require Import QArith Qcanon.
Open Scope Z_scope.
Notation q0 := (Q2Qc 0).
Notation q1 := (Q2Qc 1).
Definition aM : view := Vw [Dim 2 2; Dim 2 1] 0.
Definition aE : list element_ := [El [0; 1] 20 22; El [1; 2] 24 26].
Definition aF (i k : Z) : Qc := if i =? k then qz 1 else qz (-1).
Definition aV : view := Vw [Dim 3 1] 30.
Definition aW : view := Vw [Dim 3 1] 40.
Definition aMem : mem Qc := fun p => if p <? 4 then nth (Z.to_nat p) (map qz [1; -1; -1; 1]) (qz 9) else nth (Z.to_nat (p - 30)) (map qz [5; 7; 11]) (qz 9).
Example ex_good : Forall (good_element 2 3) aE /\ good_regs 2 aM aE /\ Forall (fun q => 0 <= q < 3) [0; 2; 0] /\ ok 2 aM aF aMem /\ vshape aM = [2; 2] /\ clear_of (mine 2 aM aE) aV /\ clear_of (mine 2 aM aE) aW /\ apart_at aW /\ P_Cells.separate aW aV.
Proof.
  assert (PM : forall i k, vplace aM [i; k] = i * 2 + k) by (intros; unfold vplace; cbn [aM vcp vdv place step]; lia).
  assert (MM : forall q, mine_M 2 aM q -> 0 <= q < 4) by (intros q (i & k & Hi & Hk & ->); rewrite PM; lia).
  assert (MR : forall q, mine_regs 2 aE q -> 20 <= q < 28) by (intros q (e & i & [<-|[<-|[]]] & Hi & Q); cbn [reg1 reg2] in Q; lia).
  split; [|split; [|split; [|split; [|split; [|split; [|split; [|split]]]]]]].
  - apply Forall_cons; [|apply Forall_cons; [|constructor]]; (split; [reflexivity|split; [apply Forall_cons; [lia|]; apply Forall_cons; [lia|constructor]|]]); repeat constructor; cbn; lia.
  - split; [|intros q Hq Hm; apply MM in Hm; apply MR in Hq; lia]. intros e i j [<-|[<-|[]]] Hi Hj; cbn [reg1 reg2]; lia.
  - apply Forall_cons; [lia|]. apply Forall_cons; [lia|]. apply Forall_cons; [lia|constructor].
  - intros i k Hi Hk. rewrite PM. assert (Ei : i = 0 \/ i = 1) by lia. assert (Ek : k = 0 \/ k = 1) by lia. destruct Ei as [->| ->], Ek as [->| ->]; reflexivity.
  - reflexivity.
  - intros i Hi [H|H]; change (vshape aV) with [3] in Hi; change (vshape aW) with [3] in Hi; apply in1n in Hi as (x & -> & Hx); unfold vplace in H; cbn [aV vcp vdv place step] in H; [apply MM in H|apply MR in H]; lia.
  - intros i Hi [H|H]; change (vshape aV) with [3] in Hi; change (vshape aW) with [3] in Hi; apply in1n in Hi as (x & -> & Hx); unfold vplace in H; cbn [aW vcp vdv place step] in H; [apply MM in H|apply MR in H]; lia.
  - intros i j Hi Hj E. change (vshape aV) with [3] in *. change (vshape aW) with [3] in *. apply in1n in Hi as (x & -> & Hx). apply in1n in Hj as (y & -> & Hy). unfold vplace in E. cbn [aW vcp vdv place step] in E. f_equal. lia.
  - intros i j Hi Hj E. change (vshape aV) with [3] in *. change (vshape aW) with [3] in *. apply in1n in Hi as (x & -> & Hx). apply in1n in Hj as (y & -> & Hy). unfold vplace in E. cbn [aW aV vcp vdv place step] in E. lia.
Qed.
Definition aSees (o : out (mem Qc) (option unit)) : option (list (Z * positive)) := match o with Ok _ m => Some (map (fun p => (Qnum (this (m p)), Qden (this (m p)))) [40; 41; 42]) | _ => None end.
(* (-5 + 2*7 - 11) * 3/2 *)
Example ex_mult0 : aSees (mult0 false [] [] Qcplus Qcmult q0 aM aE [0; 2; 0] (Q2Qc (3 # 2)) aV aW aMem) = Some [(0, 1%positive); (-3, 1%positive); (0, 1%positive)].
Proof. vm_compute. reflexivity. Qed.
Example ex_mult1 : aSees (mult1 false [] [] Qcplus Qcmult q0 2 aM aE [0; 2; 0] (Q2Qc (3 # 2)) aV aW aMem) = Some [(0, 1%positive); (-3, 1%positive); (0, 1%positive)].
Proof. vm_compute. reflexivity. Qed.
Example ex_matrix : map (fun q => let x := matrix q0 Qcplus Qcmult 2 aF aE [0; 2; 0] (Q2Qc (3 # 2)) (fun j => nth (Z.to_nat (nth 0 j 0)) (map qz [5; 7; 11]) q0) [q] in (Qnum (this x), Qden (this x))) [0; 1; 2] = [(0, 1%positive); (-3, 1%positive); (0, 1%positive)].
Proof. vm_compute. reflexivity. Qed.

Print Assumptions C123_mult0.
Print Assumptions C123_mult1.
Print Assumptions C123_linear.
Print Assumptions C123_energy.
Print Assumptions C123_symmetric.
Print Assumptions C123_multiplies0.
Print Assumptions C123_multiplies1.
