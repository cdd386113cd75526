(* Property C150: the heat equation of examples/view.cc. *)
From Coq Require Import ZArith List Lia Bool Sorting.Sorted.
From Verif Require Import Spec L_Spec Spec_Ply Spec_Expr M_Base M_Expr M_Ply M_Val Spec_Val L_Expr L_Agree L_Ply L_Stl L_Run L_Val P_Reduce M_View Spec_View L_View P_View M_Slice Spec_Slice L_Slice P_Slice M_Frame Spec_Frame L_Frame P_Frame M_Mat Spec_Mat P_Mat M_Opt P_Outer M_Cell P_Cell M_Cells P_Cells M_Ext P_Ext M_Doc P_Doc M_Stencil P_Stencil M_Roll P_Roll M_Heat.
Import ListNotations.
Open Scope Z_scope.

(* ---- what the property is stated with ---- *)
Section Spec.
Context {T : Type}.
Variables (add mul : T -> T -> T) (conv : T -> T) (c half cold hot : T) (n : Z).
(* a block of numbers *)
Definition block3 := Z -> Z -> Z -> T.
Definition in_cube (x y w : Z) : Prop := 0 <= x < n /\ 0 <= y < n /\ 0 <= w < n.
(* x is neither the first nor the last *)
Definition amid (x : Z) : bool := (0 <? x) && (x <? n - 1).
Definition amids (x y w : Z) : bool := amid x && amid y && amid w.
(* what comes from the six neighbors and half the number itself *)
Definition mean (f : block3) : block3 := fun x y w =>
  conv (mul c (add (add (add (add (add (add (mul half (f x y w)) (f (x + 1) y w)) (f (x - 1) y w)) (f x (y + 1) w)) (f x (y - 1) w)) (f x y (w + 1))) (f x y (w - 1)))).
(* g, with the means of f in the middle *)
Definition next (f g : block3) : block3 := fun x y w => if amids x y w then mean f x y w else g x y w.
(* k times: from f and g, g from f and then f from g *)
Fixpoint evolve (k : nat) (f g : block3) : block3 * block3 := match k with O => (f, g) | S k' => let g' := next f g in evolve k' (next g' f) g' end.
(* hot in the middle half, cold elsewhere *)
Definition half_hot (x : Z) : bool := (n / 4 <=? x) && (x <? n / 4 + n / 2).
Definition initial : block3 := fun x y w => if half_hot x && half_hot y && half_hot w then hot else cold.
(* the elements of a view of three axes *)
Definition cube (m : mem T) (a : view) : block3 := fun x y w => m (vplace a [x; y; w]).
Definition agree (f g : block3) : Prop := forall x y w, in_cube x y w -> f x y w = g x y w.
Definition agree_faces (f g : block3) : Prop := forall x y w, in_cube x y w -> amids x y w = false -> f x y w = g x y w.
(* an element of a view *)
Definition of_view (a : view) (p : Z) : Prop := exists i, inshape i (vshape a) /\ p = vplace a i.
End Spec.

Lemma amids_iff : forall n x y w, amids n x y w = true <-> 0 < x < n - 1 /\ 0 < y < n - 1 /\ 0 < w < n - 1.
Proof. intros. unfold amids, amid. rewrite !andb_true_iff, !Z.ltb_lt. tauto. Qed.
Section Pure.
Context {T : Type}.
Variables (add mul : T -> T -> T) (conv : T -> T) (c half : T) (n : Z).
Notation grid3 := (block3 (T:=T)).
Notation next := (next add mul conv c half n).
Notation evolve := (evolve add mul conv c half n).
Lemma mean_agree : forall (f f' : grid3) x y w, agree n f f' -> amids n x y w = true -> mean add mul conv c half f x y w = mean add mul conv c half f' x y w.
Proof. intros f f' x y w H Q. apply amids_iff in Q. unfold mean. rewrite !(H x y w), !(H (x + 1)), !(H (x - 1)), !(H x (y + 1)), !(H x (y - 1)), !(H x y (w + 1)), !(H x y (w - 1)) by (unfold in_cube; lia). reflexivity. Qed.
Lemma next_agree : forall f f' g g' : grid3, agree n f f' -> agree_faces n g g' -> agree n (next f g) (next f' g').
Proof. intros f f' g g' H1 H2 x y w Hx. unfold P_Heat.next. destruct (amids n x y w) eqn:Q; [apply mean_agree; auto|apply H2; auto]. Qed.
Lemma faces_agree : forall f g : grid3, agree n f g -> agree_faces n f g.
Proof. intros f g H x y w Hx _. auto. Qed.
(* B is read at its faces only, besides what has been written before *)
Lemma evolve_faces : forall k (f f' g g' : grid3), agree n f f' -> agree_faces n g g' -> agree n (fst (evolve k f g)) (fst (evolve k f' g')).
Proof. induction k as [|k IH]; intros f f' g g' H1 H2; [exact H1|]. cbn [P_Heat.evolve]. apply IH; [apply next_agree; [|apply faces_agree; auto]|apply faces_agree]; apply next_agree; auto. Qed.
Lemma evolve_agree : forall k (f f' g g' : grid3), agree n f f' -> agree n g g' -> agree n (fst (evolve k f g)) (fst (evolve k f' g')) /\ agree n (snd (evolve k f g)) (snd (evolve k f' g')).
Proof.
  induction k as [|k IH]; intros f f' g g' H1 H2; [split; auto|]. cbn [P_Heat.evolve]. apply IH; [apply next_agree; [|apply faces_agree; auto]|]; apply next_agree; auto using faces_agree.
Qed.
Lemma next_faces : forall f g : grid3, agree_faces n (next f g) g.
Proof. intros f g x y w _ Q. unfold P_Heat.next. rewrite Q. reflexivity. Qed.
Lemma evolve_keeps : forall k (f g : grid3), agree_faces n (fst (evolve k f g)) f /\ agree_faces n (snd (evolve k f g)) g.
Proof.
  induction k as [|k IH]; intros f g; [split; intros x y w _ _; reflexivity|]. cbn [P_Heat.evolve]. destruct (IH (next (next f g) f) (next f g)) as (H1 & H2).
  split; intros x y w Hx Q; [rewrite H1 by auto|rewrite H2 by auto]; apply next_faces; auto.
Qed.
End Pure.

Section Prog.
Context {T : Type}.
Variables (fixed : bool) (z : list zt).
Hypothesis Hz : zclean z.
Variables (add mul : T -> T -> T) (conv : T -> T) (c half cold hot : T) (n : Z).
Hypothesis Hn : 2 <= n.
Notation grid3 := (block3 (T:=T)).
Notation next := (next add mul conv c half n).
Notation evolve := (evolve add mul conv c half n).
Notation s := [n; n; n].
Notation step_ := (heat_step fixed z add mul conv c half).
Notation heat_ := (heat fixed z add mul conv c half).
Notation named_ := (named fixed z add mul conv c half).
Notation ht := (heat_term add mul conv c half).
(* a view becomes a block *)
Definition turns (a : view) (g : grid3) (m m' : mem T) : Prop := agree n (cube m' a) g /\ forall p, ~ of_view a p -> m' p = m p.
Lemma s_room : room [1; 1; 1] [1; 1; 1] s.
Proof. constructor; [lia|lia|lia|]. constructor; [lia|lia|lia|]. constructor; [lia|lia|lia|constructor]. Qed.
Lemma s_nonneg : nonneg s.
Proof. apply Forall_cons; [lia|]. apply Forall_cons; [lia|]. apply Forall_cons; [lia|constructor]. Qed.
Lemma term_near : Forall (near [1; 1; 1] [1; 1; 1]) (offsets ht).
Proof. cbn [offsets heat_term app]. repeat (apply Forall_cons; [constructor; [lia|constructor; [lia|constructor; [lia|constructor]]]|]). constructor. Qed.
Lemma in_s : forall x y w, in_cube n x y w <-> inshape [x; y; w] s.
Proof. intros. unfold in_cube. rewrite P_Mat.in3. split; [intros H; exists x, y, w; auto|]. intros (a & b & d & E & H). injection E as -> -> ->. auto. Qed.
Lemma interior_s : forall i, interior [1; 1; 1] [1; 1; 1] s i <-> exists x y w, i = [x; y; w] /\ amids n x y w = true.
Proof.
  intros i. split.
  - intros H. inversion H as [|? ? ? x ? ? ? i1 H1 H']; subst. inversion H' as [|? ? ? y ? ? ? i2 H2 H'']; subst. inversion H'' as [|? ? ? w ? ? ? i3 H3 H3']; subst. inversion H3'; subst. exists x, y, w. split; auto. apply amids_iff. lia.
  - intros (x & y & w & -> & Q). apply amids_iff in Q. constructor; [lia|]. constructor; [lia|]. constructor; [lia|constructor].
Qed.
Lemma around_mean : forall m v x y w, around m v [x; y; w] ht = mean add mul conv c half (cube m v) x y w.
Proof. intros. unfold heat_term, mean, cube, scaled. cbn [around plus]. rewrite !Z.add_0_r. unfold Z.sub. reflexivity. Qed.
Lemma of_view_dec : forall a p, vshape a = s -> of_view a p \/ ~ of_view a p.
Proof. intros a p Sa. destruct (existsb (fun i => vplace a i =? p) (indices (vshape a))) eqn:Q.
  - left. apply existsb_exists in Q as (i & Hi & E). exists i. apply in_indices in Hi. split; auto. lia.
  - right. intros (i & Hi & ->). assert (existsb (fun j => vplace a j =? vplace a i) (indices (vshape a)) = true) by (apply existsb_exists; exists i; split; [apply in_indices; auto|apply Z.eqb_refl]). congruence.
Qed.

(* one of the two assignments *)
Theorem C150_step : forall b a (m : mem T), vshape a = s -> vshape b = s -> P_Cells.separate b a -> apart_at b ->
  exists m', step_ b a m = Ok None m' /\ turns b (next (cube m a) (cube m b)) m m'.
Proof.
  intros b a m Sa Sb D A. pose proof s_room as R. rewrite <- Sa in R. destruct (C114_slices fixed z Hz b a [1; 1; 1] [1; 1; 1] R ltac:(congruence) D A ht m term_near) as (m' & E & F1 & F2).
  exists m'. split; [exact E|]. rewrite Sb in F1, F2. split.
  - intros x y w Hx. unfold P_Heat.next. destruct (amids n x y w) eqn:Q.
    + unfold cube at 1. rewrite F1 by (apply interior_s; eauto 6). apply around_mean.
    + unfold cube. apply F2. intros i Hi. apply interior_s in Hi as (x' & y' & w' & -> & Q'). intros E'. apply A in E'; [injection E' as -> -> ->; congruence| |]; rewrite Sb; apply in_s; auto. apply amids_iff in Q'. unfold in_cube. lia.
  - intros p Hp. apply F2. intros i Hi. apply interior_s in Hi as (x & y & w & -> & Q). intros ->. apply Hp. exists [x; y; w]. split; auto. rewrite Sb. apply in_s. apply amids_iff in Q. unfold in_cube. lia.
Qed.

Variables (a b : view).
Hypothesis (Sa : vshape a = s) (Sb : vshape b = s) (Aa : apart_at a) (Ab : apart_at b) (D : P_Cells.separate b a).
Lemma sep_not : forall u v p, P_Cells.separate u v -> of_view v p -> ~ of_view u p.
Proof. intros u v p H (i & Hi & ->) (j & Hj & E). apply (H j i); auto. Qed.
Lemma sep_sw : forall u v, P_Cells.separate u v -> P_Cells.separate v u.
Proof. intros u v H i j Hi Hj E. apply (H j i); auto. Qed.
Lemma turns_keep : forall u v g (m m' : mem T), turns u g m m' -> P_Cells.separate u v -> vshape v = s -> agree n (cube m' v) (cube m v).
Proof. intros u v g m m' (_ & H) S Sv x y w Hx. unfold cube. apply H. apply (sep_not u v); auto. exists [x; y; w]. split; auto. rewrite Sv. apply in_s. auto. Qed.
Definition turns2 (f g : grid3) (m m' : mem T) : Prop := agree n (cube m' a) f /\ agree n (cube m' b) g /\ forall p, ~ of_view a p -> ~ of_view b p -> m' p = m p.
Lemma agree_trans : forall f g h : grid3, agree n f g -> agree n g h -> agree n f h.
Proof. intros f g h H1 H2 x y w Hx. rewrite H1, H2; auto. Qed.
Lemma two_steps : forall (m : mem T), exists m1 m2, step_ b a m = Ok None m1 /\ step_ a b m1 = Ok None m2 /\
  turns2 (next (next (cube m a) (cube m b)) (cube m a)) (next (cube m a) (cube m b)) m m2.
Proof.
  intros m. destruct (C150_step b a m Sa Sb D Ab) as (m1 & E1 & T1). destruct (C150_step a b m1 Sb Sa (sep_sw _ _ D) Aa) as (m2 & E2 & T2). exists m1, m2. split; [exact E1|]. split; [exact E2|].
  pose proof (turns_keep b a _ _ _ T1 D Sa) as K1. pose proof (turns_keep a b _ _ _ T2 (sep_sw _ _ D) Sb) as K2. destruct T1 as (T1 & O1). destruct T2 as (T2 & O2). split; [|split].
  - eapply agree_trans; [exact T2|]. apply next_agree; [exact T1|apply faces_agree; exact K1].
  - eapply agree_trans; [exact K2|exact T1].
  - intros p Pa Pb. rewrite O2, O1; auto.
Qed.
(* the loop: each array follows from what both were *)
Theorem C150_heat : forall k (m : mem T), exists m', heat_ k a b m = Ok None m' /\ turns2 (fst (evolve k (cube m a) (cube m b))) (snd (evolve k (cube m a) (cube m b))) m m'.
Proof.
  induction k as [|k IH]; intros m.
  - exists m. split; [reflexivity|]. split; [|split]; try (intros x y w _; reflexivity). reflexivity.
  - destruct (two_steps m) as (m1 & m2 & E1 & E2 & A2 & B2 & O2). destruct (IH m2) as (m' & E & A' & B' & O'). exists m'. split.
    + cbn [heat]. unfold bind. rewrite E1, E2. exact E.
    + cbn [P_Heat.evolve]. destruct (evolve_agree add mul conv c half n k _ _ _ _ A2 B2) as (Q1 & Q2). split; [|split].
      * eapply agree_trans; [exact A'|exact Q1].
      * eapply agree_trans; [exact B'|exact Q2].
      * intros p Pa Pb. rewrite O', O2; auto.
Qed.
(* Before the first B is written, A depends on B only by its faces. *)
Theorem C150_faces_partial : forall k (m1 m2 m1' m2' : mem T), agree n (cube m1 a) (cube m2 a) -> agree_faces n (cube m1 b) (cube m2 b) ->
  heat_ k a b m1 = Ok None m1' -> heat_ k a b m2 = Ok None m2' -> agree n (cube m1' a) (cube m2' a).
Proof.
  intros k m1 m2 m1' m2' H1 H2 E1 E2. destruct (C150_heat k m1) as (u & U & A1 & _). destruct (C150_heat k m2) as (v & V & A2 & _). rewrite U in E1. rewrite V in E2. injection E1 as <-. injection E2 as <-.
  eapply agree_trans; [exact A1|]. eapply agree_trans; [apply (evolve_faces add mul conv c half n k _ _ _ _ H1 H2)|]. intros x y w Hx. symmetry. apply A2. exact Hx.
Qed.
(* the faces of either are as they were *)
Theorem C150_keeps : forall k (m m' : mem T), heat_ k a b m = Ok None m' -> agree_faces n (cube m' a) (cube m a) /\ agree_faces n (cube m' b) (cube m b).
Proof.
  intros k m m' E. destruct (C150_heat k m) as (u & U & A1 & B1 & _). rewrite U in E. injection E as <-. destruct (evolve_keeps add mul conv c half n k (cube m a) (cube m b)) as (K1 & K2).
  split; intros x y w Hx Q; [rewrite A1 by auto; apply K1|rewrite B1 by auto; apply K2]; auto.
Qed.

(* ---- the second way ---- *)
Notation sq1 o := (Sq (Run (n - 2)) o 1).
Lemma named_same : forall u v (m : mem T), vshape v = s -> named_step fixed z add mul conv c half (sq1 0) (sq1 1) (sq1 2) u v m = step_ u v m.
Proof.
  intros u v m Sv. unfold heat_step, slices. change (map len (vdv v)) with (vshape v). rewrite Sv. rewrite (grid_good _ _ _ s_room). cbn [block map]. unfold mksq. cbn [fst snd]. replace (n - 1 - 1) with (n - 2) by lia. cbn [onres].
  set (k := n - 2). assert (I : forall o, iota (Run k) o 1 = Good (Sq (Run k) o 1)) by (intros o; unfold iota; destruct (Z.ltb_spec k 0); [lia|reflexivity]).
  unfold heat_term. cbn [term_expr moved Z.ltb Z.compare Z.eqb Z.opp]. unfold opt_add_sq_k, opt_sub_sq_k. cbn [qlen qorg qstep]. rewrite !I. cbn [rbind]. change (1 + 1) with 2. change (1 - 1) with 0. unfold named_step, win.
  destruct (window u _) as [w0| |]; [|reflexivity|reflexivity]. cbn [onres].
  do 7 (match goal with |- onres (window v ?l) _ _ = _ => destruct (window v l) as [?| |]; [|reflexivity|reflexivity] end; cbn [onres rbind]). reflexivity.
Qed.
(* The subscripts I, I+1 and I-1, and the subscripts I, Ip and Im, give the same. *)
Theorem C150_same : forall k (m : mem T), named_ k (sq1 0) (sq1 1) (sq1 2) a b m = heat_ k a b m.
Proof.
  induction k as [|k IH]; intros m; [reflexivity|]. cbn [named heat]. unfold bind. rewrite named_same by auto. destruct (step_ b a m) as [? m1| |]; auto. rewrite named_same by auto. destruct (step_ a b m1) as [? m2| |]; auto.
Qed.

(* ---- the whole program ---- *)
Notation initial_ := (initial cold hot n).
Lemma half_hot_iff : forall x, half_hot n x = true <-> n / 4 <= x < n / 4 + n / 2.
Proof. intros. unfold half_hot. rewrite andb_true_iff, Z.leb_le, Z.ltb_lt. tauto. Qed.
Lemma quarters : 0 <= n / 4 /\ 0 <= n / 2 /\ n / 4 + n / 2 <= n.
Proof. pose proof (Z.div_mod n 4 ltac:(lia)). pose proof (Z.div_mod n 2 ltac:(lia)). pose proof (Z.mod_pos_bound n 4). pose proof (Z.mod_pos_bound n 2). lia. Qed.
Lemma fill_view : forall v x (m : mem T), nonneg (vshape v) -> apart_at v -> exists m', assign fixed z put (viter v) (Scalar (VT x)) m = Ok None m' /\ becomes v (fun _ => x) m m'.
Proof.
  intros v x m Nv Av. destruct (assign_to fixed z Hz put v (Scalar (VT x)) (vshape v) (fun _ => x) m) as (m' & E & B); auto.
  - exact I.
  - apply inner_scalar.
  - intros m1 _ j _. exists (VT x). split; reflexivity.
  - exists m'. split; auto.
Qed.
Theorem C150_start : forall (m : mem T), exists m', start fixed z cold hot n a m = Ok None m' /\ turns a initial_ m m'.
Proof.
  intros m. unfold start. destruct (fill_view a cold m) as (m1 & E1 & B1 & O1); [rewrite Sa; apply s_nonneg|auto|]. unfold bind. rewrite E1. pose proof quarters as (Q1 & Q2 & Q3).
  unfold iota. destruct (Z.ltb_spec (n / 2) 0); [lia|]. cbn [onres]. set (los := [(n / 2, n / 4); (n / 2, n / 4); (n / 2, n / 4)]). change [Sq (Run (n / 2)) (n / 4) 1; Sq (Run (n / 2)) (n / 4) 1; Sq (Run (n / 2)) (n / 4) 1] with (map mksq los).
  assert (La : length los = vrank a) by (rewrite vrank_shape, Sa; reflexivity).
  rewrite window_part. 2: { rewrite Sa. unfold los. repeat (apply Forall2_cons; [split; cbn [fst snd]; lia|]). constructor. }
  cbn [onres]. set (v0 := part los a). assert (S0 : vshape v0 = [n / 2; n / 2; n / 2]) by (unfold v0; rewrite part_shape; auto).
  assert (P0 : forall x y w, vplace v0 [x; y; w] = vplace a [x + n / 4; y + n / 4; w + n / 4]) by (intros x y w; unfold v0; rewrite part_place by (auto; rewrite <- La; reflexivity); reflexivity).
  destruct (fill_view v0 hot m1) as (m2 & E2 & B2 & O2).
  { rewrite S0. repeat (apply Forall_cons; [lia|]). constructor. }
  { intros i j. rewrite S0. intros Hi Hj. apply P_Mat.in3 in Hi as (x & y & w & -> & Hx & Hy & Hw). apply P_Mat.in3 in Hj as (x' & y' & w' & -> & Hx' & Hy' & Hw'). rewrite !P0. intros E. apply Aa in E; [|rewrite Sa; apply in_s; unfold in_cube; lia|rewrite Sa; apply in_s; unfold in_cube; lia].
    injection E as Ex Ey Ew. assert (x = x') by lia. assert (y = y') by lia. assert (w = w') by lia. congruence. }
  exists m2. split; [exact E2|]. rewrite S0 in B2, O2. rewrite Sa in B1, O1. split.
  - intros x y w Hx. unfold cube, initial. destruct (half_hot n x && half_hot n y && half_hot n w)%bool eqn:Q.
    + rewrite !andb_true_iff, !half_hot_iff in Q. replace [x; y; w] with [x - n / 4 + n / 4; y - n / 4 + n / 4; w - n / 4 + n / 4] by (f_equal; [lia|f_equal; [lia|f_equal; lia]]). rewrite <- P0. apply B2. apply P_Mat.in3. do 3 eexists. split; [reflexivity|]. lia.
    + rewrite O2; [apply B1; apply in_s; exact Hx|]. intros j Hj. apply P_Mat.in3 in Hj as (x' & y' & w' & -> & Hx' & Hy' & Hw'). rewrite P0. intros E. apply Aa in E; [|rewrite Sa; apply in_s; exact Hx|rewrite Sa; apply in_s; unfold in_cube; lia].
      injection E as -> -> ->. assert (half_hot n (x' + n / 4) = true /\ half_hot n (y' + n / 4) = true /\ half_hot n (w' + n / 4) = true) as (G1 & G2 & G3) by (rewrite !half_hot_iff; lia). rewrite G1, G2, G3 in Q. discriminate Q.
  - intros p Hp. rewrite O2, O1; auto; intros j Hj E; apply Hp.
    + exists j. rewrite Sa. auto.
    + apply P_Mat.in3 in Hj as (x' & y' & w' & -> & Hx' & Hy' & Hw'). rewrite P0 in E. exists [x' + n / 4; y' + n / 4; w' + n / 4]. split; auto. rewrite Sa. apply in_s. unfold in_cube. lia.
Qed.
Variable first : view.
Hypothesis (Sf : vshape first = s) (Af : apart_at first) (Dfa : P_Cells.separate first a) (Dfb : P_Cells.separate first b).
(* Both ways end with the same A, that follows from the initial conditions and from the faces of B. *)
Theorem C150_program : forall k (m : mem T), exists m', heat_program fixed z add mul conv c half cold hot k n a b first m = Ok None m' /\
  agree n (cube m' a) (fst (evolve k initial_ (cube m b))) /\ agree n (cube m' first) (cube m' a) /\ agree_faces n (cube m' b) (cube m b) /\
  forall p, ~ of_view a p -> ~ of_view b p -> ~ of_view first p -> m' p = m p.
Proof.
  intros k m. destruct (C150_start m) as (m1 & E1 & T1). destruct (C150_heat k m1) as (m2 & E2 & A2 & B2 & O2).
  assert (Nf : nonneg (vshape first)) by (rewrite Sf; apply s_nonneg). destruct (assign_view fixed z Hz put first a m2 ltac:(congruence) Nf Af Dfa) as (m3 & E3 & B3 & O3).
  destruct (C150_start m3) as (m4 & E4 & T4). destruct (C150_heat k m4) as (m5 & E5 & A5 & B5 & O5). exists m5.
  assert (F1 : agree_faces n (cube m1 b) (cube m b)) by (apply faces_agree, (turns_keep a b _ _ _ T1 (sep_sw _ _ D) Sb)).
  assert (F2 : agree_faces n (cube m2 b) (cube m b)) by (intros x y w Hx Q; rewrite B2 by auto; rewrite (proj2 (evolve_keeps add mul conv c half n k (cube m1 a) (cube m1 b))) by auto; apply F1; auto).
  assert (K3 : forall v, vshape v = s -> P_Cells.separate first v -> agree n (cube m3 v) (cube m2 v)).
  { intros v Sv Dv x y w Hx. unfold cube. apply O3. intros i Hi E. apply (Dv i [x; y; w]); auto. rewrite Sv. apply in_s. exact Hx. }
  assert (F3 : agree_faces n (cube m3 b) (cube m b)) by (intros x y w Hx Q; rewrite (K3 b) by auto; apply F2; auto).
  assert (F4 : agree_faces n (cube m4 b) (cube m b)) by (intros x y w Hx Q; rewrite (turns_keep a b _ _ _ T4 (sep_sw _ _ D) Sb) by auto; apply F3; auto).
  assert (R2 : agree n (cube m2 a) (fst (evolve k initial_ (cube m b)))) by (eapply agree_trans; [exact A2|]; apply evolve_faces; [exact (proj1 T1)|exact F1]).
  assert (R5 : agree n (cube m5 a) (fst (evolve k initial_ (cube m b)))) by (eapply agree_trans; [exact A5|]; apply evolve_faces; [exact (proj1 T4)|exact F4]).
  split.
  { unfold heat_program, bind. rewrite E1, E2, E3, E4. unfold iota. destruct (Z.ltb_spec (n - 2) 0); [lia|]. cbn [onres]. rewrite C150_same. exact E5. }
  split; [exact R5|]. split; [|split].
  - intros x y w Hx. rewrite R5, <- R2 by auto. unfold cube. transitivity (m4 (vplace first [x; y; w])); [apply O5|transitivity (m3 (vplace first [x; y; w]))].
    + intros (i & Hi & E). apply (Dfa [x; y; w] i); auto. rewrite Sf. apply in_s. exact Hx.
    + intros (i & Hi & E). apply (Dfb [x; y; w] i); auto. rewrite Sf. apply in_s. exact Hx.
    + apply (turns_keep a first _ _ _ T4 (sep_sw _ _ Dfa) Sf x y w Hx).
    + rewrite Sf in B3. rewrite B3 by (apply in_s; exact Hx). reflexivity.
  - intros x y w Hx Q. rewrite B5 by auto. rewrite (proj2 (evolve_keeps add mul conv c half n k (cube m4 a) (cube m4 b))) by auto. apply F4; auto.
  - intros p Pa Pb Pf. rewrite O5 by auto. rewrite (proj2 T4) by auto. rewrite O3 by (intros i Hi E; apply Pf; exists i; auto). rewrite O2 by auto. apply (proj2 T1). auto.
Qed.
End Prog.

(* With less than two elements on some axis the first step is refused. *)
Theorem C150_refused : forall (T : Type) fixed z (add mul : T -> T -> T) conv c half n0 n1 n2 (a b : view) k (m : mem T), vshape a = [n0; n1; n2] -> n0 < 2 \/ n1 < 2 \/ n2 < 2 -> heat fixed z add mul conv c half (S k) a b m = Fail m.
Proof.
  intros T fixed z add mul conv c half n0 n1 n2 a b k m Sa H. assert (Q : crowded [1; 1; 1] [1; 1; 1] (vshape a)).
  { rewrite Sa. destruct H as [H|[H|H]]; [apply crowd_here; lia| |]; apply crowd_there; [apply crowd_here; lia|apply crowd_there, crowd_here; lia]. }
  cbn [heat]. unfold bind, heat_step. rewrite (proj1 (C114_refused fixed z b a [1; 1; 1] [1; 1; 1] _ m Q)). reflexivity.
Qed.

(* ---- examples ---- *)
(* with integers, c = 2 and 1 for half *)
Definition hA := Vw [Dim 3 9; Dim 3 3; Dim 3 1] 0.
Definition hB := Vw [Dim 3 9; Dim 3 3; Dim 3 1] 30.
Definition hF := Vw [Dim 3 9; Dim 3 3; Dim 3 1] 60.
Definition hRun (b : Z) : mem Z := fun p => if (30 <=? p) && (p <? 57) then b else 7.
Definition hProg (k : nat) (b : Z) : option (list Z) :=
  match heat_program false z_init Z.add Z.mul (fun x => x) 2 1 22 30 k 3 hA hB hF (hRun b) with Ok _ m => Some (map m [0; 12; 13; 14; 40; 43; 46; 73; 74; 90]) | _ => None end.
(* A is 22 but for A(0, 0, 0), that is 30. *)
Example C150_ex : hProg 0 5 = Some [30; 22; 22; 22; 5; 5; 5; 22; 22; 7] /\ hProg 1 5 = Some [30; 22; 676; 22; 5; 308; 5; 676; 22; 7] /\ hProg 2 5 = Some [30; 22; 3292; 22; 5; 1616; 5; 3292; 22; 7].
Proof. split; [|split]; vm_compute; reflexivity. Qed.
Lemma cube_in : forall i, inshape i [3; 3; 3] -> exists x y w, i = [x; y; w] /\ 0 <= x < 3 /\ 0 <= y < 3 /\ 0 <= w < 3.
Proof. intros i H. apply P_Mat.in3 in H. exact H. Qed.
Example C150_hyps_ex : Forall (fun v => vshape v = [3; 3; 3] /\ apart_at v) [hA; hB; hF] /\ P_Cells.separate hB hA /\ P_Cells.separate hF hA /\ P_Cells.separate hF hB.
Proof.
  assert (A : forall q, apart_at (Vw [Dim 3 9; Dim 3 3; Dim 3 1] q)).
  { intros q i j Hi Hj. change (vshape _) with [3; 3; 3] in *. destruct (cube_in i Hi) as (x & y & w & -> & Hx & Hy & Hw). destruct (cube_in j Hj) as (x' & y' & w' & -> & Hx' & Hy' & Hw'). unfold vplace. cbn [vcp vdv place step]. intros E. assert (x = x') by lia. assert (y = y') by lia. assert (w = w') by lia. congruence. }
  assert (D : forall q r, q + 27 <= r -> P_Cells.separate (Vw [Dim 3 9; Dim 3 3; Dim 3 1] r) (Vw [Dim 3 9; Dim 3 3; Dim 3 1] q)).
  { intros q r Q i j Hi Hj. change (vshape _) with [3; 3; 3] in *. destruct (cube_in i Hi) as (x & y & w & -> & Hx & Hy & Hw). destruct (cube_in j Hj) as (x' & y' & w' & -> & Hx' & Hy' & Hw'). unfold vplace. cbn [vcp vdv place step]. lia. }
  split; [repeat (apply Forall_cons; [split; [reflexivity|apply A]|]); constructor|]. split; [apply D; lia|]. split; apply D; lia.
Qed.
(* The program doesn't give B any values before it reads the faces of B. So what A ends up as isn't given by the program. *)
Definition determined : Prop := forall (T : Type) fixed z (add mul : T -> T -> T) conv c half cold hot n (a b first : view) k (m1 m2 m1' m2' : mem T), zclean z -> 2 <= n ->
  vshape a = [n; n; n] -> vshape b = [n; n; n] -> vshape first = [n; n; n] -> apart_at a -> apart_at b -> apart_at first -> P_Cells.separate b a -> P_Cells.separate first a -> P_Cells.separate first b ->
  heat_program fixed z add mul conv c half cold hot k n a b first m1 = Ok None m1' -> heat_program fixed z add mul conv c half cold hot k n a b first m2 = Ok None m2' -> agree n (cube m1' a) (cube m2' a).
Theorem C150_refuted : ~ determined.
Proof.
  intros H. destruct C150_hyps_ex as (F & D1 & D2 & D3). inversion F as [|? ? (S1 & A1) F1]; subst. inversion F1 as [|? ? (S2 & A2) F2]; subst. inversion F2 as [|? ? (S3 & A3) _]; subst.
  destruct (C150_program false z_init z_init_clean Z.add Z.mul (fun x => x) 2 1 22 30 3 ltac:(lia) hA hB S1 S2 A1 A2 D1 hF S3 A3 D2 D3 1 (hRun 5)) as (m1 & E1 & R1 & _).
  destruct (C150_program false z_init z_init_clean Z.add Z.mul (fun x => x) 2 1 22 30 3 ltac:(lia) hA hB S1 S2 A1 A2 D1 hF S3 A3 D2 D3 1 (hRun 6)) as (m2 & E2 & R2 & _).
  specialize (H Z false z_init Z.add Z.mul (fun x => x) 2 1 22 30 3 hA hB hF 1%nat (hRun 5) (hRun 6) m1 m2 z_init_clean ltac:(lia) S1 S2 S3 A1 A2 A3 D1 D2 D3 E1 E2 1 1 1 ltac:(unfold in_cube; lia)).
  rewrite R1, R2 in H by (unfold in_cube; lia). vm_compute in H. discriminate H.
Qed.

Print Assumptions C150_step.
Print Assumptions C150_heat.
Print Assumptions C150_faces_partial.
Print Assumptions C150_keeps.
Print Assumptions C150_same.
Print Assumptions C150_start.
Print Assumptions C150_program.
Print Assumptions C150_refused.
Print Assumptions C150_refuted.
