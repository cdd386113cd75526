(* Property C118: totals of the cells of an array. *)
From Coq Require Import ZArith List Lia Bool.
From Verif Require Import Spec L_Spec Spec_Ply Spec_Expr M_Base M_Expr M_Ply M_Val Spec_Val L_Expr L_Agree L_Ply L_Stl L_Run L_Val P_Reduce M_View Spec_View L_View P_View M_Slice M_Frame M_Mat Spec_Mat P_Mat P_Outer M_Cell P_Cell M_Cells P_Cells M_Deep P_Deep M_Doc P_Doc M_Stencil P_Stencil P_Roll M_Total.
Import ListNotations.
Open Scope Z_scope.

Section Total.
Context {T : Type}.
Variables (fixed fi : bool) (z zi : list zt).
Hypothesis Hz : zclean z.
Hypothesis Hzi : zclean zi.

(* The elements at j of all the cells, in order, put together from zero on. There may be no cells. *)
Theorem C118_sum : forall f (zero : T) q (a : view) cr s t ks (m : mem T), vshape a = s ++ t -> frame_axes (vrank a) cr (length s) -> nonneg (vshape a) -> row_major s ks ->
  (forall i, inshape i (vshape a) -> ~ (q <= vplace a i < q + zprod t)) ->
  exists c m', sum_cells fixed fi z zi f zero q a cr m = Ok (Some c) m' /\ vshape c = t /\
    (forall j, inshape j t -> m' (vplace c j) = fold_left f (map (fun k => m (vplace a (k ++ j))) ks) zero) /\
    forall p, ~ (q <= p < q + zprod t) -> m' p = m p.
Proof.
  intros f zero q a cr s t ks m Ea F Na Hks Hq. unfold sum_cells. rewrite (icell_frame _ _ _ _ F). destruct F as (Hf & _).
  pose proof Na as N. rewrite Ea in N. unfold nonneg in N. apply Forall_app in N as (Ns & Nt).
  set (e := Cell (vdv a) (length s) _ _). set (v := cell_of a (length s)).
  assert (We : wf e). { cbn. split; [exact Hf|]. apply ok_lens. rewrite <- firstn_map. change (map len (vdv a)) with (vshape a). rewrite Ea, firstn_app, Nat.sub_diag, firstn_all, app_nil_r. exact Ns. }
  assert (Se : shape_is e s).
  { split; [reflexivity|]. intros k Hk. cbn [axes e] in Hk. unfold e. cbn [leaf_lens]. destruct (Nat.ltb_spec k (length s)); [|lia].
    assert (E : len (nth k (vdv a) dim0) = nth k s 0) by (rewrite <- (map_nth len); change (map len (vdv a)) with (vshape a); rewrite Ea, app_nth1 by auto; apply nth_indep; auto).
    rewrite E. unfold nonneg in Ns. split; [apply Forall_nth; auto|]. split; [left; auto|]. constructor; [left; auto|constructor]. }
  assert (Ae : arrays_at e s v).
  { intros j m1 Hj. unfold e. cbn [element]. rewrite whole_in by auto. reflexivity. }
  assert (Ev : forall j, vshape (v j) = t) by (intros j; apply (cell_of_shape a s t); auto).
  destruct (C12_dense t Nt) as (dv & Ed & Ld & P1 & P2 & _).
  set (c := Vw dv q). set (m1 := fun p => if (q <=? p) && (p <? q + zprod t) then zero else m p).
  assert (S0 : state f zero q m v c t [] m1).
  { split.
    - intros i Hi. specialize (P1 i Hi). unfold vplace, m1, c. cbn [vcp vdv total map fold_left]. destruct (Z.leb_spec q (q + place dv i)); [|lia]. destruct (Z.ltb_spec (q + place dv i) (q + zprod t)); [reflexivity|lia].
    - intros p Hp. unfold clear_of in Hp. unfold m1. destruct (Z.leb_spec q p), (Z.ltb_spec p (q + zprod t)); try reflexivity. exfalso. lia. }
  destruct (into_each f zero fi zi q Hzi m v c t e s) with (l2 := indices s) (l1 := @nil (list Z)) (m1 := m1) as (m2 & E2 & S1 & S2); auto.
  - intros i Hi. specialize (P1 i Hi). unfold vplace, c. cbn [vcp vdv]. lia.
  - intros i i' Hi Hi' E. apply P2; auto. unfold vplace, c in E. cbn [vcp vdv] in E. lia.
  - intros j Hj. apply in_indices; auto.
  - intros i j Hj Hi. apply in_indices in Hj. unfold clear_of, v. rewrite (cell_of_place a s t) by auto. apply Hq. rewrite Ea. apply join_shape; auto.
  - exists c, m2. split; [|split; [exact Ld|]].
    + unfold sum_arrays, bind. unfold e at 1. cbn [deref ret]. unfold new_array. cbn [vdv].
      replace (map len (skipn (length s) (vdv a))) with t by (rewrite <- skipn_map; change (map len (vdv a)) with (vshape a); rewrite Ea, skipn_app, Nat.sub_diag, skipn_all; reflexivity).
      rewrite Ed. rewrite (ply_spec _ _ _ no_stop fixed z _ s (indices s)); auto; [|apply wf_map; [discriminate|constructor; auto]|apply joint_shape_map, joint_shape_1; auto|apply row_major_indices].
      rewrite visit_each. fold c. fold m1. rewrite E2. reflexivity.
    + cbn [app] in S1. split; [|exact S2]. intros j Hj. rewrite S1 by auto. unfold total. rewrite (row_major_unique _ _ Hks). f_equal. apply map_ext_in. intros k Hk. apply in_indices in Hk. unfold v. rewrite (cell_of_place a s t) by auto. reflexivity.
Qed.

(* scalar(c) f= iter<cr>(a) and scalar(c) = f(scalar(c), iter<cr>(a)) are the same as iter<r>(c) f= iter<cr>(a), where r is the rank of c *)
Theorem C118_scalar_same : forall f c a cr (m : mem T), Forall (fun d => oklen (len d)) (vdv c) -> Forall (fun d => oklen (len d)) (vdv a) ->
  scalar_cells fixed fi z zi f c a cr m = assign_cells fixed fi z zi f c (Z.of_nat (vrank c)) a cr m /\ scalar_cells2 fixed fi z zi f c a cr m = assign_cells fixed fi z zi f c (Z.of_nat (vrank c)) a cr m.
Proof.
  intros f c a cr m Hc Ha. unfold scalar_cells, scalar_cells2, assign_cells. rewrite (icell_frame _ c _ 0%nat); [|unfold frame_axes; lia].
  destruct (C56_ranks (mem T) a cr) as [(fb & Fb & _)|(_ & ->)]; [|auto]. rewrite (icell_frame _ _ _ _ Fb). destruct Fb as (Fb & _). unfold vrank in Fb.
  assert (Sk : forall n dv, Forall (fun d => oklen (len d)) dv -> Forall (fun d => oklen (len d)) (skipn n dv) /\ Forall (fun d => oklen (len d)) (firstn n dv)).
  { intros n dv H. rewrite <- (firstn_skipn n dv) in H. apply Forall_app in H. tauto. }
  destruct (Sk fb _ Ha) as (Hb1 & Hb2). split; apply ply_same; auto.
  - apply wf_map; [discriminate|]. constructor; [|constructor; [|auto]]; cbn [wf]; auto.
  - apply wf_map; [discriminate|]. constructor; [|constructor; [|auto]]; cbn [wf]; auto. split; [lia|constructor].
  - intros k x. cbn [leaf_lens flat_map Nat.ltb Nat.leb app]. tauto.
  - intros j m'. cbn [element map in_order firstn place skipn]. unfold ret, bind. rewrite Z.add_0_r. destruct c as [dv cp]. reflexivity.
  - apply wf_map; [discriminate|]. constructor; [|constructor; [|constructor; [|auto]]]; cbn [wf]; auto.
  - apply wf_map; [discriminate|]. constructor; [|constructor; [|auto]]; cbn [wf]; auto. split; [lia|constructor].
  - intros k x. cbn [leaf_lens flat_map Nat.ltb Nat.leb app]. tauto.
  - intros j m'. cbn [element map in_order firstn place skipn]. unfold ret, bind. rewrite Z.add_0_r. destruct c as [dv cp]. apply cell_same; auto.
Qed.
Lemma nonneg_ok : forall v : view, nonneg (vshape v) -> Forall (fun d => oklen (len d)) (vdv v).
Proof. intros v H. apply ok_lens. exact H. Qed.
Theorem C118_scalar : forall f c a cr s (m : mem T), vshape a = s ++ vshape c -> frame_axes (vrank a) cr (length s) -> nonneg (vshape a) -> P_Cells.separate c a -> apart_at c ->
  exists m1 m2, scalar_cells fixed fi z zi f c a cr m = Ok None m1 /\ summed f c a s m m1 /\ scalar_cells2 fixed fi z zi f c a cr m = Ok None m2 /\ summed f c a s m m2.
Proof.
  intros f c a cr s m Ea F Na Hca Hc. assert (Nc : nonneg (vshape c)) by (rewrite Ea in Na; unfold nonneg in *; rewrite Forall_app in Na; tauto).
  destruct (C118_scalar_same f c a cr m) as (E1 & E2); auto using nonneg_ok.
  destruct (C108_reduce fixed fi z zi Hz Hzi f c (Z.of_nat (vrank c)) a cr [] s (vshape c) [] m) as (m' & E & S & O); auto.
  - cbn [app]. rewrite app_nil_r. auto.
  - cbn [length]. unfold P_Cell.frame_axes. lia.
  - cbn [app]. rewrite app_nil_r, <- Ea. auto.
  - exists m', m'. rewrite E1, E2. assert (Q : summed f c a s m m').
    { split; [|exact O]. intros j ks Hj Hks. specialize (S [] j). cbn [app] in S. rewrite S; auto; [|constructor]. rewrite (row_major_unique _ _ Hks). f_equal.
      cbn [indices]. clear. induction (indices s) as [|k l IH]; cbn; [auto|]. rewrite app_nil_r. f_equal. exact IH. }
    auto.
Qed.

(* the total of each cell, and the greatest element of each *)
Lemma cell_reads : forall (d a : view) t (m m1 : mem T) j, vshape a = vshape d ++ t -> P_Cells.separate d a -> inshape j (vshape d) -> (forall p, (forall i, inshape i (vshape d) -> p <> vplace d i) -> m1 p = m p) ->
  reads (viter (cell_of a (length (vshape d)) j)) t m1 (fun k => m (vplace a (j ++ k))).
Proof.
  intros d a t m m1 j Ea Hse Hj Hm x Hx. pose proof (cell_of_shape a (vshape d) t j Ea) as Sc.
  exists (VRef (vplace a (j ++ x))). rewrite viter_element, vrank_shape, Sc, whole_in by auto. rewrite (cell_of_place a (vshape d) t) by auto. split; [reflexivity|]. cbn. f_equal.
  apply Hm. intros i Hi E. symmetry in E. revert E. apply Hse; auto. rewrite Ea. apply join_shape; auto.
Qed.
Theorem C118_rows : forall add (zero : T) (d a : view) t ks (m : mem T), vshape a = vshape d ++ t -> nonneg (vshape a) -> apart_at d -> P_Cells.separate d a -> row_major t ks ->
  exists m', row_sums fixed fi z zi add zero d a (length t) m = Ok None m' /\ becomes d (fun i => fold_left add (map (fun k => m (vplace a (i ++ k))) ks) zero) m m'.
Proof.
  intros add zero d a t ks m Ea Na Hap Hse Hks. pose proof Na as N. rewrite Ea in N. unfold nonneg in N. apply Forall_app in N as (Nd & Nt).
  apply (map_cells fixed z Hz _ d a t); auto. intros j m1 Hj Hm. pose proof (cell_of_shape a (vshape d) t j Ea) as Sc. destruct (view_shape (T:=T) _ _ Sc Nt) as (Wc & Shc).
  unfold sum, bind. cbn [viter deref ret]. apply (reduce1_spec T fi zi (fun x c => add c x) _ t ks m1 (fun k => m (vplace a (j ++ k)))); auto. apply (cell_reads d); auto.
Qed.
Theorem C118_row_max : forall ltb (bot : T) (d a : view) t (m : mem T), total_order ltb -> (forall x, ltb x bot = false) -> vshape a = vshape d ++ t -> nonneg (vshape a) -> apart_at d -> P_Cells.separate d a ->
  exists m', row_maxs fixed fi z zi ltb bot d a (length t) m = Ok None m' /\ (forall p, (forall i, inshape i (vshape d) -> p <> vplace d i) -> m' p = m p) /\
    forall i, inshape i (vshape d) -> (forall k, inshape k t -> ltb (m' (vplace d i)) (m (vplace a (i ++ k))) = false) /\
      ((exists k, inshape k t) -> exists k, inshape k t /\ m' (vplace d i) = m (vplace a (i ++ k))) /\ (~ (exists k, inshape k t) -> m' (vplace d i) = bot).
Proof.
  intros ltb bot d a t m Ho Hb Ea Na Hap Hse. pose proof Na as N. rewrite Ea in N. unfold nonneg in N. apply Forall_app in N as (Nd & Nt).
  set (g := fun i => fold_left (fun c x => if ltb c x then x else c) (map (fun k => m (vplace a (i ++ k))) (indices t)) bot).
  assert (Q : forall j m1, inshape j (vshape d) -> (forall p, (forall i, inshape i (vshape d) -> p <> vplace d i) -> m1 p = m p) -> amax fi zi ltb bot (viter (cell_of a (length (vshape d)) j)) m1 = Ok (g j) m1).
  { intros j m1 Hj Hm. pose proof (cell_of_shape a (vshape d) t j Ea) as Sc. destruct (view_shape (T:=T) _ _ Sc Nt) as (Wc & Shc).
    apply (reduce1_spec T fi zi (fun x c => if ltb c x then x else c) _ t (indices t) m1 (fun k => m (vplace a (j ++ k)))); auto using row_major_indices. apply (cell_reads d); auto. }
  destruct (map_cells fixed z Hz (fun c => amax fi zi ltb bot (viter c)) d a t g m) as (m' & E & B & O); auto. exists m'. split; [exact E|]. split; [exact O|]. intros i Hi. rewrite B by auto.
  pose proof (cell_of_shape a (vshape d) t i Ea) as Sc. destruct (view_shape (T:=T) _ _ Sc Nt) as (Wc & Shc).
  destruct (C32_amax T ltb bot (viter (cell_of a (length (vshape d)) i)) t m (fun k => m (vplace a (i ++ k))) fi zi) as (c & E' & H1 & H2 & H3); auto; [apply (cell_reads d); auto|].
  rewrite Q in E' by auto. injection E' as <-. auto.
Qed.
End Total.

(* test/reduction.cc:196-250, with other lengths. The arrays at 100, 200 are of lengths 2 3, and 0 3. *)
Definition tA : view := Vw [Dim 2 3; Dim 3 1] 100.
Definition tE : view := Vw [Dim 0 3; Dim 3 1] 200.
Definition tC : view := Vw [Dim 3 1] 10.
Definition tD : view := Vw [Dim 2 1] 10.
Definition mT : mem Z := fun p => if p <? 100 then 0 else nth (Z.to_nat (p - 100)) [1; 3; 2; 7; 1; 3] 55.
Definition got (o : out (mem Z) (option view)) : option (list Z * list Z) := match o with Ok (Some v) m => Some (vshape v, map (fun j => m (vplace v j)) (indices (vshape v))) | _ => None end.
Lemma t_apart : forall n p, apart_at (Vw [Dim n 1] p).
Proof. intros n p i j Hi Hj E. inversion Hi as [|i0 ? i' ? Hi0 Hi']; subst. inversion Hj as [|j0 ? j' ? Hj0 Hj']; subst. inversion Hi'; subst. inversion Hj'; subst. unfold vplace in E. cbn [vcp vdv place step] in E. f_equal. lia. Qed.
Lemma t_separate : forall n, n <= 3 -> P_Cells.separate (Vw [Dim n 1] 10) tA.
Proof.
  intros n Hn i j Hi Hj E. inversion Hi as [|i0 ? i' ? Hi0 Hi']; subst. inversion Hi'; subst. inversion Hj as [|j0 ? j' ? Hj0 Hj']; subst. inversion Hj' as [|j1 ? j'' ? Hj1 Hj'']; subst. inversion Hj''; subst.
  unfold vplace in E. cbn [tA vcp vdv place step len] in *. lia.
Qed.
Definition low_99 (x y : Z) : bool := if y =? -99 then false else (x =? -99) || (x <? y).
Lemma low_order : total_order low_99 /\ forall x, low_99 x (-99) = false.
Proof.
  split; [|reflexivity]. unfold low_99. split; [|split].
  - intros x. destruct (Z.eqb_spec x (-99)); [auto|]. rewrite Z.ltb_irrefl. auto.
  - intros x y w. destruct (Z.eqb_spec y (-99)), (Z.eqb_spec w (-99)), (Z.eqb_spec x (-99)); cbn; try discriminate; auto. rewrite !Z.ltb_lt. lia.
  - intros x y. destruct (Z.eqb_spec y (-99)), (Z.eqb_spec x (-99)); cbn; try discriminate; [lia|]. rewrite !Z.ltb_ge. lia.
Qed.
Example C118_ex : (vshape tA = [2] ++ [3] /\ frame_axes (vrank tA) 1 1 /\ frame_axes (vrank tA) (-1) 1 /\ (forall i, inshape i (vshape tA) -> ~ (300 <= vplace tA i < 300 + zprod [3])) /\
    got (sum_cells false true z_init z_init Z.add 0 300 tA 1 mT) = Some ([3], [8; 4; 5]) /\ got (sum_cells true false z_init z_init Z.mul 1 300 tA 1 mT) = Some ([3], [7; 3; 6]) /\
    got (sum_cells false true z_init z_init (fun x y => 10 * x + y) 5 300 tA (-1) mT) = Some ([3], [517; 531; 523])) /\
  (vshape tE = [0] ++ [3] /\ got (sum_cells false true z_init z_init Z.add 0 300 tE 1 mT) = Some ([3], [0; 0; 0]) /\ got (sum_cells false true z_init z_init Z.mul 1 300 tE 1 mT) = Some ([3], [1; 1; 1])) /\
  (vshape tA = [2] ++ vshape tC /\ P_Cells.separate tC tA /\ apart_at tC /\ exists m1 m2, scalar_cells false true z_init z_init Z.add tC tA 1 mT = Ok None m1 /\ map m1 [9; 10; 11; 12; 13] = [0; 8; 4; 5; 0] /\
    scalar_cells2 true false z_init z_init Z.max tC tA 1 mT = Ok None m2 /\ map m2 [9; 10; 11; 12; 13] = [0; 7; 3; 3; 0]) /\
  (vshape tA = vshape tD ++ [3] /\ P_Cells.separate tD tA /\ apart_at tD /\ exists m1 m2, row_sums false true z_init z_init Z.add 0 tD tA 1 mT = Ok None m1 /\ map m1 [9; 10; 11; 12] = [0; 6; 11; 0] /\
    row_maxs false true z_init z_init low_99 (-99) tD tA 1 mT = Ok None m2 /\ map m2 [9; 10; 11; 12] = [0; 3; 7; 0]).
Proof.
  split; [|split; [|split]].
  - split; [reflexivity|]. split; [unfold frame_axes; cbn; lia|]. split; [unfold frame_axes; cbn; lia|]. split; [|vm_compute; auto].
    intros i Hi. inversion Hi as [|i0 ? i' ? Hi0 Hi']; subst. inversion Hi' as [|i1 ? i'' ? Hi1 Hi'']; subst. inversion Hi''; subst. unfold vplace. cbn [tA vcp vdv place step len] in *. lia.
  - vm_compute. auto.
  - split; [reflexivity|]. split; [apply t_separate; lia|]. split; [apply t_apart|]. do 2 eexists. vm_compute. auto.
  - split; [reflexivity|]. split; [apply t_separate; lia|]. split; [apply t_apart|]. do 2 eexists. vm_compute. auto.
Qed.
Print Assumptions C118_sum.
Print Assumptions C118_scalar_same.
Print Assumptions C118_scalar.
Print Assumptions C118_rows.
Print Assumptions C118_row_max.
