(* Property C157: indices in memory in bench/bench-sb.cc. *)
From Coq Require Import ZArith List Lia Bool.
From Verif Require Import Spec L_Spec Spec_Ply Spec_Expr M_Base M_Expr M_Ply M_Val Spec_Val L_Expr L_Agree L_Ply L_Stl L_Run L_Val P_Ply P_Reduce M_View Spec_View L_View P_View M_Slice Spec_Slice L_Slice P_Slice M_Frame Spec_Frame L_Frame P_Frame M_Mat Spec_Mat P_Mat P_Ext P_Outer M_Cells P_Cells P_Ref M_Stencil P_Stencil P_Roll M_Access P_Accum P_Select P_Sums M_Bench P_Bench M_Sb.
Import ListNotations.
Open Scope Z_scope.

(* the element of c that row i of ix is for *)
Definition pointed (c ix : view) (m : mem Z) (i : Z) : Z := m (vplace c [m (vplace ix [i; 0]); m (vplace ix [i; 1])]).
(* row i of ix is an index of c, of lengths M and N *)
Definition row_good (ix : view) (M N : Z) (m : mem Z) (i : Z) : Prop := 0 <= m (vplace ix [i; 0]) < M /\ 0 <= m (vplace ix [i; 1]) < N.

Section Sb.
Variables (fixed : bool) (z : list zt) (add : Z -> Z -> Z).
Hypothesis (Hz : zclean z).
Notation ex := (expr (val Z) (mem Z)).
Definition sum_pointed (c ix : view) (O : Z) (m : mem Z) : Z := fold_left add (map (pointed c ix m) (zrange O)) 0.

Lemma two_in : forall (a b M N : Z), 0 <= a < M -> 0 <= b < N -> inshape [a; b] [M; N]. Proof. intros. repeat constructor; auto; lia. Qed.
Lemma shape2 : forall (v : view) a b, vshape v = [a; b] -> exists s t, v = Vw [Dim a s; Dim b t] (vcp v).
Proof. intros [dv p] a b E. unfold vshape in E. cbn [vdv] in E. destruct dv as [|[a' s] [|[b' t] [|]]]; try discriminate E. injection E as -> ->. exists s, t. reflexivity. Qed.
(* reading a row of ix *)
Lemma read_row : forall (c : view) p w st M N (m : mem Z), vshape c = [M; N] -> 0 <= M -> 0 <= N -> 2 <= w ->
  ((0 <= m p < M /\ 0 <= m (p + st) < N) -> read_at c p w st m = Ok (VRef (vplace c [m p; m (p + st)])) m) /\ (~ (0 <= m p < M /\ 0 <= m (p + st) < N) -> read_at c p w st m = Fail m).
Proof.
  intros c p w st M N m Ec HM HN Hw. unfold read_at.
  assert (R : exists l, row_from p w st m = m p :: m (p + st) :: l).
  { unfold row_from. replace (Z.to_nat w) with (S (S (Z.to_nat (w - 2)))) by lia. cbn [seq map]. eexists. f_equal; [f_equal; lia|]. f_equal. f_equal. lia. }
  destruct R as (l & ->). assert (V : vrank c = 2%nat) by (rewrite vrank_shape, Ec; reflexivity). assert (F : firstn (vrank c) (m p :: m (p + st) :: l) = [m p; m (p + st)]) by (rewrite V; reflexivity). split; intros H.
  - rewrite (index_good add 0); [rewrite F; reflexivity|rewrite V; cbn; lia|rewrite F, Ec; apply two_in; tauto].
  - rewrite (index_bad add 0); [reflexivity|rewrite Ec; repeat (apply Forall_cons; [auto|]); constructor|rewrite V; cbn; lia|]. rewrite F, Ec. intros I. apply H. inversion I as [|? ? ? ? I1 I2]; inversion I2 as [|? ? ? ? I3 I4]; subst. auto.
Qed.

Section Read.
Variables (c ix : view) (M N O w : Z) (m : mem Z).
Hypothesis (Ec : vshape c = [M; N]) (Ei : vshape ix = [O; w]) (HM : 0 <= M) (HN : 0 <= N) (HO : 0 < O) (Hw : 2 <= w).

Lemma place2 : forall i, vplace ix [i; 0] = vcp ix + i * step (axis ix 0) /\ vplace ix [i; 1] = vcp ix + i * step (axis ix 0) + step (axis ix 1).
Proof. intros i. destruct (shape2 ix O w Ei) as (s & t & ->). unfold vplace, axis. cbn [vdv vcp place nth step]. lia. Qed.
Lemma axis_len : len (axis ix 0) = O /\ len (axis ix 1) = w.
Proof. destruct (shape2 ix O w Ei) as (s & t & ->). auto. Qed.


Lemma elem_at : forall i k, 0 <= i < O -> 0 <= k < 2 -> from ix [cidx i; cidx k] = Good (Vw [] (vplace ix [i; k])).
Proof. intros i k Hi Hk. apply (all_indices ix [i; k]). rewrite Ei. apply two_in; lia. Qed.
Definition get1 (i : Z) : M_Expr.M (mem Z) Z := onres (from ix [cidx i; cidx 0]) (fun a => onres (from ix [cidx i; cidx 1]) (fun b m => onres (from c [cidx (m (vcp a)); cidx (m (vcp b))]) (fun v m => Ok (m (vcp v)) m) m)).
Definition get2 (i : Z) : M_Expr.M (mem Z) Z := onres (from ix [cidx i]) (fun r => v <- read_at c (vcp r) (len (axis r 0)) (step (axis r 0)) ;; rd v).
Definition op3 : list (val Z) -> M_Expr.M (mem Z) (val Z) := op1 (fun v => match v with VI p => read_at c p (len (axis ix 1)) (step (axis ix 1)) | _ => undef end).
Definition get3 : ex := Map op3 [Cell (vdv ix) 1 VI (vcp ix)].

Lemma get1_good : forall i, 0 <= i < O -> row_good ix M N m i -> get1 i m = Ok (pointed c ix m i) m.
Proof.
  intros i Hi (G0 & G1). unfold get1. rewrite !elem_at by lia. cbn [onres vcp]. pose proof (all_indices c [m (vplace ix [i; 0]); m (vplace ix [i; 1])]) as A. cbn [map] in A. rewrite A by (rewrite Ec; apply two_in; auto). reflexivity.
Qed.
Lemma get1_bad : forall i, 0 <= i < O -> ~ row_good ix M N m i -> get1 i m = Fail m.
Proof.
  intros i Hi G. unfold get1. rewrite !elem_at by lia. cbn [onres vcp]. pose proof (bad_indices c [m (vplace ix [i; 0]); m (vplace ix [i; 1])]) as A. cbn [map] in A. rewrite A; [reflexivity| |rewrite Ec; reflexivity|].
  - rewrite Ec. repeat (apply Forall_cons; [auto|]). constructor.
  - rewrite Ec. intros F. apply G. inversion F as [|? ? ? ? F1 F2]; inversion F2 as [|? ? ? ? F3 F4]; subst. split; auto.
Qed.
Lemma get2_is : forall i, 0 <= i < O -> get2 i m = bind (read_at c (vplace ix [i; 0]) w (step (axis ix 1))) rd m.
Proof.
  intros i Hi. unfold get2. destruct (shape2 ix O w Ei) as (s & t & E). rewrite (one_axis_get ix i (Dim O s) [Dim w t]) by (auto; rewrite E; reflexivity). cbn [onres axis vdv vcp nth len step]. destruct (place2 i) as (-> & _). rewrite E. reflexivity.
Qed.
Lemma row_read : forall i, 0 <= i < O -> (row_good ix M N m i -> read_at c (vplace ix [i; 0]) w (step (axis ix 1)) m = Ok (VRef (vplace c [m (vplace ix [i; 0]); m (vplace ix [i; 1])])) m) /\
  (~ row_good ix M N m i -> read_at c (vplace ix [i; 0]) w (step (axis ix 1)) m = Fail m).
Proof.
  intros i Hi. destruct (read_row c (vplace ix [i; 0]) w (step (axis ix 1)) M N m Ec HM HN Hw) as (G & B). unfold row_good. destruct (place2 i) as (E0 & E1). replace (vplace ix [i; 1]) with (vplace ix [i; 0] + step (axis ix 1)) by lia. auto.
Qed.
Lemma get2_good : forall i, 0 <= i < O -> row_good ix M N m i -> get2 i m = Ok (pointed c ix m i) m.
Proof. intros i Hi G. rewrite get2_is by auto. unfold bind. destruct (row_read i Hi) as (R & _). rewrite R by auto. reflexivity. Qed.
Lemma get2_bad : forall i, 0 <= i < O -> ~ row_good ix M N m i -> get2 i m = Fail m.
Proof. intros i Hi G. rewrite get2_is by auto. unfold bind. destruct (row_read i Hi) as (_ & R). rewrite R by auto. reflexivity. Qed.
Lemma get3_at : forall i m1, element get3 [i] m1 = read_at c (vplace ix [i; 0]) w (step (axis ix 1)) m1.
Proof.
  intros i m1. unfold get3. destruct (shape2 ix O w Ei) as (s & t & E). destruct (place2 i) as (E0 & _). destruct axis_len as (_ & L). cbn [element map in_order]. rewrite E at 1 2. cbn [vdv firstn place step vcp ret]. unfold op3, op1. cbn [in_order]. rewrite L, E0. replace (step (axis ix 0)) with s by (rewrite E; reflexivity). replace (vcp ix + (i * s + 0)) with (vcp ix + i * s) by lia. reflexivity.
Qed.
Lemma get3_start : deref get3 m = read_at c (vplace ix [0; 0]) w (step (axis ix 1)) m.
Proof. destruct axis_len as (_ & L), (place2 0) as (E0 & _). cbn [deref get3]. cbn. unfold op3, op1. rewrite L, E0. replace (vcp ix + 0 * step (axis ix 0)) with (vcp ix) by lia. reflexivity. Qed.
Lemma get3_wf : wf get3 /\ shape_is get3 [O].
Proof.
  destruct (shape2 ix O w Ei) as (s & t & E). assert (W : wf (Cell (vdv ix) 1 VI (vcp ix) : ex)) by (rewrite E; split; [cbn; lia|]; apply Forall_cons; [left; cbn [len]; lia|constructor]). split; [apply wf_map; [discriminate|]; auto|].
  apply joint_shape_map, joint_shape_1. rewrite E. split; [reflexivity|]. intros k Hk. cbn in Hk. replace k with 0%nat by lia. cbn. split; [lia|]. split; [auto|]. apply Forall_cons; [auto|constructor].
Qed.

(* whatever the places of c and ix *)
Theorem C157_reads : (forall i, 0 <= i < O -> row_good ix M N m i) ->
  sb_subscript add c ix m = Ok (sum_pointed c ix O m) m /\ sb_at add c ix m = Ok (sum_pointed c ix O m) m /\ sb_at_op fixed z add c ix m = Ok (sum_pointed c ix O m) m.
Proof.
  intros G. destruct axis_len as (L & _).
  assert (Q : fold_left add (map (fun k => pointed c ix m (0 + Z.of_nat k)) (seq 0 (Z.to_nat O))) 0 = sum_pointed c ix O m) by (unfold sum_pointed, zrange; rewrite map_map; reflexivity).
  split; [|split].
  - unfold sb_subscript. rewrite L. rewrite (loop_good add get1 m (pointed c ix m)); [rewrite Q; auto|]. intros k Hk. apply get1_good; [lia|]. apply G. lia.
  - unfold sb_at. rewrite L. rewrite (loop_good add get2 m (pointed c ix m)); [rewrite Q; auto|]. intros k Hk. apply get2_good; [lia|]. apply G. lia.
  - change (sb_at_op fixed z add c ix m) with (sum fixed z add 0 get3 m). unfold sum, bind. rewrite get3_start. destruct (row_read 0) as (R & _); [lia|]. rewrite R by (apply G; lia). destruct get3_wf as (W3 & S3).
    rewrite (reduce1_spec Z fixed z (fun x c => add c x) get3 [O] (map (fun k => [k]) (zrange O)) m (fun j => pointed c ix m (nth 0 j 0))); auto using row_major_1.
    + unfold sum_pointed. rewrite map_map. reflexivity.
    + intros j Hj. apply in1e in Hj as (k & -> & Hk). destruct (row_read k Hk) as (Rk & _). rewrite get3_at, Rk by auto. eexists. split; reflexivity.
Qed.
Lemma first_fault : forall (P : Z -> Prop) n, 0 <= n -> (forall i, P i \/ ~ P i) -> (forall i, 0 <= i < n -> P i) \/ exists b, 0 <= b < n /\ ~ P b /\ forall i, 0 <= i < b -> P i.
Proof.
  intros P n Hn D. revert n Hn. apply natlike_ind; [left; lia|]. intros n Hn [IH|(b & B1 & B2 & B3)].
  - destruct (D n) as [Hp|Hp]; [left; intros i Hi; destruct (Z.eq_dec i n) as [->|]; [auto|apply IH; lia]|right; exists n; split; [lia|auto]].
  - right. exists b. split; [lia|auto].
Qed.
Theorem C157_refused : ~ (forall i, 0 <= i < O -> row_good ix M N m i) -> sb_subscript add c ix m = Fail m /\ sb_at add c ix m = Fail m /\ sb_at_op fixed z add c ix m = Fail m.
Proof.
  intros NG. destruct axis_len as (L & _). destruct (first_fault (row_good ix M N m) O) as [G|(b & B1 & B2 & B3)]; [lia|intros i; unfold row_good; lia|contradiction|].
  split; [|split].
  - unfold sb_subscript. rewrite L. apply (loop_bad add get1 m (pointed c ix m) _ _ _ b); [lia|intros k Hk; apply get1_good; [lia|auto]|apply get1_bad; auto].
  - unfold sb_at. rewrite L. apply (loop_bad add get2 m (pointed c ix m) _ _ _ b); [lia|intros k Hk; apply get2_good; [lia|auto]|apply get2_bad; auto].
  - change (sb_at_op fixed z add c ix m) with (sum fixed z add 0 get3 m). unfold sum, bind. rewrite get3_start. destruct (row_read b B1) as (_ & Bd). specialize (Bd B2). destruct (Z.eq_dec b 0) as [->|Nb]; [rewrite Bd; reflexivity|].
    destruct (row_read 0) as (R & _); [lia|]. rewrite R by (apply B3; lia). destruct get3_wf as (W3 & S3). unfold for_each_c.
    rewrite (ply_spec _ _ _ no_stop fixed z _ [O] (map (fun k => [k]) (zrange O))); auto using row_major_1.
    + rewrite visit_each. set (get := element _). assert (Zr : zrange O = zrange b ++ b :: map (fun k => b + (1 + k)) (zrange (O - b - 1))).
      { replace O with (b + (O - b)) at 1 by lia. rewrite zrange_app, (zrange_cons (O - b)) by lia. cbn [map]. rewrite Z.add_0_r, map_map. reflexivity. }
      rewrite Zr, map_app, each_app. cbn [map each].
      destruct (each_ok get (zrange b) m) with (v := 0) as (v' & Ev).
      * intros k v Hk. apply in_zrange in Hk. unfold get. cbn [map element in_order]. rewrite lift_element. unfold lift_op. cbn [fst snd]. destruct (row_read k) as (Rk & _); [lia|]. rewrite get3_at, Rk by (apply B3; auto). eexists. eexists. reflexivity.
      * rewrite Ev. unfold get at 1. cbn [map element in_order]. rewrite lift_element. unfold lift_op. cbn [fst snd]. rewrite get3_at, Bd. reflexivity.
    + apply wf_map; [discriminate|]. constructor; [apply lift_wf; auto|constructor].
    + apply joint_shape_map. apply joint_shape_1. split; [rewrite lift_axes; apply S3|]. rewrite lift_axes. intros k Hk. rewrite lift_lens. apply S3. auto.
Qed.
End Read.

Lemma ti_inner : forall k (s : list Z), (k < length s)%nat -> wf (tindex k : ex) /\ inner (tindex k : ex) s.
Proof.
  intros k s Hk. destruct (C58_axes Z (mem Z) k) as (W & A & L1 & L2). split; [auto|]. split; [rewrite A; lia|]. intros q. destruct (Nat.eq_dec q k) as [->|D]; [rewrite L1; auto|rewrite L2 by auto; constructor].
Qed.
Lemma filled_in : forall c M N (m : mem Z), vshape c = [M; N] -> 0 <= M -> 0 <= N -> apart_at c -> exists m', sb_fill fixed z c m = Ok None m' /\ becomes c (fun j => 4 * nth 0 j 0 + nth 1 j 0) m m'.
Proof.
  intros c M N m Ec HM HN Ac. unfold sb_fill. destruct (ti_inner 0 [M; N]) as (W0 & I0); [cbn; lia|]. destruct (ti_inner 1 [M; N]) as (W1 & I1); [cbn; lia|].
  apply (assign_to fixed z Hz put c _ [M; N] (fun j => 4 * nth 0 j 0 + nth 1 j 0) m); auto.
  - repeat (apply Forall_cons; [auto|]). constructor.
  - apply wf_map; [discriminate|]. auto.
  - apply inner_map. auto.
  - intros m1 _ j Hj. exists (VT (4 * nth 0 j 0 + nth 1 j 0)). split; [|reflexivity]. pose proof (inshape_length _ _ Hj) as Lj. cbn [length] in Lj. cbn [element map]. rewrite (in_order_2 _ _ _ _ _ (VI (nth 0 j 0)) m1 (VI (nth 1 j 0)) m1); [reflexivity| |]; apply C58_value; lia.
Qed.
Lemma indexed_in : forall ix O w k n r (m : mem Z), vshape ix = [O; w] -> 0 <= O -> 0 <= k < w -> apart_at ix -> 0 < n -> 0 <= r ->
  exists m', sb_index fixed z ix k n r m = Ok None m' /\ (forall i, 0 <= i < O -> m' (vplace ix [i; k]) = (i + r) mod n) /\ forall p, (forall i, 0 <= i < O -> p <> vplace ix [i; k]) -> m' p = m p.
Proof.
  intros ix O w k n r m Ei HO Hk Ai Hn Hr. unfold sb_index. destruct (col_of Z.add Z.add 0 ix O w k Ei Hk) as (v & -> & Sv & Pv). cbn [onres]. destruct (ti_inner 0 [O]) as (W0 & I0); [cbn; lia|].
  destruct (assign_to fixed z Hz put v (Map (op1 (fun u => match u with VI i => if n =? 0 then undef else ret (VT (Z.rem (i + r) n)) | _ => undef end)) [tindex 0]) [O] (fun j => (nth 0 j 0 + r) mod n) m) as (m' & E & V & U); auto.
  - apply Forall_cons; [auto|constructor].
  - intros i j Hi Hj. rewrite Sv in Hi, Hj. apply in1e in Hi as (x & -> & Hx). apply in1e in Hj as (y & -> & Hy). rewrite !Pv. intros F. specialize (Ai [x; k] [y; k]). rewrite Ei in Ai. assert (F2 : [x; k] = [y; k]) by (apply Ai; auto using two_in). injection F2 as ->. reflexivity.
  - apply wf_map; [discriminate|]. auto.
  - apply inner_map. auto.
  - intros m1 _ j Hj. pose proof (inshape_length _ _ Hj) as Lj. cbn [length] in Lj. exists (VT ((nth 0 j 0 + r) mod n)). split; [|reflexivity]. cbn [element map in_order]. rewrite C58_value by lia. unfold op1. cbn [in_order]. apply in1e in Hj as (x & -> & Hx). cbn [nth]. replace (n =? 0) with false by (symmetry; apply Z.eqb_neq; lia). rewrite Z.rem_mod_nonneg by lia. reflexivity.
  - exists m'. split; [auto|]. rewrite Sv in V, U. split.
    + intros i Hi. rewrite <- Pv. rewrite V by (apply P_Mat.in1; auto). reflexivity.
    + intros p Hp. apply U. intros j Hj. apply in1e in Hj as (i & -> & Hi). rewrite Pv. auto.
Qed.
Lemma test_from : forall c ix M N O w r0 r1 (m m1 m2 m3 : mem Z), vshape c = [M; N] -> vshape ix = [O; w] -> 0 < M -> 0 < N -> 0 < O -> 2 <= w -> sb_fill fixed z c m = Ok None m1 -> sb_index fixed z ix 0 M r0 m1 = Ok None m2 -> sb_index fixed z ix 1 N r1 m2 = Ok None m3 ->
  (forall i, 0 <= i < O -> row_good ix M N m3 i) -> sb_test fixed z add c ix r0 r1 m = Ok (repeat (sum_pointed c ix O m3) 4) m3.
Proof.
  intros c ix M N O w r0 r1 m m1 m2 m3 Ec Ei HM HN HO Hw E1 E2 E3 G. destruct (C157_reads c ix M N O w m3) as (R1 & R2 & R3); auto; try lia. destruct (axis_len c M N Ec) as (L0 & L1).
  unfold sb_test, bind. rewrite E1, L0, E2, L1, E3, R3, R1, R2, R3. reflexivity.
Qed.
(* C and I are different arrays *)
Theorem C157_apart : forall c ix M N O w r0 r1 (m : mem Z), vshape c = [M; N] -> vshape ix = [O; w] -> 0 < M -> 0 < N -> 0 < O -> 2 <= w -> 0 <= r0 -> 0 <= r1 -> apart_at c -> apart_at ix -> P_Cells.separate c ix ->
  exists m', sb_test fixed z add c ix r0 r1 m = Ok (repeat (fold_left add (map (fun i => 4 * ((i + r0) mod M) + (i + r1) mod N) (zrange O)) 0) 4) m'.
Proof.
  intros c ix M N O w r0 r1 m Ec Ei HM HN HO Hw H0 H1 Ac Ai Sp.
  destruct (filled_in c M N m) as (m1 & E1 & V1 & U1); auto; try lia. destruct (indexed_in ix O w 0 M r0 m1) as (m2 & E2 & V2 & U2); auto; try lia. destruct (indexed_in ix O w 1 N r1 m2) as (m3 & E3 & V3 & U3); auto; try lia.
  assert (K0 : forall i, 0 <= i < O -> m3 (vplace ix [i; 0]) = (i + r0) mod M).
  { intros i Hi. rewrite U3; [apply V2; auto|]. intros k Hk F. assert (F2 : [i; 0] = [k; 1]) by (apply Ai; rewrite ?Ei; auto; apply two_in; lia). discriminate F2. }
  exists m3. rewrite (test_from c ix M N O w r0 r1 m m1 m2 m3); auto.
  - f_equal. f_equal. unfold sum_pointed. f_equal. apply map_ext_in. intros i Hi. apply in_zrange in Hi. unfold pointed. rewrite K0, V3 by auto. pose proof (Z.mod_pos_bound (i + r0) M HM). pose proof (Z.mod_pos_bound (i + r1) N HN).
    assert (S : forall k j, 0 <= k < O -> 0 <= j < 2 -> vplace c [(i + r0) mod M; (i + r1) mod N] <> vplace ix [k; j]) by (intros k j Hk Hj; apply Sp; [rewrite Ec|rewrite Ei]; apply two_in; lia).
    rewrite U3, U2 by (intros; apply S; lia). rewrite V1 by (rewrite Ec; apply two_in; auto). reflexivity.
  - intros i Hi. unfold row_good. rewrite K0, V3 by auto. split; apply Z.mod_pos_bound; auto.
Qed.
(* C and I are the same array, as in test(bigs, bigs, ...): the indices are in the first two columns of C *)
Theorem C157_self : forall c M N r0 r1 (m : mem Z), vshape c = [M; N] -> 0 < M -> 2 <= N -> 0 <= r0 -> 0 <= r1 -> apart_at c ->
  exists m', sb_test fixed z add c c r0 r1 m = Ok (repeat (fold_left add (map (fun i => let a := (i + r0) mod M in let b := (i + r1) mod N in if b =? 0 then (a + r0) mod M else if b =? 1 then (a + r1) mod N else 4 * a + b) (zrange M)) 0) 4) m'.
Proof.
  intros c M N r0 r1 m Ec HM HN H0 H1 Ac.
  destruct (filled_in c M N m) as (m1 & E1 & V1 & U1); auto; try lia. destruct (indexed_in c M N 0 M r0 m1) as (m2 & E2 & V2 & U2); auto; try lia. destruct (indexed_in c M N 1 N r1 m2) as (m3 & E3 & V3 & U3); auto; try lia.
  assert (D : forall i j k l, 0 <= i < M -> 0 <= k < M -> 0 <= j < N -> 0 <= l < N -> j <> l -> vplace c [i; j] <> vplace c [k; l]).
  { intros i j k l Hi Hk Hj Hl Hn F. assert (F2 : [i; j] = [k; l]) by (apply Ac; rewrite ?Ec; auto using two_in). injection F2 as _ F3. auto. }
  assert (K0 : forall i, 0 <= i < M -> m3 (vplace c [i; 0]) = (i + r0) mod M) by (intros i Hi; rewrite U3; [apply V2; auto|intros k Hk; apply D; lia]).
  exists m3. rewrite (test_from c c M N M N r0 r1 m m1 m2 m3); auto; try lia.
  - f_equal. f_equal. unfold sum_pointed. f_equal. apply map_ext_in. intros i Hi. apply in_zrange in Hi. unfold pointed. rewrite K0, V3 by auto. cbv zeta. pose proof (Z.mod_pos_bound (i + r0) M HM) as A. assert (B : 0 <= (i + r1) mod N < N) by (apply Z.mod_pos_bound; lia).
    set (a := (i + r0) mod M) in *. set (b := (i + r1) mod N) in *. destruct (Z.eqb_spec b 0) as [->|N0]; [apply K0; auto|]. destruct (Z.eqb_spec b 1) as [->|N1]; [apply V3; auto|].
    rewrite U3, U2 by (intros; apply D; lia). rewrite V1 by (rewrite Ec; apply two_in; auto). reflexivity.
  - intros i Hi. unfold row_good. rewrite K0, V3 by auto. split; apply Z.mod_pos_bound; lia.
Qed.
End Sb.

(* so the sum for the pairs of the same array isn't that for the warmup *)
Theorem C157_refuted : exists (c ix : view) (m m1 m2 : mem Z), vshape c = [10; 4] /\ vshape ix = [10; 4] /\ apart_at c /\ apart_at ix /\ P_Cells.separate c ix /\
  sb_test true z_init Z.add c ix 0 0 m = Ok [193; 193; 193; 193] m1 /\ sb_test true z_init Z.add c c 0 0 m = Ok [97; 97; 97; 97] m2.
Proof.
  set (c := Vw [Dim 10 4; Dim 4 1] 0). set (ix := Vw [Dim 10 4; Dim 4 1] 40). assert (A : forall p, apart_at (Vw [Dim 10 4; Dim 4 1] p)).
  { intros p i j Hi Hj E. apply in2e in Hi as (a & b & -> & Ha & Hb). apply in2e in Hj as (a' & b' & -> & Ha' & Hb'). unfold vplace in E. cbn [vcp vdv place step len] in *. assert (a = a') by lia. subst. f_equal. f_equal. lia. }
  assert (S : P_Cells.separate c ix) by (intros i j Hi Hj E; apply in2e in Hi as (a & b & -> & Ha & Hb); apply in2e in Hj as (a' & b' & -> & Ha' & Hb'); unfold vplace, c, ix in E; cbn [vcp vdv place step len] in *; lia).
  destruct (C157_apart true z_init Z.add z_init_clean c ix 10 4 10 4 0 0 (fun _ => 77)) as (m1 & E1); auto; try lia; try apply A. destruct (C157_self true z_init Z.add z_init_clean c 10 4 0 0 (fun _ => 77)) as (m2 & E2); auto; try lia; try apply A.
  exists c, ix, (fun _ => 77), m1, m2. do 2 (split; [reflexivity|]). do 2 (split; [apply A|]). split; [exact S|]. rewrite E1, E2. split; reflexivity.
Qed.
(* a row with an index that isn't in range, the last one *)
Example C157_refused_ex : let m := fun p => if p =? 7 then 2 else 1 in let c := Vw [Dim 2 2; Dim 2 1] 0 in let ix := Vw [Dim 2 2; Dim 2 1] 4 in ~ (forall i, 0 <= i < 2 -> row_good ix 2 2 m i) /\ sb_at Z.add c ix m = Fail m.
Proof. cbv zeta. split; [|reflexivity]. intros H. destruct (H 1) as (_ & H1); [lia|]. vm_compute in H1. destruct H1 as (_ & H1). discriminate H1. Qed.
Print Assumptions C157_reads. Print Assumptions C157_refused. Print Assumptions C157_apart. Print Assumptions C157_self. Print Assumptions C157_refuted.
