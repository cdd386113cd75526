(* Property C124: the mesh and the equations of examples/laplace3d.cc. *)
From Coq Require Import ZArith List Lia Bool Permutation Field_theory Field.
From Verif Require Import Spec L_Spec Spec_Ply Spec_Expr Spec_Frame M_Base M_Expr M_Ply M_Val Spec_Val L_Expr L_Agree L_Ply L_Run L_Val P_Reduce M_View Spec_View L_View M_Slice M_Frame P_Frame M_Mat Spec_Mat P_Mat L_Wedge P_Outer M_Cells P_Cells P_Ref M_Ext P_Ext M_Stencil P_Stencil P_Roll M_Cg Spec_Cg L_Cg P_Cg M_Poisson P_Poisson M_Assembly P_Assembly M_Mesh.
Import ListNotations.
Open Scope Z_scope.

(* ---- numbering ---- *)
Lemma pair_inj : forall n a b c d, 0 <= b < n -> 0 <= d < n -> n * a + b = n * c + d -> a = c /\ b = d.
Proof. intros n a b c d Hb Hd E. destruct (Z.div_mod_unique n a c b d) as [H1 H2]; auto. Qed.
Lemma pos_inj : forall n i j k i' j' k', 0 <= j < n -> 0 <= k < n -> 0 <= j' < n -> 0 <= k' < n -> pos n i j k = pos n i' j' k' -> i = i' /\ j = j' /\ k = k'.
Proof.
  intros n i j k i' j' k' Hj Hk Hj' Hk' E. unfold pos in E. apply pair_inj in E as [E1 E2]; auto. apply pair_inj in E1 as [E1 E3]; auto.
Qed.
Lemma pair_range : forall n p a b, 0 <= a < p -> 0 <= b < n -> 0 <= n * a + b < p * n.
Proof. intros n p a b Ha Hb. assert (n * a <= n * (p - 1)) by (apply Z.mul_le_mono_nonneg_l; lia). assert (0 <= n * a) by (apply Z.mul_nonneg_nonneg; lia). lia. Qed.
Lemma pos_range : forall n i j k, 0 <= i < n -> 0 <= j < n -> 0 <= k < n -> 0 <= pos n i j k < n * n * n.
Proof. intros n i j k Hi Hj Hk. unfold pos. apply pair_range; auto. apply pair_range; auto. Qed.
Lemma pair_surj : forall n p q, 0 <= n -> 0 <= q < p * n -> exists a b, 0 <= a < p /\ 0 <= b < n /\ q = n * a + b.
Proof.
  intros n p q Hn Hq. assert (0 < n) by (destruct (Z.eq_dec n 0) as [->|]; lia). exists (q / n), (q mod n).
  pose proof (Z.mod_pos_bound q n ltac:(lia)). pose proof (Z.div_mod q n ltac:(lia)). assert (0 <= q / n) by (apply Z.div_pos; lia). assert (q / n < p) by (apply Z.div_lt_upper_bound; lia). auto.
Qed.
Lemma pos_surj : forall n q, 0 <= n -> 0 <= q < n * n * n -> exists i j k, 0 <= i < n /\ 0 <= j < n /\ 0 <= k < n /\ q = pos n i j k.
Proof.
  intros n q Hn Hq. destruct (pair_surj n (n * n) q Hn Hq) as (a & k & Ha & Hk & ->). destruct (pair_surj n n a Hn Ha) as (i & j & Hi & Hj & ->). exists i, j, k. auto.
Qed.
Lemma isf_bit : forall v c, isf v c = 0 \/ isf v c = 1.
Proof.
  intros v c. unfold isf. destruct (Z.to_nat v) as [|[|[|[|[|[|[|[|x]]]]]]]]; destruct c as [|[|[|[|c]]]]; cbn; try (destruct x); auto.
Qed.
Definition eight (P : Z -> Prop) : Prop := P 0 /\ P 1 /\ P 2 /\ P 3 /\ P 4 /\ P 5 /\ P 6 /\ P 7.
Lemma by_eight : forall P : Z -> Prop, eight P -> forall v, 0 <= v < 8 -> P v.
Proof.
  intros P (H0 & H1 & H2 & H3 & H4 & H5 & H6 & H7) v Hv. assert (E : v = 0 \/ v = 1 \/ v = 2 \/ v = 3 \/ v = 4 \/ v = 5 \/ v = 6 \/ v = 7) by lia. intuition (subst; auto).
Qed.
(* each vertex of the unit cube once *)
Lemma isf_inj : forall v w, 0 <= v < 8 -> 0 <= w < 8 -> isf v 0 = isf w 0 -> isf v 1 = isf w 1 -> isf v 2 = isf w 2 -> v = w.
Proof.
  intros v w Hv. revert w. pattern v. revert v Hv. apply by_eight. repeat split; intros w Hw; pattern w; revert w Hw; apply by_eight; repeat split; cbn; intros; auto; discriminate.
Qed.

(* ---- a traversal that writes ---- *)
Section Writes.
Variables (T : Type) (get : list Z -> M (mem T) (val T)) (pl : list Z -> Z) (x : list Z -> T).
Lemma visit_writes : forall js (m : mem T), (forall j m, In j js -> get j m = Ok VUnit (wr (pl j) (x j) m)) -> visit no_stop get js m = Ok None (fold_left (fun m j => wr (pl j) (x j) m) js m).
Proof.
  induction js as [|j js IH]; intros m H; cbn [visit fold_left]; auto. rewrite H by (left; auto). cbn [no_stop]. apply IH. intros; apply H; right; auto.
Qed.
Lemma writes_other : forall js (m : mem T) p, (forall j, In j js -> p <> pl j) -> fold_left (fun m j => wr (pl j) (x j) m) js m p = m p.
Proof.
  induction js as [|j js IH]; intros m p H; cbn [fold_left]; auto. rewrite IH by (intros; apply H; right; auto). unfold wr. destruct (Z.eqb_spec p (pl j)); auto. exfalso. apply (H j); auto. left; auto.
Qed.
Lemma writes_at : forall js (m : mem T), NoDup js -> (forall i j, In i js -> In j js -> pl i = pl j -> i = j) -> forall j, In j js -> fold_left (fun m j => wr (pl j) (x j) m) js m (pl j) = x j.
Proof.
  induction js as [|a js IH]; intros m Hd Hi j Hj; [destruct Hj|]. inversion Hd as [|? ? Ha Hd']; subst. cbn [fold_left]. destruct Hj as [->|Hj].
  - rewrite writes_other; [unfold wr; rewrite Z.eqb_refl; auto|]. intros b Hb E. apply Hi in E; [subst; contradiction|left; auto|right; auto].
  - apply IH; auto. intros; apply Hi; auto; right; auto.
Qed.
End Writes.
Lemma iota_wf : forall T n, 0 <= n -> wf (@iota_e T (mem T) n) /\ extents (@iota_e T (mem T) n) [n].
Proof.
  intros T n Hn. split; [split; [cbn; lia|apply Forall_cons; [left; auto|constructor]]|]. apply shape_extents. split; [reflexivity|]. intros k Hk. cbn in Hk. replace k with 0%nat by lia. cbn. split; [lia|]. split; [auto|]. apply Forall_cons; [auto|constructor].
Qed.
Lemma in4 : forall j n, inshape j [n; n; n; 8] -> exists a b c v, j = [a; b; c; v] /\ 0 <= a < n /\ 0 <= b < n /\ 0 <= c < n /\ 0 <= v < 8.
Proof.
  intros j n H. inversion H as [|a ? ? ? Ha H1]; subst. inversion H1 as [|b ? ? ? Hb H2]; subst. inversion H2 as [|c ? ? ? Hc H3]; subst. inversion H3 as [|v ? ? ? Hv H4]; subst. inversion H4; subst. exists a, b, c, v. auto.
Qed.
Lemma in4i : forall n a b c v, 0 <= a < n -> 0 <= b < n -> 0 <= c < n -> 0 <= v < 8 -> inshape [a; b; c; v] [n; n; n; 8].
Proof. intros. repeat (apply Forall2_cons; auto). Qed.
(* Each element gets the numbers of its vertices. *)
Theorem C124_elements : forall fixed z e0 n (m : mem Z), 0 <= n -> zclean z -> exists m', set_elements fixed z e0 n m = Ok None m' /\
  (forall i j k v, 0 <= i < n -> 0 <= j < n -> 0 <= k < n -> 0 <= v < 8 -> m' (e0 + 8 * pos n i j k + v) = pos (n + 1) (i + isf v 0) (j + isf v 1) (k + isf v 2)) /\
  forall p, ~ e0 <= p < e0 + 8 * (n * n * n) -> m' p = m p.
Proof.
  intros fixed z e0 n m Hn Hz. unfold set_elements. destruct (iota_wf Z n Hn) as (Wn & Xn). destruct (iota_wf Z 8 ltac:(lia)) as (W8 & X8).
  destruct (C26_outer _ _ (vertex_op e0 n) [iota_e n; iota_e n; iota_e n; iota_e 8] [[n]; [n]; [n]; [8]]) as (e & E & We & Xe & Ee); [discriminate|repeat (apply Forall_cons; auto)|repeat (apply Forall2_cons; auto)|].
  rewrite E. cbn [concat app] in *. assert (Se : shape_is e [n; n; n; 8]) by (apply shape_extents; split; auto; repeat (apply Forall_cons; [lia|]); constructor).
  set (pl := fun j : list Z => e0 + 8 * pos n (nth 0 j 0) (nth 1 j 0) (nth 2 j 0) + nth 3 j 0). set (x := fun j : list Z => pos (n + 1) (nth 0 j 0 + isf (nth 3 j 0) 0) (nth 1 j 0 + isf (nth 3 j 0) 1) (nth 2 j 0 + isf (nth 3 j 0) 2)).
  rewrite (ply_spec _ _ _ no_stop fixed z e _ (indices [n; n; n; 8]) We Se (row_major_indices _) Hz). rewrite (visit_writes Z (element e) pl x).
  - eexists. split; [reflexivity|]. split.
    + intros i j k v Hi Hj Hk Hv. change (e0 + 8 * pos n i j k + v) with (pl [i; j; k; v]). rewrite (writes_at Z pl x); [reflexivity|apply indices_nodup| |apply in_indices, in4i; auto].
      intros j1 j2 H1 H2 Q. apply in_indices, in4 in H1 as (a & b & c & w & -> & Ha & Hb & Hc & Hw). apply in_indices, in4 in H2 as (a' & b' & c' & w' & -> & Ha' & Hb' & Hc' & Hw'). unfold pl in Q. cbn [nth] in Q.
      destruct (pair_inj 8 (pos n a b c) w (pos n a' b' c') w') as (Q1 & ->); auto; [lia|]. apply pos_inj in Q1 as (-> & -> & ->); auto.
    + intros p Hp. apply writes_other. intros j Hj ->. apply Hp. apply in_indices, in4 in Hj as (a & b & c & w & -> & Ha & Hb & Hc & Hw). unfold pl. cbn [nth]. pose proof (pos_range n a b c Ha Hb Hc). lia.
  - intros j m0 Hj. apply in_indices, in4 in Hj as (a & b & c & w & -> & Ha & Hb & Hc & Hw). specialize (Ee [[a]; [b]; [c]; [w]] m0). cbn [concat app] in Ee. rewrite Ee by (repeat (apply Forall2_cons; [reflexivity|]); constructor).
    cbn [each2 in_order iota_e element]. unfold bind, ret. cbn [firstn place step vertex_op]. rewrite !Z.mul_1_r, !Z.add_0_r. cbn [Z.add].
    unfold inside. pose proof (pos_range n a b c Ha Hb Hc). destruct (Z.leb_spec 0 (pos n a b c)); [|lia]. destruct (Z.ltb_spec (pos n a b c) (n * n * n)); [|lia]. reflexivity.
Qed.

(* ---- the border ---- *)
Fixpoint pushes (b0 n : Z) (l : list Z) : M (mem Z * Z) unit := match l with [] => ret tt | q :: r => _ <- put_b b0 n q ;; pushes b0 n r end.
Lemma push_app : forall b0 n l k s, pushes b0 n (l ++ k) s = (_ <- pushes b0 n l ;; pushes b0 n k) s.
Proof.
  intros b0 n l k. induction l as [|q l IH]; intros s; cbn [app pushes]; [reflexivity|]. unfold bind in *. destruct (put_b b0 n q s); auto.
Qed.
Lemma up_pushes : forall b0 n (f : Z -> M (mem Z * Z) unit) g, (forall i s, f i s = pushes b0 n (g i) s) -> forall r i s, up_to r i f s = pushes b0 n (flat_map g (map (fun k => i + Z.of_nat k) (seq 0 r))) s.
Proof.
  intros b0 n f g H. induction r as [|r IH]; intros i s; cbn [up_to seq map flat_map]; [reflexivity|]. rewrite push_app. rewrite Z.add_0_r. unfold bind. rewrite H. destruct (pushes b0 n (g i) s) as [u s1| |]; auto.
  rewrite IH. rewrite <- seq_shift, map_map. do 2 f_equal. apply map_ext. intros a. lia.
Qed.
Lemma pushes_run : forall b0 n l m k, 0 <= k -> k + Z.of_nat (length l) <= 6 * (n + 1) * (n + 1) ->
  exists m', pushes b0 n l (m, k) = Ok tt (m', k + Z.of_nat (length l)) /\ (forall i, (i < length l)%nat -> m' (b0 + k + Z.of_nat i) = nth i l 0) /\ forall p, ~ b0 + k <= p < b0 + k + Z.of_nat (length l) -> m' p = m p.
Proof.
  intros b0 n l. induction l as [|q l IH]; intros m k Hk Hl; cbn [pushes].
  - exists m. split; [cbn; rewrite Z.add_0_r; reflexivity|]. split; [intros i Hi; cbn in Hi; lia|auto].
  - cbn [length] in *. unfold bind, put_b. cbn [fst snd]. unfold inside. destruct (Z.leb_spec 0 k); [|lia]. destruct (Z.ltb_spec k (6 * (n + 1) * (n + 1))); [|lia]. cbn [andb].
    destruct (IH (wr (b0 + k) q m) (k + 1)) as (m' & E & V & O); [lia|lia|]. exists m'. split; [rewrite E; do 2 f_equal; lia|]. split.
    + intros [|i] Hi; cbn [nth]; [|rewrite <- (V i) by lia; f_equal; lia]. rewrite O by lia. unfold wr. destruct (Z.eqb_spec (b0 + k + Z.of_nat 0) (b0 + k)); [reflexivity|lia].
    + intros p Hp. rewrite O by lia. unfold wr. destruct (Z.eqb_spec p (b0 + k)); [lia|reflexivity].
Qed.
Definition six (n i j : Z) : list Z := [pos (n + 1) 0 i j; pos (n + 1) n i j; pos (n + 1) i 0 j; pos (n + 1) i n j; pos (n + 1) i j 0; pos (n + 1) i j n].
Definition faces (n : Z) : list Z := flat_map (fun i => flat_map (six n i) (zrange (n + 1))) (zrange (n + 1)).
Lemma faces_length : forall n, 0 <= n -> Z.of_nat (length (faces n)) = 6 * (n + 1) * (n + 1).
Proof.
  intros n Hn. assert (F : forall A (f : A -> list Z) c l, (forall a, length (f a) = c) -> length (flat_map f l) = (length l * c)%nat) by (intros A f c l H; induction l; cbn; auto; rewrite app_length, H, IHl; auto).
  unfold faces. rewrite (F _ _ (Z.to_nat (n + 1) * 6)%nat); [|intros a; rewrite (F _ _ 6%nat); [rewrite zrange_length; auto|reflexivity]]. rewrite zrange_length. lia.
Qed.
Lemma in_faces : forall n q, 0 <= n -> In q (faces n) <-> exists i j k, 0 <= i <= n /\ 0 <= j <= n /\ 0 <= k <= n /\ q = pos (n + 1) i j k /\ (i = 0 \/ i = n \/ j = 0 \/ j = n \/ k = 0 \/ k = n).
Proof.
  intros n q Hn. unfold faces. rewrite in_flat_map. split.
  - intros (i & Hi & H). apply in_flat_map in H as (j & Hj & H). apply in_zrange in Hi. apply in_zrange in Hj. destruct H as [<-|[<-|[<-|[<-|[<-|[<-|[]]]]]]].
    + exists 0, i, j. repeat split; auto; lia.
    + exists n, i, j. repeat split; auto; lia.
    + exists i, 0, j. repeat split; auto; lia.
    + exists i, n, j. repeat split; auto; lia.
    + exists i, j, 0. repeat split; auto; lia.
    + exists i, j, n. repeat split; auto 10; lia.
  - intros (i & j & k & Hi & Hj & Hk & -> & C). assert (R : forall x, 0 <= x <= n -> In x (zrange (n + 1))) by (intros; apply in_zrange; lia).
    destruct C as [->|[->|[->|[->|[->| ->]]]]]; [exists j|exists j|exists i|exists i|exists i|exists i]; (split; [auto|]); apply in_flat_map; [exists k|exists k|exists k|exists k|exists j|exists j]; (split; [auto|]); cbn; tauto.
Qed.
(* The border has the vertices of the six faces, and no others. *)
Theorem C124_border : forall b0 n (m : mem Z), 0 <= n -> exists m', set_border b0 n m = Ok tt m' /\
  (forall q, In q (border_of m' b0 n) <-> exists i j k, 0 <= i <= n /\ 0 <= j <= n /\ 0 <= k <= n /\ q = pos (n + 1) i j k /\ (i = 0 \/ i = n \/ j = 0 \/ j = n \/ k = 0 \/ k = n)) /\
  forall p, ~ b0 <= p < b0 + 6 * (n + 1) * (n + 1) -> m' p = m p.
Proof.
  intros b0 n m Hn. unfold set_border. rewrite (up_pushes b0 n _ (fun i => flat_map (six n i) (zrange (n + 1)))).
  - change (map (fun k => 0 + Z.of_nat k) (seq 0 (Z.to_nat (n + 1)))) with (zrange (n + 1)). fold (faces n). destruct (pushes_run b0 n (faces n) m 0) as (m' & E & V & O); [lia|rewrite faces_length by auto; lia|].
    rewrite E. exists m'. cbn [fst]. split; [reflexivity|]. rewrite faces_length in O by auto. split; [|intros p Hp; apply O; lia]. intros q. rewrite <- in_faces by auto.
    replace (border_of m' b0 n) with (faces n); [reflexivity|]. apply (nth_ext _ _ 0 0).
    + unfold border_of. rewrite map_length, seq_length, <- faces_length by auto. lia.
    + intros i Hi. rewrite <- V by auto. unfold border_of. rewrite (nth_indep _ 0 (m' (b0 + Z.of_nat 0))) by (rewrite map_length, seq_length, <- faces_length by auto; lia). rewrite (map_nth (fun k => m' (b0 + Z.of_nat k))), seq_nth by (rewrite <- faces_length by auto; lia). f_equal. lia.
  - intros i s. rewrite (up_pushes b0 n _ (six n i)); [reflexivity|]. intros j s'. unfold border_ij, six. cbn [pushes]. unfold bind, ret. destruct (put_b _ _ _ s') as [u1 s1| |]; auto. destruct (put_b _ _ _ s1) as [u2 s2| |]; auto. destruct (put_b _ _ _ s2) as [u3 s3| |]; auto. destruct (put_b _ _ _ s3) as [u4 s4| |]; auto. destruct (put_b _ _ _ s4) as [u5 s5| |]; auto. destruct (put_b _ _ _ s5) as [[] s6| |]; auto.
Qed.

Lemma range_nodup : forall n, NoDup (zrange n).
Proof. intros n. unfold zrange. apply FinFun.Injective_map_NoDup; [intros x y; lia|apply seq_NoDup]. Qed.

(* ---- the mesh ---- *)
(* the numbers of the vertices in memory, as C124_elements and C124_border have them *)
Definition meshed (mi : mem Z) (e0 b0 n : Z) : Prop :=
  (forall i j k v, 0 <= i < n -> 0 <= j < n -> 0 <= k < n -> 0 <= v < 8 -> mi (e0 + 8 * pos n i j k + v) = pos (n + 1) (i + isf v 0) (j + isf v 1) (k + isf v 2)) /\
  forall q, In q (border_of mi b0 n) <-> exists i j k, 0 <= i <= n /\ 0 <= j <= n /\ 0 <= k <= n /\ q = pos (n + 1) i j k /\ (i = 0 \/ i = n \/ j = 0 \/ j = n \/ k = 0 \/ k = n).
Theorem C124_mesh : forall fixed z e0 b0 n (m : mem Z), 0 <= n -> zclean z -> e0 + 8 * (n * n * n) <= b0 \/ b0 + 6 * (n + 1) * (n + 1) <= e0 ->
  exists m1 m2, set_elements fixed z e0 n m = Ok None m1 /\ set_border b0 n m1 = Ok tt m2 /\ meshed m2 e0 b0 n.
Proof.
  intros fixed z e0 b0 n m Hn Hz Hd. destruct (C124_elements fixed z e0 n m Hn Hz) as (m1 & E1 & V1 & O1). destruct (C124_border b0 n m1 Hn) as (m2 & E2 & V2 & O2). exists m1, m2. split; [auto|]. split; [auto|]. split; [|auto].
  intros i j k v Hi Hj Hk Hv. rewrite O2; [apply V1; auto|]. pose proof (pos_range n i j k Hi Hj Hk). lia.
Qed.

Section Equations.
Context {T : Type}.
Variables (zero one : T) (add mul sub : T -> T -> T) (opp : T -> T) (div : T -> T -> T) (inv : T -> T) (ltb : T -> T -> bool).
Hypothesis (Hord : ordered zero one add mul sub opp div inv ltb).
Notation vec := (list Z -> T).
Let Hf : field_theory zero one add mul sub opp div inv eq := proj1 Hord.
Add Field Tfield5 : Hf.
Declare Scope T_scope.
Delimit Scope T_scope with T.
Infix "+" := add : T_scope.
Infix "*" := mul : T_scope.
Infix "-" := sub : T_scope.
Infix "/" := div : T_scope.
Notation "- x" := (opp x) : T_scope.
Notation "0" := zero : T_scope.
Notation "1" := one : T_scope.
Notation tot := (tot zero add).
Notation tot_zero := (tot_zero zero one add mul sub opp div inv ltb Hord).
Notation tot_add := (tot_add zero one add mul sub opp div inv ltb Hord).
Notation tot_scale := (tot_scale zero one add mul sub opp div inv ltb Hord).
Notation tot_swap := (tot_swap zero one add mul sub opp div inv ltb Hord).
Notation tot_map := (tot_map zero add).
Notation lt_irr := (lt_irr zero one add mul sub opp div inv ltb Hord).
Notation lit := (lit zero one add).

(* ---- numbers ---- *)
Lemma one_pos : ltb zero one = true.
Proof. replace one with (1 * 1)%T by ring. apply (square_pos zero one add mul sub opp div inv ltb Hord). apply (F_1_neq_0 Hf). Qed.
Lemma lit_pos : forall k, (0 < k)%nat -> ltb zero (lit k) = true.
Proof.
  induction k as [|k IH]; [lia|]. intros _. cbn [M_Mesh.lit]. destruct k as [|k]; [cbn; replace (0 + 1)%T with 1%T by ring; apply one_pos|].
  apply (lt_tr zero one add mul sub opp div inv ltb Hord) with one; [apply one_pos|]. pose proof (IH ltac:(lia)) as P. apply (lt_add zero one add mul sub opp div inv ltb Hord _ _ one) in P. replace (0 + 1)%T with 1%T in P by ring. exact P.
Qed.
Lemma pos_not : forall a, ltb zero a = true -> a <> zero.
Proof. intros a H E. rewrite E, lt_irr in H. discriminate. Qed.
Lemma lit_not : forall k, (0 < k)%nat -> lit k <> zero.
Proof. intros k Hk. apply pos_not, lit_pos; auto. Qed.
Definition sixth : T := (1 / lit 6)%T.
Lemma inv_pos : forall a, ltb zero a = true -> ltb zero (1 / a)%T = true.
Proof.
  intros a P. pose proof (pos_not a P) as Na. assert (Q : (1 / a)%T <> zero) by (intros Q; apply (F_1_neq_0 Hf); transitivity (a * (1 / a))%T; [field; auto|rewrite Q; ring]).
  replace (1 / a)%T with (a * ((1 / a) * (1 / a)))%T by (field; auto). apply (proj2 (proj2 (proj2 Hord))); auto. apply (square_pos zero one add mul sub opp div inv ltb Hord); auto.
Qed.
Lemma sixth_pos : ltb zero sixth = true.
Proof. apply inv_pos, lit_pos; lia. Qed.
Lemma div_is : forall a b x, b <> zero -> (x * b)%T = a -> (a / b)%T = x.
Proof. intros a b x Hb <-. field. auto. Qed.
Lemma sixth_six : (sixth * lit 6)%T = one.
Proof. unfold sixth. field. apply lit_not. lia. Qed.
Lemma d23_sixth : d23 zero one add div = ((1 + 1 + 1 + 1) * sixth)%T.
Proof. apply div_is; [apply lit_not; lia|]. transitivity ((sixth * lit 6) * lit 2)%T; [cbn [M_Mesh.lit]; ring|rewrite sixth_six; ring]. Qed.
Lemma d16_sixth : d16 zero one add div opp = (- sixth)%T.
Proof. apply div_is; [apply lit_not; lia|]. transitivity (- (sixth * lit 6))%T; [ring|rewrite sixth_six; ring]. Qed.

(* ---- the elements ---- *)
Variables (mi : mem Z) (e0 b0 r0 n : Z).
Hypothesis (Hn : 1 <= n) (Hmesh : meshed mi e0 b0 n).
Notation N := ((n + 1) * (n + 1) * (n + 1)).
Notation es := (elements_of mi e0 r0 n).
Notation bnd := (border_of mi b0 n).
Notation at_ := (pos (n + 1)).
Definition elq (q : Z) : element_ := El (map (fun v => mi (e0 + 8 * q + v)) (zrange 8)) (r0 + 16 * q) (r0 + 16 * q + 8).
Definition cell (i j k : Z) : element_ := elq (pos n i j k).
Lemma es_map : es = map elq (zrange (n * n * n)).
Proof. unfold elements_of, zrange. rewrite map_map. apply map_ext. intros q. unfold elq, zrange. rewrite map_map. reflexivity. Qed.
Lemma vert_cell : forall i j k v, 0 <= i < n -> 0 <= j < n -> 0 <= k < n -> 0 <= v < 8 -> vert (cell i j k) v = at_ (i + isf v 0) (j + isf v 1) (k + isf v 2).
Proof.
  intros i j k v Hi Hj Hk Hv. rewrite <- (proj1 Hmesh) by auto. unfold vert, cell, elq. cbn [ev]. rewrite (nth_indep _ 0 (mi (e0 + 8 * pos n i j k + 0))) by (rewrite map_length, zrange_length; lia).
  rewrite (map_nth (fun v => mi (e0 + 8 * pos n i j k + v))), zrange_nth by lia. f_equal. lia.
Qed.
Lemma vertex_range : forall i j k, 0 <= i <= n -> 0 <= j <= n -> 0 <= k <= n -> 0 <= at_ i j k < N.
Proof. intros. apply pos_range; lia. Qed.
Lemma cell_range : forall i v c, 0 <= i < n -> 0 <= i + isf v c <= n.
Proof. intros i v c Hi. destruct (isf_bit v c); lia. Qed.
Lemma cell_good : forall i j k, 0 <= i < n -> 0 <= j < n -> 0 <= k < n -> good_element 8 N (cell i j k).
Proof.
  intros i j k Hi Hj Hk. assert (L : length (ev (cell i j k)) = 8%nat) by (cbn [ev cell elq]; rewrite map_length, zrange_length; reflexivity). split; [rewrite L; reflexivity|].
  assert (Nt : forall x, (x < 8)%nat -> nth x (ev (cell i j k)) 0 = vert (cell i j k) (Z.of_nat x)) by (intros x Hx; unfold vert; rewrite Nat2Z.id; reflexivity). split.
  - apply Forall_forall. intros q Hq. apply (In_nth _ _ 0) in Hq as (x & Hx & <-). rewrite Nt, vert_cell by lia. apply vertex_range; apply cell_range; auto.
  - apply (NoDup_nth _ 0). intros x y Hx Hy E. rewrite L in *. rewrite !Nt, !vert_cell in E by lia.
    pose proof (cell_range j (Z.of_nat x) 1 Hj). pose proof (cell_range k (Z.of_nat x) 2 Hk). pose proof (cell_range j (Z.of_nat y) 1 Hj). pose proof (cell_range k (Z.of_nat y) 2 Hk).
    apply pos_inj in E as (E1 & E2 & E3); try lia. apply Nat2Z.inj. apply isf_inj; lia.
Qed.
Lemma es_good : Forall (good_element 8 N) es.
Proof.
  rewrite es_map. apply Forall_map, Forall_forall. intros q Hq. apply in_zrange in Hq. destruct (pos_surj n q ltac:(lia) Hq) as (i & j & k & Hi & Hj & Hk & ->). apply cell_good; auto.
Qed.
Lemma bnd_range : Forall (fun q => 0 <= q < N) bnd.
Proof. apply Forall_forall. intros q Hq. apply (proj2 Hmesh) in Hq as (i & j & k & Hi & Hj & Hk & -> & _). apply vertex_range; auto. Qed.
(* the vertices not in the border *)
Lemma free_at : forall i j k, 0 <= i <= n -> 0 <= j <= n -> 0 <= k <= n -> free bnd [at_ i j k] = true <-> (0 < i < n /\ 0 < j < n /\ 0 < k < n).
Proof.
  intros i j k Hi Hj Hk. split.
  - intros F. assert (Q : ~ In (at_ i j k) bnd) by (intros Q; apply free_iff in Q; congruence). rewrite (proj2 Hmesh) in Q.
    assert (Q' : ~ (i = 0 \/ i = n \/ j = 0 \/ j = n \/ k = 0 \/ k = n)) by (intros Q'; apply Q; exists i, j, k; auto). lia.
  - intros H. destruct (free bnd [at_ i j k]) eqn:F; auto. exfalso. apply free_iff in F. apply (proj2 Hmesh) in F as (i' & j' & k' & Hi' & Hj' & Hk' & E & C). apply pos_inj in E as (-> & -> & ->); lia.
Qed.

(* ---- the matrix at a vertex ---- *)
Section Table.
Variables (Mf : Z -> Z -> T) (h : T).
Notation mat := (matrix zero add mul 8 Mf es bnd h).
Lemma one_bit : forall a v c, 0 < a < n -> 0 <= a - isf v c < n.
Proof. intros a v c Ha. destruct (isf_bit v c); lia. Qed.
Lemma assembled_at : forall u a b c, 0 < a < n -> 0 < b < n -> 0 < c < n ->
  assembled zero add mul 8 Mf es u (at_ a b c) = tot (fun v => tot (fun w => (Mf v w * u [at_ (a + (isf w 0 - isf v 0)) (b + (isf w 1 - isf v 1)) (c + (isf w 2 - isf v 2))])%T) (zrange 8)) (zrange 8).
Proof.
  intros u a b c Ha Hb Hc. unfold assembled. rewrite es_map, tot_map. unfold contrib. rewrite tot_swap. apply tot_ext. intros v Hv. apply in_zrange in Hv.
  set (t := pos n (a - isf v 0) (b - isf v 1) (c - isf v 2)). pose proof (one_bit a v 0 Ha) as Ra. pose proof (one_bit b v 1 Hb) as Rb. pose proof (one_bit c v 2 Hc) as Rc.
  assert (Et : vert (elq t) v = at_ a b c) by (change (elq t) with (cell (a - isf v 0) (b - isf v 1) (c - isf v 2)); rewrite vert_cell by auto; f_equal; lia).
  rewrite <- Et. rewrite (one_of zero one add mul sub opp div inv ltb Hord (fun q => vert (elq q) v) (fun q => row_ zero add mul 8 Mf (elq q) u v) (zrange (n * n * n)) t).
  - unfold row_. apply tot_ext. intros w Hw. apply in_zrange in Hw. change (elq t) with (cell (a - isf v 0) (b - isf v 1) (c - isf v 2)). rewrite vert_cell by auto. do 4 f_equal; lia.
  - apply range_nodup.
  - apply in_zrange. apply pos_range; auto.
  - intros q Hq E. apply in_zrange in Hq. destruct (pos_surj n q ltac:(lia) Hq) as (i & j & k & Hi & Hj & Hk & ->). rewrite Et in E. change (elq (pos n i j k)) with (cell i j k) in E. rewrite vert_cell in E by auto.
    pose proof (cell_range j v 1 Hj). pose proof (cell_range k v 2 Hk). apply pos_inj in E as (E1 & E2 & E3); try lia. unfold t. f_equal; lia.
Qed.
Lemma matrix_at : forall u a b c, 0 <= a <= n -> 0 <= b <= n -> 0 <= c <= n -> mat u [at_ a b c] = if free bnd [at_ a b c] then (assembled zero add mul 8 Mf es u (at_ a b c) * h)%T else zero.
Proof. reflexivity. Qed.
End Table.

(* ---- the tables ---- *)
Definition apart3 (x y w : Z) : Z := Z.abs x + Z.abs y + Z.abs w.
Definition three_ : list Z := [-1; 0; 1].
(* the weights of the vertices around one *)
Definition weight_S (x y w : Z) : T := match apart3 x y w with 0 => (lit 16 / lit 3)%T | 1 => zero | 2 => (- (1 / lit 3))%T | _ => (- (1 / lit 6))%T end.
Definition weight_M (x y w : Z) : T := match apart3 x y w with 0 => (lit 64 / lit 27)%T | 1 => (lit 16 / lit 27)%T | 2 => (lit 4 / lit 27)%T | _ => (1 / lit 27)%T end.
Definition around_ (weight : Z -> Z -> Z -> T) (u : vec) (a b c : Z) : T := tot (fun x => tot (fun y => tot (fun w => (weight x y w * u [at_ (a + x) (b + y) (c + w)])%T) three_) three_) three_.
Definition weight_s (f0 f1 f2 f3 : T) (x y w : Z) : T := match apart3 x y w with 0 => f0 | 1 => f1 | 2 => f2 | _ => f3 end.
(* any table that depends on the number of places only *)
Definition by_apart (f0 f1 f2 f3 : T) (v w : Z) : T := weight_s f0 f1 f2 f3 (isf v 0 - isf w 0) (isf v 1 - isf w 1) (isf v 2 - isf w 2).
Lemma weights_sum : forall (U : Z -> Z -> Z -> T) f0 f1 f2 f3, tot (fun v => tot (fun w => (by_apart f0 f1 f2 f3 v w * U (isf w 0 - isf v 0)%Z (isf w 1 - isf v 1)%Z (isf w 2 - isf v 2)%Z)%T) (zrange 8)) (zrange 8) =
  tot (fun x => tot (fun y => tot (fun w => (weight_s ((1 + 1) * (1 + 1) * (1 + 1) * f0) ((1 + 1) * (1 + 1) * f1) ((1 + 1) * f2) f3 x y w * U x y w)%T) three_) three_) three_.
Proof. intros U f0 f1 f2 f3. vm_compute. ring. Qed.
Lemma SM_apart : forall v w, 0 <= v < 8 -> 0 <= w < 8 -> entry zero (SM zero one add div opp) v w = by_apart (d23 zero one add div) zero (d16 zero one add div opp) (d16 zero one add div opp) v w.
Proof.
  intros v w Hv Hw. revert w Hw. pattern v. revert v Hv. apply by_eight. repeat split; intros w Hw; pattern w; revert w Hw; apply by_eight; repeat split.
Qed.
Lemma MM_apart : forall v w, 0 <= v < 8 -> 0 <= w < 8 -> entry zero (MM zero one add div) v w = by_apart (d827 zero one add div) (d427 zero one add div) (d227 zero one add div) (d127 zero one add div) v w.
Proof.
  intros v w Hv Hw. revert w Hw. pattern v. revert v Hv. apply by_eight. repeat split; intros w Hw; pattern w; revert w Hw; apply by_eight; repeat split.
Qed.
Lemma apart_sym : forall f0 f1 f2 f3 v w, by_apart f0 f1 f2 f3 v w = by_apart f0 f1 f2 f3 w v.
Proof. intros f0 f1 f2 f3 v w. unfold by_apart, weight_s, apart3. replace (Z.abs (isf v 0 - isf w 0) + Z.abs (isf v 1 - isf w 1) + Z.abs (isf v 2 - isf w 2)) with (Z.abs (isf w 0 - isf v 0) + Z.abs (isf w 1 - isf v 1) + Z.abs (isf w 2 - isf v 2)) by lia. reflexivity. Qed.
Notation SMf := (entry zero (SM zero one add div opp)).
Notation MMf := (entry zero (MM zero one add div)).
Notation stiffness := (matrix zero add mul 8 SMf es bnd).
Notation mass := (matrix zero add mul 8 MMf es bnd).
Lemma at_stencil : forall Mf f0 f1 f2 f3, (forall v w, 0 <= v < 8 -> 0 <= w < 8 -> Mf v w = by_apart f0 f1 f2 f3 v w) -> forall h u a b c, 0 < a < n -> 0 < b < n -> 0 < c < n ->
  matrix zero add mul 8 Mf es bnd h u [at_ a b c] = (around_ (weight_s ((1 + 1) * (1 + 1) * (1 + 1) * f0)%T ((1 + 1) * (1 + 1) * f1)%T ((1 + 1) * f2)%T f3) u a b c * h)%T.
Proof.
  intros Mf f0 f1 f2 f3 HM h u a b c Ha Hb Hc. rewrite matrix_at by lia. replace (free bnd [at_ a b c]) with true by (symmetry; apply free_at; lia). f_equal. rewrite assembled_at by auto. unfold around_.
  rewrite <- (weights_sum (fun x y w => u [at_ (a + x) (b + y) (c + w)])). apply tot_ext. intros v Hv. apply tot_ext. intros w Hw. apply in_zrange in Hv. apply in_zrange in Hw. rewrite HM by auto. reflexivity.
Qed.
Lemma around_ext : forall g g' u a b c, (forall x y w, g x y w = g' x y w) -> around_ g u a b c = around_ g' u a b c.
Proof. intros g g' u a b c H. apply tot_ext. intros x _. apply tot_ext. intros y _. apply tot_ext. intros w _. rewrite H. reflexivity. Qed.
Lemma third_sixth : (1 / lit 3)%T = ((1 + 1) * sixth)%T.
Proof. apply div_is; [apply lit_not; lia|]. transitivity (sixth * lit 6)%T; [cbn [M_Mesh.lit]; ring|apply sixth_six]. Qed.
(* The matrix at a vertex that isn't in the border; at the border it's zero. *)
Theorem C124_stiffness : forall h u a b c, 0 <= a <= n -> 0 <= b <= n -> 0 <= c <= n ->
  stiffness h u [at_ a b c] = if (0 <? a) && (a <? n) && ((0 <? b) && (b <? n)) && ((0 <? c) && (c <? n)) then (around_ weight_S u a b c * h)%T else zero.
Proof.
  intros h u a b c Ha Hb Hc. destruct (_ && _) eqn:E.
  - repeat (apply andb_true_iff in E as [E ?]). repeat match goal with H : _ && _ = true |- _ => apply andb_true_iff in H as [? ?] end. rewrite !Z.ltb_lt in *. rewrite (at_stencil _ _ _ _ _ SM_apart) by lia. f_equal. apply around_ext. intros x y w. unfold weight_s, weight_S. destruct (apart3 x y w) as [|[[p|p|]|[p|p|]|]|]; try reflexivity.
    all: rewrite ?d23_sixth, ?d16_sixth; symmetry.
    all: first [reflexivity | rewrite third_sixth; ring | ring | idtac].
    apply div_is; [apply lit_not; lia|]. transitivity ((sixth * lit 6) * lit 16)%T; [cbn [M_Mesh.lit]; ring|rewrite sixth_six; ring].
  - rewrite matrix_at by auto. destruct (free bnd [at_ a b c]) eqn:F; auto. apply free_at in F as (F1 & F2 & F3); auto. exfalso. assert (Q : (0 <? a) && (a <? n) && ((0 <? b) && (b <? n)) && ((0 <? c) && (c <? n)) = true); [|congruence].
    rewrite !andb_true_iff, !Z.ltb_lt. lia.
Qed.
Lemma scaled : forall x y a b, b <> zero -> (x * y)%T = a -> (x * (y / b))%T = (a / b)%T.
Proof. intros x y a b Hb <-. field. auto. Qed.
Theorem C124_mass : forall h u a b c, 0 <= a <= n -> 0 <= b <= n -> 0 <= c <= n ->
  mass h u [at_ a b c] = if (0 <? a) && (a <? n) && ((0 <? b) && (b <? n)) && ((0 <? c) && (c <? n)) then (around_ weight_M u a b c * h)%T else zero.
Proof.
  intros h u a b c Ha Hb Hc. destruct (_ && _) eqn:E.
  - repeat (apply andb_true_iff in E as [E ?]). repeat match goal with H : _ && _ = true |- _ => apply andb_true_iff in H as [? ?] end. rewrite !Z.ltb_lt in *. rewrite (at_stencil _ _ _ _ _ MM_apart) by lia. f_equal. apply around_ext. intros x y w. unfold weight_s, weight_M, d827, d427, d227, d127. destruct (apart3 x y w) as [|[[p|p|]|[p|p|]|]|]; try reflexivity.
    all: apply scaled; [apply lit_not; lia|cbn [M_Mesh.lit]; ring].
  - rewrite matrix_at by auto. destruct (free bnd [at_ a b c]) eqn:F; auto. apply free_at in F as (F1 & F2 & F3); auto. exfalso. assert (Q : (0 <? a) && (a <? n) && ((0 <? b) && (b <? n)) && ((0 <? c) && (c <? n)) = true); [|congruence].
    rewrite !andb_true_iff, !Z.ltb_lt. lia.
Qed.

(* ---- symmetric, positive ---- *)
Theorem C124_symmetric : forall h, symmetric zero add mul [N] (free bnd) (stiffness h) /\ symmetric zero add mul [N] (free bnd) (mass h).
Proof.
  intros h. split; apply (C123_symmetric zero one add mul sub opp div inv ltb Hord); try apply es_good; intros i k Hi Hk; [rewrite !SM_apart by auto|rewrite !MM_apart by auto]; apply apart_sym.
Qed.
Notation le := (le ltb).
Notation sq x := (x * x)%T.
Definition far : list (Z * Z) := filter (fun p => (fst p <? snd p) && (2 <=? apart3 (isf (fst p) 0 - isf (snd p) 0) (isf (fst p) 1 - isf (snd p) 1) (isf (fst p) 2 - isf (snd p) 2))) (list_prod (zrange 8) (zrange 8)).
Lemma form_far : forall (s : T) (X : Z -> T), tot (fun i => tot (fun k => (by_apart ((1 + 1 + 1 + 1) * s) 0 (- s) (- s) i k * (X k * X i))%T) (zrange 8)) (zrange 8) = (s * tot (fun p => sq (X (fst p) - X (snd p))) far)%T.
Proof. intros s X. vm_compute. ring. Qed.
Lemma energy_far : forall u, energy_ zero add mul 8 SMf es u u = (sixth * tot (fun e => tot (fun p => sq (u [vert e (fst p)] - u [vert e (snd p)])) far) es)%T.
Proof.
  intros u. unfold energy_. rewrite <- tot_scale. apply tot_ext. intros e _. rewrite <- (form_far sixth (fun k => u [vert e k])). apply tot_ext. intros i Hi. apply in_zrange in Hi. apply tot_ext. intros k Hk. apply in_zrange in Hk. rewrite SM_apart, d23_sixth, d16_sixth by auto. reflexivity.
Qed.
Lemma dec0 : forall a : T, a = zero \/ a <> zero.
Proof.
  intros a. destruct (ltb a zero) eqn:Q1; [right; intros W; rewrite W, lt_irr in Q1; discriminate|]. destruct (ltb zero a) eqn:Q2; [right; intros W; rewrite W, lt_irr in Q2; discriminate|]. left. apply (lt_tot zero one add mul sub opp div inv ltb Hord); auto.
Qed.
Lemma inN : forall j, inshape j [N] -> exists a b c, j = [at_ a b c] /\ 0 <= a <= n /\ 0 <= b <= n /\ 0 <= c <= n.
Proof. intros j Hj. destruct (in1n _ _ Hj) as (q & -> & Hq). destruct (pos_surj (n + 1) q ltac:(lia) Hq) as (a & b & c & Ha & Hb & Hc & ->). exists a, b, c. repeat split; lia. Qed.
Lemma Nin : forall a b c, 0 <= a <= n -> 0 <= b <= n -> 0 <= c <= n -> inshape [at_ a b c] [N].
Proof. intros. apply Forall2_cons; [apply vertex_range; auto|constructor]. Qed.
Theorem C124_positive : forall h, ltb zero h = true -> positive zero add mul ltb [N] (free bnd) (stiffness h).
Proof.
  intros h Hh u Hu (j & Hj & Nz). rewrite (C123_energy zero one add mul sub opp div inv ltb Hord) by auto using es_good. rewrite energy_far.
  apply (proj2 (proj2 (proj2 Hord))); auto. apply (proj2 (proj2 (proj2 Hord))); [apply sixth_pos|].
  assert (Sq : forall a, le zero (sq a)) by apply (square_nonneg zero one add mul sub opp div inv ltb Hord).
  destruct (inN j Hj) as (a & b & c & -> & Ha & Hb & Hc). assert (F : free bnd [at_ a b c] = true) by (destruct (free bnd [at_ a b c]) eqn:F; auto; exfalso; apply Nz, Hu; auto). apply free_at in F as (Fa & Fb & Fc); auto.
  destruct (changes zero one add mul sub opp div inv ltb Hord (fun i => u [at_ i b c]) a) as (i & Hi & D); auto; [lia|apply Hu; [apply Nin; lia|]|].
  { destruct (free bnd [at_ 0 b c]) eqn:F; auto. apply free_at in F; lia. }
  apply (tot_pos zero one add mul sub opp div inv ltb Hord); [intros; apply (tot_nonneg zero one add mul sub opp div inv ltb Hord); intros; apply Sq|].
  exists (cell i b c). split; [rewrite es_map; unfold cell; apply in_map, in_zrange, pos_range; lia|]. apply pos_not. apply (tot_pos zero one add mul sub opp div inv ltb Hord); [intros; apply Sq|].
  assert (V : forall v, 0 <= v < 8 -> u [vert (cell i b c) v] = u [at_ (i + isf v 0) (b + isf v 1) (c + isf v 2)]) by (intros v Hv; rewrite vert_cell by lia; auto).
  destruct (dec0 (sub (u [vert (cell i b c) 0]) (u [vert (cell i b c) 6]))) as [Z0|Z0].
  - exists (1, 6). split; [vm_compute; tauto|]. cbn [fst snd]. apply (square_some zero one add mul sub opp div inv ltb Hord). intros Z1. apply D.
    assert (V0 : u [vert (cell i b c) 0] = u [at_ i b c]) by (rewrite V by lia; change (isf 0 0) with 0; change (isf 0 1) with 0; change (isf 0 2) with 0; rewrite ?Z.add_0_r; reflexivity).
    assert (V1 : u [vert (cell i b c) 1] = u [at_ (i + 1) b c]) by (rewrite V by lia; change (isf 1 0) with 1; change (isf 1 1) with 0; change (isf 1 2) with 0; rewrite ?Z.add_0_r; reflexivity).
    rewrite <- V0, <- V1.
    set (x0 := u [vert _ 0]) in *. set (x1 := u [vert _ 1]) in *. set (x6 := u [vert _ 6]) in *. transitivity ((x1 - x6) - (x0 - x6))%T; [ring|]. rewrite Z0, Z1. ring.
  - exists (0, 6). split; [vm_compute; tauto|]. cbn [fst snd]. apply (square_some zero one add mul sub opp div inv ltb Hord). auto.
Qed.

(* ---- the number of unknowns ---- *)
Lemma unknowns : length (filter (free bnd) (indices [N])) = Z.to_nat ((n - 1) * (n - 1) * (n - 1)).
Proof.
  set (t := [n - 1; n - 1; n - 1]). assert (Ht : nonneg t) by (repeat (apply Forall_cons; [lia|]); constructor).
  set (f := fun i => match i with [x; y; w] => [at_ (x + 1) (y + 1) (w + 1)] | _ => [] end).
  assert (E : length (map f (indices t)) = Z.to_nat ((n - 1) * (n - 1) * (n - 1))).
  { rewrite map_length, <- (map_length (rm t)), rm_indices, zrange_length by auto. f_equal. unfold t. cbn [zprod fold_right]. lia. }
  rewrite <- E. apply Permutation_length, NoDup_Permutation.
  - apply NoDup_filter, indices_nodup.
  - apply NoDup_map_in; [apply indices_nodup|]. intros i j Hi Hj Q. apply in_indices in Hi. apply in_indices in Hj. destruct (P_Roll.in3 _ _ _ _ Hi) as (x & y & w & -> & Hx & Hy & Hw). destruct (P_Roll.in3 _ _ _ _ Hj) as (x' & y' & w' & -> & Hx' & Hy' & Hw').
    unfold f in Q. assert (Q' : at_ (x + 1) (y + 1) (w + 1) = at_ (x' + 1) (y' + 1) (w' + 1)) by congruence. apply pos_inj in Q' as (Q1 & Q2 & Q3); try lia. repeat f_equal; lia.
  - intros j. rewrite filter_In, in_map_iff, in_indices. split.
    + intros (Hj & F). destruct (inN j Hj) as (a & b & c & -> & Ha & Hb & Hc). apply free_at in F as (Fa & Fb & Fc); auto. exists [a - 1; b - 1; c - 1]. split; [unfold f; do 2 f_equal; lia|]. apply in_indices. repeat (apply Forall2_cons; [lia|]). constructor.
    + intros (i & <- & Hi). apply in_indices in Hi. destruct (P_Roll.in3 _ _ _ _ Hi) as (x & y & w & -> & Hx & Hy & Hw). unfold f. split; [apply Nin; lia|]. apply free_at; lia.
Qed.

(* ---- the equations ---- *)
Definition inside_ (a b c : Z) : Prop := 0 < a < n /\ 0 < b < n /\ 0 < c < n.
Definition vertex (a b c : Z) : Prop := 0 <= a <= n /\ 0 <= b <= n /\ 0 <= c <= n.
Definition equations (h : T) (b u : vec) : Prop := forall x y w, inside_ x y w -> (around_ weight_S u x y w * h)%T = b [at_ x y w].
Lemma inner_b : forall a b c, (0 <? a) && (a <? n) && ((0 <? b) && (b <? n)) && ((0 <? c) && (c <? n)) = true <-> inside_ a b c.
Proof. intros a b c. unfold inside_. rewrite !andb_true_iff, !Z.ltb_lt. tauto. Qed.
Lemma inside_vertex : forall a b c, inside_ a b c -> vertex a b c.
Proof. unfold inside_, vertex. lia. Qed.
Lemma free_inside : forall a b c, vertex a b c -> (free bnd [at_ a b c] = true <-> inside_ a b c).
Proof. intros a b c (Ha & Hb & Hc). apply free_at; auto. Qed.
Lemma equations_iff : forall h b u, within zero [N] (free bnd) b -> (same [N] (stiffness h u) b <-> equations h b u).
Proof.
  intros h b u Hb. split.
  - intros H x y w I. pose proof (inside_vertex _ _ _ I) as (V1 & V2 & V3). rewrite <- (H [at_ x y w]) by (apply Nin; auto). rewrite C124_stiffness by auto. apply inner_b in I. rewrite I. reflexivity.
  - intros H j Hj. destruct (inN j Hj) as (x & y & w & -> & V1 & V2 & V3). rewrite C124_stiffness by auto. destruct (_ && _) eqn:E; [apply inner_b in E; apply H; auto|]. symmetry. apply Hb; auto. destruct (free bnd [at_ x y w]) eqn:F; auto. apply free_at in F; auto. apply inner_b in F. congruence.
Qed.
(* there is only one solution with given values in the border *)
Theorem C124_unique : forall h, ltb zero h = true -> forall b u v, equations h b u -> equations h b v -> (forall x y w, vertex x y w -> ~ inside_ x y w -> u [at_ x y w] = v [at_ x y w]) -> forall x y w, vertex x y w -> u [at_ x y w] = v [at_ x y w].
Proof.
  intros h Hh b u v Hu Hv Hb x y w Vx. set (d := fun j => (u j + (- (1)) * v j)%T).
  assert (W : within zero [N] (free bnd) d).
  { intros j Hj F. destruct (inN j Hj) as (x' & y' & w' & -> & V'). unfold d. rewrite (Hb x' y' w'); [ring|exact V'|]. intros I. apply free_inside in I; auto. congruence. }
  set (r := fun j => if free bnd j then b j else zero). assert (Wr : within zero [N] (free bnd) r) by (intros j Hj F; unfold r; rewrite F; auto).
  assert (R : forall t, equations h b t -> same [N] (stiffness h t) r).
  { intros t Ht. apply equations_iff; auto. intros x' y' w' I. rewrite (Ht x' y' w' I). unfold r. rewrite (proj2 (free_inside x' y' w' (inside_vertex _ _ _ I)) I). reflexivity. }
  assert (D : same [N] (stiffness h d) (fun _ => zero)).
  { intros j Hj. pose proof (C123_linear zero one add mul sub opp div inv ltb Hord 8 N SMf es bnd h (es_good)) as (_ & HL). etransitivity; [exact (HL u v (- (1))%T j Hj)|]. cbv beta. rewrite (R u Hu j Hj), (R v Hv j Hj). ring. }
  destruct Vx as (V1 & V2 & V3). assert (Q : d [at_ x y w] = zero).
  { destruct (dec0 (d [at_ x y w])) as [Q|Q]; auto. exfalso. pose proof (C124_positive h Hh d W (ex_intro _ _ (conj (Nin x y w V1 V2 V3) Q))) as P. rewrite (ip_tot zero one add mul sub opp div inv ltb Hord) in P. rewrite tot_zero in P; [rewrite lt_irr in P; discriminate|]. intros a Ha. apply in_indices in Ha. rewrite (D a Ha). ring. }
  unfold d in Q. transitivity ((u [at_ x y w] + (- (1)) * v [at_ x y w]) + v [at_ x y w])%T; [ring|]. rewrite Q. ring.
Qed.

(* ---- the solver ---- *)
Variables (fixed : bool) (z : list zt) (fi : bool) (zi : list zt).
Hypothesis (Hz : zclean z) (Hzi : zclean zi).
(* a table that isn't in the registers *)
Definition table_at (Mv : view) : Prop := vshape Mv = [8; 8] /\ forall i k, 0 <= i < 8 -> 0 <= k < 8 -> ~ r0 <= vplace Mv [i; k] < r0 + 16 * (n * n * n).
(* either of the products *)
Definition product_by (Mv : view) (h : T) (mult : view -> view -> M (mem T) (option unit)) : Prop := mult = mult0 fixed z zi add mul zero Mv es bnd h \/ mult = mult1 fixed z zi add mul zero 8 Mv es bnd h.
Lemma regs_of : forall e, In e es -> exists q, 0 <= q < n * n * n /\ reg1 e = r0 + 16 * q /\ reg2 e = r0 + 16 * q + 8.
Proof. intros e He. rewrite es_map in He. apply in_map_iff in He as (q & <- & Hq). apply in_zrange in Hq. exists q. auto. Qed.
Lemma regs_good : forall Mv, table_at Mv -> good_regs 8 Mv es.
Proof.
  intros Mv (SMv & Hregs). split.
  - intros e i j He Hi Hj. destruct (regs_of e He) as (q & Hq & -> & ->). lia.
  - intros q (e & i & He & Hi & Q) (i' & k' & Hi' & Hk' & Q'). destruct (regs_of e He) as (t & Ht & R1 & R2). rewrite R1, R2 in Q. apply (Hregs i' k' Hi' Hk'). lia.
Qed.
Lemma N_pos : 0 <= N.
Proof. apply Z.mul_nonneg_nonneg; [apply Z.mul_nonneg_nonneg|]; lia. Qed.
Lemma product : forall Mv h mult Mf, table_at Mv -> product_by Mv h mult -> multiplies zero [N] (free bnd) (matrix zero add mul 8 Mf es bnd h) mult (mine 8 Mv es) (ok 8 Mv Mf).
Proof.
  intros Mv h mult Mf Ht [-> | ->]; [apply (C123_multiplies0 zero one add mul sub opp div inv ltb Hord)|apply (C123_multiplies1 zero one add mul sub opp div inv ltb Hord)]; auto using N_pos, es_good, bnd_range, regs_good; try lia; apply Ht.
Qed.
Variables (Mv : view) (h : T) (mult : view -> view -> M (mem T) (option unit)).
Hypothesis (HMv : table_at Mv) (Hmult : product_by Mv h mult).
Notation mine := (mine 8 Mv es).
Notation ok := (ok 8 Mv).
Variables (b x work : view).
Hypothesis (Sb : vshape b = [N]) (Sx : vshape x = [N]) (Sw : vshape work = [3; N]) (Ax : apart_at x) (Aw : apart_at work).
Hypothesis (Dxb : P_Cells.separate x b) (Dwx : P_Cells.separate work x) (Dwb : P_Cells.separate work b) (Cb : clear_of mine b) (Cx : clear_of mine x) (Cw : clear_of mine work).
Notation ip := (scalar_product zero add mul [N]).
Notation of_ m v := (P_Cg.at_ m v).
Lemma Ns : nonneg [N].
Proof. apply Forall_cons; [apply N_pos|constructor]. Qed.
Lemma border_within : forall m, (forall i j k, vertex i j k -> ~ inside_ i j k -> m (vplace b [at_ i j k]) = zero) -> within zero [N] (free bnd) (of_ m b).
Proof.
  intros m H j Hj F. destruct (inN j Hj) as (i & j' & k & -> & V'). apply H; [exact V'|]. intros I. apply free_inside in I; auto. congruence.
Qed.
(* With any tolerance, the solver ends in as many iterations as there are vertices that aren't in the border, at most; it doesn't change x in the border, or anything but x, work and the registers *)
Theorem C124_ends : forall eps c m, ltb zero h = true -> ok SMf m -> (forall i j k, vertex i j k -> ~ inside_ i j k -> m (vplace b [at_ i j k]) = zero) -> (n - 1) * (n - 1) * (n - 1) < Z.of_nat c ->
  exists t m', cghs fixed z fi zi add sub mul div zero ltb mult c b x work eps m = Ok t m' /\ 0 <= t <= (n - 1) * (n - 1) * (n - 1) /\
  ltb ((eps * eps) * ip (of_ m b) (of_ m b))%T (ip (left_of sub (stiffness h) b x m m') (left_of sub (stiffness h) b x m m')) = false /\
  (forall i j k, vertex i j k -> ~ inside_ i j k -> m' (vplace x [at_ i j k]) = m (vplace x [at_ i j k])) /\ forall q, elsewhere mine x work q -> m' q = m q.
Proof.
  intros eps c m Hh K Hb Hc. pose proof (C123_linear zero one add mul sub opp div inv ltb Hord 8 N SMf es bnd h es_good) as HL. pose proof (product Mv h mult SMf HMv Hmult) as HM. pose proof (border_within m Hb) as Wb. assert (P0 : 0 <= (n - 1) * (n - 1) * (n - 1)) by (apply Z.mul_nonneg_nonneg; [apply Z.mul_nonneg_nonneg|]; lia).
  destruct (C120_terminates zero one add mul sub opp div inv ltb Hord fixed z fi zi Hz Hzi [N] (free bnd) (stiffness h) mult mine (ok SMf) (ok_steady 8 Mv SMf es) Ns HL HM b x work eps Sb Sx Sw Ax Aw Dxb Dwx Dwb Cb Cx Cw m c K (proj1 (C124_symmetric h)) (C124_positive h Hh) Wb) as (t & m' & E & Ht); [rewrite unknowns; lia|].
  rewrite unknowns, Z2Nat.id in Ht by auto. exists t, m'. split; [exact E|]. split; [exact Ht|].
  destruct (C120_residual zero one add mul sub opp div inv ltb Hord fixed z fi zi Hz Hzi [N] (free bnd) (stiffness h) mult mine (ok SMf) (ok_steady 8 Mv SMf es) Ns HL HM b x work eps Sb Sx Sw Ax Aw Dxb Dwx Dwb Cb Cx Cw c m t m' K E) as (_ & R & _ & _ & _ & O).
  split; [exact R|]. split; [|exact O]. intros i j k (V1 & V2 & V3) I.
  apply (C120_border zero one add mul sub opp div inv ltb Hord fixed z fi zi Hz Hzi [N] (free bnd) (stiffness h) mult mine (ok SMf) (ok_steady 8 Mv SMf es) Ns HL HM b x work eps Sb Sx Sw Ax Aw Dwx Dwb Cb Cx Cw c m t m' K Wb E); [apply Nin; auto|].
  destruct (free bnd [at_ i j k]) eqn:F; auto. exfalso. apply I. apply free_inside; auto. split; auto.
Qed.
(* With tolerance 0, x ends with the solution that has the border of x *)
Theorem C124_solves : forall c m, ltb zero h = true -> ok SMf m -> (forall i j k, vertex i j k -> ~ inside_ i j k -> m (vplace b [at_ i j k]) = zero) -> (n - 1) * (n - 1) * (n - 1) < Z.of_nat c ->
  exists t m', cghs fixed z fi zi add sub mul div zero ltb mult c b x work zero m = Ok t m' /\ 0 <= t <= (n - 1) * (n - 1) * (n - 1) /\ equations h (of_ m b) (of_ m' x) /\
  forall i j k, vertex i j k -> ~ inside_ i j k -> m' (vplace x [at_ i j k]) = m (vplace x [at_ i j k]).
Proof.
  intros c m Hh K Hb Hc. destruct (C124_ends zero c m Hh K Hb Hc) as (t & m' & E & Ht & _ & B & _). exists t, m'. split; [exact E|]. split; [exact Ht|]. split; [|exact B].
  apply equations_iff; [apply border_within; auto|]. exact (C120_exact zero one add mul sub opp div inv ltb Hord fixed z fi zi Hz Hzi [N] (free bnd) (stiffness h) mult mine (ok SMf) (ok_steady 8 Mv SMf es) Ns (C123_linear zero one add mul sub opp div inv ltb Hord 8 N SMf es bnd h es_good) (product Mv h mult SMf HMv Hmult) b x work zero Sb Sx Sw Ax Aw Dxb Dwx Dwb Cb Cx Cw c m t m' K eq_refl E).
Qed.

(* ---- products of functions of one variable ---- *)
Definition value_S (g : T) : T := (((1 + 1) - g) * ((lit 4 + g) * (lit 4 + g)) / lit 6)%T.
Definition value_M (g : T) : T := ((lit 4 + g) * ((lit 4 + g) * (lit 4 + g)) / lit 27)%T.
Lemma around_product : forall f0 f1 f2 f3 g (p q r : Z -> T), (p (-1) + p 1%Z)%T = (g * p 0%Z)%T -> (q (-1) + q 1%Z)%T = (g * q 0%Z)%T -> (r (-1) + r 1%Z)%T = (g * r 0%Z)%T ->
  tot (fun x => tot (fun y => tot (fun w => (weight_s f0 f1 f2 f3 x y w * (p x * q y * r w))%T) three_) three_) three_ = ((f0 + (1 + 1 + 1) * (f1 * g) + (1 + 1 + 1) * (f2 * (g * g)) + f3 * (g * (g * g))) * (p 0%Z * q 0%Z * r 0%Z))%T.
Proof.
  intros f0 f1 f2 f3 g p q r Hp Hq Hr.
  transitivity (f0 * (p 0%Z * q 0%Z * r 0%Z) + f1 * ((p (-1)%Z + p 1%Z) * q 0%Z * r 0%Z + p 0%Z * (q (-1)%Z + q 1%Z) * r 0%Z + p 0%Z * q 0%Z * (r (-1)%Z + r 1%Z))
    + f2 * ((p (-1)%Z + p 1%Z) * (q (-1)%Z + q 1%Z) * r 0%Z + (p (-1)%Z + p 1%Z) * q 0%Z * (r (-1)%Z + r 1%Z) + p 0%Z * (q (-1)%Z + q 1%Z) * (r (-1)%Z + r 1%Z)) + f3 * ((p (-1)%Z + p 1%Z) * (q (-1)%Z + q 1%Z) * (r (-1)%Z + r 1%Z)))%T.
  - clear Hp Hq Hr. vm_compute. ring.
  - rewrite Hp, Hq, Hr. ring.
Qed.
Section Waves.
Variables (s : Z -> T) (g : T) (u : vec) (a : T).
Hypothesis (S0 : s 0 = zero) (Sn : s n = zero) (Sg : forall i, 0 < i < n -> (s (i - 1)%Z + s (i + 1)%Z)%T = (g * s i)%T) (Hu : forall i j k, vertex i j k -> u [at_ i j k] = (a * (s i * s j * s k))%T).
Lemma around_u : forall f0 f1 f2 f3 i j k, inside_ i j k -> around_ (weight_s f0 f1 f2 f3) u i j k = ((f0 + (1 + 1 + 1) * (f1 * g) + (1 + 1 + 1) * (f2 * (g * g)) + f3 * (g * (g * g))) * u [at_ i j k])%T.
Proof.
  intros f0 f1 f2 f3 i j k I. unfold around_. transitivity (a * tot (fun x => tot (fun y => tot (fun w => (weight_s f0 f1 f2 f3 x y w * (s (i + x)%Z * s (j + y)%Z * s (k + w)%Z))%T) three_) three_) three_)%T.
  - rewrite <- tot_scale. apply tot_ext. intros x1 Hx. rewrite <- tot_scale. apply tot_ext. intros y Hy. rewrite <- tot_scale. apply tot_ext. intros w Hw. rewrite Hu; [ring|].
    unfold three_ in *. unfold vertex. unfold inside_ in I. cbn [In] in *. lia.
  - unfold inside_ in I. rewrite (around_product f0 f1 f2 f3 g (fun x => s (i + x)%Z) (fun x => s (j + x)%Z) (fun x => s (k + x)%Z)).
    + rewrite !Z.add_0_r. rewrite Hu by (unfold vertex; lia). ring.
    + rewrite Z.add_0_r. apply Sg. lia.
    + rewrite Z.add_0_r. apply Sg. lia.
    + rewrite Z.add_0_r. apply Sg. lia.
Qed.
Lemma border_u : forall i j k, vertex i j k -> ~ inside_ i j k -> u [at_ i j k] = zero.
Proof.
  intros i j k V I. rewrite Hu by auto. unfold vertex, inside_ in *. assert (C : i = 0 \/ i = n \/ j = 0 \/ j = n \/ k = 0 \/ k = n) by lia. destruct C as [-> | [-> | [-> | [-> | [-> | ->]]]]]; rewrite ?S0, ?Sn; ring.
Qed.
Theorem C124_eigen : forall h i j k, vertex i j k -> stiffness h u [at_ i j k] = (value_S g * h * u [at_ i j k])%T /\ mass h u [at_ i j k] = (value_M g * h * u [at_ i j k])%T.
Proof.
  intros h0 i j k V. pose proof V as (V1 & V2 & V3). rewrite C124_stiffness, C124_mass by auto. destruct (_ && _) eqn:E.
  - apply inner_b in E. rewrite (around_ext weight_S (weight_s (lit 16 / lit 3) zero (- (1 / lit 3)) (- (1 / lit 6)))%T), (around_ext weight_M (weight_s (lit 64 / lit 27) (lit 16 / lit 27) (lit 4 / lit 27) (1 / lit 27))%T) by reflexivity. rewrite !around_u by auto. split.
    + match goal with |- (?A * _ * _)%T = _ => replace A with (value_S g); [ring|] end. apply div_is; [apply lit_not; lia|]. replace (lit 16 / lit 3)%T with (lit 16 * (1 / lit 3))%T by (field; apply lit_not; lia). rewrite third_sixth. fold sixth.
      transitivity ((sixth * lit 6) * (lit 32 - lit 6 * (g * g) - g * (g * g)))%T; [cbn [M_Mesh.lit]; ring|rewrite sixth_six; cbn [M_Mesh.lit]; ring].
    + match goal with |- (?A * _ * _)%T = _ => replace A with (value_M g); [ring|] end. apply div_is; [apply lit_not; lia|]. set (d := (1 / lit 27)%T). assert (Ed : (d * lit 27)%T = one) by (unfold d; field; apply lit_not; lia).
      assert (Ex : forall x, (x / lit 27)%T = (x * d)%T) by (intros; unfold d; field; apply lit_not; lia). rewrite !Ex.
      transitivity ((d * lit 27) * (lit 64 + lit 48 * g + lit 12 * (g * g) + g * (g * g)))%T; [cbn [M_Mesh.lit]; ring|rewrite Ed; cbn [M_Mesh.lit]; ring].
  - rewrite border_u; auto; [split; ring|]. intros I. apply inner_b in I. congruence.
Qed.
End Waves.

(* ---- the program: the product with the mass matrix, and the solution ---- *)
Variables (Mv2 : view) (h2 : T) (multM : view -> view -> M (mem T) (option unit)) (aux : view).
Hypothesis (HMv2 : table_at Mv2) (HmultM : product_by Mv2 h2 multM) (Dtab : P_Cells.separate Mv Mv2) (Saux : vshape aux = [N]) (Ab : apart_at b) (Dba : P_Cells.separate b aux).
Hypothesis (Caux : clear_of (P_Assembly.mine 8 Mv2 es) aux) (Cb2 : clear_of (P_Assembly.mine 8 Mv2 es) b) (Cx2 : clear_of (P_Assembly.mine 8 Mv2 es) x).
Theorem C124_program : forall (s : Z -> T) (g a eps : T) c m, s 0 = zero -> s n = zero -> (forall i, 0 < i < n -> (s (i - 1)%Z + s (i + 1)%Z)%T = (g * s i)%T) -> (value_S g * h)%T <> zero ->
  ok SMf m -> P_Assembly.ok 8 Mv2 MMf m -> (forall i j k, vertex i j k -> m (vplace aux [at_ i j k]) = (a * (s i * s j * s k))%T) ->
  (forall i j k, vertex i j k -> m (vplace b [at_ i j k]) = zero) -> (forall i j k, vertex i j k -> m (vplace x [at_ i j k]) = zero) -> (1 < c)%nat ->
  exists m1 t m', multM aux b m = Ok None m1 /\ (forall i j k, vertex i j k -> m1 (vplace b [at_ i j k]) = ((value_M g * h2) * (a * (s i * s j * s k)))%T) /\ cghs fixed z fi zi add sub mul div zero ltb mult c b x work eps m1 = Ok t m' /\
  ((t = 1 /\ forall i j k, vertex i j k -> ((value_S g * h) * m' (vplace x [at_ i j k]))%T = ((value_M g * h2) * (a * (s i * s j * s k)))%T) \/
   (t = 0 /\ (forall i j k, vertex i j k -> m' (vplace x [at_ i j k]) = zero) /\ ltb ((eps * eps) * ip (of_ m1 b) (of_ m1 b))%T (ip (of_ m1 b) (of_ m1 b)) = false)).
Proof.
  intros s g a eps c m S0 Sn Sg Hl K K2 Haux Hb Hx Hc.
  assert (Wv : forall v f, (forall i j k, vertex i j k -> m (vplace v [at_ i j k]) = f [at_ i j k]) -> same [N] (of_ m v) f).
  { intros v f H j Hj. destruct (inN j Hj) as (i & j' & k & -> & V'). apply H. exact V'. }
  destruct (proj2 (product Mv2 h2 multM MMf HMv2 HmultM) aux b m K2 Caux Cb2 Saux Sb Ab Dba) as (m1 & E1 & F1 & O1 & K3).
  { intros j Hj _. apply (Wv b (fun _ => zero)); auto. }
  assert (B1 : forall i j k, vertex i j k -> m1 (vplace b [at_ i j k]) = (value_M g * h2 * (a * (s i * s j * s k)))%T).
  { intros i j k V. rewrite F1 by (rewrite Sb; apply Nin; apply V). rewrite (proj2 (C124_eigen s g (of_ m aux) a S0 Sn Sg Haux h2 i j k V)). unfold P_Cg.at_. rewrite Haux by auto. reflexivity. }
  assert (X1 : forall i j k, vertex i j k -> m1 (vplace x [at_ i j k]) = zero).
  { intros i j k V. assert (In1 : inshape [at_ i j k] [N]) by (apply Nin; apply V). rewrite O1; [apply Hx; auto|apply Cx2; rewrite Sx; auto|]. intros q Hq. apply Dxb; [rewrite Sx; auto|auto]. }
  assert (K1 : ok SMf m1).
  { intros i k Hi Hk. assert (In2 : inshape [i; k] (vshape Mv)) by (rewrite (proj1 HMv); apply Forall2_cons; [auto|apply Forall2_cons; [auto|constructor]]). rewrite O1; [apply K; auto| |].
    - intros [(i' & k' & Hi' & Hk' & Q)|(e & v & He & Hv & Q)].
      + apply (Dtab [i; k] [i'; k'] In2); [rewrite (proj1 HMv2); apply Forall2_cons; [auto|apply Forall2_cons; [auto|constructor]]|exact Q].
      + destruct (regs_of e He) as (t & Ht & R1 & R2). rewrite R1, R2 in Q. apply (proj2 HMv i k Hi Hk). lia.
    - intros q Hq Q. apply (Cb q Hq). left. exists i, k. auto. }
  destruct (C120_eigen zero one add mul sub opp div inv ltb Hord fixed z fi zi Hz Hzi [N] (free bnd) (stiffness h) mult mine (ok SMf) (ok_steady 8 Mv SMf es) Ns (C123_linear zero one add mul sub opp div inv ltb Hord 8 N SMf es bnd h es_good) (product Mv h mult SMf HMv Hmult) b x work eps Sb Sx Sw Ax Aw Dxb Dwx Dwb Cb Cx Cw (value_S g * h)%T c m1 K1 Hl) as (t & m' & E & R); auto.
  { intros j Hj. destruct (inN j Hj) as (i & j' & k & -> & V'). apply X1. exact V'. }
  { intros j Hj. destruct (inN j Hj) as (i & j' & k & -> & V'). exact (proj1 (C124_eigen s g (of_ m1 b) (value_M g * h2 * a)%T S0 Sn Sg ltac:(intros; unfold P_Cg.at_; rewrite B1 by auto; ring) h i j' k V')). }
  exists m1, t, m'. split; [exact E1|]. split; [exact B1|]. split; [exact E|]. destruct R as [(-> & R)|(-> & R & R')].
  - left. split; auto. intros i j k V. rewrite R by (apply Nin; apply V). apply B1. auto.
  - right. split; auto. split; auto. intros i j k V. apply R. apply Nin; apply V.
Qed.
End Equations.

(* ---- examples ---- *)
From Coq Require Import QArith Qcanon.
Open Scope Z_scope.
(* for any n, one array after another: the hypotheses of the theorems on the solver *)
Section Layout.
Variables (mi : mem Z) (e0 n : Z).
Hypothesis Hn : 1 <= n.
Notation N := ((n + 1) * (n + 1) * (n + 1)).
Definition mS : view := Vw [Dim 8 8; Dim 8 1] 0.
Definition mMs : view := Vw [Dim 8 8; Dim 8 1] 64.
Definition mA : view := Vw [Dim N 1] 128.
Definition mB : view := Vw [Dim N 1] (128 + N).
Definition mX : view := Vw [Dim N 1] (128 + 2 * N).
Definition mW : view := Vw [Dim 3 N; Dim N 1] (128 + 3 * N).
Notation r0 := (128 + 6 * N).
Notation own v := (mine 8 v (elements_of mi e0 r0 n)).
Lemma one_place : forall q c, vplace (Vw [Dim N 1] c) [q] = c + q.
Proof. intros. unfold vplace. cbn [vcp vdv place step]. lia. Qed.
Lemma work_place : forall t q, vplace mW [t; q] = 128 + 3 * N + t * N + q.
Proof. intros. unfold vplace. cbn [mW vcp vdv place step]. lia. Qed.
Lemma table_place : forall i k c, vplace (Vw [Dim 8 8; Dim 8 1] c) [i; k] = c + 8 * i + k.
Proof. intros. unfold vplace. cbn [vcp vdv place step]. lia. Qed.
Lemma own_in : forall c q, own (Vw [Dim 8 8; Dim 8 1] c) q -> c <= q < c + 64 \/ r0 <= q.
Proof.
  intros c q [(i & k & Hi & Hk & ->)|(e & i & He & Hi & Q)]; [left; rewrite table_place; lia|]. right. destruct (regs_of mi e0 r0 n e He) as (t & Ht & R1 & R2). rewrite R1, R2 in Q. lia.
Qed.
Example ex_layout : table_at r0 n mS /\ table_at r0 n mMs /\ P_Cells.separate mS mMs /\ vshape mA = [N] /\ vshape mB = [N] /\ vshape mX = [N] /\ vshape mW = [3; N] /\ apart_at mB /\ apart_at mX /\ apart_at mW /\
  P_Cells.separate mB mA /\ P_Cells.separate mX mB /\ P_Cells.separate mW mX /\ P_Cells.separate mW mB /\ clear_of (own mS) mB /\ clear_of (own mS) mX /\ clear_of (own mS) mW /\ clear_of (own mMs) mA /\ clear_of (own mMs) mB /\ clear_of (own mMs) mX.
Proof.
  assert (HN : 0 <= N) by (apply N_pos; auto).
  assert (I1 : forall c j, inshape j (vshape (Vw [Dim N 1] c)) -> exists q, j = [q] /\ 0 <= q < N) by (intros c j Hj; apply in1n; exact Hj).
  assert (I2 : forall a b c j, inshape j (vshape (Vw [Dim a b; Dim c 1] 0)) -> exists t q, j = [t; q] /\ 0 <= t < a /\ 0 <= q < c).
  { intros a b c j Hj. inversion Hj as [|t ? j' ? Ht H']; subst. destruct (in1n _ _ H') as (q & -> & Hq). exists t, q. auto. }
  assert (Cl : forall c d, 128 <= d -> d + N <= r0 -> c = 0 \/ c = 64 -> clear_of (own (Vw [Dim 8 8; Dim 8 1] c)) (Vw [Dim N 1] d)).
  { intros c d Hd Hr Hc j Hj. destruct (I1 _ _ Hj) as (q & -> & Hq). rewrite one_place. intros Ow. apply own_in in Ow. lia. }
  assert (Ap : forall c, apart_at (Vw [Dim N 1] c)).
  { intros c i j Hi Hj. destruct (I1 _ _ Hi) as (p & -> & Hp). destruct (I1 _ _ Hj) as (q & -> & Hq). rewrite !one_place. intros E. f_equal. lia. }
  assert (Se : forall c d, c <= d - N \/ d <= c - N -> P_Cells.separate (Vw [Dim N 1] c) (Vw [Dim N 1] d)).
  { intros c d Hd i j Hi Hj. destruct (I1 _ _ Hi) as (p & -> & Hp). destruct (I1 _ _ Hj) as (q & -> & Hq). rewrite !one_place. lia. }
  assert (Wr : forall t q, 0 <= t < 3 -> 0 <= q < N -> 0 <= t * N + q < 3 * N) by (intros t q Ht Hq; assert (E : t = 0 \/ t = 1 \/ t = 2) by lia; destruct E as [->|[->| ->]]; lia).
  assert (Sw : forall c, c <= 128 + 2 * N -> P_Cells.separate mW (Vw [Dim N 1] c)).
  { intros c Hc i j Hi Hj. destruct (I2 3 N N i Hi) as (t & p & -> & Ht & Hp). destruct (I1 _ _ Hj) as (q & -> & Hq). rewrite work_place, one_place. pose proof (Wr t p Ht Hp). lia. }
  assert (Ta : forall c, c = 0 \/ c = 64 -> table_at r0 n (Vw [Dim 8 8; Dim 8 1] c)) by (intros c Hc; split; [reflexivity|]; intros i k Hi Hk; rewrite table_place; lia).
  split; [apply Ta; auto|]. split; [apply Ta; auto|]. split; [intros i j Hi Hj; destruct (I2 8 8 8 i Hi) as (t & p & -> & Ht & Hp); destruct (I2 8 8 8 j Hj) as (t' & p' & -> & Ht' & Hp'); unfold mS, mMs; rewrite !table_place; lia|].
  do 4 (split; [reflexivity|]). do 2 (split; [apply Ap|]). split.
  { intros i j Hi Hj. destruct (I2 3 N N i Hi) as (t & p & -> & Ht & Hp). destruct (I2 3 N N j Hj) as (t' & p' & -> & Ht' & Hp'). rewrite !work_place. intros E. assert (E' : N * t + p = N * t' + p') by lia. apply pair_inj in E' as [-> ->]; auto. }
  split; [apply Se; lia|]. split; [apply Se; lia|]. split; [apply Sw; lia|]. split; [apply Sw; lia|]. split; [apply Cl; lia|]. split; [apply Cl; lia|]. split.
  { intros i Hi. destruct (I2 3 N N i Hi) as (t & p & -> & Ht & Hp). rewrite work_place. intros Ow. apply own_in in Ow. pose proof (Wr t p Ht Hp). lia. }
  split; [apply Cl; lia|]. split; apply Cl; lia.
Qed.
End Layout.
(* n = 2: eight elements and one vertex that isn't in the border *)
Definition mesh2 : option (mem Z) := match set_elements false [] 0 2 (fun _ => -7) with Ok _ m => match set_border 64 2 m with Ok _ m' => Some m' | _ => None end | _ => None end.
Definition mesh_ : mem Z := match mesh2 with Some m => m | None => fun _ => 0 end.
Example ex_meshed : meshed mesh_ 0 64 2.
Proof.
  destruct (C124_mesh false [] 0 64 2 (fun _ => -7)) as (m1 & m2 & E1 & E2 & H); [lia|constructor|lia|]. unfold mesh_, mesh2. rewrite E1, E2. exact H.
Qed.
Example ex_elements : map ev (elements_of mesh_ 0 0 2) = [[0; 9; 12; 3; 1; 10; 13; 4]; [1; 10; 13; 4; 2; 11; 14; 5]; [3; 12; 15; 6; 4; 13; 16; 7]; [4; 13; 16; 7; 5; 14; 17; 8]; [9; 18; 21; 12; 10; 19; 22; 13]; [10; 19; 22; 13; 11; 20; 23; 14]; [12; 21; 24; 15; 13; 22; 25; 16]; [13; 22; 25; 16; 14; 23; 26; 17]].
Proof. vm_compute. reflexivity. Qed.
Example ex_border : filter (fun q => negb (existsb (Z.eqb q) (border_of mesh_ 64 2))) (zrange 27) = [13] /\ length (border_of mesh_ 64 2) = 54%nat.
Proof. vm_compute. auto. Qed.
Notation q0 := (Q2Qc 0).
Notation q1 := (Q2Qc 1).
Notation mEs := (elements_of mesh_ 0 (128 + 6 * 27) 2).
Notation mBd := (border_of mesh_ 64 2).
Definition mSt : list (list Qc) := SM q0 q1 Qcplus Qcdiv Qcopp.
Definition mMt : list (list Qc) := MM q0 q1 Qcplus Qcdiv.
(* the tables, aux with 5 in the vertex that isn't in the border, and zeros *)
Definition mMem : mem Qc := fun p => if p <? 64 then entry q0 mSt (p / 8) (p mod 8) else if p <? 128 then entry q0 mMt ((p - 64) / 8) ((p - 64) mod 8) else if p =? 128 + 13 then qz 5 else q0.
Definition mSees (o : out (mem Qc) Z) : option (Z * list (Z * positive)) := match o with Ok i m => Some (i, map (fun p => let x := m (128 + 2 * 27 + p) in (Qnum (this x), Qden (this x))) [12; 13; 14]) | _ => None end.
Definition mH : Qc := Q2Qc (1 # 2).
Definition mRun (mult : view -> Qc -> view -> view -> M (mem Qc) (option unit)) (eps : Qc) : out (mem Qc) Z :=
  match mult mMs (mH * mH * mH)%Qc (mA 2) (mB 2) mMem with
  | Ok _ m => cghs false [] false [] Qcplus Qcminus Qcmult Qcdiv q0 qlt (mult mS mH) 9 (mB 2) (mX 2) (mW 2) eps m
  | _ => Undef
  end.
Notation m0 := (fun Mv h => mult0 false [] [] Qcplus Qcmult q0 Mv mEs mBd h).
Notation m1 := (fun Mv h => mult1 false [] [] Qcplus Qcmult q0 8 Mv mEs mBd h).
Example ex_program0 : mSees (mRun m0 (Q2Qc (1 # 1000))) = Some (1, [(0, 1%positive); (5, 9%positive); (0, 1%positive)]).
Proof. vm_compute. reflexivity. Qed.
Example ex_program1 : mSees (mRun m1 (Q2Qc (1 # 1000))) = Some (1, [(0, 1%positive); (5, 9%positive); (0, 1%positive)]).
Proof. vm_compute. reflexivity. Qed.
(* the tolerance allows 0 *)
Example ex_program2 : mSees (mRun m0 (Q2Qc 2)) = Some (0, [(0, 1%positive); (0, 1%positive); (0, 1%positive)]).
Proof. vm_compute. reflexivity. Qed.
Definition mWave (i : Z) : Qc := if i =? 1 then q1 else q0.
Example ex_values : ok 8 mS (entry q0 mSt) mMem /\ ok 8 mMs (entry q0 mMt) mMem /\ mWave 0 = q0 /\ mWave 2 = q0 /\ (forall i, 0 < i < 2 -> (mWave (i - 1) + mWave (i + 1) = q0 * mWave i)%Qc) /\ (value_S q0 q1 Qcplus Qcmult Qcminus Qcdiv q0 * mH)%Qc <> q0 /\
  (forall i j k, vertex 2 i j k -> mMem (vplace (mA 2) [pos 3 i j k]) = (qz 5 * (mWave i * mWave j * mWave k))%Qc /\ mMem (vplace (mB 2) [pos 3 i j k]) = q0 /\ mMem (vplace (mX 2) [pos 3 i j k]) = q0).
Proof.
  assert (D : forall i k, 0 <= k < 8 -> (8 * i + k) / 8 = i /\ (8 * i + k) mod 8 = k) by (intros i k Hk; split; [symmetry; apply Z.div_unique with k; lia|symmetry; apply Z.mod_unique with i; lia]).
  split; [|split; [|split; [|split; [|split; [|split]]]]]; auto.
  - intros i k Hi Hk. unfold mS. rewrite table_place. unfold mMem. destruct (Z.ltb_spec (0 + 8 * i + k) 64); [|lia]. rewrite Z.add_0_l. destruct (D i k Hk) as [-> ->]. reflexivity.
  - intros i k Hi Hk. unfold mMs. rewrite table_place. unfold mMem. destruct (Z.ltb_spec (64 + 8 * i + k) 64); [lia|]. destruct (Z.ltb_spec (64 + 8 * i + k) 128); [|lia]. replace (64 + 8 * i + k - 64) with (8 * i + k) by lia. destruct (D i k Hk) as [-> ->]. reflexivity.
  - intros i Hi. replace i with 1 by lia. apply Qc_is_canon. reflexivity.
  - intros Q. apply (f_equal (fun x => Qnum (this x))) in Q. vm_compute in Q. discriminate.
  - assert (F : forall i, 0 <= i <= 2 -> i = 0 \/ i = 1 \/ i = 2) by (intros; lia).
    intros i j k (Hi & Hj & Hk). destruct (F i Hi) as [->|[->| ->]]; destruct (F j Hj) as [->|[->| ->]]; destruct (F k Hk) as [->|[->| ->]]; repeat split; apply Qc_is_canon; vm_compute; reflexivity.
Qed.
(* an instance of C124_program *)
Example ex_instance : exists m' t m2, mult1 false [] [] Qcplus Qcmult q0 8 mMs mEs mBd (mH * mH * mH)%Qc (mA 2) (mB 2) mMem = Ok None m' /\ cghs false [] false [] Qcplus Qcminus Qcmult Qcdiv q0 qlt (mult1 false [] [] Qcplus Qcmult q0 8 mS mEs mBd mH) 2 (mB 2) (mX 2) (mW 2) (Q2Qc (1 # 1000)) m' = Ok t m2 /\ 0 <= t <= 1.
Proof.
  destruct (ex_layout mesh_ 0 2) as (L1 & L2 & L3 & L4 & L5 & L6 & L7 & L8 & L9 & L10 & L11 & L12 & L13 & L14 & L15 & L16 & L17 & L18 & L19 & L20); [lia|]. destruct ex_values as (V1 & V2 & V3 & V4 & V5 & V6 & V7).
  destruct (C124_program q0 q1 Qcplus Qcmult Qcminus Qcopp Qcdiv Qcinv qlt q_ordered mesh_ 0 64 (128 + 6 * 27) 2 ltac:(lia) ex_meshed false [] false [] ltac:(constructor) ltac:(constructor) mS mH _ L1 (or_intror eq_refl) (mB 2) (mX 2) (mW 2) L5 L6 L7 L9 L10 L12 L13 L14 L15 L16 L17
    mMs (mH * mH * mH)%Qc _ (mA 2) L2 (or_intror eq_refl) L3 L4 L8 L11 L18 L19 L20 mWave q0 (qz 5) (Q2Qc (1 # 1000)) 2 mMem V3 V4 V5 V6 V1 V2) as (m' & t & m2 & E1 & _ & E2 & R); auto; try (intros; apply V7; auto).
  exists m', t, m2. split; [exact E1|]. split; [exact E2|]. destruct R as [(-> & _)|(-> & _)]; lia.
Qed.

Print Assumptions C124_elements.
Print Assumptions C124_border.
Print Assumptions C124_mesh.
Print Assumptions C124_stiffness.
Print Assumptions C124_mass.
Print Assumptions C124_symmetric.
Print Assumptions C124_positive.
Print Assumptions C124_unique.
Print Assumptions C124_ends.
Print Assumptions C124_solves.
Print Assumptions C124_eigen.
Print Assumptions C124_program.
