(* Properties C144, C145: sums of elements at a list of indices in bench/bench-at.cc; indices as arguments in bench/bench-tensorindex.cc. *)
From Coq Require Import ZArith List Lia Bool.
From Verif Require Import Spec L_Spec Spec_Ply Spec_Expr M_Base M_Expr M_Ply M_Val Spec_Val L_Expr L_Agree L_Ply L_Stl L_Run L_Val P_Ply P_Reduce M_View Spec_View L_View P_View M_Slice Spec_Slice L_Slice P_Slice M_Frame Spec_Frame L_Frame P_Frame M_Mat Spec_Mat P_Mat P_Ext P_Outer M_Cells P_Cells P_Ref M_Stencil P_Stencil P_Roll M_Access P_Accum M_Bench.
Import ListNotations.
Open Scope Z_scope.

(* the element of c that row i of the indices is for: only the first ones are used, one for each axis *)
Definition picked (c : view) (rows : list (list Z)) (i : Z) : list Z := firstn (vrank c) (nth (Z.to_nat i) rows []).
Definition enough (c : view) (rows : list (list Z)) : Prop := Forall (fun r => (vrank c <= length r)%nat) rows.
Definition all_in (c : view) (rows : list (list Z)) : Prop := Forall (fun r => inshape (firstn (vrank c) r) (vshape c)) rows.

Section At.
Context {T : Type}.
Variables (fixed : bool) (z : list zt) (add : T -> T -> T) (zero : T).
Hypothesis Hz : zclean z.
Notation ex := (expr (val T) (mem T)).

Lemma loop_good : forall (f : Z -> M (mem T) T) (m : mem T) x n i v, (forall k, i <= k < i + Z.of_nat n -> f k m = Ok (x k) m) -> sum_loop add n i f v m = Ok (fold_left add (map (fun k => x (i + Z.of_nat k)) (seq 0 n)) v) m.
Proof.
  intros f m x n. induction n as [|n IH]; intros i v H; [reflexivity|]. cbn [sum_loop seq map fold_left]. unfold bind. rewrite H by lia. rewrite IH by (intros; apply H; lia). rewrite Z.add_0_r. do 2 f_equal.
  rewrite <- seq_shift, map_map. apply map_ext. intros k. f_equal. lia.
Qed.
Lemma loop_bad : forall (f : Z -> M (mem T) T) (m : mem T) x n i v b, i <= b < i + Z.of_nat n -> (forall k, i <= k < b -> f k m = Ok (x k) m) -> f b m = Fail m -> sum_loop add n i f v m = Fail m.
Proof.
  intros f m x n. induction n as [|n IH]; intros i v b Hb H Hf; [lia|]. cbn [sum_loop]. unfold bind. destruct (Z.eq_dec i b) as [->|N]; [rewrite Hf; auto|]. rewrite H by lia. apply (IH _ _ b); auto; [lia|]. intros. apply H. lia.
Qed.
Lemma first_row : forall (P : list Z -> Prop) rows, (forall r, P r \/ ~ P r) -> Forall P rows \/ exists b, 0 <= b < Z.of_nat (length rows) /\ ~ P (nth (Z.to_nat b) rows []) /\ forall k, 0 <= k < b -> P (nth (Z.to_nat k) rows []).
Proof.
  intros P rows D. induction rows as [|r rows IH]; [left; constructor|]. destruct (D r) as [Hr|Hr]; [|right; exists 0; split; [cbn; lia|]; split; [exact Hr|lia]].
  destruct IH as [IH|(b & B1 & B2 & B3)]; [left; auto|]. right. exists (b + 1). split; [cbn [length]; lia|]. replace (Z.to_nat (b + 1)) with (S (Z.to_nat b)) by lia. split; [exact B2|]. intros k Hk.
  destruct (Z.eq_dec k 0) as [->|N]; [exact Hr|]. replace (Z.to_nat k) with (S (Z.to_nat (k - 1))) by lia. apply B3. lia.
Qed.
Lemma row_in : forall (P : list Z -> Prop) rows i, Forall P rows -> 0 <= i < Z.of_nat (length rows) -> P (nth (Z.to_nat i) rows []).
Proof. intros P rows i F Hi. rewrite Forall_forall in F. apply F, nth_In. lia. Qed.

Lemma firsts : forall (r : list Z) n, (n <= length r)%nat -> map (fun k => cidx (nth k r 0)) (seq 0 n) = map cidx (firstn n r).
Proof.
  intros r n. revert r. induction n as [|n IH]; intros [|x r] H; cbn [length] in *; try lia; auto. cbn [seq map firstn nth]. f_equal. rewrite <- IH by lia. rewrite <- seq_shift, map_map. apply map_ext. intros k. reflexivity.
Qed.
Lemma index_good : forall (c : view) r, (vrank c <= length r)%nat -> inshape (firstn (vrank c) r) (vshape c) -> indexer (vdv c) (vcp c) r = Some (vplace c (firstn (vrank c) r)).
Proof.
  intros [dv p] r L H. unfold vrank, vshape, vplace in *. cbn [vdv vcp] in *. unfold indexer. replace (length dv <=? length r)%nat with true by (symmetry; apply Nat.leb_le; auto). clear L. revert p r H. induction dv as [|d dv IH]; intros p r H; cbn [indexer_loop place length firstn]; [f_equal; lia|].
  destruct r as [|i r]; [inversion H|]. cbn [length firstn map] in H. inversion H; subst. unfold inside. replace ((0 <=? i) && (i <? len d)) with true by (symmetry; apply andb_true_iff; lia). cbn [orb place]. rewrite IH by auto. f_equal. lia.
Qed.
Lemma index_bad : forall (c : view) r, nonneg (vshape c) -> (vrank c <= length r)%nat -> ~ inshape (firstn (vrank c) r) (vshape c) -> indexer (vdv c) (vcp c) r = None.
Proof.
  intros [dv p] r N L H. unfold vrank, vshape in *. cbn [vdv vcp] in *. unfold indexer. replace (length dv <=? length r)%nat with true by (symmetry; apply Nat.leb_le; auto). revert p r L H. induction dv as [|d dv IH]; intros p r L H; cbn [indexer_loop length firstn] in *; [exfalso; apply H; constructor|].
  destruct r as [|i r]; [cbn in L; lia|]. cbn [firstn map] in H. cbn [map] in N. inversion N as [|? ? N1 N2]; subst. replace (UNB =? len d) with false by (symmetry; apply Z.eqb_neq; unfold UNB; lia). rewrite orb_false_r. unfold inside.
  destruct (Z.leb_spec 0 i), (Z.ltb_spec i (len d)); cbn [andb]; auto. apply IH; auto; [cbn in L; lia|]. intros F. apply H. constructor; auto.
Qed.
Definition total_at (c : view) (rows : list (list Z)) (m : mem T) : T := fold_left add (map (fun i => m (vplace c (picked c rows i))) (zrange (Z.of_nat (length rows)))) zero.
Lemma total_seq : forall c rows (m : mem T), fold_left add (map (fun k => m (vplace c (picked c rows (0 + Z.of_nat k)))) (seq 0 (length rows))) zero = total_at c rows m.
Proof. intros. unfold total_at, zrange. rewrite Nat2Z.id, map_map. reflexivity. Qed.

(* a loop of val += C(I(i, 0), I(i, 1), ...) *)
Theorem C144_subscript : forall c rows (m : mem T), enough c rows -> all_in c rows -> by_subscript add zero c rows m = Ok (total_at c rows m) m.
Proof.
  intros c rows m E A. unfold by_subscript. rewrite (loop_good _ m (fun i => m (vplace c (picked c rows i)))); [rewrite total_seq; auto|]. intros k Hk. unfold row_at. rewrite firsts by (apply (row_in (fun r => (vrank c <= length r)%nat)); [auto|lia]).
  rewrite all_indices by (apply (row_in (fun r => inshape (firstn (vrank c) r) (vshape c))); [auto|lia]). reflexivity.
Qed.
(* a loop of val += at(C, I(i)) *)
Theorem C144_at : forall c rows (m : mem T), enough c rows -> all_in c rows -> by_at add zero c rows m = Ok (total_at c rows m) m.
Proof.
  intros c rows m E A. unfold by_at. rewrite (loop_good _ m (fun i => m (vplace c (picked c rows i)))); [rewrite total_seq; auto|]. intros k Hk. unfold row_at.
  rewrite index_good; [reflexivity|apply (row_in (fun r => (vrank c <= length r)%nat)); [auto|lia]|apply (row_in (fun r => inshape (firstn (vrank c) r) (vshape c))); [auto|lia]].
Qed.
Lemma rows_shape : forall n, 0 <= n -> wf (Cell [Dim n 1] 1 VI 0 : ex) /\ shape_is (Cell [Dim n 1] 1 VI 0 : ex) [n].
Proof.
  intros n Hn. split; [split; [cbn; lia|]; apply Forall_cons; [left; cbn [len]; lia|constructor]|]. split; [reflexivity|]. intros k Hk. cbn in Hk. replace k with 0%nat by lia. cbn. split; [lia|]. split; [auto|]. apply Forall_cons; [auto|constructor].
Qed.
Lemma at_row : forall c rows k (m : mem T), element (at_each c (row_of rows) (Cell [Dim (Z.of_nat (length rows)) 1] 1 VI 0)) [k] m = match indexer (vdv c) (vcp c) (nth (Z.to_nat k) rows []) with Some p => Ok (VRef p) m | None => Fail m end.
Proof. intros. cbn [at_each element map in_order firstn place step]. unfold at_op, op1. cbn [ret row_of]. unfold row_at. replace (0 + (k * 1 + 0)) with k by lia. destruct (indexer _ _ _); reflexivity. Qed.
Lemma at_start : forall c rows (m : mem T), deref (at_each c (row_of rows) (Cell [Dim (Z.of_nat (length rows)) 1] 1 VI 0)) m = match indexer (vdv c) (vcp c) (nth 0 rows []) with Some p => Ok (VRef p) m | None => Fail m end.
Proof. intros. cbn. unfold at_op, op1. cbn [row_of]. unfold row_at. cbn [Z.to_nat]. destruct (indexer _ _ _); reflexivity. Qed.
(* sum(at(C, iter<1>(I))) *)
Theorem C144_at_op : forall c rows (m : mem T), rows <> [] -> enough c rows -> all_in c rows -> by_at_op fixed z add zero c rows m = Ok (total_at c rows m) m.
Proof.
  intros c rows m Hn E A. unfold by_at_op, sum, bind. set (n := Z.of_nat (length rows)). destruct (rows_shape n) as (W & S); [lia|]. assert (L0 : 0 <= 0 < Z.of_nat (length rows)) by (destruct rows; [contradiction|cbn; lia]).
  assert (G : forall k, 0 <= k < n -> indexer (vdv c) (vcp c) (nth (Z.to_nat k) rows []) = Some (vplace c (picked c rows k))).
  { intros k Hk. apply index_good; [apply (row_in (fun r => (vrank c <= length r)%nat)); auto|apply (row_in (fun r => inshape (firstn (vrank c) r) (vshape c))); auto]. }
  unfold n at 1. rewrite at_start. change (nth 0 rows []) with (nth (Z.to_nat 0) rows []). rewrite G by auto.
  rewrite (reduce1_spec T fixed z (fun x c => add c x) _ [n] (map (fun k => [k]) (zrange n)) m (fun j => m (vplace c (picked c rows (nth 0 j 0))))); auto using row_major_1.
  - unfold total_at. fold n. rewrite map_map. reflexivity.
  - apply wf_map; [discriminate|]. auto.
  - apply joint_shape_map. apply joint_shape_1. auto.
  - intros j Hj. apply in1e in Hj as (k & -> & Hk). exists (VRef (vplace c (picked c rows k))). unfold n. rewrite at_row, G by auto. split; reflexivity.
Qed.
Lemma each_ok : forall (get : list Z -> M (mem T * T) (val T)) l (m : mem T), (forall k v, In k l -> exists u v', get [k] (m, v) = Ok u (m, v')) -> forall v, exists v', each get (map (fun k => [k]) l) (m, v) = Ok tt (m, v').
Proof.
  intros get l m. induction l as [|k l IH]; intros H v; [exists v; reflexivity|]. cbn [map each]. destruct (H k v (or_introl eq_refl)) as (u & v1 & ->). apply IH. intros. apply H. right. auto.
Qed.
(* an index that isn't in range is refused in the three *)
Theorem C144_refused : forall c rows (m : mem T), nonneg (vshape c) -> enough c rows -> ~ all_in c rows -> by_subscript add zero c rows m = Fail m /\ by_at add zero c rows m = Fail m /\ by_at_op fixed z add zero c rows m = Fail m.
Proof.
  intros c rows m N E A. destruct (first_row (fun r => inshape (firstn (vrank c) r) (vshape c)) rows) as [F|(b & B1 & B2 & B3)]; [intros r; destruct (inshape_dec (firstn (vrank c) r) (vshape c)); auto|contradiction|].
  assert (Le : forall k, 0 <= k < Z.of_nat (length rows) -> (vrank c <= length (nth (Z.to_nat k) rows []))%nat) by (intros; apply (row_in (fun r => (vrank c <= length r)%nat)); auto).
  assert (Gd : forall k, 0 <= k < b -> indexer (vdv c) (vcp c) (nth (Z.to_nat k) rows []) = Some (vplace c (picked c rows k))) by (intros; apply index_good; [apply Le; lia|apply B3; auto]).
  assert (Bd : indexer (vdv c) (vcp c) (nth (Z.to_nat b) rows []) = None) by (apply index_bad; auto).
  split; [|split].
  - unfold by_subscript. apply (loop_bad _ m (fun i => m (vplace c (picked c rows i))) _ _ _ b); auto.
    + intros k Hk. unfold row_at. rewrite firsts by (apply Le; lia). rewrite all_indices by (apply B3; auto). reflexivity.
    + unfold row_at. rewrite firsts by (apply Le; lia). rewrite bad_indices; auto. rewrite firstn_length, <- vrank_shape. specialize (Le b B1). lia.
  - unfold by_at. apply (loop_bad _ m (fun i => m (vplace c (picked c rows i))) _ _ _ b); auto.
    + intros k Hk. unfold row_at. rewrite Gd by auto. reflexivity.
    + unfold row_at. rewrite Bd. reflexivity.
  - unfold by_at_op, sum, bind. set (n := Z.of_nat (length rows)) in *. destruct (rows_shape n) as (W & S); [lia|]. unfold n at 1. rewrite at_start. change (nth 0 rows []) with (nth (Z.to_nat 0) rows []).
    destruct (Z.eq_dec b 0) as [->|Nb]; [rewrite Bd; reflexivity|]. rewrite Gd by lia. unfold for_each_c.
    assert (Wm : wf (at_each c (row_of rows) (Cell [Dim n 1] 1 VI 0 : ex))) by (apply wf_map; [discriminate|]; auto).
    assert (Sm : shape_is (at_each c (row_of rows) (Cell [Dim n 1] 1 VI 0 : ex)) [n]) by (apply joint_shape_map, joint_shape_1; auto).
    rewrite (ply_spec _ _ _ no_stop fixed z _ [n] (map (fun k => [k]) (zrange n))); auto using row_major_1.
    + rewrite visit_each. set (get := element _). assert (Zr : zrange n = zrange b ++ b :: map (fun k => b + (1 + k)) (zrange (n - b - 1))).
      { replace n with (b + (n - b)) at 1 by lia. rewrite zrange_app, (zrange_cons (n - b)) by lia. cbn [map]. rewrite Z.add_0_r, map_map. reflexivity. }
      rewrite Zr, map_app, each_app. cbn [map each].
      destruct (each_ok get (zrange b) m) with (v := zero) as (v' & Ev).
      * intros k v Hk. apply in_zrange in Hk. unfold get. cbn [map element in_order]. rewrite lift_element. unfold lift_op. cbn [fst snd]. unfold n. rewrite at_row, Gd by lia. eexists. eexists. reflexivity.
      * rewrite Ev. unfold get at 1. cbn [map element in_order]. rewrite lift_element. unfold lift_op. cbn [fst snd]. unfold n. rewrite at_row, Bd. reflexivity.
    + apply wf_map; [discriminate|]. constructor; [apply lift_wf; auto|constructor].
    + apply joint_shape_map. apply joint_shape_1. split; [rewrite lift_axes; apply Sm|]. rewrite lift_axes. intros k Hk. rewrite lift_lens. apply Sm. auto.
Qed.
End At.

(* ---- indices as arguments ---- *)
Definition total_of (n : Z) (f : Z -> Z) : Z := fold_right Z.add 0 (map f (zrange n)).
Definition fits_int (x : Z) : Prop := - 2 ^ 31 <= x < 2 ^ 31.
Section Index.
Variables (fixed : bool) (z : list zt).
Hypothesis Hz : zclean z.
Lemma plus_facts : forall a k M N, vshape a = [M; N] -> 0 <= M -> 0 <= N -> (k < 2)%nat -> wf (plus_index a k) /\ shape_is (plus_index a k) [M; N] /\ forall m, reads (plus_index a k) [M; N] m (fun j => m (vplace a j) + nth k j 0).
Proof.
  intros a k M N Ea HM HN Hk. assert (Ns : nonneg [M; N]) by (repeat constructor; auto). destruct (view_shape (T:=Z) a _ Ea Ns) as (Wa & Sa). destruct (C58_axes Z (mem Z) k) as (Wt & _).
  destruct (C58_inside Z (mem Z) (op2 (fun u v => x <- rd u ;; match v with VI i => ret (VT (x + i)) | _ => undef end)) [viter a] k [M; N] Hk) with (l1 := [viter a : expr (val Z) (mem Z)]) (l2 := @nil (expr (val Z) (mem Z))) as (S & V); auto.
  { apply joint_shape_map, joint_shape_1. auto. }
  split; [apply wf_map; [discriminate|]; auto|]. split; [exact S|]. intros m j Hj. exists (VT (m (vplace a j) + nth k j 0)). split; [|reflexivity].
  unfold plus_index. cbn [app] in V. rewrite V by (apply inshape_length; auto). cbn [map in_order]. rewrite viter_element, vrank_shape, Ea, whole_in by auto. reflexivity.
Qed.
Lemma to_int_mod : forall x, (to_int x) mod 2 ^ 32 = x mod 2 ^ 32.
Proof. intros x. unfold to_int. rewrite Zminus_mod, Z.mod_mod by lia. rewrite <- Zminus_mod. f_equal. lia. Qed.
Lemma to_int_add : forall x y, to_int (to_int x + y) = to_int (x + y).
Proof.
  intros x y. unfold to_int at 1 3. f_equal. rewrite <- Z.add_assoc, Z.add_mod, to_int_mod, <- Z.add_mod by lia. f_equal. lia.
Qed.
Lemma to_int_fits : forall x, fits_int x -> to_int x = x.
Proof. intros x H. unfold fits_int in H. unfold to_int. rewrite Z.mod_small; lia. Qed.
Lemma fold_int : forall (g : list Z -> Z) js c, fold_left (fun c j => to_int (c + g j)) js (to_int c) = to_int (c + fold_right Z.add 0 (map g js)).
Proof. intros g js. induction js as [|j js IH]; intros c; cbn [fold_left map fold_right]; [f_equal; lia|]. rewrite to_int_add, IH. f_equal. lia. Qed.
Lemma total_app : forall l1 l2, fold_right Z.add 0 (l1 ++ l2) = fold_right Z.add 0 l1 + fold_right Z.add 0 l2.
Proof. induction l1 as [|x l1 IH]; intros l2; cbn [app fold_right]; [lia|]. rewrite IH. lia. Qed.
Lemma total_two : forall M N (g : list Z -> Z), fold_right Z.add 0 (map g (indices [M; N])) = total_of M (fun i => total_of N (fun j => g [i; j])).
Proof.
  intros M N g. replace (indices [M; N]) with (flat_map (fun i => map (fun j => [i; j]) (zrange N)) (zrange M)).
  - unfold total_of at 1. induction (zrange M) as [|i l IH]; [reflexivity|]. cbn [flat_map map fold_right]. rewrite map_app, total_app, IH. f_equal. unfold total_of. rewrite map_map. reflexivity.
  - cbn [indices]. induction (zrange M) as [|i l IH]; [reflexivity|]. cbn [flat_map]. rewrite IH. f_equal. clear. induction (zrange N) as [|j l IH]; [reflexivity|]. cbn [flat_map map app]. f_equal. exact IH.
Qed.
(* ply(map([&c](auto && i, auto && j) { c += 2*i-j; }, a+tindex<0>, a+tindex<1>)) *)
Theorem C145_total : forall a M N (m : mem Z), vshape a = [M; N] -> 0 <= M -> 0 <= N -> add_indices fixed z a m = Ok (to_int (total_of M (fun i => total_of N (fun j => m (vplace a [i; j]) + 2 * i - j)))) m.
Proof.
  intros a M N m Ea HM HN. destruct (plus_facts a 0 M N Ea HM HN) as (W0 & S0 & R0); [lia|]. destruct (plus_facts a 1 M N Ea HM HN) as (W1 & S1 & R1); [lia|]. unfold add_indices.
  rewrite (reduce2_spec Z fixed z (fun x y c => to_int (c + (2 * x - y))) _ _ [M; N] (indices [M; N]) m (fun j => m (vplace a j) + nth 0 j 0) (fun j => m (vplace a j) + nth 1 j 0) W0 W1); auto using row_major_indices.
  - pose proof (fold_int (fun j => 2 * (m (vplace a j) + nth 0 j 0) - (m (vplace a j) + nth 1 j 0)) (indices [M; N]) 0) as F. change (to_int 0) with 0 in F. cbv beta in F. rewrite F. rewrite Z.add_0_l, total_two. do 2 f_equal. unfold total_of. f_equal. apply map_ext. intros i. f_equal. apply map_ext. intros j. cbn [nth]. lia.
  - apply (joint_cover _ _ _ (plus_index a 0)); [left; auto|auto|]. apply Forall_cons; [apply inner_whole; auto|]. apply Forall_cons; [apply inner_whole; auto|constructor].
Qed.
Lemma total_ext : forall n f g, (forall i, 0 <= i < n -> f i = g i) -> total_of n f = total_of n g.
Proof. intros n f g H. unfold total_of. f_equal. apply map_ext_in. intros i Hi. apply H. apply in_zrange. auto. Qed.
Lemma total_linear : forall n p q, 0 <= n -> 2 * total_of n (fun i => p * i + q) = p * n * (n - 1) + 2 * n * q.
Proof.
  intros n p q Hn. rewrite <- (Z2Nat.id n Hn). generalize (Z.to_nat n) as k. clear n Hn. induction k as [|k IH]; [unfold total_of; cbn; lia|].
  replace (Z.of_nat (S k)) with (Z.of_nat k + 1) by lia. unfold total_of in *. rewrite zrange_app by lia. rewrite map_app, total_app. change (zrange 1) with [0]. cbn [map fold_right]. rewrite Z.add_0_r. nia.
Qed.
(* of zeros: M*N*(M-1) - M*(N*(N-1)/2), modulo 2^32 *)
Theorem C145_zeros : forall a M N (m : mem Z), vshape a = [M; N] -> 0 <= M -> 0 <= N -> (forall j, inshape j [M; N] -> m (vplace a j) = 0) -> exists c, 2 * c = M * N * (2 * (M - 1) - (N - 1)) /\ add_indices fixed z a m = Ok (to_int c) m.
Proof.
  intros a M N m Ea HM HN H0. exists (total_of M (fun i => total_of N (fun j => m (vplace a [i; j]) + 2 * i - j))). split; [|apply C145_total; auto].
  rewrite (total_ext M _ (fun i => total_of N (fun j => (-1) * j + 2 * i))) by (intros i Hi; apply total_ext; intros j Hj; rewrite H0 by (repeat constructor; lia); lia).
  assert (D : forall i, 2 * total_of N (fun j => (-1) * j + 2 * i) = 4 * N * i + (- N * (N - 1))) by (intros i; rewrite total_linear by auto; lia).
  assert (E : 2 * total_of M (fun i => total_of N (fun j => (-1) * j + 2 * i)) = total_of M (fun i => 4 * N * i + (- N * (N - 1)))).
  { unfold total_of at 1 3. induction (zrange M) as [|i l IH]; [reflexivity|]. cbn [map fold_right]. rewrite Z.mul_add_distr_l, IH, D. reflexivity. }
  pose proof (total_linear M (4 * N) (- N * (N - 1)) HM) as L. nia.
Qed.
Corollary C145_fits : forall a M N (m : mem Z) c, vshape a = [M; N] -> 0 <= M -> 0 <= N -> (forall j, inshape j [M; N] -> m (vplace a j) = 0) -> 2 * c = M * N * (2 * (M - 1) - (N - 1)) -> fits_int c -> add_indices fixed z a m = Ok c m.
Proof. intros a M N m c Ea HM HN H0 Hc F. destruct (C145_zeros a M N m Ea HM HN H0) as (c' & E1 & E2). assert (c' = c) by lia. subst. rewrite E2, to_int_fits; auto. Qed.
(* the test: 499500000 with any array of 1000x1000 zeros, transposed or not *)
Corollary C145_bench : forall a (m : mem Z), vshape a = [1000; 1000] -> (forall j, inshape j [1000; 1000] -> m (vplace a j) = 0) -> add_indices fixed z a m = Ok 499500000 m /\
  forall b, transpose10 a = Good b -> add_indices fixed z b m = Ok 499500000 m.
Proof.
  intros a m Ea H0. split; [apply (C145_fits a 1000 1000); auto; [lia|lia|unfold fits_int; lia]|]. intros b Eb.
  destruct (C18_transpose a [1; 0]) as (b' & E1 & E2 & E3 & E4 & E5); [repeat constructor; lia|rewrite vrank_shape, Ea; reflexivity|rewrite Ea; repeat constructor; lia|]. unfold transpose10 in Eb. rewrite E1 in Eb. injection Eb as ->.
  assert (Rb : vrank b = 2%nat). { destruct E2 as [E2|[E2|[]]]; try discriminate; [lia|]. inversion E3; subst. lia. }
  assert (Sb : vshape b = [1000; 1000]).
  { assert (K : forall d, (d < 2)%nat -> nth d (vshape b) 0 = 1000). { intros d Hd. destruct (E5 d ltac:(lia)) as (_ & K & _). destruct K as (k & K1 & _ & ->); [destruct d as [|[|d]]; cbn; lia|]. rewrite vrank_shape, Ea in K1. cbn in K1. rewrite Ea. destruct k as [|[|k]]; [reflexivity|reflexivity|lia]. }
    pose proof (K 0%nat ltac:(lia)) as K0. pose proof (K 1%nat ltac:(lia)) as K1. rewrite vrank_shape in Rb. destruct (vshape b) as [|x [|y [|? ?]]]; cbn in Rb; try lia. cbn in K0, K1. congruence. }
  apply (C145_fits b 1000 1000); auto; [lia|lia| |unfold fits_int; lia]. intros j Hj. rewrite E4 by (rewrite Rb; apply inshape_length in Hj; auto). apply H0. apply in2e in Hj as (x & y & -> & ? & ?). change (inshape [y; x] [1000; 1000]). constructor; [lia|constructor; [lia|constructor]].
Qed.
End Index.

(* C: 3x4 at 100, three rows of indices with one more than enough in each *)
Module Example_144.
Definition c := Vw [Dim 3 4; Dim 4 1] 100.
Definition m : mem Z := fun p => p.
Definition rows := [[2; 0; 99]; [1; 3; -7]; [2; 0; 0]].
Example hyp : enough c rows /\ all_in c rows.
Proof. split; repeat constructor; cbn; lia. Qed.
Example three : by_subscript Z.add 0 c rows m = Ok 323 m /\ by_at Z.add 0 c rows m = Ok 323 m /\ by_at_op true [] Z.add 0 c rows m = Ok 323 m /\ total_at Z.add 0 c rows m = 323.
Proof. vm_compute. auto. Qed.
Example bad : enough c [[2; 0; 99]; [1; 4; 0]] /\ ~ all_in c [[2; 0; 99]; [1; 4; 0]] /\ by_at_op true [] Z.add 0 c [[2; 0; 99]; [1; 4; 0]] m = Fail m.
Proof.
  split; [repeat constructor; cbn; lia|]. split; [|vm_compute; auto]. intros H. unfold all_in in H. rewrite Forall_forall in H. specialize (H [1; 4; 0] (or_intror (or_introl eq_refl))). change (inshape [1; 4] [3; 4]) in H. apply in2e in H as (x & y & E & ? & ?). injection E as <- <-. lia.
Qed.
(* a of 2x3, with elements *)
Example index : vshape (Vw [Dim 2 3; Dim 3 1] 10) = [2; 3] /\ add_indices true [] (Vw [Dim 2 3; Dim 3 1] 10) m = Ok (10 + 11 + 12 + 13 + 14 + 15 + 3 * 2 - 6) m /\ add_indices false [] (Vw [Dim 2 3; Dim 3 1] 10) (fun _ => 0) = Ok 0 (fun _ => 0).
Proof. vm_compute. auto. Qed.
(* with 1626x1626 the sum isn't that any more *)
Example too_large : ~ fits_int (1626 * 1626 * 1625 / 2) /\ to_int (1626 * 1626 * 1625 / 2) = -2146818046.
Proof. split; [unfold fits_int; vm_compute; intros [_ H]; discriminate|vm_compute; auto]. Qed.
End Example_144.

Print Assumptions C144_at_op.
Print Assumptions C144_refused.
Print Assumptions C145_total.
Print Assumptions C145_bench.
