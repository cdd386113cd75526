(* Properties C148 and C149: the programs in examples/outer.cc and examples/agreement.cc, and those in examples/slicing.cc. *)
From Coq Require Import ZArith List Lia Bool.
From Verif Require Import Spec L_Spec Spec_Ply Spec_Expr M_Base M_Expr M_Ply M_Val Spec_Val L_Expr L_Agree L_Ply L_Run L_Val P_Reduce M_View Spec_View L_View P_View M_Slice Spec_Slice L_Slice P_Slice M_Frame Spec_Frame L_Frame P_Frame M_Mat P_Mat M_Cells P_Cells P_Outer P_Doc M_Elem P_Elem P_Ext M_Access P_Access M_Stencil P_Stencil P_Roll M_Indirect P_Indirect P_Accum P_Select M_Examples.
Import ListNotations.
Open Scope Z_scope.

(* element i ++ j of a is the product of element i of x and element j of y *)
Definition product_at {T} (mul : T -> T -> T) (x y : view) (m : mem T) (j : list Z) : T := mul (m (vplace x (firstn (vrank x) j))) (m (vplace y (skipn (vrank x) j))).

Section Outer.
Context {T : Type}.
Variables (fixed : bool) (z : list zt).
Hypothesis Hz : zclean z.
Notation ex := (expr (val T) (mem T)).
Notation mulop mul := (op2 (fun u v => p <- @rd T u ;; q <- rd v ;; ret (VT (mul p q)))).

Lemma put_outer : forall mul (a x y : view) (e : ex) (m : mem T), is_outer (mulop mul) x y e -> vshape a = vshape x ++ vshape y -> nonneg (vshape a) -> apart_at a -> P_Cells.separate a x -> P_Cells.separate a y ->
  exists m', assign fixed z put (viter a) e m = Ok None m' /\ becomes a (product_at mul x y m) m m'.
Proof.
  intros mul a x y e m (We & Se & Ee) Ea Na Ha Hx Hy.
  destruct (assign_to fixed z Hz put a e (vshape a) (product_at mul x y m) m) as (m' & E & B); auto.
  - apply inner_whole; [auto|rewrite Ea; exact Se].
  - intros m1 Hm j Hj. rewrite Ea in Hj. apply two_in in Hj as (i1 & i2 & -> & I1 & I2).
    pose proof (inshape_length _ _ I1) as L1. pose proof (inshape_length _ _ I2) as L2. rewrite <- vrank_shape in L1, L2.
    exists (VT (product_at mul x y m (i1 ++ i2))). split; [|reflexivity]. rewrite Ee by auto. unfold product_at. rewrite <- L1, firstn_app, Nat.sub_diag, firstn_all, firstn_O, app_nil_r, skipn_app, Nat.sub_diag, skipn_all, skipn_O. cbn [app].
    cbn. unfold bind. cbn. unfold ret. do 3 f_equal; apply Hm; intros i Hi Q; [apply (Hx i i1)|apply (Hy i i2)]; auto.
  - exists m'. split; auto.
Qed.
Lemma refuse_outer : forall op (a x y : view) (e : ex) (m : mem T), is_outer op x y e -> nonneg (vshape a) -> nonneg (vshape x) -> nonneg (vshape y) -> length (vshape a) = (length (vshape x) + length (vshape y))%nat -> vshape a <> vshape x ++ vshape y ->
  assign fixed z put (viter a) e m = Fail m.
Proof.
  intros op a x y e m (We & (Le & Se) & Ee) Na Nx Ny L Hne. destruct (view_shape (T:=T) a _ eq_refl Na) as (Wa & _).
  assert (D : exists k, (k < length (vshape a))%nat /\ nth k (vshape a) 0 <> nth k (vshape x ++ vshape y) 0).
  { assert (L' : length (vshape a) = length (vshape x ++ vshape y)) by (rewrite app_length; lia). revert L' Hne. generalize (vshape a) (vshape x ++ vshape y). clear. induction l as [|u l IH]; intros [|v l'] L H; try discriminate; [congruence|].
    destruct (Z.eq_dec u v) as [->|N]; [|exists 0%nat; split; [cbn; lia|exact N]]. destruct (IH l') as (k & K1 & K2); [cbn in L; lia|congruence|]. exists (S k). split; [cbn; lia|exact K2]. }
  destruct D as (k & Hk & Dk).
  assert (Nn : forall l q, nonneg l -> 0 <= nth q l 0). { intros l q H. destruct (Nat.lt_ge_cases q (length l)); [|rewrite nth_overflow by lia; lia]. unfold nonneg in H. rewrite Forall_forall in H. apply H, nth_In; auto. }
  unfold assign. assert (W : wf (Map (assign_op put) [viter a; e])) by (apply wf_map; [discriminate|]; auto). apply ply_refused; [auto|].
  apply (lens_refused _ _ k (nth k (vshape a) 0) (nth k (vshape x ++ vshape y) 0)); auto.
  - cbn [leaf_lens flat_map]. apply in_or_app. left. rewrite viter_lens, vrank_shape. destruct (Nat.ltb_spec k (length (vshape a))); [|lia]. left; auto.
  - cbn [leaf_lens flat_map]. apply in_or_app. right. rewrite app_nil_r. apply Se. rewrite <- Le, app_length. lia.
  - apply Nn, Forall_app; auto.
Qed.

Lemma transposed_last : forall (y : view) r, nonneg (vshape y) -> (0 < vrank y)%nat -> exists b, transpose y (map Z.of_nat (seq r (vrank y))) = Good b /\ vshape b = repeat UNB r ++ vshape y /\
  forall i j, length i = r -> length j = vrank y -> vplace b (i ++ j) = vplace y j.
Proof.
  intros y r Ny Hy. set (s := map Z.of_nat (seq r (vrank y))).
  assert (Is : forall d, In d s <-> Z.of_nat r <= d < Z.of_nat (r + vrank y)). { intros d. unfold s. rewrite in_map_iff. split; [intros (q & <- & Hq); apply in_seq in Hq; lia|]. intros H. exists (Z.to_nat d). split; [lia|apply in_seq; lia]. }
  assert (Ls : length s = vrank y) by (unfold s; rewrite map_length, seq_length; auto).
  assert (Ns : forall k, (k < vrank y)%nat -> nth k s 0 = Z.of_nat (r + k)). { intros k Hk. unfold s. rewrite (nth_indep _ 0 (Z.of_nat 0)) by (rewrite map_length, seq_length; auto). rewrite map_nth, seq_nth; auto. }
  destruct (C18_transpose y s) as (b & Hb & Mx & Bd & Pl & Hd); auto. { apply Forall_forall. intros d Hd. apply Is in Hd. lia. }
  assert (Rb : vrank b = (r + vrank y)%nat).
  { assert (In (Z.of_nat (vrank b) - 1) s) as H by (apply Mx; intros Q; rewrite Q in Ls; cbn in Ls; lia). apply Is in H. rewrite Forall_forall in Bd. pose proof (Bd (Z.of_nat (r + (vrank y - 1))) ltac:(apply Is; lia)). lia. }
  exists b. split; auto. split.
  - apply (list_eq_nth _ _ _ 0); [rewrite app_length, repeat_length, <- !vrank_shape; auto|]. rewrite <- vrank_shape, Rb. intros k Hk. destruct (Hd k ltac:(lia)) as (H1 & H2 & _). destruct (Nat.lt_ge_cases k r) as [K|K].
    + rewrite app_nth1 by (rewrite repeat_length; auto). rewrite nth_repeat_lt by auto. apply H1. rewrite Is. lia.
    + rewrite app_nth2 by (rewrite repeat_length; auto). rewrite repeat_length. destruct H2 as (q & Q1 & Q2 & ->); [apply Is; lia|]. rewrite Ns in Q2 by auto. f_equal. lia.
  - intros i j Li Lj. rewrite Pl by (rewrite app_length; lia). f_equal. unfold s. rewrite map_map. rewrite <- Lj, <- Li. clear. apply (list_eq_nth _ _ _ 0); [rewrite map_length, seq_length; auto|]. rewrite map_length, seq_length. intros k Hk.
    rewrite (nth_map (fun q => nth (Z.to_nat (Z.of_nat q)) (i ++ j) 0) _ _ 0%nat) by (rewrite seq_length; auto). rewrite seq_nth, Nat2Z.id, app_nth2 by lia. f_equal. lia.
Qed.

(* ---- the three forms for any rank ---- *)
Lemma from_is_outer : forall mul (x y : view), nonneg (vshape x) -> nonneg (vshape y) -> exists e, is_outer (mulop mul) x y e /\ forall a m, outer_from fixed z mul a x y m = assign fixed z put (viter a) e m.
Proof. intros mul x y Nx Ny. destruct (C92_from (mulop mul) x y Nx Ny) as (e & E & O). exists e. split; auto. intros a m. unfold outer_from. rewrite E. reflexivity. Qed.
Lemma insert_is_outer : forall mul (x y : view), nonneg (vshape x) -> nonneg (vshape y) -> exists e, is_outer (mulop mul) x y e /\ forall a m, outer_insert fixed z mul a x y m = assign fixed z put (viter a) e m.
Proof. intros mul x y Nx Ny. destruct (C92_prefix (mulop mul) x y Nx Ny) as (b & E & O). eexists. split; [exact O|]. intros a m. unfold outer_insert. rewrite E. reflexivity. Qed.
Lemma transpose_is_outer : forall mul (x y : view), nonneg (vshape x) -> nonneg (vshape y) -> (0 < vrank y)%nat -> exists e, is_outer (mulop mul) x y e /\ forall a m, outer_transpose fixed z mul a x y m = assign fixed z put (viter a) e m.
Proof.
  intros mul x y Nx Ny Hy. destruct (transposed_last y (vrank x) Ny Hy) as (b & E & Sb & Pb).
  exists (Map (mulop mul) [viter x; viter b]). split; [|intros a m; unfold outer_transpose; rewrite E; reflexivity].
  apply (outer_two (mulop mul) x y x b 0); auto; [cbn; rewrite app_nil_r; auto|]. intros i [|] Hi Hj; [rewrite app_nil_r; auto|discriminate].
Qed.
Theorem C148_from : forall mul (a x y : view) (m : mem T), vshape a = vshape x ++ vshape y -> nonneg (vshape a) -> apart_at a -> P_Cells.separate a x -> P_Cells.separate a y ->
  exists m', outer_from fixed z mul a x y m = Ok None m' /\ becomes a (product_at mul x y m) m m'.
Proof.
  intros mul a x y m Ea Na. assert (N : nonneg (vshape x) /\ nonneg (vshape y)) by (rewrite Ea in Na; apply Forall_app; exact Na). destruct N. destruct (from_is_outer mul x y) as (e & O & E); auto. rewrite E. intros. apply put_outer; auto.
Qed.
Theorem C148_insert : forall mul (a x y : view) (m : mem T), vshape a = vshape x ++ vshape y -> nonneg (vshape a) -> apart_at a -> P_Cells.separate a x -> P_Cells.separate a y ->
  exists m', outer_insert fixed z mul a x y m = Ok None m' /\ becomes a (product_at mul x y m) m m'.
Proof.
  intros mul a x y m Ea Na. assert (N : nonneg (vshape x) /\ nonneg (vshape y)) by (rewrite Ea in Na; apply Forall_app; exact Na). destruct N. destruct (insert_is_outer mul x y) as (e & O & E); auto. rewrite E. intros. apply put_outer; auto.
Qed.
Theorem C148_transpose : forall mul (a x y : view) (m : mem T), vshape a = vshape x ++ vshape y -> nonneg (vshape a) -> (0 < vrank y)%nat -> apart_at a -> P_Cells.separate a x -> P_Cells.separate a y ->
  exists m', outer_transpose fixed z mul a x y m = Ok None m' /\ becomes a (product_at mul x y m) m m'.
Proof.
  intros mul a x y m Ea Na Hy. assert (N : nonneg (vshape x) /\ nonneg (vshape y)) by (rewrite Ea in Na; apply Forall_app; exact Na). destruct N. destruct (transpose_is_outer mul x y) as (e & O & E); auto. rewrite E. intros. apply put_outer; auto.
Qed.
(* With other lengths nothing is written. *)
Theorem C148_refused : forall mul (a x y : view) (m : mem T), nonneg (vshape a) -> nonneg (vshape x) -> nonneg (vshape y) -> vrank a = (vrank x + vrank y)%nat -> (0 < vrank y)%nat -> vshape a <> vshape x ++ vshape y ->
  outer_from fixed z mul a x y m = Fail m /\ outer_insert fixed z mul a x y m = Fail m /\ outer_transpose fixed z mul a x y m = Fail m.
Proof.
  intros mul a x y m Na Nx Ny R Hy Hne. rewrite !vrank_shape in R. destruct (from_is_outer mul x y) as (e & O & ->); auto. destruct (insert_is_outer mul x y) as (e1 & O1 & ->); auto. destruct (transpose_is_outer mul x y) as (e2 & O2 & ->); auto.
  split; [|split]; eapply refuse_outer; eauto.
Qed.

(* ---- with index placeholders ---- *)
(* x(tindex<k>) *)
Lemma indexed : forall st (v : view) n k, vshape v = [n] -> 0 <= n -> from_u st v [SArr] [tindex k] = Good (Map (view_op v) [@tindex T (mem T) k]).
Proof.
  intros st v n k Sv Hn. destruct v as [[|d [|d' dv]] cp]; try discriminate Sv. unfold from_u.
  assert (E : from (Vw [d] cp) [SArr] = Good (Vw [d] cp)) by reflexivity. rewrite E. cbn [rbind]. unfold fancy. cbn [vdv vrank length fancy_ti hd_error tl repeat Nat.sub fancy_args map]. unfold from_op, map_verb. cbn [map length outer_cranks Nat.sub seq framematch frames frame_axes].
  unfold outer_cranks. cbn [map length Nat.sub seq framematch frames frame_axes]. unfold frame_axes. cbn [length Nat.add Nat.leb app Nat.sub]. rewrite !Nat.sub_0_r. cbn [zipw]. unfold reframe at 1. rewrite seq_length.
  assert (Q : forall l, eqb_list l l = true) by (induction l; cbn; auto; rewrite Nat.eqb_refl; auto). rewrite Q. reflexivity.
Qed.
Lemma indexed_at : forall (v : view) n k j (m : mem T), vshape v = [n] -> 0 <= n -> (k < length j)%nat -> 0 <= nth k j 0 ->
  (nth k j 0 < n -> element (Map (view_op v) [@tindex T (mem T) k]) j m = Ok (VRef (vplace v [nth k j 0])) m) /\ (n <= nth k j 0 -> element (Map (view_op v) [@tindex T (mem T) k]) j m = Fail m).
Proof.
  intros v n k j m Sv Hn Hk Hj. cbn [element map in_order]. rewrite C58_value by auto. cbn [in_order]. unfold view_op. cbn [ints map]. split; intros H.
  - pose proof (all_indices v [nth k j 0]) as A. rewrite Sv in A. cbn [map] in A. rewrite A by (constructor; [lia|constructor]). reflexivity.
  - pose proof (bad_indices v [nth k j 0]) as A. rewrite Sv in A. cbn [map] in A. rewrite A; [reflexivity|repeat constructor; auto|reflexivity|]. intros I. inversion I; subst; lia.
Qed.
Lemma indexed_wf : forall (v : view) k s, (k < length s)%nat -> let e := Map (view_op v) [@tindex T (mem T) k] in wf e /\ inner e s.
Proof.
  intros v k s Hk e. destruct (C58_axes T (mem T) k) as (W & A & L1 & L2). split; [apply wf_map; [discriminate|auto]|]. apply inner_map. apply Forall_cons; [|constructor]. split; [rewrite A; lia|]. intros q. destruct (Nat.eq_dec q k) as [->|N]; [rewrite L1; auto|rewrite L2 by auto; constructor].
Qed.

(* Every index is in range. The first elements of x and y are taken. *)
Theorem C148_index : forall st mul (a x y : view) n l nx ny (m : mem T), vshape a = [n; l] -> vshape x = [nx] -> vshape y = [ny] -> 0 <= n <= nx -> 0 <= l <= ny -> apart_at a -> P_Cells.separate a x -> P_Cells.separate a y ->
  exists m', outer_index fixed z st mul a x y m = Ok None m' /\ becomes a (product_at mul x y m) m m'.
Proof.
  intros st mul a x y n l nx ny m Ea Ex Ey Hn Hl Ha Hx Hy. unfold outer_index. rewrite (indexed st x nx) by (auto; lia). cbn [onres]. rewrite (indexed st y ny) by (auto; lia). cbn [onres].
  destruct (indexed_wf x 0 [n; l]) as (W1 & N1); [cbn; lia|]. destruct (indexed_wf y 1 [n; l]) as (W2 & N2); [cbn; lia|].
  destruct (assign_to fixed z Hz put a (bin mul (Map (view_op x) [tindex 0]) (Map (view_op y) [tindex 1])) [n; l] (product_at mul x y m) m) as (m' & E & B); auto.
  - repeat constructor; lia.
  - unfold bin. apply wf_map; [discriminate|]. auto.
  - unfold bin. apply inner_map. auto.
  - intros m1 Hm. assert (Rx : vrank x = 1%nat) by (rewrite vrank_shape, Ex; auto).
    replace (product_at mul x y m) with (fun j => mul (m (vplace x (firstn (vrank x) j))) (m (vplace y (skipn (vrank x) j)))) by reflexivity. rewrite Rx. apply bin_reads; intros j Hj; apply in2e in Hj as (i1 & i2 & -> & I1 & I2).
    + exists (VRef (vplace x [i1])). split; [apply (indexed_at x nx 0 [i1; i2] m1); cbn; auto; lia|]. cbn. f_equal. apply Hm. intros i Hi Q. apply (Hx i [i1]); auto; [rewrite Ea; auto|rewrite Ex; constructor; [lia|constructor]].
    + exists (VRef (vplace y [i2])). split; [apply (indexed_at y ny 1 [i1; i2] m1); cbn; auto; lia|]. cbn. f_equal. apply Hm. intros i Hi Q. apply (Hy i [i2]); auto; [rewrite Ea; auto|rewrite Ey; constructor; [lia|constructor]].
  - exists m'. split; auto.
Qed.
(* j0 is the first index of a that isn't in range for x and y. The elements before j0 are written. *)
Theorem C148_index_refused : forall st mul (a x y : view) n l nx ny j0 (m : mem T), vshape a = [n; l] -> vshape x = [nx] -> vshape y = [ny] -> 0 <= nx -> 0 <= ny -> nonneg (vshape a) -> apart_at a -> P_Cells.separate a x -> P_Cells.separate a y ->
  inshape j0 [n; l] -> ~ inshape j0 [nx; ny] -> (forall j, inshape j [n; l] -> lexlt j j0 -> inshape j [nx; ny]) ->
  exists m', outer_index fixed z st mul a x y m = Fail m' /\
    (forall j, inshape j [n; l] -> (lexlt j j0 -> m' (vplace a j) = product_at mul x y m j) /\ (~ lexlt j j0 -> m' (vplace a j) = m (vplace a j))) /\
    forall p, (forall j, inshape j [n; l] -> p <> vplace a j) -> m' p = m p.
Proof.
  intros st mul a x y n l nx ny j0 m Ea Ex Ey Hnx Hny Na Ha Hx Hy J0 B0 Bl. unfold outer_index. rewrite (indexed st x nx) by (auto; lia). cbn [onres]. rewrite (indexed st y ny) by (auto; lia). cbn [onres].
  destruct (indexed_wf x 0 [n; l]) as (W1 & N1); [cbn; lia|]. destruct (indexed_wf y 1 [n; l]) as (W2 & N2); [cbn; lia|]. destruct (view_shape (T:=T) a _ eq_refl Na) as (Wa & Sha).
  assert (Rx : vrank x = 1%nat) by (rewrite vrank_shape, Ex; auto). destruct (split_at _ _ J0) as (l1 & l2 & El & Hl).
  assert (Hat : forall j, inshape j [n; l] -> inshape j (vshape a)) by (rewrite Ea; auto).
  destruct (assign_stops fixed z Hz put (viter a) (bin mul (Map (view_op x) [tindex 0]) (Map (view_op y) [tindex 1])) [n; l] m (vplace a) (product_at mul x y m) l1 j0 l2) as (m' & E & V); auto.
  - unfold bin. apply wf_map; [discriminate|]. auto.
  - apply (joint_cover _ _ _ (viter a)); [left; auto|rewrite <- Ea; auto|]. apply Forall_cons; [rewrite <- Ea; apply inner_whole; auto|]. apply Forall_cons; [|constructor]. unfold bin. apply inner_map. auto.
  - intros j m1 Hj. rewrite viter_element, vrank_shape, whole_in by auto. reflexivity.
  - rewrite <- El. apply row_major_indices.
  - intros j m1 Hj Hm. apply Hl in Hj as (J1 & J2). pose proof (Bl j J1 J2) as Jb. apply in2e in Jb as (i1 & i2 & -> & I1 & I2). exists (VT (product_at mul x y m [i1; i2])). split; [|reflexivity]. unfold bin. cbn [element]. cbn [map].
    rewrite (in_order_2 _ _ _ _ _ (VRef (vplace x [i1])) m1 (VRef (vplace y [i2])) m1); [|apply (indexed_at x nx 0 [i1; i2] m1); cbn; auto; lia|apply (indexed_at y ny 1 [i1; i2] m1); cbn; auto; lia].
    unfold product_at. rewrite Rx. cbn [firstn skipn]. cbn. unfold bind. cbn. unfold ret. do 3 f_equal; apply Hm; intros i Hi _ Q; [apply (Hx i [i1])|apply (Hy i [i2])]; auto; [rewrite Ex|rewrite Ey]; (constructor; [lia|constructor]).
  - intros m1. apply in2e in J0 as (i1 & i2 & -> & I1 & I2). unfold bin. cbn [element]. cbn [map in_order]. destruct (indexed_at x nx 0 [i1; i2] m1) as (X1 & X2); [auto|auto|cbn; lia|cbn; lia|]. destruct (indexed_at y ny 1 [i1; i2] m1) as (Y1 & Y2); [auto|auto|cbn; lia|cbn; lia|]. cbn [nth] in *.
    destruct (Z_lt_ge_dec i1 nx) as [C|C].
    + change (element (Map (view_op x) [tindex 0]) [i1; i2] m1) with (element (Map (view_op x) [@tindex T (mem T) 0]) [i1; i2] m1) in *. rewrite X1 by auto. rewrite Y2; [reflexivity|]. destruct (Z_lt_ge_dec i2 ny); [|lia]. exfalso. apply B0. constructor; [lia|constructor; [lia|constructor]].
    + rewrite X2 by lia. reflexivity.
  - exists m'. split; auto. split.
    + intros j Hj. rewrite V. split; intros L.
      * apply (copied T l1 (product_at mul x y m) (vplace a)); [apply Hl; auto|]. intros q Hq Q. apply Hl in Hq as (Q1 & Q2). apply Ha in Q; auto. subst; auto.
      * replace (filter _ l1) with (@nil (list Z)); [reflexivity|]. symmetry. apply filter_none. intros q Hq. apply Z.eqb_neq. intros Q. apply Hl in Hq as (Q1 & Q2). apply Ha in Q; auto. subst; auto.
    + intros p Hp. rewrite V. replace (filter _ l1) with (@nil (list Z)); [reflexivity|]. symmetry. apply filter_none. intros q Hq. apply Z.eqb_neq. intros Q. apply Hl in Hq as (Q1 & Q2). apply (Hp q); auto.
Qed.
(* The four give the same. *)
Theorem C148_same : forall st mul (a x y : view) nx ny (m : mem T), vshape a = [nx; ny] -> vshape x = [nx] -> vshape y = [ny] -> nonneg (vshape a) -> apart_at a -> P_Cells.separate a x -> P_Cells.separate a y ->
  exists m1 m2 m3 m4, outer_index fixed z st mul a x y m = Ok None m1 /\ outer_from fixed z mul a x y m = Ok None m2 /\ outer_insert fixed z mul a x y m = Ok None m3 /\ outer_transpose fixed z mul a x y m = Ok None m4 /\
    forall p, m1 p = m2 p /\ m1 p = m3 p /\ m1 p = m4 p.
Proof.
  intros st mul a x y nx ny m Ea Ex Ey Na Ha Hx Hy. assert (N : 0 <= nx /\ 0 <= ny) by (rewrite Ea in Na; inversion Na as [|? ? ? N']; inversion N'; subst; auto).
  assert (Es : vshape a = vshape x ++ vshape y) by (rewrite Ea, Ex, Ey; reflexivity). assert (Ry : (0 < vrank y)%nat) by (rewrite vrank_shape, Ey; cbn; lia).
  destruct (C148_index st mul a x y nx ny nx ny m) as (m1 & E1 & B1 & O1); auto; try lia. destruct (C148_from mul a x y m) as (m2 & E2 & B2 & O2); auto. destruct (C148_insert mul a x y m) as (m3 & E3 & B3 & O3); auto. destruct (C148_transpose mul a x y m) as (m4 & E4 & B4 & O4); auto.
  exists m1, m2, m3, m4. split; auto. split; auto. split; auto. split; auto. intros p.
  assert (D : (exists j, inshape j (vshape a) /\ p = vplace a j) \/ forall j, inshape j (vshape a) -> p <> vplace a j).
  { destruct (in_dec Z.eq_dec p (map (vplace a) (indices (vshape a)))) as [I|I]; [left; apply in_map_iff in I as (j & <- & Hj); exists j; split; auto; apply in_indices; auto|]. right. intros j Hj Q. apply I. apply in_map_iff. exists j. split; auto. apply in_indices; auto. }
  destruct D as [(j & Hj & ->)|D]; [rewrite B1, B2, B3, B4 by auto; auto|rewrite O1, O2, O3, O4 by auto; auto].
Qed.

(* ---- agreement ---- *)
(* A = b: each b(i) goes to all of A(i, ...) *)
Theorem C148_rows : forall (a b : view) s (m : mem T), vshape a = vshape b ++ s -> nonneg (vshape a) -> apart_at a -> P_Cells.separate a b ->
  exists m', spread_rows fixed z a b m = Ok None m' /\ becomes a (fun j => m (vplace b (firstn (vrank b) j))) m m'.
Proof.
  intros a b s m Ea Na Ha Hb. assert (N : nonneg (vshape b)) by (rewrite Ea in Na; apply Forall_app in Na; apply Na). destruct (view_shape (T:=T) b _ eq_refl N) as (Wb & Shb).
  destruct (assign_to fixed z Hz put a (viter b) (vshape a) (fun j => m (vplace b (firstn (vrank b) j))) m) as (m' & E & B); auto.
  - rewrite Ea. split; [cbn [axes viter]; rewrite app_length, <- vrank_shape; lia|]. intros k. rewrite viter_lens. destruct (Nat.ltb_spec k (vrank b)); [|constructor]. constructor; [|constructor]. left. rewrite app_nth1 by (rewrite <- vrank_shape; auto). reflexivity.
  - intros m1 Hm j Hj. rewrite Ea in Hj. apply two_in in Hj as (i1 & i2 & -> & I1 & I2). pose proof (inshape_length _ _ I1) as L1. rewrite <- vrank_shape in L1. exists (VRef (vplace b i1)). rewrite viter_element. rewrite <- L1, firstn_app, Nat.sub_diag, firstn_all, firstn_O, app_nil_r. split; [reflexivity|].
    cbn. f_equal. apply Hm. intros i Hi Q. apply (Hb i i1); auto.
  - exists m'. split; auto.
Qed.
(* A = c(insert<k>): each c(j) goes to all of A(..., j) *)
Theorem C148_columns : forall k (a c : view) s (m : mem T), vshape a = s ++ vshape c -> length s = k -> nonneg (vshape a) -> apart_at a -> P_Cells.separate a c ->
  exists m', spread_columns fixed z k a c m = Ok None m' /\ becomes a (fun j => m (vplace c (skipn k j))) m m'.
Proof.
  intros k a c s m Ea Lk Na Ha Hc. destruct (insert_first c k) as (b & E & _ & Sb & Pb). unfold spread_columns. rewrite E. cbn [onres]. assert (N : nonneg (vshape c)) by (rewrite Ea in Na; apply Forall_app in Na; apply Na).
  assert (Rb : vrank b = length (vshape a)) by (rewrite vrank_shape, Sb, Ea, !app_length, repeat_length; lia).
  destruct (assign_to fixed z Hz put a (viter b) (vshape a) (fun j => m (vplace c (skipn k j))) m) as (m' & E' & B); auto.
  - apply oklen_view. rewrite Sb. apply Forall_app. split; [apply Forall_forall; intros x Hx; apply repeat_spec in Hx; subst; right; auto|eapply Forall_impl; [|exact N]; intros x Hx; left; auto].
  - split; [cbn [axes viter]; lia|]. intros q. rewrite viter_lens. destruct (Nat.ltb_spec q (vrank b)) as [Q|]; [|constructor]. constructor; [|constructor]. rewrite Sb, Ea. destruct (Nat.lt_ge_cases q k).
    + right. rewrite app_nth1 by (rewrite repeat_length; auto). apply nth_repeat_lt; auto.
    + left. rewrite !app_nth2 by (rewrite ?repeat_length; lia). rewrite repeat_length, Lk. reflexivity.
  - intros m1 Hm j Hj. pose proof (inshape_length _ _ Hj) as Lj. rewrite Ea in Hj. apply two_in in Hj as (i1 & i2 & -> & I1 & I2). pose proof (inshape_length _ _ I1) as L1. pose proof (inshape_length _ _ I2) as L2. rewrite <- vrank_shape in L2. exists (VRef (vplace c i2)). rewrite viter_element, firstn_all2 by lia. rewrite Pb by lia.
    rewrite <- Lk, <- L1, skipn_app, skipn_all, Nat.sub_diag, skipn_O. cbn [app]. split; [reflexivity|]. cbn. f_equal. apply Hm. intros i Hi Q. apply (Hc i i2); auto.
  - exists m'. split; auto.
Qed.
End Outer.

(* ---- subscripts that stand for the same ---- *)
Lemma sumn_app : forall l m, sumn (l ++ m) = (sumn l + sumn m)%nat.
Proof. induction l; intros; cbn; auto. unfold sumn in *. rewrite IHl. lia. Qed.
Lemma takes_sum : forall l, sumn (map fsrc l) = total takes l.
Proof. induction l; cbn; auto. Qed.
Lemma total_joined : forall (f : sub -> nat) l m, total f (l ++ m) = (total f l + total f m)%nat.
Proof. induction l; intros; cbn; auto. rewrite IHl. lia. Qed.
Definition no_rest (l : list sub) : Prop := ~ In (SDots None) l.
Lemma no_rest_filter : forall l, no_rest l -> filter is_rest l = [].
Proof. induction l as [|s l IH]; intros H; auto. cbn. destruct (is_rest s) eqn:E; [exfalso; apply H; left; destruct s as [| | |[]| |]; try discriminate; auto|]. apply IH. intros Q. apply H. right; auto. Qed.

(* The lists x and y do the same after any others. *)
Lemma fromb_after : forall dobv x y, total takes x = total takes y -> (forall av bv pl, fits (length av) x -> nonneg (map len av) -> fromb dobv x av bv pl = fromb dobv y av bv pl) ->
  forall l av bv pl, fits (length av) (l ++ x) -> nonneg (map len av) -> fromb dobv (l ++ x) av bv pl = fromb dobv (l ++ y) av bv pl.
Proof.
  intros dobv x y Ht H. unfold fits in *. induction l as [|s l IH]; intros av bv pl F N; [apply H; auto|]. cbn [app total] in F. cbn [app].
  assert (Tl : forall d av', nonneg (map len (d :: av')) -> nonneg (map len av')) by (intros d av' Q; inversion Q; auto).
  assert (Sk : forall n, nonneg (map len (skipn n av))). { intros n. unfold nonneg in *. rewrite <- (firstn_skipn n av), map_app in N. apply Forall_app in N. apply N. }
  destruct s as [f|o c t|o dv|k|n|]; cbn [fromb]; cbn [takes] in F.
  - destruct av as [|d av]; auto. cbn [length] in F. destruct (f (len d)); auto. destruct (_ || _); auto. apply IH; [lia|eauto].
  - destruct av as [|d av]; auto. cbn [length] in F. destruct (o (len d)), (c (len d)), (t (len d)); auto. destruct (_ <? 0); auto. destruct (seq_ok _ _ _); auto. apply IH; [lia|eauto].
  - destruct av as [|d av]; auto. cbn [length] in F. destruct (o (len d)); auto. destruct (forallb _ _); auto. apply IH; [lia|eauto].
  - rewrite !takes_sum, !total_joined, <- Ht. destruct (_ && _); auto. apply IH; auto. rewrite skipn_length. rewrite total_joined in *. destruct k; lia.
  - apply IH; auto.
  - destruct av as [|d av]; [destruct dobv; auto; apply IH; [cbn in *; lia|constructor]|]. cbn [length] in F. apply IH; [lia|eauto].
Qed.
(* without conditions *)
Lemma fromb_after_any : forall dobv x y, total takes x = total takes y -> (forall av bv pl, fromb dobv x av bv pl = fromb dobv y av bv pl) -> forall l av bv pl, fromb dobv (l ++ x) av bv pl = fromb dobv (l ++ y) av bv pl.
Proof.
  intros dobv x y Ht H. induction l as [|s l IH]; intros av bv pl; [apply H|]. cbn [app]. destruct s as [f|o c t|o dv|k|n|]; cbn [fromb].
  - destruct av as [|d av]; auto. destruct (f (len d)); auto. destruct (_ || _); auto.
  - destruct av as [|d av]; auto. destruct (o (len d)), (c (len d)), (t (len d)); auto. destruct (_ <? 0); auto. destruct (seq_ok _ _ _); auto.
  - destruct av as [|d av]; auto. destruct (o (len d)); auto. destruct (forallb _ _); auto.
  - rewrite !takes_sum, !total_joined, <- Ht. destruct (_ && _); auto.
  - auto.
  - destruct av as [|d av]; [destruct dobv; auto|]. auto.
Qed.
Lemma from_same : forall (a : view) s t, (length (filter is_rest s) <= 1)%nat <-> (length (filter is_rest t) <= 1)%nat -> frombrank a s = frombrank a t -> (forall d, fromb d s (vdv a) [] (vcp a) = fromb d t (vdv a) [] (vcp a)) -> from a s = from a t.
Proof.
  intros a s t H1 H2 H3. unfold from. rewrite H2, !H3. destruct (Nat.ltb_spec 1 (length (filter is_rest s))), (Nat.ltb_spec 1 (length (filter is_rest t))); auto; lia.
Qed.
Lemma frombrank_app : forall a l m, frombrank a (l ++ m) = frombrank a l - Z.of_nat (total takes m) + Z.of_nat (sumn (map fdst m)).
Proof. intros. unfold frombrank. rewrite !map_app, !sumn_app, !takes_sum. lia. Qed.
Lemma count_app : forall l m, length (filter is_rest (l ++ m)) = (length (filter is_rest l) + length (filter is_rest m))%nat.
Proof. intros. rewrite filter_app, app_length. auto. Qed.

(* dots<0> anywhere *)
Theorem C149_none : forall a l r, from a (l ++ SDots (Some 0%nat) :: r) = from a (l ++ r).
Proof.
  intros a l r. apply from_same.
  - rewrite !count_app. cbn. tauto.
  - rewrite !frombrank_app. cbn [total takes map fdst sumn fold_right]. unfold sumn; lia.
  - intros d. apply fromb_after_any; [reflexivity|]. intros av bv pl. cbn [fromb]. rewrite andb_comm. cbn [skipn firstn Nat.ltb Nat.leb andb]. destruct d; rewrite app_nil_r; reflexivity.
Qed.
(* dots<n>, dots<k> is dots<n+k> *)
Theorem C149_join : forall a l r n k, from a (l ++ SDots (Some n) :: SDots (Some k) :: r) = from a (l ++ SDots (Some (n + k)%nat) :: r).
Proof.
  intros a l r n k. apply from_same.
  - rewrite !count_app. cbn. tauto.
  - rewrite !frombrank_app. cbn [total takes map fdst sumn fold_right]. lia.
  - intros d. apply fromb_after_any; [cbn [total takes]; lia|]. intros av bv pl. cbn [fromb]. rewrite skipn_length, skipn_skipn.
    destruct d; cbn [andb]; [|rewrite !app_nil_r; reflexivity].
    destruct (Nat.ltb_spec (length av) n), (Nat.ltb_spec (length av) (n + k)); try lia; auto; destruct (Nat.ltb_spec (length av - n) k); try lia; auto.
    rewrite <- app_assoc. f_equal. f_equal. clear. revert av. induction n; intros av; [reflexivity|]. destruct av; cbn [Nat.add firstn skipn app]; [rewrite firstn_nil; reflexivity|]. f_equal. apply IHn.
Qed.
Lemma alls : forall a l r n, from a (l ++ repeat all n ++ r) = from a (l ++ SDots (Some n) :: r).
Proof.
  intros a l r n. revert l. induction n as [|n IH]; intros l; [symmetry; apply C149_none|]. cbn [repeat app].
  change (all :: repeat all n ++ r) with ([all] ++ repeat all n ++ r). rewrite app_assoc. rewrite (IH (l ++ [all])). rewrite <- app_assoc. cbn [app]. unfold all. rewrite C149_join. reflexivity.
Qed.
(* n times all is dots<n> *)
Theorem C149_all : forall a l r n, from a (l ++ repeat (SDots (Some 1%nat)) n ++ r) = from a (l ++ SDots (Some n) :: r).
Proof. exact alls. Qed.
(* dots<> is dots<n> with as many axes as the other subscripts leave *)
Theorem C149_rest : forall a l r n, no_rest (l ++ r) -> vrank a = (total takes l + n + total takes r)%nat -> from a (l ++ SDots None :: r) = from a (l ++ SDots (Some n) :: r).
Proof.
  intros a l r n Nr R. apply from_same.
  - pose proof (no_rest_filter _ Nr) as Q. rewrite filter_app in Q. apply app_eq_nil in Q as (Q1 & Q2). rewrite !count_app. cbn [filter is_rest]. rewrite Q1, Q2. cbn. lia.
  - rewrite !frombrank_app. cbn [total takes map fdst sumn fold_right]. lia.
  - intros d. unfold vrank in R. revert R. generalize (@nil dim) (vcp a) (vdv a). assert (Nl : no_rest l) by (intros Q; apply Nr; apply in_or_app; auto). clear Nr a. revert Nl. induction l as [|s l IH]; intros Nl bv pl av R.
    + cbn [app fromb]. rewrite takes_sum. cbn [total] in R. replace (length av - total takes r)%nat with n by lia. reflexivity.
    + assert (Nl' : no_rest l) by (intros Q; apply Nl; right; auto). cbn [app total] in *. destruct s as [f|o c t|o dv|k|q|]; cbn [fromb]; cbn [takes] in R.
      * destruct av as [|e av]; auto. cbn [length] in R. destruct (f (len e)); auto. destruct (_ || _); [apply IH; auto; lia|auto].
      * destruct av as [|e av]; auto. cbn [length] in R. destruct (o (len e)), (c (len e)), (t (len e)); auto. destruct (_ <? 0); auto. destruct (seq_ok _ _ _); [apply IH; auto; lia|auto].
      * destruct av as [|e av]; auto. cbn [length] in R. destruct (o (len e)); auto. destruct (forallb _ _); [apply IH; auto; lia|auto].
      * destruct k as [k|]; [|exfalso; apply Nl; left; auto]. destruct (_ && _); auto. apply IH; auto. rewrite skipn_length. lia.
      * apply IH; auto.
      * destruct av as [|e av]; [cbn in R; lia|]. cbn [length] in R. apply IH; auto; lia.
Qed.
(* dots<n> at the end, and so also all *)
Theorem C149_end : forall a l n, no_rest l -> (total takes l + n <= vrank a)%nat -> from a (l ++ [SDots (Some n)]) = from a l.
Proof.
  intros a l n Nl R. apply from_same.
  - rewrite count_app. cbn. rewrite Nat.add_0_r. tauto.
  - rewrite frombrank_app. cbn [total takes map fdst sumn fold_right]. lia.
  - intros d. unfold vrank in R. revert R. generalize (@nil dim) (vcp a) (vdv a). clear a. revert Nl. induction l as [|s l IH]; intros Nl bv pl av R.
    + cbn [app fromb]. cbn [total] in R. destruct (Nat.ltb_spec (length av) n); [lia|]. rewrite andb_false_r. destruct d; [rewrite <- app_assoc, firstn_skipn|rewrite app_nil_r]; reflexivity.
    + assert (Nl' : no_rest l) by (intros Q; apply Nl; right; auto). cbn [app total] in *. destruct s as [f|o c t|o dv|k|q|]; cbn [fromb]; cbn [takes] in R.
      * destruct av as [|e av]; auto. cbn [length] in R. destruct (f (len e)); auto. destruct (_ || _); [apply IH; auto; lia|auto].
      * destruct av as [|e av]; auto. cbn [length] in R. destruct (o (len e)), (c (len e)), (t (len e)); auto. destruct (_ <? 0); auto. destruct (seq_ok _ _ _); [apply IH; auto; lia|auto].
      * destruct av as [|e av]; auto. cbn [length] in R. destruct (o (len e)); auto. destruct (forallb _ _); [apply IH; auto; lia|auto].
      * destruct k as [k|]; [|exfalso; apply Nl; left; auto]. destruct (_ && _); auto. apply IH; auto. rewrite skipn_length. lia.
      * apply IH; auto.
      * destruct av as [|e av]; [cbn in R; lia|]. cbn [length] in R. apply IH; auto; lia.
Qed.
(* iota(len) is all *)
Theorem C149_iota : forall a l r, nonneg (vshape a) -> fits (vrank a) (l ++ SDots (Some 1%nat) :: r) ->
  from a (l ++ SSeq (fun _ => Some 0) (fun n => Some n) (fun _ => Some 1) :: r) = from a (l ++ SDots (Some 1%nat) :: r).
Proof.
  intros a l r N F. apply from_same.
  - rewrite !count_app. cbn. tauto.
  - rewrite !frombrank_app. cbn [total takes map fdst sumn fold_right]. lia.
  - intros d. symmetry. apply fromb_after; auto. clear. intros av bv pl F N. unfold fits in F. cbn [total takes] in F. destruct av as [|[n s] av]; [cbn in F; lia|]. inversion N as [|? ? N1 _]; subst. cbn [len] in N1. cbn [fromb length len step skipn firstn].
    destruct (Nat.ltb_spec (S (length av)) 1); [lia|]. rewrite andb_false_r. destruct (Z.ltb_spec n 0); [lia|].
    replace (seq_ok n 0 (Dim n 1)) with true; [|symmetry; unfold seq_ok, inside; cbn [len step]; destruct (Z.eqb_spec 0 n); cbn; auto; rewrite !andb_true_iff; lia].
    replace (pl + 0 * s) with pl by lia. replace (1 * s) with s by lia. reflexivity.
Qed.

(* ---- the same elements are written ---- *)
Section Fill.
Context {T : Type}.
Variables (fixed : bool) (z : list zt).
Hypothesis Hz : zclean z.
(* p is the place of an element of b *)
Definition element_of (b : view) (p : Z) : Prop := exists j, inshape j (vshape b) /\ vplace b j = p.
Theorem C149_fill : forall a subs b x (m : mem T), from a subs = Good b -> nonneg (vshape b) -> exists m', fill_at fixed z a subs x m = Ok None m' /\ (forall p, element_of b p -> m' p = x) /\ forall p, ~ element_of b p -> m' p = m p.
Proof.
  intros a subs b x m E N. unfold fill_at. rewrite E. cbn [onres]. destruct (view_shape (T:=T) b _ eq_refl N) as (Wb & Sb).
  destruct (assign_scatter T put (viter b) (Scalar (VT x)) (vshape b) m (vplace b) (fun _ => x) fixed z) as (m' & E1 & E2); auto.
  - exact I.
  - apply (joint_cover _ _ _ (viter b)); [left; auto|auto|]. apply Forall_cons; [apply inner_whole; auto|]. apply Forall_cons; [apply inner_scalar|constructor].
  - intros j m1 Hj. rewrite viter_element, vrank_shape, whole_in by auto. reflexivity.
  - intros j m1 _ _. exists (VT x). split; reflexivity.
  - exists m'. split; auto. split; intros p Hp; rewrite E2.
    + destruct Hp as (j & Hj & Q). apply (copied T (indices (vshape b)) (fun _ => x) (vplace b) j) with (y := m p) in Hj || idtac. rewrite <- Q.
      apply (copied T (indices (vshape b)) (fun _ => x) (vplace b) j (m (vplace b j))); auto. apply in_indices; auto.
    + replace (filter _ _) with (@nil (list Z)); [reflexivity|]. symmetry. apply filter_none. intros j Hj. apply Z.eqb_neq. intros Q. apply Hp. exists j. split; auto. apply in_indices; auto.
Qed.
Lemma element_of_dec : forall b p, element_of b p \/ ~ element_of b p.
Proof.
  intros b p. destruct (in_dec Z.eq_dec p (map (vplace b) (indices (vshape b)))) as [I|I]; [left; apply in_map_iff in I as (j & Q & Hj); exists j; split; auto; apply in_indices; auto|].
  right. intros (j & Hj & Q). apply I. apply in_map_iff. exists j. split; auto. apply in_indices; auto.
Qed.
Lemma fromb_acc : forall subs av bv pl, fromb true subs av bv pl = rbind (fromb true subs av [] pl) (fun q => Good (bv ++ fst q, snd q)).
Proof.
  induction subs as [|s subs IH]; intros av bv pl; cbn [fromb rbind app].
  - reflexivity.
  - assert (Nx : forall av c pl, fromb true subs av (bv ++ c) pl = rbind (fromb true subs av c pl) (fun q => Good (bv ++ fst q, snd q))).
    { intros av' c pl'. rewrite (IH av' (bv ++ c) pl'), (IH av' c pl'). destruct (fromb true subs av' [] pl'); cbn [rbind fst snd]; auto. rewrite app_assoc. reflexivity. }
    destruct s as [f|o c t|o dv|k|n|].
    + destruct av as [|d av]; auto. destruct (f (len d)); auto. destruct (_ || _); auto.
    + destruct av as [|d av]; auto. destruct (o (len d)), (c (len d)), (t (len d)); auto. destruct (_ <? 0); auto. destruct (seq_ok _ _ _); auto.
    + destruct av as [|d av]; auto. destruct (o (len d)); auto. destruct (forallb _ _); auto.
    + destruct (_ && _); auto.
    + apply Nx.
    + destruct av as [|d av]; auto.
Qed.
Lemma fromb_one : forall i r l av bv pl dv p, nonneg (map len av) -> fromb true (l ++ cidx i :: r) av bv pl = Good (dv, p) ->
  exists d1 d2 t, dv = d1 ++ d2 /\ fromb true (l ++ ciota 1 i 1 :: r) av bv pl = Good (d1 ++ Dim 1 t :: d2, p).
Proof.
  intros i r. induction l as [|s l IH]; intros av bv pl dv p N E.
  - cbn [app cidx ciota fromb] in *. destruct av as [|d av]; [discriminate|]. inversion N as [|? ? N1 N2]; subst.
    assert (In_ : inside i (len d) = true). { destruct (inside i (len d)) eqn:Q; auto. cbn [orb] in E. destruct (Z.eqb_spec UNB (len d)); [unfold UNB in *; lia|discriminate]. }
    rewrite In_ in E. cbn [orb] in E. rewrite fromb_acc in E. destruct (fromb true r av [] (pl + i * step d)) as [[d2 p2]| |] eqn:Er; try discriminate. cbn [rbind fst snd] in E. injection E as <- <-.
    exists bv, d2, (1 * step d). split; auto. change (1 <? 0) with false. cbv iota. unfold seq_ok. cbn [len M_Base.step step]. replace (i + (1 - 1) * 1) with i by lia. rewrite In_. cbn [andb orb]. rewrite orb_true_r. rewrite fromb_acc, Er. cbn [rbind fst snd]. rewrite <- app_assoc. reflexivity.
  - assert (Tl : forall d av', nonneg (map len (d :: av')) -> nonneg (map len av')) by (intros d av' Q; inversion Q; auto).
    cbn [app] in *. destruct s as [f|o c t|o q|k|n|]; cbn [fromb] in *.
    + destruct av as [|d av]; [discriminate|]. destruct (f (len d)); [|discriminate]. destruct (_ || _); [|discriminate]. eapply IH; eauto.
    + destruct av as [|d av]; [discriminate|]. destruct (o (len d)), (c (len d)), (t (len d)); try discriminate. destruct (_ <? 0); [discriminate|]. destruct (seq_ok _ _ _); [|discriminate]. eapply IH; eauto.
    + destruct av as [|d av]; [discriminate|]. destruct (o (len d)); [|discriminate]. destruct (forallb _ _); [|discriminate]. eapply IH; eauto.
    + rewrite !takes_sum, !total_joined in *. cbn [total takes cidx ciota] in *. destruct (_ && _); [discriminate|]. eapply IH; eauto. unfold nonneg in *. match goal with |- Forall _ (map len (skipn ?q av)) => rewrite <- (firstn_skipn q av), map_app in N end. apply Forall_app in N. apply N.
    + eapply IH; eauto.
    + destruct av as [|d av]; [discriminate|]. eapply IH; eauto.
Qed.
(* A(..., i, ...) = x and A(..., iota(1, i), ...) = x do the same. *)
Theorem C149_one : forall a l i r b x (m : mem T), nonneg (vshape a) -> Forall one_axis (l ++ r) -> fits (vrank a) (l ++ cidx i :: r) -> from a (l ++ cidx i :: r) = Good b -> nonneg (vshape b) ->
  exists m1 m2, fill_at fixed z a (l ++ cidx i :: r) x m = Ok None m1 /\ fill_at fixed z a (l ++ ciota 1 i 1 :: r) x m = Ok None m2 /\ forall p, m1 p = m2 p.
Proof.
  intros a l i r b x m N O F E Nb. destruct (C149_fill a _ b x m E Nb) as (m1 & E1 & I1 & O1).
  assert (Ones : forall s, one_axis s -> Forall one_axis (l ++ s :: r)) by (intros s Hs; apply Forall_app in O as (O' & O''); apply Forall_app; auto).
  assert (Rs : (length (filter is_rest (l ++ cidx i :: r)) <= 1)%nat). { unfold from in E. destruct (Nat.ltb_spec 1 (length (filter is_rest (l ++ cidx i :: r)))); [discriminate|lia]. }
  rewrite from_fromb in E by (auto; apply Ones; exact I). destruct (fromb true (l ++ cidx i :: r) (vdv a) [] (vcp a)) as [[dv p]| |] eqn:Ef; try discriminate. cbn [rbind fst snd] in E. injection E as <-.
  destruct (fromb_one i r l (vdv a) [] (vcp a) dv p N Ef) as (d1 & d2 & t & -> & Ef2).
  assert (E2 : from a (l ++ ciota 1 i 1 :: r) = Good (Vw (d1 ++ Dim 1 t :: d2) p)).
  { rewrite from_fromb; [rewrite Ef2; reflexivity|apply Ones; exact I|unfold fits in *; rewrite total_joined in *; exact F|rewrite count_app in *; exact Rs]. }
  assert (Nn : forall e1 e2, vshape (Vw (e1 ++ e2) p) = map len e1 ++ map len e2) by (intros; unfold vshape; cbn [vdv]; apply map_app).
  assert (Nb2 : nonneg (vshape (Vw (d1 ++ Dim 1 t :: d2) p))). { rewrite Nn in *. unfold nonneg in *. apply Forall_app in Nb as (B1 & B2). apply Forall_app. split; auto. constructor; [cbn; lia|auto]. }
  destruct (C149_fill a _ _ x m E2 Nb2) as (m2 & E3 & I2 & O2). exists m1, m2. split; auto. split; auto.
  assert (Iff : forall q, element_of (Vw (d1 ++ d2) p) q <-> element_of (Vw (d1 ++ Dim 1 t :: d2) p) q).
  { intros q. unfold element_of. rewrite !Nn. split; intros (j & Hj & <-).
    - apply two_in in Hj as (j1 & j2 & -> & J1 & J2). exists (j1 ++ 0 :: j2). pose proof (inshape_length _ _ J1) as L1. rewrite map_length in L1. split; [apply join_shape; auto; constructor; [cbn; lia|auto]|]. unfold vplace. cbn [vdv vcp]. rewrite !place_app by auto. cbn [place M_Base.step step]. lia.
    - apply two_in in Hj as (j1 & j2 & -> & J1 & J2). pose proof (inshape_length _ _ J1) as L1. rewrite map_length in L1. inversion J2 as [|k ? j3 ? K1 J3]; subst. cbn [len] in K1. exists (j1 ++ j3). split; [apply join_shape; auto|]. unfold vplace. cbn [vdv vcp]. rewrite !place_app by auto. cbn [place M_Base.step step]. assert (k = 0) as -> by lia. lia. }
  intros q. destruct (element_of_dec (Vw (d1 ++ d2) p) q) as [Q|Q]; [rewrite I1, I2; auto; apply Iff; auto|rewrite O1, O2; auto; rewrite <- Iff; auto].
Qed.
End Fill.

(* ---- examples ---- *)
Definition ox : view := Vw [Dim 4 1] 0.
Definition oy : view := Vw [Dim 4 1] 10.
Definition oa (n l : Z) : view := Vw [Dim n l; Dim l 1] 20.
Definition om : mem Z := fun p => nth (Z.to_nat p) [1; 2; 3; 4; 7; 7; 7; 7; 7; 7; 1; 0; 0; -1] 99.
Definition got (n l : Z) (r : out (mem Z) (option unit)) : bool * list Z := match r with Ok _ m => (true, map (fun j => m (vplace (oa n l) j)) (indices [n; l])) | Fail m => (false, map (fun j => m (vplace (oa n l) j)) (indices [n; l])) | Undef => (false, []) end.
Lemma oa_apart : forall n l, 0 <= n -> 0 <= l -> apart_at (oa n l).
Proof.
  intros n l Hn Hl i j Hi Hj Q. cbv [vshape oa vdv map len] in Hi, Hj. apply in2e in Hi as (i1 & i2 & -> & I1 & I2). apply in2e in Hj as (j1 & j2 & -> & J1 & J2). unfold vplace in Q; cbn [oa vcp vdv place step] in Q. assert (i1 = j1) by nia. subst. f_equal. f_equal. lia.
Qed.
Lemma oa_sep : forall n l v, v = ox \/ v = oy -> 0 <= n -> 0 <= l -> P_Cells.separate (oa n l) v.
Proof.
  intros n l v Hv Hn Hl i j Hi Hj Q. cbv [vshape oa vdv map len] in Hi. apply in2e in Hi as (i1 & i2 & -> & I1 & I2). assert (Hj' : inshape j [4]) by (destruct Hv as [->| ->]; exact Hj). apply in1e in Hj' as (k & -> & K).
  destruct Hv as [->| ->]; unfold vplace in Q; cbn [oa ox oy vcp vdv place step] in Q; nia.
Qed.
(* the program in outer.cc *)
Example C148_ex : vshape (oa 4 4) = vshape ox ++ vshape oy /\ nonneg (vshape (oa 4 4)) /\ apart_at (oa 4 4) /\ P_Cells.separate (oa 4 4) ox /\ P_Cells.separate (oa 4 4) oy /\
  let want := (true, [1; 0; 0; -1; 2; 0; 0; -2; 3; 0; 0; -3; 4; 0; 0; -4]) in
  got 4 4 (outer_index true z_init true Z.mul (oa 4 4) ox oy om) = want /\ got 4 4 (outer_from true z_init Z.mul (oa 4 4) ox oy om) = want /\
  got 4 4 (outer_insert true z_init Z.mul (oa 4 4) ox oy om) = want /\ got 4 4 (outer_transpose true z_init Z.mul (oa 4 4) ox oy om) = want.
Proof. split; [reflexivity|]. split; [repeat constructor; cbn; lia|]. split; [apply oa_apart; lia|]. split; [apply oa_sep; auto; lia|]. split; [apply oa_sep; auto; lia|]. repeat split; vm_compute; reflexivity. Qed.
(* with A of shape [2 3] three are refused, and the one with indices isn't *)
Example C148_small_ex : vshape (oa 2 3) <> vshape ox ++ vshape oy /\ got 2 3 (outer_insert true z_init Z.mul (oa 2 3) ox oy om) = (false, [99; 99; 99; 99; 99; 99]) /\ got 2 3 (outer_index true z_init true Z.mul (oa 2 3) ox oy om) = (true, [1; 0; 0; 2; 0; 0]).
Proof. split; [discriminate|]. split; vm_compute; reflexivity. Qed.
(* with A of shape [2 5] it fails at index [0 4] *)
Example C148_large_ex : inshape [0; 4] [2; 5] /\ ~ inshape [0; 4] [4; 4] /\ (forall j, inshape j [2; 5] -> lexlt j [0; 4] -> inshape j [4; 4]) /\ got 2 5 (outer_index true z_init true Z.mul (oa 2 5) ox oy om) = (false, [1; 0; 0; -1; 99; 99; 99; 99; 99; 99]).
Proof.
  split; [constructor; [lia|constructor; [lia|constructor]]|]. split; [intros I; inversion I as [|? ? ? ? _ I2]; inversion I2; subst; lia|]. split; [|vm_compute; reflexivity].
  intros j Hj L. apply in2e in Hj as (i1 & i2 & -> & I1 & I2). inversion L; subst; [lia|]. match goal with H : lexlt [_] [_] |- _ => inversion H; subst end; [constructor; [lia|constructor; [lia|constructor]]|]. match goal with H : lexlt [] [] |- _ => inversion H end.
Qed.
Example C148_spread_ex : got 4 2 (spread_rows true z_init (oa 4 2) ox om) = (true, [1; 1; 2; 2; 3; 3; 4; 4]) /\ got 2 4 (spread_columns true z_init 1 (oa 2 4) ox om) = (true, [1; 2; 3; 4; 1; 2; 3; 4]).
Proof. split; vm_compute; reflexivity. Qed.

(* some of the programs in slicing.cc *)
Definition sA : view := Vw [Dim 6 6; Dim 6 1] 0.
Definition sB : view := Vw [Dim 3 25; Dim 5 5; Dim 5 1] 0.
Definition written {R} (n : nat) (r : out (mem Z) R) : list nat := match r with Ok _ m => filter (fun p => Z.eqb (m (Z.of_nat p)) 1) (seq 0 n) | _ => [] end.
Example C149_ex : let f a s := written 80 (fill_at true z_init a s 1 (fun _ => 99)) in
  f sA [cidx 3; all] = [18; 19; 20; 21; 22; 23]%nat /\ f sA [cidx 3] = f sA [cidx 3; all] /\ f sA [ciota 1 3 1; all] = f sA [cidx 3; all] /\
  f sB [SDots (Some 2%nat); cidx 2] = map (fun k => 2 + 5 * k)%nat (seq 0 15) /\ f sB [SDots None; cidx 2] = f sB [SDots (Some 2%nat); cidx 2] /\ f sB [all; all; cidx 2] = f sB [SDots (Some 2%nat); cidx 2] /\
  f sB [cidx 0; cidx 2; cidx 3] = [13%nat] /\ f sB [SDots (Some 0%nat); cidx 0; SDots (Some 0%nat); cidx 2; SDots (Some 0%nat); cidx 3; SDots (Some 0%nat)] = [13%nat].
Proof. repeat split; vm_compute; reflexivity. Qed.
Example C149_facts : no_rest ([] ++ [cidx 2]) /\ vrank sB = (total takes [] + 2 + total takes [cidx 2])%nat /\ (total takes [cidx 1] + 2 <= vrank sB)%nat /\ nonneg (vshape sB) /\ fits (vrank sB) ([cidx 1] ++ SDots (Some 1%nat) :: []) /\
  from sB ([SDots (Some 1%nat)] ++ cidx 2 :: [all]) = Good (Vw [Dim 3 25; Dim 5 1] 10).
Proof. split; [intros [Q|[]]; discriminate Q|]. split; [reflexivity|]. split; [cbn; lia|]. split; [repeat constructor; cbn; lia|]. split; [unfold fits; cbn; lia|]. reflexivity. Qed.
Print Assumptions C148_from.
Print Assumptions C148_insert.
Print Assumptions C148_transpose.
Print Assumptions C148_refused.
Print Assumptions C148_index.
Print Assumptions C148_index_refused.
Print Assumptions C148_same.
Print Assumptions C148_rows.
Print Assumptions C148_columns.
Print Assumptions C149_none.
Print Assumptions C149_join.
Print Assumptions C149_all.
Print Assumptions C149_rest.
Print Assumptions C149_end.
Print Assumptions C149_iota.
Print Assumptions C149_fill.
Print Assumptions C149_one.
