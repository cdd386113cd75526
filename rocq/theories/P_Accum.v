(* Property C139: the ways to add up the products of the elements of two arrays. *)
From Coq Require Import ZArith List Lia Bool.
From Verif Require Import Spec L_Spec Spec_Ply Spec_Expr M_Base M_Expr M_Ply M_Val Spec_Val L_Expr L_Agree L_Ply L_Run L_Val P_Reduce M_View Spec_View L_View P_View M_Slice Spec_Slice P_Slice M_Frame L_Frame M_Mat P_Mat M_Cells P_Cells P_Outer P_Doc M_Elem P_Elem P_Ext M_Accum.
Import ListNotations.
Open Scope Z_scope.

(* y with the products of x j and w j, for each j in turn *)
Definition products {T} (add mul : T -> T -> T) (x w : list Z -> T) (js : list (list Z)) (y : T) : T := fold_left add (map (fun j => mul (x j) (w j)) js) y.
(* the elements of a one after the other from the first, in row-major order *)
Definition in_row (a : view) : Prop := forall j, inshape j (vshape a) -> vplace a j = vcp a + rm (vshape a) j.

Section Accum.
Context {T : Type}.
Variables (fixed : bool) (z : list zt).
Hypothesis Hz : zclean z.
Variables (add mul : T -> T -> T).
Notation ex := (expr (val T) (mem T)).

Lemma eqb_list_refl : forall l, eqb_list l l = true.
Proof. induction l; cbn; auto. rewrite Nat.eqb_refl. auto. Qed.
Lemma reframe_all : forall X W (a : expr X W) n, reframe a (seq 0 n) = a.
Proof. intros. unfold reframe. rewrite seq_length, eqb_list_refl. reflexivity. Qed.
Lemma verb_scalars_2 : forall X W (op : list X -> M W X) a b, map_verb [[0; 0]]%nat op [a; b] = Some (Map op [a; b]).
Proof.
  intros X W op a b. unfold map_verb. cbn [map framematch frames max_live length]. unfold frame_axes. cbn [length app]. rewrite !Nat.add_0_l, !Nat.sub_0_r. cbn [Nat.leb].
  cbn [length app]. rewrite !seq_length, !Nat.add_0_r, !Nat.leb_refl, !Nat.sub_0_r, !Nat.sub_diag. cbn [seq]. rewrite !app_nil_r. cbn [zipw]. rewrite !reframe_all. reflexivity.
Qed.
Lemma verb_scalars_1 : forall X W (op : list X -> M W X) a, map_verb [[0]]%nat op [a] = Some (Map op [a]).
Proof.
  intros X W op a. unfold map_verb. cbn [map framematch frames max_live length]. unfold frame_axes. cbn [length app]. rewrite !Nat.add_0_l, !Nat.sub_0_r. cbn [Nat.leb].
  cbn [length app]. rewrite !seq_length, !Nat.add_0_r, !Nat.leb_refl, !Nat.sub_0_r, !Nat.sub_diag. cbn [seq]. rewrite !app_nil_r. cbn [zipw]. rewrite !reframe_all. reflexivity.
Qed.

(* whatever a and b are *)
Lemma by_1w_1l : forall (a b : ex) y m, by_1w fixed z add mul a b y m = by_1l fixed z add mul a b y m.
Proof. intros. unfold by_1w, for_each_verb. cbn [map]. rewrite verb_scalars_2. reflexivity. Qed.
Lemma by_2w_2l : forall (a b : ex) y m, by_2w fixed z add mul a b y m = by_2l fixed z add mul a b y m.
Proof. intros. unfold by_2w. rewrite verb_scalars_2. unfold for_each_verb. cbn [map]. rewrite verb_scalars_1. reflexivity. Qed.

Theorem C139_traversals : forall (a b : ex) s js (m : mem T) x w y, wf a -> wf b -> joint_shape [a; b] s -> row_major s js -> reads a s m x -> reads b s m w ->
  by_1l fixed z add mul a b y m = Ok (products add mul x w js y) m /\
  by_2l fixed z add mul a b y m = Ok (products add mul x w js y) m /\
  by_1w fixed z add mul a b y m = Ok (products add mul x w js y) m /\
  by_2w fixed z add mul a b y m = Ok (products add mul x w js y) m.
Proof.
  intros a b s js m x w y Wa Wb Hs Hj Ha Hb. rewrite by_1w_1l, by_2w_2l.
  assert (E1 : by_1l fixed z add mul a b y m = Ok (products add mul x w js y) m).
  { unfold by_1l, add_product. rewrite (reduce2_spec T fixed z (fun x y c => add c (mul x y)) a b s js m x w) by auto. unfold products. rewrite <- fold_left_map. reflexivity. }
  assert (E2 : by_2l fixed z add mul a b y m = Ok (products add mul x w js y) m).
  { unfold by_2l, add_one. rewrite (reduce1_spec T fixed z (fun x c => add c x) (bin mul a b) s js m (fun j => mul (x j) (w j))); auto.
    - apply wf_map; [discriminate|]. auto.
    - apply bin_reads; auto. }
  auto.
Qed.

(* y += sum(a*b), y += dot(a, b), y += reduce_sqrm(a-b): another order of the sums *)
Theorem C139_total : forall zero (a b : ex) s js (m : mem T) x w y, wf a -> wf b -> joint_shape [a; b] s -> row_major s js -> reads a s m x -> reads b s m w -> (exists j, inshape j s) ->
  by_op fixed z add mul zero a b y m = Ok (add y (products add mul x w js zero)) m /\
  by_dot fixed z add mul zero a b y m = Ok (add y (products add mul x w js zero)) m /\
  (forall sqrm sub, by_sqrm fixed z add sqrm sub zero a b y m = Ok (add y (products add (fun x w => sqrm (sub x w)) x w js zero)) m) /\
  ((forall u v t, add u (add v t) = add (add u v) t) -> (forall u, add u zero = u) -> add y (products add mul x w js zero) = products add mul x w js y).
Proof.
  intros zero a b s js m x w y Wa Wb Hs Hj Ha Hb He. split; [|split; [|split]].
  - unfold by_op, bind. rewrite (C31_sum_partial T add zero (bin mul a b) s js m (fun j => mul (x j) (w j))); auto.
    + apply wf_map; [discriminate|]. auto.
    + apply bin_reads; auto.
  - unfold by_dot, bind. rewrite (C31_dot T add mul zero a b s js m x w) by auto. reflexivity.
  - intros sqrm sub. unfold by_sqrm, bind. rewrite (C31_reduce_sqrm T add sqrm zero (bin sub a b) s js m (fun j => sub (x j) (w j))); auto.
    + apply wf_map; [discriminate|]. auto.
    + apply bin_reads; auto.
  - intros As Un. unfold products. rewrite <- (Un y) at 2. generalize zero. induction (map (fun j => mul (x j) (w j)) js) as [|v l IH]; intros t; cbn [fold_left]; [auto|]. rewrite IH, As. reflexivity.
Qed.

(* If the lengths don't match, none of these begins. *)
Theorem C139_refused : forall zero (a b : ex) k p q (m : mem T) y, wf a -> wf b -> In p (leaf_lens a k) -> In q (leaf_lens b k) -> 0 <= p -> 0 <= q -> p <> q ->
  by_1l fixed z add mul a b y m = Fail m /\ by_2l fixed z add mul a b y m = Fail m /\ by_1w fixed z add mul a b y m = Fail m /\ by_2w fixed z add mul a b y m = Fail m /\
  by_dot fixed z add mul zero a b y m = Fail m /\ forall sqrm sub, by_sqrm fixed z add sqrm sub zero a b y m = Fail m.
Proof.
  intros zero a b k p q m y Wa Wb Hp Hq Np Nq Hpq.
  assert (G : forall (op : list (val T) -> M (mem T * T) (val T)) t c, t <> [] -> Forall wf t -> In p (leaf_lens (Map op (map lift t)) k) -> In q (leaf_lens (Map op (map lift t)) k) -> for_each_c fixed z op t c m = Fail m).
  { intros op t c Ht Wt Ip Iq. unfold for_each_c. set (e := Map op (map lift t)) in *.
    assert (We : wf e). { apply wf_map; [destruct t; [contradiction|discriminate]|]. apply Forall_forall. intros x Hx. apply in_map_iff in Hx as (u & <- & Hu). apply lift_wf. rewrite Forall_forall in Wt. auto. }
    assert (V : validate e = false).
    { destruct (validate e) eqn:E; auto. exfalso. apply validate_iff in E; auto. destruct (Nat.lt_ge_cases k (axes e)) as [Hk|Hk].
      - destruct (E k) as (n & Hn & HI & F); [cbn [fold_right]; lia|]. cbn [flat_map] in F. rewrite app_nil_r, Forall_forall in F. pose proof (F p Ip). pose proof (F q Iq). unfold UNB in *. lia.
      - rewrite leaf_lens_out in Ip; auto. rewrite <- axes_rank; auto. }
    unfold ply, ply_fixed, ply_ravel. rewrite V. destruct fixed; reflexivity. }
  rewrite by_1w_1l, by_2w_2l.
  assert (W2 : forall g, wf (bin g a b)) by (intros g; apply wf_map; [discriminate|]; auto).
  assert (E1 : forall op (c : T), for_each_c fixed z op [a; b] c m = Fail m).
  { intros. apply G; auto; [discriminate|..]; cbn [leaf_lens flat_map map]; rewrite !lift_lens, app_nil_r, in_app_iff; auto. }
  assert (E2 : forall g op (c : T), for_each_c fixed z op [bin g a b] c m = Fail m).
  { intros. apply G; auto; [discriminate|..]; cbn [leaf_lens flat_map map]; rewrite !lift_lens; unfold bin; cbn [leaf_lens flat_map]; rewrite !app_nil_r, in_app_iff; auto. }
  split; [apply E1|]. split; [apply E2|]. split; [apply E1|]. split; [apply E2|]. split.
  - unfold by_dot, dot, bind. rewrite E1. reflexivity.
  - intros sqrm sub. unfold by_sqrm, reduce_sqrm, bind. rewrite E2. reflexivity.
Qed.

Lemma count_spec : forall n (f : Z -> T -> M (mem T) T) (g : Z -> T -> T) (m : mem T), (forall k y, 0 <= k < n -> f k y m = Ok (g k y) m) ->
  forall y, count n f y m = Ok (fold_left (fun y k => g k y) (zrange n) y) m.
Proof.
  intros n f g m Hf y. unfold count, zrange.
  assert (G : forall l k y, (Z.of_nat k + Z.of_nat l = Z.max 0 n) -> count_ l (Z.of_nat k) f y m = Ok (fold_left (fun y k => g k y) (map Z.of_nat (seq k l)) y) m).
  { induction l as [|l IH]; intros k y' E; [reflexivity|]. cbn [count_ seq map fold_left]. unfold bind. rewrite Hf by lia. replace (Z.of_nat k + 1) with (Z.of_nat (S k)) by lia. apply IH. lia. }
  apply (G (Z.to_nat n) 0%nat y). lia.
Qed.
Lemma nested_spec : forall ls ix (f : list Z -> T -> M (mem T) T) (g : list Z -> T -> T) (m : mem T), (forall j y, inshape j ls -> f (ix ++ j) y m = Ok (g (ix ++ j) y) m) ->
  forall y, nested ls ix f y m = Ok (fold_left (fun y j => g (ix ++ j) y) (indices ls) y) m.
Proof.
  induction ls as [|n ls IH]; intros ix f g m Hf y.
  - cbn [nested indices fold_left]. rewrite <- (app_nil_r ix) at 1. apply Hf. constructor.
  - cbn [nested indices]. rewrite (count_spec n _ (fun k y => fold_left (fun y j => g ((ix ++ [k]) ++ j) y) (indices ls) y)).
    + apply f_equal2; [|reflexivity]. revert y. induction (zrange n) as [|k l IHl]; intros y; [reflexivity|]. cbn [fold_left flat_map]. rewrite fold_left_app, IHl. apply f_equal.
      clear. revert y. induction (indices ls) as [|j js IHj]; intros y'; [reflexivity|]. cbn [fold_left map]. rewrite IHj, <- app_assoc. reflexivity.
    + intros k y' Hk. apply IH. intros j y2 Hj. rewrite <- app_assoc. apply Hf. cbn [app]. constructor; auto.
Qed.

Lemma nested_fail : forall ls ix (f : list Z -> T -> M (mem T) T) (m : mem T) j, (forall j y, inshape j ls -> (exists y', f (ix ++ j) y m = Ok y' m) \/ f (ix ++ j) y m = Fail m) ->
  inshape j ls -> (forall y, f (ix ++ j) y m = Fail m) -> forall y, nested ls ix f y m = Fail m.
Proof.
  assert (C : forall (f : Z -> T -> M (mem T) T) (m : mem T) l k, (forall i y, k <= i < k + Z.of_nat l -> (exists y', f i y m = Ok y' m) \/ f i y m = Fail m) ->
    (forall y, (exists y', count_ l k f y m = Ok y' m) \/ count_ l k f y m = Fail m) /\ forall i, k <= i < k + Z.of_nat l -> (forall y, f i y m = Fail m) -> forall y, count_ l k f y m = Fail m).
  { intros f m. induction l as [|l IH]; intros k Hf.
    - split; [intros y; left; eexists; reflexivity|]. intros i Hi. lia.
    - destruct (IH (k + 1)) as (A & B); [intros i y Hi; apply Hf; lia|]. split.
      + intros y. cbn [count_]. unfold bind. destruct (Hf k y ltac:(lia)) as [(y' & ->)| -> ]; auto.
      + intros i Hi Fi y. cbn [count_]. unfold bind. destruct (Z.eq_dec i k) as [->|Hik]; [rewrite Fi; reflexivity|]. destruct (Hf k y ltac:(lia)) as [(y' & ->)| -> ]; auto. apply (B i); auto. lia. }
  assert (N : forall ls ix (f : list Z -> T -> M (mem T) T) (m : mem T), (forall j y, inshape j ls -> (exists y', f (ix ++ j) y m = Ok y' m) \/ f (ix ++ j) y m = Fail m) ->
    forall y, (exists y', nested ls ix f y m = Ok y' m) \/ nested ls ix f y m = Fail m).
  { induction ls as [|n ls IH]; intros ix f m Hf y.
    - cbn [nested]. rewrite <- (app_nil_r ix). apply Hf. constructor.
    - cbn [nested]. apply C. intros i y' Hi. apply IH. intros j y2 Hj. rewrite <- app_assoc. apply Hf. cbn [app]. constructor; auto. lia. }
  induction ls as [|n ls IH]; intros ix f m j Hf Hj Fj y.
  - inversion Hj; subst. cbn [nested]. rewrite app_nil_r in Fj. apply Fj.
  - inversion Hj as [|i ? j' ? Hi Hj']; subst. cbn [nested]. unfold count. destruct (C (fun j => nested ls (ix ++ [j]) f) m (Z.to_nat n) 0) as (_ & B).
    + intros i' y' Hi'. apply N. intros j y2 Hj2. rewrite <- app_assoc. apply Hf. cbn [app]. constructor; auto. lia.
    + apply (B i); [lia|]. intros y'. apply (IH (ix ++ [i]) f m j').
      * intros j y2 Hj2. rewrite <- app_assoc. apply Hf. cbn [app]. constructor; auto.
      * exact Hj'.
      * intros y2. rewrite <- app_assoc. apply Fj.
Qed.
Lemma inshape_dec : forall j s, {inshape j s} + {~ inshape j s}.
Proof.
  induction j as [|i j IH]; intros [|n s].
  - left. constructor.
  - right. intros H. inversion H.
  - right. intros H. inversion H.
  - destruct (Z_le_dec 0 i), (Z_lt_dec i n), (IH s); try (right; intros H; inversion H; subst; try lia; contradiction). left. constructor; auto.
Qed.
Lemma bad_indices : forall v j, nonneg (vshape v) -> length j = length (vshape v) -> ~ inshape j (vshape v) -> from v (map cidx j) = Refused.
Proof.
  intros v j Nv L Hj. unfold vshape in L. rewrite map_length in L.
  assert (O : Forall one_axis (map cidx j)) by (apply Forall_forall; intros x Hx; apply in_map_iff in Hx; destruct Hx as (? & <- & _); exact I).
  assert (F : fits (vrank v) (map cidx j)). { unfold fits, vrank. rewrite <- L. clear. induction j; cbn; lia. }
  assert (R : one_rest (map cidx j)). { intros l1 l2 l3 E. assert (In (SDots None) (map cidx j)) by (rewrite E; apply in_or_app; right; left; reflexivity). apply in_map_iff in H. destruct H as (? & X & _). discriminate. }
  destruct (C23_accepted v (map cidx j) O F R) as (_ & B). apply B. intros G. apply Hj. clear - G L Nv. unfold vshape in *. revert G L Nv. generalize (vdv v). induction j as [|i j IH]; intros dv G L N; inversion G as [|? d x ? dv' Ex Hx G'| | | | |]; subst; cbn [length map] in *.
  - destruct dv; [constructor|discriminate].
  - inversion N; subst. cbn in Ex. inversion Ex; subst. constructor; [unfold UNB in Hx; lia|]. apply IH; auto.
Qed.

(* The loops go by the lengths of a. If b has more elements, those aren't used. *)
Theorem C139_index : forall (a b : view) js (m : mem T) y, nonneg (vshape a) -> Forall2 Z.le (vshape a) (vshape b) -> row_major (vshape a) js ->
  by_index add mul a b y m = Ok (products add mul (fun j => m (vplace a j)) (fun j => m (vplace b j)) js y) m.
Proof.
  intros a b js m y Na Hab Hj. apply row_major_unique in Hj. subst js. unfold by_index. change (map len (vdv a)) with (vshape a).
  rewrite (nested_spec (vshape a) [] _ (fun j y => add y (mul (m (vplace a j)) (m (vplace b j))))).
  - unfold products. rewrite <- fold_left_map. reflexivity.
  - intros j y' Hj. cbn [app]. unfold add_at. rewrite !all_indices; [reflexivity| |exact Hj].
    clear -Hj Hab. revert Hab. generalize (vshape b). induction Hj; intros s2 H2; inversion H2; subst; constructor; [lia|apply IHHj; auto].
Qed.
(* If b has fewer, it fails there. *)
Theorem C139_index_short : forall (a b : view) j (m : mem T) y, nonneg (vshape a) -> nonneg (vshape b) -> length (vshape a) = length (vshape b) -> inshape j (vshape a) -> ~ inshape j (vshape b) ->
  by_index add mul a b y m = Fail m.
Proof.
  intros a b j m y Na Nb L Hj Hn. unfold by_index. change (map len (vdv a)) with (vshape a).
  apply (nested_fail (vshape a) [] (add_at add mul a b) m j); auto.
  - intros i y' Hi. cbn [app]. unfold add_at. rewrite all_indices by auto. cbn [onres]. destruct (inshape_dec i (vshape b)) as [Hb|Hb].
    + rewrite all_indices by auto. left. eexists. reflexivity.
    + rewrite bad_indices; auto. rewrite <- L. apply inshape_length; auto.
  - intros y'. cbn [app]. unfold add_at. rewrite all_indices by auto. cbn [onres]. rewrite bad_indices; auto. rewrite <- L. apply inshape_length; auto.
Qed.

Theorem C139_raw : forall (a b : view) js (m : mem T) y, nonneg (vshape a) -> vshape b = vshape a -> in_row a -> in_row b -> row_major (vshape a) js ->
  by_raw add mul a b y m = Ok (products add mul (fun j => m (vplace a j)) (fun j => m (vplace b j)) js y) m.
Proof.
  intros a b js m y Na Sb Ra Rb Hj. apply row_major_unique in Hj. subst js. unfold by_raw.
  rewrite (count_spec _ _ (fun k y => add y (mul (m (vcp a + k)) (m (vcp b + k))))) by auto. f_equal. unfold products. rewrite <- fold_left_map.
  replace (dimv_size (vdv a)) with (zprod (vshape a)).
  - rewrite <- (rm_indices (vshape a)) by auto. rewrite <- fold_left_map.
    assert (G : forall l y, (forall j, In j l -> inshape j (vshape a)) -> fold_left (fun y j => add y (mul (m (vcp a + rm (vshape a) j)) (m (vcp b + rm (vshape a) j)))) l y = fold_left (fun y j => add y (mul (m (vplace a j)) (m (vplace b j)))) l y).
    { induction l as [|j l IH]; intros y' Hl; [reflexivity|]. cbn [fold_left]. rewrite IH by (intros; apply Hl; right; auto). rewrite Ra by (apply Hl; left; auto). rewrite Rb, Sb by (rewrite Sb; apply Hl; left; auto). reflexivity. }
    apply G. intros j Hj. apply in_indices; auto.
  - symmetry. apply dimv_size_prod. auto.
Qed.
End Accum.

(* the elements of {{1 2 3} {4 5 6}} by columns, in places 0 ... 5, and of {{10 20 30} {40 50 60}} by rows, in places 10 ... 15 *)
Definition two (p : Z) : Z := nth (Z.to_nat p) [1; 4; 2; 5; 3; 6; 0; 0; 0; 0; 10; 20; 30; 40; 50; 60] 0.
Definition one_ : view := Vw [Dim 2 1; Dim 3 2] 0.
Definition other : view := Vw [Dim 2 3; Dim 3 1] 10.
Example ex_accum : wf (viter (T:=Z) one_) /\ wf (viter (T:=Z) other) /\ joint_shape [viter (T:=Z) one_; viter other] [2; 3] /\ row_major [2; 3] (indices [2; 3]) /\
  reads (viter one_) [2; 3] two (fun j => two (vplace one_ j)) /\ reads (viter other) [2; 3] two (fun j => two (vplace other j)) /\ inshape [1; 2] [2; 3] /\
  by_1l false z_init Z.add Z.mul (viter one_) (viter other) 7 two = Ok 917 two /\ by_2w true z_init Z.add Z.mul (viter one_) (viter other) 7 two = Ok 917 two /\
  by_index Z.add Z.mul one_ other 7 two = Ok 917 two /\ by_raw Z.add Z.mul other other 7 two = Ok 9107 two.
Proof.
  assert (N : nonneg [2; 3]) by (repeat constructor; lia).
  destruct (view_shape (T:=Z) one_ [2; 3] eq_refl N) as (W1 & S1), (view_shape (T:=Z) other [2; 3] eq_refl N) as (W2 & S2).
  split; [auto|]. split; [auto|]. split; [apply (joint_prefix Z (viter one_) (viter other) [2; 3] []); auto|]. split; [apply row_major_indices|].
  split; [intros j Hj; exists (VRef (vplace one_ j)); rewrite viter_element, vrank_shape, whole_in by auto; split; reflexivity|].
  split; [intros j Hj; exists (VRef (vplace other j)); rewrite viter_element, vrank_shape, whole_in by auto; split; reflexivity|].
  split; [repeat constructor; lia|]. split; [vm_compute; reflexivity|]. split; [vm_compute; reflexivity|]. split; vm_compute; reflexivity.
Qed.
Example ex_in_row : nonneg (vshape other) /\ in_row other /\ ~ in_row one_.
Proof.
  split; [repeat constructor; cbn; lia|]. split.
  - intros j Hj. inversion Hj as [|i ? ? ? Hi H']; subst. inversion H' as [|k ? ? ? Hk H'']; subst. inversion H''; subst. unfold vplace. cbn. lia.
  - intros H. specialize (H [0; 1] ltac:(repeat constructor; cbn; lia)). discriminate.
Qed.
(* a row of 3 with a row of 2, and the other way *)
Example ex_short : let a := Vw [Dim 3 1] 0 in let b := Vw [Dim 2 1] 10 in
  In 3 (leaf_lens (viter (T:=Z) a) 0) /\ In 2 (leaf_lens (viter (T:=Z) b) 0) /\ inshape [2] (vshape a) /\ ~ inshape [2] (vshape b) /\ Forall2 Z.le (vshape b) (vshape a) /\
  by_1l false z_init Z.add Z.mul (viter a) (viter b) 7 two = Fail two /\ by_index Z.add Z.mul a b 7 two = Fail two /\ by_index Z.add Z.mul b a 7 two = Ok (7 + 10 + 80) two.
Proof.
  cbv zeta. split; [left; reflexivity|]. split; [left; reflexivity|]. split; [repeat constructor; cbn; lia|]. split; [intros H; inversion H; subst; cbn in *; lia|].
  split; [repeat constructor; cbn; lia|]. split; [vm_compute; reflexivity|]. split; vm_compute; reflexivity.
Qed.

Print Assumptions C139_traversals.
Print Assumptions C139_total.
Print Assumptions C139_refused.
Print Assumptions C139_index.
Print Assumptions C139_index_short.
Print Assumptions C139_raw.
