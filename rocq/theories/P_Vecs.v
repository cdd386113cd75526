(* Property C155: sums of arrays of short vectors in bench/bench-optimize.cc. *)
From Coq Require Import ZArith List Lia Bool.
From Verif Require Import Spec L_Spec Spec_Ply Spec_Expr M_Base M_Expr M_Ply M_Val Spec_Val L_Expr L_Agree L_Ply L_Stl L_Run L_Val P_Ply P_Reduce M_View Spec_View L_View P_View M_Slice Spec_Slice L_Slice P_Slice M_Frame Spec_Frame L_Frame P_Frame M_Mat Spec_Mat P_Mat P_Ext P_Outer M_Cell M_Fill P_Fill M_Cells P_Cells P_Ref M_Stencil P_Stencil P_Roll M_Access P_Accum M_Vec P_Vec M_Vecs.
Import ListNotations.
Open Scope Z_scope.

Section Spec.
Context {T : Type}.
Variables (f : T -> T -> T) (n : Z).
(* vector c of n components becomes f of vectors a and b, and nothing else changes *)
Definition vec_set (c a b : Z) (m m' : mem T) : Prop := (forall k, 0 <= k < n -> m' (n * c + k) = f (m (n * a + k)) (m (n * b + k))) /\ forall p, ~ n * c <= p < n * c + n -> m' p = m p.
(* one vector after the other *)
Fixpoint vec_sets (pc pa pb : list Z -> Z) (js : list (list Z)) (m m' : mem T) : Prop :=
  match js with
  | [] => forall p, m' p = m p
  | j::js' => exists m1, vec_set (pc j) (pa j) (pb j) m m1 /\ vec_sets pc pa pb js' m1 m'
  end.

(* there's only one such result *)
Lemma vec_sets_one : forall pc pa pb js m1 m2 m1' m2', (forall p, m1 p = m2 p) -> vec_sets pc pa pb js m1 m1' -> vec_sets pc pa pb js m2 m2' -> forall p, m1' p = m2' p.
Proof.
  induction js as [|j js IH]; intros m1 m2 m1' m2' E S1 S2 p; cbn [vec_sets] in *; [rewrite S1, S2; auto|]. destruct S1 as (k1 & (A1 & B1) & S1), S2 as (k2 & (A2 & B2) & S2). apply (IH k1 k2); auto.
  clear p. intros p. destruct (Z_le_dec (n * pc j) p) as [H1|H1]; [destruct (Z_lt_dec p (n * pc j + n)) as [H2|H2]|].
  - replace p with (n * pc j + (p - n * pc j)) by lia. rewrite A1, A2, !E by lia. auto.
  - rewrite B1, B2 by lia. auto.
  - rewrite B1, B2 by lia. auto.
Qed.
(* the components of different vectors *)
Lemma vec_apart : forall a b k, 0 <= k < n -> a <> b -> ~ n * b <= n * a + k < n * b + n.
Proof. intros a b k Hk Hab. destruct (Z_lt_dec a b); [assert (n * (a + 1) <= n * b) by (apply Z.mul_le_mono_nonneg_l; lia)|assert (n * (b + 1) <= n * a) by (apply Z.mul_le_mono_nonneg_l; lia)]; lia. Qed.
(* with different places for c, and operands that are elsewhere or in the same position *)
Lemma vec_sets_values : forall pc pa pb js m m', NoDup js -> (forall i j, In i js -> In j js -> pc i = pc j -> i = j) -> (forall i j, In i js -> In j js -> pc i = pa j -> i = j) -> (forall i j, In i js -> In j js -> pc i = pb j -> i = j) ->
  vec_sets pc pa pb js m m' -> (forall j k, In j js -> 0 <= k < n -> m' (n * pc j + k) = f (m (n * pa j + k)) (m (n * pb j + k))) /\ forall p, (forall j k, In j js -> 0 <= k < n -> p <> n * pc j + k) -> m' p = m p.
Proof.
  induction js as [|j js IH]; intros m m' Nd Hc Ha Hb S; cbn [vec_sets] in S; [split; [intros ? ? []|intros; apply S]|]. destruct S as (m1 & (A & B) & S). inversion Nd as [|? ? Nj Nd']; subst.
  destruct (IH m1 m' Nd') as (V & O); auto; try (intros x y Hx Hy; (apply Hc || apply Ha || apply Hb); right; auto). split.
  - intros i k [<-|Hi] Hk.
    + rewrite O; [apply A; auto|]. intros i k' Hi Hk' E. apply (vec_apart (pc j) (pc i) k Hk); [|lia]. intros F. apply Nj. rewrite (Hc j i); auto; [left|right]; auto.
    + rewrite V by auto. assert (Nij : i <> j) by (intros ->; auto). f_equal; apply B, vec_apart; auto; intros F; apply Nij; symmetry; [apply Ha|apply Hb]; auto; try (left; auto; fail); right; auto.
  - intros p Hp. rewrite O by (intros; apply Hp; auto; right; auto). apply B. intros F. apply (Hp j (p - n * pc j)); [left; auto|lia|lia].
Qed.
End Spec.

Section Vecs.
Context {T : Type}.
Variables (fixed fi : bool) (z zi : list zt) (f : T -> T -> T).
Hypothesis Hz : zclean z.
Hypothesis Hzi : zclean zi.

Lemma in_one : forall i (x : Z), inshape i [x] -> exists k, i = [k] /\ 0 <= k < x.
Proof. intros i x H. inversion H as [|k ? i' ? Hk H']; inversion H'; subst. exists k. auto. Qed.
Lemma lexlt_one : forall i k : Z, lexlt [i] [k] -> i < k.
Proof. intros i k H. inversion H; subst; [auto|]. match goal with H : lexlt [] [] |- _ => inversion H end. Qed.

(* c = a f b with expressions *)
Lemma lazy_step : forall n c a b (m : mem T), 0 <= n -> exists m', cell_op2 fi zi f [vec_at n c; vec_at n a; vec_at n b] m = Ok (vec_at n c) m' /\ vec_set f n c a b m m'.
Proof.
  intros n c a b m Hn. set (pl := fun j : list Z => n * c + nth 0 j 0). set (x := fun j : list Z => f (m (n * a + nth 0 j 0)) (m (n * b + nth 0 j 0))).
  assert (W : forall p, wf (viter (T := T) (vec_at n p))) by (intros p; apply viter_wf; apply Forall_cons; [left; exact Hn|constructor]).
  assert (We : wf (Map (both f) [viter (vec_at n a); viter (vec_at n b)])) by (apply wf_map; [discriminate|apply Forall_cons; [auto|apply Forall_cons; [auto|constructor]]]).
  assert (El : forall p k (m' : mem T), element (viter (vec_at n p)) [k] m' = Ok (VRef (n * p + k)) m').
  { intros p k m'. cbn. do 2 f_equal. lia. }
  destruct (assign_ref T (fun _ x => x) (viter (vec_at n c)) (Map (both f) [viter (vec_at n a); viter (vec_at n b)]) [n] m pl x fi zi) as (m' & E & S); auto.
  - split; [reflexivity|]. intros k Hk. cbn in Hk. replace k with 0%nat by lia. cbn. split; [auto|]. split; [auto|]. repeat (apply Forall_cons; [auto|]). constructor.
  - intros j m' Hj _. destruct (in_one j n Hj) as (k & -> & Hk). rewrite El. reflexivity.
  - intros j m' Hj U. destruct (in_one j n Hj) as (k & -> & Hk). unfold x. cbn [nth].
    assert (R : forall p, m' (n * p + k) = m (n * p + k)).
    { intros p. apply U. intros j' Hj' Hl F. destruct (in_one j' n Hj') as (k' & -> & Hk'). apply lexlt_one in Hl. unfold pl in F. cbn [nth] in F. assert (p = c) by nia. subst. lia. }
    exists (VT (f (m' (n * a + k)) (m' (n * b + k)))). split.
    + cbn [element map]. rewrite (in_order_2 _ _ _ _ _ (VRef (n * a + k)) m' (VRef (n * b + k)) m') by apply El. reflexivity.
    + rewrite !R. reflexivity.
  - exists m'. cbn [cell_op2]. unfold bind. rewrite E. split; [reflexivity|]. destruct (scattered_distinct T _ [n] pl x m m' S) as (D1 & D2).
    { intros i j Hi Hj F. destruct (in_one i n Hi) as (k & -> & Hk), (in_one j n Hj) as (k' & -> & Hk'). unfold pl in F. cbn [nth] in F. f_equal. lia. }
    split.
    + intros k Hk. apply (D1 [k]). constructor; [auto|constructor].
    + intros p Hp. apply D2. intros j Hj ->. destruct (in_one j n Hj) as (k & -> & Hk). apply Hp. unfold pl. cbn [nth]. lia.
Qed.

Lemma copied_to : forall (xs : list T) p m, exists m', copy_pointer xs p m = Ok tt m' /\ (forall k x, nth_error xs k = Some x -> m' (p + Z.of_nat k) = x) /\ forall q, ~ p <= q < p + Z.of_nat (length xs) -> m' q = m q.
Proof.
  induction xs as [|x xs IH]; intros p m; cbn [copy_pointer].
  - exists m. split; [reflexivity|]. split; [intros [|] ? E; discriminate E|auto].
  - destruct (IH (p + 1) (wr p x m)) as (m' & E & V & O). exists m'. split; [exact E|]. split.
    + intros [|k] y Ey; cbn [nth_error] in Ey.
      * injection Ey as <-. rewrite O by lia. unfold wr. replace (p + Z.of_nat 0) with p by lia. rewrite Z.eqb_refl. reflexivity.
      * rewrite <- (V k y Ey). f_equal. lia.
    + intros q Hq. cbn [length] in Hq. rewrite O by lia. unfold wr. destruct (Z.eqb_spec q p); [lia|reflexivity].
Qed.
Lemma opt_cases : forall n a b, opt_op f (viter (Vw [Dim n 1] a)) (viter (Vw [Dim n 1] b)) = Some (small_op f n a b) \/ opt_op f (viter (Vw [Dim n 1] a)) (viter (Vw [Dim n 1] b)) = None.
Proof.
  intros n a b. unfold opt_op, opt_small, match_small, viter, vrank. cbn [vdv vcp length len step]. rewrite Z.eqb_refl, !andb_true_r.
  destruct (Z.eqb_spec n 2) as [->|]; [left; reflexivity|]. destruct (Z.eqb_spec n 4) as [->|]; [left; reflexivity|]. destruct (Z.eqb_spec n 8) as [->|]; [left; reflexivity|]. right. reflexivity.
Qed.
(* c = opt(a f b) *)
Lemma vec_step : forall opt n c a b (m : mem T), 0 <= n -> exists m', vec_op fi zi f opt [vec_at n c; vec_at n a; vec_at n b] m = Ok (vec_at n c) m' /\ vec_set f n c a b m m'.
Proof.
  intros [|] n c a b m Hn; cbn [vec_op]; [|apply lazy_step; auto]. unfold vec_opt. pose proof (opt_cases n (n * a) (n * b)) as Oc. fold (vec_at n a) in Oc. fold (vec_at n b) in Oc. destruct Oc as [-> | ->]; [|apply lazy_step; auto].
  assert (M0 : forall p, (n * p) mod n = 0) by (intros p; rewrite Z.mul_comm; apply Z_mod_mult).
  destruct (small_op_lazy T f n (n * a) (n * b) m Hn (M0 a) (M0 b)) as (r & E & L & V). unfold bind. rewrite E. destruct (copied_to r (vcp (vec_at n c)) m) as (m' & -> & C & O). exists m'. split; [reflexivity|]. cbn [vec_at vcp] in *. split.
  - intros k Hk. destruct (V k Hk) as (t & Et & F). rewrite <- (Z2Nat.id k) at 1 by lia. rewrite (C _ _ Et). cbn in F. injection F as <-. f_equal; f_equal; lia.
  - intros p Hp. apply O. lia.
Qed.

Lemma vecs_element : forall n v s j (m : mem T), vshape v = s -> inshape j s -> element (vecs n v) j m = Ok (vec_at n (vplace v j)) m.
Proof.
  intros n v s j m E Hj. cbn [vecs element]. unfold vplace. rewrite (firstn_all2 (vdv v)) by (unfold vrank; lia). rewrite (firstn_all2 j); [reflexivity|]. rewrite (inshape_length _ _ Hj), <- E. unfold vshape, vrank. rewrite map_length. lia.
Qed.
Lemma vecs_each : forall opt n c a b s, 0 <= n -> vshape c = s -> vshape a = s -> vshape b = s -> forall js, Forall (fun j => inshape j s) js -> forall m : mem T,
  exists m', each (element (Map (vec_op fi zi f opt) [vecs n c; vecs n a; vecs n b])) js m = Ok tt m' /\ vec_sets f n (vplace c) (vplace a) (vplace b) js m m'.
Proof.
  intros opt n c a b s Hn Ec Ea Eb js Hjs. induction Hjs as [|j js Hj Hjs IH]; intros m; cbn [each vec_sets]; [exists m; auto|].
  destruct (vec_step opt n (vplace c j) (vplace a j) (vplace b j) m Hn) as (m1 & E1 & S1). destruct (IH m1) as (m2 & E2 & S2). exists m2. split; [|exists m1; auto].
  cbn [element map in_order]. unfold bind, ret. rewrite !(vecs_element n _ s) by auto. rewrite E1. exact E2.
Qed.

(* c = a f b for arrays of any shape, anywhere *)
Theorem C155_ply : forall opt n c a b s (m : mem T), 0 <= n -> vshape c = s -> vshape a = s -> vshape b = s -> nonneg s ->
  exists m', add_ply fixed fi z zi f opt n c a b m = Ok None m' /\ vec_sets f n (vplace c) (vplace a) (vplace b) (indices s) m m'.
Proof.
  intros opt n c a b s m Hn Ec Ea Eb Ns. destruct (vecs_each opt n c a b s Hn Ec Ea Eb (indices s)) with (m := m) as (m' & E & S); [apply Forall_forall; intros j Hj; apply in_indices; auto|].
  exists m'. split; [|auto]. unfold add_ply.
  assert (W : forall v, vshape v = s -> wf (vecs (T := T) n v)). { intros v Ev. cbn [vecs wf]. unfold vrank. split; [lia|]. rewrite ?firstn_all. apply ok_lens. change (nonneg (vshape v)). rewrite Ev. auto. }
  assert (I : forall v, vshape v = s -> shape_is (vecs (T := T) n v) s).
  { intros v Ev. assert (L : vrank v = length s) by (rewrite <- Ev; unfold vrank, vshape; rewrite map_length; auto). split; [cbn; rewrite L; lia|]. intros k Hk. cbn [axes vecs] in Hk. cbn [leaf_lens vecs]. destruct (Nat.ltb_spec k (vrank v)); [|lia].
    assert (F : len (nth k (vdv v) dim0) = nth k s 0) by (rewrite <- Ev; unfold vshape; change 0 with (len dim0); rewrite map_nth; reflexivity).
    rewrite F. split; [apply Forall_nth; [exact Ns|lia]|]. split; [left; auto|]. repeat constructor; auto. }
  rewrite (ply_spec _ _ _ no_stop fixed z _ s (indices s)); auto.
  - rewrite visit_each, E. reflexivity.
  - apply wf_map; [discriminate|]. repeat (apply Forall_cons; [auto|]). constructor.
  - apply joint_shape_map. apply (joint_cover _ _ _ (vecs n c)); [left; auto|auto|]. repeat (apply Forall_cons; [apply inner_whole; auto|]). constructor.
  - apply row_major_indices.
Qed.

Lemma first_index : forall (v : view) A i, vshape v = [A] -> 0 <= i < A -> from v [cidx i] = Good (Vw [] (vplace v [i])).
Proof. intros v A i E Hi. apply (all_indices v [i]). rewrite E. constructor; [auto|constructor]. Qed.
Lemma bad_index : forall (v : view) A i, vshape v = [A] -> 0 <= A -> A <= i -> from v [cidx i] = Refused.
Proof. intros v A i E HA Hi. apply (bad_indices v [i]); rewrite E; [apply Forall_cons; [auto|constructor]|reflexivity|]. intros F. destruct (in_one _ _ F) as (k & Ek & Hk). injection Ek as <-. lia. Qed.
Lemma loop_good : forall opt n c a b A B C, 0 <= n -> vshape a = [A] -> vshape b = [B] -> vshape c = [C] -> forall k i (m : mem T), 0 <= i -> i + Z.of_nat k <= A -> i + Z.of_nat k <= B -> i + Z.of_nat k <= C ->
  forall k', exists m', vec_sets f n (vplace c) (vplace a) (vplace b) (map (fun x => [i + Z.of_nat x]) (seq 0 k)) m m' /\
    vec_loop fi zi f opt n c a b (k + k') i m = vec_loop fi zi f opt n c a b k' (i + Z.of_nat k) m'.
Proof.
  intros opt n c a b A B C Hn Ea Eb Ec. induction k as [|k IH]; intros i m Hi HA HB HC k'; [exists m; split; [cbn; auto|f_equal; lia]|].
  destruct (vec_step opt n (vplace c [i]) (vplace a [i]) (vplace b [i]) m Hn) as (m1 & E1 & S1). destruct (IH (i + 1) m1) with (k' := k') as (m2 & S2 & E2); try lia. exists m2. split.
  - cbn [seq map vec_sets]. rewrite Z.add_0_r. exists m1. split; [auto|]. rewrite <- seq_shift, map_map. erewrite map_ext; [exact S2|]. intros x. cbn beta. f_equal. lia.
  - cbn [Nat.add vec_loop]. rewrite (first_index a A), (first_index b B), (first_index c C) by (auto; lia). cbn [onres vcp]. unfold bind. rewrite E1, E2. f_equal. lia.
Qed.
Lemma one_indices : forall k, map (fun x => [0 + Z.of_nat x]) (seq 0 k) = indices [Z.of_nat k].
Proof. intros k. cbn [indices]. unfold zrange. rewrite Nat2Z.id. induction (seq 0 k) as [|x l IH]; [reflexivity|]. cbn [map flat_map app]. rewrite IH. reflexivity. Qed.

(* the loop of c(i) = a(i) f b(i). b and c may be longer. *)
Theorem C155_loop : forall opt n c a b A B C (m : mem T), 0 <= n -> vshape a = [A] -> vshape b = [B] -> vshape c = [C] -> 0 <= A -> A <= B -> A <= C ->
  exists m', add_loop fi zi f opt n c a b m = Ok tt m' /\ vec_sets f n (vplace c) (vplace a) (vplace b) (indices [A]) m m'.
Proof.
  intros opt n c a b A B C m Hn Ea Eb Ec HA HB HC. unfold add_loop. assert (La : len (nth 0 (vdv a) dim0) = A) by (unfold vshape in Ea; destruct (vdv a) as [|d dv]; [discriminate|]; injection Ea as E0 _; exact E0). rewrite La.
  destruct (loop_good opt n c a b A B C Hn Ea Eb Ec (Z.to_nat A) 0 m) with (k' := 0%nat) as (m' & S & E); try lia. rewrite Nat.add_0_r in E. exists m'. rewrite E. split; [reflexivity|]. rewrite one_indices, Z2Nat.id in S by auto. exact S.
Qed.
(* if one of them is shorter, the loop stops there *)
Theorem C155_stops : forall opt n c a b A B C (m : mem T), 0 <= n -> vshape a = [A] -> vshape b = [B] -> vshape c = [C] -> 0 <= B -> 0 <= C -> Z.min B C < A ->
  exists m', add_loop fi zi f opt n c a b m = Fail m' /\ vec_sets f n (vplace c) (vplace a) (vplace b) (indices [Z.min B C]) m m'.
Proof.
  intros opt n c a b A B C m Hn Ea Eb Ec HB HC HA. unfold add_loop. assert (La : len (nth 0 (vdv a) dim0) = A) by (unfold vshape in Ea; destruct (vdv a) as [|d dv]; [discriminate|]; injection Ea as E0 _; exact E0). rewrite La.
  destruct (loop_good opt n c a b A B C Hn Ea Eb Ec (Z.to_nat (Z.min B C)) 0 m) with (k' := S (Z.to_nat (A - Z.min B C - 1))) as (m' & Sv & E); try lia.
  replace (Z.to_nat (Z.min B C) + S (Z.to_nat (A - Z.min B C - 1)))%nat with (Z.to_nat A) in E by lia. exists m'. rewrite E. split; [|rewrite one_indices, Z2Nat.id in Sv by lia; exact Sv].
  cbn [vec_loop]. rewrite (first_index a A) by (auto; lia). cbn [onres]. destruct (Z_le_dec B C) as [H|H].
  - rewrite (bad_index b B) by (auto; lia). reflexivity.
  - rewrite (first_index b B), (bad_index c C) by (auto; lia). reflexivity.
Qed.
(* but the assignment of the whole is refused, in this case and if the lengths aren't the same *)
Theorem C155_refused : forall opt n c a b A B C (m : mem T), vshape a = [A] -> vshape b = [B] -> vshape c = [C] -> 0 <= A -> 0 <= B -> 0 <= C -> ~ (A = B /\ A = C) -> add_ply fixed fi z zi f opt n c a b m = Fail m.
Proof.
  intros opt n c a b A B C m Ea Eb Ec HA HB HC Hne. unfold add_ply.
  assert (V : forall v L, vshape v = [L] -> exists st, vdv v = [Dim L st]) by (intros v L E; unfold vshape in E; destruct (vdv v) as [|[l st] [|]]; try discriminate E; injection E as ->; exists st; reflexivity).
  destruct (V a A Ea) as (sa & Da), (V b B Eb) as (sb & Db), (V c C Ec) as (sc & Dc). unfold vecs, vrank. rewrite Da, Db, Dc. cbn [length].
  set (e := Map _ _). assert (W : wf e). { apply wf_map; [discriminate|]. repeat (apply Forall_cons; [cbn; split; [lia|]; apply Forall_cons; [left; cbn; lia|constructor]|]). constructor. }
  apply ply_refused; auto. destruct (Z.eq_dec A B) as [->|N].
  - apply (lens_refused _ _ 0 C B); auto; cbn; auto.
  - apply (lens_refused _ _ 0 A B); auto; cbn; auto.
Qed.
(* Whatever the places of the vectors, with or without opt, and by the loop or for the whole, the result is the same *)
Theorem C155_same : forall o1 o2 o3 n c a b A (m : mem T), 0 <= n -> 0 <= A -> vshape a = [A] -> vshape b = [A] -> vshape c = [A] ->
  exists m1 m2 m3, add_loop fi zi f o1 n c a b m = Ok tt m1 /\ add_loop fi zi f o2 n c a b m = Ok tt m2 /\ add_ply fixed fi z zi f o3 n c a b m = Ok None m3 /\ forall p, m1 p = m2 p /\ m1 p = m3 p.
Proof.
  intros o1 o2 o3 n c a b A m Hn HA Ea Eb Ec. destruct (C155_loop o1 n c a b A A A m) as (m1 & E1 & S1); auto; try lia. destruct (C155_loop o2 n c a b A A A m) as (m2 & E2 & S2); auto; try lia.
  destruct (C155_ply o3 n c a b [A] m) as (m3 & E3 & S3); auto; [apply Forall_cons; [auto|constructor]|]. exists m1, m2, m3. repeat (split; [assumption|]). intros p. split; eapply vec_sets_one; eauto.
Qed.
(* When the vectors of c are all different, and none is one of those of a or b, other than in the same position *)
Theorem C155_values : forall opt n c a b s (m : mem T), 0 <= n -> vshape c = s -> vshape a = s -> vshape b = s -> nonneg s ->
  (forall i j, inshape i s -> inshape j s -> vplace c i = vplace c j \/ vplace c i = vplace a j \/ vplace c i = vplace b j -> i = j) ->
  exists m', add_ply fixed fi z zi f opt n c a b m = Ok None m' /\ (forall j k, inshape j s -> 0 <= k < n -> m' (n * vplace c j + k) = f (m (n * vplace a j + k)) (m (n * vplace b j + k))) /\
    forall p, (forall j k, inshape j s -> 0 <= k < n -> p <> n * vplace c j + k) -> m' p = m p.
Proof.
  intros opt n c a b s m Hn Ec Ea Eb Ns Hd. destruct (C155_ply opt n c a b s m) as (m' & E & S); auto. exists m'. split; [auto|].
  destruct (vec_sets_values f n (vplace c) (vplace a) (vplace b) (indices s) m m') as (V & O); auto; try (apply indices_nodup; fail); try (intros i j Hi Hj F; apply in_indices in Hi; apply in_indices in Hj; apply Hd; auto; fail).
  split; [intros j k Hj Hk; apply V; auto; apply in_indices; auto|]. intros p Hp. apply O. intros j k Hj. apply Hp. apply in_indices; auto.
Qed.
End Vecs.

Example C155_ex : let a := Vw [Dim 3 1] 0 in let b := Vw [Dim 3 (-1)] 5 in let c := Vw [Dim 3 2] 6 in
  (forall i j, inshape i [3] -> inshape j [3] -> vplace c i = vplace c j \/ vplace c i = vplace a j \/ vplace c i = vplace b j -> i = j) /\
  exists m1 m2, add_loop true z_init Z.sub true 4 c a b (fun p => p * p) = Ok tt m1 /\ add_ply false true z_init z_init Z.sub false 4 c a b (fun p => p * p) = Ok None m2 /\
    map m1 [24; 27; 32; 43; 28] = [0 - 20 * 20; 3 * 3 - 23 * 23; 4 * 4 - 16 * 16; 11 * 11 - 15 * 15; 28 * 28] /\ map m2 [24; 27; 32; 43; 28] = map m1 [24; 27; 32; 43; 28].
Proof.
  cbv zeta. split.
  - intros i j Hi Hj H. destruct (in_one i 3 Hi) as (x & -> & Hx), (in_one j 3 Hj) as (y & -> & Hy). unfold vplace in H. cbn [vcp vdv place step] in H. f_equal. lia.
  - do 2 eexists. split; [vm_compute; reflexivity|]. split; [vm_compute; reflexivity|]. split; reflexivity.
Qed.
(* c over a, one vector later: each sum gets to the next *)
Example C155_over_ex : exists m1 m2, add_loop true z_init Z.add true 2 (Vw [Dim 3 1] 1) (Vw [Dim 3 1] 0) (Vw [Dim 3 1] 10) (fun p => p) = Ok tt m1 /\ add_ply true false z_init z_init Z.add false 2 (Vw [Dim 3 1] 1) (Vw [Dim 3 1] 0) (Vw [Dim 3 1] 10) (fun p => p) = Ok None m2 /\
  map m1 [0; 1; 2; 3; 4; 5; 6; 7; 8] = [0; 1; 20; 22; 42; 45; 66; 70; 8] /\ map m2 [0; 1; 2; 3; 4; 5; 6; 7; 8] = map m1 [0; 1; 2; 3; 4; 5; 6; 7; 8].
Proof. do 2 eexists. split; [vm_compute; reflexivity|]. split; [vm_compute; reflexivity|]. split; reflexivity. Qed.
Print Assumptions C155_ply. Print Assumptions C155_loop. Print Assumptions C155_stops. Print Assumptions C155_refused. Print Assumptions C155_same. Print Assumptions C155_values.
