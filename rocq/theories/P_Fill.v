(* Filling from flat lists and nested lists, and copies of expressions: C40, C41, C51. *)
From Coq Require Import ZArith List Lia Bool.
From Coq Require Import ZifyBool ZifyNat.
From Verif Require Import Spec L_Spec Spec_Ply M_Base M_Expr L_Expr M_Ply L_Ply L_Stl Spec_Expr L_Agree L_Run M_Val Spec_Val L_Val P_Reduce M_View L_View Spec_View P_View M_Slice M_Mat Spec_Mat P_Mat M_Fill Spec_Fill.
Import ListNotations.
Open Scope Z_scope.

Section Fill.
Context {T : Type}.
Notation ex := (expr (val T) (mem T)).

(* xs are written to the places ps, in order *)
Fixpoint scatter (ps : list Z) (xs : list T) (m : mem T) : mem T :=
  match ps, xs with
  | p::ps', x::xs' => scatter ps' xs' (wr p x m)
  | _, _ => m
  end.
Lemma scatter_out : forall ps xs m q, ~ In q ps -> scatter ps xs m q = m q.
Proof.
  induction ps as [|p ps IH]; intros xs m q H; [reflexivity|]. destruct xs as [|x xs]; [reflexivity|]. cbn [scatter]. rewrite IH by (intros I; apply H; right; auto).
  unfold wr. destruct (Z.eqb_spec q p); auto. exfalso. apply H. left; auto.
Qed.
Lemma scatter_in : forall ps xs m n p x, NoDup ps -> nth_error ps n = Some p -> nth_error xs n = Some x -> scatter ps xs m p = x.
Proof.
  induction ps as [|p0 ps IH]; intros xs m n p x D E1 E2; [destruct n; discriminate|]. inversion D as [|? ? D1 D2]; subst. destruct xs as [|x0 xs]; [destruct n; discriminate|].
  destruct n as [|n]; cbn in E1, E2.
  - assert (p0 = p) by congruence. assert (x0 = x) by congruence. subst. cbn [scatter]. rewrite scatter_out by auto. unfold wr. rewrite Z.eqb_refl. reflexivity.
  - cbn [scatter]. eapply IH; eauto.
Qed.

Lemma copy_pointer_spec : forall (xs : list T) p m, copy_pointer xs p m = Ok tt (scatter (map (fun k => p + Z.of_nat k) (seq 0 (length xs))) xs m).
Proof.
  induction xs as [|x xs IH]; intros p m; [reflexivity|]. cbn [copy_pointer length seq map scatter]. rewrite IH. do 2 f_equal.
  - rewrite <- seq_shift, map_map. apply map_ext. intros. lia.
  - f_equal. lia.
Qed.
Lemma copy_iterator_spec : forall e : ex, wf e -> forall pl (xs : list T) ind i m, (forall j w, inshape j (shape e) -> at_ e j w = Ok (VRef (pl j)) w) ->
  validate e = true -> inshape i (shape e) -> srep (shape e) ind i -> length xs = length (indices_from (shape e) i) ->
  copy_iterator xs (Stl (goto e (fz i)) ind false) m = Ok tt (scatter (map pl (indices_from (shape e) i)) xs m).
Proof.
  intros e We pl. induction xs as [|x xs IH]; intros ind i m Hpl V Hi Hs L.
  - destruct (indices_from (shape e) i) eqn:E; [reflexivity|discriminate].
  - rewrite indices_from_succ in * by auto. cbn [copy_iterator sa map scatter length] in *. unfold bind.
    rewrite deref_at, Hpl; auto.
    2: { rewrite (inshape_length _ _ Hi), shape_length. lia. }
    2: { apply okidx_inshape; auto. }
    pose proof (stl_next_spec' e We ind i Hi Hs) as N. destruct (succ (shape e) i) as [i'|] eqn:Es.
    + destruct N as (ind' & -> & Hs'). apply IH; auto. eapply succ_inshape; eauto.
    + destruct N as (a & ind' & ->). destruct xs; [reflexivity|discriminate].
Qed.

Lemma dimv_size_prod : forall dv, nonneg (map len dv) -> dimv_size dv = zprod (map len dv).
Proof.
  intros dv H. unfold dimv_size. rewrite <- (Z.mul_1_l (zprod _)). generalize 1. induction dv as [|d dv IH]; intros a; cbn [dimv_size_loop map zprod]; [lia|].
  inversion H; subst. destruct (Z.ltb_spec (len d) 0); [lia|]. rewrite IH by auto. ring.
Qed.
Lemma viter_at : forall v s, vshape v = s -> nonneg s -> shape (viter (T:=T) v) = s /\ validate (viter (T:=T) v) = true /\ wf (viter (T:=T) v) /\
  forall j w, inshape j s -> at_ (viter v) j w = Ok (VRef (T:=T) (vplace v j)) w.
Proof.
  intros v s Hs Nn. destruct (view_shape (T:=T) v s Hs Nn) as (W & S). pose proof S as S'. apply shape_is_shape in S' as (E & V); auto. split; [auto|]. split; auto. split; auto.
  intros j w Hj. rewrite (element_at (viter v)); auto; [|rewrite <- E; auto]. rewrite (viter_refers v s j w Hj). rewrite firstn_all2; auto.
  rewrite (inshape_length _ _ Hj), <- Hs. unfold vshape. rewrite map_length. unfold vrank. lia.
Qed.

(* what is left in memory by either kind of copy *)
Lemma to_ravel_spec : forall pointer (xs : list T) v s m, vshape v = s -> nonneg s -> (pointer = true -> c_order (vdv v) true = true) -> Z.of_nat (length xs) = zprod s ->
  to_ravel pointer xs v m = Ok tt (scatter (map (vplace v) (indices s)) xs m).
Proof.
  intros pointer xs v s m Hs Nn Hp L. unfold to_ravel. unfold vshape in Hs. rewrite dimv_size_prod, Hs by (rewrite Hs; auto). rewrite L, Z.eqb_refl. destruct pointer.
  - rewrite copy_pointer_spec. do 2 f_equal. specialize (Hp eq_refl). rewrite C13_contiguous in Hp by (rewrite Hs; auto). rewrite Hs in Hp.
    transitivity (map (fun k => vcp v + k) (map (rm s) (indices s))).
    + rewrite rm_indices by auto. unfold zrange. rewrite map_map. rewrite <- L, Nat2Z.id. reflexivity.
    + rewrite map_map. apply map_ext_in. intros j Hj. apply in_indices in Hj. unfold vplace. rewrite Hp by auto. reflexivity.
  - destruct (viter_at v s Hs Nn) as (E & V & W & A). unfold stl_begin. rewrite V. pose proof (size_prod (viter (T:=T) v)) as P. rewrite E in P. rewrite P by exact Nn. clear P.
    destruct (Z.eqb_spec 0 (zprod s)) as [Z0|Z0].
    + destruct xs; [|cbn in L; lia]. cbn. destruct (map (vplace v) (indices s)); reflexivity.
    + assert (Pos : Forall (fun n => 0 < n) s).
      { clear - Nn Z0. induction Nn as [|x l Hx Hs IH]; [constructor|]. cbn [zprod] in Z0. constructor; [destruct (Z.eq_dec x 0); [subst; lia|lia]|]. apply IH. intros E. apply Z0. rewrite <- E. ring. }
      rewrite E. pose proof (copy_iterator_spec (viter v) W (vplace v) xs s (map (fun _ => 0) s) m) as C. rewrite E in C. rewrite indices_from_zero in C by auto.
      replace (viter v) with (goto (viter (T:=T) v) (fz (map (fun _ => 0) s))) at 1.
      2: { transitivity (goto (viter (T:=T) v) (fun _ => 0)); [|apply goto_zero]. apply goto_ext; auto. intros k Hk. unfold fz. rewrite (nth_map _ s k 0); auto. rewrite <- E, shape_length. exact Hk. }
      apply C; auto.
      * clear - Pos. induction Pos; constructor; [lia|auto].
      * split; auto. intros k Hk. rewrite (nth_map _ s k 0) by auto. lia.
      * pose proof (indices_count s Nn). lia.
Qed.

Lemma fill_places : forall (xs : list T) v s m, vshape v = s -> nonneg s -> separate (vplace v) s -> Z.of_nat (length xs) = zprod s ->
  let m' := scatter (map (vplace v) (indices s)) xs m in
  (forall js n j, row_major s js -> nth_error js n = Some j -> nth_error xs n = Some (m' (vplace v j))) /\ (forall q, outside (vplace v) s q -> m' q = m q).
Proof.
  intros xs v s m Hs Nn Sep L m'. split.
  - intros js n j R Hn. apply row_major_unique in R. subst js. destruct (nth_error xs n) as [x|] eqn:Ex.
    + f_equal. symmetry. apply (scatter_in _ _ _ n); auto; [|apply map_nth_error; auto].
      assert (Hin : forall j, In j (indices s) -> inshape j s) by (intros; apply in_indices; auto).
      pose proof (indices_nodup s) as D. clear - Sep D Hin. induction D as [|a l Ha D IH]; [constructor|]. cbn [map]. constructor.
      * rewrite in_map_iff. intros (b & Eb & Hb). apply Ha. assert (b = a); [|subst; auto]. apply Sep; auto; apply Hin; [right|left]; auto.
      * apply IH. intros. apply Hin. right; auto.
    + exfalso. apply nth_error_None in Ex. assert (nth_error (indices s) n <> None) as H by congruence. apply nth_error_Some in H. pose proof (indices_count s Nn). lia.
  - intros q Hq. apply scatter_out. rewrite in_map_iff. intros (j & Ej & Hj). apply in_indices in Hj. apply (Hq j Hj). auto.
Qed.
Lemma begin_pointer_order : forall ct st dv, begin_pointer ct st dv = true -> c_order dv true = true.
Proof.
  intros ct st dv H. unfold begin_pointer in H. apply orb_true_iff in H as [H|H]; apply andb_true_iff in H as [_ H]; auto.
  destruct dv as [|d [|]]; try discriminate. apply Z.eqb_eq in H. unfold c_order. cbn. rewrite H. cbn. rewrite orb_true_r. apply orb_true_r.
Qed.

(* b = {x ...} for an existing view with any steps: the n-th element in row-major order is the n-th item. *)
Theorem C41_view : forall ct st (xs : list T) v s m, vshape v = s -> nonneg s -> separate (vplace v) s ->
  (Z.of_nat (length xs) = zprod s -> exists m', view_fill ct st xs v m = Ok tt m' /\
    (forall js n j, row_major s js -> nth_error js n = Some j -> nth_error xs n = Some (m' (vplace v j))) /\
    (forall q, outside (vplace v) s q -> m' q = m q)) /\
  (Z.of_nat (length xs) <> zprod s -> view_fill ct st xs v m = Fail m).
Proof.
  intros ct st xs v s m Hs Nn Sep. unfold view_fill. split; intros L.
  - eexists. split; [apply to_ravel_spec; eauto using begin_pointer_order|]. apply fill_places; auto.
  - unfold to_ravel. unfold vshape in Hs. rewrite dimv_size_prod, Hs by (rewrite Hs; auto). destruct (Z.eqb_spec (Z.of_nat (length xs)) (zprod s)); [tauto|reflexivity].
Qed.

(* Array(s, {x ...}) *)
Theorem C41_array : forall (xs : list T) s q m,
  (nonneg s -> Z.of_nat (length xs) = zprod s -> exists c m', array_fill q s xs m = Ok c m' /\ vshape c = s /\ separate (vplace c) s /\
    (forall j, inshape j s -> q <= vplace c j < q + zprod s) /\
    (forall js n j, row_major s js -> nth_error js n = Some j -> nth_error xs n = Some (m' (vplace c j))) /\
    (forall p, ~ (q <= p < q + zprod s) -> m' p = m p)) /\
  (~ nonneg s \/ Z.of_nat (length xs) <> zprod s -> array_fill q s xs m = Fail m).
Proof.
  intros xs s q m. unfold array_fill, alloc. split.
  - intros Nn L. destruct (new_facts s q Nn) as (dv & E & Vs & Sep & Out & _ & R). rewrite E.
    rewrite (to_ravel_spec true xs (Vw dv q) s m Vs Nn); auto.
    2: { intros _. destruct (filldimv_some s Nn) as (dv' & E' & L' & P'). assert (dv' = dv) by congruence. subst dv'. apply C13_contiguous; [cbn; rewrite L'; auto|].
         cbn [vdv]. rewrite L'. intros j Hj. apply P', inshape_length; auto. }
    eexists _, _. split; [reflexivity|]. split; auto. split; auto. split; auto. destruct (fill_places xs (Vw dv q) s m Vs Nn Sep L) as (F1 & F2). split; auto. intros p Hp. apply F2, Out, Hp.
  - intros H. destruct (Forall_Exists_dec (fun n => 0 <= n) (fun n => Z_le_dec 0 n) s) as [Nn|Nn].
    + destruct (new_facts s q Nn) as (dv & E & Vs & _). rewrite E. unfold to_ravel. rewrite dimv_size_prod; unfold vshape in Vs; rewrite Vs; auto.
      destruct (Z.eqb_spec (Z.of_nat (length xs)) (zprod s)); [tauto|reflexivity].
    + rewrite filldimv_none; [reflexivity|]. intros F. rewrite Exists_exists in Nn. destruct Nn as (x & I & Hx). rewrite Forall_forall in F. apply Hx. apply F; auto.
Qed.

(* ---- C51 ---- *)
Lemma joint_new : forall v (e : ex) s, wf e -> vshape v = s -> nonneg s -> (axes e <= length s)%nat -> (forall k, Forall (fun n => n = nth k s 0 \/ n = UNB) (leaf_lens e k)) -> joint_shape [viter v; e] s.
Proof.
  intros v e s We Hs Nn A F. destruct (view_shape (T:=T) v s Hs Nn) as (Wv & (Lv & Sv)). split.
  - cbn [fold_right]. rewrite Nat.max_0_r. lia.
  - cbn [fold_right]. rewrite Nat.max_0_r. intros k Hk. destruct (Sv k ltac:(lia)) as (N & I & Fv). cbn [flat_map]. rewrite app_nil_r. split; auto. split; [apply in_app_iff; auto|]. apply Forall_app; auto.
Qed.
(* assignment of an expression to a view that it doesn't read *)
Lemma assign_new : forall v (e : ex) s m x fixed z, wf e -> vshape v = s -> nonneg s -> separate (vplace v) s -> zclean z ->
  (axes e <= length s)%nat -> (forall k, Forall (fun n => n = nth k s 0 \/ n = UNB) (leaf_lens e k)) -> undisturbed e s m x (vplace v) s ->
  exists m', assign fixed z (fun _ x => x) (viter v) e m = Ok None m' /\ (forall j, inshape j s -> m' (vplace v j) = x j) /\ (forall q, outside (vplace v) s q -> m' q = m q).
Proof.
  intros v e s m x fixed z We Hs Nn Sep Hz A F U. destruct (view_shape (T:=T) v s Hs Nn) as (Wv & _).
  assert (Rk : forall j, inshape j s -> firstn (vrank v) j = j).
  { intros j Hj. apply firstn_all2. rewrite (inshape_length _ _ Hj), <- Hs. unfold vshape. rewrite map_length. unfold vrank. lia. }
  destruct (C29_assign T (fun _ x => x) (viter v) e s m (vplace v) x fixed z) as (m' & E & H1 & H2); auto.
  - apply joint_new; auto.
  - intros j w Hj. rewrite (viter_refers v s j w Hj), Rk; auto.
  - intros j w Hj Hw. apply (U w); auto.
  - exists m'. auto.
Qed.

(* concrete(e) is a new array with the shape and the elements of e. It's in a part of the memory [q, q+size) that e doesn't read, and nothing else is changed.
   Whatever happens later to the rest of the memory doesn't change its elements. *)
Theorem C51_concrete : forall (e : ex) s x q m fixed z, wf e -> shape_is e s -> zclean z ->
  (forall m', (forall p, ~ (q <= p < q + zprod s) -> m' p = m p) -> reads e s m' x) ->
  exists c m', concrete fixed z q e m = Ok c m' /\ vshape c = s /\ separate (vplace c) s /\ (forall j, inshape j s -> q <= vplace c j < q + zprod s) /\
    reads (viter c) s m' x /\ (forall p, ~ (q <= p < q + zprod s) -> m' p = m p) /\
    forall m'', (forall p, q <= p < q + zprod s -> m'' p = m' p) -> reads (viter c) s m'' x.
Proof.
  intros e s x q m fixed z We Se Hz U. pose proof Se as Se'. apply shape_is_shape in Se' as (Es & V); auto.
  assert (Nn : nonneg s) by (rewrite Es; apply validate_spec in V; destruct V as (_ & V); exact V).
  unfold concrete, array_from, alloc. rewrite <- Es. destruct (new_facts s q Nn) as (dv & E & Vs & Sep & Out & _ & R). rewrite E. destruct Se as (Ls & Ps).
  destruct (assign_new (Vw dv q) e s m x fixed z) as (m' & Ea & E1 & E2); auto; [lia| | |].
  - intros k. destruct (Nat.lt_ge_cases k (axes e)) as [Hk|Hk]; [apply Ps; auto|]. rewrite leaf_lens_out; auto. rewrite <- axes_rank; auto.
  - intros w Hw. apply U. intros p Hp. apply Hw, Out, Hp.
  - rewrite Ea. exists (Vw dv q), m'. split; auto. split; auto. split; auto. split; auto.
    assert (Rd : forall w, (forall p, q <= p < q + zprod s -> w p = m' p) -> reads (viter (Vw dv q)) s w x).
    { intros w Hw j Hj. exists (VRef (vplace (Vw dv q) j)). split.
      - rewrite (viter_refers (Vw dv q) s j w Hj). rewrite firstn_all2; auto. rewrite (inshape_length _ _ Hj), <- Vs. unfold vshape. rewrite map_length. unfold vrank. lia.
      - cbn [value_of]. f_equal. rewrite Hw by (apply R; auto). auto. }
    split; [apply Rd; auto|]. split; auto. intros p Hp. apply E2, Out, Hp.
Qed.
(* and it's refused if the lengths of the arguments don't agree, or one isn't finite *)
Theorem C51_refused : forall (e : ex) q m fixed z, wf e -> ~ agreeing [e] -> concrete fixed z q e m = Fail m.
Proof.
  intros e q m fixed z We A. unfold concrete, array_from, alloc. rewrite filldimv_none; auto. intros N. apply A. apply validate_iff; auto. apply validate_spec. split; [apply rank_nonneg; auto|exact N].
Qed.

(* ---- C40 ---- *)
Lemma each_try : forall X (get : list Z -> M (mem T) X) (P : Z -> mem T -> Prop) (Q : mem T -> Prop) (good : Z -> Prop) n i m, P (Z.of_nat i) m ->
  (forall k w, Z.of_nat i <= k < Z.of_nat (i + n) -> P k w -> (good k /\ exists x w', get [k] w = Ok x w' /\ P (k+1) w') \/ (~ good k /\ exists w', get [k] w = Fail w' /\ Q w')) ->
  ((forall k, Z.of_nat i <= k < Z.of_nat (i + n) -> good k) /\ exists w', each get (map (fun k => [Z.of_nat k]) (seq i n)) m = Ok tt w' /\ P (Z.of_nat (i + n)) w') \/
  ((exists k, Z.of_nat i <= k < Z.of_nat (i + n) /\ ~ good k) /\ exists w', each get (map (fun k => [Z.of_nat k]) (seq i n)) m = Fail w' /\ Q w').
Proof.
  intros X get P Q good. induction n as [|n IH]; intros i m H0 Hs; cbn [seq map each].
  - left. split; [intros; lia|]. exists m. rewrite Nat.add_0_r. auto.
  - replace (i + S n)%nat with (S i + n)%nat in * by lia. destruct (Hs (Z.of_nat i) m) as [(G & x & w & E & P1)|(G & w & E & Q1)]; [lia|auto| |].
    + rewrite E. destruct (IH (S i) w) as [(G' & R)|((k & Hk & G') & R)].
      * rewrite Nat2Z.inj_succ. exact P1.
      * intros k w0 Hk. apply Hs. lia.
      * left. split; auto. intros k Hk. destruct (Z.eq_dec k (Z.of_nat i)); [subst; auto|apply G'; lia].
      * right. split; auto. exists k. split; [lia|auto].
    + rewrite E. right. split; [exists (Z.of_nat i); split; [lia|auto]|]. exists w; auto.
Qed.
Lemma ply_try : forall X fixed z (e : expr X (mem T)) l m (P : Z -> mem T -> Prop) (Q : mem T -> Prop) (good : Z -> Prop), wf e -> shape_is e [l] -> zclean z -> 0 <= l -> P 0 m ->
  (forall k w, 0 <= k < l -> P k w -> (good k /\ exists x w', element e [k] w = Ok x w' /\ P (k+1) w') \/ (~ good k /\ exists w', element e [k] w = Fail w' /\ Q w')) ->
  ((forall k, 0 <= k < l -> good k) /\ exists w', ply fixed no_stop z e m = Ok None w' /\ P l w') \/
  ((exists k, 0 <= k < l /\ ~ good k) /\ exists w', ply fixed no_stop z e m = Fail w' /\ Q w').
Proof.
  intros X fixed z e l m P Q good We Se Hz Hl H0 Hs. rewrite (ply_spec _ _ _ _ _ _ _ _ _ We Se (row_major_1 l) Hz), visit_each.
  unfold zrange. rewrite map_map. destruct (each_try _ (element e) P Q good (Z.to_nat l) 0 m) as [(G & w' & E & R)|((k & Hk & G) & w' & E & R)]; auto.
  - intros k w Hk. apply Hs. lia.
  - left. split; [intros k Hk; apply G; lia|]. exists w'. rewrite E. split; auto. rewrite Nat.add_0_l, Z2Nat.id in R by auto. exact R.
  - right. split; [exists k; split; [lia|auto]|]. exists w'. rewrite E. auto.
Qed.

Lemma Forall_nth_Z : forall A (P : A -> Prop) (l : list A) d, Forall P l <-> forall k, 0 <= k < Z.of_nat (length l) -> P (nth (Z.to_nat k) l d).
Proof.
  intros A P l d. rewrite Forall_forall. split.
  - intros H k Hk. apply H, nth_In. lia.
  - intros H x Hx. apply (In_nth _ _ d) in Hx as (k & Hk & <-). specialize (H (Z.of_nat k)). rewrite Nat2Z.id in H. apply H. lia.
Qed.
Lemma row_place : forall d dv cp k j, vplace (Vw dv (cp + step d * k)) j = vplace (Vw (d :: dv) cp) (k :: j).
Proof. intros. unfold vplace. cbn [vcp vdv place]. lia. Qed.

Lemma rank1_wf : forall X W n (f : Z -> X) cp, 0 <= n -> wf (Cell (W:=W) [Dim n 1] 1 f cp).
Proof. intros. split; [cbn; lia|]. cbn. constructor; [left; exact H|constructor]. Qed.
Lemma item_in : forall (l : list (nest T)) i, deep 1 (Braces l) -> 0 <= i < Z.of_nat (length l) -> exists t, nth_error l (Z.to_nat i) = Some (Item t).
Proof.
  intros l i D Hi. cbn [deep] in D. destruct (nth_error l (Z.to_nat i)) as [n|] eqn:E; [|apply nth_error_None in E; lia].
  apply nth_error_In in E. rewrite Forall_forall in D. specialize (D n E). destruct n as [t|]; [exists t; auto|destruct D].
Qed.
Lemma braces_assign_spec : forall fx zs, (forall k, zclean (zs k)) -> forall N v n m, deep (T:=T) (S N) n -> nonneg (vshape v) -> (S N <= vrank v)%nat -> separate (vplace v) (vshape v) ->
  (fits (firstn (S N) (vshape v)) n /\ exists m', braces_assign fx zs (S N) v n m = Ok None m' /\
    (forall j, inshape j (vshape v) -> item_at n (firstn (S N) j) = Some (m' (vplace v j))) /\ (forall q, outside (vplace v) (vshape v) q -> m' q = m q)) \/
  (~ fits (firstn (S N) (vshape v)) n /\ exists m', braces_assign fx zs (S N) v n m = Fail m' /\ (forall q, outside (vplace v) (vshape v) q -> m' q = m q)).
Proof.
  intros fx zs Hz. induction N as [|N IH]; intros v n m D Nn R Sep; (destruct n as [t|l]; [destruct D|]); destruct v as [[|d dv] cp]; [cbn in R; lia| |cbn in R; lia|].
  - destruct (view_shape (T:=T) (Vw (d :: dv) cp) _ eq_refl Nn) as (Wv & _).
    assert (Wl : wf (list_iter l)) by (apply rank1_wf; lia).
    assert (D' : Forall (fits []) l) by (cbn [deep] in D; eapply Forall_impl; [|exact D]; intros [t|?] Ht; auto).
    change (vshape (Vw (d :: dv) cp)) with (len d :: map len dv). change (firstn 1 (len d :: map len dv)) with [len d]. cbn [fits]. destruct (Z.eq_dec (len d) (Z.of_nat (length l))) as [Ll|Ll].
    + left. split; [split; [exact Ll|exact D']|].
      assert (It : forall j, inshape j (len d :: map len dv) -> exists t, item_at (Braces l) (firstn 1 j) = Some t /\ forall w, element (list_iter l) j w = Ok (VT t) w).
      { intros j Hj. destruct j as [|i j]; [inversion Hj|]. assert (Hi : 0 <= i < len d) by (inversion Hj; auto).
        destruct (item_in l i D) as (t & Et); [lia|]. exists t. cbn [firstn item_at]. destruct (Z.ltb_spec i 0); [lia|]. rewrite Et. split; auto.
        intros w. cbn [list_iter element]. cbn [place firstn step]. replace (0 + (i * 1 + 0)) with i by lia. replace (0 + (1 * i + 0)) with i by lia. rewrite ?Et. reflexivity. }
      destruct (assign_new (Vw (d :: dv) cp) (list_iter l) (len d :: map len dv) m (fun j => match item_at (Braces l) (firstn 1 j) with Some t => t | None => m 0 end) (fx 1%nat) (zs 1%nat)) as (m' & E & E1 & E2); auto.
      * cbn. lia.
      * intros k. cbn. destruct k as [|k]; cbn; constructor; auto.
      * intros w Hw j Hj. destruct (It j Hj) as (t & -> & Et). exists (VT t). split; auto. 
      * exists m'. split; [exact E|]. split; [|exact E2]. intros j Hj. rewrite E1 by auto. destruct (It j Hj) as (t & -> & _). reflexivity.
    + right. split; [tauto|]. exists m. split; auto. cbn [braces_assign]. apply ply_refused; [apply wf_map; [discriminate|]; auto|].
      assert (0 <= len d) by (inversion Nn; auto). apply (lens_refused _ _ 0 (len d) (Z.of_nat (length l))); auto; try lia; [apply wf_map; [discriminate|]; auto| |]; cbn; auto.
  - assert (Nd : 0 <= len d) by (inversion Nn; auto). assert (Nt : nonneg (map len dv)) by (inversion Nn; auto).
    set (op := fun xs : list (view + nest T) => match xs return M (mem T) (view + nest T) with [inl c; inr x] => _ <- braces_assign fx zs (S N) c x ;; ret (inl c) | _ => undef end).
    set (e := Map op [items (Vw (d :: dv) cp); list_iter' l]).
    assert (Ee : braces_assign fx zs (S (S N)) (Vw (d :: dv) cp) (Braces l) = ply (fx (S (S N))) no_stop (zs (S (S N))) e) by reflexivity.
    rewrite Ee. clear Ee.
    assert (We : wf e).
    { apply wf_map; [discriminate|]. constructor; [|constructor; [apply rank1_wf; lia|constructor]]. split; [cbn; lia|]. cbn. constructor; [left; exact Nd|constructor]. }
    change (vshape (Vw (d :: dv) cp)) with (len d :: map len dv). change (firstn (S (S N)) (len d :: map len dv)) with (len d :: firstn (S N) (map len dv)).
    cbn [fits]. destruct (Z.eq_dec (len d) (Z.of_nat (length l))) as [Ll|Ll].
    + set (P := fun k (w : mem T) => (forall i j, 0 <= i < k -> inshape (i :: j) (len d :: map len dv) -> item_at (Braces l) (firstn (S (S N)) (i :: j)) = Some (w (vplace (Vw (d :: dv) cp) (i :: j)))) /\
                 (forall q, outside (vplace (Vw (d :: dv) cp)) (len d :: map len dv) q -> w q = m q)).
      set (Q := fun (w : mem T) => forall q, outside (vplace (Vw (d :: dv) cp)) (len d :: map len dv) q -> w q = m q).
      set (good := fun k => fits (firstn (S N) (map len dv)) (nth (Z.to_nat k) l (Braces []))).
      destruct (ply_try _ (fx (S (S N))) (zs (S (S N))) e (len d) m P Q good) as [(G & w & E & P1)|((k & Hk & G) & w & E & Q1)]; auto.
      * apply map2_shape; auto; [cbn; auto| |]; cbn; repeat constructor; auto.
      * split; [intros; lia|auto].
      * intros k w Hk (P1 & P2). unfold good. set (x := nth (Z.to_nat k) l (Braces [])).
        assert (Dx : deep (S N) x) by (apply (proj1 (Forall_nth_Z _ _ l (Braces [])) D); lia).
        set (c := Vw dv (cp + step d * k)).
        assert (El : forall w0, element e [k] w0 = (_ <- braces_assign fx zs (S N) c x ;; ret (inl c)) w0).
        { intros w0. cbn [e element map]. rewrite (in_order_2 _ _ _ _ w0 (inl c) w0 (inr x) w0); [reflexivity| |].
          - cbn. unfold c. do 4 f_equal. lia.
          - cbn. unfold x. do 4 f_equal. lia. }
        assert (Pc : forall j, vplace c j = vplace (Vw (d :: dv) cp) (k :: j)) by (intros; unfold c; apply row_place).
        assert (Kj : forall j, inshape j (map len dv) -> inshape (k :: j) (len d :: map len dv)) by (intros; constructor; auto).
        assert (Sc : separate (vplace c) (map len dv)).
        { intros i j Hi Hj Eij. rewrite !Pc in Eij. apply Sep in Eij; [congruence| |]; apply Kj; auto. }
        destruct (IH c x w Dx Nt) as [(F & w' & Ew & A1 & A2)|(F & w' & Ew & A2)]; [cbn in R; unfold vrank; cbn; lia|exact Sc| |].
        -- left. split; auto. exists (inl c), w'. split; [rewrite El; unfold bind; rewrite Ew; reflexivity|]. split.
           ++ intros i j Hi Hij. destruct (Z.eq_dec i k) as [->|Ne].
              ** assert (Hj : inshape j (map len dv)) by (inversion Hij; auto). specialize (A1 j Hj). rewrite <- Pc, <- A1.
                 change (firstn (S (S N)) (k :: j)) with (k :: firstn (S N) j). cbn [item_at]. destruct (Z.ltb_spec k 0); [lia|].
                 rewrite (nth_error_nth' l (Braces [])) by lia. reflexivity.
              ** rewrite P1 by (auto; lia). f_equal. symmetry. apply A2. intros j' Hj' Eq. rewrite Pc in Eq. apply Sep in Eq; [|auto|apply Kj; auto]. congruence.
           ++ intros q Hq. rewrite A2; auto. intros j Hj ->. apply (Hq (k :: j)); auto.
        -- right. split; auto. exists w'. split; [rewrite El; unfold bind; rewrite Ew; reflexivity|]. intros q Hq. rewrite A2; auto. intros j Hj ->. apply (Hq (k :: j)); auto.
      * left. split; [split; auto; apply Forall_nth_Z with (d := Braces []); intros; apply G; lia|]. exists w. split; auto. destruct P1 as (P1 & P2). split; auto.
        intros j Hj. destruct j as [|i j]; [inversion Hj|]. apply P1; auto. inversion Hj; auto.
      * right. split; [|exists w; auto]. intros (_ & F). apply G. unfold good. apply (proj1 (Forall_nth_Z _ _ l (Braces [])) F). lia.
    + right. split; [tauto|]. exists m. split; auto. apply ply_refused; auto. apply (lens_refused _ _ 0 (len d) (Z.of_nat (length l))); auto; try lia; cbn; auto.
Qed.

(* v = {{...} ...} succeeds exactly if every list has the length of its axis, and then v(i, j, ...) is the item at [i][j]... If v has more axes than the nesting then each item goes to
   all the elements of its cell. *)
Theorem C40_assign : forall fx zs N v (n : nest T) m, (forall k, zclean (zs k)) -> deep (S N) n -> nonneg (vshape v) -> (S N <= length (vshape v))%nat -> separate (vplace v) (vshape v) ->
  (fits (firstn (S N) (vshape v)) n -> exists m', braces_assign fx zs (S N) v n m = Ok None m' /\
    (forall j, inshape j (vshape v) -> item_at n (firstn (S N) j) = Some (m' (vplace v j))) /\ (forall q, outside (vplace v) (vshape v) q -> m' q = m q)) /\
  (~ fits (firstn (S N) (vshape v)) n -> exists m', braces_assign fx zs (S N) v n m = Fail m' /\ (forall q, outside (vplace v) (vshape v) q -> m' q = m q)).
Proof.
  intros fx zs N v n m Hz D Nn R Sep. unfold vshape in R. rewrite map_length in R. destruct (braces_assign_spec fx zs Hz N v n m D Nn R Sep) as [(F & H)|(F & H)]; split; intros; tauto.
Qed.

Lemma braces_shape_fits : forall N s (x y : nest T), deep N x -> deep N y -> fits s x -> fits s y -> fits (braces_shape N x) y.
Proof.
  induction N as [|N IH]; intros s x y Dx Dy Fx Fy.
  - destruct y; [exact I|destruct Dy].
  - destruct x as [|lx]; [destruct Dx|]. destruct y as [|ly]; [destruct Dy|]. destruct s as [|k s]; [destruct Fx|]. destruct Fx as (-> & Fx), Fy as (L & Fy).
    cbn [braces_shape]. split; auto. destruct lx as [|x lx].
    + destruct ly; [constructor|cbn in L; lia].
    + cbn [deep] in Dx, Dy. rewrite Forall_forall in *. intros y Hy. apply (IH s); auto; [apply Dx|apply Fx]; left; auto.
Qed.
Lemma braces_shape_least : forall N s (x : nest T), deep N x -> fits s x -> nonneg s -> length s = N -> Forall2 Z.le (braces_shape N x) s.
Proof.
  induction N as [|N IH]; intros s x D F Nn L; (destruct s as [|k s]; [cbn in L; try lia|]); [constructor|cbn in L; lia|].
  destruct x as [|l]; [destruct D|]. destruct F as (-> & F). cbn [braces_shape]. constructor; [lia|]. inversion Nn; subst. destruct l as [|x l].
  - assert (length s = N) by (cbn in L; lia). subst N. clear - H2. induction H2; [constructor|]. cbn. constructor; auto.
  - apply IH; auto; [inversion D; auto|inversion F; auto].
Qed.
Lemma braces_shape_nonneg : forall N (x : nest T), nonneg (braces_shape N x) /\ length (braces_shape N x) = N.
Proof.
  assert (Z : forall k, nonneg (repeat 0 k)) by (induction k; constructor; auto; lia).
  induction N as [|N IH]; intros x; [split; [constructor|reflexivity]|]. destruct x as [|[|x l]]; cbn [braces_shape].
  - split; [apply Z|apply repeat_length].
  - split; [constructor; [lia|apply Z]|]. cbn. rewrite repeat_length. auto.
  - destruct (IH x). split; [constructor; [lia|auto]|cbn; auto].
Qed.
Lemma item_row : forall (l : list (nest T)), deep 1 (Braces l) -> exists xs, fold_right (fun x r => match x, r with Item t, Some ts => Some (t :: ts) | _, _ => None end) (Some []) l = Some xs /\
  length xs = length l /\ forall k, nth_error xs k = match nth_error l k with Some x => item_at x [] | None => None end.
Proof.
  induction l as [|x l IH]; intros D; [exists []; repeat split; intros [|k]; reflexivity|]. cbn [deep] in D. inversion D; subst. destruct (IH H2) as (xs & E & L & K). destruct x as [t|]; [|destruct H1].
  exists (t :: xs). cbn [fold_right]. rewrite E. split; auto. split; [cbn; auto|]. intros [|k]; [reflexivity|]. cbn. apply K.
Qed.

(* An array can be made from nested braces exactly if they're rectangular. The shape is given by the lengths of the lists; below an empty list, where there's no
   list to look at, it's the smallest one. A(i, j, ...) is the item at [i][j]... *)
Theorem C40_build : forall fx zs N (n : nest T) q m, (forall k, zclean (zs k)) -> deep (S N) n ->
  (rectangular n -> exists c m', array_braces fx zs q (S N) n m = Ok c m' /\ length (vshape c) = S N /\ fits (vshape c) n /\
     (forall s, nonneg s -> length s = S N -> fits s n -> Forall2 Z.le (vshape c) s) /\ separate (vplace c) (vshape c) /\
     (forall j, inshape j (vshape c) -> q <= vplace c j < q + zprod (vshape c) /\ item_at n j = Some (m' (vplace c j))) /\
     (forall p, ~ (q <= p < q + zprod (vshape c)) -> m' p = m p)) /\
  (~ rectangular n -> exists m', array_braces fx zs q (S N) n m = Fail m' /\ forall p, ~ (q <= p < q + zprod (braces_shape (S N) n)) -> m' p = m p).
Proof.
  intros fx zs N n q m Hz D. destruct (braces_shape_nonneg (S N) n) as (Nn & Ln). destruct (new_facts _ q Nn) as (dv & E & Vs & Sep & Out & _ & Rg).
  assert (Rect : rectangular n <-> fits (braces_shape (S N) n) n).
  { split; [|intros H; exists (braces_shape (S N) n); exact H]. intros (s & F). apply (braces_shape_fits (S N) s); auto. }
  rewrite Rect. set (s := braces_shape (S N) n) in *.
  assert (Least : forall s', nonneg s' -> length s' = S N -> fits s' n -> Forall2 Z.le s s') by (intros; apply braces_shape_least; auto).
  destruct N as [|N].
  - destruct n as [|l]; [destruct D|]. destruct (item_row l D) as (xs & Ex & Lx & Kx). assert (Es : s = [Z.of_nat (length l)]) by (unfold s; cbn [braces_shape]; destruct l; reflexivity).
    split.
    + intros F. cbn [array_braces]. unfold alloc. fold s. rewrite E, Ex. rewrite (to_ravel_spec true xs (Vw dv q) s m Vs Nn).
      2: { intros _. destruct (filldimv_some s Nn) as (dv' & E' & L' & P'). assert (dv' = dv) by congruence. subst dv'. apply C13_contiguous; cbn [vdv]; rewrite L'; auto. intros j Hj. apply P', inshape_length; auto. }
      2: { rewrite Es, Lx. cbn [zprod]. lia. }
      eexists _, _. split; [reflexivity|]. rewrite Vs. destruct (fill_places xs (Vw dv q) s m Vs Nn Sep) as (F1 & F2); [rewrite Es, Lx; cbn [zprod]; lia|].
      split; auto. split; auto. split; auto. split; auto. split; [|intros p Hp; apply F2, Out, Hp].
      intros j Hj. split; [apply Rg; auto|]. pose proof Hj as Hj'. rewrite Es in Hj'. apply in1e in Hj' as (i & -> & Hi).
      rewrite <- (F1 (map (fun k => [k]) (zrange (Z.of_nat (length l)))) (Z.to_nat i) [i]).
      * rewrite Kx. cbn [item_at]. destruct (Z.ltb_spec i 0); [lia|]. reflexivity.
      * rewrite Es. apply row_major_1.
      * unfold zrange. rewrite Nat2Z.id, map_map. erewrite map_nth_error; [|apply nth_error_nth' with (d := 0%nat); rewrite seq_length; lia]. rewrite seq_nth by lia. do 2 f_equal. lia.
    + intros F. exfalso. apply F. rewrite Es. split; [reflexivity|]. cbn [deep] in D. eapply Forall_impl; [|exact D]. intros [t|?] Ht; auto.
  - assert (Eb : array_braces fx zs q (S (S N)) n m = alloc q s (fun v => braces_assign fx zs (S (S N)) v n) m) by (destruct n; reflexivity). rewrite Eb. unfold alloc. rewrite E.
    destruct (C40_assign fx zs (S N) (Vw dv q) n m Hz D) as (A1 & A2); try (rewrite Vs; auto); [lia|]. rewrite Vs in A1, A2. rewrite <- Ln, firstn_all in A1, A2. rewrite Ln in A1, A2. split.
    + intros F. destruct (A1 F) as (m' & Em & I1 & I2). rewrite Em. exists (Vw dv q), m'. rewrite Vs. split; auto. split; auto. split; auto. split; auto. split; auto. split; [|intros p Hp; apply I2, Out, Hp].
      intros j Hj. split; [apply Rg; auto|]. rewrite <- I1 by auto. f_equal. rewrite firstn_all2; auto. rewrite (inshape_length _ _ Hj). lia.
    + intros F. destruct (A2 F) as (m' & Em & I2). rewrite Em. exists m'. split; auto. intros p Hp. apply I2, Out, Hp.
Qed.
End Fill.
Print Assumptions C41_view.
Print Assumptions C41_array.
Print Assumptions C51_concrete.
Print Assumptions C51_refused.
Print Assumptions C40_assign.
Print Assumptions C40_build.

Local Ltac sh := repeat first [constructor | cbn; lia].
Definition zero_mem : mem Z := fun _ => 0.
(* a 2x3 view with steps 1, 2 (transpose of 3x2) takes 6 items, not 5; the first row is at 10, 12, 14 *)
Example C41_ex : let v := Vw [Dim 2 1; Dim 3 2] 10 in nonneg (vshape v) /\ separate (vplace v) (vshape v) /\ zprod (vshape v) = 6 /\
  (exists m', view_fill false false [1; 2; 3; 4; 5; 6] v zero_mem = Ok tt m' /\ map m' [9; 10; 11; 12; 13; 14; 15; 16] = [0; 1; 4; 2; 5; 3; 6; 0]) /\
  view_fill true true [1; 2; 3; 4; 5] v zero_mem = Fail zero_mem /\
  (exists c m', array_fill 5 [2; 2] [1; 2; 3; 4] zero_mem = Ok c m' /\ map m' [4; 5; 6; 7; 8; 9] = [0; 1; 2; 3; 4; 0]).
Proof.
  cbv zeta. split; [sh|]. split.
  - intros i j Hi Hj E. apply in2e in Hi as (a & b & -> & Ha & Hb). apply in2e in Hj as (a' & b' & -> & Ha' & Hb'). unfold vplace in E. cbn [vcp vdv place step] in E. cbn [len map vdv] in *. assert (a = a' /\ b = b') as (-> & ->) by lia. reflexivity.
  - split; [reflexivity|]. split; [eexists; split; vm_compute; reflexivity|]. split; [vm_compute; reflexivity|]. eexists _, _. split; vm_compute; reflexivity.
Qed.
(* {{1, 2, 3}, {4, 5, 6}}; {{1, 2}, {3}} is refused, after having written the first row; {{}, {}} has shape 2 0 *)
Example C40_ex : let n := Braces [Braces [Item 1; Item 2; Item 3]; Braces [Item 4; Item 5; Item 6]] in let r := Braces [Braces [Item 1; Item 2]; Braces [Item 3]] in
  deep 2 n /\ fits [2; 3] n /\ item_at n [1; 0] = Some 4 /\ ~ rectangular r /\
  (exists m', array_braces (fun _ => false) (fun _ => z_init) 5 2 n zero_mem = Ok (Vw [Dim 2 3; Dim 3 1] 5) m' /\ map m' [4; 5; 6; 7; 8; 9; 10; 11] = [0; 1; 2; 3; 4; 5; 6; 0]) /\
  (exists m', array_braces (fun _ => false) (fun _ => z_init) 5 2 r zero_mem = Fail m') /\
  array_braces (fun _ => true) (fun _ => z_init) 5 2 (Braces [Braces []; Braces []]) zero_mem = Ok (Vw [Dim 2 0; Dim 0 1] 5) zero_mem.
Proof.
  cbv zeta. split; [cbn; repeat constructor|]. split; [cbn; repeat constructor|]. split; [reflexivity|]. split.
  - intros ([|a [|b [|c s]]] & H); cbn in H; try tauto.
    + destruct H as (_ & H). inversion H; subst. exact H2.
    + destruct H as (_ & H). inversion H as [|? ? F1 F2]. inversion F2 as [|? ? F3 F4]. destruct F1 as (E1 & _), F3 as (E2 & _). cbn in E1, E2. lia.
    + destruct H as (_ & H). inversion H; subst. destruct H2 as (_ & H2). inversion H2; subst. exact H4.
  - split; [eexists; split; vm_compute; reflexivity|]. split; [eexists; vm_compute; reflexivity|vm_compute; reflexivity].
Qed.
(* concrete(a + a) with a 1-D array of 3 at 0; a is changed later *)
Example C51_ex : let a := viter (Vw [Dim 3 1] 0) in let e := Map (mul_op Z.add) [a; a] in let m := fun p => p + 1 in
  wf e /\ shape_is e [3] /\ (forall m', (forall p, ~ (100 <= p < 100 + zprod [3]) -> m' p = m p) -> reads e [3] m' (fun j => 2 * (nth 0 j 0 + 1))) /\
  exists c m', concrete false z_init 100 e m = Ok c m' /\ map m' [0; 1; 2; 100; 101; 102; 103] = [1; 2; 3; 2; 4; 6; 104] /\ reads (viter c) [3] (wr 1 77 m') (fun j => 2 * (nth 0 j 0 + 1)).
Proof.
  cbv zeta.
  assert (We : wf (Map (mul_op Z.add) [viter (Vw [Dim 3 1] 0); viter (Vw [Dim 3 1] 0)])) by (apply wf_map; [discriminate|]; repeat constructor; cbn; try lia; left; cbn; lia).
  assert (Se : shape_is (Map (mul_op Z.add) [viter (Vw [Dim 3 1] 0); viter (Vw [Dim 3 1] 0)]) [3]) by (apply map2_shape; cbn; auto; try lia).
  assert (Re : forall m', (forall p, ~ (100 <= p < 100 + zprod [3]) -> m' p = p + 1) -> reads (Map (mul_op Z.add) [viter (Vw [Dim 3 1] 0); viter (Vw [Dim 3 1] 0)]) [3] m' (fun j => 2 * (nth 0 j 0 + 1))).
  { intros m' Hm j Hj. apply in1e in Hj as (i & -> & Hi). eexists. split; [cbn -[Z.add Z.mul]; unfold bind; cbn -[Z.add Z.mul]; reflexivity|]. cbn -[Z.add Z.mul]. f_equal. rewrite !Hm by (cbn -[Z.add Z.mul]; lia). lia. }
  split; [exact We|]. split; [exact Se|]. split; [exact Re|].
  destruct (C51_concrete _ [3] (fun j => 2 * (nth 0 j 0 + 1)) 100 (fun p => p + 1) false z_init We Se z_init_clean Re) as (c & m' & E & _ & _ & _ & _ & _ & H).
  exists c, m'. split; [exact E|]. split.
  - assert (E' := E). vm_compute in E'. injection E' as _ <-. vm_compute. reflexivity.
  - apply H. intros p Hp. unfold wr. destruct (Z.eqb_spec p 1); [cbn in Hp; lia|reflexivity].
Qed.
