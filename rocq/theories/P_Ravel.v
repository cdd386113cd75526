(* Properties C146, C147: to_ravel() from any range; programs on ranges of bench/bench-iterator.cc and examples/read-me.cc. *)
From Coq Require Import ZArith List Lia Bool.
From Verif Require Import Spec L_Spec Spec_Ply Spec_Expr M_Base M_Expr M_Ply M_Val Spec_Val L_Expr L_Agree L_Ply L_Stl L_Run L_Val P_Ply P_Reduce M_View Spec_View L_View P_View M_Slice Spec_Slice L_Slice P_Slice M_Frame Spec_Frame L_Frame P_Frame M_Mat Spec_Mat P_Mat P_Ext P_Outer M_Fill P_Fill M_Range P_Range M_Cells P_Cells P_Ref M_Stencil P_Stencil P_Roll M_Elem P_Elem M_Ravel.
Import ListNotations.
Open Scope Z_scope.

Section Ravel.
Context {T : Type}.
Notation ex := (expr (val T) (mem T)).

(* the iterator writes at ps *)
Fixpoint gives (o : @outit T) (ps : list Z) : Prop :=
  match ps with
  | [] => True
  | p::ps' => exists o', gives o' ps' /\ forall x m, out_put x (m, o) = Ok tt (wr p x m, o')
  end.

Lemma pointer_gives : forall n p, gives (OPtr p) (map (fun k => p + Z.of_nat k) (seq 0 n)).
Proof.
  induction n as [|n IH]; intros p; [exact I|]. cbn [seq map gives]. exists (OPtr (p + 1)). split.
  - rewrite <- seq_shift, map_map. replace (map (fun x => p + Z.of_nat (S x)) (seq 0 n)) with (map (fun k => p + 1 + Z.of_nat k) (seq 0 n)) by (apply map_ext; intros; lia). apply IH.
  - intros x m. unfold out_put. cbn [fst snd]. rewrite Z.add_0_r. reflexivity.
Qed.
Lemma iterator_gives : forall e : ex, wf e -> forall pl, (forall j w, inshape j (shape e) -> at_ e j w = Ok (VRef (pl j)) w) -> validate e = true ->
  forall n ind i, inshape i (shape e) -> srep (shape e) ind i -> n = length (indices_from (shape e) i) -> gives (OStl (Stl (goto e (fz i)) ind false)) (map pl (indices_from (shape e) i)).
Proof.
  intros e We pl Hpl V. induction n as [|n IH]; intros ind i Hi Hs L.
  - destruct (indices_from (shape e) i) eqn:E; [exact I|discriminate].
  - rewrite indices_from_succ in * by auto. cbn [map gives length] in *. pose proof (stl_next_spec' e We ind i Hi Hs) as N. exists (OStl (stl_next (Stl (goto e (fz i)) ind false))). split.
    + destruct (succ (shape e) i) as [i'|] eqn:Es; [|exact I]. destruct N as (ind' & -> & Hs'). apply IH; auto. apply (succ_inshape _ _ _ Hi Es).
    + intros x m. unfold out_put. cbn [fst snd sa]. rewrite deref_at, Hpl; auto.
      * rewrite (inshape_length _ _ Hi), L_Expr.shape_length. lia.
      * apply okidx_inshape; auto.
Qed.
Lemma begin_gives : forall pointer b s, vshape b = s -> nonneg s -> (pointer = true -> c_order (vdv b) true = true) -> exists o, out_begin pointer b = Some o /\ gives o (map (vplace b) (indices s)).
Proof.
  intros pointer b s Hs Nn Hp. unfold out_begin. destruct pointer.
  - eexists. split; [reflexivity|]. specialize (Hp eq_refl). unfold vshape in Hs. rewrite C13_contiguous in Hp by (rewrite Hs; auto). rewrite Hs in Hp.
    replace (map (vplace b) (indices s)) with (map (fun k => vcp b + Z.of_nat k) (seq 0 (Z.to_nat (zprod s)))); [apply pointer_gives|]. transitivity (map (fun k => vcp b + k) (map (rm s) (indices s))).
    + rewrite rm_indices by auto. unfold zrange. rewrite map_map. reflexivity.
    + rewrite map_map. apply map_ext_in. intros j Hj. apply in_indices in Hj. unfold vplace. rewrite Hp by auto. reflexivity.
  - destruct (viter_at (T:=T) b s Hs Nn) as (E & V & W & A). unfold stl_begin. rewrite V. pose proof (size_prod (viter (T:=T) b)) as P. rewrite E in P. rewrite P by exact Nn. clear P. eexists. split; [reflexivity|].
    destruct (Z.eqb_spec 0 (zprod s)) as [Z0|Z0].
    + replace (indices s) with (@nil (list Z)); [exact I|]. pose proof (indices_count s Nn). destruct (indices s); [auto|cbn in *; lia].
    + assert (Pos : Forall (fun n => 0 < n) s).
      { clear - Nn Z0. induction Nn as [|x l Hx Hs IH]; [constructor|]. cbn [zprod] in Z0. constructor; [destruct (Z.eq_dec x 0); [subst; lia|lia]|]. apply IH. intros E. apply Z0. rewrite <- E. ring. }
      rewrite E. pose proof (iterator_gives (viter b) W (vplace b)) as C. rewrite E in C. specialize (C A V (length (indices s)) s (map (fun _ => 0) s)). rewrite indices_from_zero in C by auto.
      replace (viter b) with (goto (viter (T:=T) b) (fz (map (fun _ => 0) s))) at 1.
      2: { transitivity (goto (viter (T:=T) b) (fun _ => 0)); [|apply goto_zero]. apply goto_ext; auto. intros k Hk. unfold fz. rewrite (nth_map _ s k 0); auto. rewrite <- E, L_Expr.shape_length. exact Hk. }
      apply C; auto.
      * clear - Pos. induction Pos; constructor; [lia|auto].
      * split; auto. intros k Hk. rewrite (nth_map _ s k 0) by auto. lia.
Qed.

(* reading an item and writing it, in turns *)
Lemma each_put : forall (g : list Z -> M (mem T * @outit T) unit) (x : list Z -> T) js ps (m0 : mem T) all, (forall p, In p ps -> In p all) -> length js = length ps ->
  (forall j m o, In j js -> (forall q, ~ In q all -> m q = m0 q) -> g j (m, o) = out_put (x j) (m, o)) ->
  forall m o, gives o ps -> (forall q, ~ In q all -> m q = m0 q) -> exists o', each g js (m, o) = Ok tt (scatter ps (map x js) m, o').
Proof.
  intros g x. induction js as [|j js IH]; intros ps m0 all Hin L Hg m o Ho Hm.
  - destruct ps; [|discriminate]. exists o. reflexivity.
  - destruct ps as [|p ps]; [discriminate|]. cbn [gives] in Ho. destruct Ho as (o1 & Ho & Hp). cbn [each map scatter]. rewrite Hg by (auto; left; auto). rewrite Hp. apply (IH ps m0 all); auto.
    + intros q Hq. apply Hin. right; auto.
    + intros j' m' o' Hj'. apply Hg. right; auto.
    + intros q Hq. unfold wr. destruct (Z.eqb_spec q p); [subst; exfalso; apply Hq, Hin; left; auto|auto].
Qed.

(* r goes through the items of f, in the order of the indices of s *)
Definition sweeps (r : option (@range (val T) (mem T * @outit T))) (s : list Z) (f : list Z -> M (mem T * @outit T) (val T)) : Prop :=
  exists r', r = Some r' /\ forall (g : val T -> M (mem T * @outit T) unit) fuel w, (length (indices s) < fuel)%nat -> range_for VRef fuel g r' w = each (fun j => x <- f j ;; g x) (indices s) w.

Lemma ravel_spec : forall n r f s x pointer b t fuel (m : mem T), n = zprod s -> nonneg s -> sweeps r s f -> vshape b = t -> nonneg t -> Spec_Mat.separate (vplace b) t -> (pointer = true -> c_order (vdv b) true = true) -> (Z.to_nat n < fuel)%nat ->
  (forall j m1 o, inshape j s -> (forall q, outside (vplace b) t q -> m1 q = m q) -> exists v, f j (m1, o) = Ok v (m1, o) /\ value_of v m1 = Some (x j)) ->
  (zprod s = zprod t -> exists m', ravel n r pointer fuel b m = Ok tt m' /\
    (forall is js k i j, row_major s is -> row_major t js -> nth_error is k = Some i -> nth_error js k = Some j -> m' (vplace b j) = x i) /\
    (forall q, outside (vplace b) t q -> m' q = m q)) /\
  (zprod s <> zprod t -> ravel n r pointer fuel b m = Fail m).
Proof.
  intros n r f s x pointer b t fuel m -> Ns (r' & -> & Hr) Et Nt Sep Hp Hf Hx. unfold ravel. pose proof Et as Et'. unfold vshape in Et'. rewrite dimv_size_prod, Et' by (rewrite Et'; auto). split; intros E.
  2: { destruct (Z.eqb_spec (zprod s) (zprod t)); [tauto|reflexivity]. }
  rewrite E, Z.eqb_refl. destruct (begin_gives pointer b t Et Nt Hp) as (o & -> & Go).
  assert (Cs := indices_count s Ns). assert (Ct := indices_count t Nt).
  rewrite Hr by lia.
  destruct (each_put (fun j => x0 <- f j ;; copy_one x0) x (indices s) (map (vplace b) (indices t)) m (map (vplace b) (indices t))) with (m := m) (o := o) as (o' & Eo); auto.
  - rewrite map_length. lia.
  - intros j m1 o1 Hj Hm. apply in_indices in Hj. destruct (Hx j m1 o1 Hj) as (v & E1 & E2).
    + intros q Hq. apply Hm. rewrite in_map_iff. intros (i & <- & Hi). apply in_indices in Hi. apply (Hq i); auto.
    + unfold bind. rewrite E1. unfold copy_one, bind. rewrite (rdl_value _ _ _ _ _ E2). reflexivity.
  - exists (scatter (map (vplace b) (indices t)) (map x (indices s)) m). split; [exact (f_equal forget Eo)|].
    assert (L : Z.of_nat (length (map x (indices s))) = zprod t) by (rewrite map_length; lia).
    destruct (fill_places (map x (indices s)) b t m Et Nt Sep L) as (F1 & F2). split; [|exact F2].
    intros is js k i j Ri Rj Hi Hj. pose proof (F1 js k j Rj Hj) as F. apply row_major_unique in Ri. subst is. rewrite (map_nth_error x _ _ Hi) in F. congruence.
Qed.

(* what is left by to_ravel(x, b), where the elements of x, of lengths s, are x i: the k-th element of b is the k-th of x *)
Definition raveled (s : list Z) (x : list Z -> T) (b : view) (m m' : mem T) : Prop :=
  (forall is js k i j, row_major s is -> row_major (vshape b) js -> nth_error is k = Some i -> nth_error js k = Some j -> m' (vplace b j) = x i) /\
  (forall q, outside (vplace b) (vshape b) q -> m' q = m q).

(* from a view with any steps *)
Theorem C146_view : forall ct st pointer fuel a b (m : mem T), nonneg (vshape a) -> nonneg (vshape b) -> (st = true -> exists n, vdv a = [Dim n 1]) -> (pointer = true -> c_order (vdv b) true = true) ->
  Spec_Mat.separate (vplace b) (vshape b) -> P_Cells.separate b a -> (Z.to_nat (zprod (vshape a)) < fuel)%nat ->
  (zprod (vshape a) = zprod (vshape b) -> exists m', ravel_view ct st pointer fuel a b m = Ok tt m' /\ raveled (vshape a) (fun i => m (vplace a i)) b m m') /\
  (zprod (vshape a) <> zprod (vshape b) -> ravel_view ct st pointer fuel a b m = Fail m).
Proof.
  intros ct st pointer fuel a b m Na Nb H1 Hp Sep Sa Hf. unfold ravel_view, raveled.
  assert (Ea : dimv_size (vdv a) = zprod (vshape a)) by (apply dimv_size_prod; auto).
  apply (ravel_spec _ _ (fun j => ret (VRef (vplace a j)))); auto; [|rewrite Ea; auto|].
  - destruct (C83_view (X := val T) (W := mem T * @outit T) VRef ct st a (indices (vshape a)) Na H1 (row_major_indices _)) as (r & Er & Hr). exists r. split; [auto|]. intros g fuel' w L. rewrite Hr by auto. apply each_ext. intros j w' _. unfold bind, ret. destruct (g _ w'); auto.
  - intros j m1 o Hj Hm. eexists. split; [reflexivity|]. cbn [value_of]. f_equal. apply Hm. intros i Hi E. apply (Sa i j); auto.
Qed.
(* from a container *)
Theorem C146_array : forall s dv n p pointer fuel b (m : mem T), filldimv s = Some (dv, n) -> nonneg (vshape b) -> (pointer = true -> c_order (vdv b) true = true) ->
  Spec_Mat.separate (vplace b) (vshape b) -> P_Cells.separate b (Vw dv p) -> (Z.to_nat (zprod s) < fuel)%nat ->
  (zprod s = zprod (vshape b) -> exists m', ravel_array pointer fuel (Vw dv p) b m = Ok tt m' /\ raveled s (fun i => m (vplace (Vw dv p) i)) b m m') /\
  (zprod s <> zprod (vshape b) -> ravel_array pointer fuel (Vw dv p) b m = Fail m).
Proof.
  intros s dv n p pointer fuel b m Hd Nb Hp Sep Sa Hf. unfold ravel_array, raveled.
  assert (Hn : nonneg s). { apply Forall_forall. intros x Hx. destruct (Z.lt_ge_cases x 0); auto. rewrite (C12_refused s) in Hd; [discriminate|eauto]. }
  assert (Es : vshape (Vw dv p) = s). { destruct (filldimv_some s Hn) as (dv' & E1 & E2 & E3). rewrite Hd in E1. injection E1 as E4 E5. subst dv'. unfold vshape. cbn [vdv]. auto. }
  assert (Ea : dimv_size (vdv (Vw dv p)) = zprod s) by (rewrite <- Es; apply dimv_size_prod; unfold vshape in Es; rewrite Es; auto).
  apply (ravel_spec _ _ (fun j => ret (VRef (vplace (Vw dv p) j)))); auto; [|rewrite Ea; auto|].
  - eexists. split; [reflexivity|]. intros g fuel' w L. rewrite (C83_array (X := val T) (W := mem T * @outit T) VRef s dv n p (indices s) Hd (row_major_indices _)) by auto. apply each_ext. intros j w' _. unfold bind, ret. destruct (g _ w'); auto.
  - intros j m1 o Hj Hm. eexists. split; [reflexivity|]. cbn [value_of]. f_equal. apply Hm. intros i Hi E. apply (Sa i j); auto. rewrite Es. auto.
Qed.
(* from any expression *)
Theorem C146_expr : forall pointer fuel (e : ex) s x b (m : mem T), wf e -> shape_is e s -> nonneg s -> nonneg (vshape b) -> (pointer = true -> c_order (vdv b) true = true) ->
  Spec_Mat.separate (vplace b) (vshape b) -> undisturbed e s m x (vplace b) (vshape b) -> (Z.to_nat (zprod s) < fuel)%nat ->
  (zprod s = zprod (vshape b) -> exists m', ravel_expr pointer fuel e b m = Ok tt m' /\ raveled s x b m m') /\
  (zprod s <> zprod (vshape b) -> ravel_expr pointer fuel e b m = Fail m).
Proof.
  intros pointer fuel e s x b m We Se Ns Nb Hp Sep Un Hf. unfold ravel_expr, raveled.
  assert (Ea : sizee e = zprod s). { destruct (shape_is_shape _ s We Se) as (E & V). subst s. apply size_prod; auto. }
  apply (ravel_spec _ _ (element (lift e))); auto; [|rewrite Ea; auto|].
  - assert (Wl : wf (lift (C := @outit T) e)) by (apply lift_wf; auto). assert (Sl : shape_is (lift (C := @outit T) e) s). { destruct Se as (L & S). split; [rewrite lift_axes; auto|]. rewrite lift_axes. intros k Hk. rewrite lift_lens. auto. }
    destruct (C11_stl_range _ _ _ _ (indices s) Wl Sl (row_major_indices _)) as (_ & C). unfold expr_range.
    destruct (stl_begin (lift e)) as [it|] eqn:Es.
    + eexists. split; [reflexivity|]. intros g fuel' w L. cbn [range_for]. destruct (C g fuel' w L) as (it' & E1 & E2). injection E1 as <-. auto.
    + destruct (shape_is_shape _ s Wl Sl) as (_ & V). unfold stl_begin in Es. rewrite V in Es. discriminate.
  - intros j m1 o Hj Hm. destruct (Un m1 Hm j Hj) as (v & E1 & E2). exists v. rewrite lift_element. unfold lift_op. cbn [fst snd]. rewrite E1. auto.
Qed.
End Ravel.

Section Number.
Context {T : Type}.
Variable inj : Z -> T.
Notation ex := (expr (val T) (mem T)).

Lemma nth_one : forall n k, 0 <= k < n -> nth_error (map (fun k => [k]) (zrange n)) (Z.to_nat k) = Some [k].
Proof.
  intros n k Hk. apply (map_nth_error (fun k => [k])). unfold zrange. replace (Some k) with (Some (Z.of_nat (Z.to_nat k))) by (f_equal; lia). apply (map_nth_error Z.of_nat). rewrite (nth_error_nth' _ 0%nat) by (rewrite seq_length; lia). rewrite seq_nth by lia. reflexivity.
Qed.
(* the elements of a are numbered in row-major order *)
Definition numbered (a : view) (m m' : mem T) : Prop :=
  (forall js k j, row_major (vshape a) js -> nth_error js k = Some j -> m' (vplace a j) = inj (Z.of_nat k)) /\ (forall q, outside (vplace a) (vshape a) q -> m' q = m q).

Lemma each_number : forall a js (m : mem T) i, each (fun j => number_one inj (VRef (vplace a j))) js (m, i) =
  Ok tt (scatter (map (vplace a) js) (map (fun k => inj (i + Z.of_nat k)) (seq 0 (length js))) m, i + Z.of_nat (length js)).
Proof.
  intros a js. induction js as [|j js IH]; intros m i; [cbn; rewrite Z.add_0_r; reflexivity|]. cbn [each number_one fst snd]. rewrite IH. cbn [length seq map scatter]. rewrite Z.add_0_r. do 2 f_equal; [|lia].
  f_equal. rewrite <- seq_shift, map_map. apply map_ext. intros k. f_equal. lia.
Qed.
Theorem C147_number : forall ct st fuel a (m : mem T), nonneg (vshape a) -> (st = true -> exists n, vdv a = [Dim n 1]) -> Spec_Mat.separate (vplace a) (vshape a) -> (Z.to_nat (zprod (vshape a)) < fuel)%nat ->
  exists m', number inj ct st fuel a m = Ok tt m' /\ numbered a m m'.
Proof.
  intros ct st fuel a m Na H1 Sep Hf. unfold number. destruct (C83_view (X := val T) (W := mem T * Z) VRef ct st a (indices (vshape a)) Na H1 (row_major_indices _)) as (r & -> & Hr). assert (C := indices_count _ Na).
  rewrite Hr by lia. rewrite each_number. cbn [forget fst]. eexists. split; [reflexivity|]. set (xs := map _ (seq 0 _)).
  assert (L : Z.of_nat (length xs) = zprod (vshape a)) by (unfold xs; rewrite map_length, seq_length; auto).
  destruct (fill_places xs a (vshape a) m eq_refl Na Sep L) as (F1 & F2). split; [|exact F2]. intros js k j Rj Hj. specialize (F1 js k j Rj Hj).
  assert (Hk : (k < length (indices (vshape a)))%nat). { rewrite <- (row_major_unique _ _ Rj). apply nth_error_Some. congruence. }
  unfold xs in F1. rewrite (map_nth_error _ k (seq 0 (length (indices (vshape a)))) (d := k)) in F1; [injection F1 as F1; symmetry; exact F1|]. rewrite (nth_error_nth' _ 0%nat) by (rewrite seq_length; auto). rewrite seq_nth by auto. reflexivity.
Qed.
(* and to_ravel() of it to an array of rank 1 gives 0, 1, 2, ... *)
Theorem C147_ravel : forall ct st pointer fuel a b n (m : mem T), nonneg (vshape a) -> vshape b = [n] -> n = zprod (vshape a) -> (st = true -> exists n, vdv a = [Dim n 1]) -> (pointer = true -> c_order (vdv b) true = true) ->
  Spec_Mat.separate (vplace a) (vshape a) -> Spec_Mat.separate (vplace b) (vshape b) -> P_Cells.separate b a -> (Z.to_nat n < fuel)%nat ->
  exists m1 m2, number inj ct st fuel a m = Ok tt m1 /\ ravel_view ct st pointer fuel a b m1 = Ok tt m2 /\ forall k, 0 <= k < n -> m2 (vplace b [k]) = inj k.
Proof.
  intros ct st pointer fuel a b n m Na Eb En H1 Hp Sa Sb Sab Hf. destruct (C147_number ct st fuel a m) as (m1 & E1 & N1 & _); auto; [rewrite <- En; auto|].
  assert (Nn : 0 <= n) by (pose proof (indices_count _ Na); lia).
  destruct (proj1 (C146_view ct st pointer fuel a b m1 Na ltac:(rewrite Eb; apply Forall_cons; [auto|constructor]) H1 Hp Sb Sab ltac:(rewrite <- En; auto))) as (m2 & E2 & R & _).
  { rewrite Eb, <- En. cbn. lia. }
  exists m1, m2. split; [auto|]. split; [auto|]. intros k Hk. rewrite Eb in R.
  assert (Kl : (Z.to_nat k < length (indices (vshape a)))%nat) by (pose proof (indices_count _ Na); lia).
  destruct (nth_error (indices (vshape a)) (Z.to_nat k)) as [i|] eqn:Ei; [|apply nth_error_None in Ei; lia].
  rewrite (R (indices (vshape a)) (map (fun k => [k]) (zrange n)) (Z.to_nat k) i [k]); auto using row_major_indices, row_major_1.
  - rewrite (N1 (indices (vshape a)) (Z.to_nat k) i); auto using row_major_indices. f_equal. lia.
  - apply nth_one; auto.
Qed.

Lemma count_shape : forall n, 0 <= n -> wf (Cell [Dim n 1] 1 VI 0 : ex) /\ shape_is (Cell [Dim n 1] 1 VI 0 : ex) [n].
Proof.
  intros n Hn. split; [split; [cbn; lia|]; apply Forall_cons; [left; cbn [len]; lia|constructor]|]. split; [reflexivity|]. intros k Hk. cbn in Hk. replace k with 0%nat by lia. cbn. split; [lia|]. split; [auto|]. apply Forall_cons; [auto|constructor].
Qed.

Variables (fixed : bool) (z : list zt).
Hypothesis Hz : zclean z.
(* A = _0 *)
Theorem C147_index : forall a n s (m : mem T), vshape a = n::s -> nonneg (n::s) -> apart_at a -> exists m', number_index fixed z inj a m = Ok None m' /\ becomes a (fun j => inj (nth 0 j 0)) m m'.
Proof.
  intros a n s m Ea Na Ap. unfold number_index. destruct (C58_axes T (mem T) 0) as (W & A & L & M).
  assert (Ni : inner (tindex 0 : ex) (n::s)) by (split; [cbn [length]; lia|]; intros [|k]; [rewrite L; apply Forall_cons; [auto|constructor]|rewrite M by lia; constructor]).
  destruct (assign_to fixed z Hz (fun _ x => x) a (conv inj (tindex 0)) (n::s) (fun j => inj (nth 0 j 0)) m) as (m' & E & B); auto.
  - apply wf_map; [discriminate|]; auto.
  - apply inner_map. apply Forall_cons; [auto|constructor].
  - intros m1 _ j Hj. exists (VT (inj (nth 0 j 0))). unfold conv. cbn [element map in_order]. rewrite C58_value by (apply inshape_length in Hj; cbn in Hj; lia). split; reflexivity.
  - exists m'. split; auto.
Qed.
(* A = iota(s), of rank 1 *)
Theorem C147_iota : forall a n (m : mem T), vshape a = [n] -> 0 <= n -> apart_at a -> exists m', number_iota fixed z inj a m = Ok None m' /\ becomes a (fun j => inj (nth 0 j 0)) m m'.
Proof.
  intros a n m Ea Nn Ap. unfold number_iota. assert (Na : nonneg [n]) by (apply Forall_cons; [auto|constructor]). assert (Es : dimv_size (vdv a) = n) by (rewrite dimv_size_prod; unfold vshape in Ea; rewrite Ea; [cbn; lia|auto]). rewrite Es. destruct (count_shape n Nn) as (W & S).
  destruct (assign_to fixed z Hz (fun _ x => x) a (conv inj (Cell [Dim n 1] 1 VI 0)) [n] (fun j => inj (nth 0 j 0)) m) as (m' & E & B); auto.
  - apply wf_map; [discriminate|]; auto.
  - apply inner_map. apply Forall_cons; [apply inner_whole; auto|constructor].
  - intros m1 _ j Hj. apply in1e in Hj as (k & -> & Hk). exists (VT (inj k)). split; [|reflexivity]. unfold conv. cbn [element map in_order firstn place step nth]. unfold op1. cbn. replace (k * 1 + 0) with k by lia. reflexivity.
  - exists m'. split; auto.
Qed.
(* the three leave the same, with rank 1 *)
Theorem C147_same : forall ct st fuel a n (m : mem T), vshape a = [n] -> 0 <= n -> (st = true -> exists n, vdv a = [Dim n 1]) -> apart_at a -> (Z.to_nat n < fuel)%nat ->
  exists m1 m2 m3, number inj ct st fuel a m = Ok tt m1 /\ number_index fixed z inj a m = Ok None m2 /\ number_iota fixed z inj a m = Ok None m3 /\ (forall q, m1 q = m2 q /\ m1 q = m3 q).
Proof.
  intros ct st fuel a n m Ea Nn H1 Ap Hf. assert (Na : nonneg [n]) by (apply Forall_cons; [auto|constructor]).
  destruct (C147_number ct st fuel a m) as (m1 & E1 & N1 & O1); auto; [rewrite Ea; auto|rewrite Ea; cbn [zprod]; rewrite Z.mul_1_r; auto|].
  destruct (C147_index a n [] m) as (m2 & E2 & B2 & O2); auto. destruct (C147_iota a n m) as (m3 & E3 & B3 & O3); auto.
  exists m1, m2, m3. split; [auto|]. split; [auto|]. split; [auto|]. rewrite Ea in *. intros q.
  assert (D : (exists k, 0 <= k < n /\ q = vplace a [k]) \/ forall j, inshape j [n] -> q <> vplace a j).
  { destruct (in_dec Z.eq_dec q (map (fun k => vplace a [k]) (zrange n))) as [I|I]; [left|right].
    - apply in_map_iff in I as (k & <- & Hk). apply in_zrange in Hk. eauto.
    - intros j Hj E. apply in1e in Hj as (k & -> & Hk). apply I. apply in_map_iff. exists k. split; [auto|]. apply in_zrange. auto. }
  destruct D as [(k & Hk & ->)|D]; [|rewrite O1, O2, O3 by auto; auto]. assert (Ik : inshape [k] [n]) by (constructor; [lia|constructor]).
  rewrite B2, B3 by auto. rewrite (N1 (map (fun k => [k]) (zrange n)) (Z.to_nat k) [k]); [cbn [nth]; split; f_equal; lia|auto using row_major_1|].
  apply nth_one; auto.
Qed.
End Number.

Section Count.
Context {X W : Type}.
Lemma range_starts : forall C (e : expr X W) s, wf e -> shape_is e s -> exists it, stl_begin (lift (C := C) e) = Some it /\
  forall f fuel w, (length (indices s) < fuel)%nat -> stl_for fuel f it w = each (fun j => x <- element (lift e) j ;; f x) (indices s) w.
Proof.
  intros C e s We Se. assert (Wl : wf (lift (C := C) e)) by (apply lift_wf; auto). assert (Sl : shape_is (lift (C := C) e) s). { destruct Se as (L & S). split; [rewrite lift_axes; auto|]. rewrite lift_axes. intros k Hk. rewrite lift_lens. auto. }
  destruct (C11_stl_range _ _ _ _ (indices s) Wl Sl (row_major_indices _)) as (_ & R). destruct (stl_begin (lift e)) as [it|] eqn:Es.
  - exists it. split; [auto|]. intros f fuel w L. destruct (R f fuel w L) as (it' & E1 & E2). injection E1 as <-. auto.
  - destruct (shape_is_shape _ s Wl Sl) as (_ & V). unfold stl_begin in Es. rewrite V in Es. discriminate.
Qed.
Lemma count_fold : forall (b : list Z -> bool) l c, fold_left (fun c j => if b j then c + 1 else c) l c = c + Z.of_nat (length (filter b l)).
Proof. intros b l. induction l as [|j l IH]; intros c; cbn [fold_left filter]; [cbn; lia|]. rewrite IH. destruct (b j); cbn [length]; lia. Qed.
(* count_if(range(e), p) is how many elements have p *)
Theorem C147_count : forall (e : expr X W) s js p (b : list Z -> bool) fuel w, wf e -> shape_is e s -> row_major s js -> (length js < fuel)%nat ->
  (forall j, inshape j s -> exists v, element e j w = Ok v w /\ p v w = Ok (b j) w) ->
  count_if p fuel e w = Ok (Z.of_nat (length (filter b js))) w.
Proof.
  intros e s js p b fuel w We Se Rj Hf H. apply row_major_unique in Rj. subst js. unfold count_if. destruct (range_starts Z e s We Se) as (it & -> & R). rewrite R by auto.
  rewrite (each_fold _ _ _ _ (fun j c => if b j then c + 1 else c) w).
  - cbn [fst snd]. rewrite count_fold. reflexivity.
  - intros j c Hj. apply in_indices in Hj. destruct (H j Hj) as (v & E1 & E2). exists tt. unfold bind, count_one, bind. rewrite lift_element. unfold lift_op. cbn [fst snd]. rewrite E1. cbn [fst snd]. rewrite E2. reflexivity.
Qed.
End Count.

Section Fold.
Context {T : Type}.
Notation ex := (expr (val T) (mem T)).
(* std::accumulate(begin(e), end(e), c) *)
Theorem C147_accumulate : forall add fuel (e : ex) c s js x (m : mem T), wf e -> shape_is e s -> row_major s js -> reads e s m x -> (length js < fuel)%nat -> std_accumulate add fuel e c m = Ok (fold_left add (map x js) c) m.
Proof.
  intros add fuel e c s js x m We Se Rj Re Hf. apply row_major_unique in Rj. subst js. unfold std_accumulate, expr_range. destruct (range_starts T e s We Se) as (it & -> & R). cbn [range_for]. rewrite R by auto.
  rewrite (each_fold _ _ _ _ (fun j c => add c (x j)) m).
  - cbn [fst snd]. rewrite fold_left_map. reflexivity.
  - intros j c' Hj. apply in_indices in Hj. destruct (Re j Hj) as (v & E1 & E2). exists tt. unfold bind. rewrite lift_element. unfold lift_op. cbn [fst snd]. rewrite E1. rewrite (rdl_value _ _ _ _ _ E2). reflexivity.
Qed.
(* is the same as sum(e), if there are any elements (cf C31) *)
Theorem C147_sum : forall fixed z add zero fuel (e : ex) s x (m : mem T), zclean z -> wf e -> shape_is e s -> nonneg s -> reads e s m x -> (exists j, inshape j s) -> (Z.to_nat (zprod s) < fuel)%nat ->
  sum fixed z add zero e m = std_accumulate add fuel e zero m.
Proof.
  intros fixed z add zero fuel e s x m Hz We Se Ns Re Ne Hf. pose proof (indices_count s Ns). rewrite (C147_accumulate add fuel e zero s (indices s) x m); auto using row_major_indices; [|lia]. apply (C31_sum_partial T add zero e s); auto using row_major_indices.
Qed.
End Fold.

Section Read.
Context {T : Type}.
Notation ex := (expr (val T) (mem T)).
(* count(range(e), true) *)
Theorem C147_true : forall tob fuel (e : ex) s js x (m : mem T), wf e -> shape_is e s -> row_major s js -> reads_bool tob e s m x -> (length js < fuel)%nat ->
  count_true tob fuel e m = Ok (Z.of_nat (length (filter x js))) m.
Proof. intros tob fuel e s js x m We Se Rj Re Hf. apply (C147_count e s); auto. intros j Hj. destruct (Re j Hj) as (v & E1 & E2). exists v. split; [auto|]. apply rdb_truth. auto. Qed.

(* the cells of rank n of a where some element is zero *)
Theorem C147_cells : forall fixed z tob eqb zero fuel n a s t js has (m : mem T), zclean z -> vshape a = s ++ t -> length t = n -> nonneg (s ++ t) -> row_major s js -> (length js < fuel)%nat ->
  (forall j, inshape j s -> (has j = true <-> exists k, inshape k t /\ eqb (m (vplace a (j ++ k))) zero = true)) ->
  cells_with fixed z tob eqb zero fuel n a m = Ok (Z.of_nat (length (filter has js))) m.
Proof.
  intros fixed z tob eqb zero fuel n a s t js has m Hz Ea Ln Na Rj Hf Hh. apply Forall_app in Na as (Ns & Nt). unfold cells_with.
  assert (La : (vrank a - n)%nat = length s) by (rewrite vrank_shape, Ea, app_length; lia).
  assert (Fa : map len (firstn (length s) (vdv a)) = s). { rewrite <- firstn_map. change (map len (vdv a)) with (vshape a). rewrite Ea, firstn_app, Nat.sub_diag, firstn_O, app_nil_r. apply firstn_all. }
  assert (Ok : Forall (fun d => oklen (len d)) (firstn (length s) (vdv a))). { apply Forall_forall. intros d Hd. left. unfold nonneg in Ns. rewrite Forall_forall in Ns. apply Ns. rewrite <- Fa. apply in_map. auto. }
  apply (C147_count _ s); auto.
  - unfold itern. rewrite La. cbn [wf]. split; [rewrite <- La; unfold vrank; lia|]. auto.
  - unfold itern. rewrite La. split; [reflexivity|]. cbn [axes leaf_lens]. intros k Hk. replace (k <? length s)%nat with true by (symmetry; apply Nat.ltb_lt; auto).
    assert (Ek : len (nth k (vdv a) dim0) = nth k s 0). { rewrite <- (map_nth len). change (map len (vdv a)) with (vshape a). rewrite Ea, app_nth1 by auto. apply nth_indep. auto. }
    rewrite Ek. split; [|split; [left; auto|constructor; [auto|constructor]]]. unfold nonneg in Ns. rewrite Forall_forall in Ns. apply Ns, nth_In. auto.
  - intros j Hj. exists (inl (cell_of a (length s) j)). split.
    + unfold itern. rewrite La. cbn [element]. unfold ret, cell_of. rewrite (firstn_all2 j) by (rewrite (inshape_length _ _ Hj); lia). reflexivity.
    + assert (Ec := cell_of_shape a s t j Ea). destruct (view_shape (T := T) _ _ Ec Nt) as (Wc & Sc).
      destruct (C08_any T tob (cmp eqb (viter (cell_of a (length s) j)) (Scalar (VT zero))) t m (fun k => eqb (m (vplace (cell_of a (length s) j) k)) zero) fixed z) as (b & E & Hb); auto.
      * apply wf_map; [discriminate|]. apply Forall_cons; [auto|]. apply Forall_cons; [exact I|constructor].
      * apply joint_shape_map. apply (joint_cover _ _ _ (viter (cell_of a (length s) j))); [left; auto|auto|]. apply Forall_cons; [apply inner_whole; auto|]. apply Forall_cons; [apply inner_scalar|constructor].
      * apply (cmp_reads tob eqb _ _ t m (fun k => m (vplace (cell_of a (length s) j) k)) (fun _ => zero)).
        -- intros k Hk. exists (VRef (vplace (cell_of a (length s) j) k)). rewrite viter_element, vrank_shape, Ec, whole_in by auto. auto.
        -- intros k Hk. exists (VT zero). auto.
      * rewrite E. f_equal. apply eq_true_iff_eq. rewrite Hb, (Hh j Hj). split; intros (k & Hk & K); exists k; (split; [auto|]); rewrite (cell_of_place a s t j k) in * by auto; auto.
Qed.
End Read.

Lemma ones_fold : forall (x : list Z -> bool) l c, fold_left Z.add (map (fun j => if x j then 1 else 0) l) c = fold_left (fun c j => if x j then c + 1 else c) l c.
Proof. intros x l. induction l as [|j l IH]; intros c; cbn [map fold_left]; [reflexivity|]. rewrite IH. f_equal. destruct (x j); lia. Qed.
(* sum(cast<int>(e)) is the same, if there are any elements *)
Theorem C147_sum_true : forall fixed z tob fuel (e : expr (val Z) (mem Z)) s x m, zclean z -> wf e -> shape_is e s -> nonneg s -> reads_bool tob e s m x -> (exists j, inshape j s) -> (Z.to_nat (zprod s) < fuel)%nat ->
  sum_true fixed z tob e m = count_true tob fuel e m.
Proof.
  intros fixed z tob fuel e s x m Hz We Se Ns Re Ne Hf. pose proof (indices_count s Ns). rewrite (C147_true tob fuel e s (indices s) x m); auto using row_major_indices; [|lia]. unfold sum_true.
  rewrite (C31_sum_partial Z Z.add 0 _ s (indices s) m (fun j => if x j then 1 else 0)); auto using row_major_indices.
  - f_equal. replace (Z.of_nat _) with (0 + Z.of_nat (length (filter x (indices s)))) by lia. rewrite <- count_fold. apply ones_fold.
  - apply wf_map; [discriminate|]. auto.
  - apply joint_shape_map. apply joint_shape_1. auto.
  - intros j Hj. destruct (Re j Hj) as (v & E1 & E2). exists (VT (if x j then 1 else 0)). split; [|reflexivity]. cbn [element map in_order]. rewrite E1. cbn [op1]. unfold bind. rewrite (rdb_truth _ _ _ _ E2). reflexivity.
Qed.

(* Examples. a is 2x3 with steps 1, 2 (a transpose) from 0; b is 3x2 with steps -3, 1 from 110; c is a container of 6 at 200. *)
Definition ra_ := Vw [Dim 2 1; Dim 3 2] 0.
Definition rb_ := Vw [Dim 3 (-3); Dim 2 1] 110.
Definition rc_ := Vw [Dim 6 1] 200.
Definition rm_ : mem Z := fun p => p * p - 3.
Definition rlook {A} (r : out (mem Z) A) (ps : list Z) : option (list Z) := match r with Ok _ m => Some (map m ps) | _ => None end.
Example C146_hyp : nonneg (vshape ra_) /\ nonneg (vshape rb_) /\ Spec_Mat.separate (vplace rb_) (vshape rb_) /\ P_Cells.separate rb_ ra_ /\ zprod (vshape ra_) = zprod (vshape rb_) /\ (c_order (vdv rc_) true = true) /\
  Spec_Mat.separate (vplace rc_) (vshape rc_) /\ P_Cells.separate rc_ ra_ /\ Spec_Mat.separate (vplace ra_) (vshape ra_).
Proof.
  split; [repeat constructor; discriminate|]. split; [repeat constructor; discriminate|]. cbv [vshape ra_ rb_ rc_ vdv map len].
  split; [|split; [|split; [reflexivity|split; [reflexivity|split; [|split]]]]].
  - intros i j Hi Hj E. apply in2e in Hi as (i1 & i2 & -> & H1 & H2). apply in2e in Hj as (j1 & j2 & -> & H3 & H4). unfold vplace in E. cbn [vcp vdv place step] in E. assert (i1 = j1) by lia. assert (i2 = j2) by lia. subst. auto.
  - intros i j Hi Hj E. cbv [vshape vdv map len] in Hi, Hj. apply in2e in Hi as (i1 & i2 & -> & H1 & H2). apply in2e in Hj as (j1 & j2 & -> & H3 & H4). unfold vplace in E. cbn [vcp vdv place step] in E. lia.
  - intros i j Hi Hj E. apply in1e in Hi as (i1 & -> & H1). apply in1e in Hj as (j1 & -> & H3). unfold vplace in E. cbn [vcp vdv place step] in E. f_equal. lia.
  - intros i j Hi Hj E. cbv [vshape vdv map len] in Hi, Hj. apply in1e in Hi as (i1 & -> & H1). apply in2e in Hj as (j1 & j2 & -> & H3 & H4). unfold vplace in E. cbn [vcp vdv place step] in E. lia.
  - intros i j Hi Hj E. apply in2e in Hi as (i1 & i2 & -> & H1 & H2). apply in2e in Hj as (j1 & j2 & -> & H3 & H4). unfold vplace in E. cbn [vcp vdv place step] in E. assert (i1 = j1) by lia. assert (i2 = j2) by lia. subst. auto.
Qed.
Example C146_ex : rlook (ravel_view false false false 7 ra_ rb_ rm_) [110; 111; 107; 108; 104; 105; 109] = Some [-3; 1; 13; -2; 6; 22; 109 * 109 - 3] /\
  rlook (ravel_view true false true 7 ra_ rc_ rm_) [200; 201; 202; 203; 204; 205; 206] = Some [-3; 1; 13; -2; 6; 22; 206 * 206 - 3] /\
  rlook (ravel_view false false true 7 (Vw [Dim 2 2; Dim 2 1] 0) rc_ rm_) [0] = None.
Proof. vm_compute. auto. Qed.
(* examples/read-me.cc:284 *)
Definition plus_outer : expr (val Z) (mem Z) := Map (op2 (fun u v => x <- rd u ;; y <- rd v ;; ret (VT (x + y)))) [Cell [Dim 2 1] 1 VRef 0; Reframe (Cell [Dim 3 1] 1 VRef 10) [1%nat]].
Example C146_ma120 : rlook (ravel_expr true 7 plus_outer (Vw [Dim 3 2; Dim 2 1] 20) (fun p => if p =? 0 then 10 else if p =? 1 then 20 else p - 9)) [20; 21; 22; 23; 24; 25] = Some [11; 12; 13; 21; 22; 23].
Proof. vm_compute. reflexivity. Qed.
Example C147_ex : rlook (number (fun i => i) false false 7 ra_ rm_) [0; 2; 4; 1; 3; 5; 6] = Some [0; 1; 2; 3; 4; 5; 33].
Proof. vm_compute. reflexivity. Qed.
(* examples/read-me.cc:265-270 *)
Definition rd_ := Vw [Dim 3 3; Dim 3 1] 0.
Definition rdm_ : mem Z := fun p => nth (Z.to_nat p) [3; 0; 0; 4; 5; 6; 0; 5; 6] 0.
Example C147_ma118 : let gt3 := cmp Z.ltb (Scalar (VT 3)) (viter rd_) in
  std_accumulate Z.add 10 (viter rd_) 0 rdm_ = Ok 29 rdm_ /\ sum false [] Z.add 0 (viter rd_) rdm_ = Ok 29 rdm_ /\ count_true (fun _ => false) 10 gt3 rdm_ = Ok 5 rdm_ /\ sum_true false [] (fun _ => false) gt3 rdm_ = Ok 5 rdm_ /\
  cells_with false [] (fun _ => false) Z.eqb 0 4 1 rd_ rdm_ = Ok 2 rdm_.
Proof. vm_compute. auto. Qed.

Print Assumptions C146_view.
Print Assumptions C146_array.
Print Assumptions C146_expr.
Print Assumptions C147_number.
Print Assumptions C147_ravel.
Print Assumptions C147_index.
Print Assumptions C147_iota.
Print Assumptions C147_same.
Print Assumptions C147_count.
Print Assumptions C147_accumulate.
Print Assumptions C147_sum.
Print Assumptions C147_true.
Print Assumptions C147_cells.
Print Assumptions C147_sum_true.
