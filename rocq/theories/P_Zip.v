(* Properties of pack() as a destination: C136. *)
From Coq Require Import ZArith List Lia Bool Arith.
From Verif Require Import Spec M_Base M_Expr M_Ply L_Spec L_Expr Spec_Ply L_Ply Spec_Expr L_Agree L_Run M_Val Spec_Val L_Val P_Reduce M_View L_View Spec_View P_View M_Slice Spec_Slice L_Slice P_Slice M_Frame Spec_Frame L_Frame P_Frame M_Mat Spec_Mat P_Mat M_Cells P_Cells M_Stencil P_Stencil P_Outer M_Newton P_Newton M_Zip.
Import ListNotations.
Open Scope Z_scope.

(* ---- statement ---- *)

(* no two elements of these arrays, all of shape s, are at the same place *)
Definition all_apart (ds : list view) (s : list Z) : Prop :=
  forall k k' d d' i j, nth_error ds k = Some d -> nth_error ds k' = Some d' -> inshape i s -> inshape j s -> vplace d i = vplace d' j -> k = k' /\ i = j.
(* p isn't a place of the elements of ds at the indices in P *)
Definition not_in (ds : list view) (P : list Z -> Prop) (p : Z) : Prop := forall k d i, nth_error ds k = Some d -> P i -> p <> vplace d i.
(* m' is m, except for the elements of ds before j *)
Definition before (ds : list view) (s j : list Z) {T} (m m' : mem T) : Prop := forall p, not_in ds (fun i => inshape i s /\ lexlt i j) p -> m' p = m p.
(* element j of array k has become x k j, and the rest of the memory is the same *)
Definition tuple_filled {T} (ds : list view) (s : list Z) (x : nat -> list Z -> T) (m m' : mem T) : Prop :=
  (forall k d j, nth_error ds k = Some d -> inshape j s -> m' (vplace d j) = x k j) /\ forall p, not_in ds (fun i => inshape i s) p -> m' p = m p.

(* ---- proof ---- *)

Section Zip.
Context {T : Type}.
Notation ex := (expr (val T) (mem T)).

Lemma tups_rank : forall e : ex, rank (tups e) = rank e.
Proof. induction e using expr_ind2; cbn [tups rank]; auto; f_equal; rewrite map_map; apply map_ext_in; intros; rewrite Forall_forall in H; auto. Qed.
Lemma tups_wf : forall e : ex, wf e -> wf (tups e).
Proof.
  induction e using expr_ind2; cbn [tups wf]; intros; auto.
  - rewrite tups_rank. tauto.
  - destruct H0 as (Hn & Hw). split; [destruct t; [contradiction|discriminate]|]. apply wf_Forall in Hw. apply wf_Forall.
    rewrite Forall_forall in *. intros x Hx. apply in_map_iff in Hx. destruct Hx as (y & <- & Hy). auto.
  - destruct H0 as (Hn & Hw). split; [destruct t; [contradiction|discriminate]|]. apply wf_Forall in Hw. apply wf_Forall.
    rewrite Forall_forall in *. intros x Hx. apply in_map_iff in Hx. destruct Hx as (y & <- & Hy). auto.
Qed.
Lemma tups_axes : forall e : ex, axes (tups e) = axes e.
Proof. induction e using expr_ind2; cbn [tups axes]; auto; induction H; cbn; auto. Qed.
Lemma tups_lens : forall (e : ex) k, leaf_lens (tups e) k = leaf_lens e k.
Proof.
  induction e using expr_ind2; cbn [tups leaf_lens]; intros; auto.
  - apply flat_map_ext. auto.
  - induction H; cbn; auto. rewrite H, IHForall. auto.
  - induction H; cbn; auto. rewrite H, IHForall. auto.
Qed.
Lemma concat_single : forall A (l : list A), concat (map (fun v => [v]) l) = l.
Proof. induction l; cbn; congruence. Qed.
Lemma tups_element : forall (e : ex) j w, element (tups e) j w = okr (element e j w) (fun v => [v]).
Proof.
  induction e using expr_ind2; intros; cbn [tups element]; auto.
  - assert (HF : forall w, in_order (map (fun a => element a j) (map tups t)) w =
      match in_order (map (fun a => element a j) t) w with Ok l w' => Ok (map (fun v => [v]) l) w' | Fail w' => Fail w' | Undef => Undef end).
    { clear w. induction H; intros w; cbn; auto. rewrite H. unfold okr. destruct (element x j w); auto. rewrite IHForall.
      destruct (in_order (map (fun a => element a j) l) w0); auto. }
    rewrite HF. destruct (in_order (map (fun a => element a j) t) w) as [l w'|w'|]; auto. unfold bind. rewrite concat_single. unfold okr. destruct (op l w'); auto.
  - destruct t as [|a t]; [reflexivity|]. inversion H as [|? ? H2 H3]; subst. cbn [map]. rewrite H2. unfold okr. destruct (element a j w) as [v w'|w'|]; auto.
    destruct (0 <=? sel v); auto. rewrite map_map. clear H H2. revert H3. generalize (Z.to_nat (sel v)). induction t; intros.
    + destruct n; auto.
    + inversion H3; subst. destruct n; cbn [map nth_error].
      * rewrite H1. unfold okr. auto.
      * apply IHt; auto.
Qed.
Lemma tups_inner : forall (e : ex) s, inner (T:=T) e s -> inner (T:=T) (tups e) s.
Proof. intros e s (H1 & H2). split; [rewrite tups_axes; auto|]. intros k. rewrite tups_lens. apply H2. Qed.
Lemma tups_shape : forall (e : ex) s, shape_is e s -> shape_is (tups e) s.
Proof. intros e s (H1 & H2). split; [rewrite tups_axes; auto|]. intros k. rewrite tups_lens, tups_axes. apply H2. Qed.

(* the arguments give vs, without changes to the memory *)
Lemma tups_args : forall (es : list ex) vs j m, Forall2 (fun e v => element e j m = Ok v m) es vs -> in_order (map (fun a => element a j) (map tups es)) m = Ok (map (fun v => [v]) vs) m.
Proof.
  intros es vs j m F. induction F as [|e v es vs H F IH]; cbn [map in_order]; [reflexivity|]. unfold bind. rewrite tups_element, H. cbn [okr]. rewrite IH. reflexivity.
Qed.
Lemma rd_all_values : forall vs xs (m : mem T), Forall2 (fun v x => value_of v m = Some x) vs xs -> rd_all vs m = Ok (map VT xs) m.
Proof. intros vs xs m F. induction F as [|v x vs xs H F IH]; cbn [rd_all map]; [reflexivity|]. unfold bind. rewrite (rd_value _ _ x) by auto. rewrite IH. reflexivity. Qed.

Lemma put_values : forall ps (xs : list T) m, length ps = length xs -> NoDup ps -> exists m', put_tuple (map VRef ps) (map VT xs) m = Ok [] m' /\
  (forall k p x, nth_error ps k = Some p -> nth_error xs k = Some x -> m' p = x) /\ forall p, ~ In p ps -> m' p = m p.
Proof.
  induction ps as [|p ps IH]; intros [|x xs] m L N; try discriminate; cbn [map put_tuple].
  - exists m. split; [reflexivity|]. split; [intros [|k]; discriminate|auto].
  - inversion N as [|? ? N1 N2]; subst. destruct (IH xs (wr p x m)) as (m' & E & V & O); auto. exists m'. split; [exact E|]. split.
    + intros [|k] q y; cbn [nth_error]; intros Hq Hy; [|eauto]. inversion Hq; inversion Hy; subst. rewrite O by auto. unfold wr. rewrite Z.eqb_refl. reflexivity.
    + intros q Hq. rewrite O by (intros I; apply Hq; right; auto). unfold wr. destruct (Z.eqb_spec q p) as [->|]; [exfalso; apply Hq; left; auto|auto].
Qed.

Variables (fixed : bool) (z : list zt).
Hypothesis Hz : zclean z.

Lemma refs_shape : forall (ds : list view) s, ds <> [] -> Forall (fun d => vshape d = s) ds -> nonneg s -> wf (@pack_refs T (map viter ds)) /\ shape_is (@pack_refs T (map viter ds)) s.
Proof.
  intros ds s Hd F Hn. assert (A : forall d, In d ds -> wf (@viter T d) /\ shape_is (@viter T d) s).
  { intros d Hi. rewrite Forall_forall in F. apply view_shape; auto. }
  unfold pack_refs. split.
  - apply wf_map; [destruct ds; [contradiction|discriminate]|]. rewrite map_map. apply Forall_forall. intros e He. apply in_map_iff in He as (d & <- & Hi). apply tups_wf, A; auto.
  - apply joint_shape_map. destruct ds as [|d ds]; [contradiction|]. apply (joint_cover _ _ _ (tups (viter d))); [left; reflexivity|apply tups_shape, A; left; auto|].
    apply Forall_forall. intros e He. rewrite map_map in He. apply in_map_iff in He as (d' & <- & Hi). destruct (A d' Hi). apply tups_inner, inner_whole; auto.
Qed.
Lemma refs_element : forall (ds : list view) s j (m : mem T), Forall (fun d => vshape d = s) ds -> inshape j s -> element (pack_refs (map viter ds)) j m = Ok (map VRef (map (fun d => vplace d j) ds)) m.
Proof.
  intros ds s j m F Hj. unfold pack_refs. cbn [element]. rewrite (tups_args (map viter ds) (map VRef (map (fun d => vplace d j) ds))).
  - rewrite concat_single. reflexivity.
  - rewrite map_map. induction F as [|d ds H F IH]; cbn [map]; [constructor|]. constructor; [|auto]. rewrite viter_element, vrank_shape, H, whole_in by auto. reflexivity.
Qed.
Lemma apart_nodup : forall (ds : list view) s j, all_apart ds s -> inshape j s -> NoDup (map (fun d => vplace d j) ds).
Proof.
  intros ds s j A Hj. apply NoDup_nth_error. intros k k' Hk E. rewrite !nth_error_map in E. rewrite map_length in Hk.
  destruct (nth_error ds k) as [d|] eqn:Ek; [|apply nth_error_None in Ek; lia]. destruct (nth_error ds k') as [d'|] eqn:Ek'; [|discriminate]. cbn in E. inversion E.
  destruct (A k k' d d' j j) as (-> & _); auto.
Qed.

(* the general step: whatever the source, its tuples are assigned as values *)
Lemma fill_by : forall (ds : list view) s (e : expr (list (val T)) (mem T)) x m, ds <> [] -> Forall (fun d => vshape d = s) ds -> nonneg s -> all_apart ds s -> wf e -> inner (T:=T) e s ->
  (forall j m1, inshape j s -> before ds s j m m1 -> exists r m2, element e j m1 = Ok r m1 /\ put_tuple (map VRef (map (fun d => vplace d j) ds)) r m1 = Ok [] m2 /\
    (forall k d, nth_error ds k = Some d -> m2 (vplace d j) = x k j) /\ forall p, not_in ds (fun i => i = j) p -> m2 p = m1 p) ->
  exists m', assign_tuples fixed z (pack_refs (map viter ds)) e m = Ok None m' /\ tuple_filled ds s x m m'.
Proof.
  intros ds s e x m Hd F Hn A We Ne H. destruct (refs_shape ds s Hd F Hn) as (Wd & Sd). unfold assign_tuples. set (op := fun xs : list (list (val T)) => match xs with [l; r] => put_tuple l r | _ => undef end).
  rewrite (ply_spec _ _ _ no_stop fixed z (Map op [pack_refs (map viter ds); e]) s (indices s)); auto using row_major_indices.
  - destruct (each_inv _ _ (element (Map op [pack_refs (map viter ds); e]))
      (fun l m1 => (forall k d j, nth_error ds k = Some d -> In j l -> m1 (vplace d j) = x k j) /\ forall p, not_in ds (fun j => In j l) p -> m1 p = m p) (indices s) [] m) as (m' & E & V & O).
    + split; [intros ? ? ? _ []|auto].
    + cbn [app]. intros l j l' m1 El (V & O). destruct (row_major_split _ _ _ _ _ (row_major_indices s) El) as (Hj & Hl).
      destruct (H j m1 Hj) as (r & m2 & E1 & E2 & V2 & O2). { intros p Hp. apply O. intros k d i Hk Hi. apply Hl in Hi. apply (Hp k d i Hk Hi). }
      exists [], m2. split; [|split].
      * cbn [element map]. rewrite (in_order_2 _ _ _ _ _ (map VRef (map (fun d => vplace d j) ds)) m1 r m1); [exact E2|apply (refs_element ds s); auto|exact E1].
      * intros k d i Hk Hi. apply in_app_iff in Hi as [Hi|[<-|[]]]; [|auto]. rewrite O2; [auto|]. intros k' d' i' Hk' -> Eq. apply Hl in Hi as (Hi & Hlt). destruct (A k k' d d' i j) as (_ & ->); auto. apply (lexlt_irrefl _ Hlt).
      * intros p Hp. rewrite O2; [apply O|]; intros k d i Hk Hi; apply (Hp k d i Hk); apply in_app_iff; [left; auto|right; left; auto].
    + exists m'. rewrite visit_each, E. split; [reflexivity|]. split.
      * intros k d j Hk Hj. apply V; auto. apply in_indices; auto.
      * intros p Hp. apply O. intros k d j Hk Hj. apply (Hp k d j Hk). apply in_indices; auto.
  - apply wf_map; [discriminate|]. constructor; auto.
  - apply joint_shape_map. apply (joint_cover _ _ _ (pack_refs (map viter ds))); [left; auto|auto|]. constructor; [apply inner_whole; auto|]. constructor; auto.
Qed.

(* pack<std::tuple<T & ...>>(ds ...) = pack<std::tuple<T ...>>(es ...). The es may use the elements of ds that haven't been assigned to, among them those of the same index. *)
Theorem C136_assign : forall (ds : list view) (es : list ex) s x m, ds <> [] -> Forall (fun d => vshape d = s) ds -> nonneg s -> all_apart ds s ->
  length es = length ds -> Forall (fun e => wf e /\ inner (T:=T) e s) es ->
  (forall k e j m1, nth_error es k = Some e -> inshape j s -> before ds s j m m1 -> exists v, element e j m1 = Ok v m1 /\ value_of v m1 = Some (x k j)) ->
  exists m', assign_tuples fixed z (pack_refs (map viter ds)) (pack_vals es) m = Ok None m' /\ tuple_filled ds s x m m'.
Proof.
  intros ds es s x m Hd F Hn A L Fe Hx. assert (He : es <> []) by (destruct es; [destruct ds; [contradiction|discriminate]|discriminate]). rewrite Forall_forall in Fe. apply fill_by; auto.
  - apply wf_map; [destruct es; [contradiction|discriminate]|]. apply Forall_forall. intros e Hi. apply in_map_iff in Hi as (e' & <- & Hi). apply tups_wf, Fe; auto.
  - apply inner_map. apply Forall_forall. intros e Hi. apply in_map_iff in Hi as (e' & <- & Hi). apply tups_inner, Fe; auto.
  - intros j m1 Hj B. assert (G : exists vs, Forall2 (fun e v => element e j m1 = Ok v m1) es vs /\ Forall2 (fun v y => value_of v m1 = Some y) vs (map (fun k => x k j) (seq 0 (length es)))).
    { assert (Hx' : forall k e, nth_error es k = Some e -> exists v, element e j m1 = Ok v m1 /\ value_of v m1 = Some (x (0 + k)%nat j)) by (intros; apply (Hx k e); auto). revert Hx'. generalize 0%nat as o. clear. induction es as [|e es IH]; intros o H; cbn [length seq map].
      - exists []. split; constructor.
      - destruct (H 0%nat e eq_refl) as (v & E1 & E2). rewrite Nat.add_0_r in E2. destruct (IH (S o)) as (vs & I1 & I2).
        + intros k e' Hk. destruct (H (S k) e' Hk) as (v' & ? & ?). exists v'. rewrite Nat.add_succ_r in *. auto.
        + exists (v :: vs). split; constructor; auto. }
    destruct G as (vs & G1 & G2). destruct (put_values (map (fun d => vplace d j) ds) (map (fun k => x k j) (seq 0 (length es))) m1) as (m2 & E & V & O).
    + rewrite !map_length, seq_length. auto.
    + apply (apart_nodup ds s); auto.
    + exists (map VT (map (fun k => x k j) (seq 0 (length es)))), m2. split; [|split; [exact E|split]].
      * unfold pack_vals. cbn [element]. rewrite (tups_args es vs j m1 G1), concat_single. apply rd_all_values; auto.
      * intros k d Hk. apply (V k).
        -- rewrite nth_error_map, Hk. reflexivity.
        -- rewrite nth_error_map. assert (k < length es)%nat by (rewrite L; apply nth_error_Some; congruence). rewrite (nth_error_nth' _ 0%nat) by (rewrite seq_length; auto). rewrite seq_nth by auto. reflexivity.
      * intros p Hp. apply O. intros Hi. apply in_map_iff in Hi as (d & Eq & Hi). apply In_nth_error in Hi as (k & Hk). apply (Hp k d j Hk eq_refl). auto.
Qed.

(* The arrays of the source are those of the destination in any other order, or with repetitions. *)
Theorem C136_permute : forall (ds : list view) (ks : list nat) s (m : mem T), ds <> [] -> Forall (fun d => vshape d = s) ds -> nonneg s -> all_apart ds s ->
  length ks = length ds -> Forall (fun k => (k < length ds)%nat) ks ->
  exists m', assign_tuples fixed z (pack_refs (map viter ds)) (pack_vals (map (fun k => viter (nth k ds (Vw [] 0))) ks)) m = Ok None m' /\
    tuple_filled ds s (fun k j => m (vplace (nth (nth k ks 0%nat) ds (Vw [] 0)) j)) m m'.
Proof.
  intros ds ks s m Hd F Hn A L Fk. rewrite Forall_forall in F, Fk. apply C136_assign; auto; try (apply Forall_forall; auto).
  - rewrite map_length. auto.
  - intros e He. apply in_map_iff in He as (k & <- & Hk). destruct (view_shape (T:=T) (nth k ds (Vw [] 0)) s) as (W & S); auto. { apply F. apply nth_In. auto. } split; [auto|]. apply inner_whole; auto.
  - intros k e j m1 Hk Hj B. rewrite nth_error_map in Hk. destruct (nth_error ks k) as [k'|] eqn:Ek; [|discriminate]. cbn in Hk. inversion Hk; subst e. assert (Hk' : (k' < length ds)%nat) by (apply Fk; apply (nth_error_In ks k); auto).
    set (d := nth k' ds (Vw [] 0)). assert (Sd : vshape d = s) by (apply F, nth_In; auto). exists (VRef (vplace d j)). rewrite viter_element, vrank_shape, Sd, whole_in by auto. split; [reflexivity|].
    cbn [value_of]. rewrite (nth_error_nth ks k 0%nat Ek). fold d. f_equal. apply B. intros k2 d2 i Hk2 (Hi & Hlt) Eq.
    assert (Ed : nth_error ds k' = Some d) by (apply nth_error_nth'; auto). destruct (A k' k2 d d2 j i Ed Hk2 Hj Hi Eq) as (_ & ->). apply (lexlt_irrefl _ Hlt).
Qed.
Corollary C136_swap : forall (a b : view) (m : mem T), vshape a = vshape b -> nonneg (vshape a) -> all_apart [a; b] (vshape a) ->
  exists m', assign_tuples fixed z (pack_refs [viter a; viter b]) (pack_vals [viter b; viter a]) m = Ok None m' /\
    (forall j, inshape j (vshape a) -> m' (vplace a j) = m (vplace b j) /\ m' (vplace b j) = m (vplace a j)) /\ forall p, not_in [a; b] (fun j => inshape j (vshape a)) p -> m' p = m p.
Proof.
  intros a b m E Hn A. destruct (C136_permute [a; b] [1; 0]%nat (vshape a) m) as (m' & E1 & V & O); auto; try discriminate.
  { constructor; [cbn; lia|]. constructor; [cbn; lia|constructor]. }
  exists m'. split; [exact E1|]. split; [|exact O]. intros j Hj. split; [apply (V 0%nat a)|apply (V 1%nat b)]; auto.
Qed.

(* With references on both sides it's not the same: the second assignment sees the result of the first. *)
Theorem C136_refs : forall (a b : view) (m : mem T), vshape a = vshape b -> nonneg (vshape a) -> all_apart [a; b] (vshape a) ->
  exists m', assign_tuples fixed z (pack_refs [viter a; viter b]) (pack_refs [viter b; viter a]) m = Ok None m' /\
    (forall j, inshape j (vshape a) -> m' (vplace a j) = m (vplace b j) /\ m' (vplace b j) = m (vplace b j)) /\ forall p, not_in [a; b] (fun j => inshape j (vshape a)) p -> m' p = m p.
Proof.
  intros a b m E Hn A. set (s := vshape a) in *. assert (F : Forall (fun d => vshape d = s) [b; a]) by (constructor; [auto|]; constructor; [auto|constructor]).
  destruct (refs_shape [b; a] s) as (We & Se); auto; [discriminate|].
  destruct (fill_by [a; b] s (pack_refs (map viter [b; a])) (fun _ j => m (vplace b j)) m) as (m' & E1 & V & O); auto; try discriminate.
  - apply inner_whole; auto.
  - intros j m1 Hj B. assert (Nab : vplace a j <> vplace b j) by (intros Eq; destruct (A 0%nat 1%nat a b j j); auto; discriminate).
    assert (Eb : m1 (vplace b j) = m (vplace b j)). { apply B. intros k d i Hk (Hi & Hlt) Eq. destruct (A 1%nat k b d j i) as (_ & ->); auto. apply (lexlt_irrefl _ Hlt). }
    eexists. eexists. split; [apply (refs_element [b; a] s); auto|]. split; [reflexivity|]. unfold wr. split.
    + intros [|[|k]] d Hk; cbn [nth_error] in Hk; [| |destruct k; discriminate]; inversion Hk; subst d.
      * destruct (Z.eqb_spec (vplace a j) (vplace b j)); [contradiction|]. rewrite Z.eqb_refl. exact Eb.
      * rewrite !Z.eqb_refl. exact Eb.
    + intros p Hp. destruct (Z.eqb_spec p (vplace b j)) as [->|]; [exfalso; apply (Hp 1%nat b j); auto|]. destruct (Z.eqb_spec p (vplace a j)) as [->|]; [exfalso; apply (Hp 0%nat a j); auto|auto].
  - exists m'. split; [exact E1|]. split; [|exact O]. intros j Hj. split; [apply (V 0%nat a)|apply (V 1%nat b)]; auto.
Qed.
End Zip.

(* two matrices, one of them by columns *)
Example ex_zip : let a := Vw [Dim 2 2; Dim 2 1] 0 in let b := Vw [Dim 2 1; Dim 2 2] 10 in
  vshape a = vshape b /\ nonneg (vshape a) /\ all_apart [a; b] (vshape a) /\
  map (fun e => match assign_tuples false z_init (pack_refs [viter a; viter b]) e (fun p => p) with Ok _ m' => map m' [0; 1; 2; 3; 4; 9; 10; 11; 12; 13; 14] | _ => [] end)
    [pack_vals [viter b; viter a]; pack_refs [viter b; viter a]; pack_vals [viter a; Scalar (VT 7)]] =
  [[10; 12; 11; 13; 4; 9; 0; 2; 1; 3; 14]; [10; 12; 11; 13; 4; 9; 10; 11; 12; 13; 14]; [0; 1; 2; 3; 4; 9; 7; 7; 7; 7; 14]].
Proof.
  cbv zeta. split; [reflexivity|]. split; [repeat (apply Forall_cons; [cbn; lia|]); constructor|]. split; [|vm_compute; reflexivity].
  intros k k' d d' i j Hk Hk' Hi Hj. cbv [vshape vdv map len] in Hi, Hj. apply P_Mat.in2e in Hi as (i1 & i2 & -> & I1 & I2). apply P_Mat.in2e in Hj as (j1 & j2 & -> & J1 & J2).
  destruct k as [|[|[|k]]], k' as [|[|[|k']]]; cbn [nth_error] in Hk, Hk'; try discriminate; inversion Hk; inversion Hk'; subst; unfold vplace; cbn [vcp vdv place step]; intros; split; auto; try lia; f_equal; try lia; f_equal; lia.
Qed.

Print Assumptions C136_assign. Print Assumptions C136_permute. Print Assumptions C136_swap. Print Assumptions C136_refs.
