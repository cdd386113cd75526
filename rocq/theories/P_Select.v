(* Property C143: the ways to select elements by lists of indices in bench/bench-from.cc. *)
From Coq Require Import ZArith List Lia Bool.
From Verif Require Import Spec L_Spec Spec_Ply Spec_Expr M_Base M_Expr M_Ply M_Val Spec_Val L_Expr L_Agree L_Ply L_Stl L_Run L_Val P_Reduce M_View Spec_View L_View P_View M_Slice Spec_Slice L_Slice P_Slice M_Frame Spec_Frame L_Frame P_Frame M_Mat Spec_Mat P_Mat P_Ext P_Outer M_Cells P_Cells P_Ref M_Stencil P_Stencil P_Roll M_Gemm M_Assembly P_Accum P_Indirect M_Select.
Import ListNotations.
Open Scope Z_scope.

(* the index that the arrays in ls have at j *)
Definition chosen (ls : list (list Z)) (j : list Z) : list Z := each2 (fun l i => nth (Z.to_nat i) l 0) ls j.
Definition sizes (ls : list (list Z)) : list Z := map (fun l => Z.of_nat (length l)) ls.
(* b has the elements of a at the indices in ls; nothing else changed *)
Definition selected {T} (b a : view) (ls : list (list Z)) (m m' : mem T) : Prop := becomes b (fun j => m (vplace a (chosen ls j))) m m'.
(* j0 is the first index, in row-major order, at which that isn't an index of a *)
Definition first_bad (a : view) (ls : list (list Z)) (j0 : list Z) : Prop := inshape j0 (sizes ls) /\ ~ inshape (chosen ls j0) (vshape a) /\ forall j, inshape j (sizes ls) -> lexlt j j0 -> inshape (chosen ls j) (vshape a).
(* the same as selected, but only up to j0 *)
Definition selected_to {T} (b a : view) (ls : list (list Z)) (j0 : list Z) (m m' : mem T) : Prop :=
  (forall j, inshape j (vshape b) -> (lexlt j j0 -> m' (vplace b j) = m (vplace a (chosen ls j))) /\ (~ lexlt j j0 -> m' (vplace b j) = m (vplace b j))) /\
  forall p, (forall j, inshape j (vshape b) -> p <> vplace b j) -> m' p = m p.

Section Select.
Context {T : Type}.
Variables (fixed : bool) (z : list zt).
Hypothesis Hz : zclean z.
Notation ex := (expr (val T) (mem T)).

(* ---- any traversal that copies one element for each index ---- *)
Definition copier {X} (get : list Z -> M (mem T) X) (b a : view) (ls : list (list Z)) : Prop :=
  (forall j m, inshape j (sizes ls) -> inshape (chosen ls j) (vshape a) -> exists u, get j m = Ok u (wr (vplace b j) (m (vplace a (chosen ls j))) m)) /\
  (forall j m, inshape j (sizes ls) -> ~ inshape (chosen ls j) (vshape a) -> get j m = Fail m).
Lemma copies_part : forall X (get : list Z -> M (mem T) X) b a ls js (m : mem T), copier get b a ls -> vshape b = sizes ls -> apart_at b -> P_Cells.separate b a ->
  (forall j, In j js -> inshape j (sizes ls) /\ inshape (chosen ls j) (vshape a)) ->
  exists m', each get js m = Ok tt m' /\ (forall j, In j js -> m' (vplace b j) = m (vplace a (chosen ls j))) /\ forall p, (forall j, In j js -> p <> vplace b j) -> m' p = m p.
Proof.
  intros X get b a ls js m (C1 & _) Eb Hb Hs Hj.
  destruct (each_scatter X get put (vplace b) (fun j => m (vplace a (chosen ls j))) js m []) with (m := m) as (m' & E & V); auto.
  - intros l1 j l2 m1 El Hm1. assert (Ij : In j js) by (rewrite El; apply in_or_app; right; left; auto). destruct (Hj j Ij) as (J1 & J2). destruct (C1 j m1 J1 J2) as (u & ->). exists u. do 2 f_equal. unfold put. apply Hm1.
    cbn [app]. intros j' Ij' E. symmetry in E. revert E. apply Hs; auto. rewrite Eb. apply Hj. rewrite El. apply in_or_app. auto.
  - exists m'. split; [exact E|]. split.
    + intros j Ij. rewrite V. apply (copied T js (fun j => m (vplace a (chosen ls j))) (vplace b)); auto. intros k Ik Ek. apply Hb in Ek; [subst; auto| |]; rewrite Eb; apply Hj; auto.
    + intros p Hp. rewrite V, filter_none; [reflexivity|]. intros j Ij. apply Z.eqb_neq. intros E0. apply (Hp j); auto.
Qed.
Lemma copies : forall X (get : list Z -> M (mem T) X) b a ls (m : mem T), copier get b a ls -> vshape b = sizes ls -> apart_at b -> P_Cells.separate b a ->
  (forall j, inshape j (sizes ls) -> inshape (chosen ls j) (vshape a)) -> exists m', each get (indices (sizes ls)) m = Ok tt m' /\ selected b a ls m m'.
Proof.
  intros X get b a ls m C Eb Hb Hs Hg. destruct (copies_part X get b a ls (indices (sizes ls)) m) as (m' & E & V & K); auto.
  { intros j Hj. apply in_indices in Hj. auto. }
  exists m'. split; [exact E|]. split; rewrite Eb.
  - intros j Hj. apply V, in_indices. auto.
  - intros p Hp. apply K. intros j Hj. apply Hp, in_indices. auto.
Qed.
Lemma split_at : forall s j0, inshape j0 s -> exists l1 l2, indices s = l1 ++ j0 :: l2 /\ forall j, In j l1 <-> inshape j s /\ lexlt j j0.
Proof.
  intros s j0 H. pose proof (row_major_indices s) as R. assert (I0 : In j0 (indices s)) by (apply in_indices; auto). apply in_split in I0 as (l1 & l2 & E). exists l1, l2. split; auto.
  intros j. destruct (row_major_split _ _ _ _ _ R E) as (_ & Q). apply Q.
Qed.
Lemma copies_stop : forall X (get : list Z -> M (mem T) X) b a ls j0 (m : mem T), copier get b a ls -> vshape b = sizes ls -> apart_at b -> P_Cells.separate b a ->
  first_bad a ls j0 -> exists m', each get (indices (sizes ls)) m = Fail m' /\ selected_to b a ls j0 m m'.
Proof.
  intros X get b a ls j0 m C Eb Hb Hs (B1 & B2 & B3). destruct (split_at _ _ B1) as (l1 & l2 & E & Hl).
  destruct (copies_part X get b a ls l1 m) as (m' & E1 & V & K); auto. { intros j Hj. apply Hl in Hj as (J1 & J2). auto. }
  exists m'. split.
  - rewrite E, each_app, E1. cbn [each]. rewrite (proj2 C j0 m' B1 B2). reflexivity.
  - split; rewrite Eb.
    + intros j Hj. split; intros L; [apply V, Hl; auto|]. apply K. intros k Hk Q. apply Hl in Hk as (K1 & K2). apply Hb in Q; try (rewrite Eb; auto). subst. auto.
    + intros p Hp. apply K. intros j Hj. apply Hp. apply Hl. auto.
Qed.

(* ---- loops ---- *)
Lemma loop_each_ : forall (f : Z -> M (mem T) (option unit)) (g : Z -> M (mem T) unit), (forall k m, f k m = finish (g k m)) ->
  forall n k m, loop_ n k f m = finish ((fix go (l : list Z) : M (mem T) unit := match l with [] => ret tt | x :: l' => fun w => match g x w with Ok _ w' => go l' w' | Fail w' => Fail w' | Undef => Undef end end) (map (fun i => k + Z.of_nat i) (seq 0 n)) m).
Proof.
  intros f g Hf n. induction n as [|n IH]; intros k m; [reflexivity|]. cbn [loop_ seq map]. unfold bind. rewrite Hf, Z.add_0_r. destruct (g k m) as [u w|w|]; cbn [finish]; auto.
  rewrite IH. do 2 f_equal. rewrite <- seq_shift, map_map. apply map_ext. intros i. lia.
Qed.
Lemma loops_each : forall (f : list Z -> M (mem T) (option unit)), (forall j m r m', f j m = Ok r m' -> r = None) ->
  forall ns ix m, loops ns ix f m = finish (each (fun j => f (ix ++ j)) (indices ns) m).
Proof.
  intros f Hf ns. induction ns as [|n ns IH]; intros ix m; cbn [loops indices].
  - cbn [each]. rewrite app_nil_r. destruct (f ix m) as [r w|w|] eqn:E; cbn [finish]; auto. rewrite (Hf _ _ _ _ E). reflexivity.
  - unfold loop. rewrite (loop_each_ _ (fun j => each (fun i => f ((ix ++ [j]) ++ i)) (indices ns)) (fun j m => IH (ix ++ [j]) m)). f_equal.
    unfold zrange. rewrite (map_ext (fun i => 0 + Z.of_nat i) Z.of_nat) by (intros; lia). generalize (map Z.of_nat (seq 0 (Z.to_nat n))) as l. clear. intros l. revert m. induction l as [|x l IHl]; intros m; [reflexivity|].
    cbn [flat_map]. rewrite each_app. replace (each (fun j => f (ix ++ j)) (map (cons x) (indices ns)) m) with (each (fun i => f ((ix ++ [x]) ++ i)) (indices ns) m).
    + destruct (each (fun i => f ((ix ++ [x]) ++ i)) (indices ns) m); auto.
    + clear. generalize (indices ns) as js. intros js. revert m. induction js as [|j js IH]; intros m; cbn [each map]; auto. rewrite <- app_assoc. cbn [app]. destruct (f (ix ++ x :: j) m); auto.
Qed.

Lemma entries_chosen : forall ls j, entries ls j = chosen ls j.
Proof. induction ls as [|l ls IH]; intros [|i j]; cbn; auto. unfold chosen in IH. rewrite IH. reflexivity. Qed.
Lemma chosen_length : forall ls j, length j = length ls -> length (chosen ls j) = length ls.
Proof. induction ls as [|l ls IH]; intros [|i j] H; cbn in *; auto; try discriminate. Qed.
Lemma sizes_length : forall ls, length (sizes ls) = length ls.
Proof. intros. apply map_length. Qed.
Lemma sizes_ok : forall ls, nonneg (sizes ls).
Proof. intros. apply Forall_forall. intros x H. apply in_map_iff in H as (l & <- & _). lia. Qed.
(* it's the same to say that of each array *)
Lemma chosen_in : forall ls s, Forall2 (fun l n => Forall (fun x => 0 <= x < n) l) ls s -> forall j, inshape j (sizes ls) -> inshape (chosen ls j) s.
Proof.
  induction 1 as [|l n ls s Hl F IH]; intros j Hj; inversion Hj as [|i ? j' ? Hi Hj']; subst; cbn; constructor.
  - rewrite Forall_forall in Hl. apply Hl, nth_In. lia.
  - apply IH; auto.
Qed.

(* ---- loop on scalar subscripts ---- *)
Lemma scalars_run : forall b a ls (m : mem T), vshape b = sizes ls -> length ls = vrank a -> nonneg (vshape a) -> 
  exists get : list Z -> M (mem T) (option unit), copier get b a ls /\ by_scalars b a ls m = finish (each get (indices (sizes ls)) m).
Proof.
  intros b a ls m Eb Ra Na. rewrite vrank_shape in Ra.
  exists (fun ix => onres (from a (map cidx (entries ls ix))) (fun r => onres (from b (map cidx ix)) (fun w m => Ok None (wr (vcp w) (m (vcp r)) m)))). split; [split|].
  - intros j m1 Hj Hc. rewrite entries_chosen, (all_indices a) by auto. cbn [onres]. rewrite (all_indices b) by (rewrite Eb; auto). cbn [onres vcp]. eauto.
  - intros j m1 Hj Hc. rewrite entries_chosen, (bad_indices a); auto. rewrite chosen_length; auto. apply inshape_length in Hj. rewrite sizes_length in Hj. auto.
  - unfold by_scalars. change (counts ls) with (sizes ls). apply loops_each. intros j m1 r m' E. destruct (from a _); try discriminate. cbn [onres] in E. destruct (from b _); try discriminate. cbn [onres] in E. congruence.
Qed.

(* ---- A(I, ...) ---- *)
Lemma iarray_holds : forall l, wf (iarray l : ex) /\ holds (iarray l : ex) ([Z.of_nat (length l)], fun j => nth (Z.to_nat (nth 0 j 0)) l 0).
Proof.
  intros l. split; [split; [cbn; lia|]; apply Forall_cons; [left; cbn [len]; lia|constructor]|]. split.
  - split; [reflexivity|]. intros k Hk. cbn in Hk. replace k with 0%nat by lia. cbn. split; [left; lia|]. split; [auto|]. apply Forall_cons; [auto|constructor].
  - intros j w Hj. cbn [fst] in Hj. inversion Hj as [|i ? ? ? Hi Hj']; subst. inversion Hj'; subst. cbn [element iarray firstn place step snd nth]. do 3 f_equal. lia.
Qed.
Lemma arrays_gather : forall ls s, length s = length ls -> let subs := map (fun _ => SArr) ls in let fs := map (fun l : list Z => ([Z.of_nat (length l)], fun j => nth (Z.to_nat (nth 0 j 0)) l 0)) ls in
  gathers_shape subs fs s (sizes ls) /\ (forall os, others subs s os -> os = []) /\ forall j, within j (sizes ls) -> gathers subs fs s j (chosen ls j).
Proof.
  induction ls as [|l ls IH]; intros [|n s] L; try discriminate; cbn [map length] in *.
  - split; [constructor|]. split; [intros os Ho; inversion Ho; auto|]. intros j Hj. inversion Hj; subst. constructor. reflexivity.
  - destruct (IH s ltac:(lia)) as (I1 & I2 & I3). cbn zeta. split; [apply (gsh_arr [Z.of_nat (length l)]); auto|]. split; [intros os Ho; inversion Ho; subst; auto|].
    intros j Hj. inversion Hj as [|i ? j' ? Hi Hj']; subst. exact (gat_arr [Z.of_nat (length l)] (fun j => nth (Z.to_nat (nth 0 j 0)) l 0) n [i] _ _ s j' (chosen ls j') (Forall2_cons _ _ Hi (Forall2_nil _)) (I3 j' Hj')).
Qed.
Lemma from_arrays : forall st a ls, ls <> [] -> length ls = vrank a -> nonneg (vshape a) -> exists e : ex, from_u st a (map (fun _ => SArr) ls) (map iarray ls) = Good e /\ wf e /\ shape_is e (sizes ls) /\
  forall j m, inshape j (sizes ls) -> (inshape (chosen ls j) (vshape a) -> element e j m = Ok (VRef (vplace a (chosen ls j))) m) /\ (~ inshape (chosen ls j) (vshape a) -> element e j m = Fail m).
Proof.
  intros st a ls Hn Ra Na. rewrite vrank_shape in Ra. set (fs := map (fun l : list Z => ([Z.of_nat (length l)], fun j => nth (Z.to_nat (nth 0 j 0)) l 0)) ls).
  destruct (arrays_gather ls (vshape a) (eq_sym Ra)) as (G1 & G2 & G3). fold fs in G1, G3.
  assert (O : Forall one_axis (map (fun _ : list Z => SArr) ls)) by (apply Forall_forall; intros x Hx; apply in_map_iff in Hx as (? & <- & _); exact I).
  assert (F : fits (vrank a) (map (fun _ => SArr) ls)) by (rewrite vrank_shape, <- Ra; unfold fits; clear; induction ls; cbn in *; lia).
  assert (R : one_rest (map (fun _ => SArr) ls)). { intros l1 l2 l3 E. assert (In (SDots None) (map (fun _ => SArr) ls)) by (rewrite E; apply in_or_app; right; left; reflexivity). apply in_map_iff in H. destruct H as (? & X & _). discriminate. }
  assert (Lg : legal (map (fun _ => SArr) ls) (vdv a)). { unfold vshape in Ra. rewrite map_length in Ra. revert Ra. generalize (vdv a). clear. induction ls; intros [|d dv] L; cbn in *; try discriminate; constructor. apply IHls. lia. }
  destruct (C27_gather T (mem T) st a (map (fun _ => SArr) ls) (map iarray ls) fs) as (Q & _); auto.
  { eapply Forall_impl; [|exact Na]. cbn. auto. } { apply Forall_forall. intros x Hx. apply in_map_iff in Hx as (l & <- & _). apply iarray_holds. }
  { unfold fs. clear. induction ls; cbn; constructor; auto. apply iarray_holds. } { destruct ls; [contradiction|discriminate]. }
  { unfold arrays. rewrite map_length. clear. induction ls; cbn; auto. }
  destruct (Q Lg) as (os & Oo & Gd & _). pose proof (G2 _ Oo). subst os.
  destruct Gd as (e & rs & E1 & E2 & E3 & E4 & E5); [right; auto|]. assert (rs = sizes ls) as -> by (eapply gathers_shape_fun; eauto).
  exists e. split; [exact E1|]. split; [exact E2|]. split; [apply shape_extents; split; auto; apply sizes_ok|].
  intros j m Hj. assert (Wj : within j (sizes ls)) by (apply inshape_within; auto using sizes_ok). destruct (E5 j (chosen ls j) m (G3 j Wj) Wj) as (V1 & V2). split.
  - intros Hc. apply V1, valid_in. auto.
  - intros Hc. apply V2. intros Hv. apply Hc. clear - Hv Na. unfold valid, vshape, inshape, nonneg in *. induction Hv as [|x d i dv Hx Hv IH]; cbn in *; inversion Na; subst; constructor; auto. unfold UNB in Hx. lia.
Qed.
Lemma arrays_run : forall st b a ls (m : mem T), ls <> [] -> vshape b = sizes ls -> length ls = vrank a -> nonneg (vshape a) ->
  exists get : list Z -> M (mem T) (val T), copier get b a ls /\ by_arrays fixed z st b a ls m = finish (each get (indices (sizes ls)) m).
Proof.
  intros st b a ls m Hn Eb Ra Na. destruct (from_arrays st a ls Hn Ra Na) as (e & E & We & Se & V). destruct (view_shape (T:=T) b _ Eb (sizes_ok ls)) as (Wb & Sb).
  exists (element (Map (assign_op put) [viter b; e])). split; [split|].
  - intros j m1 Hj Hc. exists VUnit. cbn [element map]. rewrite (in_order_2 _ _ _ _ _ (VRef (vplace b j)) m1 (VRef (vplace a (chosen ls j))) m1); [reflexivity| |apply V; auto].
    rewrite viter_element, vrank_shape, whole_in by (rewrite Eb; auto). reflexivity.
  - intros j m1 Hj Hc. cbn [element map in_order]. rewrite viter_element. cbv beta iota. rewrite (proj2 (V j m1 Hj) Hc). reflexivity.
  - unfold by_arrays. rewrite E. cbn [onres]. unfold assign. rewrite (ply_spec _ _ _ no_stop fixed z _ (sizes ls) (indices (sizes ls))); auto using row_major_indices.
    + apply visit_each.
    + apply wf_map; [discriminate|]. auto.
    + apply joint_shape_map. apply (joint_cover _ _ _ (viter b)); [left; auto|auto|]. apply Forall_cons; [apply inner_whole; auto|]. apply Forall_cons; [apply inner_whole; auto|constructor].
Qed.

(* ---- for_each ---- *)
Lemma each_run : forall b a l (m : mem T), vshape b = sizes [l] -> vrank a = 1%nat -> nonneg (vshape a) ->
  exists get : list Z -> M (mem T) (val T), copier get b a [l] /\ by_each fixed z b a l m = finish (each get (indices (sizes [l])) m).
Proof.
  intros b a l m Eb Ra Na. destruct (view_shape (T:=T) b _ Eb (sizes_ok [l])) as (Wb & Sb). destruct (iarray_holds l) as (Wi & Xi & Vi).
  assert (Ei : forall j (m1 : mem T), inshape j (sizes [l]) -> element (iarray l : ex) j m1 = Ok (VI (nth (Z.to_nat (nth 0 j 0)) l 0)) m1) by (intros j m1 Hj; apply Vi; cbn [fst]; apply inshape_within; [apply (sizes_ok [l])|exact Hj]).
  assert (Cj : forall j, inshape j (sizes [l]) -> [nth (Z.to_nat (nth 0 j 0)) l 0] = chosen [l] j) by (intros j Hj; inversion Hj as [|i ? j' ? Hi Hj']; subst; inversion Hj'; subst; reflexivity).
  assert (Eb1 : forall j (m1 : mem T), inshape j (sizes [l]) -> element (viter b : ex) j m1 = Ok (VRef (vplace b j)) m1) by (intros j m1 Hj; rewrite viter_element, vrank_shape, whole_in by (rewrite Eb; auto); reflexivity).
  exists (element (Map (copy_at a) [viter b; iarray l])). split; [split|].
  - intros j m1 Hj Hc. exists VUnit. cbn [element map]. rewrite (in_order_2 _ _ _ _ _ (VRef (vplace b j)) m1 (VI (nth (Z.to_nat (nth 0 j 0)) l 0)) m1) by (first [apply Eb1|apply Ei]; auto). cbn [copy_at].
    change [cidx (nth (Z.to_nat (nth 0 j 0)) l 0)] with (map cidx [nth (Z.to_nat (nth 0 j 0)) l 0]). rewrite (Cj j Hj), all_indices by auto. reflexivity.
  - intros j m1 Hj Hc. cbn [element map]. rewrite (in_order_2 _ _ _ _ _ (VRef (vplace b j)) m1 (VI (nth (Z.to_nat (nth 0 j 0)) l 0)) m1) by (first [apply Eb1|apply Ei]; auto). cbn [copy_at].
    change [cidx (nth (Z.to_nat (nth 0 j 0)) l 0)] with (map cidx [nth (Z.to_nat (nth 0 j 0)) l 0]). rewrite (Cj j Hj), bad_indices; auto. rewrite <- (Cj j Hj), <- vrank_shape, Ra. reflexivity.
  - unfold by_each. rewrite (ply_spec _ _ _ no_stop fixed z _ (sizes [l]) (indices (sizes [l]))); auto using row_major_indices.
    + apply visit_each.
    + apply wf_map; [discriminate|]. auto.
    + apply joint_shape_map. apply (joint_cover _ _ _ (viter b)); [left; auto|auto|]. apply Forall_cons; [apply inner_whole; auto|]. apply Forall_cons; [|constructor]. apply inner_whole; auto. apply shape_extents. split; auto. apply (sizes_ok [l]).
Qed.

(* ---- one axis at a time ---- *)
Lemma fromb_front : forall i dv bv pl, Forall2 (fun x d => 0 <= x < len d) i (firstn (length i) dv) -> fromb true (map cidx i) dv bv pl = Good (bv ++ skipn (length i) dv, pl + place (firstn (length i) dv) i).
Proof.
  induction i as [|x i IH]; intros dv bv pl H.
  - cbn [length firstn skipn map fromb place]. rewrite Z.add_0_r. reflexivity.
  - destruct dv as [|d dv]; [inversion H|]. cbn [length firstn] in H. inversion H as [|? ? ? ? Hx Hi]; subst. cbn [map cidx fromb length firstn skipn place]. unfold inside. replace ((0 <=? x) && (x <? len d))%bool with true by (symmetry; apply andb_true_iff; lia). cbn [orb].
    rewrite IH by auto. do 2 f_equal. ring.
Qed.
Lemma fromb_front_bad : forall i dv bv pl, nonneg (map len dv) -> (length i <= length dv)%nat -> ~ Forall2 (fun x d => 0 <= x < len d) i (firstn (length i) dv) -> fromb true (map cidx i) dv bv pl = Refused.
Proof.
  induction i as [|x i IH]; intros [|d dv] bv pl N L H; cbn in L; try lia; cbn [length firstn] in H; try (exfalso; apply H; constructor; fail).
  - cbn [map] in N. inversion N as [|? ? N1 N2]; subst. cbn [map cidx fromb]. unfold inside. replace (UNB =? len d) with false by (symmetry; apply Z.eqb_neq; unfold UNB; lia). cbn [andb]. rewrite orb_false_r.
    destruct (Z.leb_spec 0 x), (Z.ltb_spec x (len d)); cbn [andb]; auto. apply IH; [auto|lia|]. intros F. apply H. constructor; auto.
Qed.
Lemma cidx_plain : forall i n, (length i <= n)%nat -> Forall one_axis (map cidx i) /\ fits n (map cidx i) /\ (length (filter is_rest (map cidx i)) <= 1)%nat.
Proof.
  intros i n L. split; [apply Forall_forall; intros x Hx; apply in_map_iff in Hx; destruct Hx as (? & <- & _); exact I|]. split.
  - unfold fits. enough (total takes (map cidx i) = length i) by lia. clear. induction i; cbn; lia.
  - clear. induction i; cbn in *; lia.
Qed.
Lemma front_view : forall (a : view) s t i, vshape a = s ++ t -> inshape i s -> exists r, from a (map cidx i) = Good r /\ vshape r = t /\ forall k, vplace r k = vplace a (i ++ k).
Proof.
  intros [dv p] s t i E Hi. unfold vshape in *. cbn [vdv] in *. pose proof (inshape_length _ _ Hi) as Li. assert (Ld : (length i <= length dv)%nat) by (apply (f_equal (@length Z)) in E; rewrite map_length, app_length in E; lia).
  destruct (cidx_plain i (length dv) Ld) as (P1 & P2 & P3). assert (Es : map len (firstn (length i) dv) = s) by (rewrite <- firstn_map, E, Li, firstn_app, Nat.sub_diag, firstn_all, app_nil_r; auto).
  exists (Vw (skipn (length i) dv) (p + place (firstn (length i) dv) i)). split; [|split].
  - rewrite from_fromb; auto. cbn [vdv vcp]. rewrite fromb_front; [reflexivity|]. clear - Hi Es. rewrite <- Es in Hi. unfold inshape in Hi. revert Hi. generalize (firstn (length i) dv). clear. intros l. revert i. induction l; intros i H; inversion H; subst; constructor; auto.
  - cbn [vdv]. rewrite <- skipn_map, E, Li, skipn_app, Nat.sub_diag, skipn_all. reflexivity.
  - intros k. unfold vplace. cbn [vcp vdv]. rewrite <- (firstn_skipn (length i) dv) at 3. rewrite <- Z.add_assoc. f_equal. clear - Ld. revert dv Ld. induction i as [|x i IH]; intros [|d dv] L; cbn [length firstn skipn place app] in *; try lia. rewrite <- IH by lia. lia.
Qed.
Lemma front_bad : forall (a : view) s t i, vshape a = s ++ t -> nonneg (vshape a) -> length i = length s -> ~ inshape i s -> from a (map cidx i) = Refused.
Proof.
  intros [dv p] s t i E N Li Hi. unfold vshape in *. cbn [vdv] in *. assert (Ld : (length i <= length dv)%nat) by (apply (f_equal (@length Z)) in E; rewrite map_length, app_length in E; lia).
  destruct (cidx_plain i (length dv) Ld) as (P1 & P2 & P3). assert (Es : map len (firstn (length i) dv) = s) by (rewrite <- firstn_map, E, Li, firstn_app, Nat.sub_diag, firstn_all, app_nil_r; auto).
  rewrite from_fromb; auto. cbn [vdv vcp]. rewrite fromb_front_bad; auto. intros F. apply Hi. rewrite <- Es. clear - F. unfold inshape. revert F. generalize (firstn (length i) dv). intros l. revert i. induction l; intros i H; inversion H; subst; constructor; auto.
Qed.
Lemma chosen_app : forall l1 l2 j1 j2, length j1 = length l1 -> chosen (l1 ++ l2) (j1 ++ j2) = chosen l1 j1 ++ chosen l2 j2.
Proof. induction l1 as [|l l1 IH]; intros l2 [|i j1] j2 H; try discriminate; [reflexivity|]. unfold chosen in *. cbn in *. f_equal. apply IH. lia. Qed.
Lemma each_flat : forall X (get : list Z -> M (mem T) X) ks is m, each get (flat_map (fun i => map (app i) ks) is) m = each (fun i => each (fun k => get (i ++ k)) ks) is m.
Proof.
  intros X get ks is. induction is as [|i is IH]; intros m; [reflexivity|]. cbn [flat_map each]. rewrite each_app.
  replace (each get (map (app i) ks) m) with (each (fun k => get (i ++ k)) ks m) by (clear; revert m; induction ks as [|k ks IH]; intros m; cbn [each map]; auto; destruct (get (i ++ k) m); auto).
  destruct (each (fun k => get (i ++ k)) ks m); auto.
Qed.
Lemma inshape_parts : forall i k s t, length i = length s -> inshape (i ++ k) (s ++ t) -> inshape i s /\ inshape k t.
Proof.
  induction i as [|x i IH]; intros k [|n s] t L H; try discriminate; cbn [app length] in *; [split; [constructor|auto]|]. inversion H; subst. destruct (IH k s t) as (A & B); auto. split; auto. constructor; auto.
Qed.
Lemma each_same : forall X (f g : list Z -> M (mem T) X), (forall i m, f i m = g i m) -> forall is m, each f is m = each g is m.
Proof. intros X f g H is. induction is as [|i is IH]; intros m; [reflexivity|]. cbn [each]. rewrite H. destruct (g i m); auto. Qed.
Lemma loop_ext : forall (f g : Z -> M (mem T) (option unit)) n k, (forall i m, k <= i < k + Z.of_nat n -> f i m = g i m) -> forall m, loop_ n k f m = loop_ n k g m.
Proof. intros f g n. induction n as [|n IH]; intros k H m; [reflexivity|]. cbn [loop_]. unfold bind. rewrite H by lia. destruct (g k m); auto. apply IH. intros. apply H. lia. Qed.
Lemma loops_ext : forall (f g : list Z -> M (mem T) (option unit)) ns ix, (forall j m, inshape j ns -> f (ix ++ j) m = g (ix ++ j) m) -> forall m, loops ns ix f m = loops ns ix g m.
Proof.
  intros f g ns. induction ns as [|n ns IH]; intros ix H m; cbn [loops].
  - specialize (H [] m). rewrite app_nil_r in H. apply H. constructor.
  - unfold loop. apply loop_ext. intros i m1 Hi. apply IH. intros j m2 Hj. rewrite <- app_assoc. apply H. constructor; auto. lia.
Qed.
Lemma each_finish : forall (f : list Z -> M (mem T) (option unit)) (g : list Z -> M (mem T) unit) is, (forall i m, In i is -> f i m = finish (g i m)) -> forall m, each f is m = each g is m.
Proof. intros f g is H. induction is as [|i is IH]; intros m; [reflexivity|]. cbn [each]. rewrite H by (left; auto). destruct (g i m); cbn [finish]; auto. apply IH. intros. apply H. right; auto. Qed.
Lemma slices_run : forall st b a ls l s na (m : mem T), vshape b = sizes (ls ++ [l]) -> vshape a = s ++ [na] -> length s = length ls -> nonneg (vshape a) ->
  (l <> [] \/ forall i, inshape i (sizes ls) -> inshape (chosen ls i) s) ->
  exists get : list Z -> M (mem T) (val T), copier get b a (ls ++ [l]) /\ by_slices fixed z st b a ls l m = finish (each get (indices (sizes (ls ++ [l]))) m).
Proof.
  intros st b a ls l s na m Eb Ea Ls Na Hl. assert (Es : sizes (ls ++ [l]) = sizes ls ++ sizes [l]) by (unfold sizes; apply map_app). rewrite Es in Eb.
  assert (Nna : nonneg [na]) by (rewrite Ea in Na; unfold nonneg in Na; apply Forall_app in Na; tauto).
  set (body := fun i (f : view -> ex -> M (mem T) (val T)) => onres (from a (map cidx (chosen ls i))) (fun r => onres (from_u st r [SArr] [iarray l]) (fun e : ex => onres (from b (map cidx i)) (fun w => f w e)))).
  set (get := fun j => body (firstn (length ls) j) (fun w e => element (Map (assign_op put) [viter w; e]) (skipn (length ls) j))). exists get.
  assert (Pr : forall i, inshape i (sizes ls) -> inshape (chosen ls i) s -> exists r (e : ex) w, from a (map cidx (chosen ls i)) = Good r /\ from_u st r [SArr] [iarray l] = Good e /\ from b (map cidx i) = Good w /\ vshape w = sizes [l] /\ wf e /\ shape_is e (sizes [l]) /\
    (forall k, vplace w k = vplace b (i ++ k)) /\ forall k m1, inshape k (sizes [l]) -> (inshape (chosen [l] k) [na] -> element e k m1 = Ok (VRef (vplace a (chosen ls i ++ chosen [l] k))) m1) /\ (~ inshape (chosen [l] k) [na] -> element e k m1 = Fail m1)).
  { intros i Hi Hc. destruct (front_view a s [na] _ Ea Hc) as (r & R1 & R2 & R3). destruct (front_view b (sizes ls) (sizes [l]) _ Eb Hi) as (w & W1 & W2 & W3).
    destruct (from_arrays st r [l]) as (e & E1 & E2 & E3 & E4); [discriminate|rewrite vrank_shape, R2; reflexivity|rewrite R2; auto|].
    exists r, e, w. split; [auto|]. split; [exact E1|]. split; [auto|]. split; [auto|]. split; [auto|]. split; [auto|]. split; [auto|].
    intros k m1 Hk. destruct (E4 k m1 Hk) as (V1 & V2). rewrite R2 in V1, V2. rewrite <- R3. split; auto. }
  assert (Li : forall i, inshape i (sizes ls) -> length i = length ls) by (intros i Hi; rewrite (inshape_length _ _ Hi); apply sizes_length).
  assert (Sp : forall j, inshape j (sizes (ls ++ [l])) -> exists i k, j = i ++ k /\ inshape i (sizes ls) /\ inshape k (sizes [l])).
  { intros j Hj. rewrite Es in Hj. apply Forall2_app_inv_r in Hj as (i & k & ? & ? & ->). eauto. }
  assert (Gj : forall i k, inshape i (sizes ls) -> get (i ++ k) = body i (fun w e => element (Map (assign_op put) [viter w; e]) k)).
  { intros i k Hi. unfold get. rewrite firstn_app, skipn_app, (Li i Hi), Nat.sub_diag, <- (Li i Hi), firstn_all, skipn_all, app_nil_r. reflexivity. }
  assert (Bd : forall i f (m1 : mem T), inshape i (sizes ls) -> ~ inshape (chosen ls i) s -> body i f m1 = Fail m1).
  { intros i f m1 Hi Hc. unfold body. rewrite (front_bad a s [na]); auto. rewrite chosen_length, Ls; auto. }
  split; [split|].
  - intros j m1 Hj Hc. destruct (Sp j Hj) as (i & k & -> & Hi & Hk). rewrite chosen_app, Ea in Hc by auto. assert (Lc : length (chosen ls i) = length s) by (rewrite chosen_length, Ls; auto).
    apply inshape_parts in Hc; auto.
    destruct Hc as (Hc1 & Hc2). destruct (Pr i Hi Hc1) as (r & e & w & R1 & R2 & R3 & R4 & R5 & R6 & R7 & R8). exists VUnit. rewrite Gj by auto. unfold body. rewrite R1. cbn [onres]. rewrite R2. cbn [onres]. rewrite R3. cbn [onres].
    cbn [element map]. rewrite (in_order_2 _ _ _ _ _ (VRef (vplace w k)) m1 (VRef (vplace a (chosen ls i ++ chosen [l] k))) m1); [|rewrite viter_element, vrank_shape, whole_in by (rewrite R4; auto); reflexivity|apply R8; auto].
    rewrite R7, chosen_app by auto. reflexivity.
  - intros j m1 Hj Hc. destruct (Sp j Hj) as (i & k & -> & Hi & Hk). rewrite chosen_app, Ea in Hc by auto. rewrite Gj by auto. destruct (inshape_dec (chosen ls i) s) as [Hc1|Hc1]; [|apply Bd; auto].
    destruct (Pr i Hi Hc1) as (r & e & w & R1 & R2 & R3 & R4 & R5 & R6 & R7 & R8). unfold body. rewrite R1. cbn [onres]. rewrite R2. cbn [onres]. rewrite R3. cbn [onres]. cbn [element map in_order]. rewrite viter_element. cbv beta iota.
    rewrite (proj2 (R8 k m1 Hk)); [reflexivity|]. intros Hc2. apply Hc. apply Forall2_app; auto.
  - unfold by_slices. change (counts ls) with (sizes ls). set (row := fun i => each (fun k => get (i ++ k)) (indices (sizes [l]))).
    rewrite (loops_ext _ (fun i m => finish (row i m))).
    + rewrite loops_each by (intros j m1 r m' E; destruct (row j m1); cbn [finish] in E; congruence). f_equal. rewrite Es, indices_app, each_flat. apply each_finish. intros i m1 _. reflexivity.
    + intros i m1 Hi. cbn [app]. rewrite entries_chosen. unfold row. destruct (inshape_dec (chosen ls i) s) as [Hc1|Hc1].
      * destruct (Pr i Hi Hc1) as (r & e & w & R1 & R2 & R3 & R4 & R5 & R6 & R7 & R8). destruct (view_shape (T:=T) w _ R4 (sizes_ok [l])) as (Ww & Sw).
        rewrite (each_same _ _ (element (Map (assign_op put) [viter w; e]))) by (intros k m2; rewrite Gj by auto; unfold body; rewrite R1; cbn [onres]; rewrite R2; cbn [onres]; rewrite R3; reflexivity).
        rewrite R1. cbn [onres]. rewrite R2. cbn [onres]. rewrite R3. cbn [onres]. unfold assign. rewrite (ply_spec _ _ _ no_stop fixed z _ (sizes [l]) (indices (sizes [l]))); auto using row_major_indices.
        -- apply visit_each.
        -- apply wf_map; [discriminate|]. auto.
        -- apply joint_shape_map. apply (joint_cover _ _ _ (viter w)); [left; auto|auto|]. apply Forall_cons; [apply inner_whole; auto|]. apply Forall_cons; [apply inner_whole; auto|constructor].
      * destruct Hl as [Hl|Hl]; [|exfalso; apply Hc1; auto]. rewrite (front_bad a s [na]); auto; [|rewrite chosen_length, Ls; auto]. cbn [onres].
        assert (H0 : In [0] (indices (sizes [l]))) by (apply in_indices; constructor; [destruct l; [contradiction|cbn; lia]|constructor]).
        destruct (indices (sizes [l])) as [|k ks]; [contradiction|]. cbn [each]. rewrite Gj, Bd by auto. reflexivity.
Qed.

(* ---- raw memory ---- *)
(* the elements are one after the other in row-major order from the first, as in a new array *)
Definition in_rows (v : view) : Prop := forall j, inshape j (vshape v) -> vplace v j = vcp v + rm (vshape v) j.
Lemma offset_from : forall ns ix p, length ix = length ns -> fold_left (fun p nx => snd nx + fst nx * p) (combine ns ix) p = p * zprod ns + rm ns ix.
Proof.
  induction ns as [|n ns IH]; intros [|i ix] p L; try discriminate; cbn [combine fold_left rm]; [cbn; lia|]. rewrite IH by (cbn in L; lia). cbn [fst snd zprod fold_right]. change (fold_right Z.mul 1 ns) with (zprod ns). ring.
Qed.
Lemma offset_rm : forall ns ix, length ix = length ns -> offset ns ix = rm ns ix.
Proof. intros. unfold offset. rewrite offset_from by auto. lia. Qed.
Lemma pointer_run : forall b a ls (m : mem T), vshape b = sizes ls -> in_rows b -> in_rows a -> (forall j, inshape j (sizes ls) -> inshape (chosen ls j) (vshape a)) ->
  exists get : list Z -> M (mem T) unit, copier get b a ls /\ by_pointer (vcp b) (vcp a) (vshape a) ls m = finish (each get (indices (sizes ls)) m).
Proof.
  intros b a ls m Eb Rb Ra Hg. exists (fun j m => Ok tt (wr (vplace b j) (m (vplace a (chosen ls j))) m)). split; [split|].
  - intros. eauto.
  - intros j m1 Hj Hc. exfalso. auto.
  - unfold by_pointer. change (counts ls) with (sizes ls). rewrite (loops_ext _ (fun j m => Ok None (wr (vplace b j) (m (vplace a (chosen ls j))) m))).
    + rewrite loops_each by congruence. f_equal. apply each_finish. reflexivity.
    + intros j m1 Hj. cbn [app]. rewrite entries_chosen, !offset_rm by (apply inshape_length; auto). rewrite Rb, Ra, Eb by (rewrite ?Eb; auto). reflexivity.
Qed.

(* ---- the theorems ---- *)
Definition good (a : view) (ls : list (list Z)) : Prop := Forall2 (fun l n => Forall (fun x => 0 <= x < n) l) ls (vshape a).
(* a view of the memory to select to, with no elements in common with that to select from *)
Definition target (b a : view) (ls : list (list Z)) : Prop := vshape b = sizes ls /\ apart_at b /\ P_Cells.separate b a.
Lemma good_nonneg : forall a ls, good a ls -> vrank a = length ls.
Proof. intros a ls G. rewrite vrank_shape. unfold good in G. induction G; cbn; auto. Qed.

(* B = A(I, ...) *)
Theorem C143_arrays : forall st b a ls (m : mem T), ls <> [] -> target b a ls -> nonneg (vshape a) -> good a ls -> exists m', by_arrays fixed z st b a ls m = Ok None m' /\ selected b a ls m m'.
Proof.
  intros st b a ls m Hn (Eb & Hb & Hs) Na G. destruct (arrays_run st b a ls m) as (get & C & ->); auto using eq_sym, good_nonneg.
  destruct (copies _ get b a ls m) as (m' & -> & S); auto using (chosen_in _ _ G). exists m'. split; [reflexivity|auto].
Qed.
(* a loop of B(i, ...) = A(I(i), ...) *)
Theorem C143_scalars : forall b a ls (m : mem T), target b a ls -> nonneg (vshape a) -> good a ls -> exists m', by_scalars b a ls m = Ok None m' /\ selected b a ls m m'.
Proof.
  intros b a ls m (Eb & Hb & Hs) Na G. destruct (scalars_run b a ls m) as (get & C & ->); auto using eq_sym, good_nonneg.
  destruct (copies _ get b a ls m) as (m' & -> & S); auto using (chosen_in _ _ G). exists m'. split; [reflexivity|auto].
Qed.
(* for_each([&A](auto & b, auto i){ b = A(i); }, B, I) *)
Theorem C143_each : forall b a l (m : mem T), target b a [l] -> nonneg (vshape a) -> good a [l] -> exists m', by_each fixed z b a l m = Ok None m' /\ selected b a [l] m m'.
Proof.
  intros b a l m (Eb & Hb & Hs) Na G. destruct (each_run b a l m) as (get & C & ->); auto. { apply good_nonneg in G. auto. }
  destruct (copies _ get b a [l] m) as (m' & -> & S); auto using (chosen_in _ _ G). exists m'. split; [reflexivity|auto].
Qed.
Lemma last_axis : forall a (ls : list (list Z)) l, vrank a = length (ls ++ [l]) -> exists s na, vshape a = s ++ [na] /\ length s = length ls.
Proof.
  intros a ls l R. rewrite vrank_shape, app_length in R. cbn in R. destruct (exists_last (l := vshape a)) as (s & na & E); [intros E; rewrite E in R; cbn in R; lia|]. exists s, na. split; auto. rewrite E, app_length in R. cbn in R. lia.
Qed.
(* a loop of B(i, ...) = A(I(i), ...)(J) *)
Theorem C143_slices : forall st b a ls l (m : mem T), target b a (ls ++ [l]) -> nonneg (vshape a) -> good a (ls ++ [l]) -> exists m', by_slices fixed z st b a ls l m = Ok None m' /\ selected b a (ls ++ [l]) m m'.
Proof.
  intros st b a ls l m (Eb & Hb & Hs) Na G. destruct (last_axis a ls l (good_nonneg _ _ G)) as (s & na & Ea & Ls). destruct (slices_run st b a ls l s na m) as (get & C & ->); auto.
  { right. apply chosen_in. unfold good in G. rewrite Ea in G. apply Forall2_app_inv_l in G as (t1 & t2 & G1 & G2 & E). assert (L1 : length t1 = length s) by (rewrite Ls; symmetry; clear - G1; induction G1; cbn; auto).
    assert (s = t1) as ->; [|auto]. clear - E L1. revert t1 L1 E. induction s as [|n s IH]; intros [|n' t1] L E; try discriminate; auto. cbn in *. injection E as -> E. f_equal. auto. }
  destruct (copies _ get b a (ls ++ [l]) m) as (m' & -> & S); auto using (chosen_in _ _ G). exists m'. split; [reflexivity|auto].
Qed.
(* the loop on raw memory *)
Theorem C143_pointer : forall b a ls (m : mem T), target b a ls -> in_rows b -> in_rows a -> good a ls -> exists m', by_pointer (vcp b) (vcp a) (vshape a) ls m = Ok None m' /\ selected b a ls m m'.
Proof.
  intros b a ls m (Eb & Hb & Hs) Rb Ra G. destruct (pointer_run b a ls m) as (get & C & ->); auto using (chosen_in _ _ G).
  destruct (copies _ get b a ls m) as (m' & -> & S); auto using (chosen_in _ _ G). exists m'. split; [reflexivity|auto].
Qed.
(* Both say the same of the memory: the results are the same in all of them. *)
Theorem C143_same : forall b a ls (m m1 m2 : mem T), selected b a ls m m1 -> selected b a ls m m2 -> nonneg (vshape b) -> forall p, m1 p = m2 p.
Proof.
  intros b a ls m m1 m2 (A1 & A2) (B1 & B2) Nb p. destruct (Exists_dec (fun j => p = vplace b j) (indices (vshape b)) (fun j => Z.eq_dec p (vplace b j))) as [E|E].
  - apply Exists_exists in E as (j & Hj & ->). apply in_indices in Hj. rewrite A1, B1; auto.
  - rewrite A2, B2; auto; intros j Hj E1; apply E, Exists_exists; exists j; split; auto; apply in_indices; auto.
Qed.

(* With an index that isn't in range: those that use the library stop there. *)
Theorem C143_arrays_refused : forall st b a ls j0 (m : mem T), ls <> [] -> target b a ls -> nonneg (vshape a) -> vrank a = length ls -> first_bad a ls j0 -> exists m', by_arrays fixed z st b a ls m = Fail m' /\ selected_to b a ls j0 m m'.
Proof.
  intros st b a ls j0 m Hn (Eb & Hb & Hs) Na R B. destruct (arrays_run st b a ls m) as (get & C & ->); auto. destruct (copies_stop _ get b a ls j0 m) as (m' & -> & S); auto. exists m'. split; [reflexivity|auto].
Qed.
Theorem C143_scalars_refused : forall b a ls j0 (m : mem T), target b a ls -> nonneg (vshape a) -> vrank a = length ls -> first_bad a ls j0 -> exists m', by_scalars b a ls m = Fail m' /\ selected_to b a ls j0 m m'.
Proof.
  intros b a ls j0 m (Eb & Hb & Hs) Na R B. destruct (scalars_run b a ls m) as (get & C & ->); auto. destruct (copies_stop _ get b a ls j0 m) as (m' & -> & S); auto. exists m'. split; [reflexivity|auto].
Qed.
Theorem C143_each_refused : forall b a l j0 (m : mem T), target b a [l] -> nonneg (vshape a) -> vrank a = 1%nat -> first_bad a [l] j0 -> exists m', by_each fixed z b a l m = Fail m' /\ selected_to b a [l] j0 m m'.
Proof.
  intros b a l j0 m (Eb & Hb & Hs) Na R B. destruct (each_run b a l m) as (get & C & ->); auto. destruct (copies_stop _ get b a [l] j0 m) as (m' & -> & S); auto. exists m'. split; [reflexivity|auto].
Qed.
Theorem C143_slices_refused : forall st b a ls l j0 (m : mem T), target b a (ls ++ [l]) -> nonneg (vshape a) -> vrank a = length (ls ++ [l]) -> first_bad a (ls ++ [l]) j0 -> exists m', by_slices fixed z st b a ls l m = Fail m' /\ selected_to b a (ls ++ [l]) j0 m m'.
Proof.
  intros st b a ls l j0 m (Eb & Hb & Hs) Na R B. destruct (last_axis a ls l R) as (s & na & Ea & Ls). destruct (slices_run st b a ls l s na m) as (get & C & ->); auto.
  { left. intros ->. destruct B as (B & _). unfold sizes in B. rewrite map_app in B. apply Forall2_app_inv_r in B as (? & k & _ & B & _). cbn in B. inversion B; subst. lia. }
  destruct (copies_stop _ get b a (ls ++ [l]) j0 m) as (m' & -> & S); auto. exists m'. split; [reflexivity|auto].
Qed.
(* that on raw memory doesn't stop, and reads and writes other places *)
Theorem C143_pointer_unchecked : forall bp ap na ls (m : mem T), exists m', by_pointer bp ap na ls m = Ok None m'.
Proof.
  intros bp ap na ls m. unfold by_pointer. rewrite loops_each by congruence. generalize (indices (counts ls)) as js. intros js. revert m. induction js as [|j js IH]; intros m; [exists m; reflexivity|]. cbn [each].
  specialize (IH (wr (bp + offset (counts ls) ([] ++ j)) (m (ap + offset na (entries ls ([] ++ j)))) m)). apply IH.
Qed.
(* a new array is like that *)
Theorem C143_new_in_rows : forall s dv n p, nonneg s -> filldimv s = Some (dv, n) -> in_rows (Vw dv p).
Proof.
  intros s dv n p Ns E j Hj. destruct (filldimv_some s Ns) as (dv' & E1 & E2 & E3). rewrite E1 in E. injection E as -> _. unfold vshape in *. cbn [vdv] in *. rewrite E2 in *. unfold vplace. cbn [vcp vdv]. rewrite E3; auto. apply inshape_length; auto.
Qed.
End Select.

(* A: 3x4 at 100, B: 2x3 at 10 *)
Module Example_143.
Definition a := Vw [Dim 3 4; Dim 4 1] 100.
Definition b := Vw [Dim 2 3; Dim 3 1] 10.
Definition i := [2; 0].
Definition j := [1; 1; 3].
Definition m : mem Z := fun p => p.
Definition got (r : out (mem Z) (option unit)) := match r with Ok None m' => Some (map m' [9; 10; 11; 12; 13; 14; 15; 16; 101]) | _ => None end.
Definition stop (r : out (mem Z) (option unit)) := match r with Fail m' => Some (map m' [9; 10; 11; 12; 13; 14; 15; 16; 101]) | _ => None end.
Example arrays : got (by_arrays true [] false b a [i; j] m) = Some [9; 109; 109; 111; 101; 101; 103; 16; 101].
Proof. vm_compute. reflexivity. Qed.
Example scalars : got (by_scalars b a [i; j] m) = Some [9; 109; 109; 111; 101; 101; 103; 16; 101].
Proof. vm_compute. reflexivity. Qed.
Example slices : got (by_slices true [] false b a [i] j m) = Some [9; 109; 109; 111; 101; 101; 103; 16; 101].
Proof. vm_compute. reflexivity. Qed.
Example pointer : got (by_pointer 10 100 [3; 4] [i; j] m) = Some [9; 109; 109; 111; 101; 101; 103; 16; 101].
Proof. vm_compute. reflexivity. Qed.
Example by_one : got (by_each true [] (Vw [Dim 3 1] 10) (Vw [Dim 4 1] 100) j m) = Some [9; 101; 101; 103; 13; 14; 15; 16; 101].
Proof. vm_compute. reflexivity. Qed.
Lemma b_target : target b a [i; j].
Proof.
  split; [reflexivity|]. split.
  - intros x y Hx Hy. cbv [vshape b vdv map len] in Hx, Hy. apply in2e in Hx as (x1 & x2 & -> & ? & ?). apply in2e in Hy as (y1 & y2 & -> & ? & ?). unfold vplace. cbn [b vcp vdv place step]. intros E. assert (x1 = y1 /\ x2 = y2) as (-> & ->) by lia. reflexivity.
  - intros x y Hx Hy. cbv [vshape a b vdv map len] in Hx, Hy. apply in2e in Hx as (x1 & x2 & -> & ? & ?). apply in2e in Hy as (y1 & y2 & -> & ? & ?). unfold vplace. cbn [a b vcp vdv place step]. lia.
Qed.
Lemma a_good : good a [i; j].
Proof. repeat constructor; cbn; lia. Qed.
Lemma rows : in_rows a /\ in_rows b.
Proof.
  split; intros x Hx; cbv [vshape a b vdv map len] in Hx; apply in2e in Hx as (x1 & x2 & -> & ? & ?); unfold vplace; cbn; lia.
Qed.
(* the second index of the second array isn't in range *)
Definition k := [1; 4; 3].
Lemma k_bad : first_bad a [i; k] [0; 1].
Proof.
  split; [repeat constructor; cbn; lia|]. split.
  - intros H. change (inshape [2; 4] [3; 4]) in H. apply in2e in H as (x1 & x2 & E & ? & ?). injection E as <- <-. lia.
  - intros x Hx L. cbv [sizes i k map length] in Hx. apply in2e in Hx as (x1 & x2 & -> & ? & ?). assert (x1 = 0 /\ x2 = 0) as (-> & ->) by (inversion L as [|? ? ? L1]; subst; [lia|inversion L1 as [|? ? ? L2]; subst; [lia|inversion L2]]). repeat constructor; cbn; lia.
Qed.
Example arrays_stop : stop (by_arrays true [] false b a [i; k] m) = Some [9; 109; 11; 12; 13; 14; 15; 16; 101].
Proof. vm_compute. reflexivity. Qed.
Example slices_stop : stop (by_slices true [] false b a [i] k m) = Some [9; 109; 11; 12; 13; 14; 15; 16; 101].
Proof. vm_compute. reflexivity. Qed.
Example pointer_goes_on : got (by_pointer 10 100 [3; 4] [i; k] m) = Some [9; 109; 112; 111; 101; 104; 103; 16; 101].
Proof. vm_compute. reflexivity. Qed.
(* With no indices in the last array there is nothing to copy, but the loop on slices is stopped by an index of the others that isn't in range. *)
Example empty_slices : got (by_arrays true [] false (Vw [Dim 1 0; Dim 0 1] 10) a [[7]; []] m) = Some [9; 10; 11; 12; 13; 14; 15; 16; 101] /\ stop (by_slices true [] false (Vw [Dim 1 0; Dim 0 1] 10) a [[7]] [] m) = Some [9; 10; 11; 12; 13; 14; 15; 16; 101].
Proof. vm_compute. auto. Qed.
End Example_143.

Print Assumptions C143_arrays.
Print Assumptions C143_slices.
Print Assumptions C143_slices_refused.
Print Assumptions C143_pointer.
