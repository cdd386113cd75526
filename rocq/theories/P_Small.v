(* Construction of small arrays, and of arrays from pointers: C110. *)
From Coq Require Import ZArith List Lia Bool.
From Verif Require Import Spec M_Base M_Expr M_Ply L_Spec L_Expr Spec_Ply L_Ply Spec_Expr L_Agree L_Run M_Val Spec_Val L_Val P_Reduce M_View L_View Spec_View P_View M_Mat Spec_Mat P_Mat P_Ref M_Cell P_Cell M_Fill Spec_Fill P_Fill M_Cells P_Cells M_Small.
Import ListNotations.
Open Scope Z_scope.

Section Small.
Context {T : Type}.
Variables (fixed fi : bool) (z zi : list zt).
Hypothesis Hz : zclean z.
Hypothesis Hzi : zclean zi.

Lemma dense_spec : forall s, nonneg s -> map len (dense s) = s /\ dimv_size (dense s) = zprod s /\ (forall j, inshape j s -> place (dense s) j = rm s j).
Proof.
  intros s H. destruct (filldimv_some s H) as (dv & E1 & E2 & E3). unfold dense. rewrite E1. split; [auto|]. split; [rewrite dimv_size_prod, E2; auto; rewrite E2; auto|]. intros j Hj. apply E3. apply inshape_length; auto.
Qed.
Lemma dense_cons : forall n s, nonneg (n :: s) -> dense (n :: s) = Dim n (zprod s) :: dense s.
Proof.
  intros n s H. inversion H; subst. destruct (filldimv_some s H3) as (dv & E1 & E2 & E3). unfold dense. cbn [filldimv]. rewrite E1. destruct (Z.geb_spec n 0); [reflexivity|lia].
Qed.

Lemma nonneg_first : forall k l, nonneg l -> nonneg (firstn k l).
Proof. intros k l H. unfold nonneg in *. rewrite <- (firstn_skipn k l) in H. apply Forall_app in H. tauto. Qed.
Lemma view_same : forall v n s r (m : mem T), nonneg (vshape v) -> nonneg (n :: s) -> (1 <= vrank v)%nat ->
  view_nested fixed fi z zi v n s r m = assign_cells fixed fi z zi (fun _ x => x) v (-1) (Vw (dense (n :: s)) r) (-1) m.
Proof.
  intros v n s r m Nv Nn Hr. unfold view_nested, assign_cells. rewrite (icell_frame _ v (-1) 1); [|unfold frame_axes; lia].
  destruct (dense_spec (n :: s) Nn) as (D1 & D2 & D3). assert (L : length (dense (n :: s)) = S (length s)) by (rewrite <- (map_length len), D1; reflexivity).
  rewrite (icell_frame _ (Vw (dense (n :: s)) r) (-1) 1); [|unfold frame_axes, vrank; cbn [vdv]; lia]. cbn [vdv vcp].
  pose proof (proj1 (Forall_cons_iff _ _ _) Nn) as (Hn & Ns). destruct (dense_spec s Ns) as (E1 & E2 & E3). rewrite E2, (dense_cons n s Nn).
  apply ply_same; auto.
  - apply wf_map; [discriminate|]. constructor; [|constructor; [|auto]]; cbn [wf length].
    + split; [unfold vrank in Hr; lia|]. apply ok_lens. rewrite <- firstn_map. apply nonneg_first. exact Nv.
    + split; [lia|]. constructor; [left; exact Hn|constructor].
  - apply wf_map; [discriminate|]. constructor; [|constructor; [|auto]]; cbn [wf length].
    + split; [unfold vrank in Hr; lia|]. apply ok_lens. rewrite <- firstn_map. apply nonneg_first. exact Nv.
    + split; [lia|]. cbn [firstn]. constructor; [left; exact Hn|constructor].
  - intros k x. cbn [leaf_lens flat_map]. destruct k; [reflexivity|]. reflexivity.
  - intros j m'. cbn [element map in_order firstn place skipn]. destruct j as [|i j]; cbn [firstn place step].
    + replace (r + (0 + 0) * zprod s) with (r + 0) by lia. reflexivity.
    + destruct j; cbn [place]; replace (r + (0 + (i * 1 + 0)) * zprod s) with (r + (i * zprod s + 0)) by lia; reflexivity.
Qed.

(* view = { x ... }, with the x ... at r, of shape s *)
Theorem C110_view : forall v n s r (m : mem T), vshape v = n :: s -> nonneg (n :: s) -> apart_at v -> (forall j, inshape j (n :: s) -> ~ r <= vplace v j < r + n * zprod s) ->
  exists m', view_nested fixed fi z zi v n s r m = Ok None m' /\ (forall k i, 0 <= k < n -> inshape i s -> m' (vplace v (k :: i)) = m (r + k * zprod s + rm s i)) /\ (forall p, (forall j, inshape j (n :: s) -> p <> vplace v j) -> m' p = m p).
Proof.
  intros v n s r m Ev Nn Hd Ho. pose proof (firstn_vrank v [n] s Ev) as Rv. cbn [length] in Rv. rewrite view_same; auto; [|rewrite Ev; auto|lia].
  destruct (dense_spec (n :: s) Nn) as (D1 & D2 & D3). assert (Rb : vrank (Vw (dense (n :: s)) r) = S (length s)) by (rewrite (firstn_vrank (Vw (dense (n :: s)) r) [n] s D1); reflexivity).
  assert (Sb : separate v (Vw (dense (n :: s)) r)).
  { intros i j Hi Hj E. unfold vshape in Hj. cbn [vdv] in Hj. rewrite D1 in Hj. rewrite Ev in Hi. apply (Ho i Hi). rewrite E. unfold vplace. cbn [vcp vdv]. rewrite D3 by auto.
    pose proof (rm_range (n :: s) j Hj) as R. cbn [zprod] in R. change (fold_right Z.mul 1 (n :: s)) with (n * zprod s) in R. lia. }
  destruct (C108_spread fixed fi z zi Hz Hzi (fun _ x => x) v (-1) (Vw (dense (n :: s)) r) (-1) [n] [] s [] m) as (m' & E & S1 & S2); auto.
  - cbn [app]. rewrite app_nil_r. auto.
  - unfold frame_axes. cbn [app length]. lia.
  - unfold frame_axes. rewrite Rb. cbn [length]. lia.
  - cbn [app]. rewrite app_nil_r. auto.
  - exists m'. split; [auto|]. split.
    + intros k i Hk Hi. specialize (S1 [k] [] i []). cbn [app] in S1. rewrite app_nil_r in S1. rewrite S1; [|constructor; [auto|constructor]|constructor|auto|constructor].
      unfold vplace. cbn [vcp vdv]. rewrite D3 by (constructor; auto). cbn [rm]. f_equal. lia.
    + intros p Hp. apply S2. rewrite Ev. auto.
Qed.
(* a view of rank 0 has no items: any number of them is refused *)
Theorem C110_view_rank0 : forall v n s r (m : mem T), vshape v = [] -> view_nested fixed fi z zi v n s r m = Fail m.
Proof. intros [[|d dv] p] n s r m Ev; [reflexivity|discriminate Ev]. Qed.
(* another number of items is refused *)
Theorem C110_view_refused : forall v n n' s r (m : mem T), vshape v = n :: s -> nonneg (n :: s) -> 0 <= n' -> n' <> n -> view_nested fixed fi z zi v n' s r m = Fail m.
Proof.
  intros v n n' s r m Ev Nn Hn' Hne. pose proof (firstn_vrank v [n] s Ev) as Rv. cbn [length] in Rv. assert (N' : nonneg (n' :: s)) by (inversion Nn; constructor; auto). rewrite view_same; auto; [|rewrite Ev; auto|lia].
  destruct (dense_spec (n' :: s) N') as (D1 & D2 & D3). assert (Rb : vrank (Vw (dense (n' :: s)) r) = S (length s)) by (rewrite (firstn_vrank (Vw (dense (n' :: s)) r) [n'] s D1); reflexivity).
  apply (C108_disagree fixed fi z zi (fun _ x => x) v (-1) (Vw (dense (n' :: s)) r) (-1) 1 1 0); auto; try lia.
  - apply ok_lens. fold (vshape v). rewrite Ev. auto.
  - apply ok_lens. cbn [vdv]. rewrite D1. auto.
  - unfold frame_axes. lia.
  - unfold frame_axes. lia.
  - rewrite Ev. inversion Nn; auto.
  - unfold vshape. cbn [vdv]. rewrite D1. auto.
  - unfold vshape at 2. cbn [vdv]. rewrite D1, Ev. cbn [nth]. auto.
Qed.

Lemma fill_pointer_spec : forall n p (t : T) m, exists m', fill_pointer n p t m = Ok tt m' /\ forall q, m' q = if (p <=? q) && (q <? p + Z.of_nat n) then t else m q.
Proof.
  induction n as [|n IH]; intros p t m; cbn [fill_pointer].
  - exists m. split; [reflexivity|]. intros q. destruct (Z.leb_spec p q), (Z.ltb_spec q (p + Z.of_nat 0)); cbn [andb]; auto; lia.
  - destruct (IH (p + 1) t (wr p t m)) as (m' & E & H). exists m'. split; [auto|]. intros q. rewrite H. unfold wr.
    destruct (Z.leb_spec (p + 1) q), (Z.ltb_spec q (p + 1 + Z.of_nat n)), (Z.leb_spec p q), (Z.ltb_spec q (p + Z.of_nat (S n))), (Z.eqb_spec q p); cbn [andb]; auto; lia.
Qed.
(* from a scalar *)
Theorem C110_scalar : forall q s (t : T) m, nonneg s -> exists m', small_scalar q s t m = Ok tt m' /\ forall p, m' p = if (q <=? p) && (p <? q + zprod s) then t else m p.
Proof.
  intros q s t m H. destruct (dense_spec s H) as (_ & D & _). unfold small_scalar. rewrite D. destruct (fill_pointer_spec (Z.to_nat (zprod s)) q t m) as (m' & E & S). exists m'. split; [auto|].
  rewrite Z2Nat.id in S by (apply zprod_nonneg; auto). exact S.
Qed.

Lemma copy_n_spec : forall n p b (m : mem T), (forall i, 0 <= i < Z.of_nat n -> ~ b <= p + i < b + Z.of_nat n) ->
  exists m', copy_n n p b m = Ok tt m' /\ forall q, m' q = if (b <=? q) && (q <? b + Z.of_nat n) then m (p + (q - b)) else m q.
Proof.
  induction n as [|n IH]; intros p b m Ho; cbn [copy_n].
  - exists m. split; [reflexivity|]. intros q. destruct (Z.leb_spec b q), (Z.ltb_spec q (b + Z.of_nat 0)); cbn [andb]; auto; lia.
  - destruct (IH (p + 1) (b + 1) (wr b (m p) m)) as (m' & E & H). { intros i Hi Hc. apply (Ho (1 + i)); lia. } exists m'. split; [auto|]. intros q. rewrite H. unfold wr.
    assert (K : b + 1 <= q < b + Z.of_nat (S n) -> p + 1 + (q - (b + 1)) <> b). { intros Hq Ep. apply (Ho (q - b)); lia. }
    replace (p + 1 + (q - (b + 1))) with (p + (q - b)) in * by lia.
    destruct (Z.leb_spec (b + 1) q), (Z.ltb_spec q (b + 1 + Z.of_nat n)), (Z.leb_spec b q), (Z.ltb_spec q (b + Z.of_nat (S n))), (Z.eqb_spec q b); cbn [andb]; auto; try lia.
    + destruct (Z.eqb_spec (p + (q - b)) b); [exfalso; apply K; lia|reflexivity].
    + subst. rewrite Z.sub_diag, Z.add_0_r. reflexivity.
Qed.
(* Array({s ...}, p): the elements of the new array in row-major order are those from p on *)
Theorem C110_pointer : forall q s p (m : mem T), nonneg s -> (forall i, 0 <= i < zprod s -> ~ q <= p + i < q + zprod s) ->
  exists c m', array_pointer q s p m = Ok c m' /\ vshape c = s /\ (forall j, inshape j s -> q <= vplace c j < q + zprod s /\ m' (vplace c j) = m (p + rm s j)) /\ forall k, ~ q <= k < q + zprod s -> m' k = m k.
Proof.
  intros q s p m H Ho. destruct (filldimv_some s H) as (dv & E1 & E2 & E3). pose proof (zprod_nonneg s H) as Hp. unfold array_pointer, alloc. rewrite E1. cbn [vdv vcp]. rewrite dimv_size_prod, E2 by (rewrite E2; auto).
  destruct (copy_n_spec (Z.to_nat (zprod s)) p q m) as (m' & E & S); [rewrite Z2Nat.id by auto; auto|]. rewrite E. rewrite Z2Nat.id in S by auto. exists (Vw dv q), m'. split; [auto|]. split; [exact E2|]. split.
  - intros j Hj. pose proof (rm_range s j Hj). unfold vplace. cbn [vcp vdv]. rewrite E3 by (apply inshape_length; auto). split; [lia|]. rewrite S. destruct (Z.leb_spec q (q + rm s j)), (Z.ltb_spec (q + rm s j) (q + zprod s)); cbn [andb]; try lia. f_equal. lia.
  - intros k Hk. rewrite S. destruct (Z.leb_spec q k), (Z.ltb_spec k (q + zprod s)); cbn [andb]; auto. lia.
Qed.
Theorem C110_pointer_refused : forall q s p (m : mem T), ~ nonneg s -> array_pointer q s p m = Fail m.
Proof. intros q s p m H. unfold array_pointer, alloc. rewrite filldimv_none; auto. Qed.

Definition args_of (f : Z -> nest T -> M (mem T) unit) := fix args (k : Z) (l : list (nest T)) : M (mem T) unit := match l with [] => ret tt | x::l' => _ <- f k x ;; args (k + 1) l' end.
Lemma nested_cons : forall q r n s l m, nonneg (n :: s) -> Z.of_nat (length l) = n -> ~ (n = 1 /\ s = []) ->
  small_nested fixed fi z zi q r (n :: s) (Braces l) m =
    match args_of (fun k x => small_nested fixed fi z zi (r + k * zprod s) (r + n * zprod s) s x) 0 l m with
    | Ok _ m1 => match view_nested fixed fi z zi (Vw (dense (n :: s)) q) n s r m1 with Ok _ m2 => Ok tt m2 | Fail m2 => Fail m2 | Undef => Undef end
    | Fail m1 => Fail m1
    | Undef => Undef
    end.
Proof.
  intros q r n s l m Nn Hl Hs. cbn [small_nested]. pose proof (proj2 (Z.eqb_eq _ _) Hl) as ->. destruct (dense_spec (n :: s) Nn) as (_ & D & _). inversion Nn as [|? ? Hn Ns]; subst x l0. destruct (dense_spec s Ns) as (_ & E & _). rewrite D, E.
  change (zprod (n :: s)) with (n * zprod s).
  replace ((n =? 1) && (length s =? 0)%nat) with false; [unfold bind; reflexivity|]. symmetry. apply andb_false_iff. destruct (Z.eqb_spec n 1); [|auto]. right. apply Nat.eqb_neq. intros L. apply Hs. split; [auto|]. destruct s; [auto|discriminate].
Qed.
Lemma args_done : forall (f : Z -> nest T -> M (mem T) unit) (s : list Z) (r top : Z), nonneg s -> (forall k x m, 0 <= k -> r + k * zprod s + zprod s <= top -> fits s x -> exists m', f k x m = Ok tt m' /\
    (forall j, inshape j s -> item_at x j = Some (m' (r + k * zprod s + rm s j))) /\ (forall p, p < top -> ~ r + k * zprod s <= p < r + k * zprod s + zprod s -> m' p = m p)) ->
  forall l k m, 0 <= k -> r + (k + Z.of_nat (length l)) * zprod s <= top -> Forall (fits s) l -> exists m', args_of f k l m = Ok tt m' /\
    (forall i x j, nth_error l i = Some x -> inshape j s -> item_at x j = Some (m' (r + (k + Z.of_nat i) * zprod s + rm s j))) /\
    (forall p, p < top -> ~ r + k * zprod s <= p < r + (k + Z.of_nat (length l)) * zprod s -> m' p = m p).
Proof.
  intros f s r top Ns Hf l. pose proof (zprod_nonneg s Ns) as Hp. induction l as [|x l IH]; intros k m Hk Ht F.
  - exists m. split; [reflexivity|]. split; [intros [|i] y j H; discriminate|auto].
  - inversion F as [|? ? Fx Fl]; subst. cbn [length] in *. destruct (Hf k x m) as (m1 & E1 & I1 & O1); auto; [nia|]. destruct (IH (k + 1) m1) as (m2 & E2 & I2 & O2); auto; [lia|nia|].
    exists m2. split; [cbn [args_of]; unfold bind; rewrite E1; exact E2|]. split.
    + intros [|i] y j Hy Hj; cbn [nth_error] in Hy.
      * inversion Hy; subst y. rewrite (I1 j Hj). f_equal. pose proof (rm_range s j Hj). replace (k + Z.of_nat 0) with k by lia. symmetry. apply O2; nia.
      * rewrite (I2 i y j Hy Hj). do 2 f_equal. lia.
    + intros p Hpt Hpo. rewrite O2, O1; auto; [nia|]. intros Hc. apply Hpo. nia.
Qed.
(* From nested lists: as in the lists. Only the array and the free space are written to. *)
Theorem C110_nested : forall s q r t (m : mem T), nonneg s -> fits s t -> q + zprod s <= r ->
  exists m', small_nested fixed fi z zi q r s t m = Ok tt m' /\ (forall j, inshape j s -> item_at t j = Some (m' (q + rm s j))) /\ forall p, p < r -> ~ q <= p < q + zprod s -> m' p = m p.
Proof.
  induction s as [|n s IH]; intros q r t m Nn F Hr.
  - destruct t as [x|l]; [|destruct F]. cbn [small_nested]. exists (wr q x m). split; [reflexivity|]. split.
    + intros j Hj. inversion Hj; subst. cbn [item_at rm]. unfold wr. rewrite Z.add_0_r, Z.eqb_refl. reflexivity.
    + intros p _ Hp. unfold wr. destruct (Z.eqb_spec p q); [|reflexivity]. exfalso. apply Hp. cbn. lia.
  - destruct t as [x|l]; [destruct F|]. destruct F as (En & Fl). inversion Nn as [|? ? Hn Ns]; subst x l0. pose proof (zprod_nonneg s Ns) as Hp. change (zprod (n :: s)) with (n * zprod s) in *.
    assert (Dec : (n = 1 /\ s = []) \/ ~ (n = 1 /\ s = [])) by (destruct s; [destruct (Z.eq_dec n 1)|]; intuition congruence). destruct Dec as [(E1 & E2)|Hs].
    + subst s. destruct l as [|y [|]]; cbn [length] in En; try lia. inversion Fl as [|? ? Fy _]; subst. destruct y as [x|]; [|destruct Fy].
      destruct (C110_scalar q [1] x m Nn) as (m' & E & S). exists m'. split; [exact E|]. split.
      * intros j Hj. inversion Hj as [|i ? j' ? Hi Hj']; inversion Hj'; subst. assert (i = 0) by lia. subst i. cbn [item_at nth_error Z.ltb Z.compare Z.to_nat]. rewrite S. change (zprod [1]) with 1. change (rm [Z.of_nat 1] [0]) with 0.
        destruct (Z.leb_spec q (q + 0)), (Z.ltb_spec (q + 0) (q + 1)); cbn [andb]; try lia; reflexivity.
      * intros p _ Hpo. rewrite S. change (zprod [1]) with 1. change (~ q <= p < q + 1) in Hpo. destruct (Z.leb_spec q p), (Z.ltb_spec p (q + 1)); cbn [andb]; auto. lia.
    + rewrite nested_cons; auto.
      destruct (args_done (fun k x => small_nested fixed fi z zi (r + k * zprod s) (r + n * zprod s) s x) s r (r + n * zprod s) Ns) with (l := l) (k := 0) (m := m) as (m1 & Ea & Ia & Oa); auto; try lia.
      rewrite Ea. destruct (dense_spec (n :: s) Nn) as (D1 & D2 & D3). change (zprod (n :: s)) with (n * zprod s) in *.
      assert (Pl : forall j, inshape j (n :: s) -> vplace (Vw (dense (n :: s)) q) j = q + rm (n :: s) j) by (intros j Hj; unfold vplace; cbn [vcp vdv]; rewrite D3; auto).
      destruct (C110_view (Vw (dense (n :: s)) q) n s r m1) as (m2 & Ev & Iv & Ov); auto.
      * intros i j Hi Hj E. unfold vshape in Hi, Hj. cbn [vdv] in Hi, Hj. rewrite D1 in Hi, Hj. rewrite !Pl in E by auto. apply (rm_inj (n :: s)); auto. lia.
      * intros j Hj. rewrite Pl by auto. pose proof (rm_range (n :: s) j Hj) as R. change (zprod (n :: s)) with (n * zprod s) in R. lia.
      * rewrite Ev. exists m2. split; [reflexivity|]. split.
        -- intros j Hj. inversion Hj as [|i ? j' ? Hi Hj']; subst. rewrite <- Pl by auto. rewrite Iv by auto. cbn [item_at]. destruct (Z.ltb_spec i 0); [lia|].
           destruct (nth_error l (Z.to_nat i)) as [y|] eqn:Ey; [|apply nth_error_None in Ey; lia]. rewrite (Ia _ _ j' Ey Hj'). do 2 f_equal. rewrite Z2Nat.id by lia. lia.
        -- intros p Hpr Hpo. rewrite Ov, Oa; auto; [lia|lia|]. intros j Hj E. rewrite Pl in E by auto. pose proof (rm_range (n :: s) j Hj) as R. change (zprod (n :: s)) with (n * zprod s) in R. lia.
Qed.
Lemma nth_indices : forall s j, nonneg s -> inshape j s -> nth_error (indices s) (Z.to_nat (rm s j)) = Some j.
Proof.
  intros s j Ns Hj. apply in_indices in Hj as Hi. apply In_nth_error in Hi as (n & Hn). pose proof (rm_indices s Ns) as R. assert (E : nth_error (map (rm s) (indices s)) n = Some (rm s j)) by (apply map_nth_error; auto).
  rewrite R in E. unfold zrange in E. assert (L : (n < Z.to_nat (zprod s))%nat). { assert (H : nth_error (map Z.of_nat (seq 0 (Z.to_nat (zprod s)))) n <> None) by congruence. apply nth_error_Some in H. rewrite map_length, seq_length in H. auto. }
  rewrite (map_nth_error Z.of_nat n (seq 0 (Z.to_nat (zprod s))) (d := n)) in E; [injection E as <-; rewrite Nat2Z.id; auto|]. rewrite (nth_error_nth' _ 0%nat) by (rewrite seq_length; auto). rewrite seq_nth; auto.
Qed.
(* From all the elements: in row-major order. *)
Theorem C110_elements : forall q s (xs : list T) m, nonneg s -> Z.of_nat (length xs) = zprod s ->
  exists m', small_elements q s xs m = Ok tt m' /\ (forall j, inshape j s -> nth_error xs (Z.to_nat (rm s j)) = Some (m' (q + rm s j))) /\ forall p, ~ q <= p < q + zprod s -> m' p = m p.
Proof.
  intros q s xs m Ns L. destruct (dense_spec s Ns) as (D1 & D2 & D3). unfold small_elements.
  assert (Pl : forall j, inshape j s -> vplace (Vw (dense s) q) j = q + rm s j) by (intros j Hj; unfold vplace; cbn [vcp vdv]; rewrite D3; auto).
  destruct (C41_view true true xs (Vw (dense s) q) s m) as ((m' & E & I & O) & _); auto.
  - intros i j Hi Hj E. rewrite !Pl in E by auto. apply (rm_inj s); auto. lia.
  - exists m'. split; [auto|]. split.
    + intros j Hj. rewrite <- Pl by auto. apply (I (indices s)); [apply row_major_indices|]. apply nth_indices; auto.
    + intros p Hp. apply O. intros j Hj E'. rewrite Pl in E' by auto. pose proof (rm_range s j Hj). lia.
Qed.

(* So the nested lists and the list of their items in order give the same array. *)
Fixpoint leaves (t : nest T) : list T := match t with Item x => [x] | Braces l => flat_map leaves l end.
Lemma nth_blocks : forall (A B : Type) (f : A -> list B) P l i x r, Forall (fun a => length (f a) = P) l -> nth_error l i = Some x -> (r < P)%nat -> nth_error (flat_map f l) (i * P + r) = nth_error (f x) r.
Proof.
  induction l as [|a l IH]; intros i x r F E Hr; [destruct i; discriminate|]. inversion F; subst. destruct i as [|i]; cbn [nth_error flat_map] in *.
  - inversion E; subst. cbn [Nat.mul Nat.add]. rewrite nth_error_app1 by auto. reflexivity.
  - rewrite nth_error_app2 by (cbn [Nat.mul]; lia). rewrite <- (IH i x r) by auto. f_equal. cbn [Nat.mul]. lia.
Qed.
Lemma leaves_item : forall s t, nonneg s -> fits s t -> length (leaves t) = Z.to_nat (zprod s) /\ forall j, inshape j s -> nth_error (leaves t) (Z.to_nat (rm s j)) = item_at t j.
Proof.
  induction s as [|n s IH]; intros t Nn F.
  - destruct t; [|destruct F]. split; [reflexivity|]. intros j Hj. inversion Hj; subst. reflexivity.
  - destruct t as [|l]; [destruct F|]. destruct F as (En & Fl). inversion Nn as [|? ? Hn Ns]; subst x l0. pose proof (zprod_nonneg s Ns) as Hp. change (zprod (n :: s)) with (n * zprod s).
    assert (Fb : Forall (fun a => length (leaves a) = Z.to_nat (zprod s)) l) by (apply Forall_forall; intros a Ha; rewrite Forall_forall in Fl; apply IH; auto). cbn [leaves]. split.
    + rewrite En, Z2Nat.inj_mul, Nat2Z.id by lia. clear - Fb. induction Fb as [|a l Ha Fb IH']; [reflexivity|]. cbn [flat_map length Nat.mul]. rewrite app_length, IH', Ha. reflexivity.
    + intros j Hj. inversion Hj as [|i ? j' ? Hi Hj']; subst. cbn [item_at rm]. destruct (Z.ltb_spec i 0); [lia|]. pose proof (rm_range s j' Hj') as R.
      destruct (nth_error l (Z.to_nat i)) as [x|] eqn:Ex; [|apply nth_error_None in Ex; lia]. replace (Z.to_nat (i * zprod s + rm s j')) with (Z.to_nat i * Z.to_nat (zprod s) + Z.to_nat (rm s j'))%nat by (rewrite Z2Nat.inj_add, Z2Nat.inj_mul by nia; reflexivity).
      rewrite (nth_blocks _ _ leaves (Z.to_nat (zprod s)) l _ x); auto; [|lia]. apply IH; auto. rewrite Forall_forall in Fl. apply Fl. eapply nth_error_In; eauto.
Qed.
Theorem C110_same : forall s q r t (m : mem T), nonneg s -> fits s t -> q + zprod s <= r ->
  exists m1 m2, small_nested fixed fi z zi q r s t m = Ok tt m1 /\ small_elements q s (leaves t) m = Ok tt m2 /\ forall p, p < r -> m1 p = m2 p.
Proof.
  intros s q r t m Ns F Hr. destruct (C110_nested s q r t m Ns F Hr) as (m1 & E1 & I1 & O1). destruct (leaves_item s t Ns F) as (L & I). pose proof (zprod_nonneg s Ns) as Hp.
  destruct (C110_elements q s (leaves t) m Ns) as (m2 & E2 & I2 & O2); [lia|]. exists m1, m2. split; [auto|]. split; [auto|]. intros p Hpr. destruct (Z_le_dec q p) as [H1|H1]; [destruct (Z_lt_dec p (q + zprod s)) as [H2|H2]|].
  - destruct (C12_dense s Ns) as (dv & Ed & _ & _ & _ & Dp & _). destruct (Dp (p - q) ltac:(lia)) as (j & Hj & Ej). destruct (filldimv_some s Ns) as (dv' & Ed' & _ & E3). assert (dv' = dv) by congruence. subst dv'.
    rewrite E3 in Ej by (apply inshape_length; auto). replace p with (q + rm s j) by lia. specialize (I1 j Hj). specialize (I2 j Hj). rewrite I in I2 by auto. congruence.
  - rewrite O1, O2; auto; lia.
  - rewrite O1, O2; auto; lia.
Qed.
End Small.

(* Small<int, 2, 3> a {{1, 2, 3}, {4, 5, 6}}; at 10, with free space at 20; the same with all the elements, and Small<int, 2, 3>(7). Small<int, 2, 1> a {{8}, {9}}. Transposed view of 3 x 2 = {{1, 2, 3}, {4, 5, 6}}. Array({2, 3}, p). *)
Example C110_ex : let t := Braces [Braces [Item 1; Item 2; Item 3]; Braces [Item 4; Item 5; Item 6]] in let m0 := fun _ : Z => 0 in let see := fun (r : out (mem Z) unit) q => match r with Ok _ m => map m [q - 1; q; q + 1; q + 2; q + 3; q + 4; q + 5; q + 6] | _ => [] end in
  fits [2; 3] t /\ see (small_nested true true z_init z_init 10 20 [2; 3] t m0) 10 = [0; 1; 2; 3; 4; 5; 6; 0] /\ see (small_elements 10 [2; 3] [1; 2; 3; 4; 5; 6] m0) 10 = [0; 1; 2; 3; 4; 5; 6; 0] /\ leaves t = [1; 2; 3; 4; 5; 6] /\
  see (small_scalar 10 [2; 3] 7 m0) 10 = [0; 7; 7; 7; 7; 7; 7; 0] /\ see (small_nested true true z_init z_init 10 20 [2; 1] (Braces [Braces [Item 8]; Braces [Item 9]]) m0) 10 = [0; 8; 9; 0; 0; 0; 0; 0] /\
  (let v := Vw [Dim 2 1; Dim 3 2] 10 in vshape v = [2; 3] /\ apart_at v /\ (forall j, inshape j [2; 3] -> ~ 20 <= vplace v j < 20 + 2 * zprod [3]) /\
    exists m', view_nested false true z_init z_init v 2 [3] 20 (fun p => p) = Ok None m' /\ map m' [9; 10; 11; 12; 13; 14; 15; 16] = [9; 20; 23; 21; 24; 22; 25; 16]) /\
  (exists c m', array_pointer 0 [2; 2] 50 (fun p => p) = Ok c m' /\ vshape c = [2; 2] /\ map m' [0; 1; 2; 3; 4] = [50; 51; 52; 53; 4]) /\ array_pointer 0 [2; -2] 50 m0 = Fail m0.
Proof.
  cbv zeta. split; [repeat constructor|]. split; [vm_compute; reflexivity|]. split; [vm_compute; reflexivity|]. split; [reflexivity|]. split; [vm_compute; reflexivity|]. split; [vm_compute; reflexivity|].
  split; [|split; [eexists; eexists; split; [reflexivity|]; split; reflexivity|reflexivity]].
  assert (S2 : forall i, inshape i [2; 3] -> exists x y, i = [x; y] /\ 0 <= x < 2 /\ 0 <= y < 3).
  { intros i H. inversion H as [|x ? ? ? Hx H']; subst. inversion H' as [|y ? ? ? Hy H'']; inversion H''; subst. exists x, y. auto. }
  split; [reflexivity|]. split; [|split].
  - intros i j Hi Hj. unfold vshape in Hi, Hj. cbn [vdv map len] in Hi, Hj. apply S2 in Hi as (x & v & -> & Hx & Hv). apply S2 in Hj as (y & w & -> & Hy & Hw). unfold vplace. cbn [vcp vdv place step]. intros. assert (x = y) by lia. subst. f_equal. f_equal. lia.
  - intros j Hj. apply S2 in Hj as (x & y & -> & Hx & Hy). unfold vplace. cbn [vcp vdv place step zprod fold_right]. lia.
  - eexists. split; [vm_compute; reflexivity|]. vm_compute. reflexivity.
Qed.
Print Assumptions C110_view.
Print Assumptions C110_view_rank0.
Print Assumptions C110_view_refused.
Print Assumptions C110_scalar.
Print Assumptions C110_elements.
Print Assumptions C110_nested.
Print Assumptions C110_same.
Print Assumptions C110_pointer.
Print Assumptions C110_pointer_refused.
