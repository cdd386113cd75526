(* Properties C116, C117: rotations and differences along an axis. *)
From Coq Require Import ZArith List Lia Bool Sorting.Sorted.
From Verif Require Import Spec L_Spec Spec_Ply Spec_Expr M_Base M_Expr M_Ply M_Val Spec_Val L_Expr L_Agree L_Ply L_Stl L_Run L_Val P_Reduce M_View Spec_View L_View P_View M_Slice Spec_Slice L_Slice P_Slice M_Frame Spec_Frame L_Frame M_Mat Spec_Mat P_Mat P_Outer M_Cell P_Cell M_Cells P_Cells M_Doc P_Doc M_Stencil P_Stencil M_Roll.
Import ListNotations.
Open Scope Z_scope.

(* ---- what the properties are stated with ---- *)
(* index i, of an array with lengths s, moved by c on axis k; what goes out at an end comes in at the other *)
Fixpoint turn (k : nat) (c : Z) (s i : list Z) : list Z :=
  match k, s, i with
  | O, n::_, x::i' => (x + c) mod n :: i'
  | S k', _::s', x::i' => x :: turn k' c s' i'
  | _, _, _ => i
  end.
(* The elements of x are given by g, and nothing else has changed. *)
Definition becomes {T} (x : view) (g : list Z -> T) (m m' : mem T) : Prop :=
  (forall i, inshape i (vshape x) -> m' (vplace x i) = g i) /\ forall p, (forall i, inshape i (vshape x) -> p <> vplace x i) -> m' p = m p.

(* the elements of a, of lengths s, at the places next to i on axes ks, joined by add *)
Definition beside {T} (add : T -> T -> T) (c : Z) (s : list Z) (ks : list nat) (m : mem T) (a : view) (i : list Z) (k : nat) : T :=
  fold_left add (map (fun l => m (vplace a (turn l c s i))) ks) (m (vplace a (turn k c s i))).

(* ---- slices along an axis ---- *)
Lemma along_fromb : forall d1 d d2 s r bv pl, fromb true (along (length d1) s r) (d1 ++ d :: d2) bv pl = fromb true (s :: r) (d :: d2) (bv ++ d1) pl.
Proof.
  intros. unfold along. cbn [fromb]. rewrite app_length. cbn [length]. replace (length d1 + S (length d2) <? length d1)%nat with false by (symmetry; apply Nat.ltb_ge; lia). cbn [andb].
  rewrite firstn_app, skipn_app, Nat.sub_diag, firstn_all, skipn_all. cbn [firstn skipn app]. rewrite app_nil_r. reflexivity.
Qed.
Definition sl (d1 : list dim) (d : dim) (d2 : list dim) (p o n : Z) : view := Vw (d1 ++ Dim n (step d) :: d2) (p + o * step d).
Definition ix (d1 : list dim) (d : dim) (d2 : list dim) (p o : Z) : view := Vw (d1 ++ d2) (p + o * step d).
Lemma along_from : forall d1 d d2 p s, (match s with SIdx _ | SSeq _ _ _ => True | _ => False end) ->
  from (Vw (d1 ++ d :: d2) p) (along (length d1) s []) = rbind (fromb true [s] (d :: d2) d1 p) (fun r => Good (Vw (fst r) (snd r))).
Proof.
  intros d1 d d2 p s Hs. rewrite from_fromb.
  - cbn [vdv vcp]. rewrite along_fromb. reflexivity.
  - unfold along. apply Forall_cons; [exact I|]. apply Forall_cons; [|constructor]. destruct s; try contradiction; exact I.
  - unfold fits, along. unfold vrank. cbn [vdv]. rewrite app_length. cbn. destruct s; try contradiction; cbn; lia.
  - unfold along. cbn. destruct s; try contradiction; cbn; lia.
Qed.
Lemma from_seq : forall d1 d d2 p n o n' o', lval n (len d) = Some n' -> lval o (len d) = Some o' -> 0 <= n' -> (0 < n' -> 0 <= o' /\ o' + n' <= len d) ->
  from (Vw (d1 ++ d :: d2) p) (along (length d1) (run n o) []) = Good (sl d1 d d2 p o' n').
Proof.
  intros d1 d d2 p n o n' o' En Eo H1 H2. rewrite along_from by exact I. unfold run. cbn [fromb]. rewrite En, Eo. change (lval (LScalar 1) (len d)) with (Some 1). cbv beta iota. destruct (Z.ltb_spec n' 0); [lia|].
  unfold seq_ok. cbn [len step]. replace ((0 =? n') || (inside o' (len d) && inside (o' + (n' - 1) * 1) (len d)))%bool with true.
  - cbn [rbind fst snd]. unfold sl. rewrite <- app_assoc. cbn [app]. replace (1 * step d) with (step d) by lia. reflexivity.
  - symmetry. unfold inside. destruct (Z.eqb_spec 0 n'); [reflexivity|]. cbn [orb]. rewrite !andb_true_iff. destruct H2; lia.
Qed.
Lemma from_idx : forall d1 d d2 p i o, i (len d) = Some o -> 0 <= o < len d -> from (Vw (d1 ++ d :: d2) p) (along (length d1) (SIdx i) []) = Good (ix d1 d d2 p o).
Proof.
  intros d1 d d2 p i o Ei Ho. rewrite along_from by exact I. cbn [fromb]. rewrite Ei. unfold inside. replace ((0 <=? o) && (o <? len d))%bool with true by (symmetry; apply andb_true_iff; lia). reflexivity.
Qed.
Lemma from_seq_at : forall k d1 d d2 p n o n' o', length d1 = k -> lval n (len d) = Some n' -> lval o (len d) = Some o' -> 0 <= n' -> (0 < n' -> 0 <= o' /\ o' + n' <= len d) ->
  from (Vw (d1 ++ d :: d2) p) (along k (run n o) []) = Good (sl d1 d d2 p o' n').
Proof. intros k d1 d d2 p n o n' o' <-. apply from_seq. Qed.
Lemma from_idx_at : forall k d1 d d2 p i o, length d1 = k -> i (len d) = Some o -> 0 <= o < len d -> from (Vw (d1 ++ d :: d2) p) (along k (SIdx i) []) = Good (ix d1 d d2 p o).
Proof. intros k d1 d d2 p i o <-. apply from_idx. Qed.
Lemma back_value : forall n la, lval (back n) la = Some (la - n).
Proof. reflexivity. Qed.
(* the last axis *)
Lemma tail_from : forall d1 d d2 e p s c, (match s with SIdx _ | SSeq _ _ _ => True | _ => False end) -> 0 <= c < len e ->
  from (Vw ((d1 ++ d :: d2) ++ [e]) p) (along (length d1) s [SDots (Some (length d2)); cidx c]) = from (Vw (d1 ++ d :: d2) (p + c * step e)) (along (length d1) s []).
Proof.
  intros d1 d d2 e p s c Hs Hc. rewrite along_from by auto. rewrite from_fromb.
  - cbn [vdv vcp]. rewrite <- app_assoc. cbn [app]. rewrite along_fromb. destruct s; try contradiction; cbn [fromb app].
    + destruct (i (len d)) as [x|]; [|reflexivity]. destruct (_ || _)%bool; [|reflexivity]. rewrite app_length. cbn [length].
      replace (length d2 + 1 <? length d2)%nat with false by (symmetry; apply Nat.ltb_ge; lia). cbn [andb]. rewrite firstn_app, skipn_app, Nat.sub_diag, firstn_all, skipn_all. cbn [firstn skipn app cidx fromb].
      unfold inside. replace ((0 <=? c) && (c <? len e))%bool with true by (symmetry; apply andb_true_iff; lia). cbn [orb rbind fst snd]. rewrite !app_nil_r. f_equal. f_equal. lia.
    + destruct (o (len d)) as [o'|]; [|reflexivity]. destruct (n (len d)) as [n'|]; [|reflexivity]. destruct (s (len d)) as [s'|]; [|reflexivity]. destruct (n' <? 0); [reflexivity|]. destruct (seq_ok _ _ _); [|reflexivity]. rewrite app_length. cbn [length].
      replace (length d2 + 1 <? length d2)%nat with false by (symmetry; apply Nat.ltb_ge; lia). cbn [andb]. rewrite firstn_app, skipn_app, Nat.sub_diag, firstn_all, skipn_all. cbn [firstn skipn app cidx fromb].
      unfold inside. replace ((0 <=? c) && (c <? len e))%bool with true by (symmetry; apply andb_true_iff; lia). cbn [orb rbind fst snd]. rewrite !app_nil_r. f_equal. f_equal. lia.
  - unfold along. apply Forall_cons; [exact I|]. apply Forall_cons; [destruct s; try contradiction; exact I|]. apply Forall_cons; [exact I|]. apply Forall_cons; [exact I|constructor].
  - unfold fits, along, vrank. cbn [vdv]. rewrite !app_length. cbn. destruct s; try contradiction; cbn; lia.
  - unfold along. cbn. destruct s; try contradiction; cbn; lia.
Qed.

Lemma place_mid : forall d1 d d2 i1 x i2, length i1 = length d1 -> place (d1 ++ d :: d2) (i1 ++ x :: i2) = place d1 i1 + x * step d + place d2 i2.
Proof.
  induction d1 as [|e d1 IH]; intros d d2 [|y i1] x i2 L; try discriminate; cbn [app place]; [lia|]. rewrite IH by (cbn in L; lia). lia.
Qed.
Lemma place_two : forall d1 d2 i1 i2, length i1 = length d1 -> place (d1 ++ d2) (i1 ++ i2) = place d1 i1 + place d2 i2.
Proof. induction d1 as [|e d1 IH]; intros d2 [|y i1] i2 L; try discriminate; cbn [app place]; [lia|]. rewrite IH by (cbn in L; lia). lia. Qed.
Lemma sl_place : forall d1 d d2 p o n i1 x i2, length i1 = length d1 -> vplace (sl d1 d d2 p o n) (i1 ++ x :: i2) = vplace (Vw (d1 ++ d :: d2) p) (i1 ++ (o + x) :: i2).
Proof. intros. unfold vplace, sl. cbn [vcp vdv]. rewrite !place_mid by auto. cbn [step]. lia. Qed.
Lemma ix_place : forall d1 d d2 p o i1 i2, length i1 = length d1 -> vplace (ix d1 d d2 p o) (i1 ++ i2) = vplace (Vw (d1 ++ d :: d2) p) (i1 ++ o :: i2).
Proof. intros. unfold vplace, ix. cbn [vcp vdv]. rewrite place_mid, place_two by auto. lia. Qed.
Lemma mid_in : forall s1 n s2 i, inshape i (s1 ++ n :: s2) <-> exists i1 x i2, i = i1 ++ x :: i2 /\ inshape i1 s1 /\ 0 <= x < n /\ inshape i2 s2.
Proof.
  intros s1 n s2 i. split.
  - intros H. unfold inshape in H. apply Forall2_app_inv_r in H as (i1 & r & H1 & H2 & ->). inversion H2 as [|x ? i2 ? Hx Hi]; subst. exists i1, x, i2. auto.
  - intros (i1 & x & i2 & -> & H1 & Hx & H2). apply join_shape; [auto|]. constructor; auto.
Qed.
Lemma two_in : forall s1 s2 i, inshape i (s1 ++ s2) <-> exists i1 i2, i = i1 ++ i2 /\ inshape i1 s1 /\ inshape i2 s2.
Proof.
  intros s1 s2 i. split.
  - intros H. unfold inshape in H. apply Forall2_app_inv_r in H as (i1 & r & H1 & H2 & ->). eauto.
  - intros (i1 & i2 & -> & H1 & H2). apply join_shape; auto.
Qed.
Lemma turn_mid : forall s1 n s2 i1 x i2 c, length i1 = length s1 -> turn (length s1) c (s1 ++ n :: s2) (i1 ++ x :: i2) = i1 ++ (x + c) mod n :: i2.
Proof. induction s1 as [|y s1 IH]; intros n s2 [|z i1] x i2 c L; try discriminate; cbn [length app turn]; [reflexivity|]. f_equal. apply IH. cbn in L. lia. Qed.
Lemma shape_split : forall v s1 n s2, vshape v = s1 ++ n :: s2 -> exists d1 d d2, v = Vw (d1 ++ d :: d2) (vcp v) /\ map len d1 = s1 /\ len d = n /\ map len d2 = s2.
Proof.
  intros [dv p] s1 n s2 E. unfold vshape in E. cbn [vdv vcp] in *. apply map_eq_app in E as (d1 & r & -> & E1 & E2). apply map_eq_cons in E2 as (d & d2 & -> & E2 & E3). exists d1, d, d2. auto.
Qed.

Section Roll.
Context {T : Type}.
Variables (fixed : bool) (z : list zt).
Hypothesis Hz : zclean z.
Notation ex := (expr (val T) (mem T)).

Lemma assign_to : forall f (d : view) (e : ex) s x (m : mem T), vshape d = s -> nonneg s -> apart_at d -> wf e -> inner e s ->
  (forall m1, (forall p, (forall i, inshape i s -> p <> vplace d i) -> m1 p = m p) -> reads e s m1 x) ->
  exists m', assign fixed z f (viter d) e m = Ok None m' /\ becomes d (fun j => f (m (vplace d j)) (x j)) m m'.
Proof.
  intros f d e s x m <- Hn Ha We Ne Re. destruct (view_shape (T:=T) d _ eq_refl Hn) as (Wd & Sd).
  destruct (C29_assign T f (viter d) e (vshape d) m (vplace d) x fixed z) as (m' & E1 & E2 & E3); auto.
  - apply (joint_cover _ _ _ (viter d)); [left; auto|auto|]. apply Forall_cons; [apply inner_whole; auto|]. auto.
  - intros j m1 Hj. rewrite viter_element, vrank_shape, whole_in by auto. reflexivity.
  - intros j m1 Hj Hm. apply Re; auto.
  - exists m'. split; [exact E1|]. split; auto.
Qed.
Lemma view_reads : forall (a d : view) s (m m1 : mem T), vshape a = s -> (forall i j, inshape i (vshape d) -> inshape j s -> vplace d i <> vplace a j) -> (forall p, (forall i, inshape i (vshape d) -> p <> vplace d i) -> m1 p = m p) ->
  reads (viter a) s m1 (fun j => m (vplace a j)).
Proof.
  intros a d s m m1 <- Hs Hm j Hj. exists (VRef (vplace a j)). rewrite viter_element, vrank_shape, whole_in by auto. split; [reflexivity|]. cbn. f_equal. apply Hm. intros i Hi E. apply (Hs i j); auto.
Qed.
Lemma assign_view : forall f (d a : view) (m : mem T), vshape a = vshape d -> nonneg (vshape d) -> apart_at d -> P_Cells.separate d a ->
  exists m', assign fixed z f (viter d) (viter a) m = Ok None m' /\ becomes d (fun j => f (m (vplace d j)) (m (vplace a j))) m m'.
Proof.
  intros f d a m Ea Hn Ha Hs. destruct (view_shape (T:=T) a _ Ea Hn) as (Wa & Sa). apply (assign_to f d (viter a) (vshape d) (fun j => m (vplace a j))); auto.
  - apply inner_whole; auto.
  - intros m1 Hm. apply (view_reads a d); auto. intros i j Hi Hj. apply Hs; auto. rewrite Ea. auto.
Qed.
Lemma assign_minus : forall sub (d a b : view) (m : mem T), vshape a = vshape d -> vshape b = vshape d -> nonneg (vshape d) -> apart_at d -> P_Cells.separate d a -> P_Cells.separate d b ->
  exists m', assign fixed z put (viter d) (times sub (viter a) (viter b)) m = Ok None m' /\ becomes d (fun j => sub (m (vplace a j)) (m (vplace b j))) m m'.
Proof.
  intros sub d a b m Ea Eb Hn Ha Hsa Hsb. destruct (view_shape (T:=T) a _ Ea Hn) as (Wa & Sa). destruct (view_shape (T:=T) b _ Eb Hn) as (Wb & Sb). apply (assign_to put d _ (vshape d) (fun j => sub (m (vplace a j)) (m (vplace b j)))); auto.
  - apply times_wf; auto.
  - apply inner_map. apply Forall_cons; [apply inner_whole; auto|]. apply Forall_cons; [apply inner_whole; auto|constructor].
  - intros m1 Hm. apply (times_reads sub); [apply (view_reads a d)|apply (view_reads b d)]; auto; intros i j Hi Hj; [apply Hsa|apply Hsb]; auto; rewrite ?Ea, ?Eb; auto.
Qed.

Section Axis.
Variables (x1 : list dim) (dx : dim) (x2 : list dim) (px : Z) (a1 : list dim) (da : dim) (a2 : list dim) (pa : Z) (s1 s2 : list Z) (n : Z).
Hypothesis Hx1 : map len x1 = s1.
Hypothesis Hx2 : map len x2 = s2.
Hypothesis Hx : len dx = n.
Hypothesis Ha1 : map len a1 = s1.
Hypothesis Ha2 : map len a2 = s2.
Hypothesis Ha : len da = n.
Let X := Vw (x1 ++ dx :: x2) px.
Let A := Vw (a1 ++ da :: a2) pa.
Hypothesis Hn1 : nonneg s1.
Hypothesis Hn2 : nonneg s2.
Hypothesis Hap : apart_at X.
Hypothesis Hse : P_Cells.separate X A.

Definition rows (lo hi : Z) (g : list Z -> Z -> list Z -> T) (m m' : mem T) : Prop :=
  (forall i1 j i2, inshape i1 s1 -> lo <= j < hi -> inshape i2 s2 -> m' (vplace X (i1 ++ j :: i2)) = g i1 j i2) /\
  forall p, (forall i1 j i2, inshape i1 s1 -> lo <= j < hi -> inshape i2 s2 -> p <> vplace X (i1 ++ j :: i2)) -> m' p = m p.
Lemma X_shape : vshape X = s1 ++ n :: s2.
Proof. unfold vshape, X. cbn [vdv]. rewrite map_app. cbn [map]. rewrite Hx1, Hx2, Hx. reflexivity. Qed.
Lemma A_shape : vshape A = s1 ++ n :: s2.
Proof. unfold vshape, A. cbn [vdv]. rewrite map_app. cbn [map]. rewrite Ha1, Ha2, Ha. reflexivity. Qed.
Lemma len1 : forall i1, inshape i1 s1 -> length i1 = length x1 /\ length i1 = length a1.
Proof. intros i1 H. apply inshape_length in H. rewrite H. rewrite <- Hx1 at 1. rewrite <- Ha1. rewrite !map_length. rewrite <- (map_length len x1), Hx1, <- Ha1, map_length. auto. Qed.
Lemma slx_shape : forall o q, vshape (sl x1 dx x2 px o q) = s1 ++ q :: s2.
Proof. intros. unfold vshape, sl. cbn [vdv]. rewrite map_app. cbn [map len]. rewrite Hx1, Hx2. reflexivity. Qed.
Lemma sla_shape : forall o q, vshape (sl a1 da a2 pa o q) = s1 ++ q :: s2.
Proof. intros. unfold vshape, sl. cbn [vdv]. rewrite map_app. cbn [map len]. rewrite Ha1, Ha2. reflexivity. Qed.
Lemma ixx_shape : forall o, vshape (ix x1 dx x2 px o) = s1 ++ s2.
Proof. intros. unfold vshape, ix. cbn [vdv]. rewrite map_app, Hx1, Hx2. reflexivity. Qed.
Lemma ixa_shape : forall o, vshape (ix a1 da a2 pa o) = s1 ++ s2.
Proof. intros. unfold vshape, ix. cbn [vdv]. rewrite map_app, Ha1, Ha2. reflexivity. Qed.
Lemma X_inj : forall i1 j i2 i1' j' i2', inshape i1 s1 -> 0 <= j < n -> inshape i2 s2 -> inshape i1' s1 -> 0 <= j' < n -> inshape i2' s2 -> vplace X (i1 ++ j :: i2) = vplace X (i1' ++ j' :: i2') -> i1 = i1' /\ j = j' /\ i2 = i2'.
Proof.
  intros i1 j i2 i1' j' i2' H1 H2 H3 H4 H5 H6 E. apply Hap in E; [|rewrite X_shape; apply mid_in; eauto 10|rewrite X_shape; apply mid_in; eauto 10].
  destruct (split_eq _ _ _ _ s1 H1 H4 E) as (-> & E'). injection E' as -> ->. auto.
Qed.
Lemma X_A : forall i1 j i2 i1' j' i2', inshape i1 s1 -> 0 <= j < n -> inshape i2 s2 -> inshape i1' s1 -> 0 <= j' < n -> inshape i2' s2 -> vplace X (i1 ++ j :: i2) <> vplace A (i1' ++ j' :: i2').
Proof. intros. apply Hse; [rewrite X_shape|rewrite A_shape]; apply mid_in; eauto 10. Qed.
Lemma sl_apart : forall o q, (0 < q -> 0 <= o /\ o + q <= n) -> apart_at (sl x1 dx x2 px o q).
Proof.
  intros o q Hq i j Hi Hj E. rewrite slx_shape in Hi, Hj. apply mid_in in Hi as (i1 & x & i2 & -> & I1 & I2 & I3). apply mid_in in Hj as (j1 & y & j2 & -> & J1 & J2 & J3).
  rewrite !sl_place in E by (apply len1; auto). fold X in E. apply X_inj in E as (-> & E & ->); auto; try lia. repeat f_equal. lia.
Qed.
Lemma sl_separate : forall o o' q, (0 < q -> 0 <= o /\ o + q <= n) -> (0 < q -> 0 <= o' /\ o' + q <= n) -> P_Cells.separate (sl x1 dx x2 px o q) (sl a1 da a2 pa o' q).
Proof.
  intros o o' q Hq Hq' i j Hi Hj. rewrite slx_shape in Hi. rewrite sla_shape in Hj. apply mid_in in Hi as (i1 & x & i2 & -> & I1 & I2 & I3). apply mid_in in Hj as (j1 & y & j2 & -> & J1 & J2 & J3).
  rewrite !sl_place by (apply len1; auto). apply X_A; auto; lia.
Qed.
Lemma ix_apart : forall o, 0 <= o < n -> apart_at (ix x1 dx x2 px o).
Proof.
  intros o Hq i j Hi Hj E. rewrite ixx_shape in Hi, Hj. apply two_in in Hi as (i1 & i2 & -> & I1 & I3). apply two_in in Hj as (j1 & j2 & -> & J1 & J3).
  rewrite !ix_place in E by (apply len1; auto). fold X in E. apply X_inj in E as (-> & E & ->); auto; try lia.
Qed.
Lemma ix_separate : forall o o', 0 <= o < n -> 0 <= o' < n -> P_Cells.separate (ix x1 dx x2 px o) (ix a1 da a2 pa o').
Proof.
  intros o o' Hq Hq' i j Hi Hj. rewrite ixx_shape in Hi. rewrite ixa_shape in Hj. apply two_in in Hi as (i1 & i2 & -> & I1 & I3). apply two_in in Hj as (j1 & j2 & -> & J1 & J3).
  rewrite !ix_place by (apply len1; auto). apply X_A; auto; lia.
Qed.
Lemma sl_rows : forall o q g h (m m' : mem T), becomes (sl x1 dx x2 px o q) g m m' -> (forall i1 j i2, inshape i1 s1 -> 0 <= j < q -> inshape i2 s2 -> g (i1 ++ j :: i2) = h i1 (o + j) i2) -> rows o (o + q) h m m'.
Proof.
  intros o q g h m m' (B1 & B2) Hg. rewrite slx_shape in B1, B2. split.
  - intros i1 j i2 I1 I2 I3. specialize (B1 (i1 ++ (j - o) :: i2)). rewrite sl_place in B1 by (apply len1; auto). replace (o + (j - o)) with j in B1 by lia. fold X in B1. rewrite B1 by (apply mid_in; exists i1, (j - o), i2; repeat split; auto; lia).
    rewrite Hg by (auto; lia). f_equal. lia.
  - intros p Hp. apply B2. intros i Hi. apply mid_in in Hi as (i1 & x & i2 & -> & I1 & I2 & I3). rewrite sl_place by (apply len1; auto). apply Hp; auto. lia.
Qed.
Lemma ix_rows : forall o g h (m m' : mem T), becomes (ix x1 dx x2 px o) g m m' -> (forall i1 i2, inshape i1 s1 -> inshape i2 s2 -> g (i1 ++ i2) = h i1 o i2) -> rows o (o + 1) h m m'.
Proof.
  intros o g h m m' (B1 & B2) Hg. rewrite ixx_shape in B1, B2. split.
  - intros i1 j i2 I1 I2 I3. replace j with o by lia. specialize (B1 (i1 ++ i2)). rewrite ix_place in B1 by (apply len1; auto). fold X in B1. rewrite B1 by (apply two_in; eauto 10). apply Hg; auto.
  - intros p Hp. apply B2. intros i Hi. apply two_in in Hi as (i1 & i2 & -> & I1 & I3). rewrite ix_place by (apply len1; auto). apply Hp; auto. lia.
Qed.
Lemma sl_nonneg : forall q, 0 <= q -> nonneg (s1 ++ q :: s2).
Proof. intros. unfold nonneg in *. apply Forall_app. auto. Qed.
Lemma ix_nonneg : nonneg (s1 ++ s2).
Proof. unfold nonneg in *. apply Forall_app. auto. Qed.

Lemma len_x1 : length x1 = length s1.
Proof. rewrite <- Hx1, map_length. reflexivity. Qed.
Lemma len_a1 : length a1 = length s1.
Proof. rewrite <- Ha1, map_length. reflexivity. Qed.
Lemma sl_assign : forall f (q ox oa : lx) q' ox' oa' (m : mem T), lval q n = Some q' -> lval ox n = Some ox' -> lval oa n = Some oa' -> 0 <= q' -> (0 < q' -> 0 <= ox' /\ ox' + q' <= n) -> (0 < q' -> 0 <= oa' /\ oa' + q' <= n) ->
  exists m', slice_assign fixed z f X (along (length s1) (run q ox) []) A (along (length s1) (run q oa) []) m = Ok None m' /\
    rows ox' (ox' + q') (fun i1 j i2 => f (m (vplace X (i1 ++ j :: i2))) (m (vplace A (i1 ++ (j - ox' + oa') :: i2)))) m m'.
Proof.
  intros f q ox oa q' ox' oa' m Eq Eo Ea H0 H1 H2. unfold slice_assign. unfold X at 1, A at 1. rewrite (from_seq_at (length s1) x1 dx x2 px q ox q' ox'); try rewrite Hx; auto using len_x1. cbn [onres]. rewrite (from_seq_at (length s1) a1 da a2 pa q oa q' oa'); try rewrite Ha; auto using len_a1. cbn [onres].
  destruct (assign_view f (sl x1 dx x2 px ox' q') (sl a1 da a2 pa oa' q') m) as (m' & E & B); try rewrite slx_shape; try rewrite sla_shape; auto using sl_nonneg, sl_apart, sl_separate.
  exists m'. split; [exact E|]. apply (sl_rows _ _ _ _ _ _ B). intros i1 j i2 I1 I2 I3. rewrite !sl_place by (apply len1; auto). replace (ox' + j - ox' + oa') with (oa' + j) by lia. reflexivity.
Qed.
Lemma ix_assign : forall f ox oa ox' oa' (m : mem T), ox n = Some ox' -> oa n = Some oa' -> 0 <= ox' < n -> 0 <= oa' < n ->
  exists m', slice_assign fixed z f X (along (length s1) (SIdx ox) []) A (along (length s1) (SIdx oa) []) m = Ok None m' /\
    rows ox' (ox' + 1) (fun i1 j i2 => f (m (vplace X (i1 ++ j :: i2))) (m (vplace A (i1 ++ oa' :: i2)))) m m'.
Proof.
  intros f ox oa ox' oa' m Eo Ea H1 H2. unfold slice_assign. unfold X at 1, A at 1. rewrite (from_idx_at (length s1) x1 dx x2 px ox ox'); try rewrite Hx; auto using len_x1. cbn [onres]. rewrite (from_idx_at (length s1) a1 da a2 pa oa oa'); try rewrite Ha; auto using len_a1. cbn [onres].
  destruct (assign_view f (ix x1 dx x2 px ox') (ix a1 da a2 pa oa') m) as (m' & E & B); try rewrite ixx_shape; try rewrite ixa_shape; auto using ix_nonneg, ix_apart, ix_separate.
  exists m'. split; [exact E|]. apply (ix_rows _ _ _ _ _ B). intros i1 i2 I1 I3. rewrite !ix_place by (apply len1; auto). reflexivity.
Qed.
Lemma roll_up_axis : forall f (m : mem T), 0 < n -> exists m', roll_up fixed z f (length s1) X A m = Ok None m' /\ becomes X (fun i => f (m (vplace X i)) (m (vplace A (turn (length s1) 1 (s1 ++ n :: s2) i)))) m m'.
Proof.
  intros f m Hn. unfold roll_up, bind.
  destruct (sl_assign f (back 1) (LScalar 0) (LScalar 1) (n - 1) 0 1 m) as (m1 & E1 & R1 & O1); try reflexivity; try lia. rewrite E1.
  destruct (ix_assign f (lval (back 1)) (fun _ => Some 0) (n - 1) 0 m1) as (m2 & E2 & R2 & O2); try reflexivity; try lia. exists m2. split; [exact E2|]. rewrite ?Z.add_0_l in *. split; rewrite X_shape.
  - intros i Hi. apply mid_in in Hi as (i1 & j & i2 & -> & I1 & I2 & I3). rewrite turn_mid by (rewrite (inshape_length _ _ I1); auto).
    assert (QA : forall j', 0 <= j' < n -> m1 (vplace A (i1 ++ j' :: i2)) = m (vplace A (i1 ++ j' :: i2))) by (intros j' Hj'; apply O1; intros i1' j0 i2' H1 H2 H3 E; symmetry in E; revert E; apply X_A; auto; lia).
    destruct (Z.eq_dec j (n - 1)) as [->|Hj].
    + rewrite R2 by (auto; lia). replace (n - 1 + 1) with n by lia. rewrite Z_mod_same_full, QA by lia. f_equal. apply O1. intros i1' j0 i2' H1 H2 H3 E. apply X_inj in E as (_ & E & _); auto; lia.
    + rewrite O2 by (intros i1' j0 i2' H1 H2 H3 E; apply X_inj in E as (_ & E & _); auto; lia). rewrite R1 by (auto; lia). rewrite Z.mod_small by lia. rewrite ?Z.sub_0_r, ?Z.add_0_r, ?Z.add_opp_r. reflexivity.
  - intros p Hp. rewrite O2, O1; [reflexivity| |]; intros i1 j i2 I1 I2 I3; apply Hp; apply mid_in; exists i1, j, i2; repeat split; auto; lia.
Qed.
Lemma roll_down_axis : forall f (m : mem T), 0 < n -> exists m', roll_down fixed z f (length s1) X A m = Ok None m' /\ becomes X (fun i => f (m (vplace X i)) (m (vplace A (turn (length s1) (-1) (s1 ++ n :: s2) i)))) m m'.
Proof.
  intros f m Hn. unfold roll_down, bind.
  destruct (sl_assign f (back 1) (LScalar 1) (LScalar 0) (n - 1) 1 0 m) as (m1 & E1 & R1 & O1); try reflexivity; try lia. rewrite E1.
  destruct (ix_assign f (fun _ => Some 0) (lval (back 1)) 0 (n - 1) m1) as (m2 & E2 & R2 & O2); try reflexivity; try lia. exists m2. split; [exact E2|]. rewrite ?Z.add_0_l in *. split; rewrite X_shape.
  - intros i Hi. apply mid_in in Hi as (i1 & j & i2 & -> & I1 & I2 & I3). rewrite turn_mid by (rewrite (inshape_length _ _ I1); auto).
    assert (QA : forall j', 0 <= j' < n -> m1 (vplace A (i1 ++ j' :: i2)) = m (vplace A (i1 ++ j' :: i2))) by (intros j' Hj'; apply O1; intros i1' j0 i2' H1 H2 H3 E; symmetry in E; revert E; apply X_A; auto; lia).
    destruct (Z.eq_dec j 0) as [->|Hj].
    + rewrite R2 by (auto; lia). replace ((0 + -1) mod n) with (n - 1) by (apply (Z.mod_unique _ _ (-1)); lia). rewrite QA by lia. f_equal. apply O1. intros i1' j0 i2' H1 H2 H3 E. apply X_inj in E as (_ & E & _); auto; lia.
    + rewrite O2 by (intros i1' j0 i2' H1 H2 H3 E; apply X_inj in E as (_ & E & _); auto; lia). rewrite R1 by (auto; lia). rewrite Z.mod_small by lia. rewrite ?Z.sub_0_r, ?Z.add_0_r, ?Z.add_opp_r. reflexivity.
  - intros p Hp. rewrite O2, O1; [reflexivity| |]; intros i1 j i2 I1 I2 I3; apply Hp; apply mid_in; exists i1, j, i2; repeat split; auto; lia.
Qed.
Lemma sl_minus : forall sub (q ox oa ob : lx) q' ox' oa' ob' (m : mem T), lval q n = Some q' -> lval ox n = Some ox' -> lval oa n = Some oa' -> lval ob n = Some ob' -> 0 <= q' -> (0 < q' -> 0 <= ox' /\ ox' + q' <= n) -> (0 < q' -> 0 <= oa' /\ oa' + q' <= n) -> (0 < q' -> 0 <= ob' /\ ob' + q' <= n) ->
  exists m', slice_minus fixed z sub X (along (length s1) (run q ox) []) A (along (length s1) (run q oa) []) (along (length s1) (run q ob) []) m = Ok None m' /\
    rows ox' (ox' + q') (fun i1 j i2 => sub (m (vplace A (i1 ++ (j - ox' + oa') :: i2))) (m (vplace A (i1 ++ (j - ox' + ob') :: i2)))) m m'.
Proof.
  intros sub q ox oa ob q' ox' oa' ob' m Eq Eo Ea Eb H0 H1 H2 H3. unfold slice_minus. unfold X at 1, A at 1. rewrite (from_seq_at (length s1) x1 dx x2 px q ox q' ox'); try rewrite Hx; auto using len_x1. cbn [onres]. rewrite (from_seq_at (length s1) a1 da a2 pa q oa q' oa'); try rewrite Ha; auto using len_a1. cbn [onres].
  unfold A at 1. rewrite (from_seq_at (length s1) a1 da a2 pa q ob q' ob'); try rewrite Ha; auto using len_a1. cbn [onres].
  destruct (assign_minus sub (sl x1 dx x2 px ox' q') (sl a1 da a2 pa oa' q') (sl a1 da a2 pa ob' q') m) as (m' & E & B); try rewrite slx_shape; try rewrite sla_shape; auto using sl_nonneg, sl_apart, sl_separate.
  exists m'. split; [exact E|]. apply (sl_rows _ _ _ _ _ _ B). intros i1 j i2 I1 I2 I3. rewrite !sl_place by (apply len1; auto). replace (ox' + j - ox' + oa') with (oa' + j) by lia. replace (ox' + j - ox' + ob') with (ob' + j) by lia. reflexivity.
Qed.
Lemma ix_minus : forall sub ox oa ob ox' oa' ob' (m : mem T), ox n = Some ox' -> oa n = Some oa' -> ob n = Some ob' -> 0 <= ox' < n -> 0 <= oa' < n -> 0 <= ob' < n ->
  exists m', slice_minus fixed z sub X (along (length s1) (SIdx ox) []) A (along (length s1) (SIdx oa) []) (along (length s1) (SIdx ob) []) m = Ok None m' /\
    rows ox' (ox' + 1) (fun i1 j i2 => sub (m (vplace A (i1 ++ oa' :: i2))) (m (vplace A (i1 ++ ob' :: i2)))) m m'.
Proof.
  intros sub ox oa ob ox' oa' ob' m Eo Ea Eb H1 H2 H3. unfold slice_minus. unfold X at 1, A at 1. rewrite (from_idx_at (length s1) x1 dx x2 px ox ox'); try rewrite Hx; auto using len_x1. cbn [onres]. rewrite (from_idx_at (length s1) a1 da a2 pa oa oa'); try rewrite Ha; auto using len_a1. cbn [onres].
  unfold A at 1. rewrite (from_idx_at (length s1) a1 da a2 pa ob ob'); try rewrite Ha; auto using len_a1. cbn [onres].
  destruct (assign_minus sub (ix x1 dx x2 px ox') (ix a1 da a2 pa oa') (ix a1 da a2 pa ob') m) as (m' & E & B); try rewrite ixx_shape; try rewrite ixa_shape; auto using ix_nonneg, ix_apart, ix_separate.
  exists m'. split; [exact E|]. apply (ix_rows _ _ _ _ _ B). intros i1 i2 I1 I3. rewrite !ix_place by (apply len1; auto). reflexivity.
Qed.
(* the one with index c on the last axis of another *)
Variables (e : dim) (p0 c : Z).
Hypothesis Hc : 0 <= c < len e.
Hypothesis Hpx : px = p0 + c * step e.
Let D := Vw ((x1 ++ dx :: x2) ++ [e]) p0.
Lemma minus_tail : forall (sub : T -> T -> T) s as1 as2, (match s with SIdx _ | SSeq _ _ _ => True | _ => False end) ->
  slice_minus fixed z sub D (along (length s1) s [SDots (Some (length s2)); cidx c]) A as1 as2 = slice_minus fixed z sub X (along (length s1) s []) A as1 as2.
Proof.
  intros sub s as1 as2 Hs. unfold slice_minus, D. rewrite <- len_x1. replace (length s2) with (length x2) by (rewrite <- Hx2, map_length; auto). rewrite tail_from by auto. rewrite <- Hpx. reflexivity.
Qed.
Lemma differences_axis : forall sub (m : mem T), 2 <= n -> exists m', differences fixed z sub (length s1) (length s1 + S (length s2)) c D A m = Ok None m' /\
  becomes X (fun i => sub (m (vplace A (turn (length s1) 1 (s1 ++ n :: s2) i))) (m (vplace A (turn (length s1) (-1) (s1 ++ n :: s2) i)))) m m'.
Proof.
  intros sub m Hn. unfold differences. replace (length s1 + S (length s2) - 1 - length s1)%nat with (length s2) by lia. rewrite !minus_tail by exact I. unfold bind.
  destruct (sl_minus sub (back 2) (LScalar 1) (LScalar 2) (LScalar 0) (n - 2) 1 2 0 m) as (m1 & E1 & R1 & O1); try reflexivity; try lia. rewrite E1.
  destruct (ix_minus sub (fun _ => Some 0) (fun _ => Some 1) (lval (back 1)) 0 1 (n - 1) m1) as (m2 & E2 & R2 & O2); try reflexivity; try lia. unfold cidx. rewrite E2.
  destruct (ix_minus sub (lval (back 1)) (fun _ => Some 0) (lval (back 2)) (n - 1) 0 (n - 2) m2) as (m3 & E3 & R3 & O3); try reflexivity; try lia. exists m3. split; [exact E3|]. rewrite ?Z.add_0_l in *.
  split; rewrite X_shape.
  - intros i Hi. apply mid_in in Hi as (i1 & j & i2 & -> & I1 & I2 & I3). rewrite !turn_mid by (rewrite (inshape_length _ _ I1); auto).
    assert (Q1 : forall j', 0 <= j' < n -> m1 (vplace A (i1 ++ j' :: i2)) = m (vplace A (i1 ++ j' :: i2))) by (intros j' Hj'; apply O1; intros i1' j0 i2' H1 H2 H3 E; symmetry in E; revert E; apply X_A; auto; lia).
    assert (Q2 : forall j', 0 <= j' < n -> m2 (vplace A (i1 ++ j' :: i2)) = m (vplace A (i1 ++ j' :: i2))) by (intros j' Hj'; rewrite <- Q1 by auto; apply O2; intros i1' j0 i2' H1 H2 H3 E; symmetry in E; revert E; apply X_A; auto; lia).
    destruct (Z.eq_dec j (n - 1)) as [->|Hj1]; [|destruct (Z.eq_dec j 0) as [->|Hj0]].
    + rewrite R3 by (auto; lia). replace (n - 1 + 1) with n by lia. rewrite Z_mod_same_full. rewrite (Z.mod_small (n - 1 + -1)) by lia. replace (n - 1 + -1) with (n - 2) by lia. rewrite !Q2 by lia. reflexivity.
    + rewrite O3 by (intros i1' j0 i2' H1 H2 H3 E; apply X_inj in E as (_ & E & _); auto; lia). rewrite R2 by (auto; lia). rewrite (Z.mod_small (0 + 1)) by lia. replace ((0 + -1) mod n) with (n - 1) by (apply (Z.mod_unique _ _ (-1)); lia). rewrite !Q1 by lia. reflexivity.
    + rewrite O3 by (intros i1' j0 i2' H1 H2 H3 E; apply X_inj in E as (_ & E & _); auto; lia). rewrite O2 by (intros i1' j0 i2' H1 H2 H3 E; apply X_inj in E as (_ & E & _); auto; lia). rewrite R1 by (auto; lia). rewrite !Z.mod_small by lia. replace (j - 1 + 2) with (j + 1) by lia. replace (j - 1 + 0) with (j + -1) by lia. reflexivity.
  - intros p Hp. rewrite O3, O2, O1; [reflexivity| | |]; intros i1 j i2 I1 I2 I3; apply Hp; apply mid_in; exists i1, j, i2; repeat split; auto; lia.
Qed.
Lemma last_component : from D [SDots (Some (length s1 + S (length s2))%nat); cidx c] = Good X.
Proof.
  unfold D. change [SDots (Some (length s1 + S (length s2))%nat); cidx c] with (along (length s1 + S (length s2))%nat (SIdx (fun _ => Some c)) []). rewrite (from_idx_at _ (x1 ++ dx :: x2) e [] p0 (fun _ => Some c) c); auto.
  - unfold ix. rewrite app_nil_r, <- Hpx. reflexivity.
  - rewrite app_length. cbn [length]. rewrite len_x1. rewrite <- Hx2, map_length. reflexivity.
Qed.
End Axis.

(* ---- rotations ---- *)
Lemma axis_split : forall (s : list Z) k, (k < length s)%nat -> exists s1 s2, s = s1 ++ nth k s 0 :: s2 /\ length s1 = k.
Proof. induction s as [|x s IH]; intros [|k] H; cbn [length] in H; try lia; [exists [], s; auto|]. destruct (IH k) as (s1 & s2 & E & L); [lia|]. exists (x :: s1), s2. cbn [nth app length]. rewrite <- E, L. auto. Qed.
Lemma turn_in : forall k c s i, inshape i s -> inshape (turn k c s i) s.
Proof.
  induction k as [|k IH]; intros c s i H; destruct H as [|x n i s Hx H]; cbn [turn]; try constructor; auto. { apply Z.mod_pos_bound. lia. } apply IH; auto.
Qed.
Definition rolling (roll : (T -> T -> T) -> nat -> view -> view -> M (mem T) (option unit)) (c : Z) : Prop := forall f k (x a : view) (m : mem T), vshape a = vshape x -> nonneg (vshape x) -> apart_at x -> P_Cells.separate x a ->
  (k < vrank x)%nat -> 0 < nth k (vshape x) 0 -> exists m', roll f k x a m = Ok None m' /\ becomes x (fun i => f (m (vplace x i)) (m (vplace a (turn k c (vshape x) i)))) m m'.
Theorem C116_up : forall f k (x a : view) (m : mem T), vshape a = vshape x -> nonneg (vshape x) -> apart_at x -> P_Cells.separate x a ->
  (k < vrank x)%nat -> 0 < nth k (vshape x) 0 -> exists m', roll_up fixed z f k x a m = Ok None m' /\ becomes x (fun i => f (m (vplace x i)) (m (vplace a (turn k 1 (vshape x) i)))) m m'.
Proof.
  intros f k x a m Ea Hn Hap Hse Hk Hp. rewrite vrank_shape in Hk. destruct (axis_split _ k Hk) as (s1 & s2 & Es & L). set (n := nth k (vshape x) 0) in *. rewrite Es in *. subst k.
  destruct (shape_split _ _ _ _ Es) as (x1 & dx & x2 & Ex & X1 & X2 & X3). destruct (shape_split _ _ _ _ Ea) as (a1 & da & a2 & Eaa & A1 & A2 & A3).
  unfold nonneg in Hn. apply Forall_app in Hn as (N1 & N2). inversion N2 as [|? ? _ N3]; subst. 
  destruct (roll_up_axis x1 dx x2 (vcp x) a1 da a2 (vcp a) (map len x1) (map len x2) n) with (f := f) (m := m) as (m' & E & B); auto; rewrite <- ?Ex, <- ?Eaa in *; auto.
  exists m'. auto.
Qed.
Theorem C116_down : forall f k (x a : view) (m : mem T), vshape a = vshape x -> nonneg (vshape x) -> apart_at x -> P_Cells.separate x a ->
  (k < vrank x)%nat -> 0 < nth k (vshape x) 0 -> exists m', roll_down fixed z f k x a m = Ok None m' /\ becomes x (fun i => f (m (vplace x i)) (m (vplace a (turn k (-1) (vshape x) i)))) m m'.
Proof.
  intros f k x a m Ea Hn Hap Hse Hk Hp. rewrite vrank_shape in Hk. destruct (axis_split _ k Hk) as (s1 & s2 & Es & L). set (n := nth k (vshape x) 0) in *. rewrite Es in *. subst k.
  destruct (shape_split _ _ _ _ Es) as (x1 & dx & x2 & Ex & X1 & X2 & X3). destruct (shape_split _ _ _ _ Ea) as (a1 & da & a2 & Eaa & A1 & A2 & A3).
  unfold nonneg in Hn. apply Forall_app in Hn as (N1 & N2). inversion N2 as [|? ? _ N3]; subst. 
  destruct (roll_down_axis x1 dx x2 (vcp x) a1 da a2 (vcp a) (map len x1) (map len x2) n) with (f := f) (m := m) as (m' & E & B); auto; rewrite <- ?Ex, <- ?Eaa in *; auto.
  exists m'. auto.
Qed.

Lemma becomes_keep : forall (x a : view) g (m m' : mem T) i, becomes x g m m' -> P_Cells.separate x a -> inshape i (vshape a) -> m' (vplace a i) = m (vplace a i).
Proof. intros x a g m m' i (_ & O) Hs Hi. apply O. intros j Hj E. apply (Hs j i); auto. Qed.
Theorem C116_round : forall k (x y a : view) (m : mem T), vshape a = vshape x -> vshape y = vshape x -> nonneg (vshape x) -> apart_at x -> apart_at y -> P_Cells.separate x a -> P_Cells.separate y x -> (k < vrank x)%nat -> 0 < nth k (vshape x) 0 ->
  exists m1 m2 m3, roll_up fixed z put k x a m = Ok None m1 /\ roll_down fixed z put k y x m1 = Ok None m2 /\ becomes y (fun i => m (vplace a i)) m1 m2 /\
    roll_up fixed z put k y x m1 = Ok None m3 /\ becomes y (fun i => m (vplace a (turn k 2 (vshape x) i))) m1 m3.
Proof.
  intros k x y a m Ea Ey Hn Hx Hy Hs Hyx Hk Hp. destruct (C116_up put k x a m) as (m1 & E1 & B1 & O1); auto.
  destruct (C116_down put k y x m1) as (m2 & E2 & B2 & O2); rewrite ?Ey; auto. { rewrite vrank_shape, Ey, <- vrank_shape. auto. }
  destruct (C116_up put k y x m1) as (m3 & E3 & B3 & O3); rewrite ?Ey; auto. { rewrite vrank_shape, Ey, <- vrank_shape. auto. }
  assert (TT : forall k c c' s i, inshape i s -> turn k c s (turn k c' s i) = turn k (c' + c) s i).
  { clear. induction k as [|k IH]; intros c c' s i H; destruct H as [|x n i s H1 H]; cbn [turn]; auto. - f_equal. rewrite Zplus_mod_idemp_l. f_equal. lia. - f_equal. auto. }
  assert (T0 : forall k s i, inshape i s -> turn k 0 s i = i).
  { clear. induction k as [|k IH]; intros s i H; destruct H as [|x n i s H1 H]; cbn [turn]; auto. - f_equal. rewrite Z.add_0_r. apply Z.mod_small. auto. - f_equal. auto. }
  exists m1, m2, m3. split; [auto|]. split; [auto|]. split; [|split; [auto|]].
  - split; [|exact O2]. intros i Hi. rewrite B2 by auto. rewrite Ey in *. unfold put. rewrite B1 by (apply turn_in; auto). rewrite TT by auto. cbn [Z.add]. rewrite T0 by auto. reflexivity.
  - split; [|exact O3]. intros i Hi. rewrite B3 by auto. rewrite Ey in *. unfold put. rewrite B1 by (apply turn_in; auto). rewrite TT by auto. reflexivity.
Qed.
Lemma rolls_from : forall roll c, rolling roll c -> forall add ks (x a : view) f (m : mem T), vshape a = vshape x -> nonneg (vshape x) -> apart_at x -> P_Cells.separate x a -> (forall k, In k ks -> (k < vrank x)%nat /\ 0 < nth k (vshape x) 0) ->
  exists m', rolls roll f add ks x a m = Ok None m' /\ becomes x (fun i => match ks with [] => m (vplace x i) | k::ks' => fold_left add (map (fun l => m (vplace a (turn l c (vshape x) i))) ks') (f (m (vplace x i)) (m (vplace a (turn k c (vshape x) i)))) end) m m'.
Proof.
  intros roll c HR add. induction ks as [|k ks IH]; intros x a f m Ea Hn Hap Hse Hk.
  - exists m. split; [reflexivity|]. split; auto.
  - destruct (Hk k ltac:(left; auto)) as (K1 & K2). destruct (HR f k x a m Ea Hn Hap Hse K1 K2) as (m1 & E1 & B1). destruct (IH x a add m1 Ea Hn Hap Hse ltac:(intros; apply Hk; right; auto)) as (m2 & E2 & B2).
    exists m2. cbn [rolls]. unfold bind. rewrite E1. split; [exact E2|]. destruct B2 as (B2 & O2). split.
    + intros i Hi. rewrite B2 by auto. destruct ks as [|l ks]; [apply B1; auto|].
      assert (Q : forall l, m1 (vplace a (turn l c (vshape x) i)) = m (vplace a (turn l c (vshape x) i))) by (intros l0; apply (becomes_keep x a _ m m1 _ B1 Hse); rewrite Ea; apply turn_in; auto).
      cbn [map fold_left]. rewrite Q. destruct B1 as (B1 & _). rewrite B1 by auto. f_equal. apply map_ext. auto.
    + intros p Hp. rewrite O2 by auto. apply B1. auto.
Qed.
Theorem C116_rolls : forall add k ks (x a : view) (m : mem T), vshape a = vshape x -> nonneg (vshape x) -> apart_at x -> P_Cells.separate x a -> (forall l, In l (k :: ks) -> (l < vrank x)%nat /\ 0 < nth l (vshape x) 0) ->
  exists m1 m2, rolls (roll_up fixed z) put add (k :: ks) x a m = Ok None m1 /\ becomes x (fun i => beside add 1 (vshape x) ks m a i k) m m1 /\
    rolls (roll_down fixed z) put add (k :: ks) x a m = Ok None m2 /\ becomes x (fun i => beside add (-1) (vshape x) ks m a i k) m m2.
Proof.
  intros add k ks x a m Ea Hn Hap Hse Hk. destruct (rolls_from (roll_up fixed z) 1 C116_up add (k :: ks) x a put m) as (m1 & E1 & B1); auto. destruct (rolls_from (roll_down fixed z) (-1) C116_down add (k :: ks) x a put m) as (m2 & E2 & B2); auto.
  exists m1, m2. auto.
Qed.
(* an axis of length 0 *)
Theorem C116_refused : forall f k (x a : view) (m : mem T), (k < vrank x)%nat -> nth k (vshape x) 0 = 0 -> roll_up fixed z f k x a m = Fail m /\ roll_down fixed z f k x a m = Fail m.
Proof.
  intros f k x a m Hk Hp. rewrite vrank_shape in Hk. destruct (axis_split _ k Hk) as (s1 & s2 & Es & L). rewrite Hp in Es. destruct (shape_split _ _ _ _ Es) as (x1 & dx & x2 & Ex & X1 & X2 & X3).
  assert (Q : forall o, from x (along k (run (back 1) (LScalar o)) []) = Refused).
  { intros o. rewrite Ex. replace k with (length x1) by (rewrite <- L, <- X1, map_length; auto). rewrite along_from by exact I. unfold run. cbn [fromb]. rewrite back_value, X2. reflexivity. }
  unfold roll_up, roll_down, slice_assign, bind. rewrite !Q. split; reflexivity.
Qed.

(* ---- the wave equation ---- *)
Lemma item_view : forall (a : view) N s t, vshape a = N :: s -> 0 <= t < N -> exists b, from a [cidx t] = Good b /\ vshape b = s /\ forall i, vplace b i = vplace a (t :: i).
Proof.
  intros [dv p] N s t E Ht. unfold vshape in E. cbn [vdv] in E. destruct dv as [|d dv]; [discriminate|]. injection E as E1 E2. exists (Vw dv (p + t * step d)). split; [|split].
  - rewrite from_fromb; [|repeat constructor|unfold fits, vrank; cbn; lia|cbn; lia]. cbn [vdv vcp cidx fromb]. rewrite E1. unfold inside. replace ((0 <=? t) && (t <? N))%bool with true by (symmetry; apply andb_true_iff; lia). reflexivity.
  - exact E2.
  - intros i. unfold vplace. cbn [vcp vdv place]. lia.
Qed.
Lemma item_in : forall t N i s, 0 <= t < N -> inshape i s -> inshape (t :: i) (N :: s).
Proof. intros. constructor; auto. Qed.
Theorem C116_wave : forall add sub mul (four : T) k ks (a x y : view) N t (m : mem T), vshape a = N :: vshape x -> vshape y = vshape x -> nonneg (vshape x) -> apart_at a -> apart_at x -> apart_at y -> P_Cells.separate x a -> P_Cells.separate y a -> P_Cells.separate y x -> 1 <= t -> t + 1 < N ->
  (forall l, In l (k :: ks) -> (l < vrank x)%nat /\ 0 < nth l (vshape x) 0) ->
  exists at_ m', from a [cidx t] = Good at_ /\ wave_step fixed z add sub mul four (k :: ks) a x y t m = Ok None m' /\
    (forall i, inshape i (vshape x) -> m' (vplace a (t + 1 :: i)) = sub (sub (add (beside add 1 (vshape x) ks m at_ i k) (beside add (-1) (vshape x) ks m at_ i k)) (m (vplace a (t - 1 :: i)))) (mul four (m (vplace a (t :: i))))) /\
    forall p, (forall i, inshape i (vshape x) -> p <> vplace a (t + 1 :: i) /\ p <> vplace x i /\ p <> vplace y i) -> m' p = m p.
Proof.
  intros add sub mul four k ks a x y N t m Ea Ey Hn Haa Hax Hay Hxa Hya Hyx Ht1 Ht2 Hk.
  destruct (item_view a N (vshape x) t Ea ltac:(lia)) as (at_ & F0 & S0 & P0). destruct (item_view a N (vshape x) (t + 1) Ea ltac:(lia)) as (nx & F1 & S1 & P1). destruct (item_view a N (vshape x) (t - 1) Ea ltac:(lia)) as (pv & F2 & S2 & P2).
  exists at_. assert (SA : forall v, P_Cells.separate v a -> P_Cells.separate v at_ ) by (intros v Hv i j Hi Hj; rewrite P0; apply Hv; auto; rewrite Ea; apply item_in; [lia|]; rewrite <- S0; auto).
  destruct (C116_rolls add k ks x at_ m) as (m1 & _ & E1 & B1 & _ & _); auto.
  destruct (C116_rolls add k ks y at_ m1) as (_ & m2 & _ & _ & E2 & B2); rewrite ?Ey; auto. { intros l Hl. rewrite vrank_shape, Ey, <- vrank_shape. auto. }
  assert (K1 : forall i, inshape i (vshape a) -> m1 (vplace a i) = m (vplace a i)) by (intros; eapply becomes_keep; eauto).
  assert (K2 : forall i, inshape i (vshape a) -> m2 (vplace a i) = m1 (vplace a i)) by (intros; eapply becomes_keep; eauto).
  assert (K3 : forall i, inshape i (vshape x) -> m2 (vplace x i) = m1 (vplace x i)) by (intros; eapply becomes_keep; eauto).
  assert (Dx : P_Cells.separate nx x) by (intros i j Hi Hj E; rewrite P1 in E; apply (Hxa j (t + 1 :: i)); auto; rewrite Ea; apply item_in; [lia|]; rewrite <- S1; auto).
  assert (Dy : P_Cells.separate nx y) by (intros i j Hi Hj E; rewrite P1 in E; apply (Hya j (t + 1 :: i)); auto; rewrite Ea; apply item_in; [lia|]; rewrite <- S1; auto).
  assert (DA : forall u b, (forall i, vplace b i = vplace a (u :: i)) -> vshape b = vshape x -> 0 <= u < N -> u <> t + 1 -> P_Cells.separate nx b).
  { intros u b Pb Sb Hu Hne i j Hi Hj E. rewrite P1, Pb in E. apply Haa in E; [injection E as E _; lia| |]; rewrite Ea; apply item_in; try lia; [rewrite <- S1|rewrite <- Sb]; auto. }
  assert (An : apart_at nx) by (intros i j Hi Hj E; rewrite !P1 in E; rewrite S1 in Hi, Hj; apply Haa in E; [injection E; auto| |]; rewrite Ea; apply item_in; auto; lia).
  assert (Sy : vshape y = vshape x) by auto.
  destruct (view_shape (T:=T) x _ eq_refl Hn) as (Wx & Hsx). destruct (view_shape (T:=T) y _ Ey Hn) as (Wy & Hsy). destruct (view_shape (T:=T) pv _ S2 Hn) as (Wp & Hsp). destruct (view_shape (T:=T) at_ _ S0 Hn) as (Wt & Hst).
  destruct (assign_to put nx (times sub (times sub (times add (viter x) (viter y)) (viter pv)) (times mul (Scalar (VT four)) (viter at_))) (vshape x)
    (fun j => sub (sub (add (m2 (vplace x j)) (m2 (vplace y j))) (m2 (vplace pv j))) (mul four (m2 (vplace at_ j)))) m2) as (m3 & E3 & B3); auto.
  - repeat (apply times_wf; auto). exact I.
  - repeat (apply inner_map; apply Forall_cons; [|apply Forall_cons; [|constructor]]); first [apply inner_scalar | apply inner_whole; auto].
  - intros m3 Hm3. assert (Hm3' : forall p, (forall i, inshape i (vshape nx) -> p <> vplace nx i) -> m3 p = m2 p) by (rewrite S1; auto).
    apply (times_reads sub); [apply (times_reads sub); [apply (times_reads add)|]|apply (times_reads mul)].
    + apply (view_reads x nx); auto.
    + apply (view_reads y nx); auto. intros i j Hi Hj. apply Dy; auto. rewrite Ey. auto.
    + apply (view_reads pv nx); auto. intros i j Hi Hj. apply (DA (t - 1) pv); auto; try lia. rewrite S2. auto.
    + intros j Hj. exists (VT four). split; reflexivity.
    + apply (view_reads at_ nx); auto. intros i j Hi Hj. apply (DA t at_); auto; try lia. rewrite S0. auto.
  - exists m3. split; [auto|]. split.
    { unfold wave_step. rewrite F0. cbn [onres]. unfold bind at 1. rewrite E1. unfold bind at 1. rewrite E2. rewrite F1. cbn [onres]. rewrite F2. cbn [onres]. exact E3. }
    destruct B3 as (B3 & O3). rewrite S1 in B3, O3. destruct B1 as (B1 & O1). destruct B2 as (B2 & O2). rewrite Ey in B2, O2. split.
    + intros i Hi. rewrite <- P1, B3 by auto. unfold put. rewrite K3, B1, B2, P0, P2 by auto. rewrite !K2, !K1 by (rewrite Ea; apply item_in; auto; lia). f_equal. f_equal. f_equal.
      assert (Q : forall l c, m1 (vplace at_ (turn l c (vshape x) i)) = m (vplace at_ (turn l c (vshape x) i))) by (intros l c; rewrite P0; apply K1; rewrite Ea; apply item_in; [lia|]; apply turn_in; auto).
      unfold beside. rewrite Q. f_equal. apply map_ext. intros l. apply Q.
    + intros p Hp. rewrite O3, O2, O1; auto; intros i Hi; [apply (Hp i Hi)|apply (Hp i Hi)|rewrite P1; apply (Hp i Hi)].
Qed.

(* ---- differences ---- *)
Lemma scaled : forall mul factor (x : view) (m : mem T), nonneg (vshape x) -> apart_at x -> exists m', assign fixed z mul (viter x) (Scalar (VT factor)) m = Ok None m' /\ becomes x (fun i => mul (m (vplace x i)) factor) m m'.
Proof.
  intros mul factor x m Hn Ha. apply (assign_to mul x (Scalar (VT factor)) (vshape x) (fun _ => factor)); auto.
  - exact I.
  - apply inner_scalar.
  - intros m1 _ j Hj. exists (VT factor). split; reflexivity.
Qed.
Theorem C117_diff : forall sub mul factor k c q (da a : view) (m : mem T), vshape da = vshape a ++ [q] -> nonneg (vshape a) -> apart_at da -> P_Cells.separate da a -> (k < vrank a)%nat -> 0 <= c < q -> 2 <= nth k (vshape a) 0 ->
  exists m', diff fixed z sub mul factor k (vrank a) c da a m = Ok None m' /\
    (forall i, inshape i (vshape a) -> m' (vplace da (i ++ [c])) = mul (sub (m (vplace a (turn k 1 (vshape a) i))) (m (vplace a (turn k (-1) (vshape a) i)))) factor) /\
    forall p, (forall i, inshape i (vshape a) -> p <> vplace da (i ++ [c])) -> m' p = m p.
Proof.
  intros sub mul factor k c q da a m Ed Hn Hap Hse Hk Hc Hp. pose proof Hk as Hk0. rewrite vrank_shape in Hk. destruct (axis_split _ k Hk) as (s1 & s2 & Es & L). set (n := nth k (vshape a) 0) in *.
  destruct (shape_split _ _ _ _ Es) as (a1 & d1 & a2 & Ea & A1 & A2 & A3). pose proof Ed as Ed'. rewrite Es, <- app_assoc in Ed'. cbn [app] in Ed'. destruct (shape_split _ _ _ _ Ed') as (x1 & dx & xr & Ex & X1 & X2 & X3).
  apply map_eq_app in X3 as (x2 & xe & -> & X3 & X4). apply map_eq_cons in X4 as (e & r & -> & X4 & X5). destruct r; [|discriminate]. clear X5 Ed'.
  assert (Ex' : da = Vw ((x1 ++ dx :: x2) ++ [e]) (vcp da)) by (rewrite Ex at 1; f_equal; rewrite <- app_assoc; reflexivity). clear Ex.
  set (px := vcp da + c * step e). set (X := Vw (x1 ++ dx :: x2) px).
  assert (SX : vshape X = vshape a) by (unfold X, vshape at 1; cbn [vdv]; rewrite map_app; cbn [map]; rewrite X1, X2, X3; auto).
  assert (PX : forall i, length i = vrank a -> vplace da (i ++ [c]) = vplace X i).
  { intros i Hi. rewrite Ex'. unfold vplace, X, px. cbn [vcp vdv]. rewrite place_two; [cbn [place]; lia|]. rewrite Hi, vrank_shape, <- SX, <- vrank_shape. reflexivity. }
  assert (IX : forall i, inshape i (vshape a) -> inshape (i ++ [c]) (vshape da)) by (intros i Hi; rewrite Ed; apply join_shape; auto; constructor; [lia|constructor]).
  assert (LX : forall i, inshape i (vshape a) -> length i = vrank a) by (intros i Hi; rewrite vrank_shape; eapply inshape_length; eauto).
  assert (AX : apart_at X). { intros i j Hi Hj E. rewrite SX in *. rewrite <- !PX in E by auto. apply Hap in E; auto. apply app_inj_tail in E. tauto. }
  assert (SeX : P_Cells.separate X a). { intros i j Hi Hj E. rewrite SX in *. rewrite <- PX in E by auto. revert E. apply Hse; auto. }
  assert (Nn : nonneg s1 /\ nonneg s2). { rewrite Es in Hn. unfold nonneg in Hn. apply Forall_app in Hn as (N1 & N2). inversion N2; subst. auto. } destruct Nn as (N1 & N2).
  rewrite Ea in SeX.
  destruct (differences_axis x1 dx x2 px a1 d1 a2 (vcp a) s1 s2 n X1 X3 X2 A1 A3 A2 N1 N2 AX SeX e (vcp da) c ltac:(lia) eq_refl sub m Hp) as (m1 & E1 & B1 & O1).
  destruct (scaled mul factor X m1) as (m2 & E2 & B2 & O2); [rewrite SX; auto|auto|].
  fold X in B1, O1. rewrite <- Ea in B1. rewrite <- Es, L in B1. rewrite SX in *. exists m2.
  assert (Ra : vrank a = (length s1 + S (length s2))%nat) by (rewrite vrank_shape, Es, app_length; reflexivity).
  assert (Lk : len (nth k (vdv da) dim0) = n).
  { rewrite Ex'. cbn [vdv]. rewrite <- app_assoc. cbn [app]. replace k with (length x1) by (rewrite <- L, <- X1, map_length; auto). rewrite app_nth2, Nat.sub_diag by lia. exact X2. }
  split; [|split].
  - unfold diff. rewrite Lk. destruct (Z.geb_spec n 2); [|lia]. unfold bind. rewrite Ra. rewrite Ex' at 1. rewrite <- L. rewrite Ea at 1. rewrite E1.
    rewrite Ex'. rewrite (last_component x1 dx x2 px s1 s2 X1 X3 e (vcp da) c) by (auto; lia). cbn [onres]. exact E2.
  - intros i Hi. rewrite PX by auto. rewrite B2 by auto. rewrite B1 by auto. reflexivity.
  - intros p H. rewrite O2, O1; auto; intros i Hi; rewrite <- PX by auto; auto.
Qed.
(* an axis with fewer than two elements *)
Theorem C117_short : forall sub mul factor k c q (da a : view) (m : mem T), vshape da = vshape a ++ [q] -> (k < vrank a)%nat -> nth k (vshape a) 0 < 2 -> diff fixed z sub mul factor k (vrank a) c da a m = Ok None m.
Proof.
  intros sub mul factor k c q da a m Ed Hk Hs. unfold diff. rewrite vrank_shape in Hk. assert (E : len (nth k (vdv da) dim0) = nth k (vshape a) 0).
  { change (len (nth k (vdv da) dim0) = nth k (vshape a) 0). rewrite <- (map_nth len). change (map len (vdv da)) with (vshape da). rewrite Ed, app_nth1 by auto. apply nth_indep. auto. }
  rewrite E. destruct (Z.geb_spec (nth k (vshape a) 0) 2); [lia|]. reflexivity.
Qed.

(* ---- the last two axes exchanged, or one ---- *)
Lemma front_map : forall (i t : list Z), map (fun sk => nth (Z.to_nat sk) (i ++ t) 0) (map Z.of_nat (seq 0 (length i))) = i.
Proof.
  intros i t. rewrite map_map. apply (list_eq_nth _ _ _ 0); [rewrite map_length, seq_length; auto|]. rewrite map_length, seq_length. intros k Hk. rewrite (nth_map _ _ _ 0%nat) by (rewrite seq_length; auto). rewrite seq_nth by auto. cbn [Nat.add]. rewrite Nat2Z.id. apply app_nth1. auto.
Qed.
Lemma tail_perm : forall (a : view) s n1 n2 u v, vshape a = s ++ [n1; n2] -> nonneg (vshape a) -> (u <= 1)%nat -> (v <= 1)%nat ->
  exists b t, transpose a (map Z.of_nat (seq 0 (length s)) ++ [Z.of_nat (length s + u); Z.of_nat (length s + v)]) = Good b /\ vshape b = s ++ t /\ length t = S (Nat.max u v) /\
    (forall i j, length i = length s -> length j = S (Nat.max u v) -> vplace b (i ++ j) = vplace a (i ++ [nth u j 0; nth v j 0])) /\
    (u = v -> nth u t 0 = Z.min n1 n2) /\ (u <> v -> nth u t 0 = n1 /\ nth v t 0 = n2).
Proof.
  intros a s n1 n2 u v Ea Na Hu Hv. set (r := length s). set (w := map Z.of_nat (seq 0 r) ++ [Z.of_nat (r + u); Z.of_nat (r + v)]).
  assert (Ra : vrank a = (r + 2)%nat) by (rewrite vrank_shape, Ea, app_length; reflexivity).
  assert (Iw : forall x, In x w <-> (0 <= x < Z.of_nat r \/ x = Z.of_nat (r + u) \/ x = Z.of_nat (r + v))).
  { intros x. unfold w. rewrite in_app_iff, in_map_iff. cbn [In]. split.
    - intros [(y & <- & Hy)|[<-|[<-|[]]]]; auto. apply in_seq in Hy. lia.
    - intros [H|[->| ->]]; auto. left. exists (Z.to_nat x). split; [lia|]. apply in_seq. lia. }
  assert (N0 : forall k, (k < r)%nat -> nth k w 0 = Z.of_nat k).
  { intros k Hk. unfold w. rewrite app_nth1 by (rewrite map_length, seq_length; auto). rewrite (nth_map Z.of_nat _ _ 0%nat) by (rewrite seq_length; auto). rewrite seq_nth by auto. auto. }
  assert (N1 : nth r w 0 = Z.of_nat (r + u) /\ nth (r + 1) w 0 = Z.of_nat (r + v)).
  { unfold w. split; rewrite app_nth2 by (rewrite map_length, seq_length; lia); rewrite map_length, seq_length; [rewrite Nat.sub_diag|replace (r + 1 - r)%nat with 1%nat by lia]; reflexivity. } destruct N1 as (N1 & N2).
  assert (Hs : Forall (fun sk => 0 <= sk) w) by (apply Forall_forall; intros x Hx; apply Iw in Hx; lia).
  assert (Lw : length w = vrank a) by (unfold w; rewrite app_length, map_length, seq_length, Ra; reflexivity).
  destruct (C18_transpose a w Hs Lw Na) as (b & Hb & Mx & Bd & Pl & Hd).
  assert (Rb : vrank b = (r + S (Nat.max u v))%nat).
  { assert (In (Z.of_nat (vrank b) - 1) w) as H by (apply Mx; unfold w; destruct (map Z.of_nat (seq 0 r)); discriminate). apply Iw in H. rewrite Forall_forall in Bd.
    pose proof (Bd (Z.of_nat (r + u)) ltac:(apply Iw; auto)). pose proof (Bd (Z.of_nat (r + v)) ltac:(apply Iw; auto)). lia. }
  assert (Sa : forall k, (k < r)%nat -> nth k (vshape a) 0 = nth k s 0) by (intros k Hk; rewrite Ea, app_nth1; auto).
  assert (Sa1 : nth r (vshape a) 0 = n1 /\ nth (r + 1) (vshape a) 0 = n2) by (rewrite Ea; split; rewrite app_nth2 by (unfold r; lia); unfold r; [rewrite Nat.sub_diag|replace (length s + 1 - length s)%nat with 1%nat by lia]; reflexivity). destruct Sa1 as (Sa1 & Sa2).
  assert (Kw : forall k, (k < vrank a)%nat -> ((k < r)%nat /\ nth k w 0 = Z.of_nat k) \/ (k = r /\ nth k w 0 = Z.of_nat (r + u)) \/ (k = (r + 1)%nat /\ nth k w 0 = Z.of_nat (r + v))).
  { intros k Hk. destruct (Nat.lt_ge_cases k r); [left; auto|]. right. rewrite Ra in Hk. destruct (Nat.eq_dec k r) as [->|]; [left; auto|]. right. assert (k = (r + 1)%nat) as -> by lia. auto. }
  assert (Sb : vshape b = s ++ skipn r (vshape b)).
  { rewrite <- (firstn_skipn r (vshape b)) at 1. f_equal. apply (list_eq_nth _ _ _ 0); [rewrite firstn_length, <- vrank_shape, Rb; unfold r; lia|]. rewrite firstn_length, <- vrank_shape, Rb. intros k Hk. rewrite L_Agree.nth_firstn by lia. destruct (Hd k ltac:(lia)) as (_ & H2 & _).
    destruct H2 as (l & Hl & El & ->); [apply Iw; lia|]. destruct (Kw l Hl) as [(K1 & K2)|[(-> & K2)|(-> & K2)]]; rewrite K2 in El; [|lia|lia]. replace l with k by lia. apply Sa. lia. }
  exists b, (skipn r (vshape b)). split; [exact Hb|]. split; [exact Sb|]. split; [rewrite skipn_length, <- vrank_shape, Rb; lia|]. split; [|split].
  - intros i j Li Lj. rewrite Pl by (rewrite app_length, Rb; lia). f_equal. unfold w. rewrite map_app. rewrite <- Li, front_map. f_equal. cbn [map]. rewrite !Nat2Z.id, !app_nth2 by lia. repeat f_equal; lia.
  - intros <-. rewrite nth_skipn. destruct (Hd (r + u)%nat ltac:(lia)) as (_ & H2 & H3). pose proof (H3 r ltac:(lia) N1) as L1. pose proof (H3 (r + 1)%nat ltac:(lia) N2) as L2. destruct H2 as (l & Hl & El & E); [apply Iw; auto|]. rewrite Sa1 in L1. rewrite Sa2 in L2.
    destruct (Kw l Hl) as [(K1 & K2)|[(-> & K2)|(-> & K2)]]; rewrite K2 in El; [lia| |]; rewrite ?Sa1, ?Sa2 in E; lia.
  - intros Huv. rewrite !nth_skipn. split.
    + destruct (Hd (r + u)%nat ltac:(lia)) as (_ & H2 & _). destruct H2 as (l & Hl & El & E); [apply Iw; auto|]. rewrite E. destruct (Kw l Hl) as [(K1 & K2)|[(-> & K2)|(-> & K2)]]; rewrite K2 in El; auto; lia.
    + destruct (Hd (r + v)%nat ltac:(lia)) as (_ & H2 & _). destruct H2 as (l & Hl & El & E); [apply Iw; auto|]. rewrite E. destruct (Kw l Hl) as [(K1 & K2)|[(-> & K2)|(-> & K2)]]; rewrite K2 in El; auto; lia.
Qed.
Lemma exchanged_view : forall (a : view) s n1 n2, vshape a = s ++ [n1; n2] -> nonneg (vshape a) -> exists b, transpose a (exchanged (length s)) = Good b /\ vshape b = s ++ [n2; n1] /\ forall i x y, length i = length s -> vplace b (i ++ [x; y]) = vplace a (i ++ [y; x]).
Proof.
  intros a s n1 n2 Ea Na. destruct (tail_perm a s n1 n2 1 0 Ea Na) as (b & t & Hb & Sb & Lt & Pb & _ & Q); auto. exists b. split; [|split].
  - unfold exchanged. rewrite <- Hb. repeat f_equal; lia.
  - rewrite Sb. f_equal. cbn in Lt. destruct t as [|x [|y [|]]]; try discriminate. destruct (Q ltac:(lia)) as (Q1 & Q2). cbn in Q1, Q2. congruence.
  - intros i x y Li. rewrite Pb by auto. reflexivity.
Qed.
Lemma merged_view : forall (a : view) s n1 n2, vshape a = s ++ [n1; n2] -> nonneg (vshape a) -> exists b, transpose a (merged (length s)) = Good b /\ vshape b = s ++ [Z.min n1 n2] /\ forall i x, length i = length s -> vplace b (i ++ [x]) = vplace a (i ++ [x; x]).
Proof.
  intros a s n1 n2 Ea Na. destruct (tail_perm a s n1 n2 0 0 Ea Na) as (b & t & Hb & Sb & Lt & Pb & Q & _); auto. exists b. split; [|split].
  - unfold merged. rewrite <- Hb. repeat f_equal; lia.
  - rewrite Sb. f_equal. cbn in Lt. destruct t as [|x [|]]; try discriminate. specialize (Q eq_refl). cbn in Q. congruence.
  - intros i x Li. rewrite Pb by auto. reflexivity.
Qed.
Theorem C117_antisym : forall sub (f da : view) s n (m : mem T), vshape da = s ++ [n; n] -> vshape f = vshape da -> nonneg (vshape da) -> apart_at f -> P_Cells.separate f da ->
  exists m', antisym fixed z sub (length s) f da m = Ok None m' /\ (forall i x y, inshape i s -> 0 <= x < n -> 0 <= y < n -> m' (vplace f (i ++ [x; y])) = sub (m (vplace da (i ++ [y; x]))) (m (vplace da (i ++ [x; y])))) /\
    forall p, (forall i, inshape i (vshape f) -> p <> vplace f i) -> m' p = m p.
Proof.
  intros sub f da s n m Ed Ef Nd Hap Hse. destruct (exchanged_view da s n n Ed Nd) as (b & Hb & Sb & Pb). unfold antisym. rewrite Hb. cbn [onres].
  assert (II : forall i x y, inshape i s -> 0 <= x < n -> 0 <= y < n -> inshape (i ++ [x; y]) (vshape da)) by (intros i x y H1 H2 H3; rewrite Ed; apply join_shape; auto; repeat (constructor; auto)).
  destruct (assign_minus sub f b da m) as (m' & E & B & O); auto; try congruence.
  - intros i j Hi Hj. rewrite Sb in Hj. apply two_in in Hj as (j1 & j2 & -> & J1 & J2). inversion J2 as [|x ? ? ? J3 J4]; subst. inversion J4 as [|y ? ? ? J5 J6]; subst. inversion J6; subst. rewrite Pb by (eapply inshape_length; eauto). apply Hse; auto.
  - exists m'. split; [exact E|]. split; [|exact O]. intros i x y H1 H2 H3. rewrite B by (rewrite Ef; auto). rewrite Pb by (eapply inshape_length; eauto). reflexivity.
Qed.
(* with a difference of which x - x is zero and where exchange changes the sign *)
Corollary C117_antisym_sign : forall sub neg (zero : T) (f da : view) s n (m : mem T), (forall x, sub x x = zero) -> (forall x y, sub y x = neg (sub x y)) -> vshape da = s ++ [n; n] -> vshape f = vshape da -> nonneg (vshape da) -> apart_at f -> P_Cells.separate f da ->
  exists m', antisym fixed z sub (length s) f da m = Ok None m' /\ forall i x y, inshape i s -> 0 <= x < n -> 0 <= y < n -> m' (vplace f (i ++ [x; x])) = zero /\ m' (vplace f (i ++ [y; x])) = neg (m' (vplace f (i ++ [x; y]))).
Proof.
  intros sub neg zero f da s n m H1 H2 Ed Ef Nd Hap Hse. destruct (C117_antisym sub f da s n m) as (m' & E & B & _); auto. exists m'. split; [exact E|]. intros i x y Hi Hx Hy. rewrite !B by auto. auto.
Qed.
Theorem C117_antisym_refused : forall sub (f da : view) s n1 n2 (m : mem T), vshape da = s ++ [n1; n2] -> vshape f = vshape da -> nonneg (vshape da) -> n1 <> n2 -> antisym fixed z sub (length s) f da m = Fail m.
Proof.
  intros sub f da s n1 n2 m Ed Ef Nd Hne. destruct (exchanged_view da s n1 n2 Ed Nd) as (b & Hb & Sb & _). unfold antisym. rewrite Hb. cbn [onres]. assert (Nb : nonneg (s ++ [n2; n1])) by (rewrite Ed in Nd; unfold nonneg in *; rewrite Forall_app in *; destruct Nd as (? & N); inversion N as [|? ? ? N']; inversion N'; subst; auto).
  destruct (view_shape (T:=T) b _ Sb Nb) as (Wb & _). destruct (view_shape (T:=T) da _ eq_refl Nd) as (Wd & _). destruct (view_shape (T:=T) f _ Ef Nd) as (Wf & _).
  assert (0 <= n1 /\ 0 <= n2) as (Z1 & Z2) by (rewrite Ed in Nd; unfold nonneg in Nd; apply Forall_app in Nd as (_ & N); inversion N as [|? ? ? N']; inversion N'; subst; auto).
  unfold assign. match goal with |- ply _ _ _ ?e _ = _ => assert (We : wf e) by (apply wf_map; [discriminate|repeat (apply Forall_cons; auto); apply times_wf; auto]) end. apply ply_refused; [auto|]. apply (lens_refused _ _ (length s) n1 n2); auto.
  - cbn [leaf_lens flat_map]. apply in_or_app. left. rewrite viter_lens, vrank_shape, Ef, Ed, app_length. cbn [length]. destruct (Nat.ltb_spec (length s) (length s + 2)); [|lia]. left. rewrite app_nth2, Nat.sub_diag by lia. reflexivity.
  - unfold times. cbn [leaf_lens flat_map]. apply in_or_app. right. rewrite app_nil_r. apply in_or_app. left. rewrite viter_lens, vrank_shape, Sb, app_length. cbn [length]. destruct (Nat.ltb_spec (length s) (length s + 2)); [|lia]. left. rewrite app_nth2, Nat.sub_diag by lia. reflexivity.
Qed.
(* the divergence *)
Theorem C117_divergence : forall add (d da : view) n1 n2 (m : mem T), vshape da = vshape d ++ [n1; n2] -> nonneg (vshape da) -> apart_at d -> P_Cells.separate d da ->
  exists m', divergence fixed z add (vrank d) d da m = Ok None m' /\ becomes d (fun i => fold_left add (map (fun x => m (vplace da (i ++ [x; x]))) (zrange (Z.min n1 n2))) (m (vplace d i))) m m'.
Proof.
  intros add d da n1 n2 m Ed Nd Hap Hse. destruct (merged_view da (vshape d) n1 n2 Ed Nd) as (b & Hb & Sb & Pb). unfold divergence. rewrite vrank_shape, Hb. cbn [onres].
  assert (Nn : nonneg (vshape d) /\ 0 <= Z.min n1 n2) by (rewrite Ed in Nd; unfold nonneg in *; apply Forall_app in Nd as (? & N); inversion N as [|? ? ? N']; inversion N'; subst; split; [auto|lia]). destruct Nn as (Nd1 & Nm).
  assert (Nb : nonneg (vshape d ++ [Z.min n1 n2])) by (unfold nonneg in *; apply Forall_app; auto). destruct (view_shape (T:=T) b _ Sb Nb) as (Wb & Shb). destruct (view_shape (T:=T) d _ eq_refl Nd1) as (Wd & Shd).
  assert (RM : row_major [Z.min n1 n2] (map (fun x => [x]) (zrange (Z.min n1 n2)))).
  { replace (map _ _) with (indices [Z.min n1 n2]); [apply row_major_indices|]. cbn [indices map]. clear. induction (zrange (Z.min n1 n2)); cbn; congruence. }
  destruct (C30_reduce_assign T add (viter d) (viter b) (vshape d) [Z.min n1 n2] _ m (vplace d) (fun j => m (vplace b j)) fixed z Wd Wb Shd Shb RM) as (m' & E & B & O); auto.
  - intros j m1 Hj. rewrite viter_element, vrank_shape, whole_in; auto.
  - intros m1 Hm j Hj. exists (VRef (vplace b j)). rewrite viter_element, vrank_shape, Sb, whole_in by auto. split; [reflexivity|]. cbn. f_equal. apply Hm. intros i Hi Eq.
    apply two_in in Hj as (i1 & i2 & -> & I1 & I2). inversion I2 as [|x ? ? ? I3 I4]; subst. inversion I4; subst. rewrite Pb in Eq by (eapply inshape_length; eauto). apply (Hse i (i1 ++ [x; x])); auto. rewrite Ed. apply join_shape; auto. repeat (constructor; [lia|]). constructor.
  - exists m'. split; [exact E|]. split; [|exact O]. intros i Hi. rewrite B by auto. rewrite map_map. f_equal. apply map_ext. intros x. rewrite Pb by (eapply inshape_length; eauto). reflexivity.
Qed.

(* a function of each cell, assigned *)
Lemma map_cells : forall (f : view -> M (mem T) T) (d S : view) t x (m : mem T), vshape S = vshape d ++ t -> nonneg (vshape d) -> apart_at d ->
  (forall j m1, inshape j (vshape d) -> (forall p, (forall i, inshape i (vshape d) -> p <> vplace d i) -> m1 p = m p) -> f (cell_of S (length (vshape d)) j) m1 = Ok (x j) m1) ->
  exists m', assign_map fixed z f d S (length t) m = Ok None m' /\ becomes d x m m'.
Proof.
  intros f d S t x m ES Nd Hap Hf. pose proof (vrank_shape S) as RS. rewrite ES, app_length in RS. set (sI := vshape d) in *.
  destruct (view_shape (T:=T) d sI eq_refl Nd) as (W0 & S0). unfold assign_map, itern. replace (vrank S - length t)%nat with (length sI) by lia.
  set (ce := Cell (vdv S) (length sI) _ _). assert (Wc : wf ce).
  { cbn. split; [unfold vrank in *; lia|]. apply ok_lens. rewrite <- firstn_map. unfold vshape in ES at 1. rewrite ES, firstn_app, Nat.sub_diag, firstn_all, app_nil_r. exact Nd. }
  assert (Nc : inner ce sI).
  { split; [cbn; lia|]. intros k. unfold ce. cbn [leaf_lens]. destruct (Nat.ltb_spec k (length sI)); [|constructor]. constructor; [|constructor]. left. rewrite <- (map_nth len). change (map len (vdv S)) with (vshape S). rewrite ES, app_nth1 by auto. apply nth_indep; auto. }
  assert (Sv : shape_is (vals (viter (T:=T) d)) sI) by (destruct S0 as (Q1 & Q2); split; [rewrite vals_axes; auto|]; rewrite vals_axes; intros k Hk; rewrite vals_lens; auto).
  assert (Wv : wf (vals (viter (T:=T) d))) by (apply vals_wf; auto).
  assert (Wm : wf (Map (cell_fun f) [ce])) by (apply wf_map; [discriminate|auto]).
  destruct (loop_scatter fixed z Hz _ (Map assign_item [vals (viter d); Map (cell_fun f) [ce]]) put sI (vplace d) x m) as (m' & E1 & E2).
  - apply wf_map; [discriminate|auto].
  - apply joint_shape_map. apply (joint_cover _ _ _ (vals (viter d))); [left; auto|auto|]. apply Forall_cons; [apply inner_whole; auto|]. apply Forall_cons; [|constructor]. apply inner_map. auto.
  - intros j m1 Hj Hm. exists (inr VUnit). pose proof (inshape_length _ _ Hj) as Lj. cbn [element map in_order]. rewrite vals_element, viter_element, vrank_shape, whole_in by auto. cbn [okr].
    unfold ce. cbn [element map in_order]. rewrite (firstn_all2 j) by lia. cbn [cell_fun]. unfold bind at 1.
    replace (Vw _ _) with (cell_of S (length sI) j) by (unfold cell_of; repeat f_equal; lia). rewrite (Hf j m1) by auto. reflexivity.
  - exists m'. split; [exact E1|]. split.
    + intros j Hj. rewrite E2. rewrite (filter_one _ _ _ j); [reflexivity|apply indices_nodup|apply in_indices; auto|]. intros y Hy. apply in_indices in Hy. rewrite Z.eqb_eq. split; [intros; apply Hap; auto|intros ->; auto].
    + intros p Hp. rewrite E2, filter_none; [reflexivity|]. intros y Hy. apply in_indices in Hy. apply Z.eqb_neq. intros E. apply (Hp y); auto.
Qed.
Theorem C117_divergence_map : forall add (zero : T) fi zi (d da : view) n1 n2 (m : mem T), zclean zi -> vshape da = vshape d ++ [n1; n2] -> nonneg (vshape da) -> 0 < n1 -> 0 < n2 -> apart_at d -> P_Cells.separate d da ->
  exists m', divergence_map fixed z add zero fi zi (vrank d) d da m = Ok None m' /\ becomes d (fun i => fold_left add (map (fun x => m (vplace da (i ++ [x; x]))) (zrange (Z.min n1 n2))) zero) m m'.
Proof.
  intros add zero fi zi d da n1 n2 m Hzi Ed Nd P1 P2 Hap Hse. destruct (merged_view da (vshape d) n1 n2 Ed Nd) as (b & Hb & Sb & Pb). unfold divergence_map. rewrite vrank_shape, Hb. cbn [onres].
  assert (Nd1 : nonneg (vshape d)) by (rewrite Ed in Nd; unfold nonneg in *; apply Forall_app in Nd as (? & N); auto).
  set (k := Z.min n1 n2) in *. assert (Nk : nonneg [k]) by (constructor; [lia|constructor]).
  apply (map_cells _ d b [k]); auto. intros j m1 Hj Hm. pose proof (cell_of_shape b (vshape d) [k] j Sb) as Sc. destruct (view_shape (T:=T) _ _ Sc Nk) as (Wc & Shc).
  rewrite (C31_sum_partial T add zero _ [k] (indices [k]) m1 (fun x => m (vplace da (j ++ [nth 0 x 0; nth 0 x 0]))) fi zi); auto using row_major_indices.
  - f_equal. f_equal. cbn [indices map]. rewrite flat_map_concat_map, concat_map, map_map. cbn [map nth]. clear. induction (zrange k); cbn; congruence.
  - intros x Hx. inversion Hx as [|y ? ? ? Hy Hx']; subst. inversion Hx'; subst. exists (VRef (vplace da (j ++ [y; y]))). rewrite viter_element, vrank_shape, Sc, whole_in by auto. rewrite (cell_of_place b (vshape d) [k]) by auto. rewrite Pb by (eapply inshape_length; eauto). split; [reflexivity|]. cbn. f_equal.
    apply Hm. intros i Hi E. symmetry in E. revert E. apply Hse; auto. rewrite Ed. apply join_shape; auto. repeat (constructor; [lia|]). constructor.
  - exists [0]. constructor; [lia|constructor].
Qed.
(* the two in the example are the same, if the first begins with zeros *)
Corollary C117_divergence_same : forall add (zero : T) fi zi (d da : view) n1 n2 (m : mem T), zclean zi -> vshape da = vshape d ++ [n1; n2] -> nonneg (vshape da) -> 0 < n1 -> 0 < n2 -> apart_at d -> P_Cells.separate d da -> (forall i, inshape i (vshape d) -> m (vplace d i) = zero) ->
  exists m1 m2, divergence fixed z add (vrank d) d da m = Ok None m1 /\ divergence_map fixed z add zero fi zi (vrank d) d da m = Ok None m2 /\ (forall i, inshape i (vshape d) -> m1 (vplace d i) = m2 (vplace d i)) /\ forall p, (forall i, inshape i (vshape d) -> p <> vplace d i) -> m1 p = m2 p.
Proof.
  intros add zero fi zi d da n1 n2 m Hzi Ed Nd P1 P2 Hap Hse H0. destruct (C117_divergence add d da n1 n2 m) as (m1 & E1 & B1 & O1); auto. destruct (C117_divergence_map add zero fi zi d da n1 n2 m) as (m2 & E2 & B2 & O2); auto. exists m1, m2.
  split; [auto|]. split; [auto|]. split; [intros i Hi; rewrite B1, B2, H0 by auto; reflexivity|]. intros p Hp. rewrite O1, O2 by auto. reflexivity.
Qed.
End Roll.

(* ---- examples ---- *)
(* A is 4x2x3 at 0, with A(t, i, j) at 6t + 3i + j; X and Y are 2x3, at 100 and 200 *)
Definition rA : view := Vw [Dim 4 6; Dim 2 3; Dim 3 1] 0.
Definition rX : view := Vw [Dim 2 3; Dim 3 1] 100.
Definition rY : view := Vw [Dim 2 3; Dim 3 1] 200.
Definition rM : mem Z := fun p => if p <? 100 then p * p else 0.
Lemma in2 : forall i a b, inshape i [a; b] -> exists x y, i = [x; y] /\ 0 <= x < a /\ 0 <= y < b.
Proof. intros i a b H. inversion H as [|x ? ? ? H1 H2]; subst. inversion H2 as [|y ? ? ? H3 H4]; subst. inversion H4; subst. exists x, y. auto. Qed.
Lemma in3 : forall i a b c, inshape i [a; b; c] -> exists x y w, i = [x; y; w] /\ 0 <= x < a /\ 0 <= y < b /\ 0 <= w < c.
Proof. intros i a b c H. inversion H as [|x ? ? ? H1 H2]; subst. apply in2 in H2 as (y & w & -> & H3 & H4). exists x, y, w. auto. Qed.
Example ex_wave_hyps : vshape rA = 4 :: vshape rX /\ vshape rY = vshape rX /\ nonneg (vshape rX) /\ apart_at rA /\ apart_at rX /\ apart_at rY /\ P_Cells.separate rX rA /\ P_Cells.separate rY rA /\ P_Cells.separate rY rX /\
  (forall l, In l [0; 1]%nat -> (l < vrank rX)%nat /\ 0 < nth l (vshape rX) 0).
Proof.
  split; [reflexivity|]. split; [reflexivity|]. split; [repeat (constructor; [cbn; lia|]); constructor|]. split; [|split; [|split; [|split; [|split; [|split]]]]].
  - intros i j Hi Hj E. apply in3 in Hi as (x & y & w & -> & H1 & H2 & H3). apply in3 in Hj as (x' & y' & w' & -> & H1' & H2' & H3'). cbn [len] in *. unfold vplace in E. cbn [rA vcp vdv place step] in E. assert (x = x') by lia. assert (y = y') by lia. assert (w = w') by lia. congruence.
  - intros i j Hi Hj E. apply in2 in Hi as (x & y & -> & H1 & H2). apply in2 in Hj as (x' & y' & -> & H1' & H2'). cbn [len] in *. unfold vplace in E. cbn [rX vcp vdv place step] in E. assert (x = x') by lia. assert (y = y') by lia. congruence.
  - intros i j Hi Hj E. apply in2 in Hi as (x & y & -> & H1 & H2). apply in2 in Hj as (x' & y' & -> & H1' & H2'). cbn [len] in *. unfold vplace in E. cbn [rY vcp vdv place step] in E. assert (x = x') by lia. assert (y = y') by lia. congruence.
  - intros i j Hi Hj. apply in2 in Hi as (x & y & -> & H1 & H2). apply in3 in Hj as (x' & y' & w' & -> & H1' & H2' & H3'). cbn [len] in *. unfold vplace. cbn [rX rA vcp vdv place step]. lia.
  - intros i j Hi Hj. apply in2 in Hi as (x & y & -> & H1 & H2). apply in3 in Hj as (x' & y' & w' & -> & H1' & H2' & H3'). cbn [len] in *. unfold vplace. cbn [rY rA vcp vdv place step]. lia.
  - intros i j Hi Hj. apply in2 in Hi as (x & y & -> & H1 & H2). apply in2 in Hj as (x' & y' & -> & H1' & H2'). cbn [len] in *. unfold vplace. cbn [rX rY vcp vdv place step]. lia.
  - intros l [<-|[<-|[]]]; cbn; lia.
Qed.
Example ex_wave : sees (wave_step false [] Z.add Z.sub Z.mul 4 [0; 1]%nat rA rX rY 1 rM) 12 6 = [131; 103; 67; -40; -116; -200] /\
  sees (roll_up true [] put 1 rX (Vw [Dim 2 3; Dim 3 1] 0) rM) 100 6 = [1; 4; 0; 16; 25; 9] /\ sees (roll_down true [] put 1 rX (Vw [Dim 2 3; Dim 3 1] 0) rM) 100 6 = [4; 0; 1; 25; 9; 16] /\
  sees (roll_up true [] Z.add 0 rX (Vw [Dim 2 3; Dim 3 1] 0) rM) 100 6 = [9; 16; 25; 0; 1; 4].
Proof. vm_compute. repeat split. Qed.
(* DA is 4x2x3x2, at 300 *)
Definition rD : view := Vw [Dim 4 12; Dim 2 6; Dim 3 2; Dim 2 1] 300.
Example ex_diff_hyps : vshape rD = vshape rA ++ [2] /\ nonneg (vshape rA) /\ apart_at rD /\ P_Cells.separate rD rA.
Proof.
  split; [reflexivity|]. split; [repeat (constructor; [cbn; lia|]); constructor|]. split.
  - intros i j Hi Hj E. inversion Hi as [|x ? ? ? H1 Hi']; subst. apply in3 in Hi' as (y & w & v & -> & H2 & H3 & H4). inversion Hj as [|x' ? ? ? H1' Hj']; subst. apply in3 in Hj' as (y' & w' & v' & -> & H2' & H3' & H4'). cbn [len] in *. unfold vplace in E. cbn [rD vcp vdv place step] in E.
    assert (x = x') by lia. assert (y = y') by lia. assert (w = w') by lia. assert (v = v') by lia. congruence.
  - intros i j Hi Hj. inversion Hi as [|x ? ? ? H1 Hi']; subst. apply in3 in Hi' as (y & w & v & -> & H2 & H3 & H4). apply in3 in Hj as (x' & y' & w' & -> & H1' & H2' & H3'). cbn [len] in *. unfold vplace. cbn [rD rA vcp vdv place step]. lia.
Qed.
Example ex_diff : sees (diff false [] Z.sub Z.mul 10 2 3 1 rD rA rM) 300 12 = [0; -30; 0; 40; 0; -10; 0; -90; 0; 160; 0; -70] /\
  sees (diff false [] Z.sub Z.mul 10 1 3 0 rD rA rM) 300 12 = [0; 0; 0; 0; 0; 0; 0; 0; 0; 0; 0; 0] /\ 
  sees (diff true [] Z.sub Z.mul (-1) 0 3 0 rD rA rM) 300 12 = [288; 0; 312; 0; 336; 0; 360; 0; 384; 0; 408; 0].
Proof. vm_compute. repeat split. Qed.
(* F is 2x3x3 and so is DA *)
Definition rE : view := Vw [Dim 2 9; Dim 3 3; Dim 3 1] 0.
Definition rF : view := Vw [Dim 2 9; Dim 3 3; Dim 3 1] 100.
Definition rV : view := Vw [Dim 2 1] 200.
Example ex_antisym_hyps : vshape rE = [2] ++ [3; 3] /\ vshape rF = vshape rE /\ nonneg (vshape rE) /\ apart_at rF /\ P_Cells.separate rF rE /\ vshape rE = vshape rV ++ [3; 3] /\ apart_at rV /\ P_Cells.separate rV rE.
Proof.
  split; [reflexivity|]. split; [reflexivity|]. split; [repeat (constructor; [cbn; lia|]); constructor|]. split; [|split; [|split; [reflexivity|split]]].
  - intros i j Hi Hj E. apply in3 in Hi as (x & y & w & -> & H1 & H2 & H3). apply in3 in Hj as (x' & y' & w' & -> & H1' & H2' & H3'). cbn [len] in *. unfold vplace in E. cbn [rF vcp vdv place step] in E. assert (x = x') by lia. assert (y = y') by lia. assert (w = w') by lia. congruence.
  - intros i j Hi Hj. apply in3 in Hi as (x & y & w & -> & H1 & H2 & H3). apply in3 in Hj as (x' & y' & w' & -> & H1' & H2' & H3'). cbn [len] in *. unfold vplace. cbn [rE rF vcp vdv place step]. lia.
  - intros i j Hi Hj E. inversion Hi as [|x ? ? ? H1 Hi']; subst. inversion Hi'; subst. inversion Hj as [|x' ? ? ? H1' Hj']; subst. inversion Hj'; subst. cbn [len] in *. unfold vplace in E. cbn [rV vcp vdv place step] in E. f_equal. lia.
  - intros i j Hi Hj. inversion Hi as [|x ? ? ? H1 Hi']; subst. inversion Hi'; subst. apply in3 in Hj as (x' & y' & w' & -> & H1' & H2' & H3'). cbn [len] in *. unfold vplace. cbn [rE rV vcp vdv place step] in *. lia.
Qed.
Example ex_antisym : sees (antisym false [] Z.sub 1 rF rE rM) 100 9 = [0; 8; 32; -8; 0; 24; -32; -24; 0] /\ sees (divergence false [] Z.add 1 rV rE rM) 200 2 = [80; 539] /\ sees (divergence_map false [] Z.add 0 true [] 1 rV rE rM) 200 2 = [80; 539].
Proof. vm_compute. repeat split. Qed.
Example ex_antisym_refused : antisym false [] Z.sub 1 (Vw [Dim 2 6; Dim 3 2; Dim 2 1] 100) (Vw [Dim 2 6; Dim 3 2; Dim 2 1] 0) rM = Fail rM.
Proof. reflexivity. Qed.

Print Assumptions C116_up.
Print Assumptions C116_down.
Print Assumptions C116_round.
Print Assumptions C116_rolls.
Print Assumptions C116_refused.
Print Assumptions C116_wave.
Print Assumptions C117_diff.
Print Assumptions C117_short.
Print Assumptions C117_antisym.
Print Assumptions C117_antisym_sign.
Print Assumptions C117_antisym_refused.
Print Assumptions C117_divergence.
Print Assumptions C117_divergence_map.
Print Assumptions C117_divergence_same.
