(* Assignment by cells: C108. *)
From Coq Require Import ZArith List Lia Bool.
From Verif Require Import Spec M_Base M_Expr M_Ply L_Spec L_Expr Spec_Ply L_Ply Spec_Expr L_Agree L_Run M_Val Spec_Val L_Val P_Reduce M_View L_View Spec_View P_View M_Mat Spec_Mat P_Mat P_Ref M_Cell P_Cell M_Cells.
Import ListNotations.
Open Scope Z_scope.

(* s is the longer of u and v, and the other one is a prefix of it *)
Definition longer (u v s : list Z) : Prop := (s = u \/ s = v) /\ (exists r, s = u ++ r) /\ exists r, s = v ++ r.

Section Cells.
Context {T : Type}.
Variables (fixed fi : bool) (z zi : list zt).
Hypothesis Hz : zclean z.
Hypothesis Hzi : zclean zi.

Lemma longer_nth : forall (u v s : list Z) k, longer u v s -> ((k < length u)%nat -> nth k u 0 = nth k s 0) /\ ((k < length v)%nat -> nth k v 0 = nth k s 0) /\ length s = Nat.max (length u) (length v).
Proof.
  intros u v s k ([-> | ->] & (r & E1) & (r' & E2)).
  - split; [auto|]. split; [intros H; rewrite E2, app_nth1; auto|]. assert (L := f_equal (@length Z) E2). rewrite app_length in L. lia.
  - split; [intros H; rewrite E1, app_nth1; auto|]. split; [auto|]. assert (L := f_equal (@length Z) E1). rewrite app_length in L. lia.
Qed.
Lemma longer_sym : forall u v s, longer u v s -> longer v u s.
Proof. intros u v s (H & E1 & E2). split; [tauto|]. auto. Qed.
Lemma longer_in : forall u v s j, longer u v s -> inshape j s -> inshape (firstn (length u) j) u.
Proof.
  intros u v s j (_ & (r & ->) & _) H. revert j H. induction u as [|n u IH]; intros j H; cbn [length firstn app] in *; [constructor|]. inversion H as [|i n' j' s' Hi Hj']; subst. cbn [firstn]. constructor; [auto|]. apply IH. auto.
Qed.

Lemma first_nth : forall (A : Type) f (l : list A) k d, (k < f)%nat -> nth k (firstn f l) d = nth k l d.
Proof. induction f as [|f IH]; intros l k d H; [lia|]. destruct l; [reflexivity|]. destruct k; [reflexivity|]. cbn. apply IH. lia. Qed.
(* expressions of one leaf each *)
Lemma two_joint : forall (A : Type) dv f (g : Z -> A) p dw f' (g' : Z -> A) p' u v s, (f <= length dv)%nat -> (f' <= length dw)%nat -> firstn f (map len dv) = u -> firstn f' (map len dw) = v -> nonneg u -> nonneg v -> longer u v s ->
  joint_shape (W := mem T) [Cell dv f g p; Cell dw f' g' p'] s.
Proof.
  intros A dv f g p dw f' g' p' u v s Hf Hf' Eu Ev Nu Nv Hl.
  assert (Lu : length u = f) by (rewrite <- Eu, firstn_length, map_length; lia). assert (Lv : length v = f') by (rewrite <- Ev, firstn_length, map_length; lia).
  split; [cbn [fold_right axes]; destruct (longer_nth u v s 0 Hl) as (_ & _ & ->); lia|]. intros k Hk. cbn [fold_right axes] in Hk. destruct (longer_nth u v s k Hl) as (N1 & N2 & Ls).
  assert (D1 : (k < f)%nat -> len (nth k dv dim0) = nth k s 0).
  { intros H. rewrite <- N1, <- Eu by lia. rewrite first_nth by auto. change 0 with (len dim0). rewrite map_nth. reflexivity. }
  assert (D2 : (k < f')%nat -> len (nth k dw dim0) = nth k s 0).
  { intros H. rewrite <- N2, <- Ev by lia. rewrite first_nth by auto. change 0 with (len dim0). rewrite map_nth. reflexivity. }
  cbn [flat_map leaf_lens]. rewrite app_nil_r. split.
  - destruct (Nat.lt_ge_cases k f) as [H|H]; [rewrite <- N1 by lia; apply Forall_nth; [exact Nu|lia]|rewrite <- N2 by lia; apply Forall_nth; [exact Nv|lia]].
  - destruct (Nat.ltb_spec k f) as [H|H], (Nat.ltb_spec k f') as [H'|H']; try lia; cbn [app]; rewrite ?D1, ?D2 by auto; (split; [left; auto|repeat constructor; auto]).
Qed.

Lemma prod_maps : forall (A B C D : Type) (g : A -> C) (h : B -> D) l k, list_prod (map g l) (map h k) = map (fun x => (g (fst x), h (snd x))) (list_prod l k).
Proof. induction l as [|a l IH]; intros k; cbn [list_prod map]; [reflexivity|]. rewrite map_app, IH, !map_map. reflexivity. Qed.
Lemma nodup_app : forall A (l m : list A), NoDup l -> NoDup m -> (forall x, In x l -> In x m -> False) -> NoDup (l ++ m).
Proof.
  induction l as [|a l IH]; intros m H1 H2 H; [exact H2|]. inversion H1; subst. cbn. constructor.
  - rewrite in_app_iff. intros [?|?]; [auto|]. apply (H a); auto. left; auto.
  - apply IH; auto. intros x Hx. apply H. right; auto.
Qed.
Lemma prod_nodup : forall (A B : Type) (l : list A) (k : list B), NoDup l -> NoDup k -> NoDup (list_prod l k).
Proof.
  intros A B l k Hl Hk. induction Hl as [|a l Ha Hl IH]; cbn [list_prod]; [constructor|]. apply nodup_app; auto.
  - apply FinFun.Injective_map_NoDup; auto. intros x y E. congruence.
  - intros (x, y) H1 H2. apply in_map_iff in H1 as (y' & E & _). apply in_prod_iff in H2 as (H2 & _). congruence.
Qed.

(* the cell of v at j, when it has f frame axes *)
Definition cell_at (v : view) (f : nat) (j : list Z) : view := Vw (skipn f (vdv v)) (vcp v + place (firstn f (vdv v)) (firstn f j)).
Lemma cell_shape : forall v f j u t, vshape v = u ++ t -> length u = f -> vshape (cell_at v f j) = t.
Proof.
  intros v f j u t E L. unfold vshape, cell_at in *. cbn [vdv]. rewrite <- skipn_map, E, <- L, skipn_app, skipn_all, Nat.sub_diag. reflexivity.
Qed.
Lemma cell_place : forall v f j i, length (firstn f j) = f -> (f <= vrank v)%nat -> vplace (cell_at v f j) i = vplace v (firstn f j ++ i).
Proof.
  intros v f j i L H. unfold vplace, cell_at. cbn [vcp vdv]. rewrite place_split by (unfold vrank in H; lia). rewrite L. lia.
Qed.
Lemma firstn_vrank : forall v u t, vshape v = u ++ t -> vrank v = (length u + length t)%nat.
Proof. intros v u t E. rewrite <- app_length, <- E. unfold vrank, vshape. rewrite map_length. reflexivity. Qed.
Lemma ok_lens : forall (dv : list dim), nonneg (map len dv) -> Forall (fun d => oklen (len d)) dv.
Proof. intros dv H. apply Forall_forall. intros d Hd. left. unfold nonneg in H. rewrite Forall_forall in H. apply H. apply in_map; auto. Qed.

(* the elements of the operation on a pair of cells, in order, and the places they come from and go to *)
Lemma cell_pair : forall f a b sa ta sb tb s t j (m : mem T), vshape a = sa ++ ta -> vshape b = sb ++ tb -> nonneg (sa ++ ta) -> nonneg (sb ++ tb) -> longer sa sb s -> longer ta tb t -> inshape j s ->
  (forall j' i' j'' i'', inshape j' s -> inshape i' t -> inshape j'' s -> inshape i'' t ->
    vplace a (firstn (length sa) j' ++ firstn (length ta) i') <> vplace b (firstn (length sb) j'' ++ firstn (length tb) i'')) ->
  exists m', cell_op fi zi f [cell_at a (length sa) j; cell_at b (length sb) j] m = Ok (cell_at a (length sa) j) m' /\
    scattered f (indices t) (fun i => vplace a (firstn (length sa) j ++ firstn (length ta) i)) (fun i => m (vplace b (firstn (length sb) j ++ firstn (length tb) i))) m m'.
Proof.
  intros f a b sa ta sb tb s t j m Ea Eb Na Nb Hs Ht Hj Hap.
  pose proof (inshape_length _ _ (longer_in _ _ _ _ Hs Hj)) as La. pose proof (inshape_length _ _ (longer_in _ _ _ _ (longer_sym _ _ _ Hs) Hj)) as Lb.
  set (c := cell_at a (length sa) j). set (u := cell_at b (length sb) j).
  assert (Ec : vshape c = ta) by (eapply cell_shape; eauto). assert (Eu : vshape u = tb) by (eapply cell_shape; eauto).
  unfold nonneg in Na, Nb. apply Forall_app in Na as (Nsa & Nta). apply Forall_app in Nb as (Nsb & Ntb).
  assert (Pc : forall i, vplace c i = vplace a (firstn (length sa) j ++ i)). { intros i. apply cell_place; auto. rewrite (firstn_vrank a _ _ Ea). lia. }
  assert (Pu : forall i, vplace u i = vplace b (firstn (length sb) j ++ i)). { intros i. apply cell_place; auto. rewrite (firstn_vrank b _ _ Eb). lia. }
  assert (Rc : vrank c = length ta) by (rewrite (firstn_vrank c [] ta); auto). assert (Ru : vrank u = length tb) by (rewrite (firstn_vrank u [] tb); auto).
  destruct (assign_ref T f (viter c) (viter u) t m (fun i => vplace a (firstn (length sa) j ++ firstn (length ta) i)) (fun i => m (vplace b (firstn (length sb) j ++ firstn (length tb) i))) fi zi) as (m' & E1 & E2); auto.
  - apply viter_wf, ok_lens. change (nonneg (vshape c)). rewrite Ec. auto.
  - apply viter_wf, ok_lens. change (nonneg (vshape u)). rewrite Eu. auto.
  - unfold viter. apply two_joint with (u := ta) (v := tb); auto; unfold vrank; [rewrite <- (map_length len), firstn_all; auto|rewrite <- (map_length len), firstn_all; auto].
  - intros i m' Hi _. rewrite (viter_refers c t i m' Hi), Pc, Rc. reflexivity.
  - intros i m' Hi U. exists (VRef (vplace u (firstn (vrank u) i))). split; [apply (viter_refers u t); auto|]. cbn [value_of]. f_equal. rewrite Pu, Ru. apply U. intros i' Hi' _ E. symmetry in E. revert E. apply Hap; auto.
  - exists m'. split; [|auto]. cbn [cell_op]. unfold bind. rewrite E1. reflexivity.
Qed.

(* no element of a is at the place of an element of b *)
Definition separate (a b : view) : Prop := forall i j, inshape i (vshape a) -> inshape j (vshape b) -> vplace a i <> vplace b j.
Lemma join_shape : forall (s : list Z) t i j, inshape i s -> inshape j t -> inshape (i ++ j) (s ++ t).
Proof. intros s t i j H1 H2. induction H1; cbn [app]; [auto|constructor; auto]. Qed.

(* pa, pb: the places of the elements of a and b that go with index j of the frame and index i of the cells *)
Definition pair_place (v : view) (s t : list Z) (ji : list Z * list Z) : Z := vplace v (firstn (length s) (fst ji) ++ firstn (length t) (snd ji)).

Lemma filter_map : forall (A B : Type) (p : B -> bool) (g : A -> B) l, filter p (map g l) = map g (filter (fun x => p (g x)) l).
Proof. induction l; cbn; [reflexivity|]. destruct (p (g a)); cbn; rewrite IHl; reflexivity. Qed.

Lemma cells_each : forall f a b sa ta sb tb s t, vshape a = sa ++ ta -> vshape b = sb ++ tb -> nonneg (sa ++ ta) -> nonneg (sb ++ tb) -> longer sa sb s -> longer ta tb t -> separate a b ->
  forall js, Forall (fun j => inshape j s) js -> forall m : mem T,
  exists m', each (element (Map (cell_op fi zi f) [Cell (vdv a) (length sa) (fun p => Vw (skipn (length sa) (vdv a)) p) (vcp a); Cell (vdv b) (length sb) (fun p => Vw (skipn (length sb) (vdv b)) p) (vcp b)])) js m = Ok tt m' /\
    forall p, m' p = fold_left f (map (fun ji => m (pair_place b sb tb ji)) (filter (fun ji => pair_place a sa ta ji =? p) (list_prod js (indices t)))) (m p).
Proof.
  intros f a b sa ta sb tb s t Ea Eb Na Nb Hs Ht Hab js Hjs.
  assert (Hap : forall j' i' j'' i'', inshape j' s -> inshape i' t -> inshape j'' s -> inshape i'' t ->
    vplace a (firstn (length sa) j' ++ firstn (length ta) i') <> vplace b (firstn (length sb) j'' ++ firstn (length tb) i'')).
  { intros j' i' j'' i'' H1 H2 H3 H4. apply Hab; [rewrite Ea|rewrite Eb]; apply join_shape.
    - eapply longer_in; eauto. - eapply longer_in; eauto. - eapply longer_in; [apply longer_sym|]; eauto. - eapply longer_in; [apply longer_sym|]; eauto. }
  induction Hjs as [|j js Hj Hjs IH]; intros m.
  - exists m. split; reflexivity.
  - destruct (cell_pair f a b sa ta sb tb s t j m) as (m1 & E1 & S1); auto. destruct (IH m1) as (m2 & E2 & S2). exists m2. split.
    + cbn [each element map in_order]. fold (cell_at a (length sa) j). fold (cell_at b (length sb) j). rewrite E1. exact E2.
    + intros p. rewrite S2. cbn [list_prod]. rewrite filter_app, map_app, fold_left_app, filter_map, map_map. f_equal.
      * apply map_ext_in. intros (j', i') Hi. apply filter_In in Hi as (Hi & _). apply in_prod_iff in Hi as (Hj' & Hi). rewrite Forall_forall in Hjs. apply Hjs in Hj'. apply in_indices in Hi.
        unfold pair_place. cbn [fst snd]. rewrite S1, filter_none; [reflexivity|]. intros y Hy. apply in_indices in Hy. apply Z.eqb_neq. apply Hap; auto.
      * apply S1.
Qed.

(* ---- C108 ---- *)

(* iter<ca>(a) f= iter<cb>(b). sa, sb: the shapes of the frames; ta, tb: of the cells. One is a prefix of the other and s, t are the longer of them. The cells are matched in order, and within them, the elements:
   each place of a gets all that goes to it, in that order. *)
Theorem C108_cells : forall f a ca b cb sa ta sb tb s t (m : mem T), vshape a = sa ++ ta -> vshape b = sb ++ tb -> frame_axes (vrank a) ca (length sa) -> frame_axes (vrank b) cb (length sb) ->
  nonneg (sa ++ ta) -> nonneg (sb ++ tb) -> longer sa sb s -> longer ta tb t -> separate a b ->
  exists m', assign_cells fixed fi z zi f a ca b cb m = Ok None m' /\
    forall p, m' p = fold_left f (map (fun ji => m (pair_place b sb tb ji)) (filter (fun ji => pair_place a sa ta ji =? p) (list_prod (indices s) (indices t)))) (m p).
Proof.
  intros f a ca b cb sa ta sb tb s t m Ea Eb Fa Fb Na Nb Hs Ht Hab. unfold assign_cells. rewrite (icell_frame _ _ _ _ Fa), (icell_frame _ _ _ _ Fb).
  destruct (cells_each f a b sa ta sb tb s t Ea Eb Na Nb Hs Ht Hab (indices s)) with (m := m) as (m' & E & S); [apply Forall_forall; intros j; apply in_indices|]. exists m'. split; [|exact S].
  unfold nonneg in Na, Nb. pose proof Na as Na'. pose proof Nb as Nb'. apply Forall_app in Na' as (Nsa & _). apply Forall_app in Nb' as (Nsb & _).
  pose proof (firstn_vrank a _ _ Ea) as Ra. pose proof (firstn_vrank b _ _ Eb) as Rb. unfold vrank in Ra, Rb.
  rewrite (ply_spec _ _ _ no_stop fixed z _ s (indices s)); auto.
  - rewrite visit_each, E. reflexivity.
  - apply wf_map; [discriminate|]. assert (W : forall (v : view) u t' (g : Z -> view), vshape v = u ++ t' -> nonneg u -> (length u <= length (vdv v))%nat -> wf (W := mem T) (Cell (vdv v) (length u) g (vcp v))).
    { intros v u t' g E' Nu L. cbn [wf]. split; [auto|]. apply ok_lens. rewrite <- firstn_map. unfold vshape in E'. rewrite E', firstn_app, firstn_all, Nat.sub_diag, firstn_O, app_nil_r. auto. }
    constructor; [eapply W; eauto; lia|constructor; [eapply W; eauto; lia|auto]].
  - apply joint_shape_map. apply two_joint with (u := sa) (v := sb); auto; try lia.
    + fold (vshape a). rewrite Ea, firstn_app, firstn_all, Nat.sub_diag, firstn_O, app_nil_r. auto.
    + fold (vshape b). rewrite Eb, firstn_app, firstn_all, Nat.sub_diag, firstn_O, app_nil_r. auto.
  - apply row_major_indices.
Qed.

Lemma filter_prod : forall (A B : Type) (q : A -> bool) (r : B -> bool) l k, filter (fun x => q (fst x) && r (snd x)) (list_prod l k) = list_prod (filter q l) (filter r k).
Proof.
  induction l as [|a l IH]; intros k; cbn [list_prod filter]; [reflexivity|]. rewrite filter_app, filter_map, IH. cbn [fst snd]. destruct (q a); cbn [list_prod andb]; [reflexivity|]. rewrite filter_none; auto.
Qed.
Lemma filter_flat_one : forall (A B : Type) (q : B -> bool) (g : A -> list B) x l, NoDup l -> In x l -> (forall y b, In y l -> In b (g y) -> q b = true <-> y = x) -> filter q (flat_map g l) = g x.
Proof.
  induction l as [|a l IH]; intros Hn Hi Hq; [destruct Hi|]. inversion Hn; subst. cbn [flat_map]. rewrite filter_app. destruct Hi as [->|Hi].
  - replace (filter q (g x)) with (g x). 2: { symmetry. assert (F : forall b, In b (g x) -> q b = true) by (intros b Hb; apply (Hq x); [left|..]; auto). clear - F. induction (g x) as [|b k IH]; cbn; [auto|]. rewrite F by (left; auto). f_equal. apply IH. intros; apply F; right; auto. }
    rewrite filter_none; [apply app_nil_r|]. intros b Hb. apply in_flat_map in Hb as (y & Hy & Hb). apply not_true_is_false. intros E. apply (Hq y) in E; [subst; auto|right; auto|auto].
  - rewrite filter_none; [|intros b Hb; apply not_true_is_false; intros E; apply (Hq a) in E; [subst; auto|left; auto|auto]]. cbn [app]. apply IH; auto. intros y b Hy. apply Hq. right; auto.
Qed.
Lemma filter_front : forall s t i0, inshape i0 s -> forall q : list Z -> bool, (forall i j, inshape i s -> inshape j t -> q (i ++ j) = true <-> i = i0) -> filter q (indices (s ++ t)) = map (app i0) (indices t).
Proof.
  intros s t i0 Hi q Hq. rewrite indices_app. apply (filter_flat_one _ _ q (fun i => map (app i) (indices t))); [apply indices_nodup|apply in_indices; auto|].
  intros y b Hy Hb. apply in_map_iff in Hb as (j & <- & Hj). apply in_indices in Hy, Hj. apply Hq; auto.
Qed.
Lemma front : forall (i j : list Z) s, inshape i s -> firstn (length s) (i ++ j) = i.
Proof. intros i j s H. rewrite <- (inshape_length _ _ H), firstn_app, firstn_all, Nat.sub_diag, firstn_O, app_nil_r. reflexivity. Qed.
Lemma longer_l : forall s r, longer s (s ++ r) (s ++ r).
Proof. intros. split; [auto|]. split; [exists r; auto|exists []; rewrite app_nil_r; auto]. Qed.
Definition apart_at (a : view) : Prop := forall i j, inshape i (vshape a) -> inshape j (vshape a) -> vplace a i = vplace a j -> i = j.
Lemma whole_in : forall i s, inshape i s -> firstn (length s) i = i.
Proof. intros i s H. rewrite <- (inshape_length _ _ H), firstn_all. reflexivity. Qed.
Lemma split_eq : forall (i i' j j' : list Z) s, inshape i s -> inshape i' s -> i ++ j = i' ++ j' -> i = i' /\ j = j'.
Proof.
  intros i i' j j' s H H' E. assert (L : length i = length i') by (rewrite (inshape_length _ _ H), (inshape_length _ _ H'); reflexivity). clear - E L. revert i' E L.
  induction i as [|x i IH]; intros [|x' i'] E L; try discriminate; cbn [app] in E; [auto|]. injection E as -> E. injection L as L. destruct (IH i' E L) as (-> & ->). auto.
Qed.

(* The frame and the cells of the destination are shorter: each element of a is combined with those of b at the cells over s2, in order, and in each of these, with the elements over t2, in order. *)
Theorem C108_reduce : forall f a ca b cb s1 s2 t1 t2 (m : mem T), vshape a = s1 ++ t1 -> vshape b = (s1 ++ s2) ++ t1 ++ t2 -> frame_axes (vrank a) ca (length s1) -> frame_axes (vrank b) cb (length (s1 ++ s2)) ->
  nonneg ((s1 ++ s2) ++ t1 ++ t2) -> separate a b -> apart_at a ->
  exists m', assign_cells fixed fi z zi f a ca b cb m = Ok None m' /\
    (forall j i, inshape j s1 -> inshape i t1 -> m' (vplace a (j ++ i)) = fold_left f (map (fun kl => m (vplace b ((j ++ fst kl) ++ i ++ snd kl))) (list_prod (indices s2) (indices t2))) (m (vplace a (j ++ i)))) /\
    forall p, (forall i, inshape i (vshape a) -> p <> vplace a i) -> m' p = m p.
Proof.
  intros f a ca b cb s1 s2 t1 t2 m Ea Eb Fa Fb Nb Hab Hd. assert (Na : nonneg (s1 ++ t1)) by (unfold nonneg in *; rewrite !Forall_app in *; tauto).
  destruct (C108_cells f a ca b cb s1 t1 (s1 ++ s2) (t1 ++ t2) (s1 ++ s2) (t1 ++ t2) m) as (m' & E & S); auto using longer_l. exists m'. split; [auto|]. split.
  - intros j i Hj Hi. rewrite S. rewrite (filter_ext_in _ (fun ji => (if list_eq_dec Z.eq_dec (firstn (length s1) (fst ji)) j then true else false) && (if list_eq_dec Z.eq_dec (firstn (length t1) (snd ji)) i then true else false))).
    + rewrite (filter_prod _ _ (fun x => if list_eq_dec Z.eq_dec (firstn (length s1) x) j then true else false) (fun x => if list_eq_dec Z.eq_dec (firstn (length t1) x) i then true else false)).
      rewrite (filter_front s1 s2 j), (filter_front t1 t2 i); auto.
      2: { intros x y Hx Hy. rewrite (front x y t1 Hx). destruct (list_eq_dec Z.eq_dec x i); split; auto; discriminate. }
      2: { intros x y Hx Hy. rewrite (front x y s1 Hx). destruct (list_eq_dec Z.eq_dec x j); split; auto; discriminate. }
      f_equal. rewrite prod_maps, map_map. apply map_ext_in. intros (k, l) Hkl. apply in_prod_iff in Hkl as (Hk & Hl). apply in_indices in Hk, Hl. unfold pair_place. cbn [fst snd].
      rewrite (whole_in (j ++ k)), (whole_in (i ++ l)); auto using join_shape.
    + intros (x, y) Hxy. apply in_prod_iff in Hxy as (Hx & Hy). apply in_indices in Hx, Hy. unfold pair_place. cbn [fst snd].
      assert (Hx' : inshape (firstn (length s1) x) s1) by (eapply longer_in; eauto using longer_l). assert (Hy' : inshape (firstn (length t1) y) t1) by (eapply longer_in; eauto using longer_l).
      destruct (Z.eqb_spec (vplace a (firstn (length s1) x ++ firstn (length t1) y)) (vplace a (j ++ i))) as [Ep|Ep].
      * apply Hd in Ep; try (rewrite Ea; apply join_shape; auto). destruct (split_eq _ _ _ _ s1 Hx' Hj Ep) as (-> & ->). destruct (list_eq_dec Z.eq_dec j j); [|tauto]. destruct (list_eq_dec Z.eq_dec i i); [reflexivity|tauto].
      * destruct (list_eq_dec Z.eq_dec (firstn (length s1) x) j) as [<-|]; [|reflexivity]. destruct (list_eq_dec Z.eq_dec (firstn (length t1) y) i) as [<-|]; [tauto|reflexivity].
  - intros p Hp. rewrite S, filter_none; [reflexivity|]. intros (x, y) Hxy. apply in_prod_iff in Hxy as (Hx & Hy). apply in_indices in Hx, Hy. unfold pair_place. cbn [fst snd]. apply Z.eqb_neq. intros <-.
    apply (Hp (firstn (length s1) x ++ firstn (length t1) y)); [|reflexivity]. rewrite Ea. apply join_shape; eapply longer_in; eauto using longer_l.
Qed.

(* The frame and the cells of the source are shorter: each cell of it is used for all the cells of the destination that begin with its index, and each of its elements for all of those of the cell that begin with its own. *)
Theorem C108_spread : forall f a ca b cb s1 s2 t1 t2 (m : mem T), vshape a = (s1 ++ s2) ++ t1 ++ t2 -> vshape b = s1 ++ t1 -> frame_axes (vrank a) ca (length (s1 ++ s2)) -> frame_axes (vrank b) cb (length s1) ->
  nonneg ((s1 ++ s2) ++ t1 ++ t2) -> separate a b -> apart_at a ->
  exists m', assign_cells fixed fi z zi f a ca b cb m = Ok None m' /\
    (forall j k i l, inshape j s1 -> inshape k s2 -> inshape i t1 -> inshape l t2 -> m' (vplace a ((j ++ k) ++ i ++ l)) = f (m (vplace a ((j ++ k) ++ i ++ l))) (m (vplace b (j ++ i)))) /\
    forall p, (forall i, inshape i (vshape a) -> p <> vplace a i) -> m' p = m p.
Proof.
  intros f a ca b cb s1 s2 t1 t2 m Ea Eb Fa Fb Na Hab Hd. assert (Nb : nonneg (s1 ++ t1)) by (unfold nonneg in *; rewrite !Forall_app in *; tauto).
  destruct (C108_cells f a ca b cb (s1 ++ s2) (t1 ++ t2) s1 t1 (s1 ++ s2) (t1 ++ t2) m) as (m' & E & S); auto using longer_l, longer_sym. exists m'. split; [auto|]. split.
  - intros j k i l Hj Hk Hi Hl. rewrite S. rewrite (filter_one _ _ _ (j ++ k, i ++ l)).
    + cbn [map fold_left]. unfold pair_place. cbn [fst snd]. rewrite (front j k s1 Hj), (front i l t1 Hi). reflexivity.
    + apply prod_nodup; apply indices_nodup.
    + apply in_prod_iff. split; apply in_indices; apply join_shape; auto.
    + intros (x, y) Hxy. apply in_prod_iff in Hxy as (Hx & Hy). apply in_indices in Hx, Hy. unfold pair_place. cbn [fst snd]. rewrite !whole_in by auto. rewrite Z.eqb_eq. split.
      * intros Ep. apply Hd in Ep; try (rewrite Ea; apply join_shape; auto using join_shape). destruct (split_eq _ _ _ _ (s1 ++ s2) Hx (join_shape _ _ _ _ Hj Hk) Ep) as (-> & ->). reflexivity.
      * intros Ep. injection Ep as -> ->. reflexivity.
  - intros p Hp. rewrite S, filter_none; [reflexivity|]. intros (x, y) Hxy. apply in_prod_iff in Hxy as (Hx & Hy). apply in_indices in Hx, Hy. unfold pair_place. cbn [fst snd]. apply Z.eqb_neq. intros <-.
    rewrite !whole_in in Hp by auto. apply (Hp (x ++ y)); [|reflexivity]. rewrite Ea. apply join_shape; auto.
Qed.

(* expressions with the same lengths and the same elements *)
Lemma ply_same : forall (X R : Type) (post : X -> option R) (e1 e2 : expr X (mem T)) fx zs m, wf e1 -> wf e2 -> zclean zs -> axes e1 = axes e2 -> (forall k x, In x (leaf_lens e1 k) <-> In x (leaf_lens e2 k)) ->
  (forall j m', element e1 j m' = element e2 j m') -> ply fx post zs e1 m = ply fx post zs e2 m.
Proof.
  intros X R post e1 e2 fx zs m W1 W2 Hzs Ha Hl He. destruct (validate e1) eqn:V.
  - pose proof (shape_shape_is e1 W1 V) as (L1 & S1). rewrite (ply_spec _ _ _ post fx zs e1 (shape e1) (indices (shape e1))); auto; [|split; auto|apply row_major_indices].
    rewrite (ply_spec _ _ _ post fx zs e2 (shape e1) (indices (shape e1))); auto; [|split; [lia|]|apply row_major_indices].
    + apply visit_get_ext. auto.
    + intros k Hk. rewrite <- Ha in Hk. destruct (S1 k Hk) as (H1 & H2 & H3). split; [auto|]. split; [apply Hl; auto|]. rewrite Forall_forall in *. intros x Hx. apply H3, Hl; auto.
  - rewrite !ply_refused; auto.
    + intros A. apply agreeing_shape in A as (s & L & S); auto. apply shape_is_shape with (s := s) in W1 as (_ & V'); [congruence|]. split; [congruence|]. intros k Hk. rewrite Ha in Hk. destruct (S k Hk) as (H1 & H2 & H3).
      split; [auto|]. split; [apply Hl; auto|]. rewrite Forall_forall in *. intros x Hx. apply H3, Hl; auto.
    + intros A. apply validate_iff in A; auto. congruence.
Qed.

(* the same in the cells *)
Lemma cell_same : forall g c u (m : mem T), Forall (fun d => oklen (len d)) (vdv c) -> Forall (fun d => oklen (len d)) (vdv u) -> cell_op2 fi zi g [c; c; u] m = cell_op fi zi g [c; u] m.
Proof.
  intros g c u m Hc Hu. cbn [cell_op2 cell_op]. unfold bind, assign.
  rewrite (ply_same _ _ no_stop (Map (assign_op (fun _ x => x)) [viter c; Map (both g) [viter c; viter u]]) (Map (assign_op g) [viter c; viter u]) fi zi m); auto.
  - apply wf_map; [discriminate|]. constructor; [apply viter_wf; auto|]. constructor; [|auto]. apply wf_map; [discriminate|]. constructor; [apply viter_wf; auto|]. constructor; [apply viter_wf; auto|auto].
  - apply wf_map; [discriminate|]. constructor; [apply viter_wf; auto|]. constructor; [apply viter_wf; auto|auto].
  - cbn [axes fold_right]. lia.
  - intros k x. cbn [leaf_lens flat_map]. rewrite !app_nil_r, !in_app_iff. tauto.
Qed.

(* iter<ca>(a) = g(iter<ca>(a), iter<cb>(b)) is the same as iter<ca>(a) g= iter<cb>(b), whatever the shapes, even if the elements of a and b overlap. *)
Theorem C108_expr : forall g a ca b cb (m : mem T), Forall (fun d => oklen (len d)) (vdv a) -> Forall (fun d => oklen (len d)) (vdv b) -> assign_cells2 fixed fi z zi g a ca b cb m = assign_cells fixed fi z zi g a ca b cb m.
Proof.
  intros g a ca b cb m Ha Hb. unfold assign_cells2, assign_cells.
  destruct (C56_ranks (mem T) a ca) as [(fa & Fa & _)|(_ & ->)]; [|reflexivity]. destruct (C56_ranks (mem T) b cb) as [(fb & Fb & _)|(_ & ->)]; [|rewrite (icell_frame _ _ _ _ Fa); reflexivity].
  rewrite (icell_frame _ _ _ _ Fa), (icell_frame _ _ _ _ Fb). destruct Fa as (Fa & _), Fb as (Fb & _). unfold vrank in Fa, Fb.
  assert (Sk : forall n dv, Forall (fun d => oklen (len d)) dv -> Forall (fun d => oklen (len d)) (skipn n dv) /\ Forall (fun d => oklen (len d)) (firstn n dv)).
  { intros n dv H. rewrite <- (firstn_skipn n dv) in H. apply Forall_app in H. tauto. }
  destruct (Sk fa _ Ha) as (Ha1 & Ha2). destruct (Sk fb _ Hb) as (Hb1 & Hb2).
  apply ply_same; auto.
  - apply wf_map; [discriminate|]. constructor; [|constructor; [|constructor; [|auto]]]; cbn [wf]; auto.
  - apply wf_map; [discriminate|]. constructor; [|constructor; [|auto]]; cbn [wf]; auto.
  - cbn [axes fold_right]. lia.
  - intros k x. cbn [leaf_lens flat_map]. rewrite !app_nil_r, !in_app_iff. tauto.
  - intros j m'. cbn [element map in_order]. apply cell_same; auto.
Qed.
(* for_each([&](auto && u) { a = g(a, u); }, iter<cb>(b)) is the same as iter<rank of a>(a) g= iter<cb>(b). *)
Theorem C108_for_each : forall g a b cb (m : mem T), Forall (fun d => oklen (len d)) (vdv a) -> Forall (fun d => oklen (len d)) (vdv b) -> for_cells fixed fi z zi g a b cb m = assign_cells fixed fi z zi g a (Z.of_nat (vrank a)) b cb m.
Proof.
  intros g a b cb m Ha Hb. unfold for_cells, assign_cells. rewrite (icell_frame _ a _ 0%nat); [|unfold frame_axes; lia].
  destruct (C56_ranks (mem T) b cb) as [(fb & Fb & _)|(_ & ->)]; [|reflexivity]. rewrite (icell_frame _ _ _ _ Fb). destruct Fb as (Fb & _). unfold vrank in Fb.
  assert (Sk : forall n dv, Forall (fun d => oklen (len d)) dv -> Forall (fun d => oklen (len d)) (skipn n dv) /\ Forall (fun d => oklen (len d)) (firstn n dv)).
  { intros n dv H. rewrite <- (firstn_skipn n dv) in H. apply Forall_app in H. tauto. }
  destruct (Sk fb _ Hb) as (Hb1 & Hb2). apply ply_same; auto.
  - apply wf_map; [discriminate|]. constructor; [|auto]; cbn [wf]; auto.
  - apply wf_map; [discriminate|]. constructor; [|constructor; [|auto]]; cbn [wf]; auto. split; [lia|constructor].
  - intros k x. cbn [leaf_lens flat_map Nat.ltb Nat.leb app]. tauto.
  - intros j m'. cbn [element map in_order firstn place skipn]. rewrite Z.add_0_r. destruct a as [dv cp]. cbn [vdv vcp] in *. apply cell_same; auto.
Qed.

(* Frames that don't agree are refused and nothing is assigned. *)
Theorem C108_disagree : forall f a ca b cb fa fb k (m : mem T), Forall (fun d => oklen (len d)) (vdv a) -> Forall (fun d => oklen (len d)) (vdv b) -> frame_axes (vrank a) ca fa -> frame_axes (vrank b) cb fb ->
  (k < fa)%nat -> (k < fb)%nat -> 0 <= nth k (vshape a) 0 -> 0 <= nth k (vshape b) 0 -> nth k (vshape a) 0 <> nth k (vshape b) 0 -> assign_cells fixed fi z zi f a ca b cb m = Fail m.
Proof.
  intros f a ca b cb fa fb k m Ha Hb Fa Fb Ka Kb Na Nb Hne. unfold assign_cells. rewrite (icell_frame _ _ _ _ Fa), (icell_frame _ _ _ _ Fb). destruct Fa as (Fa & _), Fb as (Fb & _). unfold vrank in Fa, Fb.
  assert (Sk : forall n dv, Forall (fun d => oklen (len d)) dv -> Forall (fun d => oklen (len d)) (firstn n dv)). { intros n dv H. rewrite <- (firstn_skipn n dv) in H. apply Forall_app in H. tauto. }
  assert (W : wf (W := mem T) (Map (cell_op fi zi f) [Cell (vdv a) fa (fun p => Vw (skipn fa (vdv a)) p) (vcp a); Cell (vdv b) fb (fun p => Vw (skipn fb (vdv b)) p) (vcp b)])).
  { apply wf_map; [discriminate|]. constructor; [|constructor; [|auto]]; cbn [wf]; auto. }
  apply ply_refused; auto. unfold vshape in *. change 0 with (len dim0) in *. rewrite !map_nth in *. apply (lens_refused _ _ k (len (nth k (vdv a) dim0)) (len (nth k (vdv b) dim0))); auto; cbn [leaf_lens flat_map]; rewrite app_nil_r, in_app_iff.
  - left. rewrite (proj2 (Nat.ltb_lt k fa)) by auto. left; auto.
  - right. rewrite (proj2 (Nat.ltb_lt k fb)) by auto. left; auto.
Qed.
(* Cells that don't agree are refused when it gets to the first of them. *)
Theorem C108_cells_disagree : forall f a ca b cb sa ta sb tb s k (m : mem T), vshape a = sa ++ ta -> vshape b = sb ++ tb -> frame_axes (vrank a) ca (length sa) -> frame_axes (vrank b) cb (length sb) ->
  nonneg (sa ++ ta) -> nonneg (sb ++ tb) -> longer sa sb s -> (k < length ta)%nat -> (k < length tb)%nat -> nth k ta 0 <> nth k tb 0 ->
  assign_cells fixed fi z zi f a ca b cb m = match indices s with [] => Ok None m | _ => Fail m end.
Proof.
  intros f a ca b cb sa ta sb tb s k m Ea Eb Fa Fb Na Nb Hs Ka Kb Hne. unfold assign_cells. rewrite (icell_frame _ _ _ _ Fa), (icell_frame _ _ _ _ Fb).
  unfold nonneg in Na, Nb. pose proof Na as Na'. pose proof Nb as Nb'. apply Forall_app in Na' as (Nsa & Nta). apply Forall_app in Nb' as (Nsb & Ntb).
  pose proof (firstn_vrank a _ _ Ea) as Ra. pose proof (firstn_vrank b _ _ Eb) as Rb. unfold vrank in Ra, Rb.
  rewrite (ply_spec _ _ _ no_stop fixed z _ s (indices s)); auto.
  - rewrite visit_each. destruct (indices s) as [|j js] eqn:Ej; [reflexivity|]. assert (Hj : inshape j s) by (apply in_indices; rewrite Ej; left; auto).
    cbn [each element map in_order]. fold (cell_at a (length sa) j). fold (cell_at b (length sb) j). cbn [cell_op]. unfold bind.
    assert (Ec : vshape (cell_at a (length sa) j) = ta) by (eapply cell_shape; eauto). assert (Eu : vshape (cell_at b (length sb) j) = tb) by (eapply cell_shape; eauto).
    unfold assign. rewrite ply_refused; [reflexivity|..].
    + apply wf_map; [discriminate|]. constructor; [apply viter_wf, ok_lens; change (nonneg (vshape (cell_at a (length sa) j))); rewrite Ec; auto|].
      constructor; [apply viter_wf, ok_lens; change (nonneg (vshape (cell_at b (length sb) j))); rewrite Eu; auto|auto].
    + apply (lens_refused _ _ k (nth k ta 0) (nth k tb 0)); auto; try (apply Forall_nth; auto; fail).
      * apply wf_map; [discriminate|]. constructor; [apply viter_wf, ok_lens; change (nonneg (vshape (cell_at a (length sa) j))); rewrite Ec; auto|].
        constructor; [apply viter_wf, ok_lens; change (nonneg (vshape (cell_at b (length sb) j))); rewrite Eu; auto|auto].
      * cbn [leaf_lens flat_map viter]. rewrite in_app_iff. left. rewrite <- Ec in *. unfold vshape in *. rewrite map_length in Ka. unfold vrank. rewrite (proj2 (Nat.ltb_lt _ _) Ka). left. change 0 with (len dim0). rewrite map_nth. reflexivity.
      * cbn [leaf_lens flat_map viter]. rewrite !in_app_iff. right; left. rewrite <- Eu in *. unfold vshape in *. rewrite map_length in Kb. unfold vrank. rewrite (proj2 (Nat.ltb_lt _ _) Kb). left. change 0 with (len dim0). rewrite map_nth. reflexivity.
  - apply wf_map; [discriminate|]. assert (W : forall (v : view) u t' (g : Z -> view), vshape v = u ++ t' -> nonneg u -> (length u <= length (vdv v))%nat -> wf (W := mem T) (Cell (vdv v) (length u) g (vcp v))).
    { intros v u t' g E' Nu L. cbn [wf]. split; [auto|]. apply ok_lens. rewrite <- firstn_map. unfold vshape in E'. rewrite E', firstn_app, firstn_all, Nat.sub_diag, firstn_O, app_nil_r. auto. }
    constructor; [eapply W; eauto; lia|constructor; [eapply W; eauto; lia|auto]].
  - apply joint_shape_map. apply two_joint with (u := sa) (v := sb); auto; try lia.
    + fold (vshape a). rewrite Ea, firstn_app, firstn_all, Nat.sub_diag, firstn_O, app_nil_r. auto.
    + fold (vshape b). rewrite Eb, firstn_app, firstn_all, Nat.sub_diag, firstn_O, app_nil_r. auto.
  - apply row_major_indices.
Qed.
End Cells.

(* A 2 x 3 at 0, x of 3 at 10, y of 2 at 20: max= by columns, by rows, both by elements of the cells; and a row to each row. *)
Definition exA2 := Vw [Dim 2 3; Dim 3 1] 0.
Definition exX := Vw [Dim 3 1] 10.
Definition exY := Vw [Dim 2 1] 20.
Definition exM (p : Z) : Z := nth (Z.to_nat p) [5; 1; 7; 2; 8; 3; 0; 0; 0; 0; -9; 6; -9; 0; 0; 0; 0; 0; 0; 0; 4; 4] 0.
Example C108_ex : vshape exX = [] ++ [3] /\ vshape exA2 = ([] ++ [2]) ++ [3] ++ [] /\ frame_axes (vrank exX) 1 0 /\ frame_axes (vrank exA2) 1 1 /\ separate exX exA2 /\ apart_at exX /\
  vshape exY = [2] ++ [] /\ vshape exA2 = ([2] ++ []) ++ [] ++ [3] /\ frame_axes (vrank exY) 0 1 /\ separate exY exA2 /\ apart_at exY /\ separate exA2 exX /\ apart_at exA2 /\
  (exists m', assign_cells false true z_init z_init Z.max exX 1 exA2 1 exM = Ok None m' /\ map m' [10; 11; 12] = [5; 8; 7]) /\
  (exists m', for_cells true false z_init z_init Z.max exX exA2 1 exM = Ok None m' /\ map m' [10; 11; 12] = [5; 8; 7]) /\
  (exists m', assign_cells2 true false z_init z_init Z.max exY 0 exA2 1 exM = Ok None m' /\ map m' [20; 21] = [7; 8]) /\
  (exists m', assign_cells false false z_init z_init Z.add exA2 1 exX 1 exM = Ok None m' /\ map m' [0; 1; 2; 3; 4; 5] = [-4; 7; -2; -7; 14; -6]) /\
  assign_cells false false z_init z_init Z.add exA2 1 exX 0 exM = Fail exM /\ assign_cells false false z_init z_init Z.add exA2 1 exY 1 exM = Fail exM.
Proof.
  assert (S1 : forall n i, inshape i [n] -> exists x, i = [x] /\ 0 <= x < n). { intros n i H. inversion H as [|x ? ? ? Hx H']; inversion H'; subst. exists x. auto. }
  assert (S2 : forall n k i, inshape i [n; k] -> exists x y, i = [x; y] /\ 0 <= x < n /\ 0 <= y < k). { intros n k i H. inversion H as [|x ? ? ? Hx H']; subst. destruct (S1 _ _ H') as (y & -> & Hy). exists x, y. auto. }
  split; [reflexivity|]. split; [reflexivity|]. split; [unfold frame_axes; cbn; lia|]. split; [unfold frame_axes; cbn; lia|].
  split. { intros i j Hi Hj. unfold vshape in Hi, Hj. cbn [exA2 exX exY vdv map len] in Hi, Hj. apply S1 in Hi as (x & -> & Hx). apply S2 in Hj as (y & w & -> & Hy & Hw). unfold vplace. cbn [exX exA2 vcp vdv place step]. lia. }
  split. { intros i j Hi Hj. unfold vshape in Hi, Hj. cbn [exA2 exX exY vdv map len] in Hi, Hj. apply S1 in Hi as (x & -> & Hx). apply S1 in Hj as (y & -> & Hy). unfold vplace. cbn [exX vcp vdv place step]. intros. f_equal. lia. }
  split; [reflexivity|]. split; [reflexivity|]. split; [unfold frame_axes; cbn; lia|].
  split. { intros i j Hi Hj. unfold vshape in Hi, Hj. cbn [exA2 exX exY vdv map len] in Hi, Hj. apply S1 in Hi as (x & -> & Hx). apply S2 in Hj as (y & w & -> & Hy & Hw). unfold vplace. cbn [exY exA2 vcp vdv place step]. lia. }
  split. { intros i j Hi Hj. unfold vshape in Hi, Hj. cbn [exA2 exX exY vdv map len] in Hi, Hj. apply S1 in Hi as (x & -> & Hx). apply S1 in Hj as (y & -> & Hy). unfold vplace. cbn [exY vcp vdv place step]. intros. f_equal. lia. }
  split. { intros i j Hi Hj. unfold vshape in Hi, Hj. cbn [exA2 exX exY vdv map len] in Hi, Hj. apply S2 in Hi as (x & v & -> & Hx & Hv). apply S1 in Hj as (y & -> & Hy). unfold vplace. cbn [exX exA2 vcp vdv place step]. lia. }
  split. { intros i j Hi Hj. unfold vshape in Hi, Hj. cbn [exA2 exX exY vdv map len] in Hi, Hj. apply S2 in Hi as (x & v & -> & Hx & Hv). apply S2 in Hj as (y & w & -> & Hy & Hw). unfold vplace. cbn [exA2 vcp vdv place step]. intros. assert (x = y) by lia. subst. f_equal. f_equal. lia. }
  split; [eexists; split; vm_compute; reflexivity|]. split; [eexists; split; vm_compute; reflexivity|]. split; [eexists; split; vm_compute; reflexivity|]. split; [eexists; split; vm_compute; reflexivity|].
  split; vm_compute; reflexivity.
Qed.

Print Assumptions C108_cells.
Print Assumptions C108_reduce.
Print Assumptions C108_spread.
Print Assumptions C108_expr.
Print Assumptions C108_for_each.
Print Assumptions C108_disagree.
Print Assumptions C108_cells_disagree.
