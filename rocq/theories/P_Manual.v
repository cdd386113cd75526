(* Property C142: programs of the manual (docs/ra-ra.texi), and the results that it gives. *)
From Coq Require Import ZArith List Lia Bool.
From Verif Require Import Spec L_Spec Spec_Ply Spec_Expr M_Base M_Expr M_Ply M_Val Spec_Val L_Expr L_Agree L_Ply L_Stl L_Run L_Val P_Reduce M_View Spec_View L_View P_View M_Slice Spec_Slice L_Slice P_Slice M_Frame M_Mat Spec_Mat P_Mat P_Outer M_Cell P_Cell M_Cells P_Cells M_Deep P_Deep M_Doc P_Doc M_Stencil P_Stencil P_Roll M_Total P_Total M_Manual.
Import ListNotations.
Open Scope Z_scope.

Section Manual.
Context {T : Type}.
Variables (fixed fi : bool) (z zi : list zt).
Hypothesis Hz : zclean z.
Hypothesis Hzi : zclean zi.
Notation ex := (expr (val T) (mem T)).

(* ---- scalar(a) ---- *)
(* scalar(a) f= e takes in each element of e, in row-major order. e doesn't read a. *)
Theorem C142_scalar : forall f p (e : ex) s x (m : mem T), wf e -> shape_is e s -> (forall m1, (forall q, q <> p -> m1 q = m q) -> reads e s m1 x) ->
  exists m', into_scalar fixed z f p e m = Ok None m' /\ (forall js, row_major s js -> m' p = fold_left f (map x js) (m p)) /\ forall q, q <> p -> m' q = m q.
Proof.
  intros f p e s x m We Se Re. unfold into_scalar.
  assert (J : joint_shape [Scalar (VRef p); e] s).
  { apply (joint_cover _ _ _ e); [right; left; auto|auto|]. apply Forall_cons; [apply inner_scalar|]. apply Forall_cons; [apply inner_whole; auto|constructor]. }
  destruct (assign_scatter T f (Scalar (VRef p)) e s m (fun _ => p) x fixed z) as (m' & E & V); auto.
  { exact I. } { intros j m1 _. reflexivity. }
  { intros j m1 Hj Hm. apply Re; auto. }
  exists m'. split; [exact E|]. split.
  - intros js Hjs. apply row_major_unique in Hjs. subst js. rewrite V. do 2 f_equal. clear. induction (indices s) as [|j l IH]; cbn [filter]; auto. rewrite Z.eqb_refl in *. f_equal. exact IH.
  - intros q Hq. rewrite V, filter_none; [reflexivity|]. intros j _. apply Z.eqb_neq. auto.
Qed.

Lemma with_reads : forall g k (v : view) (m : mem T), nonneg (vshape v) -> wf (with_scalar g k v) /\ shape_is (with_scalar g k v) (vshape v) /\ reads (with_scalar g k v) (vshape v) m (fun j => g k (m (vplace v j))).
Proof.
  intros g k v m Nv. destruct (view_shape (T:=T) v _ eq_refl Nv) as (Wv & Sv). unfold with_scalar. split; [|split].
  - apply wf_map; [discriminate|]. apply Forall_cons; [exact I|]. apply Forall_cons; auto.
  - apply joint_shape_map. apply (joint_cover _ _ _ (viter v)); [right; left; auto|auto|]. apply Forall_cons; [apply inner_scalar|]. apply Forall_cons; [apply inner_whole; auto|constructor].
  - intros j Hj. exists (VT (g k (m (vplace v j)))). split; [|reflexivity]. cbn [element map in_order]. rewrite viter_element, vrank_shape, whole_in by auto. reflexivity.
Qed.

(* scalar(a) f= g(k, v): k is taken with each element of v. *)
Theorem C142_scalar_with : forall f g p k (v : view) (m : mem T), nonneg (vshape v) -> (forall j, inshape j (vshape v) -> vplace v j <> p) ->
  exists m', into_scalar fixed z f p (with_scalar g k v) m = Ok None m' /\ (forall js, row_major (vshape v) js -> m' p = fold_left f (map (fun j => g k (m (vplace v j))) js) (m p)) /\ forall q, q <> p -> m' q = m q.
Proof.
  intros f g p k v m Nv Hp. destruct (with_reads g k v m Nv) as (W & S & _). apply C142_scalar; auto.
  intros m1 Hm j Hj. destruct (with_reads g k v m1 Nv) as (_ & _ & R). destruct (R j Hj) as (u & E & Eu). exists u. split; auto. rewrite Eu, Hm by auto. reflexivity.
Qed.

(* scalar(a) = v leaves the last element of v, if any. *)
Theorem C142_scalar_last : forall p (v : view) (m : mem T), nonneg (vshape v) -> (forall j, inshape j (vshape v) -> vplace v j <> p) ->
  exists m', into_scalar fixed z put p (viter v) m = Ok None m' /\ (forall j, inshape j (vshape v) -> (forall j', inshape j' (vshape v) -> j' = j \/ lexlt j' j) -> m' p = m (vplace v j)) /\
    ((forall j, ~ inshape j (vshape v)) -> m' p = m p) /\ forall q, q <> p -> m' q = m q.
Proof.
  intros p v m Nv Hp. destruct (view_shape (T:=T) v _ eq_refl Nv) as (Wv & Sv).
  destruct (C142_scalar put p (viter v) (vshape v) (fun j => m (vplace v j)) m) as (m' & E & V & K); auto.
  { intros m1 Hm j Hj. exists (VRef (vplace v j)). rewrite viter_element, vrank_shape, whole_in by auto. split; [reflexivity|]. cbn. rewrite Hm; auto. }
  exists m'. split; [exact E|]. split; [|split; [|exact K]].
  - intros j Hj Hl. rewrite (V _ (row_major_indices _)). pose proof (row_major_indices (vshape v)) as Hr.
    assert (In j (indices (vshape v))) as Hin by (apply in_indices; auto). apply in_split in Hin as (l1 & l2 & El).
    destruct l2 as [|y l2].
    + rewrite El, map_app, fold_left_app. reflexivity.
    + exfalso. assert (E2 : indices (vshape v) = (l1 ++ [j]) ++ y :: l2) by (rewrite El, <- app_assoc; reflexivity).
      destruct (row_major_split _ _ _ _ _ Hr E2) as (Hy & Hlt). assert (Hjy : lexlt j y) by (apply Hlt; apply in_or_app; right; left; auto).
      destruct (Hl y Hy) as [->|Hyj]; [exact (lexlt_irrefl _ Hjy)|]. exact (lexlt_irrefl _ (lexlt_trans _ _ _ Hjy Hyj)).
  - intros Hno. rewrite (V _ (row_major_indices _)). destruct (indices (vshape v)) as [|j l] eqn:El; [reflexivity|]. exfalso. apply (Hno j), in_indices. rewrite El. left; auto.
Qed.

(* ---- the axes that aren't in the list for transpose ---- *)
Lemma after_in : forall r n d, In (Z.of_nat d) (after r n) <-> (r <= d < r + n)%nat.
Proof.
  intros r n d. unfold after. rewrite in_map_iff. split.
  - intros (k & E & Hk). apply in_seq in Hk. lia.
  - intros H. exists d. split; auto. apply in_seq. lia.
Qed.
Lemma after_nth : forall r n k, (k < n)%nat -> nth k (after r n) 0 = Z.of_nat (r + k).
Proof. intros r n k Hk. unfold after. rewrite (nth_indep _ 0 (Z.of_nat 0)) by (rewrite map_length, seq_length; auto). rewrite map_nth, seq_nth by auto. reflexivity. Qed.

(* transpose(b, ilist<r, r+1 ...>) puts r axes without length before those of b. *)
Theorem C142_transpose_after : forall (b : view) r, nonneg (vshape b) -> (0 < vrank b)%nat ->
  exists b', transpose b (after r (vrank b)) = Good b' /\ vshape b' = repeat UNB r ++ vshape b /\ forall i j, length i = r -> length j = vrank b -> vplace b' (i ++ j) = vplace b j.
Proof.
  intros b r Nb Pb. destruct (C18_transpose b (after r (vrank b))) as (b' & E & D1 & D2 & P & D); auto.
  { apply Forall_forall. intros x Hx. unfold after in Hx. apply in_map_iff in Hx as (k & <- & _). lia. } { unfold after. rewrite map_length, seq_length. reflexivity. }
  assert (R : vrank b' = (r + vrank b)%nat).
  { assert (Hne : after r (vrank b) <> []) by (intros E0; apply (f_equal (@length Z)) in E0; unfold after in E0; rewrite map_length, seq_length in E0; cbn in E0; lia).
    specialize (D1 Hne). rewrite Forall_forall in D2. assert (H1 : In (Z.of_nat (r + vrank b - 1)) (after r (vrank b))) by (apply after_in; lia). apply D2 in H1.
    replace (Z.of_nat (vrank b') - 1) with (Z.of_nat (vrank b' - 1)) in D1 by lia. apply after_in in D1. lia. }
  exists b'. split; [exact E|]. split.
  - apply (nth_ext _ _ 0 0). { rewrite app_length, repeat_length, <- !vrank_shape. exact R. }
    intros d Hd. rewrite <- vrank_shape in Hd. destruct (D d Hd) as (Q1 & Q2 & _). destruct (Nat.lt_ge_cases d r) as [L|L].
    + rewrite app_nth1 by (rewrite repeat_length; auto). rewrite (Q1 ltac:(rewrite after_in; lia)). symmetry. clear -L. revert d L. induction r; intros [|d] L; cbn; try lia. apply IHr. lia.
    + rewrite app_nth2, repeat_length by (rewrite repeat_length; auto). destruct (Q2 ltac:(rewrite after_in; lia)) as (k & Hk & Ek & ->). rewrite after_nth in Ek by auto. f_equal. lia.
  - intros i j Hi Hj. rewrite P by (rewrite app_length; lia). f_equal. apply (nth_ext _ _ 0 0). { rewrite map_length. unfold after. rewrite map_length, seq_length. auto. }
    intros k Hk. rewrite map_length in Hk. unfold after in Hk. rewrite map_length, seq_length in Hk.
    rewrite (nth_indep _ 0 ((fun sk => nth (Z.to_nat sk) (i ++ j) 0) 0)) by (rewrite map_length; unfold after; rewrite map_length, seq_length; auto). rewrite (map_nth (fun sk => nth (Z.to_nat sk) (i ++ j) 0)), after_nth, Nat2Z.id by auto.
    rewrite app_nth2 by lia. f_equal. lia.
Qed.

(* op(a, transpose(b, ilist<rank a, rank a + 1 ...>)) is the outer product. *)
Theorem C142_dead_axes : forall op (a b : view), nonneg (vshape a) -> nonneg (vshape b) -> (0 < vrank b)%nat ->
  exists b', transpose b (after (vrank a) (vrank b)) = Good b' /\ is_outer (T := T) op a b (Map op [viter a; viter b']).
Proof.
  intros op a b Na Nb Pb. destruct (C142_transpose_after b (vrank a) Nb Pb) as (b' & E & S & P). exists b'. split; [exact E|].
  apply (outer_two op a b a b' 0); auto; [cbn; rewrite app_nil_r; auto|]. intros i [|] Hi Hj; [rewrite app_nil_r; auto|discriminate].
Qed.

(* ---- the sum of the diagonal of each cell ---- *)
Theorem C142_traces : forall add (zero : T) (d c : view) n1 n2 (m : mem T), vshape c = vshape d ++ [n1; n2] -> nonneg (vshape c) -> apart_at d -> P_Cells.separate d c ->
  exists m', traces fixed fi z zi add zero d c m = Ok None m' /\ becomes d (fun i => fold_left add (map (fun k => m (vplace c (i ++ [k; k]))) (zrange (Z.min n1 n2))) zero) m m'.
Proof.
  intros add zero d c n1 n2 m Ec Nc Hap Hse. pose proof Nc as N. rewrite Ec in N. unfold nonneg in N. apply Forall_app in N as (Nd & Nt).
  inversion Nt as [|? ? N1 Nt']; subst. inversion Nt' as [|? ? N2 _]; subst. unfold traces. apply (map_cells fixed z Hz _ d c [n1; n2]); auto.
  intros j m1 Hj Hm. pose proof (cell_of_shape c (vshape d) [n1; n2] j Ec) as Sc. destruct (C18_diag _ n1 n2 Sc N1 N2) as (b & Eb & Sb & Pb).
  unfold trace. rewrite Eb. cbn [onres]. set (k := Z.min n1 n2) in *. assert (Nk : nonneg [k]) by (constructor; [lia|constructor]).
  destruct (view_shape (T:=T) _ _ Sb Nk) as (Wb & Shb). unfold sum, bind. cbn [viter deref ret].
  rewrite (reduce1_spec T fi zi (fun x c => add c x) (viter b) [k] (indices [k]) m1 (fun x => m (vplace c (j ++ [nth 0 x 0; nth 0 x 0])))); auto using row_major_indices.
  - f_equal. cbn [indices map]. rewrite flat_map_concat_map, concat_map, map_map. cbn [map nth]. f_equal. clear. induction (zrange k); cbn; congruence.
  - intros x Hx. inversion Hx as [|y ? ? ? Hy Hx']; subst. inversion Hx'; subst. exists (VRef (vplace c (j ++ [y; y]))). rewrite viter_element, vrank_shape, Sb, (whole_in [y] [k]) by auto.
    rewrite Pb. rewrite (cell_of_place c (vshape d) [n1; n2]) by auto. split; [reflexivity|]. cbn. f_equal.
    apply Hm. intros i Hi E. symmetry in E. revert E. apply Hse; auto. rewrite Ec. apply join_shape; auto. repeat (constructor; [lia|]). constructor.
Qed.

(* ---- c(i) = x ---- *)
Theorem C142_row : forall (c : view) n t i (x : T) (m : mem T), vshape c = n :: t -> nonneg (vshape c) -> 0 <= i < n -> apart_at c ->
  exists m', set_row fixed z c i x m = Ok None m' /\ becomes c (fun j => if hd 0 j =? i then x else m (vplace c j)) m m'.
Proof.
  intros c n t i x m Ec Nc Hi Hap. rewrite Ec in Nc. inversion Nc as [|? ? Nn Nt]; subst. destruct (item_view c n t i Ec Hi) as (v & Ev & Sv & Pv). unfold set_row. rewrite Ev. cbn [onres].
  assert (In1 : forall j, inshape j t -> inshape (i :: j) (vshape c)) by (intros j Hj; rewrite Ec; constructor; auto).
  destruct (assign_to fixed z Hz put v (Scalar (VT x)) t (fun _ => x) m) as (m' & E & V & K); auto.
  { intros j j' Hj Hj' Q. rewrite !Pv in Q. rewrite Sv in Hj, Hj'. apply Hap in Q; auto. congruence. } { exact I. } { apply inner_scalar. } { intros m1 _ j _. exists (VT x). split; reflexivity. }
  exists m'. split; [exact E|]. rewrite Sv in V, K. split.
  - intros j Hj. pose proof Hj as Hj0. rewrite Ec in Hj. inversion Hj as [|y j0 ? ? Hy Hj']; subst. cbn [hd]. destruct (Z.eqb_spec y i) as [->|D].
    + rewrite <- Pv, V by auto. reflexivity.
    + apply K. intros j1 Hj1 Q. rewrite Pv in Q. apply Hap in Q; auto. congruence.
  - intros p Hp. apply K. intros j Hj. rewrite Pv. auto.
Qed.
(* out of range: the subscript is refused *)
Theorem C142_row_refused : forall (c : view) n t i (x : T) (m : mem T), vshape c = n :: t -> 0 <= n -> ~ 0 <= i < n -> set_row fixed z c i x m = Fail m.
Proof.
  intros [[|d dv] p] n t i x m Ec Hn Hi; [discriminate|]. injection Ec as E1 _. unfold set_row. rewrite from_fromb; [|repeat constructor|unfold Spec_Slice.fits, vrank; cbn; lia|cbn; lia].
  cbn [vdv vcp cidx fromb]. rewrite E1. unfold inside. replace ((0 <=? i) && (i <? n))%bool with false by (symmetry; apply andb_false_iff; lia). replace (UNB =? n) with false by (symmetry; apply Z.eqb_neq; unfold UNB; lia). reflexivity.
Qed.

(* ---- y += x; iter(x) += y ---- *)
Theorem C142_both : forall f (x y : view) (m : mem T), vshape x = vshape y -> nonneg (vshape y) -> apart_at x -> apart_at y -> P_Cells.separate y x ->
  exists m', both_ways fixed z f x y m = Ok None m' /\ (forall i, inshape i (vshape y) -> m' (vplace y i) = f (m (vplace y i)) (m (vplace x i)) /\ m' (vplace x i) = f (m (vplace x i)) (f (m (vplace y i)) (m (vplace x i)))) /\
    forall p, (forall i, inshape i (vshape y) -> p <> vplace y i /\ p <> vplace x i) -> m' p = m p.
Proof.
  intros f x y m Ex Ny Ax Ay Hs. assert (Hs' : P_Cells.separate x y) by (intros i j Hi Hj E; symmetry in E; revert E; apply Hs; auto).
  destruct (assign_view fixed z Hz f y x m Ex Ny Ay Hs) as (m1 & E1 & V1 & K1). rewrite <- Ex in Ny. destruct (assign_view fixed z Hz f x y m1 (eq_sym Ex) Ny Ax Hs') as (m2 & E2 & V2 & K2).
  exists m2. split; [unfold both_ways, bind; rewrite E1; exact E2|]. split.
  - intros i Hi. assert (Hi' : inshape i (vshape x)) by (rewrite Ex; auto). split.
    + rewrite K2, V1 by auto. reflexivity.
    + rewrite V2, V1, K1; auto.
  - intros p Hp. rewrite K2, K1; [reflexivity| |]; intros i Hi; apply Hp; auto. rewrite <- Ex; auto.
Qed.

(* ---- where chooses which of the two is done; map doesn't ---- *)
Lemma cast_at : forall p (n : ex) s x (m : mem T) j, reads n s m x -> inshape j s -> element (castb p n) j m = Ok (VB (p (x j))) m.
Proof.
  intros p n s x m j R Hj. destruct (R j Hj) as (v & E & V). unfold castb. cbn [element map]. rewrite (in_order_1 _ _ _ m v m) by auto. unfold op1, bind. rewrite (rdb_truth p v m (p (x j))); [reflexivity|].
  destruct v; cbn in V |- *; congruence.
Qed.
Lemma push_at : forall (g : T -> two -> @two T) (n : ex) s x (m : mem T) j c, reads n s m x -> inshape j s ->
  element (Map (fun xs => match xs with [v] => x0 <- rdl v ;; update (g x0) | _ => undef end) [lift n]) j (m, c) = Ok VUnit (m, g (x j) c).
Proof.
  intros g n s x m j c R Hj. destruct (R j Hj) as (v & E & V). cbn [element map]. rewrite (in_order_1 _ _ _ (m, c) v (m, c)); [|rewrite lift_element; unfold lift_op; cbn [fst snd]; rewrite E; reflexivity].
  unfold bind. rewrite (rdl_value _ v m (x j)) by auto. reflexivity.
Qed.
Lemma three_joint : forall (e1 e2 e3 : expr (val T) (mem T * @two T)) s, shape_is e1 s -> shape_is e2 s -> shape_is e3 s -> joint_shape [e1; e2; e3] s.
Proof.
  intros e1 e2 e3 s (L1 & S1) (L2 & S2) (L3 & S3). split; [cbn [fold_right]; lia|]. intros k Hk. cbn [fold_right] in Hk. cbn [flat_map]. rewrite app_nil_r.
  destruct (S1 k ltac:(lia)) as (A & B & C). destruct (S2 k ltac:(lia)) as (_ & _ & C2). destruct (S3 k ltac:(lia)) as (_ & _ & C3). split; [exact A|]. split; [apply in_or_app; auto|].
  apply Forall_app. split; [auto|apply Forall_app; auto].
Qed.
Lemma lift_shape : forall (n : ex) s, shape_is n s -> shape_is (lift (C := @two T) n) s.
Proof. intros n s (L & S). split; [rewrite lift_axes; auto|]. rewrite lift_axes. intros k Hk. rewrite lift_lens. auto. Qed.
Lemma one_shape : forall op (e : expr (val T) (mem T * @two T)) s, shape_is e s -> shape_is (Map op [e]) s.
Proof. intros op e s (L & S). apply joint_shape_map. split; [cbn [fold_right]; lia|]. intros k Hk. cbn [fold_right] in Hk. cbn [flat_map]. rewrite app_nil_r. apply S. lia. Qed.
Lemma cast_shape : forall p (n : ex) s, shape_is n s -> shape_is (castb p n) s.
Proof. intros p n s (L & S). unfold castb. apply joint_shape_map. split; [cbn [fold_right]; lia|]. intros k Hk. cbn [fold_right] in Hk. cbn [flat_map]. rewrite app_nil_r. apply S. lia. Qed.
Lemma fold_split : forall A (p : A -> bool) (l : list A) (o e : list A), fold_left (fun c x => if p x then (fst c ++ [x], snd c) else (fst c, snd c ++ [x])) l (o, e) = (o ++ filter p l, e ++ filter (fun x => negb (p x)) l).
Proof. induction l as [|a l IH]; intros o e; cbn [fold_left filter]; [rewrite !app_nil_r; auto|]. destruct (p a); cbn [negb fst snd]; rewrite IH, <- app_assoc; reflexivity. Qed.
Lemma fold_both : forall A (l : list A) (o e : list A), fold_left (fun c x => (fst c ++ [x], snd c ++ [x])) l (o, e) = (o ++ l, e ++ l).
Proof. induction l as [|a l IH]; intros o e; cbn [fold_left]; [rewrite !app_nil_r; auto|]. cbn [fst snd]. rewrite IH, <- !app_assoc. reflexivity. Qed.

(* o gets the elements with p, and e the others, in row-major order. *)
Theorem C142_split : forall p (n : ex) s js x (m : mem T) o e, wf n -> shape_is n s -> reads n s m x -> row_major s js ->
  split fixed z p n (m, (o, e)) = Ok None (m, (o ++ filter p (map x js), e ++ filter (fun a => negb (p a)) (map x js))).
Proof.
  intros p n s js x m o e Wn Sn Rn Hjs. unfold split. assert (Wc : wf (castb p n)) by (cbn; split; [discriminate|auto]).
  rewrite (ply_spec _ _ _ no_stop fixed z _ s js); auto.
  - rewrite visit_each, (each_fold _ _ _ _ (fun j c => if p (x j) then (fst c ++ [x j], snd c) else (fst c, snd c ++ [x j]))).
    + cbn [finish]. rewrite (fold_left_map _ _ _ (fun c x => if p x then (fst c ++ [x], snd c) else (fst c, snd c ++ [x])) x), fold_split. reflexivity.
    + intros j c Hj. apply row_major_unique in Hjs. subst js. apply in_indices in Hj. exists VUnit. cbn [element map]. rewrite lift_element. unfold lift_op at 1. cbn [fst snd]. rewrite (cast_at p n s x m j Rn Hj). cbn [selv].
      destruct (p (x j)).
      * exact (push_at (fun x s => (fst s ++ [x], snd s)) n s x m j c Rn Hj).
      * exact (push_at (fun x s => (fst s, snd s ++ [x])) n s x m j c Rn Hj).
  - assert (Wl : wf (lift (C := @two T) n)) by (apply lift_wf; auto). assert (Wk : wf (lift (C := @two T) (castb p n))) by (apply lift_wf; auto). cbn [wf]. repeat split; try discriminate; auto.
  - change (shape_is (Map (fun _ => @fail (mem T * @two T) (val T)) [lift (castb p n); Map push_e [lift n]; Map push_o [lift n]]) s). apply joint_shape_map. apply three_joint; [apply lift_shape, cast_shape; auto|apply one_shape, lift_shape; auto|apply one_shape, lift_shape; auto].
Qed.
(* with map, both get all of them *)
Theorem C142_split_map : forall p (n : ex) s js x (m : mem T) o e, wf n -> shape_is n s -> reads n s m x -> row_major s js ->
  split_map fixed z p n (m, (o, e)) = Ok None (m, (o ++ map x js, e ++ map x js)).
Proof.
  intros p n s js x m o e Wn Sn Rn Hjs. unfold split_map. assert (Wc : wf (castb p n)) by (cbn; split; [discriminate|auto]).
  rewrite (ply_spec _ _ _ no_stop fixed z _ s js); auto.
  - rewrite visit_each, (each_fold _ _ _ _ (fun j c => (fst c ++ [x j], snd c ++ [x j]))).
    + cbn [finish]. rewrite (fold_left_map _ _ _ (fun c x => (fst c ++ [x], snd c ++ [x])) x), fold_both. reflexivity.
    + intros j c Hj. apply row_major_unique in Hjs. subst js. apply in_indices in Hj. exists VUnit. cbn [element map].
      pose proof (push_at (fun x s => (fst s ++ [x], snd s)) n s x m j c Rn Hj) as P1. pose proof (push_at (fun x s => (fst s, snd s ++ [x])) n s x m j (fst c ++ [x j], snd c) Rn Hj) as P2.
      change (element (Map push_o [lift n]) j (m, c) = Ok VUnit (m, (fst c ++ [x j], snd c))) in P1. change (element (Map push_e [lift n]) j (m, (fst c ++ [x j], snd c)) = Ok VUnit (m, (fst c ++ [x j], snd c ++ [x j]))) in P2.
      assert (P0 : element (lift (C := @two T) (castb p n)) j (m, c) = Ok (VB (p (x j))) (m, c)) by (rewrite lift_element; unfold lift_op at 1; cbn [fst snd]; rewrite (cast_at p n s x m j Rn Hj); reflexivity).
      assert (Q : in_order [element (lift (C := @two T) (castb p n)) j; element (Map push_o [lift n]) j; element (Map push_e [lift n]) j] (m, c) = Ok [VB (p (x j)); VUnit; VUnit] (m, (fst c ++ [x j], snd c ++ [x j]))) by (unfold in_order; rewrite P0; cbv iota; rewrite P1; cbv iota; rewrite P2; reflexivity).
      cbn [element map] in Q. rewrite Q. reflexivity.
  - assert (Wl : wf (lift (C := @two T) n)) by (apply lift_wf; auto). assert (Wk : wf (lift (C := @two T) (castb p n))) by (apply lift_wf; auto). cbn [wf]. repeat split; try discriminate; auto.
  - apply joint_shape_map. apply three_joint; [apply lift_shape, cast_shape; auto|apply one_shape, lift_shape; auto|apply one_shape, lift_shape; auto].
Qed.
End Manual.

(* ---- the programs as they are in the manual ---- *)
Definition gives (r : res (expr (val Z) (mem Z))) (m : mem Z) : list Z * list (option Z) := match r with Good e => (shape e, map (fun j => match element e j m with Ok v m1 => value_of v m1 | _ => None end) (indices (shape e))) | _ => ([], []) end.
(* {4, 5, 6} at 10, and 0 elsewhere *)
Definition xV : view := Vw [Dim 3 1] 10.
Definition xM : mem Z := fun p => if (10 <=? p) && (p <? 13) then p - 6 else 0.
Lemma xV_out : nonneg (vshape xV) /\ forall j, inshape j (vshape xV) -> vplace xV j <> 0.
Proof. split; [repeat constructor; vm_compute; congruence|]. intros j Hj. cbv [vshape xV vdv map len] in Hj. inversion Hj as [|y ? ? ? Hy Hj']; subst. inversion Hj'; subst. unfold vplace. cbn [xV vcp vdv place step]. lia. Qed.
Example ex_scalar : peeks [0] (into_scalar false [] put 0 (with_scalar Z.add 3 xV) xM) = [9] /\ peeks [0] (into_scalar true [] Z.add 0 (with_scalar Z.add 3 xV) xM) = [24] /\ peeks [0] (into_scalar true [] put 0 (viter xV) xM) = [6] /\ peeks [0] (into_scalar true [] Z.add 0 (viter (Vw [Dim 0 1] 10)) xM) = [0].
Proof. vm_compute. auto. Qed.
(* texi:2003: scalar(a) += k + v isn't a + k + v(0) + ... : k is added with each. *)
Theorem C142_scalar_refuted : ~ forall p k (v : view) (m : mem Z), nonneg (vshape v) -> (forall j, inshape j (vshape v) -> vplace v j <> p) ->
  exists m', into_scalar false [] Z.add p (with_scalar Z.add k v) m = Ok None m' /\ forall js, row_major (vshape v) js -> m' p = fold_left Z.add (map (fun j => m (vplace v j)) js) (m p + k).
Proof.
  intros H. destruct (H 0 3 xV xM) as (m' & E & V); [apply xV_out|apply xV_out|]. specialize (V (indices [3]) (row_major_indices [3])). change (m' 0 = 18) in V.
  assert (E1 : peeks [0] (into_scalar false [] Z.add 0 (with_scalar Z.add 3 xV) xM) = [m' 0]) by (rewrite E; reflexivity). rewrite V in E1. vm_compute in E1. discriminate.
Qed.

(* a = {1, 2, 3} *)
Definition xA : view := Vw [Dim 3 1] 1.
Definition xid : mem Z := fun p => p.
Definition dead_program : res (expr (val Z) (mem Z)) := match transpose xA (after 1 1) with Good b => Good (Map (mul_op Z.add) [Map (mul_op Z.mul) [viter xA; Scalar (VT 10)]; viter b]) | Refused => Refused | UB => UB end.
(* c = _0 - _1 - 2*_2, of shape {3, 2, 2}, at 10; d of shape {3}, at 0 *)
Definition xC : view := Vw [Dim 3 4; Dim 2 2; Dim 2 1] 10.
Definition xD : view := Vw [Dim 3 1] 0.
Definition xCm : mem Z := fun p => let q := p - 10 in if (0 <=? q) && (q <? 12) then q / 4 - (q / 2) mod 2 - 2 * (q mod 2) else 99.
Example ex_traces : vshape xC = vshape xD ++ [2; 2] /\ nonneg (vshape xC) /\ apart_at xD /\ P_Cells.separate xD xC /\ map xCm (map (vplace xC) (indices [3; 2; 2])) = [0; -2; -1; -3; 1; -1; 0; -2; 2; 0; 1; -1].
Proof.
  split; [reflexivity|]. split; [repeat constructor; vm_compute; congruence|]. split; [|split].
  - intros i j Hi Hj. cbv [vshape xD vdv map len] in Hi, Hj. inversion Hi as [|x ? ? ? Hx Hi']; subst. inversion Hi'; subst. inversion Hj as [|y ? ? ? Hy Hj']; subst. inversion Hj'; subst. unfold vplace. cbn [xD vcp vdv place step]. intros. f_equal. lia.
  - intros i j Hi Hj. cbv [vshape xC xD vdv map len] in Hi, Hj. inversion Hi as [|x ? ? ? Hx Hi']; subst. inversion Hi'; subst. apply P_Mat.in3 in Hj as (j1 & j2 & j3 & -> & ? & ? & ?). unfold vplace. cbn [xC xD vcp vdv place step]. lia.
  - vm_compute. reflexivity.
Qed.
(* a 2x3 array of zeros at 0 *)
Definition xZ : view := Vw [Dim 2 3; Dim 3 1] 0.
Lemma xZ_apart : apart_at xZ.
Proof. intros i j Hi Hj. cbv [vshape xZ vdv map len] in Hi, Hj. apply P_Mat.in2e in Hi as (i1 & i2 & -> & ? & ?). apply P_Mat.in2e in Hj as (j1 & j2 & -> & ? & ?). unfold vplace. cbn [xZ vcp vdv place step]. intros. f_equal; [|f_equal]; lia. Qed.
Example ex_row_hyps : vshape xZ = [2; 3] /\ nonneg (vshape xZ) /\ 0 <= 1 < 2 /\ apart_at xZ.
Proof. split; [reflexivity|]. split; [repeat constructor; vm_compute; congruence|]. split; [lia|apply xZ_apart]. Qed.
(* x = {1, 2, 3} at 1, y = {10, 20, 30} at 11 *)
Definition xY : view := Vw [Dim 3 1] 11.
Definition xYm : mem Z := fun p => if p <? 10 then p else (p - 10) * 10.
Example ex_both_hyps : vshape xA = vshape xY /\ nonneg (vshape xY) /\ apart_at xA /\ apart_at xY /\ P_Cells.separate xY xA.
Proof.
  split; [reflexivity|]. split; [repeat constructor; vm_compute; congruence|].
  split; [|split]; intros i j Hi Hj; cbv [vshape xA xY vdv map len] in Hi, Hj; inversion Hi as [|x ? ? ? Hx Hi']; subst; inversion Hi'; subst; inversion Hj as [|y ? ? ? Hy Hj']; subst; inversion Hj'; subst; unfold vplace; cbn [xA xY vcp vdv place step]; intros; [f_equal; lia|f_equal; lia|lia].
Qed.
(* {{1, 2}, {3, 4}, {5, 6}} and {{1, 2, 3}, {4, 5, 6}} *)
Definition x32 : view := Vw [Dim 3 2; Dim 2 1] 1.
Definition x23 : view := Vw [Dim 2 3; Dim 3 1] 1.
Definition viewed (r : res view) : res (expr (val Z) (mem Z)) := match r with Good v => Good (viter v) | Refused => Refused | UB => UB end.

(* What the programs give. The results in the manual are others. *)
Theorem C142_documented_refuted :
  (* 478 *) sees (set_row false [] xZ 1 7 (fun _ => 0)) 0 6 = [0; 0; 0; 7; 7; 7] /\ [0; 0; 0; 7; 7; 7] <> [0; 1; 2; 7; 7; 7] /\
  (* 2005 *) peeks [0] (into_scalar false [] Z.add 0 (with_scalar Z.add 3 xV) xM) = [24] /\ 24 <> 18 /\
  (* 2547 *) gives (from_u false x32 [SArr; SArr] [Cell [Dim 2 (-1)] 1 VI 2; Cell [Dim 2 1] 1 VI 0]) xid = ([2; 2], map Some [5; 6; 3; 4]) /\ [5; 6; 3; 4] <> [6; 5; 4; 3] /\
  (* 2731 *) gives (viewed (reverse x23 0)) xid = ([2; 3], map Some [4; 5; 6; 1; 2; 3]) /\ gives (viewed (reverse x23 1)) xid = ([2; 3], map Some [3; 2; 1; 6; 5; 4]) /\ [4; 5; 6; 1; 2; 3] <> [3; 2; 1; 6; 5; 4] /\
  (* 2789 *) (exists e, from_op (mul_op Z.add) [viter (Vw [Dim 2 1] 10) : expr (val Z) (mem Z); viter (Vw [Dim 3 1] 1)] = Some e /\ shape e = [2; 3] /\ [2; 3] <> [3; 2]) /\
  (* 2843 *) gives dead_program xid = ([3; 3], map Some [11; 12; 13; 21; 22; 23; 31; 32; 33]) /\ [11; 12; 13; 21; 22; 23; 31; 32; 33] <> [11; 21; 31; 12; 22; 32; 13; 23; 33] /\
  (* 2990 *) gives (Good (Map (mul_op Z.add) [viter xA; viter xY])) xYm = ([3], map Some [11; 22; 33]) /\ [11; 22; 33] <> [12; 24; 36] /\ peeks [1; 2; 3; 11; 12; 13] (both_ways false [] Z.add xA xY xYm) = [12; 24; 36; 11; 22; 33] /\
  (* 3046 *) sees (traces false true [] [] Z.add 0 xD xC xCm) 0 3 = [-3; -1; 1] /\ [-3; -1; 1] <> [-3; -1; -1].
Proof.
  repeat match goal with |- _ /\ _ => split end; try (intros H; discriminate H); try (vm_compute; reflexivity).
  eexists. split; [reflexivity|]. split; [vm_compute; reflexivity|intros H; discriminate H].
Qed.

(* o and e from {{1, 2, 3}, {4, 5, 6}} *)
Example ex_split : wf (viter (T := Z) x23) /\ shape_is (viter (T := Z) x23) [2; 3] /\ reads (viter x23) [2; 3] xid (fun j => vplace x23 j) /\
  split false [] Z.odd (viter x23) (xid, ([], [])) = Ok None (xid, ([1; 3; 5], [2; 4; 6])) /\ split_map false [] Z.odd (viter x23) (xid, ([], [])) = Ok None (xid, ([1; 2; 3; 4; 5; 6], [1; 2; 3; 4; 5; 6])).
Proof.
  destruct (view_shape (T := Z) x23 [2; 3] eq_refl) as (W & S); [repeat constructor; lia|]. split; [exact W|]. split; [exact S|]. split.
  - intros j Hj. exists (VRef (vplace x23 j)). rewrite viter_element, vrank_shape, (whole_in j (vshape x23)) by exact Hj. split; reflexivity.
  - split; vm_compute; reflexivity.
Qed.
Example ex_dead : nonneg (vshape xA) /\ (0 < vrank xA)%nat /\ transpose xA (after 1 1) = Good (Vw [Dim UNB 0; Dim 3 1] 1).
Proof. split; [repeat constructor; vm_compute; congruence|]. split; [vm_compute; auto|reflexivity]. Qed.
Example ex_row_refused : set_row false [] xZ 2 7 xid = Fail xid /\ set_row true [] xZ (-1) 7 xid = Fail xid.
Proof. split; [apply (C142_row_refused _ _ _ 2 [3])|apply (C142_row_refused _ _ _ 2 [3])]; try reflexivity; lia. Qed.

Print Assumptions C142_scalar.
Print Assumptions C142_scalar_with.
Print Assumptions C142_scalar_last.
Print Assumptions C142_transpose_after.
Print Assumptions C142_dead_axes.
Print Assumptions C142_traces.
Print Assumptions C142_row.
Print Assumptions C142_row_refused.
Print Assumptions C142_both.
Print Assumptions C142_split.
Print Assumptions C142_split_map.
Print Assumptions C142_scalar_refuted.
Print Assumptions C142_documented_refuted.
