(* Property C119: reductions of the results of operators and of rearranged arrays. *)
From Coq Require Import ZArith List Lia Bool Permutation Sorted.
From Verif Require Import Spec L_Spec Spec_Ply Spec_Expr M_Base M_Expr M_Ply M_Val Spec_Val L_Expr L_Agree L_Ply L_Stl L_Run L_Val P_Reduce M_View Spec_View L_View P_View M_Mat P_Mat P_Deep P_Overlap M_Whole P_Whole M_Elem.
Import ListNotations.
Open Scope Z_scope.

Section Elem.
Context {T : Type}.
Notation ex := (expr (val T) (mem T)).

Lemma bin_reads : forall g (a b : ex) s m x y, reads a s m x -> reads b s m y -> reads (bin g a b) s m (fun j => g (x j) (y j)).
Proof.
  intros g a b s m x y Ha Hb j Hj. destruct (Ha j Hj) as (v & E1 & E2), (Hb j Hj) as (u & E3 & E4). exists (VT (g (x j) (y j))). split; auto.
  unfold bin. cbn [element map]. rewrite (in_order_2 _ _ _ _ _ v m u m); auto. cbn. unfold bind. rewrite (rd_value _ _ (x j)), (rd_value _ _ (y j)); auto.
Qed.
Lemma cmp_reads : forall tob g (a b : ex) s m x y, reads a s m x -> reads b s m y -> reads_bool tob (cmp g a b) s m (fun j => g (x j) (y j)).
Proof.
  intros tob g a b s m x y Ha Hb j Hj. destruct (Ha j Hj) as (v & E1 & E2), (Hb j Hj) as (u & E3 & E4). exists (VB (g (x j) (y j))). split; auto.
  unfold cmp. cbn [element map]. rewrite (in_order_2 _ _ _ _ _ v m u m); auto. cbn. unfold bind. rewrite (rd_value _ _ (x j)), (rd_value _ _ (y j)); auto.
Qed.
Lemma una_reads : forall g (a : ex) s m x, reads a s m x -> reads (una g a) s m (fun j => g (x j)).
Proof.
  intros g a s m x Ha j Hj. destruct (Ha j Hj) as (v & E1 & E2). exists (VT (g (x j))). split; auto.
  unfold una. cbn [element map in_order]. unfold bind, ret. rewrite E1. cbn. unfold bind. rewrite (rd_value _ _ (x j)); auto.
Qed.
Lemma lnot_reads : forall tob (a : ex) s m x, reads_bool tob a s m x -> reads_bool tob (lnot tob a) s m (fun j => negb (x j)).
Proof.
  intros tob a s m x Ha j Hj. destruct (Ha j Hj) as (v & E1 & E2). exists (VB (negb (x j))). split; auto.
  unfold lnot. cbn [element map in_order]. unfold bind, ret. rewrite E1. destruct v; cbn in E2 |- *; inversion E2; subst; auto.
Qed.
Lemma two_wf : forall g (a b : ex), wf a -> wf b -> wf (bin g a b).
Proof. intros. apply wf_map; [discriminate|]. auto. Qed.
Lemma one_wf : forall g (a : ex), wf a -> wf (una g a).
Proof. intros. apply wf_map; [discriminate|]. auto. Qed.

(* ---- booleans ---- *)

(* any(!a) is !every(a) and every(!a) is !any(a) *)
Theorem C119_not : forall tob (a : ex) s m x f1 f2 f3 f4 z1 z2 z3 z4, wf a -> shape_is a s -> reads_bool tob a s m x -> zclean z1 -> zclean z2 -> zclean z3 -> zclean z4 ->
  exists b c, any f1 z1 tob a m = Ok b m /\ every f2 z2 tob (lnot tob a) m = Ok (negb b) m /\ every f3 z3 tob a m = Ok c m /\ any f4 z4 tob (lnot tob a) m = Ok (negb c) m.
Proof.
  intros tob a s m x f1 f2 f3 f4 z1 z2 z3 z4 Hw Hs Hr Z1 Z2 Z3 Z4. pose proof (lnot_reads _ _ _ _ _ Hr) as Hn.
  assert (Wn : wf (lnot tob a)) by (apply wf_map; [discriminate|auto]). assert (Sn : shape_is (lnot tob a) s) by (apply joint_shape_map, joint_shape_1; auto).
  destruct (C08_any _ tob a s m x f1 z1) as (b & E1 & B1); auto. destruct (C08_every _ tob (lnot tob a) s m _ f2 z2 Wn Sn Z2 Hn) as (b' & E2 & B2).
  destruct (C08_every _ tob a s m x f3 z3) as (c & E3 & B3); auto. destruct (C08_any _ tob (lnot tob a) s m _ f4 z4 Wn Sn Z4 Hn) as (c' & E4 & B4).
  exists b, c. rewrite E1, E2, E3, E4. cbv beta in *. split; auto. split; [|split; auto].
  - f_equal. destruct b.
    + destruct (proj1 B1 eq_refl) as (j & Hj & Ej). destruct b'; auto. specialize (proj1 B2 eq_refl j Hj). rewrite Ej. discriminate.
    + apply B2. intros j Hj. destruct (x j) eqn:Ej; auto. discriminate (proj2 B1 (ex_intro _ j (conj Hj Ej))).
  - f_equal. destruct c.
    + destruct c'; auto. destruct (proj1 B4 eq_refl) as (j & Hj & Ej). rewrite (proj1 B3 eq_refl j Hj) in Ej. discriminate.
    + destruct c'; auto. exfalso. apply diff_false_true, B3. intros j Hj. destruct (x j) eqn:Ej; auto. discriminate (proj2 B4 (ex_intro _ j (conj Hj (f_equal negb Ej)))).
Qed.

Lemma first_true : forall (x : list Z -> bool) l, StronglySorted lexlt l -> (exists j, In j l /\ x j = true) -> exists j, In j l /\ x j = true /\ forall j', In j' l -> lexlt j' j -> x j' = false.
Proof.
  intros x l H. induction H as [|a l Hl IH Ha]; intros (j & Hj & E); [destruct Hj|]. destruct (x a) eqn:Ea.
  - exists a. split; [left; auto|]. split; auto. intros j' [<-|Hj'] Hlt; [destruct (lexlt_irrefl _ Hlt)|]. rewrite Forall_forall in Ha. destruct (lexlt_irrefl a). apply (lexlt_trans _ j'); auto.
  - destruct IH as (i & Hi & Ei & Fi); [destruct Hj as [<-|Hj]; [congruence|eauto]|]. exists i. split; [right; auto|]. split; auto. intros j' [<-|Hj'] Hlt; auto.
Qed.
(* any(a) is index(a)>=0 *)
Theorem C119_index : forall tob (a : ex) n s m x f1 f2 z1 z2, wf a -> shape_is a (n :: s) -> reads_bool tob a (n :: s) m x -> zclean z1 -> zclean z2 ->
  exists b r, any f1 z1 tob a m = Ok b m /\ index f2 z2 tob a m = Ok r m /\ (b = true <-> 0 <= r).
Proof.
  intros tob a n s m x f1 f2 z1 z2 Hw Hs Hr Z1 Z2. destruct (C08_any _ tob a _ m x f1 z1 Hw Hs Z1 Hr) as (b & E1 & B1). destruct (C09_index _ tob a n s m x f2 z2 Hw Hs Z2 Hr) as (r & E2 & R1 & R2).
  exists b, r. split; auto. split; auto. rewrite B1. split.
  - intros (j & Hj & Ej). destruct (first_true x (indices (n :: s))) as (i & Hi & Ei & Fi); [apply row_major_indices|exists j; split; auto; apply in_indices; auto|].
    apply in_indices in Hi. rewrite (R2 i); auto; [|intros j' Hj' Hl; apply Fi; auto; apply in_indices; auto]. inversion Hi; subst; cbn; lia.
  - intros Hr0. destruct (existsb x (indices (n :: s))) eqn:Ex.
    + apply existsb_exists in Ex as (j & Hj & Ej). apply in_indices in Hj. eauto.
    + assert (r = -1); [|lia]. apply R1. intros j Hj. destruct (x j) eqn:Ej; auto. assert (existsb x (indices (n :: s)) = true) by (apply existsb_exists; exists j; split; auto; apply in_indices; auto). congruence.
Qed.

(* lexical_compare(a, b), lexical_compare(b, a), every(a==b): exactly one of the three is true *)
Theorem C119_trichotomy : forall (eqb ltb : T -> T -> bool) tob (a b : ex) s m x y f1 f2 f3 z1 z2 z3, (forall u v, eqb u v = true <-> u = v) -> total_order ltb ->
  wf a -> wf b -> joint_shape [a; b] s -> joint_shape [b; a] s -> reads a s m x -> reads b s m y -> zclean z1 -> zclean z2 -> zclean z3 ->
  exists l g e, lexical_compare f1 z1 eqb ltb a b m = Ok l m /\ lexical_compare f2 z2 eqb ltb b a m = Ok g m /\ every f3 z3 tob (cmp eqb a b) m = Ok e m /\
    (l = true /\ g = false /\ e = false \/ l = false /\ g = true /\ e = false \/ l = false /\ g = false /\ e = true).
Proof.
  intros eqb ltb tob a b s m x y f1 f2 f3 z1 z2 z3 He Ho Wa Wb S1 S2 Ra Rb Z1 Z2 Z3.
  destruct (C10_lexical_compare _ eqb ltb a b s m x y f1 z1) as (l & E1 & B1); auto. destruct (C10_lexical_compare _ eqb ltb b a s m y x f2 z2) as (g & E2 & B2); auto.
  destruct (C08_every _ tob (cmp eqb a b) s m (fun j => eqb (x j) (y j)) f3 z3) as (e & E3 & B3); auto; [apply wf_map; [discriminate|auto]|apply cmp_reads; auto|].
  exists l, g, e. split; auto. split; auto. split; auto. cbv beta in *.
  destruct (C10_strict_order _ eqb ltb s He Ho) as (Ir & Tr & To). fold (lexless eqb ltb s x y) in B1. fold (lexless eqb ltb s y x) in B2.
  assert (N : lexless eqb ltb s x y -> ~ forall j, inshape j s -> eqb (x j) (y j) = true) by (intros (j & Hj & Hn & _) H; rewrite (H j Hj) in Hn; discriminate).
  assert (N' : lexless eqb ltb s y x -> ~ forall j, inshape j s -> eqb (x j) (y j) = true) by (intros (j & Hj & Hn & _) H; apply H in Hj; apply He in Hj; rewrite Hj, (proj2 (He _ _) eq_refl) in Hn; discriminate).
  assert (NN : lexless eqb ltb s x y -> lexless eqb ltb s y x -> False) by (intros H1 H2; apply (Ir x); eapply Tr; eauto).
  destruct (To x y) as [H|[H|H]].
  - left. rewrite (proj2 B1 H). split; auto. split.
    + destruct g; auto. destruct (NN H (proj1 B2 eq_refl)).
    + destruct e; auto. destruct (N H (proj1 B3 eq_refl)).
  - right. left. rewrite (proj2 B2 H). split; [|split; auto].
    + destruct l; auto. destruct (NN (proj1 B1 eq_refl) H).
    + destruct e; auto. destruct (N' H (proj1 B3 eq_refl)).
  - right. right. assert (Q : forall j, inshape j s -> eqb (x j) (y j) = true) by (intros j Hj; apply He; auto). rewrite (proj2 B3 Q). split; [|split; auto].
    + destruct l; auto. destruct (N (proj1 B1 eq_refl) Q).
    + destruct g; auto. destruct (N' (proj1 B2 eq_refl) Q).
Qed.

(* ---- sums ---- *)
Section Sums.
Variables (add : T -> T -> T) (zero : T).
Definition monoid : Prop := (forall x y z, add (add x y) z = add x (add y z)) /\ (forall x, add zero x = x) /\ (forall x, add x zero = x).
Definition commutative : Prop := forall x y, add x y = add y x.

Lemma fold_from : forall l c, monoid -> fold_left add l c = add c (fold_left add l zero).
Proof.
  intros l c (As & Z0 & Z1). revert c. induction l; intros c; cbn; [rewrite Z1; auto|]. rewrite IHl, (IHl (add zero a)), Z0, As. auto.
Qed.
Lemma fold_perm : forall l l', monoid -> commutative -> Permutation l l' -> forall c, fold_left add l c = fold_left add l' c.
Proof.
  intros l l' (As & _) Co H. induction H; intros c; cbn; auto; [|congruence]. f_equal. rewrite As, (Co y x), <- As. auto.
Qed.
Lemma fold_pair : forall {A} (x y : A -> T) l, monoid -> commutative -> fold_left add (map (fun j => add (x j) (y j)) l) zero = add (fold_left add (map x l) zero) (fold_left add (map y l) zero).
Proof.
  intros A x y l Hm Co. pose proof Hm as (As & Z0 & Z1). induction l; cbn; [rewrite Z0; auto|]. rewrite fold_from, IHl by auto. rewrite (fold_from (map x l) (add zero (x a))), (fold_from (map y l) (add zero (y a))) by auto. rewrite !Z0.
  rewrite !As. f_equal.
  rewrite <- !As. f_equal. apply Co.
Qed.
Lemma fold_hom : forall {A} (h : T -> T) (x : A -> T) l, monoid -> (forall u v, h (add u v) = add (h u) (h v)) -> h zero = zero -> fold_left add (map (fun j => h (x j)) l) zero = h (fold_left add (map x l) zero).
Proof.
  intros A h x l Hm Hh H0. pose proof Hm as (_ & Z0 & _). induction l; cbn; auto. rewrite fold_from, IHl by auto. rewrite (fold_from (map x l) (add zero (x a))) by auto. rewrite !Z0, Hh. auto.
Qed.

(* dot(a, b) is sum(a*b) *)
Theorem C119_dot : forall mul (a b : ex) s m x y f1 f2 z1 z2, wf a -> wf b -> joint_shape [a; b] s -> (exists j, inshape j s) -> reads a s m x -> reads b s m y -> zclean z1 -> zclean z2 ->
  exists r, dot f1 z1 add mul zero a b m = Ok r m /\ sum f2 z2 add zero (bin mul a b) m = Ok r m.
Proof.
  intros mul a b s m x y f1 f2 z1 z2 Wa Wb Hs Hn Ra Rb Z1 Z2. pose proof (row_major_indices s) as Hj. eexists. split; [apply (C31_dot T add mul zero a b s (indices s) m x y); auto|].
  apply C31_sum_partial with (s := s); auto; [apply two_wf|apply bin_reads]; auto.
Qed.
(* sum(a+b) is sum(a)+sum(b) *)
Theorem C119_sum : forall (a b : ex) s m x y f1 f2 f3 z1 z2 z3, monoid -> commutative -> wf a -> wf b -> shape_is a s -> shape_is b s -> joint_shape [a; b] s -> (exists j, inshape j s) -> reads a s m x -> reads b s m y ->
  zclean z1 -> zclean z2 -> zclean z3 ->
  exists u v, sum f1 z1 add zero a m = Ok u m /\ sum f2 z2 add zero b m = Ok v m /\ sum f3 z3 add zero (bin add a b) m = Ok (add u v) m.
Proof.
  intros a b s m x y f1 f2 f3 z1 z2 z3 Hm Co Wa Wb Sa Sb Hs Hn Ra Rb Z1 Z2 Z3. pose proof (row_major_indices s) as Hj. eexists. eexists.
  split; [apply C31_sum_partial with (s := s) (js := indices s) (x := x); auto|]. split; [apply C31_sum_partial with (s := s) (js := indices s) (x := y); auto|].
  rewrite <- fold_pair by auto. apply C31_sum_partial with (s := s); auto; [apply two_wf|apply bin_reads]; auto.
Qed.
(* sum(h(a)) is h(sum(a)), for an h that respects sums, such as -, k*, conj, real_part *)
Theorem C119_linear : forall h (a : ex) s m x f1 f2 z1 z2, monoid -> (forall u v, h (add u v) = add (h u) (h v)) -> h zero = zero -> wf a -> shape_is a s -> (exists j, inshape j s) -> reads a s m x -> zclean z1 -> zclean z2 ->
  exists u, sum f1 z1 add zero a m = Ok u m /\ sum f2 z2 add zero (una h a) m = Ok (h u) m.
Proof.
  intros h a s m x f1 f2 z1 z2 Hm Hh H0 Wa Sa Hn Ra Z1 Z2. pose proof (row_major_indices s) as Hj. eexists.
  split; [apply C31_sum_partial with (s := s) (js := indices s) (x := x); auto|]. rewrite <- fold_hom by auto.
  apply C31_sum_partial with (s := s); auto; [apply one_wf|apply joint_shape_map, joint_shape_1|apply una_reads]; auto.
Qed.
(* cdot(b, a) is conj(cdot(a, b)) *)
Theorem C119_cdot : forall mul conj (a b : ex) s m x y f1 f2 z1 z2, monoid -> (forall u v, conj (add u v) = add (conj u) (conj v)) -> conj zero = zero -> (forall u, conj (conj u) = u) -> (forall u v, conj (mul u v) = mul (conj v) (conj u)) ->
  wf a -> wf b -> joint_shape [a; b] s -> joint_shape [b; a] s -> reads a s m x -> reads b s m y -> zclean z1 -> zclean z2 ->
  exists u, cdot f1 z1 add mul conj zero a b m = Ok u m /\ cdot f2 z2 add mul conj zero b a m = Ok (conj u) m.
Proof.
  intros mul conj a b s m x y f1 f2 z1 z2 Hm Ca C0 Ci Cm Wa Wb S1 S2 Ra Rb Z1 Z2. pose proof (row_major_indices s) as Hj. eexists. split; [apply C31_cdot with (s := s) (js := indices s) (x := x) (y := y); auto|].
  rewrite (C31_cdot T add mul conj zero b a s (indices s) m y x) by auto. rewrite <- fold_hom by auto. do 2 f_equal. apply map_ext. intros j. rewrite Cm, Ci. auto.
Qed.
(* reduce_sqrm(a) is dot(a, a), if sqrm(x) is x*x *)
Theorem C119_sqrm : forall mul sqrm (a : ex) s m x f1 f2 z1 z2, (forall u, sqrm u = mul u u) -> wf a -> shape_is a s -> joint_shape [a; a] s -> reads a s m x -> zclean z1 -> zclean z2 ->
  exists u, reduce_sqrm f1 z1 add sqrm zero a m = Ok u m /\ dot f2 z2 add mul zero a a m = Ok u m.
Proof.
  intros mul sqrm a s m x f1 f2 z1 z2 Hq Wa Sa S2 Ra Z1 Z2. pose proof (row_major_indices s) as Hj. eexists. split; [apply C31_reduce_sqrm with (s := s) (js := indices s) (x := x); auto|].
  rewrite (C31_dot T add mul zero a a s (indices s) m x x) by auto. do 2 f_equal. apply map_ext. auto.
Qed.
End Sums.

(* amax(-a) is -amin(a), where - reverses the order and takes the value amin starts with to that of amax *)
Theorem C119_negate : forall ltb neg top bot (a : ex) s m x f1 f2 z1 z2, total_order ltb -> (forall t, ltb top t = false) -> (forall t, ltb t bot = false) -> (forall u v, ltb (neg u) (neg v) = ltb v u) -> neg top = bot ->
  wf a -> shape_is a s -> reads a s m x -> zclean z1 -> zclean z2 ->
  exists c, amin f1 z1 ltb top a m = Ok c m /\ amax f2 z2 ltb bot (una neg a) m = Ok (neg c) m.
Proof.
  intros ltb neg top bot a s m x f1 f2 z1 z2 Ho Ht Hb Hn Hnt Wa Sa Ra Z1 Z2. destruct (C32_amin T ltb top a s m x f1 z1) as (c & E1 & A1 & A2 & A3); auto.
  destruct (C32_amax T ltb bot (una neg a) s m (fun j => neg (x j)) f2 z2) as (d & E2 & B1 & B2 & B3); auto; [apply one_wf; auto|apply joint_shape_map, joint_shape_1; auto|apply una_reads; auto|].
  exists c. split; auto. rewrite E2. f_equal. destruct Ho as (Ir & Tr & To).
  assert (D : (exists j, inshape j s) \/ ~ exists j, inshape j s).
  { destruct (indices s) as [|j l] eqn:E; [right; intros (j & Hj); apply in_indices in Hj; rewrite E in Hj; destruct Hj|left; exists j; apply in_indices; rewrite E; left; auto]. }
  destruct D as [D|D]; [|rewrite A3, B3; auto]. destruct (A2 D) as (i & Hi & ->), (B2 D) as (j & Hj & ->). apply To; [apply B1; auto|rewrite Hn; apply A1; auto].
Qed.

(* ---- rearrangements ---- *)

(* a and b have the same values, each the same number of times *)
Definition same_values (s t : list Z) (x y : list Z -> T) : Prop := Permutation (map x (indices s)) (map y (indices t)).

Lemma same_in : forall s t x y, same_values s t x y -> forall j, inshape j t -> exists i, inshape i s /\ x i = y j.
Proof.
  intros s t x y H j Hj. apply in_indices in Hj. apply (in_map y) in Hj. apply (Permutation_in _ (Permutation_sym H)) in Hj. apply in_map_iff in Hj as (i & E & Hi). exists i. split; auto. apply in_indices; auto.
Qed.
Lemma same_sym : forall s t x y, same_values s t x y -> same_values t s y x.
Proof. intros. apply Permutation_sym. auto. Qed.

Lemma viter_reads : forall v (m : mem T), reads (viter v) (vshape v) m (fun j => m (vplace v j)).
Proof.
  intros v m j Hj. destruct (refers_reads T (viter v) (vshape v) _ m (viter_refers v (vshape v)) j Hj) as (u & E1 & E2). exists u. split; auto. cbv beta in E2. rewrite E2, firstn_all2; auto.
  rewrite (inshape_length _ _ Hj). unfold vshape, vrank. rewrite map_length. auto.
Qed.
Lemma view_sum : forall add (zero : T) v m f z, nonneg (vshape v) -> zclean z -> sum f z add zero (viter v) m = Ok (fold_left add (map (fun j => m (vplace v j)) (indices (vshape v))) zero) m /\ prod f z add zero (viter v) m = Ok (fold_left add (map (fun j => m (vplace v j)) (indices (vshape v))) zero) m.
Proof.
  intros add zero v m f z Hn Hz. destruct (view_shape (T:=T) v (vshape v) eq_refl Hn) as (W & S).
  exact (C31_view T add add zero zero (vdv v) (vcp v) (vshape v) (indices (vshape v)) m f z W S (row_major_indices _) Hz).
Qed.

(* sum, prod, any, every, amin, amax give the same for a and b *)
Definition same_reductions (a b : view) (m : mem T) (f f' : bool) (z z' : list zt) : Prop :=
  (forall add zero, monoid add zero -> commutative add -> exists r, sum f z add zero (viter a) m = Ok r m /\ sum f' z' add zero (viter b) m = Ok r m) /\
  (forall mul one, monoid mul one -> commutative mul -> exists r, prod f z mul one (viter a) m = Ok r m /\ prod f' z' mul one (viter b) m = Ok r m) /\
  (forall tob, exists r, any f z tob (viter a) m = Ok r m /\ any f' z' tob (viter b) m = Ok r m) /\
  (forall tob, exists r, every f z tob (viter a) m = Ok r m /\ every f' z' tob (viter b) m = Ok r m) /\
  (forall ltb top, total_order ltb -> (forall t, ltb top t = false) -> exists r, amin f z ltb top (viter a) m = Ok r m /\ amin f' z' ltb top (viter b) m = Ok r m) /\
  (forall ltb bot, total_order ltb -> (forall t, ltb t bot = false) -> exists r, amax f z ltb bot (viter a) m = Ok r m /\ amax f' z' ltb bot (viter b) m = Ok r m).

(* two views with the same values, each the same number of times *)
Theorem C119_rearranged : forall (a b : view) (m : mem T) f f' z z', nonneg (vshape a) -> nonneg (vshape b) -> same_values (vshape a) (vshape b) (fun j => m (vplace a j)) (fun j => m (vplace b j)) -> zclean z -> zclean z' ->
  same_reductions a b m f f' z z'.
Proof.
  intros a b m f f' z z' Na Nb H Z1 Z2. pose proof (view_shape (T:=T) a _ eq_refl Na) as (Wa & Sa). pose proof (view_shape (T:=T) b _ eq_refl Nb) as (Wb & Sb).
  pose proof (viter_reads a m) as Ra. pose proof (viter_reads b m) as Rb. pose proof (same_in _ _ _ _ H) as I1. pose proof (same_in _ _ _ _ (same_sym _ _ _ _ H)) as I2. cbv beta in I1, I2.
  split; [|split; [|split; [|split; [|split]]]].
  - intros add zero Hm Co. eexists. split; [apply view_sum; auto|]. rewrite (proj1 (view_sum add zero b m f' z' Nb Z2)). f_equal. symmetry. apply (fold_perm add zero); auto.
  - intros add zero Hm Co. eexists. split; [apply view_sum; auto|]. rewrite (proj2 (view_sum add zero b m f' z' Nb Z2)). f_equal. symmetry. apply (fold_perm add zero); auto.
  - intros tob. destruct (C08_any T tob (viter a) _ m _ f z Wa Sa Z1 (reads_true T tob _ _ _ _ Ra)) as (r & E1 & B1). destruct (C08_any T tob (viter b) _ m _ f' z' Wb Sb Z2 (reads_true T tob _ _ _ _ Rb)) as (r' & E2 & B2). cbv beta in *.
    exists r. split; auto. rewrite E2. f_equal. apply eq_true_iff_eq. rewrite B1, B2. split.
    + intros (j & Hj & Ej). destruct (I1 j Hj) as (i & Hi & Ei). exists i. rewrite Ei. auto.
    + intros (j & Hj & Ej). destruct (I2 j Hj) as (i & Hi & Ei). exists i. rewrite Ei. auto.
  - intros tob. destruct (C08_every T tob (viter a) _ m _ f z Wa Sa Z1 (reads_true T tob _ _ _ _ Ra)) as (r & E1 & B1). destruct (C08_every T tob (viter b) _ m _ f' z' Wb Sb Z2 (reads_true T tob _ _ _ _ Rb)) as (r' & E2 & B2). cbv beta in *.
    exists r. split; auto. rewrite E2. f_equal. apply eq_true_iff_eq. rewrite B1, B2. split.
    + intros Q j Hj. destruct (I2 j Hj) as (i & Hi & <-). auto.
    + intros Q j Hj. destruct (I1 j Hj) as (i & Hi & <-). auto.
  - intros ltb top Ho Ht. destruct (C32_amin T ltb top (viter a) _ m _ f z Ho (fun j _ => Ht _) Wa Sa Z1 Ra) as (c & E1 & A1 & A2 & A3). destruct (C32_amin T ltb top (viter b) _ m _ f' z' Ho (fun j _ => Ht _) Wb Sb Z2 Rb) as (d & E2 & B1 & B2 & B3). cbv beta in *.
    exists c. split; auto. rewrite E2. f_equal. destruct (indices (vshape a)) as [|j l] eqn:E.
    + assert (Q : ~ exists j, inshape j (vshape a)) by (intros (j & Hj); apply in_indices in Hj; rewrite E in Hj; destruct Hj). rewrite A3, B3; auto. intros (j & Hj). apply Q. destruct (I1 j Hj) as (i & Hi & _). eauto.
    + assert (Hj : inshape j (vshape a)) by (apply in_indices; rewrite E; left; auto). destruct (I2 j Hj) as (i0 & Hi0 & _). destruct (A2 (ex_intro _ j Hj)) as (i1 & H1 & ->), (B2 (ex_intro _ i0 Hi0)) as (i2 & H2 & ->).
      destruct Ho as (_ & _ & To). apply To; [destruct (I1 i2 H2) as (i & Hi & <-); auto|destruct (I2 i1 H1) as (i & Hi & <-); auto].
  - intros ltb top Ho Ht. destruct (C32_amax T ltb top (viter a) _ m _ f z Ho (fun j _ => Ht _) Wa Sa Z1 Ra) as (c & E1 & A1 & A2 & A3). destruct (C32_amax T ltb top (viter b) _ m _ f' z' Ho (fun j _ => Ht _) Wb Sb Z2 Rb) as (d & E2 & B1 & B2 & B3). cbv beta in *.
    exists c. split; auto. rewrite E2. f_equal. destruct (indices (vshape a)) as [|j l] eqn:E.
    + assert (Q : ~ exists j, inshape j (vshape a)) by (intros (j & Hj); apply in_indices in Hj; rewrite E in Hj; destruct Hj). rewrite A3, B3; auto. intros (j & Hj). apply Q. destruct (I1 j Hj) as (i & Hi & _). eauto.
    + assert (Hj : inshape j (vshape a)) by (apply in_indices; rewrite E; left; auto). destruct (I2 j Hj) as (i0 & Hi0 & _). destruct (A2 (ex_intro _ j Hj)) as (i1 & H1 & ->), (B2 (ex_intro _ i0 Hi0)) as (i2 & H2 & ->).
      destruct Ho as (_ & _ & To). apply To; [destruct (I2 i1 H1) as (i & Hi & <-); auto|destruct (I1 i2 H2) as (i & Hi & <-); auto].
Qed.

Lemma indices_nodup : forall s, NoDup (indices s).
Proof.
  intros s. destruct (row_major_indices s) as (H & _). induction H as [|a l Hl IH Ha]; constructor; auto. intros Hin. rewrite Forall_forall in Ha. apply (lexlt_irrefl a). auto.
Qed.
Lemma bijection : forall s t (g h : list Z -> list Z), (forall j, inshape j t -> inshape (g j) s /\ h (g j) = j) -> (forall i, inshape i s -> inshape (h i) t /\ g (h i) = i) -> Permutation (indices s) (map g (indices t)).
Proof.
  intros s t g h Hg Hh. apply NoDup_Permutation; [apply indices_nodup| |].
  - apply (NoDup_map_inv h). rewrite map_map. rewrite (map_ext_in _ id); [rewrite map_id; apply indices_nodup|]. intros j Hj. apply in_indices in Hj. apply Hg; auto.
  - intros i. rewrite in_map_iff. split.
    + intros Hi. apply in_indices in Hi. exists (h i). destruct (Hh i Hi) as (H1 & H2). split; auto. apply in_indices; auto.
    + intros (j & <- & Hj). apply in_indices in Hj. apply in_indices. apply Hg; auto.
Qed.
Lemma moved : forall (a b : view) (m : mem T) g h, (forall j, inshape j (vshape b) -> inshape (g j) (vshape a) /\ h (g j) = j /\ vplace b j = vplace a (g j)) -> (forall i, inshape i (vshape a) -> inshape (h i) (vshape b) /\ g (h i) = i) ->
  same_values (vshape a) (vshape b) (fun j => m (vplace a j)) (fun j => m (vplace b j)).
Proof.
  intros a b m g h Hg Hh. unfold same_values. rewrite (bijection (vshape a) (vshape b) g h).
  - rewrite map_map. erewrite map_ext_in; [apply Permutation_refl|]. intros j Hj. apply in_indices in Hj. cbv beta. rewrite (proj2 (proj2 (Hg j Hj))). auto.
  - intros j Hj. destruct (Hg j Hj) as (H1 & H2 & _). auto.
  - auto.
Qed.

(* where axis d of transpose(a, s) comes from *)
Fixpoint source_of (s : list Z) (d : Z) : nat :=
  match s with [] => 0%nat | x :: s' => if x =? d then 0%nat else S (source_of s' d) end.
Lemma source_in : forall s d, In d s -> (source_of s d < length s)%nat /\ nth (source_of s d) s 0 = d.
Proof.
  induction s as [|x s IH]; intros d H; [destruct H|]. cbn [source_of]. destruct (Z.eqb_spec x d); cbn [length nth]; [split; [lia|auto]|]. destruct H as [H|H]; [congruence|]. destruct (IH d H). split; [lia|auto].
Qed.
Definition index_from (s j : list Z) : list Z := map (fun sk => nth (Z.to_nat sk) j 0) s.
Definition index_to (s i : list Z) : list Z := map (fun d => nth (source_of s (Z.of_nat d)) i 0) (seq 0 (length s)).

Lemma transposed_index : forall a s b, axis_permutation (vrank a) s -> nonneg (vshape a) -> transpose a s = Good b ->
  nonneg (vshape b) /\ (forall j, inshape j (vshape b) -> inshape (index_from s j) (vshape a) /\ index_to s (index_from s j) = j /\ vplace b j = vplace a (index_from s j)) /\
  (forall i, inshape i (vshape a) -> inshape (index_to s i) (vshape b) /\ index_from s (index_to s i) = i).
Proof.
  intros a s b Hp Hn Hb. destruct (perm_facts _ _ Hp) as (Ls & Ds & Is). destruct (transpose_perm a s Hp) as (b' & Hb' & Rb & Cb & Db). rewrite Hb in Hb'. inversion Hb'; subst b'. clear Hb'.
  assert (Hs : Forall (fun sk => 0 <= sk) s) by (apply Forall_forall; intros x Hx; apply Is in Hx; lia).
  destruct (C18_transpose a s Hs Ls Hn) as (b' & Hb' & _ & _ & Hpl & _). rewrite Hb in Hb'. inversion Hb'; subst b'. clear Hb'.
  assert (Lb : length (vshape b) = vrank a) by (unfold vshape; rewrite map_length; exact Rb).
  assert (Sd : forall d, (d < vrank a)%nat -> (source_of s (Z.of_nat d) < vrank a)%nat /\ nth (source_of s (Z.of_nat d)) s 0 = Z.of_nat d /\ nth d (vshape b) 0 = nth (source_of s (Z.of_nat d)) (vshape a) 0).
  { intros d Hd. destruct (source_in s (Z.of_nat d)) as (S1 & S2); [apply Is; lia|]. split; [lia|]. split; auto. pose proof (Db (source_of s (Z.of_nat d)) ltac:(lia)) as D. rewrite S2, Nat2Z.id in D.
    unfold vshape. rewrite !(nth_map len _ _ dim0) by (unfold vrank in *; lia). rewrite D. auto. }
  assert (Sk : forall k, (k < vrank a)%nat -> source_of s (nth k s 0) = k).
  { intros k Hk. destruct (source_in s (nth k s 0)) as (S1 & S2); [apply nth_In; lia|]. apply (proj1 (NoDup_nth s 0) Ds); auto; lia. }
  split; [|split].
  - apply Forall_forall. intros n Hi. apply (In_nth _ _ 0) in Hi as (d & Hd & <-). rewrite Lb in Hd. destruct (Sd d Hd) as (S1 & _ & ->). unfold nonneg in Hn. rewrite Forall_forall in Hn. apply Hn. apply nth_In. unfold vshape. rewrite map_length. exact S1.
  - intros j Hj. pose proof (inshape_length _ _ Hj) as Lj. split; [apply (C18_in_range a s b); auto|]. split; [|apply Hpl; lia].
    apply (list_eq_nth _ _ _ 0); unfold index_to; rewrite map_length, seq_length; [lia|]. intros d Hd. rewrite (nth_map _ _ _ 0%nat) by (rewrite seq_length; auto). rewrite seq_nth by auto. cbn [Nat.add].
    destruct (Sd d ltac:(lia)) as (S1 & S2 & _). unfold index_from. rewrite (nth_map (fun sk => nth (Z.to_nat sk) j 0) _ _ 0) by lia. rewrite S2, Nat2Z.id. auto.
  - intros i Hi. pose proof (inshape_length _ _ Hi) as Li. unfold vshape in Li. rewrite map_length in Li. split.
    + apply nth_inshape; [unfold index_to; rewrite map_length, seq_length; lia|]. intros d Hd. rewrite Lb in Hd. destruct (Sd d Hd) as (S1 & S2 & ->). unfold index_to. rewrite (nth_map _ _ _ 0%nat) by (rewrite seq_length; lia). rewrite seq_nth by lia. cbn [Nat.add].
      apply (inshape_nth _ _ Hi). unfold vshape. rewrite map_length. exact S1.
    + apply (list_eq_nth _ _ _ 0); unfold index_from; rewrite map_length; [unfold vrank in *; lia|]. intros k Hk. rewrite (nth_map (fun sk => nth (Z.to_nat sk) _ 0) _ _ 0) by auto.
      assert (Ik : In (nth k s 0) s) by (apply nth_In; auto). apply Is in Ik. unfold index_to. rewrite (nth_map _ _ _ 0%nat) by (rewrite seq_length; lia). rewrite seq_nth by lia. cbn [Nat.add]. rewrite Z2Nat.id by lia. rewrite Sk by lia. auto.
Qed.

(* any of these reductions of transpose(a, s) is that of a, if s is a permutation of the axes *)
Theorem C119_transpose : forall (a b : view) s (m : mem T) f f' z z', axis_permutation (vrank a) s -> nonneg (vshape a) -> transpose a s = Good b -> zclean z -> zclean z' -> same_reductions a b m f f' z z'.
Proof.
  intros a b s m f f' z z' Hp Hn Hb Z1 Z2. destruct (transposed_index a s b Hp Hn Hb) as (N & H1 & H2). apply C119_rearranged; auto. apply (moved a b m (index_from s) (index_to s)); auto.
Qed.
(* also of reverse(a, k) *)
Theorem C119_reverse : forall (a b : view) k (m : mem T) f f' z z', 0 <= k < Z.of_nat (vrank a) -> nonneg (vshape a) -> reverse a k = Good b -> zclean z -> zclean z' -> same_reductions a b m f f' z z'.
Proof.
  intros a b k m f f' z z' Hk Hn Hb Z1 Z2. destruct (nth (Z.to_nat k) (vdv a) dim0) as [n st] eqn:En.
  assert (Ek : nth (Z.to_nat k) (vshape a) 0 = n) by (unfold vshape; rewrite (nth_map len _ _ dim0) by (unfold vrank in *; lia); rewrite En; auto).
  assert (Hu : n <> UNB) by (unfold nonneg in Hn; rewrite Forall_forall in Hn; specialize (Hn n); unfold UNB; enough (0 <= n) by lia; apply Hn; rewrite <- Ek; apply nth_In; unfold vshape; rewrite map_length; unfold vrank in *; lia).
  destruct (C17_element a k n st Hk En Hu) as (b' & Hb' & Sb & Hp). rewrite Hb in Hb'. inversion Hb'; subst b'. apply C119_rearranged; auto; [rewrite Sb; auto|].
  assert (I : forall j, inshape j (vshape a) -> let g := fun j => set_nth j (Z.to_nat k) (n - 1 - nth (Z.to_nat k) j 0) in g (g j) = j).
  { intros j Hj g. unfold g. assert (L : (Z.to_nat k < length j)%nat) by (rewrite (inshape_length _ _ Hj); unfold vshape; rewrite map_length; unfold vrank in *; lia).
    rewrite set_nth_twice, set_nth_nth, Nat.eqb_refl. destruct (Nat.ltb_spec (Z.to_nat k) (length j)); [|lia]. cbn [andb]. replace (n - 1 - (n - 1 - nth (Z.to_nat k) j 0)) with (nth (Z.to_nat k) j 0) by lia. apply set_nth_id. auto. }
  apply (moved a b m (fun j => set_nth j (Z.to_nat k) (n - 1 - nth (Z.to_nat k) j 0)) (fun j => set_nth j (Z.to_nat k) (n - 1 - nth (Z.to_nat k) j 0))); rewrite Sb.
  - intros j Hj. destruct (Hp j Hj) as (P1 & P2). split; auto.
  - intros j Hj. destruct (Hp j Hj) as (P1 & P2). split; auto.
Qed.

(* dot(transpose(a, s), transpose(b, s)) is dot(a, b) *)
Theorem C119_dot_transpose : forall add mul zero (a a' b b' : view) s (m : mem T) f f' z z', monoid add zero -> commutative add -> axis_permutation (vrank a) s -> nonneg (vshape a) -> vshape b = vshape a ->
  transpose a s = Good a' -> transpose b s = Good b' -> zclean z -> zclean z' ->
  exists r, dot f z add mul zero (viter a) (viter b) m = Ok r m /\ dot f' z' add mul zero (viter a') (viter b') m = Ok r m.
Proof.
  intros add mul zero a a' b b' s m f f' z z' Hm Co Hp Hn Eb Ha Hb Z1 Z2.
  assert (Rb : vrank b = vrank a) by (apply (f_equal (@length Z)) in Eb; unfold vshape in Eb; rewrite !map_length in Eb; exact Eb).
  destruct (transposed_index a s a' Hp Hn Ha) as (N1 & G1 & H1). destruct (transposed_index b s b') as (N2 & G2 & H2); [rewrite Rb; auto|rewrite Eb; auto|auto|].
  assert (Es : vshape b' = vshape a').
  { assert (Ls : length s = vrank a) by (apply perm_facts; auto). apply (list_eq_nth _ _ _ 0).
    - destruct (transpose_perm a s Hp) as (a2 & A1 & A2 & _), (transpose_perm b s) as (b2 & B1 & B2 & _); [rewrite Rb; auto|]. rewrite Ha in A1. rewrite Hb in B1. inversion A1; inversion B1; subst. unfold vshape. rewrite !map_length. unfold vrank in *. lia.
    - intros d Hd. destruct (perm_facts _ _ Hp) as (_ & _ & Is). destruct (transpose_perm a s Hp) as (a2 & A1 & A2 & _ & A3), (transpose_perm b s) as (b2 & B1 & B2 & _ & B3); [rewrite Rb; auto|]. rewrite Ha in A1. rewrite Hb in B1. inversion A1; inversion B1; subst a2 b2.
      unfold vshape in Hd |- *. rewrite map_length in Hd. destruct (source_in s (Z.of_nat d)) as (S1 & S2); [apply Is; unfold vrank in *; lia|]. rewrite !(nth_map len _ _ dim0) by (unfold vrank in *; lia).
      specialize (A3 (source_of s (Z.of_nat d)) ltac:(lia)). specialize (B3 (source_of s (Z.of_nat d)) ltac:(lia)). rewrite S2, Nat2Z.id in A3, B3. rewrite A3, B3.
      unfold vshape in Eb. rewrite <- !(nth_map len _ _ dim0 0) by (unfold vrank in *; lia). rewrite Eb. auto. }
  assert (J1 : joint_shape [viter (T:=T) a; viter b] (vshape a)) by (apply P_Deep.same_joint; auto). assert (J2 : joint_shape [viter (T:=T) a'; viter b'] (vshape a')) by (apply P_Deep.same_joint; auto).
  assert (Nb : nonneg (vshape b)) by (rewrite Eb; auto).
  pose proof (view_shape (T:=T) a _ eq_refl Hn) as (W1 & _). pose proof (view_shape (T:=T) b _ eq_refl Nb) as (W2 & _). pose proof (view_shape (T:=T) a' _ eq_refl N1) as (W3 & _). pose proof (view_shape (T:=T) b' _ eq_refl N2) as (W4 & _).
  pose proof (viter_reads b m) as Rb0. rewrite Eb in Rb0. pose proof (viter_reads b' m) as Rb1. rewrite Es in Rb1.
  eexists. split; [apply C31_dot with (s := vshape a) (js := indices (vshape a)) (x := fun j => m (vplace a j)) (y := fun j => m (vplace b j)); auto; [apply row_major_indices|apply viter_reads]|].
  rewrite (C31_dot T add mul zero (viter a') (viter b') (vshape a') (indices (vshape a')) m (fun j => m (vplace a' j)) (fun j => m (vplace b' j))); auto; [|apply row_major_indices|apply viter_reads].
  f_equal. apply (fold_perm add zero); auto. apply Permutation_sym. rewrite (bijection (vshape a) (vshape a') (index_from s) (index_to s)).
  - rewrite map_map. erewrite map_ext_in; [apply Permutation_refl|]. intros j Hj. apply in_indices in Hj. cbv beta. rewrite (proj2 (proj2 (G1 j Hj))). rewrite <- Es in Hj. rewrite (proj2 (proj2 (G2 j Hj))). auto.
  - intros j Hj. destruct (G1 j Hj) as (Q1 & Q2 & _). auto.
  - auto.
Qed.

(* reshape(a, s) with as many elements: even without the operation being commutative *)
Theorem C119_reshape : forall (a b : view) s (m : mem T) f f' z z', nonneg (vshape a) -> nonneg s -> reshape a s = Good b -> zprod s = zprod (vshape a) ->
  (forall d e, innermost (vdv a) d -> step d = 0 -> In e (vdv a) -> len e <> 1 -> step e = 0) -> (forall d, innermost (vdv a) d -> step (last (vdv a) dim0) = step d) -> (0 < zprod (vshape a) \/ (vrank a <= length s)%nat) -> zclean z -> zclean z' ->
  (forall add zero, exists r, sum f z add zero (viter a) m = Ok r m /\ sum f' z' add zero (viter b) m = Ok r m) /\
  (forall mul one, exists r, prod f z mul one (viter a) m = Ok r m /\ prod f' z' mul one (viter b) m = Ok r m) /\
  same_reductions a b m f f' z z'.
Proof.
  intros a b s m f f' z z' Hn Hs Hb Ez C1 C2 C3 Z1 Z2.
  assert (Nm : ~ In (-1) s) by (intros H; unfold nonneg in Hs; rewrite Forall_forall in Hs; specialize (Hs _ H); lia).
  assert (Sb : vshape b = s) by (apply (C15_shape a); auto).
  assert (R : reshaped a b).
  { apply (C15_reshape_partial a s b); auto. unfold nonneg in *. rewrite Forall_forall in *. intros n Hi. apply filter_In in Hi as (Hi & _). auto. }
  assert (E : map (fun j => m (vplace a j)) (indices (vshape a)) = map (fun j => m (vplace b j)) (indices (vshape b))).
  { set (w := fun p => m (vplace a (nth (Z.to_nat p) (indices (vshape a)) []))).
    assert (E1 : forall j, In j (indices (vshape a)) -> m (vplace a j) = w (rm (vshape a) j)) by (intros j Hj; apply in_indices in Hj; unfold w; rewrite rm_nth; auto).
    assert (E2 : forall j, In j (indices (vshape b)) -> m (vplace b j) = w (rm (vshape b) j)).
    { intros j Hj. apply in_indices in Hj. destruct (R j Hj) as (i & Hi & Ei & ->). pose proof (rm_range _ _ Hj) as Rj. rewrite Sb in Rj. rewrite Ez in Rj. rewrite <- Sb in Rj. rewrite Z.mod_small in Ei by auto. unfold w. rewrite <- Ei. rewrite rm_nth; auto. }
    rewrite (map_ext_in _ _ _ E1), (map_ext_in _ _ _ E2). rewrite <- (map_map (rm (vshape a)) w), <- (map_map (rm (vshape b)) w). rewrite Sb, !rm_indices by auto. rewrite Ez. auto. }
  assert (Nb : nonneg (vshape b)) by (rewrite Sb; auto).
  split; [|split; [|apply C119_rearranged; auto; unfold same_values; rewrite E; apply Permutation_refl]].
  - intros add zero. eexists. split; [apply view_sum; auto|]. rewrite E. apply view_sum; auto.
  - intros add zero. eexists. split; [apply view_sum; auto|]. rewrite E. apply view_sum; auto.
Qed.

(* sum(cat(a1, a2)) is sum(a1)+sum(a2), taken after cat *)
Theorem C119_cat : forall add zero (a1 a2 : ex) s1 s2 x1 x2 q m f1 f2 f3 f4 f5 z1 z2 z3 z4 z5, monoid add zero -> wf a1 -> wf a2 -> shape_is a1 s1 -> shape_is a2 s2 -> (length s1 <= 1)%nat -> (length s2 <= 1)%nat ->
  (exists j, inshape j s1) -> (exists j, inshape j s2) -> zclean z1 -> zclean z2 -> zclean z3 -> zclean z4 -> zclean z5 ->
  (forall m', (forall p, ~ (q <= p < q + (zprod s1 + zprod s2)) -> m' p = m p) -> reads a1 s1 m' x1 /\ reads a2 s2 m' x2) ->
  exists c m' u v, cat f1 f2 z1 z2 q a1 a2 m = Ok c m' /\ sum f3 z3 add zero a1 m' = Ok u m' /\ sum f4 z4 add zero a2 m' = Ok v m' /\ sum f5 z5 add zero (viter c) m' = Ok (add u v) m'.
Proof.
  intros add zero a1 a2 s1 s2 x1 x2 q m f1 f2 f3 f4 f5 z1 z2 z3 z4 z5 Hm W1 W2 S1 S2 L1 L2 N1 N2 Z1 Z2 Z3 Z4 Z5 U.
  destruct (C86_cat a1 a2 s1 s2 x1 x2 q m f1 f2 z1 z2 W1 W2 S1 S2 L1 L2 Z1 Z2 U) as (c & m' & E & Sc & C1 & C2 & Pc & K). destruct (U m' K) as (R1 & R2).
  pose proof (shape_nonneg _ _ _ _ S1) as M1. pose proof (shape_nonneg _ _ _ _ S2) as M2. assert (P1 : 0 <= zprod s1) by (apply zprod_nonneg; auto). assert (P2 : 0 <= zprod s2) by (apply zprod_nonneg; auto).
  exists c, m'. eexists. eexists. split; [exact E|]. split; [apply C31_sum_partial with (s := s1) (js := indices s1) (x := x1); auto; apply row_major_indices|]. split; [apply C31_sum_partial with (s := s2) (js := indices s2) (x := x2); auto; apply row_major_indices|].
  rewrite (proj1 (view_sum add zero c m' f5 z5 ltac:(rewrite Sc; constructor; [lia|constructor]) Z5)). f_equal. rewrite Sc, indices_1, zrange_app, map_app, map_app, map_map, !map_map, fold_left_app by auto. rewrite <- (rm_indices s1), <- (rm_indices s2), !map_map by auto.
  rewrite (map_ext_in _ x1 (indices s1)) by (intros j Hj; apply in_indices in Hj; apply C1; auto). rewrite (map_ext_in _ x2 (indices s2)) by (intros j Hj; apply in_indices in Hj; apply C2; auto). apply fold_from; auto.
Qed.
End Elem.

(* ---- examples: a = {{3, -1, 4}, {1, 5, -9}} at 0, b = {{2, 7, 1}, {8, 2, 8}} at 10 ---- *)
Definition ma : mem Z := fun p => if p <? 10 then nth (Z.to_nat p) [3; -1; 4; 1; 5; -9] 0 else nth (Z.to_nat (p - 10)) [2; 7; 1; 8; 2; 8] 0.
Definition va : view := Vw [Dim 2 3; Dim 3 1] 0.
Definition vb : view := Vw [Dim 2 3; Dim 3 1] 10.

Lemma z_monoid : monoid Z.add 0 /\ commutative Z.add /\ monoid Z.mul 1 /\ commutative Z.mul.
Proof. repeat split; intros; try lia; intros ?; intros; lia. Qed.
Lemma va_ok : nonneg (vshape va) /\ wf (viter (T:=Z) va) /\ wf (viter (T:=Z) vb) /\ shape_is (viter (T:=Z) va) [2; 3] /\ shape_is (viter (T:=Z) vb) [2; 3] /\ joint_shape [viter (T:=Z) va; viter vb] [2; 3] /\ joint_shape [viter (T:=Z) vb; viter va] [2; 3].
Proof.
  assert (N : nonneg [2; 3]) by (apply Forall_cons; [lia|]; apply Forall_cons; [lia|]; constructor).
  pose proof (view_shape (T:=Z) va _ eq_refl N) as (W1 & S1). pose proof (view_shape (T:=Z) vb _ eq_refl N) as (W2 & S2).
  split; [exact N|]. split; [exact W1|]. split; [exact W2|]. split; [exact S1|]. split; [exact S2|]. split; apply (same_joint Z.add 0); first [reflexivity | exact N].
Qed.
Lemma va_perm : axis_permutation (vrank va) [1; 0].
Proof. apply facts_perm; [auto|repeat (constructor; [cbn; intuition; discriminate|]); constructor|]. cbn. intuition lia. Qed.
Lemma va_inner : forall d, innermost (vdv va) d -> step d = 1.
Proof. intros d (pre & post & E & Hd & Hp). destruct pre as [|e pre]; [cbn in E; injection E; intros <- _; inversion Hp; subst; cbn in *; lia|]. destruct pre as [|e' pre]; cbn in E; [injection E; intros _ <- _; reflexivity|]. destruct pre; discriminate E. Qed.

Example ex_not : reads_bool (fun x => x <? 0) (viter va) [2; 3] ma (fun j => ma (vplace va j) <? 0) /\ any true z_init (fun x => x <? 0) (viter va) ma = Ok true ma /\ every false z_init (fun x => x <? 0) (lnot (fun x => x <? 0) (viter va)) ma = Ok false ma /\ every true z_init (fun x => x <? 0) (viter va) ma = Ok false ma.
Proof. split; [apply (reads_true Z (fun x => x <? 0)); apply viter_reads|]. split; [|split]; reflexivity. Qed.
Example ex_index : index true z_init (fun x => x <? 0) (viter va) ma = Ok 0 ma /\ any true z_init (fun x => x <? 0) (viter vb) ma = Ok false ma /\ index true z_init (fun x => x <? 0) (viter vb) ma = Ok (-1) ma.
Proof. split; [|split]; reflexivity. Qed.
Example ex_trichotomy : (forall u v, Z.eqb u v = true <-> u = v) /\ total_order Z.ltb /\ lexical_compare true z_init Z.eqb Z.ltb (viter va) (viter vb) ma = Ok false ma /\ lexical_compare true z_init Z.eqb Z.ltb (viter vb) (viter va) ma = Ok true ma /\
  every true z_init (fun _ => true) (cmp Z.eqb (viter va) (viter vb)) ma = Ok false ma /\ every true z_init (fun _ => true) (cmp Z.eqb (viter va) (viter va)) ma = Ok true ma.
Proof.
  split; [apply Z.eqb_eq|]. split; [|split; [|split; [|split]]; reflexivity]. split; [apply Z.ltb_irrefl|]. split; [intros a b c; rewrite !Z.ltb_lt; lia|]. intros a b H1 H2. apply Z.ltb_ge in H1, H2. lia.
Qed.
Example ex_sums : dot true z_init Z.add Z.mul 0 (viter va) (viter vb) ma = Ok (-51) ma /\ sum false z_init Z.add 0 (bin Z.mul (viter va) (viter vb)) ma = Ok (-51) ma /\ sum true z_init Z.add 0 (viter va) ma = Ok 3 ma /\ sum true z_init Z.add 0 (viter vb) ma = Ok 28 ma /\
  sum true z_init Z.add 0 (bin Z.add (viter va) (viter vb)) ma = Ok 31 ma /\ sum true z_init Z.add 0 (una (Z.mul 7) (viter va)) ma = Ok 21 ma /\ reduce_sqrm true z_init Z.add (fun x => x * x) 0 (viter va) ma = Ok 133 ma /\ dot true z_init Z.add Z.mul 0 (viter va) (viter va) ma = Ok 133 ma.
Proof. split; [|split; [|split; [|split; [|split; [|split; [|split]]]]]]; reflexivity. Qed.
(* Gaussian integers *)
Definition cadd (x y : Z * Z) := (fst x + fst y, snd x + snd y).
Definition cmul (x y : Z * Z) := (fst x * fst y - snd x * snd y, fst x * snd y + snd x * fst y).
Definition cconj (x : Z * Z) := (fst x, - snd x).
Example ex_cdot : monoid cadd (0, 0) /\ (forall u v, cconj (cadd u v) = cadd (cconj u) (cconj v)) /\ (forall u, cconj (cconj u) = u) /\ (forall u v, cconj (cmul u v) = cmul (cconj v) (cconj u)) /\
  cdot true z_init cadd cmul cconj (0, 0) (viter va) (viter vb) (fun p => (ma p, p)) = Ok (154, -66) (fun p => (ma p, p)) /\ cdot true z_init cadd cmul cconj (0, 0) (viter vb) (viter va) (fun p => (ma p, p)) = Ok (154, 66) (fun p => (ma p, p)).
Proof.
  split; [|split; [|split; [|split; [|split; reflexivity]]]].
  - unfold monoid, cadd. split; [|split]; [intros [] [] []|intros []|intros []]; cbn; f_equal; lia.
  - intros [] []; unfold cconj, cadd; cbn; f_equal; lia.
  - intros []; unfold cconj; cbn; f_equal; lia.
  - intros [] []; unfold cconj, cmul; cbn; f_equal; lia.
Qed.
(* the order with false below true, which ! reverses *)
Definition bless (u v : bool) := negb u && v.
Example ex_negate : total_order bless /\ (forall t, bless true t = false) /\ (forall t, bless t false = false) /\ (forall u v, bless (negb u) (negb v) = bless v u) /\
  amin true z_init bless true (viter va) (fun p => 4 <? ma p) = Ok false (fun p => 4 <? ma p) /\ amax true z_init bless false (una negb (viter va)) (fun p => 4 <? ma p) = Ok true (fun p => 4 <? ma p).
Proof.
  split; [|split; [|split; [|split; [|split; reflexivity]]]]; try (intros []; reflexivity); try (intros [] []; reflexivity). split; [intros []; reflexivity|]. split; [intros [] [] []; cbn; auto|intros [] []; cbn; auto; discriminate].
Qed.
Example ex_rearranged : exists b c d a', transpose va [1; 0] = Good b /\ reverse va 1 = Good c /\ reshape va [3; 2] = Good d /\ transpose vb [1; 0] = Good a' /\ axis_permutation (vrank va) [1; 0] /\
  (forall d e, innermost (vdv va) d -> step d = 0 -> In e (vdv va) -> len e <> 1 -> step e = 0) /\ (forall d, innermost (vdv va) d -> step (last (vdv va) dim0) = step d) /\
  sum true z_init Z.add 0 (viter b) ma = Ok 3 ma /\ sum true z_init Z.add 0 (viter c) ma = Ok 3 ma /\ sum true z_init Z.sub 0 (viter d) ma = Ok (-3) ma /\ sum true z_init Z.sub 0 (viter va) ma = Ok (-3) ma /\
  prod true z_init Z.mul 1 (viter b) ma = Ok 540 ma /\ prod false z_init Z.mul 1 (viter va) ma = Ok 540 ma /\ dot true z_init Z.add Z.mul 0 (viter b) (viter a') ma = Ok (-51) ma.
Proof.
  eexists. eexists. eexists. eexists. split; [reflexivity|]. split; [reflexivity|]. split; [reflexivity|]. split; [reflexivity|]. split; [exact va_perm|].
  split; [intros d e H; rewrite (va_inner d H); discriminate|]. split; [intros d H; rewrite (va_inner d H); reflexivity|]. split; [|split; [|split; [|split; [|split; [|split]]]]]; reflexivity.
Qed.
Example ex_cat : match cat true true z_init z_init 20 (viter (Vw [Dim 3 2] 0)) (viter (Vw [Dim 2 1] 10)) ma with Ok c m' => match sum true z_init Z.add 0 (viter c) m' with Ok r _ => r = 12 + 9 | _ => False end | _ => False end.
Proof. vm_compute. reflexivity. Qed.
Print Assumptions C119_not. Print Assumptions C119_index. Print Assumptions C119_trichotomy. Print Assumptions C119_dot. Print Assumptions C119_sum. Print Assumptions C119_linear. Print Assumptions C119_cdot. Print Assumptions C119_sqrm. Print Assumptions C119_negate.
Print Assumptions C119_rearranged. Print Assumptions C119_transpose. Print Assumptions C119_reverse. Print Assumptions C119_dot_transpose. Print Assumptions C119_reshape. Print Assumptions C119_cat.
