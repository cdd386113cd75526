(* Properties of matrix products when they are combined: C105. *)
From Coq Require Import ZArith List Lia Bool Arith Ring_theory Ring.
From Verif Require Import Spec M_Base M_Expr M_Ply L_Spec L_Expr Spec_Ply L_Ply Spec_Expr M_Val Spec_Val M_View L_View Spec_View P_View M_Mat Spec_Mat P_Mat L_Agree P_Reduce.
Import ListNotations.
Open Scope Z_scope.

(* the n places from q and the n' places from q' have none in common *)
Definition clear (q n q' n' : Z) : Prop := q + n <= q' \/ q' + n' <= q.

Section Laws.
Variables (R : Type) (rO rI : R) (radd rmul rsub : R -> R -> R) (ropp : R -> R).
Hypothesis RT : ring_theory rO rI radd rmul rsub ropp eq.
Add Ring RRing : RT.
Infix "+!" := radd (at level 50, left associativity).
Infix "*!" := rmul (at level 40, left associativity).

(* accum over n terms, for the proofs *)
Fixpoint total (l : list Z) (f : Z -> R) : R := match l with [] => rO | k::l' => f k +! total l' f end.
Lemma fold_total : forall l f c, fold_left radd (map f l) c = c +! total l f.
Proof. induction l; intros; cbn; [ring|]. rewrite IHl. ring. Qed.
Lemma accum_total : forall n f, accum radd rO n f = total (zrange n) f.
Proof. intros. unfold accum. rewrite fold_total. ring. Qed.
Lemma total_ext : forall l f g, (forall k, In k l -> f k = g k) -> total l f = total l g.
Proof. induction l; intros; cbn; auto. rewrite (H a), (IHl f g); auto; [intros; apply H|]; cbn; auto. Qed.
Lemma total_plus : forall l f g, total l (fun k => f k +! g k) = total l f +! total l g.
Proof. induction l; intros; cbn; [ring|]. rewrite IHl. ring. Qed.
Lemma total_mul_r : forall l f x, total l f *! x = total l (fun k => f k *! x).
Proof. induction l; intros; cbn; [ring|]. rewrite <- IHl. ring. Qed.
Lemma total_mul_l : forall l f x, x *! total l f = total l (fun k => x *! f k).
Proof. induction l; intros; cbn; [ring|]. rewrite <- IHl. ring. Qed.
Lemma total_zero : forall l, total l (fun _ => rO) = rO.
Proof. induction l; cbn; auto. rewrite IHl. ring. Qed.
Lemma total_swap : forall l m f, total l (fun i => total m (f i)) = total m (fun j => total l (fun i => f i j)).
Proof. induction l; intros; cbn; [rewrite total_zero; auto|]. rewrite IHl, <- total_plus. auto. Qed.

Lemma places2 : forall v n p i j, vshape v = [n; p] -> 0 <= i < n -> 0 <= j < p -> inshape [i; j] (vshape v).
Proof. intros v n p i j -> ? ?. apply in2; auto. Qed.
Lemma free_result : forall c q n q' n', (forall j, inshape j (vshape c) -> q <= vplace c j < q + n) -> clear q n q' n' -> free_of c q' n'.
Proof. intros c q n q' n' H C j Hj. specialize (H j Hj). unfold clear in C. lia. Qed.
Lemma shape2 : forall c q n p, vshape c = [n; p] -> (forall i j, 0 <= i < n -> 0 <= j < p -> q <= vplace c [i; j] < q + n * p) -> forall j, inshape j (vshape c) -> q <= vplace c j < q + n * p.
Proof. intros c q n p -> H j Hj. inversion Hj as [|? ? ? ? ? Hj2]; subst. inversion Hj2 as [|? ? ? ? ? Hj3]; subst. inversion Hj3; subst. auto. Qed.
Lemma shape1 : forall c q n, vshape c = [n] -> (forall i, 0 <= i < n -> q <= vplace c [i] < q + n) -> forall j, inshape j (vshape c) -> q <= vplace c j < q + n.
Proof. intros c q n -> H j Hj. inversion Hj as [|? ? ? ? ? Hj2]; subst. inversion Hj2; subst. auto. Qed.
Lemma kept : forall (v : view) q n (m m' : mem R) j, (forall x, ~ (q <= x < q + n) -> m' x = m x) -> free_of v q n -> inshape j (vshape v) -> m' (vplace v j) = m (vplace v j).
Proof. intros v q n m m' j H F Hj. apply H. apply F. auto. Qed.

Notation gemm := (gemm2 radd rmul).
Notation gemv := (gemv2 radd rmul).
Notation gevm := (gevm2 radd rmul).

(* u = gemm(a, b), w = gemm(u, c), v = gemm(b, c), x = gemm(a, v): w and x are the same. *)
Theorem C105_associative : forall (a b c : view) n l p r q1 q2 q3 q4 m f1 f2 f3 f4 z1 z2 z3 z4,
  vshape a = [n; l] -> vshape b = [l; p] -> vshape c = [p; r] -> nonneg [n; l; p; r] -> zclean z1 -> zclean z2 -> zclean z3 -> zclean z4 ->
  (forall v, In v [a; b; c] -> free_of v q1 (n * p) /\ free_of v q2 (n * r) /\ free_of v q3 (l * r) /\ free_of v q4 (n * r)) ->
  clear q1 (n * p) q2 (n * r) -> clear q2 (n * r) q3 (l * r) -> clear q2 (n * r) q4 (n * r) -> clear q3 (l * r) q4 (n * r) ->
  exists u w v x m1 m2 m3 m4,
    gemm f1 z1 q1 rO a b m = Ok (Some u) m1 /\ gemm f2 z2 q2 rO u c m1 = Ok (Some w) m2 /\
    gemm f3 z3 q3 rO b c m2 = Ok (Some v) m3 /\ gemm f4 z4 q4 rO a v m3 = Ok (Some x) m4 /\
    vshape w = [n; r] /\ vshape x = [n; r] /\ forall i j, 0 <= i < n -> 0 <= j < r -> m4 (vplace w [i; j]) = m4 (vplace x [i; j]).
Proof.
  intros a b c n l p r q1 q2 q3 q4 m f1 f2 f3 f4 z1 z2 z3 z4 Sa Sb Sc Hn Z1 Z2 Z3 Z4 F K12 K23 K24 K34.
  inversion Hn as [|? ? Pn Hn1]; subst. inversion Hn1 as [|? ? Pl Hn2]; subst. inversion Hn2 as [|? ? Pp Hn3]; subst. inversion Hn3 as [|? ? Pr _]; subst.
  destruct (F a) as (Fa1 & Fa2 & Fa3 & Fa4); [cbn; auto|]. destruct (F b) as (Fb1 & Fb2 & Fb3 & Fb4); [cbn; auto|]. destruct (F c) as (Fc1 & Fc2 & Fc3 & Fc4); [cbn; auto|].
  destruct (C33_gemm2 radd rmul a b n l p q1 rO m f1 z1) as (u & m1 & E1 & Su & _ & Vu & O1); auto.
  assert (Bu : forall j, inshape j (vshape u) -> q1 <= vplace u j < q1 + n * p) by (apply shape2; auto; intros; apply Vu; auto).
  destruct (C33_gemm2 radd rmul u c n p r q2 rO m1 f2 z2) as (w & m2 & E2 & Sw & _ & Vw' & O2); auto.
  { eapply free_result; eauto. }
  assert (Bw : forall j, inshape j (vshape w) -> q2 <= vplace w j < q2 + n * r) by (apply shape2; auto; intros; apply Vw'; auto).
  destruct (C33_gemm2 radd rmul b c l p r q3 rO m2 f3 z3) as (v & m3 & E3 & Sv & _ & Vv & O3); auto.
  assert (Bv : forall j, inshape j (vshape v) -> q3 <= vplace v j < q3 + l * r) by (apply shape2; auto; intros; apply Vv; auto).
  destruct (C33_gemm2 radd rmul a v n l r q4 rO m3 f4 z4) as (x & m4 & E4 & Sx & _ & Vx & O4); auto.
  { eapply free_result; eauto. }
  exists u, w, v, x, m1, m2, m3, m4. split; [exact E1|]. split; [exact E2|]. split; [exact E3|]. split; [exact E4|]. split; [auto|]. split; [auto|]. intros i j Hi Hj.
  rewrite (kept w q4 (n * r) m3 m4 _ O4) by (eauto using free_result, places2).
  rewrite (kept w q3 (l * r) m2 m3 _ O3) by (eauto using free_result, places2).
  rewrite (proj2 (Vw' i j Hi Hj)), (proj2 (Vx i j Hi Hj)), !accum_total.
  transitivity (total (zrange p) (fun k => total (zrange l) (fun h => m (vplace a [i; h]) *! m (vplace b [h; k]) *! m (vplace c [k; j])))).
  - apply total_ext. intros k Hk. apply in_zrange in Hk. rewrite (proj2 (Vu i k Hi Hk)), accum_total, total_mul_r. rewrite (kept c q1 (n * p) m m1 _ O1) by eauto using places2. auto.
  - rewrite total_swap. apply total_ext. intros h Hh. apply in_zrange in Hh. rewrite (proj2 (Vv h j Hh Hj)), accum_total, total_mul_l. apply total_ext. intros k Hk. apply in_zrange in Hk.
    rewrite (kept a q3 (l * r) m2 m3 _ O3), (kept a q2 (n * r) m1 m2 _ O2), (kept a q1 (n * p) m m1 _ O1), (kept b q2 (n * r) m1 m2 _ O2), (kept b q1 (n * p) m m1 _ O1), (kept c q2 (n * r) m1 m2 _ O2), (kept c q1 (n * p) m m1 _ O1) by eauto using places2.
    ring.
Qed.

Lemma places1 : forall v n i, vshape v = [n] -> 0 <= i < n -> inshape [i] (vshape v).
Proof. intros v n i -> ?. apply in1; auto. Qed.

(* u = gemm(a, b), w = gemv(u, c), v = gemv(b, c), x = gemv(a, v): w and x are the same. *)
Theorem C105_gemv : forall (a b c : view) n l p q1 q2 q3 q4 m f1 f2 f3 f4 z1 z2 z3 z4,
  vshape a = [n; l] -> vshape b = [l; p] -> vshape c = [p] -> nonneg [n; l; p] -> zclean z1 -> zclean z2 -> zclean z3 -> zclean z4 ->
  (forall v, In v [a; b; c] -> free_of v q1 (n * p) /\ free_of v q2 n /\ free_of v q3 l /\ free_of v q4 n) ->
  clear q1 (n * p) q2 n -> clear q2 n q3 l -> clear q2 n q4 n -> clear q3 l q4 n ->
  exists u w v x m1 m2 m3 m4,
    gemm f1 z1 q1 rO a b m = Ok (Some u) m1 /\ gemv f2 z2 q2 rO u c m1 = Ok (Some w) m2 /\
    gemv f3 z3 q3 rO b c m2 = Ok (Some v) m3 /\ gemv f4 z4 q4 rO a v m3 = Ok (Some x) m4 /\
    vshape w = [n] /\ vshape x = [n] /\ forall i, 0 <= i < n -> m4 (vplace w [i]) = m4 (vplace x [i]).
Proof.
  intros a b c n l p q1 q2 q3 q4 m f1 f2 f3 f4 z1 z2 z3 z4 Sa Sb Sc Hn Z1 Z2 Z3 Z4 F K12 K23 K24 K34.
  inversion Hn as [|? ? Pn Hn1]; subst. inversion Hn1 as [|? ? Pl Hn2]; subst. inversion Hn2 as [|? ? Pp _]; subst.
  destruct (F a) as (Fa1 & Fa2 & Fa3 & Fa4); [cbn; auto|]. destruct (F b) as (Fb1 & Fb2 & Fb3 & Fb4); [cbn; auto|]. destruct (F c) as (Fc1 & Fc2 & Fc3 & Fc4); [cbn; auto|].
  destruct (C33_gemm2 radd rmul a b n l p q1 rO m f1 z1) as (u & m1 & E1 & Su & _ & Vu & O1); auto.
  assert (Bu : forall j, inshape j (vshape u) -> q1 <= vplace u j < q1 + n * p) by (apply shape2; auto; intros; apply Vu; auto).
  destruct (C34_gemv2 radd rmul u c n p q2 rO m1 f2 z2) as (w & m2 & E2 & Sw & _ & Vw' & O2); auto.
  { eapply free_result; eauto. }
  assert (Bw : forall j, inshape j (vshape w) -> q2 <= vplace w j < q2 + n) by (apply shape1; auto; intros; apply Vw'; auto).
  destruct (C34_gemv2 radd rmul b c l p q3 rO m2 f3 z3) as (v & m3 & E3 & Sv & _ & Vv & O3); auto.
  assert (Bv : forall j, inshape j (vshape v) -> q3 <= vplace v j < q3 + l) by (apply shape1; auto; intros; apply Vv; auto).
  destruct (C34_gemv2 radd rmul a v n l q4 rO m3 f4 z4) as (x & m4 & E4 & Sx & _ & Vx & O4); auto.
  { eapply free_result; eauto. }
  exists u, w, v, x, m1, m2, m3, m4. split; [exact E1|]. split; [exact E2|]. split; [exact E3|]. split; [exact E4|]. split; [auto|]. split; [auto|]. intros i Hi.
  rewrite (kept w q4 n m3 m4 _ O4) by (eauto using free_result, places1).
  rewrite (kept w q3 l m2 m3 _ O3) by (eauto using free_result, places1).
  rewrite (proj2 (Vw' i Hi)), (proj2 (Vx i Hi)), !accum_total.
  transitivity (total (zrange p) (fun k => total (zrange l) (fun h => m (vplace a [i; h]) *! m (vplace b [h; k]) *! m (vplace c [k])))).
  - apply total_ext. intros k Hk. apply in_zrange in Hk. rewrite (proj2 (Vu i k Hi Hk)), accum_total, total_mul_r. rewrite (kept c q1 (n * p) m m1 _ O1) by eauto using places1. auto.
  - rewrite total_swap. apply total_ext. intros h Hh. apply in_zrange in Hh. rewrite (proj2 (Vv h Hh)), accum_total, total_mul_l. apply total_ext. intros k Hk. apply in_zrange in Hk.
    rewrite (kept a q3 l m2 m3 _ O3), (kept a q2 n m1 m2 _ O2), (kept a q1 (n * p) m m1 _ O1), (kept b q2 n m1 m2 _ O2), (kept b q1 (n * p) m m1 _ O1), (kept c q2 n m1 m2 _ O2), (kept c q1 (n * p) m m1 _ O1) by eauto using places1, places2.
    ring.
Qed.

Lemma transposed : forall a n l, vshape a = [n; l] -> exists a', transpose10 a = Good a' /\ vshape a' = [l; n] /\ forall i j, vplace a' [j; i] = vplace a [i; j].
Proof.
  intros [dv cp] n l S. destruct dv as [|[n0 s0] [|[l0 s1] [|? ?]]]; cbn in S; try discriminate. injection S as -> ->.
  exists (Vw [Dim l s1; Dim n s0] cp). split; [reflexivity|]. split; [reflexivity|]. intros. unfold vplace. cbn. ring.
Qed.
Lemma transposed_free : forall a a' n l q k, vshape a = [n; l] -> vshape a' = [l; n] -> (forall i j, vplace a' [j; i] = vplace a [i; j]) -> free_of a q k -> free_of a' q k.
Proof.
  intros a a' n l q k S S' P F j Hj. rewrite S' in Hj. inversion Hj as [|? ? ? ? ? Hj2]; subst. inversion Hj2 as [|? ? ? ? ? Hj3]; subst. inversion Hj3; subst.
  rewrite P. apply F. rewrite S. apply in2; auto.
Qed.

(* gemm(transpose(b), transpose(a)) is the transpose of gemm(a, b) *)
Theorem C105_transpose : forall (a b : view) n l p q1 q2 m f1 f2 z1 z2,
  vshape a = [n; l] -> vshape b = [l; p] -> nonneg [n; l; p] -> zclean z1 -> zclean z2 ->
  (forall v, In v [a; b] -> free_of v q1 (n * p) /\ free_of v q2 (p * n)) -> clear q1 (n * p) q2 (p * n) ->
  exists a' b' u v u' m1 m2, transpose10 a = Good a' /\ transpose10 b = Good b' /\ gemm f1 z1 q1 rO a b m = Ok (Some u) m1 /\ gemm f2 z2 q2 rO b' a' m1 = Ok (Some v) m2 /\
    transpose10 u = Good u' /\ vshape u' = [p; n] /\ vshape v = [p; n] /\ forall i j, 0 <= i < p -> 0 <= j < n -> m2 (vplace u' [i; j]) = m2 (vplace v [i; j]).
Proof.
  intros a b n l p q1 q2 m f1 f2 z1 z2 Sa Sb Hn Z1 Z2 F K.
  inversion Hn as [|? ? Pn Hn1]; subst. inversion Hn1 as [|? ? Pl Hn2]; subst. inversion Hn2 as [|? ? Pp _]; subst.
  destruct (F a) as (Fa1 & Fa2); [cbn; auto|]. destruct (F b) as (Fb1 & Fb2); [cbn; auto|].
  destruct (transposed a _ _ Sa) as (a' & Ea & Sa' & Pa), (transposed b _ _ Sb) as (b' & Eb & Sb' & Pb).
  destruct (C33_gemm2 radd rmul a b n l p q1 rO m f1 z1) as (u & m1 & E1 & Su & _ & Vu & O1); auto.
  assert (Bu : forall j, inshape j (vshape u) -> q1 <= vplace u j < q1 + n * p) by (apply shape2; auto; intros; apply Vu; auto).
  destruct (transposed u _ _ Su) as (u' & Eu & Su' & Pu).
  destruct (C33_gemm2 radd rmul b' a' p l n q2 rO m1 f2 z2) as (v & m2 & E2 & Sv & _ & Vv & O2); eauto using transposed_free.
  exists a', b', u, v, u', m1, m2. repeat (split; [assumption|]). intros i j Hi Hj. rewrite Pu, (kept u q2 (p * n) m1 m2 _ O2) by (eauto using free_result, places2).
  rewrite (proj2 (Vu j i Hj Hi)), (proj2 (Vv i j Hi Hj)), !accum_total. apply total_ext. intros k Hk. apply in_zrange in Hk. rewrite Pa, Pb.
  rewrite (kept a q1 (n * p) m m1 _ O1), (kept b q1 (n * p) m m1 _ O1) by eauto using places2. ring.
Qed.

(* gevm(x, a) is gemv(transpose(a), x) *)
Theorem C105_gevm : forall (a x : view) n l q1 q2 m f1 f2 z1 z2,
  vshape a = [n; l] -> vshape x = [n] -> nonneg [n; l] -> zclean z1 -> zclean z2 ->
  (forall v, In v [a; x] -> free_of v q1 l /\ free_of v q2 l) -> clear q1 l q2 l ->
  exists a' u v m1 m2, transpose10 a = Good a' /\ gevm f1 z1 q1 rO x a m = Ok (Some u) m1 /\ gemv f2 z2 q2 rO a' x m1 = Ok (Some v) m2 /\
    vshape u = [l] /\ vshape v = [l] /\ forall j, 0 <= j < l -> m2 (vplace u [j]) = m2 (vplace v [j]).
Proof.
  intros a x n l q1 q2 m f1 f2 z1 z2 Sa Sx Hn Z1 Z2 F K.
  inversion Hn as [|? ? Pn Hn1]; subst. inversion Hn1 as [|? ? Pl _]; subst.
  destruct (F a) as (Fa1 & Fa2); [cbn; auto|]. destruct (F x) as (Fx1 & Fx2); [cbn; auto|].
  destruct (transposed a _ _ Sa) as (a' & Ea & Sa' & Pa).
  destruct (C34_gevm2 radd rmul x a n l q1 rO m f1 z1) as (u & m1 & E1 & Su & _ & Vu & O1); auto.
  assert (Bu : forall j, inshape j (vshape u) -> q1 <= vplace u j < q1 + l) by (apply shape1; auto; intros; apply Vu; auto).
  destruct (C34_gemv2 radd rmul a' x l n q2 rO m1 f2 z2) as (v & m2 & E2 & Sv & _ & Vv & O2); eauto using transposed_free.
  exists a', u, v, m1, m2. repeat (split; [assumption|]). intros j Hj. rewrite (kept u q2 l m1 m2 _ O2) by (eauto using free_result, places1).
  rewrite (proj2 (Vu j Hj)), (proj2 (Vv j Hj)), !accum_total. apply total_ext. intros k Hk. apply in_zrange in Hk. rewrite Pa.
  rewrite (kept a q1 l m m1 _ O1), (kept x q1 l m m1 _ O1) by eauto using places1, places2. ring.
Qed.

Lemma viter_reads : forall v s (m : mem R), vshape v = s -> reads (viter v) s m (fun j => m (vplace v j)).
Proof.
  intros v s m Sv j Hj. exists (VRef (vplace v j)). split; [|reflexivity].
  pose proof (viter_refers v s j m Hj) as E. cbv beta in E. rewrite firstn_all2 in E; auto. rewrite (inshape_length _ _ Hj), <- Sv. unfold vshape. rewrite map_length. unfold vrank. lia.
Qed.
Lemma dot_vectors : forall (x y : view) n m f z, vshape x = [n] -> vshape y = [n] -> 0 <= n -> zclean z ->
  dot f z radd rmul rO (viter x) (viter y) m = Ok (total (zrange n) (fun k => m (vplace x [k]) *! m (vplace y [k]))) m.
Proof.
  intros x y n m f z Sx Sy Hn Hz. assert (Hs : nonneg [n]) by (repeat constructor; auto).
  destruct (view_shape (T:=R) x _ Sx Hs) as [Wx Sx'], (view_shape (T:=R) y _ Sy Hs) as [Wy Sy'].
  rewrite (C31_dot R radd rmul rO (viter x) (viter y) [n] (map (fun k => [k]) (zrange n)) m (fun j => m (vplace x j)) (fun j => m (vplace y j))); auto using viter_reads, row_major_1.
  - f_equal. rewrite map_map, fold_total. ring.
  - destruct x as [[|[nx sx] [|? ?]] px]; try discriminate Sx. destruct y as [[|[ny sy] [|? ?]] py]; try discriminate Sy. cbn in Sx, Sy. injection Sx as ->. injection Sy as ->.
    split; [reflexivity|]. cbn. intros [|k] Hk; [|lia]. cbn. repeat split; auto.
Qed.

(* dot(gevm(x, a), y) is dot(x, gemv(a, y)) *)
Theorem C105_dot : forall (a x y : view) n l q1 q2 m f1 f2 f3 f4 z1 z2 z3 z4,
  vshape a = [n; l] -> vshape x = [n] -> vshape y = [l] -> nonneg [n; l] -> zclean z1 -> zclean z2 -> zclean z3 -> zclean z4 ->
  (forall v, In v [a; x; y] -> free_of v q1 l /\ free_of v q2 n) -> clear q1 l q2 n ->
  exists u v d m1 m2, gevm f1 z1 q1 rO x a m = Ok (Some u) m1 /\ gemv f2 z2 q2 rO a y m1 = Ok (Some v) m2 /\
    dot f3 z3 radd rmul rO (viter u) (viter y) m2 = Ok d m2 /\ dot f4 z4 radd rmul rO (viter x) (viter v) m2 = Ok d m2.
Proof.
  intros a x y n l q1 q2 m f1 f2 f3 f4 z1 z2 z3 z4 Sa Sx Sy Hn Z1 Z2 Z3 Z4 F K.
  inversion Hn as [|? ? Pn Hn1]; subst. inversion Hn1 as [|? ? Pl _]; subst.
  destruct (F a) as (Fa1 & Fa2); [cbn; auto|]. destruct (F x) as (Fx1 & Fx2); [cbn; auto|]. destruct (F y) as (Fy1 & Fy2); [cbn; auto|].
  destruct (C34_gevm2 radd rmul x a n l q1 rO m f1 z1) as (u & m1 & E1 & Su & _ & Vu & O1); auto.
  assert (Bu : forall j, inshape j (vshape u) -> q1 <= vplace u j < q1 + l) by (apply shape1; auto; intros; apply Vu; auto).
  destruct (C34_gemv2 radd rmul a y n l q2 rO m1 f2 z2) as (v & m2 & E2 & Sv & _ & Vv & O2); auto.
  exists u, v, (total (zrange l) (fun k => m2 (vplace u [k]) *! m2 (vplace y [k]))), m1, m2. split; [exact E1|]. split; [exact E2|]. split; [apply dot_vectors; auto|].
  rewrite (dot_vectors x v n) by auto. f_equal.
  transitivity (total (zrange n) (fun k => total (zrange l) (fun h => m (vplace x [k]) *! (m (vplace a [k; h]) *! m (vplace y [h]))))).
  - apply total_ext. intros k Hk. apply in_zrange in Hk. rewrite (proj2 (Vv k Hk)), accum_total, <- total_mul_l.
    rewrite (kept x q2 n m1 m2 _ O2), (kept x q1 l m m1 _ O1) by eauto using places1. f_equal. apply total_ext. intros h Hh. apply in_zrange in Hh.
    rewrite (kept a q1 l m m1 _ O1), (kept y q1 l m m1 _ O1) by eauto using places1, places2. auto.
  - rewrite total_swap. apply total_ext. intros h Hh. apply in_zrange in Hh.
    rewrite (kept u q2 n m1 m2 _ O2) by (eauto using free_result, places1). rewrite (proj2 (Vu h Hh)), accum_total, total_mul_r. apply total_ext. intros k Hk. apply in_zrange in Hk.
    rewrite (kept y q2 n m1 m2 _ O2), (kept y q1 l m m1 _ O1) by eauto using places1. ring.
Qed.
End Laws.

(* The examples. a is {2, 3} at 0 by rows, b is {3, 2} at 10 by columns, c is {2, 2} at 20 with its rows in reverse, in a memory with 0 1 2 ... *)
Definition lA := Vw [Dim 2 3; Dim 3 1] 0.
Definition lB := Vw [Dim 3 1; Dim 2 3] 10.
Definition lC := Vw [Dim 2 (-2); Dim 2 1] 22.
(* x is {2} at 30 and y is {3} at 42, 41, 40 *)
Definition lX := Vw [Dim 2 1] 30.
Definition lY := Vw [Dim 3 (-1)] 42.
Lemma free2 : forall v n p q k, vshape v = [n; p] -> (forall i j, 0 <= i < n -> 0 <= j < p -> ~ (q <= vplace v [i; j] < q + k)) -> free_of v q k.
Proof. intros v n p q k S H j Hj. rewrite S in Hj. inversion Hj as [|? ? ? ? ? Hj2]; subst. inversion Hj2 as [|? ? ? ? ? Hj3]; subst. inversion Hj3; subst. auto. Qed.
Lemma free1 : forall v n q k, vshape v = [n] -> (forall i, 0 <= i < n -> ~ (q <= vplace v [i] < q + k)) -> free_of v q k.
Proof. intros v n q k S H j Hj. rewrite S in Hj. inversion Hj as [|? ? ? ? ? Hj2]; subst. inversion Hj2; subst. auto. Qed.
Ltac farther := match goal with |- free_of ?v _ _ => first [eapply free2; [reflexivity|] | eapply free1; [reflexivity|]]; intros; unfold vplace; unfold lA, lB, lC, lX, lY in *; cbn [vdv vcp place len step] in *; lia end.
Definition then_ {A} (o : out (mem Z) (option view)) (k : view -> mem Z -> A) (d : A) : A := match o with Ok (Some v) m => k v m | _ => d end.
Example C105_associative_ex : ring_theory 0 1 Z.add Z.mul Z.sub Z.opp eq /\ nonneg [2; 3; 2; 2] /\ zclean z_init /\
  (forall v, In v [lA; lB; lC] -> free_of v 100 (2 * 2) /\ free_of v 200 (2 * 2) /\ free_of v 300 (3 * 2) /\ free_of v 400 (2 * 2)) /\
  clear 100 (2 * 2) 200 (2 * 2) /\ clear 200 (2 * 2) 300 (3 * 2) /\ clear 200 (2 * 2) 400 (2 * 2) /\ clear 300 (3 * 2) 400 (2 * 2) /\
  then_ (gemm2 Z.add Z.mul true z_init 100 0 lA lB (fun p => p)) (fun u m1 => then_ (gemm2 Z.add Z.mul false z_init 200 0 u lC m1) (fun w m2 => map m2 [200; 201; 202; 203]) []) [] = [1650; 1729; 6348; 6652] /\
  then_ (gemm2 Z.add Z.mul true z_init 300 0 lB lC (fun p => p)) (fun v m1 => then_ (gemm2 Z.add Z.mul false z_init 400 0 lA v m1) (fun w m2 => map m2 [400; 401; 402; 403]) []) [] = [1650; 1729; 6348; 6652].
Proof.
  split; [exact InitialRing.Zth|]. split; [repeat constructor; lia|]. split; [repeat constructor|]. split.
  { intros v [<-|[<-|[<-|[]]]]; (split; [|split; [|split]]); farther. }
  repeat split; unfold clear; try (cbn; lia); vm_compute; reflexivity.
Qed.
Definition turn (v : view) (k : view -> list Z) : list Z := match transpose10 v with Good v' => k v' | _ => [] end.
Notation gem f q a b m := (gemm2 Z.add Z.mul f z_init q 0 a b m).
Notation gev f q a b m := (gemv2 Z.add Z.mul f z_init q 0 a b m).
Notation vge f q a b m := (gevm2 Z.add Z.mul f z_init q 0 a b m).
Example C105_gemv_ex : (forall v, In v [lA; lB; lX] -> free_of v 100 (2 * 2) /\ free_of v 200 2 /\ free_of v 300 3 /\ free_of v 400 2) /\
  clear 100 (2 * 2) 200 2 /\ clear 200 2 300 3 /\ clear 200 2 400 2 /\ clear 300 3 400 2 /\
  then_ (gem true 100 lA lB (fun p => p)) (fun u m1 => then_ (gev false 200 u lX m1) (fun w m2 => map m2 [200; 201]) []) [] = [2414; 9290] /\
  then_ (gev true 300 lB lX (fun p => p)) (fun v m1 => then_ (gev false 400 lA v m1) (fun w m2 => map m2 [400; 401]) []) [] = [2414; 9290].
Proof.
  split. { intros v [<-|[<-|[<-|[]]]]; (split; [|split; [|split]]); farther. }
  repeat split; unfold clear; try lia; vm_compute; reflexivity.
Qed.
Example C105_transpose_ex : (forall v, In v [lA; lB] -> free_of v 100 (2 * 2) /\ free_of v 200 (2 * 2)) /\ clear 100 (2 * 2) 200 (2 * 2) /\
  then_ (gem true 100 lA lB (fun p => p)) (fun u m => map m [100; 101; 102; 103]) [] = [35; 44; 134; 170] /\
  turn lA (fun a' => turn lB (fun b' => then_ (gem true 200 b' a' (fun p => p)) (fun u m => map m [200; 201; 202; 203]) [])) = [35; 134; 44; 170].
Proof.
  split. { intros v [<-|[<-|[]]]; split; farther. }
  repeat split; unfold clear; try lia; vm_compute; reflexivity.
Qed.
Example C105_gevm_ex : (forall v, In v [lA; lX] -> free_of v 100 3 /\ free_of v 200 3) /\ clear 100 3 200 3 /\
  then_ (vge true 100 lX lA (fun p => p)) (fun u m => map m [100; 101; 102]) [] = [93; 154; 215] /\
  turn lA (fun a' => then_ (gev false 200 a' lX (fun p => p)) (fun u m => map m [200; 201; 202]) []) = [93; 154; 215].
Proof.
  split. { intros v [<-|[<-|[]]]; split; farther. }
  repeat split; unfold clear; try lia; vm_compute; reflexivity.
Qed.
Example C105_dot_ex : (forall v, In v [lA; lX; lY] -> free_of v 100 3 /\ free_of v 200 2) /\ clear 100 3 200 2 /\
  then_ (vge true 100 lX lA (fun p => p)) (fun u m => match dot true z_init Z.add Z.mul 0 (viter u) (viter lY) m with Ok d _ => d | _ => 0 end) 0 = 18820 /\
  then_ (gev true 200 lA lY (fun p => p)) (fun v m => match dot false z_init Z.add Z.mul 0 (viter lX) (viter v) m with Ok d _ => d | _ => 0 end) 0 = 18820.
Proof.
  split. { intros v [<-|[<-|[<-|[]]]]; split; farther. }
  repeat split; unfold clear; try lia; vm_compute; reflexivity.
Qed.

Print Assumptions C105_associative.
Print Assumptions C105_gemv.
Print Assumptions C105_transpose.
Print Assumptions C105_gevm.
Print Assumptions C105_dot.
