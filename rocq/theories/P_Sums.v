(* Properties C128, C129: the ways to multiply a matrix and a vector of bench/bench-gemv.cc, and to add the rows or columns of a matrix of bench/bench-sum-rows.cc and bench/bench-sum-cols.cc. *)
From Coq Require Import ZArith List Lia Bool.
From Verif Require Import Spec L_Spec Spec_Ply Spec_Expr M_Base M_Expr M_Ply M_Val Spec_Val L_Expr L_Agree L_Ply L_Stl L_Run L_Val P_Reduce M_View Spec_View L_View P_View M_Slice L_Slice Spec_Slice M_Frame Spec_Frame L_Frame P_Frame M_Mat Spec_Mat P_Mat P_Outer M_Cell P_Cell M_Cells P_Cells P_Deep M_Ext P_Ext M_Doc P_Doc M_Total P_Total M_Stencil P_Stencil P_Roll M_Gemm P_Gemm M_Sums.
Import ListNotations.
Open Scope Z_scope.

(* Each element i of c, of length n, is h i of what it was, and nothing else has changed. *)
Definition updated {T} (c : view) (n : Z) (h : Z -> T -> T) (m m' : mem T) : Prop :=
  (forall i, 0 <= i < n -> m' (vplace c [i]) = h i (m (vplace c [i]))) /\ forall p, (forall i, 0 <= i < n -> p <> vplace c [i]) -> m' p = m p.
(* only the elements of c may have changed *)
Definition off {T} (c : view) (n : Z) (m m' : mem T) : Prop := forall p, (forall i, 0 <= i < n -> p <> vplace c [i]) -> m' p = m p.

Section Sums.
Context {T : Type}.
Variables (add mul : T -> T -> T) (zero : T).
Variables (fixed : bool) (z : list zt) (fi : bool) (zi : list zt).
Hypothesis (Hz : zclean z) (Hzi : zclean zi).
Notation ex := (expr (val T) (mem T)).

(* ---- loops ---- *)
Lemma loop_updated : forall (c : view) n l (f : Z -> M (mem T) (option unit)) (g : Z -> Z -> T) m, 0 <= l ->
  (forall k m1, 0 <= k < l -> off c n m m1 -> exists m2, f k m1 = Ok None m2 /\ updated c n (fun i x => add x (g i k)) m1 m2) ->
  exists m', loop l f m = Ok None m' /\ updated c n (fun i x => accum add x l (g i)) m m'.
Proof.
  intros c n l f g m Hl Hf. apply (loop_spec add mul zero f (fun k m' => updated c n (fun i x => accum add x k (g i)) m m')); auto.
  - split; auto.
  - intros k m1 Hk (V & O). destruct (Hf k m1 Hk O) as (m2 & E & V2 & O2). exists m2. split; auto. split.
    + intros i Hi. rewrite V2, V by auto. rewrite (accum_step add mul) by lia. reflexivity.
    + intros p Hp. rewrite O2, O; auto.
Qed.
Lemma loop_each : forall (c : view) n (f : Z -> M (mem T) (option unit)) (h : Z -> T -> T) m, 0 <= n -> vshape c = [n] -> apart_at c ->
  (forall i m1, 0 <= i < n -> off c n m m1 -> exists m2, f i m1 = Ok None m2 /\ m2 (vplace c [i]) = h i (m1 (vplace c [i])) /\ forall p, p <> vplace c [i] -> m2 p = m1 p) ->
  exists m', loop n f m = Ok None m' /\ updated c n h m m'.
Proof.
  intros c n f h m Hn Sc Ac Hf.
  destruct (loop_spec add mul zero f (fun k m' => (forall i, 0 <= i < n -> m' (vplace c [i]) = if i <? k then h i (m (vplace c [i])) else m (vplace c [i])) /\ off c n m m') n m) as (m' & E & V & O); auto.
  - split; [|intros p _; auto]. intros i Hi. destruct (Z.ltb_spec i 0); [lia|auto].
  - intros k m1 Hk (V & O). destruct (Hf k m1 Hk O) as (m2 & E & V2 & O2). exists m2. split; auto. split.
    + intros i Hi. destruct (Z.eq_dec i k) as [->|Hne].
      * rewrite V2, V by auto. destruct (Z.ltb_spec k k); [lia|]. destruct (Z.ltb_spec k (k + 1)); [auto|lia].
      * rewrite O2, V; auto; [destruct (Z.ltb_spec i k), (Z.ltb_spec i (k + 1)); auto; lia|]. intros Q. apply Ac in Q; [congruence| |]; rewrite Sc; apply P_Mat.in1; auto.
    + intros p Hp. rewrite O2, O; auto.
  - exists m'. split; auto. split; auto. intros i Hi. rewrite V by auto. destruct (Z.ltb_spec i n); [auto|lia].
Qed.
Lemma loop_same : forall p l (f : Z -> M (mem T) (option unit)) (x : Z -> T) m, 0 <= l ->
  (forall k m1, 0 <= k < l -> (forall q, q <> p -> m1 q = m q) -> exists m2, f k m1 = Ok None m2 /\ m2 p = add (m1 p) (x k) /\ forall q, q <> p -> m2 q = m1 q) ->
  exists m', loop l f m = Ok None m' /\ m' p = accum add (m p) l x /\ forall q, q <> p -> m' q = m q.
Proof.
  intros p l f x m Hl Hf. apply (loop_spec add mul zero f (fun k m' => m' p = accum add (m p) k x /\ forall q, q <> p -> m' q = m q)); auto.
  intros k m1 Hk (V & O). destruct (Hf k m1 Hk O) as (m2 & E & V2 & O2). exists m2. split; auto. split.
  - rewrite V2, V, (accum_step add mul) by lia. reflexivity.
  - intros q Hq. rewrite O2, O; auto.
Qed.

(* ---- elements ---- *)
Lemma elem1_at : forall A (c : view) n i (f : Z -> M (mem T) A) m, vshape c = [n] -> 0 <= i < n -> elem1 c i f m = f (vplace c [i]) m.
Proof. intros A c n i f m Sc Hi. unfold elem1. change [cidx i] with (map cidx [i]). rewrite all_indices by (rewrite Sc; apply P_Mat.in1; auto). reflexivity. Qed.
Lemma becomes_updated : forall (c : view) n g (h : Z -> T -> T) m m', vshape c = [n] -> becomes c g m m' -> (forall i, 0 <= i < n -> g [i] = h i (m (vplace c [i]))) -> updated c n h m m'.
Proof.
  intros c n g h m m' Sc (V & O) Hg. rewrite Sc in V, O. split.
  - intros i Hi. rewrite V by (apply P_Mat.in1; auto). auto.
  - intros p Hp. apply O. intros ix Hx. apply in1e in Hx as (i & -> & Hi). auto.
Qed.
Lemma view_reads_now : forall (a : view) s (m : mem T), vshape a = s -> reads (viter a) s m (fun j => m (vplace a j)).
Proof. intros a s m E ix Hx. exists (VRef (vplace a ix)). rewrite viter_element, vrank_shape, E, whole_in by auto. auto. Qed.
Lemma dot_at : forall (u v : view) l m, vshape u = [l] -> vshape v = [l] -> 0 <= l -> dot fi zi add mul zero (viter u) (viter v) m = Ok (accum add zero l (fun k => mul (m (vplace u [k])) (m (vplace v [k])))) m.
Proof.
  intros u v l m Su Sv Hl. assert (Nl : nonneg [l]) by (apply Forall_cons; [lia|constructor]). destruct (view_shape (T:=T) u _ Su Nl) as (Wu & Hu), (view_shape (T:=T) v _ Sv Nl) as (Wv & Hv).
  rewrite (C31_dot T add mul zero (viter u) (viter v) [l] (map (fun k => [k]) (zrange l)) m (fun j => m (vplace u j)) (fun j => m (vplace v j))); auto using row_major_1, view_reads_now.
  - unfold accum. rewrite map_map. reflexivity.
  - apply (P_Deep.same_joint add zero); auto.
Qed.
Lemma sum_at : forall (u : view) l m, vshape u = [l] -> 0 <= l -> sum fi zi add zero (viter u) m = Ok (accum add zero l (fun k => m (vplace u [k]))) m.
Proof.
  intros u l m Su Hl. assert (Nl : nonneg [l]) by (apply Forall_cons; [lia|constructor]). destruct (view_shape (T:=T) u _ Su Nl) as (Wu & Hu).
  unfold sum, bind. cbn [viter deref ret]. fold (viter (T:=T) u).
  etransitivity; [apply (reduce1_spec T fi zi (fun x c => add c x) (viter u) [l] (map (fun k => [k]) (zrange l)) m (fun k => m (vplace u k))); auto using row_major_1, view_reads_now|].
  unfold accum. rewrite map_map. reflexivity.
Qed.

(* ---- matrix and vector ---- *)
(* a of n, l; b of l; c of n, apart from both *)
Definition vectors (a b c : view) (n l : Z) : Prop := vshape a = [n; l] /\ vshape b = [l] /\ vshape c = [n] /\ (0 <= n /\ 0 <= l) /\ P_Cells.separate c a /\ P_Cells.separate c b /\ apart_at c.
Lemma off_a : forall a b c n l (m m1 : mem T) i k, vectors a b c n l -> off c n m m1 -> 0 <= i < n -> 0 <= k < l -> m1 (vplace a [i; k]) = m (vplace a [i; k]).
Proof. intros a b c n l m m1 i k (Sa & Sb & Sc & _ & Da & _) O Hi Hk. apply O. intros j Hj Q. apply (Da [j] [i; k]); rewrite ?Sa, ?Sc; auto; [apply P_Mat.in1|apply P_Mat.in2]; auto. Qed.
Lemma off_b : forall a b c n l (m m1 : mem T) k, vectors a b c n l -> off c n m m1 -> 0 <= k < l -> m1 (vplace b [k]) = m (vplace b [k]).
Proof. intros a b c n l m m1 k (Sa & Sb & Sc & _ & _ & Db & _) O Hk. apply O. intros j Hj Q. apply (Db [j] [k]); rewrite ?Sb, ?Sc; auto; apply P_Mat.in1; auto. Qed.
Lemma lens_of : forall (a : view) n l, vshape a = [n; l] -> len0 a = n /\ len1 a = l /\ forall i k, vplace a [i; k] = vcp a + (k * step1 a + step0 a * i).
Proof. intros a n l Sa. destruct (view2 _ _ _ Sa) as (a0 & a1 & pa & -> & E0 & E1). split; [auto|]. split; [auto|]. intros i k. unfold vplace. cbn [vcp vdv place step1 step0 nth]. unfold step1, step0. cbn [vdv nth]. lia. Qed.
Lemma col_of : forall (a : view) n l k, vshape a = [n; l] -> 0 <= k < l -> exists v, from a [all; cidx k] = Good v /\ vshape v = [n] /\ forall i, vplace v [i] = vplace a [i; k].
Proof.
  intros a n l k Sa Hk. destruct (view2 _ _ _ Sa) as (a0 & a1 & pa & -> & E0 & E1). rewrite (col_at add mul zero) by lia. eexists. split; [reflexivity|]. split; [cbn; congruence|]. intros i. unfold vplace. cbn [vcp vdv place step]. lia.
Qed.
Lemma row_of : forall (a : view) n l i, vshape a = [n; l] -> 0 <= i < n -> exists v, from a [cidx i] = Good v /\ vshape v = [l] /\ forall k, vplace v [k] = vplace a [i; k].
Proof.
  intros a n l i Sa Hi. destruct (view2 _ _ _ Sa) as (a0 & a1 & pa & -> & E0 & E1). rewrite (row_at add mul zero) by lia. eexists. split; [reflexivity|]. split; [cbn; congruence|]. intros k. unfold vplace. cbn [vcp vdv place step]. lia.
Qed.

Lemma loop_0 : forall a b c n l m, vectors a b c n l -> exists m', loop (len0 a) (fun i => loop (len1 a) (gemv_0_ij add mul a b c i)) m = Ok None m' /\
  updated c n (fun i x => accum add x l (fun k => mul (m (vplace a [i; k])) (m (vplace b [k])))) m m'.
Proof.
  intros a b c n l m H. pose proof H as (Sa & Sb & Sc & (Hn & Hl) & Da & Db & Ac). destruct (lens_of a n l Sa) as (-> & -> & Pa). apply loop_each; auto. intros i m1 Hi O1.
  destruct (loop_same (vplace c [i]) l (gemv_0_ij add mul a b c i) (fun k => mul (m (vplace a [i; k])) (m (vplace b [k]))) m1 Hl) as (m2 & E & V & O2).
  - intros k m2 Hk O2. assert (O : off c n m m2) by (intros p Hp; rewrite O2, O1; auto). unfold gemv_0_ij. rewrite (elem1_at _ c n) by auto. unfold num1, bind. rewrite (elem1_at _ b l) by auto. unfold add_to.
    eexists. split; [reflexivity|]. unfold wr. split.
    + rewrite Z.eqb_refl, <- Pa. rewrite (off_a a b c n l m m2), (off_b a b c n l m m2) by auto. reflexivity.
    + intros q Hq. destruct (Z.eqb_spec q (vplace c [i])); [contradiction|auto].
  - exists m2. auto.
Qed.
Lemma loop_i : forall a b c n l m, vectors a b c n l -> exists m', loop (len0 a) (gemv_i_ fi zi add mul zero a b c) m = Ok None m' /\
  updated c n (fun i _ => accum add zero l (fun k => mul (m (vplace a [i; k])) (m (vplace b [k])))) m m'.
Proof.
  intros a b c n l m H. pose proof H as (Sa & Sb & Sc & (Hn & Hl) & Da & Db & Ac). destruct (lens_of a n l Sa) as (-> & _ & _). apply loop_each; auto. intros i m1 Hi O1.
  unfold gemv_i_. destruct (row_of a n l i Sa Hi) as (ai & -> & Si & Pi). cbn [onres]. unfold bind. rewrite (dot_at ai b l) by auto. rewrite (elem1_at _ c n) by auto. unfold set_to. eexists. split; [reflexivity|]. unfold wr. split.
  - rewrite Z.eqb_refl. unfold accum. f_equal. apply map_ext_in. intros k Hk. apply P_Mat.in_zrange in Hk. rewrite Pi, (off_a a b c n l m m1), (off_b a b c n l m m1) by auto. reflexivity.
  - intros q Hq. destruct (Z.eqb_spec q (vplace c [i])); [contradiction|auto].
Qed.
Lemma loop_j : forall a b c n l m, vectors a b c n l -> exists m', loop (len1 a) (gemv_j_ fixed z add mul a b c) m = Ok None m' /\
  updated c n (fun i x => accum add x l (fun k => mul (m (vplace a [i; k])) (m (vplace b [k])))) m m'.
Proof.
  intros a b c n l m H. pose proof H as (Sa & Sb & Sc & (Hn & Hl) & Da & Db & Ac). destruct (lens_of a n l Sa) as (_ & -> & _). apply (loop_updated c n l _ (fun i k => mul (m (vplace a [i; k])) (m (vplace b [k])))); auto. intros k m1 Hk O1.
  unfold gemv_j_. destruct (col_of a n l k Sa Hk) as (ak & -> & Sk & Pk). cbn [onres]. rewrite (elem1_at _ b l) by auto. assert (Nn : nonneg [n]) by (apply Forall_cons; [lia|constructor]). destruct (view_shape (T:=T) ak _ Sk Nn) as (Wk & Hk').
  destruct (assign_to fixed z Hz add c (times mul (viter ak) (Scalar (VRef (vplace b [k])))) [n] (fun j => mul (m (vplace a [nth 0 j 0; k])) (m (vplace b [k]))) m1) as (m2 & E & B); auto.
  - apply times_wf; auto. exact I.
  - apply inner_map. apply Forall_cons; [apply inner_whole; auto|]. apply Forall_cons; [apply inner_scalar|constructor].
  - intros m2 Hm ix Hx. apply in1e in Hx as (i & -> & Hi). exists (VT (mul (m2 (vplace ak [i])) (m2 (vplace b [k])))). split.
    + unfold times. cbn [element map]. cbn [in_order]. unfold bind. rewrite viter_element, vrank_shape, Sk, whole_in by (apply P_Mat.in1; auto). reflexivity.
    + assert (O : off c n m m2). { intros p Hp. rewrite Hm; [auto|]. intros ix Hx. apply in1e in Hx as (i' & -> & Hi'). auto. }
      cbn [value_of nth]. f_equal. rewrite Pk, (off_a a b c n l m m2), (off_b a b c n l m m2) by auto. reflexivity.
  - exists m2. split; auto. eapply becomes_updated; eauto. 
Qed.
(* b of l; a of l, n *)
Definition covectors (b a c : view) (l n : Z) : Prop := vshape a = [l; n] /\ vshape b = [l] /\ vshape c = [n] /\ (0 <= n /\ 0 <= l) /\ P_Cells.separate c a /\ P_Cells.separate c b /\ apart_at c.
Lemma off_a' : forall b a c l n (m m1 : mem T) i k, covectors b a c l n -> off c n m m1 -> 0 <= i < l -> 0 <= k < n -> m1 (vplace a [i; k]) = m (vplace a [i; k]).
Proof. intros b a c l n m m1 i k (Sa & Sb & Sc & _ & Da & _) O Hi Hk. apply O. intros j Hj Q. apply (Da [j] [i; k]); rewrite ?Sa, ?Sc; auto; [apply P_Mat.in1|apply P_Mat.in2]; auto. Qed.
Lemma off_b' : forall b a c l n (m m1 : mem T) k, covectors b a c l n -> off c n m m1 -> 0 <= k < l -> m1 (vplace b [k]) = m (vplace b [k]).
Proof. intros b a c l n m m1 k (Sa & Sb & Sc & _ & _ & Db & _) O Hk. apply O. intros j Hj Q. apply (Db [j] [k]); rewrite ?Sb, ?Sc; auto; apply P_Mat.in1; auto. Qed.
Lemma loop_vj : forall b a c l n m, covectors b a c l n -> exists m', loop (len1 a) (gevm_j_ fi zi add mul zero b a c) m = Ok None m' /\
  updated c n (fun j _ => accum add zero l (fun k => mul (m (vplace b [k])) (m (vplace a [k; j])))) m m'.
Proof.
  intros b a c l n m H. pose proof H as (Sa & Sb & Sc & (Hn & Hl) & Da & Db & Ac). destruct (lens_of a l n Sa) as (_ & -> & _). apply loop_each; auto. intros j m1 Hj O1.
  unfold gevm_j_. destruct (col_of a l n j Sa Hj) as (aj & -> & Sj & Pj). cbn [onres]. unfold bind. rewrite (dot_at b aj l) by auto. rewrite (elem1_at _ c n) by auto. unfold set_to. eexists. split; [reflexivity|]. unfold wr. split.
  - rewrite Z.eqb_refl. unfold accum. f_equal. apply map_ext_in. intros k Hk. apply P_Mat.in_zrange in Hk. rewrite Pj, (off_a' b a c l n m m1), (off_b' b a c l n m m1) by auto. reflexivity.
  - intros q Hq. destruct (Z.eqb_spec q (vplace c [j])); [contradiction|auto].
Qed.
Lemma loop_vi : forall b a c l n m, covectors b a c l n -> exists m', loop (len0 a) (gevm_i_ fixed z add mul b a c) m = Ok None m' /\
  updated c n (fun j x => accum add x l (fun k => mul (m (vplace b [k])) (m (vplace a [k; j])))) m m'.
Proof.
  intros b a c l n m H. pose proof H as (Sa & Sb & Sc & (Hn & Hl) & Da & Db & Ac). destruct (lens_of a l n Sa) as (-> & _ & _). apply (loop_updated c n l _ (fun j k => mul (m (vplace b [k])) (m (vplace a [k; j])))); auto. intros k m1 Hk O1.
  unfold gevm_i_. destruct (row_of a l n k Sa Hk) as (ak & -> & Sk & Pk). cbn [onres]. rewrite (elem1_at _ b l) by auto. assert (Nn : nonneg [n]) by (apply Forall_cons; [lia|constructor]). destruct (view_shape (T:=T) ak _ Sk Nn) as (Wk & Hk').
  destruct (assign_to fixed z Hz add c (times mul (Scalar (VRef (vplace b [k]))) (viter ak)) [n] (fun j => mul (m (vplace b [k])) (m (vplace a [k; nth 0 j 0]))) m1) as (m2 & E & B); auto.
  - apply times_wf; auto. exact I.
  - apply inner_map. apply Forall_cons; [apply inner_scalar|]. apply Forall_cons; [apply inner_whole; auto|constructor].
  - intros m2 Hm ix Hx. apply in1e in Hx as (i & -> & Hi). exists (VT (mul (m2 (vplace b [k])) (m2 (vplace ak [i])))). split.
    + unfold times. cbn [element map]. cbn [in_order]. unfold bind. rewrite viter_element, vrank_shape, Sk, whole_in by (apply P_Mat.in1; auto). reflexivity.
    + assert (O : off c n m m2). { intros p Hp. rewrite Hm; [auto|]. intros ix Hx. apply in1e in Hx as (i' & -> & Hi'). auto. }
      cbn [value_of nth]. f_equal. rewrite Pk, (off_a' b a c l n m m2), (off_b' b a c l n m m2) by auto. reflexivity.
  - exists m2. split; auto. eapply becomes_updated; eauto.
Qed.

(* The program gives a new array at q, of length n, whose element i is x i, and changes nothing else. *)
Definition gives (f : M (mem T) (option view)) (q n : Z) (x : Z -> T) (m : mem T) : Prop :=
  exists m', f m = Ok (Some (Vw [Dim n 1] q)) m' /\ forall p, m' p = if (q <=? p) && (p <? q + n) then x (p - q) else m p.
Lemma new_1 : forall n, 0 <= n -> filldimv [n] = Some ([Dim n 1], n).
Proof.
  intros n Hn. cbn [filldimv]. destruct (Z.geb_spec n 0); [|lia]. rewrite Z.mul_1_l. reflexivity.
Qed.
Lemma one_at : forall n q i, vplace (Vw [Dim n 1] q) [i] = q + i.
Proof. intros. unfold vplace. cbn [vcp vdv place step]. lia. Qed.
Lemma one_apart : forall n q, apart_at (Vw [Dim n 1] q).
Proof. intros n q i j Hi Hj E. apply in1e in Hi as (i' & -> & Hi), Hj as (j' & -> & Hj). rewrite !one_at in E. f_equal. lia. Qed.
Lemma one_separate : forall n q v, free_of v q n -> P_Cells.separate (Vw [Dim n 1] q) v.
Proof. intros n q v F i j Hi Hj E. apply in1e in Hi as (i' & -> & Hi). rewrite one_at in E. apply (F j Hj). rewrite <- E. cbn [len] in Hi. lia. Qed.
Lemma gives_new : forall n q (k : view -> M (mem T) (option unit)) h x m m0, 0 <= n -> m0 = (fun p => if (q <=? p) && (p <? q + n) then zero else m p) ->
  (exists m', k (Vw [Dim n 1] q) m0 = Ok None m' /\ updated (Vw [Dim n 1] q) n h m0 m') -> (forall i, 0 <= i < n -> h i zero = x i) -> gives (new_array q [n] zero k) q n x m.
Proof.
  intros n q k h x m m0 Hn -> (m' & E & V & O) Hx. unfold gives, new_array. rewrite new_1 by auto. rewrite E. exists m'. split; [reflexivity|]. intros p. destruct ((q <=? p) && (p <? q + n)) eqn:D.
  - assert (Hp : q <= p < q + n) by (apply andb_true_iff in D as (D1 & D2); apply Z.leb_le in D1; apply Z.ltb_lt in D2; lia). specialize (V (p - q)). rewrite one_at in V. replace (q + (p - q)) with p in V by lia. rewrite V by lia. rewrite D. apply Hx. lia.
  - rewrite O; [rewrite D; auto|]. intros i Hi Q. rewrite one_at in Q. apply andb_false_iff in D as [D|D]; [apply Z.leb_gt in D|apply Z.ltb_ge in D]; lia.
Qed.
Lemma gives_none : forall n q (k : view -> M (mem T) (option unit)) x m, 0 <= n -> (exists m', k (Vw [Dim n 1] q) m = Ok None m' /\ updated (Vw [Dim n 1] q) n (fun i _ => x i) m m') -> gives (new_none q [n] k) q n x m.
Proof.
  intros n q k x m Hn (m' & E & V & O). unfold gives, new_none. rewrite new_1 by auto. rewrite E. exists m'. split; [reflexivity|]. intros p. destruct ((q <=? p) && (p <? q + n)) eqn:D.
  - assert (Hp : q <= p < q + n) by (apply andb_true_iff in D as (D1 & D2); apply Z.leb_le in D1; apply Z.ltb_lt in D2; lia). specialize (V (p - q)). rewrite one_at in V. replace (q + (p - q)) with p in V by lia. apply V. lia.
  - apply O. intros i Hi Q. rewrite one_at in Q. apply andb_false_iff in D as [D|D]; [apply Z.leb_gt in D|apply Z.ltb_ge in D]; lia.
Qed.
Lemma free_m0 : forall (v : view) q n (m : mem T) i, free_of v q n -> inshape i (vshape v) -> (if (q <=? vplace v i) && (vplace v i <? q + n) then zero else m (vplace v i)) = m (vplace v i).
Proof. intros v q n m i F Hi. destruct (_ && _) eqn:D; auto. exfalso. apply (F i Hi). apply andb_true_iff in D as (D1 & D2); apply Z.leb_le in D1; apply Z.ltb_lt in D2; lia. Qed.

(* C128: the ways to multiply a matrix and a vector *)
Definition mv (a b : view) (l : Z) (m : mem T) (i : Z) : T := accum add zero l (fun k => mul (m (vplace a [i; k])) (m (vplace b [k]))).
Definition vm (b a : view) (l : Z) (m : mem T) (j : Z) : T := accum add zero l (fun k => mul (m (vplace b [k])) (m (vplace a [k; j]))).
Section Mv.
Variables (a b : view) (n l q : Z).
Hypothesis (Sa : vshape a = [n; l]) (Sb : vshape b = [l]) (Hn : 0 <= n) (Hl : 0 <= l) (Fa : free_of a q n) (Fb : free_of b q n).
Lemma vectors_new : vectors a b (Vw [Dim n 1] q) n l.
Proof. unfold vectors, covectors. auto 10 using one_separate, one_apart. Qed.
Lemma mv_m0 : forall (m : mem T) i, 0 <= i < n -> mv a b l (fun p => if (q <=? p) && (p <? q + n) then zero else m p) i = mv a b l m i.
Proof. intros m i Hi. unfold mv, accum. f_equal. apply map_ext_in. intros k Hk. apply P_Mat.in_zrange in Hk. rewrite !free_m0; auto; rewrite ?Sa, ?Sb; [apply P_Mat.in1|apply P_Mat.in2]; auto. Qed.
Theorem C128_gemv_0 : forall m, gives (gemv_0 add mul zero q a b) q n (mv a b l m) m.
Proof.
  intros m. unfold gemv_0. replace [len0 a] with [n] by (f_equal; symmetry; apply (lens_of a n l Sa)). eapply gives_new; [auto|reflexivity|apply loop_0; apply vectors_new|]. intros i Hi. cbv beta. rewrite <- (mv_m0 m i Hi). reflexivity.
Qed.
Theorem C128_gemv_i : forall m, gives (gemv_i fi zi add mul zero q a b) q n (mv a b l m) m.
Proof. intros m. unfold gemv_i. replace [len0 a] with [n] by (f_equal; symmetry; apply (lens_of a n l Sa)). apply gives_none; auto. apply loop_i. apply vectors_new. Qed.
Theorem C128_gemv_j : forall m, gives (gemv_j fixed z add mul zero q a b) q n (mv a b l m) m.
Proof.
  intros m. unfold gemv_j. replace [len0 a] with [n] by (f_equal; symmetry; apply (lens_of a n l Sa)). eapply gives_new; [auto|reflexivity|apply loop_j; apply vectors_new|]. intros i Hi. cbv beta. rewrite <- (mv_m0 m i Hi). reflexivity.
Qed.
(* gemv of the library *)
Theorem C128_gemv : forall m, gives (gemv2 add mul fixed z q zero a b) q n (mv a b l m) m.
Proof.
  intros m. unfold gemv2. replace [len (nth 0 (vdv a) dim0)] with [n] by (f_equal; symmetry; apply (lens_of a n l Sa)). pose proof vectors_new as (_ & _ & Sc & _ & Da & Db & Ac). set (c := Vw [Dim n 1] q) in *.
  assert (N : nonneg [n]) by (apply Forall_cons; [auto|constructor]). assert (N2 : nonneg [n; l]) by (apply Forall_cons; [auto|]; apply Forall_cons; [auto|constructor]).
  destruct (view_shape (T:=T) a _ Sa N2) as (Wa & Ha), (view_shape (T:=T) c _ Sc N) as (Wc & Hc).
  set (m0 := fun p : Z => if (q <=? p) && (p <? q + n) then zero else m p).
  eapply gives_new with (h := fun i x => accum add x l (fun k => mul (m0 (vplace a [i; k])) (m0 (vplace b [k])))); [auto|reflexivity| |].
  - destruct (C34_gemv_b add mul (viter a) b (viter c) n l m0 (fun j => m0 (vplace a j)) (vplace c) fixed z) as (m' & G & V & O); auto.
    + intros j w Hj. rewrite viter_element, vrank_shape, Sc, whole_in by auto. reflexivity.
    + apply view_undisturbed; auto. intros i Hi j Hj E. rewrite Sa in Hi. apply (Da j i); rewrite ?Sa, ?Sc; auto.
    + intros i Hi j Hj E. apply (Db j i); rewrite ?Sc; auto.
    + exists m'. split; [exact G|]. split; [exact V|]. intros p Hp. apply O. intros ix Hx. apply in1e in Hx as (i & -> & Hi). auto.
  - intros i Hi. cbv beta. rewrite <- (mv_m0 m i Hi). reflexivity.
Qed.
End Mv.
Section Vm.
Variables (b a : view) (l n q : Z).
Hypothesis (Sa : vshape a = [l; n]) (Sb : vshape b = [l]) (Hn : 0 <= n) (Hl : 0 <= l) (Fa : free_of a q n) (Fb : free_of b q n).
Lemma covectors_new : covectors b a (Vw [Dim n 1] q) l n.
Proof. unfold vectors, covectors. auto 10 using one_separate, one_apart. Qed.
Lemma vm_m0 : forall (m : mem T) j, 0 <= j < n -> vm b a l (fun p => if (q <=? p) && (p <? q + n) then zero else m p) j = vm b a l m j.
Proof. intros m j Hj. unfold vm, accum. f_equal. apply map_ext_in. intros k Hk. apply P_Mat.in_zrange in Hk. rewrite !free_m0; auto; rewrite ?Sa, ?Sb; [apply P_Mat.in2|apply P_Mat.in1]; auto. Qed.
Theorem C128_gevm_j : forall m, gives (gevm_j fi zi add mul zero q b a) q n (vm b a l m) m.
Proof. intros m. unfold gevm_j. replace [len1 a] with [n] by (f_equal; symmetry; apply (lens_of a l n Sa)). apply gives_none; auto. apply loop_vj. apply covectors_new. Qed.
Theorem C128_gevm_i : forall m, gives (gevm_i fixed z add mul zero q b a) q n (vm b a l m) m.
Proof.
  intros m. unfold gevm_i. replace [len1 a] with [n] by (f_equal; symmetry; apply (lens_of a l n Sa)). eapply gives_new; [auto|reflexivity|apply loop_vi; apply covectors_new|]. intros i Hi. cbv beta. rewrite <- (vm_m0 m i Hi). reflexivity.
Qed.
(* gevm of the library *)
Theorem C128_gevm : forall m, gives (gevm2 add mul fixed z q zero b a) q n (vm b a l m) m.
Proof.
  intros m. unfold gevm2. replace [len (nth 1 (vdv a) dim0)] with [n] by (f_equal; symmetry; apply (lens_of a l n Sa)). pose proof covectors_new as (_ & _ & Sc & _ & Da & Db & Ac). set (c := Vw [Dim n 1] q) in *.
  assert (N : nonneg [l]) by (apply Forall_cons; [auto|constructor]). assert (N2 : nonneg [l; n]) by (apply Forall_cons; [auto|]; apply Forall_cons; [auto|constructor]).
  destruct (view_shape (T:=T) a _ Sa N2) as (Wa & Ha), (view_shape (T:=T) b _ Sb N) as (Wb & Hb).
  set (m0 := fun p : Z => if (q <=? p) && (p <? q + n) then zero else m p).
  eapply gives_new with (h := fun i x => accum add x l (fun k => mul (m0 (vplace b [k])) (m0 (vplace a [k; i])))); [auto|reflexivity| |].
  - destruct (C34_gevm_c add mul (viter b) (viter a) c l n m0 (fun j => m0 (vplace b j)) (fun j => m0 (vplace a j)) fixed z) as (m' & G & V & O); auto.
    + apply view_undisturbed; auto. intros i Hi j Hj E. apply (Db j i); rewrite ?Sc; auto.
    + apply view_undisturbed; auto. intros i Hi j Hj E. apply (Da j i); rewrite ?Sc; auto.
    + exists m'. split; [exact G|]. split; [exact V|]. intros p Hp. apply O. intros ix Hx. apply in1e in Hx as (i & -> & Hi). auto.
  - intros i Hi. cbv beta. rewrite <- (vm_m0 m i Hi). reflexivity.
Qed.
End Vm.

(* ---- C129: sums of rows ---- *)
(* a of l, n; c of n *)
Definition sums (c a : view) (l n : Z) : Prop := vshape a = [l; n] /\ vshape c = [n] /\ (0 <= l /\ 0 <= n) /\ P_Cells.separate c a /\ apart_at c.
Definition rows_added (c a : view) (l n : Z) (m m' : mem T) : Prop := updated c n (fun j x => accum add x l (fun k => m (vplace a [k; j]))) m m'.
Lemma off_rows : forall c a l n (m m1 : mem T) i k, sums c a l n -> off c n m m1 -> 0 <= i < l -> 0 <= k < n -> m1 (vplace a [i; k]) = m (vplace a [i; k]).
Proof. intros c a l n m m1 i k (Sa & Sc & _ & Da & _) O Hi Hk. apply O. intros j Hj Q. apply (Da [j] [i; k]); rewrite ?Sa, ?Sc; auto; [apply P_Mat.in1|apply P_Mat.in2]; auto. Qed.
Lemma summed_rows : forall c a l n m m', sums c a l n -> summed add c a [l] m m' -> rows_added c a l n m m'.
Proof.
  intros c a l n m m' (Sa & Sc & _) (V & O). rewrite Sc in V, O. split.
  - intros i Hi. rewrite (V [i] (map (fun k => [k]) (zrange l))); auto using row_major_1; [|apply P_Mat.in1; auto]. unfold accum. rewrite map_map. reflexivity.
  - intros p Hp. apply O. intros ix Hx. apply in1e in Hx as (i & -> & Hi). auto.
Qed.
Lemma sums_shape : forall c a l n, sums c a l n -> vshape a = [l] ++ vshape c /\ nonneg (vshape a).
Proof. intros c a l n (Sa & Sc & (Hl & Hn) & _). rewrite Sa, Sc. split; auto. apply Forall_cons; [auto|]; apply Forall_cons; [auto|constructor]. Qed.
(* data() of each, with the elements one after the other *)
Definition compact (c : view) : Prop := forall i, vplace c [i] = vcp c + i.
Theorem C129_rows_raw : forall c a l n m, sums c a l n -> compact c -> packed a l n -> exists m', rows_raw add c a m = Ok None m' /\ rows_added c a l n m m'.
Proof.
  intros c a l n m H Kc Ka. pose proof H as (Sa & Sc & (Hl & Hn) & Da & Ac). unfold rows_raw. destruct (lens_of a l n Sa) as (-> & -> & _). apply (loop_updated c n l _ (fun j k => m (vplace a [k; j]))); auto. intros k m1 Hk O1.
  apply loop_each; auto. intros j m2 Hj O2. unfold add_to. eexists. split; [reflexivity|]. rewrite <- Kc, <- (Ka k j) by auto. unfold wr. split.
  - rewrite Z.eqb_refl. rewrite (off_rows c a l n m m2); auto. intros p Hp. rewrite O2, O1; auto.
  - intros p Hp. destruct (Z.eqb_spec p (vplace c [j])); [contradiction|auto].
Qed.
Theorem C129_rows_each : forall c a l n m, sums c a l n -> exists m', rows_each fixed z fi zi add c a m = Ok None m' /\ rows_added c a l n m m'.
Proof.
  intros c a l n m H. pose proof H as (Sa & Sc & (Hl & Hn) & Da & Ac). destruct (sums_shape _ _ _ _ H) as (Ea & Na).
  assert (R : rows_each fixed z fi zi add c a m = cell_rows fixed z fi zi add c a m).
  { unfold rows_each, cell_rows, assign_cells. rewrite (vrank_shape c), Sc. change (Z.of_nat (length [n])) with 1. assert (Ra : vrank a = 2%nat) by (rewrite vrank_shape, Sa; reflexivity). assert (Rc : vrank c = 1%nat) by (rewrite vrank_shape, Sc; reflexivity).
    rewrite (icell_frame _ a 1 1%nat) by (unfold frame_axes; lia). rewrite (icell_frame _ c 1 0%nat) by (unfold frame_axes; lia).
    assert (Oa : Forall (fun d => oklen (len d)) (vdv a)) by (apply nonneg_ok; auto).
    apply ply_same; auto.
    - apply wf_map; [discriminate|]. apply Forall_cons; [|constructor]. cbn [wf]. unfold vrank in *. split; [lia|]. destruct (vdv a) as [|d0 dv]; [constructor|]. inversion Oa; subst. apply Forall_cons; auto.
    - apply wf_map; [discriminate|]. apply Forall_cons; [cbn [wf]; split; [lia|constructor]|]. apply Forall_cons; [|constructor]. cbn [wf]. unfold vrank in *. split; [lia|]. destruct (vdv a) as [|d0 dv]; [constructor|]. inversion Oa; subst. apply Forall_cons; auto.
    - intros k x. cbn [leaf_lens flat_map Nat.ltb Nat.leb app]. tauto.
    - intros j m'. cbn [element map in_order firstn place skipn]. rewrite Z.add_0_r. destruct c as [dv cp]. reflexivity. }
  rewrite R. destruct (C113_cells fixed z Hz fi zi add c a [l] m) as (m' & E & S); auto. exists m'. split; auto. apply summed_rows; auto.
Qed.
Theorem C129_rows_verb : forall c a l n m, sums c a l n -> exists m', verb_rows fixed z add c a m = Ok None m' /\ rows_added c a l n m m' /\ rows_verb2 fixed z add c a m = Ok None m'.
Proof.
  intros c a l n m H. pose proof H as (Sa & Sc & (Hl & Hn) & Da & Ac). destruct (sums_shape _ _ _ _ H) as (Ea & Na). destruct (C113_verb fixed z Hz add c a [l] m) as (m' & E & S); auto. exists m'. split; auto. split; [apply summed_rows; auto|]. rewrite <- E.
  destruct (view2 _ _ _ Sa) as (a0 & a1 & pa & -> & E0 & E1), (view1 _ _ Sc) as (c0 & pc & -> & Ec). reflexivity.
Qed.
Theorem C129_rows_cells : forall c a l n m, sums c a l n -> (exists m', cell_rows fixed z fi zi add c a m = Ok None m' /\ rows_added c a l n m m') /\ exists m', scalar_cells fixed fi z zi add c a 1 m = Ok None m' /\ rows_added c a l n m m'.
Proof.
  intros c a l n m H. pose proof H as (Sa & Sc & (Hl & Hn) & Da & Ac). destruct (sums_shape _ _ _ _ H) as (Ea & Na). split.
  - destruct (C113_cells fixed z Hz fi zi add c a [l] m) as (m' & E & S); auto. exists m'. split; auto. apply summed_rows; auto.
  - destruct (C118_scalar fixed fi z zi Hz Hzi add c a 1 [l] m) as (m' & _ & E & S & _); auto; [unfold frame_axes; rewrite vrank_shape, Sa; cbn; lia|]. exists m'. split; auto. apply summed_rows; auto.
Qed.
Theorem C129_rows_transp : forall c a l n m, sums c a l n -> exists m', rows_transp fixed z add c a m = Ok None m' /\ rows_added c a l n m m'.
Proof.
  intros c a l n m H. pose proof H as (Sa & Sc & (Hl & Hn) & Da & Ac). destruct (sums_shape _ _ _ _ H) as (Ea & Na). destruct (C113_transpose fixed z Hz add c a [l] m) as (m' & E & S); auto. exists m'. split; [|apply summed_rows; auto]. rewrite <- E.
  unfold transpose_rows, rows_transp, transpose10. rewrite !vrank_shape, Sa, Sc. reflexivity.
Qed.
(* "sideways" adds each column apart from c, so the sum is grouped in another way *)
Theorem C129_rows_side : forall c a l n m, sums c a l n -> exists m', rows_side fi zi add zero c a m = Ok None m' /\ updated c n (fun j x => add x (accum add zero l (fun k => m (vplace a [k; j])))) m m'.
Proof.
  intros c a l n m H. pose proof H as (Sa & Sc & (Hl & Hn) & Da & Ac). unfold rows_side. destruct (lens_of a l n Sa) as (_ & -> & _). apply loop_each; auto. intros j m1 Hj O1.
  destruct (col_of a l n j Sa Hj) as (aj & -> & Sj & Pj). cbn [onres]. unfold bind. rewrite (sum_at aj l) by auto. rewrite (elem1_at _ c n) by auto. unfold add_to. eexists. split; [reflexivity|]. unfold wr. split.
  - rewrite Z.eqb_refl. f_equal. unfold accum. f_equal. apply map_ext_in. intros k Hk. apply P_Mat.in_zrange in Hk. rewrite Pj, (off_rows c a l n m m1) by auto. reflexivity.
  - intros q Hq. destruct (Z.eqb_spec q (vplace c [j])); [contradiction|auto].
Qed.

(* ---- C129: sums of columns ---- *)
(* a of n, l; c of n *)
Definition sums' (c a : view) (n l : Z) : Prop := vshape a = [n; l] /\ vshape c = [n] /\ (0 <= n /\ 0 <= l) /\ P_Cells.separate c a /\ apart_at c.
Definition cols_added (c a : view) (n l : Z) (m m' : mem T) : Prop := updated c n (fun i x => accum add x l (fun k => m (vplace a [i; k]))) m m'.
Lemma off_cols : forall c a n l (m m1 : mem T) i k, sums' c a n l -> off c n m m1 -> 0 <= i < n -> 0 <= k < l -> m1 (vplace a [i; k]) = m (vplace a [i; k]).
Proof. intros c a n l m m1 i k (Sa & Sc & _ & Da & _) O Hi Hk. apply O. intros j Hj Q. apply (Da [j] [i; k]); rewrite ?Sa, ?Sc; auto; [apply P_Mat.in1|apply P_Mat.in2]; auto. Qed.
Theorem C129_cols_raw : forall c a n l m, sums' c a n l -> compact c -> packed a n l -> exists m', cols_raw add c a m = Ok None m' /\ cols_added c a n l m m'.
Proof.
  intros c a n l m H Kc Ka. pose proof H as (Sa & Sc & (Hn & Hl) & Da & Ac). unfold cols_raw. destruct (lens_of a n l Sa) as (-> & -> & _). apply loop_each; auto. intros i m1 Hi O1.
  destruct (loop_same (vplace c [i]) l (fun j m0 => add_to add (vcp c + i) (m0 (vcp a + (i * l + j))) m0) (fun k => m (vplace a [i; k])) m1 Hl) as (m2 & E & V & O2); [|exists m2; auto].
  intros k m2 Hk O2. assert (O : off c n m m2) by (intros p Hp; rewrite O2, O1; auto). unfold add_to. eexists. split; [reflexivity|]. rewrite <- Kc, <- (Ka i k) by auto. unfold wr. split.
  - rewrite Z.eqb_refl, (off_cols c a n l m m2) by auto. reflexivity.
  - intros q Hq. destruct (Z.eqb_spec q (vplace c [i])); [contradiction|auto].
Qed.
Theorem C129_cols_side : forall c a n l m, sums' c a n l -> exists m', cols_side fixed z add c a m = Ok None m' /\ cols_added c a n l m m'.
Proof.
  intros c a n l m H. pose proof H as (Sa & Sc & (Hn & Hl) & Da & Ac). unfold cols_side. destruct (lens_of a n l Sa) as (_ & -> & _). apply (loop_updated c n l _ (fun i k => m (vplace a [i; k]))); auto. intros k m1 Hk O1.
  destruct (col_of a n l k Sa Hk) as (ak & -> & Sk & Pk). cbn [onres]. destruct (assign_view fixed z Hz add c ak m1) as (m2 & E & B); auto.
  - congruence.
  - rewrite Sc. apply Forall_cons; [auto|constructor].
  - intros i j Hi Hj. rewrite Sc in Hi. rewrite Sk in Hj. apply in1e in Hi as (i' & -> & Hi), Hj as (j' & -> & Hj). rewrite Pk. apply Da; rewrite ?Sa, ?Sc; [apply P_Mat.in1|apply P_Mat.in2]; auto.
  - exists m2. split; auto. eapply becomes_updated; eauto. intros i Hi. cbv beta. rewrite Pk, (off_cols c a n l m m1) by auto. reflexivity.
Qed.
Theorem C129_cols_match : forall c a n l m, sums' c a n l -> exists m', cols_match fixed z add c a m = Ok None m' /\ cols_added c a n l m m' /\ cols_verb fixed z add c a m = Ok None m'.
Proof.
  intros c a n l m H. pose proof H as (Sa & Sc & (Hn & Hl) & Da & Ac). assert (Nc : nonneg [n]) by (apply Forall_cons; [auto|constructor]). assert (Na : nonneg ([n] ++ [l])) by (apply Forall_cons; [auto|]; apply Forall_cons; [auto|constructor]).
  destruct (view_shape (T:=T) a ([n] ++ [l]) Sa Na) as (Wa & Sha), (view_shape (T:=T) c _ Sc Nc) as (Wc & Shc).
  destruct (C30_reduce_assign T add (viter c) (viter a) [n] [l] (map (fun k => [k]) (zrange l)) m (vplace c) (fun j => m (vplace a j)) fixed z) as (m' & E & V & O); auto using row_major_1.
  - intros j m' Hj. rewrite viter_element, vrank_shape, Sc, whole_in; auto.
  - intros i j Hi Hj. apply Ac; rewrite Sc; auto.
  - intros m' Hm. apply (view_reads a c); auto.
    + intros i j Hi Hj. apply Da; auto. rewrite Sa. auto.
    + intros p Hp. apply Hm. intros i Hi. apply Hp. rewrite Sc. auto.
  - exists m'. split; [exact E|]. split; [split|].
    + intros i Hi. rewrite V by (apply P_Mat.in1; auto). unfold accum. rewrite map_map. reflexivity.
    + intros p Hp. apply O. intros ix Hx. apply in1e in Hx as (i & -> & Hi). auto.
    + rewrite <- E. destruct (view2 _ _ _ Sa) as (a0 & a1 & pa & -> & E0 & E1), (view1 _ _ Sc) as (c0 & pc & -> & Ec). reflexivity.
Qed.
(* "accumcols" adds the sum of each row, from zero, so the sum is grouped in another way *)
Theorem C129_cols_accum : forall c a n l m, sums' c a n l -> exists m', cols_accum fixed z fi zi add zero c a m = Ok None m' /\ updated c n (fun i x => add x (accum add zero l (fun k => m (vplace a [i; k])))) m m'.
Proof.
  intros c a n l m H. pose proof H as (Sa & Sc & (Hn & Hl) & Da & Ac). unfold cols_accum. assert (Nc : nonneg [n]) by (apply Forall_cons; [auto|constructor]).
  destruct (view_shape (T:=T) c [n] Sc Nc) as (W0 & S0). assert (Ra : vrank a = 2%nat) by (rewrite vrank_shape, Sa; reflexivity). unfold itern. rewrite Ra. change (2 - 1)%nat with 1%nat.
  set (ce := Cell (vdv a) 1 _ _). assert (Wc : wf ce).
  { cbn [ce wf]. unfold vrank in Ra. split; [lia|]. destruct (view2 _ _ _ Sa) as (a0 & a1 & pa & -> & E0 & E1). cbn [vdv firstn]. apply Forall_cons; [left; lia|constructor]. }
  assert (Ic : inner ce [n]).
  { split; [cbn; lia|]. intros k. unfold ce. cbn [leaf_lens]. destruct (Nat.ltb_spec k 1); [|constructor]. apply Forall_cons; [|constructor]. left. destruct k; [|lia]. destruct (view2 _ _ _ Sa) as (a0 & a1 & pa & -> & E0 & E1). exact E0. }
  assert (Sv : shape_is (vals (viter (T:=T) c)) [n]) by (destruct S0 as (Q1 & Q2); split; [rewrite vals_axes; auto|]; rewrite vals_axes; intros k Hk; rewrite vals_lens; auto).
  assert (Wv : wf (vals (viter (T:=T) c))) by (apply vals_wf; auto).
  match goal with |- exists m', ply _ _ _ ?e _ = _ /\ _ => destruct (loop_scatter fixed z Hz _ e add [n] (vplace c) (fun j => accum add zero l (fun k => m (vplace a [nth 0 j 0; k]))) m) as (m' & E1 & E2) end.
  - apply wf_map; [discriminate|auto].
  - apply joint_shape_map. apply (joint_cover _ _ _ (vals (viter c))); [left; auto|auto|]. apply Forall_cons; [apply inner_whole; auto|]. apply Forall_cons; [auto|constructor].
  - intros j m1 Hj Hm. exists (inr VUnit). pose proof Hj as Hi. apply in1e in Hi as (i & -> & Hi). assert (O : off c n m m1). { intros p Hp. apply Hm. intros ix Hx. apply in1e in Hx as (i' & -> & Hi'). auto. }
    assert (El : element (vals (viter (T:=T) c)) [i] m1 = Ok (inr (VRef (vplace c [i]))) m1) by (rewrite vals_element, viter_element, vrank_shape, Sc, whole_in by auto; reflexivity).
    set (r := Vw (skipn 1 (vdv a)) (vcp a + i * step0 a)). assert (Er : element ce [i] m1 = Ok (inl r) m1) by (unfold ce, r; destruct (view2 _ _ _ Sa) as (a0 & a1 & pa & -> & E0 & E1); cbn [element firstn place vdv vcp step0 nth skipn]; unfold step0; cbn [vdv nth]; do 3 f_equal; lia).
    assert (Sr : vshape r = [l]) by (destruct (view2 _ _ _ Sa) as (a0 & a1 & pa & -> & E0 & E1); cbn; congruence).
    assert (Pr : forall k, vplace r [k] = vplace a [i; k]) by (intros k; destruct (view2 _ _ _ Sa) as (a0 & a1 & pa & -> & E0 & E1); unfold vplace; cbn [r vcp vdv place step skipn firstn]; unfold step0; cbn [vdv nth]; lia).
    cbn [element map]. rewrite (in_order_2 _ (item (T:=T)) _ _ m1 (inr (VRef (vplace c [i])) : item (T:=T)) m1 (inl r) m1) by auto. unfold bind at 1. rewrite (sum_at r l) by auto. cbn [nth].
    replace (accum add zero l (fun k => m1 (vplace r [k]))) with (accum add zero l (fun k => m (vplace a [i; k]))); [reflexivity|]. unfold accum. f_equal. apply map_ext_in. intros k Hk. apply P_Mat.in_zrange in Hk. rewrite Pr, (off_cols c a n l m m1) by auto. reflexivity.
  - exists m'. split; [exact E1|]. split.
    + intros i Hi. rewrite E2. rewrite (filter_one _ _ _ [i]); [reflexivity|apply indices_nodup|apply in_indices, P_Mat.in1; auto|]. intros y Hy. apply in_indices in Hy. rewrite Z.eqb_eq. split; [|intros ->; auto]. apply Ac; rewrite Sc; auto. apply P_Mat.in1; auto.
    + intros p Hp. rewrite E2, filter_none; [reflexivity|]. intros y Hy. apply in_indices in Hy. apply in1e in Hy as (i & -> & Hi). apply Z.eqb_neq. intros E. apply (Hp i); auto.
Qed.
(* If + is associative and zero is neutral for it, these give the same sums as the others. *)
Lemma accum_group : (forall x y w, add x (add y w) = add (add x y) w) -> (forall x, add x zero = x) -> forall l (f : Z -> T) x, 0 <= l -> add x (accum add zero l f) = accum add x l f.
Proof.
  intros As Nz l f x Hl. revert x. pattern l. apply natlike_ind; auto.
  intros k Hk IH x. unfold Z.succ. rewrite !(accum_step add mul) by auto. rewrite As, IH. reflexivity.
Qed.
Theorem C129_grouped : (forall x y w, add x (add y w) = add (add x y) w) -> (forall x, add x zero = x) ->
  (forall c a l n m, sums c a l n -> exists m', rows_side fi zi add zero c a m = Ok None m' /\ rows_added c a l n m m') /\
  forall c a n l m, sums' c a n l -> exists m', cols_accum fixed z fi zi add zero c a m = Ok None m' /\ cols_added c a n l m m'.
Proof.
  intros As Nz. split.
  - intros c a l n m H. destruct (C129_rows_side c a l n m H) as (m' & E & V & O). exists m'. split; auto. split; auto. intros i Hi. rewrite V by auto. apply accum_group; auto. apply H.
  - intros c a n l m H. destruct (C129_cols_accum c a n l m H) as (m' & E & V & O). exists m'. split; auto. split; auto. intros i Hi. rewrite V by auto. apply accum_group; auto. apply H.
Qed.
End Sums.

(* Examples. a is {2, 3} with steps {10, 2} from 0, b {3} from 100 with step -1, d {2} from 120, e {3} from 130, and the new arrays are at 200. *)
Definition sm : mem Z := fun p => p + 1.
Definition sa := Vw [Dim 2 10; Dim 3 2] 0.
Definition sb := Vw [Dim 3 (-1)] 100.
Definition sd := Vw [Dim 2 1] 120.
Definition se := Vw [Dim 3 1] 130.
Definition sp := Vw [Dim 2 3; Dim 3 1] 0.
Definition got {A} (r : out (mem Z) A) (ps : list Z) : option (list Z) := match r with Ok _ m => Some (map m ps) | _ => None end.
Lemma s_clean : zclean []. Proof. constructor. Qed.
Example ex_free : vshape sa = [2; 3] /\ vshape sb = [3] /\ free_of sa 200 2 /\ free_of sb 200 2 /\ free_of sa 200 3 /\ free_of sd 200 3.
Proof.
  split; [reflexivity|]. split; [reflexivity|]. split; [|split; [|split]]; intros ix Hx; cbv [vshape sa sb sd vdv map len] in Hx.
  - apply in2e in Hx as (i & j & -> & Hi & Hj). unfold vplace; cbn [sa vcp vdv place step]; lia.
  - apply in1e in Hx as (i & -> & Hi). unfold vplace; cbn [sb vcp vdv place step]; lia.
  - apply in2e in Hx as (i & j & -> & Hi & Hj). unfold vplace; cbn [sa vcp vdv place step]; lia.
  - apply in1e in Hx as (i & -> & Hi). unfold vplace; cbn [sd vcp vdv place step]; lia.
Qed.
Example ex_gemv : let r := Some [1 * 101 + 3 * 100 + 5 * 99; 11 * 101 + 13 * 100 + 15 * 99; 203] in let at_ := [200; 201; 202] in
  got (gemv_0 Z.add Z.mul 0 200 sa sb sm) at_ = r /\ got (gemv_i false [] Z.add Z.mul 0 200 sa sb sm) at_ = r /\ got (gemv_j false [] Z.add Z.mul 0 200 sa sb sm) at_ = r /\ got (gemv2 Z.add Z.mul false [] 200 0 sa sb sm) at_ = r.
Proof. vm_compute. auto. Qed.
Example ex_gevm : let r := Some [121 * 1 + 122 * 11; 121 * 3 + 122 * 13; 121 * 5 + 122 * 15; 204] in let at_ := [200; 201; 202; 203] in
  got (gevm_i false [] Z.add Z.mul 0 200 sd sa sm) at_ = r /\ got (gevm_j false [] Z.add Z.mul 0 200 sd sa sm) at_ = r /\ got (gevm2 Z.add Z.mul false [] 200 0 sd sa sm) at_ = r.
Proof. vm_compute. auto. Qed.
Example ex_sums : sums se sp 2 3 /\ compact se /\ packed sp 2 3 /\ sums' sd sp 2 3 /\ compact sd.
Proof.
  assert (Q : forall x y p i j, vplace (Vw [Dim x y; Dim 3 1] p) [i; j] = p + i * y + j) by (intros; unfold vplace; cbn [vcp vdv place step]; lia).
  assert (C : forall x p i, vplace (Vw [Dim x 1] p) [i] = p + i) by (intros; unfold vplace; cbn [vcp vdv place step]; lia).
  assert (A : forall x p, apart_at (Vw [Dim x 1] p)) by (intros x p i j Hi Hj E; apply in1e in Hi as (i' & -> & Hi), Hj as (j' & -> & Hj); rewrite !C in E; f_equal; lia).
  assert (S : forall x p, 10 <= p -> P_Cells.separate (Vw [Dim x 1] p) sp).
  { intros x p Hp i j Hi Hj E. cbv [vshape sp vdv map len] in Hi, Hj. apply in1e in Hi as (i' & -> & Hi). apply in2e in Hj as (j1 & j2 & -> & H1 & H2). rewrite C in E. unfold sp in E. rewrite Q in E. lia. }
  repeat split; auto; try lia; try (apply S; lia); try (intros i; unfold se, sd; rewrite C; reflexivity); try apply A.
  intros i j Hi Hj. unfold sp. rewrite Q. cbn [vcp]. lia.
Qed.
Example ex_rows : let r := Some [131 + 1 + 4; 132 + 2 + 5; 133 + 3 + 6; 134] in let at_ := [130; 131; 132; 133] in
  got (rows_raw Z.add se sp sm) at_ = r /\ got (rows_side false [] Z.add 0 se sp sm) at_ = r /\ got (rows_each false [] false [] Z.add se sp sm) at_ = r /\ got (rows_verb2 false [] Z.add se sp sm) at_ = r /\ got (rows_transp false [] Z.add se sp sm) at_ = r.
Proof. vm_compute. auto. Qed.
Example ex_cols : let r := Some [121 + 1 + 2 + 3; 122 + 4 + 5 + 6; 123] in let at_ := [120; 121; 122] in
  got (cols_raw Z.add sd sp sm) at_ = r /\ got (cols_side false [] Z.add sd sp sm) at_ = r /\ got (cols_accum false [] false [] Z.add 0 sd sp sm) at_ = r /\ got (cols_verb false [] Z.add sd sp sm) at_ = r /\ got (cols_match false [] Z.add sd sp sm) at_ = r.
Proof. vm_compute. auto. Qed.
(* With an operation that isn't associative (here +, rounded down to a multiple of 3), they differ. *)
Definition coarse (x y : Z) : Z := 3 * ((x + y) / 3).
Example ex_grouped : let at_ := [120; 121] in got (cols_raw coarse sd sp sm) at_ = Some [123; 135] /\ got (cols_accum false [] false [] coarse 0 sd sp sm) at_ = Some [123; 132].
Proof. vm_compute. auto. Qed.

Print Assumptions C128_gemv_0.
Print Assumptions C128_gemv_i.
Print Assumptions C128_gemv_j.
Print Assumptions C128_gemv.
Print Assumptions C128_gevm_i.
Print Assumptions C128_gevm_j.
Print Assumptions C128_gevm.
Print Assumptions C129_rows_raw.
Print Assumptions C129_rows_each.
Print Assumptions C129_rows_verb.
Print Assumptions C129_rows_cells.
Print Assumptions C129_rows_transp.
Print Assumptions C129_rows_side.
Print Assumptions C129_cols_raw.
Print Assumptions C129_cols_side.
Print Assumptions C129_cols_match.
Print Assumptions C129_cols_accum.
Print Assumptions C129_grouped.
