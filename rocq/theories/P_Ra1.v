(* Property C159: operations that write on an argument, with the arrays reversed or transposed (test/ra-1.cc). *)
From Coq Require Import ZArith List Lia Bool Sorting.Permutation.
From Verif Require Import Spec L_Spec Spec_Ply Spec_Expr M_Base M_Expr M_Ply M_Val Spec_Val L_Expr L_Agree L_Ply L_Stl L_Run L_Val P_Reduce M_View Spec_View L_View P_View M_Frame M_Mat P_Mat P_Cells M_Stencil P_Stencil M_Elem P_Elem P_Roll P_Same M_Ra1.
Import ListNotations.
Open Scope Z_scope.

(* b has the elements of a, once each, at other indices: that of j is the one of a at phi j *)
Definition seen_by (phi : list Z -> list Z) (b a : view) : Prop :=
  (forall j, inshape j (vshape b) -> inshape (phi j) (vshape a) /\ vplace b j = vplace a (phi j)) /\
  (forall i, inshape i (vshape a) -> exists j, inshape j (vshape b) /\ phi j = i) /\
  (forall j k, inshape j (vshape b) -> inshape k (vshape b) -> phi j = phi k -> j = k).
(* c and two arrays of its lengths; no element of c is in them *)
Definition lined (a b c : view) : Prop := vshape a = vshape c /\ vshape b = vshape c /\ nonneg (vshape c) /\ apart_at c /\ P_Cells.separate c a /\ P_Cells.separate c b.

Section Ra1.
Context {T : Type}.
Variables (fixed : bool) (z : list zt).
Hypothesis Hz : zclean z.
Implicit Types m : mem T.

Lemma view_wf : forall v : view, nonneg (vshape v) -> wf (viter v : expr (val T) (mem T)).
Proof. intros v Hn. apply (view_shape (T:=T) v _ eq_refl Hn). Qed.

Theorem C159_change : forall f (a : view) m, nonneg (vshape a) -> apart_at a -> exists m', change fixed z f a m = Ok None m' /\ becomes a (fun i => f (m (vplace a i))) m m'.
Proof.
  intros f a m Hn Ha. pose proof (view_wf a Hn) as Wa.
  assert (E : change fixed z f a m = assign fixed z (fun x _ => f x) (viter a) (Scalar (VT (m 0))) m).
  { unfold change, assign. apply C158_ply; auto. apply alike_sym. eapply alike_trans; [apply (C158_scalar (assign_op (fun x _ => f x)) (viter a) (VT (m 0)) Wa)|]. constructor; [split; apply wf_map; auto; discriminate|reflexivity|tauto|]. intros j w. reflexivity. }
  rewrite E. destruct (assign_to fixed z Hz (fun x _ => f x) a (Scalar (VT (m 0))) (vshape a) (fun _ => m 0) m) as (m' & E1 & B); auto; [exact I|apply inner_scalar|intros m1 _ j _; exists (VT (m 0)); auto|]. exists m'. auto.
Qed.

Lemma put_by : forall f (a b c : view) m, lined a b c -> exists m', assign fixed z (fun _ x => x) (viter c) (bin f (viter a) (viter b)) m = Ok None m' /\ becomes c (fun j => f (m (vplace a j)) (m (vplace b j))) m m'.
Proof.
  intros f a b c m (Ea & Eb & Hn & Hc & Sa & Sb). assert (Na : nonneg (vshape a)) by (rewrite Ea; auto). assert (Nb : nonneg (vshape b)) by (rewrite Eb; auto).
  destruct (view_shape (T:=T) a _ Ea Hn) as (Wa & Sha), (view_shape (T:=T) b _ Eb Hn) as (Wb & Shb).
  apply (assign_to fixed z Hz (fun _ x => x) c (bin f (viter a) (viter b)) (vshape c) (fun j => f (m (vplace a j)) (m (vplace b j))) m); auto.
  - apply wf_map; [discriminate|]. auto.
  - apply inner_map. constructor; [apply inner_whole; auto|]. constructor; [apply inner_whole; auto|constructor].
  - intros m1 Hm. apply bin_reads; apply (view_reads _ c); auto; intros i j Hi Hj; [apply Sa|apply Sb]; rewrite ?Ea, ?Eb; auto.
Qed.
Theorem C159_sum2 : forall f (a b c : view) m, lined a b c -> exists m', sum2 fixed z f a b c m = Ok None m' /\ first3 fixed z f c a b m = Ok None m' /\ becomes c (fun j => f (m (vplace a j)) (m (vplace b j))) m m'.
Proof.
  intros f a b c m L. destruct (put_by f a b c m L) as (m' & E & B). destruct L as (Ea & Eb & Hn & _). assert (Wa : wf (viter a : expr (val T) (mem T))) by (apply view_wf; rewrite Ea; auto). assert (Wb : wf (viter b : expr (val T) (mem T))) by (apply view_wf; rewrite Eb; auto). pose proof (view_wf c Hn) as Wc.
  assert (Wm : wf (bin f (viter a) (viter b) : expr (val T) (mem T))) by (apply wf_map; [discriminate|]; auto).
  exists m'. rewrite <- E. split; [|split; auto]; unfold sum2, first3, assign; apply C158_ply; auto; (constructor; [split; apply wf_map; auto; discriminate| | |]).
  - cbn. lia.
  - intros k n. unfold bin. cbn [leaf_lens flat_map]. rewrite ?app_nil_r, !in_app_iff. tauto.
  - intros j w. reflexivity.
  - cbn. lia.
  - intros k n. unfold bin. cbn [leaf_lens flat_map]. rewrite ?app_nil_r, !in_app_iff. tauto.
  - intros j w. reflexivity.
Qed.
Theorem C159_nested : forall g f (a b c : view) m, lined a b c -> exists m', nested3 fixed z g f c a b m = Ok None m' /\ becomes c (fun j => g (f (m (vplace a j)) (m (vplace b j)))) m m'.
Proof.
  intros g f a b c m (Ea & Eb & Hn & Hc & Sa & Sb). assert (Na : nonneg (vshape a)) by (rewrite Ea; auto). assert (Nb : nonneg (vshape b)) by (rewrite Eb; auto).
  destruct (view_shape (T:=T) a _ Ea Hn) as (Wa & Sha), (view_shape (T:=T) b _ Eb Hn) as (Wb & Shb).
  apply (assign_to fixed z Hz (fun _ x => g x) c (bin f (viter a) (viter b)) (vshape c) (fun j => f (m (vplace a j)) (m (vplace b j))) m); auto.
  - apply wf_map; [discriminate|]. auto.
  - apply inner_map. constructor; [apply inner_whole; auto|]. constructor; [apply inner_whole; auto|constructor].
  - intros m1 Hm. apply bin_reads; apply (view_reads _ c); auto; intros i j Hi Hj; [apply Sa|apply Sb]; rewrite ?Ea, ?Eb; auto.
Qed.

(* CheckPly: the second step undoes the first, for all the memory, if no element of b is in a *)
Theorem C159_check : forall (sub add : T -> T -> T) (b a : view) m, (forall x y, add (sub x y) y = x) -> vshape a = vshape b -> nonneg (vshape b) -> apart_at b -> P_Cells.separate b a ->
  exists m1 m2 m3, step_ fixed z sub b a m = Ok None m1 /\ becomes b (fun j => sub (m (vplace b j)) (m (vplace a j))) m m1 /\
    step_ fixed z add b a m1 = Ok None m2 /\ (forall p, m2 p = m p) /\
    check_ply fixed z sub add b a m = Ok None m3 /\ becomes b (fun j => sub (m (vplace b j)) (m (vplace a j))) m m3.
Proof.
  intros sub add b a m Inv Ea Hn Hb Hs. destruct (assign_view fixed z Hz sub b a m) as (m1 & E1 & B1); auto. destruct (assign_view fixed z Hz add b a m1) as (m2 & E2 & B2); auto. destruct (assign_view fixed z Hz sub b a m2) as (m3 & E3 & B3); auto.
  exists m1, m2, m3. unfold check_ply, step_, bind. rewrite E1, E2, E3.
  assert (K : forall p, m2 p = m p \/ exists i, inshape i (vshape b) /\ p = vplace b i).
  { intros p. destruct (in_dec Z.eq_dec p (map (vplace b) (indices (vshape b)))) as [H|H].
    - apply in_map_iff in H as (i & <- & Hi). right. exists i. split; auto. apply in_indices. auto.
    - left. assert (F : forall i, inshape i (vshape b) -> p <> vplace b i) by (intros i Hi ->; apply H, in_map, in_indices; auto). destruct B1 as (_ & O1), B2 as (_ & O2). rewrite O2, O1; auto. }
  assert (M2 : forall p, m2 p = m p).
  { intros p. destruct (K p) as [E|(i & Hi & ->)]; auto. destruct B1 as (V1 & O1), B2 as (V2 & O2). rewrite V2, V1 by auto. rewrite (O1 (vplace a i)); auto. intros j Hj E. apply (Hs j i); auto. rewrite Ea. auto. }
  repeat (split; auto).
  - intros i Hi. destruct B3 as (V3 & _). rewrite V3, !M2 by auto. reflexivity.
  - intros p Hp. destruct B3 as (_ & O3). rewrite O3, M2; auto.
Qed.

Lemma becomes_same : forall (c c' : view) phi g g' m m1 m2, seen_by phi c' c -> becomes c g m m1 -> becomes c' g' m m2 -> (forall j, inshape j (vshape c') -> g' j = g (phi j)) -> forall p, m1 p = m2 p.
Proof.
  intros c c' phi g g' m m1 m2 (S1 & S2 & S3) (V1 & O1) (V2 & O2) G p. destruct (in_dec Z.eq_dec p (map (vplace c) (indices (vshape c)))) as [H|H].
  - apply in_map_iff in H as (i & <- & Hi). apply in_indices in Hi. destruct (S2 i Hi) as (j & Hj & <-). rewrite V1 by auto. destruct (S1 j Hj) as (_ & <-). rewrite V2 by auto. symmetry. auto.
  - assert (F : forall i, inshape i (vshape c) -> p <> vplace c i) by (intros i Hi ->; apply H, in_map, in_indices; auto). rewrite O1, O2; auto. intros j Hj ->. destruct (S1 j Hj) as (Hi & E). apply (F _ Hi). auto.
Qed.
(* Any of these on other views of the same elements, with the same change of indices for all: the memory is the same *)
Theorem C159_turn : forall f phi (a b c a' b' c' : view) m, lined a b c -> vshape a' = vshape c' -> vshape b' = vshape c' -> nonneg (vshape c') -> seen_by phi a' a -> seen_by phi b' b -> seen_by phi c' c ->
  exists m1 m2, sum2 fixed z f a b c m = Ok None m1 /\ sum2 fixed z f a' b' c' m = Ok None m2 /\ forall p, m1 p = m2 p.
Proof.
  intros f phi a b c a' b' c' m L Ea Eb Hn Sa Sb Sc. assert (L' : lined a' b' c').
  { destruct L as (_ & _ & _ & Ac & Pa & Pb). destruct Sa as (Sa & _), Sb as (Sb & _), Sc as (Sc & _ & Jc). split; [auto|]. split; [auto|]. split; [auto|]. split.
    - intros i j Hi Hj E. destruct (Sc i Hi) as (Ii & Pi), (Sc j Hj) as (Ij & Pj). apply Jc; auto. apply Ac; auto. congruence.
    - split; intros i j Hi Hj E; destruct (Sc i Hi) as (Ii & Pi); [destruct (Sa j Hj) as (Ij & Pj); apply (Pa (phi i) (phi j)); auto|destruct (Sb j Hj) as (Ij & Pj); apply (Pb (phi i) (phi j)); auto]; congruence. }
  destruct (C159_sum2 f a b c m L) as (m1 & E1 & _ & B1), (C159_sum2 f a' b' c' m L') as (m2 & E2 & _ & B2). exists m1, m2. split; [auto|]. split; [auto|]. apply (becomes_same c c' phi _ _ m m1 m2 Sc B1 B2). intros j Hj. destruct Sa as (Sa & _), Sb as (Sb & _). destruct (Sa j) as (_ & ->); [rewrite Ea; auto|]. destruct (Sb j) as (_ & ->); [rewrite Eb; auto|]. reflexivity.
Qed.
End Ra1.

(* reverse and the transpose are such views *)
Definition flip (s : list Z) (k : nat) (j : list Z) : list Z := set_nth j k (nth k s 0 - 1 - nth k j 0).
Lemma flip_twice : forall s k j, length j = length s -> flip s k (flip s k j) = j.
Proof.
  intros s k j L. unfold flip. destruct (Nat.ltb_spec k (length j)).
  - rewrite set_nth_twice, set_nth_nth, Nat.eqb_refl. destruct (Nat.ltb_spec k (length j)); [|lia]. cbn [andb]. replace (nth k s 0 - 1 - (nth k s 0 - 1 - nth k j 0)) with (nth k j 0) by lia. apply set_nth_id. auto.
  - assert (E : forall (l : list Z) n x, (length l <= n)%nat -> set_nth l n x = l) by (induction l as [|y l IH]; intros [|n] x Hn; cbn in *; auto; [lia|]; rewrite IH by lia; auto). rewrite !E; auto. rewrite E; auto.
Qed.
Theorem C159_reversed : forall a k b, nonneg (vshape a) -> reverse a k = Good b -> vshape b = vshape a /\ seen_by (flip (vshape a) (Z.to_nat k)) b a.
Proof.
  intros a k b Hn H. assert (Hk : 0 <= k < Z.of_nat (vrank a)) by (unfold reverse, inside in H; destruct ((0 <=? k) && (k <? Z.of_nat (vrank a))) eqn:E; [lia|discriminate]).
  destruct (nth (Z.to_nat k) (vdv a) dim0) as [n st] eqn:Ed. assert (En : nth (Z.to_nat k) (vshape a) 0 = n) by (unfold vshape; unfold vrank in Hk; rewrite (nth_map len _ _ dim0) by lia; rewrite Ed; auto).
  assert (N0 : 0 <= n). { rewrite <- En. unfold nonneg in Hn. rewrite Forall_forall in Hn. apply Hn, nth_In. unfold vshape. rewrite map_length. unfold vrank in Hk. lia. }
  destruct (C17_element a k n st Hk Ed) as (b' & Hb & Sb & Pb); [unfold UNB; lia|]. rewrite H in Hb. injection Hb as <-. split; [auto|]. unfold seen_by, flip. rewrite Sb, En. split; [|split].
  - intros j Hj. destruct (Pb j Hj). auto.
  - intros i Hi. exists (flip (vshape a) (Z.to_nat k) i). split; [unfold flip; rewrite En; apply (Pb i Hi)|]. pose proof (flip_twice (vshape a) (Z.to_nat k) i (inshape_length _ _ Hi)) as F. unfold flip in *. rewrite En in F. rewrite En. exact F.
  - intros i j Hi Hj E. rewrite <- (flip_twice (vshape a) (Z.to_nat k) i), <- (flip_twice (vshape a) (Z.to_nat k) j) by (apply inshape_length; auto). unfold flip at 2 4. rewrite En, E. reflexivity.
Qed.
Definition swap_ (j : list Z) : list Z := [nth 1 j 0; nth 0 j 0].
Theorem C159_transposed : forall a n l, vshape a = [n; l] -> 0 <= n -> 0 <= l -> exists b, transpose10 a = Good b /\ vshape b = [l; n] /\ seen_by swap_ b a /\ transpose10 b = Good a.
Proof.
  intros [dv cp] n l E Hn Hl. unfold vshape in E. cbn [vdv] in E. destruct dv as [|[n' s0] [|[l' s1] [|? ?]]]; try discriminate. cbn in E. injection E as -> ->.
  exists (Vw [Dim l s1; Dim n s0] cp). split; [reflexivity|]. split; [reflexivity|]. split; [|reflexivity].
  assert (D : forall i x y, inshape i [x; y] -> exists u v, i = [u; v] /\ 0 <= u < x /\ 0 <= v < y).
  { intros i x y Hi. inversion Hi as [|u x' i1 s1' Hu Hi1]; subst. inversion Hi1 as [|v y' i2 s2' Hv Hi2]; subst. inversion Hi2; subst. exists u, v. auto. }
  unfold seen_by, swap_. cbn [vshape vdv map len]. split; [|split].
  - intros j Hj. destruct (D _ _ _ Hj) as (u & v & -> & Hu & Hv). cbn [nth]. split; [repeat constructor; lia|]. unfold vplace. cbn. lia.
  - intros i Hi. destruct (D _ _ _ Hi) as (u & v & -> & Hu & Hv). exists [v; u]. split; [repeat constructor; lia|reflexivity].
  - intros j k Hj Hk E. destruct (D _ _ _ Hj) as (u & v & -> & Hu & Hv), (D _ _ _ Hk) as (u' & v' & -> & _). cbn in E. injection E as -> ->. reflexivity.
Qed.
(* any order s of the axes; axis k of a is axis nth k s of b *)
Definition pulled (s j : list Z) : list Z := map (fun d => nth (Z.to_nat d) j 0) s.
Theorem C159_permuted : forall a s, nonneg (vshape a) -> Permutation s (map Z.of_nat (seq 0 (vrank a))) ->
  exists b, transpose a s = Good b /\ vrank b = vrank a /\ pulled s (vshape b) = vshape a /\ seen_by (pulled s) b a.
Proof.
  intros a s Hn P. set (r := vrank a) in *. assert (Ls : length s = r) by (rewrite (Permutation_length P), map_length, seq_length; auto).
  assert (Is : forall d, In d s <-> 0 <= d < Z.of_nat r).
  { intros d. split.
    - intros H. apply (Permutation_in _ P), in_map_iff in H as (k & <- & Hk). apply in_seq in Hk. lia.
    - intros H. apply (Permutation_in _ (Permutation_sym P)), in_map_iff. exists (Z.to_nat d). split; [lia|]. apply in_seq. lia. }
  assert (Ns : NoDup s) by (apply (Permutation_NoDup (Permutation_sym P)), FinFun.Injective_map_NoDup; [intros x y; lia|apply seq_NoDup]).
  destruct (C18_transpose a s) as (b & Hb & B1 & B2 & B3 & B4); auto; [apply Forall_forall; intros d Hd; apply Is in Hd; lia|]. exists b. split; [auto|].
  assert (Rb : vrank b = r).
  { destruct s as [|x s'] eqn:Es; [cbn in Ls; unfold transpose in Hb; cbn [trank] in Hb; change (0 <? 0) with false in Hb; cbn [length] in Hb; fold r in Hb; rewrite <- Ls in Hb; cbn in Hb; injection Hb as <-; cbn; auto|]. rewrite <- Es in *.
    assert (Nr : (0 < r)%nat) by (rewrite <- Ls, Es; cbn; lia). assert (H1 : In (Z.of_nat (vrank b) - 1) s) by (apply B1; rewrite Es; discriminate). apply Is in H1. rewrite Forall_forall in B2. assert (H2 : In (Z.of_nat r - 1) s) by (apply Is; lia). apply B2 in H2. lia. }
  assert (La : length (vshape a) = r) by (unfold vshape; rewrite map_length; auto). assert (Lb : length (vshape b) = r) by (unfold vshape; rewrite map_length; auto).
  assert (Nk : forall k, (k < r)%nat -> 0 <= nth k s 0 < Z.of_nat r) by (intros k Hk; apply Is, nth_In; lia).
  assert (U : forall k k', (k < r)%nat -> (k' < r)%nat -> nth k s 0 = nth k' s 0 -> k = k') by (intros k k' Hk Hk' E; apply (proj1 (NoDup_nth s 0) Ns); auto; lia).
  assert (Np : forall j k, (k < r)%nat -> nth k (pulled s j) 0 = nth (Z.to_nat (nth k s 0)) j 0) by (intros j k Hk; unfold pulled; rewrite (nth_map _ _ _ 0) by lia; auto).
  assert (Sh : forall k, (k < r)%nat -> nth (Z.to_nat (nth k s 0)) (vshape b) 0 = nth k (vshape a) 0).
  { intros k Hk. specialize (Nk k Hk). destruct (B4 (Z.to_nat (nth k s 0))) as (_ & B5 & _); [lia|]. destruct B5 as (k' & Hk' & E1 & E2); [rewrite Z2Nat.id by lia; apply nth_In; lia|]. rewrite Z2Nat.id in E1 by lia. rewrite (U k k') in * by (auto; fold r in Hk'; lia). auto. }
  assert (Lp : forall j, length (pulled s j) = r) by (intros j; unfold pulled; rewrite map_length; auto).
  assert (W : forall d, (d < r)%nat -> exists k, (k < r)%nat /\ nth k s 0 = Z.of_nat d).
  { intros d Hd. assert (I : In (Z.of_nat d) s) by (apply Is; lia). destruct (In_nth s _ 0 I) as (k & Hk & E). exists k. split; [lia|auto]. }
  split; [auto|]. split; [apply (nth_ext _ _ 0 0); [rewrite Lp; auto|]; intros k Hk; rewrite Lp in Hk; rewrite Np; auto|].
  split; [|split].
  - intros j Hj. pose proof (inshape_length _ _ Hj) as Lj. split; [|apply B3; congruence]. apply nth_inshape; [rewrite Lp; auto|]. intros k Hk. rewrite La in Hk. rewrite Np, <- Sh by auto. apply inshape_nth; auto. specialize (Nk k Hk). lia.
  - intros i Hi. pose proof (inshape_length _ _ Hi) as Li.
    assert (G : forall n, (n <= r)%nat -> exists j, length j = n /\ forall d k, (d < n)%nat -> (k < r)%nat -> nth k s 0 = Z.of_nat d -> nth d j 0 = nth k i 0).
    { induction n as [|n IH]; intros Hle; [exists []; split; [auto|lia]|]. destruct IH as (j & Lj & Hj); [lia|]. destruct (W n) as (k & Hk & E); [lia|]. exists (j ++ [nth k i 0]). split; [rewrite app_length; cbn; lia|]. intros d k' Hd Hk' E'. destruct (Nat.eq_dec d n) as [->|D].
      - rewrite app_nth2, Lj, Nat.sub_diag by lia. cbn [nth]. rewrite (U k k'); auto. congruence.
      - rewrite app_nth1 by lia. apply Hj; auto; lia. }
    destruct (G r (le_n _)) as (j & Lj & Hj). exists j. split.
    + apply nth_inshape; [congruence|]. intros d Hd. rewrite Lb in Hd. destruct (W d Hd) as (k & Hk & E). rewrite (Hj d k) by auto. rewrite <- (Nat2Z.id d), <- E, Sh by auto. apply inshape_nth; auto. lia.
    + apply (nth_ext _ _ 0 0); [rewrite Lp; congruence|]. intros k Hk. rewrite Lp in Hk. rewrite Np by auto. specialize (Nk k Hk). apply Hj; [lia|auto|lia].
  - intros j k Hj Hk E. apply inshape_length in Hj, Hk. apply (nth_ext _ _ 0 0); [congruence|]. intros d Hd. destruct (W d) as (q & Hq & Eq); [lia|]. pose proof (Np j q Hq) as E1. rewrite E, (Np k q Hq), Eq, Nat2Z.id in E1. auto.
Qed.
Example C159_permuted_example : Permutation [2; 0; 1] (map Z.of_nat (seq 0 3)) /\ transpose (Vw [Dim 2 12; Dim 3 4; Dim 4 1] 5) [2; 0; 1] = Good (Vw [Dim 3 4; Dim 4 1; Dim 2 12] 5) /\ pulled [2; 0; 1] [3; 4; 2] = [2; 3; 4].
Proof. split; [|split; reflexivity]. cbn. apply (Permutation_trans (l' := [0; 2; 1])); [apply perm_swap|]. apply perm_skip, perm_swap. Qed.
(* ra-1.cc:181-196: c = a - transpose(b), and through the transposes of a and c *)
Theorem C159_mismatched : forall T fixed z (f : T -> T -> T) (a b c : view) n l m, zclean z -> vshape a = [n; l] -> vshape b = [l; n] -> vshape c = [n; l] -> 0 <= n -> 0 <= l -> apart_at c -> P_Cells.separate c a -> P_Cells.separate c b ->
  exists at_ bt ct m1 m2, transpose10 a = Good at_ /\ transpose10 b = Good bt /\ transpose10 c = Good ct /\ sum2 fixed z f a bt c m = Ok None m1 /\ sum2 fixed z f at_ b ct m = Ok None m2 /\ (forall p, m1 p = m2 p) /\
    forall i j, 0 <= i < n -> 0 <= j < l -> m1 (vplace c [i; j]) = f (m (vplace a [i; j])) (m (vplace b [j; i])).
Proof.
  intros T fixed z f a b c n l m Hz Ea Eb Ec Hn Hl Ac Pa Pb.
  destruct (C159_transposed a n l Ea Hn Hl) as (at_ & Ta & Sat & Va & _), (C159_transposed b l n Eb Hl Hn) as (bt & Tb & Sbt & Vb & Tb'), (C159_transposed c n l Ec Hn Hl) as (ct & Tc & Sct & Vc & _).
  destruct (C159_transposed bt n l Sbt Hn Hl) as (b2 & Tb2 & _ & Vb2 & _). rewrite Tb' in Tb2. injection Tb2 as <-.
  assert (L : lined a bt c). { unfold lined. rewrite Ec. split; [auto|]. split; [auto|]. split; [repeat constructor; auto|]. split; [auto|]. split; [auto|]. intros i j Hi Hj E. destruct Vb as (Vb & _). destruct (Vb j Hj) as (Ij & Pj). apply (Pb i (swap_ j)); auto. congruence. }
  destruct (C159_turn fixed z Hz f swap_ a bt c at_ b ct m L) as (m1 & m2 & E1 & E2 & E); auto; try congruence; [rewrite Sct; repeat constructor; auto|].
  exists at_, bt, ct, m1, m2. repeat (split; [auto|]). intros i j Hi Hj. destruct (C159_sum2 fixed z Hz f a bt c m L) as (m1' & E1' & _ & B & _). rewrite E1 in E1'. injection E1' as <-.
  assert (Ij : inshape [i; j] (vshape c)) by (rewrite Ec; repeat constructor; lia). rewrite B by auto. f_equal. f_equal. destruct Vb as (Vb & _). destruct (Vb [i; j]) as (_ & ->); [rewrite Sbt, <- Ec; auto|reflexivity].
Qed.
(* CheckPlyReverse1: changed twice, the second time through reverse(a) *)
Theorem C159_reverse1 : forall T fixed fixed' z z' (f : T -> T) (a b : view) k m, zclean z -> zclean z' -> (forall x, f (f x) = x) -> nonneg (vshape a) -> apart_at a -> reverse a k = Good b ->
  exists m1 m2, change fixed z f a m = Ok None m1 /\ becomes a (fun i => f (m (vplace a i))) m m1 /\ change fixed' z' f b m1 = Ok None m2 /\ forall p, m2 p = m p.
Proof.
  intros T fixed fixed' z z' f a b k m Hz Hz' Inv Hn Ha Hb. destruct (C159_reversed a k b Hn Hb) as (Sb & V). destruct (C159_change fixed z Hz f a m Hn Ha) as (m1 & E1 & B1).
  assert (Ab : apart_at b). { destruct V as (V1 & _ & V3). intros i j Hi Hj E. destruct (V1 i Hi) as (Ii & Pi), (V1 j Hj) as (Ij & Pj). apply V3; auto. apply Ha; auto. congruence. }
  destruct (C159_change fixed' z' Hz' f b m1) as (m2 & E2 & B2); [rewrite Sb; auto|auto|]. exists m1, m2. repeat (split; [auto|]).
  destruct (C159_change fixed' z' Hz' f a m1 Hn Ha) as (m3 & _ & B3). assert (E : forall p, m3 p = m2 p). { apply (becomes_same a b _ _ _ m1 m3 m2 V B3 B2). intros j Hj. destruct V as (V1 & _). destruct (V1 j Hj) as (_ & ->). auto. }
  intros p. rewrite <- E. destruct B1 as (V1 & O1), B3 as (V3 & O3). destruct (in_dec Z.eq_dec p (map (vplace a) (indices (vshape a)))) as [H|H].
  - apply in_map_iff in H as (i & <- & Hi). apply in_indices in Hi. rewrite V3, V1; auto.
  - assert (F : forall i, inshape i (vshape a) -> p <> vplace a i) by (intros i Hi ->; apply H, in_map, in_indices; auto). rewrite O3, O1; auto.
Qed.
(* If a is b reversed the steps don't undo each other. *)
Theorem C159_self_refuted : exists a b m, reverse b 0 = Good a /\ apart_at b /\ forall fixed, exists m1 m2, step_ fixed z_init Z.sub b a m = Ok None m1 /\ step_ fixed z_init Z.add b a m1 = Ok None m2 /\ m 0 = 1 /\ m2 0 = 2.
Proof.
  exists (Vw [Dim 2 (-1)] 1), (Vw [Dim 2 1] 0), (fun p : Z => p + 1). split; [reflexivity|]. split.
  - intros i j Hi Hj E. inversion Hi as [|u ? i1 ? Hu Hi1]; subst. inversion Hi1; subst. inversion Hj as [|v ? j1 ? Hv Hj1]; subst. inversion Hj1; subst. unfold vplace in E. cbn in E. f_equal. lia.
  - intros fixed. destruct fixed; do 2 eexists; (split; [reflexivity|]; split; [reflexivity|]; split; reflexivity).
Qed.

(* the elements at ps after o *)
Definition left_at (o : out (mem Z) (option unit)) (ps : list Z) : list Z := match o with Ok _ m => map m ps | _ => [] end.
(* ra-1.cc:181-196 with its arrays, a and b from 1 in row-major order and c after them *)
Example C159_example : let a := Vw [Dim 2 3; Dim 3 1] 0 in let b := Vw [Dim 3 2; Dim 2 1] 10 in let c := Vw [Dim 2 3; Dim 3 1] 20 in
  let m := fun p => if p <? 10 then p + 1 else p - 9 in
  (apart_at c /\ P_Cells.separate c a /\ P_Cells.separate c b) /\
  exists bt, transpose10 b = Good bt /\ left_at (sum2 true z_init Z.sub a bt c m) [20; 21; 22; 23; 24; 25] = [0; -1; -2; 2; 1; 0].
Proof.
  cbv zeta. assert (D : forall i x y, inshape i [x; y] -> exists u v, i = [u; v] /\ 0 <= u < x /\ 0 <= v < y).
  { intros i x y Hi. inversion Hi as [|u x' i1 s1' Hu Hi1]; subst. inversion Hi1 as [|v y' i2 s2' Hv Hi2]; subst. inversion Hi2; subst. exists u, v. auto. }
  split; [|eexists; split; [reflexivity|]; vm_compute; reflexivity].
  unfold apart_at, P_Cells.separate. cbn [vshape vdv map len]. split; [|split]; intros i j Hi Hj E; destruct (D _ _ _ Hi) as (u & v & -> & Hu & Hv), (D _ _ _ Hj) as (u' & v' & -> & Hu' & Hv'); unfold vplace in E; cbn [vdv vcp place step] in E; try lia. assert (u = u') by lia. assert (v = v') by lia. subst. reflexivity.
Qed.
(* ra-1.cc:24-39 *)
Example C159_reverse1_example : let a := Vw [Dim 6 1] 0 in let b := Vw [Dim 6 (-1)] 5 in let m := fun p => p + 1 in reverse a 0 = Good b /\
  left_at (change false z_init Z.opp a m) [0; 1; 2; 3; 4; 5] = [-1; -2; -3; -4; -5; -6] /\ left_at ((_ <- change false z_init Z.opp a ;; change true z_init Z.opp b) m) [5; 4; 3; 2; 1; 0] = [6; 5; 4; 3; 2; 1].
Proof. vm_compute. auto. Qed.
(* ra-1.cc:68-91, 92-109 *)
Example C159_nested_example : let m := fun p => nth (Z.to_nat p) [1; 0; -1; 1; 2; 3; -99; -99; -99] 0 in let a := Vw [Dim 3 1] 0 in let b := Vw [Dim 3 1] 3 in let c := Vw [Dim 3 1] 6 in
  left_at (nested3 true z_init Z.opp Z.sub c a b m) [6; 7; 8] = [0; 2; 4] /\ left_at (first3 false z_init Z.add c b b m) [6; 7; 8] = [2; 4; 6].
Proof. vm_compute. auto. Qed.
(* ra-1.cc:225-246 (j): reverse(reverse(A, 0), 1), reverse(reverse(B, 0), 1) *)
Example C159_check_example : let m := fun p => if p <? 6 then p + 1 else 2 * p in let a := Vw [Dim 2 (-3); Dim 3 (-1)] 5 in let b := Vw [Dim 2 (-3); Dim 3 (-1)] 15 in
  left_at (check_ply false z_init Z.sub Z.add b a m) [10; 11; 12; 13; 14; 15] = [19; 20; 21; 22; 23; 24].
Proof. vm_compute. reflexivity. Qed.

Print Assumptions C159_change.
Print Assumptions C159_sum2.
Print Assumptions C159_nested.
Print Assumptions C159_check.
Print Assumptions C159_turn.
Print Assumptions C159_reversed.
Print Assumptions C159_transposed.
Print Assumptions C159_permuted.
Print Assumptions C159_mismatched.
Print Assumptions C159_reverse1.
Print Assumptions C159_self_refuted.
