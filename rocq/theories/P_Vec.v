(* Property of the operations through the vector extension: C94. *)
From Coq Require Import ZArith List Lia Bool Arith.
From Verif Require Import Spec M_Base M_Expr L_Spec Spec_Expr M_Ply M_Val M_View L_View Spec_View P_View M_Slice Spec_Slice L_Slice P_Slice M_Mat M_Vec P_Unb.
Import ListNotations.
Open Scope Z_scope.

Definition short (n : Z) : Prop := n = 2 \/ n = 4 \/ n = 8.
(* r are the elements of the expression 'a f b' on memory m, without the vector extension *)
Definition same_as_lazy {T} (f : T -> T -> T) (n : Z) (a b : view) (r : list T) (m : mem T) : Prop :=
  Z.of_nat (length r) = n /\ forall i, 0 <= i < n -> exists t, nth_error r (Z.to_nat i) = Some t /\ element (Map (mul_op f) [viter a; viter b]) [i] m = Ok (VT t) m.

Lemma opt_op_cells : forall T (f : T -> T -> T) n a b, short n -> opt_op f (viter (Vw [Dim n 1] a)) (viter (Vw [Dim n 1] b)) = Some (small_op f n a b).
Proof. intros T f n a b [->|[->| ->]]; reflexivity. Qed.

Lemma small_op_lazy : forall T (f : T -> T -> T) n a b m, 0 <= n -> a mod n = 0 -> b mod n = 0 ->
  exists r, small_op f n a b m = Ok r m /\ same_as_lazy f n (Vw [Dim n 1] a) (Vw [Dim n 1] b) r m.
Proof.
  intros T f n a b m Hn Ha Hb. unfold small_op, bind, vload. rewrite Ha, Hb. cbn [Z.eqb]. unfold ret. eexists. split; [reflexivity|].
  set (k := Z.to_nat n). assert (Ek : n = Z.of_nat k) by (unfold k; rewrite Z2Nat.id; auto).
  assert (L : length (combine (map (fun i => m (a + Z.of_nat i)) (seq 0 k)) (map (fun i => m (b + Z.of_nat i)) (seq 0 k))) = k) by (rewrite combine_length, !map_length, seq_length; lia).
  unfold same_as_lazy. rewrite map_length, L. split; [auto|]. intros i Hi. exists (f (m (a + i)) (m (b + i))). split.
  - assert (G : forall (g h : nat -> T) s p, (p < length s)%nat -> nth_error (map (fun q => f (fst q) (snd q)) (combine (map g s) (map h s))) p = Some (f (g (nth p s 0%nat)) (h (nth p s 0%nat)))).
    { clear. induction s; intros p Hp; [cbn in Hp; lia|]. destruct p; cbn; auto. apply IHs. cbn in Hp. lia. }
    rewrite G by (rewrite seq_length; lia). rewrite seq_nth by lia. cbn [Nat.add]. rewrite Z2Nat.id by lia. reflexivity.
  - cbn. rewrite Z.mul_1_r, Z.add_0_r. reflexivity.
Qed.

(* The operands have places that are multiples of N. *)
Theorem C94_aligned_partial : forall T (f : T -> T -> T) n a b m, short n -> a mod n = 0 -> b mod n = 0 ->
  exists k r, opt_op f (viter (Vw [Dim n 1] a)) (viter (Vw [Dim n 1] b)) = Some k /\ k m = Ok r m /\ same_as_lazy f n (Vw [Dim n 1] a) (Vw [Dim n 1] b) r m.
Proof.
  intros T f n a b m Hn Ha Hb. destruct (small_op_lazy T f n a b m) as (r & E & S); auto; [destruct Hn as [->|[->| ->]]; lia|]. exists (small_op f n a b), r. split; [apply opt_op_cells; auto|auto].
Qed.

(* the place of a row *)
Lemma fromb_row : forall l n i dv sz bv pl, 0 <= n -> filldimv (l ++ [n]) = Some (dv, sz) -> inshape i l -> fromb true (map cidx i) dv bv pl = Good (bv ++ [Dim n 1], pl + n * rm l i) /\ sz = zprod l * n.
Proof.
  induction l as [|x l IH]; intros n i dv sz bv pl Hn E Hi; inversion Hi as [|y ? i' ? Hy Hi']; subst.
  - cbn [app filldimv] in E. destruct (Z.geb_spec n 0); [|lia]. inversion E; subst dv sz. cbn [map fromb rm]. split; [rewrite Z.mul_0_r, Z.add_0_r; reflexivity|cbn [zprod]; destruct n; reflexivity].
  - cbn [app filldimv] in E. destruct (filldimv (l ++ [n])) as [[dv' s]|] eqn:E'; [|discriminate]. destruct (Z.geb_spec x 0); [|discriminate]. injection E as <- <-.
    cbn [map fromb cidx len step]. unfold inside. destruct (Z.leb_spec 0 y); [|lia]. destruct (Z.ltb_spec y x); [|lia]. cbn [andb orb].
    destruct (IH n i' dv' s bv (pl + y * s) Hn E' Hi') as (-> & ->). cbn [rm zprod]. split; [do 2 f_equal; ring|ring].
Qed.
Lemma row_of : forall l n i v cp, 0 <= n -> small_at (l ++ [n]) cp v -> inshape i l -> from v (map cidx i) = Good (Vw [Dim n 1] (cp + n * rm l i)) /\ cp mod align_req true (zprod l * n) = 0.
Proof.
  intros l n i v cp Hn (dv & sz & E & -> & Ha) Hi. destruct (fromb_row l n i dv sz [] cp Hn E Hi) as (F & ->). split; [|auto].
  assert (Ld : length dv = S (length l)).
  { clear - E. revert dv E. generalize (zprod l * n). induction l; intros z dv E; cbn [app filldimv] in E.
    - destruct (n >=? 0); [|discriminate]. injection E as <- <-. reflexivity.
    - destruct (filldimv (l ++ [n])) as [[dv' s]|]; [|discriminate]. destruct (a >=? 0); [|discriminate]. injection E as <- <-. cbn [length]. f_equal. eapply IHl. reflexivity. }
  pose proof (inshape_length _ _ Hi) as Li. rewrite from_fromb.
  - cbn [vdv vcp]. rewrite F. reflexivity.
  - apply one_axis_scalars.
  - unfold fits, vrank. cbn [vdv]. assert (Et : total takes (map cidx i) = length i) by (clear; induction i; cbn; lia). lia.
  - rewrite no_rest_scalars. lia.
Qed.
Lemma align_pow : forall p, 0 <= p -> align_req true (2 ^ p) = 2 ^ p.
Proof.
  intros p Hp. unfold align_req. cbn [andb]. pose proof (Z.pow_pos_nonneg 2 p ltac:(lia) Hp). destruct (Z.ltb_spec 0 (2 ^ p)); [|lia]. cbn [andb].
  replace (Z.land (2 ^ p) (2 ^ p - 1)) with 0; [reflexivity|]. replace (2 ^ p - 1) with (Z.ones p) by (rewrite Z.ones_equiv; lia). rewrite Z.land_ones by auto. rewrite Z.mod_same by lia. reflexivity.
Qed.

(* The rows of arrays whose size is a power of 2; if l is [] the array itself. *)
Theorem C94_rows_partial : forall T (f : T -> T -> T) n l1 l2 i1 i2 cp1 cp2 v1 v2 m p1 p2, short n -> small_at (l1 ++ [n]) cp1 v1 -> small_at (l2 ++ [n]) cp2 v2 ->
  zprod (l1 ++ [n]) = 2 ^ p1 -> zprod (l2 ++ [n]) = 2 ^ p2 -> 0 <= p1 -> 0 <= p2 -> inshape i1 l1 -> inshape i2 l2 ->
  exists a b k r, from v1 (map cidx i1) = Good a /\ from v2 (map cidx i2) = Good b /\ opt_op f (viter a) (viter b) = Some k /\ k m = Ok r m /\ same_as_lazy f n a b r m.
Proof.
  intros T f n l1 l2 i1 i2 cp1 cp2 v1 v2 m p1 p2 Hn S1 S2 Z1 Z2 P1 P2 I1 I2. assert (Hp : 0 < n) by (destruct Hn as [->|[->| ->]]; lia).
  assert (G : forall l i cp p, 0 <= p -> zprod (l ++ [n]) = 2 ^ p -> cp mod align_req true (zprod l * n) = 0 -> (cp + n * rm l i) mod n = 0).
  { intros l i cp p Hpp Hz Ha. rewrite zprod_app in Hz. cbn [zprod] in Hz. rewrite Z.mul_1_r in Hz. rewrite Hz, align_pow in Ha by auto. rewrite (Z.mul_comm n), Z.mod_add by lia.
    rewrite <- Hz in Ha. assert (Hl : zprod l <> 0) by (pose proof (Z.pow_pos_nonneg 2 p ltac:(lia) Hpp); nia).
    apply Z.mod_divide in Ha; [|nia]. apply Z.mod_divide; [lia|]. destruct Ha as (q & ->). exists (q * zprod l). ring. }
  destruct (row_of l1 n i1 v1 cp1) as (F1 & A1); auto; [lia|]. destruct (row_of l2 n i2 v2 cp2) as (F2 & A2); auto; [lia|].
  destruct (C94_aligned_partial T f n (cp1 + n * rm l1 i1) (cp2 + n * rm l2 i2) m Hn (G _ _ _ _ P1 Z1 A1) (G _ _ _ _ P2 Z2 A2)) as (k & r & E1 & E2 & E3).
  eexists _, _, k, r. split; [exact F1|]. split; [exact F2|]. auto.
Qed.

Example C94_ex : small_at [2; 4] 8 (Vw [Dim 2 4; Dim 4 1] 8) /\ small_at [4] 20 (Vw [Dim 4 1] 20) /\ zprod [2; 4] = 2 ^ 3 /\ from (Vw [Dim 2 4; Dim 4 1] 8) (map cidx [1]) = Good (Vw [Dim 4 1] 12) /\
  exists k m, opt_op Z.add (viter (Vw [Dim 4 1] 12)) (viter (Vw [Dim 4 1] 20)) = Some k /\ k m = Ok [32; 34; 36; 38] m.
Proof.
  split; [exists [Dim 2 4; Dim 4 1], 8; auto|]. split; [exists [Dim 4 1], 4; auto|]. split; [reflexivity|]. split; [reflexivity|]. eexists _, (fun p => p). split; reflexivity.
Qed.

(* Other shapes, or the size of other types, aren't optimized. *)
Theorem C94_matched : forall T (f : T -> T -> T) a b k, opt_op f (viter a) (viter b) = Some k -> exists n, short n /\ vdv a = [Dim n 1] /\ vdv b = [Dim n 1].
Proof.
  intros T f [dva ca] [dvb cb] k H. assert (G : forall n dv c p, match_small (T := T) n (viter (Vw dv c)) = Some p -> dv = [Dim n 1]).
  { intros n dv c p E. unfold viter, vrank in E. cbn [vdv vcp] in E. destruct dv as [|[x y] [|]]; try discriminate. cbn in E. destruct (Z.eqb_spec x n); [|discriminate]. destruct (Z.eqb_spec y 1); [|discriminate]. subst. reflexivity. }
  assert (I : forall ns, opt_small ns f (viter (Vw dva ca)) (viter (Vw dvb cb)) = Some k -> exists n, In n ns /\ dva = [Dim n 1] /\ dvb = [Dim n 1]).
  { induction ns as [|n ns IH]; intros E; [discriminate|]. cbn [opt_small] in E. destruct (match_small n (viter (Vw dva ca))) eqn:A; [destruct (match_small n (viter (Vw dvb cb))) eqn:B|].
    - exists n. split; [left; auto|eauto].
    - destruct (IH E) as (x & ? & ?). exists x. split; [right; auto|auto].
    - destruct (IH E) as (x & ? & ?). exists x. split; [right; auto|auto]. }
  destruct (I _ H) as (n & Hn & Ea & Eb). exists n. cbn [vdv]. unfold short. cbn in Hn. split; [intuition|auto].
Qed.

(* The rows of a Small<T, 3, 4> may be anywhere. *)
Theorem C94_rows_refuted : exists cp (v a : view), small_at [3; 4] cp v /\ from v [cidx 0] = Good a /\
  forall T (f : T -> T -> T) m, (exists k, opt_op f (viter a) (viter a) = Some k /\ k m = Undef) /\ exists r, same_as_lazy f 4 a a r m.
Proof.
  exists 1, (Vw [Dim 3 4; Dim 4 1] 1), (Vw [Dim 4 1] 1). split; [exists [Dim 3 4; Dim 4 1], 12; auto|]. split; [reflexivity|]. intros T f m. split; [eexists; split; reflexivity|].
  exists [f (m 1) (m 1); f (m 2) (m 2); f (m 3) (m 3); f (m 4) (m 4)]. split; [reflexivity|]. intros i Hi. assert (Ei : i = 0 \/ i = 1 \/ i = 2 \/ i = 3) by lia. destruct Ei as [->|[->|[->| ->]]]; eexists; split; reflexivity.
Qed.
(* In a Small<T, 8>, wherever it is, a.as<4, 1>() isn't aligned. *)
Theorem C94_as_refuted : forall cp v, small_at [8] cp v -> exists a, from v [ciota 4 1 1] = Good a /\ forall T (f : T -> T -> T) m, exists k, opt_op f (viter a) (viter a) = Some k /\ k m = Undef.
Proof.
  intros cp v (dv & n & E & -> & Ha). cbn in E. injection E as <- <-. cbn in Ha. exists (Vw [Dim 4 1] (cp + 1)). split.
  - cbn. do 2 f_equal; lia.
  - intros T f m. exists (small_op f 4 (cp + 1) (cp + 1)). split; [reflexivity|]. unfold small_op, bind, vload. destruct (Z.eqb_spec ((cp + 1) mod 4) 0) as [E|]; [|reflexivity].
    exfalso. apply Z.mod_divide in E; [|lia]. apply Z.mod_divide in Ha; [|lia]. destruct E as (x & E), Ha as (y & Ha). lia.
Qed.
Example C94_as_ex : small_at [8] 16 (Vw [Dim 8 1] 16) /\ from (Vw [Dim 8 1] 16) [ciota 4 1 1] = Good (Vw [Dim 4 1] 17).
Proof. split; [exists [Dim 8 1], 8; auto|reflexivity]. Qed.

Print Assumptions C94_aligned_partial. Print Assumptions C94_rows_partial. Print Assumptions C94_matched. Print Assumptions C94_rows_refuted. Print Assumptions C94_as_refuted.
