(* Properties of sizes and offsets in 64-bit arithmetic: C55, C65. *)
From Coq Require Import ZArith List Lia Bool.
From Verif Require Import Spec M_Base L_Spec M_Expr Spec_Expr M_View Spec_View M_Opt M_Overflow.
Import ListNotations.
Open Scope Z_scope.

Definition fits64 (x : Z) : Prop := - 2 ^ 63 <= x < 2 ^ 63.

Lemma arith64 : forall x, (fits64 x -> arith I64 x = Some x) /\ (~ fits64 x -> arith I64 x = None).
Proof.
  intros x. unfold fits64, arith, conv. cbn [signed bits]. change (64 - 1) with 63. change (2 ^ 64) with (2 * 2 ^ 63).
  set (b := 2 ^ 63). assert (0 < b) by (unfold b; lia). clearbody b. split; intros H1.
  - rewrite Z.mod_small by lia. replace (x + b - b) with x by lia. rewrite Z.eqb_refl. reflexivity.
  - destruct (Z.eqb_spec ((x + b) mod (2 * b) - b) x); auto. pose proof (Z.mod_pos_bound (x + b) (2 * b)). lia.
Qed.

(* ---- C55 ---- *)

(* The dimensions are the lengths, and steps which are the products of those that follow; the size is the product. *)
Theorem C55_exact : forall p, nonneg p -> (forall k, fits64 (zprod (skipn k p))) ->
  exists dv, filldimv64 p = Good (dv, zprod p) /\ map len dv = p /\ forall k, (k < length p)%nat -> step (nth k dv dim0) = zprod (skipn (S k) p).
Proof.
  induction p as [|n p IH]; intros Hn F.
  - exists []. split; [reflexivity|]. split; [reflexivity|]. cbn. lia.
  - inversion Hn; subst. destruct IH as (dv & E & L & S); auto. { intros k. apply (F (Datatypes.S k)). }
    exists (Dim n (zprod p) :: dv). cbn [filldimv64]. rewrite E. destruct (Z.geb_spec n 0); [|lia].
    pose proof (F 0%nat) as F0. cbn [skipn zprod] in F0. rewrite Z.mul_comm in F0. rewrite (proj1 (arith64 _) F0). rewrite Z.mul_comm. split; [reflexivity|].
    split; [cbn; f_equal; auto|]. intros [|k] Hk; [reflexivity|]. cbn [nth length] in *. apply S. lia.
Qed.
(* These are the only conditions. What happens with a bad one depends on which is met first, going from the last axis. *)
Theorem C55_only : forall p, 
  (forall r, filldimv64 p = Good r -> nonneg p /\ forall k, fits64 (zprod (skipn k p))) /\
  (filldimv64 p = Refused <-> exists k, (k < length p)%nat /\ nth k p 0 < 0 /\ nonneg (skipn (S k) p) /\ forall l, (k < l)%nat -> fits64 (zprod (skipn l p))) /\
  (filldimv64 p = UB <-> exists k, (k < length p)%nat /\ nonneg (skipn k p) /\ ~ fits64 (zprod (skipn k p)) /\ forall l, (k < l)%nat -> fits64 (zprod (skipn l p))).
Proof.
  induction p as [|n p (I1 & I2 & I3)].
  - cbn [filldimv64]. split; [|split].
    + intros r _. split; [constructor|]. intros k. rewrite skipn_nil. unfold fits64. cbn [zprod]. lia.
    + split; [discriminate|]. intros (k & Hk & _). cbn in Hk. lia.
    + split; [discriminate|]. intros (k & Hk & _). cbn in Hk. lia.
  - cbn [filldimv64]. destruct (filldimv64 p) as [[dv s]| |] eqn:E.
    + destruct (I1 _ eq_refl) as (Hn & Hf). destruct (C55_exact p Hn Hf) as (dv' & E' & _). rewrite E in E'. inversion E'; subst dv' s.
      destruct (Z.geb_spec n 0) as [Hge|Hlt].
      * destruct (arith I64 (zprod p * n)) as [x|] eqn:Ea.
        -- assert (F : fits64 (zprod p * n)). { destruct (Z_le_dec (- 2 ^ 63) (zprod p * n)); [destruct (Z_lt_dec (zprod p * n) (2 ^ 63)); [split; auto|]|];
             rewrite (proj2 (arith64 _)) in Ea by (unfold fits64; lia); discriminate. }
           split; [|split].
           ++ intros r Er. split; [constructor; auto|]. intros [|k]; [cbn [skipn zprod]; rewrite Z.mul_comm; auto|apply Hf].
           ++ split; [discriminate|]. intros ([|k] & Hk & Hneg & _); cbn [nth] in Hneg; [lia|].
              exfalso. assert (Hk' : (k < length p)%nat) by (cbn [length] in Hk; lia). pose proof (proj1 (Forall_forall _ _) Hn _ (nth_In p 0 Hk')). cbv beta in *. lia.
           ++ split; [discriminate|]. intros ([|k] & Hk & _ & Hnf & _); cbn [skipn zprod] in Hnf; exfalso; apply Hnf; [rewrite Z.mul_comm; auto|apply Hf].
        -- assert (F : ~ fits64 (zprod p * n)). { intros F. rewrite (proj1 (arith64 _) F) in Ea. discriminate. }
           split; [discriminate|]. split.
           ++ split; [discriminate|]. intros ([|k] & Hk & Hneg & _); cbn [nth] in Hneg; [lia|].
              exfalso. assert (Hk' : (k < length p)%nat) by (cbn [length] in Hk; lia). pose proof (proj1 (Forall_forall _ _) Hn _ (nth_In p 0 Hk')). cbv beta in *. lia.
           ++ split; auto. intros _. exists 0%nat. split; [cbn; lia|]. split; [constructor; auto|]. split; [cbn [skipn zprod]; rewrite Z.mul_comm; auto|].
              intros [|l] Hl; [lia|apply Hf].
      * split; [discriminate|]. split.
        -- split; auto. intros _. exists 0%nat. cbn [nth length skipn]. repeat split; auto; try lia. all: intros; destruct l; [lia|apply Hf].
        -- split; [discriminate|]. intros ([|k] & Hk & Hnn & Hnf & _); cbn [skipn] in *; [inversion Hnn; lia|]. exfalso; apply Hnf, Hf.
    + split; [discriminate|]. split.
      * split; auto. intros _. destruct (proj1 I2 eq_refl) as (k & Hk & Hneg & Hnn & Hf). exists (S k). cbn [length nth]. split; [lia|]. split; [auto|]. split; [exact Hnn|].
        intros [|l] Hl; [lia|]. apply Hf. lia.
      * split; [discriminate|]. intros ([|k] & Hk & Hnn & Hnf & Hf); cbn [skipn length] in *.
        -- destruct (proj1 I2 eq_refl) as (k & Hk' & Hneg & _). inversion Hnn; subst.
           pose proof (proj1 (Forall_forall _ _) H2 _ (nth_In p 0 Hk')). cbv beta in *. lia.
        -- assert (X : @Refused (list dim * Z) = UB); [apply I3|discriminate]. exists k. split; [lia|]. split; auto. split; auto. intros l Hl. apply (Hf (S l)). lia.
    + split; [discriminate|]. split.
      * split; [discriminate|]. intros ([|k] & Hk & Hneg & Hnn & Hf); cbn [skipn length nth] in *.
        -- destruct (proj1 I3 eq_refl) as (k & Hk' & _ & Hnf & _). exfalso. apply Hnf. apply (Hf (S k)). lia.
        -- assert (X : @UB (list dim * Z) = Refused); [apply I2|discriminate]. exists k. split; [lia|]. split; auto. split; auto. intros l Hl. apply (Hf (S l)). lia.
      * split; auto. intros _. destruct (proj1 I3 eq_refl) as (k & Hk & Hnn & Hnf & Hf). exists (S k). cbn [length nth]. split; [lia|]. split; [auto|]. split; [exact Hnf|].
        intros [|l] Hl; [lia|]. apply Hf. lia.
Qed.

(* The offset of an element of such an array, and those on the way to it, don't overflow. *)
Theorem C55_offset : forall p dv n j, filldimv64 p = Good (dv, n) -> inshape j p ->
  indexer64 dv j = Good (rm p j) /\ adv64 dv 0 j = Some (rm p j) /\ 0 <= rm p j < n.
Proof.
  intros p dv n j E Hj. destruct (proj1 (C55_only p) _ E) as (Hn & Hf).
  destruct (C55_exact p Hn Hf) as (dv' & E' & L & S). rewrite E in E'. inversion E'; subst dv' n. clear E'.
  assert (B : 0 <= rm p j < zprod p) by (apply rm_range; auto).
  split; [|split; auto].
  - unfold indexer64. replace (length dv) with (length p) by (rewrite <- L, map_length; auto). rewrite <- (inshape_length _ _ Hj), Nat.leb_refl.
    enough (G : forall q dv off j, map len dv = q -> (forall k, (k < length q)%nat -> step (nth k dv dim0) = zprod (skipn (Datatypes.S k) q)) -> inshape j q ->
      0 <= off -> off + zprod q <= 2 ^ 63 - 1 -> indexer64_loop dv off j = Good (off + rm q j)).
    { rewrite (G p dv 0 j); auto; try lia. specialize (Hf 0%nat). unfold fits64 in Hf. cbn [skipn] in Hf. lia. }
    clear. induction q as [|n q IH]; intros dv off j L S Hj H0 H1; inversion Hj as [|i n' j' q' Hi Hj']; subst; destruct dv as [|d dv]; try discriminate.
    + cbn. f_equal. lia.
    + cbn [map] in L. inversion L; subst. cbn [indexer64_loop rm zprod] in *. unfold inside.
      destruct (Z.leb_spec 0 i); [|lia]. destruct (Z.ltb_spec i (len d)); [|lia]. cbn [andb orb].
      pose proof (S 0%nat) as S0. cbn [nth skipn length] in S0. rewrite S0 by lia.
      assert (P : 0 < zprod (map len dv)). { pose proof (rm_range _ _ Hj'). lia. }
      assert (Q : i * zprod (map len dv) + zprod (map len dv) <= len d * zprod (map len dv)) by nia.
      rewrite (proj1 (arith64 _)) by (unfold fits64; split; nia). cbn [obind]. rewrite (proj1 (arith64 _)) by (unfold fits64; split; nia).
      rewrite IH; auto; try nia. { f_equal. lia. } intros k Hk. apply (S (Datatypes.S k)). cbn [length]. lia.
  - enough (G : forall q dv off j, map len dv = q -> (forall k, (k < length q)%nat -> step (nth k dv dim0) = zprod (skipn (Datatypes.S k) q)) -> inshape j q ->
      0 <= off -> off + zprod q <= 2 ^ 63 - 1 -> adv64 dv off j = Some (off + rm q j)).
    { rewrite (G p dv 0 j); auto; try lia. specialize (Hf 0%nat). unfold fits64 in Hf. cbn [skipn] in Hf. lia. }
    clear. induction q as [|n q IH]; intros dv off j L S Hj H0 H1; inversion Hj as [|i n' j' q' Hi Hj']; subst; destruct dv as [|d dv]; try discriminate.
    + cbn. f_equal. lia.
    + cbn [map] in L. inversion L; subst. cbn [adv64 rm zprod] in *.
      pose proof (S 0%nat) as S0. cbn [nth skipn length] in S0. rewrite S0 by lia.
      assert (P : 0 < zprod (map len dv)). { pose proof (rm_range _ _ Hj'). lia. }
      assert (Q : i * zprod (map len dv) + zprod (map len dv) <= len d * zprod (map len dv)) by nia.
      rewrite (proj1 (arith64 _)) by (unfold fits64; split; nia). cbn [obind]. rewrite (proj1 (arith64 _)) by (unfold fits64; split; nia). cbn [obind].
      rewrite IH; auto; try nia. { f_equal. lia. } intros k Hk. apply (S (Datatypes.S k)). cbn [length]. lia.
Qed.

(* Any view: an index is accepted on axis k if it's in range or the axis is unbounded, and then the offset is right if none of those on the way overflows. The first index that isn't in range is refused. *)
Definition admits (dv : list dim) (j : list Z) (k : nat) : Prop := 0 <= nth k j 0 < len (nth k dv dim0) \/ len (nth k dv dim0) = UNB.
Definition holds (dv : list dim) (j : list Z) (k : nat) : Prop := fits64 (nth k j 0 * step (nth k dv dim0)) /\ fits64 (place (firstn (S k) dv) j).
Lemma indexer64_from : forall dv j off, (length dv <= length j)%nat ->
  (forall m, (m <= length dv)%nat -> (forall k, (k < m)%nat -> admits dv j k /\ fits64 (nth k j 0 * step (nth k dv dim0)) /\ fits64 (off + place (firstn (S k) dv) j)) ->
    (m = length dv -> indexer64_loop dv off j = Good (off + place dv j)) /\ ((m < length dv)%nat -> ~ admits dv j m -> indexer64_loop dv off j = Refused)).
Proof.
  induction dv as [|d dv IH]; intros j off Hl m Hm H.
  - cbn in Hm. split; [intros _; cbn; f_equal; lia|cbn; lia].
  - destruct j as [|i j]; [cbn in Hl; lia|]. cbn [indexer64_loop]. destruct m as [|m].
    + split; [discriminate|]. intros _ N. unfold admits in N. cbn [nth] in N. unfold inside. destruct (Z.leb_spec 0 i), (Z.ltb_spec i (len d)), (Z.eqb_spec UNB (len d)); cbn [andb orb]; try reflexivity; exfalso; apply N; lia.
    + destruct (H 0%nat ltac:(lia)) as (A & P & Q). unfold admits in A. cbn [nth firstn place] in *. replace (inside i (len d) || (UNB =? len d)) with true by (unfold inside; lia).
      replace (off + (i * step d + match dv with | _ => 0 end)) with (off + i * step d) in Q by (destruct dv; lia). rewrite (proj1 (arith64 _) P). cbn [obind]. rewrite (proj1 (arith64 _) Q).
      destruct (IH j (off + i * step d) ltac:(cbn in Hl; lia) m ltac:(cbn in Hm; lia)) as (IH1 & IH2).
      { intros k Hk. destruct (H (S k) ltac:(lia)) as (A' & P' & Q'). unfold admits in *. cbn [nth firstn place] in *. split; [exact A'|]. split; [exact P'|]. rewrite <- Z.add_assoc. exact Q'. }
      cbn [length]. split.
      * intros E. rewrite IH1 by lia. f_equal. lia.
      * intros E N. apply IH2; [lia|exact N].
Qed.
Theorem C55_index : forall dv j, (length dv <= length j)%nat -> (forall k, (k < length dv)%nat -> admits dv j k /\ holds dv j k) -> indexer64 dv j = Good (place dv j).
Proof.
  intros dv j Hl H. unfold indexer64. apply Nat.leb_le in Hl as Hl'. rewrite Hl'. apply (indexer64_from dv j 0 Hl (length dv)); auto.
Qed.
Theorem C55_index_refused : forall dv j, (length j < length dv)%nat \/ ((length dv <= length j)%nat /\ exists m, (m < length dv)%nat /\ (forall k, (k < m)%nat -> admits dv j k /\ holds dv j k) /\ ~ admits dv j m) -> indexer64 dv j = Refused.
Proof.
  intros dv j H. unfold indexer64. destruct H as [H|(Hl & m & Hm & H & N)].
  - replace (length dv <=? length j)%nat with false by (symmetry; apply Nat.leb_gt; lia). reflexivity.
  - apply Nat.leb_le in Hl as Hl'. rewrite Hl'. apply (indexer64_from dv j 0 Hl m); auto. lia.
Qed.

Example C55_ex : filldimv64 [3; 2 ^ 40; 2 ^ 21] = Good ([Dim 3 (2 ^ 61); Dim (2 ^ 40) (2 ^ 21); Dim (2 ^ 21) 1], 3 * 2 ^ 61) /\
  filldimv64 [4; 2 ^ 40; 2 ^ 21] = UB /\ filldimv64 [2 ^ 40; 2 ^ 40; 0] = Good ([Dim (2 ^ 40) 0; Dim (2 ^ 40) 0; Dim 0 1], 0) /\
  (* an empty array that cannot be had *) filldimv64 [0; 2 ^ 40; 2 ^ 40] = UB /\ filldimv64 [2 ^ 40; 2 ^ 40; -1] = Refused /\
  (* the check comes late *) filldimv64 [-1; 2 ^ 40; 2 ^ 40] = UB /\
  (* a view with an unbounded axis *) indexer64 [Dim UNB 2; Dim 3 (-1)] [-5; 2] = Good (-12) /\ indexer64 [Dim UNB 2; Dim 3 (-1)] [2 ^ 62; 2] = UB /\ indexer64 [Dim UNB 2; Dim 3 (-1)] [2 ^ 61; 3] = Refused.
Proof. vm_compute. auto 10. Qed.
Print Assumptions C55_exact.
Print Assumptions C55_only.
Print Assumptions C55_offset.
Print Assumptions C55_index.
Print Assumptions C55_index_refused.

(* ---- C65: size() of an array that has been made is the number of elements that were reserved ---- *)
(* False: the product is taken in the other direction. *)
Theorem C65_size_refuted : exists p dv, filldimv64 p = Good (dv, zprod p) /\ dimv_size64 dv = None.
Proof. exists [2 ^ 40; 2 ^ 40; 0], [Dim (2 ^ 40) 0; Dim (2 ^ 40) 0; Dim 0 1]. split; vm_compute; reflexivity. Qed.

Lemma size64_loop : forall dv s, nonneg (map len dv) -> (forall k, (k <= length dv)%nat -> fits64 (s * zprod (firstn k (map len dv)))) ->
  dimv_size64_loop dv s = Some (s * zprod (map len dv)).
Proof.
  induction dv as [|d dv IH]; intros s Hn F; cbn [map] in *.
  - cbn. f_equal. lia.
  - inversion Hn; subst. cbn [dimv_size64_loop zprod]. destruct (Z.ltb_spec (len d) 0); [lia|].
    pose proof (F 1%nat) as F1. cbn [firstn zprod length] in F1. rewrite Z.mul_1_r in F1. rewrite (proj1 (arith64 _)) by (apply F1; lia). cbn [obind].
    rewrite IH; auto. { f_equal. ring. } intros k Hk. specialize (F (S k)). cbn [firstn zprod length] in F. rewrite Z.mul_assoc in F. apply F. lia.
Qed.
Theorem C65_size_partial : forall p dv n, filldimv64 p = Good (dv, n) ->
  Forall (fun l => 0 < l) p \/ (forall k, fits64 (zprod (firstn k p))) -> dimv_size64 dv = Some n /\ n = zprod p.
Proof.
  intros p dv n E H. destruct (proj1 (C55_only p) _ E) as (Hn & Hf).
  destruct (C55_exact p Hn Hf) as (dv' & E' & L & _). rewrite E in E'. inversion E'; subst dv' n. split; [|reflexivity].
  unfold dimv_size64. rewrite size64_loop; [rewrite L; f_equal; lia|rewrite L; auto|].
  intros k Hk. rewrite L, Z.mul_1_l. destruct H as [H|H]; [|apply H]. specialize (Hf 0%nat). cbn [skipn] in Hf.
  assert (P : forall l, Forall (fun l => 0 < l) l -> 0 < zprod l). { induction 1; cbn [zprod]; nia. }
  assert (App : forall a b, zprod (a ++ b) = zprod a * zprod b). { induction a; intros; cbn [app zprod]; [lia|rewrite IHa; ring]. }
  rewrite <- (firstn_skipn k p) in H, Hf. apply Forall_app in H as (Ha & Hb). rewrite App in Hf. apply P in Ha, Hb. unfold fits64 in *. nia.
Qed.
(* a view with an unbounded axis: what comes after the axis isn't used *)
Theorem C65_unbounded : forall dv d rest, nonneg (map len dv) -> (forall k, (k <= length dv)%nat -> fits64 (zprod (firstn k (map len dv)))) -> len d < 0 -> dimv_size64 (dv ++ d :: rest) = Some (len d).
Proof.
  intros dv d rest Hn F Hd. unfold dimv_size64. assert (G : forall s, (forall k, (k <= length dv)%nat -> fits64 (s * zprod (firstn k (map len dv)))) -> dimv_size64_loop (dv ++ d :: rest) s = Some (len d)).
  2: { apply G. intros k Hk. rewrite Z.mul_1_l. auto. }
  clear F. revert Hn. induction dv as [|e dv IH]; intros Hn s F; cbn [app dimv_size64_loop].
  - destruct (Z.ltb_spec (len d) 0); [reflexivity|lia].
  - cbn [map] in *. inversion Hn; subst. destruct (Z.ltb_spec (len e) 0); [lia|].
    pose proof (F 1%nat) as F1. cbn [firstn zprod length] in F1. rewrite Z.mul_1_r in F1. rewrite (proj1 (arith64 _)) by (apply F1; lia). cbn [obind].
    apply IH; auto. intros k Hk. specialize (F (S k)). cbn [firstn zprod length] in F. rewrite Z.mul_assoc in F. apply F. lia.
Qed.
Example C65_unbounded_ex : dimv_size64 [Dim 3 0; Dim UNB 1; Dim (2 ^ 62) 0; Dim (2 ^ 62) 0] = Some UNB.
Proof. vm_compute. reflexivity. Qed.
Print Assumptions C65_unbounded.
Example C65_ex : exists dv, filldimv64 [3; 2 ^ 40; 2 ^ 21] = Good (dv, 3 * 2 ^ 61) /\ dimv_size64 dv = Some (3 * 2 ^ 61).
Proof. exists [Dim 3 (2 ^ 61); Dim (2 ^ 40) (2 ^ 21); Dim (2 ^ 21) 1]. split; vm_compute; reflexivity. Qed.
Print Assumptions C65_size_refuted.
Print Assumptions C65_size_partial.
