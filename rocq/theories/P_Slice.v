(* Properties of subscripts: C17 (last part), C23, C24, C25, C38, C62. *)
From Coq Require Import ZArith List Lia Bool Arith.
From Verif Require Import Spec M_Base M_Expr L_Spec Spec_Expr M_View L_View Spec_View P_View M_Slice Spec_Slice L_Slice.
Import ListNotations.
Open Scope Z_scope.

(* a 3 4 5 array, packed *)
Definition a345 : view := Vw [Dim 3 20; Dim 4 5; Dim 5 1] 100.

(* ---- C23 ---- *)

Theorem C23_select : forall a subs b, from a subs = Good b -> Forall one_axis subs -> fits (vrank a) subs ->
  selects_shape subs (vshape a) (vshape b) /\
  (forall j, length j = vrank b -> exists i, selects subs (vshape a) j i) /\
  (forall j i, selects subs (vshape a) j i -> length j = vrank b /\ length i = vrank a /\ vplace b j = vplace a i).
Proof.
  intros a subs b E O F.
  assert (R : (length (filter is_rest subs) <= 1)%nat).
  { unfold from in E. destruct (Nat.ltb_spec 1 (length (filter is_rest subs))); [discriminate|lia]. }
  rewrite (from_fromb a subs O F R) in E.
  destruct (fromb true subs (vdv a) [] (vcp a)) as [[dv pl]| |] eqn:Eb; try discriminate. cbn in E; injection E as <-.
  destruct (fromb_spec _ _ _ _ _ _ Eb O F) as (dv' & -> & Sh & Ex & Pl & _). cbn [app] in *.
  unfold vshape, vrank, vplace; cbn [vdv vcp]. split; [exact Sh|]. split; [exact Ex|].
  intros j i S; destruct (Pl j i S) as (? & ? & ?); auto.
Qed.

Theorem C23_accepted : forall a subs, Forall one_axis subs -> fits (vrank a) subs -> one_rest subs ->
  (legal subs (vdv a) -> exists b, from a subs = Good b) /\ (~ legal subs (vdv a) -> from a subs = Refused).
Proof.
  intros a subs O F R. apply one_rest_count in R. rewrite (from_fromb a subs O F R).
  destruct (fromb_legal subs (vdv a) [] (vcp a) O F) as [H1 H2]. split; intros L.
  - destruct (H1 L) as ([dv pl] & ->). eexists; reflexivity.
  - rewrite (H2 L). reflexivity.
Qed.

Theorem C23_two_rests : forall a l1 l2 l3, from a (l1 ++ SDots None :: l2 ++ SDots None :: l3) = Refused.
Proof.
  intros. unfold from. set (l := _ ++ _). destruct (Nat.ltb_spec 1 (length (filter is_rest l))) as [|H]; auto.
  apply one_rest_count in H. exfalso; eapply H; reflexivity.
Qed.

Theorem C23_rest_omitted : forall a subs, Forall one_axis subs -> fits (vrank a) subs -> one_rest (subs ++ [SDots None]) ->
  from a (subs ++ [SDots None]) = from a subs.
Proof.
  intros a subs O F R.
  assert (T : forall l, total takes (l ++ [SDots None]) = total takes l) by (induction l; cbn; lia).
  assert (R' : one_rest subs).
  { intros l1 l2 l3 ->. eapply (R l1 l2 (l3 ++ [SDots None])). rewrite <- app_assoc. cbn. rewrite <- app_assoc. reflexivity. }
  rewrite (from_fromb a (subs ++ [SDots None])), (from_fromb a subs); auto; try (apply one_rest_count; assumption).
  - f_equal. generalize (vcp a) as pl, (@nil dim) as bv. revert F. unfold vrank. generalize (vdv a) as av.
    assert (NR : existsb is_rest subs = false).
    { destruct (existsb is_rest subs) eqn:E; auto. apply existsb_exists in E as (s & Hs & E).
      destruct s as [| | |[]| |]; try discriminate. apply in_split in Hs as (l1 & l2 & ->).
      exfalso. eapply (R l1 l2 []). rewrite <- app_assoc. reflexivity. }
    clear R R' a. induction subs as [|s subs IH]; intros av F bv pl.
    + cbn [app fromb andb]. change (sumn (map fsrc [])) with 0%nat. rewrite Nat.sub_0_r, Nat.ltb_irrefl, skipn_all, firstn_all, app_nil_r. reflexivity.
    + inversion O; subst. cbn [existsb] in NR. apply orb_false_iff in NR as [N1 N2]. unfold fits in F; cbn [total] in F.
      cbn [app fromb]. destruct s as [f|o c t|o dv|k|n|]; cbn [takes] in F.
      * destruct av as [|d av]; auto. cbn [length] in F. destruct (f (len d)); auto. destruct (inside z _ || _); auto. apply IH; auto; unfold fits; lia.
      * destruct av as [|d av]; auto. cbn [length] in F. destruct (o (len d)), (c (len d)), (t (len d)); auto. destruct (z0 <? 0); auto.
        destruct (seq_ok _ _ _); auto. apply IH; auto; unfold fits; lia.
      * contradiction.
      * destruct k as [n|]; [|discriminate]. destruct (_ && _); auto. apply IH; auto. unfold fits. rewrite skipn_length; lia.
      * apply IH; auto.
      * destruct av as [|d av]; auto. cbn [length] in F. apply IH; auto; unfold fits; lia.
  - apply Forall_app; split; auto. constructor; cbn; auto.
  - unfold fits. rewrite T. exact F.
Qed.

(* a(2, dots<>, insert<1>, iota(3, 4, -2)): axis 1 is kept, a new one, and 4 2 0 on axis 2 *)
Example C23_ex : let s := [cidx 2; SDots None; SInsert 1; ciota 3 4 (-2)] in
  from a345 s = Good (Vw [Dim 4 5; Dim UNB 0; Dim 3 (-2)] 144) /\ Forall one_axis s /\ fits (vrank a345) s /\ one_rest s /\
  selects s (vshape a345) [3; 7; 1] [2; 3; 2] /\ vplace (Vw [Dim 4 5; Dim UNB 0; Dim 3 (-2)] 144) [3; 7; 1] = vplace a345 [2; 3; 2].
Proof.
  cbn -[UNB]. split; [reflexivity|]. split; [repeat constructor|]. split; [unfold fits, vrank; cbn; lia|]. split; [apply one_rest_count; cbn; lia|].
  split; [|reflexivity].
  econstructor; [reflexivity|]. apply (sel_rest _ [4] [5] [3] [7; 1] [2]); try reflexivity.
  apply (sel_insert 1 _ _ [7] [1]); [reflexivity|].
  apply (sel_seq _ _ _ 5 4 (-2) 1 [] [] [] []); try reflexivity. constructor; reflexivity.
Qed.

(* ---- C24 ---- *)

Theorem C24_inside : forall a subs b, from a subs = Good b -> Forall one_axis subs -> fits (vrank a) subs ->
  forall j, inrange j (vshape b) -> exists i, inrange i (vshape a) /\ vplace b j = vplace a i.
Proof.
  intros a subs b E O F j I.
  assert (R : (length (filter is_rest subs) <= 1)%nat).
  { unfold from in E. destruct (Nat.ltb_spec 1 (length (filter is_rest subs))); [discriminate|lia]. }
  rewrite (from_fromb a subs O F R) in E.
  destruct (fromb true subs (vdv a) [] (vcp a)) as [[dv pl]| |] eqn:Eb; try discriminate. cbn in E; injection E as <-.
  destruct (fromb_spec _ _ _ _ _ _ Eb O F) as (dv' & -> & Sh & Ex & Pl & In). cbn [app] in *.
  assert (L : length j = length dv').
  { unfold vshape in I; cbn [vdv] in I. rewrite <- (map_length len dv'). clear - I; induction I; cbn; congruence. }
  destruct (Ex j L) as (i & S). exists i. unfold vshape, vplace in *; cbn [vdv vcp] in *. split.
  - eapply In; eauto.
  - destruct (Pl _ _ S) as (_ & _ & ->). reflexivity.
Qed.
(* with bounded lengths *)
Theorem C24_inside_bounded : forall a subs b, from a subs = Good b -> Forall one_axis subs -> fits (vrank a) subs -> Forall (fun n => n <> UNB) (vshape a) ->
  forall j, inrange j (vshape b) -> exists i, inshape i (vshape a) /\ vplace b j = vplace a i.
Proof.
  intros a subs b E O F B j I. destruct (C24_inside a subs b E O F j I) as (i & Ii & P). exists i; split; auto.
  clear - Ii B. unfold inrange, inshape in *. induction Ii; inversion B; subst; constructor; auto. tauto.
Qed.
Example C24_ex : from a345 [ciota 2 3 (-1)] = Refused /\ from a345 [ciota 3 2 (-1); cidx 3; ciota 2 0 4] = Good (Vw [Dim 3 (-20); Dim 2 4] 155) /\
  vplace (Vw [Dim 3 (-20); Dim 2 4] 155) [2; 1] = vplace a345 [0; 3; 4].
Proof. repeat split. Qed.

(* ---- C17: reverse is a subscript ---- *)

Theorem C17_subscript : forall a k, (k < vrank a)%nat -> let n := nth k (vshape a) 0 in 0 < n ->
  reverse a (Z.of_nat k) = from a [SDots (Some k); ciota n (n-1) (-1)].
Proof.
  intros a k Hk n Hn.
  assert (En : n = len (nth k (vdv a) dim0)) by (unfold n, vshape; rewrite (nth_indep _ 0 (len dim0)) by (rewrite map_length; exact Hk); apply map_nth).
  rewrite from_fromb; [|repeat constructor|unfold fits; cbn; lia|cbn; lia].
  unfold reverse. rewrite (proj2 (inside_iff _ _)) by lia. rewrite Nat2Z.id.
  set (d := nth k (vdv a) dim0) in *. rewrite <- En.
  destruct (Z.eqb_spec UNB n) as [H|_]; [unfold UNB in H; lia|]. destruct (Z.eqb_spec 0 n); [lia|].
  cbn [fromb andb]. fold (vrank a). destruct (Nat.ltb_spec (vrank a) k); [lia|].
  assert (Es : skipn k (vdv a) = d :: skipn (S k) (vdv a)).
  { unfold d. revert Hk. unfold vrank. generalize (vdv a) as l. clear. induction k; intros [|x l]; cbn; intros; try lia; auto. apply IHk; lia. }
  rewrite Es. unfold ciota; cbn [fromb andb]. destruct (Z.ltb_spec n 0); [lia|]. rewrite <- En.
  rewrite (proj2 (seq_ok_iff n (n-1) n (-1) ltac:(lia))) by (intros; lia).
  cbn [app rbind fst snd]. f_equal. f_equal.
  - rewrite <- app_assoc. cbn [app]. rewrite (Z.mul_comm (-1) (step d)).
    generalize (Dim n (step d * -1)) as e. clear - Hk. revert Hk. unfold vrank. generalize (vdv a) as l. intros l; revert k. induction l as [|x l IH]; intros [|k] Hk e; cbn in *; try lia; auto. f_equal. apply IH; lia.
  - ring.
Qed.
Example C17_subscript_ex : reverse a345 1 = from a345 [SDots (Some 1%nat); ciota 4 3 (-1)] /\ from a345 [all; ciota 4 3 (-1)] = Good (Vw [Dim 3 20; Dim 4 (-5); Dim 5 1] 115).
Proof. split; reflexivity. Qed.

(* ---- C25 ---- *)

(* What the code does: the start is added once for each axis of the sequence. *)
Lemma fold_start : forall o t (dv : list dim) pl, fold_left (fun pl (q : dim) => pl + o * t) dv pl = pl + Z.of_nat (length dv) * o * t.
Proof. induction dv; intros; cbn [fold_left length]; [lia|]. rewrite IHdv. rewrite Nat2Z.inj_succ. lia. Qed.

Lemma from_seqn : forall a pre d post o x dv, vdv a = pre ++ d :: post -> dv <> [] -> o (len d) = Some x ->
  from a [SDots (Some (length pre)); SSeqN o dv] =
  if forallb (seq_ok (len d) x) dv then Good (Vw (pre ++ map (fun q => Dim (len q) (step q * step d)) dv ++ post) (vcp a + Z.of_nat (length dv) * x * step d)) else Refused.
Proof.
  intros a pre d post o x dv Ea Hdv Eo. unfold from. cbn [filter is_rest length].
  destruct (1 <? 0)%nat eqn:X; [discriminate|]. clear X.
  assert (Lr : vrank a = (length pre + S (length post))%nat) by (unfold vrank; rewrite Ea, app_length; reflexivity).
  assert (0 < length dv)%nat by (destruct dv; [congruence|cbn; lia]).
  unfold frombrank, sumn; cbn [map fold_right fsrc fdst]. rewrite Lr.
  destruct (_ <? 0) eqn:X; [apply Z.ltb_lt in X; lia|]. clear X. destruct (_ =? 0) eqn:X; [apply Z.eqb_eq in X; lia|]. clear X.
  cbn [fromb andb]. fold (vrank a). rewrite Lr. destruct (Nat.ltb_spec (length pre + S (length post)) (length pre)); [lia|].
  rewrite Ea, skipn_app, Nat.sub_diag, skipn_all. cbn [app skipn]. rewrite Eo.
  destruct (forallb _ dv); [|reflexivity]. cbn [rbind fst snd]. rewrite fold_start.
  rewrite firstn_app, Nat.sub_diag, firstn_all, firstn_O, app_nil_r, <- app_assoc. reflexivity.
Qed.

Lemma seqn_place : forall dv t j, place (map (fun q => Dim (len q) (step q * t)) dv) j = place dv j * t.
Proof. intros. apply place_scale. Qed.

(* Right if the sequence starts at 0 or has one axis. The positions are not restricted, cf C25_range_refuted. *)
Theorem C25_partial : forall a pre d post o x dv b, vdv a = pre ++ d :: post -> dv <> [] -> o (len d) = Some x ->
  from a [SDots (Some (length pre)); SSeqN o dv] = Good b -> x = 0 \/ length dv = 1%nat ->
  vshape b = map len pre ++ map len dv ++ map len post /\
  forall j1 j2 j3, length j1 = length pre -> length j2 = length dv -> vplace b (j1 ++ j2 ++ j3) = vplace a (j1 ++ (x + place dv j2) :: j3).
Proof.
  intros a pre d post o x dv b Ea Hdv Eo E Hx. rewrite (from_seqn a pre d post o x dv Ea Hdv Eo) in E.
  destruct (forallb _ dv); [|discriminate]. injection E as <-. unfold vshape, vplace; cbn [vdv vcp]. split.
  - rewrite !map_app, map_map. reflexivity.
  - intros j1 j2 j3 L1 L2. rewrite Ea, !place_app by (rewrite ?map_length; auto). rewrite seqn_place. cbn [place].
    destruct Hx as [->|Hx]; [|rewrite Hx]; ring.
Qed.
(* a sequence with one axis is refused if a position is out of range, and accepted if none is *)
Theorem C25_one_axis_partial : forall a pre d post o x q, vdv a = pre ++ d :: post -> o (len d) = Some x -> 0 <= len q ->
  (exists b, from a [SDots (Some (length pre)); SSeqN o [q]] = Good b) <-> (forall j, inshape [j] [len q] -> 0 <= x + place [q] [j] < len d).
Proof.
  intros a pre d post o x [n s] Ea Eo Hn. cbn [len] in *. rewrite (from_seqn a pre d post o x [Dim n s] Ea ltac:(discriminate) Eo). cbn [forallb]. rewrite andb_true_r.
  pose proof (seq_ok_iff (len d) x n s Hn) as W. split.
  - intros (b & E) j J. inversion J; subst. destruct (seq_ok (len d) x {| len := n; step := s |}) eqn:S; [|discriminate E].
    cbn [place step]. rewrite Z.add_0_r. apply W; auto.
  - intros H. rewrite (proj2 W); [eexists; reflexivity|]. intros j J. specialize (H j ltac:(constructor; auto)). cbn [place step] in H. rewrite Z.add_0_r in H. exact H.
Qed.
(* What it is for any sequence: the start counts once for each axis, and the check is on each axis by itself. *)
Theorem C25_places_partial : forall a pre d post o x dv, vdv a = pre ++ d :: post -> dv <> [] -> o (len d) = Some x -> Forall (fun q => 0 <= len q) dv ->
  (Forall (fun q => forall j, 0 <= j < len q -> 0 <= x + j * step q < len d) dv /\
   exists b, from a [SDots (Some (length pre)); SSeqN o dv] = Good b /\ vshape b = map len pre ++ map len dv ++ map len post /\
     forall j1 j2 j3, length j1 = length pre -> length j2 = length dv ->
       vplace b (j1 ++ j2 ++ j3) = vplace a (j1 ++ (Z.of_nat (length dv) * x + place dv j2) :: j3)) \/
  (~ Forall (fun q => forall j, 0 <= j < len q -> 0 <= x + j * step q < len d) dv /\ from a [SDots (Some (length pre)); SSeqN o dv] = Refused).
Proof.
  intros a pre d post o x dv Ea Hdv Eo Hl. rewrite (from_seqn a pre d post o x dv Ea Hdv Eo).
  assert (W : forallb (seq_ok (len d) x) dv = true <-> Forall (fun q => forall j, 0 <= j < len q -> 0 <= x + j * step q < len d) dv).
  { clear - Hl. induction Hl as [|[n s] dv Hn _ IH]; cbn [forallb]; [split; auto|]. rewrite andb_true_iff, (seq_ok_iff (len d) x n s Hn), IH. split.
    - intros [A B]; constructor; auto.
    - intros H; inversion H; auto. }
  destruct (forallb (seq_ok (len d) x) dv).
  - left. split; [apply W; reflexivity|]. eexists; split; [reflexivity|]. unfold vshape, vplace; cbn [vdv vcp]. split.
    + rewrite !map_app, map_map. reflexivity.
    + intros j1 j2 j3 L1 L2. rewrite Ea, !place_app by (rewrite ?map_length; auto). rewrite seqn_place. cbn [place]. ring.
  - right. split; [|reflexivity]. intros H. apply W in H. discriminate.
Qed.
Example C25_ex : from (Vw [Dim 2 10; Dim 10 1] 0) [all; SSeqN (fun _ => Some 0) [Dim 2 5; Dim 3 2]] = Good (Vw [Dim 2 10; Dim 2 5; Dim 3 2] 0) /\
  vplace (Vw [Dim 2 10; Dim 2 5; Dim 3 2] 0) [1; 1; 2] = vplace (Vw [Dim 2 10; Dim 10 1] 0) [1; 9].
Proof. split; reflexivity. Qed.

(* v(iota({2, 2}, 1, {3, 1})) on a vector of length 10 should select 1 2; 4 5, but it's 2 3; 5 6. *)
Theorem C25_start_refuted : exists a n s o dv b j, vdv a = [Dim n s] /\ from a [SSeqN (fun _ => Some o) dv] = Good b /\ inshape j (map len dv) /\
  (forall j', inshape j' (map len dv) -> 0 <= o + place dv j' < n) /\
  vplace b j <> vplace a [o + place dv j].
Proof.
  exists (Vw [Dim 10 1] 0), 10, 1, 1, [Dim 2 3; Dim 2 1], (Vw [Dim 2 3; Dim 2 1] 2), [0; 0].
  split; [reflexivity|]. split; [reflexivity|]. split; [repeat constructor; cbn; lia|]. split; [|discriminate].
  intros j J; cbn in J. inversion J as [|x ? j' ? H1 J']; subst. inversion J' as [|y ? j'' ? H2 J'']; subst. inversion J''; subst. cbn [place step]. lia.
Qed.
(* v(iota({2, 2}, 0, {2, 2})) on a vector of length 3 is accepted, and reaches position 4. *)
Theorem C25_range_refuted : exists a n s dv b j, vdv a = [Dim n s] /\ from a [SSeqN (fun _ => Some 0) dv] = Good b /\ inshape j (vshape b) /\
  vplace b j = vplace a [4] /\ n = 3.
Proof.
  exists (Vw [Dim 3 1] 0), 3, 1, [Dim 2 2; Dim 2 2], (Vw [Dim 2 2; Dim 2 2] 0), [1; 1].
  repeat split; repeat constructor; cbn; lia.
Qed.

(* ---- C62 ---- *)

(* With indices only, too many are refused. *)
Theorem C62_indices_partial : forall a fs, (vrank a < length fs)%nat -> from a (map SIdx fs) = Refused.
Proof.
  intros a fs H. unfold from.
  assert (R : filter is_rest (map SIdx fs) = []) by (clear H; induction fs; cbn; auto). rewrite R. cbn [length].
  destruct (1 <? 0)%nat eqn:X; [discriminate|]. clear X.
  assert (S1 : sumn (map fsrc (map SIdx fs)) = length fs) by (clear; unfold sumn; induction fs; cbn; auto).
  assert (S2 : sumn (map fdst (map SIdx fs)) = 0%nat) by (clear; unfold sumn; induction fs; cbn; auto).
  unfold frombrank. rewrite S1, S2. destruct (_ <? 0) eqn:X; [reflexivity|]. apply Z.ltb_ge in X. lia.
Qed.
Example C62_ex : from a345 (map SIdx [fun _ => Some 0; fun _ => Some 0; fun _ => Some 0; fun _ => Some 0]) = Refused.
Proof. reflexivity. Qed.
(* Any subscripts: too many are refused if the rank of the result would be negative. *)
Theorem C62_rank_partial : forall a subs, (vrank a + total gives subs < total takes subs)%nat -> from a subs = Refused.
Proof.
  intros a subs H. unfold from. destruct (1 <? _)%nat; [reflexivity|]. unfold frombrank. rewrite total_fsrc.
  assert (G : sumn (map fdst subs) = total gives subs) by (clear; unfold sumn; induction subs as [|[]]; cbn; auto; destruct n; cbn; auto).
  rewrite G. destruct (_ <? 0) eqn:X; [reflexivity|]. apply Z.ltb_ge in X. lia.
Qed.
Lemma fromb_fits : forall subs av bv pl r, fromb true subs av bv pl = Good r -> fits (length av) subs.
Proof.
  unfold fits. induction subs as [|s subs IH]; intros av bv pl r E; cbn [total]; [lia|].
  destruct s as [f|o c t|o dv|k|n|]; cbn [fromb] in E; cbn [takes].
  - destruct av as [|d av]; [discriminate|]. destruct (f (len d)); [|discriminate]. destruct (_ || _); [|discriminate]. apply IH in E. cbn [length]; lia.
  - destruct av as [|d av]; [discriminate|]. destruct (o (len d)), (c (len d)), (t (len d)); try discriminate. destruct (_ <? _); [discriminate|]. destruct (seq_ok _ _ _); [|discriminate].
    apply IH in E. cbn [length]; lia.
  - destruct av as [|d av]; [discriminate|]. destruct (o (len d)); [|discriminate]. destruct (forallb _ _); [|discriminate]. apply IH in E. cbn [length]; lia.
  - cbn [andb] in E. destruct (Nat.ltb_spec (length av) (match k with Some n => n | None => (length av - sumn (map fsrc subs))%nat end)); [discriminate|].
    apply IH in E. rewrite skipn_length in E. destruct k; lia.
  - apply IH in E. exact E.
  - destruct av as [|d av]; [discriminate|]. apply IH in E. cbn [length]; lia.
Qed.
(* Any subscripts: too many are only accepted in place of a result of rank 0. *)
Theorem C62_accepted_partial : forall a subs b, ~ fits (vrank a) subs -> from a subs = Good b ->
  vshape b = [] /\ total takes subs = (vrank a + total gives subs)%nat.
Proof.
  intros a subs b N E. unfold from in E. destruct (1 <? _)%nat; [discriminate|]. destruct (_ <? 0); [discriminate|].
  destruct (Z.eqb_spec (frombrank a subs) 0) as [Z0|Z0].
  - destruct (fromb false subs (vdv a) [] (vcp a)); [|discriminate|discriminate]. injection E as <-. split; [reflexivity|].
    unfold frombrank in Z0. rewrite total_fsrc in Z0.
    assert (G : sumn (map fdst subs) = total gives subs) by (clear; unfold sumn; induction subs as [|[]]; cbn; auto; destruct n; cbn; auto).
    rewrite G in Z0. lia.
  - destruct (fromb true subs (vdv a) [] (vcp a)) eqn:F; [|discriminate|discriminate]. apply fromb_fits in F. contradiction.
Qed.
Example C62_accepted_ex : ~ fits (vrank (Vw [Dim 3 1] 0)) [cidx 1; all] /\ from (Vw [Dim 3 1] 0) [cidx 1; all] = Good (Vw [] 1).
Proof. split; [unfold fits; cbn; lia|reflexivity]. Qed.
(* v(0, iota(2)) reads beyond the axes of v; v(0, all) is accepted. *)
Theorem C62_too_many_refuted :
  (exists a subs, ~ fits (vrank a) subs /\ Forall one_axis subs /\ from a subs = UB) /\
  (exists a subs b, ~ fits (vrank a) subs /\ Forall one_axis subs /\ from a subs = Good b).
Proof.
  split.
  - exists (Vw [Dim 3 1] 0), [cidx 0; ciota 2 0 1]. split; [unfold fits; cbn; lia|]. split; [repeat constructor|reflexivity].
  - exists (Vw [Dim 3 1] 0), [cidx 0; all], (Vw [] 0). split; [unfold fits; cbn; lia|]. split; [repeat constructor|reflexivity].
Qed.

(* ---- C38 ---- *)

Theorem C38_replaced : forall e ln e', wlen ln e = Some e' -> len_free e' /\ (forall ln' j, meaning ln' e' j = meaning ln e j) /\ (forall ln', seq_len ln' e' = seq_len ln e).
Proof. exact wlen_spec. Qed.

Theorem C38_without_len : forall e ln, len_free e -> wlen ln e = Some e.
Proof. intros e ln H. apply has_len_iff in H. destruct e; cbn [wlen]; rewrite H; reflexivity. Qed.

Theorem C38_defined : forall e ln, sound_seqs ln e -> exists e', wlen ln e = Some e'.
Proof.
  assert (W : forall ln t, Forall (fun e => forall ln, sound_seqs ln e -> exists e', wlen ln e = Some e') t ->
    (fix go (t : list lx) : Prop := match t with [] => True | a::t' => sound_seqs ln a /\ go t' end) t -> exists t',
    (fix go (t : list lx) : option (list lx) := match t with [] => Some [] | a :: t' => match wlen ln a with Some x => match go t' with Some r => Some (x :: r) | None => None end | None => None end end) t = Some t').
  { induction 1 as [|a t Ha _ IH]; [eexists; reflexivity|]. intros [S1 S2]. destruct (Ha _ S1) as (a' & ->), (IH S2) as (t' & ->). eexists; reflexivity. }
  induction e using lx_ind2; intros ln S.
  - eexists; reflexivity.
  - eexists; reflexivity.
  - eexists; reflexivity.
  - cbn [wlen]. destruct (has_len _); [|eexists; reflexivity]. destruct (W ln t H S) as (t' & ->). eexists; reflexivity.
  - cbn [wlen]. destruct (has_len _); [|eexists; reflexivity]. destruct (W ln t H S) as (t' & ->). eexists; reflexivity.
  - cbn [wlen]. destruct (has_len _); [|eexists; reflexivity]. destruct S as (S1 & S2 & S3 & M1 & M3 & m & M2 & Hm).
    assert (V : forall e, (forall ln, sound_seqs ln e -> exists e', wlen ln e = Some e') -> sound_seqs ln e -> match wlen ln e with Some e' => lat e' [] | None => None end = meaning ln e []).
    { intros e He Se. destruct (He ln Se) as (e' & E). rewrite E. destruct (wlen_spec _ _ _ E) as (F & M & _). rewrite (lat_meaning _ ln _ F). apply M. }
    rewrite (V e1), (V e2), (V e3) by auto. rewrite M2. destruct (meaning ln e1 []); [|congruence]. destruct (meaning ln e3 []); [|congruence].
    rewrite (proj2 (Z.leb_le 0 m) Hm), orb_true_r. eexists; reflexivity.
Qed.

(* The integers in a subscript are as if len were the length of the axis. *)
Theorem C38_value : forall e la, sound_seqs la e -> lval e la = meaning la e [].
Proof.
  intros e la S. unfold lval. destruct (C38_defined e la S) as (e' & E). rewrite E. destruct (wlen_spec _ _ _ E) as (F & M & _).
  rewrite (lat_meaning _ la _ F). apply M.
Qed.

Lemma fromb_change : forall dobv s1 x y s2 av bv pl d, fits (length av) (s1 ++ x :: s2) -> takes x = 1%nat -> takes y = 1%nat ->
  nth_error av (axis_for s1 (x :: s2) (length av)) = Some d ->
  (forall post bv pl, fromb dobv (x :: s2) (d :: post) bv pl = fromb dobv (y :: s2) (d :: post) bv pl) ->
  fromb dobv (s1 ++ x :: s2) av bv pl = fromb dobv (s1 ++ y :: s2) av bv pl.
Proof.
  intros dobv s1 x y s2 av bv pl d F Tx Ty N H.
  assert (TT : forall s1, total takes (s1 ++ x :: s2) = total takes (s1 ++ y :: s2)).
  { clear - Tx Ty. induction s1; cbn [app total]; [rewrite Tx, Ty; reflexivity|]. rewrite IHs1; reflexivity. }
  assert (TA : forall s1 s2, total takes (s1 ++ s2) = (total takes s1 + total takes s2)%nat).
  { clear. induction s1; intros; cbn [app total]; [reflexivity|]. rewrite IHs1; lia. }
  revert av bv pl F N. induction s1 as [|s s1 IH]; intros av bv pl F N.
  - cbn [app]. unfold axis_for in N; cbn in N. destruct av as [|d' av]; [discriminate|]. injection N as <-. apply H.
  - unfold fits in F; cbn [app total] in F. unfold axis_for in N; cbn [existsb total] in N.
    assert (Step : forall m, (m <= length av)%nat -> fits (length (skipn m av)) (s1 ++ x :: s2) ->
      (is_rest s = false -> m = takes s) -> (is_rest s = true -> length (skipn m av) = total takes (s1 ++ x :: s2)) ->
      nth_error (skipn m av) (axis_for s1 (x :: s2) (length (skipn m av))) = Some d).
    { intros m Hm Fm A B.
      assert (NS : forall (l : list dim) k m, nth_error (skipn m l) k = nth_error l (m + k)).
      { clear. intros l k m; revert l; induction m; intros [|z l]; cbn; auto. destruct k; reflexivity. }
      rewrite NS. rewrite <- N. f_equal. unfold fits in Fm. rewrite skipn_length in *. unfold axis_for. rewrite TA in *. cbn [total] in *.
      destruct (is_rest s) eqn:Rs; cbn [orb].
      - specialize (B eq_refl). destruct (existsb is_rest s1); lia.
      - specialize (A eq_refl). destruct (existsb is_rest s1); lia. }
    destruct s as [f|o c t|o dv|k|n|]; cbn [app fromb]; cbn [is_rest takes] in F, Step, N.
    + destruct av as [|d' av]; auto. cbn [length] in *. destruct (f (len d')); auto. destruct (inside _ _ || _); auto.
      assert (fits (length av) (s1 ++ x :: s2)) by (unfold fits; lia).
      apply IH; auto. apply (Step 1%nat); auto; try lia; try discriminate.
    + destruct av as [|d' av]; auto. cbn [length] in *. destruct (o (len d')), (c (len d')), (t (len d')); auto. destruct (_ <? _); auto. destruct (seq_ok _ _ _); auto.
      assert (fits (length av) (s1 ++ x :: s2)) by (unfold fits; lia).
      apply IH; auto. apply (Step 1%nat); auto; try lia; try discriminate.
    + destruct av as [|d' av]; auto. cbn [length] in *. destruct (o (len d')); auto. destruct (forallb _ _); auto.
      assert (fits (length av) (s1 ++ x :: s2)) by (unfold fits; lia).
      apply IH; auto. apply (Step 1%nat); auto; try lia; try discriminate.
    + rewrite !total_fsrc. rewrite <- TT.
      set (n := match k with Some n => n | None => (length av - total takes (s1 ++ x :: s2))%nat end).
      assert (n <= length av)%nat by (unfold n; destruct k; lia).
      destruct (_ && _); auto.
      assert (fits (length (skipn n av)) (s1 ++ x :: s2)) by (unfold fits; rewrite skipn_length; unfold n; destruct k; lia).
      apply IH; auto. apply Step; auto; unfold n; destruct k; try discriminate; auto.
      intros _. rewrite skipn_length. lia.
    + assert (fits (length av) (s1 ++ x :: s2)) by (unfold fits; lia).
      apply IH; auto.
    + destruct av as [|d' av]; cbn [length] in *; [lia|].
      assert (fits (length av) (s1 ++ x :: s2)) by (unfold fits; lia).
      apply IH; auto. apply (Step 1%nat); auto; try lia; try discriminate.
Qed.

Lemma from_change : forall a s1 x y s2 d, fits (vrank a) (s1 ++ x :: s2) -> takes x = 1%nat -> takes y = 1%nat -> fdst x = fdst y ->
  nth_error (vdv a) (axis_for s1 (x :: s2) (vrank a)) = Some d ->
  (forall dobv post bv pl, fromb dobv (x :: s2) (d :: post) bv pl = fromb dobv (y :: s2) (d :: post) bv pl) ->
  from a (s1 ++ x :: s2) = from a (s1 ++ y :: s2).
Proof.
  intros a s1 x y s2 d F Tx Ty Fd N H. unfold from.
  assert (Rx : is_rest x = false) by (destruct x as [| | |[]| |]; auto; discriminate).
  assert (Ry : is_rest y = false) by (destruct y as [| | |[]| |]; auto; discriminate).
  assert (E1 : length (filter is_rest (s1 ++ x :: s2)) = length (filter is_rest (s1 ++ y :: s2))).
  { rewrite !filter_app; cbn [filter]. rewrite Rx, Ry. reflexivity. }
  assert (E2 : frombrank a (s1 ++ x :: s2) = frombrank a (s1 ++ y :: s2)).
  { unfold frombrank. rewrite !total_fsrc. f_equal; [f_equal; f_equal|f_equal].
    - clear - Tx Ty. induction s1; cbn [app total]; [rewrite Tx, Ty; reflexivity|]. rewrite IHs1; reflexivity.
    - rewrite !map_app; cbn [map]. rewrite Fd. reflexivity. }
  rewrite E1, E2. rewrite !(fun b bv pl => fromb_change b s1 x y s2 (vdv a) bv pl d F Tx Ty N (H b)). reflexivity.
Qed.

Theorem C38_index : forall a s1 e s2 d x, fits (vrank a) (s1 ++ SIdx (lval e) :: s2) ->
  nth_error (vdv a) (axis_for s1 (SIdx (lval e) :: s2) (vrank a)) = Some d -> sound_seqs (len d) e -> meaning (len d) e [] = Some x ->
  from a (s1 ++ SIdx (lval e) :: s2) = from a (s1 ++ cidx x :: s2).
Proof.
  intros a s1 e s2 d x F N S M. apply from_change with d; auto. intros; cbn [fromb cidx]. rewrite (C38_value _ _ S), M. reflexivity.
Qed.
Theorem C38_iota : forall a s1 o n s s2 d o' n' s', fits (vrank a) (s1 ++ SSeq (lval o) (lval n) (lval s) :: s2) ->
  nth_error (vdv a) (axis_for s1 (SSeq (lval o) (lval n) (lval s) :: s2) (vrank a)) = Some d ->
  sound_seqs (len d) o -> sound_seqs (len d) n -> sound_seqs (len d) s ->
  meaning (len d) o [] = Some o' -> meaning (len d) n [] = Some n' -> meaning (len d) s [] = Some s' ->
  from a (s1 ++ SSeq (lval o) (lval n) (lval s) :: s2) = from a (s1 ++ ciota n' o' s' :: s2).
Proof.
  intros a s1 o n s s2 d o' n' s' F N So Sn Ss Mo Mn Ms. apply from_change with d; auto. intros; unfold ciota; cbn [fromb].
  rewrite (C38_value _ _ So), (C38_value _ _ Sn), (C38_value _ _ Ss), Mo, Mn, Ms. reflexivity.
Qed.

(* a(len-1, dots<>, iota(len/2, len-1, -1)) on 3 4 5 *)
Example C38_ex : let minus1 := LMap (fun x => nth 0 x 0 - nth 1 x 0) [LLen; LScalar 1] in let half := LMap (fun x => nth 0 x 0 / nth 1 x 0) [LLen; LScalar 2] in
  wlen 5 (LSeq minus1 half (LScalar (-1))) = Some (LSeq (LScalar 4) (LScalar 2) (LScalar (-1))) /\
  sound_seqs 5 (LSeq minus1 half (LScalar (-1))) /\
  from a345 [SIdx (lval minus1); SDots None; SSeq (lval minus1) (lval half) (lval (LScalar (-1)))] = from a345 [cidx 2; SDots None; ciota 2 4 (-1)] /\
  axis_for [SIdx (lval minus1); SDots None] [SSeq (lval minus1) (lval half) (lval (LScalar (-1)))] 3 = 2%nat.
Proof.
  repeat split; try discriminate. exists 2; split; [reflexivity|lia].
Qed.

Print Assumptions C23_select.
Print Assumptions C24_inside_bounded.
Print Assumptions C25_one_axis_partial.
Print Assumptions C38_iota.
Print Assumptions C25_places_partial.
Print Assumptions C62_rank_partial.
Print Assumptions C62_accepted_partial.
