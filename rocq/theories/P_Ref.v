(* Properties of assignment to expressions that give references: C95, C96, C97. *)
From Coq Require Import ZArith List Lia Bool Arith.
From Verif Require Import Spec M_Base M_Expr M_Ply L_Spec L_Expr Spec_Ply L_Ply Spec_Expr L_Agree L_Run M_Val Spec_Val L_Val P_Reduce M_View L_View Spec_View P_View M_Slice Spec_Slice L_Slice P_Slice M_Frame Spec_Frame L_Frame P_Frame M_Mat M_Ref.
Import ListNotations.
Open Scope Z_scope.

(* m' is m, except for what has been written before j *)
Definition until {T} (s : list Z) (pl : list Z -> Z) (j : list Z) (m m' : mem T) : Prop := forall p, (forall j', inshape j' s -> lexlt j' j -> p <> pl j') -> m' p = m p.
(* e at j, whenever it's evaluated, is x j *)
Definition source {T} (e : expr (val T) (mem T)) (s : list Z) (pl : list Z -> Z) (m : mem T) (x : list Z -> T) : Prop :=
  forall j m', inshape j s -> until s pl j m m' -> exists v, element e j m' = Ok v m' /\ value_of v m' = Some (x j).
(* each place has been combined with the x j that go to it, in order of j *)
Definition scattered {T} (f : T -> T -> T) (js : list (list Z)) (pl : list Z -> Z) (x : list Z -> T) (m m' : mem T) : Prop :=
  forall p, m' p = fold_left f (map x (filter (fun j => pl j =? p) js)) (m p).

Lemma each_app : forall W X (act : list Z -> M W X) l1 l2 w, each act (l1 ++ l2) w = match each act l1 w with Ok _ w' => each act l2 w' | Fail w' => Fail w' | Undef => Undef end.
Proof. induction l1; intros; cbn [app each]; [reflexivity|]. destruct (act a w); auto. Qed.

(* l1 is the first part of the indices; the references are good in it *)
Lemma assign_part : forall T f (d e : expr (val T) (mem T)) s m pl x l1 l2, indices s = l1 ++ l2 ->
  (forall j m', In j l1 -> until s pl j m m' -> element d j m' = Ok (VRef (pl j)) m') -> source e s pl m x ->
  exists m', each (element (Map (assign_op f) [d; e])) l1 m = Ok tt m' /\ scattered f l1 pl x m m'.
Proof.
  intros T f d e s m pl x l1 l2 El Hd Hx. pose proof (row_major_indices s) as Hj.
  destruct (each_scatter (val T) (element (Map (assign_op f) [d; e])) f pl x l1 m []) with (m := m) as (m' & E1 & E2); [|auto|exists m'; auto].
  intros k1 j k2 m1 E Hm1. rewrite E in El. rewrite <- app_assoc in El. cbn [app] in El. destruct (row_major_split _ _ _ _ _ Hj El) as (Hin & Hl). cbn [app] in Hm1.
  assert (U : until s pl j m m1). { intros p Hp. apply Hm1. intros j' Hj'. apply Hp; apply Hl; auto. }
  destruct (Hx j m1 Hin U) as (v & F1 & F2). assert (Ij : In j l1) by (rewrite E; apply in_or_app; right; left; auto).
  cbn [element map]. exists VUnit. rewrite (in_order_2 _ _ _ _ _ (VRef (pl j)) m1 v m1); auto. unfold assign_op, op2, bind. rewrite (rd_value _ _ (x j)); auto.
Qed.

Lemma assign_ref : forall T f (d e : expr (val T) (mem T)) s m pl x fixed z, wf d -> wf e -> joint_shape [d; e] s -> zclean z ->
  (forall j m', inshape j s -> until s pl j m m' -> element d j m' = Ok (VRef (pl j)) m') -> source e s pl m x ->
  exists m', assign fixed z f d e m = Ok None m' /\ scattered f (indices s) pl x m m'.
Proof.
  intros T f d e s m pl x fixed z Hd He Hs Hz Hpl Hx. destruct (assign_part T f d e s m pl x (indices s) []) as (m' & E1 & E2); auto.
  - rewrite app_nil_r; auto.
  - intros j m' Hj. apply Hpl. apply in_indices; auto.
  - exists m'. split; auto. unfold assign. rewrite (ply_spec _ _ _ no_stop fixed z _ s (indices s)); auto; [|apply wf_map; [discriminate|constructor; auto]|apply row_major_indices]. rewrite visit_each, E1. reflexivity.
Qed.

(* with different places each has its own *)
Lemma scattered_distinct : forall T f s pl x (m m' : mem T), scattered f (indices s) pl x m m' -> (forall i j, inshape i s -> inshape j s -> pl i = pl j -> i = j) ->
  (forall j, inshape j s -> m' (pl j) = f (m (pl j)) (x j)) /\ (forall p, (forall j, inshape j s -> p <> pl j) -> m' p = m p).
Proof.
  intros T f s pl x m m' E2 Hinj. split.
  - intros j Hj. rewrite E2. rewrite (filter_one _ _ _ j); [reflexivity|apply indices_nodup|apply in_indices; auto|].
    intros y Hy. apply in_indices in Hy. rewrite Z.eqb_eq. split; intros; subst; auto.
  - intros p Hp. rewrite E2. rewrite filter_none; auto. intros y Hy. apply in_indices in Hy. apply Z.eqb_neq. intros Eq. apply (Hp y); auto.
Qed.

(* ---- C95 ---- *)

(* The elements of a are at different places. e may be of lower rank than a, and may use the other part of a, or the elements of this part which haven't been assigned to. *)
Theorem C95_real : forall T f (a : view) (e : expr (val T) (mem T)) m x fixed z, let pl := fun j => 2 * vplace a j in
  wf (@citer T a) -> wf e -> joint_shape [real_part (citer a); e] (vshape a) -> zclean z -> (forall i j, inshape i (vshape a) -> inshape j (vshape a) -> vplace a i = vplace a j -> i = j) ->
  source e (vshape a) pl m x ->
  exists m', assign fixed z f (real_part (citer a)) e m = Ok None m' /\ (forall j, inshape j (vshape a) -> m' (pl j) = f (m (pl j)) (x j)) /\
    (forall p, (forall j, inshape j (vshape a) -> p <> pl j) -> m' p = m p) /\ forall q, m' (2 * q + 1) = m (2 * q + 1).
Proof.
  intros T f a e m x fixed z pl Hw He Hs Hz Hi Hx.
  destruct (assign_ref T f (real_part (citer a)) e (vshape a) m pl x fixed z) as (m' & E1 & E2); auto.
  - apply wf_map; [discriminate|constructor; auto].
  - intros j m' Hj _. unfold real_part, citer. cbn [element map in_order]. pose proof (inshape_length _ _ Hj) as L. unfold vshape in L. rewrite map_length in L. unfold vrank. rewrite firstn_all, <- L, firstn_all. reflexivity.
  - destruct (scattered_distinct T f _ pl x m m' E2) as (S1 & S2). { intros i j Ii Ij E. apply Hi; auto. unfold pl in E. lia. }
    exists m'. split; [auto|]. split; [auto|]. split; [auto|]. intros q. apply S2. intros j _. unfold pl. lia.
Qed.
Theorem C95_imag : forall T f (a : view) (e : expr (val T) (mem T)) m x fixed z, let pl := fun j => 2 * vplace a j + 1 in
  wf (@citer T a) -> wf e -> joint_shape [imag_part (citer a); e] (vshape a) -> zclean z -> (forall i j, inshape i (vshape a) -> inshape j (vshape a) -> vplace a i = vplace a j -> i = j) ->
  source e (vshape a) pl m x ->
  exists m', assign fixed z f (imag_part (citer a)) e m = Ok None m' /\ (forall j, inshape j (vshape a) -> m' (pl j) = f (m (pl j)) (x j)) /\
    (forall p, (forall j, inshape j (vshape a) -> p <> pl j) -> m' p = m p) /\ forall q, m' (2 * q) = m (2 * q).
Proof.
  intros T f a e m x fixed z pl Hw He Hs Hz Hi Hx.
  destruct (assign_ref T f (imag_part (citer a)) e (vshape a) m pl x fixed z) as (m' & E1 & E2); auto.
  - apply wf_map; [discriminate|constructor; auto].
  - intros j m' Hj _. unfold imag_part, citer. cbn [element map in_order]. pose proof (inshape_length _ _ Hj) as L. unfold vshape in L. rewrite map_length in L. unfold vrank. rewrite firstn_all, <- L, firstn_all. reflexivity.
  - destruct (scattered_distinct T f _ pl x m m' E2) as (S1 & S2). { intros i j Ii Ij E. apply Hi; auto. unfold pl in E. lia. }
    exists m'. split; [auto|]. split; [auto|]. split; [auto|]. intros q. apply S2. intros j _. unfold pl. lia.
Qed.
(* imag_part(a) = -real_part(a), where a is a 2 elements of every other complex number, in reverse *)
Example C95_ex : let a := Vw [Dim 2 (-2)] 3 in let e := Map (op1 (fun v => t <- rd v ;; ret (VT (- t)))) [real_part (citer a)] in
  wf (@citer Z a) /\ wf e /\ joint_shape [imag_part (citer a); e] (vshape a) /\ (forall i j, inshape i (vshape a) -> inshape j (vshape a) -> vplace a i = vplace a j -> i = j) /\
  source e (vshape a) (fun j => 2 * vplace a j + 1) (fun p => p) (fun j => - (2 * vplace a j)) /\
  exists m', assign false z_init (fun _ x => x) (imag_part (citer a)) e (fun p => p) = Ok None m' /\ map m' [2; 3; 4; 5; 6; 7] = [2; -2; 4; 5; 6; -6].
Proof.
  cbv zeta. split; [unfold citer, vrank; wfauto|]. split; [unfold citer, vrank; wfauto|]. split; [split; [reflexivity|]; intros [|k] Hk; cbn in *; try lia; split; [lia|]; split; auto|]. split; [|split].
  - intros i j Hi Hj. unfold vshape in *. cbn in Hi, Hj. inversion Hi as [|? ? ? ? ? Hi']; inversion Hi'; inversion Hj as [|? ? ? ? ? Hj']; inversion Hj'; subst. unfold vplace. cbn [vcp vdv place step]. intros. f_equal. lia.
  - intros j m' Hj U. unfold vshape in Hj. cbn in Hj. inversion Hj as [|y ? ? ? ? Hj']; inversion Hj'; subst. eexists. split; [reflexivity|]. cbn [value_of]. unfold vplace. cbn [vcp vdv place step firstn map]. f_equal. f_equal. rewrite U; [reflexivity|].
    intros j' _ _. unfold vplace. lia.
  - eexists. split; [vm_compute; reflexivity|]. vm_compute. reflexivity.
Qed.

(* ---- C96 ---- *)

(* wj: whether w is true at j, which may depend on the elements that are being assigned to. The place that is assigned to at j is then that of t or that of f. *)
Theorem C96_where : forall T (tob : T -> bool) g (w t f e : expr (val T) (mem T)) s m (wj : list Z -> bool) pt pf x fixed z, let pl := fun j => if wj j then pt j else pf j in
  wf w -> wf t -> wf f -> wf e -> joint_shape [where_ tob w t f; e] s -> zclean z -> refers t s pt -> refers f s pf ->
  (forall j m', inshape j s -> until s pl j m m' -> exists v, element w j m' = Ok v m' /\ truth_of tob v m' = Some (wj j)) -> source e s pl m x ->
  exists m', assign fixed z g (where_ tob w t f) e m = Ok None m' /\ scattered g (indices s) pl x m m'.
Proof.
  intros T tob g w t f e s m wj pt pf x fixed z pl Hw Ht Hf He Hs Hz Rt Rf Hwj Hx. apply (assign_ref T g (where_ tob w t f) e s m pl x fixed z); auto.
  - cbn. split; [discriminate|]. split; [split; [discriminate|auto]|auto].
  - intros j m' Hj U. destruct (Hwj j m' Hj U) as (v & E1 & E2). unfold where_, castb. cbn [element map in_order]. rewrite E1. cbn [op1 bind].
    assert (Eb : rdb tob v m' = Ok (wj j) m') by (destruct v; cbn in *; inversion E2; subst; reflexivity). unfold bind. rewrite Eb. unfold ret. cbn [selv]. unfold pl. destruct (wj j); cbn; [apply Rt|apply Rf]; auto.
Qed.
(* If the elements of t and f are all at different places, those that were selected are assigned to and the others are not. *)
Theorem C96_where_distinct : forall T (tob : T -> bool) g (w t f e : expr (val T) (mem T)) s m (wj : list Z -> bool) pt pf x fixed z, let pl := fun j => if wj j then pt j else pf j in
  wf w -> wf t -> wf f -> wf e -> joint_shape [where_ tob w t f; e] s -> zclean z -> refers t s pt -> refers f s pf ->
  (forall j m', inshape j s -> until s pl j m m' -> exists v, element w j m' = Ok v m' /\ truth_of tob v m' = Some (wj j)) -> source e s pl m x ->
  (forall i j, inshape i s -> inshape j s -> pt i = pt j -> i = j) -> (forall i j, inshape i s -> inshape j s -> pf i = pf j -> i = j) -> (forall i j, inshape i s -> inshape j s -> pt i <> pf j) ->
  exists m', assign fixed z g (where_ tob w t f) e m = Ok None m' /\
    (forall j, inshape j s -> m' (pt j) = (if wj j then g (m (pt j)) (x j) else m (pt j)) /\ m' (pf j) = if wj j then m (pf j) else g (m (pf j)) (x j)) /\
    (forall p, (forall j, inshape j s -> p <> pt j /\ p <> pf j) -> m' p = m p).
Proof.
  intros T tob g w t f e s m wj pt pf x fixed z pl Hw Ht Hf He Hs Hz Rt Rf Hwj Hx It If Itf. destruct (C96_where T tob g w t f e s m wj pt pf x fixed z) as (m' & E1 & E2); auto. fold pl in E2.
  destruct (scattered_distinct T g s pl x m m' E2) as (S1 & S2).
  { intros i j Hi Hj E. unfold pl in E. destruct (wj i), (wj j); auto; exfalso; [apply (Itf i j)|apply (Itf j i)]; auto. }
  exists m'. split; [auto|]. split.
  - intros j Hj. specialize (S1 j Hj). unfold pl in S1. destruct (wj j) eqn:Ej; (split; [|]); auto.
    + apply S2. intros i Hi E. unfold pl in E. destruct (wj i) eqn:Ei; [apply (Itf i j); auto|]. apply If in E; auto. subst. congruence.
    + apply S2. intros i Hi E. unfold pl in E. destruct (wj i) eqn:Ei; [|apply (Itf j i); auto]. apply It in E; auto. subst. congruence.
  - intros p Hp. apply S2. intros j Hj. destruct (Hp j Hj). unfold pl. destruct (wj j); auto.
Qed.
(* where(a!=0, a, b) += 10, a = {0 1 2}, b = {5 6 7} *)
Example C96_ex : let a := exV [Dim 3 1] 0 in let b := exV [Dim 3 1] 5 in let d := where_ tobz a a b in let e := Scalar (VT 10) in
  wf a /\ wf b /\ joint_shape [d; e] [3] /\ refers a [3] (fun j => nth 0 j 0) /\ refers b [3] (fun j => 5 + nth 0 j 0) /\
  (forall j m', inshape j [3] -> until [3] (fun j => if tobz (nth 0 j 0) then nth 0 j 0 else 5 + nth 0 j 0) j (fun p => p) m' -> exists v, element a j m' = Ok v m' /\ truth_of tobz v m' = Some (tobz (nth 0 j 0))) /\
  exists m', assign true z_init Z.add d e (fun p => p) = Ok None m' /\ map m' [0; 1; 2; 5; 6; 7] = [0; 11; 12; 15; 6; 7].
Proof.
  cbv zeta. split; [unfold exV; wfauto|]. split; [unfold exV; wfauto|]. split; [split; [reflexivity|]; intros [|k] Hk; cbn in *; try lia; split; [lia|]; split; auto|]. split; [|split; [|split]].
  - intros j m Hj. inversion Hj as [|? ? ? ? ? H]; inversion H; subst. cbn. rewrite Z.mul_1_r, Z.add_0_r. reflexivity.
  - intros j m Hj. inversion Hj as [|? ? ? ? ? H]; inversion H; subst. cbn. rewrite Z.mul_1_r, Z.add_0_r. reflexivity.
  - intros j m' Hj U. inversion Hj as [|y ? ? ? Hy H]; inversion H; subst. eexists. split; [reflexivity|]. cbn [truth_of nth]. f_equal. f_equal.
    transitivity (m' y); [f_equal; cbn; lia|]. apply U. intros j' Hj' Hl. inversion Hj' as [|y' ? ? ? Hy' H']; inversion H'; subst. inversion Hl as [? ? ? ? Hlt|? ? ? Hlt]; subst; [|inversion Hlt]. cbn [nth]. destruct (tobz y'); lia.
  - eexists. split; [vm_compute; reflexivity|]. vm_compute. reflexivity.
Qed.

(* ---- C97 ---- *)

Lemma joint_within : forall T (d e : expr (val T) (mem T)) s rs j, joint_shape [d; e] s -> extents d rs -> inshape j s -> within (firstn (length rs) j) rs.
Proof.
  intros T d e s rs j (H1 & H2) (L & P) Hj. pose proof (inshape_length _ _ Hj) as Lj. cbn [fold_right] in H1. rewrite Nat.max_0_r in H1.
  assert (Q : forall k, (k < length rs)%nat -> nth k rs 0 = UNB \/ nth k rs 0 = nth k s 0).
  { intros k Hk. destruct (P k ltac:(lia)) as (_ & P1 & _). destruct (H2 k) as (_ & _ & H3); [cbn [fold_right]; lia|]. cbn [flat_map] in H3. rewrite Forall_forall in H3. destruct (H3 (nth k rs 0)); [apply in_or_app; auto|auto|auto]. }
  assert (Le : (length rs <= length s)%nat) by lia. clear - Q Le Hj. revert rs Q Le. induction Hj as [|i n j s Hi Hj IH]; intros rs Q Le.
  - destruct rs; [constructor|cbn in Le; lia].
  - destruct rs as [|r rs]; [constructor|]. cbn [length firstn]. constructor.
    + destruct (Q 0%nat) as [E|E]; [cbn; lia|..]; cbn in E; subst; lia.
    + apply IH; [|cbn in Le; lia]. intros k Hk. apply (Q (S k)). cbn. lia.
Qed.

(* A(i ...) op= x with arrays among the subscripts. s: the shape of the whole. g j: the index of a that stands for the index of A(i ...) at the beginning of j. The same one may be there many times.
   If an index is out of range the assignment fails, when it gets there. *)
Theorem C97_scatter : forall T f st a subs (es : list (expr (val T) (mem T))) fs d rs (e : expr (val T) (mem T)) s g m x fixed z,
  Forall one_axis subs -> fits (vrank a) subs -> one_rest subs -> Forall (fun n => 0 <= n \/ n = UNB) (vshape a) ->
  Forall wf es -> Forall2 holds es fs -> es <> [] -> length es = arrays subs -> from_u st a subs es = Good d -> gathers_shape subs fs (vshape a) rs ->
  wf e -> joint_shape [d; e] s -> (forall j, inshape j s -> gathers subs fs (vshape a) (firstn (length rs) j) (g j)) -> zclean z -> source e s (fun j => vplace a (g j)) m x ->
  ((forall j, inshape j s -> valid (g j) (vdv a)) -> exists m', assign fixed z f d e m = Ok None m' /\ scattered f (indices s) (fun j => vplace a (g j)) x m m') /\
  (forall l1 j l2, indices s = l1 ++ j :: l2 -> (forall i, In i l1 -> valid (g i) (vdv a)) -> ~ valid (g j) (vdv a) ->
    exists m', assign fixed z f d e m = Fail m' /\ scattered f l1 (fun j => vplace a (g j)) x m m').
Proof.
  intros T f st a subs es fs d rs e s g m x fixed z O F R N Hw Hh Hn Ln Ed Hrs We Hs Hg Hz Hx.
  destruct (C27_gather T (mem T) st a subs es fs O F R N Hw Hh Hn Ln) as (G1 & G2).
  assert (Lg : legal subs (vdv a)).
  { unfold from_u in Ed. rewrite (from_fromb a subs O F ltac:(apply one_rest_count; auto)) in Ed. destruct (fromb true subs (vdv a) [] (vcp a)) as [r| |] eqn:Eb; try discriminate. eapply fromb_good_legal; eauto. }
  destruct (G1 Lg) as (os & _ & G3 & G4).
  assert (B : st = true \/ ~ In UNB os).
  { destruct st; auto. right. intros Hi. rewrite (G4 eq_refl Hi) in Ed. discriminate. }
  destruct (G3 B) as (d' & rs' & E1 & Wd & E2 & E3 & E4). rewrite Ed in E1. injection E1 as <-. assert (rs' = rs) by (eapply gathers_shape_fun; eauto). subst rs'. clear G1 G2 G3 G4.
  assert (Ld : length rs = axes d) by (destruct E3; auto).
  assert (D : forall j w, inshape j s -> (valid (g j) (vdv a) -> element d j w = Ok (VRef (vplace a (g j))) w) /\ (~ valid (g j) (vdv a) -> element d j w = Fail w)).
  { intros j w Hj. rewrite <- (element_prefix d Wd (length rs)) by (rewrite <- axes_rank, Ld by auto; lia). apply E4; auto. eapply joint_within; eauto. }
  assert (Wm : wf (Map (assign_op f) [d; e])) by (apply wf_map; [discriminate|constructor; auto]).
  split.
  - intros V. apply assign_ref; auto. intros j m' Hj _. apply D; auto.
  - intros l1 j l2 El V Nv. destruct (assign_part T f d e s m (fun j => vplace a (g j)) x l1 (j :: l2)) as (m1 & F1 & F2); auto.
    { intros i m' Hi _. apply D; auto. apply in_indices. rewrite El. apply in_or_app; auto. }
    exists m1. split; auto. unfold assign. rewrite (ply_spec _ _ _ no_stop fixed z _ s (indices s)); auto; [|apply row_major_indices].
    rewrite visit_each, El, each_app, F1. cbn [each element map in_order]. destruct (D j m1) as (_ & D2); [apply in_indices; rewrite El; apply in_or_app; right; left; auto|]. rewrite (D2 Nv). reflexivity.
Qed.
(* count(i) += 1 counts how many times each number is in i: here i = {2 0 2 1 2} *)
Example C97_ex : let i := Cell [Dim 5 1] 1 (fun p => VI (nth (Z.to_nat p) [2; 0; 2; 1; 2] 0)) 0 in let a := Vw [Dim 3 1] 0 in
  exists d, from_u false a [SArr] [i] = Good d /\ exists m', assign false z_init Z.add d (Scalar (VT 1)) (fun _ => 0) = Ok None m' /\ map m' [0; 1; 2; 3] = [1; 1; 3; 0].
Proof. cbv zeta. eexists. split; [vm_compute; reflexivity|]. eexists. split; vm_compute; reflexivity. Qed.
Example C97_ex_hyp : let i := Cell [Dim 5 1] 1 (fun p => VI (nth (Z.to_nat p) [2; 0; 2; 1; 2] 0)) 0 in let a := Vw [Dim 3 1] 0 in let fs := [([5], fun j => nth (Z.to_nat (nth 0 j 0)) [2; 0; 2; 1; 2] 0)] in
  wf (@Cell (val Z) (mem Z) [Dim 5 1] 1 (fun p => VI (nth (Z.to_nat p) [2; 0; 2; 1; 2] 0)) 0) /\ Forall2 (@holds Z (mem Z)) [i] fs /\ gathers_shape [SArr] fs (vshape a) [5] /\
  (forall j, inshape j [5] -> gathers [SArr] fs (vshape a) (firstn 1 j) [snd (hd ([], fun _ => 0) fs) j]) /\
  source (Scalar (VT 1)) [5] (fun j => vplace a [nth (Z.to_nat (nth 0 j 0)) [2; 0; 2; 1; 2] 0]) (fun _ => 0) (fun _ => 1).
Proof.
  cbv zeta. split; [wfauto|]. split; [|split; [|split]].
  - constructor; [|constructor]. split.
    + split; [reflexivity|]. intros [|k] Hk; cbn in *; [|lia]. split; [left; lia|]. split; auto.
    + intros j w Hj. cbn [fst] in Hj. inversion Hj as [|y ? ? ? Hy H]; inversion H; subst. cbn [element snd]. assert (Ey : 0 + place (firstn 1 [Dim 5 1]) (firstn 1 [y]) = y) by (cbn [place step firstn]; lia). rewrite Ey. reflexivity.
  - change [5] with ([5] ++ []). apply gsh_arr. constructor.
  - intros j Hj. inversion Hj as [|y ? ? ? Hy H]; inversion H; subst. cbn [firstn hd snd]. change [y] with ([y] ++ []) at 1. apply (gat_arr [5]); [constructor; [lia|constructor]|]. constructor. reflexivity.
  - intros j m' _ _. eexists. split; reflexivity.
Qed.

Print Assumptions C95_real. Print Assumptions C95_imag. Print Assumptions C96_where. Print Assumptions C96_where_distinct. Print Assumptions C97_scatter.
