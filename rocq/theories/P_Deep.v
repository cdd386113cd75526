(* Sum of an array of arrays: C101. *)
From Coq Require Import ZArith List Lia Bool.
From Verif Require Import Spec M_Base M_Expr M_Ply L_Spec L_Expr Spec_Ply L_Ply Spec_Expr L_Agree L_Run M_Val Spec_Val L_Val P_Reduce M_View L_View Spec_View P_View M_Mat P_Mat P_Ref M_Deep.
Import ListNotations.
Open Scope Z_scope.

Section Deep.
Context {T : Type}.
Variables (f : T -> T -> T) (zero : T) (fixed fi : bool) (z zi : list zt) (q : Z).
Hypothesis Hz : zclean z.
Hypothesis Hzi : zclean zi.

(* e at j is the array v j, whatever the memory *)
Definition arrays_at (e : expr view (mem T)) (s : list Z) (v : list Z -> view) : Prop := forall j m, inshape j s -> element e j m = Ok (v j) m.
(* the place p isn't in the n places from q on *)
Definition clear_of (n p : Z) : Prop := ~ (q <= p < q + n).
(* the elements at i of the arrays at js, in order, put together *)
Definition total (m : mem T) (v : list Z -> view) (js : list (list Z)) (i : list Z) : T := fold_left f (map (fun j => m (vplace (v j) i)) js) zero.

Lemma same_joint : forall (c v : view) t, vshape c = t -> vshape v = t -> nonneg t -> joint_shape [viter (T:=T) c; viter v] t.
Proof.
  intros c v t Ec Ev Hn. assert (Lc : length (vdv c) = length t) by (rewrite <- Ec; unfold vshape; rewrite map_length; auto). assert (Lv : length (vdv v) = length t) by (rewrite <- Ev; unfold vshape; rewrite map_length; auto).
  split; [cbn [fold_right viter axes]; unfold vrank; lia|]. intros k Hk. cbn [fold_right viter axes] in Hk. unfold vrank in Hk.
  cbn [flat_map viter leaf_lens]. unfold vrank. rewrite Lc, Lv. assert (Hk' : (k < length t)%nat) by lia. apply Nat.ltb_lt in Hk'. rewrite Hk'. apply Nat.ltb_lt in Hk'.
  assert (E1 : len (nth k (vdv c) dim0) = nth k t 0). { rewrite <- Ec. unfold vshape. change 0 with (len dim0). rewrite map_nth. reflexivity. }
  assert (E2 : len (nth k (vdv v) dim0) = nth k t 0). { rewrite <- Ev. unfold vshape. change 0 with (len dim0). rewrite map_nth. reflexivity. }
  rewrite E1, E2. cbn [app]. split; [apply Forall_nth; auto|]. split; [left; auto|]. repeat constructor; auto.
Qed.

(* what has been done after js: the total of these in c, and nothing else *)
Definition state (m : mem T) (v : list Z -> view) (c : view) (t : list Z) (js : list (list Z)) (m1 : mem T) : Prop :=
  (forall i, inshape i t -> m1 (vplace c i) = total m v js i) /\ forall p, clear_of (zprod t) p -> m1 p = m p.

Lemma into_step : forall m v c t js j m1, vshape c = t -> nonneg t -> (forall i, inshape i t -> q <= vplace c i < q + zprod t) -> (forall i i', inshape i t -> inshape i' t -> vplace c i = vplace c i' -> i = i') ->
  vshape (v j) = t -> (forall i, inshape i t -> clear_of (zprod t) (vplace (v j) i)) -> state m v c t js m1 ->
  exists m2, assign fi zi f (viter c) (viter (v j)) m1 = Ok None m2 /\ state m v c t (js ++ [j]) m2.
Proof.
  intros m v c t js j m1 Ec Hn Hin Hinj Ej Hcl (S1 & S2).
  assert (Wv : forall a : view, vshape a = t -> wf (viter (T:=T) a)).
  { intros a Ea. apply viter_wf. apply Forall_forall. intros d Hd. left. rewrite <- Ea in Hn. unfold nonneg, vshape in Hn. rewrite Forall_forall in Hn. apply Hn. apply in_map. auto. }
  assert (Rv : forall a : view, vshape a = t -> forall i m', inshape i t -> element (viter (T:=T) a) i m' = Ok (VRef (vplace a i)) m').
  { intros a Ea i m' Hi. rewrite (viter_refers a t i m' Hi). f_equal. f_equal. f_equal. apply firstn_all2. rewrite (inshape_length _ _ Hi), <- Ea. unfold vshape, vrank. rewrite map_length. lia. }
  destruct (assign_ref T f (viter c) (viter (v j)) t m1 (vplace c) (fun i => m (vplace (v j) i)) fi zi) as (m2 & E1 & E2); auto using same_joint.
  - intros i m' Hi U. exists (VRef (vplace (v j) i)). split; [apply Rv; auto|]. cbn [value_of]. f_equal. rewrite U.
    + apply S2. apply Hcl; auto.
    + intros i' Hi' _ Ep. apply (Hcl i Hi). rewrite Ep. apply Hin; auto.
  - destruct (scattered_distinct T f t (vplace c) _ m1 m2 E2 Hinj) as (D1 & D2). exists m2. split; auto. split.
    + intros i Hi. rewrite D1, S1 by auto. unfold total. rewrite map_app, fold_left_app. reflexivity.
    + intros p Hp. rewrite D2; auto. intros i Hi Ep. apply Hp. rewrite Ep. apply Hin; auto.
Qed.

Lemma into_each : forall m v c t e s, vshape c = t -> nonneg t -> (forall i, inshape i t -> q <= vplace c i < q + zprod t) -> (forall i i', inshape i t -> inshape i' t -> vplace c i = vplace c i' -> i = i') ->
  arrays_at e s v -> forall l2 l1 m1, (forall j, In j l2 -> inshape j s) -> (forall j, In j l2 -> vshape (v j) = t) -> (forall i j, In j l2 -> inshape i t -> clear_of (zprod t) (vplace (v j) i)) -> state m v c t l1 m1 ->
  exists m2, each (element (Map (into fi zi f c) [e])) l2 m1 = Ok tt m2 /\ state m v c t (l1 ++ l2) m2.
Proof.
  intros m v c t e s Ec Hn Hin Hinj He. induction l2 as [|j l2 IH]; intros l1 m1 Hs Ht Hcl S; cbn [each].
  - exists m1. rewrite app_nil_r. auto.
  - destruct (into_step m v c t l1 j m1) as (m2 & E & S'); auto; [apply Ht; left; auto|intros; apply Hcl; auto; left; auto|].
    cbn [element map in_order]. rewrite (He j m1) by (apply Hs; left; auto). cbn [into bind]. unfold bind. rewrite E. cbn [ret]. unfold ret.
    destruct (IH (l1 ++ [j]) m2) as (m3 & E3 & S3); auto; try (intros; (apply Hs || apply Ht || apply Hcl); auto; right; auto).
    exists m3. rewrite <- app_assoc in S3. auto.
Qed.

(* The beginning: the new array *)
Lemma sum_start : forall e s v m t, wf e -> shape_is e s -> (exists j, inshape j s) -> arrays_at e s v -> nonneg t -> vshape (v (repeat 0 (length s))) = t ->
  exists c m1, vshape c = t /\ (forall i, inshape i t -> q <= vplace c i < q + zprod t) /\ (forall i i', inshape i t -> inshape i' t -> vplace c i = vplace c i' -> i = i') /\ state m v c t [] m1 /\
    sum_arrays fixed z fi zi f zero q e m = match each (element (Map (into fi zi f c) [e])) (indices s) m1 with Ok _ m2 => Ok (Some c) m2 | Fail m2 => Fail m2 | Undef => Undef end.
Proof.
  intros e s v m t Hw Hs (j0 & Hj0) He Hn E0. assert (I0 : inshape (repeat 0 (length s)) s).
  { clear - Hj0. induction Hj0; cbn; constructor; auto. lia. }
  destruct (C12_dense t Hn) as (dv & Ed & Ld & P1 & P2 & _).
  exists (Vw dv q), (fun p => if (q <=? p) && (p <? q + zprod t) then zero else m p). unfold vplace. cbn [vcp vdv].
  split; [exact Ld|]. split; [intros i Hi; specialize (P1 i Hi); lia|]. split; [intros i i' Hi Hi' E; apply P2; auto; lia|]. split.
  - split.
    + intros i Hi. specialize (P1 i Hi). unfold vplace. cbn [vcp vdv total map fold_left]. destruct (Z.leb_spec q (q + place dv i)); [|lia]. destruct (Z.ltb_spec (q + place dv i) (q + zprod t)); [reflexivity|lia].
    + intros p Hp. unfold clear_of in Hp. destruct (Z.leb_spec q p), (Z.ltb_spec p (q + zprod t)); try reflexivity. exfalso. lia.
  - unfold sum_arrays, bind. rewrite (deref_zero _ _ e (length s)), (He _ m I0). unfold new_array. change (map len (vdv (v (repeat 0 (length s))))) with (vshape (v (repeat 0 (length s)))). rewrite E0, Ed.
    rewrite (ply_spec _ _ _ no_stop fixed z _ s (indices s)); auto; [|apply wf_map; [discriminate|constructor; auto]|apply joint_shape_map, joint_shape_1; auto|apply row_major_indices].
    rewrite visit_each. match goal with |- context [each ?a ?b ?c] => destruct (each a b c) as [[] ?|?|] end; reflexivity.
Qed.

Theorem C101_sum_partial : forall e s v m t, wf e -> shape_is e s -> (exists j, inshape j s) -> arrays_at e s v -> nonneg t -> (forall j, inshape j s -> vshape (v j) = t) ->
  (forall i j, inshape j s -> inshape i t -> clear_of (zprod t) (vplace (v j) i)) ->
  exists c m', sum_arrays fixed z fi zi f zero q e m = Ok (Some c) m' /\ vshape c = t /\ (forall i, inshape i t -> m' (vplace c i) = total m v (indices s) i) /\ forall p, clear_of (zprod t) p -> m' p = m p.
Proof.
  intros e s v m t Hw Hs Hne He Hn Ht Hcl. assert (I0 : inshape (repeat 0 (length s)) s). { destruct Hne as (j0 & Hj0). clear - Hj0. induction Hj0; cbn; constructor; auto. lia. }
  destruct (sum_start e s v m t) as (c & m1 & Ec & Hin & Hinj & S & ->); auto.
  destruct (into_each m v c t e s Ec Hn Hin Hinj He (indices s) [] m1) as (m2 & -> & S1 & S2); auto; try (intros; (apply Ht || apply Hcl); auto); try (apply in_indices; auto).
  exists c, m2. auto.
Qed.

(* an array of another shape is refused when it comes *)
Lemma assign_refused : forall c v t (m : mem T), vshape c = t -> nonneg t -> nonneg (vshape v) -> length (vshape v) = length t -> vshape v <> t -> assign fi zi f (viter c) (viter v) m = Fail m.
Proof.
  intros c v t m Ec Hn Hv Hl Hne.
  assert (Wv : forall a : view, nonneg (vshape a) -> wf (viter (T:=T) a)).
  { intros a Ha. apply viter_wf. apply Forall_forall. intros d Hd. left. unfold nonneg, vshape in Ha. rewrite Forall_forall in Ha. apply Ha. apply in_map. auto. }
  assert (F : validate (Map (assign_op f) [viter c; viter v]) = false).
  { apply not_true_is_false. intros V. apply validate_iff in V; [|apply wf_map; [discriminate|constructor; [apply Wv; rewrite Ec; auto|constructor; auto]]]. apply Hne. rewrite <- Ec in *. clear Ec.
    unfold vshape in *. rewrite !map_length in Hl. apply nth_ext with (d := 0) (d' := 0); [rewrite !map_length; auto|]. intros k Hk. rewrite map_length in Hk.
    specialize (V k). cbn [fold_right axes viter] in V. unfold vrank in V. destruct V as (n & V); [lia|]. cbn [flat_map leaf_lens map viter app] in V. unfold vrank in V.
    assert (K1 : (k <? length (vdv c))%nat = true) by (apply Nat.ltb_lt; lia). assert (K2 : (k <? length (vdv v))%nat = true) by (apply Nat.ltb_lt; lia). rewrite K1, K2 in V. cbn [app] in V.
    change 0 with (len dim0). rewrite !map_nth.
    assert (N1 : 0 <= len (nth k (vdv c) dim0)) by (rewrite <- map_nth with (f := len); apply Forall_nth; [exact Hn|rewrite map_length; lia]).
    assert (N2 : 0 <= len (nth k (vdv v) dim0)) by (rewrite <- map_nth with (f := len); apply Forall_nth; [exact Hv|rewrite map_length; lia]).
    destruct V as (V0 & _ & V). inversion V as [|? ? X1 V']; inversion V' as [|? ? X2 _]; subst. assert (U : UNB < 0) by (unfold UNB; lia). lia. }
  unfold assign, ply. destruct fi; [unfold ply_fixed|unfold ply_ravel]; rewrite F; reflexivity.
Qed.
Theorem C101_refused : forall e s v m t l1 j l2, wf e -> shape_is e s -> arrays_at e s v -> indices s = l1 ++ j :: l2 -> nonneg t -> vshape (v (repeat 0 (length s))) = t ->
  (forall i, In i l1 -> vshape (v i) = t) -> (forall i k, In k l1 -> inshape i t -> clear_of (zprod t) (vplace (v k) i)) ->
  nonneg (vshape (v j)) -> length (vshape (v j)) = length t -> vshape (v j) <> t ->
  exists m', sum_arrays fixed z fi zi f zero q e m = Fail m' /\ forall p, clear_of (zprod t) p -> m' p = m p.
Proof.
  intros e s v m t l1 j l2 Hw Hs He Ei Hn E0 Ht Hcl Hnj Hlj Hdj. assert (Ij : inshape j s) by (apply in_indices; rewrite Ei; apply in_or_app; right; left; auto).
  destruct (sum_start e s v m t) as (c & m1 & Ec & Hin & Hinj & S & ->); auto; [exists j; auto|].
  destruct (into_each m v c t e s Ec Hn Hin Hinj He l1 [] m1) as (m2 & E2 & S1 & S2); auto.
  { intros i Hi. apply in_indices. rewrite Ei. apply in_or_app. auto. }
  rewrite Ei, each_app, E2. cbn [each element map in_order]. rewrite (He j m2 Ij). cbn [into]. unfold bind. rewrite (assign_refused c (v j) t m2) by auto. exists m2. auto.
Qed.
End Deep.

(* Without elements the shape is that of what's read at the place of the first, if there was one *)
Definition rows (n : Z) (sh : Z -> Z) : expr view (mem Z) := Cell [Dim n 1] 1 (fun p => Vw [Dim (sh p) 1] (10 * p)) 0.
Lemma rows_wf : forall n sh, 0 <= n -> wf (rows n sh).
Proof. intros. cbn. repeat split; auto. constructor; [|constructor]. left. cbn. auto. Qed.
Lemma rows_shape : forall n sh, 0 <= n -> shape_is (rows n sh) [n].
Proof. intros n sh Hn. split; [reflexivity|]. intros [|k] Hk; cbn in *; [|lia]. repeat split; repeat constructor; auto. Qed.
Lemma rows_at : forall n sh, arrays_at (rows n sh) [n] (fun j => Vw [Dim (sh (nth 0 j 0)) 1] (10 * nth 0 j 0)).
Proof. intros n sh j m Hj. inversion Hj as [|i ? ? ? Hi H]; inversion H; subst. cbn [rows element firstn place step nth]. do 2 f_equal; [do 2 f_equal; f_equal; lia|lia]. Qed.
Theorem C101_empty_refuted : forall t, 0 <= t -> exists e s v c, wf e /\ shape_is e s /\ arrays_at e s v /\ (forall j, inshape j s -> vshape (v j) = [3]) /\
  forall fixed z fi zi q m, zclean z -> exists m', sum_arrays fixed z fi zi Z.add 0 q e m = Ok (Some (c q)) m' /\ vshape (c q) = [t].
Proof.
  intros t Ht. exists (rows 0 (fun _ => t)), [0], (fun _ => Vw [Dim 3 1] 0), (fun q => Vw [Dim t 1] q). split; [apply rows_wf; lia|]. split; [apply rows_shape; lia|].
  assert (N : forall j, ~ inshape j [0]) by (intros j Hj; inversion Hj; subst; lia). split; [intros j m Hj; destruct (N j Hj)|]. split; [reflexivity|].
  intros fixed z fi zi q m Hz. unfold sum_arrays, bind. rewrite (deref_zero _ _ _ 1). cbn [rows element repeat]. unfold new_array. cbn [vdv map len filldimv]. destruct (Z.geb_spec t 0); [|lia].
  rewrite (ply_spec _ _ _ no_stop fixed z _ [0] (indices [0])); auto; [|apply wf_map; [discriminate|constructor; [apply rows_wf; lia|constructor]]|apply joint_shape_map, joint_shape_1, rows_shape; lia|apply row_major_indices].
  cbn. eexists. split; reflexivity.
Qed.

Example C101_ex : let e := rows 3 (fun _ => 2) in let v := fun j => Vw [Dim 2 1] (10 * nth 0 j 0) in
  wf e /\ shape_is e [3] /\ arrays_at e [3] v /\ (forall j, inshape j [3] -> vshape (v j) = [2]) /\ (forall i j, inshape j [3] -> inshape i [2] -> clear_of 100 (zprod [2]) (vplace (v j) i)) /\
  exists c m', sum_arrays false z_init false z_init Z.add 0 100 e (fun p => p * p) = Ok (Some c) m' /\ vshape c = [2] /\ map (fun i => m' (vplace c [i])) [0; 1] = [0 + 10 * 10 + 20 * 20; 1 + 11 * 11 + 21 * 21] /\
  exists m2, sum_arrays false z_init false z_init Z.add 0 100 (rows 3 (fun p => if p =? 2 then 3 else 2)) (fun p => p) = Fail m2.
Proof.
  cbv zeta. split; [apply rows_wf; lia|]. split; [apply rows_shape; lia|]. split; [apply (rows_at 3 (fun _ => 2))|]. split; [reflexivity|]. split.
  - intros i j Hj Hi. inversion Hj as [|x ? ? ? Hx H]; inversion H; subst. inversion Hi as [|y ? ? ? Hy H']; inversion H'; subst. unfold clear_of, vplace. cbn [vcp vdv place step nth zprod]. lia.
  - do 2 eexists. split; [vm_compute; reflexivity|]. split; [reflexivity|]. split; [vm_compute; reflexivity|]. eexists. vm_compute. reflexivity.
Qed.
Print Assumptions C101_sum_partial.
Print Assumptions C101_refused.
Print Assumptions C101_empty_refuted.
