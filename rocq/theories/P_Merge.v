(* Property C133: overflow in the traversal of expressions of dynamic size. *)
From Coq Require Import ZArith List Lia Bool.
From Verif Require Import Spec L_Spec Spec_Ply Spec_Expr M_Base M_Expr M_Ply M_View Spec_View M_Opt M_Overflow P_Overflow M_Val L_Expr L_Agree L_Ply M_Merge.
Import ListNotations.
Open Scope Z_scope.

(* the steps that the leaves of e have on axis k of e *)
Fixpoint leaf_steps {X W} (e : expr X W) (k : nat) : list Z :=
  match e with
  | Scalar _ => []
  | Cell dv fr _ _ => if (k <? fr)%nat then [step (nth k dv dim0)] else []
  | Reframe a di => flat_map (fun l => leaf_steps a l) (positions_from 0 di k)
  | Map _ t => flat_map (fun a => leaf_steps a k) t
  | Pick _ t => flat_map (fun a => leaf_steps a k) t
  end.

Section Merge.
Context {X W R : Type}.
Lemma keep64_keep : forall e : expr X W, wf e -> forall st z j, (forall s, In s (leaf_steps e z) -> fits64 (st * s)) -> keep64 e st z j = Some (keep e st z j).
Proof.
  assert (Hall : forall t : list (expr X W), Forall (fun e => wf e -> forall st z j, (forall s, In s (leaf_steps e z) -> fits64 (st * s)) -> keep64 e st z j = Some (keep e st z j)) t ->
    Forall wf t -> forall st z j, (forall s, In s (flat_map (fun a => leaf_steps a z) t) -> fits64 (st * s)) ->
    (fix all (t : list (expr X W)) : option bool := match t with [] => Some true | a :: t' => match keep64 a st z j with Some true => all t' | r => r end end) t = Some (forallb (fun a => keep a st z j) t)).
  { induction 1 as [|a t Ha Ht IH]; intros Hw st z j H; auto. inversion Hw; subst. cbn [flat_map forallb] in *. rewrite Ha; auto; [|intros; apply H, in_or_app; auto].
    destruct (keep a st z j); auto. apply IH; auto. intros. apply H, in_or_app; auto. }
  induction e as [c|dv fr val cp|e di IH|op t IH|sel t IH] using expr_ind2; intros Hw st z j H; auto.
  - cbn [keep64 keep]. cbn [leaf_steps] in H. destruct (Nat.ltb_spec z fr).
    + rewrite (proj1 (arith64 _)); [|apply H; left; auto]. auto.
    + rewrite Z.mul_0_r. reflexivity.
  - cbn [keep64 keep]. cbn [leaf_steps wf] in *. destruct Hw as (Hw & Hn & _). destruct (orig di z) as [wz|] eqn:Ez; auto. destruct (orig di j) as [wj|]; auto.
    apply IH; auto. intros s Hs. apply H. rewrite (positions_some _ _ _ _ Hn Ez). cbn. rewrite app_nil_r. auto.
  - cbn [wf] in Hw. apply (Hall t); auto. apply wf_Forall, Hw.
  - cbn [wf] in Hw. apply (Hall t); auto. apply wf_Forall, Hw.
Qed.
Lemma merge64_merge : forall (e : expr X W) rk z s, wf e -> rankn e = rk -> zord rk z -> s = shape e ->
  (forall k, (k < rk)%nat -> fits64 (zprod (skipn k s))) -> (forall k t, (0 < k < rk)%nat -> In t (leaf_steps e (rk - 1)) -> fits64 (zprod (skipn k s) * t)) ->
  forall r o, (r + o = rk)%nat -> (1 <= o)%nat -> merge64 e z r o (zprod (skipn r s)) = Some (merge e z r o (zprod (skipn r s))).
Proof.
  intros e rk z s Hw Hr (Hz & Hzo) Hs Hp Ht. induction r as [|r IH]; intros o Hro Ho; auto. cbn [merge64 merge].
  rewrite (Hzo 0%nat), (Hzo o) by lia. replace (rk - 1 - 0)%nat with (rk - 1)%nat by lia. replace (rk - 1 - o)%nat with r by lia.
  rewrite keep64_keep; auto; [|intros; apply Ht; auto; lia]. destruct (keep e _ _ _); auto.
  assert (E : zprod (skipn (S r) s) * lene e r = zprod (skipn r s)).
  { subst s. rewrite (skipn_cons (shape e) r 0) by (rewrite shape_length; lia). cbn [zprod]. rewrite shape_nth by lia. ring. }
  rewrite E. rewrite (proj1 (arith64 _)) by (apply Hp; lia). apply IH; lia.
Qed.

(* The traversal doesn't overflow if the trailing products of the lengths fit, and also after multiplied by the steps on the last axis *)
Theorem C133_exact : forall (post : X -> option R) z (e : expr X W) s, wf e -> shape_is e s ->
  (forall k, (k < length s)%nat -> fits64 (zprod (skipn k s))) -> (forall k t, (0 < k < length s)%nat -> In t (leaf_steps e (length s - 1)) -> fits64 (zprod (skipn k s) * t)) ->
  forall w, ply_ravel64 post z e w = Some (ply_ravel post z e w).
Proof.
  intros post z e s Hw Hs Hp Ht w. destruct (shape_is_shape _ _ Hw Hs) as (Es & Hv). unfold ply_ravel64, ply_ravel. rewrite Hv. destruct (rankn e) as [|r] eqn:Hr; auto.
  assert (L : length s = S r) by (subst s; rewrite shape_length; auto). rewrite L in *.
  set (z1 := zsetorder (S r) 0 (zresize z (S r))) in *.
  assert (Hz1 : zord (S r) z1).
  { split; [unfold z1; rewrite zsetorder_length, zresize_length; auto|]. intros k Hk. unfold z1. rewrite zsetorder_nth by (rewrite zresize_length; auto). reflexivity. }
  replace (lene e (zorder (zk z1 0))) with (zprod (skipn r s)).
  2: { destruct Hz1 as (_ & Ho). rewrite Ho by lia. replace (S r - 1 - 0)%nat with r by lia. rewrite (skipn_cons s r 0) by lia. rewrite skipn_all2 by lia. subst s. rewrite shape_nth by lia. cbn [zprod]. ring. }
  rewrite (merge64_merge e (S r) z1 s) by (auto; lia). destruct (merge e z1 r 1 (zprod (skipn r s))) as [[r' o] ss]. destruct (setsha e z1 r' 0 o). destruct b; auto.
Qed.

(* e is made of operations on whole arrays: those given by the lengths p, by the constructors *)
Fixpoint wholes (e : expr X W) : Prop :=
  match e with
  | Scalar _ => True
  | Cell dv fr _ _ => fr = length dv /\ exists p n, filldimv64 p = Good (dv, n)
  | Reframe _ _ => False
  | Map _ t => fold_right (fun a p => wholes a /\ p) True t
  | Pick _ t => fold_right (fun a p => wholes a /\ p) True t
  end.
Lemma wholes_Forall : forall t, fold_right (fun a p => wholes a /\ p) True t <-> Forall wholes t.
Proof. induction t; cbn; split; intros H; auto; [constructor; tauto|inversion H; subst; tauto]. Qed.
Lemma good_facts : forall p dv n, filldimv64 p = Good (dv, n) -> length dv = length p /\ nonneg p /\ (forall k, fits64 (zprod (skipn k p))) /\ map len dv = p /\ forall k, (k < length p)%nat -> step (nth k dv dim0) = zprod (skipn (S k) p).
Proof.
  intros p dv n E. destruct (C55_only p) as (H & _). destruct (H _ E) as (Hn & Hf). destruct (C55_exact p Hn Hf) as (dv' & E' & L & S). rewrite E in E'. inversion E'; subst dv' n.
  split; [rewrite <- L, map_length; auto|]. auto.
Qed.
Lemma whole_steps : forall e, wholes e -> forall k, (axes e <= S k)%nat -> Forall (fun t => t = 1) (leaf_steps e k).
Proof.
  assert (Hall : forall t, Forall (fun e => wholes e -> forall k, (axes e <= S k)%nat -> Forall (fun t => t = 1) (leaf_steps e k)) t -> Forall wholes t ->
    forall k, (fold_right (fun a r => Nat.max (axes a) r) 0 t <= S k)%nat -> Forall (fun t => t = 1) (flat_map (fun a => leaf_steps a k) t)).
  { induction 1; intros Hw k Hk; [constructor|]. inversion Hw; subst. cbn [flat_map fold_right] in *. apply Forall_app. split; [apply H; auto; lia|apply IHForall; auto; lia]. }
  induction e as [c|dv fr val cp|e di IH|op t IH|sel t IH] using expr_ind2; intros Hw k Hk.
  - constructor.
  - cbn [leaf_steps axes wholes] in *. destruct Hw as (-> & p & n & E). destruct (good_facts _ _ _ E) as (L & _ & _ & _ & S). destruct (Nat.ltb_spec k (length dv)); constructor; auto.
    rewrite S by lia. rewrite skipn_all2 by lia. reflexivity.
  - destruct Hw.
  - cbn [wholes axes leaf_steps] in *. apply Hall; auto. apply wholes_Forall, Hw.
  - cbn [wholes axes leaf_steps] in *. apply Hall; auto. apply wholes_Forall, Hw.
Qed.
Lemma whole_shape : forall e, wholes e -> (0 < axes e)%nat -> exists p, length p = axes e /\ nonneg p /\ (forall k, fits64 (zprod (skipn k p))) /\ forall k, (k < axes e)%nat -> In (nth k p 0) (leaf_lens e k).
Proof.
  assert (Hall : forall t, Forall (fun e => wholes e -> (0 < axes e)%nat -> exists p, length p = axes e /\ nonneg p /\ (forall k, fits64 (zprod (skipn k p))) /\ forall k, (k < axes e)%nat -> In (nth k p 0) (leaf_lens e k)) t ->
    Forall wholes t -> let n := fold_right (fun a r => Nat.max (axes a) r) 0%nat t in (0 < n)%nat ->
    exists p, length p = n /\ nonneg p /\ (forall k, fits64 (zprod (skipn k p))) /\ forall k, (k < n)%nat -> In (nth k p 0) (flat_map (fun a => leaf_lens a k) t)).
  { induction 1 as [|a t Ha Ht IH]; intros Hw n Hn; [cbn in n; lia|]. inversion Hw; subst. cbn [fold_right] in n. set (m := fold_right (fun a r => Nat.max (axes a) r) 0%nat t) in *.
    destruct (le_lt_dec m (axes a)).
    - destruct Ha as (p & L & N & F & I); auto; [lia|]. exists p. replace n with (axes a) by lia. repeat (split; auto). intros k Hk. cbn [flat_map]. apply in_or_app. auto.
    - destruct IH as (p & L & N & F & I); auto; [lia|]. exists p. fold m in L, I. replace n with m by lia. repeat (split; auto). intros k Hk. cbn [flat_map]. apply in_or_app. auto. }
  induction e as [c|dv fr val cp|e di IH|op t IH|sel t IH] using expr_ind2; intros Hw Hk.
  - cbn in Hk. lia.
  - cbn [leaf_lens axes wholes] in *. destruct Hw as (-> & p & n & E). destruct (good_facts _ _ _ E) as (L & N & F & M & _). exists p. repeat (split; auto). intros k Hk'. destruct (Nat.ltb_spec k (length dv)); [|lia].
    left. rewrite <- M. rewrite (nth_indep _ 0 (len dim0)) by (rewrite map_length; lia). rewrite map_nth. auto.
  - destruct Hw.
  - cbn [wholes axes leaf_lens] in *. apply Hall; auto. apply wholes_Forall, Hw.
  - cbn [wholes axes leaf_lens] in *. apply Hall; auto. apply wholes_Forall, Hw.
Qed.
(* so expressions of whole arrays are traversed without overflow *)
Theorem C133_whole_partial : forall (post : X -> option R) z (e : expr X W) s, wf e -> shape_is e s -> wholes e ->
  forall w, ply_ravel64 post z e w = Some (ply_ravel post z e w).
Proof.
  intros post z e s Hw Hs Hh w. apply (C133_exact post z e s); auto; destruct Hs as (L & Hs).
  - intros k Hk. destruct (whole_shape e Hh) as (p & Lp & Np & Fp & Ip); [lia|]. replace s with p; auto.
    apply (nth_ext _ _ 0 0); [lia|]. intros i Hi. destruct (Hs i) as (H0 & _ & Hf); [lia|]. rewrite Forall_forall in Hf. destruct (Hf _ (Ip i ltac:(lia))) as [E|E]; auto.
    exfalso. assert (0 <= nth i p 0) by (apply (proj1 (Forall_forall _ _) Np); apply nth_In; auto). rewrite E in *. unfold UNB in *. lia.
  - intros k t (Hk0 & Hk) Ht. pose proof (whole_steps e Hh (length s - 1) ltac:(lia)) as Hf. rewrite Forall_forall in Hf. rewrite (Hf _ Ht), Z.mul_1_r.
    destruct (whole_shape e Hh) as (p & Lp & Np & Fp & Ip); [lia|]. replace s with p; auto.
    apply (nth_ext _ _ 0 0); [lia|]. intros i Hi. destruct (Hs i) as (H0 & _ & Hg); [lia|]. rewrite Forall_forall in Hg. destruct (Hg _ (Ip i ltac:(lia))) as [E|E]; auto.
    exfalso. assert (0 <= nth i p 0) by (apply (proj1 (Forall_forall _ _) Np); apply nth_In; auto). rewrite E in *. unfold UNB in *. lia.
Qed.
(* If the lengths don't agree then the 64-bit version refuses, with any lengths and steps. *)
Theorem C133_refused : forall (post : X -> option R) z (e : expr X W), wf e -> ~ agreeing [e] -> forall w, ply_ravel64 post z e w = Some (Fail w, z).
Proof.
  intros post z e Hw Ha w. unfold ply_ravel64. destruct (validate e) eqn:Hv; auto. exfalso. apply Ha. apply validate_iff; auto.
Qed.
End Merge.
(* An array of 2^40 x 2^40 x 0 can be made, and traversed; but not when its last axis is put first *)
Theorem C133_refuted : exists p dv v, filldimv64 p = Good (dv, 0) /\ transpose (Vw dv 0) [1; 2; 0] = Good v /\
  let e : expr Z unit := Cell (vdv v) 3 (fun p => p) (vcp v) in
  wf e /\ shape_is e [0; 2 ^ 40; 2 ^ 40] /\ ply_ravel64 no_stop z_init e tt = None /\ ply_ravel no_stop z_init e tt = (Ok None tt, [Zt 2 0 0; Zt 1 0 0; Zt 0 0 0]).
Proof.
  exists [2 ^ 40; 2 ^ 40; 0], [Dim (2 ^ 40) 0; Dim (2 ^ 40) 0; Dim 0 1], (Vw [Dim 0 1; Dim (2 ^ 40) 0; Dim (2 ^ 40) 0] 0). split; [vm_compute; reflexivity|]. split; [vm_compute; reflexivity|]. cbv zeta.
  assert (Hw : wf (Cell [Dim 0 1; Dim (2 ^ 40) 0; Dim (2 ^ 40) 0] 3 (fun p => p) 0 : expr Z unit)).
  { split; [cbn; lia|]. cbn [firstn]. repeat (apply Forall_cons; [left; cbn [len]; lia|]). apply Forall_nil. }
  split; [exact Hw|]. split; [exact (shape_shape_is _ Hw eq_refl)|]. split; vm_compute; reflexivity.
Qed.
(* a(2 x 0 x 2^62) + b(2): the trailing products fit *)
Definition exd (p : list Z) : list dim := match filldimv64 p with Good (dv, _) => dv | _ => [] end.
Definition exm : expr Z unit := Map (fun xs => ret (fold_right Z.add 0 xs)) [Cell (exd [2; 0; 2 ^ 62]) 3 (fun p => p) 0; Cell (exd [2]) 1 (fun p => p) 5; Scalar 7].
Example ex_whole : wf exm /\ shape_is exm [2; 0; 2 ^ 62] /\ wholes exm /\ ply_ravel64 no_stop z_init exm tt = Some (Ok None tt, [Zt 2 2 0; Zt 1 0 0; Zt 0 0 0]).
Proof.
  assert (Hw : wf exm).
  { split; [discriminate|]. split; [|split; [|split; [exact I|exact I]]].
    - split; [vm_compute; lia|]. change (firstn 3 (exd [2; 0; 2 ^ 62])) with [Dim 2 0; Dim 0 (2 ^ 62); Dim (2 ^ 62) 1]. repeat (apply Forall_cons; [left; cbn [len]; lia|]). apply Forall_nil.
    - split; [vm_compute; lia|]. change (firstn 1 (exd [2])) with [Dim 2 1]. repeat (apply Forall_cons; [left; cbn [len]; lia|]). apply Forall_nil. }
  split; [exact Hw|]. split; [exact (shape_shape_is _ Hw eq_refl)|]. split.
  - split; [split; [reflexivity|exists [2; 0; 2 ^ 62], 0; reflexivity]|]. split; [split; [reflexivity|exists [2], 2; reflexivity]|]. split; exact I.
  - vm_compute. reflexivity.
Qed.

Print Assumptions C133_exact.
Print Assumptions C133_whole_partial.
Print Assumptions C133_refuted.
(* a(3) + b(2) *)
Example ex_refused : let e : expr Z unit := Map (fun xs => ret (fold_right Z.add 0 xs)) [Cell [Dim 3 (2 ^ 62)] 1 (fun p => p) 0; Cell [Dim 2 1] 1 (fun p => p) 5] in
  wf e /\ ~ agreeing [e] /\ ply_ravel64 no_stop z_init e tt = Some (Fail tt, z_init).
Proof.
  cbv zeta. split; [wfauto|]. split; [|vm_compute; reflexivity].
  intros H. specialize (H 0%nat). cbn in H. destruct (H ltac:(lia)) as (n & Hn). destruct Hn as (_ & _ & Hf). inversion Hf; subst. inversion H3; subst. unfold UNB in *. lia.
Qed.
Print Assumptions C133_refused.
