(* Property C91: rank, size, shape. *)
From Coq Require Import ZArith List Lia Bool.
From Verif Require Import Spec L_Spec Spec_Ply Spec_Expr M_Base M_Expr M_Ply L_Expr L_Agree L_Ply L_Stl L_Run M_Static Spec_Static P_Static M_Shape Spec_Shape M_View Spec_View L_View.
Import ListNotations.
Open Scope Z_scope.

Lemma product_nonneg : forall ls s, Forall (fun l => 0 <= l) ls -> product ls s = s * zprod ls.
Proof. induction ls as [|l ls IH]; intros s H; cbn [product zprod fold_right]; [lia|]. inversion H; subst. replace (l <? 0) with false by lia. rewrite IH by auto. unfold zprod. lia. Qed.
Lemma product_neg : forall ls s, ~ Forall (fun l => 0 <= l) ls -> In (product ls s) ls /\ product ls s < 0.
Proof.
  induction ls as [|l ls IH]; intros s H; [exfalso; apply H; constructor|]. cbn [product]. destruct (Z.ltb_spec l 0); [cbn; auto|].
  destruct (IH (s * l)) as (A & B); [intros F; apply H; constructor; auto|]. split; [right; auto|auto].
Qed.
Lemma product_dec : forall ls : list Z, Forall (fun l => 0 <= l) ls \/ ~ Forall (fun l => 0 <= l) ls.
Proof. induction ls as [|l ls [H|H]]; [left; auto| |right; intros F; inversion F; auto]. destruct (Z_le_dec 0 l); [left; auto|right; intros F; inversion F; auto]. Qed.
(* the first negative length is in the same place, if ANY isn't before it *)
Lemma product_same : forall ls ms, Forall2 (fun l m => l = ANY \/ l = m) ls ms -> forall s, product ls s = ANY \/ product ls s = product ms s.
Proof.
  induction 1 as [|l m ls ms [->| ->] H IH]; intros s; cbn [product]; auto. destruct (m <? 0); auto.
Qed.

Lemma static_lens : forall X W t (e : expr X W), instance t e -> wf e -> (forall k, (k < rankn e)%nat -> lene e k <> MIS) -> rank_s t <> ANY ->
  Forall2 (fun l m => l = ANY \/ l = m) (map (fun k => len_s t k false) (seq 0 (Z.to_nat (rank_s t)))) (shape e).
Proof.
  intros X W t e Hi Hw Hm N. unfold shape. destruct (rank_s_rank e t Hi Hw) as [E|E]; [contradiction|]. unfold rankn at 1. rewrite <- E.
  destruct (len_s_false e t Hi Hw) as (Hl & _). apply Forall2_map2.
  assert (G : forall l, (forall k, In k l -> (k < rankn e)%nat) -> Forall2 (fun a b => len_s t a false = ANY \/ len_s t a false = lene e b) l l).
  { induction l as [|k l IH]; intros H; constructor; [|apply IH; intros; apply H; cbn; auto]. specialize (H k ltac:(cbn; auto)). destruct (Hl k H) as [F|F]; [destruct (Hm k H F)|auto]. }
  apply G. intros k Hk. apply in_seq in Hk. unfold rankn. lia.
Qed.

Section Main.
Context {X W : Type}.
Notation thing := (thing X W).

Lemma axes_lens : forall v : thing, match v with Ex _ _ => axes_of v = lens_of v | _ => True end.
Proof. intros [t e| |]; auto. Qed.
Lemma static_axes : forall v : thing, proper v -> rank_s_of v <> ANY -> Forall2 (fun l m => l = ANY \/ l = m) (shape_s_of v) (axes_of v).
Proof.
  intros [t e|ext n|ls] H N; cbn in *.
  - destruct H as (Hi & Hw & Hm). exact (static_lens X W t e Hi Hw Hm N).
  - destruct H. constructor; auto.
  - clear. induction ls; constructor; auto.
Qed.

Theorem C91_rank : forall v : thing, proper v -> rank_of v = Z.of_nat (length (axes_of v)).
Proof.
  intros v H. unfold rank_of. destruct v as [t e|ext n|ls]; cbn [rank_s_of axes_of proper] in *.
  - destruct H as (Hi & Hw & _). rewrite map_length, seq_length. pose proof (rank_nonneg e Hw). destruct (rank_s_rank e t Hi Hw) as [E|E]; rewrite E.
    + cbn. lia.
    + destruct (Z.eqb_spec ANY (rank e)); [unfold ANY in *; lia|]. cbn. lia.
  - reflexivity.
  - destruct (Z.eqb_spec ANY (Z.of_nat (length ls))); [unfold ANY in *; lia|]. reflexivity.
Qed.

(* size is the product, or else negative *)
Theorem C91_size : forall v : thing, proper v ->
  (Forall (fun l => 0 <= l) (axes_of v) -> size_of v = zprod (axes_of v)) /\ (~ Forall (fun l => 0 <= l) (axes_of v) -> In (size_of v) (axes_of v) /\ size_of v < 0).
Proof.
  intros v H. assert (E : size_of v = product (axes_of v) 1).
  { unfold size_of, size_s_of. destruct (Z.eqb_spec ANY (rank_s_of v)) as [E|E]; cbn [negb].
    - replace (ANY =? ANY) with true by reflexivity. cbn [negb]. destruct v as [t e|ext n|ls]; cbn in E; [reflexivity|discriminate|unfold ANY in *; lia].
    - destruct (product_same _ _ (static_axes v H ltac:(congruence)) 1) as [F|F].
      + rewrite F. cbn. destruct v as [t e|ext n|ls]; [reflexivity| |]; cbn [axes_of shape_s_of proper] in *.
        * destruct H as (H & _). rewrite product_nonneg by auto. unfold zprod. cbn [fold_right]. lia.
        * rewrite product_nonneg in F by auto. assert (0 <= zprod ls) by (clear - H; induction H; cbn; nia). unfold ANY in *; lia.
      + destruct (Z.eqb_spec ANY (product (shape_s_of v) 1)) as [F1|F1]; cbn [negb]; [|auto]. destruct v as [t e|ext n|ls]; [reflexivity| |]; cbn [axes_of shape_s_of proper] in *.
        * destruct H as (H & _). rewrite product_nonneg by auto. unfold zprod. cbn [fold_right]. lia.
        * rewrite product_nonneg in F1 by auto. assert (0 <= zprod ls) by (clear - H; induction H; cbn; nia). unfold ANY in *; lia. }
  rewrite E. split; intros F; [rewrite product_nonneg by auto; lia|apply product_neg; auto].
Qed.

Lemma shape_static : forall v : thing, proper v -> orderly v -> size_s_of v <> ANY -> shape_s_of v = axes_of v.
Proof.
  intros v H Ho N. unfold size_s_of in N. destruct (Z.eqb_spec ANY (rank_s_of v)) as [E|E]; cbn [negb] in N; [congruence|].
  pose proof (static_axes v H ltac:(congruence)) as F. destruct v as [t e|ext n|ls]; cbn [shape_s_of axes_of orderly rank_s_of] in *; auto.
  - destruct H as (Hi & Hw & Hm). assert (G : forall n k s ms, Forall2 (fun l m => l = ANY \/ l = m) (map (fun k => len_s t k false) (seq k n)) ms -> Forall (fun m => m <> MIS) ms ->
      Forall oklen ms -> (k + n = Z.to_nat (rank_s t))%nat ->
      product (map (fun k => len_s t k false) (seq k n)) s <> ANY -> map (fun k => len_s t k false) (seq k n) = ms).
    { induction n as [|n IH]; intros k s ms F0 Fm Fo Hk P; cbn [seq map product] in *; [inversion F0; auto|]. inversion F0 as [|? m ? ms' Hl F1]; subst.
      apply Forall_cons_iff in Fm as (Hm1 & Fm). apply Forall_cons_iff in Fo as (Ho1 & Fo). destruct (Z.ltb_spec (len_s t k false) 0) as [L|L].
      - destruct Hl as [Hl|Hl]; [contradiction|]. f_equal; auto. assert (U : len_s t k false = UNB) by (destruct Ho1; lia).
        apply (eq_trans (y := map (fun k => len_s t k false) (seq (S k) n))); auto. revert F1. clear - Ho U Hk E.
        assert (Q : forall l, (forall i, In i l -> len_s t i false <> ANY) -> forall ms', Forall2 (fun l m => l = ANY \/ l = m) (map (fun k => len_s t k false) l) ms' -> map (fun k => len_s t k false) l = ms').
        { induction l as [|i l IHl]; intros Hq us F; inversion F as [|? m' ? us' Hi' F']; subst; auto. cbn [map]. f_equal; [|apply IHl; auto; intros; apply Hq; cbn; auto].
          destruct Hi' as [Hi'|Hi']; auto. destruct (Hq i ltac:(cbn; auto) Hi'). }
        intros F1. apply Q; auto. intros i Hin. apply in_seq in Hin. apply (Ho k i); auto; lia.
      - f_equal; [destruct Hl as [Hl|Hl]; auto; unfold ANY in *; lia|]. apply (IH (S k) (s * len_s t k false)); auto. lia. }
    apply (G _ _ 1 _ F); auto.
    + apply Forall_map. apply Forall_forall. intros k Hk. apply in_seq in Hk. apply Hm. unfold rankn. lia.
    + apply Forall_map. apply Forall_forall. intros k Hk. apply in_seq in Hk. assert (Hk' : (k < rankn e)%nat) by (unfold rankn; lia). destruct (lene_ok e Hw k Hk'); auto. destruct (Hm k Hk' H).
  - destruct H as (_ & [H|H]); subst; auto. destruct (N eq_refl).
Qed.

Theorem C91_shape_partial : forall v : thing, proper v -> orderly v -> shape_of v = axes_of v.
Proof.
  intros v H Ho. unfold shape_of. destruct (Z.eqb_spec ANY (size_s_of v)) as [E|E]; cbn [negb]; [|apply shape_static; auto].
  destruct (Z.eqb_spec 1 (rank_s_of v)) as [E1|E1].
  - destruct (C91_size v H) as (S1 & S2). pose proof (C91_rank v H) as R. unfold rank_of in R. rewrite <- E1 in R. cbn in R.
    destruct (axes_of v) as [|n [|]] eqn:A; cbn in R; try lia. f_equal. destruct (Z_le_dec 0 n); [rewrite S1 by auto; cbn; lia|].
    destruct S2 as ([S2|[]] & _); auto. intros F. inversion F; auto.
  - destruct v as [t e|ext n|ls]; [reflexivity|cbn in E1; lia|]. exfalso. unfold size_s_of in E. cbn [rank_s_of shape_s_of proper] in *.
    destruct (Z.eqb_spec ANY (Z.of_nat (length ls))); cbn [negb] in E; [unfold ANY in *; lia|]. rewrite product_nonneg in E by auto.
    assert (0 <= zprod ls) by (clear - H; induction H; cbn; nia). unfold ANY in *; lia.
Qed.

(* if it can be traversed *)
Theorem C91_bounded : forall t (e : expr X W) s, instance t e -> wf e -> shape_is e s -> rank_of (Ex t e) = Z.of_nat (length s) /\ size_of (Ex t e) = zprod s /\ shape_of (Ex t e) = s.
Proof.
  intros t e s Hi Hw Hs. destruct (shape_is_shape _ _ Hw Hs) as (Es & Va). symmetry in Es. pose proof (proj1 (validate_iff _ Hw) Va) as A.
  pose proof (proj1 (shape_agree e Hw) A) as Hn. assert (P : proper (Ex t e)).
  { repeat split; auto. intros k Hk E. specialize (Hn k Hk). rewrite E in Hn. unfold MIS in Hn. lia. }
  assert (Ea : axes_of (Ex t e) = s) by (cbn; rewrite <- Es; reflexivity). split; [rewrite (C91_rank _ P), Ea; auto|]. split.
  - rewrite (proj1 (C91_size _ P)); rewrite Ea; auto. rewrite <- Es. unfold shape. apply Forall_map. apply Forall_forall. intros k Hk. apply in_seq in Hk. apply Hn. lia.
  - rewrite <- Ea. apply C91_shape_partial; auto. intros i k Hik Hk U. exfalso. cbn in Hk. destruct (rank_s_rank e t Hi Hw) as [E|E]; [rewrite E in Hk; unfold ANY in Hk; lia|].
    assert (Hi' : (i < rankn e)%nat) by (unfold rankn; lia). destruct (len_s_false e t Hi Hw) as (Hl & _). specialize (Hn i Hi').
    destruct (Hl i Hi') as [F|[F|F]]; rewrite ?F in *; unfold MIS, ANY, UNB in *; lia.
Qed.
End Main.

(* from(plus, iota(), a) with a of rank 1 and dynamic length: the second length is ANY *)
Theorem C91_refuted : let t := TMatch [TCell (Some [UNB]); TReframe (TCell (Some [ANY])) [1%nat]] in
  forall n, 0 <= n -> let e := Map plus [cellz [UNB]; Reframe (cellz [n]) [1%nat]] in
  proper (Ex t e) /\ rank_of (Ex t e) = 2 /\ lene e 0 = UNB /\ lene e 1 = n /\ shape_of (Ex t e) = [UNB; ANY].
Proof.
  intros t n Hn e. assert (E1 : lene e 1 = n).
  { cbn. unfold colen. destruct (Z.eqb_spec MIS n); [unfold MIS in *; lia|]. destruct (Z.eqb_spec UNB n); [unfold UNB in *; lia|]. destruct n; cbn; auto; lia. }
  split; [|split; [reflexivity|split; [reflexivity|split; [exact E1|reflexivity]]]]. split; [|split].
  - constructor. constructor; [apply i_cell; auto; intros [|k] Hk; cbn in *; auto; lia|]. constructor; [|constructor]. constructor. apply i_cell; auto. intros [|k] Hk; cbn in *; auto; lia.
  - subst e. wfauto; repeat constructor; cbn; try lia.
  - intros [|[|k]] Hk; [discriminate| |cbn in Hk; lia]. rewrite E1. unfold MIS. lia.
Qed.

(* a + b + 7 with a 2x3 in the type, b of dynamic rank; std::vector, std::array, a built in array; iota() + a(insert<1>) *)
Example C91_ex : let t := TMatch [TCell (Some [2; 3]); TCell None; TScalar] in let e := Map plus [cellz [2; 3]; cellz [2]; Scalar 7] in
  instance t e /\ wf e /\ shape_is e [2; 3] /\ rank_of (Ex t e) = 2 /\ size_of (Ex t e) = 6 /\ shape_of (Ex t e) = [2; 3] /\
  (let v := @Fov Z unit ANY 4 in proper v /\ orderly v /\ shape_of v = [4]) /\ (let v := @Fov Z unit 5 5 in proper v /\ shape_of v = [5] /\ size_of v = 5) /\
  (let v := @Builtin Z unit [2; 0; 3] in proper v /\ rank_of v = 3 /\ size_of v = 0 /\ shape_of v = [2; 0; 3]) /\
  (let v := Ex (TCell (Some [UNB; 3])) (cellz [UNB; 3]) in proper v /\ orderly v /\ shape_of v = [UNB; 3] /\ size_of v = UNB).
Proof.
  intros t e. assert (We : wf e) by (subst e; wfauto; repeat constructor; cbn; lia).
  assert (Ie : instance t e).
  { constructor. constructor; [apply i_cell; auto; intros [|[|k]] Hk; cbn in *; auto; lia|]. repeat constructor. }
  assert (Se : shape_is e [2; 3]) by exact (shape_shape_is _ We eq_refl).
  destruct (C91_bounded t e [2; 3] Ie We Se) as (A & B & C). repeat (split; [assumption|]). repeat split; auto; try lia.
  - repeat constructor; lia.
  - apply i_cell; auto. intros [|[|k]] Hk; cbn in *; auto; lia.
  - wfauto; repeat constructor; cbn; lia.
  - intros [|[|k]] Hk; [discriminate|discriminate|cbn in Hk; lia].
  - intros [|[|i]] [|[|k]] Hik Hk U; cbn in *; try lia; discriminate.
Qed.

(* ---- C109 ---- *)

(* some axis has length 0 *)
Theorem C109_empty : forall dv, dimv_empty dv = true <-> In 0 (map len dv).
Proof. induction dv as [|d dv IH]; cbn [dimv_empty map In]; [split; [discriminate|tauto]|]. destruct (Z.eqb_spec 0 (len d)); [split; auto|]. rewrite IH. split; [auto|]. intros [H|H]; [congruence|auto]. Qed.
(* If all the lengths are known that's the same as size() being 0 and as not having any indices. *)
Theorem C109_size : forall dv, nonneg (map len dv) -> 0 <= dimv_size dv /\ (dimv_empty dv = true <-> dimv_size dv = 0) /\ (dimv_empty dv = true <-> ~ exists j, inshape j (map len dv)).
Proof.
  intros dv H. rewrite dimv_size_prod by auto. rewrite C109_empty. generalize dependent (map len dv). intros s H. split; [apply zprod_nonneg; auto|].
  assert (E : In 0 s <-> zprod s = 0). { induction s as [|n s IH]; [cbn; split; [tauto|lia]|]. inversion H; subst. change (zprod (n :: s)) with (n * zprod s). rewrite Z.mul_eq_0, <- IH by auto. cbn [In]. tauto. }
  split; [auto|]. split.
  - intros H0 (j & Hj). clear E. induction Hj as [|i n j s Hi Hj IH]; [destruct H0|]. inversion H; subst. destruct H0 as [->|H0]; [lia|]. apply IH; auto.
  - intros Hn. destruct (in_dec Z.eq_dec 0 s) as [|N]; [auto|]. exfalso. apply Hn. exists (repeat 0 (length s)). clear Hn E. induction H as [|n s Hn Hs IH]; cbn [length repeat]; constructor.
    + assert (n <> 0) by (intros ->; apply N; left; auto). lia.
    + apply IH. intros ?. apply N. right; auto.
Qed.
(* If some are not, size() is the first of those, also if other lengths are 0. *)
Theorem C109_unbounded : forall d1 d d2, nonneg (map len d1) -> len d < 0 -> dimv_size (d1 ++ d :: d2) = len d.
Proof.
  intros d1 d d2 H Hd. unfold dimv_size. generalize 1. induction d1 as [|x d1 IH]; intros s; cbn [app dimv_size_loop].
  - destruct (Z.ltb_spec (len d) 0); [reflexivity|lia].
  - inversion H; subst. destruct (Z.ltb_spec (len x) 0); [lia|]. apply IH. auto.
Qed.
Example C109_ex : nonneg (map len [Dim 2 0; Dim 0 3]) /\ dimv_empty [Dim 2 0; Dim 0 3] = true /\ dimv_empty [Dim 2 1] = false /\ dimv_empty [] = false /\
  dimv_size [Dim 0 1; Dim UNB 0] = UNB /\ dimv_empty [Dim 0 1; Dim UNB 0] = true.
Proof. split; [repeat constructor; cbn; lia|]. repeat split. Qed.
Print Assumptions C109_empty.
Print Assumptions C109_size.
Print Assumptions C109_unbounded.
Print Assumptions C91_rank.
Print Assumptions C91_size.
Print Assumptions C91_shape_partial.
Print Assumptions C91_bounded.
Print Assumptions C91_refuted.
