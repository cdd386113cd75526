(* Properties of assignments where the source reads what the destination writes: C82. *)
From Coq Require Import ZArith List Lia Bool.
From Verif Require Import Spec M_Base M_Expr M_Ply L_Spec L_Expr Spec_Ply L_Ply Spec_Expr L_Agree L_Run M_Val Spec_Val L_Val P_Reduce Spec_Overlap.
Import ListNotations.
Open Scope Z_scope.

(* Any source and destination, with any side effects and failures: an assignment is the loop in row-major order. *)
Theorem C82_loop : forall T f (d e : expr (val T) (mem T)) s js m fixed z, wf d -> wf e -> joint_shape [d; e] s -> row_major s js -> zclean z ->
  assign fixed z f d e m = assign_loop (element d) (element e) f js m.
Proof.
  intros T f d e s js m fixed z Hd He Hs Hj Hz. unfold assign. rewrite (ply_spec _ _ _ no_stop fixed z _ s js); auto.
  2:{ apply wf_map; [discriminate|]. constructor; auto. }
  clear. revert m. induction js as [|j js IH]; intros m; [reflexivity|]. cbn [visit assign_loop element map in_order].
  destruct (element d j m) as [r m1|m1|]; [|reflexivity|reflexivity]. destruct (element e j m1) as [v m2|m2|]; [|reflexivity|reflexivity].
  unfold assign_op, op2, bind. destruct r; try reflexivity. destruct v; cbn [rd value_of]; try reflexivity; cbn [no_stop]; rewrite <- IH; reflexivity.
Qed.

Section Vector.
Context {T : Type}.

(* the memory after the first k assignments *)
Fixpoint after (dst src : Z -> Z) (m : mem T) (k : nat) : mem T :=
  match k with
  | O => m
  | S k' => let m' := after dst src m k' in fun q => if q =? dst (Z.of_nat k') then m' (src (Z.of_nat k')) else m' q
  end.

Lemma indices_1 : forall n, indices [n] = map (fun i => [i]) (zrange n).
Proof. intros n. cbn [indices map]. induction (zrange n); cbn; [reflexivity|]. f_equal; auto. Qed.

Lemma vector_loop : forall cd cs sd ss n m, assign_loop (element (Cell [Dim n sd] 1 VRef cd)) (element (Cell [Dim n ss] 1 VRef cs)) (fun _ x => x) (indices [n]) m =
  Ok None (after (fun i => cd + i * sd) (fun i => cs + i * ss) m (Z.to_nat n)).
Proof.
  intros cd cs sd ss n m. rewrite indices_1. unfold zrange.
  assert (G : forall k j, assign_loop (element (Cell [Dim n sd] 1 VRef cd)) (element (Cell [Dim n ss] 1 VRef cs)) (fun _ x => x) (map (fun i => [i]) (map Z.of_nat (seq j k)))
      (after (fun i => cd + i * sd) (fun i => cs + i * ss) m j) = Ok None (after (fun i => cd + i * sd) (fun i => cs + i * ss) m (j + k))).
  { induction k as [|k IH]; intros j; [rewrite Nat.add_0_r; reflexivity|].
    rewrite <- Nat.add_succ_comm. rewrite <- IH. cbn [seq map assign_loop element ret place firstn length step value_of after]. unfold ret. cbn [value_of].
    rewrite !Z.add_0_r. reflexivity. }
  apply (G (Z.to_nat n) 0%nat).
Qed.

Lemma vector_wf : forall n st c, 0 <= n -> wf (Cell [Dim n st] 1 VRef c : expr (val T) (mem T)).
Proof. intros. cbn. split; [lia|]. repeat constructor; unfold oklen; cbn; lia. Qed.

Lemma vector_joint : forall n s1 s2 c1 c2, 0 <= n -> joint_shape [Cell [Dim n s1] 1 VRef c1 : expr (val T) (mem T); Cell [Dim n s2] 1 VRef c2] [n].
Proof. intros. split; [reflexivity|]. intros [|k] Hk; cbn in *; [|lia]. repeat split; auto. Qed.

Lemma vector_assign : forall n cd cs sd ss m fixed z, 0 <= n -> zclean z ->
  assign fixed z (fun _ x => x) (Cell [Dim n sd] 1 VRef cd) (Cell [Dim n ss] 1 VRef cs) m = Ok None (after (fun i => cd + i * sd) (fun i => cs + i * ss) m (Z.to_nat n)).
Proof.
  intros. rewrite (C82_loop T _ _ _ [n] (indices [n])); auto using vector_wf, row_major_indices.
  - apply vector_loop.
  - apply vector_joint; auto.
Qed.

Lemma after_other : forall dst src (m : mem T) k p, (forall i, 0 <= i < Z.of_nat k -> p <> dst i) -> after dst src m k p = m p.
Proof.
  induction k; intros p H; [reflexivity|]. cbn [after]. destruct (Z.eqb_spec p (dst (Z.of_nat k))) as [->|]; [exfalso; apply (H (Z.of_nat k)); auto; lia|].
  apply IHk. intros; apply H; lia.
Qed.

Lemma step_inj : forall c st i j, st <> 0 -> c + i * st = c + j * st -> i = j.
Proof. intros. nia. Qed.

Lemma mod_turn : forall i d, 0 < d -> (i + d) mod d = i mod d.
Proof. intros. rewrite <- (Z.mod_add i 1 d) by lia. f_equal. lia. Qed.

(* In all of these, the source and the destination are pieces of a vector with places c, c+st, ... *)

(* v(0 ... n-1) = v(d ... d+n-1) copies *)
Theorem C82_shift_left : forall n d c st (m : mem T) fixed z, 0 <= n -> 0 <= d -> st <> 0 -> zclean z ->
  exists m', assign fixed z (fun _ x => x) (Cell [Dim n st] 1 VRef c) (Cell [Dim n st] 1 VRef (c + d * st)) m = Ok None m' /\
    vector_becomes m m' c st n (fun i => m (c + (i + d) * st)).
Proof.
  intros n d c st m fixed z Hn Hd Hst Hz. eexists; split; [apply vector_assign; auto|]. split.
  - assert (G : forall k i, 0 <= i -> after (fun i => c + i * st) (fun i => c + d * st + i * st) m k (c + i * st) = if i <? Z.of_nat k then m (c + (i + d) * st) else m (c + i * st)).
    { induction k as [|k IH]; intros i Hi; [cbn [after]; destruct (Z.ltb_spec i (Z.of_nat 0)); [lia|reflexivity]|].
      cbn [after]. destruct (Z.eqb_spec (c + i * st) (c + Z.of_nat k * st)) as [E|E].
      - apply step_inj in E; auto. subst i. destruct (Z.ltb_spec (Z.of_nat k) (Z.of_nat (S k))); [|lia].
        replace (c + d * st + Z.of_nat k * st) with (c + (Z.of_nat k + d) * st) by ring. rewrite IH by lia.
        destruct (Z.ltb_spec (Z.of_nat k + d) (Z.of_nat k)); [lia|reflexivity].
      - rewrite IH by auto. assert (i <> Z.of_nat k) by congruence. destruct (Z.ltb_spec i (Z.of_nat k)), (Z.ltb_spec i (Z.of_nat (S k))); auto; lia. }
    intros i Hi. rewrite G by lia. rewrite Z2Nat.id by lia. destruct (Z.ltb_spec i n); [reflexivity|lia].
  - intros p Hp. apply after_other. rewrite Z2Nat.id by lia. exact Hp.
Qed.

(* v(d ... d+n-1) = v(0 ... n-1) repeats v(0 ... d-1) *)
Theorem C82_shift_right : forall n d c st (m : mem T) fixed z, 0 <= n -> 0 < d -> st <> 0 -> zclean z ->
  exists m', assign fixed z (fun _ x => x) (Cell [Dim n st] 1 VRef (c + d * st)) (Cell [Dim n st] 1 VRef c) m = Ok None m' /\
    vector_becomes m m' (c + d * st) st n (fun i => m (c + (i mod d) * st)).
Proof.
  intros n d c st m fixed z Hn Hd Hst Hz. eexists; split; [apply vector_assign; auto|]. split.
  - assert (G : forall k i, 0 <= i < Z.of_nat k + d -> after (fun i => c + d * st + i * st) (fun i => c + i * st) m k (c + i * st) = m (c + (i mod d) * st)).
    { induction k as [|k IH]; intros i Hi; [cbn [after]; rewrite Z.mod_small by lia; reflexivity|].
      cbn [after]. destruct (Z.eqb_spec (c + i * st) (c + d * st + Z.of_nat k * st)) as [E|E].
      - replace (c + d * st + Z.of_nat k * st) with (c + (Z.of_nat k + d) * st) in E by ring. apply step_inj in E; auto. subst i.
        rewrite IH by lia. rewrite mod_turn by lia. reflexivity.
      - apply IH. assert (i <> Z.of_nat k + d) by (intros ->; apply E; ring). lia. }
    intros i Hi. replace (c + d * st + i * st) with (c + (i + d) * st) by ring. rewrite G by lia. rewrite mod_turn by lia. reflexivity.
  - intros p Hp. apply after_other. rewrite Z2Nat.id by lia. exact Hp.
Qed.

(* v = reverse(v) doesn't reverse v: it repeats its second half *)
Theorem C82_reverse : forall n c st (m : mem T) fixed z, 0 <= n -> st <> 0 -> zclean z ->
  exists m', assign fixed z (fun _ x => x) (Cell [Dim n st] 1 VRef c) (Cell [Dim n (- st)] 1 VRef (c + (n - 1) * st)) m = Ok None m' /\
    vector_becomes m m' c st n (fun i => m (c + (Z.max i (n - 1 - i)) * st)).
Proof.
  intros n c st m fixed z Hn Hst Hz. eexists; split; [apply vector_assign; auto|]. split.
  - assert (G : forall k i, Z.of_nat k <= n -> 0 <= i < n -> after (fun i => c + i * st) (fun i => c + (n - 1) * st + i * - st) m k (c + i * st) =
      m (c + (if i <? Z.of_nat k then Z.max i (n - 1 - i) else i) * st)).
    { induction k as [|k IH]; intros i Hk Hi; [cbn [after]; destruct (Z.ltb_spec i (Z.of_nat 0)); [lia|reflexivity]|].
      cbn [after]. destruct (Z.eqb_spec (c + i * st) (c + Z.of_nat k * st)) as [E|E].
      - apply step_inj in E; auto. subst i. destruct (Z.ltb_spec (Z.of_nat k) (Z.of_nat (S k))); [|lia].
        replace (c + (n - 1) * st + Z.of_nat k * - st) with (c + (n - 1 - Z.of_nat k) * st) by ring. rewrite IH by lia.
        destruct (Z.ltb_spec (n - 1 - Z.of_nat k) (Z.of_nat k)); do 3 f_equal; lia.
      - rewrite IH by lia. assert (i <> Z.of_nat k) by congruence. destruct (Z.ltb_spec i (Z.of_nat k)), (Z.ltb_spec i (Z.of_nat (S k))); auto; lia. }
    intros i Hi. rewrite G by lia. rewrite Z2Nat.id by lia. destruct (Z.ltb_spec i n); [reflexivity|lia].
  - intros p Hp. apply after_other. rewrite Z2Nat.id by lia. exact Hp.
Qed.
End Vector.

Example C82_ex : forall fixed,
  (exists m, assign fixed z_init (fun _ x => x) (exV [Dim 4 1] 2) (exV [Dim 4 1] 0) exm = Ok None m /\ map m (zrange 7) = map exm [0; 1; 0; 1; 0; 1; 6]) /\
  (exists m, assign fixed z_init (fun _ x => x) (exV [Dim 4 1] 0) (exV [Dim 4 1] 2) exm = Ok None m /\ map m (zrange 7) = map exm [2; 3; 4; 5; 4; 5; 6]) /\
  (exists m, assign fixed z_init (fun _ x => x) (exV [Dim 5 1] 0) (exV [Dim 5 (-1)] 4) (fun p => p) = Ok None m /\ map m (zrange 6) = [4; 3; 2; 3; 4; 5]).
Proof. intros [|]; repeat split; eexists; split; vm_compute; reflexivity. Qed.

(* as if the source had been read first: false *)
Theorem C82_not_at_once : exists (d e : expr (val Z) (mem Z)) s pl x m, wf d /\ wf e /\ joint_shape [d; e] s /\ refers d s pl /\ (forall i j, inshape i s -> inshape j s -> pl i = pl j -> i = j) /\
  reads e s m x /\ forall fixed, exists m' j, assign fixed z_init (fun _ x => x) d e m = Ok None m' /\ inshape j s /\ m' (pl j) <> x j.
Proof.
  exists (exV [Dim 2 1] 1), (exV [Dim 2 1] 0), [2], (fun j => 1 + nth 0 j 0), (fun j => nth 0 j 0), (fun p => p).
  split; [apply vector_wf; lia|]. split; [apply vector_wf; lia|].
  assert (I : forall j, inshape j [2] -> exists i, j = [i] /\ 0 <= i < 2). { intros j H. inversion H as [|i ? ? ? Hi H']; subst. inversion H'; subst. eauto. }
  split; [apply vector_joint; lia|]. split; [|split; [|split]].
  - intros j m Hj. destruct (I _ Hj) as (i & -> & _). cbn. rewrite Z.mul_1_r, Z.add_0_r. reflexivity.
  - intros i j Hi Hj E. destruct (I _ Hi) as (i' & -> & _), (I _ Hj) as (j' & -> & _). cbn [nth] in E. f_equal. lia.
  - intros j Hj. destruct (I _ Hj) as (i & -> & _). exists (VRef i). split; [|reflexivity]. cbn. rewrite Z.mul_1_r, Z.add_0_r. reflexivity.
  - intros [|]; eexists; exists [1]; (split; [vm_compute; reflexivity|split; [repeat constructor; lia|vm_compute; discriminate]]).
Qed.
Print Assumptions C82_loop.
Print Assumptions C82_shift_left.
Print Assumptions C82_shift_right.
Print Assumptions C82_reverse.
Print Assumptions C82_not_at_once.
