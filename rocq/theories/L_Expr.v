(* Facts about the iterators of M_Expr.v: what each operation does to the position. *)
From Coq Require Import ZArith List Lia Bool.
From Coq Require Import ZifyBool ZifyNat.
From Verif Require Import Spec L_Spec M_Base M_Expr.
Import ListNotations.
Open Scope Z_scope.

Section LExpr.
Context {X W : Type}.
Notation expr := (expr X W).

Lemma expr_ind2 : forall P : expr -> Prop,
  (forall c, P (Scalar c)) ->
  (forall dv fr val cp, P (Cell dv fr val cp)) ->
  (forall a di, P a -> P (Reframe a di)) ->
  (forall op t, Forall P t -> P (Map op t)) ->
  (forall sel t, Forall P t -> P (Pick sel t)) ->
  forall e, P e.
Proof.
  intros P H1 H2 H3 H4 H5. fix IH 1. intros [c|dv fr val cp|a di|op t|sel t].
  - apply H1.
  - apply H2.
  - apply H3, IH.
  - apply H4. induction t; constructor; auto.
  - apply H5. induction t; constructor; auto.
Qed.

(* Lengths that a leaf may have. *)
Definition oklen (n : Z) : Prop := 0 <= n \/ n = UNB.

(* Expressions that the library builds: the frame of a cell is part of its dimensions, Reframe has a different destination for each axis,
   Map and Pick have arguments. *)
Fixpoint wf (e : expr) : Prop :=
  match e with
  | Scalar _ => True
  | Cell dv fr _ _ => (fr <= length dv)%nat /\ Forall (fun d => oklen (len d)) (firstn fr dv)
  | Reframe a di => wf a /\ NoDup di /\ Z.of_nat (length di) = rank a
  | Map _ t => t <> [] /\ fold_right (fun a p => wf a /\ p) True t
  | Pick _ t => t <> [] /\ fold_right (fun a p => wf a /\ p) True t
  end.

Lemma wf_Forall : forall t, fold_right (fun a p => wf a /\ p) True t <-> Forall wf t.
Proof.
  induction t; simpl; split; intros; auto.
  - destruct H. constructor; tauto.
  - inversion H; subst. tauto.
Qed.

(* The iterator e, moved from its initial position by index f. *)
Definition cellpos (dv : list dim) (fr : nat) (f : nat -> Z) : Z :=
  zsum (map (fun k => f k * step (nth k dv dim0)) (seq 0 fr)).

Fixpoint goto (e : expr) (f : nat -> Z) : expr :=
  match e with
  | Scalar c => Scalar c
  | Cell dv fr val cp => Cell dv fr val (cp + cellpos dv fr f)
  | Reframe a di => Reframe (goto a (fun l => f (nth l di 0%nat))) di
  | Map op t => Map op (map (fun a => goto a f) t)
  | Pick sel t => Pick sel (map (fun a => goto a f) t)
  end.

(* move on axis k *)
Definition upd (f : nat -> Z) (k : nat) (d : Z) : nat -> Z := fun i => if Nat.eqb i k then f i + d else f i.
Definition fz (j : list Z) : nat -> Z := fun k => nth k j 0.

(* rank *)

Lemma corank_nonneg : forall a b, 0 <= a -> 0 <= b -> corank a b = Z.max a b.
Proof.
  intros. unfold corank, ANY. destruct (Z.eqb_spec (-1944444444) a); [lia|].
  destruct (Z.eqb_spec (-1944444444) b); [lia|].
  destruct (Z.leb_spec 0 a); [|lia]. destruct (Z.leb_spec 0 b); lia.
Qed.

Lemma corank_unb : forall a, 0 <= a -> corank a UNB = a.
Proof.
  intros. unfold corank, ANY, UNB. destruct (Z.eqb_spec (-1944444444) a); [lia|].
  simpl. destruct (Z.leb_spec 0 a); lia.
Qed.

Lemma fold_corank : forall rs r, 0 <= r -> Forall (fun x => 0 <= x) rs ->
  fold_left (fun r p => corank p r) rs r = fold_left Z.max rs r.
Proof.
  induction rs; simpl; intros; [reflexivity|]. inversion H0; subst.
  rewrite corank_nonneg by auto. rewrite (Z.max_comm a r). apply IHrs; auto. lia.
Qed.

Lemma fold_max_ge : forall rs r, r <= fold_left Z.max rs r /\ Forall (fun x => x <= fold_left Z.max rs r) rs.
Proof.
  induction rs; simpl; intros; [split; [lia|constructor]|].
  destruct (IHrs (Z.max r a)). split; [lia|]. constructor; auto. lia.
Qed.

Lemma fold_max_in : forall rs r, fold_left Z.max rs r = r \/ In (fold_left Z.max rs r) rs.
Proof.
  induction rs; simpl; intros; [auto|].
  destruct (IHrs (Z.max r a)); [|auto]. rewrite H. destruct (Z.max_spec r a) as [[? ->]|[? ->]]; auto.
Qed.

Lemma match_rank_max : forall rs, rs <> [] -> Forall (fun x => 0 <= x) rs ->
  In (match_rank rs) rs /\ Forall (fun x => x <= match_rank rs) rs.
Proof.
  intros [|r rs] H H0; [congruence|]. inversion H0; subst.
  unfold match_rank. simpl. rewrite corank_unb by auto. rewrite fold_corank by auto.
  destruct (fold_max_ge rs r). destruct (fold_max_in rs r); split; auto.
Qed.

Lemma rank_nonneg : forall e, wf e -> 0 <= rank e.
Proof.
  assert (Hm : forall t, Forall (fun e => wf e -> 0 <= rank e) t -> t <> [] -> fold_right (fun a p => wf a /\ p) True t ->
    0 <= match_rank (map rank t)).
  { intros t H H0 H1. apply wf_Forall in H1.
    assert (Hr : Forall (fun x => 0 <= x) (map rank t)).
    { apply Forall_map. rewrite Forall_forall in *. intros; apply H; auto. }
    destruct (match_rank_max (map rank t)) as [Hin _]; auto.
    { intros E. apply map_eq_nil in E. auto. }
    rewrite Forall_forall in Hr. apply Hr; auto. }
  induction e using expr_ind2; simpl; intros.
  - lia.
  - lia.
  - destruct H as (H & _). unfold reframe_rank. destruct di; lia.
  - destruct H0; auto.
  - destruct H0; auto.
Qed.

Lemma rankn_sub : forall (op : list X -> M W X) t, t <> [] -> Forall wf t -> forall a, In a t -> (rankn a <= rankn (Map op t))%nat.
Proof.
  intros op t H H0 a Ha. unfold rankn. simpl.
  destruct (match_rank_max (map rank t)) as [_ Hm].
  - intros E. apply map_eq_nil in E. auto.
  - apply Forall_map. rewrite Forall_forall in *. intros; apply rank_nonneg; auto.
  - rewrite Forall_forall in Hm. specialize (Hm (rank a) (in_map _ _ _ Ha)). lia.
Qed.

(* positions do not change the shape *)

Lemma goto_rank : forall e f, rank (goto e f) = rank e.
Proof.
  assert (Hm : forall f t, Forall (fun e => forall f, rank (goto e f) = rank e) t -> map rank (map (fun a => goto a f) t) = map rank t).
  { intros. rewrite map_map. apply map_ext_in. intros a Ha. rewrite Forall_forall in H. auto. }
  induction e using expr_ind2; simpl; intros; auto; rewrite Hm; auto.
Qed.

Lemma goto_rankn : forall e f, rankn (goto e f) = rankn e.
Proof. intros. unfold rankn. rewrite goto_rank. reflexivity. Qed.

Lemma goto_len : forall e f k, lene (goto e f) k = lene e k.
Proof.
  assert (Hm : forall f k t, Forall (fun e => forall f k, lene (goto e f) k = lene e k) t ->
    map (fun a => (rank a, lene a k)) (map (fun a => goto a f) t) = map (fun a => (rank a, lene a k)) t).
  { intros. rewrite map_map. apply map_ext_in. intros a Ha. rewrite Forall_forall in H. rewrite goto_rank, H; auto. }
  induction e using expr_ind2; simpl; intros; auto.
  - destruct (orig di k); auto.
  - rewrite Hm; auto.
  - rewrite Hm; auto.
Qed.

Lemma goto_step : forall e f k, stepe (goto e f) k = stepe e k.
Proof.
  assert (Hm : forall f k t, Forall (fun e => forall f k, stepe (goto e f) k = stepe e k) t ->
    map (fun a => stepe a k) (map (fun a => goto a f) t) = map (fun a => stepe a k) t).
  { intros. rewrite map_map. apply map_ext_in. intros a Ha. rewrite Forall_forall in H. rewrite H; auto. }
  induction e using expr_ind2; simpl; intros; auto.
  - destruct (orig di k); auto. rewrite IHe; auto.
  - rewrite Hm; auto.
  - rewrite Hm; auto.
Qed.

Lemma goto_keep : forall e f st z j, keep (goto e f) st z j = keep e st z j.
Proof.
  assert (Hm : forall f st z j t, Forall (fun e => forall f st z j, keep (goto e f) st z j = keep e st z j) t ->
    forallb (fun a => keep a st z j) (map (fun a => goto a f) t) = forallb (fun a => keep a st z j) t).
  { induction t; simpl; intros; [reflexivity|]. inversion H; subst. rewrite H2, IHt; auto. }
  induction e using expr_ind2; simpl; intros; auto.
  destruct (orig di z); auto. destruct (orig di j); auto.
Qed.

(* positions only depend on the index up to the rank *)

Lemma reframe_bound : forall di l, (l < length di)%nat -> (nth l di 0 < Z.to_nat (reframe_rank di))%nat.
Proof.
  intros di l H. pose proof (nth_In di 0%nat H) as Hin.
  assert (Hb : forall d, In d di -> (d <= fold_right Nat.max 0 di)%nat).
  { clear. induction di; simpl; intros; [tauto|]. destruct H; [lia|]. specialize (IHdi _ H). lia. }
  specialize (Hb _ Hin). unfold reframe_rank. destruct di; [simpl in H; lia|]. lia.
Qed.

Lemma goto_ext : forall e f g, wf e -> (forall k, (k < rankn e)%nat -> f k = g k) -> goto e f = goto e g.
Proof.
  assert (Hm : forall (op : list X -> M W X) f g t, Forall (fun e => forall f g, wf e -> (forall k, (k < rankn e)%nat -> f k = g k) -> goto e f = goto e g) t ->
    t <> [] -> Forall wf t -> (forall k, (k < rankn (Map op t))%nat -> f k = g k) ->
    map (fun a => goto a f) t = map (fun a => goto a g) t).
  { intros. apply map_ext_in. intros a Ha. pose proof (rankn_sub op t H0 H1 a Ha).
    rewrite Forall_forall in H, H1. apply H; auto. intros. apply H2. lia. }
  induction e using expr_ind2; simpl; intros; auto.
  - f_equal. f_equal. unfold cellpos. f_equal. apply map_ext_in. intros k Hk. apply in_seq in Hk.
    rewrite H0; auto. unfold rankn; simpl; lia.
  - destruct H as (H & Hd & Hr). f_equal. apply IHe; auto. intros k Hk. apply H0. unfold rankn in *. simpl.
    apply reframe_bound. lia.
  - destruct H0. apply wf_Forall in H2. f_equal. apply (Hm op); auto.
  - destruct H0. apply wf_Forall in H2. f_equal. apply (Hm (fun _ => fail)); auto.
Qed.

Lemma goto_zero : forall e, goto e (fun _ => 0) = e.
Proof.
  assert (Hm : forall t, Forall (fun e => goto e (fun _ => 0) = e) t -> map (fun a => goto a (fun _ => 0)) t = t).
  { induction t; simpl; intros; auto. inversion H; subst. rewrite H2, IHt; auto. }
  induction e using expr_ind2; simpl; intros; auto.
  - f_equal. unfold cellpos. replace (zsum _) with 0; [lia|]. induction (seq 0 fr); simpl; auto.
  - rewrite IHe; auto.
  - rewrite Hm; auto.
  - rewrite Hm; auto.
Qed.

(* adv *)

Lemma cellpos_upd : forall dv fr f k d, cellpos dv fr (upd f k d) = cellpos dv fr f + d * (if (k <? fr)%nat then step (nth k dv dim0) else 0).
Proof.
  intros. unfold cellpos.
  assert (H : forall n s, zsum (map (fun i => upd f k d i * step (nth i dv dim0)) (seq s n)) =
    zsum (map (fun i => f i * step (nth i dv dim0)) (seq s n)) + d * (if ((s <=? k) && (k <? s+n))%nat then step (nth k dv dim0) else 0)).
  { induction n; intros; cbn [seq map zsum].
    - destruct (s <=? k)%nat eqn:E1; destruct (k <? s+0)%nat eqn:E2; simpl; try lia.
    - rewrite IHn. unfold upd at 1. destruct (Nat.eqb_spec s k).
      + subst. replace ((S k <=? k)%nat) with false by lia. replace ((k <=? k)%nat) with true by lia.
        replace ((k <? k + S n)%nat) with true by lia. simpl andb. cbv iota. ring.
      + replace ((S s <=? k) && (k <? S s + n))%nat with ((s <=? k) && (k <? s + S n))%nat by lia. ring. }
  rewrite H. replace ((0 <=? k)%nat) with true by lia. simpl andb. reflexivity.
Qed.

Lemma orig_from_some : forall di i k l, orig_from i di k = Some l -> (i <= l < i + length di)%nat /\ nth (l-i) di 0%nat = k.
Proof.
  induction di; simpl; intros; [discriminate|].
  destruct (Nat.eqb_spec a k).
  - inversion H; subst. split; [lia|]. replace (l-l)%nat with 0%nat by lia. reflexivity.
  - apply IHdi in H. destruct H. split; [lia|]. replace (l-i)%nat with (S (l-S i)) by lia. auto.
Qed.

Lemma orig_from_none : forall di i k, orig_from i di k = None -> ~ In k di.
Proof.
  induction di; simpl; intros; [tauto|].
  destruct (Nat.eqb_spec a k); [discriminate|]. apply IHdi in H. tauto.
Qed.

Lemma orig_some : forall di k l, orig di k = Some l -> (l < length di)%nat /\ nth l di 0%nat = k.
Proof. intros. apply orig_from_some in H. rewrite Nat.sub_0_r in H. destruct H; split; [lia|auto]. Qed.

Lemma orig_none : forall di k, orig di k = None -> forall l, (l < length di)%nat -> nth l di 0%nat <> k.
Proof. intros. apply orig_from_none in H. intros E. subst. apply H. apply nth_In; auto. Qed.

Lemma orig_nth : forall di l, NoDup di -> (l < length di)%nat -> orig di (nth l di 0%nat) = Some l.
Proof.
  intros. destruct (orig di (nth l di 0%nat)) eqn:E.
  - apply orig_some in E. destruct E as (E1 & E2). f_equal. eapply NoDup_nth; eauto.
  - exfalso. eapply orig_none; eauto.
Qed.

Lemma upd_reframe : forall di f k d l, NoDup di -> orig di k = Some l ->
  forall i, (i < length di)%nat -> upd (fun i => f (nth i di 0%nat)) l d i = upd f k d (nth i di 0%nat).
Proof.
  intros. apply orig_some in H0. destruct H0 as (H0 & <-). unfold upd.
  destruct (Nat.eqb_spec i l).
  - subst. rewrite Nat.eqb_refl. reflexivity.
  - destruct (Nat.eqb_spec (nth i di 0%nat) (nth l di 0%nat)); auto.
    exfalso. apply n. eapply NoDup_nth; eauto.
Qed.

Lemma upd_reframe_none : forall di f k d, orig di k = None ->
  forall i, (i < length di)%nat -> upd f k d (nth i di 0%nat) = f (nth i di 0%nat).
Proof.
  intros. unfold upd. destruct (Nat.eqb_spec (nth i di 0%nat) k); auto.
  exfalso. eapply orig_none; eauto.
Qed.

Lemma goto_adv : forall e f k d, wf e -> adv (goto e f) k d = goto e (upd f k d).
Proof.
  assert (Hm : forall f k d t, Forall (fun e => forall f k d, wf e -> adv (goto e f) k d = goto e (upd f k d)) t -> Forall wf t ->
    map (fun a => adv a k d) (map (fun a => goto a f) t) = map (fun a => goto a (upd f k d)) t).
  { intros. rewrite map_map. apply map_ext_in. intros a Ha. rewrite Forall_forall in H, H0. auto. }
  induction e using expr_ind2; cbn [goto adv wf]; intros; auto.
  - f_equal. rewrite cellpos_upd. ring.
  - destruct H as (H & Hd & Hr). destruct (orig di k) eqn:E.
    + f_equal. rewrite IHe by auto. apply goto_ext; auto. intros i Hi. apply upd_reframe; auto.
      unfold rankn in Hi. lia.
    + f_equal. apply goto_ext; auto. intros i Hi. rewrite upd_reframe_none; auto. unfold rankn in Hi. lia.
  - destruct H0. apply wf_Forall in H1. f_equal. rewrite Hm; auto.
  - destruct H0. apply wf_Forall in H1. f_equal. rewrite Hm; auto.
Qed.

(* mov *)

Definition mov_list : list expr -> list tree -> list expr :=
  fix go (t : list expr) (l : list tree) : list expr :=
    match t, l with a::t', s::l' => mov a s :: go t' l' | _, _ => [] end.
Definition load_list : list expr -> list tree -> list expr :=
  fix go (t : list expr) (l : list tree) : list expr :=
    match t, l with a::t', s::l' => load a s :: go t' l' | _, _ => [] end.

Lemma mov_map : forall op t l, mov (Map op t) (TT l) = Map op (mov_list t l).
Proof. reflexivity. Qed.
Lemma mov_pick : forall op t l, mov (Pick op t) (TT l) = Pick op (mov_list t l).
Proof. reflexivity. Qed.
Lemma load_map : forall op t l, load (Map op t) (TT l) = Map op (load_list t l).
Proof. reflexivity. Qed.
Lemma load_pick : forall op t l, load (Pick op t) (TT l) = Pick op (load_list t l).
Proof. reflexivity. Qed.

Lemma mov_list_map : forall (f : expr -> tree) (g h : expr -> expr) t, (forall a, In a t -> mov (h a) (f a) = g a) ->
  mov_list (map h t) (map f t) = map g t.
Proof. induction t; simpl; intros; [reflexivity|]. rewrite H, IHt; auto. Qed.

Lemma load_list_map : forall (f : expr -> tree) (g h : expr -> expr) t, (forall a, In a t -> load (h a) (f a) = g a) ->
  load_list (map h t) (map f t) = map g t.
Proof. induction t; simpl; intros; [reflexivity|]. rewrite H, IHt; auto. Qed.

Lemma tzero_idem : forall s, tzero (tzero s) = tzero s.
Proof.
  fix IH 1. destruct s; simpl; [reflexivity|]. f_equal. rewrite map_map. induction l; simpl; [reflexivity|]. rewrite IH, IHl. reflexivity.
Qed.

Lemma mov_zero : forall e f k, mov (goto e f) (tzero (stepe e k)) = goto e f.
Proof.
  induction e using expr_ind2; intros; cbn [goto stepe tzero].
  - reflexivity.
  - cbn [mov]. f_equal. lia.
  - cbn [mov]. f_equal. destruct (orig di k); [apply IHe|]. rewrite tzero_idem. apply IHe.
  - rewrite mov_map. f_equal. rewrite map_map. apply mov_list_map. intros. rewrite Forall_forall in H. auto.
  - rewrite mov_pick. f_equal. rewrite map_map. apply mov_list_map. intros. rewrite Forall_forall in H. auto.
Qed.

Lemma goto_mov : forall e f k, wf e -> mov (goto e f) (stepe e k) = goto e (upd f k 1).
Proof.
  induction e using expr_ind2; intros f k Hw; cbn [goto stepe].
  - reflexivity.
  - cbn [mov]. f_equal. rewrite cellpos_upd. ring.
  - cbn [mov]. destruct Hw as (Hw & Hd & Hr). f_equal. destruct (orig di k) eqn:E.
    + rewrite IHe by auto. apply goto_ext; auto. intros i Hi. apply upd_reframe; auto. unfold rankn in Hi. lia.
    + rewrite mov_zero. apply goto_ext; auto. intros i Hi. rewrite upd_reframe_none; auto. unfold rankn in Hi. lia.
  - destruct Hw as (_ & Hw). apply wf_Forall in Hw. rewrite mov_map. f_equal. apply mov_list_map. intros.
    rewrite Forall_forall in H, Hw. auto.
  - destruct Hw as (_ & Hw). apply wf_Forall in Hw. rewrite mov_pick. f_equal. apply mov_list_map. intros.
    rewrite Forall_forall in H, Hw. auto.
Qed.

Lemma goto_load : forall e f g, load (goto e f) (save (goto e g)) = goto e g.
Proof.
  induction e using expr_ind2; intros; cbn [goto save].
  - reflexivity.
  - reflexivity.
  - cbn [load]. f_equal. apply IHe.
  - rewrite load_map. f_equal. rewrite map_map. apply load_list_map. intros. rewrite Forall_forall in H. auto.
  - rewrite load_pick. f_equal. rewrite map_map. apply load_list_map. intros. rewrite Forall_forall in H. auto.
Qed.

(* keep *)

Lemma goto_keep_move : forall e st z j, wf e -> keep e st z j = true -> forall f d, goto e (upd f j d) = goto e (upd f z (st*d)).
Proof.
  assert (Hm : forall st z j t, Forall (fun e => forall st z j, wf e -> keep e st z j = true -> forall f d, goto e (upd f j d) = goto e (upd f z (st*d))) t ->
    Forall wf t -> forallb (fun a => keep a st z j) t = true ->
    forall f d, map (fun a => goto a (upd f j d)) t = map (fun a => goto a (upd f z (st*d))) t).
  { intros. apply map_ext_in. intros a Ha. rewrite Forall_forall in H, H0. rewrite forallb_forall in H1. auto. }
  induction e using expr_ind2; intros st z j Hw Hk f d; cbn [goto].
  - reflexivity.
  - cbn [keep] in Hk. f_equal. rewrite !cellpos_upd. apply Z.eqb_eq in Hk. rewrite <- Hk. ring.
  - cbn [keep] in Hk. destruct Hw as (Hw & Hd & Hr). f_equal.
    destruct (orig di z) eqn:Ez; [|discriminate]. destruct (orig di j) eqn:Ej; [|discriminate].
    transitivity (goto e (upd (fun i => f (nth i di 0%nat)) n0 d)).
    { apply goto_ext; auto. intros i Hi. symmetry. apply upd_reframe; auto. unfold rankn in Hi. lia. }
    rewrite (IHe st n n0) by auto.
    apply goto_ext; auto. intros i Hi. apply upd_reframe; auto. unfold rankn in Hi. lia.
  - destruct Hw as (_ & Hw). apply wf_Forall in Hw. f_equal. apply Hm; auto.
  - destruct Hw as (_ & Hw). apply wf_Forall in Hw. f_equal. apply Hm; auto.
Qed.

(* lengths *)

Lemma colen_spec : forall a b c, oklen a -> oklen b -> colen a b = c ->
  c <> MIS -> oklen c /\ (a = c \/ a = UNB) /\ (b = c \/ b = UNB).
Proof.
  unfold oklen, colen, MIS, UNB. intros.
  destruct (Z.leb_spec 0 a).
  - destruct (Z.eqb_spec a b); [subst; lia|]. destruct (Z.leb_spec 0 b); lia.
  - destruct (Z.eqb_spec (-1988888888) a); [lia|]. lia.
Qed.

Lemma MIS_not_ok : ~ oklen MIS.
Proof. unfold oklen, MIS, UNB. lia. Qed.

Lemma match_len_spec : forall k t s c, oklen s ->
  Forall (fun p : Z * Z => k < fst p -> snd p = MIS \/ oklen (snd p)) t ->
  match_len k t s = c -> c <> MIS ->
  oklen c /\ (s = c \/ s = UNB) /\ Forall (fun p => k < fst p -> snd p = c \/ snd p = UNB) t.
Proof.
  induction t as [|[r sk] t IH]; intros s c Hs Ht E Hc; cbn [match_len] in E.
  - subst. auto.
  - inversion Ht as [|? ? H1 H2]; subst. cbn [fst snd] in H1.
    destruct (Z.ltb_spec k r).
    + specialize (H1 H). destruct (Z.eqb_spec MIS sk).
      { rewrite Z.eqb_refl in Hc. congruence. }
      destruct H1 as [H1|H1]; [congruence|].
      remember (colen sk s) as s' eqn:Es. destruct (Z.eqb_spec MIS s'); [congruence|].
      destruct (colen_spec sk s s') as (Ho & Ha & Hb); auto.
      destruct (IH s' _ Ho H2 eq_refl Hc) as (Hc' & Hsc & Hf).
      split; auto. split.
      { destruct Hb as [Hb|Hb]; [|auto]. destruct Hsc; [left|right]; congruence. }
      constructor; auto. cbn [fst snd]. intros _. destruct Ha as [Ha|Ha]; [|auto]. destruct Hsc; [left|right]; congruence.
    + destruct (Z.eqb_spec MIS s); [exfalso; apply MIS_not_ok; congruence|].
      destruct (IH s _ Hs H2 eq_refl Hc) as (Hc' & Hsc & Hf).
      split; auto. split; auto. constructor; auto. cbn [fst snd]. lia.
Qed.

Lemma match_len_mis : forall k t s, oklen s -> Forall (fun p : Z * Z => k < fst p -> snd p = MIS \/ oklen (snd p)) t ->
  match_len k t s = MIS \/ oklen (match_len k t s).
Proof.
  intros. destruct (Z.eq_dec (match_len k t s) MIS); auto. right.
  eapply match_len_spec; eauto.
Qed.

Lemma lene_ok : forall e, wf e -> forall k, (k < rankn e)%nat -> lene e k = MIS \/ oklen (lene e k).
Proof.
  assert (Hm : forall k t, Forall (fun e => wf e -> forall k, (k < rankn e)%nat -> lene e k = MIS \/ oklen (lene e k)) t -> Forall wf t ->
    Forall (fun p : Z * Z => Z.of_nat k < fst p -> snd p = MIS \/ oklen (snd p)) (map (fun a => (rank a, lene a k)) t)).
  { intros. apply Forall_map. rewrite Forall_forall in *. intros a Ha. cbn [fst snd]. intros. apply H; auto. unfold rankn. lia. }
  assert (Hu : oklen UNB) by (right; reflexivity).
  induction e using expr_ind2; intros Hw k Hk; cbn [lene].
  - right. auto.
  - right. destruct Hw as (Hl & Hf). unfold rankn in Hk. simpl in Hk.
    rewrite Forall_forall in Hf. rewrite <- (firstn_skipn fr dv). rewrite app_nth1 by (rewrite firstn_length; lia).
    apply Hf. apply nth_In. rewrite firstn_length; lia.
  - destruct Hw as (Hw & Hd & Hr). destruct (orig di k) eqn:E; [|auto].
    apply IHe; auto. apply orig_some in E. unfold rankn. lia.
  - destruct Hw as (_ & Hw). apply wf_Forall in Hw. apply match_len_mis; auto.
  - destruct Hw as (_ & Hw). apply wf_Forall in Hw. apply match_len_mis; auto.
Qed.

(* The index is good for all the leaves *)
Definition okidx (e : expr) (f : nat -> Z) : Prop :=
  forall k, (k < rankn e)%nat -> lene e k = UNB \/ 0 <= f k < lene e k.

Lemma okidx_sub : forall t f, t <> [] -> Forall wf t ->
  (forall k, (k < Z.to_nat (match_rank (map rank t)))%nat ->
     let l := match_len (Z.of_nat k) (map (fun a => (rank a, lene a k)) t) UNB in l = UNB \/ 0 <= f k < l) ->
  Forall (fun a => okidx a f) t.
Proof.
  intros t f Hn Hw H. apply Forall_forall. intros a Ha k Hk.
  assert (Hw' : forall x, In x t -> wf x) by (apply Forall_forall; auto).
  pose proof (rankn_sub (fun _ => fail) t Hn Hw a Ha) as Hr. unfold rankn at 2 in Hr. cbn [rank] in Hr.
  assert (Hk' : (k < Z.to_nat (match_rank (map rank t)))%nat) by lia.
  specialize (H k Hk'). cbv zeta in H.
  remember (match_len (Z.of_nat k) (map (fun a => (rank a, lene a k)) t) UNB) as l eqn:El. symmetry in El.
  assert (Hl : l <> MIS) by (unfold MIS, UNB in *; lia).
  apply match_len_spec in El; auto.
  - destruct El as (Ho & _ & Hf). rewrite Forall_map, Forall_forall in Hf. specialize (Hf a Ha). cbn [fst snd] in Hf.
    unfold rankn in Hk. destruct Hf as [->| ->]; auto. lia.
  - right; reflexivity.
  - apply Forall_map, Forall_forall. cbn [fst snd]. intros b Hb Hbk. apply lene_ok; auto. unfold rankn. lia.
Qed.

Lemma okidx_reframe : forall a di f, wf (Reframe a di) -> okidx (Reframe a di) f -> okidx a (fun l => f (nth l di 0%nat)).
Proof.
  intros a di f (Hw & Hd & Hr) H k Hk. unfold rankn in Hk.
  specialize (H (nth k di 0%nat)). cbn [lene] in H. rewrite orig_nth in H by (auto; lia).
  apply H. unfold rankn. apply reframe_bound. lia.
Qed.

Lemma indexer_loop_spec : forall dv cp j, (length dv <= length j)%nat ->
  (forall k, (k < length dv)%nat -> len (nth k dv dim0) = UNB \/ 0 <= nth k j 0 < len (nth k dv dim0)) ->
  indexer_loop dv cp j = Some (cp + dotp (map step dv) j).
Proof.
  induction dv; cbn [indexer_loop map dotp length]; intros.
  - f_equal. ring.
  - destruct j as [|i j]; [simpl in H; lia|]. cbn [dotp].
    replace (inside i (len a) || (UNB =? len a)) with true.
    2: { symmetry. specialize (H0 0%nat ltac:(lia)). cbn [nth] in H0. apply orb_true_iff. unfold inside.
         destruct H0 as [->|H0]; [right; reflexivity|left; lia]. }
    rewrite IHdv.
    + f_equal. ring.
    + simpl in H. lia.
    + intros k Hk. apply (H0 (S k)). lia.
Qed.

Lemma cellpos_dotp : forall dv fr j, (fr <= length dv)%nat -> (fr <= length j)%nat ->
  cellpos dv fr (fz j) = dotp (map step (firstn fr dv)) j.
Proof.
  unfold cellpos, fz. intros dv fr. revert dv. induction fr; intros; cbn [seq map zsum firstn dotp]; [reflexivity|].
  destruct dv as [|d dv]; [simpl in H; lia|]. destruct j as [|i j]; [simpl in H0; lia|].
  cbn [map nth firstn dotp]. f_equal. simpl in H, H0. rewrite <- IHfr by lia.
  rewrite <- seq_shift, map_map. reflexivity.
Qed.

Lemma gather_ok : forall j di, (forall l, (l < length di)%nat -> (nth l di 0 < length j)%nat) ->
  gather j di = Some (map (fun d => nth d j 0) di).
Proof.
  induction di; simpl; intros; [reflexivity|].
  rewrite (nth_error_nth' j 0) by (apply (H 0%nat); lia).
  rewrite IHdi; [reflexivity|]. intros. apply (H (S l)). lia.
Qed.

Lemma seqM_ext : forall {A} (l m : list (M W A)), Forall2 (fun a b => forall w, a w = b w) l m -> forall w, seqM l w = seqM m w.
Proof.
  induction 1; intros w; [reflexivity|]. cbn [seqM]. unfold bind. rewrite H. destruct (y w); auto. rewrite IHForall2. reflexivity.
Qed.

Lemma pick_from_ext : forall {A} (l m : list (M W A)), Forall2 (fun a b => forall w, a w = b w) l m -> forall p w, pick_from p l w = pick_from p m w.
Proof.
  induction 1; intros p w; [reflexivity|]. cbn [pick_from]. destruct (p =? 0); auto.
Qed.

Lemma Forall2_map_map : forall {A B C} (P : B -> C -> Prop) (f : A -> B) (g : A -> C) t, (forall a, In a t -> P (f a) (g a)) -> Forall2 P (map f t) (map g t).
Proof. induction t; simpl; intros; constructor; auto. Qed.

(* moving to j and dereferencing is at(j) *)
Lemma deref_at : forall e, wf e -> forall j, (rankn e <= length j)%nat -> okidx e (fz j) -> forall w, deref (goto e (fz j)) w = at_ e j w.
Proof.
  induction e using expr_ind2; intros Hw j Hj Hi w; cbn [goto deref at_].
  - reflexivity.
  - destruct Hw as (Hl & Hf). unfold rankn in Hj. cbn [rank] in Hj. rewrite Nat2Z.id in Hj.
    unfold indexer. rewrite firstn_length, Nat.min_l by auto.
    replace (fr <=? length j)%nat with true by lia.
    rewrite indexer_loop_spec.
    + rewrite cellpos_dotp by auto. reflexivity.
    + rewrite firstn_length. lia.
    + intros k Hk. rewrite firstn_length in Hk.
      assert (Hk' : (k < fr)%nat) by lia.
      specialize (Hi k). unfold rankn in Hi. cbn [rank lene] in Hi. rewrite Nat2Z.id in Hi. specialize (Hi Hk').
      rewrite <- (firstn_skipn fr dv) in Hi. rewrite app_nth1 in Hi by (rewrite firstn_length; lia). exact Hi.
  - destruct Hw as (Hw & Hd & Hr).
    assert (Hb : forall l, (l < length di)%nat -> (nth l di 0 < length j)%nat).
    { intros l Hl. pose proof (reframe_bound di l Hl). unfold rankn in Hj. cbn [rank] in Hj. lia. }
    rewrite gather_ok by auto.
    rewrite <- IHe; auto.
    + f_equal. apply goto_ext; auto. intros k Hk. unfold fz. unfold rankn in Hk.
      rewrite (nth_map _ di k 0%nat) by lia. reflexivity.
    + rewrite map_length. unfold rankn. lia.
    + intros k Hk. pose proof (okidx_reframe e di (fz j) (conj Hw (conj Hd Hr)) Hi k Hk) as H. 
      unfold fz in *. unfold rankn in Hk. rewrite (nth_map _ di k 0%nat) by lia. exact H.
  - destruct Hw as (Hn & Hw). apply wf_Forall in Hw.
    pose proof (okidx_sub t (fz j) Hn Hw Hi) as Hs.
    unfold bind. rewrite (seqM_ext _ (map (fun a => at_ a j) t)); [reflexivity|].
    rewrite map_map. apply Forall2_map_map. intros a Ha. rewrite Forall_forall in H, Hw, Hs.
    pose proof (rankn_sub op t Hn (proj2 (Forall_forall _ _) Hw) a Ha). apply H; auto. lia.
  - destruct Hw as (Hn & Hw). apply wf_Forall in Hw.
    pose proof (okidx_sub t (fz j) Hn Hw Hi) as Hs.
    assert (Hall : Forall2 (fun a b => forall w, a w = b w) (map deref (map (fun a => goto a (fz j)) t)) (map (fun a => at_ a j) t)).
    { rewrite map_map. apply Forall2_map_map. intros a Ha. rewrite Forall_forall in H, Hw, Hs.
      pose proof (rankn_sub (fun _ => fail) t Hn (proj2 (Forall_forall _ _) Hw) a Ha). apply H; auto.
      unfold rankn in *. cbn [rank] in *. lia. }
    inversion Hall; subst; [reflexivity|]. unfold bind. rewrite H2. destruct (y w); auto. apply pick_from_ext; auto.
Qed.

(* shape and checks *)

Lemma shape_length : forall e : expr, length (shape e) = rankn e.
Proof. intros. unfold shape. rewrite map_length, seq_length. reflexivity. Qed.

Lemma shape_nth : forall (e : expr) k, (k < rankn e)%nat -> nth k (shape e) 0 = lene e k.
Proof.
  intros. unfold shape. rewrite nth_indep with (d' := lene e 0%nat) by (rewrite map_length, seq_length; auto).
  rewrite map_nth, seq_nth; auto.
Qed.

Lemma size_loop_nonneg : forall (e : expr) n k s, 0 <= s ->
  (0 <= size_loop e n k s <-> Forall (fun k => 0 <= lene e k) (seq k n)).
Proof.
  induction n; cbn [size_loop seq]; intros.
  - split; intros; auto.
  - destruct (Z.ltb_spec (lene e k) 0).
    + split; intros; [lia|]. inversion H1; subst. lia.
    + rewrite IHn by nia. split; intros; [constructor; auto | inversion H1; auto].
Qed.

Lemma validate_spec : forall e : expr, validate e = true <-> 0 <= rank e /\ Forall (fun n => 0 <= n) (shape e).
Proof.
  intros e. unfold validate. rewrite andb_true_iff. rewrite Z.leb_le. unfold shape. rewrite Forall_map.
  assert (H : 0 <= sizee e <-> Forall (fun k => 0 <= lene e k) (seq 0 (rankn e))) by (apply size_loop_nonneg; lia).
  assert (Hc : check e = true <-> Forall (fun k => 0 <= lene e k) (seq 0 (rankn e))).
  { unfold check. rewrite forallb_forall, Forall_forall. split; intros H0 x Hx; specialize (H0 x Hx); lia. }
  destruct e; rewrite ?Z.leb_le; tauto.
Qed.

Lemma okidx_inshape : forall e j, inshape j (shape e) -> okidx e (fz j).
Proof.
  intros e j H k Hk. right. pose proof (inshape_nth _ _ H k). rewrite shape_length, shape_nth in H0 by auto. apply H0; auto.
Qed.

End LExpr.

(* proves wf of concrete expressions *)
Ltac wfauto := cbn -[oklen UNB];
  repeat match goal with
  | |- oklen _ => first [left; cbn; lia | right; reflexivity]
  | |- _ /\ _ => split
  | |- Forall _ [] => apply Forall_nil
  | |- Forall _ (_ :: _) => apply Forall_cons; [cbn -[oklen UNB]|]
  | |- NoDup [] => apply NoDup_nil
  | |- NoDup (_ :: _) => apply NoDup_cons; [cbn; intuition discriminate|]
  | |- True => exact I
  | |- _ <> [] => discriminate
  | |- _ = _ => reflexivity
  | |- (_ <= _)%nat => lia
  end.
