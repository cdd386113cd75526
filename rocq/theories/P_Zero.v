(* Property C89: operators on arguments of rank 0. *)
From Coq Require Import ZArith List Lia Bool.
From Verif Require Import Spec L_Spec Spec_Ply Spec_Expr M_Base M_Expr M_Ply M_Val Spec_Val L_Expr L_Agree L_Ply L_Stl L_Run L_Val P_Reduce M_Zero.
Import ListNotations.
Open Scope Z_scope.

(* An operator isn't ambiguous. If an argument has axes, or len, it's the lazy one; if all are scalars or of rank 0, it's the eager one. *)
Theorem C89_overloads_partial : forall ks, ~ In KOther ks ->
  ((exists r sp, In (KRa r sp) ks /\ (r <> 0 \/ sp = true)) -> overloads ks = [Lazy]) /\
  ((forall k, In k ks -> k = KScalar \/ k = KRa 0 false) -> In (KRa 0 false) ks -> overloads ks = [Eager]) /\
  ((forall r sp, ~ In (KRa r sp) ks) -> ~ In KFov ks -> ~ In KBuiltin ks -> overloads ks = []) /\
  ((forall r sp, In (KRa r sp) ks -> r = 0 /\ sp = false) -> In KFov ks \/ In KBuiltin ks -> overloads ks = []).
Proof.
  intros ks No. unfold overloads. split; [|split; [|split]].
  - intros (r & sp & I & H).
    assert (E1 : tomap ks = true).
    { unfold tomap. apply andb_true_iff. split; [apply existsb_exists; exists (KRa r sp); split; auto|apply forallb_forall; intros [|r' sp'| | |] Hk; auto].
      unfold is_ra_pos. cbn [is_ra rank_s is_special andb]. destruct sp; [apply orb_true_r|]. destruct H as [H|H]; [|discriminate]. destruct (Z.eqb_spec 0 r); [congruence|reflexivity]. }
    assert (E2 : toreduce ks = false).
    { unfold toreduce. destruct (forallb _ ks) eqn:E; [|apply andb_false_r]. rewrite forallb_forall in E. specialize (E _ I). unfold is_ra_0 in E. cbn [is_ra rank_s is_special is_scalar andb] in E.
      destruct sp; [rewrite andb_false_r in E; discriminate|]. destruct (Z.eqb_spec 0 r); [|cbn in E; discriminate]. destruct H as [H|H]; [congruence|discriminate]. }
    rewrite E1, E2. reflexivity.
  - intros H I.
    assert (E1 : tomap ks = false).
    { unfold tomap. destruct (existsb _ ks) eqn:E; auto. apply existsb_exists in E as (k & Hk & E). destruct (H k Hk) as [->| ->]; discriminate. }
    assert (E2 : toreduce ks = true).
    { unfold toreduce. apply andb_true_iff. split; [apply existsb_exists; eexists; split; [exact I|reflexivity]|apply forallb_forall; intros k Hk; destruct (H k Hk) as [->| ->]; reflexivity]. }
    rewrite E1, E2. reflexivity.
  - intros N Nf Nb.
    assert (S : forall k, In k ks -> k = KScalar) by (intros [|r sp| | |] Hk; [reflexivity|destruct (N r sp); auto| | |]; contradiction).
    assert (E1 : tomap ks = false) by (unfold tomap; destruct (existsb _ ks) eqn:E; auto; apply existsb_exists in E as (k & Hk & E); rewrite (S k Hk) in E; discriminate).
    assert (E2 : toreduce ks = false) by (unfold toreduce; destruct (existsb _ ks) eqn:E; auto; apply existsb_exists in E as (k & Hk & E); rewrite (S k Hk) in E; discriminate).
    rewrite E1, E2. reflexivity.
  - intros H I.
    assert (E1 : tomap ks = false) by (unfold tomap; destruct (existsb _ ks) eqn:E; auto; apply existsb_exists in E as ([|r sp| | |] & Hk & E); try discriminate E; destruct (H r sp Hk) as [-> ->]; discriminate E).
    assert (E2 : toreduce ks = false).
    { unfold toreduce. destruct (forallb _ ks) eqn:E; [|apply andb_false_r]. rewrite forallb_forall in E. destruct I as [I|I]; specialize (E _ I); discriminate E. }
    rewrite E1, E2. reflexivity.
Qed.
(* In any case one at most. *)
Theorem C89_not_ambiguous : forall ks, (length (overloads ks) <= 1)%nat.
Proof.
  intros ks. unfold overloads. destruct (tomap ks) eqn:E1, (toreduce ks) eqn:E2; cbn; try lia. exfalso.
  apply andb_true_iff in E1 as [E1 _], E2 as [_ E2]. apply existsb_exists in E1 as (k & Hk & E1). rewrite forallb_forall in E2. specialize (E2 k Hk).
  destruct k as [|r sp| | |]; try discriminate. unfold is_ra_0, is_ra_pos in *. cbn [is_ra rank_s is_special is_scalar andb] in *. destruct sp; [rewrite andb_false_r in E2; discriminate|]. destruct (0 =? r); discriminate.
Qed.
(* With an argument of some type that isn't a scalar, a ra:: type, a range or a built in array, there is no overload. *)
Theorem C89_other : forall ks, In KOther ks -> overloads ks = [].
Proof.
  intros ks I. unfold overloads, tomap, toreduce. replace (forallb (fun k => is_ra k || is_scalar k || is_fov k || is_builtin k) ks) with false; [replace (forallb (fun k => is_ra_0 k && negb (is_special k)) ks) with false; [rewrite !andb_false_r; reflexivity|]|].
  - symmetry. destruct (forallb _ ks) eqn:E; auto. rewrite forallb_forall in E. specialize (E _ I). discriminate E.
  - symmetry. destruct (forallb _ ks) eqn:E; auto. rewrite forallb_forall in E. specialize (E _ I). discriminate E.
Qed.
Example C89_other_ex : overloads [KRa 1 false; KOther] = [] /\ overloads [KRa 1 false; KFov] = [Lazy].
Proof. split; reflexivity. Qed.
(* An array of rank 0 and a std::vector, or a built in array: there is no operator, although there is with an array of rank 1 and a vector, or with a scalar and an array of rank 1. *)
Theorem C89_refuted : exists ks, ~ In KOther ks /\ In (KRa 0 false) ks /\ overloads ks = [].
Proof. exists [KRa 0 false; KFov]. split; [cbn; intuition discriminate|]. split; [left; reflexivity|reflexivity]. Qed.

Lemma deref_rank0 : forall X W (e : expr X W) j w, wf e -> axes e = 0%nat -> deref e w = element e j w.
Proof.
  intros X W e j w Hw Ha. rewrite (deref_zero _ _ e 0). rewrite <- (element_prefix e Hw 0 j w); [reflexivity|]. rewrite <- axes_rank by auto. lia.
Qed.
Lemma in_order_ext : forall W A (l l' : list (M W A)), Forall2 (fun a b => forall w, a w = b w) l l' -> forall w, in_order l w = in_order l' w.
Proof. induction 1 as [|a b l l' H _ IH]; intros w; cbn; auto. rewrite H. destruct (b w); auto. rewrite IH. reflexivity. Qed.

(* The eager operator does the same as the lazy one at any index, so also when the latter would be matched with other arrays, with any effects. *)
Theorem C89_eager : forall X W (op : list X -> M W X) t, Forall wf t -> Forall (fun e => axes e = 0%nat) t ->
  forall j w, eager op t w = element (Map op t) j w.
Proof.
  intros X W op t Hw Ha j w. unfold eager, bind. cbn [element]. rewrite <- in_order_seqM.
  rewrite (in_order_ext _ _ (map deref t) (map (fun a => element a j) t)); [reflexivity|].
  apply Forall2_map_map. intros a Hin w'. rewrite Forall_forall in Hw, Ha. apply deref_rank0; auto.
Qed.
(* && and ||: the same as the lazy ones, also in that b isn't evaluated if a decides. *)
Theorem C89_and_or : forall T tob (a b : expr (val T) (mem T)), wf a -> wf b -> axes a = 0%nat -> axes b = 0%nat -> forall j m,
  and0 tob a b m = element (and_ tob a b) j m /\ or0 tob a b m = element (or_ tob a b) j m.
Proof.
  intros T tob a b Wa Wb Aa Ab j m. unfold and0, or0, and_, or_, where_, castb, bind. cbn [element map in_order].
  rewrite (deref_rank0 _ _ a j m Wa Aa). destruct (element a j m) as [v m1|m1|]; cbn; auto. unfold bind.
  destruct (rdb tob v m1) as [x m2|m2|]; cbn; auto. unfold bind, ret. destruct x; cbn; rewrite ?(deref_rank0 _ _ b j m2 Wb Ab).
  - split; [|reflexivity]. change (Pos.to_nat 1) with 1%nat. cbn [nth_error]. destruct (element b j m2) as [u m3|m3|]; auto.
  - split; [reflexivity|]. destruct (element b j m2) as [u m3|m3|]; auto.
Qed.
Theorem C89_decided : forall T tob (a b : expr (val T) (mem T)) m v m1 x, element a [] m = Ok v m1 -> truth_of tob v m1 = Some x -> wf a -> axes a = 0%nat ->
  (x = false -> and0 tob a b m = Ok (VB false) m1) /\ (x = true -> or0 tob a b m = Ok (VB true) m1).
Proof.
  intros T tob a b m v m1 x E Tv Wa Aa. unfold and0, or0, bind. rewrite (deref_rank0 _ _ a [] m Wa Aa), E, (rdb_truth _ _ _ x) by auto.
  split; intros ->; reflexivity.
Qed.
(* where: only the argument that is selected is evaluated. *)
Theorem C89_where : forall T tob (w t f : expr (val T) (mem T)) b v m m1, wf t -> wf f -> axes t = 0%nat -> axes f = 0%nat -> forall j,
  element w j m = Ok v m1 -> truth_of tob v m1 = Some b -> where0 b t f m1 = element (where_ tob w t f) j m.
Proof.
  intros T tob w t f b v m m1 Wt Wf At Af j E Tv. unfold where0, where_, castb. cbn [element map in_order]. rewrite E. cbn. unfold bind. rewrite (rdb_truth _ _ _ b) by auto.
  destruct b; cbn; apply deref_rank0; auto.
Qed.

(* a view of rank 0 and a number; b would fail *)
Example C89_ex : let a := exV [] 7 in let bad : expr (val Z) (mem Z) := Map (fun _ => fail) [exV [] 1] in
  overloads [KRa 0 false; KScalar] = [Eager] /\ overloads [KRa 1 false; KFov] = [Lazy] /\ overloads [KRa 0 true; KScalar] = [Lazy] /\ overloads [KRa ANY false; KRa 0 false] = [Lazy] /\
  wf a /\ axes a = 0%nat /\ wf bad /\ axes bad = 0%nat /\ eager plus2 [a; Scalar (VT 10)] exm = Ok (VT 17) exm /\
  or0 tobz a bad exm = Ok (VB true) exm /\ and0 tobz a bad exm = Fail exm /\ and0 tobz (exV [] 6) bad exm = Ok (VB false) exm /\ where0 false bad a exm = Ok (VRef 7) exm.
Proof.
  cbv zeta. do 4 (split; [reflexivity|]). split; [unfold exV; wfauto|]. split; [reflexivity|]. split; [unfold exV; wfauto|]. split; [reflexivity|]. vm_compute. auto.
Qed.
Print Assumptions C89_overloads_partial.
Print Assumptions C89_not_ambiguous.
Print Assumptions C89_refuted.
Print Assumptions C89_eager.
Print Assumptions C89_and_or.
Print Assumptions C89_decided.
Print Assumptions C89_where.
Print Assumptions C89_other.
