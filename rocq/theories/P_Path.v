(* C103 and C104: the positions in a traversal. *)
From Coq Require Import ZArith List Lia Bool Sorted.
From Coq Require Import ZifyBool ZifyNat.
From Verif Require Import Spec L_Spec Spec_Ply M_Base M_Expr L_Expr M_Ply L_Ply L_Stl Spec_Expr L_Agree M_Path Spec_Path L_Path.
Import ListNotations.
Open Scope Z_scope.

Section PPath.
Context {X W : Type}.
Notation expr := (expr X W).

(* ---- which positions ---- *)

(* ply_fixed takes exactly the positions of [touched]. *)
Theorem C104_fixed : forall e : expr, wf e -> validate e = true ->
  forall p, In p (map places (fixed_path e)) <-> exists i, touched (shape e) i /\ p = leaf_places e i.
Proof.
  intros e Hw Hv p. rewrite in_map_iff. split.
  - intros (b & <- & Hb). destruct (fixed_path_spec e Hw Hv b Hb) as (i & Hi & ->). exists i. split; auto.
    apply places_goto; auto. rewrite (touched_length _ _ Hi), shape_length. lia.
  - intros (i & Hi & ->). exists (goto e (fz i)). split; [|apply fixed_path_in; auto].
    apply places_goto; auto. rewrite (touched_length _ _ Hi), shape_length. lia.
Qed.

(* ply_ravel takes positions of [touched], and all of those with an element. *)
Theorem C104_ravel : forall e : expr, wf e -> validate e = true -> forall z, zclean z ->
  (forall p, In p (map places (ravel_path z e)) -> exists i, touched (shape e) i /\ p = leaf_places e i) /\
  (forall i, inshape i (shape e) -> In (leaf_places e i) (map places (ravel_path z e))).
Proof.
  intros e Hw Hv z Hz. split.
  - intros p Hp. apply in_map_iff in Hp as (b & <- & Hb). destruct (ravel_path_spec e Hw Hv z Hz b Hb) as (i & Hi & ->). exists i. split; auto.
    apply places_goto; auto. rewrite (touched_length _ _ Hi), shape_length. lia.
  - intros i Hi. apply in_map_iff. exists (goto e (fz i)). split; [|apply ravel_path_in; auto].
    apply places_goto; auto. rewrite (inshape_length _ _ Hi), shape_length. lia.
Qed.

(* A range-for takes the positions of the elements and no other. *)
Theorem C104_stl : forall e : expr, wf e -> validate e = true -> 0 < zprod (shape e) -> forall s, stl_begin e = Some s -> forall fuel, zprod (shape e) <= Z.of_nat fuel ->
  forall p, In p (map places (stl_path fuel s)) <-> exists i, inshape i (shape e) /\ p = leaf_places e i.
Proof.
  intros e Hw Hv Hp s Es fuel Hf p. rewrite in_map_iff. split.
  - intros (b & <- & Hb). assert (Hi : exists i, inshape i (shape e) /\ b = goto e (fz i)).
    { destruct (stl_path_spec e Hw Hv fuel s Es b Hb) as [->|(i & Hi & ->)]; [|exists i; auto].
      apply validate_spec in Hv. destruct Hv as (_ & Hs). exists (map (fun _ => 0) (shape e)). split.
      - clear - Hs Hp. induction Hs as [|x l Hx Hs IH]; [constructor|]. cbn [zprod map] in *. pose proof (zprod_nonneg _ Hs). constructor; [nia|]. apply IH. nia.
      - transitivity (goto e (fun _ => 0)); [symmetry; apply goto_zero|]. apply goto_ext; auto. intros. unfold fz. rewrite (nth_map _ (shape e) k 0); auto. rewrite shape_length; auto. }
    destruct Hi as (i & Hi & ->). exists i. split; auto. apply places_goto; auto. rewrite (inshape_length _ _ Hi), shape_length. lia.
  - intros (i & Hi & ->). exists (goto e (fz i)). split; [|apply stl_path_in; auto].
    apply places_goto; auto. rewrite (inshape_length _ _ Hi), shape_length. lia.
Qed.

(* ---- C104: whole arrays ---- *)

Lemma touched_rm : forall s i, Forall (fun n => 0 <= n) s -> touched s i -> 0 <= rm s i <= zprod s.
Proof.
  intros s i Hs T. induction T; inversion Hs; subst; cbn [rm zprod]; [lia| |].
  - specialize (IHT H3). nia.
  - replace (rm s (map (fun _ => 0) s)) with 0.
    + pose proof (zprod_nonneg _ H2). nia.
    + clear. induction s as [|x s IH]; [reflexivity|]. cbn [rm map]. rewrite <- IH. ring.
Qed.

Lemma touched_firstn : forall s i, touched s i -> forall k, touched (firstn k s) (firstn k i).
Proof.
  intros s i T. induction T; intros [|k]; cbn [firstn]; try (constructor; auto; fail).
  replace (firstn k (map (fun _ : Z => 0) s)) with (map (fun _ : Z => 0) (firstn k s)) by (revert k; induction s; intros [|k]; cbn; congruence).
  apply touched_end.
Qed.

Lemma touched_nth : forall s i, touched s i -> forall q, (q < length s)%nat ->
  0 <= nth q i 0 < nth q s 0 \/ (nth q i 0 = nth q s 0 \/ nth q i 0 = 0) /\ forall q', (q < q')%nat -> nth q' i 0 = 0.
Proof.
  assert (Z : forall (s : list Z) q, nth q (map (fun _ => 0) s) 0 = 0) by (induction s; destruct q; cbn; auto).
  intros s i T. induction T; intros q Hq; [cbn in Hq; lia| |].
  - destruct q; [left; auto|]. cbn [nth length] in *. destruct (IHT q ltac:(lia)) as [H0|(H0 & H1)]; [left; auto|]. right. split; auto.
    intros [|q'] Hq'; [lia|]. apply H1. lia.
  - right. destruct q; cbn [nth].
    + split; auto. intros [|q'] Hq'; [lia|]. apply Z.
    + split; [right; apply Z|]. intros [|q'] Hq'; [lia|]. apply Z.
Qed.

Lemma touched_sub : forall s i, Forall (fun n => 0 <= n) s -> touched s i -> forall di, StronglySorted lt di -> Forall (fun d => (d < length s)%nat) di ->
  touched (map (fun d => nth d s 0) di) (map (fun d => nth d i 0) di).
Proof.
  intros s i Hs T di S. induction S as [|d di S IH Hlt]; intros Hd; [constructor|]. inversion Hd; subst. specialize (IH H2). cbn [map].
  destruct (touched_nth s i T d H1) as [H|(H & Hz)]; [apply touched_in; auto|].
  assert (E : map (fun d => nth d i 0) di = map (fun _ => 0) (map (fun d => nth d s 0) di)).
  { rewrite map_map. apply map_ext_in. intros q Hq. apply Hz. rewrite Forall_forall in Hlt. auto. }
  rewrite E. destruct H as [->| ->]; [apply touched_end|].
  apply (touched_zero (nth d s 0 :: map (fun d => nth d s 0) di)). change (nth d s 0 :: map (fun d => nth d s 0) di) with (map (fun d => nth d s 0) (d :: di)).
  apply Forall_map. rewrite Forall_forall in *. intros q Hq. apply Hs. apply nth_In. apply Hd; auto.
Qed.

Lemma positions_in : forall di k q m, (q < length di)%nat -> nth q di 0%nat = m -> In (k + q)%nat (positions_from k di m).
Proof.
  induction di as [|d di IH]; intros k q m Hq Hm; [cbn in Hq; lia|]. cbn [positions_from]. destruct q.
  - cbn in Hm. subst. rewrite Nat.eqb_refl. left. lia.
  - cbn [nth length] in *. specialize (IH (S k) q m ltac:(lia) Hm). replace (S k + q)%nat with (k + S q)%nat in IH by lia.
    destruct (Nat.eqb d m); auto. right; auto.
Qed.

Lemma Forall2_flat_map : forall {A B C} (P : B -> C -> Prop) (f : A -> list B) (g : A -> list C) l, Forall (fun a => Forall2 P (f a) (g a)) l -> Forall2 P (flat_map f l) (flat_map g l).
Proof. induction 1; cbn; [constructor|]. apply Forall2_app; auto. Qed.

Lemma axes_in : forall (t : list expr) a, In a t -> (axes a <= fold_right (fun a r => Nat.max (axes a) r) 0 t)%nat.
Proof. induction t; intros b Hb; [destruct Hb|]. cbn. destruct Hb as [->|Hb]; [lia|]. specialize (IHt b Hb). lia. Qed.

Lemma containers_all : forall (t : list expr), fold_right (fun a p => containers a /\ p) True t -> Forall containers t.
Proof. induction t; cbn; [constructor|]. intros (H1 & H2). constructor; auto. Qed.

Lemma within_bounds : forall e : expr, wf e -> containers e -> forall s i, Forall (fun n => 0 <= n) s -> touched s i -> (axes e <= length s)%nat ->
  (forall k n, (k < axes e)%nat -> In n (leaf_lens e k) -> n = nth k s 0 \/ n = UNB) ->
  Forall2 (fun p b => fst b <= p <= snd b) (leaf_places e i) (bounds e).
Proof.
  assert (Hm : forall t : list expr, Forall (fun e => wf e -> containers e -> forall s i, Forall (fun n => 0 <= n) s -> touched s i -> (axes e <= length s)%nat ->
    (forall k n, (k < axes e)%nat -> In n (leaf_lens e k) -> n = nth k s 0 \/ n = UNB) ->
    Forall2 (fun p b => fst b <= p <= snd b) (leaf_places e i) (bounds e)) t -> Forall wf t -> Forall containers t ->
    forall s i, Forall (fun n => 0 <= n) s -> touched s i -> (fold_right (fun a r => Nat.max (axes a) r) 0 t <= length s)%nat ->
    (forall k n, (k < fold_right (fun a r => Nat.max (axes a) r) 0 t)%nat -> In n (flat_map (fun a => leaf_lens a k) t) -> n = nth k s 0 \/ n = UNB) ->
    Forall2 (fun p b => fst b <= p <= snd b) (flat_map (fun a => leaf_places a i) t) (flat_map bounds t)).
  { intros t IH Hw C s i Hs T Hl Hk. apply Forall2_flat_map. rewrite Forall_forall in *. intros a Ha. pose proof (axes_in t a Ha).
    apply (IH a Ha (Hw a Ha) (C a Ha) s); auto; [rewrite Forall_forall; auto|lia|]. intros k n Hk' Hn. apply (Hk k n); [lia|]. apply in_flat_map. exists a; auto. }
  induction e as [c|dv fr val cp|a di IH|op t IH|sel t IH] using expr_ind2; intros Hw C s i Hs T Hl Hk; cbn [leaf_places bounds].
  - constructor.
  - destruct C as (-> & Hn & Hr). cbn [axes leaf_lens] in *. constructor; [|constructor]. cbn [fst snd].
    assert (E : map len dv = firstn (length dv) s).
    { apply nth_ext with (d := len dim0) (d' := 0); [rewrite map_length, firstn_length; lia|]. intros k Hk'. rewrite map_length in Hk'.
      rewrite map_nth, nth_firstn by auto. destruct (Hk k (len (nth k dv dim0)) Hk') as [->|E]; auto.
      - replace (k <? length dv)%nat with true by lia. left; auto.
      - exfalso. rewrite Forall_forall in Hn. specialize (Hn (nth k dv dim0) ltac:(apply nth_In; auto)). rewrite E in Hn. unfold UNB in Hn. lia. }
    pose proof (touched_length _ _ T) as Tl. rewrite firstn_all, Hr by (rewrite firstn_length; lia).
    assert (R : 0 <= rm (map len dv) (firstn (length dv) i) <= zprod (map len dv)).
    { apply touched_rm; [apply Forall_map; auto|]. rewrite E. apply touched_firstn; auto. }
    lia.
  - destruct C as (So & C). cbn [axes leaf_lens] in *.
    assert (Hd : Forall (fun d => (d < length s)%nat) di).
    { rewrite Forall_forall. intros d Hd. enough (d < fold_right (fun d r => Nat.max (S d) r) 0%nat di)%nat by lia.
      clear - Hd. induction di as [|x l IHl]; [destruct Hd|]. cbn [fold_right]. destruct Hd as [->|Hd]; [lia|]. specialize (IHl Hd). lia. }
    destruct Hw as (Hw & _ & Hr). assert (Ha : axes a = length di) by (rewrite axes_rank by auto; unfold rankn; lia).
    apply (IH Hw C (map (fun d => nth d s 0) di)).
    + apply Forall_map. rewrite Forall_forall in *. intros d Hdi. apply Hs. apply nth_In. auto.
    + apply touched_sub; auto.
    + rewrite map_length. lia.
    + intros k n Hk' Hn. rewrite (nth_map _ di k 0%nat) by lia. apply Hk.
      * rewrite Forall_forall in Hd. assert (Hin : In (nth k di 0%nat) di) by (apply nth_In; lia). revert Hin. generalize (nth k di 0%nat). clear.
        induction di as [|x l IHl]; intros d Hin; [destruct Hin|]. cbn [fold_right]. destruct Hin as [->|Hin]; [lia|]. specialize (IHl d Hin). lia.
      * apply in_flat_map. exists k. split; auto. apply (positions_in di 0 k); auto. lia.
  - destruct Hw as (_ & Hw). apply wf_Forall in Hw. apply containers_all in C. apply (Hm t IH Hw C s); auto.
  - destruct Hw as (_ & Hw). apply wf_Forall in Hw. apply containers_all in C. apply (Hm t IH Hw C s); auto.
Qed.

Lemma touched_bounds : forall e : expr, wf e -> validate e = true -> containers e -> forall i, touched (shape e) i ->
  Forall2 (fun p b => fst b <= p <= snd b) (leaf_places e i) (bounds e).
Proof.
  intros e Hw Hv C i Hi. apply validate_spec in Hv. destruct Hv as (_ & Hs).
  apply (within_bounds e Hw C (shape e)); auto; [rewrite shape_length, axes_rank by auto; lia|].
  intros k n Hk Hn. rewrite axes_rank in Hk by auto. rewrite shape_nth by auto.
  destruct (lene_common e Hw k Hk) as [(H0 & _ & H)|[(_ & H)|(E & _)]].
  - rewrite Forall_forall in H. auto.
  - rewrite Forall_forall in H. auto.
  - exfalso. rewrite Forall_forall in Hs. specialize (Hs (nth k (shape e) 0) ltac:(apply nth_In; rewrite shape_length; auto)).
    rewrite shape_nth, E in Hs by auto. unfold MIS in Hs. lia.
Qed.

(* The arguments are whole arrays: no pointer before the first element of its array nor after the one past the last.
   What is missing: views. See C104_refuted. *)
Theorem C104_pointers_partial : forall e : expr, wf e -> validate e = true -> containers e -> forall z, zclean z ->
  forall p, In p (map places (fixed_path e ++ ravel_path z e)) -> Forall2 (fun p b => fst b <= p <= snd b) p (bounds e).
Proof.
  intros e Hw Hv C z Hz p Hp. rewrite map_app in Hp. apply in_app_or in Hp as [Hp|Hp].
  - apply C104_fixed in Hp as (i & Hi & ->); auto. apply touched_bounds; auto.
  - apply (proj1 (C104_ravel e Hw Hv z Hz)) in Hp as (i & Hi & ->). apply touched_bounds; auto.
Qed.

(* ---- C103: sequences of integers ---- *)

(* ply.hh:320-330 iota(n, o, s), expr.hh:77-100 Seq, 353-360 viewptr: a sequence of n integers. std::ranges::advance (expr.hh:310) on a Seq that isn't of dim_t repeats ++ or --; only
   where it ends is looked at here, since what's between is in the range if the ends are. *)
Definition sequence (val : Z -> X) (n o s : Z) : expr := Cell [Dim n s] 1 val o.

Lemma sequence_wf : forall val n o s, 0 <= n -> wf (sequence val n o s) /\ validate (sequence val n o s) = true /\ shape (sequence val n o s) = [n].
Proof.
  intros val n o s Hn. assert (Hw : wf (sequence val n o s)).
  { cbn. split; [lia|]. constructor; [|constructor]. left. exact Hn. }
  split; auto. split; [|reflexivity]. apply validate_spec. split; [apply rank_nonneg; auto|]. change (shape (sequence val n o s)) with [n]. constructor; [lia|constructor].
Qed.

(* For a type with range [lo, hi] that has all the elements. What is missing: the traversal doesn't stay within if the position after the last one isn't in the range. See C103_refuted. *)
Theorem C103_traversal_partial : forall val n o s lo hi, 0 < n -> (forall k, 0 <= k < n -> lo <= o + k*s <= hi) -> forall z, zclean z ->
  ((forall p, In [p] (map places (fixed_path (sequence val n o s))) -> lo <= p <= hi) <-> lo <= o + n*s <= hi) /\
  ((forall p, In [p] (map places (ravel_path z (sequence val n o s))) -> lo <= p <= hi) <-> lo <= o + n*s <= hi).
Proof.
  intros val n o s lo hi Hn Hk z Hz. destruct (sequence_wf val n o s ltac:(lia)) as (Hw & Hv & Hs).
  assert (T : lo <= o + n*s <= hi -> forall i p, touched [n] i -> [p] = leaf_places (sequence val n o s) i -> lo <= p <= hi).
  { intros H i p T E. unfold sequence in E. cbn [leaf_places firstn] in E. inversion T; subst; cbn [firstn place map] in E; injection E as ->; cbn [step].
    - specialize (Hk x ltac:(lia)). lia.
    - lia. }
  assert (E : leaf_places (sequence val n o s) [n] = [o + n*s]) by (cbn; f_equal; lia).
  split; split.
  - intros H. apply H. rewrite <- E. apply C104_fixed; auto. exists [n]. split; auto. rewrite Hs. apply (touched_end n []).
  - intros H p Hp. apply C104_fixed in Hp as (i & Hi & E1); auto. rewrite Hs in Hi. apply (T H i p Hi E1).
  - intros H. apply H. rewrite <- E. apply in_map_iff. exists (goto (sequence val n o s) (fz [n])). split; [apply places_goto; auto; cbn; lia|].
    apply ravel_path_gen; auto; rewrite Hs; [repeat constructor; auto|]. intros r Hr. change (rankn (sequence val n o s)) with 1%nat in Hr.
    replace r with 0%nat by lia. cbn. split; [constructor|lia].
  - intros H p Hp. apply (proj1 (C104_ravel _ Hw Hv z Hz)) in Hp as (i & Hi & E1). rewrite Hs in Hi. apply (T H i p Hi E1).
Qed.

(* A range-for stays within. *)
Theorem C103_stl : forall val n o s lo hi, 0 < n -> (forall k, 0 <= k < n -> lo <= o + k*s <= hi) ->
  exists b, stl_begin (sequence val n o s) = Some b /\ forall fuel p, In [p] (map places (stl_path fuel b)) -> lo <= p <= hi.
Proof.
  intros val n o s lo hi Hn Hk. destruct (sequence_wf val n o s ltac:(lia)) as (Hw & Hv & Hs).
  unfold stl_begin. rewrite Hv. eexists. split; [reflexivity|]. intros fuel p Hp. apply in_map_iff in Hp as (b & E & Hb).
  destruct (stl_path_spec _ Hw Hv fuel _ ltac:(unfold stl_begin; rewrite Hv; reflexivity) b Hb) as [->|(i & Hi & ->)].
  - cbn in E. injection E as <-. specialize (Hk 0 ltac:(lia)). lia.
  - rewrite places_goto in E; auto; [|rewrite (inshape_length _ _ Hi), shape_length; lia]. rewrite Hs in Hi. inversion Hi; subst. inversion H3; subst.
    cbn in E. injection E as <-. specialize (Hk x ltac:(lia)). lia.
Qed.


End PPath.

(* for (int i: iota(2, INT_MAX-1)) is fine, and for_each(f, iota(2, INT_MAX-1)) isn't: after the last element there's a signed overflow. *)
Theorem C103_refuted : ~ (forall (val : Z -> Z) n o s lo hi, 0 < n -> (forall k, 0 <= k < n -> lo <= o + k*s <= hi) ->
  (forall p, In [p] (map (places (W := unit)) (fixed_path (sequence val n o s))) -> lo <= p <= hi) \/
  (forall p, In [p] (map (places (W := unit)) (ravel_path z_init (sequence val n o s))) -> lo <= p <= hi)).
Proof.
  intros H. specialize (H (fun z => z) 2 2147483646 1 (-2147483648) 2147483647 ltac:(lia) ltac:(intros; lia)).
  destruct H as [H|H]; specialize (H 2147483648 ltac:(vm_compute; auto 20)); lia.
Qed.

Example C103_example : map (places (W := unit)) (fixed_path (sequence (fun z => z) 3 10 5)) = [[10]; [15]; [20]; [25]; [10]] /\
  map (places (W := unit)) (ravel_path z_init (sequence (fun z => z) 3 10 5)) = [[10]; [15]; [20]; [25]; [10]] /\
  (exists b, stl_begin (W := unit) (sequence (fun z => z) 3 10 5) = Some b /\ map places (stl_path 4 b) = [[10]; [15]; [15]; [20]; [20]; [10]; [10]]).
Proof. split; [vm_compute; reflexivity|]. split; [vm_compute; reflexivity|]. eexists. split; vm_compute; reflexivity. Qed.

(* ---- C104: views ---- *)

(* An array of 3 numbers backwards, a column of one of shape [3 2], one of shape [2 3] with the axes exchanged: all the elements are in [0, 6) but the pointers aren't in [0, 6]. *)
Definition backwards : expr Z unit := Cell [Dim 3 (-1)] 1 (fun z => z) 2.
Definition column : expr Z unit := Cell [Dim 3 2] 1 (fun z => z) 1.
Definition exchanged : expr Z unit := Reframe (Cell [Dim 2 3; Dim 3 1] 2 (fun z => z) 0) [1%nat; 0%nat].

Theorem C104_refuted : ~ (forall e : expr Z unit, wf e -> validate e = true -> (forall i p, inshape i (shape e) -> In p (leaf_places e i) -> 0 <= p < 6) ->
  forall p q, In p (map places (fixed_path e)) -> In q p -> 0 <= q <= 6).
Proof.
  intros H. specialize (H column). assert (E : 0 <= 7 <= 6); [|lia]. apply (H ltac:(repeat constructor; cbn; lia) ltac:(reflexivity)) with (p := [7]).
  - intros i p Hi Hp. change (shape column) with [3] in Hi. inversion Hi as [|x n i' s' Hx Hi']; subst. inversion Hi'; subst. cbn [column leaf_places firstn place step] in Hp. destruct Hp as [<-|[]]. lia.
  - vm_compute. auto 20.
  - left; auto.
Qed.

Example C104_views :
  map places (fixed_path backwards) = [[2]; [1]; [0]; [-1]; [2]] /\
  map places (fixed_path column) = [[1]; [3]; [5]; [7]; [1]] /\ map places (ravel_path z_init column) = [[1]; [3]; [5]; [7]; [1]] /\
  In [8] (map places (fixed_path exchanged)) /\ In [8] (map places (ravel_path z_init exchanged)).
Proof. repeat split; vm_compute; auto 20. Qed.

(* a(i, j) + b(j) with b on the second axis, a of shape [2 3] at 0 and b of shape [3] at 100 *)
Definition outer_sum : expr Z unit :=
  Map (fun l _ => Ok (fold_right Z.add 0 l) tt) [Cell [Dim 2 3; Dim 3 1] 2 (fun z => z) 0; Reframe (Cell [Dim 3 1] 1 (fun z => z) 100) [1%nat]].

Example C104_example : wf outer_sum /\ validate outer_sum = true /\ containers outer_sum /\ bounds outer_sum = [(0, 6); (100, 103)] /\
  map places (fixed_path outer_sum) = [[0;100]; [1;101]; [2;102]; [3;103]; [0;100]; [3;100]; [4;101]; [5;102]; [6;103]; [3;100]; [6;100]; [0;100]].
Proof.
  split; [|split; [reflexivity|split; [|split; [reflexivity|vm_compute; reflexivity]]]].
  - cbn. repeat split; try discriminate; try lia; repeat constructor; cbn; try lia; auto.
  - cbn. split; [|split; [split|exact I]].
    + split; [reflexivity|]. split; [repeat constructor; cbn; lia|]. intros [|x [|y [|]]] H; cbn in *; lia.
    + repeat constructor.
    + split; [reflexivity|]. split; [repeat constructor; cbn; lia|]. intros [|x [|]] H; cbn in *; lia.
Qed.

Print Assumptions C103_traversal_partial.
Print Assumptions C103_stl.
Print Assumptions C103_refuted.
Print Assumptions C104_fixed.
Print Assumptions C104_ravel.
Print Assumptions C104_stl.
Print Assumptions C104_pointers_partial.
Print Assumptions C104_refuted.
