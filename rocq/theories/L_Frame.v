(* Lemmas on rank conjunction and outer product. *)
From Coq Require Import ZArith List Lia Bool Arith FinFun.
From Verif Require Import Spec M_Base M_Expr L_Spec L_Expr Spec_Expr L_Agree M_Val M_View M_Slice M_Frame Spec_Frame.
Import ListNotations.
Open Scope Z_scope.

Lemma zipw_each2 : forall A B C (f : A -> B -> C) l m, zipw f l m = each2 f l m.
Proof. induction l; destruct m; cbn; auto; f_equal; auto. Qed.
Lemma each2_length : forall A B C (f : A -> B -> C) l m, length (each2 f l m) = Nat.min (length l) (length m).
Proof. induction l; destruct m; cbn; auto. Qed.
Lemma each2_ext : forall A B C (f g : A -> B -> C) l m, (forall a b, f a b = g a b) -> each2 f l m = each2 g l m.
Proof. induction l; destruct m; cbn; auto. intros H; rewrite H; f_equal; auto. Qed.

(* the axes of the result that each argument goes to *)
Fixpoint dest (cs : list (list nat)) (rem : list nat) : list (list nat) :=
  match cs with
  | [] => map (fun r => seq 0 r) rem
  | c::cs' => let f := each2 Nat.sub rem c in each2 (fun n d => seq 0 n ++ map (Nat.add (maxl f)) d) f (dest cs' c)
  end.

(* rank = what is placed plus what remains *)
Inductive rems : list nat -> list (list nat) -> list nat -> Prop :=
| rems_nil : rems [] [] []
| rems_cons : forall r ax n rs axs rem, r = (length ax + n)%nat -> rems rs axs rem -> rems (r :: rs) (ax :: axs) (n :: rem).

Lemma frames_iff : forall rs axs rem, rems rs axs rem -> forall c skip out, frames rs c skip axs = Some out <->
  Forall2 le c rem /\ out = each2 (fun ax n => ax ++ seq skip n) axs (each2 Nat.sub rem c).
Proof.
  induction 1 as [|r ax n rs axs rem E R IH]; intros [|c0 c] skip out; cbn [frames each2].
  - split; [intros H; injection H as <-; auto|intros (_ & ->); auto].
  - split; [discriminate|intros (H & _); inversion H].
  - split; [discriminate|intros (H & _); inversion H].
  - unfold frame_axes. rewrite E. destruct (Nat.leb_spec (length ax + c0) (length ax + n)).
    + replace (length ax + n - length ax - c0)%nat with (n - c0)%nat by lia.
      destruct (frames rs c skip axs) as [xs|] eqn:Ef.
      * apply IH in Ef as (H1 & ->). split; [intros X; injection X as <-; split; [constructor; auto; lia|reflexivity]|intros (_ & ->); reflexivity].
      * split; [discriminate|]. intros (H1 & _); inversion H1; subst.
        match goal with H : Forall2 le c rem |- _ => assert (Y := proj2 (IH c skip _) (conj H eq_refl)) end. congruence.
    + split; [discriminate|]. intros (H1 & _); inversion H1; subst; lia.
Qed.
Lemma max_live_rem : forall rs axs rem, rems rs axs rem -> forall c, length c = length rem -> max_live rs c axs = maxl (each2 Nat.sub rem c).
Proof.
  induction 1 as [|r ax n rs axs rem E R IH]; intros [|c0 c] L; cbn [max_live each2 maxl]; auto; try discriminate.
  rewrite IH by (cbn in L; lia). f_equal. lia.
Qed.
Lemma rems_next : forall rs axs rem, rems rs axs rem -> forall c skip, Forall2 le c rem ->
  rems rs (each2 (fun ax n => ax ++ seq skip n) axs (each2 Nat.sub rem c)) c.
Proof.
  induction 1 as [|r ax n rs axs rem E R IH]; intros c skip H; inversion H; subst; cbn [each2]; constructor; auto.
  rewrite app_length, seq_length. lia.
Qed.

Lemma Forall2_len : forall A B (R : A -> B -> Prop) l m, Forall2 R l m -> length l = length m.
Proof. induction 1; cbn; congruence. Qed.

Lemma nth_skipn : forall A (l : list A) n k d, nth k (skipn n l) d = nth (n + k) l d.
Proof. induction l; intros [|n] k d; cbn; auto. destruct k; auto. Qed.
Lemma seq_add : forall s n, seq s n = map (Nat.add s) (seq 0 n).
Proof.
  intros s n. assert (H : forall a, seq (s + a) n = map (Nat.add s) (seq a n)).
  { induction n as [|n IH]; intros a; [reflexivity|]. cbn [seq map]. f_equal. replace (S (s + a)) with (s + S a)%nat by lia. apply IH. }
  rewrite <- (H 0%nat). f_equal. lia.
Qed.

Lemma framematch_dest : forall cs rs axs rem, rems rs axs rem -> forall skip out, framematch cs rs axs skip = Some out <->
  verb_ok cs rem /\ out = each2 (fun ax d => ax ++ map (Nat.add skip) d) axs (dest cs rem).
Proof.
  induction cs as [|c cs IH]; intros rs axs rem R skip out; cbn [framematch verb_ok dest].
  - rewrite (frames_iff _ _ _ R).
    assert (E : each2 (fun ax n => ax ++ seq skip n) axs (each2 Nat.sub rem (map (fun _ => 0%nat) rs)) = each2 (fun ax d => ax ++ map (Nat.add skip) d) axs (map (fun r => seq 0 r) rem)).
    { induction R as [|r ax n rs axs rem E R IH]; cbn [each2 map]; auto. rewrite IH. f_equal. rewrite Nat.sub_0_r, (seq_add skip n). reflexivity. }
    rewrite E. split; intros (H1 & H2); split; auto. clear - R. induction R; cbn; constructor; auto; lia.
  - destruct (frames rs c skip axs) as [axs'|] eqn:Ef.
    + apply (frames_iff _ _ _ R) in Ef as (H1 & ->).
      rewrite (IH _ _ _ (rems_next _ _ _ R c skip H1)). rewrite (max_live_rem _ _ _ R) by (apply Forall2_len in H1; auto).
      set (F := maxl (each2 Nat.sub rem c)). clearbody F.
      assert (E : each2 (fun ax d => ax ++ map (Nat.add (skip + F)) d) (each2 (fun ax n => ax ++ seq skip n) axs (each2 Nat.sub rem c)) (dest cs c) =
                  each2 (fun ax d => ax ++ map (Nat.add skip) d) axs (each2 (fun n d => seq 0 n ++ map (Nat.add F) d) (each2 Nat.sub rem c) (dest cs c))).
      { generalize (each2 Nat.sub rem c) as f. generalize (dest cs c) as ds. clear. intros ds f; revert axs ds.
        induction f as [|n f IH]; intros [|ax axs] [|d ds]; cbn [each2]; auto. rewrite IH. f_equal.
        rewrite map_app, <- app_assoc, map_map, (seq_add skip n). f_equal. f_equal. apply map_ext. intros; lia. }
      rewrite E. tauto.
    + split; [discriminate|]. intros ((H1 & H2) & _). exfalso.
      assert (X := proj2 (frames_iff _ _ _ R c skip _) (conj H1 eq_refl)). congruence.
Qed.

Lemma dest_length : forall cs rem, verb_ok cs rem -> length (dest cs rem) = length rem.
Proof.
  induction cs as [|c cs IH]; intros rem H; cbn [dest]; [apply map_length|]. destruct H as [H1 H2].
  rewrite !each2_length, IH by auto. apply Forall2_len in H1. lia.
Qed.

(* each list of axes: one for each axis of the argument, without repetition, within the rank of the result *)
Lemma dest_spec : forall cs rem, verb_ok cs rem -> Forall2 (fun d r => length d = r /\ NoDup d /\ Forall (fun k => (k < verb_rank cs rem)%nat) d) (dest cs rem) rem.
Proof.
  assert (ML : forall l n, In n l -> (n <= maxl l)%nat).
  { induction l; cbn; intros n []; subst; try lia. specialize (IHl n H). lia. }
  induction cs as [|c cs IH]; intros rem H; cbn [dest verb_rank].
  - assert (G : forall l, (forall n, In n l -> In n rem) -> Forall2 (fun d r => length d = r /\ NoDup d /\ Forall (fun k => (k < maxl rem)%nat) d) (map (fun r => seq 0 r) l) l).
    { induction l as [|r l IHl]; intros Hl; cbn; constructor.
      - split; [apply seq_length|]. split; [apply seq_NoDup|]. apply Forall_forall. intros k Hk. apply in_seq in Hk.
        specialize (ML rem r (Hl r (or_introl eq_refl))). lia.
      - apply IHl. intros; apply Hl; right; auto. }
    apply G; auto.
  - destruct H as [H1 H2]. specialize (IH c H2). revert IH. generalize (verb_rank cs c) as R. intros R IH.
    set (F := maxl (each2 Nat.sub rem c)).
    assert (HF : forall n, In n (each2 Nat.sub rem c) -> (n <= F)%nat) by (intros; apply ML; auto). clearbody F. revert HF.
    clear H2. revert IH. generalize (dest cs c) as ds. induction H1 as [|c0 r0 c rem Hle H1 IH1]; intros ds IH HF; cbn [each2] in *.
    + inversion IH; subst. constructor.
    + inversion IH as [|d ? ds' ? (L & N & B) IH']; subst. cbn [each2]. constructor.
      * assert (Hn := HF (r0 - length d)%nat (or_introl eq_refl)).
        split; [rewrite app_length, seq_length, map_length; lia|]. split.
        -- assert (ND : forall l m : list nat, NoDup l -> NoDup m -> (forall x, In x l -> ~ In x m) -> NoDup (l ++ m)).
           { clear. induction l; cbn; intros m A B C; auto. inversion A; subst. constructor.
             - rewrite in_app_iff. intros [X|X]; [auto|]. exact (C a (or_introl eq_refl) X).
             - apply IHl; auto. }
           apply ND.
           ++ apply seq_NoDup.
           ++ apply FinFun.Injective_map_NoDup; auto. intros x y Hxy; lia.
           ++ intros x Hx Hm. apply in_seq in Hx. apply in_map_iff in Hm as (y & <- & _). lia.
        -- apply Forall_app; split.
           ++ apply Forall_forall. intros x Hx. apply in_seq in Hx. lia.
           ++ apply Forall_forall. intros x Hx. apply in_map_iff in Hx as (y & <- & Hy). rewrite Forall_forall in B. specialize (B y Hy). lia.
      * apply IH1; auto. intros; apply HF; right; auto.
Qed.

Lemma maxl_le : forall l m, (forall n, In n l -> (n <= m)%nat) -> (maxl l <= m)%nat.
Proof. induction l; cbn; intros m H; [lia|]. specialize (IHl m (fun n Hn => H n (or_intror Hn))). specialize (H a (or_introl eq_refl)). lia. Qed.
Lemma maxl_in : forall l n, In n l -> (n <= maxl l)%nat.
Proof. induction l; cbn; intros n []; subst; try lia. specialize (IHl n H). lia. Qed.

(* the index in each argument *)
Lemma dest_index : forall cs rem, verb_ok cs rem -> forall j, length j = verb_rank cs rem ->
  map (fun d => map (fun k => nth k j 0) d) (dest cs rem) = verb_index cs rem j.
Proof.
  assert (FN : forall (j : list Z) n, (n <= length j)%nat -> map (fun k => nth k j 0) (seq 0 n) = firstn n j).
  { intros j n Hn. apply nth_ext with 0 0; [rewrite map_length, seq_length, firstn_length; lia|].
    intros k Hk. rewrite map_length, seq_length in Hk. rewrite (nth_indep _ 0 (nth 0%nat j 0)) by (rewrite map_length, seq_length; lia).
    rewrite (map_nth (fun k => nth k j 0)), seq_nth by lia. cbn. symmetry; apply nth_firstn; lia. }
  induction cs as [|c cs IH]; intros rem H j L; cbn [dest verb_index verb_rank] in *.
  - rewrite map_map. apply map_ext_in. intros r Hr. apply FN. pose proof (maxl_in _ _ Hr); lia.
  - destruct H as [H1 H2]. set (F := maxl (each2 Nat.sub rem c)) in *.
    specialize (IH c H2 (skipn F j) ltac:(rewrite skipn_length; lia)). rewrite <- IH.
    assert (HF : forall n, In n (each2 Nat.sub rem c) -> (n <= length j)%nat) by (intros n Hn; apply maxl_in in Hn; fold F in Hn; lia).
    revert HF. generalize (each2 Nat.sub rem c) as f. generalize (dest cs c) as ds. clearbody F. clear - FN.
    intros ds f HF. revert ds. induction f as [|n f IHf]; intros [|d ds]; cbn [each2 map]; auto.
    rewrite IHf by (intros; apply HF; right; auto). f_equal. rewrite map_app, map_map. f_equal.
    + apply FN, HF. left; auto.
    + apply map_ext. intros k. rewrite nth_skipn. reflexivity.
Qed.

(* the axis of each argument *)
Lemma positions_app : forall l m i k, positions_from i (l ++ m) k = positions_from i l k ++ positions_from (i + length l) m k.
Proof.
  induction l; intros; cbn [app positions_from length]; [f_equal; lia|]. rewrite IHl. replace (S i + length l)%nat with (i + S (length l))%nat by lia.
  destruct (Nat.eqb a k); reflexivity.
Qed.
Lemma positions_seq : forall n i s k, positions_from i (seq s n) k = if ((s <=? k) && (k <? s + n))%nat then [(i + (k - s))%nat] else [].
Proof.
  induction n; intros i s k; cbn [seq positions_from].
  - destruct (Nat.leb_spec s k), (Nat.ltb_spec k (s + 0)); auto; lia.
  - rewrite IHn. destruct (Nat.eqb_spec s k) as [->|Hn].
    + rewrite (proj2 (Nat.leb_gt (S k) k)) by lia. cbn [andb]. rewrite Nat.leb_refl, (proj2 (Nat.ltb_lt k (k + S n))) by lia. cbn. f_equal. lia.
    + destruct (Nat.leb_spec (S s) k), (Nat.leb_spec s k), (Nat.ltb_spec k (S s + n)), (Nat.ltb_spec k (s + S n)); cbn [andb]; auto; try lia. f_equal. lia.
Qed.
Lemma positions_shift : forall l i F k, positions_from i (map (Nat.add F) l) k = if (F <=? k)%nat then positions_from i l (k - F) else [].
Proof.
  induction l; intros i F k; cbn [map positions_from].
  - destruct (F <=? k)%nat; reflexivity.
  - rewrite IHl. destruct (Nat.leb_spec F k).
    + destruct (Nat.eqb_spec (F + a) k), (Nat.eqb_spec a (k - F)); auto; lia.
    + destruct (Nat.eqb_spec (F + a) k); auto; lia.
Qed.
Lemma positions_from_shift : forall l i k, positions_from i l k = map (Nat.add i) (positions_from 0 l k).
Proof.
  assert (G : forall l i a k, positions_from (i + a) l k = map (Nat.add i) (positions_from a l k)).
  { induction l as [|x l IH]; intros; cbn [positions_from map]; auto. replace (S (i + a)) with (i + S a)%nat by lia. rewrite IH. destruct (Nat.eqb x k); reflexivity. }
  intros. rewrite <- G. f_equal. lia.
Qed.

Definition opt_list {A} (o : option A) : list A := match o with Some x => [x] | None => [] end.
Lemma dest_axis : forall cs rem, verb_ok cs rem -> forall k, map (fun d => positions_from 0 d k) (dest cs rem) = map opt_list (verb_axis cs rem k).
Proof.
  induction cs as [|c cs IH]; intros rem H k; cbn [dest verb_axis].
  - rewrite !map_map. apply map_ext. intros r. rewrite positions_seq. cbn [Nat.leb andb]. rewrite Nat.sub_0_r, !Nat.add_0_l. destruct (k <? r)%nat; reflexivity.
  - destruct H as [H1 H2]. specialize (IH c H2).
    set (F := maxl (each2 Nat.sub rem c)).
    assert (HF : forall n, In n (each2 Nat.sub rem c) -> (n <= F)%nat) by (intros; apply maxl_in; auto). clearbody F.
    destruct (Nat.ltb_spec k F) as [Hk|Hk].
    + assert (Lf : length (each2 Nat.sub rem c) = length (dest cs c)) by (rewrite each2_length, dest_length by auto; apply Forall2_len in H1; lia).
      revert HF Lf. generalize (each2 Nat.sub rem c) as f. generalize (dest cs c) as ds. clear - Hk.
      intros ds f; revert ds. induction f as [|n f IHf]; intros [|d ds] HF Lf; try discriminate; cbn [each2 map]; auto.
      f_equal; [|apply IHf; [intros; apply HF; right; auto|cbn in Lf; lia]].
      rewrite positions_app, positions_seq, positions_shift. rewrite (proj2 (Nat.leb_gt F k)) by lia. rewrite app_nil_r. cbn [Nat.leb andb].
      rewrite Nat.sub_0_r, !Nat.add_0_l. destruct (k <? n)%nat; reflexivity.
    + specialize (IH (k - F)%nat). revert IH HF. generalize (each2 Nat.sub rem c) as f. generalize (dest cs c) as ds. generalize (verb_axis cs c (k - F)) as va. clear - Hk.
      intros va ds f; revert va ds. induction f as [|n f IHf]; intros [|v va] [|d ds] E HF; cbn [each2 map] in *; try discriminate; auto.
      injection E as E1 E2. f_equal; [|apply IHf; [assumption|intros; apply HF; right; assumption]].
      rewrite positions_app, positions_seq, positions_shift, seq_length. rewrite (proj2 (Nat.leb_le F k)) by lia. cbn [Nat.leb andb].
      assert (n <= F)%nat by (apply HF; left; auto). destruct (Nat.ltb_spec k (0 + n)); [lia|]. cbn [app].
      rewrite Nat.add_0_l, positions_from_shift, E1. destruct v; reflexivity.
Qed.


Definition top (d : list nat) : nat := fold_right (fun d r => Nat.max (S d) r) 0%nat d.
Lemma top_app : forall l m, top (l ++ m) = Nat.max (top l) (top m).
Proof. induction l; intros; cbn [app top fold_right]; auto. fold (top (l ++ m)). fold (top l). rewrite IHl. lia. Qed.
Lemma top_seq : forall n, top (seq 0 n) = n.
Proof. induction n; auto. rewrite seq_S, top_app, IHn. cbn. lia. Qed.
Lemma top_shift : forall F d, top (map (Nat.add F) d) = match d with [] => 0%nat | _ => (F + top d)%nat end.
Proof. induction d as [|x d IH]; auto. cbn [map top fold_right]. fold (top (map (Nat.add F) d)). fold (top d). rewrite IH. destruct d; [cbn; lia|]. lia. Qed.
Lemma maxl_attained : forall l, l <> [] -> In (maxl l) l.
Proof.
  induction l as [|n l IH]; [congruence|]. intros _. cbn [maxl]. destruct l as [|m l]; [left; cbn; lia|].
  specialize (IH ltac:(discriminate)). destruct (Nat.max_spec n (maxl (m :: l))) as [[_ ->]|[_ ->]]; [right; exact IH|left; reflexivity].
Qed.

Lemma dest_top : forall cs rem, verb_ok cs rem -> maxl (map top (dest cs rem)) = verb_rank cs rem.
Proof.
  induction cs as [|c cs IH]; intros rem H; cbn [dest verb_rank].
  - rewrite map_map. f_equal. rewrite (map_ext _ (fun n => n)) by apply top_seq. apply map_id.
  - destruct H as [H1 H2]. rewrite <- (IH c H2). clear IH.
    assert (L : length (each2 Nat.sub rem c) = length (dest cs c)) by (rewrite each2_length, dest_length by auto; apply Forall2_len in H1; lia).
    revert L. generalize (each2 Nat.sub rem c) as f, (dest cs c) as ds. clear. intros f ds L.
    set (F := maxl f).
    assert (HF : forall n, In n f -> (n <= F)%nat) by (intros; apply maxl_in; auto).
    assert (A : forall g es, (forall n, In n g -> (n <= F)%nat) -> length g = length es -> (maxl (map top (each2 (fun n d => seq 0 n ++ map (Nat.add F) d) g es)) <= F + maxl (map top es))%nat).
    { induction g as [|n g IHg]; intros [|d es] Hg Lg; cbn [each2 map maxl] in *; try discriminate; try lia.
      specialize (IHg es (fun n Hn => Hg n (or_intror Hn)) ltac:(cbn in Lg; lia)). specialize (Hg n (or_introl eq_refl)).
      rewrite top_app, top_seq, top_shift. destruct d; cbn [top fold_right] in *; lia. }
    assert (B1 : forall g es n, length g = length es -> In n g -> (n <= maxl (map top (each2 (fun n d => seq 0 n ++ map (Nat.add F) d) g es)))%nat).
    { induction g as [|m g IHg]; intros [|d es] n Lg Hn; cbn [each2 map maxl] in *; try discriminate; try contradiction.
      rewrite top_app, top_seq. destruct Hn as [<-|Hn]; [lia|]. specialize (IHg es n ltac:(cbn in Lg; lia) Hn). lia. }
    assert (B2 : forall g es d, length g = length es -> In d es -> d <> [] -> (F + top d <= maxl (map top (each2 (fun n d => seq 0 n ++ map (Nat.add F) d) g es)))%nat).
    { induction g as [|m g IHg]; intros [|e es] d Lg Hd Hn; cbn [each2 map maxl] in *; try discriminate; try contradiction.
      rewrite top_app, top_seq, top_shift. destruct Hd as [<-|Hd]; [destruct e; [congruence|lia]|]. specialize (IHg es d ltac:(cbn in Lg; lia) Hd Hn). lia. }
    apply Nat.le_antisymm; [apply A; auto|].
    destruct f as [|n f]; [destruct ds; [cbn; lia|discriminate]|].
    assert (HFin : In F (n :: f)) by (apply maxl_attained; discriminate).
    destruct (Nat.eq_dec (maxl (map top ds)) 0) as [Z0|NZ].
    + rewrite Z0, Nat.add_0_r. apply B1; auto.
    + assert (Hin : In (maxl (map top ds)) (map top ds)) by (apply maxl_attained; destruct ds; [discriminate|discriminate]).
      apply in_map_iff in Hin as (d & E & Hd). rewrite <- E. apply B2; auto. intros ->. cbn in E. lia.
Qed.

Section Ex.
Context {X W : Type}.
Notation expr := (expr X W).

Lemma eqb_list_eq : forall l m, eqb_list l m = true -> l = m.
Proof. induction l; destruct m; cbn; try discriminate; auto. rewrite andb_true_iff, Nat.eqb_eq. intros [-> H]. f_equal; auto. Qed.

Lemma map_nth_seq : forall (j : list Z) n, (n <= length j)%nat -> map (fun k => nth k j 0) (seq 0 n) = firstn n j.
Proof.
  intros j n Hn. apply nth_ext with 0 0; [rewrite map_length, seq_length, firstn_length; lia|].
  intros k Hk. rewrite map_length, seq_length in Hk. rewrite (nth_indep _ 0 (nth 0%nat j 0)) by (rewrite map_length, seq_length; lia).
  rewrite (map_nth (fun k => nth k j 0)), seq_nth by lia. cbn. symmetry; apply nth_firstn; lia.
Qed.

Lemma reframe_wf : forall (a : expr) di, wf a -> NoDup di -> length di = rankn a -> wf (reframe a di).
Proof.
  intros a di Hw Hn L. unfold reframe. destruct (eqb_list _ _); auto. cbn. split; auto. split; auto. rewrite L. unfold rankn. apply Z2Nat.id, rank_nonneg; auto.
Qed.
Lemma reframe_element : forall (a : expr) di j w, wf a -> length di = rankn a -> Forall (fun k => (k < length j)%nat) di ->
  element (reframe a di) j w = element a (map (fun k => nth k j 0) di) w.
Proof.
  intros a di j w Hw L B. unfold reframe. destruct (eqb_list _ _) eqn:E; [|reflexivity]. apply eqb_list_eq in E. rewrite E.
  rewrite map_nth_seq; [symmetry; apply element_prefix; auto; lia|].
  destruct (Nat.eq_dec (length di) 0) as [->|Hz]; [lia|].
  rewrite Forall_forall in B. assert (In (length di - 1)%nat di) as Hin by (rewrite E at 2; apply in_seq; lia). apply B in Hin. lia.
Qed.
Lemma reframe_axes : forall (a : expr) di, wf a -> length di = rankn a -> axes (reframe a di) = top di.
Proof.
  intros a di Hw L. unfold reframe. destruct (eqb_list _ _) eqn:E; [|reflexivity]. apply eqb_list_eq in E. rewrite E, top_seq, axes_rank; auto.
Qed.
Lemma reframe_lens : forall (a : expr) di k, wf a -> length di = rankn a -> leaf_lens (reframe a di) k = flat_map (fun l => leaf_lens a l) (positions_from 0 di k).
Proof.
  intros a di k Hw L. unfold reframe. destruct (eqb_list _ _) eqn:E; [|reflexivity]. apply eqb_list_eq in E. rewrite E, positions_seq, L. cbn [Nat.leb andb].
  rewrite Nat.sub_0_r, !Nat.add_0_l. destruct (Nat.ltb_spec k (rankn a)); cbn [flat_map]; [rewrite app_nil_r; reflexivity|].
  apply leaf_lens_out; auto.
Qed.

Lemma in_order_ext : forall (l m : list (M W X)), Forall2 (fun a b => forall w, a w = b w) l m -> forall w, in_order l w = in_order m w.
Proof. induction 1; intros w; cbn; auto. rewrite H. destruct (y w); auto. rewrite IHForall2. reflexivity. Qed.

Lemma rems_start : forall t : list expr, rems (map rankn t) (map (fun _ => []) t) (map rankn t).
Proof. induction t; cbn; constructor; auto. Qed.

Lemma map_verb_iff : forall cs op (t : list expr) e, map_verb cs op t = Some e <-> verb_ok cs (map rankn t) /\ e = Map op (each2 reframe t (dest cs (map rankn t))).
Proof.
  intros cs op t e. unfold map_verb.
  pose proof (framematch_dest cs _ _ _ (rems_start t) 0%nat) as F.
  assert (E : verb_ok cs (map rankn t) -> each2 (fun ax d => ax ++ map (Nat.add 0) d) (map (fun _ => []) t) (dest cs (map rankn t)) = dest cs (map rankn t)).
  { intros H. pose proof (dest_length _ _ H) as L. rewrite map_length in L. revert L. generalize (dest cs (map rankn t)) as ds. clear.
    induction t; intros [|d ds] L; cbn [map each2] in *; try discriminate; auto. rewrite IHt by (cbn in L; lia). cbn [app]. f_equal. apply (map_id d). }
  destruct (framematch cs (map rankn t) (map (fun _ => []) t) 0) as [axs|] eqn:Ef.
  - destruct (proj1 (F axs) eq_refl) as (H1 & ->). rewrite (E H1), zipw_each2. split; [intros X1; injection X1 as <-; auto|intros (_ & ->); auto].
  - split; [discriminate|]. intros (H & _). assert (Y := proj2 (F _) (conj H eq_refl)). congruence.
Qed.

Lemma dest_args : forall cs (t : list expr), verb_ok cs (map rankn t) -> Forall wf t ->
  Forall2 (fun a d => wf a /\ length d = rankn a /\ NoDup d /\ Forall (fun k => (k < verb_rank cs (map rankn t))%nat) d) t (dest cs (map rankn t)).
Proof.
  intros cs t H Hw. pose proof (dest_spec _ _ H) as D. revert D. generalize (dest cs (map rankn t)) as ds, (verb_rank cs (map rankn t)) as R.
  clear H. induction Hw; intros ds R D; cbn [map] in D; inversion D; subst; constructor; auto.
Qed.
End Ex.
