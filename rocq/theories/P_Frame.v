(* Properties of rank conjunction, outer product, array subscripts, index placeholders: C26, C27, C57, C58. *)
From Coq Require Import ZArith List Lia Bool Arith.
From Verif Require Import Spec M_Base M_Expr M_Ply L_Spec L_Expr Spec_Ply L_Ply Spec_Expr L_Agree M_Val Spec_Val L_Val P_Reduce M_View L_View Spec_View M_Slice Spec_Slice L_Slice P_Slice M_Frame Spec_Frame L_Frame.
Import ListNotations.
Open Scope Z_scope.

(* ---- C57 ---- *)

Lemma map_axes : forall X W (t : list (expr X W)), Forall wf t -> map axes t = map rankn t.
Proof. induction 1; cbn; auto. rewrite axes_rank, IHForall; auto. Qed.

(* accepted if at each level the cell ranks aren't more than the axes left *)
Theorem C57_accepted : forall X W cs op (t : list (expr X W)), Forall wf t -> ((exists e, map_verb cs op t = Some e) <-> verb_ok cs (map axes t)).
Proof.
  intros X W cs op t Hw. rewrite (map_axes X W t Hw). split.
  - intros (e & E). apply map_verb_iff in E. tauto.
  - intros H. eexists. apply map_verb_iff. split; [exact H|reflexivity].
Qed.

Theorem C57_element : forall X W cs op (t : list (expr X W)) e, Forall wf t -> t <> [] -> map_verb cs op t = Some e ->
  wf e /\ axes e = verb_rank cs (map axes t) /\
  (forall k, leaf_lens e k = concat (each2 (fun a o => match o with Some l => leaf_lens a l | None => [] end) t (verb_axis cs (map axes t) k))) /\
  (forall j w, length j = verb_rank cs (map axes t) ->
    element e j w = match in_order (each2 element t (verb_index cs (map axes t) j)) w with Ok xs w1 => op xs w1 | Fail w1 => Fail w1 | Undef => Undef end).
Proof.
  intros X W cs op t e Hw Hn E. rewrite (map_axes X W t Hw). apply map_verb_iff in E as (Hok & ->).
  pose proof (dest_args cs t Hok Hw) as D. split; [|split; [|split]].
  - cbn [wf]. split.
    + intros Z0. apply (f_equal (@length _)) in Z0. rewrite each2_length, dest_length, map_length in Z0 by auto. destruct t; [congruence|cbn in Z0; lia].
    + apply wf_Forall. clear - D. revert D. generalize (verb_rank cs (map rankn t)) as R, (dest cs (map rankn t)) as ds. intros R ds D.
      induction D as [|a d t ds (H1 & H2 & H3 & _) D IH]; cbn [each2]; constructor; auto. apply reframe_wf; auto.
  - cbn [axes]. rewrite <- (dest_top _ _ Hok). clear - D. revert D. generalize (verb_rank cs (map rankn t)) as R, (dest cs (map rankn t)) as ds. intros R ds D.
    induction D as [|a d t ds (H1 & H2 & H3 & _) D IH]; cbn [each2 fold_right map maxl]; auto. rewrite reframe_axes by auto. rewrite IH. reflexivity.
  - intros k. cbn [leaf_lens]. pose proof (dest_axis _ _ Hok k) as A. revert A D.
    generalize (verb_axis cs (map rankn t) k) as va, (verb_rank cs (map rankn t)) as R, (dest cs (map rankn t)) as ds. clear. intros va R ds A D. revert va A.
    induction D as [|a d t ds (H1 & H2 & H3 & _) D IH]; intros [|v va] A; cbn [each2 flat_map map concat] in *; try discriminate; auto.
    injection A as A1 A2. rewrite reframe_lens by auto. rewrite A1, (IH va A2). f_equal. destruct v; cbn; [apply app_nil_r|reflexivity].
  - intros j w Hj. cbn [element]. rewrite <- (dest_index _ _ Hok j Hj). erewrite in_order_ext; [reflexivity|].
    rewrite <- Hj in D. clear - D. revert D. generalize (dest cs (map rankn t)) as ds. intros ds D.
    induction D as [|a d t ds (H1 & H2 & H3 & H4) D IH]; cbn [each2 map]; constructor; auto. intros w. apply reframe_element; auto.
Qed.

Definition minus2 {W} (xs : list Z) : M W Z := fun w => match xs with [a; b] => Ok (a - b) w | _ => Undef end.
Definition xA : expr Z unit := Cell [Dim 2 10; Dim 3 1] 2 (fun p => p) 0.
Definition xB : expr Z unit := Cell [Dim 2 100; Dim 4 20] 2 (fun p => p) 0.
(* map(wrank<1, 1>(wrank<0, 1>(minus)), A, B) for A with shape 2 3 and B with shape 2 4 is A(i, j)-B(i, k) *)
Example C57_ex : Forall wf [xA; xB] /\ verb_ok [[1; 1]; [0; 1]]%nat (map axes [xA; xB]) /\
  match map_verb [[1; 1]; [0; 1]]%nat minus2 [xA; xB] with
  | Some e => shape e = [2; 3; 4] /\ element e [1; 2; 3] tt = Ok (12 - 160) tt
  | None => False
  end.
Proof.
  split; [constructor; [wfauto|constructor; [wfauto|constructor]]|]. split; [cbn; split; [repeat constructor|split; [repeat constructor|exact I]]|]. vm_compute. split; reflexivity.
Qed.

(* ---- C26 ---- *)

(* outer_cranks by recursion *)
Fixpoint ocr (k : nat) (rs : list nat) : list (list nat) :=
  match rs with
  | [] => []
  | [_] => []
  | _::rs' => (repeat 0%nat (S k) ++ rs') :: ocr (S k) rs'
  end.
Lemma ocr_cons : forall k r r' rs, ocr k (r :: r' :: rs) = (repeat 0%nat (S k) ++ r' :: rs) :: ocr (S k) (r' :: rs).
Proof. reflexivity. Qed.
Lemma outer_cranks_ocr : forall rs, outer_cranks rs = ocr 0 rs.
Proof.
  assert (G : forall rs pre, map (fun d => repeat 0%nat d ++ skipn d (pre ++ rs)) (seq (S (length pre)) (length rs - 1)) = ocr (length pre) rs).
  { induction rs as [|r rs IH]; intros pre; [reflexivity|]. destruct rs as [|r' rs]; [reflexivity|].
    cbn [length]. rewrite Nat.sub_succ, Nat.sub_0_r. rewrite ocr_cons. cbn [seq map]. f_equal.
    - f_equal. rewrite skipn_app. rewrite skipn_all2 by lia. replace (S (length pre) - length pre)%nat with 1%nat by lia. reflexivity.
    - specialize (IH (pre ++ [r])). rewrite app_length in IH. cbn [length] in IH. rewrite Nat.add_1_r, Nat.sub_succ, Nat.sub_0_r in IH.
      rewrite <- IH. apply map_ext. intros d. rewrite <- app_assoc. reflexivity. }
  intros rs. exact (G rs []).
Qed.

Lemma maxl_zeros : forall n l, maxl (repeat 0%nat n ++ l) = maxl l.
Proof. induction n; cbn; auto. Qed.
Lemma each2_sub_zeros : forall k l m, each2 Nat.sub (repeat 0%nat k ++ l) (repeat 0%nat k ++ m) = repeat 0%nat k ++ each2 Nat.sub l m.
Proof. induction k; intros; cbn [repeat app each2]; auto. rewrite IHk. reflexivity. Qed.
Lemma each2_sub_same : forall l, each2 Nat.sub l l = repeat 0%nat (length l).
Proof. induction l; cbn; auto. rewrite IHl. f_equal. lia. Qed.
(* the frames at level k *)
Lemma outer_frame : forall k r rs, each2 Nat.sub (repeat 0%nat k ++ r :: rs) (repeat 0%nat (S k) ++ rs) = repeat 0%nat k ++ r :: repeat 0%nat (length rs).
Proof.
  intros. replace (repeat 0%nat (S k) ++ rs) with (repeat 0%nat k ++ 0%nat :: rs).
  - rewrite each2_sub_zeros. cbn [each2]. rewrite Nat.sub_0_r, each2_sub_same. reflexivity.
  - change (S k) with (1 + k)%nat. rewrite Nat.add_comm, repeat_app, <- app_assoc. reflexivity.
Qed.
Lemma outer_frame_max : forall k r n, maxl (repeat 0%nat k ++ r :: repeat 0%nat n) = r.
Proof. intros. rewrite maxl_zeros. cbn [maxl]. rewrite <- (app_nil_r (repeat 0%nat n)), maxl_zeros. cbn; lia. Qed.

Lemma outer_ok : forall rs k, verb_ok (ocr k rs) (repeat 0%nat k ++ rs).
Proof.
  induction rs as [|r rs IH]; intros k; [exact I|]. destruct rs as [|r' rs]; [exact I|]. rewrite ocr_cons. cbn [verb_ok]. split; [|apply IH].
  replace (repeat 0%nat (S k) ++ r' :: rs) with (repeat 0%nat k ++ 0%nat :: r' :: rs).
  - apply Forall2_app; [clear; induction k; cbn; auto|]. constructor; [lia|]. clear. induction (r' :: rs); auto.
  - change (S k) with (1 + k)%nat. rewrite Nat.add_comm, repeat_app, <- app_assoc. reflexivity.
Qed.
Lemma outer_rank : forall rs k, verb_rank (ocr k rs) (repeat 0%nat k ++ rs) = fold_right Nat.add 0%nat rs.
Proof.
  induction rs as [|r rs IH]; intros k; [cbn; rewrite maxl_zeros; reflexivity|]. destruct rs as [|r' rs]; [cbn; rewrite maxl_zeros; cbn; lia|].
  rewrite ocr_cons. cbn [verb_rank]. rewrite outer_frame, outer_frame_max. rewrite (IH (S k)). reflexivity.
Qed.
Lemma outer_index : forall js k, verb_index (ocr k (map (@length Z) js)) (repeat 0%nat k ++ map (@length Z) js) (concat js) = repeat [] k ++ js.
Proof.
  induction js as [|j js IH]; intros k.
  - cbn. rewrite !app_nil_r. induction k; cbn; auto. f_equal; auto.
  - destruct js as [|j' js].
    + cbn [map ocr verb_index concat]. rewrite app_nil_r, map_app. cbn [map]. rewrite firstn_all. f_equal. induction k; cbn; auto. f_equal; auto.
    + cbn [map]. rewrite ocr_cons. cbn [verb_index]. cbn [map] in IH. rewrite outer_frame, outer_frame_max.
      cbn [concat] in IH |- *. rewrite skipn_app, skipn_all, Nat.sub_diag. cbn [app skipn]. rewrite (IH (S k)).
      cbn [length]. rewrite map_length.
      assert (G : forall k (l : list (list Z)) x f, each2 (fun n r => firstn n x ++ r) (repeat 0%nat k ++ f) (repeat [] k ++ l) = repeat [] k ++ each2 (fun n r => firstn n x ++ r) f l).
      { clear. induction k; intros; cbn [repeat app each2]; auto. rewrite IHk. reflexivity. }
      change (repeat (@nil Z) (S k)) with (repeat (@nil Z) (1 + k)). rewrite Nat.add_comm, repeat_app, <- app_assoc. rewrite G. f_equal. cbn [app each2 repeat].
      rewrite firstn_app, firstn_all, Nat.sub_diag. cbn [firstn]. rewrite !app_nil_r. f_equal. f_equal. generalize (j ++ j' ++ concat js). clear. intros x. induction js; cbn [length repeat each2 firstn app]; auto. f_equal; auto.
Qed.
(* which argument is on each axis *)
Fixpoint outer_axis (rs : list nat) (x : nat) : list (option nat) :=
  match rs with
  | [] => []
  | r::rs' => if (x <? r)%nat then Some x :: map (fun _ => None) rs' else None :: outer_axis rs' (x - r)
  end.
Lemma outer_axis_eq : forall rs k x, verb_axis (ocr k rs) (repeat 0%nat k ++ rs) x = repeat None k ++ outer_axis rs x.
Proof.
  assert (Z0 : forall k x, map (fun r => if (x <? r)%nat then Some x else None) (repeat 0%nat k) = repeat None k) by (induction k; intros; cbn [repeat map]; [reflexivity|rewrite IHk; reflexivity]).
  induction rs as [|r rs IH]; intros k x.
  - cbn. rewrite !app_nil_r. apply Z0.
  - destruct rs as [|r' rs].
    + cbn [ocr verb_axis outer_axis]. rewrite map_app, Z0. cbn [map]. destruct (x <? r)%nat; reflexivity.
    + rewrite ocr_cons. cbn [verb_axis]. rewrite outer_frame, outer_frame_max.
      change (outer_axis (r :: r' :: rs) x) with (if (x <? r)%nat then Some x :: map (fun _ => None) (r' :: rs) else None :: outer_axis (r' :: rs) (x - r)). destruct (x <? r)%nat eqn:Ex.
      * rewrite map_app, Z0. cbn [map]. rewrite Ex. f_equal. f_equal. rewrite Z0. clear. cbn [length repeat]. f_equal. induction rs; cbn; f_equal; auto.
      * rewrite (IH (S k) (x - r)%nat).
        assert (G : forall k l f, each2 (fun n o => option_map (Nat.add n) o) (repeat 0%nat k ++ f) (repeat None k ++ l) = repeat None k ++ each2 (fun n o => option_map (Nat.add n) o) f l).
        { clear. induction k; intros; cbn [repeat app each2]; auto. rewrite IHk. reflexivity. }
        change (repeat (@None nat) (S k)) with (repeat (@None nat) (1 + k)). rewrite Nat.add_comm, repeat_app, <- app_assoc. rewrite G. f_equal. cbn [app each2 repeat option_map]. f_equal.
        assert (Lx : forall rs x, length (outer_axis rs x) = length rs) by (clear; induction rs; cbn [outer_axis]; intros; auto; destruct (x <? a)%nat; cbn; rewrite ?map_length; auto).
        cut (forall l n, length l = n -> each2 (fun n o => option_map (Nat.add n) o) (repeat 0%nat n) l = l); [intros C; apply C; rewrite Lx; reflexivity|].
        clear. induction l as [|o l IHl]; intros n <-; cbn [length repeat each2]; auto. rewrite IHl by auto. f_equal. destruct o; reflexivity.
Qed.

Lemma shape_extents : forall X W (e : expr X W) s, shape_is e s <-> extents e s /\ nonneg s.
Proof.
  intros X W e s. split.
  - intros (L & P). split; [split; auto; intros k Hk; destruct (P k Hk) as (A & B & C); auto|]. unfold nonneg. apply Forall_forall. intros n Hn. apply (In_nth _ _ 0) in Hn as (k & Hk & <-).
    apply P. lia.
  - intros ((L & P) & N). split; auto. intros k Hk. destruct (P k Hk) as (_ & B & C). split; auto. unfold nonneg in N. rewrite Forall_forall in N. apply N, nth_In. lia.
Qed.
Lemma extents_length : forall X W (t : list (expr X W)) ss, Forall2 extents t ss -> map (@length Z) ss = map axes t.
Proof. induction 1 as [|a s t ss [L _] F IH]; cbn; congruence. Qed.

Theorem C26_outer : forall X W op (t : list (expr X W)) ss, t <> [] -> Forall wf t -> Forall2 extents t ss ->
  exists e, from_op op t = Some e /\ wf e /\ extents e (concat ss) /\
  forall js w, Forall2 (fun j s => length j = length s) js ss ->
    element e (concat js) w = match in_order (each2 element t js) w with Ok xs w1 => op xs w1 | Fail w1 => Fail w1 | Undef => Undef end.
Proof.
  intros X W op t ss Hn Hw Hs.
  pose proof (extents_length _ _ _ _ Hs) as Ls. pose proof (map_axes _ _ _ Hw) as Ma.
  pose proof (outer_ok (map rankn t) 0) as Ok. cbn [repeat app] in Ok. rewrite <- outer_cranks_ocr in Ok.
  unfold from_op. destruct (proj2 (C57_accepted X W (outer_cranks (map rankn t)) op t Hw)) as (e & E); [rewrite Ma; exact Ok|].
  exists e. split; [exact E|]. destruct (C57_element _ _ _ _ _ _ Hw Hn E) as (We & Ae & Le & Ee).
  split; [exact We|]. rewrite <- Ma in *. rewrite outer_cranks_ocr in *. 
  pose proof (outer_rank (map axes t) 0) as R. pose proof (outer_axis_eq (map axes t) 0) as OA. cbn [repeat app] in R, OA. rewrite R in *.
  assert (Lc : length (concat ss) = fold_right Nat.add 0%nat (map axes t)).
  { rewrite <- Ls. clear. induction ss; cbn; auto. rewrite app_length, IHss. reflexivity. }
  split.
  - split; [rewrite Ae; exact Lc|]. rewrite Ae. intros k Hk. rewrite Le, OA. clear - Hk Hs. revert k Hk.
    induction Hs as [|a s t ss [L P] Hs IH]; intros k Hk; cbn [map fold_right outer_axis concat] in *; [lia|].
    destruct (Nat.ltb_spec k (axes a)).
    + cbn [each2 concat]. rewrite app_nth1 by lia.
      replace (concat (each2 (fun a0 o => match o with Some l => leaf_lens a0 l | None => [] end) t (map (fun _ => None) (map axes t)))) with (@nil Z); [rewrite app_nil_r; apply P; auto|].
      clear. induction t; cbn; auto.
    + cbn [each2 concat app]. rewrite app_nth2 by lia. rewrite L. apply IH. lia.
  - intros js w Hj. 
    assert (Lj : map (@length Z) js = map axes t).
    { rewrite <- Ls. clear - Hj. induction Hj; cbn; congruence. }
    rewrite Ee.
    + rewrite <- Lj. pose proof (outer_index js 0) as OI. cbn [repeat app] in OI. rewrite OI. reflexivity.
    + rewrite <- Lj. clear. induction js; cbn; auto. rewrite app_length, IHjs. reflexivity.
Qed.
(* if the lengths are all bounded *)
Corollary C26_bounded : forall X W op (t : list (expr X W)) ss, t <> [] -> Forall wf t -> Forall2 shape_is t ss -> exists e, from_op op t = Some e /\ wf e /\ shape_is e (concat ss).
Proof.
  intros X W op t ss Hn Hw Hs. destruct (C26_outer X W op t ss Hn Hw) as (e & E & We & Se & _).
  - clear - Hs. induction Hs; constructor; auto. apply shape_extents; auto.
  - exists e. split; auto. split; auto. apply shape_extents. split; auto. clear - Hs. unfold nonneg. induction Hs; cbn; [constructor|]. apply Forall_app. split; auto. apply shape_extents in H; tauto.
Qed.
Definition xV : expr Z unit := Cell [Dim 5 7] 1 (fun p => p) 3.
Example C26_ex : Forall wf [xA; Scalar 4; xV] /\ Forall2 shape_is [xA; Scalar 4; xV] [[2; 3]; []; [5]] /\
  match from_op (fun xs w => Ok (fold_left (fun a b => 1000 * a + b) xs 0) w) [xA; Scalar 4; xV] with
  | Some e => shape e = [2; 3; 5] /\ element e [1; 2; 4] tt = Ok 12004031 tt
  | None => False
  end.
Proof.
  split; [constructor; [wfauto|constructor; [wfauto|constructor; [wfauto|constructor]]]|]. split.
  - constructor; [apply (shape_shape_is xA); [wfauto|reflexivity]|]. constructor; [apply (shape_shape_is (Scalar 4)); [wfauto|reflexivity]|].
    constructor; [apply (shape_shape_is xV); [wfauto|reflexivity]|constructor].
  - cbn -[UNB]. split; reflexivity.
Qed.

(* ---- C27 ---- *)

Lemma within_split : forall j1 s1 j2 s2, length j1 = length s1 -> within (j1 ++ j2) (s1 ++ s2) -> within j1 s1 /\ within j2 s2.
Proof.
  unfold within. induction j1; intros [|n s1] j2 s2 L H; cbn in *; try lia; auto.
  inversion H; subst. destruct (IHj1 s1 j2 s2) as [A B]; auto; lia.
Qed.
Lemma within_length : forall j s, within j s -> length j = length s.
Proof. induction 1; cbn; auto. Qed.
Lemma inshape_within : forall j s, nonneg s -> (within j s <-> inshape j s).
Proof.
  intros j s N. split; intros H; unfold within, inshape in *.
  - induction H as [|x n j s [A B] H IH]; inversion N; subst; constructor; auto. unfold UNB in B. lia.
  - induction H; inversion N; subst; constructor; auto. lia.
Qed.
Lemma valid_app : forall j1 dv1 j2 dv2, length j1 = length dv1 -> (valid (j1 ++ j2) (dv1 ++ dv2) <-> valid j1 dv1 /\ valid j2 dv2).
Proof.
  unfold valid. induction j1; intros [|d dv1] j2 dv2 L; cbn in *; try lia.
  - split; [intros; split; auto|tauto].
  - split.
    + intros H. inversion H; subst. apply IHj1 in H5 as [A B]; [|lia]. split; auto.
    + intros [A B]. inversion A; subst. constructor; auto. apply IHj1; auto; lia.
Qed.

(* a view on as many integers as it has axes *)
Lemma cidx_selects : forall l ls, length l = length ls -> selects (map cidx l) ls [] l.
Proof. induction l; intros [|n ls] H; cbn in *; try discriminate; [apply sel_end; auto|]. constructor; auto. Qed.
Lemma cidx_legal : forall l dv, length l = length dv -> (legal (map cidx l) dv <-> valid l dv).
Proof.
  induction l as [|i l IH]; intros [|d dv] H; cbn [map length] in *; try discriminate.
  - split; intros _; constructor.
  - unfold cidx at 1. split; intros L.
    + inversion L as [|f d' x s dv' E B L'| | | | |]; subst. injection E as <-. constructor; [exact B|apply IH; auto].
    + inversion L; subst. eapply leg_idx; [reflexivity|auto|]. apply IH; auto.
Qed.
Lemma cidx_from : forall b l, length l = vrank b ->
  (valid l (vdv b) -> from b (map cidx l) = Good (Vw [] (vplace b l))) /\ (~ valid l (vdv b) -> from b (map cidx l) = Refused).
Proof.
  intros b l L. pose proof (cidx_legal l (vdv b) L) as I.
  assert (O : Forall one_axis (map cidx l)) by (clear; induction l; cbn; constructor; cbn; auto).
  assert (T : total takes (map cidx l) = length l) by (clear; induction l; cbn; auto).
  assert (F : fits (vrank b) (map cidx l)) by (unfold fits; lia).
  assert (R : one_rest (map cidx l)).
  { apply one_rest_count. replace (filter is_rest (map cidx l)) with (@nil sub); [cbn; lia|]. clear; induction l; cbn; auto. }
  destruct (C23_accepted b _ O F R) as [A B]. split; intros H.
  - apply I in H. destruct (A H) as (v & E). rewrite E. destruct (C23_select _ _ _ E O F) as (S1 & S2 & S3).
    assert (Lb : length l = length (vshape b)) by (unfold vshape; rewrite map_length; exact L).
    destruct (S3 [] l (cidx_selects l _ Lb)) as (K1 & K2 & K3). destruct v as [dv p]. unfold vrank in K1; cbn in K1. destruct dv; [|discriminate].
    f_equal. f_equal. rewrite <- K3. unfold vplace; cbn. lia.
  - apply B. intros H1. apply H, I, H1.
Qed.

(* the axes of the beaten view *)
Inductive sdims : list sub -> list dim -> list dim -> Prop :=
| sdm_end : forall dv, sdims [] dv dv
| sdm_idx : forall f d subs dv rs, sdims subs dv rs -> sdims (SIdx f :: subs) (d :: dv) rs
| sdm_seq : forall o c s d c' st subs dv rs, c (len d) = Some c' -> 0 <= c' -> sdims subs dv rs -> sdims (SSeq o c s :: subs) (d :: dv) (Dim c' st :: rs)
| sdm_dots : forall n subs dv1 dv rs, length dv1 = n -> sdims subs dv rs -> sdims (SDots (Some n) :: subs) (dv1 ++ dv) (dv1 ++ rs)
| sdm_rest : forall subs dv1 dv rs, length dv = total takes subs -> sdims subs dv rs -> sdims (SDots None :: subs) (dv1 ++ dv) (dv1 ++ rs)
| sdm_insert : forall n subs dv rs, sdims subs dv rs -> sdims (SInsert n :: subs) dv (repeat (Dim UNB 0) n ++ rs)
| sdm_arr : forall d subs dv rs, sdims subs dv rs -> sdims (SArr :: subs) (d :: dv) (d :: rs).
Lemma fromb_sdims : forall subs av bv pl bv' pl', fromb true subs av bv pl = Good (bv', pl') -> Forall one_axis subs -> fits (length av) subs ->
  exists dv, bv' = bv ++ dv /\ sdims subs av dv.
Proof.
  induction subs as [|s subs IH]; intros av bv pl bv' pl' E O F.
  - cbn in E; injection E as <- <-. exists av. split; auto. constructor.
  - inversion O as [|? ? O1 O2]; subst. unfold fits in F; cbn [total] in F.
    destruct s as [f|o c t|o dv|k|n|]; cbn [fromb takes] in *.
    + destruct av as [|d av]; [discriminate|]. cbn [length] in F. destruct (f (len d)); [|discriminate]. destruct (_ || _); [|discriminate].
      apply IH in E as (dv & -> & S); auto; [|unfold fits; lia]. exists dv. split; auto. constructor; auto.
    + destruct av as [|d av]; [discriminate|]. cbn [length] in F. destruct (o (len d)), (c (len d)) eqn:Ec, (t (len d)); try discriminate. destruct (Z.ltb_spec z0 0); [discriminate|].
      destruct (seq_ok _ _ _); [|discriminate]. apply IH in E as (dv & -> & S); auto; [|unfold fits; lia]. eexists. rewrite <- app_assoc. split; [reflexivity|]. econstructor; eauto.
    + destruct O1.
    + assert (Fn : (match k with Some n => n | None => (length av - sumn (map fsrc subs))%nat end <= length av /\ total takes subs <= length av - match k with Some n => n | None => (length av - sumn (map fsrc subs))%nat end)%nat).
      { rewrite total_fsrc. destruct k; lia. }
      set (n := match k with Some n => n | None => (length av - sumn (map fsrc subs))%nat end) in *. destruct (Nat.ltb_spec (length av) n); [lia|]. cbn [andb] in E.
      apply IH in E as (dv & -> & S); auto; [|unfold fits; rewrite skipn_length; lia]. exists (firstn n av ++ dv). rewrite <- app_assoc. split; auto.
      rewrite <- (firstn_skipn n av) at 1. destruct k.
      * apply sdm_dots; auto. apply firstn_length_le. apply Fn.
      * apply sdm_rest; auto. rewrite skipn_length. unfold n. rewrite total_fsrc in *. lia.
    + apply IH in E as (dv & -> & S); auto. rewrite <- app_assoc. eexists. split; [reflexivity|]. constructor; auto.
    + destruct av as [|d av]; [cbn in F; lia|]. cbn [length] in F. apply IH in E as (dv & -> & S); auto; [|unfold fits; lia]. rewrite <- app_assoc. eexists. split; [reflexivity|]. constructor; auto.
Qed.
Lemma from_sdims : forall a subs b, from a subs = Good b -> Forall one_axis subs -> fits (vrank a) subs -> one_rest subs -> sdims subs (vdv a) (vdv b).
Proof.
  intros a subs b E O F R. apply one_rest_count in R. rewrite (from_fromb a subs O F R) in E. destruct (fromb true subs (vdv a) [] (vcp a)) as [[dv pl]| |] eqn:Eb; try discriminate.
  cbn in E. injection E as <-. apply fromb_sdims in Eb as (dv' & -> & S); auto.
Qed.

(* what each axis of the beaten view reads *)
Inductive reading {T W} : list (option (expr (val T) W)) -> list (list Z) -> list Z -> Prop :=
| rd_nil : reading [] [] []
| rd_none : forall x t js xs, reading t js xs -> reading (None :: t) ([x] :: js) (x :: xs)
| rd_some : forall e s f j t js xs, holds e (s, f) -> within j s -> reading t js xs -> reading (Some e :: t) (j :: js) (f j :: xs).
Inductive reading_shape {T W} : list (option (expr (val T) W)) -> list Z -> list (list Z) -> list Z -> Prop :=
| rs_nil : reading_shape [] [] [] []
| rs_none : forall n t ns ss os, reading_shape t ns ss os -> reading_shape (None :: t) (n :: ns) ([n] :: ss) (n :: os)
| rs_some : forall e s f n t ns ss os, holds e (s, f) -> reading_shape t ns ss os -> reading_shape (Some e :: t) (n :: ns) (s :: ss) os.

Lemma reading_nones : forall T W j1 t js xs, @reading T W t js xs -> reading (repeat None (length j1) ++ t) (map (fun x => [x]) j1 ++ js) (j1 ++ xs).
Proof. induction j1; cbn; intros; auto. constructor; auto. Qed.
Lemma concat_ones : forall (l : list Z) r, concat (map (fun x => [x]) l ++ r) = l ++ concat r.
Proof. induction l; cbn; intros; auto. rewrite IHl. reflexivity. Qed.
Lemma reading_shape_nones : forall T W j1 t js xs os, @reading_shape T W t xs js os -> reading_shape (repeat None (length j1) ++ t) (j1 ++ xs) (map (fun x => [x]) j1 ++ js) (j1 ++ os).
Proof. induction j1; cbn; intros; auto. constructor; auto. Qed.

Lemma app_inj : forall (A : Type) (a b c d : list A), length a = length c -> a ++ b = c ++ d -> a = c /\ b = d.
Proof. induction a; intros b [|x c] d L E; cbn in *; try discriminate; auto. injection E as -> E. destruct (IHa b c d) as [-> ->]; auto. Qed.

Ltac appeq := repeat match goal with H : ?a ++ ?b = ?c ++ ?d |- _ =>
  let L := fresh "L" in
  assert (L : length a = length c) by (first [congruence | pose proof (f_equal (@length _) H); rewrite !app_length in *; lia]);
  apply app_inj in H; [destruct H as [? ?]; clear L; subst|exact L] end.
Lemma gathers_reading : forall T W subs fs ls j i, gathers subs fs ls j i -> forall es : list (expr (val T) W), Forall2 holds es fs ->
  exists js xs, concat js = j /\ reading (fancy_ti subs es (length ls)) js xs /\ selects subs ls xs i /\
    (forall rs dv bv, ls = map len dv -> gathers_shape subs fs ls rs -> sdims subs dv bv -> legal subs dv -> within j rs -> (valid xs bv <-> valid i dv)).
Proof.
  induction 1 as [ls j L|f n x subs fs ls j i E G IH|o c s n o' s' x subs fs ls j i E1 E2 G IH|n subs fs ls1 ls j1 j i L1 L2 G IH|subs fs ls1 ls j1 j i L1 L2 G IH|n subs fs ls j1 j i L G IH|s f n j1 subs fs ls j i I G IH];
    intros es Hes; cbn [fancy_ti].
  - exists (map (fun x => [x]) j), j. inversion Hes; subst. split; [|split; [|split; [constructor; auto|]]].
    + rewrite <- (app_nil_r (map _ j)), concat_ones. apply app_nil_r.
    + rewrite <- L. pose proof (reading_nones T W j [] [] [] rd_nil) as R. rewrite !app_nil_r in R. exact R.
    + intros rs dv bv _ _ Hs _ _. inversion Hs; subst; tauto.
  - destruct (IH es Hes) as (js & xs & C & R & S & In). exists js, xs. cbn [length]. rewrite Nat.sub_succ, Nat.sub_0_r. repeat split; auto; [econstructor; eauto| |].
    all: destruct dv as [|d dv]; [discriminate|]; match goal with K : _ = map len _ |- _ => cbn [map] in K; injection K as -> -> end.
    all: match goal with Hg : gathers_shape _ _ _ _, Hs : sdims _ _ _, Lg : legal _ _ |- _ => inversion Hg; inversion Hs; inversion Lg; subst end.
    + intros V. assert (Some x = Some x0) as [= ->] by congruence. constructor; [auto|]. eapply In; eauto.
    + intros V. inversion V; subst. eapply In; eauto.
  - destruct (IH es Hes) as (js & xs & C & R & S & In). exists ([x] :: js), (x :: xs). cbn [length concat app]. rewrite Nat.sub_succ, Nat.sub_0_r.
    split; [congruence|]. split; [constructor; auto|]. split; [econstructor; eauto|].
    intros rs dv bv El Hg Hs Lg Ij. destruct dv as [|d dv]; [discriminate|]. cbn [map] in El. injection El as -> ->. inversion Hg; inversion Hs; inversion Lg; subst.
    repeat match goal with A : ?e = Some ?u, B : ?e = Some ?v |- _ => lazymatch u with v => fail | _ => assert (u = v) by congruence; subst u; clear A end end.
    inversion Ij as [|? ? ? ? [X1 X2] Ij']; subst.
    split; intros V; inversion V; subst; constructor; cbn [len step]; try (eapply In; eauto); unfold UNB in *; left; [match goal with Q : forall x, 0 <= x < _ -> _ |- _ => apply Q; lia end|lia].
  - destruct (IH es Hes) as (js & xs & C & R & S & In). exists (map (fun x => [x]) j1 ++ js), (j1 ++ xs). rewrite concat_ones, C. split; [reflexivity|].
    rewrite app_length, L1, (Nat.add_comm n), Nat.add_sub. split; [rewrite <- L2; apply reading_nones; auto|]. split; [constructor; auto|].
    intros rs dv bv El Hg Hs Lg Ij. inversion Hg; subst. inversion Hs; subst. inversion Lg; subst. appeq. rewrite map_app in El. apply app_inj in El as [-> ->]; [|rewrite map_length; congruence].
    appeq. apply within_split in Ij as [I1 I2]; [|congruence]. rewrite !valid_app by congruence. split; intros [V1 V2]; (split; [exact V1|]); eapply In; eauto.
  - destruct (IH es Hes) as (js & xs & C & R & S & In). exists (map (fun x => [x]) j1 ++ js), (j1 ++ xs). rewrite concat_ones, C. split; [reflexivity|].
    rewrite total_fsrc, <- L2, app_length, Nat.add_sub, (Nat.add_comm (length ls1)), Nat.add_sub. split; [rewrite <- L1; apply reading_nones; auto|]. split; [constructor; auto|].
    intros rs dv bv El Hg Hs Lg Ij. inversion Hg; subst. inversion Hs; subst. inversion Lg; subst. appeq. rewrite map_app in El.
    match goal with K : ls1 ++ ls = map len ?d1 ++ map len ?d2 |- _ => assert (length ls1 = length (map len d1)) as Ld by (apply (f_equal (@length Z)) in K; rewrite !app_length, !map_length in *; lia); apply app_inj in K as [-> ->]; [|exact Ld] end.
    rewrite map_length in *. apply within_split in Ij as [I1 I2]; [|rewrite map_length; congruence]. rewrite !valid_app by congruence. split; intros [V1 V2]; (split; [exact V1|]); eapply In; eauto.
  - destruct (IH es Hes) as (js & xs & C & R & S & In). exists (map (fun x => [x]) j1 ++ js), (j1 ++ xs). rewrite concat_ones, C. split; [reflexivity|].
    split; [rewrite <- L; apply reading_nones; auto|]. split; [constructor; auto|].
    intros rs dv bv El Hg Hs Lg Ij. inversion Hg; subst. inversion Hs; subst. inversion Lg; subst. apply within_split in Ij as [I1 I2]; [|rewrite repeat_length; auto].
    rewrite valid_app by (rewrite repeat_length; auto). split; [intros [_ V]|intros V; split].
    + eapply In; eauto.
    + clear. unfold valid. induction j1; cbn; constructor; auto.
    + eapply In; eauto.
  - inversion Hes as [|e sf es' fs' He Hes']; subst. destruct (IH es' Hes') as (js & xs & C & R & S & In). exists (j1 :: js), (f j1 :: xs). cbn [concat length hd_error tl].
    rewrite Nat.sub_succ, Nat.sub_0_r. split; [congruence|]. split; [econstructor; eauto|]. split; [constructor; auto|].
    intros rs dv bv El Hg Hs Lg Ij. destruct dv as [|d dv]; [discriminate|]. cbn [map] in El. injection El as -> ->. inversion Hg; inversion Hs; inversion Lg; subst.
    apply within_split in Ij as [I1 I2]; [|apply within_length; auto]. split; intros V; inversion V; subst; constructor; auto; eapply In; eauto.
Qed.
Lemma shape_reading : forall T W subs ls bs, selects_shape subs ls bs -> Forall one_axis subs -> forall (es : list (expr (val T) W)) fs, Forall2 holds es fs ->
  length es = length (filter (fun s => match s with SArr => true | _ => false end) subs) ->
  exists ss os, reading_shape (fancy_ti subs es (length ls)) bs ss os /\ gathers_shape subs fs ls (concat ss) /\ others subs ls os.
Proof.
  induction 1 as [ls|f n subs ls rs S IH|o c s n c' subs ls rs E S IH|n subs ls1 ls rs L S IH|subs ls1 ls rs L S IH|n subs ls rs S IH|n subs ls rs S IH];
    intros O es fs Hes Le; cbn [fancy_ti filter length] in *; try (inversion O as [|? ? O1 O2]; subst).
  - destruct es; [|discriminate]. inversion Hes; subst. exists (map (fun x => [x]) ls), ls.
    pose proof (concat_ones ls []) as CO. pose proof (reading_shape_nones T W ls [] [] [] [] rs_nil) as R. rewrite !app_nil_r in R. rewrite app_nil_r in CO. cbn [concat] in CO. rewrite app_nil_r in CO. rewrite CO. split; [exact R|]. split; constructor.
  - destruct (IH O2 es fs Hes Le) as (ss & os & R & G & Oo). exists ss, os. rewrite Nat.sub_succ, Nat.sub_0_r. split; auto. split; constructor; auto.
  - destruct (IH O2 es fs Hes Le) as (ss & os & R & G & Oo). exists ([c'] :: ss), (c' :: os). rewrite Nat.sub_succ, Nat.sub_0_r. split; [|split]; constructor; auto.
  - destruct (IH O2 es fs Hes Le) as (ss & os & R & G & Oo). exists (map (fun x => [x]) ls1 ++ ss), (ls1 ++ os). rewrite concat_ones, app_length, (Nat.add_comm (length ls1)), Nat.add_sub.
    split; [apply reading_shape_nones; auto|split; constructor; auto].
  - destruct (IH O2 es fs Hes Le) as (ss & os & R & G & Oo). exists (map (fun x => [x]) ls1 ++ ss), (ls1 ++ os). rewrite concat_ones, total_fsrc, <- L, app_length, Nat.add_sub, (Nat.add_comm (length ls1)), Nat.add_sub.
    split; [apply reading_shape_nones; auto|split; constructor; auto].
  - destruct (IH O2 es fs Hes Le) as (ss & os & R & G & Oo). exists (map (fun x => [x]) (repeat UNB n) ++ ss), (repeat UNB n ++ os). rewrite concat_ones.
    split; [|split; constructor; auto]. rewrite <- (repeat_length UNB n) at 1. apply reading_shape_nones; auto.
  - destruct es as [|e es]; [discriminate|]. inversion Hes as [|? [s f] ? fs' He Hes']; subst. destruct (IH O2 es fs' Hes') as (ss & os & R & G & Oo); [cbn in Le; lia|].
    exists (s :: ss), os. rewrite Nat.sub_succ, Nat.sub_0_r. cbn [hd_error tl]. split; [econstructor; eauto|split; constructor; auto].
Qed.

Lemma extents_unique : forall X W (e : expr X W) s s', extents e s -> extents e s' -> s = s'.
Proof.
  intros X W e s s' [L P] [L' P']. apply nth_ext with (d := 0) (d' := 0); [congruence|]. rewrite L. intros k Hk.
  destruct (P k Hk) as (N1 & I1 & F1), (P' k Hk) as (N2 & I2 & F2). rewrite Forall_forall in F1, F2. destruct (F2 _ I1) as [|U]; auto. destruct (F1 _ I2) as [|U']; congruence.
Qed.

Lemma reading_args : forall T W st (ti : list (option (expr (val T) W))) bs ss os, reading_shape ti bs ss os -> forall dv, bs = map len dv -> Forall (fun n => 0 <= n \/ n = UNB) bs -> (st = true \/ ~ In UNB os) ->
  exists t, fancy_args st dv ti = Some t /\ Forall2 extents t ss /\ (Forall (fun o => match o with Some e => wf e | None => True end) ti -> Forall wf t) /\
    forall js xs, reading ti js xs -> Forall2 (fun j s => length j = length s) js ss /\ forall w, in_order (each2 element t js) w = Ok (map VI xs) w.
Proof.
  induction 1 as [|n ti bs ss os R IH|e s f n ti bs ss os He R IH]; intros [|d dv] E N B; cbn [map] in E; try discriminate; cbn [fancy_args].
  - exists []. split; [reflexivity|]. split; [constructor|]. split; [constructor|]. intros js xs Rd. inversion Rd; subst. split; [constructor|reflexivity].
  - injection E as -> E. inversion N as [|? ? N1 N2]; subst. destruct (IH dv eq_refl N2) as (t & Et & St & Wt & Rt). { destruct B as [->|B]; auto. right. intros I. apply B. right; auto. }
    rewrite Et. assert (spacer (T:=T) (W:=W) st d = Some (Cell [Dim (len d) 1] 1 VI 0)) as ->.
    { unfold spacer. destruct (Z.leb_spec 0 (len d)); [reflexivity|]. destruct N1 as [N1|N1]; [lia|]. destruct B as [->|B]; [|destruct B; left; auto]. rewrite N1. reflexivity. }
    eexists. split; [reflexivity|]. split; [|split].
    + constructor; auto. split; [reflexivity|]. intros [|k] Hk; cbn in Hk; [|lia]. cbn. split; [auto|]. split; [auto|]. constructor; auto.
    + intros F. inversion F; subst. constructor; [|auto]. cbn. split; [lia|]. constructor; [unfold oklen; cbn; tauto|constructor].
    + intros js xs Rd. inversion Rd as [|x ? js' xs' Rd'|]; subst. destruct (Rt js' xs' Rd') as [F I]. split; [constructor; auto|]. intros w. cbn [each2 in_order element]. cbn [in_order].
      rewrite I. cbn. do 3 f_equal. lia.
  - injection E as -> E. inversion N as [|? ? N1 N2]; subst. destruct (IH dv eq_refl N2 B) as (t & Et & St & Wt & Rt). rewrite Et. eexists. split; [reflexivity|].
    split; [constructor; auto; apply He|]. split; [intros F; inversion F; subst; constructor; auto|].
    intros js xs Rd. inversion Rd as [| |e' s' f' j ? js' xs' He' Ij Rd']; subst. destruct (Rt js' xs' Rd') as [F I].
    rewrite (extents_unique _ _ e s s') by (apply He || apply He'). split; [constructor; auto; apply within_length in Ij; auto|].
    intros w. cbn [each2 in_order]. rewrite (proj2 He' j w Ij), I. reflexivity.
Qed.
Lemma reading_refused : forall T W (ti : list (option (expr (val T) W))) bs ss os, reading_shape ti bs ss os -> forall dv, bs = map len dv -> In UNB os -> fancy_args false dv ti = None.
Proof.
  induction 1 as [|n ti bs ss os R IH|e s f n ti bs ss os He R IH]; intros [|d dv] E B; cbn [map] in E; try discriminate; cbn [fancy_args]; [destruct B| |].
  - injection E as -> E. destruct B as [B|B].
    + unfold spacer. rewrite B. reflexivity.
    + rewrite (IH dv) by auto. destruct (spacer false d); reflexivity.
  - injection E as -> E. rewrite (IH dv) by auto. reflexivity.
Qed.

Lemma ints_VI : forall T l, ints (map (@VI T) l) = Some l.
Proof. induction l; cbn; auto. rewrite IHl. reflexivity. Qed.

Lemma nth_Forall_wf : forall T W subs (es : list (expr (val T) W)) r, Forall wf es -> Forall (fun o => match o with Some e => wf e | None => True end) (fancy_ti subs es r).
Proof.
  assert (N : forall T W n, Forall (fun o : option (expr (val T) W) => match o with Some e => wf e | None => True end) (repeat None n)) by (induction n; cbn; constructor; auto).
  induction subs as [|s subs IH]; intros es r H; cbn [fancy_ti]; auto.
  destruct s; auto; try (apply Forall_app; split; auto); try (constructor; auto).
  - destruct es; cbn; auto. inversion H; auto.
  - apply IH. destruct es; auto. inversion H; auto.
Qed.

Lemma sdims_ok : forall subs av bv, sdims subs av bv -> Forall (fun n => 0 <= n \/ n = UNB) (map len av) -> Forall (fun n => 0 <= n \/ n = UNB) (map len bv).
Proof.
  induction 1; cbn [map]; intros N; auto.
  - inversion N; auto.
  - inversion N; subst. constructor; auto.
  - rewrite map_app in *. apply Forall_app in N as [A B]. apply Forall_app; auto.
  - rewrite map_app in *. apply Forall_app in N as [A B]. apply Forall_app; auto.
  - rewrite map_app. apply Forall_app; split; auto. clear. induction n; cbn; constructor; auto.
  - inversion N; subst. constructor; auto.
Qed.
Lemma others_nonneg : forall subs ls os dv, others subs ls os -> ls = map len dv -> Forall (fun s => forall n, s <> SInsert n) subs -> legal subs dv -> nonneg ls -> nonneg os.
Proof.
  intros subs ls os dv H. revert dv. induction H as [ls|f n subs ls rs S IH|o c s n c' subs ls rs E S IH|n subs ls1 ls rs L S IH|subs ls1 ls rs L S IH|n subs ls rs S IH|n subs ls rs S IH];
    intros dv El NI Lg N; try (inversion NI as [|? ? N1 N2]; subst); auto.
  - destruct dv as [|d dv]; [discriminate|]. injection El as -> ->. inversion N; inversion Lg; subst. eapply IH; eauto.
  - destruct dv as [|d dv]; [discriminate|]. injection El as -> ->. inversion N; inversion Lg; subst. constructor; [congruence|]. eapply IH; eauto.
  - inversion Lg; subst. rewrite map_app in El. apply app_inj in El as [-> ->]; [|rewrite map_length; congruence]. apply Forall_app in N as [Na Nb]. apply Forall_app; split; auto. eapply IH; eauto.
  - inversion Lg as [| | | |? dv1 dv' L' Lg'| |]; subst. rewrite map_app in El. apply app_inj in El as [-> ->].
    + apply Forall_app in N as [Na Nb]. apply Forall_app; split; auto. eapply IH; eauto.
    + apply (f_equal (@length Z)) in El. rewrite !app_length, !map_length in El. rewrite map_length. lia.
  - now destruct (N1 n).
  - destruct dv as [|d dv]; [discriminate|]. injection El as -> ->. inversion N; inversion Lg; subst. eapply IH; eauto.
Qed.
Lemma arrays_ti : forall T W subs (es : list (expr (val T) W)) r, fancy_ti subs es r = [] -> arrays subs = 0%nat.
Proof.
  unfold arrays. induction subs as [|s subs IH]; intros es r E; cbn [fancy_ti filter length] in *; auto.
  destruct s; cbn [length] in *; try discriminate E; try (apply app_eq_nil in E as [_ E]); eauto.
Qed.

(* Subscripts with arrays among them, of any rank, with any lengths and with any elements. An element out of range fails when it is reached. If an axis that isn't of one of the arrays is unbounded,
   then this is accepted if the lengths are in the types, and otherwise not. *)
Theorem C27_gather : forall T W st a subs (es : list (expr (val T) W)) fs,
  Forall one_axis subs -> fits (vrank a) subs -> one_rest subs -> Forall (fun n => 0 <= n \/ n = UNB) (vshape a) ->
  Forall wf es -> Forall2 holds es fs -> es <> [] -> length es = arrays subs ->
  (legal subs (vdv a) -> exists os, others subs (vshape a) os /\
    (st = true \/ ~ In UNB os -> exists e rs, from_u st a subs es = Good e /\ wf e /\ gathers_shape subs fs (vshape a) rs /\ extents e rs /\
      forall j i w, gathers subs fs (vshape a) j i -> within j rs ->
        (valid i (vdv a) -> element e j w = Ok (VRef (vplace a i)) w) /\ (~ valid i (vdv a) -> element e j w = Fail w)) /\
    (st = false -> In UNB os -> from_u st a subs es = Refused)) /\
  (~ legal subs (vdv a) -> from_u st a subs es = Refused).
Proof.
  intros T W st a subs es fs O F R N Hw Hh Hn Ln. destruct (C23_accepted a subs O F R) as [A1 A2]. split; intros Lg; [|unfold from_u; rewrite (A2 Lg); reflexivity].
  assert (La : length (vshape a) = vrank a) by (unfold vshape; rewrite map_length; reflexivity).
  destruct (A1 Lg) as (b & E). destruct (C23_select _ _ _ E O F) as (S1 & S2 & S3). pose proof (from_sdims _ _ _ E O F R) as Sd.
  assert (Nb : Forall (fun n => 0 <= n \/ n = UNB) (vshape b)) by (eapply sdims_ok; eauto).
  destruct (shape_reading T W subs (vshape a) (vshape b) S1 O es fs Hh Ln) as (ss & os & Rs & Gs & Oo). rewrite La in Rs.
  exists os. split; [exact Oo|]. unfold from_u. rewrite E. cbn [rbind]. unfold fancy. split.
  - intros B. destruct (reading_args T W st _ _ _ _ Rs (vdv b) eq_refl Nb B) as (t & Et & St & Wt & Rt).
    specialize (Wt (nth_Forall_wf _ _ _ _ _ Hw)).
    assert (Tn : t <> []).
    { intros ->. inversion St; subst. inversion Rs as [Z0| |]; subst. symmetry in Z0. apply arrays_ti in Z0. rewrite Z0 in Ln. destruct es; [congruence|discriminate]. }
    destruct (C26_outer _ _ (view_op b) t ss Tn Wt St) as (e & Ee & We & Se & El). exists e, (concat ss).
    rewrite Et, Ee. repeat (split; [solve [auto]|]).
    intros j i w G Ij. destruct (gathers_reading T W _ _ _ _ _ G es Hh) as (js & xs & <- & Rd & Sx & Bx). rewrite La in Rd.
    destruct (Rt js xs Rd) as [Lj Ix]. rewrite (El js w Lj), Ix. unfold view_op. rewrite ints_VI.
    destruct (S3 xs i Sx) as (Lx & Li & Px). destruct (cidx_from b xs Lx) as [C1 C2]. specialize (Bx _ _ _ eq_refl Gs Sd Lg Ij). split; intros Hi.
    + rewrite C1 by (apply Bx; auto). cbn. rewrite Px. reflexivity.
    + rewrite C2; [reflexivity|]. intros Hx. apply Hi, Bx, Hx.
  - intros -> B. rewrite (reading_refused T W _ _ _ _ Rs (vdv b) eq_refl B). reflexivity.
Qed.

Lemma beat_takes : forall subs qs, length qs = arrays subs -> total takes (beat subs qs) = total takes subs.
Proof.
  unfold arrays. induction subs as [|s subs IH]; intros qs L; [reflexivity|]. destruct s; cbn [beat total filter length] in *; try (rewrite IH by auto; reflexivity).
  destruct qs as [|[[n o] t] qs]; [discriminate|]. cbn [total]. rewrite IH by (cbn in L; lia). reflexivity.
Qed.
Lemma beat_one_axis : forall subs qs, Forall one_axis subs -> Forall one_axis (beat subs qs).
Proof. induction subs as [|s subs IH]; intros qs H; cbn [beat]; auto. inversion H; subst. destruct s; try constructor; cbn; auto. destruct qs as [|[[n o] t] qs]; constructor; cbn; auto. Qed.
Lemma beat_rest : forall subs qs, length (filter is_rest (beat subs qs)) = length (filter is_rest subs) \/ (length qs < arrays subs)%nat.
Proof.
  unfold arrays. induction subs as [|s subs IH]; intros qs; cbn [beat]; auto.
  destruct s as [| | |[]| |]; cbn [filter is_rest length]; try (destruct (IH qs); [left|right]; cbn; lia).
  destruct qs as [|[[n o] t] qs]; [right; cbn; lia|]. destruct (IH qs); [left|right]; cbn; lia.
Qed.
Lemma beat_legal : forall subs qs dv, length qs = arrays subs -> legal (beat subs qs) dv -> legal subs dv.
Proof.
  unfold arrays. induction subs as [|s subs IH]; intros qs dv L H; [constructor|]. destruct s; cbn [beat filter length] in *.
  1-5: inversion H; subst; econstructor; eauto. 1: rewrite (beat_takes subs qs) in * by auto; auto.
  destruct qs as [|[[n o] t] qs]; [discriminate|]. inversion H; subst. constructor. eapply IH; eauto.
Qed.
Lemma beat_shape : forall subs qs ls rs, length qs = arrays subs -> Forall one_axis subs -> selects_shape (beat subs qs) ls rs -> gathers_shape subs (seqs qs) ls rs.
Proof.
  unfold arrays. induction subs as [|s subs IH]; intros qs ls rs L OA H.
  - destruct qs; [|discriminate]. inversion H; subst. constructor.
  - inversion OA as [|? ? O1 O2]; subst. destruct s; cbn [beat filter length] in *; try (now destruct O1).
    1-4: inversion H; subst; econstructor; eauto. 1: rewrite (beat_takes subs qs) in * by auto; auto.
    destruct qs as [|[[n o] t] qs]; [discriminate|]. inversion H; subst. match goal with E : Some _ = Some _ |- _ => injection E as <- end.
    change (seqs ((n, o, t) :: qs)) with (([n], fun j => o + nth 0 j 0 * t) :: seqs qs). apply (gsh_arr [n]). eapply IH; eauto.
Qed.
Lemma gathers_shape_fun : forall subs fs ls rs rs', gathers_shape subs fs ls rs -> gathers_shape subs fs ls rs' -> rs = rs'.
Proof.
  intros subs fs ls rs rs' H. revert rs'. induction H; intros rs' H'; inversion H'; subst; try appeq; auto; try (f_equal; solve [auto]).
  f_equal; [congruence|auto].
Qed.
Lemma beat_gathers : forall subs qs ls rs j i, length qs = arrays subs -> Forall one_axis subs ->
  selects (beat subs qs) ls j i -> gathers_shape subs (seqs qs) ls rs -> within j rs -> gathers subs (seqs qs) ls j i.
Proof.
  unfold arrays. induction subs as [|s subs IH]; intros qs ls rs j i L OA H G Ij.
  - destruct qs; [|discriminate]. inversion H; subst. constructor; auto.
  - inversion OA as [|? ? O1 O2]; subst. destruct s as [f|o c t|o dv|[n|]|n|]; cbn [beat filter length] in *; try (now destruct O1).
    + inversion H; subst. inversion G; subst. econstructor; eauto.
    + inversion H; subst. inversion G; subst. inversion Ij; subst. econstructor; eauto.
    + inversion H; subst. inversion G; subst. appeq. apply within_split in Ij as [I1 I2]; [|congruence]. constructor; eauto.
    + inversion H; subst. inversion G; subst. rewrite (beat_takes subs qs) in * by auto. appeq. apply within_split in Ij as [I1 I2]; [|congruence]. constructor; eauto.
    + inversion H; subst. inversion G; subst. apply within_split in Ij as [I1 I2]; [|rewrite repeat_length; auto]. constructor; eauto.
    + destruct qs as [|[[n o] t] qs]; [discriminate|]. change (seqs ((n, o, t) :: qs)) with (([n], fun j => o + nth 0 j 0 * t) :: seqs qs) in *.
      inversion H as [| |o0 c0 s0 n0 o' s' x subs' ls' j' i' E1 E2 S'| | | |]; subst. injection E1 as <-. injection E2 as <-. inversion G as [| | | | | |? ? ? ? ? ? ? G']; subst.
      inversion Ij; subst. apply (gat_arr [n] (fun j => o + nth 0 j 0 * t) n0 [x]); [constructor; auto|]. eapply IH; eauto.
Qed.

(* An array subscript that is equal to a sequence is the same as the sequence. *)
Theorem C27_same : forall T W st a subs (es : list (expr (val T) W)) qs v,
  Forall one_axis subs -> fits (vrank a) subs -> one_rest subs -> nonneg (vshape a) ->
  Forall wf es -> Forall2 holds es (seqs qs) -> es <> [] -> length es = arrays subs -> st = true \/ Forall (fun s => forall n, s <> SInsert n) subs ->
  from a (beat subs qs) = Good v ->
  exists e, from_u st a subs es = Good e /\ wf e /\ extents e (vshape v) /\ forall j w, within j (vshape v) -> element e j w = Ok (VRef (vplace v j)) w.
Proof.
  intros T W st a subs es qs v O F R N Hw Hh Hn Ln NI E.
  assert (Lq : length qs = arrays subs). { rewrite <- Ln. apply Forall2_len in Hh. unfold seqs in Hh. rewrite map_length in Hh. auto. }
  assert (O' := beat_one_axis subs qs O). assert (F' : fits (vrank a) (beat subs qs)) by (unfold fits; rewrite beat_takes; auto).
  assert (R' : (length (filter is_rest (beat subs qs)) <= 1)%nat) by (destruct (beat_rest subs qs) as [->|]; [apply one_rest_count; auto|lia]).
  destruct (C23_select _ _ _ E O' F') as (S1 & S2 & S3).
  pose proof E as Eb. rewrite (from_fromb a _ O' F' R') in Eb. destruct (fromb true (beat subs qs) (vdv a) [] (vcp a)) as [[dv pl]| |] eqn:Ef; try discriminate.
  assert (Lg := beat_legal subs qs _ Lq (fromb_good_legal _ _ _ _ _ O' F' Ef)).
  destruct (fromb_spec _ _ _ _ _ _ Ef O' F') as (dv' & -> & _ & _ & _ & In0). cbn in Eb. injection Eb as <-.
  assert (N' : Forall (fun n => 0 <= n \/ n = UNB) (vshape a)) by (eapply Forall_impl; [|exact N]; auto).
  destruct (proj1 (C27_gather T W st a subs es _ O F R N' Hw Hh Hn Ln) Lg) as (os & Oo & Gd & _).
  destruct Gd as (e & rs & E1 & E2 & E3 & E4 & E5).
  { destruct NI as [->|NI]; auto. right. clear - Oo NI N Lg. intros I. apply (others_nonneg _ _ _ _ Oo eq_refl) in NI; auto. unfold nonneg in NI. rewrite Forall_forall in NI. specialize (NI _ I). unfold UNB in NI. lia. }
  assert (G := beat_shape subs qs _ _ Lq O S1). assert (rs = vshape (Vw ([] ++ dv') pl)) as -> by (eapply gathers_shape_fun; eauto).
  exists e. split; [exact E1|]. split; [exact E2|]. split; [exact E4|]. intros j w Ij.
  destruct (S2 j) as (i & Si). { apply within_length in Ij. rewrite Ij. unfold vshape, vrank. rewrite map_length. reflexivity. }
  destruct (S3 j i Si) as (_ & _ & P). rewrite P. apply (proj1 (E5 j i w (beat_gathers _ _ _ _ _ _ Lq O Si G Ij) Ij)).
  assert (Ir : inrange i (vshape a)). { apply (In0 j i Si). clear - Ij. unfold vshape in Ij; cbn in Ij. induction Ij; constructor; auto. lia. }
  clear - Ir N. unfold vshape, inrange, valid in *. revert Ir N. generalize (vdv a). induction i as [|x i IH]; intros [|d dv] Ir N; inversion Ir; inversion N; subst; constructor; auto.
  left. unfold UNB in *. lia.
Qed.
(* A([2 0; 1 1], 3, [4 1 0]) and a subscript out of range *)
Definition ixA : expr (val Z) unit := Cell [Dim 2 2; Dim 2 1] 2 (fun p => VI (nth (Z.to_nat p) [2; 0; 1; 1] 0)) 0.
Definition ixB : expr (val Z) unit := Cell [Dim 3 1] 1 (fun p => VI (nth (Z.to_nat p) [4; 1; 0] 0)) 0.
Definition ixC : expr (val Z) unit := Cell [Dim 2 1] 1 (fun p => VI (2 - 2 * p)) 0.
Lemma ix_holds : Forall2 holds [ixA; ixB] [([2; 2], fun j => nth (Z.to_nat (2 * nth 0 j 0 + nth 1 j 0)) [2; 0; 1; 1] 0); ([3], fun j => nth (Z.to_nat (nth 0 j 0)) [4; 1; 0] 0)].
Proof.
  constructor; [|constructor; [|constructor]].
  - split; [apply shape_extents; apply (shape_shape_is ixA); [wfauto|reflexivity]|]. intros j w I; apply inshape_within in I; [|repeat constructor; cbn; lia]; cbn [fst snd] in *. inversion I as [|x ? j1 ? Hx I1]; subst. inversion I1 as [|y ? j2 ? Hy I2]; subst. inversion I2; subst.
    assert (x = 0 \/ x = 1) as [-> | ->] by lia; (assert (y = 0 \/ y = 1) as [-> | ->] by lia); reflexivity.
  - split; [apply shape_extents; apply (shape_shape_is ixB); [wfauto|reflexivity]|]. intros j w I; apply inshape_within in I; [|repeat constructor; cbn; lia]; cbn [fst snd] in *. inversion I as [|x ? j1 ? Hx I1]; subst. inversion I1; subst. assert (x = 0 \/ x = 1 \/ x = 2) as [-> |[-> | ->]] by lia; reflexivity.
Qed.
Example C27_gather_ex : Forall wf [ixA; ixB] /\ legal [SArr; cidx 3; SArr] (vdv a345) /\ fits (vrank a345) [SArr; cidx 3; SArr] /\ one_rest [SArr; cidx 3; SArr] /\ nonneg (vshape a345) /\
  match from_u false a345 [SArr; cidx 3; SArr] [ixA; ixB] with
  | Good e => shape e = [2; 2; 3] /\ element e [0; 1; 1] tt = Ok (VRef (vplace a345 [0; 3; 1])) tt
  | _ => False
  end.
Proof.
  split; [constructor; [wfauto|constructor; [wfauto|constructor]]|]. split.
  { constructor. eapply leg_idx; [reflexivity|left; cbn; lia|]. constructor. constructor. }
  split; [unfold fits; cbn; lia|]. split; [apply one_rest_count; cbn; lia|]. split; [repeat constructor; cbn; lia|]. vm_compute. split; reflexivity.
Qed.
Example C27_fail_ex : match from_u false a345 [all; SArr] [Cell [Dim 3 1] 1 (@VI Z) 2 : expr (val Z) unit] with
  | Good e => element e [1; 1; 0] tt = Ok (VRef (vplace a345 [1; 3; 0])) tt /\ element e [1; 2; 0] tt = Fail tt
  | _ => False
  end.
Proof. vm_compute. split; reflexivity. Qed.
Example C27_same_ex : Forall wf [ixC] /\ Forall2 holds [ixC] (seqs [(2, 2, -2)]) /\ from a345 (beat [SDots None; SArr; ciota 2 1 2] [(2, 2, -2)]) = Good (Vw [Dim 3 20; Dim 2 (-10); Dim 2 2] 111) /\
  match from_u false a345 [SDots None; SArr; ciota 2 1 2] [ixC] with
  | Good e => element e [1; 1; 0] tt = Ok (VRef 121) tt
  | _ => False
  end.
Proof.
  split; [constructor; [wfauto|constructor]|]. split.
  - constructor; [|constructor]. split; [apply shape_extents; apply (shape_shape_is ixC); [wfauto|reflexivity]|]. intros j w I; apply inshape_within in I; [|repeat constructor; cbn; lia]. inversion I as [|x ? j1 ? Hx I1]; subst. inversion I1; subst. assert (x = 0 \/ x = 1) as [-> | ->] by lia; reflexivity.
  - split; [reflexivity|]. vm_compute. reflexivity.
Qed.

(* If the rank of A isn't in its type, this is the same when every axis of the result is of one of the arrays, and otherwise it's refused. *)
Lemma others_rank : forall subs ls os, others subs ls os -> Forall one_axis subs -> (length (filter is_rest subs) <= 1)%nat ->
  (length os + arrays subs + total takes subs = length ls + total gives subs)%nat.
Proof.
  unfold arrays. induction 1 as [ls|f n subs ls rs S IH|o c s n c' subs ls rs E S IH|n subs ls1 ls rs L S IH|subs ls1 ls rs L S IH|n subs ls rs S IH|n subs ls rs S IH];
    intros O R; cbn [filter length total takes gives is_rest] in *; try (inversion O as [|? ? O1 O2]; subst; specialize (IH O2)); rewrite ?app_length, ?repeat_length; cbn [length]; try (specialize (IH ltac:(lia))); try lia.
Qed.
Lemma gives_fdst : forall l, sumn (map fdst l) = total gives l.
Proof. induction l as [|[| | |[]| |] l IH]; cbn [map total gives fdst]; unfold sumn in *; cbn [fold_right]; rewrite ?IH; auto. Qed.
Lemma somes_args : forall T W st dv (es : list (expr (val T) W)), length dv = length es -> fancy_args st dv (map Some es) = Some es.
Proof. induction dv; intros [|e es] L; cbn in *; try discriminate; auto. rewrite IHdv by lia. reflexivity. Qed.
Lemma others_ti : forall T W subs ls, others subs ls [] -> forall es : list (expr (val T) W), length es = arrays subs -> fancy_ti subs es (length ls) = map Some es.
Proof.
  unfold arrays. intros T W subs ls H. remember [] as os. revert Heqos.
  induction H as [ls|f n subs ls rs S IH|o c s n c' subs ls rs E S IH|n subs ls1 ls rs L S IH|subs ls1 ls rs L S IH|n subs ls rs S IH|n subs ls rs S IH];
    intros Eo es Le; cbn [fancy_ti filter length] in *; try (apply app_eq_nil in Eo as [E1 E2]).
  - subst. destruct es; [reflexivity|discriminate].
  - rewrite Nat.sub_succ, Nat.sub_0_r. auto.
  - discriminate.
  - subst. cbn. rewrite Nat.sub_0_r. auto.
  - subst. cbn [app length]. rewrite total_fsrc, <- L, Nat.sub_diag. cbn. rewrite Nat.sub_0_r. auto.
  - destruct n; [|discriminate]. cbn. auto.
  - destruct es as [|e es]; [discriminate|]. cbn [hd_error tl map]. rewrite Nat.sub_succ, Nat.sub_0_r. f_equal. apply IH; auto.
Qed.
Theorem C27_any : forall T W st a subs (es : list (expr (val T) W)) fs,
  Forall one_axis subs -> fits (vrank a) subs -> one_rest subs -> Forall (fun n => 0 <= n \/ n = UNB) (vshape a) ->
  Forall wf es -> Forall2 holds es fs -> es <> [] -> length es = arrays subs ->
  (legal subs (vdv a) -> exists os, others subs (vshape a) os /\ (os = [] -> from_any a subs es = from_u st a subs es) /\ (os <> [] -> from_any a subs es = Refused)) /\
  (~ legal subs (vdv a) -> from_any a subs es = Refused).
Proof.
  intros T W st a subs es fs O F R N Hw Hh Hn Ln. destruct (C23_accepted a subs O F R) as [A1 A2].
  assert (La : length (vshape a) = vrank a) by (unfold vshape; rewrite map_length; reflexivity).
  assert (R' : (length (filter is_rest subs) <= 1)%nat) by (apply one_rest_count; auto).
  assert (Ea : forallb is_arr subs = true -> subs = repeat SArr (length subs)).
  { clear. induction subs as [|s subs IH]; cbn; intros H; auto. apply andb_true_iff in H as [H1 H2]. destruct s; try discriminate. rewrite <- IH; auto. }
  assert (Ft : filter is_arr subs = filter (fun s => match s with SArr => true | _ => false end) subs) by reflexivity.
  split; intros Lg.
  - destruct (C27_gather T W true a subs es fs O F R N Hw Hh Hn Ln) as [G _]. destruct (G Lg) as (os & Oo & _). exists os. split; [exact Oo|].
    pose proof (others_rank _ _ _ Oo O R') as Lr. unfold fits in F. destruct (A1 Lg) as (b & E). pose proof (from_sdims _ _ _ E O F R) as Sd. destruct (C23_select _ _ _ E O F) as (S1 & _ & _).
    assert (Fb : frombrank a subs = Z.of_nat (length os + arrays subs)). { unfold frombrank. rewrite total_fsrc, gives_fdst. lia. }
    unfold from_any. destruct (forallb is_arr subs) eqn:Al.
    + specialize (Ea eq_refl). remember (length subs) as n eqn:Hlen. clear Hlen. assert (Lo : length os = (vrank a - n)%nat /\ (n <= vrank a)%nat).
      { rewrite Ea in Oo, F. assert (Tk : forall n, total takes (repeat SArr n) = n) by (clear; induction n; cbn; auto). rewrite Tk in F. split; auto. rewrite <- La. clear - Oo.
        revert Oo. generalize (vshape a), n. induction l as [|x l IH]; intros [|m] H; inversion H; subst; auto. cbn. apply IH; auto. }
      destruct (Nat.eqb_spec (vrank a) n) as [En|En].
      * split; intros Eo; [|destruct os; [congruence|cbn in Lo; lia]]. unfold from_u. rewrite E. cbn [rbind]. subst os. rewrite <- La, (others_ti T W _ _ Oo es Ln). unfold fancy.
        assert (Hb : b = a).
        { rewrite (from_fromb a subs O F R') in E. rewrite Ea, <- En in E. clear - E. destruct a as [dv p]. unfold vrank in E. cbn [vdv vcp] in E.
          assert (K : forall dv bv, fromb true (repeat SArr (length dv)) dv bv p = Good (bv ++ dv, p)).
          { clear. induction dv; intros bv; cbn; [rewrite app_nil_r; reflexivity|]. rewrite IHdv. rewrite <- app_assoc. reflexivity. }
          rewrite K in E. cbn in E. congruence. }
        rewrite Hb, somes_args; [reflexivity|]. unfold vrank in En. rewrite En. rewrite Ln. unfold arrays. rewrite Ea. clear. generalize n. intros k. induction k; cbn; auto.
      * split; intros Eo; [subst; cbn in Lo; lia|reflexivity].
    + change (length (filter is_arr subs)) with (arrays subs). rewrite Fb. destruct (Z.eqb_spec (Z.of_nat (arrays subs)) (Z.of_nat (length os + arrays subs))) as [Eq|Ne].
      * split; intros Eo; [|destruct os; [congruence|cbn in Eq; lia]]. unfold from_u. rewrite E. cbn [rbind]. subst os. rewrite <- La, (others_ti T W _ _ Oo es Ln). unfold fancy.
        assert (Lb : length (vdv b) = length es).
        { destruct (shape_reading T W subs (vshape a) (vshape b) S1 O es fs Hh Ln) as (ss & os' & Rs & _). rewrite (others_ti T W _ _ Oo es Ln) in Rs.
          assert (K : length (vshape b) = length (map Some es)) by (clear - Rs; induction Rs; cbn; auto). unfold vshape in K. rewrite !map_length in K. exact K. }
        rewrite !somes_args by auto. reflexivity.
      * split; intros Eo; [subst; cbn in Ne; lia|reflexivity].
  - unfold from_any. destruct (forallb is_arr subs) eqn:Al.
    + exfalso. apply Lg. rewrite (Ea eq_refl) in *. clear - F. unfold fits, vrank in F. revert F. generalize (vdv a), (length subs). intros dv n. revert dv. induction n; intros dv F; [constructor|].
      destruct dv as [|d dv]; [cbn in F; lia|]. cbn. constructor. apply IHn. cbn in *. lia.
    + destruct (_ =? _); [|reflexivity]. rewrite (A2 Lg). reflexivity.
Qed.

(* b + A(iota()), where the sum has the length of b. If b is longer than A it fails. *)
Definition ixU : expr (val Z) unit := Cell [Dim UNB 1] 1 (@VI Z) 0.
Example C27_unbounded_ex : wf ixU /\ holds ixU ([UNB], fun j => nth 0 j 0) /\
  match from_u false (Vw [Dim 6 1] 0) [SArr] [ixU] with
  | Good e => let s := fun n => Map (fun xs w => match xs with [VI x; VRef p] => Ok (VI (100 * x + p)) w | _ => Undef end) [Cell [Dim n 1] 1 (@VI Z) 1; e] in
    shape (s 3) = [3] /\ map (fun i => element (s 3) [i] tt) [0; 1; 2] = [Ok (VI 100) tt; Ok (VI 201) tt; Ok (VI 302) tt] /\ shape (s 7) = [7] /\ element (s 7) [6] tt = Fail tt
  | _ => False
  end.
Proof.
  split; [wfauto|]. split; [|vm_compute; repeat split; reflexivity]. split.
  - split; [reflexivity|]. intros [|k] H; cbn in H; [|lia]. cbn. split; auto.
  - intros j w I. cbn [fst snd] in *. inversion I as [|x ? j' ? Hx I']; subst. inversion I'; subst. cbn. do 2 f_equal. lia.
Qed.
(* A(insert<1>, [2 0]) with A of shape [3 4 5], when its lengths are in the type, and when they aren't. *)
Example C27_insert_ex : legal [SInsert 1; SArr] (vdv a345) /\ others [SInsert 1; SArr] (vshape a345) [UNB; 4; 5] /\ from_u false a345 [SInsert 1; SArr] [ixC] = Refused /\
  match from_u true a345 [SInsert 1; SArr] [ixC] with
  | Good e => leaf_lens e 0 = [UNB] /\ leaf_lens e 1 = [2] /\ element e [7; 1; 3; 2] tt = Ok (VRef (vplace a345 [0; 3; 2])) tt
  | _ => False
  end.
Proof.
  split; [repeat constructor|]. split; [apply (oth_insert 1), oth_arr; constructor|]. vm_compute. repeat split; reflexivity.
Qed.
(* the rank of A isn't in its type *)
Example C27_any_ex : from_any a345 [SArr; cidx 3] [ixC] = Refused /\ from_any a345 [SArr; SArr] [ixC; ixC] = Refused /\
  match from_any a345 [SArr; cidx 3; SArr] [ixA; ixB] with Good e => shape e = [2; 2; 3] /\ element e [0; 1; 1] tt = Ok (VRef (vplace a345 [0; 3; 1])) tt | _ => False end.
Proof. vm_compute. repeat split; reflexivity. Qed.

(* ---- C58 ---- *)

(* _k is unbounded on axis k and has no other. *)
Theorem C58_axes : forall T W k, let e := @tindex T W k in wf e /\ axes e = S k /\ leaf_lens e k = [UNB] /\ forall l, l <> k -> leaf_lens e l = [].
Proof.
  intros T W k e. assert (Hw : wf (Cell (W := W) [Dim UNB 1] 1 (@VI T) 0)) by wfauto. unfold e, tindex.
  split; [apply reframe_wf; auto; constructor; auto; constructor|]. split; [rewrite reframe_axes by auto; reflexivity|].
  assert (P : forall l, leaf_lens (reframe (Cell (W := W) [Dim UNB 1] 1 (@VI T) 0) [k]) l = if Nat.eqb l k then [UNB] else []).
  { intros l. rewrite reframe_lens by auto. cbn [positions_from]. destruct (Nat.eqb_spec k l) as [<-|N]; [rewrite Nat.eqb_refl; reflexivity|]. destruct (Nat.eqb_spec l k); [congruence|reflexivity]. }
  split; [rewrite P, Nat.eqb_refl; reflexivity|]. intros l N. rewrite P. destruct (Nat.eqb_spec l k); [congruence|reflexivity].
Qed.
Theorem C58_value : forall T W k j (w : W), (k < length j)%nat -> element (@tindex T W k) j w = Ok (VI (nth k j 0)) w.
Proof.
  intros T W k j w H. assert (Hw : wf (Cell (W := W) [Dim UNB 1] 1 (@VI T) 0)) by wfauto. unfold tindex. rewrite reframe_element; auto.
  cbn [map element]. cbn [place firstn]. unfold ret. do 2 f_equal. cbn [step]. lia.
Qed.
(* Among the arguments of a map it doesn't change the shape, if there are enough axes, and it doesn't need any check. *)
Theorem C58_inside : forall T W op (t : list (expr (val T) W)) k s, (k < length s)%nat -> shape_is (Map op t) s ->
  forall l1 l2, t = l1 ++ l2 -> shape_is (Map op (l1 ++ tindex k :: l2)) s /\
  forall j w, length j = length s -> element (Map op (l1 ++ tindex k :: l2)) j w =
    match in_order (map (fun a => element a j) l1) w with
    | Ok x1 w1 =>
      match in_order (map (fun a => element a j) l2) w1 with
      | Ok x2 w2 => op (x1 ++ VI (nth k j 0) :: x2) w2
      | Fail w2 => Fail w2 | Undef => Undef
      end
    | Fail w1 => Fail w1 | Undef => Undef
    end.
Proof.
  intros T W op t k s Hk Hs l1 l2 ->. destruct (C58_axes T W k) as (Hw & Ha & Hl & Hn). split.
  - destruct Hs as [L P]. cbn [axes] in *.
    assert (M : fold_right (fun a r => Nat.max (axes a) r) 0%nat (l1 ++ tindex k :: l2) = fold_right (fun a r => Nat.max (axes a) r) 0%nat (l1 ++ l2)).
    { rewrite !fold_right_app in *. cbn [fold_right]. rewrite Ha.
      assert (G : forall l x y, fold_right (fun a r => Nat.max (@axes (val T) W a) r) (Nat.max x y) l = Nat.max x (fold_right (fun a r => Nat.max (axes a) r) y l)) by (clear; induction l; cbn [fold_right]; intros; auto; rewrite IHl; lia).
      rewrite G. lia. }
    split; cbn [axes]; rewrite M; [exact L|]. intros l Hl'. destruct (P l Hl') as (P1 & P2 & P3). split; [exact P1|]. cbn [leaf_lens] in *.
    rewrite !flat_map_app in *. cbn [flat_map]. split.
    + rewrite !in_app_iff in *. tauto.
    + rewrite !Forall_app in *. destruct P3 as [F1 F2]. split; [exact F1|]. split; [|exact F2].
      destruct (Nat.eq_dec l k) as [->|N]; [rewrite Hl; constructor; auto|rewrite Hn by auto; constructor].
  - intros j w Lj. cbn [element]. rewrite map_app. cbn [map].
    assert (G : forall A (a b : list (M W A)) w, in_order (a ++ b) w = match in_order a w with
      | Ok x1 w1 => match in_order b w1 with Ok x2 w2 => Ok (x1 ++ x2) w2 | Fail w2 => Fail w2 | Undef => Undef end | Fail w1 => Fail w1 | Undef => Undef end).
    { clear. induction a as [|m a IH]; intros b w; cbn [app in_order]; [destruct (in_order b w); reflexivity|]. destruct (m w); auto. rewrite IH. destruct (in_order a w0); auto. destruct (in_order b w1); auto. }
    rewrite G. destruct (in_order _ w) as [x1 w1|w1|]; auto. cbn [in_order]. rewrite C58_value by lia. destruct (in_order _ w1); reflexivity.
Qed.
Definition idx_sum {W} (xs : list (val Z)) : M W (val Z) := fun w => match xs with [VT a; VI i; VI j] => Ok (VT (a + 10 * i + 100 * j)) w | _ => Undef end.
Definition xC : expr (val Z) unit := Cell [Dim 2 4; Dim 4 1] 2 VT 1000.
Example C58_ex : shape_is (Map idx_sum [xC]) [2; 4] /\ shape (Map idx_sum [xC; tindex 0; tindex 1]) = [2; 4] /\ element (Map idx_sum [xC; tindex 0; tindex 1]) [1; 3] tt = Ok (VT 1317) tt.
Proof. split; [apply (shape_shape_is (Map idx_sum [xC])); [wfauto|reflexivity]|]. split; reflexivity. Qed.

Print Assumptions C57_accepted.
Print Assumptions C57_element.
Print Assumptions C26_outer.
Print Assumptions C27_gather.
Print Assumptions C27_same.
Print Assumptions C27_any.
Print Assumptions C26_bounded.
Print Assumptions C58_axes.
Print Assumptions C58_value.
Print Assumptions C58_inside.
