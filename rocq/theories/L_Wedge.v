(* Facts about combinations and signs (M_Wedge.v). *)
From Coq Require Import ZArith List Lia Bool Permutation.
From Verif Require Import M_Wedge Spec_Wedge.
Import ListNotations.
Open Scope nat_scope.

Definition par (l : list nat) : bool := Nat.odd (inversions l).
Definition sg (b : bool) : Z := if b then (-1)%Z else 1%Z.
Lemma sign_par : forall a b, sign a b = sg (xorb (par a) (par b)).
Proof. intros. unfold sign, par, sg. rewrite <- Nat.odd_add, <- Nat.negb_even. destruct (Nat.even (inversions a + inversions b)); reflexivity. Qed.
Lemma sg_mul : forall a b, (sg a * sg b = sg (xorb a b))%Z.
Proof. intros [] []; reflexivity. Qed.
Lemma sg_inj : forall a b, sg a = sg b -> a = b.
Proof. intros [] []; cbn; congruence. Qed.

(* ---- membership ---- *)
Lemma search_in : forall t S, search t S = true <-> In t S.
Proof.
  induction S as [|s S IH]; cbn; [split; [discriminate|tauto]|]. destruct (Nat.eqb_spec s t); [split; auto|]. rewrite IH. tauto.
Qed.
Lemma search_out : forall t S, search t S = false <-> ~ In t S.
Proof. intros. rewrite <- search_in. destruct (search t S); split; congruence. Qed.
Lemma complement_filter : forall S T, complement_list S T = filter (fun t => negb (search t S)) T.
Proof. induction T as [|t T IH]; [reflexivity|]. cbn. destruct (search t S); cbn; rewrite IH; reflexivity. Qed.
Lemma search_perm : forall t S S', Permutation S S' -> search t S = search t S'.
Proof.
  intros t S S' H. destruct (search t S) eqn:E; symmetry.
  - apply search_in. apply search_in in E. eapply Permutation_in; eauto.
  - apply search_out. apply search_out in E. intros I. apply E. eapply Permutation_in; [apply Permutation_sym|]; eauto.
Qed.
Lemma complement_perm : forall S S' T, Permutation S S' -> complement_list S T = complement_list S' T.
Proof. intros. rewrite !complement_filter. apply filter_ext. intros t. rewrite (search_perm t S S'); auto. Qed.

(* ---- sign ---- *)
Lemma index_some : forall C r w, index C r = Some w -> exists C1 C2, C = C1 ++ r :: C2 /\ length C1 = w /\ ~ In r C1.
Proof.
  induction C as [|c C IH]; intros r w H; cbn in H; [discriminate|]. destruct (Nat.eqb_spec r c).
  - inversion H; subst. exists [], C. auto.
  - destruct (index C r) as [k|] eqn:E; [|discriminate]. cbn in H. inversion H; subst. destruct (IH _ _ E) as (C1 & C2 & -> & L & N).
    exists (c :: C1), C2. split; auto. split; [cbn; auto|]. intros [?|?]; [congruence|auto].
Qed.
Lemma index_none : forall C r, index C r = None -> ~ In r C.
Proof.
  induction C as [|c C IH]; intros r H; cbn in H; [tauto|]. destruct (Nat.eqb_spec r c); [discriminate|].
  destruct (index C r) eqn:E; [discriminate|]. intros [?|?]; [congruence|]. eapply IH; eauto.
Qed.
Lemma take_drop : forall (C1 C2 : list nat) r, firstn (length C1) (C1 ++ r :: C2) ++ skipn (length C1 + 1) (C1 ++ r :: C2) = C1 ++ C2.
Proof.
  intros. f_equal.
  - rewrite firstn_app, Nat.sub_diag, firstn_all. cbn. apply app_nil_r.
  - rewrite skipn_app. rewrite skipn_all2 by lia. replace (length C1 + 1 - length C1)%nat with 1%nat by lia. reflexivity.
Qed.
Lemma permsign_perm : forall R C, permsign C R <> 0%Z -> Permutation C R.
Proof.
  induction R as [|r R IH]; intros C H; destruct C as [|c C]; cbn [permsign] in H; try congruence.
  - constructor.
  - destruct (index (c :: C) r) as [w|] eqn:E; [|congruence]. apply index_some in E as (C1 & C2 & EC & <- & N). rewrite EC in *. rewrite take_drop in H.
    rewrite Permutation_app_comm. cbn. constructor. rewrite Permutation_app_comm. apply IH. intros E. rewrite E in H. apply H. reflexivity.
Qed.

Definition above (x : nat) (l : list nat) : nat := length (filter (fun y => Nat.ltb x y) l).
Lemma below_app : forall x l m, below x (l ++ m) = below x l + below x m.
Proof. intros. unfold below. rewrite filter_app, app_length. reflexivity. Qed.
Lemma below_cons : forall x y l, below x (y :: l) = (if Nat.ltb y x then 1 else 0) + below x l.
Proof. intros. unfold below. cbn [filter]. destruct (Nat.ltb y x); reflexivity. Qed.
Lemma above_cons : forall x y l, above x (y :: l) = (if Nat.ltb x y then 1 else 0) + above x l.
Proof. intros. unfold above. cbn [filter]. destruct (Nat.ltb x y); reflexivity. Qed.
Lemma below_perm : forall x l m, Permutation l m -> below x l = below x m.
Proof. intros x l m H. induction H; auto; rewrite ?below_cons; lia. Qed.
Lemma below_above : forall x l, ~ In x l -> below x l + above x l = length l.
Proof.
  induction l as [|y l IH]; intros H; [reflexivity|]. rewrite below_cons, above_cons. cbn [length]. specialize (IH (fun I => H (or_intror I))).
  assert (y <> x) by (intros ->; apply H; left; auto). destruct (Nat.ltb_spec y x), (Nat.ltb_spec x y); lia.
Qed.
Lemma inversions_insert : forall C1 r C2, inversions (C1 ++ r :: C2) = above r C1 + below r C2 + inversions (C1 ++ C2).
Proof.
  induction C1 as [|x C1 IH]; intros r C2; cbn [app inversions]; [unfold above; cbn; lia|]. rewrite IH, above_cons, !below_app, below_cons. lia.
Qed.
Lemma par_insert : forall C1 r C2, par (C1 ++ r :: C2) = xorb (Nat.odd (above r C1 + below r C2)) (par (C1 ++ C2)).
Proof. intros. unfold par. rewrite inversions_insert, Nat.odd_add. reflexivity. Qed.
Lemma permsign_sign : forall R C, NoDup R -> Permutation C R -> permsign C R = sg (xorb (par C) (par R)).
Proof.
  induction R as [|r R IH]; intros C D P.
  - apply Permutation_sym, Permutation_nil in P. subst. reflexivity.
  - destruct C as [|c C]; [apply Permutation_nil in P; discriminate|]. cbn [permsign]. inversion D as [|? ? D1 D2]; subst.
    destruct (index (c :: C) r) as [w|] eqn:E.
    2: { exfalso. apply index_none in E. apply E. eapply Permutation_in; [apply Permutation_sym; exact P|left; auto]. }
    apply index_some in E as (C1 & C2 & EC & <- & N). rewrite EC in *. rewrite take_drop.
    assert (P' : Permutation (C1 ++ C2) R).
    { apply (Permutation_cons_inv (a := r)). rewrite <- P. apply Permutation_middle. }
    rewrite (IH _ D2 P'), par_insert. change (if Nat.odd (length C1) then (-1)%Z else 1%Z) with (sg (Nat.odd (length C1))). rewrite sg_mul. f_equal.
    change (par (r :: R)) with (Nat.odd (below r R + inversions R)). rewrite (Nat.odd_add (below r R)). change (Nat.odd (inversions R)) with (par R).
    rewrite <- (below_perm r _ _ P'), below_app, !Nat.odd_add. rewrite <- (below_above r C1) by auto. rewrite Nat.odd_add.
    destruct (Nat.odd (above r C1)), (Nat.odd (below r C1)), (Nat.odd (below r C2)), (par (C1 ++ C2)), (par R); reflexivity.
Qed.
Lemma permsign_zero : forall R C, NoDup R -> (permsign C R = 0%Z <-> ~ Permutation C R).
Proof.
  intros R C D. split; intros H.
  - intros P. rewrite permsign_sign in H by auto. destruct (xorb (par C) (par R)); discriminate.
  - destruct (Z.eq_dec (permsign C R) 0); auto. exfalso. apply H, permsign_perm; auto.
Qed.

(* inversions between two lists *)
Fixpoint between (F G : list nat) : nat := match F with [] => 0 | f::F' => below f G + between F' G end.
Lemma par_app : forall F G, par (F ++ G) = xorb (xorb (par F) (par G)) (Nat.odd (between F G)).
Proof.
  intros F G. assert (H : inversions (F ++ G) = inversions F + inversions G + between F G).
  { induction F as [|f F IH]; cbn [app inversions between]; [lia|]. rewrite IH, below_app. lia. }
  unfold par. rewrite H, !Nat.odd_add. reflexivity.
Qed.
Lemma between_perm : forall F F' G G', Permutation F F' -> Permutation G G' -> between F G = between F' G'.
Proof.
  intros F F' G G' H HG. transitivity (between F' G).
  - induction H; cbn [between]; lia.
  - induction F' as [|f F' IH] in F, H |- *; [reflexivity|]. cbn [between]. rewrite (below_perm f _ _ HG). f_equal. apply (IH F'); auto.
Qed.
Lemma between_nil : forall G, between G [] = 0%nat.
Proof. induction G; cbn; auto. Qed.
Lemma between_cons_r : forall G f F, between G (f :: F) = above f G + between G F.
Proof.
  induction G as [|g G IH]; intros; [reflexivity|]. cbn [between]. rewrite IH, below_cons, above_cons. lia.
Qed.
Lemma between_swap : forall F G, (forall x, In x F -> In x G -> False) -> between F G + between G F = length F * length G.
Proof.
  induction F as [|f F IH]; intros G H; [rewrite between_nil; reflexivity|]. cbn [between length]. rewrite between_cons_r.
  specialize (IH G (fun x Hx => H x (or_intror Hx))). pose proof (below_above f G (fun I => H f (or_introl eq_refl) I)). lia.
Qed.
Lemma sign_swap : forall F G, (forall x, In x F -> In x G -> False) -> par (F ++ G) = xorb (par (G ++ F)) (Nat.odd (length F * length G)).
Proof.
  intros F G H. rewrite !par_app, <- (between_swap F G H), Nat.odd_add. destruct (par F), (par G), (Nat.odd (between F G)), (Nat.odd (between G F)); reflexivity.
Qed.

(* ---- combinations ---- *)
Definition within (c A : list nat) : list nat := filter (fun x => search x c) A.
Lemma within_in : forall c A x, In x (within c A) <-> In x A /\ In x c.
Proof. intros. unfold within. rewrite filter_In, search_in. tauto. Qed.
Lemma within_ext : forall c d A, (forall x, In x A -> (In x c <-> In x d)) -> within c A = within d A.
Proof.
  intros c d A H. unfold within. apply filter_ext_in. intros x Hx. specialize (H x Hx). destruct (search x c) eqn:E; symmetry.
  - apply search_in. apply search_in in E. tauto.
  - apply search_out. apply search_out in E. tauto.
Qed.
Lemma within_nodup : forall c A, NoDup A -> NoDup (within c A).
Proof. intros. apply NoDup_filter; auto. Qed.
Lemma within_perm : forall c A, NoDup A -> NoDup c -> incl c A -> Permutation (within c A) c.
Proof.
  intros c A DA Dc I. apply NoDup_Permutation; auto using within_nodup. intros x. rewrite within_in. split; [tauto|]. auto.
Qed.
Lemma within_self : forall c A, within c A = c -> incl c A.
Proof. intros c A E x Hx. rewrite <- E in Hx. apply within_in in Hx. tauto. Qed.
Lemma within_all : forall A B, incl B A -> within A B = B.
Proof.
  intros A B H. unfold within. rewrite (filter_ext_in _ (fun _ => true)).
  - induction B as [|b B IH]; [reflexivity|]. cbn. f_equal. apply IH. intros x Hx. apply H. right; auto.
  - intros x Hx. apply search_in. auto.
Qed.
Lemma filter_le : forall A (f : A -> bool) l, length (filter f l) <= length l.
Proof. induction l as [|a l IH]; cbn; [auto|]. destruct (f a); cbn; lia. Qed.
Lemma filter_full : forall A (f : A -> bool) l, length (filter f l) = length l -> filter f l = l.
Proof. induction l as [|a l IH]; cbn; auto. destruct (f a); cbn; intros H; [f_equal; apply IH; lia|]. pose proof (filter_le _ f l). lia. Qed.

Lemma combs_in : forall A K c, NoDup A -> (In c (combs A K) <-> length c = K /\ within c A = c).
Proof.
  induction A as [|a A IH]; intros K c D.
  - cbn [combs]. destruct (Nat.eqb_spec K 0).
    + subst. split; [intros [<-|[]]; auto|]. intros (L & _). destruct c; [left; auto|discriminate].
    + destruct (Nat.eqb_spec K (length (@nil nat))); [contradiction|]. split; [intros []|]. intros (L & E). cbn in E. subst c. cbn in L. congruence.
  - cbn [combs]. destruct (Nat.eqb_spec K 0).
    + subst. split.
      * intros [<-|[]]. split; auto. unfold within. clear. induction (a :: A); cbn; auto.
      * intros (L & _). destruct c; [left; auto|discriminate].
    + destruct (Nat.eqb_spec K (length (a :: A))).
      * split.
        -- intros [<-|[]]. split; auto. apply within_all. apply incl_refl.
        -- intros (L & E). left. symmetry. rewrite <- E. apply filter_full. unfold within in E. rewrite E. lia.
      * inversion D as [|? ? D1 D2]; subst. rewrite in_app_iff, in_map_iff. split.
        -- intros [(c' & <- & H)|H].
           ++ apply IH in H as (L & E); auto. split; [cbn; lia|]. unfold within. cbn [filter]. rewrite (proj2 (search_in a (a :: c'))) by (left; auto). f_equal.
              transitivity (within c' A); [|exact E]. apply within_ext. intros x Hx. cbn. split; [intros [->|?]; [contradiction|auto]|auto].
           ++ apply IH in H as (L & E); auto. split; auto. unfold within. cbn [filter]. rewrite (proj2 (search_out a c)); [exact E|]. intros I. apply D1. apply (within_self _ _ E). auto.
        -- intros (L & E). unfold within in E. cbn [filter] in E. destruct (search a c) eqn:Sa.
           ++ left. fold (within c A) in E. exists (within c A). split; auto. apply IH; auto. split.
              ** rewrite <- E in L. cbn in L. lia.
              ** apply within_ext. intros x Hx. rewrite within_in. tauto.
           ++ right. apply IH; auto.
Qed.
Lemma NoDup_app_intro : forall A (l m : list A), NoDup l -> NoDup m -> (forall x, In x l -> In x m -> False) -> NoDup (l ++ m).
Proof.
  induction l as [|a l IH]; intros m H1 H2 H; [exact H2|]. inversion H1; subst. cbn. constructor.
  - rewrite in_app_iff. intros [?|?]; [auto|]. apply (H a); auto. left; auto.
  - apply IH; auto. intros x Hx. apply H. right; auto.
Qed.
Lemma combs_nodup : forall A K, NoDup A -> NoDup (combs A K).
Proof.
  induction A as [|a A IH]; intros K D; cbn [combs].
  - destruct (Nat.eqb K 0); [repeat constructor; auto|]. destruct (Nat.eqb K _); repeat constructor; auto.
  - destruct (Nat.eqb K 0); [repeat constructor; auto|]. destruct (Nat.eqb K _); [repeat constructor; auto|]. inversion D as [|? ? D1 D2]; subst. apply NoDup_app_intro; auto.
    + apply FinFun.Injective_map_NoDup; auto. intros x y E. congruence.
    + intros x H1 H2. apply in_map_iff in H1 as (y & <- & _). apply combs_in in H2 as (_ & E); auto. apply D1. apply (within_self _ _ E). left; auto.
Qed.
Lemma pascal_zero : forall n p, n < p -> pascal n p = 0%Z.
Proof. induction n; intros [|p] H; cbn; try lia. rewrite !IHn by lia. reflexivity. Qed.
Lemma pascal_full : forall n, pascal n n = 1%Z.
Proof. induction n; cbn; auto. rewrite IHn, pascal_zero by lia. reflexivity. Qed.
Lemma pascal_0 : forall n, pascal n 0 = 1%Z.
Proof. destruct n; reflexivity. Qed.
Lemma combs_length : forall A K, Z.of_nat (length (combs A K)) = pascal (length A) K.
Proof.
  induction A as [|a A IH]; intros K; cbn [combs].
  - destruct (Nat.eqb_spec K 0); [subst; reflexivity|]. destruct (Nat.eqb_spec K (length (@nil nat))); [contradiction|]. rewrite pascal_zero; [reflexivity|cbn; lia].
  - destruct (Nat.eqb_spec K 0); [subst; rewrite pascal_0; reflexivity|]. destruct (Nat.eqb_spec K (length (a :: A))); [subst; rewrite pascal_full; reflexivity|].
    rewrite app_length, map_length, Nat2Z.inj_add, !IH. destruct K; [congruence|]. cbn [length pascal Nat.sub]. rewrite Nat.sub_0_r. reflexivity.
Qed.

(* ---- complement ---- *)
Lemma iota_nodup : forall D, NoDup (iota D).
Proof. intros. apply seq_NoDup. Qed.
Lemma iota_in : forall D x, In x (iota D) <-> x < D.
Proof. intros. unfold iota. rewrite in_seq. lia. Qed.
Lemma comb_incl : forall D O c, comb D O c -> incl c (iota D).
Proof. intros D O c (_ & _ & F) x Hx. rewrite Forall_forall in F. apply iota_in. auto. Qed.
Lemma comb_within : forall D O c, comb D O c -> Permutation (within c (iota D)) c.
Proof. intros D O c H. apply within_perm; [apply iota_nodup|apply H|eapply comb_incl; eauto]. Qed.
Lemma filter_split : forall A (f : A -> bool) l, Permutation (filter f l ++ filter (fun x => negb (f x)) l) l.
Proof.
  induction l as [|a l IH]; [constructor|]. cbn. destruct (f a); cbn; [constructor; auto|]. rewrite <- Permutation_middle. constructor; auto.
Qed.
Lemma split_perm : forall c A, NoDup A -> NoDup c -> incl c A -> Permutation (c ++ complement_list c A) A.
Proof.
  intros c A DA Dc I. rewrite complement_filter. rewrite <- (filter_split _ (fun x => search x c) A) at 2. apply Permutation_app_tail. apply Permutation_sym, within_perm; auto.
Qed.
Lemma comb_split : forall D O c, comb D O c -> Permutation (c ++ complement c D) (iota D).
Proof. intros D O c H. apply split_perm; [apply iota_nodup|apply H|eapply comb_incl; eauto]. Qed.
Lemma complement_in : forall c A x, In x (complement_list c A) <-> In x A /\ ~ In x c.
Proof. intros. rewrite complement_filter, filter_In, negb_true_iff, search_out. tauto. Qed.
Lemma complement_nodup : forall c A, NoDup A -> NoDup (complement_list c A).
Proof. intros. rewrite complement_filter. apply NoDup_filter; auto. Qed.
Lemma comb_complement : forall D O c, comb D O c -> comb D (D - O) (complement c D).
Proof.
  intros D O c H. split; [apply complement_nodup, iota_nodup|]. split.
  - pose proof (Permutation_length (comb_split D O c H)) as L. rewrite app_length in L. unfold iota in L at 1. rewrite seq_length in L. destruct H as (_ & E & _). lia.
  - apply Forall_forall. intros x Hx. apply complement_in in Hx as (Hx & _). apply iota_in; auto.
Qed.
Lemma comb_le : forall D O c, comb D O c -> O <= D.
Proof.
  intros D O c H. pose proof (Permutation_length (comb_split D O c H)) as L. rewrite app_length in L. unfold iota in L at 1. rewrite seq_length in L. destruct H as (_ & E & _). lia.
Qed.
Lemma complement_twice : forall c A, complement_list (complement_list c A) A = within c A.
Proof.
  intros c A. rewrite (complement_filter _ A). unfold within. apply filter_ext_in. intros x Hx. destruct (search x c) eqn:E.
  - apply negb_true_iff, search_out. rewrite complement_in. apply search_in in E. tauto.
  - apply negb_false_iff, search_in, complement_in. apply search_out in E. tauto.
Qed.
Lemma comb_perm : forall D O c c', comb D O c -> Permutation c c' -> comb D O c'.
Proof.
  intros D O c c' (N & L & F) P. split; [eapply Permutation_NoDup; eauto|]. split; [rewrite <- (Permutation_length P); auto|].
  apply Forall_forall. intros x Hx. rewrite Forall_forall in F. apply F. eapply Permutation_in; [apply Permutation_sym|]; eauto.
Qed.

(* ---- anticomb ---- *)
Lemma anticomb_cases : forall C D, 2 <= length (complement C D) -> exists x y l, complement C D = x :: y :: l /\
  anticomb C D = if (permsign (C ++ complement C D) (iota D) <? 0)%Z then y :: x :: l else x :: y :: l.
Proof.
  intros C D H. destruct (complement C D) as [|x [|y l]] eqn:E; cbn in H; try lia. exists x, y, l. split; auto. unfold anticomb. rewrite E.
  destruct (_ <? 0)%Z; reflexivity.
Qed.
Lemma anticomb_perm : forall C D, 2 <= length (complement C D) -> Permutation (anticomb C D) (complement C D).
Proof.
  intros C D H. destruct (anticomb_cases C D H) as (x & y & l & -> & ->). destruct (_ <? 0)%Z; [constructor|reflexivity].
Qed.
Lemma par_swap2 : forall C x y l, x <> y -> par (C ++ y :: x :: l) = negb (par (C ++ x :: y :: l)).
Proof.
  intros C x y l H. rewrite !par_app. rewrite (between_perm C C (y :: x :: l) (x :: y :: l)) by (auto; constructor).
  assert (E : par (y :: x :: l) = negb (par (x :: y :: l))).
  { unfold par. cbn [inversions]. rewrite !below_cons, !Nat.odd_add. destruct (Nat.ltb_spec x y), (Nat.ltb_spec y x); try lia; cbn [Nat.odd Nat.even negb];
    destruct (Nat.odd (below y l)), (Nat.odd (below x l)), (Nat.odd (inversions l)); reflexivity. }
  rewrite E. destruct (par C), (par (x :: y :: l)), (Nat.odd (between C (x :: y :: l))); reflexivity.
Qed.
Lemma sg_neg : forall b, (sg b <? 0)%Z = b.
Proof. intros []; reflexivity. Qed.
Lemma par_iota : forall D, par (iota D) = false.
Proof.
  intros D. unfold par, iota. assert (H : forall n k, inversions (seq k n) = 0).
  { induction n as [|n IH]; intros k; [reflexivity|]. cbn [seq inversions]. rewrite IH. assert (B : forall m j, k < j -> below k (seq j m) = 0).
    { induction m as [|m IHm]; intros j Hj; [reflexivity|]. cbn [seq]. rewrite below_cons, IHm by lia. destruct (Nat.ltb_spec j k); lia. }
    rewrite B; lia. }
  rewrite H. reflexivity.
Qed.
Lemma anticomb_sign : forall D O C, comb D O C -> 2 <= length (complement C D) -> permsign (C ++ anticomb C D) (iota D) = 1%Z.
Proof.
  intros D O C HC H. pose proof (comb_split D O C HC) as P. assert (P' : Permutation (C ++ anticomb C D) (iota D)) by (rewrite anticomb_perm by auto; exact P).
  rewrite permsign_sign by (auto using iota_nodup). destruct (anticomb_cases C D H) as (x & y & l & E1 & E2). rewrite E2, E1. rewrite E1 in P.
  rewrite (permsign_sign _ _ (iota_nodup D) P), sg_neg. rewrite par_iota, !xorb_false_r. destruct (par (C ++ x :: y :: l)) eqn:Ep; [|rewrite Ep; reflexivity].
  rewrite par_swap2, Ep; [reflexivity|]. pose proof (proj1 (comb_complement D O C HC)) as N. rewrite E1 in N. inversion N as [|? ? N1 _]. intros ->. apply N1. left; auto.
Qed.

(* ---- choose ---- *)
Lemma combs_comb : forall D O c, In c (combs (iota D) O) -> comb D O c.
Proof.
  intros D O c H. apply combs_in in H as (L & E); [|apply iota_nodup]. split; [rewrite <- E; apply within_nodup, iota_nodup|]. split; auto.
  apply Forall_forall. intros x Hx. apply iota_in. apply (within_self _ _ E); auto.
Qed.
Lemma combs_unique : forall A K c d, NoDup A -> In c (combs A K) -> In d (combs A K) -> Permutation c d -> c = d.
Proof.
  intros A K c d D Hc Hd P. apply combs_in in Hc as (_ & Ec), Hd as (_ & Ed); auto. rewrite <- Ec, <- Ed. apply within_ext. intros x _. split; apply Permutation_in; auto using Permutation_sym.
Qed.
Lemma enumerates_list : forall D O L, NoDup L -> (forall c, In c L -> comb D O c) -> (forall c d, In c L -> In d L -> Permutation c d -> c = d) ->
  (forall c, comb D O c -> exists d, In d L /\ Permutation c d) -> enumerates D O L.
Proof.
  intros D O L N H1 H2 H3. split; auto. intros c Hc. destruct (H3 c Hc) as (d & Hd & P). destruct (In_nth _ _ [] Hd) as (i & Hi & E). exists i. split; auto. rewrite E. split; auto.
  intros k Hk Pk. assert (nth k L [] = nth i L []) as Eq.
  { apply H2; [apply nth_In; auto|apply nth_In; auto|]. rewrite <- Pk, E. auto. }
  apply (proj1 (NoDup_nth L [])) in Eq; auto.
Qed.
Lemma enum_combs : forall D O, O <= D -> enumerates D O (combs (iota D) O).
Proof.
  intros D O H. apply enumerates_list.
  - apply combs_nodup, iota_nodup.
  - apply combs_comb.
  - intros c d Hc Hd. apply (combs_unique (iota D) O); auto using iota_nodup.
  - intros c Hc. exists (within c (iota D)). split; [|apply Permutation_sym; eapply comb_within; eauto]. apply combs_in; [apply iota_nodup|]. split.
    + rewrite (Permutation_length (comb_within D O c Hc)). apply Hc.
    + apply within_ext. intros x _. split; apply Permutation_in; [|apply Permutation_sym]; eapply comb_within; eauto.
Qed.
Lemma choose_low : forall D O, 2 * O <= D \/ D <= 1 -> choose D O = combs (iota D) O.
Proof.
  intros D O H. unfold choose. replace ((1 <? D) && (D <? 2 * O))%nat with false; [reflexivity|]. symmetry. apply andb_false_iff. destruct (Nat.ltb_spec 1 D); auto. right. apply Nat.ltb_ge. lia.
Qed.
Lemma choose_high : forall D O, D < 2 * O -> 1 < D -> O <= D -> choose D O = map (fun C => anticomb C D) (combs (iota D) (D - O)).
Proof.
  intros D O H H1 HO. unfold choose. replace ((1 <? D) && (D <? 2 * O))%nat with true; [|symmetry; apply andb_true_iff; split; apply Nat.ltb_lt; lia].
  replace ((1 <? D) && (D <? 2 * (D - O)))%nat with false; [reflexivity|]. symmetry. apply andb_false_iff. right. apply Nat.ltb_ge. lia.
Qed.
Lemma complement_long : forall D O c, D < 2 * O -> 1 < D -> O <= D -> comb D (D - O) c -> 2 <= length (complement c D).
Proof. intros D O c H H1 HO Hc. destruct (comb_complement D (D - O) c Hc) as (_ & L & _). lia. Qed.
Lemma NoDup_map_in : forall A B (f : A -> B) l, NoDup l -> (forall x y, In x l -> In y l -> f x = f y -> x = y) -> NoDup (map f l).
Proof.
  induction l as [|a l IH]; intros N H; [constructor|]. inversion N; subst. cbn. constructor.
  - rewrite in_map_iff. intros (y & E & Hy). apply H in E; [subst; auto|right; auto|left; auto].
  - apply IH; auto. intros x y Hx Hy. apply H; right; auto.
Qed.
Lemma enum_choose : forall D O, O <= D -> enumerates D O (choose D O).
Proof.
  intros D O HO. destruct (le_lt_dec (2 * O) D) as [H|H]; [rewrite choose_low by auto; apply enum_combs; auto|].
  destruct (le_lt_dec D 1) as [H1|H1]; [rewrite choose_low by auto; apply enum_combs; auto|]. rewrite choose_high by auto.
  assert (Anti : forall c, In c (combs (iota D) (D - O)) -> comb D (D - O) c /\ Permutation (anticomb c D) (complement c D)).
  { intros c Hc. apply combs_comb in Hc. split; auto. apply anticomb_perm. eapply complement_long; eauto. }
  assert (Uniq : forall c d, In c (combs (iota D) (D - O)) -> In d (combs (iota D) (D - O)) -> Permutation (anticomb c D) (anticomb d D) -> c = d).
  { intros c d Hc Hd P. destruct (Anti c Hc) as (Cc & Pc), (Anti d Hd) as (Cd & Pd). apply (combs_unique (iota D) (D - O)); auto using iota_nodup.
    rewrite <- (comb_within _ _ _ Cc), <- (comb_within _ _ _ Cd), <- !complement_twice. rewrite (complement_perm (complement_list c (iota D)) (complement_list d (iota D))); auto.
    fold (complement c D) (complement d D). rewrite <- Pc, <- Pd. auto. }
  apply enumerates_list.
  - apply NoDup_map_in; [apply combs_nodup, iota_nodup|]. intros c d Hc Hd E. apply Uniq; auto. rewrite E. auto.
  - intros c Hc. apply in_map_iff in Hc as (d & <- & Hd). destruct (Anti d Hd) as (Cd & Pd). apply comb_complement in Cd. replace (D - (D - O)) with O in Cd by lia.
    eapply comb_perm; eauto using Permutation_sym.
  - intros c d Hc Hd P. apply in_map_iff in Hc as (c' & <- & Hc), Hd as (d' & <- & Hd). f_equal. apply Uniq; auto.
  - intros c Hc. destruct (enum_combs D (D - O)) as (_ & E); [lia|]. destruct (E _ (comb_complement _ _ _ Hc)) as (i & Hi & P & _).
    exists (anticomb (nth i (combs (iota D) (D - O)) []) D). split; [apply in_map_iff; eexists; split; [reflexivity|apply nth_In; auto]|].
    destruct (Anti (nth i (combs (iota D) (D - O)) [])) as (_ & Pi); [apply nth_In; auto|]. rewrite Pi. unfold complement at 1. rewrite <- (complement_perm _ _ (iota D) P).
    unfold complement. rewrite complement_twice. apply Permutation_sym. eapply comb_within; eauto.
Qed.

(* ---- findcomb ---- *)
Lemma find_spec : forall P L, (forall A, In A L -> NoDup A) ->
  match findcomb_where P L with
  | Some i => i < length L /\ Permutation P (nth i L []) /\ findcomb_sign P L = sign P (nth i L [])
  | None => forall A, In A L -> ~ Permutation P A
  end.
Proof.
  intros P L H. unfold findcomb_sign. induction L as [|A L IH]; [intros A []|]. cbn [findcomb_where].
  assert (NA : NoDup A) by (apply H; left; auto). destruct (Z.eqb_spec (permsign P A) 0) as [E|E]; cbn [negb].
  - specialize (IH (fun B HB => H B (or_intror HB))). destruct (findcomb_where P L) as [i|]; cbn [option_map].
    + destruct IH as (I1 & I2 & I3). cbn [length nth]. split; [lia|]. split; auto.
    + intros B [<-|HB]; auto. apply permsign_zero; auto.
  - apply permsign_perm in E. cbn [nth length]. split; [lia|]. split; auto. rewrite sign_par. apply permsign_sign; auto.
Qed.
Lemma find_enum : forall D O L P, enumerates D O L -> comb D O P -> exists i, findcomb_where P L = Some i /\ i < length L /\ Permutation P (nth i L []) /\
  findcomb_sign P L = sign P (nth i L []) /\ forall k, k < length L -> Permutation P (nth k L []) -> k = i.
Proof.
  intros D O L P (E1 & E2) HP. pose proof (find_spec P L (fun A HA => proj1 (E1 A HA))) as F. destruct (E2 P HP) as (i & Hi & Pi & U). destruct (findcomb_where P L) as [k|].
  - destruct F as (F1 & F2 & F3). exists k. split; auto. split; auto. split; auto. split; auto. intros k' Hk Pk. rewrite (U k F1 F2). apply U; auto.
  - exfalso. apply (F (nth i L [])); auto. apply nth_In; auto.
Qed.
