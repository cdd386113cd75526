(* Proofs: C88, lists of types. *)
From Coq Require Import ZArith List Lia Bool.
From Verif Require Import M_List Spec_List.
Import ListNotations.
Open Scope Z_scope.

Lemma append_concat : forall A (ls : list (list A)) l, append_ l ls = l ++ concat ls.
Proof. induction ls; intros; cbn; [rewrite app_nil_r; reflexivity|]. rewrite IHls, app_assoc. reflexivity. Qed.
Lemma cons_cons : forall A (x : A) l, cons_ x l = x :: l.
Proof. intros. unfold cons_. rewrite append_concat. cbn. rewrite app_nil_r. reflexivity. Qed.

(* append gives the elements of each list in order, and needs a list. *)
Theorem C88_append : forall A (ls : list (list A)), append ls = if match ls with [] => true | _ => false end then None else Some (concat ls).
Proof. intros A [|l ls]; cbn; auto. rewrite append_concat. reflexivity. Qed.

Lemma take_drop_ : forall A n (l : list A), (n <= length l)%nat -> take_ l n = Some (firstn n l) /\ drop_ l n = Some (skipn n l).
Proof.
  induction n; intros [|x l] L; cbn in *; try lia; auto. destruct (IHn l ltac:(lia)) as [-> ->]. cbn. rewrite ?cons_cons. auto.
Qed.
Lemma take_drop_none : forall A n (l : list A), (length l < n)%nat -> take_ l n = None /\ drop_ l n = None.
Proof. induction n; intros [|x l] L; cbn in *; try lia; auto. destruct (IHn l ltac:(lia)) as [-> ->]. auto. Qed.

(* take and drop cut the list in two at n, if there are so many. *)
Theorem C88_cut : forall A (l : list A) n,
  (0 <= n <= Z.of_nat (length l) -> exists t d, take l n = Some t /\ drop l n = Some d /\ l = t ++ d /\ Z.of_nat (length t) = n) /\
  (~ 0 <= n <= Z.of_nat (length l) -> take l n = None /\ drop l n = None).
Proof.
  intros A l n. unfold take, drop. split; intros H; destruct (Z.ltb_spec n 0); try lia; auto.
  - destruct (take_drop_ A (Z.to_nat n) l ltac:(lia)) as [-> ->]. exists (firstn (Z.to_nat n) l), (skipn (Z.to_nat n) l).
    rewrite firstn_skipn, firstn_length. repeat split. lia.
  - apply take_drop_none. lia.
Qed.

Lemma ref1_nth : forall A (l : list A) i, ref1 l i = if i <? 0 then None else nth_error l (Z.to_nat i).
Proof.
  intros. unfold ref1, drop. destruct (Z.ltb_spec i 0); auto. generalize (Z.to_nat i). intros n. revert l.
  induction n; intros [|x l]; cbn; auto.
Qed.
(* ref follows the subscripts from the outside in. *)
Theorem C88_ref : forall t i r, ref t [] = Some t /\
  (forall n, t = Atom n -> ref t (i :: r) = None) /\
  (forall l, t = List l -> (0 <= i -> forall u, nth_error l (Z.to_nat i) = Some u -> ref t (i :: r) = ref u r) /\ (~ 0 <= i < Z.of_nat (length l) -> ref t (i :: r) = None)).
Proof.
  intros t i r. split; [destruct t; reflexivity|]. split; [intros n ->; reflexivity|]. intros l ->. cbn. rewrite ref1_nth. split.
  - intros H u E. destruct (Z.ltb_spec i 0); [lia|]. rewrite E. reflexivity.
  - intros H. destruct (Z.ltb_spec i 0); auto. destruct (nth_error l (Z.to_nat i)) eqn:E; auto.
    assert (Z.to_nat i < length l)%nat by (apply nth_error_Some; congruence). lia.
Qed.

(* index, indexif find the first place. *)
Theorem C88_index : forall A p (l : list A), exists i, indexif p l = Some i /\ first_place p l i.
Proof.
  intros A p l. unfold indexif.
  assert (K : forall fuel k, (k + fuel = length l)%nat -> (forall k' y, (k' < k)%nat -> nth_error l k' = Some y -> p y = false) ->
    exists i, index_loop fuel p l (Z.of_nat k) = Some i /\ first_place p l i).
  { assert (N : forall i, Z.of_nat (length l) <= i -> (forall k' y, (k' < Z.to_nat i)%nat -> nth_error l k' = Some y -> p y = false) -> first_place p l (-1)).
    { intros i L H. right. split; auto. intros x Hx. apply In_nth_error in Hx as (k & E). apply (H k); auto. assert (k < length l)%nat by (apply nth_error_Some; congruence). lia. }
    induction fuel; intros k Hk Hb; cbn [index_loop]; destruct (Z.leb_spec (Z.of_nat (length l)) (Z.of_nat k)); try lia.
    - exists (-1). split; auto. apply (N (Z.of_nat k)); auto. rewrite Nat2Z.id. auto.
    - rewrite ref1_nth. destruct (Z.ltb_spec (Z.of_nat k) 0); [lia|]. rewrite Nat2Z.id. destruct (nth_error l k) as [x|] eqn:E.
      + destruct (p x) eqn:P.
        * exists (Z.of_nat k). split; auto. left. exists k, x. auto.
        * replace (Z.of_nat k + 1) with (Z.of_nat (S k)) by lia. apply IHfuel; [lia|]. intros k' y L Ey. destruct (Nat.eq_dec k' k) as [->|]; [congruence|]. apply (Hb k'); auto; lia.
      + apply nth_error_None in E. lia. }
  apply (K (length l) 0%nat); [lia|]. intros; lia.
Qed.

(* iota and makelist *)
Theorem C88_iota : forall n o s, (n < 0 -> iota n o s = None) /\
  (0 <= n -> exists l, iota n o s = Some l /\ Z.of_nat (length l) = n /\ forall k x, nth_error l k = Some x -> x = o + s * Z.of_nat k).
Proof.
  intros n o s. unfold iota. split; intros H; destruct (Z.ltb_spec n 0); try lia; auto. eexists. split; [reflexivity|].
  assert (L : forall n o, length (iota_ n o s) = n) by (clear; induction n; intros; cbn; auto; rewrite cons_cons; cbn; auto).
  rewrite L. split; [lia|]. generalize (Z.to_nat n). clear. intros n. revert o. induction n; intros o k x E; cbn [iota_] in E; [destruct k; discriminate|].
  rewrite cons_cons in E. destruct k; cbn [nth_error] in E; [injection E as <-; lia|]. apply IHn in E. lia.
Qed.
Theorem C88_makelist : forall A n (x : A), (n < 0 -> makelist n x = None) /\
  (0 <= n -> exists l, makelist n x = Some l /\ Z.of_nat (length l) = n /\ forall y, In y l -> y = x).
Proof.
  intros A n x. unfold makelist. split; intros H; destruct (Z.ltb_spec n 0); try lia; auto. eexists. split; [reflexivity|].
  assert (L : forall n, makelist_ n x = repeat x n) by (clear; induction n; cbn [makelist_ repeat]; [reflexivity|]; rewrite cons_cons, IHn; reflexivity).
  rewrite L, repeat_length. split; [lia|]. intros y. apply repeat_spec.
Qed.

(* reverse *)
Theorem C88_reverse : forall A (l : list A), reverse l [] = rev l.
Proof.
  intros A l. assert (K : forall l m : list A, reverse l m = rev l ++ m).
  { clear. induction l; intros m; cbn [reverse rev]; auto. rewrite IHl, cons_cons, <- app_assoc. reflexivity. }
  rewrite K, app_nil_r. reflexivity.
Qed.

(* filter. The first list may be shorter, but not longer. *)
Theorem C88_filter : forall A a (b : list A),
  ((length a <= length b)%nat -> exists r, filter_ a b = Some r /\ kept a b r) /\
  ((length b < length a)%nat -> filter_ a b = None).
Proof.
  induction a as [|x a IH]; intros b; cbn [length]; split; intros L; try lia.
  - exists b. split; [reflexivity|constructor].
  - destruct b as [|y b]; cbn in L; [lia|]. destruct (proj1 (IH b) ltac:(lia)) as (r & E & K). cbn [filter_ rest]. change (take (y :: b) 1) with (Some [y]). cbv iota. rewrite E.
    destruct x; cbn; rewrite app_nil_r || idtac; eexists; (split; [reflexivity|constructor; exact K]).
  - destruct b as [|y b]; [reflexivity|]. cbn in L. cbn [filter_ rest]. change (take (y :: b) 1) with (Some [y]). cbv iota. rewrite (proj2 (IH b) ltac:(lia)). reflexivity.
Qed.

Lemma all_first : forall A (ls : list (list A)), Forall (fun l => l <> []) ls ->
  exists xs rs, all (map first ls) = Some xs /\ all (map rest ls) = Some rs /\ ls = map (fun p => fst p :: snd p) (combine xs rs) /\ length xs = length ls /\ length rs = length ls.
Proof.
  induction 1 as [|l ls N _ IH]; [exists [], []; auto|]. destruct l as [|x l]; [congruence|]. destruct IH as (xs & rs & E1 & E2 & E3 & E4 & E5).
  exists (x :: xs), (l :: rs). cbn. rewrite E1, E2. repeat split; auto; congruence.
Qed.
Lemma all_none : forall A (ls : list (list A)), ~ Forall (fun l => l <> []) ls -> all (map first ls) = None.
Proof.
  induction ls as [|[|x l] ls IH]; intros N; cbn; auto; [destruct N; constructor|]. rewrite IH; auto. intros F. apply N. constructor; auto; congruence.
Qed.
(* mapcons puts the element before each of the lists. *)
Theorem C88_mapcons : forall A (c : A) ls, length (mapcons c ls) = length ls /\ forall k l, nth_error ls k = Some l -> nth_error (mapcons c ls) k = Some (c :: l).
Proof.
  intros A c ls. unfold mapcons. split; [apply map_length|]. intros k l E. rewrite (map_nth_error _ _ _ E), cons_cons. reflexivity.
Qed.

(* map gives as many as there are in the first list. The others may be longer. *)
Theorem C88_map : forall A B (f : list A -> B) l ls,
  (Forall (fun m => (length l <= length m)%nat) ls ->
    exists r, mp_map f (l :: ls) = Some r /\ length r = length l /\
      forall k y, nth_error r k = Some y -> exists x xs, nth_error l k = Some x /\ Forall2 (fun m z => nth_error m k = Some z) ls xs /\ y = f (x :: xs)) /\
  (Exists (fun m => (length m < length l)%nat) ls -> mp_map f (l :: ls) = None).
Proof.
  intros A B f l. cbn [mp_map]. induction l as [|x l IH]; intros ls; split; intros H; cbn [mp_map_ length] in *.
  - exists []. split; auto. split; auto. intros [|k] y E; discriminate.
  - apply Exists_exists in H as (m & _ & L). lia.
  - destruct (all_first A ls) as (xs & rs & E1 & E2 & E3 & E4 & E5); [eapply Forall_impl; [|exact H]; intros [|] L; cbn in L; [lia|congruence]|].
    rewrite E1, E2. destruct (proj1 (IH rs)) as (r & Er & Lr & Hr).
    { rewrite E3 in H. clear - H E4 E5. assert (length xs = length rs) by congruence. clear E4 E5. revert rs H0 H. induction xs; intros [|m rs] L H; cbn in *; try discriminate; constructor.
      - inversion H; subst. cbn in *. lia.
      - inversion H; subst. apply IHxs; auto. }
    rewrite Er, cons_cons. eexists. split; [reflexivity|]. split; [cbn; auto|]. assert (EL : length xs = length rs) by congruence. intros [|k] y E; cbn [nth_error] in *.
    + injection E as <-. exists x, xs. split; auto. split; auto. rewrite E3. clear - EL. revert rs EL. induction xs; intros [|m rs] L; cbn in *; try discriminate; constructor; auto.
    + destruct (Hr k y E) as (x' & xs' & Ex & Fx & Ey). exists x', xs'. split; auto. split; auto. rewrite E3. clear - EL Fx. revert rs xs' EL Fx.
      induction xs; intros [|m rs] xs' L F; cbn in *; try discriminate; inversion F; subst; constructor; cbn; auto.
  - destruct (all (map first ls)) as [xs|] eqn:E1; [|reflexivity].
    assert (N : Forall (fun l => l <> []) ls).
    { apply Forall_forall. intros m Hm ->. enough (all (map first ls) = None) by congruence. apply all_none. rewrite Forall_forall. intros F. apply (F []); auto. }
    destruct (all_first A ls N) as (xs' & rs & E1' & E2 & E3 & E4 & E5). rewrite E2. rewrite (proj2 (IH rs)); auto.
    rewrite E3 in H. assert (EL : length xs' = length rs) by congruence. clear - H EL. revert rs EL H. induction xs'; intros [|m rs] L H; cbn in *; try discriminate; [inversion H|].
    inversion H; subst; [constructor 1; cbn in *; lia|constructor 2; apply IHxs'; auto].
Qed.
(* of no lists at all *)
Theorem C88_map_none : forall A B (f : list A -> B), mp_map f [] = Some [].
Proof. reflexivity. Qed.

Example C88_ex : append [[1; 2]; []; [3]] = Some [1; 2; 3] /\ take [5; 6; 7] 2 = Some [5; 6] /\ drop [5; 6; 7] 2 = Some [7] /\ drop [5; 6; 7] 4 = None /\ take [5] (-1) = None /\
  ref (List [Atom 1; List [Atom 2; Atom 3]]) [1; 0] = Some (Atom 2) /\ ref (List [Atom 1; List [Atom 2; Atom 3]]) [0; 0] = None /\ indexif (Z.eqb 6) [5; 6; 6] = Some 1 /\ indexif (Z.eqb 8) [5; 6; 6] = Some (-1) /\
  iota 3 4 (-2) = Some [4; 2; 0] /\ reverse [1; 2; 3] [] = [3; 2; 1] /\ filter_ [true; false] [1; 2; 3] = Some [1; 3] /\ filter_ [true; false] [1] = None /\
  mp_map (fun l => fold_right Z.add 0 l) [[1; 2]; [10; 20; 30]] = Some [11; 22] /\ mp_map (fun l => fold_right Z.add 0 l) [[1; 2]; [10]] = None.
Proof. vm_compute. repeat split; reflexivity. Qed.

Print Assumptions C88_append.
Print Assumptions C88_cut.
Print Assumptions C88_ref.
Print Assumptions C88_index.
Print Assumptions C88_iota.
Print Assumptions C88_makelist.
Print Assumptions C88_reverse.
Print Assumptions C88_filter.
Print Assumptions C88_map.
Print Assumptions C88_mapcons.
Print Assumptions C88_map_none.
Example C88_mapcons_ex : mapcons 1 [[2; 3]; []] = [[1; 2; 3]; [1]].
Proof. reflexivity. Qed.
