(* Property C152: the program in examples/where-pick.cc; laws of where() and pick(). *)
From Coq Require Import ZArith List Lia Bool.
From Verif Require Import Spec L_Spec Spec_Ply Spec_Expr M_Base M_Expr M_Ply M_Val Spec_Val L_Expr L_Agree L_Ply L_Run L_Val P_Reduce M_View Spec_View L_View P_View M_Mat P_Mat M_Cells P_Cells P_Outer M_Elem P_Elem M_Stencil P_Stencil P_Roll M_Indirect P_Indirect M_Choose.
Import ListNotations.
Open Scope Z_scope.

(* In memory m, evaluating e at any index j of s gives the integer k j. *)
Definition reads_int {T} (e : expr (val T) (mem T)) (s : list Z) (m : mem T) (k : list Z -> Z) : Prop := forall j, inshape j s -> element e j m = Ok (VI (k j)) m.
(* m and m1 may differ only at the elements of y *)
Definition but {T} (y : view) (m m1 : mem T) : Prop := forall p, (forall i, inshape i (vshape y) -> p <> vplace y i) -> m1 p = m p.

Section Choose.
Context {T : Type}.
Variables (fixed : bool) (z : list zt) (tob : T -> bool).
Hypothesis Hz : zclean z.
Notation ex := (expr (val T) (mem T)).

Lemma where_element : forall (c t f : ex) j m b v, element c j m = Ok v m -> truth_of tob v m = Some b -> element (where_ tob c t f) j m = if b then element t j m else element f j m.
Proof.
  intros c t f j m b v E1 E2. unfold where_, castb. cbn [element map in_order]. unfold bind, ret. rewrite E1. cbn [op1]. unfold bind.
  assert (Eb : rdb tob v m = Ok b m) by (destruct v; cbn in *; inversion E2; subst; reflexivity). rewrite Eb. destruct b; reflexivity.
Qed.
Lemma where_wf : forall (c t f : ex), wf c -> wf t -> wf f -> wf (where_ tob c t f).
Proof. intros. cbn. split; [discriminate|]. split; [split; [discriminate|auto]|auto]. Qed.
Lemma inner_pick : forall sel (t : list ex) s, Forall (fun e => inner e s) t -> inner (Pick sel t) s.
Proof. intros sel t s H. exact (inner_map _ (fun _ => @fail (mem T) (val T)) t s H). Qed.
Lemma where_inner : forall (c t f : ex) s, inner c s -> inner t s -> inner f s -> inner (where_ tob c t f) s.
Proof. intros. apply inner_pick. apply Forall_cons; [apply inner_map; auto|]. auto. Qed.
Lemma where_reads : forall (c t f : ex) s m b x y, reads_bool tob c s m b -> (forall j, inshape j s -> b j = true -> exists v, element t j m = Ok v m /\ value_of v m = Some (x j)) ->
  (forall j, inshape j s -> b j = false -> exists v, element f j m = Ok v m /\ value_of v m = Some (y j)) -> reads (where_ tob c t f) s m (fun j => if b j then x j else y j).
Proof. intros c t f s m b x y Hc Ht Hf j Hj. destruct (Hc j Hj) as (v & E1 & E2). rewrite (where_element c t f j m (b j) v E1 E2). destruct (b j) eqn:B; auto. Qed.
Lemma where_ints : forall (c t f : ex) s m b x y, reads_bool tob c s m b -> reads_int t s m x -> reads_int f s m y -> reads_int (where_ tob c t f) s m (fun j => if b j then x j else y j).
Proof. intros c t f s m b x y Hc Ht Hf j Hj. destruct (Hc j Hj) as (v & E1 & E2). rewrite (where_element c t f j m (b j) v E1 E2). destruct (b j); auto. Qed.
Lemma pick_element : forall (k : ex) t j m n e, element k j m = Ok (VI n) m -> 0 <= n -> nth_error t (Z.to_nat n) = Some e -> element (Pick selv (k :: t)) j m = element e j m.
Proof. intros k t j m n e E Hn Ht. cbn [element map]. rewrite E. cbn [selv]. destruct (Z.leb_spec 0 n); [|lia]. rewrite nth_error_map, Ht. reflexivity. Qed.
Lemma pick_out : forall (k : ex) t j m n, element k j m = Ok (VI n) m -> ~ 0 <= n < Z.of_nat (length t) -> element (Pick selv (k :: t)) j m = Fail m.
Proof.
  intros k t j m n E Hn. cbn [element map]. rewrite E. cbn [selv]. destruct (Z.leb_spec 0 n); [|auto]. replace (nth_error (map (fun a => element a j) t) (Z.to_nat n)) with (@None (M (mem T) (val T))); [auto|].
  symmetry. apply nth_error_None. rewrite map_length. lia.
Qed.

(* Of two expressions only the one that is chosen at j has to have a value at j. *)
Theorem C152_where : forall (y : view) (c t f : ex) (m : mem T) b xt xf, nonneg (vshape y) -> apart_at y -> wf c -> wf t -> wf f -> inner c (vshape y) -> inner t (vshape y) -> inner f (vshape y) ->
  (forall m1, but y m m1 -> reads_bool tob c (vshape y) m1 b) ->
  (forall m1 j, but y m m1 -> inshape j (vshape y) -> b j = true -> exists v, element t j m1 = Ok v m1 /\ value_of v m1 = Some (xt j)) ->
  (forall m1 j, but y m m1 -> inshape j (vshape y) -> b j = false -> exists v, element f j m1 = Ok v m1 /\ value_of v m1 = Some (xf j)) ->
  exists m', assign fixed z put (viter y) (where_ tob c t f) m = Ok None m' /\ becomes y (fun j => if b j then xt j else xf j) m m'.
Proof.
  intros y c t f m b xt xf Hn Ha Wc Wt Wf Nc Nt Nf Rc Rt Rf. apply (assign_to fixed z Hz put y (where_ tob c t f) (vshape y) (fun j => if b j then xt j else xf j) m); auto.
  - apply where_wf; auto.
  - apply where_inner; auto.
  - intros m1 Hm. apply where_reads; [apply Rc; auto|intros; apply Rt; auto|intros; apply Rf; auto].
Qed.

Section Program.
Variables (x y : view) (m : mem T).
Hypotheses (Ex : vshape x = vshape y) (Hn : nonneg (vshape y)) (Ha : apart_at y) (Hs : P_Cells.separate y x).
Lemma x_ok : wf (viter x : ex) /\ inner (viter x : ex) (vshape y).
Proof. destruct (view_shape (T:=T) x _ Ex Hn) as (W & S). split; auto. apply inner_whole; auto. Qed.
Lemma x_reads : forall m1, but y m m1 -> reads (viter x) (vshape y) m1 (fun j => m (vplace x j)).
Proof. intros m1 Hm. apply (view_reads x y (vshape y) m m1 Ex); auto. intros i j Hi Hj. apply Hs; auto. rewrite Ex. auto. Qed.
Lemma lit_reads : forall (a : T) m1, reads (Scalar (VT a)) (vshape y) m1 (fun _ => a).
Proof. intros a m1 j _. exists (VT a). split; reflexivity. Qed.
Lemma with_wf : forall op (a : ex) v, wf a -> wf (Map op [a; Scalar v]).
Proof. intros. apply wf_map; [discriminate|]. apply Forall_cons; [auto|]. apply Forall_cons; [exact I|constructor]. Qed.
Lemma with_inner : forall op (a : ex) v s, inner a s -> inner (Map op [a; Scalar v]) s.
Proof. intros. apply inner_map. apply Forall_cons; [auto|]. apply Forall_cons; [apply inner_scalar|constructor]. Qed.
Lemma one_wf : forall op (a : ex), wf a -> wf (Map op [a]).
Proof. intros. apply wf_map; [discriminate|]. constructor; auto. Qed.
Lemma one_inner : forall op (a : ex) s, inner a s -> inner (Map op [a]) s.
Proof. intros. apply inner_map. constructor; auto. Qed.

Theorem C152_far : forall ab gt add sub two ten, exists m', put_far fixed z tob ab gt add sub two ten y x m = Ok None m' /\
  becomes y (fun j => let u := m (vplace x j) in if gt (ab u) two then add u ten else sub u ten) m m'.
Proof.
  intros ab gt add sub two ten. destruct x_ok as (Wx & Nx). unfold put_far, where_far. cbv zeta.
  apply (C152_where y (cmp gt (una ab (viter x)) (Scalar (VT two))) (bin add (viter x) (Scalar (VT ten))) (bin sub (viter x) (Scalar (VT ten))) m (fun j => gt (ab (m (vplace x j))) two) (fun j => add (m (vplace x j)) ten) (fun j => sub (m (vplace x j)) ten)); auto.
  - apply with_wf, one_wf, Wx.
  - apply with_wf, Wx.
  - apply with_wf, Wx.
  - apply with_inner, one_inner, Nx.
  - apply with_inner, Nx.
  - apply with_inner, Nx.
  - intros m1 Hm. apply (cmp_reads tob gt _ _ (vshape y) m1 (fun j => ab (m (vplace x j))) (fun _ => two)); [|apply lit_reads]. apply (una_reads ab _ (vshape y) m1 (fun j => m (vplace x j))). apply x_reads; auto.
  - intros m1 j Hm Hj _. apply (bin_reads add _ _ (vshape y) m1 (fun j => m (vplace x j)) (fun _ => ten)); [apply x_reads; auto|apply lit_reads|auto].
  - intros m1 j Hm Hj _. apply (bin_reads sub _ _ (vshape y) m1 (fun j => m (vplace x j)) (fun _ => ten)); [apply x_reads; auto|apply lit_reads|auto].
Qed.

Lemma sign_ok : forall lt eq zero, let e := sign_of tob lt eq zero (viter x) in wf e /\ inner e (vshape y) /\
  forall m1, but y m m1 -> reads_int e (vshape y) m1 (fun j => let u := m (vplace x j) in if lt u zero then 0 else if eq u zero then 1 else 2).
Proof.
  intros lt eq zero. cbv zeta. destruct x_ok as (Wx & Nx). unfold sign_of. split; [|split].
  - apply where_wf; [apply with_wf; auto|exact I|]. apply where_wf; [apply with_wf; auto|exact I|exact I].
  - apply where_inner; [apply with_inner; auto|apply inner_scalar|]. apply where_inner; [apply with_inner; auto|apply inner_scalar|apply inner_scalar].
  - intros m1 Hm. apply (where_ints _ _ _ (vshape y) m1 (fun j => lt (m (vplace x j)) zero) (fun _ => 0) (fun j => if eq (m (vplace x j)) zero then 1 else 2)).
    + apply (cmp_reads tob lt _ _ (vshape y) m1 (fun j => m (vplace x j)) (fun _ => zero)); [apply x_reads; auto|apply lit_reads].
    + intros j _. reflexivity.
    + apply (where_ints _ _ _ (vshape y) m1 (fun j => eq (m (vplace x j)) zero) (fun _ => 1) (fun _ => 2)).
      * apply (cmp_reads tob eq _ _ (vshape y) m1 (fun j => m (vplace x j)) (fun _ => zero)); [apply x_reads; auto|apply lit_reads].
      * intros j _. reflexivity.
      * intros j _. reflexivity.
Qed.
Theorem C152_sign : forall lt eq mul zero two three other, exists m', put_sign fixed z tob lt eq mul zero two three other y x m = Ok None m' /\
  becomes y (fun j => let u := m (vplace x j) in if lt u zero then mul u three else if eq u zero then other else mul u two) m m'.
Proof.
  intros lt eq mul zero two three other. destruct x_ok as (Wx & Nx). destruct (sign_ok lt eq zero) as (We & Ne & Re). unfold put_sign, pick_sign. cbv zeta in *.
  match goal with |- context [becomes y ?g m] => apply (assign_to fixed z Hz put y (Pick selv [sign_of tob lt eq zero (viter x); bin mul (viter x) (Scalar (VT three)); Scalar (VT other); bin mul (viter x) (Scalar (VT two))]) (vshape y) g m); auto end.
  - cbn [wf]. split; [discriminate|]. split; [exact We|]. split; [apply with_wf; auto|]. split; [exact I|]. split; [apply with_wf; auto|exact I].
  - apply inner_pick. apply Forall_cons; [exact Ne|]. apply Forall_cons; [apply with_inner; auto|]. apply Forall_cons; [apply inner_scalar|]. apply Forall_cons; [apply with_inner; auto|constructor].
  - intros m1 Hm j Hj. specialize (Re m1 Hm j Hj). cbv beta zeta in Re.
    assert (R3 : forall a, exists v, element (bin mul (viter x) (Scalar (VT a))) j m1 = Ok v m1 /\ value_of v m1 = Some (mul (m (vplace x j)) a)).
    { intros a. apply (bin_reads mul _ _ (vshape y) m1 (fun j => m (vplace x j)) (fun _ => a)); [apply x_reads; auto|apply lit_reads|auto]. }
    destruct (lt (m (vplace x j)) zero); [|destruct (eq (m (vplace x j)) zero)]; (erewrite pick_element; [|exact Re|lia|reflexivity]); auto. exists (VT other). split; reflexivity.
Qed.
End Program.

(* y = pick(k, t ...). Only the one that k chooses has to have a value. *)
Theorem C152_pick : forall (y : view) (k : ex) (t : list ex) (m : mem T) n x, nonneg (vshape y) -> apart_at y -> wf k -> Forall wf t -> inner k (vshape y) -> Forall (fun e => inner e (vshape y)) t ->
  (forall m1, but y m m1 -> reads_int k (vshape y) m1 n) ->
  (forall m1 j, but y m m1 -> inshape j (vshape y) -> 0 <= n j /\ exists e v, nth_error t (Z.to_nat (n j)) = Some e /\ element e j m1 = Ok v m1 /\ value_of v m1 = Some (x j)) ->
  exists m', put_pick fixed z y k t m = Ok None m' /\ becomes y x m m'.
Proof.
  intros y k t m n x Hn Ha Wk Wt Nk Nt Rk Rt. apply (assign_to fixed z Hz put y (Pick selv (k :: t)) (vshape y) x m); auto.
  - cbn [wf]. split; [discriminate|]. split; [auto|]. clear - Wt. induction Wt; cbn; auto.
  - apply inner_pick. constructor; auto.
  - intros m1 Hm j Hj. destruct (Rt m1 j Hm Hj) as (H0 & e & v & E1 & E2 & E3). exists v. split; [|auto]. rewrite (pick_element k t j m1 (n j) e); auto. apply Rk; auto.
Qed.
(* If k doesn't choose any of them at j, where all is well at the indices before j, then those before j are assigned and it fails. *)
Theorem C152_stops : forall (y : view) (k : ex) (t : list ex) (m : mem T) n x js1 j js2, nonneg (vshape y) -> apart_at y -> wf k -> Forall wf t -> inner k (vshape y) -> Forall (fun e => inner e (vshape y)) t ->
  row_major (vshape y) (js1 ++ j :: js2) -> (forall m1, but y m m1 -> reads_int k (vshape y) m1 n) -> ~ 0 <= n j < Z.of_nat (length t) -> (forall m1, element k j m1 = Ok (VI (n j)) m1) ->
  (forall m1 i, but y m m1 -> In i js1 -> 0 <= n i /\ exists e v, nth_error t (Z.to_nat (n i)) = Some e /\ element e i m1 = Ok v m1 /\ value_of v m1 = Some (x i)) ->
  exists m', put_pick fixed z y k t m = Fail m' /\ (forall i, In i js1 -> m' (vplace y i) = x i) /\ forall p, (forall i, In i js1 -> p <> vplace y i) -> m' p = m p.
Proof.
  intros y k t m n x js1 j js2 Hn Ha Wk Wt Nk Nt Hj Rk Hout Rj Rt. destruct (view_shape (T:=T) y _ eq_refl Hn) as (Wy & Sy).
  assert (Ins : forall i, In i (js1 ++ j :: js2) -> inshape i (vshape y)). { intros i Hi. apply row_major_unique in Hj. rewrite Hj in Hi. apply in_indices in Hi. auto. }
  assert (Nd : NoDup js1). { apply row_major_unique in Hj. pose proof (indices_nodup (vshape y)) as N. rewrite <- Hj in N. clear - N. induction js1; [constructor|]. inversion N; subst. constructor; auto. intros Hi. apply H1. apply in_or_app. auto. }
  destruct (assign_stops fixed z Hz put (viter y) (Pick selv (k :: t)) (vshape y) m (vplace y) x js1 j js2) as (m' & E1 & E2); auto.
  - cbn [wf]. split; [discriminate|]. split; [auto|]. clear - Wt. induction Wt; cbn; auto.
  - apply (joint_cover _ _ _ (viter y)); [left; auto|auto|]. apply Forall_cons; [apply inner_whole; auto|]. apply Forall_cons; [|constructor]. apply inner_pick. constructor; auto.
  - intros i m1 Hi. rewrite viter_element, vrank_shape, whole_in by auto. reflexivity.
  - intros i m1 Hi Hm. assert (B : but y m m1) by (intros p Hp; apply Hm; intros i' Hi' _; apply Hp; auto). destruct (Rt m1 i B Hi) as (H0 & e & v & F1 & F2 & F3). exists v. split; [|auto].
    rewrite (pick_element k t i m1 (n i) e); auto. apply Rk; auto. apply Ins. apply in_or_app; auto.
  - intros m1. apply (pick_out k t j m1 (n j)); auto.
  - exists m'. split; [exact E1|]. split.
    + intros i Hi. rewrite E2, (filter_one _ _ _ i); auto. intros u Hu. rewrite Z.eqb_eq. split; [|intros ->; auto]. intros E. apply Ha; auto; apply Ins; apply in_or_app; auto.
    + intros p Hp. rewrite E2, filter_none; auto. intros u Hu. apply Z.eqb_neq. intros E. apply (Hp u); auto.
Qed.

(* where(!c, f, t) is where(c, t, f), whatever they do. *)
Lemma not_element : forall (c t f : ex) j m, element (where_ tob (lnot tob c) f t) j m = element (where_ tob c t f) j m.
Proof.
  intros c t f j m. unfold where_, castb, lnot. cbn [element map in_order op1]. unfold bind, ret. destruct (element c j m) as [v m1|m1|]; auto. cbn [op1]. unfold bind.
  destruct (rdb tob v m1) as [b m2|m2|]; auto. destruct b; reflexivity.
Qed.
Theorem C152_not : forall g (d c t f : ex) (m : mem T), wf d -> wf c -> wf t -> wf f -> assign fixed z g d (where_ tob (lnot tob c) f t) m = assign fixed z g d (where_ tob c t f) m /\
  assign fixed z g (where_ tob (lnot tob c) f t) d m = assign fixed z g (where_ tob c t f) d m.
Proof.
  intros g d c t f m Wd Wc Wt Wf.
  assert (L : forall k u, In u (leaf_lens (where_ tob (lnot tob c) f t) k) <-> In u (leaf_lens (where_ tob c t f) k)).
  { intros k u. unfold where_, castb, lnot. cbn [leaf_lens flat_map]. rewrite !app_nil_r, !in_app_iff. tauto. }
  assert (A : axes (where_ tob (lnot tob c) f t) = axes (where_ tob c t f)) by (unfold where_, castb, lnot; cbn [axes fold_right]; lia).
  assert (W1 : wf (where_ tob (lnot tob c) f t)) by (apply where_wf; auto; apply one_wf; auto). assert (W2 : wf (where_ tob c t f)) by (apply where_wf; auto).
  split; apply ply_same; auto; try (apply wf_map; [discriminate|]; apply Forall_cons; [auto|apply Forall_cons; [auto|constructor]]).
  - cbn [axes fold_right]. rewrite A. reflexivity.
  - intros k u. cbn [leaf_lens flat_map]. rewrite !app_nil_r, !in_app_iff, L. tauto.
  - intros j m'. cbn [element map in_order]. unfold bind. destruct (element d j m') as [v m1|m1|]; auto. rewrite not_element. reflexivity.
  - cbn [axes fold_right]. rewrite A. reflexivity.
  - intros k u. cbn [leaf_lens flat_map]. rewrite !app_nil_r, !in_app_iff, L. tauto.
  - intros j m'. cbn [element map in_order]. unfold bind. rewrite not_element. reflexivity.
Qed.
(* A choice between the same two by the same condition, again: the inner one is as good as its own choice. *)
Theorem C152_again : forall (c t u f : ex) j m v b, element c j m = Ok v m -> truth_of tob v m = Some b -> element (where_ tob c t (where_ tob c u f)) j m = element (where_ tob c t f) j m /\
  element (where_ tob c (where_ tob c t u) f) j m = element (where_ tob c t f) j m /\ element (where_ tob c t t) j m = element t j m.
Proof.
  intros c t u f j m v b E1 E2. rewrite (where_element c t (where_ tob c u f) j m b v), (where_element c u f j m b v), (where_element c (where_ tob c t u) f j m b v), (where_element c t u j m b v), (where_element c t f j m b v), (where_element c t t j m b v) by auto.
  destruct b; auto.
Qed.
End Choose.

(* where-pick.cc:16-43. x is in reverse in memory; y and z are every other element. *)
Definition wx : view := Vw [Dim 7 (-1)] 6.
Definition wy : view := Vw [Dim 7 2] 20.
Definition wm : mem Z := fun p => 3 - p.
Definition shown (r : out (mem Z) (option unit)) : option (list Z) := match r with Ok _ m => Some (map (fun j => m (vplace wy [j])) (zrange 7)) | _ => None end.
Lemma wy_apart : apart_at wy.
Proof. intros i j Hi Hj. apply in1e in Hi as (a & -> & Ha), Hj as (b & -> & Hb). unfold vplace. cbn [wy vcp vdv place step]. intros. f_equal. lia. Qed.
Lemma wy_wx : P_Cells.separate wy wx.
Proof. intros i j Hi Hj. apply in1e in Hi as (a & -> & Ha), Hj as (b & -> & Hb). unfold vplace. cbn [wx wy vcp vdv place step]. lia. Qed.
Example C152_ex : vshape wx = vshape wy /\ nonneg (vshape wy) /\ apart_at wy /\ P_Cells.separate wy wx /\
  shown (put_far false z_init (fun x => negb (x =? 0)) Z.abs Z.gtb Z.add Z.sub 2 10 wy wx wm) = Some [7; -12; -11; -10; -9; -8; 13] /\
  shown (put_sign true z_init (fun x => negb (x =? 0)) Z.ltb Z.eqb Z.mul 0 2 3 77 wy wx wm) = Some [-9; -6; -3; 77; 2; 4; 6].
Proof. split; [reflexivity|]. split; [repeat constructor; cbn; lia|]. split; [apply wy_apart|]. split; [apply wy_wx|]. split; vm_compute; reflexivity. Qed.
(* y = where(x<0, 5, expression that fails for x<0) *)
Definition pos_only : expr (val Z) (mem Z) := Map (op1 (fun v => x <- rd v ;; if x <? 0 then fail else ret (VT x))) [viter wx].
Example C152_where_ex : (forall m1 j, but wy wm m1 -> inshape j (vshape wy) -> (m1 (vplace wx j) <? 0) = false -> exists v, element pos_only j m1 = Ok v m1 /\ value_of v m1 = Some (m1 (vplace wx j))) /\
  shown (assign false z_init put (viter wy) (where_ (fun x => negb (x =? 0)) (cmp Z.ltb (viter wx) (Scalar (VT 0))) (Scalar (VT 5)) pos_only) wm) = Some [5; 5; 5; 0; 1; 2; 3].
Proof.
  split; [|vm_compute; reflexivity]. intros m1 j _ Hj H. apply in1e in Hj as (a & -> & Ha). exists (VT (m1 (vplace wx [a]))). split; [|reflexivity]. unfold pos_only. cbn [element map in_order]. rewrite viter_element.
  unfold bind, ret. change (firstn (vrank wx) [a]) with [a]. cbn. cbn in H. rewrite H. reflexivity.
Qed.
(* pick(k, x, -x) with k = 1 0 0 1 2 0 0: fails at the fifth *)
Definition ks_ : expr (val Z) (mem Z) := Cell [Dim 7 1] 1 (fun p => VI (nth (Z.to_nat p) [1; 0; 0; 1; 2; 0; 0] 0)) 0.
Example C152_stops_ex : row_major (vshape wy) ([[0]; [1]; [2]; [3]] ++ [4] :: [[5]; [6]]) /\ reads_int ks_ (vshape wy) wm (fun j => nth (Z.to_nat (nth 0 j 0)) [1; 0; 0; 1; 2; 0; 0] 0) /\
  match put_pick false z_init wy ks_ [viter wx; una Z.opp (viter wx)] wm with Fail m => map (fun j => m (vplace wy [j])) (zrange 7) | _ => [] end = [3; -2; -1; 0; 3 - 28; 3 - 30; 3 - 32].
Proof.
  split; [change ([[0]; [1]; [2]; [3]] ++ [4] :: [[5]; [6]]) with (indices [7]); apply row_major_indices|]. split; [|vm_compute; reflexivity].
  intros j Hj. apply in1e in Hj as (a & -> & Ha). unfold ks_. cbn [element nth firstn place step]. unfold ret. do 2 f_equal. replace (0 + (a * 1 + 0)) with a by lia. reflexivity.
Qed.
Print Assumptions C152_where. Print Assumptions C152_far. Print Assumptions C152_sign. Print Assumptions C152_pick. Print Assumptions C152_stops. Print Assumptions C152_not. Print Assumptions C152_again.
