(* Views of memory that's given: C111, and structured bindings: C112. *)
From Coq Require Import ZArith List Lia Bool.
From Verif Require Import Spec M_Base M_Expr M_Ply L_Spec Spec_Expr M_View L_View Spec_View P_View M_Slice Spec_Slice L_Slice P_Slice M_Shape M_Small P_Small M_Ext.
Import ListNotations.
Open Scope Z_scope.

(* ---- C111 ---- *)

(* C++: the object a[i] ... of the built in array a with lengths ls, at b. The array takes as many places as the product of its lengths and a[i] is after i of the items that a has. *)
Fixpoint builtin_place (ls : list Z) (b : Z) (j : list Z) : Z :=
  match ls, j with
  | _::ls', i::j' => builtin_place ls' (b + i * zprod ls') j'
  | _, _ => b
  end.

Lemma builtin_rm : forall ls b j, length j = length ls -> builtin_place ls b j = b + rm ls j.
Proof.
  induction ls as [|n ls IH]; intros b [|i j] H; cbn in *; try lia; try discriminate. rewrite IH by lia. lia.
Qed.
Lemma data_first : forall ls b, builtin_data ls b = b.
Proof. induction ls as [|n [|m ls] IH]; intros b; cbn in *; auto. Qed.
Lemma builtin_shape : forall ls, nonneg ls -> shape_of (X := unit) (W := unit) (Builtin ls) = ls.
Proof.
  intros ls H. unfold shape_of, size_s_of, rank_s_of, shape_s_of.
  assert (E : negb (ANY =? Z.of_nat (length ls)) = true) by (unfold ANY; destruct (Z.eqb_spec (-1944444444) (Z.of_nat (length ls))); [lia|reflexivity]).
  rewrite E.
  assert (P : 0 <= product ls 1). { clear E. assert (forall s, 0 <= s -> 0 <= product ls s); [|apply H0; lia]. induction H; intros s Hs; cbn; auto. destruct (Z.ltb_spec x 0); [lia|]. apply IHForall. nia. }
  unfold ANY. destruct (Z.eqb_spec (-1944444444) (product ls 1)); [lia|]. reflexivity.
Qed.

(* the subscripts for one element *)
Lemma indices_select : forall j dv, Forall2 (fun i d => 0 <= i < len d) j dv -> legal (map cidx j) dv.
Proof. induction 1; cbn; econstructor; cbn; eauto. Qed.
Lemma all_indices : forall v j, inshape j (vshape v) -> from v (map cidx j) = Good (Vw [] (vplace v j)).
Proof.
  intros v j Hj. pose proof (inshape_length _ _ Hj) as L. unfold vshape in L. rewrite map_length in L.
  assert (O : Forall one_axis (map cidx j)) by (apply Forall_forall; intros x Hx; apply in_map_iff in Hx; destruct Hx as (? & <- & _); exact I).
  assert (F : fits (vrank v) (map cidx j)). { unfold fits, vrank. rewrite <- L. clear. induction j; cbn; lia. }
  assert (R : one_rest (map cidx j)). { intros l1 l2 l3 E. assert (In (SDots None) (map cidx j)) by (rewrite E; apply in_or_app; right; left; reflexivity). apply in_map_iff in H. destruct H as (? & X & _). discriminate. }
  assert (G : legal (map cidx j) (vdv v)).
  { apply indices_select. clear - Hj. unfold vshape in Hj. revert Hj. generalize (vdv v). intros dv. revert j. induction dv as [|d dv IH]; intros j H; inversion H; subst; constructor; auto. }
  destruct (C23_accepted v (map cidx j) O F R) as (A & _). destruct (A G) as (b & Eb). rewrite Eb. destruct (C23_select v _ b Eb O F) as (S1 & _ & S3).
  assert (X : selects (map cidx j) (vshape v) [] j /\ forall rs, selects_shape (map cidx j) (vshape v) rs -> rs = []).
  { clear - Hj. induction Hj as [|i n j' s' H H' IH]; cbn; [split; [constructor; reflexivity|intros rs X; inversion X; subst; reflexivity]|]. destruct IH as (I1 & I2). split.
    - constructor; auto. 
    - intros rs X. inversion X; subst. auto. }
  destruct X as (X1 & X2). pose proof (S3 [] j X1) as (_ & _ & P). pose proof (X2 _ S1) as Z. unfold vshape in Z. apply map_eq_nil in Z. destruct b as [dv cp]. cbn [vdv] in Z. subst dv. unfold vplace in P at 1. cbn in P. rewrite <- P. rewrite Z.add_0_r. reflexivity.
Qed.

(* A built in array: a[i] ... and a view of the array with indices i ... are the same. *)
Theorem C111_builtin : forall ls b j, nonneg ls -> inshape j ls ->
  vshape (builtin_view ls b) = ls /\ from (builtin_view ls b) (map cidx j) = Good (Vw [] (builtin_place ls b j)).
Proof.
  intros ls b j N Hj. unfold builtin_view. rewrite builtin_shape, data_first by exact N. destruct (dense_spec ls N) as (D1 & _ & D3).
  assert (E : vshape (Vw (dense ls) b) = ls) by exact D1. split; [exact E|]. rewrite all_indices by (rewrite E; exact Hj). unfold vplace; cbn [vdv vcp]. rewrite D3 by exact Hj. rewrite builtin_rm by (apply inshape_length; exact Hj). reflexivity.
Qed.
(* and with fewer indices, the view that results is that of the array a[i] ... *)
Theorem C111_part : forall n ls b i, nonneg (n :: ls) -> 0 <= i < n -> ls <> [] -> from (builtin_view (n :: ls) b) [cidx i] = Good (builtin_view ls (builtin_place (n :: ls) b [i])).
Proof.
  intros n ls b i N Hi Hl. pose proof (proj1 (Forall_cons_iff _ _ _) N) as (Hn & Ns). unfold builtin_view. rewrite !builtin_shape, !data_first by assumption. rewrite (dense_cons n ls N).
  assert (L : length (dense ls) = length ls) by (rewrite <- (map_length len); destruct (dense_spec ls Ns) as (-> & _); reflexivity).
  rewrite from_fromb; [|repeat constructor|unfold fits, vrank; cbn; lia|cbn; lia].
  cbn [fromb cidx vdv vcp len step app rbind fst snd]. unfold inside. destruct (Z.leb_spec 0 i); [|lia]. destruct (Z.ltb_spec i n); [|lia]. cbn [andb orb rbind fst snd]. cbn [builtin_place].
  f_equal. f_equal. destruct ls as [|m ls]; [congruence|]. cbn [builtin_place]. reflexivity.
Qed.

Example C111_builtin_ex : (* int a[2][3][4] *) vshape (builtin_view [2; 3; 4] 100) = [2; 3; 4] /\ builtin_place [2; 3; 4] 100 [1; 2; 3] = 123 /\
  from (builtin_view [2; 3; 4] 100) (map cidx [1; 2; 3]) = Good (Vw [] 123) /\ from (builtin_view [2; 3; 4] 100) [cidx 1] = Good (Vw [Dim 3 4; Dim 4 1] 112).
Proof. repeat split. Qed.

(* What the type of the view takes: any number of axes, or those in the type. *)
Definition takes_rank (t : dimv_t) (r : nat) : Prop := match t with Any => True | Static ts => length ts = r end.
(* what's in the type for axis k *)
Definition axis_len (t : dimv_t) (k : nat) : option Z := match t with Any => None | Static ts => fst (nth k ts (None, None)) end.
Definition axis_step (t : dimv_t) (k : nat) : option Z := match t with Any => None | Static ts => snd (nth k ts (None, None)) end.
(* the first elements of an argument, as many as the view has axes *)
Definition given {A} (a : arg A) (l : list A) : Prop := match a with Given l' => l = l' | Endless f => forall k x, nth_error l k = Some x -> x = f k end.

Lemma like_iff : forall o x, like o x = true <-> (forall y, o = Some y -> x = y).
Proof.
  intros [y|] x; cbn; [rewrite Z.eqb_eq|]; (split; [|auto]).
  - intros <- y0 E. injection E as <-. reflexivity.
  - intros H. symmetry. apply H. reflexivity.
  - discriminate.
Qed.
Lemma combine_all : forall (A B : Type) (f : A * B -> bool) (l : list A) (m : list B) da db, length l = length m -> forallb f (combine l m) = true <-> (forall k, (k < length m)%nat -> f (nth k l da, nth k m db) = true).
Proof.
  intros A B f l. induction l as [|a l IH]; intros [|b m] da db L; try discriminate L; cbn [combine forallb]; [split; auto; intros _ k Hk; cbn in Hk; lia|]. cbn in L. injection L as L.
  rewrite andb_true_iff, (IH m da db L). split.
  - intros (H0 & H) [|k] Hk; cbn in *; auto. apply H. lia.
  - intros H. split; [apply (H 0%nat); cbn; lia|]. intros k Hk. apply (H (S k)). cbn. lia.
Qed.

(* An argument without end needs a number of axes in the type. *)
Definition enough {A} (t : dimv_t) (a : arg A) : Prop := match t, a with Any, Endless _ => False | _, _ => True end.
Lemma sized_is : forall A t (a : arg A) l, given a l -> takes_rank t (length l) -> enough t a -> sized t a = Some l.
Proof.
  intros A [|ts] [l'|f] l G R E; cbn in *; try tauto; try congruence.
  - subst. rewrite R, Nat.eqb_refl. reflexivity.
  - rewrite R. clear R. f_equal. change (seq 0) with (seq (0 + 0)). assert (H : forall k x, nth_error l k = Some x -> x = f (0 + k)%nat) by exact G. clear G. change (seq (0 + 0)) with (seq 0). revert H. generalize 0%nat.
    induction l as [|x l IH]; intros o H; cbn; auto. f_equal; [|apply IH; intros k y Hy; rewrite (H (S k) y Hy); f_equal; lia]. specialize (H 0%nat x eq_refl). rewrite Nat.add_0_r in H. auto.
Qed.
Lemma sized_refused : forall A t (a : arg A), ~ enough t a \/ (exists l, a = Given l /\ ~ takes_rank t (length l)) -> sized t a = None.
Proof.
  intros A [|ts] [l|f] [H|(l' & E & H)]; cbn in *; try tauto; try discriminate. injection E as <-. destruct (Nat.eqb_spec (length l) (length ts)); [congruence|reflexivity].
Qed.
Lemma dense_steps : forall l dv s, filldimv l = Some (dv, s) -> length dv = length l /\ forall k, (k < length l)%nat -> step (nth k dv dim0) = zprod (skipn (S k) l).
Proof.
  assert (Hs : forall l dv s, filldimv l = Some (dv, s) -> s = zprod l).
  { induction l as [|n l IH]; intros dv s H; cbn in H; [injection H as <- <-; reflexivity|]. destruct (filldimv l) as [[dv' s']|]; [|discriminate]. destruct (n >=? 0); [|discriminate]. injection H as <- <-. rewrite (IH dv' s' eq_refl). cbn. ring. }
  induction l as [|n l IH]; intros dv s H; cbn in H; [injection H as <- <-; split; [reflexivity|cbn; lia]|]. destruct (filldimv l) as [[dv' s']|] eqn:E; [|discriminate]. destruct (n >=? 0); [|discriminate]. injection H as <- <-.
  destruct (IH dv' s' eq_refl) as (L & St). split; [cbn; lia|]. intros [|k] Hk; cbn [nth skipn step]; [exact (Hs _ _ _ E)|]. apply St. cbn in Hk. lia.
Qed.

(* View(lengths, p) *)
Theorem C111_lens : forall t a p l, given a l -> takes_rank t (length l) -> enough t a ->
  (nonneg l -> (forall k s, axis_step t k = Some s -> s = zprod (skipn (S k) l)) -> exists v, view_lens t a p = Good v /\ vshape v = l /\ forall j, inshape j l -> vplace v j = p + rm l j) /\
  (~ nonneg l -> view_lens t a p = Refused) /\
  (forall k s, axis_step t k = Some s -> s <> zprod (skipn (S k) l) -> view_lens t a p = Refused).
Proof.
  intros t a p l G R En. unfold view_lens. rewrite (sized_is _ t a l G R En).
  assert (St : forall dv n, filldimv l = Some (dv, n) -> steps_like t dv = true <-> (forall k s, axis_step t k = Some s -> s = zprod (skipn (S k) l))).
  { intros dv n E. destruct (dense_steps l dv n E) as (L & S). destruct t as [|ts]; cbn in *; [split; auto; discriminate|]. rewrite (combine_all _ _ _ ts dv (None, None) dim0) by lia. split.
    - intros H k s Hk. destruct (Nat.lt_ge_cases k (length dv)) as [Lt|Ge].
      + specialize (H k Lt). cbn in H. apply like_iff with (y := s) in H; auto. rewrite <- H. apply S. lia.
      + rewrite nth_overflow in Hk by lia. discriminate.
    - intros H k Hk. cbn. apply like_iff. intros y Hy. rewrite (S k) by lia. symmetry. apply H. exact Hy. }
  split; [|split].
  - intros N H. destruct (filldimv_some l N) as (dv & E1 & E2 & E3). rewrite E1. rewrite (proj2 (St _ _ E1) H). eexists; split; [reflexivity|]. split; [exact E2|]. intros j Hj. unfold vplace; cbn [vdv vcp]. rewrite E3; auto. apply inshape_length; auto.
  - intros N. rewrite filldimv_none; auto.
  - intros k s Hk Hn. destruct (filldimv l) as [[dv n]|] eqn:E; [|reflexivity]. destruct (steps_like t dv) eqn:X; [|reflexivity]. exfalso. apply Hn. exact (proj1 (St _ _ eq_refl) X k s Hk).
Qed.
Theorem C111_lens_rank : forall t a p, ~ enough t a \/ (exists l, a = Given l /\ ~ takes_rank t (length l)) -> view_lens t a p = Refused.
Proof. intros t a p H. unfold view_lens. rewrite (sized_refused _ t a H). reflexivity. Qed.

(* View(dimensions, p) *)
Theorem C111_dims : forall t a p dv, given a dv -> takes_rank t (length dv) -> enough t a ->
  let fit := forall k, (k < length dv)%nat -> (forall n, axis_len t k = Some n -> len (nth k dv dim0) = n) /\ (forall s, axis_step t k = Some s -> step (nth k dv dim0) = s) in
  (fit -> view_dims t a p = Good (Vw dv p)) /\ (~ fit -> view_dims t a p = Refused).
Proof.
  intros t a p dv G R En fit. unfold view_dims. rewrite (sized_is _ t a dv G R En).
  assert (X : dims_like t dv = true <-> fit).
  { unfold fit. destruct t as [|ts]; cbn; [split; auto; intros _ k _; split; discriminate|]. cbn in R. rewrite (combine_all _ _ _ ts dv (None, None) dim0) by lia. split; intros H k Hk; specialize (H k Hk); cbn in H |- *.
    - apply andb_true_iff in H. rewrite !like_iff in H. exact H.
    - apply andb_true_iff. rewrite !like_iff. exact H. }
  destruct (dims_like t dv); split; intros H; auto; exfalso; [apply H, X; reflexivity|]. apply X in H. discriminate.
Qed.
Theorem C111_dims_rank : forall t a p, ~ enough t a \/ (exists l, a = Given l /\ ~ takes_rank t (length l)) -> view_dims t a p = Refused.
Proof. intros t a p H. unfold view_dims. rewrite (sized_refused _ t a H). reflexivity. Qed.

Example C111_ex : view_lens Any (Given [2; 3]) 100 = Good (Vw [Dim 2 3; Dim 3 1] 100) /\ view_lens (Static [(None, None); (None, None)]) (Endless (fun k => Z.of_nat k + 2)) 100 = Good (Vw [Dim 2 3; Dim 3 1] 100) /\
  view_lens Any (Given [2; -3]) 100 = Refused /\ view_lens (Static [(None, None)]) (Given [2; 3]) 100 = Refused /\ view_lens Any (Endless (fun k => 1)) 100 = Refused /\
  view_lens (Static [(None, Some 1)]) (Given [7]) 100 = Good (Vw [Dim 7 1] 100) /\ view_lens (Static [(None, Some 1); (None, Some 1)]) (Given [7; 2]) 100 = Refused /\
  view_dims (Static [(None, Some 1)]) (Given [Dim 7 2]) 100 = Refused /\ view_dims (Static [(None, None)]) (Given [Dim 7 2]) 100 = Good (Vw [Dim 7 2] 100).
Proof. repeat split. Qed.

(* ptr(p, n, s), and the view of a range *)
Theorem C111_ptr : forall p s,
  (forall n, 0 <= n -> exists v, viewptr p (Some n) s = Good v /\ vshape v = [n] /\ forall i, vplace v [i] = p + i * s) /\
  (forall n, n < 0 -> viewptr p (Some n) s = Refused) /\
  (exists v, viewptr p None s = Good v /\ vshape v = [UNB] /\ forall i, vplace v [i] = p + i * s).
Proof.
  intros p s. split; [|split].
  - intros n Hn. exists (Vw [Dim n s] p). unfold viewptr. destruct (Z.geb_spec n 0); [|lia]. repeat split. intros i. unfold vplace, place; cbn. lia.
  - intros n Hn. unfold viewptr. destruct (Z.geb_spec n 0); [lia|reflexivity].
  - exists (Vw [Dim UNB s] p). repeat split. intros i. unfold vplace, place; cbn. lia.
Qed.
Theorem C111_range : forall p n, 0 <= n -> exists v, range_view p n = Good v /\ vshape v = [n] /\ forall i, vplace v [i] = p + i.
Proof. intros p n Hn. destruct (C111_ptr p 1) as (A & _). destruct (A n Hn) as (v & E & S & P). exists v. split; [exact E|]. split; [exact S|]. intros i. rewrite P. lia. Qed.
Example C111_ptr_ex : viewptr 100 (Some 4) (-2) = Good (Vw [Dim 4 (-2)] 100) /\ viewptr 100 (Some (-4)) 1 = Refused /\ range_view 100 3 = Good (Vw [Dim 3 1] 100).
Proof. repeat split. Qed.

(* ---- C112 ---- *)

(* auto & [x ...] = v gives the elements of v in row-major order. *)
Definition binds (v : view) : Prop := tuple_size v = zprod (vshape v) /\ forall k j, nth_error (indices (vshape v)) k = Some j -> get (Z.of_nat k) v = Good (vplace v j).
(* the axes after the first have length 1 *)
Definition column (v : view) : Prop := exists n ones, vshape v = n :: ones /\ Forall (fun m => m = 1) ones.

Lemma one_axis_get : forall v i d dv, vdv v = d :: dv -> 0 <= i < len d -> from v [cidx i] = Good (Vw dv (vcp v + i * step d)).
Proof.
  intros [dv0 cp] i d dv E Hi. cbn [vdv] in E. subst dv0. rewrite from_fromb; [|repeat constructor|unfold fits, vrank; cbn; lia|cbn; lia].
  cbn [fromb cidx vdv vcp]. unfold inside. destruct (Z.leb_spec 0 i); [|lia]. destruct (Z.ltb_spec i (len d)); [|lia]. cbn. reflexivity.
Qed.
Lemma ones_prod : forall l, Forall (fun m => m = 1) l -> zprod l = 1.
Proof. induction 1; cbn; subst; auto. rewrite IHForall. reflexivity. Qed.
Lemma ones_prod_inv : forall l, nonneg l -> zprod l = 1 -> Forall (fun m => m = 1) l.
Proof. induction l as [|n l IH]; intros N H; [constructor|]. cbn in H. inversion N as [|? ? Hn Nl]; subst. assert (n = 1) by (apply Z.mul_eq_1 in H; lia). subst n. constructor; auto. apply IH; auto. lia. Qed.
Lemma ones_indices : forall l, Forall (fun m => m = 1) l -> indices l = [repeat 0 (length l)].
Proof. induction 1; cbn; auto. subst. rewrite IHForall. reflexivity. Qed.

Theorem C112_partial : forall v, nonneg (vshape v) -> column v -> binds v.
Proof.
  intros v N (n & ones & E & O). unfold binds. split; [unfold tuple_size; rewrite dimv_size_prod; [reflexivity|exact N]|].
  intros k j H. rewrite E in H. unfold vshape in E. destruct (vdv v) as [|d dv] eqn:Ed; [discriminate|]. cbn in E. injection E as En Eo.
  assert (X : k = Z.to_nat (Z.of_nat k) /\ j = Z.of_nat k :: repeat 0 (length ones) /\ 0 <= Z.of_nat k < n).
  { assert (J : inshape j (n :: ones)). { apply nth_error_In in H. apply in_indices in H; auto. }
    assert (Rk : nth_error (indices (n :: ones)) (Z.to_nat (rm (n :: ones) j)) = Some j). { apply nth_indices; auto. unfold vshape in N. rewrite Ed in N. cbn in N. rewrite En, Eo in N. exact N. }
    inversion J as [|i ? j' ? Hi Hj']; subst j. 
    assert (Ej : j' = repeat 0 (length ones)). { clear - O Hj'. induction Hj'; cbn; auto. inversion O; subst. f_equal; [lia|auto]. }
    assert (Er : rm (n :: ones) (i :: j') = i). { cbn [rm]. rewrite ones_prod by auto. subst j'. assert (Z0 : rm ones (repeat 0 (length ones)) = 0) by (clear; induction ones; cbn; lia). rewrite Z0. lia. }
    rewrite Er in Rk. split; [lia|]. 
    assert (Ek : k = Z.to_nat i). { apply (NoDup_nth_error (indices (n :: ones))); [apply indices_nodup|apply nth_error_Some; rewrite H; discriminate|congruence]. }
    split; [f_equal; [lia|exact Ej]|lia]. }
  destruct X as (_ & -> & Hk). unfold get. rewrite (one_axis_get v (Z.of_nat k) d dv Ed) by lia. cbn [rbind vdv vcp].
  assert (Sd : dimv_size dv = 1). { rewrite dimv_size_prod; [rewrite Eo; apply ones_prod; auto|]. unfold vshape in N. rewrite Ed in N. cbn in N. inversion N; auto. }
  rewrite Sd. cbn [Z.eqb Pos.eqb]. f_equal. unfold vplace. rewrite Ed. cbn [place].
  assert (P0 : forall dv m, place dv (repeat 0 m) = 0) by (clear; induction dv; intros [|m]; cbn; auto; rewrite IHdv; lia). rewrite P0. lia.
Qed.
(* and for any other it doesn't, unless there are no elements *)
Theorem C112_others_refuted : forall v, nonneg (vshape v) -> ~ column v -> zprod (vshape v) <> 0 -> ~ binds v.
Proof.
  intros v N C Z (_ & H). destruct (vdv v) as [|d dv] eqn:Ed.
  - unfold vshape in *. rewrite Ed in *. cbn in *. specialize (H 0%nat [] eq_refl). unfold get in H. replace (from v [cidx (Z.of_nat 0)]) with (@Refused view) in H; [discriminate|]. symmetry. apply (C62_indices_partial v [fun _ => Some 0]). unfold vrank. rewrite Ed. cbn. lia.
  - unfold vshape in *. rewrite Ed in *. cbn [map] in *. inversion N as [|? ? Hd Nd]; subst. cbn in Z.
    assert (J : inshape (repeat 0 (length (d :: dv))) (len d :: map len dv)).
    { pose proof (zprod_nonneg _ Nd). cbn. constructor; [nia|]. assert (Zd : zprod (map len dv) <> 0) by nia. clear - Nd Zd. induction dv as [|e dv IH]; cbn in *; constructor; inversion Nd; subst.
      - pose proof (zprod_nonneg _ H2). nia.
      - apply IH; auto. nia. }
    pose proof (nth_indices (len d :: map len dv) _ N J) as Hn. assert (R0 : rm (len d :: map len dv) (repeat 0 (length (d :: dv))) = 0).
    { cbn. clear. induction dv; cbn; lia. }
    rewrite R0 in Hn. specialize (H 0%nat _ Hn). unfold get in H. assert (Hp : 0 <= Z.of_nat 0 < len d) by (inversion J; subst; lia). rewrite (one_axis_get v _ d dv Ed Hp) in H. cbn [rbind vdv vcp] in H.
    destruct (Z.eqb_spec (dimv_size dv) 1) as [E1|]; [|discriminate]. rewrite dimv_size_prod in E1 by exact Nd. apply C. unfold column. unfold vshape. rewrite Ed. cbn. eexists _, _. split; [reflexivity|]. apply ones_prod_inv; auto.
Qed.
Example C112_ex : column (Vw [Dim 3 1; Dim 1 1] 100) /\ get 2 (Vw [Dim 3 1; Dim 1 1] 100) = Good 102 /\ get 2 (Vw [Dim 3 (-2)] 100) = Good 96.
Proof. split; [exists 3, [1]; repeat constructor|split; reflexivity]. Qed.
(* auto & [a, b, c, d] = v for a view of shape 2 2 *)
Theorem C112_refuted : exists v, vshape v = [2; 2] /\ tuple_size v = 4 /\ forall i, get i v = Refused.
Proof.
  exists (Vw [Dim 2 2; Dim 2 1] 0). split; [reflexivity|]. split; [reflexivity|]. intros i. unfold get. destruct (Z.leb_spec 0 i); [destruct (Z.ltb_spec i 2)|].
  - rewrite (one_axis_get _ i (Dim 2 2) [Dim 2 1]) by (auto; cbn; lia). reflexivity.
  - replace (from (Vw [Dim 2 2; Dim 2 1] 0) [cidx i]) with (@Refused view); [reflexivity|]. unfold from. cbn. unfold inside. destruct (Z.leb_spec 0 i); [|lia]. destruct (Z.ltb_spec i 2); [lia|reflexivity].
  - replace (from (Vw [Dim 2 2; Dim 2 1] 0) [cidx i]) with (@Refused view); [reflexivity|]. unfold from. cbn. unfold inside. destruct (Z.leb_spec 0 i); [lia|reflexivity].
Qed.

Print Assumptions C111_builtin.
Print Assumptions C111_part.
Print Assumptions C111_lens.
Print Assumptions C111_lens_rank.
Print Assumptions C111_dims.
Print Assumptions C111_dims_rank.
Print Assumptions C111_ptr.
Print Assumptions C111_range.
Print Assumptions C112_partial.
Print Assumptions C112_others_refuted.
Print Assumptions C112_refuted.
