(* Properties C114, C115: stencils. *)
From Coq Require Import ZArith List Lia Bool Sorting.Sorted.
From Verif Require Import Spec L_Spec Spec_Ply Spec_Expr M_Base M_Expr M_Ply M_Val Spec_Val L_Expr L_Agree L_Ply L_Stl L_Run L_Val P_Reduce M_View Spec_View L_View P_View M_Slice Spec_Slice L_Slice P_Slice M_Frame Spec_Frame L_Frame P_Frame M_Mat Spec_Mat P_Mat M_Opt P_Outer M_Cell P_Cell M_Cells P_Cells M_Ext P_Ext M_Doc P_Doc M_Stencil.
Import ListNotations.
Open Scope Z_scope.

(* ---- what the properties are stated with ---- *)
(* the sum of two indices *)
Fixpoint plus (i o : list Z) : list Z := match i, o with x::i', y::o' => x + y :: plus i' o' | _, _ => [] end.
Fixpoint minus (i o : list Z) : list Z := match i, o with x::i', y::o' => x - y :: minus i' o' | _, _ => [] end.
(* margins l at the beginning and h at the end of each axis, for lengths s *)
Inductive room : list Z -> list Z -> list Z -> Prop :=
| room_nil : room [] [] []
| room_cons : forall l h n ls hs s, 0 <= l -> 0 <= h -> l + h <= n -> room ls hs s -> room (l :: ls) (h :: hs) (n :: s).
(* an index that isn't in the margins *)
Inductive interior : list Z -> list Z -> list Z -> list Z -> Prop :=
| int_nil : interior [] [] [] []
| int_cons : forall l h n i ls hs s j, l <= i < n - h -> interior ls hs s j -> interior (l :: ls) (h :: hs) (n :: s) (i :: j).
(* an offset that stays in the margins *)
Inductive near : list Z -> list Z -> list Z -> Prop :=
| near_nil : near [] [] []
| near_cons : forall l h o ls hs os, - l <= o <= h -> near ls hs os -> near (l :: ls) (h :: hs) (o :: os).

Section Terms.
Context {T : Type}.
(* the offsets of a term *)
Fixpoint offsets (t : term T) : list (list Z) := match t with TWin o => [o] | TNum _ => [] | TOp _ a b => offsets a ++ offsets b end.
(* the value of a term around index i of v *)
Fixpoint around (m : mem T) (v : view) (i : list Z) (t : term T) : T :=
  match t with TWin o => m (vplace v (plus i o)) | TNum x => x | TOp g a b => g (around m v i a) (around m v i b) end.
(* the sum, in the order of ks, of the products of the elements of v around i by those of a mask where lo is the place of i *)
Definition weighed (add mul : T -> T -> T) (zero : T) (m : mem T) (v mask : view) (lo : list Z) (ks : list (list Z)) (i : list Z) : T :=
  fold_left add (map (fun k => mul (m (vplace v (plus i (minus k lo)))) (m (vplace mask k))) ks) zero.
(* The elements of w that aren't in the margins are given by x, and nothing else has changed. *)
Definition filled (w : view) (l h : list Z) (x : list Z -> T) (m m' : mem T) : Prop :=
  (forall i, interior l h (vshape w) i -> m' (vplace w i) = x i) /\
  forall p, (forall i, interior l h (vshape w) i -> p <> vplace w i) -> m' p = m p.
End Terms.

(* ---- the grid ---- *)
Definition los_sub (p : Z * Z) : sub := ciota (fst p) (snd p) 1.
Fixpoint block (s l h : list Z) : list (Z * Z) := match s, l, h with n::s', l0::l', h0::h' => (n - l0 - h0, l0) :: block s' l' h' | _, _, _ => [] end.
Definition mksq (p : Z * Z) : sq := Sq (Run (fst p)) (snd p) 1.
Fixpoint shifted (p : list (Z * Z)) (o : list Z) : list (Z * Z) := match p, o with x::p', y::o' => (fst x, snd x + y) :: shifted p' o' | _, _ => [] end.

Lemma room_length : forall l h s, room l h s -> length l = length s /\ length h = length s.
Proof. induction 1; cbn; lia. Qed.
Lemma near_length : forall l h o, near l h o -> length l = length o /\ length h = length o.
Proof. induction 1; cbn; lia. Qed.
Lemma grid_good : forall l h s, room l h s -> grid s l h = Good (map mksq (block s l h)).
Proof.
  induction 1 as [|l h n ls hs s H1 H2 H3 H IH]; [reflexivity|]. cbn [grid]. unfold iota. destruct (Z.ltb_spec (n - l - h) 0); [lia|]. cbn [rbind]. rewrite IH. reflexivity.
Qed.
Lemma moved_good : forall los o, Forall (fun p => 0 <= fst p) los -> length o = length los -> moved (map mksq los) o = Good (map mksq (shifted los o)).
Proof.
  induction los as [|p los IH]; intros [|y o] H L; try discriminate; [reflexivity|]. inversion H as [|? ? H1 H2]; subst. cbn [map moved shifted].
  assert (E : (if y <? 0 then opt_sub_sq_k (mksq p) (- y) else if y =? 0 then Good (mksq p) else opt_add_sq_k (mksq p) y) = Good (mksq (fst p, snd p + y))).
  { unfold opt_sub_sq_k, opt_add_sq_k, iota, mksq. cbn [qlen qorg qstep fst snd]. destruct (Z.ltb_spec (fst p) 0); [lia|]. destruct (Z.ltb_spec y 0); [f_equal; f_equal; lia|]. destruct (Z.eqb_spec y 0); f_equal; f_equal; lia. }
  rewrite E. cbn [rbind]. rewrite IH by (auto; cbn in L; lia). reflexivity.
Qed.

(* the part of v given by lengths and origins *)
Definition part_ok (p : Z * Z) (n : Z) : Prop := 0 <= fst p /\ (0 < fst p -> 0 <= snd p /\ snd p + fst p <= n).
Fixpoint part_dv (los : list (Z * Z)) (dv : list dim) : list dim := match los, dv with p::los', d::dv' => Dim (fst p) (step d) :: part_dv los' dv' | _, _ => [] end.
Definition part (los : list (Z * Z)) (v : view) : view := Vw (part_dv los (vdv v)) (vplace v (map snd los)).
Lemma part_fromb : forall los dv, Forall2 part_ok los (map len dv) -> forall bv pl, fromb true (map los_sub los) dv bv pl = Good (bv ++ part_dv los dv, pl + place dv (map snd los)).
Proof.
  induction los as [|p los IH]; intros [|d dv] H bv pl; inversion H as [|? ? ? ? (H1 & H2) H3]; subst; cbn [map part_dv place].
  - cbn [fromb]. rewrite app_nil_r. rewrite Z.add_0_r. reflexivity.
  - unfold los_sub at 1, ciota. cbn [fromb]. destruct (Z.ltb_spec (fst p) 0); [lia|]. unfold seq_ok. cbn [len step].
    replace ((0 =? fst p) || (inside (snd p) (len d) && inside (snd p + (fst p - 1) * 1) (len d)))%bool with true.
    2: { unfold inside. destruct (Z.eqb_spec 0 (fst p)); [reflexivity|]. cbn [orb]. symmetry. destruct H2; [lia|]. rewrite !andb_true_iff. lia. }
    change (fun n : dim => len n) with len in *. rewrite IH by auto. rewrite <- app_assoc. cbn [app]. f_equal. f_equal; [|lia]. do 3 f_equal. lia.
Qed.
Lemma window_part : forall los v, Forall2 part_ok los (vshape v) -> window v (map mksq los) = Good (part los v).
Proof.
  intros los v H. unfold window. rewrite map_map. change (map (fun x => sq_sub (mksq x)) los) with (map los_sub los).
  assert (O : Forall one_axis (map los_sub los)) by (apply Forall_forall; intros x Hx; apply in_map_iff in Hx; destruct Hx as (? & <- & _); exact I).
  assert (L : length los = vrank v) by (apply Forall2_len in H; unfold vshape in H; rewrite map_length in H; exact H).
  assert (F : fits (vrank v) (map los_sub los)). { unfold fits. rewrite <- L. clear. induction los; cbn; lia. }
  assert (R : (length (filter is_rest (map los_sub los)) <= 1)%nat). { clear. induction los; cbn; auto. }
  rewrite (from_fromb v _ O F R). rewrite part_fromb by exact H. reflexivity.
Qed.
Lemma part_rank : forall los v, length los = vrank v -> vrank (part los v) = vrank v.
Proof. intros los v. unfold vrank, part. cbn [vdv]. generalize (vdv v). induction los as [|p los IH]; intros [|d dv] L; try discriminate; cbn in *; auto. Qed.
Lemma part_shape : forall los v, length los = vrank v -> vshape (part los v) = map fst los.
Proof. intros los v. unfold vrank, vshape, part. cbn [vdv]. generalize (vdv v). induction los as [|p los IH]; intros [|d dv] L; try discriminate; cbn in *; auto. f_equal. auto. Qed.
Lemma part_place : forall los v j, length los = vrank v -> length j = vrank v -> vplace (part los v) j = vplace v (plus j (map snd los)).
Proof.
  intros los v j Hl Hj. unfold vplace at 1, part. cbn [vdv vcp]. unfold vplace. unfold vrank in *. rewrite <- Z.add_assoc. f_equal. revert los j Hl Hj. generalize (vdv v).
  induction l as [|d dv IH]; intros [|p los] [|x j] Hl Hj; try discriminate; cbn [part_dv map place plus]; [reflexivity|]. specialize (IH los j ltac:(cbn in *; lia) ltac:(cbn in *; lia)). cbn [step]. lia.
Qed.
Lemma plus_length : forall i o, length i = length o -> length (plus i o) = length i.
Proof. induction i; intros [|y o] H; try discriminate; cbn in *; auto. Qed.
Lemma plus_assoc : forall i j k, plus (plus i j) k = plus i (plus j k).
Proof. induction i; intros [|y j] [|x k]; cbn; auto. f_equal; [lia|auto]. Qed.
Lemma plus_inj : forall l i j, length i = length l -> length j = length l -> plus i l = plus j l -> i = j.
Proof. induction l; intros [|x i] [|y j] Hi Hj H; try discriminate; cbn in *; auto. injection H as H1 H2. f_equal; [lia|]. apply IHl; auto. Qed.
Lemma block_length : forall l h s, room l h s -> length (block s l h) = length s.
Proof. induction 1; cbn; auto. Qed.
Lemma block_snd : forall l h s, room l h s -> map snd (block s l h) = l.
Proof. induction 1; cbn; f_equal; auto. Qed.
Lemma block_nonneg : forall l h s, room l h s -> Forall (fun p => 0 <= fst p) (block s l h).
Proof. induction 1; cbn; constructor; auto. cbn. lia. Qed.
Lemma block_ok : forall l h s, room l h s -> Forall2 part_ok (block s l h) s.
Proof. induction 1; cbn; constructor; auto. unfold part_ok. cbn. lia. Qed.
Lemma shifted_ok : forall l h s, room l h s -> forall o, near l h o -> Forall2 part_ok (shifted (block s l h) o) s /\ map fst (shifted (block s l h) o) = map fst (block s l h) /\ map snd (shifted (block s l h) o) = plus l o.
Proof.
  induction 1 as [|l h n ls hs s H1 H2 H3 H IH]; intros o Ho; inversion Ho as [|? ? o0 ? ? os H4 H5]; subst; cbn; [repeat split; constructor|]. destruct (IH os H5) as (I1 & I2 & I3). split.
  - constructor; auto. unfold part_ok. cbn. lia.
  - cbn. rewrite I2, I3. split; reflexivity.
Qed.
Lemma interior_iff : forall l h s, room l h s -> forall i, interior l h s i <-> exists j, inshape j (map fst (block s l h)) /\ i = plus j l.
Proof.
  induction 1 as [|l h n ls hs s H1 H2 H3 H IH]; intros i; cbn [block map fst].
  - split; [intros X; inversion X; exists []; split; [constructor|reflexivity]|intros (j & Hj & ->); inversion Hj; constructor].
  - split.
    + intros X. inversion X as [|? ? ? i0 ? ? ? j0 Hi Hj]; subst. apply IH in Hj as (j & Hj & ->). exists (i0 - l :: j). split; [constructor; [lia|auto]|]. cbn. f_equal. lia.
    + intros (j & Hj & ->). inversion Hj as [|x ? j' ? Hx Hj']; subst. cbn [plus]. constructor; [lia|]. apply IH. exists j'. auto.
Qed.
Lemma interior_in : forall l h s, room l h s -> forall i, interior l h s i -> inshape i s.
Proof.
  induction 1 as [|l h n ls hs s H1 H2 H3 H IH]; intros i X; inversion X; subst; [constructor|]. constructor; [lia|]. apply IH; auto.
Qed.
Lemma near_in : forall l h s i, interior l h s i -> forall o, near l h o -> inshape (plus i o) s.
Proof. induction 1 as [|l h n i ls hs s j H1 H IH]; intros o X; inversion X; subst; cbn [plus]; [constructor|]. constructor; [lia|]. apply IH; auto. Qed.

(* ---- a loop that writes one place at each step ---- *)
Section Loops.
Context {T : Type}.
Variables (fixed : bool) (z : list zt).
Hypothesis Hz : zclean z.
Notation ex := (expr (val T) (mem T)).

Lemma loop_scatter : forall X (e : expr X (mem T)) (f : T -> T -> T) s pl x (m : mem T), wf e -> shape_is e s ->
  (forall j m', inshape j s -> (forall p, (forall j', inshape j' s -> p <> pl j') -> m' p = m p) -> exists u, element e j m' = Ok u (wr (pl j) (f (m' (pl j)) (x j)) m')) ->
  exists m', ply fixed no_stop z e m = Ok None m' /\ forall p, m' p = fold_left f (map x (filter (fun j => pl j =? p) (indices s))) (m p).
Proof.
  intros X e f s pl x m We Se He. pose proof (row_major_indices s) as Hj.
  destruct (each_scatter X (element e) f pl x (indices s) m []) with (m := m) as (m' & E1 & E2); [|auto|].
  - intros l1 j l2 m1 E Hm1. destruct (row_major_split _ _ _ _ _ Hj E) as (Hin & Hl). cbn [app] in Hm1. apply He; auto. intros p Hp. apply Hm1. intros j' Hj'. apply Hp. apply Hl in Hj'. tauto.
  - exists m'. split; [|exact E2]. rewrite (ply_spec _ _ _ no_stop fixed z _ s (indices s)); auto. rewrite visit_each, E1. reflexivity.
Qed.

Variables (w v : view) (l h : list Z).
Hypothesis Hr : room l h (vshape v).
Hypothesis Hw : vshape w = vshape v.
Hypothesis Hs : P_Cells.separate w v.
Hypothesis Ha : apart_at w.
Let B := block (vshape v) l h.
Let sI := map fst B.
Let w0 := part B w.

Lemma B_length : length B = vrank v.
Proof. unfold B. rewrite block_length by auto. symmetry. apply vrank_shape. Qed.
Lemma w_rank : vrank w = vrank v.
Proof. rewrite !vrank_shape, Hw. reflexivity. Qed.
Lemma sI_length : length sI = vrank v.
Proof. unfold sI. rewrite map_length. apply B_length. Qed.
Lemma l_length : length l = vrank v.
Proof. destruct (room_length _ _ _ Hr). rewrite vrank_shape. auto. Qed.
Lemma w0_shape : vshape w0 = sI.
Proof. apply part_shape. rewrite w_rank. apply B_length. Qed.
Lemma w0_rank : vrank w0 = vrank v.
Proof. rewrite vrank_shape, w0_shape. apply sI_length. Qed.
Lemma w0_place : forall j, inshape j sI -> vplace w0 j = vplace w (plus j l).
Proof. intros j Hj. unfold w0. rewrite part_place; [|rewrite w_rank; apply B_length|rewrite (inshape_length _ _ Hj), w_rank; apply sI_length]. unfold B. rewrite block_snd by auto. reflexivity. Qed.
Lemma w0_in : forall j, inshape j sI -> interior l h (vshape v) (plus j l).
Proof. intros j Hj. apply interior_iff; auto. exists j. auto. Qed.
Lemma w0_apart : forall i j, inshape i sI -> inshape j sI -> vplace w0 i = vplace w0 j -> i = j.
Proof.
  intros i j Hi Hj E. rewrite !w0_place in E by auto. apply Ha in E; [|rewrite Hw; apply (interior_in l h); auto using w0_in|rewrite Hw; apply (interior_in l h); auto using w0_in].
  apply (plus_inj l) in E; auto; rewrite l_length; rewrite <- sI_length; apply inshape_length; auto.
Qed.
Lemma w0_nonneg : nonneg sI.
Proof. unfold nonneg, sI, B. apply Forall_map. apply block_nonneg. auto. Qed.
Lemma w0_away : forall j i, inshape j sI -> inshape i (vshape v) -> vplace v i <> vplace w0 j.
Proof. intros j i Hj Hi E. rewrite w0_place in E by auto. apply (Hs (plus j l) i); auto. rewrite Hw. apply (interior_in l h); auto using w0_in. Qed.
Lemma grid_window : grid (map len (vdv v)) l h = Good (map mksq B) /\ window w (map mksq B) = Good w0.
Proof. split; [apply grid_good; exact Hr|]. apply window_part. rewrite Hw. apply block_ok; auto. Qed.
Lemma finish_filled : forall x (m m' : mem T), (forall j, inshape j sI -> m' (vplace w0 j) = x (plus j l)) -> (forall p, (forall j, inshape j sI -> p <> vplace w0 j) -> m' p = m p) -> filled w l h x m m'.
Proof.
  intros x m m' H1 H2. split; rewrite Hw.
  - intros i Hi. apply (interior_iff l h) in Hi as (j & Hj & ->); auto. rewrite <- w0_place, H1; auto.
  - intros p Hp. apply H2. intros j Hj. rewrite w0_place by auto. apply Hp. apply w0_in; auto.
Qed.

(* shapes *)
Definition inner {X} (e : expr X (mem T)) (s : list Z) : Prop := (axes e <= length s)%nat /\ forall k, Forall (fun n => n = nth k s 0 \/ n = UNB) (leaf_lens e k).
Lemma joint_cover : forall X (t : list (expr X (mem T))) s x, In x t -> shape_is x s -> Forall (fun e => inner e s) t -> joint_shape t s.
Proof.
  intros X t s x Hx (Lx & Sx) F.
  assert (L : length s = fold_right (fun a r => Nat.max (axes a) r) 0%nat t).
  { apply Nat.le_antisymm.
    - rewrite Lx. clear - Hx. induction t as [|a t IH]; [destruct Hx|]. cbn [fold_right]. destruct Hx as [->|Hx]; [lia|]. specialize (IH Hx). lia.
    - clear - F. induction F as [|a t (H & _) F IH]; cbn [fold_right]; lia. }
  split; [exact L|]. intros k Hk. rewrite <- L, Lx in Hk. destruct (Sx k Hk) as (H1 & H2 & H3). split; [auto|]. split.
  - apply in_flat_map. exists x. auto.
  - apply Forall_forall. intros n Hn. apply in_flat_map in Hn as (a & Ia & Hn). rewrite Forall_forall in F. destruct (F a Ia) as (_ & Fa). specialize (Fa k). rewrite Forall_forall in Fa. auto.
Qed.
Lemma inner_shape : forall X (e : expr X (mem T)) s1 s2, wf e -> shape_is e s1 -> inner e (s1 ++ s2).
Proof.
  intros X e s1 s2 Hwf [L P]. split; [rewrite app_length; lia|]. intros k. destruct (Nat.lt_ge_cases k (axes e)).
  - rewrite app_nth1 by lia. apply P; auto.
  - rewrite leaf_lens_out; auto. rewrite <- axes_rank; auto.
Qed.
Lemma inner_whole : forall X (e : expr X (mem T)) s, wf e -> shape_is e s -> inner e s.
Proof. intros. rewrite <- (app_nil_r s). apply inner_shape; auto. Qed.
Lemma inner_scalar : forall X (x : X) s, inner (Scalar x) s.
Proof. intros. split; [cbn; lia|]. intros. constructor. Qed.
Lemma inner_map : forall X op (t : list (expr X (mem T))) s, Forall (fun e => inner e s) t -> inner (Map op t) s.
Proof.
  intros X op t s F. split.
  - cbn [axes]. induction F as [|a t (H & _) F IH]; cbn [fold_right]; lia.
  - intros k. cbn [leaf_lens]. induction F as [|a t (_ & H) F IH]; cbn [flat_map]; [constructor|]. apply Forall_app. auto.
Qed.

(* ---- the terms ---- *)
Lemma term_reads : forall t, Forall (near l h) (offsets t) -> exists e : ex, term_expr v (map mksq B) t = Good e /\ wf e /\ inner e sI /\
  forall m, reads e sI m (fun j => around m v (plus j l) t).
Proof.
  induction t as [o|x|g a IHa b IHb]; cbn [offsets]; intros Ho.
  - inversion Ho as [|? ? Hn _]; subst. destruct (shifted_ok _ _ _ Hr o Hn) as (S1 & S2 & S3). fold B in S1, S2, S3. destruct (near_length _ _ _ Hn) as (N1 & _).
    assert (Lo : length o = length B) by (rewrite B_length, <- l_length; auto). pose proof B_length as LB.
    cbn [term_expr]. rewrite moved_good by (auto; unfold B; apply block_nonneg; auto). cbn [rbind]. rewrite window_part by auto. cbn [rbind].
    assert (Ls : length (shifted B o) = vrank v) by (pose proof (f_equal (@length Z) S2) as Q; rewrite !map_length in Q; lia).
    assert (Sh : vshape (part (shifted B o) v) = sI) by (rewrite part_shape by auto; exact S2).
    destruct (view_shape (T:=T) _ _ Sh w0_nonneg) as (W & P). eexists. split; [reflexivity|]. split; [auto|]. split; [apply inner_whole; auto|].
    intros m j Hj. exists (VRef (vplace v (plus (plus j l) o))). split; [|reflexivity]. rewrite viter_element. pose proof (inshape_length _ _ Hj) as Lj. rewrite sI_length in Lj.
    rewrite part_rank, firstn_all2, part_place by lia. rewrite S3, plus_assoc. reflexivity.
  - exists (Scalar (VT x)). split; [reflexivity|]. split; [exact I|]. split; [apply inner_scalar|]. intros m j _. exists (VT x). split; reflexivity.
  - apply Forall_app in Ho as (Ho1 & Ho2). destruct (IHa Ho1) as (ea & Ea & Wa & Na & Ra). destruct (IHb Ho2) as (eb & Eb & Wb & Nb & Rb).
    exists (times g ea eb). cbn [term_expr]. rewrite Ea. cbn [rbind]. rewrite Eb. cbn [rbind]. split; [reflexivity|]. split; [apply times_wf; auto|]. split; [apply inner_map; auto|].
    intros m. apply (times_reads g ea eb sI m _ _ (Ra m) (Rb m)).
Qed.
(* the term reads v only *)
Lemma around_ext : forall t, Forall (near l h) (offsets t) -> forall j (m m' : mem T), inshape j sI -> (forall p, (forall i, inshape i sI -> p <> vplace w0 i) -> m' p = m p) -> around m' v (plus j l) t = around m v (plus j l) t.
Proof.
  intros t Ho j m m' Hj Hm. induction t as [o|x|g a IHa b IHb]; cbn [offsets around] in *; [|reflexivity|].
  - inversion Ho as [|? ? Hn _]; subst. apply Hm. intros i Hi. apply w0_away; auto. apply (near_in l h); auto. apply w0_in; auto.
  - apply Forall_app in Ho as (Ho1 & Ho2). rewrite IHa, IHb; auto.
Qed.
Theorem C114_slices : forall t (m : mem T), Forall (near l h) (offsets t) -> exists m', slices fixed z w v l h t m = Ok None m' /\ filled w l h (fun i => around m v i t) m m'.
Proof.
  intros t m Ho. destruct grid_window as (G1 & G2). destruct (term_reads t Ho) as (e & Ee & We & Ne & Re). unfold slices. rewrite G1. cbn [onres]. rewrite G2. cbn [onres]. rewrite Ee. cbn [onres].
  destruct (view_shape (T:=T) w0 sI w0_shape w0_nonneg) as (W0 & S0).
  destruct (C29_assign T put (viter w0) e sI m (vplace w0) (fun j => around m v (plus j l) t) fixed z) as (m' & E1 & E2 & E3); auto.
  - apply (joint_cover _ _ _ (viter w0)); [left; auto|auto|]. apply Forall_cons; [apply inner_whole; auto|]. auto.
  - intros j m1 Hj. rewrite viter_element, w0_rank, firstn_all2; [reflexivity|]. rewrite (inshape_length _ _ Hj), sI_length. auto.
  - apply w0_apart.
  - intros j m1 Hj Hm. destruct (Re m1 j Hj) as (u & U1 & U2). exists u. split; [auto|]. rewrite U2. f_equal. apply around_ext; auto.
  - exists m'. split; [exact E1|]. apply finish_filled; auto.
Qed.

(* ---- the stencil view ---- *)
Definition window_shape : list Z := map (fun n => n + 1) (plus l h).
Lemma window_length : length window_shape = vrank v.
Proof. unfold window_shape. rewrite map_length, plus_length, l_length; auto. destruct (room_length _ _ _ Hr). lia. Qed.
Lemma window_nonneg : nonneg window_shape.
Proof. unfold window_shape, nonneg. clear - Hr. induction Hr; cbn; constructor; auto. lia. Qed.
Lemma outer_inner : forall dv lo hi, room lo hi (map len dv) -> exists o, stencil_outer dv lo hi = Some o /\ map len o = map fst (block (map len dv) lo hi) /\ map step o = map step dv /\
  map len (stencil_inner dv lo hi) = map (fun n => n + 1) (plus lo hi) /\ map step (stencil_inner dv lo hi) = map step dv.
Proof.
  clear. induction dv as [|d dv IH]; intros lo hi H; inversion H as [|l0 h0 n ls hs s H1 H2 H3 H4]; subst; cbn [map stencil_outer stencil_inner block plus].
  - exists []. repeat split.
  - destruct (IH _ _ H4) as (o & E1 & E2 & E3 & E4 & E5). rewrite E1. destruct (Z.geb_spec (len d) (l0 + h0)); [|lia]. eexists. split; [reflexivity|]. cbn [map len step fst]. rewrite E2, E3, E4, E5. repeat split.
Qed.
Lemma place_steps : forall d1 d2 j, map step d1 = map step d2 -> place d1 j = place d2 j.
Proof. clear. induction d1 as [|d d1 IH]; intros [|e d2] j H; try discriminate; [reflexivity|]. injection H as H1 H2. destruct j; cbn [place]; [reflexivity|]. rewrite H1, (IH d2); auto. Qed.
Lemma place_plus : forall dv j k, length j = length dv -> length k = length dv -> place dv (plus j k) = place dv j + place dv k.
Proof. clear. induction dv as [|d dv IH]; intros [|x j] [|y k] H1 H2; try discriminate; [reflexivity|]. cbn [plus place]. rewrite IH by (cbn in *; lia). lia. Qed.
Lemma around_in : forall lo hi s, room lo hi s -> forall j k, inshape j (map fst (block s lo hi)) -> inshape k (map (fun n => n + 1) (plus lo hi)) -> inshape (plus j k) s.
Proof.
  clear. induction 1 as [|l0 h0 n ls hs s H1 H2 H3 H IH]; cbn [block map plus fst]; intros j k Hj Hk; inversion Hj; inversion Hk; subst; cbn [plus]; [constructor|]. constructor; [lia|]. apply IH; auto.
Qed.
Lemma room_bounds : forall lo hi s, room lo hi s -> forallb (fun n => n >=? 0) lo = true /\ forallb (fun n => n >=? 0) hi = true.
Proof. clear. induction 1 as [|l0 h0 n ls hs s H1 H2 H3 H (I1 & I2)]; cbn; [auto|]. rewrite I1, I2, !andb_true_r. lia. Qed.
Lemma stencil_view : exists S, stencil v (BVector l) (BVector h) = Good S /\ vshape S = sI ++ window_shape /\
  forall j k, inshape j sI -> inshape k window_shape -> inshape (plus j k) (vshape v) /\ vplace S (j ++ k) = vplace v (plus j k).
Proof.
  destruct (outer_inner (vdv v) l h Hr) as (o & E1 & E2 & E3 & E4 & E5). pose proof l_length as Ll. destruct (room_length _ _ _ Hr) as (_ & Lh). rewrite <- vrank_shape in Lh.
  pose proof (room_bounds _ _ _ Hr) as Nl.
  exists (Vw (o ++ stencil_inner (vdv v) l h) (vcp v)). unfold stencil. cbn [bounds_nonneg bounds_for]. destruct Nl as (-> & ->). cbn [andb]. rewrite Ll, Lh, Nat.eqb_refl, E1. split; [reflexivity|]. split.
  - unfold vshape at 1. cbn [vdv]. rewrite map_app, E2, E4. reflexivity.
  - intros j k Hj Hk. split; [apply (around_in l h); auto|]. unfold vplace. cbn [vcp vdv]. pose proof (inshape_length _ _ Hj) as Lj. rewrite sI_length in Lj. pose proof (inshape_length _ _ Hk) as Lk. rewrite window_length in Lk.
    assert (Lo : length o = vrank v) by (rewrite <- (map_length step o), E3, map_length; auto).
    rewrite place_split by (rewrite app_length; lia). rewrite Lj, <- Lo, firstn_app, Nat.sub_diag, firstn_O, app_nil_r, firstn_all, skipn_app, Nat.sub_diag, skipn_all. cbn [skipn app].
    rewrite (place_steps o (vdv v)), (place_steps (stencil_inner _ _ _) (vdv v)), place_plus by auto. lia.
Qed.
(* the cells of a view *)
Definition cell_of (S : view) (n : nat) (j : list Z) : view := Vw (skipn n (vdv S)) (vcp S + place (firstn n (vdv S)) j).
Lemma cell_of_shape : forall S s t j, vshape S = s ++ t -> vshape (cell_of S (length s) j) = t.
Proof. intros S s t j E. unfold vshape, cell_of in *. cbn [vdv]. rewrite <- skipn_map, E, skipn_app, Nat.sub_diag, skipn_all. reflexivity. Qed.
Lemma cell_of_place : forall S s t j k, vshape S = s ++ t -> inshape j s -> vplace (cell_of S (length s) j) k = vplace S (j ++ k).
Proof.
  intros S s t j k E Hj. unfold vplace, cell_of. cbn [vdv vcp]. rewrite <- (inshape_length _ _ Hj). rewrite place_split; [lia|]. rewrite (inshape_length _ _ Hj). unfold vshape in E. rewrite <- (map_length len (vdv S)), E, app_length. lia.
Qed.
Lemma map_fill : forall (f : view -> M (mem T) T) S t x (m : mem T), vshape S = sI ++ t -> length t = vrank v ->
  (forall j m1, inshape j sI -> (forall p, (forall i, inshape i sI -> p <> vplace w0 i) -> m1 p = m p) -> f (cell_of S (length sI) j) m1 = Ok (x (plus j l)) m1) ->
  exists m', assign_map fixed z f w0 S (vrank v) m = Ok None m' /\ filled w l h x m m'.
Proof.
  intros f S t x m ES Lt Hf. pose proof sI_length as LI. assert (RS : vrank S = (vrank v + vrank v)%nat) by (rewrite vrank_shape, ES, app_length; lia).
  destruct (view_shape (T:=T) w0 sI w0_shape w0_nonneg) as (W0 & S0). unfold assign_map, itern. replace (vrank S - vrank v)%nat with (length sI) by lia.
  set (ce := Cell (vdv S) (length sI) _ _). assert (Wc : wf ce).
  { cbn. split; [unfold vrank in *; lia|]. pose proof w0_nonneg as N. apply ok_lens. rewrite <- firstn_map. unfold vshape in ES. rewrite ES, firstn_app, Nat.sub_diag, firstn_all, app_nil_r. exact N. }
  assert (Nc : inner ce sI).
  { split; [cbn; lia|]. intros k. unfold ce. cbn [leaf_lens]. destruct (Nat.ltb_spec k (length sI)); [|constructor]. constructor; [|constructor]. left. rewrite <- (map_nth len). change (map len (vdv S)) with (vshape S). rewrite ES, app_nth1 by auto. apply nth_indep; auto. }
  assert (Sv : shape_is (vals (viter (T:=T) w0)) sI) by (destruct S0 as (Q1 & Q2); split; [rewrite vals_axes; auto|]; rewrite vals_axes; intros k Hk; rewrite vals_lens; auto).
  assert (Wv : wf (vals (viter (T:=T) w0))) by (apply vals_wf; auto).
  assert (Wm : wf (Map (cell_fun f) [ce])) by (apply wf_map; [discriminate|auto]).
  destruct (loop_scatter _ (Map assign_item [vals (viter w0); Map (cell_fun f) [ce]]) put sI (vplace w0) (fun j => x (plus j l)) m) as (m' & E1 & E2).
  - apply wf_map; [discriminate|auto].
  - apply joint_shape_map. apply (joint_cover _ _ _ (vals (viter w0))); [left; auto|auto|]. apply Forall_cons; [apply inner_whole; auto|]. apply Forall_cons; [|constructor]. apply inner_map. auto.
  - intros j m1 Hj Hm. exists (inr VUnit). pose proof (inshape_length _ _ Hj) as Lj. cbn [element map in_order]. rewrite vals_element, viter_element, w0_rank, (firstn_all2 j) by lia. cbn [okr].
    unfold ce. cbn [element map in_order]. rewrite (firstn_all2 j) by lia. cbn [cell_fun]. unfold bind at 1.
    replace (Vw _ _) with (cell_of S (length sI) j) by (unfold cell_of; repeat f_equal; lia). rewrite (Hf j m1) by auto. reflexivity.
  - exists m'. split; [exact E1|]. apply finish_filled.
    + intros j Hj. rewrite E2. rewrite (filter_one _ _ _ j); [reflexivity|apply indices_nodup|apply in_indices; auto|]. intros y Hy. apply in_indices in Hy. rewrite Z.eqb_eq. split; [intros; apply w0_apart; auto|intros ->; auto].
    + intros p Hp. rewrite E2, filter_none; [reflexivity|]. intros y Hy. apply in_indices in Hy. apply Z.eqb_neq. intros E. apply (Hp y); auto.
Qed.
Lemma near_window : forall lo hi o, near lo hi o -> forall s, room lo hi s -> inshape (plus lo o) (map (fun n => n + 1) (plus lo hi)).
Proof. clear. induction 1 as [|l0 h0 o0 ls hs os H1 H IH]; intros s R; inversion R; subst; cbn; constructor; [lia|]. eapply IH; eauto. Qed.
Theorem C114_explicit : forall t (m : mem T), Forall (near l h) (offsets t) -> exists m', explicit fixed z w v l h t m = Ok None m' /\ filled w l h (fun i => around m v i t) m m'.
Proof.
  intros t m Ho. destruct grid_window as (G1 & G2). destruct stencil_view as (S & E1 & E2 & E3). unfold explicit. rewrite E1. cbn [onres]. rewrite G1. cbn [onres]. rewrite G2. cbn [onres].
  apply (map_fill _ S window_shape); auto using window_length. intros j m1 Hj Hm. rewrite <- (around_ext t Ho j m m1 Hj Hm). clear Hm m. induction t as [o|x|g a IHa b IHb]; cbn [offsets cell_term around] in *.
  - inversion Ho as [|? ? Hn _]; subst. pose proof (near_window _ _ _ Hn _ Hr) as Hk. change (map _ (plus l h)) with window_shape in Hk.
    replace (map (fun p => cidx (fst p + snd p)) (combine l o)) with (map cidx (plus l o)) by (clear; generalize o; induction l; intros [|y k]; cbn; f_equal; auto).
    rewrite all_indices by (rewrite (cell_of_shape S sI window_shape) by auto; auto). cbn [onres vcp rd]. rewrite (cell_of_place S sI window_shape) by auto. destruct (E3 _ _ Hj Hk) as (_ & ->). rewrite plus_assoc. reflexivity.
  - reflexivity.
  - apply Forall_app in Ho as (Ho1 & Ho2). unfold bind. rewrite IHa, IHb by auto. reflexivity.
Qed.

(* ---- masks ---- *)
Lemma plus_minus : forall j k lo, length j = length lo -> length k = length lo -> plus (plus j lo) (minus k lo) = plus j k.
Proof. clear. induction j as [|x j IH]; intros [|y k] [|n lo] H1 H2; try discriminate; [reflexivity|]. cbn. f_equal; [lia|]. apply IH; cbn in *; lia. Qed.
Section Masks.
Variables (add mul : T -> T -> T) (zero : T) (mask : view).
Hypothesis Hm : vshape mask = map (fun n => n + 1) (plus l h).
Hypothesis Hsm : P_Cells.separate w mask.
Lemma mask_rank : vrank mask = vrank v.
Proof. rewrite vrank_shape, Hm. apply window_length. Qed.
Lemma mask_away : forall j k, inshape j sI -> inshape k window_shape -> vplace mask k <> vplace w0 j.
Proof. intros j i Hj Hi E. rewrite w0_place in E by auto. apply (Hsm (plus j l) i); auto; [|rewrite Hm; auto]. rewrite Hw. apply (interior_in l h); auto using w0_in. Qed.
Lemma weighed_at : forall (m : mem T) S j, (forall j k, inshape j sI -> inshape k window_shape -> inshape (plus j k) (vshape v) /\ vplace S (j ++ k) = vplace v (plus j k)) -> inshape j sI ->
  weighed add mul zero m v mask l (indices window_shape) (plus j l) = fold_left add (map (fun k => mul (m (vplace S (j ++ k))) (m (vplace mask k))) (indices window_shape)) zero.
Proof.
  intros m S j HS Hj. unfold weighed. f_equal. apply map_ext_in. intros k Hk. apply in_indices in Hk. destruct (HS j k Hj Hk) as (_ & ->).
  rewrite plus_minus; [reflexivity| |]; rewrite l_length; [rewrite (inshape_length _ _ Hj); apply sI_length|rewrite (inshape_length _ _ Hk); apply window_length].
Qed.
Lemma window_some : exists k, inshape k window_shape.
Proof. exists (map (fun _ => 0) window_shape). unfold window_shape. clear - Hr. induction Hr as [|l0 h0 n ls hs s H1 H2 H3 H IH]; cbn; [constructor|]. constructor; [lia|apply IH; auto]. Qed.
Theorem C115_arrayop : forall fi zi ks (m : mem T), zclean zi -> row_major (map (fun n => n + 1) (plus l h)) ks -> exists m', arrayop fixed z add mul zero fi zi w v mask l h m = Ok None m' /\ filled w l h (weighed add mul zero m v mask l ks) m m'.
Proof.
  intros fi zi ks m Hzi Hks. apply row_major_unique in Hks. subst ks. destruct grid_window as (G1 & G2). destruct stencil_view as (S & E1 & E2 & E3). unfold arrayop. rewrite E1. cbn [onres]. rewrite G1. cbn [onres]. rewrite G2. cbn [onres].
  apply (map_fill _ S window_shape); auto using window_length. intros j m1 Hj Hm1. change (map _ (plus l h)) with window_shape. rewrite (weighed_at m S j E3 Hj).
  pose proof (cell_of_shape S sI window_shape j E2) as Sc. destruct (view_shape (T:=T) _ _ Sc window_nonneg) as (Wc & Pc). destruct (view_shape (T:=T) mask window_shape Hm window_nonneg) as (Wk & Pk).
  rewrite (C31_sum_partial T add zero _ window_shape (indices window_shape) m1 (fun k => mul (m (vplace S (j ++ k))) (m (vplace mask k)))); auto.
  - apply times_wf; auto.
  - apply joint_shape_map. apply (joint_cover _ _ _ (viter mask)); [right; left; auto|auto|]. apply Forall_cons; [apply inner_whole; auto|]. apply Forall_cons; [apply inner_whole; auto|constructor].
  - apply row_major_indices.
  - apply (times_reads mul); intros k Hk.
    + exists (VRef (vplace S (j ++ k))). rewrite viter_element. rewrite firstn_all2 by (rewrite vrank_shape, Sc, (inshape_length _ _ Hk); auto). rewrite (cell_of_place S sI window_shape) by auto. split; [reflexivity|]. cbn. f_equal.
      apply Hm1. intros i Hi. destruct (E3 j k Hj Hk) as (I1 & ->). apply w0_away; auto.
    + exists (VRef (vplace mask k)). rewrite viter_element. rewrite firstn_all2 by (rewrite mask_rank, (inshape_length _ _ Hk), window_length; auto). split; [reflexivity|]. cbn. f_equal. apply Hm1. intros i Hi. apply mask_away; auto.
  - apply window_some.
Qed.

(* w0 = 0 *)
Lemma zeroed : forall (m : mem T), exists m1, assign fixed z put (viter w0) (Scalar (VT zero)) m = Ok None m1 /\ (forall j, inshape j sI -> m1 (vplace w0 j) = zero) /\ forall p, (forall j, inshape j sI -> p <> vplace w0 j) -> m1 p = m p.
Proof.
  intros m. destruct (view_shape (T:=T) w0 sI w0_shape w0_nonneg) as (W0 & S0).
  destruct (C29_assign T put (viter w0) (Scalar (VT zero)) sI m (vplace w0) (fun _ => zero) fixed z) as (m' & E1 & E2 & E3); auto.
  - exact I.
  - apply (joint_cover _ _ _ (viter w0)); [left; auto|auto|]. apply Forall_cons; [apply inner_whole; auto|]. apply Forall_cons; [apply inner_scalar|constructor].
  - intros j m1 Hj. rewrite viter_element, w0_rank, firstn_all2; [reflexivity|]. rewrite (inshape_length _ _ Hj), sI_length. auto.
  - apply w0_apart.
  - intros j m1 Hj _. exists (VT zero). split; reflexivity.
  - exists m'. auto.
Qed.
Lemma mask_element : forall i k (m : mem T), inshape i sI -> inshape k window_shape -> element (reframe (viter (T:=T) mask) (seq (vrank v) (vrank v))) (i ++ k) m = Ok (VRef (vplace mask k)) m.
Proof.
  intros i k m Hi Hk. pose proof (inshape_length _ _ Hi) as Li. rewrite sI_length in Li. pose proof (inshape_length _ _ Hk) as Lk. rewrite window_length in Lk. pose proof mask_rank as Rm.
  destruct (view_shape (T:=T) mask window_shape Hm window_nonneg) as (Wk & Pk).
  rewrite reframe_element; [|auto|rewrite seq_length, rank_viter; auto|apply Forall_forall; intros n Hn; apply in_seq in Hn; rewrite app_length; lia].
  rewrite rows_seq by (rewrite app_length; lia). rewrite skipn_app, Li, Nat.sub_diag, skipn_all2 by lia. cbn [skipn app]. rewrite viter_element, firstn_all2 by lia. reflexivity.
Qed.
Lemma mask_reframed : wf (reframe (viter (T:=T) mask) (seq (vrank v) (vrank v))) /\ inner (reframe (viter (T:=T) mask) (seq (vrank v) (vrank v))) (sI ++ window_shape).
Proof.
  pose proof mask_rank as Rm. destruct (view_shape (T:=T) mask window_shape Hm window_nonneg) as (Wk & Pk). split; [apply reframe_wf; auto; [apply seq_NoDup|rewrite seq_length, rank_viter; auto]|]. split.
  - rewrite reframe_axes by (auto; rewrite seq_length, rank_viter; auto). rewrite app_length, sI_length, window_length. apply top_at.
  - intros k. rewrite reframe_lens by (auto; rewrite seq_length, rank_viter; auto). rewrite positions_seq. destruct (Nat.leb_spec (vrank v) k); cbn [andb]; [|constructor]. destruct (Nat.ltb_spec k (vrank v + vrank v)); [|constructor].
    cbn [flat_map]. rewrite app_nil_r, viter_lens. destruct (Nat.ltb_spec (0 + (k - vrank v)) (vrank mask)); [|constructor]. constructor; [|constructor]. left. rewrite Hm, app_nth2, sI_length by (rewrite sI_length; lia). reflexivity.
Qed.
(* the loop that adds the products to w0 *)
Lemma added : forall X (e : expr X (mem T)) S (m m1 : mem T), wf e -> shape_is e (sI ++ window_shape) ->
  (forall j k, inshape j sI -> inshape k window_shape -> inshape (plus j k) (vshape v) /\ vplace S (j ++ k) = vplace v (plus j k)) ->
  (forall j, inshape j sI -> m1 (vplace w0 j) = zero) -> (forall p, (forall j, inshape j sI -> p <> vplace w0 j) -> m1 p = m p) ->
  (forall i k m2, inshape i sI -> inshape k window_shape -> exists u, element e (i ++ k) m2 = Ok u (wr (vplace w0 i) (add (m2 (vplace w0 i)) (mul (m2 (vplace S (i ++ k))) (m2 (vplace mask k)))) m2)) ->
  exists m', ply fixed no_stop z e m1 = Ok None m' /\ filled w l h (weighed add mul zero m v mask l (indices window_shape)) m m'.
Proof.
  intros X e S m m1 We Se HS Z1 Z2 He. pose proof sI_length as LI.
  assert (Sp : forall i k, inshape i sI -> firstn (length sI) (i ++ k) = i /\ skipn (length sI) (i ++ k) = k).
  { intros i k Hi. pose proof (inshape_length _ _ Hi) as Li. rewrite <- Li, firstn_app, skipn_app, Nat.sub_diag, firstn_all, skipn_all. cbn. rewrite app_nil_r. auto. }
  destruct (loop_scatter _ e add (sI ++ window_shape) (fun j => vplace w0 (firstn (length sI) j)) (fun j => mul (m (vplace S j)) (m (vplace mask (skipn (length sI) j)))) m1) as (m' & E1 & E2); auto.
  - intros j m2 Hj Hm2. unfold inshape in Hj. apply Forall2_app_inv_r in Hj as (i & k & Hi & Hk & ->). destruct (Sp i k Hi) as (-> & ->). destruct (He i k m2 Hi Hk) as (u & Eu). exists u. rewrite Eu.
    assert (Q : forall p, (forall j, inshape j sI -> p <> vplace w0 j) -> m2 p = m p).
    { intros p Hp. rewrite Hm2; [apply Z2; auto|]. intros j' Hj'. unfold inshape in Hj'. apply Forall2_app_inv_r in Hj' as (i' & k' & Hi' & Hk' & ->). destruct (Sp i' k' Hi') as (-> & _). auto. }
    destruct (HS i k Hi Hk) as (I1 & I2). rewrite (Q (vplace S (i ++ k))), (Q (vplace mask k)); [reflexivity|intros; apply mask_away; auto|intros; rewrite I2; apply w0_away; auto].
  - exists m'. split; [exact E1|]. apply finish_filled.
    + intros j Hj. rewrite E2. rewrite (filter_front sI window_shape j Hj).
      * rewrite Z1 by auto. rewrite (weighed_at m S j HS Hj). f_equal. rewrite map_map. apply map_ext. intros k. destruct (Sp j k Hj) as (_ & ->). reflexivity.
      * intros i k Hi Hk. destruct (Sp i k Hi) as (-> & _). rewrite Z.eqb_eq. split; [intros; apply w0_apart; auto|intros ->; auto].
    + intros p Hp. rewrite E2, filter_none; [apply Z2; auto|]. intros y Hy. apply in_indices in Hy. unfold inshape in Hy. apply Forall2_app_inv_r in Hy as (i & k & Hi & Hk & ->). destruct (Sp i k Hi) as (-> & _).
      apply Z.eqb_neq. intros E. apply (Hp i); auto.
Qed.
Lemma all_nonneg : nonneg (sI ++ window_shape).
Proof. unfold nonneg. apply Forall_app. split; [apply w0_nonneg|apply window_nonneg]. Qed.
Theorem C115_sumprod : forall ks (m : mem T), row_major (map (fun n => n + 1) (plus l h)) ks -> exists m', sumprod fixed z add mul zero w v mask l h m = Ok None m' /\ filled w l h (weighed add mul zero m v mask l ks) m m'.
Proof.
  intros ks m Hks. apply row_major_unique in Hks. subst ks. change (map _ (plus l h)) with window_shape. destruct grid_window as (G1 & G2). destruct stencil_view as (S & E1 & E2 & E3). unfold sumprod. rewrite E1. cbn [onres]. rewrite G1. cbn [onres]. rewrite G2. cbn [onres].
  destruct (zeroed m) as (m1 & Z0 & Z1 & Z2). unfold bind. rewrite Z0. pose proof sI_length as LI. pose proof window_length as LW. pose proof mask_rank as Rm.
  assert (RS : vrank S = (vrank v + vrank v)%nat) by (rewrite vrank_shape, E2, app_length; lia).
  assert (V : map_verb [[vrank v; vrank v]] (mul_op mul) [viter S; viter mask] = Some (times mul (viter S) (reframe (viter mask) (seq (vrank v) (vrank v))))).
  { apply map_verb_iff. cbn [map]. rewrite !rank_viter. split; [cbn [verb_ok]; split; [repeat constructor; lia|exact I]|]. unfold times. f_equal. cbn [dest each2 map maxl]. rewrite RS, Rm, Nat.sub_diag, Nat.add_sub, !Nat.max_0_r, shift_seq. cbn [seq app].
    change (seq (vrank v) (vrank v)) with (seq (0 + vrank v) (vrank v)) at 1. rewrite <- seq_app, reframe_same. reflexivity. }
  rewrite V. destruct (view_shape (T:=T) S _ E2 all_nonneg) as (WS & PS). destruct mask_reframed as (Wk & Nk). destruct (view_shape (T:=T) w0 sI w0_shape w0_nonneg) as (W0 & S0).
  apply (added _ _ S); auto.
  - apply wf_map; [discriminate|]. apply Forall_cons; [auto|]. apply Forall_cons; [apply times_wf; auto|constructor].
  - apply joint_shape_map. apply (joint_cover _ _ _ (times mul (viter S) (reframe (viter mask) (seq (vrank v) (vrank v))))); [right; left; auto| |].
    + apply joint_shape_map. apply (joint_cover _ _ _ (viter S)); [left; auto|auto|]. apply Forall_cons; [apply inner_whole; auto|]. auto.
    + apply Forall_cons; [apply inner_shape; auto|]. apply Forall_cons; [|constructor]. apply inner_map. apply Forall_cons; [apply inner_whole; auto|]. auto.
  - intros i k m2 Hi Hk. exists VUnit. cbn [element map in_order times]. rewrite viter_element. cbv beta iota. rewrite viter_element. cbv beta iota. rewrite mask_element by auto. rewrite w0_rank, RS.
    pose proof (inshape_length _ _ Hi) as Li. pose proof (inshape_length _ _ Hk) as Lk. rewrite (firstn_all2 (n := vrank v + vrank v)) by (rewrite app_length; lia). rewrite firstn_app. replace (vrank v - length i)%nat with 0%nat by lia. rewrite firstn_O, app_nil_r, firstn_all2 by lia. reflexivity.
Qed.
Theorem C115_sumprod2 : forall ks (m : mem T), row_major (map (fun n => n + 1) (plus l h)) ks -> exists m', sumprod2 fixed z add mul zero w v mask l h m = Ok None m' /\ filled w l h (weighed add mul zero m v mask l ks) m m'.
Proof.
  intros ks m Hks. apply row_major_unique in Hks. subst ks. change (map _ (plus l h)) with window_shape. destruct grid_window as (G1 & G2). destruct stencil_view as (S & E1 & E2 & E3). unfold sumprod2. rewrite E1. cbn [onres]. rewrite G1. cbn [onres]. rewrite G2. cbn [onres].
  destruct (zeroed m) as (m1 & Z0 & Z1 & Z2). unfold bind. rewrite Z0. pose proof sI_length as LI. pose proof window_length as LW. pose proof mask_rank as Rm. pose proof w0_rank as R0.
  assert (RS : vrank S = (vrank v + vrank v)%nat) by (rewrite vrank_shape, E2, app_length; lia).
  assert (V : map_verb [[0%nat; vrank v; vrank v]] (mac_op add mul) [viter w0; viter S; viter mask] = Some (Map (mac_op add mul) [viter w0; viter S; reframe (viter mask) (seq (vrank v) (vrank v))])).
  { apply map_verb_iff. cbn [map]. rewrite !rank_viter. split; [cbn [verb_ok]; split; [repeat constructor; lia|exact I]|]. f_equal. cbn [dest each2 map maxl]. rewrite R0, RS, Rm, Nat.sub_diag, Nat.add_sub, Nat.sub_0_r, !Nat.max_0_r, Nat.max_id, shift_seq. cbn [seq app map].
    rewrite app_nil_r, reframe_same, !shift_seq. replace (seq 0 (vrank v) ++ seq (vrank v) (vrank v)) with (seq 0 (vrank v + vrank v)) by (rewrite seq_app; reflexivity). rewrite reframe_same. reflexivity. }
  unfold each_verb. rewrite V. destruct (view_shape (T:=T) S _ E2 all_nonneg) as (WS & PS). destruct mask_reframed as (Wk & Nk). destruct (view_shape (T:=T) w0 sI w0_shape w0_nonneg) as (W0 & S0).
  apply (added _ _ S); auto.
  - apply wf_map; [discriminate|]. auto.
  - apply joint_shape_map. apply (joint_cover _ _ _ (viter S)); [right; left; auto|auto|]. apply Forall_cons; [apply inner_shape; auto|]. apply Forall_cons; [apply inner_whole; auto|]. auto.
  - intros i k m2 Hi Hk. exists VUnit. cbn [element map in_order]. rewrite viter_element. cbv beta iota. rewrite viter_element. cbv beta iota. rewrite mask_element by auto. rewrite R0, RS.
    pose proof (inshape_length _ _ Hi) as Li. pose proof (inshape_length _ _ Hk) as Lk. rewrite (firstn_all2 (n := vrank v + vrank v)) by (rewrite app_length; lia). rewrite firstn_app. replace (vrank v - length i)%nat with 0%nat by lia. rewrite firstn_O, app_nil_r, firstn_all2 by lia. reflexivity.
Qed.
End Masks.
End Loops.

Section Stencils.
Context {T : Type}.
Variables (fixed : bool) (z : list zt).
Hypothesis Hz : zclean z.
Lemma filled_same : forall (w : view) l h (x y : list Z -> T) (m m1 m2 : mem T), (forall i, interior l h (vshape w) i -> x i = y i) -> room l h (vshape w) -> filled w l h x m m1 -> filled w l h y m m2 -> forall p, m1 p = m2 p.
Proof.
  intros w l h x y m m1 m2 Hxy Hr (F1 & F2) (G1 & G2) p. set (is := map (fun j => plus j l) (indices (map fst (block (vshape w) l h)))).
  assert (Hi : forall i, In i is <-> interior l h (vshape w) i).
  { intros i. unfold is. rewrite in_map_iff, interior_iff by auto. split; intros (j & H1 & H2); exists j; split; auto; apply in_indices; auto. }
  destruct (in_dec Z.eq_dec p (map (vplace w) is)) as [H|H].
  - apply in_map_iff in H as (i & <- & H). apply Hi in H. rewrite F1, G1; auto.
  - assert (N : forall i, interior l h (vshape w) i -> p <> vplace w i) by (intros i H1 ->; apply H; apply in_map; apply Hi; auto). rewrite F2, G2; auto.
Qed.
Theorem C114_same : forall (w v : view) l h t (m : mem T), room l h (vshape v) -> vshape w = vshape v -> P_Cells.separate w v -> apart_at w -> Forall (near l h) (offsets t) ->
  exists m1 m2, slices fixed z w v l h t m = Ok None m1 /\ explicit fixed z w v l h t m = Ok None m2 /\ forall p, m1 p = m2 p.
Proof.
  intros w v l h t m Hr Hw Hs Ha Ho. destruct (C114_slices fixed z Hz w v l h Hr Hw Hs Ha t m Ho) as (m1 & E1 & F1). destruct (C114_explicit fixed z Hz w v l h Hr Hw Hs Ha t m Ho) as (m2 & E2 & F2).
  exists m1, m2. split; [auto|]. split; [auto|]. eapply filled_same; [|rewrite Hw; exact Hr|exact F1|exact F2]. reflexivity.
Qed.
Theorem C115_same : forall fi zi add mul (zero : T) (w v mask : view) l h (m : mem T), zclean zi -> room l h (vshape v) -> vshape w = vshape v -> P_Cells.separate w v -> apart_at w -> vshape mask = map (fun n => n + 1) (plus l h) -> P_Cells.separate w mask ->
  exists m1 m2 m3, arrayop fixed z add mul zero fi zi w v mask l h m = Ok None m1 /\ sumprod fixed z add mul zero w v mask l h m = Ok None m2 /\ sumprod2 fixed z add mul zero w v mask l h m = Ok None m3 /\ forall p, m1 p = m2 p /\ m2 p = m3 p.
Proof.
  intros fi zi add mul zero w v mask l h m Hzi Hr Hw Hs Ha Hm Hsm. set (ks := indices (map (fun n => n + 1) (plus l h))). assert (Hk : row_major (map (fun n => n + 1) (plus l h)) ks) by apply row_major_indices.
  destruct (C115_arrayop fixed z Hz w v l h Hr Hw Hs Ha add mul zero mask Hm Hsm fi zi ks m Hzi Hk) as (m1 & E1 & F1). destruct (C115_sumprod fixed z Hz w v l h Hr Hw Hs Ha add mul zero mask Hm Hsm ks m Hk) as (m2 & E2 & F2).
  destruct (C115_sumprod2 fixed z Hz w v l h Hr Hw Hs Ha add mul zero mask Hm Hsm ks m Hk) as (m3 & E3 & F3). exists m1, m2, m3. split; [auto|]. split; [auto|]. split; [auto|].
  assert (Hr' : room l h (vshape w)) by (rewrite Hw; exact Hr). intros q. split; [apply (filled_same w l h _ _ m m1 m2 (fun _ _ => eq_refl) Hr' F1 F2)|apply (filled_same w l h _ _ m m2 m3 (fun _ _ => eq_refl) Hr' F2 F3)].
Qed.

(* margins that don't fit *)
Inductive crowded : list Z -> list Z -> list Z -> Prop :=
| crowd_here : forall l h n ls hs s, n < l + h -> crowded (l :: ls) (h :: hs) (n :: s)
| crowd_there : forall l h n ls hs s, crowded ls hs s -> crowded (l :: ls) (h :: hs) (n :: s).
Lemma grid_refused : forall l h s, crowded l h s -> grid s l h = Refused.
Proof.
  induction 1 as [l h n ls hs s H|l h n ls hs s H IH]; cbn [grid]; unfold iota; cbn [rbind]; destruct (Z.ltb_spec (n - l - h) 0); try reflexivity; [lia|]. cbn [rbind]. rewrite IH. reflexivity.
Qed.
Lemma outer_refused : forall dv l h, crowded l h (map len dv) -> stencil_outer dv l h = None.
Proof.
  induction dv as [|d dv IH]; intros l h H; inversion H as [l0 h0 n ls hs s H1|l0 h0 n ls hs s H1]; subst; cbn [stencil_outer]; destruct (Z.geb_spec (len d) (l0 + h0)); try reflexivity; [lia|]. rewrite IH by auto. reflexivity.
Qed.
Lemma stencil_refused : forall v l h, crowded l h (vshape v) -> stencil v (BVector l) (BVector h) = Refused.
Proof.
  intros v l h H. unfold stencil. cbn [bounds_nonneg bounds_for]. destruct (_ && _)%bool; [|reflexivity]. destruct (length l =? vrank v)%nat; [|reflexivity]. destruct (length h =? vrank v)%nat; [|reflexivity]. rewrite outer_refused by auto. reflexivity.
Qed.
Theorem C114_refused : forall (w v : view) l h t (m : mem T), crowded l h (vshape v) -> slices fixed z w v l h t m = Fail m /\ explicit fixed z w v l h t m = Fail m.
Proof. intros w v l h t m H. unfold slices, explicit. change (map len (vdv v)) with (vshape v). rewrite stencil_refused, grid_refused by auto. split; reflexivity. Qed.
Theorem C115_refused : forall fi zi add mul (zero : T) (w v mask : view) l h (m : mem T), crowded l h (vshape v) ->
  arrayop fixed z add mul zero fi zi w v mask l h m = Fail m /\ sumprod fixed z add mul zero w v mask l h m = Fail m /\ sumprod2 fixed z add mul zero w v mask l h m = Fail m.
Proof. intros. unfold arrayop, sumprod, sumprod2. rewrite stencil_refused by auto. repeat split; reflexivity. Qed.

(* an offset that goes out of the margins *)
Lemma fromb_refused : forall los dv bv p, (forall x, In x los -> 0 <= fst x) -> length los = length dv -> ~ Forall2 part_ok los (map len dv) -> fromb true (map los_sub los) dv bv p = Refused.
Proof.
  induction los as [|x los IH]; intros [|d dv] bv p Hx Hl Hn; try discriminate; [exfalso; apply Hn; constructor|]. cbn [map]. unfold los_sub at 1, ciota. cbn [fromb]. pose proof (Hx x ltac:(left; auto)) as H0. destruct (Z.ltb_spec (fst x) 0); [lia|].
  unfold seq_ok. cbn [len step]. destruct ((0 =? fst x) || (inside (snd x) (len d) && inside (snd x + (fst x - 1) * 1) (len d)))%bool eqn:E; [|reflexivity].
  apply IH; [intros; apply Hx; right; auto|cbn in Hl; lia|]. intros F. apply Hn. cbn [map]. constructor; [|exact F]. split; [auto|]. intros Hp. unfold inside in E. apply orb_true_iff in E as [E|E]; [lia|]. rewrite !andb_true_iff in E. lia.
Qed.
Lemma window_refused : forall los v, (forall x, In x los -> 0 <= fst x) -> length los = vrank v -> ~ Forall2 part_ok los (vshape v) -> window v (map mksq los) = Refused.
Proof.
  intros los v Hx Hl Hn. unfold window. rewrite map_map. change (map (fun x => sq_sub (mksq x)) los) with (map los_sub los).
  assert (O : Forall one_axis (map los_sub los)) by (apply Forall_forall; intros x Hx'; apply in_map_iff in Hx'; destruct Hx' as (? & <- & _); exact I).
  assert (F : fits (vrank v) (map los_sub los)). { unfold fits. rewrite <- Hl. clear. induction los; cbn; lia. }
  assert (R : (length (filter is_rest (map los_sub los)) <= 1)%nat). { clear. induction los; cbn; auto. }
  rewrite (from_fromb v _ O F R). rewrite fromb_refused by auto. reflexivity.
Qed.
Lemma shifted_back : forall l h s, room l h s -> (exists i, interior l h s i) -> forall o, Forall2 part_ok (shifted (block s l h) o) s -> length o = length s -> near l h o.
Proof.
  induction 1 as [|l h n ls hs s H1 H2 H3 H IH]; intros (i & Hi) [|x o] Ho Lo; try discriminate; [constructor|]. inversion Hi; subst. cbn [block shifted fst snd] in Ho. inversion Ho as [|? ? ? ? P1 P2]; subst. unfold part_ok in P1. cbn [fst snd] in P1. constructor; [lia|]. apply IH; eauto.
Qed.
Lemma shifted_length : forall los o, length o = length los -> length (shifted los o) = length los.
Proof. induction los; intros [|y o] H; try discriminate; cbn in *; auto. Qed.
Lemma shifted_first : forall los o, (forall x, In x los -> 0 <= fst x) -> forall x, In x (shifted los o) -> 0 <= fst x.
Proof. induction los as [|y los IH]; intros [|k o] H x Hx; cbn [shifted] in Hx; try destruct Hx as []. { subst. cbn. apply H. left. auto. } eapply IH; eauto. intros; apply H; right; auto. Qed.
Lemma parts_dec : forall los s, Forall2 part_ok los s \/ ~ Forall2 part_ok los s.
Proof.
  induction los as [|x los IH]; intros [|n s]; [left; constructor|right; intros H; inversion H|right; intros H; inversion H|]. destruct (IH s) as [H|H]; [|right; intros H1; inversion H1; auto].
  assert (D : part_ok x n \/ ~ part_ok x n) by (unfold part_ok; lia). destruct D as [D|D]; [left; constructor; auto|right; intros H1; inversion H1; auto].
Qed.
Theorem C114_outside : forall (w v : view) l h t (m : mem T), room l h (vshape v) -> vshape w = vshape v -> (exists i, interior l h (vshape v) i) -> Forall (fun o => length o = vrank v) (offsets t) -> ~ Forall (near l h) (offsets t) ->
  slices fixed z w v l h t m = Fail m.
Proof.
  intros w v l h t m Hr Hw Hi Hl Hn. unfold slices. change (map len (vdv v)) with (vshape v). rewrite grid_good by auto. cbn [onres]. rewrite window_part by (rewrite Hw; apply block_ok; auto). cbn [onres].
  assert (Hb := block_nonneg _ _ _ Hr). pose proof (block_length _ _ _ Hr) as Lb. rewrite <- vrank_shape in Lb.
  assert (Q : forall t, Forall (fun o => length o = vrank v) (offsets t) -> (Forall (near l h) (offsets t) /\ exists e, term_expr v (map mksq (block (vshape v) l h)) t = Good e) \/ term_expr (T:=T) v (map mksq (block (vshape v) l h)) t = Refused).
  { clear t Hl Hn. induction t as [o|x|g a IHa b IHb]; cbn [offsets term_expr]; intros Hl.
    - inversion Hl as [|? ? Lo _]; subst. rewrite moved_good by (auto; lia). cbn [rbind]. destruct (parts_dec (shifted (block (vshape v) l h) o) (vshape v)) as [P|P].
      + left. split; [constructor; [|constructor]; eapply shifted_back; eauto; rewrite <- vrank_shape; auto|]. rewrite window_part by auto. cbn [rbind]. eauto.
      + right. rewrite window_refused; [reflexivity| |rewrite shifted_length; lia|auto]. apply shifted_first. rewrite Forall_forall in Hb. exact Hb.
    - left. split; [constructor|eauto].
    - apply Forall_app in Hl as (Hl1 & Hl2). destruct (IHa Hl1) as [(Na & ea & Ea)|Ea]; rewrite Ea; [|right; reflexivity]. cbn [rbind]. destruct (IHb Hl2) as [(Nb & eb & Eb)|Eb]; rewrite Eb; [|right; reflexivity]. left. split; [apply Forall_app; auto|]. cbn [rbind]. eauto. }
  destruct (Q t Hl) as [(N & _)|E]; [contradiction|]. rewrite E. reflexivity.
Qed.
(* A(I+o, ...) and the slice of stencil(A, lo, hi) at lo + o are the same *)
Theorem C114_view : forall (v : view) l h o, room l h (vshape v) -> near l h o -> exists qs qo S b, grid (vshape v) l h = Good qs /\ moved qs o = Good qo /\ window v qo = Good b /\ stencil v (BVector l) (BVector h) = Good S /\
  vshape S = vshape b ++ map (fun n => n + 1) (plus l h) /\ forall j, inshape j (vshape b) -> vplace b j = vplace S (j ++ plus l o) /\ vplace b j = vplace v (plus (plus j l) o).
Proof.
  intros v l h o Hr Ho. destruct (shifted_ok _ _ _ Hr o Ho) as (S1 & S2 & S3). destruct (near_length _ _ _ Ho) as (N1 & _). destruct (room_length _ _ _ Hr) as (R1 & _). pose proof (block_length _ _ _ Hr) as LB.
  assert (Lb : length (shifted (block (vshape v) l h) o) = vrank v) by (rewrite shifted_length, LB, vrank_shape; lia).
  destruct (stencil_view v l h Hr) as (S & E1 & E2 & E3). exists (map mksq (block (vshape v) l h)), (map mksq (shifted (block (vshape v) l h) o)), S, (part (shifted (block (vshape v) l h) o) v).
  split; [apply grid_good; auto|]. split; [apply moved_good; [apply block_nonneg; auto|lia]|]. split; [apply window_part; auto|]. split; [exact E1|]. rewrite part_shape, S2 by auto. split; [exact E2|].
  intros j Hj. pose proof (near_window _ _ _ Ho _ Hr) as Hk. destruct (E3 j (plus l o) Hj Hk) as (_ & ->).
  rewrite part_place by (auto; rewrite (inshape_length _ _ Hj), map_length, LB, vrank_shape; auto). rewrite S3, plus_assoc. auto.
Qed.
End Stencils.

(* ---- examples ---- *)
(* 4x5 arrays at 0 and 100; the element of the first at (i, j) is i*i*10 + j *)
Definition sA : view := Vw [Dim 4 5; Dim 5 1] 0.
Definition sB : view := Vw [Dim 4 5; Dim 5 1] 100.
Definition sM : mem Z := fun p => if p <? 100 then (p / 5) * (p / 5) * 10 + p mod 5 else if p <? 200 then 0 else p - 199.
(* the Laplacian of examples/laplace2d.cc *)
Definition sT : term Z := TOp Z.sub (TOp Z.add (TOp Z.add (TOp Z.add (TWin [1; 0]) (TWin [-1; 0])) (TWin [0; 1])) (TWin [0; -1])) (TOp Z.mul (TNum 4) (TWin [0; 0])).
Example ex_stencil_hyps : room [1; 1] [1; 1] (vshape sA) /\ vshape sB = vshape sA /\ P_Cells.separate sB sA /\ apart_at sB /\ Forall (near [1; 1] [1; 1]) (offsets sT).
Proof.
  assert (I2 : forall i, inshape i [4; 5] -> exists x y, i = [x; y] /\ 0 <= x < 4 /\ 0 <= y < 5).
  { intros i H. inversion H as [|x ? ? ? H1 H2]; subst. inversion H2 as [|y ? ? ? H3 H4]; subst. inversion H4; subst. exists x, y. auto. }
  split; [cbn [vshape sA vdv map len]; repeat (apply room_cons; try lia); apply room_nil|]. split; [reflexivity|]. split; [|split].
  - intros i j Hi Hj. apply I2 in Hi as (x & y & -> & Hx & Hy). apply I2 in Hj as (x' & y' & -> & Hx' & Hy'). unfold vplace. cbn [sA sB vcp vdv place step]. lia.
  - intros i j Hi Hj. apply I2 in Hi as (x & y & -> & Hx & Hy). apply I2 in Hj as (x' & y' & -> & Hx' & Hy'). unfold vplace. cbn [sA sB vcp vdv place step]. intros E. assert (x = x') by lia. f_equal; [auto|]. f_equal. lia.
  - cbn. repeat (apply Forall_cons; [repeat (apply near_cons; [lia|]); apply near_nil|]). constructor.
Qed.
Definition sees (o : out (mem Z) (option unit)) (p n : Z) : list Z := match o with Ok _ m => map (fun k => m (p + k)) (zrange n) | _ => [] end.
Example ex_slices : sees (slices false [] sB sA [1; 1] [1; 1] sT sM) 100 20 = [0; 0; 0; 0; 0; 0; 20; 20; 20; 0; 0; 20; 20; 20; 0; 0; 0; 0; 0; 0].
Proof. vm_compute. reflexivity. Qed.
Example ex_explicit : sees (explicit true [] sB sA [1; 1] [1; 1] sT sM) 100 20 = [0; 0; 0; 0; 0; 0; 20; 20; 20; 0; 0; 20; 20; 20; 0; 0; 0; 0; 0; 0].
Proof. vm_compute. reflexivity. Qed.
(* margins that aren't the same on each side: lo {1, 0}, hi {0, 2}, so the mask is 2x3 *)
Definition sK : view := Vw [Dim 2 3; Dim 3 1] 200.
Example ex_mask_hyps : room [1; 0] [0; 2] (vshape sA) /\ vshape sK = map (fun n => n + 1) (plus [1; 0] [0; 2]) /\ P_Cells.separate sB sK.
Proof.
  split; [cbn [vshape sA vdv map len]; repeat (apply room_cons; try lia); apply room_nil|]. split; [reflexivity|]. intros i j Hi Hj. inversion Hi as [|x ? ? ? H1 H2]; subst. inversion H2 as [|y ? ? ? H3 H4]; subst. inversion H4; subst.
  inversion Hj as [|x' ? ? ? H1' H2']; subst. inversion H2' as [|y' ? ? ? H3' H4']; subst. inversion H4'; subst. unfold vplace. cbn [sK sB vcp vdv place step]. lia.
Qed.
Example ex_masks : sees (arrayop false [] Z.add Z.mul 0 true [] sB sA sK [1; 0] [0; 2] sM) 100 20 = [0; 0; 0; 0; 0; 175; 196; 217; 0; 0; 685; 706; 727; 0; 0; 1615; 1636; 1657; 0; 0] /\
  sees (sumprod false [] Z.add Z.mul 0 sB sA sK [1; 0] [0; 2] sM) 100 20 = sees (arrayop false [] Z.add Z.mul 0 true [] sB sA sK [1; 0] [0; 2] sM) 100 20 /\
  sees (sumprod2 true [] Z.add Z.mul 0 sB sA sK [1; 0] [0; 2] sM) 100 20 = sees (arrayop false [] Z.add Z.mul 0 true [] sB sA sK [1; 0] [0; 2] sM) 100 20.
Proof. vm_compute. repeat split. Qed.
Example ex_crowded : crowded [1; 3] [0; 3] (vshape sA) /\ sees (slices false [] sB sA [1; 3] [0; 3] sT sM) 100 20 = [].
Proof. split; [|vm_compute; reflexivity]. apply crowd_there, crowd_here. cbn. lia. Qed.
Example ex_outside : ~ Forall (near [1; 0] [1; 1]) (offsets sT) /\ slices false [] sB sA [1; 0] [1; 1] sT sM = Fail sM.
Proof. split; [|reflexivity]. intros H. do 3 (apply Forall_inv_tail in H). apply Forall_inv in H. inversion H as [|? ? ? ? ? ? _ H1]; subst. inversion H1; subst. lia. Qed.

Print Assumptions C114_slices.
Print Assumptions C114_explicit.
Print Assumptions C114_same.
Print Assumptions C114_view.
Print Assumptions C114_refused.
Print Assumptions C114_outside.
Print Assumptions C115_arrayop.
Print Assumptions C115_sumprod.
Print Assumptions C115_sumprod2.
Print Assumptions C115_same.
Print Assumptions C115_refused.
