(* Property C120: the solver of examples/cghs.hh. *)
From Coq Require Import ZArith List Lia Field Bool Field_theory.
From Verif Require Import Spec L_Spec Spec_Ply Spec_Expr M_Base M_Expr M_Ply M_Val Spec_Val L_Expr L_Agree L_Ply L_Stl L_Run L_Val P_Reduce M_View Spec_View L_View P_View M_Slice L_Slice P_Slice M_Mat Spec_Mat P_Mat M_Cells P_Outer P_Cells P_Deep M_Stencil P_Stencil M_Roll P_Roll M_Elem P_Elem M_Cg Spec_Cg L_Cg.
Import ListNotations.
Open Scope Z_scope.

Section Cg.
Context {T : Type}.
Notation ex := (expr (val T) (mem T)).
Notation vec := (list Z -> T).

(* ---- assignments to a view of expressions that read it ---- *)
Definition gives (e : ex) (j : list Z) (m : mem T) (x : T) : Prop := exists v, element e j m = Ok v m /\ value_of v m = Some x.
Lemma gives_view : forall v j m, inshape j (vshape v) -> gives (viter v) j m (m (vplace v j)).
Proof. intros v j m Hj. exact (viter_reads v m j Hj). Qed.
Lemma gives_scalar : forall t j m, gives (Scalar (VT t)) j m t.
Proof. intros. exists (VT t). split; reflexivity. Qed.
Lemma gives_times : forall f (a b : ex) j m x y, gives a j m x -> gives b j m y -> gives (times f a b) j m (f x y).
Proof.
  intros f a b j m x y (v & E1 & E2) (u & E3 & E4). exists (VT (f x y)). split; auto. unfold times. cbn [element map]. rewrite (in_order_2 _ _ _ _ _ v m u m); auto. cbn. unfold bind. rewrite (rd_value _ _ x), (rd_value _ _ y); auto.
Qed.
Lemma assign_own : forall fixed z f (d : view) (e : ex) s x (m : mem T), zclean z -> vshape d = s -> nonneg s -> apart_at d -> wf e -> inner e s ->
  (forall j m1, inshape j s -> m1 (vplace d j) = m (vplace d j) -> (forall p, (forall i, inshape i s -> p <> vplace d i) -> m1 p = m p) -> gives e j m1 (x j)) ->
  exists m', assign fixed z f (viter d) e m = Ok None m' /\ becomes d (fun j => f (m (vplace d j)) (x j)) m m'.
Proof.
  intros fixed z f d e s x m Hz <- Hn Ha We Ne Re. destruct (view_shape (T:=T) d _ eq_refl Hn) as (Wd & Sd).
  destruct (C29_assign T f (viter d) e (vshape d) m (vplace d) x fixed z) as (m' & E1 & E2 & E3); auto.
  - apply (joint_cover _ _ _ (viter d)); [left; auto|auto|]. apply Forall_cons; [apply inner_whole; auto|]. auto.
  - intros j m1 Hj. rewrite viter_element, vrank_shape, whole_in by auto. reflexivity.
  - intros j m1 Hj Hm. apply Re; auto. apply Hm. intros j' Hj' Hl E. apply Ha in E; auto. subst j'. apply (lexlt_irrefl j). auto.
  - exists m'. split; auto. split; auto.
Qed.
Lemma inner_view : forall (v : view) s, vshape v = s -> nonneg s -> inner (viter (T:=T) v) s /\ wf (viter (T:=T) v).
Proof. intros v s E Hn. destruct (view_shape (T:=T) v s E Hn) as (W & S). split; auto. apply inner_whole; auto. Qed.
Lemma inner_times : forall f (a b : ex) s, inner a s -> inner b s -> inner (times f a b) s.
Proof. intros. apply inner_map. apply Forall_cons; auto. Qed.

Variables (zero one : T) (add mul sub : T -> T -> T) (opp : T -> T) (div : T -> T -> T) (inv : T -> T) (ltb : T -> T -> bool).
Hypothesis (Hord : ordered zero one add mul sub opp div inv ltb).
Variables (fixed : bool) (z : list zt) (fi : bool) (zi : list zt).
Hypothesis (Hz : zclean z) (Hzi : zclean zi).
Variables (s : list Z) (part : list Z -> bool) (L : vec -> vec) (mult : view -> view -> M (mem T) (option unit)).
Notation ip := (scalar_product zero add mul s).
(* the elements of a view *)
Definition at_ (m : mem T) (v : view) : vec := fun j => m (vplace v j).
(* Some places may be taken by the matrix, for its elements and for its own use, and ok says that the first are there. ok depends on no other places. *)
Variables (mine : Z -> Prop) (ok : mem T -> Prop).
Definition clear_of (v : view) : Prop := forall i, inshape i (vshape v) -> ~ mine (vplace v i).
Definition steady_ok : Prop := forall m m' : mem T, ok m -> (forall q, mine q -> m' q = m q) -> ok m'.
(* v gets the elements f, and nothing else changes but those places *)
Definition does (v : view) (f : vec) (m m' : mem T) : Prop := (forall i, inshape i (vshape v) -> m' (vplace v i) = f i) /\ (forall q, ~ mine q -> (forall i, inshape i (vshape v) -> q <> vplace v i) -> m' q = m q) /\ ok m'.
(* mult(a, v, w) puts L v in w, if w is zero in the places not in [part]. L v is zero there. *)
Definition multiplies : Prop := (forall u, within zero s part (L u)) /\
  forall v w m, ok m -> clear_of v -> clear_of w -> vshape v = s -> vshape w = s -> apart_at w -> P_Cells.separate w v -> within zero s part (at_ m w) -> exists m', mult v w m = Ok None m' /\ does w (L (at_ m v)) m m'.
Hypothesis (Hok : steady_ok).
Lemma becomes_ok : forall v f m m', clear_of v -> ok m -> becomes v f m m' -> ok m'.
Proof. intros v f m m' C K (_ & O). apply (Hok m); auto. intros q Hq. apply O. intros i Hi ->. apply (C i); auto. Qed.
Hypothesis (Hs : nonneg s) (HL : linear add mul s L) (Hmult : multiplies).

Lemma norm2_view : forall v m, vshape v = s -> reduce_sqrm fi zi add (sq_ mul) zero (viter v) m = Ok (ip (at_ m v) (at_ m v)) m.
Proof.
  intros v m E. destruct (view_shape (T:=T) v s E Hs) as (W & S). rewrite (C31_reduce_sqrm T add (sq_ mul) zero (viter v) s (indices s) m (at_ m v)); auto; [apply row_major_indices|]. rewrite <- E. apply viter_reads.
Qed.
Lemma inner2_view : forall u v m, vshape u = s -> vshape v = s -> dot fi zi add mul zero (viter u) (viter v) m = Ok (ip (at_ m u) (at_ m v)) m.
Proof.
  intros u v m Eu Ev. destruct (view_shape (T:=T) u s Eu Hs) as (W & S). destruct (view_shape (T:=T) v s Ev Hs) as (W' & S').
  rewrite (C31_dot T add mul zero (viter u) (viter v) s (indices s) m (at_ m u) (at_ m v)); auto; [apply (same_joint add zero); auto|apply row_major_indices|rewrite <- Eu; apply viter_reads|rewrite <- Ev; apply viter_reads].
Qed.

Section Views.
Variables (x g r p : view).
Hypothesis (Sx : vshape x = s) (Sg : vshape g = s) (Sr : vshape r = s) (Sp : vshape p = s).
Hypothesis (Ax : apart_at x) (Ag : apart_at g) (Ar : apart_at r) (Ap : apart_at p).
Hypothesis (Dxg : P_Cells.separate x g) (Dxr : P_Cells.separate x r) (Dxp : P_Cells.separate x p) (Dgr : P_Cells.separate g r) (Dgp : P_Cells.separate g p) (Drp : P_Cells.separate r p).
Hypothesis (Cx : clear_of x) (Cg : clear_of g) (Cr : clear_of r) (Cp : clear_of p).
Lemma sep_sym : forall a b, P_Cells.separate a b -> P_Cells.separate b a.
Proof. intros a b H i j Hi Hj E. apply (H j i); auto. Qed.

(* x, g, r have the elements of a, and p can be the result of mult *)
Definition holds (m : mem T) (a : cg) : Prop := ok m /\ same s (at_ m x) (cx a) /\ same s (at_ m g) (cgr a) /\ same s (at_ m r) (cdir a) /\ within zero s part (at_ m p).
Definition outside (q : Z) : Prop := ~ mine q /\ (forall j, inshape j s -> q <> vplace x j /\ q <> vplace g j /\ q <> vplace r j /\ q <> vplace p j).

Lemma became : forall v f (m m' : mem T), vshape v = s -> becomes v f m m' -> same s (at_ m' v) f.
Proof. intros v f m m' E (B & _) j Hj. apply B. rewrite E. auto. Qed.
Lemma kept : forall v w f (m m' : mem T), vshape w = s -> becomes v f m m' -> P_Cells.separate v w -> same s (at_ m' w) (at_ m w).
Proof. intros v w f m m' E B D j Hj. apply (becomes_keep v w f m m' j B D). rewrite E. auto. Qed.
Lemma kept_out : forall v f (m m' : mem T) q, vshape v = s -> becomes v f m m' -> (forall j, inshape j s -> q <> vplace v j) -> m' q = m q.
Proof. intros v f m m' q E (_ & B) H. apply B. rewrite E. auto. Qed.

Lemma dbecame : forall v f (m m' : mem T), vshape v = s -> does v f m m' -> same s (at_ m' v) f.
Proof. intros v f m m' E (B & _) j Hj. apply B. rewrite E. auto. Qed.
Lemma dkept : forall v w f (m m' : mem T), vshape w = s -> clear_of w -> does v f m m' -> P_Cells.separate v w -> same s (at_ m' w) (at_ m w).
Proof. intros v w f m m' E C (_ & B & _) D j Hj. apply B; [apply C; rewrite E; auto|]. intros i Hi Q. apply (D i j); auto. rewrite E. auto. Qed.
Lemma dkept_out : forall v f (m m' : mem T) q, vshape v = s -> does v f m m' -> ~ mine q -> (forall j, inshape j s -> q <> vplace v j) -> m' q = m q.
Proof. intros v f m m' q E (_ & B & _) Hq H. apply B; auto. rewrite E. auto. Qed.

Notation step_ := (cstep zero add mul sub div s L).
Lemma body_step : forall m a, holds m a -> exists m', cg_body fixed z fi zi add sub mul div zero mult x g r p m = Ok None m' /\ holds m' (step_ a) /\ forall q, outside q -> m' q = m q.
Proof.
  intros m a (Hk & Hx & Hg & Hr & Hp). destruct Hmult as (Hin & Hm). destruct (Hm r p m Hk Cr Cp Sr Sp Ap (sep_sym _ _ Drp) Hp) as (m1 & E1 & B1). unfold cg_body, bind. rewrite E1. clear Hm.
  rewrite norm2_view, inner2_view, inner2_view by auto.
  assert (P1 : same s (at_ m1 p) (L (cdir a))). { intros j Hj. rewrite (dbecame p _ m m1 Sp B1 j Hj). apply (proj1 HL); auto. }
  pose proof (dkept p x _ m m1 Sx Cx B1 (sep_sym _ _ Dxp)) as X1. pose proof (dkept p g _ m m1 Sg Cg B1 (sep_sym _ _ Dgp)) as G1. pose proof (dkept p r _ m m1 Sr Cr B1 (sep_sym _ _ Drp)) as R1.
  assert (X1' : same s (at_ m1 x) (cx a)) by (intros j Hj; rewrite X1, Hx; auto). assert (G1' : same s (at_ m1 g) (cgr a)) by (intros j Hj; rewrite G1, Hg; auto). assert (R1' : same s (at_ m1 r) (cdir a)) by (intros j Hj; rewrite R1, Hr; auto).
  assert (Erho : ip (at_ m1 p) (at_ m1 p) = c_rho zero add mul s L a) by (apply (ip_ext zero one add mul sub opp div inv ltb Hord); auto).
  assert (Esig : ip (at_ m1 r) (at_ m1 p) = c_sig zero add mul s L a) by (apply (ip_ext zero one add mul sub opp div inv ltb Hord); auto).
  assert (Etau : ip (at_ m1 g) (at_ m1 r) = c_tau zero add mul s a) by (apply (ip_ext zero one add mul sub opp div inv ltb Hord); auto).
  cbv zeta. rewrite Erho, Esig, Etau. fold (c_t zero add mul div s L a). unfold sq_. fold (c_gam zero add mul sub div s L a). clear Erho Esig Etau. set (t := c_t zero add mul div s L a). set (gam := c_gam zero add mul sub div s L a).
  destruct (inner_view x s Sx Hs) as (Nx & Wx). destruct (inner_view g s Sg Hs) as (Ng & Wg). destruct (inner_view r s Sr Hs) as (Nr & Wr). destruct (inner_view p s Sp Hs) as (Np & Wp).
  destruct (assign_own fixed z add x (times mul (Scalar (VT t)) (viter r)) s (fun j => mul t (m1 (vplace r j))) m1) as (m2 & E2 & B2); auto.
  { apply times_wf; [exact I|auto]. } { apply inner_times; [apply inner_scalar|auto]. }
  { intros j mm Hj _ O. apply gives_times; [apply gives_scalar|]. rewrite <- (O (vplace r j)); [apply gives_view; rewrite Sr; auto|]. intros i Hi E. apply (Dxr i j); rewrite ?Sx, ?Sr; auto. }
  rewrite E2. pose proof (kept x g _ _ _ Sg B2 Dxg) as G2. pose proof (kept x r _ _ _ Sr B2 Dxr) as R2. pose proof (kept x p _ _ _ Sp B2 Dxp) as P2. pose proof (became x _ _ _ Sx B2) as X2.
  destruct (assign_own fixed z sub g (times mul (Scalar (VT t)) (viter p)) s (fun j => mul t (m2 (vplace p j))) m2) as (m3 & E3 & B3); auto.
  { apply times_wf; [exact I|auto]. } { apply inner_times; [apply inner_scalar|auto]. }
  { intros j mm Hj _ O. apply gives_times; [apply gives_scalar|]. rewrite <- (O (vplace p j)); [apply gives_view; rewrite Sp; auto|]. intros i Hi E. apply (Dgp i j); rewrite ?Sg, ?Sp; auto. }
  rewrite E3. pose proof (kept g x _ _ _ Sx B3 (sep_sym _ _ Dxg)) as X3. pose proof (kept g r _ _ _ Sr B3 Dgr) as R3. pose proof (kept g p _ _ _ Sp B3 Dgp) as P3. pose proof (became g _ _ _ Sg B3) as G3.
  destruct (assign_own fixed z put r (times add (times mul (viter r) (Scalar (VT gam))) (viter g)) s (fun j => add (mul (m3 (vplace r j)) gam) (m3 (vplace g j))) m3) as (m4 & E4 & B4); auto.
  { apply times_wf; auto. apply times_wf; [auto|exact I]. } { apply inner_times; auto. apply inner_times; [auto|apply inner_scalar]. }
  { intros j mm Hj Own O. apply gives_times; [apply gives_times; [|apply gives_scalar]|].
    - rewrite <- Own. apply gives_view. rewrite Sr. auto.
    - rewrite <- (O (vplace g j)); [apply gives_view; rewrite Sg; auto|]. intros i Hi E. apply (sep_sym _ _ Dgr i j); rewrite ?Sg, ?Sr; auto. }
  rewrite E4. pose proof (kept r x _ _ _ Sx B4 (sep_sym _ _ Dxr)) as X4. pose proof (kept r g _ _ _ Sg B4 (sep_sym _ _ Dgr)) as G4. pose proof (kept r p _ _ _ Sp B4 Drp) as P4. pose proof (became r _ _ _ Sr B4) as R4.
  exists m4. split; auto. split; [|intros q Oq].
  - cbv beta in *. assert (G' : same s (at_ m4 g) (cgr (step_ a))).
    { intros j Hj. rewrite (G4 j Hj), (G3 j Hj). cbn [cstep cgr]. change (m2 (vplace g j)) with (at_ m2 g j). change (m2 (vplace p j)) with (at_ m2 p j). rewrite (G2 j Hj), (G1' j Hj), (P2 j Hj), (P1 j Hj). reflexivity. }
    split; [|split; [|split; [exact G'|split]]].
    + apply (becomes_ok r _ _ _ Cr) in B4; auto. apply (becomes_ok g _ _ _ Cg) in B3; auto. apply (becomes_ok x _ _ _ Cx) in B2; auto. apply B1.
    + intros j Hj. rewrite (X4 j Hj), (X3 j Hj), (X2 j Hj). cbn [cstep cx]. change (m1 (vplace x j)) with (at_ m1 x j). change (m1 (vplace r j)) with (at_ m1 r j). rewrite (X1' j Hj), (R1' j Hj). reflexivity.
    + intros j Hj. rewrite (R4 j Hj). unfold put. change (m3 (vplace r j)) with (at_ m3 r j). change (m3 (vplace g j)) with (at_ m3 g j). rewrite (R3 j Hj), (R2 j Hj), (R1' j Hj). rewrite <- (G4 j Hj), (G' j Hj). reflexivity.
    + intros j Hj Q. rewrite (P4 j Hj), (P3 j Hj), (P2 j Hj), (P1 j Hj). apply Hin; auto.
  - rewrite (kept_out r _ _ _ q Sr B4), (kept_out g _ _ _ q Sg B3), (kept_out x _ _ _ q Sx B2), (dkept_out p _ _ _ q Sp B1); auto; try (intros j Hj; apply Oq; auto). apply Oq.
Qed.

Notation steps_ := (csteps zero add mul sub div s L).
Notation loop_ := (cg_loop fixed z fi zi add sub mul div zero ltb mult).
Notation gg a := (ip (cgr a) (cgr a)).
Lemma holds_gg : forall m a, holds m a -> reduce_sqrm fi zi add (sq_ mul) zero (viter g) m = Ok (gg a) m.
Proof. intros m a (_ & _ & Hg & _). rewrite norm2_view by auto. f_equal. apply (ip_ext zero one add mul sub opp div inv ltb Hord); auto. Qed.
Lemma steps_in : forall k a, steps_ k (step_ a) = steps_ (S k) a.
Proof. induction k; intros a; auto. cbn [csteps]. rewrite IHk. reflexivity. Qed.
(* k steps with the condition true, and then it's false *)
Lemma loop_ends : forall k n a m err i, holds m a -> (forall j, (j < k)%nat -> ltb err (gg (steps_ j a)) = true) -> ltb err (gg (steps_ k a)) = false -> (k < n)%nat ->
  exists m', loop_ n x g r p err i m = Ok (i + Z.of_nat k) m' /\ holds m' (steps_ k a) /\ forall q, outside q -> m' q = m q.
Proof.
  induction k as [|k IH]; intros n a m err i Hm Hj Hk Hn; (destruct n as [|n]; [lia|]); cbn [cg_loop]; unfold bind; rewrite (holds_gg m a Hm).
  - cbn [csteps] in Hk. rewrite Hk. exists m. split; [unfold ret; f_equal; lia|]. auto.
  - rewrite (Hj 0%nat ltac:(lia) : ltb err (gg a) = true). destruct (body_step m a Hm) as (m1 & E1 & H1 & O1). rewrite E1.
    destruct (IH n (step_ a) m1 err (i + 1) H1) as (m' & E & H & O); [intros j Hlt; rewrite steps_in; apply Hj; lia|rewrite steps_in; auto|lia|].
    exists m'. split; [rewrite E; f_equal; lia|]. split; [rewrite <- steps_in; auto|]. intros q Oq. rewrite O, O1; auto.
Qed.
Lemma loop_long : forall n a m err i, holds m a -> (forall j, (j < n)%nat -> ltb err (gg (steps_ j a)) = true) -> loop_ n x g r p err i m = Undef.
Proof.
  induction n as [|n IH]; intros a m err i Hm Hj; [reflexivity|]. cbn [cg_loop]. unfold bind. rewrite (holds_gg m a Hm), (Hj 0%nat ltac:(lia) : ltb err (gg a) = true).
  destruct (body_step m a Hm) as (m1 & E1 & H1 & O1). rewrite E1. apply (IH (step_ a)); auto. intros j Hlt. rewrite steps_in. apply Hj. lia.
Qed.
Lemma first_false : forall n (c : nat -> bool), (forall j, (j < n)%nat -> c j = true) \/ exists k, (k < n)%nat /\ c k = false /\ forall j, (j < k)%nat -> c j = true.
Proof.
  induction n as [|n IH]; intros c; [left; lia|]. destruct (IH c) as [H|(k & Hk & Ek & Fk)]; [|right; exists k; auto]. destruct (c n) eqn:E.
  - left. intros j Hj. destruct (Nat.eq_dec j n) as [->|]; auto. apply H. lia.
  - right. exists n. auto.
Qed.
End Views.

Lemma loop_more : forall n k x g r p err i m j m', cg_loop fixed z fi zi add sub mul div zero ltb mult n x g r p err i m = Ok j m' -> cg_loop fixed z fi zi add sub mul div zero ltb mult (n + k) x g r p err i m = Ok j m'.
Proof.
  induction n as [|n IH]; intros k x g r p err i m j m' H; [discriminate H|]. cbn [Nat.add cg_loop] in *. unfold bind in *. destruct (reduce_sqrm fi zi add (sq_ mul) zero (viter g) m) as [q m1|m1|]; try discriminate H. destruct (ltb err q); auto.
  destruct (cg_body fixed z fi zi add sub mul div zero mult x g r p m1) as [o m2|m2|]; try discriminate H. apply IH. auto.
Qed.

Let Hf : field_theory zero one add mul sub opp div inv eq := proj1 Hord.
Add Field Tfield2 : Hf.

Variables (b x work : view) (eps : T).
Hypothesis (Sb : vshape b = s) (Sx : vshape x = s) (Sw : vshape work = 3 :: s) (Ax : apart_at x) (Aw : apart_at work).
Hypothesis (Dxb : P_Cells.separate x b) (Dwx : P_Cells.separate work x) (Dwb : P_Cells.separate work b).
Hypothesis (Cb : clear_of b) (Cx : clear_of x) (Cw : clear_of work).
Notation cghs_ n := (cghs fixed z fi zi add sub mul div zero ltb mult n b x work eps).
(* what's left of b *)
Definition left_of (m m' : mem T) : vec := fun j => sub (m (vplace b j)) (L (at_ m' x) j).
Definition start (m : mem T) : cg := St (at_ m x) (left_of m m) (left_of m m).
Notation err m := (mul (mul eps eps) (ip (at_ m b) (at_ m b))).

Lemma begins : forall m, ok m -> exists g r p m1, (forall n, cghs_ n m = cg_loop fixed z fi zi add sub mul div zero ltb mult n x g r p (err m) 0 m1) /\ holds x g r p m1 (start m) /\
  (vshape g = s /\ vshape r = s /\ vshape p = s) /\ (apart_at g /\ apart_at r /\ apart_at p) /\ (P_Cells.separate x g /\ P_Cells.separate x r /\ P_Cells.separate x p) /\ (P_Cells.separate g r /\ P_Cells.separate g p /\ P_Cells.separate r p) /\ (clear_of g /\ clear_of r /\ clear_of p) /\
  (forall j, inshape j s -> exists i0 i1 i2, inshape i0 (vshape work) /\ inshape i1 (vshape work) /\ inshape i2 (vshape work) /\ vplace g j = vplace work i0 /\ vplace r j = vplace work i1 /\ vplace p j = vplace work i2) /\
  forall q, ~ mine q -> (forall j, inshape j (vshape work) -> q <> vplace work j) -> m1 q = m q.
Proof.
  intros m K0. assert (Nw : nonneg (3 :: s)) by (apply Forall_cons; [lia|auto]).
  destruct (assign_own fixed z put work (Scalar (VT zero)) (3 :: s) (fun _ => zero) m) as (m1 & E1 & B1); auto; [exact I|apply inner_scalar|intros; apply gives_scalar|].
  destruct (item_view work 3 s 0 Sw) as (g & Eg & Sg & Pg); [lia|]. destruct (item_view work 3 s 1 Sw) as (r & Er & Sr & Pr); [lia|]. destruct (item_view work 3 s 2 Sw) as (p & Ep & Sp & Pp); [lia|].
  assert (In0 : forall t j, 0 <= t < 3 -> inshape j s -> inshape (t :: j) (vshape work)) by (intros t j Ht Hj; rewrite Sw; apply item_in; auto).
  assert (Ai : forall t v, 0 <= t < 3 -> vshape v = s -> (forall i, vplace v i = vplace work (t :: i)) -> apart_at v).
  { intros t v Ht Sv Pv i j Hi Hj E. rewrite !Pv in E. rewrite Sv in Hi, Hj. apply Aw in E; auto. congruence. }
  assert (Di : forall t t' v v', 0 <= t < 3 -> 0 <= t' < 3 -> t <> t' -> vshape v = s -> vshape v' = s -> (forall i, vplace v i = vplace work (t :: i)) -> (forall i, vplace v' i = vplace work (t' :: i)) -> P_Cells.separate v v').
  { intros t t' v v' Ht Ht' N Sv Sv' Pv Pv' i j Hi Hj E. rewrite Pv, Pv' in E. rewrite Sv in Hi. rewrite Sv' in Hj. apply Aw in E; auto. congruence. }
  assert (Do : forall t v u, 0 <= t < 3 -> vshape v = s -> (forall i, vplace v i = vplace work (t :: i)) -> P_Cells.separate work u -> P_Cells.separate v u).
  { intros t v u Ht Sv Pv D i j Hi Hj E. rewrite Pv in E. rewrite Sv in Hi. apply (D (t :: i) j); auto. }
  assert (Ci : forall t v, 0 <= t < 3 -> vshape v = s -> (forall i, vplace v i = vplace work (t :: i)) -> clear_of v).
  { intros t v Ht Sv Pv i Hi. rewrite Pv. apply Cw. apply In0; auto. rewrite <- Sv. auto. }
  assert (Cg : clear_of g) by (apply (Ci 0); auto; lia). assert (Cr : clear_of r) by (apply (Ci 1); auto; lia). assert (Cp : clear_of p) by (apply (Ci 2); auto; lia).
  pose proof (becomes_ok work _ _ _ Cw K0 B1) as K1.
  assert (Gr : P_Cells.separate g r) by (apply (Di 0 1); auto; lia). assert (Gp : P_Cells.separate g p) by (apply (Di 0 2); auto; lia). assert (Rp : P_Cells.separate r p) by (apply (Di 1 2); auto; lia).
  assert (Ag : apart_at g) by (apply (Ai 0); auto; lia). assert (Ar : apart_at r) by (apply (Ai 1); auto; lia). assert (Ap : apart_at p) by (apply (Ai 2); auto; lia).
  assert (Gx : P_Cells.separate g x) by (apply (Do 0); auto; lia). assert (Rx : P_Cells.separate r x) by (apply (Do 1); auto; lia). assert (Px : P_Cells.separate p x) by (apply (Do 2); auto; lia). assert (Gb : P_Cells.separate g b) by (apply (Do 0); auto; lia). assert (Rb : P_Cells.separate r b) by (apply (Do 1); auto; lia).
  assert (Z1 : forall t v, 0 <= t < 3 -> (forall i, vplace v i = vplace work (t :: i)) -> forall j, inshape j s -> at_ m1 v j = zero).
  { intros t v Ht Pv j Hj. unfold at_. rewrite Pv. apply B1. auto. }
  pose proof (kept work x _ _ _ Sx B1 Dwx) as X1. pose proof (kept work b _ _ _ Sb B1 Dwb) as Bb1.
  destruct Hmult as (Hin & Hm). destruct (Hm x g m1 K1 Cx Cg Sx Sg Ag Gx) as (m2 & E2 & B2); [intros j Hj _; apply (Z1 0); auto; lia|].
  pose proof (dkept g x _ _ _ Sx Cx B2 Gx) as X2. pose proof (dkept g b _ _ _ Sb Cb B2 Gb) as Bb2. pose proof (dkept g p _ _ _ Sp Cp B2 Gp) as P2. pose proof (dbecame g _ _ _ Sg B2) as G2.
  destruct (inner_view g s Sg Hs) as (Ng & Wg). destruct (inner_view b s Sb Hs) as (Nb & Wb).
  destruct (assign_own fixed z put g (times sub (viter b) (viter g)) s (fun j => sub (m2 (vplace b j)) (m2 (vplace g j))) m2) as (m3 & E3 & B3); auto; [apply times_wf; auto|apply inner_times; auto| |].
  { intros j mm Hj Own O. apply gives_times.
    - rewrite <- (O (vplace b j)); [apply gives_view; rewrite Sb; auto|]. intros i Hi E. apply (Gb i j); rewrite ?Sg, ?Sb; auto.
    - rewrite <- Own. apply gives_view. rewrite Sg. auto. }
  pose proof (kept g x _ _ _ Sx B3 Gx) as X3. pose proof (kept g p _ _ _ Sp B3 Gp) as P3. pose proof (became g _ _ _ Sg B3) as G3.
  destruct (assign_own fixed z put r (viter g) s (fun j => m3 (vplace g j)) m3) as (m4 & E4 & B4); auto.
  { intros j mm Hj Own O. rewrite <- (O (vplace g j)); [apply gives_view; rewrite Sg; auto|]. intros i Hi E. apply (sep_sym _ _ Gr i j); rewrite ?Sg, ?Sr; auto. }
  pose proof (kept r x _ _ _ Sx B4 Rx) as X4. pose proof (kept r p _ _ _ Sp B4 Rp) as P4. pose proof (kept r g _ _ _ Sg B4 (sep_sym _ _ Gr)) as G4. pose proof (became r _ _ _ Sr B4) as R4.
  exists g, r, p, m4. split.
  { intros n. unfold cghs, bind. rewrite E1. rewrite Eg. cbn [onres]. rewrite Er. cbn [onres]. rewrite Ep. cbn [onres]. rewrite norm2_view by auto. unfold bind in *. rewrite E2, E3, E4. f_equal. unfold sq_. f_equal. apply (ip_ext zero one add mul sub opp div inv ltb Hord); auto. }
  assert (G' : same s (at_ m4 g) (left_of m m)).
  { intros j Hj. rewrite (G4 j Hj), (G3 j Hj). unfold put, left_of. change (m2 (vplace b j)) with (at_ m2 b j). change (m2 (vplace g j)) with (at_ m2 g j). rewrite (Bb2 j Hj), (Bb1 j Hj), (G2 j Hj). unfold at_ at 1. f_equal. apply (proj1 HL); auto. }
  split.
  { split; [|split; [|split; [exact G'|split]]]; cbn [start cx cgr cdir].
    - apply (becomes_ok r _ _ _ Cr) in B4; auto. apply (becomes_ok g _ _ _ Cg) in B3; auto. apply B2.
    - intros j Hj. rewrite (X4 j Hj), (X3 j Hj), (X2 j Hj), (X1 j Hj). reflexivity.
    - intros j Hj. rewrite (R4 j Hj). unfold put. change (m3 (vplace g j)) with (at_ m3 g j). rewrite <- (G4 j Hj). apply G'. auto.
    - intros j Hj _. rewrite (P4 j Hj), (P3 j Hj), (P2 j Hj). apply (Z1 2); auto; lia. }
  split; [auto|]. split; [auto|]. split; [split; [apply sep_sym; auto|split; apply sep_sym; auto]|]. split; [auto|]. split; [auto|]. split.
  { intros j Hj. exists (0 :: j), (1 :: j), (2 :: j). repeat split; try (apply In0; [lia|auto]); auto. }
  intros q Mq Oq. rewrite (kept_out r _ _ _ q Sr B4), (kept_out g _ _ _ q Sg B3), (dkept_out g _ _ _ q Sg B2 Mq); try (intros j Hj; rewrite ?Pg, ?Pr; apply Oq; apply In0; [lia|auto]).
  destruct B1 as (_ & B1). apply B1. auto.
Qed.

Lemma left_steps : forall m k, same s (cgr (csteps zero add mul sub div s L k (start m))) (fun j => sub (m (vplace b j)) (L (cx (csteps zero add mul sub div s L k (start m))) j)).
Proof.
  intros m k. induction k as [|k IH]; cbn [csteps]; [intros j Hj; reflexivity|]. apply (residual_step zero one add mul sub opp div inv ltb Hord s L HL (fun j => m (vplace b j))). exact IH.
Qed.

Definition elsewhere (q : Z) : Prop := ~ mine q /\ (forall j, inshape j (vshape x) -> q <> vplace x j) /\ forall j, inshape j (vshape work) -> q <> vplace work j.
(* what a run gives, if it ends *)
Definition solved (n : nat) (m : mem T) (i : Z) (m' : mem T) : Prop :=
  0 <= i < Z.of_nat n /\ ltb (mul (mul eps eps) (ip (at_ m b) (at_ m b))) (ip (left_of m m') (left_of m m')) = false /\ (i = 0 -> same s (at_ m' x) (at_ m x)) /\ same s (at_ m' b) (at_ m b) /\ ok m' /\ forall q, elsewhere q -> m' q = m q.

Lemma runs : forall n m, ok m -> let c := fun k => ltb (err m) (ip (cgr (csteps zero add mul sub div s L k (start m))) (cgr (csteps zero add mul sub div s L k (start m)))) in
  ((forall j, (j < n)%nat -> c j = true) -> cghs_ n m = Undef) /\ forall k, (k < n)%nat -> c k = false -> (forall j, (j < k)%nat -> c j = true) -> exists m', cghs_ n m = Ok (Z.of_nat k) m' /\ solved n m (Z.of_nat k) m'.
Proof.
  intros n m K0 c. destruct (begins m K0) as (g & r & p & m1 & E & H & (Sg & Sr & Sp) & (Ag & Ar & Ap) & (Dg & Dr & Dp) & (D1 & D2 & D3) & (Cg & Cr & Cp) & Pw & O). split.
  - intros Hc. rewrite E. apply (loop_long x g r p Sx Sg Sr Sp Ax Ag Ar Ap Dg Dr Dp D1 D2 D3 Cx Cg Cr Cp n (start m)); auto.
  - intros k Hk Ek Fk. destruct (loop_ends x g r p Sx Sg Sr Sp Ax Ag Ar Ap Dg Dr Dp D1 D2 D3 Cx Cg Cr Cp k n (start m) m1 (err m) 0 H Fk Ek Hk) as (m' & E' & H' & O'). exists m'. rewrite E. split; [exact E'|].
    assert (Ot : forall q, elsewhere q -> m' q = m q).
    { intros q (Q0 & Q1 & Q2). rewrite O', O; auto. split; auto. intros j Hj. destruct (Pw j Hj) as (i0 & i1 & i2 & I0 & I1 & I2 & -> & -> & ->). split; [apply Q1; rewrite Sx; auto|]. split; [|split]; apply Q2; auto. }
    split; [lia|]. split; [|split; [|split; [|split; [apply H'|exact Ot]]]].
    + assert (Q : same s (left_of m m') (cgr (csteps zero add mul sub div s L k (start m)))) by (intros j Hj; rewrite (left_steps m k j Hj); unfold left_of; f_equal; apply (proj1 HL); auto; apply H').
      rewrite (ip_ext zero one add mul sub opp div inv ltb Hord s _ (cgr (csteps zero add mul sub div s L k (start m))) _ (cgr (csteps zero add mul sub div s L k (start m))) Q Q). exact Ek.
    + intros Q0. assert (k = 0%nat) by lia. subst k. apply H'.
    + intros j Hj. apply Ot. split; [apply Cb; rewrite Sb; auto|]. split; intros i Hi Q; [apply (Dxb i j)|apply (Dwb i j)]; rewrite ?Sb; auto.
Qed.

(* if it ends, the part of b that's left is within the tolerance, and only x and work have changed *)
Theorem C120_residual : forall n m i m', ok m -> cghs_ n m = Ok i m' -> solved n m i m'.
Proof.
  intros n m i m' K0 E. destruct (runs n m K0) as (R1 & R2). destruct (first_false n (fun k => ltb (err m) (ip (cgr (csteps zero add mul sub div s L k (start m))) (cgr (csteps zero add mul sub div s L k (start m)))))) as [H|(k & Hk & Ek & Fk)].
  - rewrite (R1 H) in E. discriminate E.
  - destruct (R2 k Hk Ek Fk) as (m2 & E2 & S2). rewrite E in E2. inversion E2; subst. auto.
Qed.
(* it's never refused, and the bound doesn't matter *)
Theorem C120_bound : forall n m, ok m -> (cghs_ n m = Undef \/ exists i m', cghs_ n m = Ok i m') /\ forall i m', cghs_ n m = Ok i m' -> forall k, cghs_ (n + k) m = Ok i m'.
Proof.
  intros n m K0. split.
  - destruct (runs n m K0) as (R1 & R2). destruct (first_false n (fun k => ltb (err m) (ip (cgr (csteps zero add mul sub div s L k (start m))) (cgr (csteps zero add mul sub div s L k (start m)))))) as [H|(k & Hk & Ek & Fk)]; [left; auto|].
    right. destruct (R2 k Hk Ek Fk) as (m2 & E2 & _). eauto.
  - intros i m' E k. destruct (begins m K0) as (g & r & p & m1 & Q & _). rewrite Q in *. apply loop_more. auto.
Qed.

Lemma nonneg_mul : forall u v, ltb u zero = false -> ltb v zero = false -> ltb (mul u v) zero = false.
Proof.
  intros u v Hu Hv. destruct (le_cases zero one add mul sub opp div inv ltb Hord zero u Hu) as [<-|Pu]; [replace (mul zero v) with zero by ring; apply (lt_irr zero one add mul sub opp div inv ltb Hord)|].
  destruct (le_cases zero one add mul sub opp div inv ltb Hord zero v Hv) as [<-|Pv]; [replace (mul u zero) with zero by ring; apply (lt_irr zero one add mul sub opp div inv ltb Hord)|].
  apply (lt_le zero one add mul sub opp div inv ltb Hord). apply (lt_mul zero one add mul sub opp div inv ltb Hord); auto.
Qed.
(* with a symmetric positive definite operator, it ends in no more iterations than there are unknowns *)
Theorem C120_terminates : forall m n, ok m -> symmetric zero add mul s part L -> positive zero add mul ltb s part L -> within zero s part (at_ m b) -> (length (filter part (indices s)) < n)%nat ->
  exists i m', cghs_ n m = Ok i m' /\ 0 <= i <= Z.of_nat (length (filter part (indices s))).
Proof.
  intros m n K0 Hsym Hpos Hb Hn. set (N := length (filter part (indices s))) in *. destruct (runs n m K0) as (R1 & R2).
  destruct (first_false (S N) (fun k => ltb (err m) (ip (cgr (csteps zero add mul sub div s L k (start m))) (cgr (csteps zero add mul sub div s L k (start m)))))) as [H|(k & Hk & Ek & Fk)].
  - exfalso. apply (Nat.lt_irrefl N). unfold N at 2. apply (steps_end zero one add mul sub opp div inv ltb Hord s part L Hsym Hpos (proj1 Hmult) (start m)).
    + intros j Hj. reflexivity.
    + intros j Hj Q. cbn [start cgr]. unfold left_of. rewrite (proj1 Hmult _ j Hj Q). change (m (vplace b j)) with (at_ m b j). rewrite (Hb j Hj Q). ring.
    + intros i Hi Q. specialize (H i ltac:(lia)). cbv beta in H. rewrite Q in H. rewrite nonneg_mul in H; [discriminate| |apply (ip_nonneg zero one add mul sub opp div inv ltb Hord)]. apply (square_nonneg zero one add mul sub opp div inv ltb Hord).
  - destruct (R2 k ltac:(lia) Ek Fk) as (m' & E & _). exists (Z.of_nat k), m'. split; auto. lia.
Qed.
(* x changes only in the places in [part] *)
Theorem C120_border : forall n m i m', ok m -> within zero s part (at_ m b) -> cghs_ n m = Ok i m' -> forall j, inshape j s -> part j = false -> m' (vplace x j) = m (vplace x j).
Proof.
  intros n m i m' K0 Hb E j Hj Hp. destruct (begins m K0) as (g & r & p & m1 & Q & H & (Sg & Sr & Sp) & (Ag & Ar & Ap) & (Dg & Dr & Dp) & (D1 & D2 & D3) & (Cg & Cr & Cp) & _).
  assert (W : forall k, cx (csteps zero add mul sub div s L k (start m)) j = m (vplace x j)).
  { induction k as [|k IH]; cbn [csteps]; [reflexivity|]. cbn [cstep cx]. rewrite IH.
    destruct (seq_within zero one add mul sub opp div inv ltb Hord s part L (proj1 Hmult) (start m)) with (k := k) as (_ & R).
    - intros i1 _. reflexivity.
    - intros i1 H1 P1. cbn [start cgr]. unfold left_of. rewrite (proj1 Hmult _ i1 H1 P1). change (m (vplace b i1)) with (at_ m b i1). rewrite (Hb i1 H1 P1). ring.
    - rewrite (R j Hj Hp). ring. }
  destruct (first_false n (fun k => ltb (err m) (ip (cgr (csteps zero add mul sub div s L k (start m))) (cgr (csteps zero add mul sub div s L k (start m)))))) as [F|(k & Hk & Ek & Fk)].
  - rewrite Q in E. rewrite (loop_long x g r p Sx Sg Sr Sp Ax Ag Ar Ap Dg Dr Dp D1 D2 D3 Cx Cg Cr Cp n (start m)) in E; auto. discriminate E.
  - destruct (loop_ends x g r p Sx Sg Sr Sp Ax Ag Ar Ap Dg Dr Dp D1 D2 D3 Cx Cg Cr Cp k n (start m) m1 (err m) 0 H Fk Ek Hk) as (m2 & E' & H' & _). rewrite Q, E' in E. inversion E; subst. rewrite <- (W k). apply H'. auto.
Qed.
(* with tolerance 0, x is then the solution *)
Theorem C120_exact : forall n m i m', ok m -> eps = zero -> cghs_ n m = Ok i m' -> same s (L (at_ m' x)) (at_ m b).
Proof.
  intros n m i m' K0 E0 E j Hj. destruct (C120_residual n m i m' K0 E) as (_ & Q & _). rewrite E0 in Q. replace (mul (mul zero zero) (ip (at_ m b) (at_ m b))) with zero in Q by ring.
  assert (D : left_of m m' j = zero).
  { destruct (ltb (left_of m m' j) zero) eqn:Q1; [|destruct (ltb zero (left_of m m' j)) eqn:Q2; [|apply (lt_tot zero one add mul sub opp div inv ltb Hord); auto]].
    - exfalso. rewrite (ip_pos zero one add mul sub opp div inv ltb Hord) in Q; [discriminate|]. exists j. split; auto. intros W. rewrite W, (lt_irr zero one add mul sub opp div inv ltb Hord) in Q1. discriminate.
    - exfalso. rewrite (ip_pos zero one add mul sub opp div inv ltb Hord) in Q; [discriminate|]. exists j. split; auto. intros W. rewrite W, (lt_irr zero one add mul sub opp div inv ltb Hord) in Q2. discriminate. }
  unfold left_of in D. change (m (vplace b j)) with (at_ m b j) in D. transitivity (sub (at_ m b j) (sub (at_ m b j) (L (at_ m' x) j))); [ring|]. rewrite D. ring.
Qed.
Lemma ends_x : forall n m k m', ok m -> (k < n)%nat -> ltb (err m) (ip (cgr (csteps zero add mul sub div s L k (start m))) (cgr (csteps zero add mul sub div s L k (start m)))) = false ->
  (forall j, (j < k)%nat -> ltb (err m) (ip (cgr (csteps zero add mul sub div s L j (start m))) (cgr (csteps zero add mul sub div s L j (start m)))) = true) -> cghs_ n m = Ok (Z.of_nat k) m' -> same s (at_ m' x) (cx (csteps zero add mul sub div s L k (start m))).
Proof.
  intros n m k m' K0 Hk Ek Fk E. destruct (begins m K0) as (g & r & p & m1 & Q & H & (Sg & Sr & Sp) & (Ag & Ar & Ap) & (Dg & Dr & Dp) & (D1 & D2 & D3) & (Cg & Cr & Cp) & _).
  destruct (loop_ends x g r p Sx Sg Sr Sp Ax Ag Ar Ap Dg Dr Dp D1 D2 D3 Cx Cg Cr Cp k n (start m) m1 (err m) 0 H Fk Ek Hk) as (m2 & E' & H' & _). rewrite Q, E' in E. inversion E; subst. intros j Hj. apply H'. auto.
Qed.
(* if b is an eigenvector and x is 0, one iteration is enough, and it leaves the solution; there are none only if the tolerance allows it *)
Theorem C120_eigen : forall lam n m, ok m -> lam <> zero -> same s (at_ m x) (fun _ => zero) -> same s (L (at_ m b)) (fun j => mul lam (m (vplace b j))) -> (1 < n)%nat ->
  exists i m', cghs_ n m = Ok i m' /\ ((i = 1 /\ forall j, inshape j s -> mul lam (m' (vplace x j)) = m (vplace b j)) \/
    (i = 0 /\ same s (at_ m' x) (fun _ => zero) /\ ltb (mul (mul eps eps) (ip (at_ m b) (at_ m b))) (ip (at_ m b) (at_ m b)) = false)).
Proof.
  intros lam n m K0 Hl Hx0 He Hn. destruct (runs n m K0) as (R1 & R2). set (c := fun k => ltb (err m) (ip (cgr (csteps zero add mul sub div s L k (start m))) (cgr (csteps zero add mul sub div s L k (start m))))) in *.
  assert (L0 : same s (L (at_ m x)) (fun _ => zero)).
  { intros j Hj. destruct HL as (H1 & H2). rewrite (H1 _ _ Hx0 j Hj). pose proof (H2 (fun _ => zero) (fun _ => zero) (opp one) j Hj) as Q. cbv beta in Q. rewrite (H1 _ (fun _ => zero)) in Q by (auto; intros i _; ring). rewrite Q. ring. }
  assert (G0 : same s (left_of m m) (at_ m b)) by (intros j Hj; unfold left_of; rewrite (L0 j Hj); unfold at_; ring).
  destruct (c 0%nat) eqn:C0.
  2:{ destruct (R2 0%nat ltac:(lia) C0) as (m' & E & S0); [lia|]. exists 0, m'. split; [exact E|]. right. split; [reflexivity|]. split.
      - intros j Hj. rewrite <- (Hx0 j Hj). apply (proj1 (proj2 (proj2 S0))); auto.
      - unfold c in C0. cbn [csteps start cgr] in C0. rewrite (ip_ext zero one add mul sub opp div inv ltb Hord s _ (at_ m b) _ (at_ m b) G0 G0) in C0. exact C0. }
  assert (B0 : ip (at_ m b) (at_ m b) <> zero).
  { intros Q. unfold c in C0. cbn [csteps start cgr] in C0. rewrite (ip_ext zero one add mul sub opp div inv ltb Hord s _ (at_ m b) _ (at_ m b) G0 G0), Q in C0. replace (mul (mul eps eps) zero) with zero in C0 by ring. rewrite (lt_irr zero one add mul sub opp div inv ltb Hord) in C0. discriminate. }
  assert (P0 : same s (L (left_of m m)) (fun j => mul lam (at_ m b j))) by (intros j Hj; rewrite (proj1 HL _ _ G0 j Hj); apply He; auto).
  assert (T0 : c_t zero add mul div s L (start m) = div one lam).
  { unfold c_t, c_tau, c_sig. cbn [start cgr cdir]. rewrite (ip_ext zero one add mul sub opp div inv ltb Hord s _ (at_ m b) _ (at_ m b) G0 G0), (ip_ext zero one add mul sub opp div inv ltb Hord s _ (at_ m b) _ _ G0 P0).
    replace (ip (at_ m b) (fun j => mul lam (at_ m b j))) with (mul lam (ip (at_ m b) (at_ m b))); [field; auto|]. rewrite (ip_comm zero one add mul sub opp div inv ltb Hord s (at_ m b) (fun j => mul lam (at_ m b j))).
    rewrite (ip_ext zero one add mul sub opp div inv ltb Hord s (fun j => mul lam (at_ m b j)) (fun j => add ((fun _ => zero) j) (mul lam (at_ m b j))) (at_ m b) (at_ m b)) by (intros j Hj; ring).
    rewrite (ip_comb zero one add mul sub opp div inv ltb Hord). replace (ip (fun _ => zero) (at_ m b)) with zero; [ring|]. symmetry. rewrite (ip_tot zero one add mul sub opp div inv ltb Hord). apply (tot_zero zero one add mul sub opp div inv ltb Hord). intros; ring. }
  assert (G1 : forall j, inshape j s -> cgr (csteps zero add mul sub div s L 1 (start m)) j = zero).
  { intros j Hj. cbn [csteps cstep cgr]. rewrite T0. cbn [start cgr cdir]. rewrite (G0 j Hj), (P0 j Hj). field. auto. }
  assert (C1 : c 1%nat = false).
  { unfold c. rewrite (ip_ext zero one add mul sub opp div inv ltb Hord s (cgr (csteps zero add mul sub div s L 1 (start m))) (fun _ => zero) (cgr (csteps zero add mul sub div s L 1 (start m))) (fun _ => zero)) by (intros j Hj; apply G1; auto). replace (ip (fun _ => zero) (fun _ => zero)) with zero.
    + apply nonneg_mul; [apply (square_nonneg zero one add mul sub opp div inv ltb Hord)|apply (ip_nonneg zero one add mul sub opp div inv ltb Hord)].
    + symmetry. rewrite (ip_tot zero one add mul sub opp div inv ltb Hord). apply (tot_zero zero one add mul sub opp div inv ltb Hord). intros; ring. }
  assert (F1 : forall j, (j < 1)%nat -> c j = true) by (intros j Hj; replace j with 0%nat by lia; exact C0).
  destruct (R2 1%nat Hn C1 F1) as (m' & E & _). exists 1, m'. split; [exact E|]. left. split; [reflexivity|]. intros j Hj.
  pose proof (ends_x n m 1 m' K0 Hn C1 F1 E j Hj) as Q. change (m' (vplace x j)) with (at_ m' x j). rewrite Q. cbn [csteps cstep cx]. rewrite T0. cbn [start cx cdir cgr].
  change (m (vplace b j)) with (at_ m b j). change (m (vplace x j)) with (at_ m x j). rewrite (Hx0 j Hj), (G0 j Hj). field. auto.
Qed.
End Cg.

(* Examples that meet the hypotheses are in P_Poisson.v: the theorems there are an instance of these, and a run with rational numbers is computed. *)
Print Assumptions C120_residual.
Print Assumptions C120_bound.
Print Assumptions C120_terminates.
Print Assumptions C120_border.
Print Assumptions C120_exact.
Print Assumptions C120_eigen.
