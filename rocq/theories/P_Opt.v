(* Properties of arithmetic on integer sequences: C37, C63, C64. *)
From Coq Require Import ZArith List Lia Bool.
From Verif Require Import Spec M_Base M_Expr L_Expr Spec_Expr L_Agree M_Val M_View M_Opt.
Import ListNotations.
Open Scope Z_scope.

(* what iota() accepts *)
Definition okseq (a : sq) : Prop := match qlen a with Lit n => 0 <= n \/ n = UNB | Run n => 0 <= n end.
(* the sequence q has the length of the expression e (n may be UNB) and its elements *)
Definition stands_for {T W} (q : sq) (e : expr (val T) W) : Prop :=
  okseq q /\ axes e = 1%nat /\ (lval (qlen q) = UNB <-> Forall (fun n => n = UNB) (leaf_lens e 0)) /\
  (lval (qlen q) <> UNB -> shape_is e [lval (qlen q)]) /\ forall k w, element (sq_iter (T:=T) q) [k] w = element e [k] w.

Section C37.
Context {T W : Type}.
Notation ex := (expr (val T) W).
Notation k_ c := (Scalar (VI c) : ex).
Notation s_ a := (sq_iter a : ex).

Lemma lens_1 : forall a b c (q : sq) (e : ex), axes e = 1%nat -> leaf_lens e 0 = [lval (qlen q)] -> okseq q -> (forall k w, element (s_ q) [k] w = element e [k] w) ->
  iota a b c = Good q -> exists q', iota a b c = Good q' /\ stands_for q' e.
Proof.
  intros a b c q e A L O E G. exists q. split; auto. split; auto. split; auto. rewrite L. split; [split; [intros ->; auto|intros F; inversion F; auto]|]. split; auto.
  intros N. split; [rewrite A; reflexivity|]. intros k Hk. rewrite A in Hk. replace k with 0%nat by lia. cbn [nth]. rewrite L. split; [|split; [left; auto|constructor; auto]].
  unfold okseq, lval in *. destruct (qlen q); lia.
Qed.
Lemma iota_good : forall a o s, okseq a -> iota (qlen a) o s = Good (Sq (qlen a) o s).
Proof. intros a o s H. unfold okseq, iota in *. destruct (qlen a); auto. destruct (Z.ltb_spec n 0); auto; lia. Qed.

Ltac one := intros; eapply lens_1; [reflexivity| | | |apply iota_good; auto]; [reflexivity|auto|
  intros; cbn [element sq_iter map2 map1 map in_order place qorg qstep qlen iop2 iop1 op1 op2 step]; unfold ret; cbn; f_equal; f_equal; lia].

Theorem C37_add_k : forall a c, okseq a -> exists q, opt_add_sq_k a c = Good q /\ stands_for q (map2 Z.add (s_ a) (k_ c)).
Proof. one. Qed.
Theorem C37_k_add : forall a c, okseq a -> exists q, opt_add_k_sq c a = Good q /\ stands_for q (map2 Z.add (k_ c) (s_ a)).
Proof. one. Qed.
Theorem C37_sub_k : forall a c, okseq a -> exists q, opt_sub_sq_k a c = Good q /\ stands_for q (map2 Z.sub (s_ a) (k_ c)).
Proof. one. Qed.
Theorem C37_k_sub : forall a c, okseq a -> exists q, opt_sub_k_sq c a = Good q /\ stands_for q (map2 Z.sub (k_ c) (s_ a)).
Proof. one. Qed.
Theorem C37_mul_k : forall a c, okseq a -> exists q, opt_mul_sq_k a c = Good q /\ stands_for q (map2 Z.mul (s_ a) (k_ c)).
Proof. one. Qed.
Theorem C37_k_mul : forall a c, okseq a -> exists q, opt_mul_k_sq c a = Good q /\ stands_for q (map2 Z.mul (k_ c) (s_ a)).
Proof. one. Qed.
Theorem C37_neg : forall a, okseq a -> exists q, opt_neg a = Good q /\ stands_for q (map1 Z.opp (s_ a)).
Proof. one. Qed.

(* two sequences whose lengths agree, i.e. are equal, or one of them is unbounded *)
Lemma clen2_agree : forall a b, okseq a -> okseq b -> (lval (qlen a) = lval (qlen b) \/ lval (qlen a) = UNB \/ lval (qlen b) = UNB) ->
  let n := clen2 (qlen a) (qlen b) in (match n with Lit n => 0 <= n \/ n = UNB | Run n => 0 <= n end) /\ lval n = (if lval (qlen a) =? UNB then lval (qlen b) else lval (qlen a)).
Proof.
  intros [na oa sa] [nb ob sb] Ha Hb H. unfold okseq in *. cbn [qlen] in *. unfold clen2.
  assert (C : forall x y, (0 <= x \/ x = UNB) -> (0 <= y \/ y = UNB) -> (x = y \/ x = UNB \/ y = UNB) -> len2 x y = if x =? UNB then y else x).
  { clear. intros x y Hx Hy H. unfold len2, colen. change (0 <=? UNB) with false. change (UNB =? UNB) with true.
    destruct (Z.eqb_spec MIS x) as [e|e]; [unfold MIS, UNB in *; lia|]. destruct (Z.leb_spec 0 x) as [l|l].
    - destruct (Z.eqb_spec x UNB) as [e1|e1]; [unfold UNB in *; lia|]. destruct (Z.eqb_spec MIS x); [lia|]. destruct (Z.eqb_spec MIS y) as [e2|e2]; [unfold MIS, UNB in *; lia|].
      destruct (Z.leb_spec 0 y) as [l2|l2]; [destruct (Z.eqb_spec y x); [auto|unfold UNB in *; lia]|]. destruct (Z.eqb_spec UNB y); [auto|unfold UNB in *; lia].
    - assert (x = UNB) as -> by lia. change (UNB =? UNB) with true. change (MIS =? UNB) with false. cbn iota.
      destruct (Z.eqb_spec MIS y) as [e2|e2]; [unfold MIS, UNB in *; lia|]. destruct (Z.leb_spec 0 y) as [l2|l2]; [destruct (Z.eqb_spec y UNB); auto|]. assert (y = UNB) as -> by lia. reflexivity. }
  destruct na as [n|n], nb as [m|m]; cbn [lval lstat] in *.
  - change (len_s2 n m) with (len2 n m). rewrite C by lia. destruct (Z.eqb_spec n UNB).
    + destruct (Z.eqb_spec ANY m); [unfold ANY, UNB in *; lia|]. auto.
    + destruct (Z.eqb_spec ANY n); [unfold ANY, UNB in *; lia|]. auto.
  - unfold len_s2. change (MIS =? ANY) with false. cbn iota. destruct (Z.eqb_spec MIS n) as [e|e]; [unfold MIS, UNB in *; lia|]. unfold colen. change (0 <=? ANY) with false. change (UNB =? ANY) with false. cbn iota.
    change (0 <=? UNB) with false. change (UNB =? UNB) with true. destruct (Z.leb_spec 0 n) as [l|l].
    + destruct (Z.eqb_spec n UNB) as [e1|e1]; [unfold UNB in *; lia|]. destruct (Z.eqb_spec MIS n); [lia|]. destruct (Z.eqb_spec UNB n); [lia|]. destruct (Z.eqb_spec ANY n); [unfold ANY in *; lia|]. auto.
    + assert (n = UNB) as -> by lia. change (UNB =? UNB) with true. change (MIS =? UNB) with false. cbn iota. change (ANY =? ANY) with true. cbn iota. split; [rewrite C by lia; auto|]. cbn [lval]. rewrite C by lia. reflexivity.
  - unfold len_s2. change (MIS =? ANY) with false. cbn iota. change (colen ANY UNB) with ANY. change (MIS =? ANY) with false. cbn iota. destruct (Z.eqb_spec MIS m) as [e|e]; [unfold MIS, UNB in *; lia|].
    unfold colen. change (0 <=? ANY) with false. change (UNB =? ANY) with false. destruct (Z.leb_spec 0 m) as [l|l].
    + destruct (Z.eqb_spec m ANY) as [e1|e1]; [unfold ANY in *; lia|]. destruct (Z.eqb_spec ANY m); [lia|]. split; auto. cbn [lval]. destruct (Z.eqb_spec n UNB); unfold UNB in *; lia.
    + assert (m = UNB) as -> by lia. change (UNB =? UNB) with true. cbn iota. change (ANY =? ANY) with true. cbn iota. cbn [lval]. rewrite C by lia. destruct (Z.eqb_spec n UNB); [unfold UNB in *; lia|]. auto.
  - change (ANY =? len_s2 ANY ANY) with true. cbn iota. cbn [lval]. rewrite C by lia. destruct (Z.eqb_spec n UNB); [unfold UNB in *; lia|]. auto.
Qed.
Lemma two : forall f n o s (a b : sq), okseq a -> okseq b -> (lval (qlen a) = lval (qlen b) \/ lval (qlen a) = UNB \/ lval (qlen b) = UNB) -> n = clen2 (qlen a) (qlen b) ->
  (forall k, o + k * s = f (qorg a + k * qstep a) (qorg b + k * qstep b)) -> exists q, iota n o s = Good q /\ stands_for q (map2 f (s_ a) (s_ b)).
Proof.
  intros f n o s a b Ha Hb H En E. destruct (clen2_agree a b Ha Hb H) as [O L]. rewrite <- En in O, L. exists (Sq n o s). split.
  - unfold iota. destruct n; auto. destruct (Z.ltb_spec n 0); auto; lia.
  - split; [exact O|]. split; [reflexivity|]. cbn [qlen]. cbn [leaf_lens map2 flat_map sq_iter app Nat.ltb Nat.leb nth len].
    assert (Va : 0 <= lval (qlen a) \/ lval (qlen a) = UNB) by (unfold okseq in Ha; destruct (qlen a); cbn; auto).
    assert (Vb : 0 <= lval (qlen b) \/ lval (qlen b) = UNB) by (unfold okseq in Hb; destruct (qlen b); cbn; auto).
    split; [|split].
    + destruct (Z.eqb_spec (lval (qlen a)) UNB) as [e|e]; split; intros K.
      * constructor; [auto|constructor; [lia|constructor]].
      * inversion K as [|? ? ? F1]; subst. inversion F1; subst. lia.
      * lia.
      * inversion K; subst; lia.
    + intros N. split; [reflexivity|]. cbn [axes map2 sq_iter fold_right Nat.max]. intros k Hk. replace k with 0%nat by lia. cbn [nth leaf_lens map2 sq_iter flat_map app Nat.ltb Nat.leb len].
      destruct (Z.eqb_spec (lval (qlen a)) UNB) as [e|e]; (split; [lia|split; [cbn [In]; lia|]]); constructor; [lia|constructor; [lia|constructor]|lia|constructor; [lia|constructor]].
    + intros k w. cbn. unfold ret. f_equal. f_equal. rewrite !Z.add_0_r. apply E.
Qed.
Theorem C37_add : forall a b, okseq a -> okseq b -> (lval (qlen a) = lval (qlen b) \/ lval (qlen a) = UNB \/ lval (qlen b) = UNB) ->
  exists q, opt_add a b = Good q /\ stands_for q (map2 Z.add (s_ a) (s_ b)).
Proof. intros. apply two; auto. intros. lia. Qed.
Theorem C37_sub : forall a b, okseq a -> okseq b -> (lval (qlen a) = lval (qlen b) \/ lval (qlen a) = UNB \/ lval (qlen b) = UNB) ->
  exists q, opt_sub a b = Good q /\ stands_for q (map2 Z.sub (s_ a) (s_ b)).
Proof. intros. apply two; auto. intros. lia. Qed.
End C37.

(* A traversal of the sequence gives the elements of the expression in order, and if it has no end it's refused. *)
Theorem C37_traversal : forall T W q (e : expr (val T) W), stands_for q e ->
  (lval (qlen q) = UNB -> sq_list q = Refused) /\
  (lval (qlen q) <> UNB -> exists xs, sq_list q = Good xs /\ forall w, in_order (map (element e) (indices [lval (qlen q)])) w = Ok (map VI xs) w).
Proof.
  intros T W q e (O & A & U & S & E). split; intros H.
  - unfold sq_list, sq_validate. unfold okseq in O. destruct (qlen q) as [n|n]; cbn [lval] in *; [rewrite H; reflexivity|]. unfold UNB in H. lia.
  - exists (map (fun k => qorg q + k * qstep q) (zrange (lval (qlen q)))). split.
    + unfold sq_list, sq_validate. unfold okseq in O. destruct (qlen q) as [n|n]; cbn [lval] in *; [destruct (Z.eqb_spec n UNB); [contradiction|reflexivity]|]. destruct (Z.leb_spec 0 n); [reflexivity|lia].
    + intros w. replace (indices [lval (qlen q)]) with (map (fun k => [k]) (zrange (lval (qlen q)))) by (cbn [indices]; generalize (zrange (lval (qlen q))); intros l; induction l as [|k l IH]; [reflexivity|]; cbn [map flat_map app]; rewrite IH; reflexivity).
      generalize (zrange (lval (qlen q))). intros l. induction l as [|k l IH]; [reflexivity|]. cbn [map in_order]. rewrite <- E. cbn [sq_iter element firstn place step]. rewrite IH. do 3 f_equal. f_equal. lia.
Qed.
Example C37_ex : okseq (Sq (Run 4) 10 3) /\ okseq (Sq (Lit UNB) 0 1) /\ opt_add (Sq (Run 4) 10 3) (Sq (Lit UNB) 0 1) = Good (Sq (Run 4) 10 4) /\
  opt_sub_k_sq 2 (Sq (Run 4) 10 3) = Good (Sq (Run 4) (-8) (-3)) /\ element (map2 Z.sub (Scalar (VI 2)) (sq_iter (Sq (Run 4) 10 3))) [2] tt = Ok (VI (-14) : val Z) tt.
Proof. repeat split; cbn; auto; lia. Qed.

(* ---- C63 ---- *)
(* Run time lengths that don't agree are refused. *)
Theorem C63_run_partial : forall T W a b n m, qlen a = Run n -> qlen b = Run m -> 0 <= n -> 0 <= m -> n <> m ->
  ~ agreeing [map2 (T:=T) (W:=W) Z.add (sq_iter a) (sq_iter b)] /\ opt_add a b = Refused /\ opt_sub a b = Refused.
Proof.
  intros T W a b n m Ea Eb Hn Hm H. split.
  - intros A. destruct (A 0%nat) as (l & Hl & HI & F); [cbn; lia|]. cbn in F. rewrite Ea, Eb in F. cbn in F. inversion F as [|? ? F1 F2]; subst. inversion F2; subst. unfold UNB in *. lia.
  - unfold opt_add, opt_sub. rewrite Ea, Eb. assert (E : clen2 (Run n) (Run m) = Run MIS).
    { unfold clen2, len_s2, len2, colen. cbn [lstat lval]. unfold UNB, ANY, MIS.
      repeat (match goal with |- context [if ?b then _ else _] => lazymatch b with context [if _ then _ else _] => fail | _ => destruct b eqn:? end end; cbn [lval] in *); try lia; try reflexivity. }
    rewrite E. split; reflexivity.
Qed.
(* A static and a run time length that don't agree: the run time length isn't checked. Two static lengths: the result has the length MIS, which isn't refused, and it's traversed as an empty one. *)
Theorem C63_mismatch_refuted :
  (exists a b, okseq a /\ okseq b /\ ~ agreeing [map2 (T:=Z) (W:=unit) Z.add (sq_iter a) (sq_iter b)] /\ exists q, opt_add a b = Good q /\ sq_list q = Good [0; 2; 4]) /\
  (exists a b, okseq a /\ okseq b /\ ~ agreeing [map2 (T:=Z) (W:=unit) Z.add (sq_iter a) (sq_iter b)] /\ exists q, opt_add a b = Good q /\ lval (qlen q) < 0 /\ sq_list q = Good []).
Proof.
  split; [exists (Sq (Lit 3) 0 1), (Sq (Run 4) 0 1)|exists (Sq (Lit 3) 0 1), (Sq (Lit 4) 0 1)];
    (split; [cbn; lia|split; [cbn; lia|split]]).
  1, 3: intros A; destruct (A 0%nat) as (l & Hl & HI & F); [cbn; lia|]; cbn in F; inversion F as [|? ? F1 F2]; subst; inversion F2; subst; unfold UNB in *; lia.
  - eexists. split; [reflexivity|]. reflexivity.
  - eexists. split; [reflexivity|]. split; reflexivity.
Qed.
Example C63_ex : opt_add (Sq (Run 3) 0 1) (Sq (Run 4) 0 1) = Refused.
Proof. reflexivity. Qed.

(* ---- C64 ---- *)
(* x is a value of type t *)
Definition fits (t : ity) (x : Z) : Prop :=
  match t with I32 => -2147483648 <= x <= 2147483647 | U32 => 0 <= x <= 4294967295 | I64 => -9223372036854775808 <= x <= 9223372036854775807 | U64 => 0 <= x <= 18446744073709551615 end.
(* The sequence q doesn't leave its type, and neither do the offsets (signed types only) *)
Definition exactly (q : mq) : Prop :=
  forall k, 0 <= k < mlen q -> fits I64 (k * mstep q) /\ fits (mty q) (morg q + k * mstep q) /\ (signed (mty q) = true -> fits (mty q) (k * mstep q)).
Definition value (q : mq) (k : Z) : Z := morg q + k * mstep q.

Lemma conv_fits : forall t x, fits t x <-> conv t x = x.
Proof.
  intros t x. unfold fits, conv. destruct t; cbn [signed bits];
    [change (2 ^ (32 - 1)) with 2147483648; change (2 ^ 32) with 4294967296|change (2 ^ 32) with 4294967296|
     change (2 ^ (64 - 1)) with 9223372036854775808; change (2 ^ 64) with 18446744073709551616|change (2 ^ 64) with 18446744073709551616];
    (split; [intros H; rewrite Z.mod_small by lia; lia|intros H; match goal with H : context [?a mod ?b] |- _ => pose proof (Z.mod_pos_bound a b ltac:(lia)) end; lia]).
Qed.
Lemma conv_ex : forall t x, exists z, conv t x = x + z * 2 ^ bits t.
Proof.
  intros t x. unfold conv. destruct (signed t).
  - exists (- ((x + 2 ^ (bits t - 1)) / 2 ^ bits t)). rewrite Zmod_eq_full by (destruct t; discriminate). lia.
  - exists (- (x / 2 ^ bits t)). rewrite Zmod_eq_full by (destruct t; discriminate). lia.
Qed.
Lemma conv_eq : forall t x y z, x = y + z * 2 ^ bits t -> conv t x = conv t y.
Proof.
  intros t x y z ->. unfold conv. destruct (signed t).
  - replace (y + z * 2 ^ bits t + 2 ^ (bits t - 1)) with (y + 2 ^ (bits t - 1) + z * 2 ^ bits t) by lia. rewrite Z_mod_plus_full. reflexivity.
  - rewrite Z_mod_plus_full. reflexivity.
Qed.
Lemma arith_fits : forall t x, fits t x -> arith t x = Some x.
Proof. intros t x H. apply conv_fits in H. unfold arith. rewrite H, Z.eqb_refl. destruct (signed t); reflexivity. Qed.
Lemma mop_fits : forall f t x y, fits t x -> fits t y -> fits t (f x y) -> mop f t x y = Some (f x y).
Proof. intros. unfold mop. rewrite (proj1 (conv_fits t x)), (proj1 (conv_fits t y)) by auto. apply arith_fits; auto. Qed.
Lemma exactly_mat : forall q k, exactly q -> 0 <= k < mlen q -> mat q k = Some (value q k).
Proof.
  intros q k H Hk. destruct (H k Hk) as (F1 & F2 & F3). unfold mat, value. rewrite (arith_fits I64) by auto. cbn [obind]. destruct (signed (mty q)) eqn:S.
  - rewrite (proj1 (conv_fits _ _)) by auto. apply arith_fits; auto.
  - unfold arith. rewrite S. f_equal. transitivity (conv (mty q) (morg q + k * mstep q)); [|apply conv_fits; auto].
    destruct (conv_ex (mty q) (k * mstep q)) as (z & ->). apply (conv_eq _ _ _ z). lia.
Qed.
Lemma exactly_org : forall q, exactly q -> 0 < mlen q -> fits (mty q) (morg q).
Proof. intros q H Hn. destruct (H 0) as (_ & F & _); [lia|]. rewrite Z.mul_0_l, Z.add_0_r in F. exact F. Qed.

(* Nothing overflows: the same values. *)
Theorem C64_exact_k : forall q t c, exactly q -> 0 < mlen q -> fits (common (mty q) t) c -> fits I64 (mstep q) ->
  (forall k, 0 <= k < mlen q -> fits (common (mty q) t) (value q k)) ->
  (exactly (Mq (common (mty q) t) (morg q + c) (mstep q) (mlen q)) ->
     exists q', mopt_add_k q t c = Some q' /\ mlen q' = mlen q /\ forall k, 0 <= k < mlen q -> mat q' k = Some (value q k + c) /\ mel_k Z.add q t c k = Some (value q k + c)) /\
  (exactly (Mq (common (mty q) t) (morg q - c) (mstep q) (mlen q)) ->
     exists q', mopt_sub_k q t c = Some q' /\ mlen q' = mlen q /\ forall k, 0 <= k < mlen q -> mat q' k = Some (value q k - c) /\ mel_k Z.sub q t c k = Some (value q k - c)) /\
  (exactly (Mq (common (mty q) t) (c - morg q) (- mstep q) (mlen q)) -> fits I64 (- mstep q) ->
     exists q', mopt_k_sub t c q = Some q' /\ mlen q' = mlen q /\ forall k, 0 <= k < mlen q -> mat q' k = Some (c - value q k) /\ mel_k (fun x y => y - x) q t c k = Some (c - value q k)) /\
  (exactly (Mq (common (mty q) t) (morg q * c) (mstep q * c) (mlen q)) -> fits (common I64 t) c -> fits (common I64 t) (mstep q) -> fits (common I64 t) (mstep q * c) -> fits I64 (mstep q * c) ->
     exists q', mopt_mul_k q t c = Some q' /\ mlen q' = mlen q /\ forall k, 0 <= k < mlen q -> mat q' k = Some (value q k * c) /\ mel_k Z.mul q t c k = Some (value q k * c)).
Proof.
  intros q t c Hq Hn Hc Hs Hr. assert (Ho : fits (common (mty q) t) (morg q)) by (specialize (Hr 0); unfold value in Hr; rewrite Z.mul_0_l, Z.add_0_r in Hr; apply Hr; lia).
  repeat split.
  - intros Hx. pose proof (exactly_org _ Hx Hn) as Fo. cbn in Fo. unfold mopt_add_k. rewrite mop_fits by auto. cbn [obind]. eexists. split; [reflexivity|]. split; [reflexivity|]. intros k Hk.
    rewrite (exactly_mat _ k Hx Hk). unfold mel_k. rewrite (exactly_mat q k Hq Hk). cbn [obind]. unfold value at 1. cbn [morg mstep]. split; [f_equal; unfold value; lia|].
    apply mop_fits; auto. destruct (Hx k Hk) as (_ & F & _). cbn [mty morg mstep] in F. unfold value. replace (morg q + k * mstep q + c) with (morg q + c + k * mstep q) by lia. exact F.
  - intros Hx. pose proof (exactly_org _ Hx Hn) as Fo. cbn in Fo. unfold mopt_sub_k. rewrite mop_fits by auto. cbn [obind]. eexists. split; [reflexivity|]. split; [reflexivity|]. intros k Hk.
    rewrite (exactly_mat _ k Hx Hk). unfold mel_k. rewrite (exactly_mat q k Hq Hk). cbn [obind]. unfold value at 1. cbn [morg mstep]. split; [f_equal; unfold value; lia|].
    apply mop_fits; auto. destruct (Hx k Hk) as (_ & F & _). cbn [mty morg mstep] in F. unfold value. replace (morg q + k * mstep q - c) with (morg q - c + k * mstep q) by lia. exact F.
  - intros Hx Hs'. pose proof (exactly_org _ Hx Hn) as Fo. cbn in Fo. unfold mopt_k_sub. rewrite mop_fits by auto. cbn [obind]. rewrite (arith_fits I64) by (rewrite Z.sub_0_l; auto). cbn [obind].
    rewrite Z.sub_0_l. eexists. split; [reflexivity|]. split; [reflexivity|]. intros k Hk.
    rewrite (exactly_mat _ k Hx Hk). unfold mel_k. rewrite (exactly_mat q k Hq Hk). cbn [obind]. unfold value at 1. cbn [morg mstep]. split; [f_equal; unfold value; lia|].
    apply (mop_fits (fun x y => y - x)); auto. destruct (Hx k Hk) as (_ & F & _). cbn [mty morg mstep] in F. unfold value. replace (c - (morg q + k * mstep q)) with (c - morg q + k * - mstep q) by lia. exact F.
  - intros Hx Hc' H1 H2 H3. pose proof (exactly_org _ Hx Hn) as Fo. cbn in Fo. unfold mopt_mul_k. rewrite mop_fits by auto. cbn [obind]. rewrite mop_fits by auto. cbn [obind].
    rewrite (proj1 (conv_fits I64 _) H3). eexists. split; [reflexivity|]. split; [reflexivity|]. intros k Hk.
    rewrite (exactly_mat _ k Hx Hk). unfold mel_k. rewrite (exactly_mat q k Hq Hk). cbn [obind]. unfold value at 1. cbn [morg mstep]. split; [f_equal; unfold value; lia|].
    apply mop_fits; auto. destruct (Hx k Hk) as (_ & F & _). cbn [mty morg mstep] in F. unfold value. replace ((morg q + k * mstep q) * c) with (morg q * c + k * (mstep q * c)) by lia. exact F.
Qed.
Theorem C64_exact : forall p q, exactly p -> exactly q -> mlen p = mlen q -> 0 < mlen p ->
  (forall k, 0 <= k < mlen p -> fits (common (mty p) (mty q)) (value p k) /\ fits (common (mty p) (mty q)) (value q k)) ->
  (exactly (Mq (common (mty p) (mty q)) (morg p + morg q) (mstep p + mstep q) (mlen p)) -> fits I64 (mstep p + mstep q) ->
     exists r, mopt_add p q = Some r /\ mlen r = mlen p /\ forall k, 0 <= k < mlen p -> mat r k = Some (value p k + value q k) /\ mel Z.add p q k = Some (value p k + value q k)) /\
  (exactly (Mq (common (mty p) (mty q)) (morg p - morg q) (mstep p - mstep q) (mlen p)) -> fits I64 (mstep p - mstep q) ->
     exists r, mopt_sub p q = Some r /\ mlen r = mlen p /\ forall k, 0 <= k < mlen p -> mat r k = Some (value p k - value q k) /\ mel Z.sub p q k = Some (value p k - value q k)).
Proof.
  intros p q Hp Hq El Hn Hr. assert (Ho : fits (common (mty p) (mty q)) (morg p) /\ fits (common (mty p) (mty q)) (morg q)) by (specialize (Hr 0); unfold value in Hr; rewrite !Z.mul_0_l, !Z.add_0_r in Hr; apply Hr; lia).
  destruct Ho as [Ho1 Ho2]. split; intros Hx Hs.
  - pose proof (exactly_org _ Hx Hn) as Fo. cbn in Fo. unfold mopt_add. rewrite mop_fits by auto. cbn [obind]. rewrite (arith_fits I64) by auto. cbn [obind]. eexists. split; [reflexivity|]. split; [reflexivity|]. intros k Hk.
    destruct (Hr k Hk). rewrite (exactly_mat _ k Hx Hk). unfold mel. rewrite (exactly_mat p k Hp Hk), (exactly_mat q k Hq) by lia. cbn [obind]. unfold value at 1. cbn [morg mstep]. split; [f_equal; unfold value; lia|].
    apply mop_fits; auto. destruct (Hx k Hk) as (_ & F & _). cbn [mty morg mstep] in F. unfold value. replace (morg p + k * mstep p + (morg q + k * mstep q)) with (morg p + morg q + k * (mstep p + mstep q)) by lia. exact F.
  - pose proof (exactly_org _ Hx Hn) as Fo. cbn in Fo. unfold mopt_sub. rewrite mop_fits by auto. cbn [obind]. rewrite (arith_fits I64) by auto. cbn [obind]. eexists. split; [reflexivity|]. split; [reflexivity|]. intros k Hk.
    destruct (Hr k Hk). rewrite (exactly_mat _ k Hx Hk). unfold mel. rewrite (exactly_mat p k Hp Hk), (exactly_mat q k Hq) by lia. cbn [obind]. unfold value at 1. cbn [morg mstep]. split; [f_equal; unfold value; lia|].
    apply mop_fits; auto. destruct (Hx k Hk) as (_ & F & _). cbn [mty morg mstep] in F. unfold value. replace (morg p + k * mstep p - (morg q + k * mstep q)) with (morg p - morg q + k * (mstep p - mstep q)) by lia. exact F.
Qed.

(* Unsigned results, with the same size as the sequences: the same values, whether they wrap around or not. *)
Lemma arith_some : forall t x y, arith t x = Some y -> exists z, y = x + z * 2 ^ bits t.
Proof.
  intros t x y H. unfold arith in H. destruct (conv_ex t x) as (z & E). destruct (signed t).
  - destruct (conv t x =? x); [|discriminate]. inversion H; subst. exists 0. lia.
  - inversion H; subst. exists z. exact E.
Qed.
Lemma arith_64 : forall x y, arith I64 x = Some y -> y = x /\ fits I64 x.
Proof.
  intros x y H. unfold arith in H. cbn [signed] in H. destruct (Z.eqb_spec (conv I64 x) x) as [E|E]; [|discriminate]. inversion H. subst y. split; auto. apply conv_fits; auto.
Qed.
Lemma mat_mod : forall q k x, mat q k = Some x -> fits I64 (k * mstep q) /\ exists z, x = morg q + k * mstep q + z * 2 ^ bits (mty q).
Proof.
  intros q k x H. unfold mat in H. destruct (arith I64 (k * mstep q)) as [d|] eqn:E; [|discriminate]. apply arith_64 in E as [-> E]. cbn [obind] in H. split; auto.
  apply arith_some in H as (z & ->). destruct (conv_ex (mty q) (k * mstep q)) as (z' & ->). exists (z + z'). lia.
Qed.
Lemma arith_u : forall t x, signed t = false -> arith t x = Some (conv t x).
Proof. intros t x H. unfold arith. rewrite H. reflexivity. Qed.
Lemma mat_u : forall r o s n k, signed r = false -> fits I64 (k * s) -> exists z, mat (Mq r o s n) k = Some (conv r (o + k * s + z * 2 ^ bits r)).
Proof.
  intros r o s n k Hr F. unfold mat. cbn [mstep mty morg]. rewrite (arith_fits I64) by auto. cbn [obind]. rewrite (arith_u r) by auto. destruct (conv_ex r (k * s)) as (z & ->). exists z. f_equal. f_equal. lia.
Qed.
Ltac getmat E q k v := unfold mel_k, mel, mel_neg in E; destruct (mat q k) as [v|] eqn:?; [|discriminate]; cbn [obind] in E.

Theorem C64_unsigned_k : forall q t c k v, let r := common (mty q) t in signed r = false -> bits (mty q) = bits r ->
  (mel_k Z.add q t c k = Some v -> exists q', mopt_add_k q t c = Some q' /\ mlen q' = mlen q /\ mat q' k = Some v) /\
  (mel_k Z.sub q t c k = Some v -> exists q', mopt_sub_k q t c = Some q' /\ mlen q' = mlen q /\ mat q' k = Some v) /\
  (mel_k (fun x y => y - x) q t c k = Some v -> fits I64 (- mstep q) -> fits I64 (k * - mstep q) -> exists q', mopt_k_sub t c q = Some q' /\ mlen q' = mlen q /\ mat q' k = Some v) /\
  (mel_k Z.mul q t c k = Some v -> fits (common I64 t) (mstep q) -> fits (common I64 t) c -> fits (common I64 t) (mstep q * c) -> fits I64 (mstep q * c) -> fits I64 (k * (mstep q * c)) ->
     exists q', mopt_mul_k q t c = Some q' /\ mlen q' = mlen q /\ mat q' k = Some v).
Proof.
  intros q t c k v r Hr Hb. repeat split.
  - intros E. getmat E q k x. apply mat_mod in Heqo as (F & z & ->). unfold mop in E. fold r in E. rewrite arith_u in E by auto. inversion E; subst v; clear E.
    unfold mopt_add_k, mop. fold r. rewrite arith_u by auto. cbn [obind]. eexists. split; [reflexivity|]. split; [reflexivity|].
    destruct (mat_u r (conv r (conv r (morg q) + conv r c)) (mstep q) (mlen q) k Hr F) as (z1 & ->). f_equal.
    destruct (conv_ex r (conv r (morg q) + conv r c)) as (z2 & ->), (conv_ex r (morg q)) as (z3 & ->), (conv_ex r (morg q + k * mstep q + z * 2 ^ bits (mty q))) as (z4 & ->).
    rewrite Hb. apply (conv_eq _ _ _ (z3 + z2 + z1 - z - z4)). ring.
  - intros E. getmat E q k x. apply mat_mod in Heqo as (F & z & ->). unfold mop in E. fold r in E. rewrite arith_u in E by auto. inversion E; subst v; clear E.
    unfold mopt_sub_k, mop. fold r. rewrite arith_u by auto. cbn [obind]. eexists. split; [reflexivity|]. split; [reflexivity|].
    destruct (mat_u r (conv r (conv r (morg q) - conv r c)) (mstep q) (mlen q) k Hr F) as (z1 & ->). f_equal.
    destruct (conv_ex r (conv r (morg q) - conv r c)) as (z2 & ->), (conv_ex r (morg q)) as (z3 & ->), (conv_ex r (morg q + k * mstep q + z * 2 ^ bits (mty q))) as (z4 & ->).
    rewrite Hb. apply (conv_eq _ _ _ (z3 + z2 + z1 - z - z4)). ring.
  - intros E F1 F2. getmat E q k x. apply mat_mod in Heqo as (F & z & ->). unfold mop in E. fold r in E. rewrite arith_u in E by auto. inversion E; subst v; clear E.
    unfold mopt_k_sub, mop. fold r. rewrite arith_u by auto. cbn [obind]. rewrite Z.sub_0_l, (arith_fits I64) by auto. cbn [obind]. eexists. split; [reflexivity|]. split; [reflexivity|].
    destruct (mat_u r (conv r (conv r c - conv r (morg q))) (- mstep q) (mlen q) k Hr F2) as (z1 & ->). f_equal.
    destruct (conv_ex r (conv r c - conv r (morg q))) as (z2 & ->), (conv_ex r (morg q)) as (z3 & ->), (conv_ex r (morg q + k * mstep q + z * 2 ^ bits (mty q))) as (z4 & ->).
    rewrite Hb. apply (conv_eq _ _ _ (- z3 + z2 + z1 + z + z4)). ring.
  - intros E F1 F2 F3 F4 F5. getmat E q k x. apply mat_mod in Heqo as (F & z & ->). unfold mop in E. fold r in E. rewrite arith_u in E by auto. inversion E; subst v; clear E.
    unfold mopt_mul_k. fold r. rewrite (mop_fits Z.mul (common I64 t)) by auto. unfold mop. rewrite arith_u by auto. cbn [obind]. rewrite (proj1 (conv_fits I64 _) F4). eexists. split; [reflexivity|]. split; [reflexivity|].
    destruct (mat_u r (conv r (conv r (morg q) * conv r c)) (mstep q * c) (mlen q) k Hr F5) as (z1 & ->). f_equal.
    destruct (conv_ex r (conv r (morg q) * conv r c)) as (z2 & ->), (conv_ex r (morg q)) as (z3 & ->), (conv_ex r c) as (z5 & ->), (conv_ex r (morg q + k * mstep q + z * 2 ^ bits (mty q))) as (z4 & ->).
    rewrite Hb. apply (conv_eq _ _ _ (z3 * (c + z5 * 2 ^ bits r) + z2 + z1 - (z + z4) * (c + z5 * 2 ^ bits r) - k * mstep q * z5)). ring.
Qed.
Theorem C64_unsigned : forall p q k v, let r := common (mty p) (mty q) in signed r = false -> bits (mty p) = bits r -> bits (mty q) = bits r ->
  (mel Z.add p q k = Some v -> fits I64 (mstep p + mstep q) -> fits I64 (k * (mstep p + mstep q)) -> exists r', mopt_add p q = Some r' /\ mlen r' = mlen p /\ mat r' k = Some v) /\
  (mel Z.sub p q k = Some v -> fits I64 (mstep p - mstep q) -> fits I64 (k * (mstep p - mstep q)) -> exists r', mopt_sub p q = Some r' /\ mlen r' = mlen p /\ mat r' k = Some v).
Proof.
  intros p q k v r Hr Hb Hb'. split; intros E F1 F2; unfold mel in E; destruct (mat p k) as [x|] eqn:Ex; try discriminate; cbn [obind] in E; destruct (mat q k) as [y|] eqn:Ey; try discriminate; cbn [obind] in E;
    apply mat_mod in Ex as (F & z & ->); apply mat_mod in Ey as (F' & z' & ->); unfold mop in E; fold r in E; rewrite arith_u in E by auto; inversion E; subst v; clear E.
  - unfold mopt_add, mop. fold r. rewrite arith_u by auto. cbn [obind]. rewrite (arith_fits I64) by auto. cbn [obind]. eexists. split; [reflexivity|]. split; [reflexivity|].
    destruct (mat_u r (conv r (conv r (morg p) + conv r (morg q))) (mstep p + mstep q) (mlen p) k Hr F2) as (z1 & ->). f_equal.
    destruct (conv_ex r (conv r (morg p) + conv r (morg q))) as (z2 & ->), (conv_ex r (morg p)) as (z3 & ->), (conv_ex r (morg q)) as (z4 & ->),
      (conv_ex r (morg p + k * mstep p + z * 2 ^ bits (mty p))) as (z5 & ->), (conv_ex r (morg q + k * mstep q + z' * 2 ^ bits (mty q))) as (z6 & ->).
    rewrite Hb, Hb'. apply (conv_eq _ _ _ (z3 + z4 + z2 + z1 - z - z' - z5 - z6)). ring.
  - unfold mopt_sub, mop. fold r. rewrite arith_u by auto. cbn [obind]. rewrite (arith_fits I64) by auto. cbn [obind]. eexists. split; [reflexivity|]. split; [reflexivity|].
    destruct (mat_u r (conv r (conv r (morg p) - conv r (morg q))) (mstep p - mstep q) (mlen p) k Hr F2) as (z1 & ->). f_equal.
    destruct (conv_ex r (conv r (morg p) - conv r (morg q))) as (z2 & ->), (conv_ex r (morg p)) as (z3 & ->), (conv_ex r (morg q)) as (z4 & ->),
      (conv_ex r (morg p + k * mstep p + z * 2 ^ bits (mty p))) as (z5 & ->), (conv_ex r (morg q + k * mstep q + z' * 2 ^ bits (mty q))) as (z6 & ->).
    rewrite Hb, Hb'. apply (conv_eq _ _ _ (z3 - z4 + z2 + z1 - z + z' - z5 + z6)). ring.
Qed.

Theorem C64_neg : forall q, fits I64 (- mstep q) ->
  (exactly q -> exactly (Mq (mty q) (- morg q) (- mstep q) (mlen q)) -> 0 < mlen q ->
     exists q', mopt_neg q = Some q' /\ mlen q' = mlen q /\ forall k, 0 <= k < mlen q -> mat q' k = Some (- value q k) /\ mel_neg q k = Some (- value q k)) /\
  (signed (mty q) = false -> exists q', mopt_neg q = Some q' /\ mlen q' = mlen q /\ forall k v, fits I64 (k * - mstep q) -> mel_neg q k = Some v -> mat q' k = Some v).
Proof.
  intros q Hs. split.
  - intros Hq Hx Hn. pose proof (exactly_org _ Hx Hn) as Fo. cbn [mty morg] in Fo. unfold mopt_neg. rewrite arith_fits by auto. cbn [obind]. rewrite Z.sub_0_l, (arith_fits I64) by auto. cbn [obind].
    eexists. split; [reflexivity|]. split; [reflexivity|]. intros k Hk. rewrite (exactly_mat _ k Hx Hk). unfold mel_neg. rewrite (exactly_mat q k Hq Hk). cbn [obind].
    unfold value at 1. cbn [morg mstep]. split; [f_equal; unfold value; lia|]. apply arith_fits. destruct (Hx k Hk) as (_ & F & _). cbn [mty morg mstep] in F.
    unfold value. replace (- (morg q + k * mstep q)) with (- morg q + k * - mstep q) by lia. exact F.
  - intros Hu. unfold mopt_neg. rewrite arith_u by auto. cbn [obind]. rewrite Z.sub_0_l, (arith_fits I64) by auto. cbn [obind]. eexists. split; [reflexivity|]. split; [reflexivity|].
    intros k v F E. unfold mel_neg in E. destruct (mat q k) as [x|] eqn:Ex; [|discriminate]. cbn [obind] in E. rewrite arith_u in E by auto. inversion E; subst v; clear E.
    apply mat_mod in Ex as (F' & z & ->). destruct (mat_u (mty q) (conv (mty q) (- morg q)) (- mstep q) (mlen q) k Hu F) as (z1 & ->). f_equal.
    destruct (conv_ex (mty q) (- morg q)) as (z2 & ->). apply (conv_eq _ _ _ (z + z1 + z2)). ring.
Qed.

(* -iota(4, 0u) + 1L: with optimization 1 0 -1 -2, elementwise 1 2^32 2^32-1 2^32-2 *)
Theorem C64_wrap_refuted : exists p q t c k q' v, mopt_neg p = Some q /\ mopt_add_k q t c = Some q' /\ mat q' k = Some 0 /\ mel_k Z.add q t c k = Some v /\ v = 2 ^ 32.
Proof. exists (Mq U32 0 1 4), (Mq U32 0 (-1) 4), I64, 1, 1. eexists. eexists. repeat split; reflexivity. Qed.
(* iota(2, -1000000000, 2000000000) * 2, of int: with optimization the second element overflows, elementwise nothing does *)
Theorem C64_overflow_refuted : exists q t c k q', exactly q /\ mopt_mul_k q t c = Some q' /\ mat q' k = None /\ mel_k Z.mul q t c k = Some 2000000000.
Proof.
  exists (Mq I32 (-1000000000) 2000000000 2), I32, 2, 1. eexists. split; [|repeat split; reflexivity].
  intros k Hk. cbn [mty morg mstep mlen signed fits] in *. lia.
Qed.
(* iota(0, INT_MAX) + 1: with optimization the origin overflows, elementwise there's nothing to compute *)
Theorem C64_empty_refuted : exists q t c, exactly q /\ mlen q = 0 /\ mopt_add_k q t c = None.
Proof. exists (Mq I32 2147483647 1 0), I32, 1. split; [intros k Hk; cbn [mlen] in Hk; lia|]. split; reflexivity. Qed.

(* the type of the result is as wide as the wider of both, and it's signed if those of its width are signed *)
Theorem C64_type : forall s t, bits (common s t) = Z.max (bits s) (bits t) /\
  (signed (common s t) = true <-> forall u, u = s \/ u = t -> bits u = Z.max (bits s) (bits t) -> signed u = true).
Proof.
  intros s t. split; [destruct s, t; reflexivity|]. split.
  - intros H u [E|E]; subst u; destruct s, t; cbn in *; auto; discriminate.
  - intros H. pose proof (H s (or_introl eq_refl)) as H1. pose proof (H t (or_intror eq_refl)) as H2. destruct s, t; cbn in *; auto.
Qed.
Example C64_exact_ex : exactly (Mq I32 5 (-2) 4) /\ exactly (Mq I64 15 (-2) 4) /\ mopt_add_k (Mq I32 5 (-2) 4) I64 10 = Some (Mq I64 15 (-2) 4) /\
  exactly (Mq U32 10 (-3) 4) /\ mat (Mq U32 10 (-3) 4) 3 = Some 1.
Proof. split; [intros k Hk; cbn [mty morg mstep mlen signed fits] in *; lia|]. split; [intros k Hk; cbn [mty morg mstep mlen signed fits] in *; lia|]. split; [reflexivity|]. split; [|reflexivity]. intros k Hk. cbn [mty morg mstep mlen signed fits] in *. split; [lia|]. split; [lia|discriminate]. Qed.
Example C64_unsigned_ex : mel_k Z.sub (Mq U32 1 1 4) I32 2 0 = Some 4294967295 /\ obind (mopt_sub_k (Mq U32 1 1 4) I32 2) (fun q => mat q 0) = Some 4294967295.
Proof. split; reflexivity. Qed.

Print Assumptions C37_add_k.
Print Assumptions C37_k_add.
Print Assumptions C37_sub_k.
Print Assumptions C37_k_sub.
Print Assumptions C37_mul_k.
Print Assumptions C37_k_mul.
Print Assumptions C37_neg.
Print Assumptions C37_add.
Print Assumptions C37_sub.
Print Assumptions C37_traversal.
Print Assumptions C63_run_partial.
Print Assumptions C63_mismatch_refuted.
Print Assumptions C64_type.
Print Assumptions C64_exact_k.
Print Assumptions C64_exact.
Print Assumptions C64_unsigned_k.
Print Assumptions C64_unsigned.
Print Assumptions C64_neg.
Print Assumptions C64_wrap_refuted.
Print Assumptions C64_overflow_refuted.
Print Assumptions C64_empty_refuted.
