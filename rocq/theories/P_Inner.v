(* Properties of input and output of arrays whose elements are arrays: C106, C107. *)
From Coq Require Import ZArith List Lia Bool Ascii String.
From Coq Require Import ZifyBool ZifyNat.
From Verif Require Import Spec L_Spec M_Base M_Expr L_Expr Spec_Expr L_Agree Spec_View M_Array P_Array M_Text Spec_Text L_Text P_Text M_Inner.
Import ListNotations.
Open Scope Z_scope.

(* The object has this type and it has been given a value, with the elements of arrays in row-major order without gaps. Lengths and ranks are std::ptrdiff_t. *)
Fixpoint holds (t : ty) (o : obj) : Prop :=
  match t, o with
  | TInt lo hi, OInt (Some z) => lo <= z <= hi
  | TDual lo hi, ODual (Some x) (Some y) => lo <= x <= hi /\ lo <= y <= hi
  | TFix s t', OArr dv xs => map len dv = s /\ nonneg s /\ Z.of_nat (List.length xs) = zprod s /\ (forall j, inshape j s -> place dv j = rm s j) /\ Forall (holds t') xs
  | TDyn r t', OArr dv xs => match r with Some n => n <> 0%nat /\ List.length dv = n | None => True end /\ nonneg (map len dv) /\ Forall (fun n => n < 2^63) (map len dv) /\ Z.of_nat (List.length dv) < 2^63 /\
      Z.of_nat (List.length xs) = zprod (map len dv) /\ (forall j, inshape j (map len dv) -> place dv j = rm (map len dv) j) /\ Forall (holds t') xs
  | _, _ => False
  end.
(* The object has this type. *)
Fixpoint fits (t : ty) (o : obj) : Prop :=
  match t, o with
  | TInt _ _, OInt _ => True
  | TDual _ _, ODual _ _ => True
  | TFix s t', OArr dv xs => map len dv = s /\ nonneg s /\ Z.of_nat (List.length xs) = zprod s /\ (forall j, inshape j s -> place dv j = rm s j) /\ Forall (fits t') xs
  | TDyn _ _, OArr _ _ => True
  | _, _ => False
  end.
(* The objects have the same shapes and the same elements, at every level. *)
Fixpoint alike (t : ty) (a b : obj) : Prop :=
  match t, a, b with
  | TInt _ _, OInt x, OInt y => x = y
  | TDual _ _, ODual x y, ODual x' y' => x = x' /\ y = y'
  | TFix _ t', OArr dv xs, OArr dw ys | TDyn _ t', OArr dv xs, OArr dw ys =>
    map len dv = map len dw /\ forall j, inshape j (map len dv) -> exists x y, nth_error xs (Z.to_nat (place dv j)) = Some x /\ nth_error ys (Z.to_nat (place dw j)) = Some y /\ alike t' x y
  | _, _, _ => False
  end.
(* the lengths of arrays with static shape aren't negative *)
Fixpoint sensible (t : ty) : Prop := match t with TInt _ _ | TDual _ _ => True | TFix s t' => nonneg s /\ sensible t' | TDyn _ t' => sensible t' end.

(* ---------------- text *)
Lemma packed_elements : forall dv (xs : list obj) w, nonneg (map len dv) -> Z.of_nat (List.length xs) = zprod (map len dv) -> (forall j, inshape j (map len dv) -> place dv j = rm (map len dv) j) ->
  in_order (map (element (cells dv xs)) (indices (map len dv))) w = Ok (map Some xs) w.
Proof.
  intros dv xs w Hn Hl Hp. apply in_order_vals. set (s := map len dv) in *.
  assert (E : map Some xs = map (fun j => nth_error xs (Z.to_nat (rm s j))) (indices s)).
  { rewrite <- (map_map (rm s) (fun p => nth_error xs (Z.to_nat p))). rewrite rm_indices by auto. unfold zrange. rewrite map_map, <- Hl, Nat2Z.id. clear. 
    induction xs as [|x xs IH] using rev_ind; [reflexivity|]. rewrite app_length, Nat.add_1_r, seq_S, !map_app. f_equal.
    - rewrite IH. apply map_ext_in. intros k Hk. apply in_seq in Hk. rewrite nth_error_app1 by lia. auto.
    - cbn [map Nat.add]. rewrite nth_error_app2 by lia. replace (Z.to_nat (Z.of_nat (List.length xs)) - List.length xs)%nat with 0%nat by lia. reflexivity. }
  rewrite E. assert (H : forall js, (forall j, In j js -> inshape j s) -> Forall2 (fun (m : M unit (option obj)) v => forall w, m w = Ok v w) (map (element (cells dv xs)) js) (map (fun j => nth_error xs (Z.to_nat (rm s j))) js)).
  { induction js as [|j js IH]; intros Hj; cbn [map]; constructor; [|apply IH; intros; apply Hj; right; auto]. intros w0. specialize (Hj j (or_introl eq_refl)). cbn [element cells]. rewrite firstn_all.
    pose proof (inshape_length _ _ Hj) as L. unfold s in L. rewrite map_length in L. rewrite firstn_all2 by lia. rewrite Z.add_0_l. rewrite Hp by auto. reflexivity. }
  apply H. intros j. apply in_indices.
Qed.
Lemma cells_ok : forall dv (xs : list obj), nonneg (map len dv) -> wf (cells dv xs) /\ shape_is (cells dv xs) (map len dv).
Proof.
  intros dv xs Hn. assert (W : wf (cells dv xs)).
  { split; [cbn; lia|]. rewrite firstn_all. unfold nonneg in Hn. rewrite Forall_map in Hn. eapply Forall_impl; [|exact Hn]. intros d Hd. left. auto. }
  split; [auto|]. assert (E : shape (cells dv xs) = map len dv).
  { unfold shape, rankn. cbn [rank cells]. rewrite Nat2Z.id. cbn [lene]. apply nth_ext with (d := 0) (d' := 0); [rewrite !map_length, seq_length; auto|]. intros n H. rewrite map_length, seq_length in H.
    rewrite (nth_indep _ 0 (len (nth 0 dv dim0))) by (rewrite map_length, seq_length; auto). rewrite (map_nth (fun k => len (nth k dv dim0)) (seq 0 (List.length dv)) 0%nat). rewrite seq_nth by auto.
    change 0 with (len dim0). rewrite map_nth. reflexivity. }
  rewrite <- E. apply shape_shape_is; [auto|]. apply validate_spec. rewrite E. split; [cbn; lia|]. exact Hn.
Qed.
Lemma print_gen : forall t' dr ds dv xs, nonneg (map len dv) -> Z.of_nat (List.length xs) = zprod (map len dv) -> (forall j, inshape j (map len dv) -> place dv j = rm (map len dv) j) ->
  format (fun x => match x with Some y => print t' y | None => [] end) jstyle dr ds (cells dv xs) tt =
  Ok ((if ds : bool then heading dr (map len dv) else []) ++ layout jstyle (List.length dv) 0 (map len dv) (map (print t') xs)) tt.
Proof.
  intros t' dr ds dv xs Hn Hl Hp. destruct (cells_ok dv xs Hn) as (W & S). rewrite (C43_format _ _ _ _ _ _ _ _ W S), packed_elements by auto. cbn [st_shape jstyle]. rewrite map_map, map_length. reflexivity.
Qed.
Lemma print_fix : forall s t' dv xs, nonneg (map len dv) -> Z.of_nat (List.length xs) = zprod (map len dv) -> (forall j, inshape j (map len dv) -> place dv j = rm (map len dv) j) ->
  print (TFix s t') (OArr dv xs) = layout jstyle (List.length dv) 0 (map len dv) (map (print t') xs).
Proof. intros. cbn [print]. rewrite print_gen by auto. reflexivity. Qed.
Lemma print_dyn : forall r t' dv xs, nonneg (map len dv) -> Z.of_nat (List.length xs) = zprod (map len dv) -> (forall j, inshape j (map len dv) -> place dv j = rm (map len dv) j) ->
  print (TDyn r t') (OArr dv xs) = heading (match r with Some _ => false | None => true end) (map len dv) ++ layout jstyle (List.length dv) 0 (map len dv) (map (print t') xs).
Proof. intros. cbn [print]. rewrite print_gen by auto. reflexivity. Qed.

(* ---------------- reading *)
Lemma read_list_app : forall rd os1 os2 s l s1, read_list rd os1 s = Idone l s1 ->
  read_list rd (os1 ++ os2) s = match read_list rd os2 s1 with Idone m s2 => Idone (l ++ m) s2 | Ifail m s2 => Ifail (l ++ m) s2 | Iundef => Iundef end.
Proof.
  induction os1 as [|o os1 IH]; intros os2 s l s1 H; cbn in *.
  - inversion H; subst. destruct (read_list rd os2 s1); reflexivity.
  - destruct (rd o s) as [y s2| |]; try discriminate. destruct (read_list rd os1 s2) as [m s3| |] eqn:E; try discriminate. inversion H; subst. rewrite (IH _ _ _ _ E). destruct (read_list rd os2 s1); reflexivity.
Qed.

Section Layout.
Variables (rd : obj -> stream -> rin obj) (tx : obj -> text) (ok fit : obj -> Prop) (sm : obj -> obj -> Prop).
Hypothesis each : forall x, ok x -> forall o ws u, fit o -> Forall isspace ws -> separated u -> exists b ws', rd o (Stream (ws ++ tx x ++ u) false) = Idone b (Stream (ws' ++ u) false) /\ Forall isspace ws' /\ sm x b.
Lemma layout_read : forall f r, blank f -> forall s, nonneg s -> forall k xs os ws u, List.length xs = Z.to_nat (zprod s) -> List.length os = List.length xs -> Forall ok xs -> Forall fit os -> Forall isspace ws -> separated u ->
  exists ys ws', read_list rd os (Stream (ws ++ layout f r k s (map tx xs) ++ u) false) = Idone ys (Stream (ws' ++ u) false) /\ Forall isspace ws' /\ Forall2 sm xs ys.
Proof.
  intros f r Hf s Hs. induction Hs as [|n s Hn Hs IH]; intros k xs os ws u Hl Ho Hx Hi Hw Hu.
  - destruct xs as [|x [|y xs]]; try discriminate. destruct os as [|o [|o' os]]; try discriminate. cbn [map layout List.concat]. rewrite app_nil_r. inversion Hx; subst. inversion Hi; subst.
    destruct (each x) with (o := o) (ws := ws) (u := u) as (b & ws' & E & Hw' & Hs'); auto. exists [b], ws'. split; [cbn; rewrite E; reflexivity|]. split; auto.
  - pose proof (zprod_nonneg s Hs) as Hp. set (P := Z.to_nat (zprod s)) in *. cbn [layout]. fold P. destruct (between_space f r k Hf) as (Hg & Ng).
    assert (Hj : forall m xs os ws u, List.length xs = (m * P)%nat -> List.length os = List.length xs -> Forall ok xs -> Forall fit os -> Forall isspace ws -> separated u ->
      exists ys ws', read_list rd os (Stream (ws ++ join (between f r k) (map (layout f r (S k) s) (pieces P m (map tx xs))) ++ u) false) = Idone ys (Stream (ws' ++ u) false) /\ Forall isspace ws' /\ Forall2 sm xs ys).
    { clear xs os ws u Hl Ho Hx Hi Hw Hu. induction m as [|m IHm]; intros xs os ws u Hl Ho Hx Hi Hw Hu.
      - destruct xs; [|discriminate]. destruct os; [|discriminate]. exists [], ws. cbn. auto.
      - cbn [pieces map]. rewrite firstn_map, skipn_map. assert (X1 : Forall ok (firstn P xs) /\ Forall ok (skipn P xs)) by (rewrite <- Forall_app, firstn_skipn; auto).
        assert (I1 : Forall fit (firstn P os) /\ Forall fit (skipn P os)) by (rewrite <- Forall_app, firstn_skipn; auto).
        assert (L1 : List.length (firstn P xs) = P) by (rewrite firstn_length; lia). assert (L2 : List.length (skipn P xs) = (m * P)%nat) by (rewrite skipn_length; lia).
        destruct m as [|m].
        + cbn [pieces map join]. rewrite firstn_all2 by lia. apply IH; auto. lia.
        + set (bs := map (layout f r (S k) s) (pieces P (S m) (map tx (skipn P xs)))). assert (E : join (between f r k) (layout f r (S k) s (map tx (firstn P xs)) :: bs) =
            layout f r (S k) s (map tx (firstn P xs)) ++ between f r k ++ join (between f r k) bs) by reflexivity. rewrite E.
          destruct (IH (S k) (firstn P xs) (firstn P os) ws (between f r k ++ join (between f r k) bs ++ u) L1 ltac:(rewrite !firstn_length; lia) (proj1 X1) (proj1 I1) Hw (space_separated' _ _ Hg Ng)) as (y1 & ws1 & R1 & Hw1 & S1).
          destruct (IHm (skipn P xs) (skipn P os) (ws1 ++ between f r k) u L2 ltac:(rewrite !skipn_length; lia) (proj2 X1) (proj2 I1) ltac:(apply Forall_app; auto) Hu) as (y2 & ws2 & R2 & Hw2 & S2). fold bs in R2.
          exists (y1 ++ y2), ws2. split; [|split; auto].
          * rewrite <- (firstn_skipn P os). rewrite <- !app_assoc. rewrite <- !app_assoc in R2. rewrite (read_list_app _ _ _ _ _ _ R1), R2. reflexivity.
          * rewrite <- (firstn_skipn P xs). apply Forall2_app; auto. }
    assert (Hc : (Z.to_nat n * P = Z.to_nat (zprod (n::s)))%nat) by (cbn [zprod]; rewrite Z2Nat.inj_mul by auto; reflexivity).
    destruct Hf as (Hop & Hcl & _). destruct (Hj (Z.to_nat n) xs os (ws ++ st_open f) (st_close f ++ u)) as (ys & ws' & R & Hw' & S); auto.
    { rewrite Hc. auto. } { apply Forall_app; auto. } { apply space_separated; auto. }
    exists ys, (ws' ++ st_close f). split; [|split; [apply Forall_app; auto|auto]]. rewrite <- !app_assoc in *. exact R.
Qed.
End Layout.

Lemma fresh_fits : forall t, sensible t -> fits t (fresh t).
Proof.
  induction t as [lo hi|lo hi|s t IH|[r|] t IH]; intros H; cbn [fresh fits]; auto. destruct H as (Hs & Ht). destruct (fill_total s [] Hs) as (dv & E). rewrite E. apply fill_spec in E as (_ & _ & L & P).
  rewrite L. repeat split; auto; [rewrite repeat_length; pose proof (zprod_nonneg s Hs); lia|]. apply Forall_forall. intros x Hx. apply repeat_spec in Hx. subst. auto.
Qed.
(* elementwise to index by index *)
Lemma alike_elements : forall (P : obj -> obj -> Prop) xs ys s dv dw, nonneg s -> Z.of_nat (List.length xs) = zprod s -> map len dv = s -> (forall j, inshape j s -> place dv j = rm s j) -> (forall j, inshape j s -> place dw j = rm s j) -> Forall2 P xs ys ->
  forall j, inshape j (map len dv) -> exists x y, nth_error xs (Z.to_nat (place dv j)) = Some x /\ nth_error ys (Z.to_nat (place dw j)) = Some y /\ P x y.
Proof.
  intros P xs ys s dv dw Hn Hl L Pv Pw F j Hj. rewrite L in Hj. rewrite Pv, Pw by auto. pose proof (rm_range _ _ Hj) as R.
  assert (H : forall k, (k < List.length xs)%nat -> exists x y, nth_error xs k = Some x /\ nth_error ys k = Some y /\ P x y).
  { clear -F. induction F as [|x y xs ys Hxy F IH]; cbn; intros k Hk; [lia|]. destruct k; cbn; [eauto|]. apply IH. lia. }
  apply H. lia.
Qed.

(* t has, after any space, a dual number in the format of <<, and then t'. *)
Definition dualnum (lo hi : Z) (t : text) (x y : Z) (t' : text) : Prop :=
  exists ws t1 t2 ws', t = ws ++ "["%char :: t1 /\ Forall isspace ws /\ numeral t1 x t2 /\ lo <= x <= hi /\ numeral t2 y (ws' ++ "]"%char :: t') /\ lo <= y <= hi /\ Forall isspace ws'.
Lemma read_char_at : forall ws c t, Forall isspace ws -> ~ isspace c -> read_char (Stream (ws ++ c::t) false) = (Some c, Stream t false).
Proof. intros ws c t Hw Hc. unfold read_char. cbn [bad rest]. rewrite skip_space_app by auto. cbn [skip_space]. destruct (space c) eqn:E; [apply space_iff in E; contradiction|]. reflexivity. Qed.
Lemma read_dual_good : forall lo hi t x y t' a b, dualnum lo hi t x y t' -> read_dual lo hi a b (Stream t false) = Idone (Some x, Some y) (Stream t' false).
Proof.
  intros lo hi t x y t' a b (ws & t1 & t2 & ws' & -> & Hw & N1 & R1 & N2 & R2 & Hw'). unfold read_dual. rewrite read_char_at by (auto; intros [H|[H|[H|[H|[H|[H|[]]]]]]]; discriminate).
  cbn [Ascii.eqb Bool.eqb negb]. rewrite (read_int_good _ _ _ _ _ N1 R1), (read_int_good _ _ _ _ _ N2 R2). rewrite read_char_at by (auto; intros [H|[H|[H|[H|[H|[H|[]]]]]]]; discriminate). reflexivity.
Qed.
Lemma show_dualnum : forall lo hi ws x y u, Forall isspace ws -> lo <= x <= hi -> lo <= y <= hi -> dualnum lo hi (ws ++ show_dual x y ++ u) x y u.
Proof.
  intros lo hi ws x y u Hw Hx Hy. exists ws, (show_int x ++ " "%char :: show_int y ++ "]"%char :: u), ([" "%char] ++ show_int y ++ "]"%char :: u), []. unfold show_dual.
  split; [cbn; rewrite <- !app_assoc; cbn; rewrite <- !app_assoc; reflexivity|]. split; [auto|]. split; [|split; [auto|split; [|auto]]].
  - apply (show_numeral []); [constructor|]. cbn. unfold decimal. cbn. lia.
  - apply show_numeral; [constructor; [cbn; auto 10|constructor]|]. cbn. unfold decimal. cbn. lia.
Qed.
Lemma round_trip : forall t, sensible t -> forall x, holds t x -> forall o ws u, fits t o -> Forall isspace ws -> separated u ->
  exists b ws', read t o (Stream (ws ++ print t x ++ u) false) = Idone b (Stream (ws' ++ u) false) /\ Forall isspace ws' /\ alike t x b.
Proof.
  induction t as [lo hi|lo hi|s t IH|r t IH]; intros Ht x Hx o ws u Ho Hw Hu.
  - destruct x as [[z|]| |]; try contradiction. cbn [holds] in Hx. cbn [print read]. rewrite (read_int_good lo hi _ z u) by (auto; apply show_numeral; auto). exists (OInt (Some z)), []. cbn. auto.
  - destruct x as [|[x|] [y|]|]; try contradiction. destruct o as [|a b|]; try contradiction. cbn [holds] in Hx. cbn [print read]. rewrite (read_dual_good lo hi _ x y u) by (apply show_dualnum; tauto). exists (ODual (Some x) (Some y)), []. cbn. auto.
  - destruct x as [| |dv xs]; try contradiction. destruct o as [| |dw os]; try contradiction. destruct Ht as (Hs & Ht). cbn [holds] in Hx. destruct Hx as (L & _ & Hl & Pv & Hx). cbn [fits] in Ho. destruct Ho as (Lw & _ & How & Pw & Ho).
    rewrite print_fix by (rewrite L; auto). rewrite L. cbn [read].
    destruct (layout_read (read t) (print t) (holds t) (fits t) (alike t) (fun y => IH Ht y) jstyle (List.length dv) jstyle_blank s Hs 0 xs os ws u) as (ys & ws' & R & Hw' & S); auto; try lia.
    rewrite R. exists (OArr dw ys), ws'. split; [reflexivity|]. split; [auto|]. cbn [alike]. split; [congruence|]. eapply alike_elements; eauto.
  - destruct x as [| |dv xs]; try contradiction. cbn [sensible] in Ht. cbn [holds] in Hx. destruct Hx as (Hr & Hn & Hd & Hrk & Hl & Pv & Hx). rewrite print_dyn by auto. set (s := map len dv) in *.
    set (v := layout jstyle (List.length dv) 0 s (map (print t) xs) ++ u).
    assert (Hs64 : Forall (fun z => lo64 <= z <= hi64) s) by (unfold lo64, hi64, nonneg in *; rewrite Forall_forall in *; intros z Iz; specialize (Hd z Iz); specialize (Hn z Iz); cbn beta in *; lia).
    assert (Hnl : Forall isspace [eol]) by (constructor; [cbn; auto 10|constructor]).
    assert (Hsh : forall ws0, Forall isspace ws0 -> exists ws, Forall isspace ws /\ numerals lo64 hi64 (ws0 ++ join (txt " ") (map show_int s) ++ [eol] ++ v) s (ws ++ v)).
    { intros ws0 H0. destruct (join_numerals lo64 hi64 s ws0 ([eol] ++ v) Hs64 H0 (space_separated' _ _ Hnl ltac:(discriminate))) as (ws1 & Hw1 & N).
      exists (ws1 ++ [eol]). split; [apply Forall_app; auto|]. rewrite <- !app_assoc. exact N. }
    destruct (fill_total s [] Hn) as (dw & Ef).
    assert (Hmake : make r s = Some (@Arr obj dw (repeat None (Z.to_nat (zprod s))))).
    { unfold make. rewrite Ef. replace (match r with Some n => Nat.eqb (List.length s) n | None => true end) with true; auto. destruct r as [n|]; auto. symmetry. apply Nat.eqb_eq. unfold s. rewrite map_length. apply Hr. }
    assert (Hpos : forallb (fun n => n >=? 0) s = true) by (apply forallb_forall; intros y Hy; unfold nonneg in Hn; rewrite Forall_forall in Hn; specialize (Hn y Hy); lia).
    assert (Hback : map (fun o => match o with Some z => z | None => 0 end) (map Some s) = s) by (rewrite map_map; apply map_id).
    apply fill_spec in Ef as (_ & _ & Lw & Pw).
    assert (Hfin : forall ws, Forall isspace ws -> exists b ws', match read_list (read t) (repeat (fresh t) (Z.to_nat (zprod s))) (Stream (ws ++ v) false) with Idone l s2 => Idone (OArr dw l) s2 | Ifail l s2 => Ifail (OArr dw l) s2 | Iundef => Iundef end =
      Idone b (Stream (ws' ++ u) false) /\ Forall isspace ws' /\ alike (TDyn r t) (OArr dv xs) b).
    { intros ws1 Hw1. destruct (layout_read (read t) (print t) (holds t) (fits t) (alike t) (fun y => IH Ht y) jstyle (List.length dv) jstyle_blank s Hn 0 xs (repeat (fresh t) (Z.to_nat (zprod s))) ws1 u) as (ys & ws' & R & Hw' & S); auto; try lia.
      { rewrite repeat_length. lia. } { apply Forall_forall. intros y Hy. apply repeat_spec in Hy. subst. apply fresh_fits. auto. }
      unfold v. rewrite R. exists (OArr dw ys), ws'. split; [reflexivity|]. split; [auto|]. cbn [alike]. split; [fold s; congruence|]. eapply alike_elements; eauto. }
    cbn [read]. destruct r as [n|].
    + destruct Hr as (Hr0 & Hr). cbn [heading app]. rewrite <- !app_assoc. fold v. destruct (Hsh ws Hw) as (ws1 & Hw1 & N). unfold read_static.
      assert (Hlen : List.length s = n) by (unfold s; rewrite map_length; auto).
      rewrite (read_all_good _ _ _ _ _ _ N) by (rewrite repeat_length; auto). cbn [bad]. rewrite Hback, Hpos, Hmake. cbn [astore adim]. rewrite repeat_length. apply Hfin. auto.
    + unfold heading. rewrite <- !app_assoc. fold v. destruct (Hsh [eol] Hnl) as (ws1 & Hw1 & N). unfold read_vector.
      pose proof (show_numeral ws (Z.of_nat (List.length s)) ([eol] ++ join (txt " ") (map show_int s) ++ [eol] ++ v) Hw (space_separated' _ _ Hnl ltac:(discriminate))) as N0.
      assert (Hrk' : Z.of_nat (List.length s) < 2^63) by (unfold s; rewrite map_length; auto).
      rewrite (read_int_good lo64 hi64 _ _ _ N0) by (unfold lo64, hi64; lia).
      cbn [bad]. replace (Z.of_nat (List.length s) >=? 0) with true by lia. rewrite (read_all_good _ _ _ _ _ _ N) by (rewrite repeat_length; lia). cbn [bad]. rewrite Hback, Hpos, Hmake. cbn [astore adim]. rewrite repeat_length. apply Hfin. auto.
Qed.

(* An object that has a value at every level, printed in the default style and read back into any other object of the same type (o). The text may be preceded by spaces and followed by whatever doesn't continue a number. *)
Theorem C106_round_trip : forall t, sensible t -> forall x, holds t x -> forall o ws u, fits t o -> Forall isspace ws -> separated u ->
  exists b ws', read t o (Stream (ws ++ print t x ++ u) false) = Idone b (Stream (ws' ++ u) false) /\ Forall isspace ws' /\ alike t x b.
Proof. exact round_trip. Qed.
(* The text of an array of arrays has the layout that C43 gives, where each element is the text of the element array by itself. *)
Theorem C106_text : forall t x, holds t x ->
  match t, x with
  | TFix s t', OArr dv xs => print t x = layout jstyle (List.length s) 0 s (map (print t') xs)
  | TDyn r t', OArr dv xs => print t x = heading (match r with Some _ => false | None => true end) (map len dv) ++ layout jstyle (List.length dv) 0 (map len dv) (map (print t') xs)
  | _, _ => True
  end.
Proof.
  intros [lo hi|lo hi|s t|r t] [z|z z'|dv xs] H; auto; cbn [holds] in H.
  - destruct H as (L & Hs & Hl & P & _). rewrite print_fix by (rewrite L; auto). rewrite <- L, map_length. reflexivity.
  - destruct H as (_ & Hn & _ & _ & Hl & P & _). apply print_dyn; auto.
Qed.
(* no dual numbers *)
Fixpoint plain (t : ty) : Prop := match t with TInt _ _ => True | TDual _ _ => False | TFix _ t' | TDyn _ t' => plain t' end.
(* What's read from a stream that has failed leaves the object as it was, at every level. See C107_failed_refuted for dual numbers. *)
Theorem C106_failed : forall t, plain t -> forall o s, bad s = true -> read t o s = Idone o s.
Proof.
  induction t as [lo hi|lo hi|sh t IH|r t IH]; intros Hp o s B; cbn [read].
  - rewrite read_int_bad by auto. reflexivity.
  - contradiction.
  - destruct o as [| |dv xs]; try reflexivity. assert (E : read_list (read t) xs s = Idone xs s) by (clear -IH B Hp; induction xs as [|x xs IHx]; cbn; [auto|]; rewrite IH, IHx by auto; reflexivity). rewrite E. reflexivity.
  - destruct r as [n|].
    + unfold read_static. rewrite read_all_bad by auto. rewrite B. reflexivity.
    + unfold read_vector. rewrite read_int_bad by auto. rewrite B. reflexivity.
Qed.

(* ---------------- C107 *)
(* A dual number is read if the text has one, and the text after it is left. *)
Theorem C107_accept : forall lo hi t x y t' o, dualnum lo hi t x y t' -> fits (TDual lo hi) o -> read (TDual lo hi) o (Stream t false) = Idone (ODual (Some x) (Some y)) (Stream t' false).
Proof. intros lo hi t x y t' o H Ho. destruct o as [|a b|]; try contradiction. cbn [read]. rewrite (read_dual_good _ _ _ _ _ _ _ _ H). reflexivity. Qed.
(* If it doesn't have one, the stream fails. Missing: that there's anything to read. *)
Theorem C107_reject_partial : forall lo hi t o, fits (TDual lo hi) o -> Exists (fun c => ~ isspace c) t -> ~ (exists x y t', dualnum lo hi t x y t') -> exists b s, read (TDual lo hi) o (Stream t false) = Idone b s /\ bad s = true.
Proof.
  intros lo hi t o Ho Ht N. destruct o as [|a b|]; try contradiction. cbn [read]. unfold read_dual, read_char at 1. cbn [bad rest]. destruct (skip_space_spec t) as (ws & Hw & Et & Hsp). destruct (skip_space t) as [|c t1].
  { exfalso. rewrite app_nil_r in Et. subst ws. rewrite Exists_exists in Ht. rewrite Forall_forall in Hw. destruct Ht as (c & Ic & Hc). auto. }
  destruct (Ascii.eqb_spec c "["%char) as [->|Hc]; cbn [negb]; [|eexists _, _; split; [reflexivity|reflexivity]].
  destruct (read_int lo hi (Stream t1 false)) as [v s2] eqn:E1. destruct (read_int lo hi s2) as [w s3] eqn:E2. destruct (read_char s3) as [c' s4] eqn:E3.
  eexists _, _. split; [reflexivity|]. destruct (Ascii.eqb_spec (match c' with Some c' => c' | None => "["%char end) "]"%char) as [E|]; cbn [negb]; [|reflexivity].
  destruct c' as [c'|]; [subst c'|discriminate]. unfold read_char in E3. destruct (bad s3) eqn:B3; [discriminate|]. destruct (skip_space_spec (rest s3)) as (ws' & Hw' & Et' & _). destruct (skip_space (rest s3)) as [|c'' t3]; [discriminate|]. injection E3 as -> <-.
  exfalso. apply N. destruct (bad s2) eqn:B2; [rewrite read_int_bad in E2 by auto; injection E2 as _ <-; congruence|]. destruct (read_int_ok _ _ _ _ _ E1 B2) as (x & -> & N1 & R1).
  destruct s2 as [t2 b2]. cbn in B2. subst b2. destruct (read_int_ok _ _ _ _ _ E2 B3) as (y & -> & N2 & R2). exists x, y, t3, ws, t1, t2, ws'. cbn [rest] in N1. rewrite Et' in N2. repeat split; auto; lia.
Qed.
(* If there's nothing to read or the stream had failed, what >> does is undefined, since it looks at a variable that hasn't been set. *)
Theorem C107_failed_refuted : forall lo hi o s, fits (TDual lo hi) o -> (bad s = true \/ Forall isspace (rest s)) -> read (TDual lo hi) o s = Iundef.
Proof.
  intros lo hi o s Ho H. destruct o as [|a b|]; try contradiction. cbn [read]. unfold read_dual, read_char. destruct (bad s) eqn:B; [reflexivity|]. destruct H as [H|H]; [discriminate|].
  rewrite <- (app_nil_r (rest s)), skip_space_app by auto. reflexivity.
Qed.
(* t has k dual numbers, and then t'. *)
Inductive dualnums (lo hi : Z) : text -> nat -> text -> Prop :=
| dn_0 : forall t, dualnums lo hi t 0 t
| dn_S : forall t x y t1 k t', dualnum lo hi t x y t1 -> dualnums lo hi t1 k t' -> dualnums lo hi t (S k) t'.
(* So it's undefined to read an array of dual numbers from text that ends before, or where any but the last of them is wrong. *)
Theorem C107_array_refuted : forall sh lo hi dv os, Forall (fits (TDual lo hi)) os -> forall t k t', dualnums lo hi t k t' -> ~ (exists x y t'', dualnum lo hi t' x y t'') ->
  (S k < List.length os)%nat \/ (k < List.length os)%nat /\ Forall isspace t' -> read (TFix sh (TDual lo hi)) (OArr dv os) (Stream t false) = Iundef.
Proof.
  intros sh lo hi dv os Ho t k t' Hd N Hk. cbn [read]. assert (E : read_list (read (TDual lo hi)) os (Stream t false) = Iundef); [|cbn [read] in E; rewrite E; reflexivity].
  revert os Ho Hk. induction Hd as [t|t x y t1 k t' Hx Hd IH]; intros os Ho Hk.
  - destruct os as [|o [|o' os]]; cbn [List.length] in Hk; try lia.
    + cbn [read_list]. inversion Ho; subst. rewrite C107_failed_refuted; auto. right. destruct Hk as [|(_ & H)]; [lia|exact H].
    + inversion Ho as [|? ? O1 Ho']; subst. inversion Ho' as [|? ? O2 _]; subst. cbn [read_list]. destruct (Forall_Exists_dec isspace (fun c => in_dec Nat.eq_dec _ _) t) as [H|H].
      * rewrite C107_failed_refuted; auto.
      * destruct (C107_reject_partial lo hi t o O1 H N) as (b & s & -> & B). rewrite C107_failed_refuted; auto.
  - destruct os as [|o os]; cbn [List.length] in Hk; [lia|]. inversion Ho; subst. cbn [read_list]. rewrite (C107_accept _ _ _ _ _ _ _ Hx) by auto. rewrite IH; auto. destruct Hk as [|(? & ?)]; [left; lia|right; split; [lia|auto]].
Qed.

(* If what follows [ isn't a number, the second part is left as it was. *)
Theorem C107_kept : forall lo hi ws t a b, Forall isspace ws -> ~ (exists x t', numeral t x t' /\ lo <= x <= hi) -> exists v s, read (TDual lo hi) (ODual a b) (Stream (ws ++ "["%char :: t) false) = Idone (ODual v b) s /\ bad s = true.
Proof.
  intros lo hi ws t a b Hw N. cbn [read]. unfold read_dual. rewrite read_char_at by (auto; intros [H|[H|[H|[H|[H|[H|[]]]]]]]; discriminate). cbn [negb Ascii.eqb Bool.eqb].
  destruct (read_int lo hi (Stream t false)) as [v s2] eqn:E1. destruct (bad s2) eqn:B2.
  - rewrite read_int_bad by auto. unfold read_char. rewrite B2. eexists _, _. split; [reflexivity|reflexivity].
  - exfalso. destruct (read_int_ok _ _ _ _ _ E1 B2) as (x & -> & N1 & R1). apply N. exists x, (rest s2). auto.
Qed.
(* xs are read one after another as ys *)
Inductive reads_in_turn (t : ty) : list obj -> stream -> list obj -> stream -> Prop :=
| rit_0 : forall s, reads_in_turn t [] s [] s
| rit_S : forall x xs s y s1 ys s2, read t x s = Idone y s1 -> reads_in_turn t xs s1 ys s2 -> reads_in_turn t (x :: xs) s (y :: ys) s2.
(* If a check fails in an element, those before have been read, that one is as the failed >> left it, and those after are as they were. *)
Theorem C106_stop : forall sh t dv xs s ys s1 x y s2 zs, reads_in_turn t xs s ys s1 -> read t x s1 = Ifail y s2 -> read (TFix sh t) (OArr dv (xs ++ x :: zs)) s = Ifail (OArr dv (ys ++ y :: zs)) s2.
Proof.
  intros sh t dv xs s ys s1 x y s2 zs H E. cbn [read]. assert (G : read_list (read t) (xs ++ x :: zs) s = Ifail (ys ++ y :: zs) s2); [|rewrite G; reflexivity].
  induction H as [s|x' xs s y' s1 ys s3 E1 H IH]; cbn [app read_list]; [rewrite E|rewrite E1, IH by auto]; reflexivity.
Qed.
(* Small<Small<Big<int, 1>, 2>, 2>: the last array inside has a negative length; the one before it was read *)
Example C106_stop_ex : let ti := TDyn (Some 1%nat) (TInt (-100) 100) in let e := OArr [Dim 0 1] [] in let o := OArr [Dim 2 1] [e; e] in let one z := OArr [Dim 1 1] [OInt (Some z)] in
  read (TFix [2] (TFix [2] ti)) (OArr [Dim 2 1] [o; o]) (Stream (txt "1 5 1 6 1 7 -1 8") false) = Ifail (OArr [Dim 2 1] [OArr [Dim 2 1] [one 5; one 6]; OArr [Dim 2 1] [one 7; e]]) (Stream (txt " 8") false).
Proof. vm_compute. reflexivity. Qed.
Example C107_kept_ex : read (TDual (-100) 100) (ODual (Some 1) (Some 2)) (Stream (txt " [x 4]") false) = Idone (ODual (Some 0) (Some 2)) (Stream (txt "x 4]") true).
Proof. vm_compute. reflexivity. Qed.

(* Big<Small<int, 2>, 1> with 2 elements, Big<Dual<int>, 1>, Big<Big<int, 1>, 1> where an element is empty, and Big<Big<int>> with dynamic rank, at both levels. The last one ends with a negative length in an element: the outer array has the new shape already, and the first element has been read. *)
Definition ex_small z z' := OArr [Dim 2 1] [OInt (Some z); OInt (Some z')].
Definition ex_t1 := TDyn (Some 1%nat) (TFix [2] (TInt (-100) 100)).
Definition ex_o1 := OArr [Dim 2 1] [ex_small 1 2; ex_small (-3) 4].
Definition ex_t2 := TDyn (Some 1%nat) (TDyn (Some 1%nat) (TInt (-100) 100)).
Definition ex_o2 := OArr [Dim 2 1] [OArr [Dim 0 1] []; OArr [Dim 1 1] [OInt (Some 7)]].
Definition ex_t3 := TDyn None (TDyn None (TInt (-100) 100)).
Definition ex_o3 := OArr [] [OArr [Dim 1 2; Dim 2 1] [OInt (Some 7); OInt (Some 8)]].
Definition ex_t4 := TDyn (Some 1%nat) (TDual (-100) 100).
Definition ex_o4 := OArr [Dim 2 1] [ODual (Some 1) (Some 2); ODual (Some (-3)) (Some 4)].
Example C106_ex : holds ex_t4 ex_o4 /\ holds ex_t1 ex_o1 /\ holds ex_t2 ex_o2 /\ holds ex_t3 ex_o3 /\
  print ex_t1 ex_o1 = ((txt "2") ++ [eol] ++ (txt "1 2 -3 4"))%list /\
  print ex_t4 ex_o4 = ((txt "2") ++ [eol] ++ (txt "[1 2] [-3 4]"))%list /\
  print ex_t2 ex_o2 = ((txt "2") ++ [eol] ++ (txt "0") ++ [eol] ++ (txt " 1") ++ [eol] ++ (txt "7"))%list /\
  print ex_t3 ex_o3 = ((txt "0") ++ [eol; eol] ++ (txt "2") ++ [eol] ++ (txt "1 2") ++ [eol] ++ (txt "7 8"))%list /\
  read ex_t2 (fresh ex_t2) (Stream (print ex_t2 ex_o2) false) = Idone ex_o2 (Stream [] false) /\
  read ex_t2 ex_o1 (Stream (txt "2 1 5 -1 9") false) = Ifail (OArr [Dim 2 1] [OArr [Dim 1 1] [OInt (Some 5)]; OArr [Dim 0 1] []]) (Stream (txt " 9") false).
Proof.
  assert (D1 : forall n j, 0 <= n -> inshape j [n] -> place [Dim n 1] j = rm [n] j).
  { intros n j Hn Hj. inversion Hj as [|i m j' s Hi Hj']; subst. inversion Hj'; subst. cbn. lia. }
  split; [|split; [|split; [|split]]]; cbn [holds ex_t4 ex_o4 ex_t1 ex_o1 ex_small ex_t2 ex_o2 ex_t3 ex_o3 map len List.length zprod].
  - repeat split; try lia; try (apply D1; lia); try discriminate; repeat constructor; lia.
  - repeat split; try lia; try (apply D1; lia); try discriminate; repeat constructor; try lia; apply D1; lia.
  - repeat split; try lia; try (apply D1; lia); try discriminate; repeat constructor; try lia; try discriminate; apply D1; lia.
  - assert (D0 : forall j, inshape j [] -> place [] j = rm [] j) by (intros j Hj; inversion Hj; subst; reflexivity).
    assert (D2 : forall j, inshape j [1; 2] -> place [Dim 1 2; Dim 2 1] j = rm [1; 2] j).
    { intros j Hj. inversion Hj as [|i m j' s Hi Hj']; subst. inversion Hj' as [|i' m' j'' s' Hi' Hj'']; subst. inversion Hj''; subst. cbn. lia. }
    repeat split; try lia; try discriminate; auto; repeat constructor; try lia; try exact D2; cbn; lia.
  - repeat split; vm_compute; reflexivity.
Qed.

(* A dual number that's accepted, one that isn't, and the array above cut short, or with a wrong separator. *)
Example C107_ex : dualnum (-9) 9 (txt " [ 1 -2 ]3") 1 (-2) (txt "3") /\
  read (TDual (-9) 9) (ODual None None) (Stream (txt " [ 1 -2 ]3") false) = Idone (ODual (Some 1) (Some (-2))) (Stream (txt "3") false) /\
  read (TDual (-9) 9) (ODual None None) (Stream (txt "[1]") false) = Idone (ODual (Some 1) (Some 0)) (Stream (txt "]") true) /\
  read (TDual (-9) 9) (ODual (Some 5) None) (Stream (txt "(1 2)") false) = Idone (ODual (Some 5) None) (Stream (txt "1 2)") true) /\
  read ex_t4 ex_o4 (Stream (txt "2 [1 2]") false) = Iundef /\
  read ex_t4 ex_o4 (Stream (txt "2 [1 2 [-3 4]") false) = Iundef /\
  read ex_t4 ex_o4 (Stream (txt "2 [1 2] [-3 4") false) = Idone ex_o4 (Stream [] true).
Proof.
  split; [|repeat split; vm_compute; reflexivity]. exists (txt " "), (txt " 1 -2 ]3"), (txt " -2 ]3"), (txt " "). split; [reflexivity|]. split; [constructor; [cbn; auto 10|constructor]|].
  split; [|split; [lia|split; [|split; [lia|constructor; [cbn; auto 10|constructor]]]]].
  - apply (show_numeral (txt " ") 1 (txt " -2 ]3")); [constructor; [cbn; auto 10|constructor]|cbn; unfold decimal; cbn; lia].
  - apply (show_numeral (txt " ") (-2) (txt " ]3")); [constructor; [cbn; auto 10|constructor]|cbn; unfold decimal; cbn; lia].
Qed.

Print Assumptions C106_round_trip.
Print Assumptions C106_text.
Print Assumptions C106_failed.
Print Assumptions C107_accept.
Print Assumptions C107_reject_partial.
Print Assumptions C107_failed_refuted.
Print Assumptions C107_array_refuted.
Print Assumptions C106_stop.
Print Assumptions C107_kept.
