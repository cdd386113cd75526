From Coq Require Import ZArith List Lia Bool Ascii String.
From Coq Require Import ZifyBool ZifyNat.
From Verif Require Import Spec L_Spec M_Base M_Expr L_Expr Spec_Expr L_Agree M_Array M_Text Spec_Text.
Import ListNotations.
Open Scope Z_scope.

Lemma in_order_length : forall W A (l : list (M W A)) w xs w', in_order l w = Ok xs w' -> List.length xs = List.length l.
Proof.
  induction l as [|m l IH]; intros w xs w' H; cbn [in_order] in H; [injection H as <- _; reflexivity|]. destruct (m w) as [x w1|w1|]; try discriminate.
  destruct (in_order l w1) as [ys w2|w2|] eqn:E; try discriminate. injection H as <- _. cbn. f_equal. eapply IH; eauto.
Qed.
Lemma in_order_app : forall W A (l m : list (M W A)) w, in_order (l ++ m) w =
  match in_order l w with Ok xs w1 => match in_order m w1 with Ok ys w2 => Ok (xs ++ ys) w2 | Fail w2 => Fail w2 | Undef => Undef end | Fail w1 => Fail w1 | Undef => Undef end.
Proof.
  induction l as [|a l IH]; intros m w; cbn [app in_order]; [destruct (in_order m w); reflexivity|]. destruct (a w) as [x w1|w1|]; auto. rewrite IH. destruct (in_order l w1) as [xs w2|w2|]; auto.
  destruct (in_order m w2); reflexivity.
Qed.

Section Format.
Context {X W : Type}.
Notation expr := (expr X W).
Variable show : X -> text.

(* the layout, with elements in order *)
Fixpoint layM (f : style) (r k : nat) (s : list Z) (el : list Z -> M W X) (j : list Z) : M W text :=
  match s with
  | [] => bind (el j) (fun x => ret (show x))
  | n::s' => bind (in_order (map (fun i => layM f r (S k) s' el (j ++ [i])) (zrange n))) (fun ts => ret (st_open f ++ join (between f r k) ts ++ st_close f))
  end.

Lemma gap_between : forall f r k, (k < r)%nat -> gap f (Z.of_nat r) k = between f r k.
Proof.
  intros f r k H. unfold gap, between. destruct (Nat.eqb_spec (S k) r) as [E|E].
  - replace (Z.of_nat k =? Z.of_nat r - 1) with true by lia. replace (Z.to_nat (Z.max 0 (Z.of_nat r - 2 - Z.of_nat k))) with 0%nat by lia. replace (Z.of_nat k <? Z.of_nat r - 1) with false by lia.
    rewrite andb_false_r. cbn. rewrite app_nil_r. reflexivity.
  - replace (Z.of_nat k =? Z.of_nat r - 1) with false by lia. replace (Z.of_nat k <? Z.of_nat r - 1) with true by lia. rewrite andb_true_r.
    replace (Z.to_nat (Z.max 0 (Z.of_nat r - 2 - Z.of_nat k))) with (r - 2 - k)%nat by lia. replace (Z.to_nat ((Z.of_nat k + 1) * Z.of_nat (List.length (st_open f)))) with (S k * List.length (st_open f))%nat by lia. reflexivity.
Qed.

Definition loopg (f : style) (rk : Z) (k : nat) (n : Z) (sha' : list Z) := fix loop (m : nat) (e : expr) (out : text) : M W (expr * text) :=
       match m with
       | O => ret (e, out)
       | S m' => bind (goin show f rk (S k) sha' e out) (fun eo =>
                 match m' with
                 | O => ret (adv (fst eo) k (1-n), snd eo)
                 | S _ => loop m' (adv (fst eo) k 1) (snd eo ++ gap f rk k)
                 end)
       end.
Lemma goin_cons : forall f rk k n sha' e out, goin show f rk k (n::sha') e out = bind (loopg f rk k n sha' (Z.to_nat n) e (out ++ st_open f)) (fun eo => ret (fst eo, snd eo ++ st_close f)).
Proof. reflexivity. Qed.
Lemma loopg_S : forall f rk k n sha' m e out, loopg f rk k n sha' (S m) e out = bind (goin show f rk (S k) sha' e out) (fun eo =>
   match m with O => ret (adv (fst eo) k (1-n), snd eo) | S _ => loopg f rk k n sha' m (adv (fst eo) k 1) (snd eo ++ gap f rk k) end).
Proof. reflexivity. Qed.

Lemma skipn_nth : forall (l : list Z) k, (k < List.length l)%nat -> skipn k l = nth k l 0 :: skipn (S k) l.
Proof. induction l as [|a l IH]; intros [|k] H; cbn in *; try lia; auto. apply IH. lia. Qed.

Variable e : expr.
Variable f : style.
Hypothesis Hw : wf e.
Hypothesis Hv : validate e = true.
Let r := rankn e.

(* all the text after the items first to n-1 on axis k *)
Definition tail_ (k : nat) (ts : list text) : text := match ts with [] => [] | _ => between f r k ++ join (between f r k) ts end.
Lemma join_tail : forall k t ts, join (between f r k) (t::ts) = t ++ tail_ k ts.
Proof. intros k t [|u ts]; cbn; [rewrite app_nil_r; reflexivity|reflexivity]. Qed.

Lemma goin_spec : forall m k j, (m + k = r)%nat -> List.length j = k -> inshape j (firstn k (shape e)) -> forall out w,
  goin show f (rank e) k (skipn k (shape e)) (goto e (fz j)) out w =
  match layM f r k (skipn k (shape e)) (element e) j w with Ok t w' => Ok (goto e (fz j), out ++ t) w' | Fail w' => Fail w' | Undef => Undef end.
Proof.
  induction m as [|m IH]; intros k j Hm Hj Hin out w.
  - assert (Hs : skipn k (shape e) = []) by (apply skipn_all2; rewrite shape_length; unfold r in *; lia). rewrite Hs. cbn [goin layM]. unfold bind.
    rewrite deref_at; [|auto|unfold r in *; lia|apply okidx_inshape; rewrite firstn_all2 in Hin by (rewrite shape_length; unfold r in *; lia); auto].
    rewrite element_at; [|auto|rewrite firstn_all2 in Hin by (rewrite shape_length; unfold r in *; lia); auto]. destruct (element e j w); reflexivity.
  - assert (Hk : (k < rankn e)%nat) by (unfold r in *; lia). assert (Hl : (k < List.length (shape e))%nat) by (rewrite shape_length; auto).
    rewrite (skipn_nth (shape e) k Hl). rewrite goin_cons. set (n := nth k (shape e) 0). set (s' := skipn (S k) (shape e)).
    assert (Hn : 0 <= n) by (apply validate_spec in Hv as (_ & Hf); rewrite Forall_forall in Hf; apply Hf; apply nth_In; auto).
    pose proof (rank_nonneg e Hw) as Hr0.
    assert (Hrk : rank e = Z.of_nat r) by (unfold r, rankn; lia).
    (* moving along axis k *)
    assert (Hmv : forall i d, adv (goto e (fz (j ++ [i]))) k d = goto e (fz (j ++ [i + d]))).
    { intros i d. rewrite goto_adv by auto. apply goto_ext; auto. intros x Hx. unfold upd, fz. destruct (Nat.eqb_spec x k) as [E|E].
      - subst x. rewrite !app_nth2 by lia. rewrite Hj, Nat.sub_diag. reflexivity.
      - destruct (Nat.lt_ge_cases x k); [rewrite !app_nth1 by lia; reflexivity|]. rewrite !app_nth2 by lia. rewrite Hj. destruct (x - k)%nat as [|[|]] eqn:Ex; [lia|reflexivity|reflexivity]. }
    assert (H0 : goto e (fz (j ++ [0])) = goto e (fz j)).
    { apply goto_ext; auto. intros x Hx. unfold fz. destruct (Nat.lt_ge_cases x k); [rewrite !app_nth1 by lia; reflexivity|]. rewrite !app_nth2 by lia. rewrite (nth_overflow j) by lia.
      destruct (x - List.length j)%nat as [|[|]]; reflexivity. }
    assert (Hgo : forall i out w, 0 <= i < n -> goin show f (rank e) (S k) s' (goto e (fz (j ++ [i]))) out w =
      match layM f r (S k) s' (element e) (j ++ [i]) w with Ok t w' => Ok (goto e (fz (j ++ [i])), out ++ t) w' | Fail w' => Fail w' | Undef => Undef end).
    { intros i out' w' Hi. apply IH; [lia|rewrite app_length; cbn; lia|]. replace (firstn (S k) (shape e)) with (firstn k (shape e) ++ [n]).
      - apply Forall2_app; auto.
      - unfold n. clear -Hl. revert k Hl. induction (shape e) as [|a l IH]; intros [|k] Hl; cbn in *; try lia; auto. f_equal. apply IH. lia. }
    (* the loop *)
    assert (Hloop : forall c i out w, 0 <= i -> i + Z.of_nat (S c) = n ->
      loopg f (rank e) k n s' (S c) (goto e (fz (j ++ [i]))) out w =
      match in_order (map (fun i => layM f r (S k) s' (element e) (j ++ [i])) (map (fun q => i + Z.of_nat q) (seq 0 (S c)))) w with
      | Ok ts w' => Ok (goto e (fz j), out ++ join (between f r k) ts) w' | Fail w' => Fail w' | Undef => Undef end).
    { induction c as [|c IHc]; intros i out' w' Hi Hc; rewrite loopg_S; unfold bind.
      - rewrite Hgo by lia. cbn [map seq in_order]. replace (i + Z.of_nat 0) with i by lia. destruct (layM f r (S k) s' (element e) (j ++ [i]) w') as [t w1|w1|]; auto. cbn [fst snd ret]. unfold ret.
        rewrite Hmv. replace (i + (1 - n)) with 0 by lia. rewrite H0. reflexivity.
      - rewrite Hgo by lia. rewrite <- cons_seq. cbn [map in_order]. replace (i + Z.of_nat 0) with i by lia. destruct (layM f r (S k) s' (element e) (j ++ [i]) w') as [t w1|w1|]; auto. cbn [fst snd].
        rewrite Hmv. rewrite IHc by lia. replace (map (fun q => i + 1 + Z.of_nat q) (seq 0 (S c))) with (map (fun q => i + Z.of_nat q) (seq 1 (S c))) by (rewrite <- (seq_shift (S c) 0), map_map; apply map_ext; intros; lia).
        destruct (in_order (map (fun i => layM f r (S k) s' (element e) (j ++ [i])) (map (fun q => i + Z.of_nat q) (seq 1 (S c)))) w1) as [ts w2|w2|] eqn:Eo; auto.
        rewrite join_tail. rewrite Hrk, gap_between by (unfold r in *; lia).
        assert (Hne : ts <> []) by (intros E; apply in_order_length in Eo; rewrite E, !map_length, seq_length in Eo; discriminate).
        unfold tail_. destruct ts as [|t' ts]; [contradiction|]. rewrite <- !app_assoc. reflexivity. }
    cbn [layM]. unfold bind. destruct (Z.eq_dec n 0) as [E|E].
    + rewrite E. cbn [Z.to_nat loopg zrange seq map in_order]. unfold ret. cbn [fst snd]. cbn [join app]. rewrite <- app_assoc. reflexivity.
    + destruct (Z.to_nat n) as [|c] eqn:En; [lia|]. rewrite <- H0 at 1. rewrite Hloop by lia. unfold zrange. rewrite En.
      replace (map (fun q => 0 + Z.of_nat q) (seq 0 (S c))) with (map Z.of_nat (seq 0 (S c))) by (apply map_ext; intros; lia).
      destruct (in_order (map (fun i => layM f r (S k) s' (element e) (j ++ [i])) (map Z.of_nat (seq 0 (S c)))) w) as [ts w2|w2|]; auto. unfold ret. cbn [fst snd]. rewrite <- !app_assoc. reflexivity.
Qed.
End Format.

Section Layout.
Context {X W : Type}.
Variable show : X -> text.
Variable f : style.
Variable r : nat.
Variable el : list Z -> M W X.

Lemma pieces_app : forall A p n (l m : list A), List.length l = p -> pieces p (S n) (l ++ m) = l :: pieces p n m.
Proof. intros A p n l m <-. cbn [pieces]. rewrite firstn_app, firstn_all, Nat.sub_diag, skipn_app, skipn_all, Nat.sub_diag. cbn. rewrite app_nil_r. reflexivity. Qed.

Lemma layM_spec : forall s, Forall (fun n => 0 <= n) s -> forall k j w, layM show f r k s el j w =
  match in_order (map (fun i => el (j ++ i)) (indices s)) w with Ok xs w' => Ok (layout f r k s (map show xs)) w' | Fail w' => Fail w' | Undef => Undef end.
Proof.
  induction s as [|n s IH]; intros Hs k j w.
  - cbn [layM indices map in_order]. unfold bind. rewrite app_nil_r. destruct (el j w) as [x w1|w1|]; auto. cbn [map layout List.concat]. rewrite app_nil_r. reflexivity.
  - apply Forall_cons_iff in Hs as (Hn & Hs). cbn [layM indices layout]. unfold bind.
    assert (H : forall c i w, match in_order (map (fun i => layM show f r (S k) s el (j ++ [i])) (map (fun q => i + Z.of_nat q) (seq 0 c))) w with Ok ts w' => Ok ts w' | Fail w' => Fail w' | Undef => Undef end =
      match in_order (map (fun i => el (j ++ i)) (flat_map (fun i => map (cons i) (indices s)) (map (fun q => i + Z.of_nat q) (seq 0 c)))) w with
      | Ok xs w' => Ok (map (layout f r (S k) s) (pieces (Z.to_nat (zprod s)) c (map show xs))) w' | Fail w' => Fail w' | Undef => Undef end).
    { induction c as [|c IHc]; intros i w0; [reflexivity|]. rewrite <- cons_seq. cbn [map flat_map in_order]. rewrite map_app, in_order_app. replace (i + Z.of_nat 0) with i by lia.
      rewrite IH by auto. rewrite (map_map (cons i) (fun i => el (j ++ i)) (indices s)). replace (map (fun x => el (j ++ i :: x)) (indices s)) with (map (fun x => el ((j ++ [i]) ++ x)) (indices s)) by (apply map_ext; intros; rewrite <- app_assoc; reflexivity).
      destruct (in_order (map (fun x => el ((j ++ [i]) ++ x)) (indices s)) w0) as [xs w1|w1|] eqn:E; auto.
      replace (map (fun q => i + Z.of_nat q) (seq 1 c)) with (map (fun q => (i + 1) + Z.of_nat q) (seq 0 c)) by (rewrite <- (seq_shift c 0), map_map; apply map_ext; intros; lia).
      specialize (IHc (i + 1) w1). destruct (in_order (map (fun i => layM show f r (S k) s el (j ++ [i])) (map (fun q => i + 1 + Z.of_nat q) (seq 0 c))) w1) as [ts w2|w2|];
      destruct (in_order (map (fun i => el (j ++ i)) (flat_map (fun i => map (cons i) (indices s)) (map (fun q => i + 1 + Z.of_nat q) (seq 0 c)))) w1) as [ys w3|w3|]; try discriminate; auto.
      injection IHc as E1 E2. subst. rewrite map_app, pieces_app; [reflexivity|]. rewrite map_length. apply in_order_length in E. rewrite E, map_length. pose proof (indices_count s Hs). lia. }
    specialize (H (Z.to_nat n) 0 w). unfold zrange.
    replace (map (fun q => 0 + Z.of_nat q) (seq 0 (Z.to_nat n))) with (map Z.of_nat (seq 0 (Z.to_nat n))) in H by (apply map_ext; intros; lia).
    destruct (in_order (map (fun i => layM show f r (S k) s el (j ++ [i])) (map Z.of_nat (seq 0 (Z.to_nat n)))) w) as [ts w2|w2|];
    destruct (in_order (map (fun i => el (j ++ i)) (flat_map (fun i => map (cons i) (indices s)) (map Z.of_nat (seq 0 (Z.to_nat n))))) w) as [ys w3|w3|]; try discriminate; auto.
    + injection H as E1 E2. subst. reflexivity.
    + injection H as ->. reflexivity.
Qed.
End Layout.

(* characters *)
Lemma space_iff : forall c, space c = true <-> isspace c.
Proof.
  intros c. unfold space, isspace. set (n := nat_of_ascii c). cbn [In]. rewrite orb_true_iff, andb_true_iff, Nat.eqb_eq, !Nat.leb_le. split.
  - intros [->|(H & H0)]; [tauto|]. assert (n = 9 \/ n = 10 \/ n = 11 \/ n = 12 \/ n = 13)%nat by lia. intuition.
  - intros [<-|[<-|[<-|[<-|[<-|[<-|[]]]]]]]; lia.
Qed.
Lemma isdigit_iff : forall c, isdigit c = true <-> decimal c.
Proof. intros c. unfold isdigit, decimal. rewrite andb_true_iff, !Nat.leb_le. reflexivity. Qed.
Lemma space_not_digit : forall c, isspace c -> ~ decimal c.
Proof. intros c H D. unfold isspace, decimal in *. cbn in H. lia. Qed.
Lemma sign_not_space : ~ isspace "-" /\ ~ isspace "+" /\ ~ decimal "-" /\ ~ decimal "+".
Proof. unfold isspace, decimal. cbn. lia. Qed.

Lemma skip_space_app : forall ws t, Forall isspace ws -> skip_space (ws ++ t) = skip_space t.
Proof. induction 1 as [|c ws H _ IH]; cbn; auto. apply space_iff in H. rewrite H. auto. Qed.
Lemma skip_space_spec : forall t, exists ws, Forall isspace ws /\ t = ws ++ skip_space t /\ match skip_space t with [] => True | c::_ => ~ isspace c end.
Proof.
  induction t as [|c t (ws & Hs & E & H)]; cbn [skip_space]; [exists []; auto|]. destruct (space c) eqn:Ec.
  - exists (c::ws). split; [constructor; auto; apply space_iff; auto|]. split; [cbn; congruence|auto].
  - exists []. split; auto. split; auto. rewrite <- space_iff. congruence.
Qed.
Lemma take_digits_spec : forall t v n, exists ds t', t = ds ++ t' /\ Forall decimal ds /\ separated t' /\
  take_digits t v n = (fold_left (fun v c => 10 * v + (Z.of_nat (nat_of_ascii c) - 48)) ds v, (List.length ds + n)%nat, t').
Proof.
  induction t as [|c t IH]; intros v n; cbn [take_digits].
  - exists [], []. repeat split; auto.
  - destruct (isdigit c) eqn:E.
    + destruct (IH (10 * v + (Z.of_nat (nat_of_ascii c) - 48)) (S n)) as (ds & t' & -> & Hd & Hs & Et). exists (c::ds), t'. split; [reflexivity|]. split; [constructor; auto; apply isdigit_iff; auto|]. split; [auto|].
      rewrite Et. cbn [fold_left List.length]. rewrite Nat.add_succ_r. reflexivity.
    + exists [], (c::t). repeat split; auto. cbn. rewrite <- isdigit_iff. congruence.
Qed.
Lemma digits_unique : forall ds t es u, ds ++ t = es ++ u -> Forall decimal ds -> Forall decimal es -> separated t -> separated u -> ds = es /\ t = u.
Proof.
  induction ds as [|d ds IH]; intros t [|x es] u H Hd He St Su; cbn in H; auto.
  - subst t. inversion He; subst. cbn in St. contradiction.
  - subst u. inversion Hd; subst. cbn in Su. contradiction.
  - injection H as -> H. inversion Hd; inversion He; subst. destruct (IH t es u) as (-> & ->); auto.
Qed.

(* reading a number *)
Lemma read_int_good : forall lo hi t z t', numeral t z t' -> lo <= z <= hi -> read_int lo hi (Stream t false) = (Some z, Stream t' false).
Proof.
  intros lo hi t z t' (ws & sg & ds & -> & Hw & Hd & Hn & Hs & Hz) Hr. unfold read_int. cbn [bad rest]. rewrite skip_space_app by auto.
  destruct ds as [|d ds]; [contradiction|]. pose proof (Forall_inv Hd) as Hd0. destruct sign_not_space as (M1 & P1 & M2 & P2).
  assert (Hgo : forall u, u = (d::ds) ++ t' -> take_digits u 0 0 = (dvalue (d::ds), S (List.length ds), t')).
  { intros u ->. destruct (take_digits_spec ((d::ds) ++ t') 0 0) as (es & u & E & He & Su & ->). destruct (digits_unique (d::ds) t' es u E Hd He Hs Su) as (<- & <-). cbn [List.length]. rewrite Nat.add_0_r. reflexivity. }
  assert (Hcase : forall (neg : bool) v, z = (if neg then - v else v) -> (let z := if neg then - v else v in (if z <? lo then (Some lo, Stream t' true) else if hi <? z then (Some hi, Stream t' true) else (Some z, Stream t' false))) = (Some z, Stream t' false)).
  { intros neg v E. cbv zeta. rewrite <- E. replace (z <? lo) with false by lia. replace (hi <? z) with false by lia. reflexivity. }
  destruct Hz as [([E|E] & Ez)|(E & Ez)]; subst sg; cbn [app skip_space].
  - assert (Es : space d = false) by (destruct (space d) eqn:Es; auto; apply space_iff in Es; destruct (space_not_digit d Es Hd0)). rewrite Es.
    replace (Ascii.eqb d "-") with false by (symmetry; apply Ascii.eqb_neq; intros E; subst d; auto). replace (Ascii.eqb d "+") with false by (symmetry; apply Ascii.eqb_neq; intros E; subst d; auto).
    cbv zeta. cbn [orb]. cbv iota. rewrite (Hgo (d :: ds ++ t') eq_refl). apply (Hcase false). auto.
  - change (space "+") with false. cbv iota zeta. change (Ascii.eqb "+" "-") with false. change (Ascii.eqb "+" "+") with true. cbv zeta. cbn [orb]. cbv iota. rewrite (Hgo (d :: ds ++ t') eq_refl). apply (Hcase false). auto.
  - change (space "-") with false. cbv iota zeta. change (Ascii.eqb "-" "-") with true. cbv zeta. cbn [orb]. cbv iota. rewrite (Hgo (d :: ds ++ t') eq_refl). apply (Hcase true). auto.
Qed.
Lemma read_int_ok : forall lo hi t v s, read_int lo hi (Stream t false) = (v, s) -> bad s = false -> exists z, v = Some z /\ numeral t z (rest s) /\ lo <= z <= hi.
Proof.
  intros lo hi t v s E B. unfold read_int in E. cbn [bad rest] in E. destruct (skip_space_spec t) as (ws & Hw & Et & Hsp). destruct (skip_space t) as [|c t1]; [injection E as _ <-; discriminate|].
  match type of E with context [take_digits ?u 0 0] => destruct (take_digits_spec u 0 0) as (ds & u' & Eu & Hd & Su & Ed) end. rewrite Ed in E. fold (dvalue ds) in E. rewrite Nat.add_0_r in E.
  destruct ds as [|d ds]; [injection E as _ <-; discriminate|]. cbn [List.length] in E. set (z := if Ascii.eqb c "-" then _ else _) in E.
  destruct (Z.ltb_spec z lo); [injection E as _ <-; discriminate|]. destruct (Z.ltb_spec hi z); [injection E as _ <-; discriminate|]. injection E as <- <-. exists z. split; auto. split; [|lia]. cbn [rest].
  exists ws. destruct (Ascii.eqb_spec c "-") as [Ec|Ec].
  - subst c. cbn [orb] in Eu. exists ["-"%char], (d::ds). split; [rewrite Et, Eu; reflexivity|]. split; [auto|]. split; [auto|]. split; [discriminate|]. split; [auto|]. right. split; auto.
  - cbn [orb] in Eu. destruct (Ascii.eqb_spec c "+") as [Ep|Ep].
    + subst c. exists ["+"%char], (d::ds). split; [rewrite Et, Eu; reflexivity|]. split; [auto|]. split; [auto|]. split; [discriminate|]. split; [auto|]. left. split; auto.
    + exists [], (d::ds). split; [rewrite Et, Eu; reflexivity|]. split; [auto|]. split; [auto|]. split; [discriminate|]. split; [auto|]. left. split; auto.
Qed.
Lemma numeral_fun : forall t z t1 y t2, numeral t z t1 -> numeral t y t2 -> z = y /\ t1 = t2.
Proof.
  intros t z t1 y t2 H1 H2. pose proof (read_int_good (Z.min z y) (Z.max z y) _ _ _ H1 ltac:(lia)) as E1. rewrite (read_int_good (Z.min z y) (Z.max z y) _ _ _ H2 ltac:(lia)) in E1. injection E1 as -> ->. auto.
Qed.
Lemma read_int_bad : forall lo hi s, bad s = true -> read_int lo hi s = (None, s).
Proof. intros lo hi s H. unfold read_int. rewrite H. reflexivity. Qed.
Lemma read_all_bad : forall lo hi l s, bad s = true -> read_all lo hi l s = (l, s).
Proof. induction l as [|x l IH]; intros s H; cbn [read_all]; auto. rewrite read_int_bad by auto. rewrite IH by auto. reflexivity. Qed.
Lemma read_all_good : forall lo hi zs l t t', numerals lo hi t zs t' -> List.length l = List.length zs -> read_all lo hi l (Stream t false) = (map Some zs, Stream t' false).
Proof.
  intros lo hi zs l t t' H. revert l. induction H as [t|t z t1 zs t' Hn Hr H IH]; intros [|x l] Hl; try discriminate; cbn [read_all]; [reflexivity|]. rewrite (read_int_good _ _ _ _ _ Hn Hr).
  rewrite IH by (cbn in Hl; lia). reflexivity.
Qed.
Lemma read_all_ok : forall lo hi l t m s, read_all lo hi l (Stream t false) = (m, s) -> bad s = false -> exists zs, m = map Some zs /\ List.length zs = List.length l /\ numerals lo hi t zs (rest s).
Proof.
  induction l as [|x l IH]; intros t m s E B; cbn [read_all] in E.
  - injection E as <- <-. exists []. repeat split. constructor.
  - destruct (read_int lo hi (Stream t false)) as [v [t1 b1]] eqn:E1. destruct (read_all lo hi l (Stream t1 b1)) as [l1 s2] eqn:E2. injection E as <- <-. destruct b1.
    + rewrite read_all_bad in E2 by reflexivity. injection E2 as _ <-. discriminate.
    + destruct (IH _ _ _ E2 B) as (zs & -> & Hl & Hn). destruct (read_int_ok _ _ _ _ _ E1 eq_refl) as (z & -> & Hz & Hr). exists (z::zs). split; [reflexivity|]. split; [cbn; lia|].
      econstructor; eauto.
Qed.

(* printing a number *)
Lemma digit_decimal : forall d, 0 <= d < 10 -> decimal (digit d) /\ Z.of_nat (nat_of_ascii (digit d)) - 48 = d.
Proof. intros d H. unfold decimal, digit. set (n := Z.to_nat (48 + d)). assert (Hn : Z.of_nat n = 48 + d) by (subst n; lia). clearbody n. rewrite nat_ascii_embedding by lia. split; lia. Qed.
Lemma digits_spec : forall fuel n acc, 0 <= n < 2 ^ Z.of_nat fuel -> fuel <> 0%nat -> exists ds, digits fuel n acc = ds ++ acc /\ Forall decimal ds /\ ds <> [] /\ dvalue ds = n.
Proof.
  induction fuel as [|fuel IH]; intros n acc H Hf; [contradiction|]. cbn [digits]. destruct (Z.ltb_spec n 10) as [L|L].
  - destruct (digit_decimal n ltac:(lia)) as (D & V). exists [digit n]. split; [reflexivity|]. split; [auto|]. split; [discriminate|]. unfold dvalue. cbn [fold_left]. lia.
  - rewrite Nat2Z.inj_succ, Z.pow_succ_r in H by lia. pose proof (Z.div_mod n 10 ltac:(lia)) as Em. pose proof (Z.mod_pos_bound n 10 ltac:(lia)) as Hm.
    destruct (IH (n / 10) (digit (n mod 10) :: acc)) as (ds & E & Hd & Hn & Hv).
    + split; [apply Z.div_pos; lia|]. nia.
    + intros ->. cbn in H. lia.
    + destruct (digit_decimal (n mod 10) Hm) as (D & V). exists (ds ++ [digit (n mod 10)]). split; [rewrite E, <- app_assoc; reflexivity|]. split; [apply Forall_app; auto|]. split; [destruct ds; discriminate|].
      unfold dvalue in *. rewrite fold_left_app. cbn [fold_left]. rewrite Hv. lia.
Qed.
Lemma show_nat_spec : forall n, 0 <= n -> Forall decimal (show_nat n) /\ show_nat n <> [] /\ dvalue (show_nat n) = n.
Proof.
  intros n H. unfold show_nat. destruct (digits_spec (S (Z.to_nat (Z.log2 n))) n []) as (ds & E & Hd & Hn & Hv).
  - split; auto. rewrite Nat2Z.inj_succ, Z2Nat.id by apply Z.log2_nonneg. destruct (Z.eq_dec n 0) as [->|N]; [reflexivity|]. apply Z.log2_spec. lia.
  - discriminate.
  - rewrite E, app_nil_r. auto.
Qed.
Lemma show_numeral : forall ws z t, Forall isspace ws -> separated t -> numeral (ws ++ show_int z ++ t) z t.
Proof.
  intros ws z t Hw Ht. unfold show_int. destruct (Z.ltb_spec z 0).
  - destruct (show_nat_spec (- z) ltac:(lia)) as (Hd & Hn & Hv). exists ws, ["-"%char], (show_nat (- z)). split; [reflexivity|]. repeat (split; [auto|]). right. split; auto. lia.
  - destruct (show_nat_spec z ltac:(lia)) as (Hd & Hn & Hv). exists ws, [], (show_nat z). split; [reflexivity|]. repeat (split; [auto|]). left. split; auto.
Qed.
Lemma numerals_space : forall lo hi t zs t', numerals lo hi t zs t' -> zs <> [] -> forall ws, Forall isspace ws -> numerals lo hi (ws ++ t) zs t'.
Proof.
  intros lo hi t zs t' H N ws Hw. destruct H as [|t z t1 zs t' (ws' & sg & ds & -> & Hw' & H1) Hr H]; [contradiction|]. econstructor; eauto. exists (ws ++ ws'), sg, ds. split; [rewrite <- !app_assoc; reflexivity|].
  split; [apply Forall_app; auto|auto].
Qed.
Lemma numerals_app : forall lo hi zs t t1, numerals lo hi t zs t1 -> forall ys t2, numerals lo hi t1 ys t2 -> numerals lo hi t (zs ++ ys) t2.
Proof. intros lo hi zs t t1 H. induction H; intros; cbn; auto. econstructor; eauto. Qed.
