(* Properties of input and output: C42, C43, C59, C60. *)
From Coq Require Import ZArith List Lia Bool Ascii String.
From Coq Require Import ZifyBool ZifyNat.
From Verif Require Import Spec L_Spec M_Base M_Expr L_Expr Spec_Expr L_Agree Spec_View M_Array P_Array M_Text Spec_Text L_Text.
Import ListNotations.
Open Scope Z_scope.

(* ---------------- C43 *)
Section Format.
Context {X W : Type}.
Notation expr := (expr X W).
Variable show : X -> text.

Lemma goin_layout : forall f (e : expr) s, wf e -> shape_is e s -> forall w, goin show f (rank e) 0 (shape e) e [] w =
  match in_order (map (element e) (indices s)) w with Ok xs w' => Ok (e, layout f (List.length s) 0 s (map show xs)) w' | Fail w' => Fail w' | Undef => Undef end.
Proof.
  intros f e s Hw Hs w. destruct (shape_is_shape e s Hw Hs) as (-> & Hv). pose proof (goin_spec show e f Hw Hv (rankn e) 0 [] ltac:(lia) eq_refl ltac:(constructor) [] w) as H.
  assert (E : goto e (fz []) = e) by (transitivity (goto e (fun _ => 0)); [apply goto_ext; auto; intros k _; unfold fz; destruct k; reflexivity|apply goto_zero]).
  rewrite E in H. cbn [skipn] in H. rewrite H. rewrite layM_spec by (apply validate_spec; auto). rewrite shape_length. cbn [app]. destruct (in_order (map (element e) (indices (shape e))) w); reflexivity.
Qed.
(* The text is that of the elements, in row-major order, in the layout given by the style. *)
Theorem C43_layout : forall f (e : expr) s, wf e -> shape_is e s -> forall w, format_plain show f e w =
  match in_order (map (element e) (indices s)) w with Ok xs w' => Ok (layout f (List.length s) 0 s (map show xs)) w' | Fail w' => Fail w' | Undef => Undef end.
Proof.
  intros f e s Hw Hs w. unfold format_plain. destruct (shape_is_shape e s Hw Hs) as (_ & Hv). rewrite Hv. unfold bind. rewrite (goin_layout f e s Hw Hs).
  destruct (in_order (map (element e) (indices s)) w); reflexivity.
Qed.
End Format.

(* an end of line: ASCII LF *)
Definition eol : ascii := ascii_of_nat 10.
(* the lines with the shape *)
Definition heading (dynrank : bool) (s : list Z) : text :=
  (if dynrank then show_int (Z.of_nat (List.length s)) ++ [eol] else []) ++ join (txt " ") (map show_int s) ++ [eol].

Lemma vec_wf : forall W (l : list Z), wf (vec l : expr Z W).
Proof. intros. split; [cbn; lia|]. constructor; [left; cbn; lia|constructor]. Qed.
Lemma vec_shape : forall W (l : list Z), shape_is (vec l : expr Z W) [Z.of_nat (List.length l)].
Proof.
  intros W l. assert (Hv : validate (vec l : expr Z W) = true). { apply validate_spec. split; [cbn; lia|]. constructor; [cbn; lia|constructor]. }
  pose proof (shape_shape_is (vec l : expr Z W) (vec_wf W l) Hv) as H. exact H.
Qed.
Lemma vec_elements : forall W (l : list Z) (w : W), in_order (map (element (vec l)) (indices [Z.of_nat (List.length l)])) w = Ok l w.
Proof.
  intros W l w. assert (H : forall (js : list (list Z)) (vs : list Z), Forall2 (fun j v => forall w : W, element (vec l) j w = Ok v w) js vs -> forall w : W, in_order (map (element (vec l)) js) w = Ok vs w).
  { induction 1 as [|j v js vs H _ IH]; intros w0; cbn [map in_order]; [reflexivity|]. rewrite H, IH. reflexivity. }
  apply H. cbn [indices]. unfold zrange. rewrite Nat2Z.id. clear H.
  assert (H : forall n, (n <= List.length l)%nat -> Forall2 (fun j v => forall w : W, element (vec l) j w = Ok v w) (flat_map (fun i => map (cons i) [[]]) (map Z.of_nat (seq 0 n))) (firstn n l)).
  { induction n as [|n IH]; intros Hn; [constructor|]. rewrite seq_S, map_app, flat_map_app. replace (firstn (S n) l) with (firstn n l ++ [nth n l 0]).
    - apply Forall2_app; [apply IH; lia|]. cbn. constructor; [|constructor]. intros w0. cbn -[Z.mul]. rewrite Z.mul_1_r, Z.add_0_r, Nat2Z.id. reflexivity.
    - clear -Hn. revert n Hn. induction l as [|a l IH]; intros [|n] Hn; cbn in *; try lia; auto. f_equal. apply IH. lia. }
  specialize (H (List.length l) ltac:(lia)). rewrite firstn_all in H. exact H.
Qed.
Lemma vec_layout : forall f (ts : list text), layout f 1 0 [Z.of_nat (List.length ts)] ts = st_open f ++ join (st_sep0 f) ts ++ st_close f.
Proof.
  intros f ts. cbn [layout zprod]. replace (between f 1 0) with (st_sep0 f) by reflexivity. rewrite Nat2Z.id. do 2 f_equal. f_equal. induction ts as [|t ts IH]; [reflexivity|].
  cbn [List.length pieces map]. rewrite (Z2Nat.inj_pos 1) in *. cbn [Pos.to_nat] in *. change (Pos.to_nat 1) with 1%nat in *. cbn [firstn skipn]. rewrite IH. cbn. rewrite app_nil_r. reflexivity.
Qed.
Theorem heading_spec : forall W dynrank s (w : W), format_shape dynrank s w = Ok (heading dynrank s) w.
Proof.
  assert (H : forall W (l : list Z) (w : W), format_plain show_int jstyle (vec l) w = Ok (join (txt " ") (map show_int l)) w).
  { intros W l w. rewrite (C43_layout show_int jstyle (vec l) _ (vec_wf W l) (vec_shape W l)). rewrite vec_elements. cbn [List.length]. rewrite <- (map_length show_int l). rewrite vec_layout. cbn [st_open st_close st_sep0 jstyle app].
    rewrite app_nil_r. reflexivity. }
  intros W dynrank s w. unfold format_shape, heading, bind. destruct dynrank; rewrite ?H; unfold ret; rewrite ?H; cbn [map join]; rewrite <- ?app_assoc; reflexivity.
Qed.
Theorem C43_format : forall X W (show : X -> text) f dynrank dynsize (e : expr X W) s, wf e -> shape_is e s -> forall w, format show f dynrank dynsize e w =
  match in_order (map (element e) (indices s)) w with
  | Ok xs w' => Ok ((match st_shape f with Withshape => heading dynrank s | Defaultshape => if dynsize then heading dynrank s else [] | Noshape => [] end) ++ layout f (List.length s) 0 s (map show xs)) w'
  | Fail w' => Fail w'
  | Undef => Undef
  end.
Proof.
  intros X W show f dynrank dynsize e s Hw Hs w. unfold format. destruct (shape_is_shape e s Hw Hs) as (E & Hv). rewrite Hv. rewrite <- E. unfold bind.
  assert (Hg : forall w, goin show f (rank e) 0 s e [] w = match in_order (map (element e) (indices s)) w with Ok xs w' => Ok (e, layout f (List.length s) 0 s (map show xs)) w' | Fail w' => Fail w' | Undef => Undef end)
    by (intros w0; rewrite <- (goin_layout show f e s Hw Hs); rewrite E; reflexivity).
  destruct (st_shape f); [destruct dynsize| |]; rewrite ?heading_spec; unfold ret; rewrite Hg; destruct (in_order (map (element e) (indices s)) w); reflexivity.
Qed.
(* If the shapes in the expression don't agree, nothing is printed. *)
Theorem C43_refuse : forall X W (show : X -> text) f dynrank dynsize (e : expr X W), wf e -> ~ agreeing [e] -> forall w, format show f dynrank dynsize e w = Fail w.
Proof. intros X W show f dynrank dynsize e Hw Hn w. unfold format. rewrite <- validate_iff in Hn by auto. destruct (validate e); [contradiction Hn; auto|reflexivity]. Qed.

(* each element once, in order *)
Fixpoint glue (gs : list text) (x : text) (hs : list text) : list text :=
  match gs with
  | [] => hs
  | [g] => match hs with [] => [g ++ x] | h::hs' => (g ++ x ++ h) :: hs' end
  | g::gs' => g :: glue gs' x hs
  end.
Lemma glue_weave : forall gs ts x hs us, List.length gs = S (List.length ts) -> hs <> [] -> weave gs ts ++ x ++ weave hs us = weave (glue gs x hs) (ts ++ us).
Proof.
  induction gs as [|g gs IH]; intros ts x hs us H N; [discriminate|]. destruct ts as [|t ts]; cbn in H.
  - destruct gs; [|discriminate]. destruct hs as [|h hs]; [contradiction|]. cbn [glue weave app]. destruct us; rewrite <- ?app_assoc; reflexivity.
  - destruct gs as [|g' gs]; [discriminate|]. change (glue (g :: g' :: gs) x hs) with (g :: glue (g' :: gs) x hs). cbn [app]. change (weave (g :: glue (g' :: gs) x hs) (t :: ts ++ us)) with (g ++ t ++ weave (glue (g' :: gs) x hs) (ts ++ us)).
    rewrite <- IH by (auto; cbn in *; lia). change (weave (g :: g' :: gs) (t :: ts)) with (g ++ t ++ weave (g' :: gs) ts). rewrite <- !app_assoc. reflexivity.
Qed.
Lemma glue_length : forall gs x hs, gs <> [] -> hs <> [] -> S (List.length (glue gs x hs)) = (List.length gs + List.length hs)%nat.
Proof.
  induction gs as [|g gs IH]; intros x hs N1 N2; [contradiction|]. destruct gs as [|g' gs]; [destruct hs; [contradiction|cbn; lia]|]. change (glue (g :: g' :: gs) x hs) with (g :: glue (g' :: gs) x hs). cbn [List.length] in *.
  rewrite IH by (auto; discriminate). lia.
Qed.
Theorem C43_order : forall f r s, nonneg s -> forall k, exists gaps, List.length gaps = S (Z.to_nat (zprod s)) /\
  forall ts, List.length ts = Z.to_nat (zprod s) -> layout f r k s ts = weave gaps ts.
Proof.
  intros f r s Hs. induction Hs as [|n s Hn Hs IH]; intros k.
  - exists [[]; []]. split; [reflexivity|]. intros [|t [|u ts]] H; try discriminate. cbn. rewrite app_nil_r. reflexivity.
  - destruct (IH (S k)) as (gs & Lg & Hg). pose proof (zprod_nonneg s Hs) as Hp. set (P := Z.to_nat (zprod s)) in *.
    assert (Hj : forall m, exists hs, List.length hs = S (m * P) /\ forall ts, List.length ts = (m * P)%nat -> join (between f r k) (map (layout f r (S k) s) (pieces P m ts)) = weave hs ts).
    { induction m as [|[|m] (hs & Lh & Hh)].
      - exists [[]]. split; [reflexivity|]. intros [|t ts] H; [reflexivity|discriminate].
      - exists gs. split; [lia|]. intros ts H. cbn [pieces map join]. rewrite firstn_all2 by lia. apply Hg. lia.
      - exists (glue gs (between f r k) hs). split.
        + pose proof (glue_length gs (between f r k) hs ltac:(destruct gs; discriminate) ltac:(destruct hs; discriminate)). lia.
        + intros ts H. rewrite <- (firstn_skipn P ts) at 2. assert (L1 : List.length (firstn P ts) = P) by (rewrite firstn_length; lia). assert (L2 : List.length (skipn P ts) = (S m * P)%nat) by (rewrite skipn_length; lia).
          rewrite <- glue_weave; [|lia|destruct hs; discriminate]. rewrite <- Hg by auto. rewrite <- Hh by auto. reflexivity. }
    destruct (Hj (Z.to_nat n)) as (hs & Lh & Hh). assert (Hc : (Z.to_nat n * P = Z.to_nat (zprod (n::s)))%nat) by (cbn [zprod]; rewrite Z2Nat.inj_mul by auto; reflexivity). rewrite Hc in *.
    exists (glue [st_open f] [] (glue hs [] [st_close f])).
    assert (N : hs <> []) by (destruct hs; discriminate). assert (N' : glue hs [] [st_close f] <> []) by (pose proof (glue_length hs [] [st_close f] N ltac:(discriminate)) as H; intros E; rewrite E in H; cbn in H; lia).
    split.
    + pose proof (glue_length [st_open f] [] _ ltac:(discriminate) N') as H1. pose proof (glue_length hs [] [st_close f] N ltac:(discriminate)) as H2. cbn [List.length] in *. lia.
    + intros ts H. cbn [layout]. fold P. rewrite Hh by auto. change ts with ([] ++ ts) at 2. rewrite <- glue_weave; [|reflexivity|auto]. cbn [weave app]. f_equal. rewrite <- (app_nil_r ts) at 2.
      rewrite <- glue_weave; [reflexivity|lia|discriminate].
Qed.

(* The styles as they look. Without marks: a space between the elements of a row, and between the items that have d more axes, d ends of line. *)
Fixpoint lines (s : list Z) (ts : list text) : text :=
  match s with
  | [] => List.concat ts
  | n::s' => join (match s' with [] => txt " " | _ => repeat eol (List.length s') end) (map (lines s') (pieces (Z.to_nat (zprod s')) (Z.to_nat n) ts))
  end.
(* With marks o and c around each item, and comma after each but the last. The elements of a row follow a space. The others start on another line, below the one before; if spaced, with one more line for each axis
   other than the last two. in_: the number of marks that are open. *)
Fixpoint marked (o c : ascii) (comma : text) (spaced : bool) (in_ : nat) (s : list Z) (ts : list text) : text :=
  match s with
  | [] => List.concat ts
  | n::s' => o :: join (comma ++ match s' with [] => txt " " | _::l => eol :: (if spaced then repeat eol (List.length l) else []) ++ repeat " "%char (S in_) end)
                   (map (marked o c comma spaced (S in_) s') (pieces (Z.to_nat (zprod s')) (Z.to_nat n) ts)) ++ [c]
  end.
Lemma concat_ones : forall (c : ascii) n, List.concat (repeat [c] n) = repeat c n.
Proof. induction n; cbn; [reflexivity|]. rewrite IHn. reflexivity. Qed.
Lemma concat_none : forall n, List.concat (repeat (@nil ascii) n) = [].
Proof. induction n; cbn; auto. Qed.
Lemma between_last : forall f k, between f (k + 1) k = st_sep0 f.
Proof. intros. unfold between. replace (k + 1)%nat with (S k) by lia. rewrite Nat.eqb_refl. reflexivity. Qed.
Lemma between_other : forall f k l, between f (k + S (S l)) k = st_sepn f ++ List.concat (repeat (st_rep f) l) ++ (if st_align f then repeat " "%char (S k * List.length (st_open f)) else []).
Proof. intros. unfold between. destruct (Nat.eqb_spec (S k) (k + S (S l))); [lia|]. replace (k + S (S l) - 2 - k)%nat with l by lia. reflexivity. Qed.
Lemma plain_lines : forall f, st_open f = [] -> st_close f = [] -> st_sep0 f = txt " " -> st_sepn f = [eol] -> st_rep f = [eol] -> st_align f = false -> forall s k ts, layout f (k + List.length s) k s ts = lines s ts.
Proof.
  intros f Ho Hc H0 Hn Hr Ha s. induction s as [|n s IH]; intros k ts; [reflexivity|]. cbn [layout lines]. rewrite Ho, Hc, app_nil_r. cbn [app List.length].
  replace (between f (k + S (List.length s)) k) with (match s with [] => txt " " | _ => repeat eol (List.length s) end).
  - f_equal. apply map_ext. intros l. specialize (IH (S k) l). rewrite <- IH. f_equal. lia.
  - destruct s as [|n' s]; cbn [List.length]; [rewrite between_last, H0; reflexivity|]. rewrite between_other, Hn, Hr, Ha, concat_ones, app_nil_r. reflexivity.
Qed.
Lemma marked_lines : forall f o c comma spaced, st_open f = [o] -> st_close f = [c] -> st_sep0 f = comma ++ txt " " -> st_sepn f = comma ++ [eol] -> st_rep f = (if spaced : bool then [eol] else []) -> st_align f = true ->
  forall s k ts, layout f (k + List.length s) k s ts = marked o c comma spaced k s ts.
Proof.
  intros f o c comma spaced Ho Hc H0 Hn Hr Ha s. induction s as [|n s IH]; intros k ts; [reflexivity|]. cbn [layout marked]. rewrite Ho, Hc. cbn [app List.length]. f_equal. f_equal.
  replace (between f (k + S (List.length s)) k) with (comma ++ match s with [] => txt " " | _::l => eol :: (if spaced then repeat eol (List.length l) else []) ++ repeat " "%char (S k) end).
  - f_equal. apply map_ext. intros l. specialize (IH (S k) l). rewrite <- IH. f_equal. lia.
  - destruct s as [|n' s]; cbn [List.length]; [rewrite between_last, H0; reflexivity|]. rewrite between_other, Hn, Hr, Ha, Ho, <- app_assoc. cbn [List.length app]. rewrite Nat.mul_1_r. f_equal. f_equal. f_equal.
    destruct spaced; [rewrite concat_ones|rewrite concat_none]; reflexivity.
Qed.
Theorem C43_styles : forall s ts,
  layout jstyle (List.length s) 0 s ts = lines s ts /\ layout nstyle (List.length s) 0 s ts = lines s ts /\
  layout cstyle (List.length s) 0 s ts = marked "{" "}" (txt ",") false 0 s ts /\ layout lstyle (List.length s) 0 s ts = marked "(" ")" [] false 0 s ts /\
  layout pstyle (List.length s) 0 s ts = marked "[" "]" (txt ",") true 0 s ts /\
  map st_shape [jstyle; nstyle; cstyle; lstyle; pstyle] = [Defaultshape; Noshape; Noshape; Noshape; Noshape].
Proof.
  intros s ts. split; [apply (plain_lines jstyle) with (k := 0%nat); reflexivity|]. split; [apply (plain_lines nstyle) with (k := 0%nat); reflexivity|].
  split; [apply (marked_lines cstyle) with (k := 0%nat); reflexivity|]. split; [apply (marked_lines lstyle) with (k := 0%nat); reflexivity|]. split; [apply (marked_lines pstyle) with (k := 0%nat); reflexivity|]. reflexivity.
Qed.

(* ---------------- C42 *)
(* styles where only space is printed between the elements *)
Definition blank (f : style) : Prop :=
  Forall isspace (st_open f) /\ Forall isspace (st_close f) /\ Forall isspace (st_sep0 f) /\ Forall isspace (st_sepn f) /\ Forall isspace (st_rep f) /\ st_sep0 f <> [] /\ st_sepn f <> [].
Lemma jstyle_blank : blank jstyle.
Proof.
  assert (H1 : isspace " ") by (cbn; auto 10). assert (H2 : isspace eol) by (cbn; auto 10). unfold blank. cbn [st_open st_close st_sep0 st_sepn st_rep jstyle txt list_ascii_of_string].
  repeat split; try discriminate; repeat (apply Forall_cons; [auto|]); apply Forall_nil.
Qed.
Lemma nstyle_blank : blank nstyle.
Proof. exact jstyle_blank. Qed.
Lemma between_space : forall f r k, blank f -> Forall isspace (between f r k) /\ between f r k <> [].
Proof.
  intros f r k (_ & _ & H0 & Hn & Hr & N0 & Nn). unfold between. destruct (Nat.eqb (S k) r); [auto|]. split; [|destruct (st_sepn f); [contradiction|discriminate]].
  apply Forall_app. split; auto. apply Forall_app. split.
  - induction (r - 2 - k)%nat; cbn; auto. apply Forall_app; auto.
  - destruct (st_align f); auto. apply Forall_forall. intros c Hc. apply repeat_spec in Hc. subst. cbn. auto 10.
Qed.
Lemma space_separated : forall ws t, Forall isspace ws -> separated t -> separated (ws ++ t).
Proof. intros [|c ws] t H Ht; auto. inversion H; subst. cbn. apply space_not_digit; auto. Qed.
Lemma space_separated' : forall ws t, Forall isspace ws -> ws <> [] -> separated (ws ++ t).
Proof. intros [|c ws] t H Ht; [contradiction|]. inversion H; subst. cbn. apply space_not_digit; auto. Qed.
Lemma pieces_map : forall A B (g : A -> B) p n l, pieces p n (map g l) = map (map g) (pieces p n l).
Proof. induction n as [|n IH]; intros l; cbn [pieces map]; auto. rewrite firstn_map, skipn_map, IH. reflexivity. Qed.

Lemma layout_numerals : forall f r lo hi, blank f -> forall s, nonneg s -> forall k zs ws u, List.length zs = Z.to_nat (zprod s) -> Forall (fun z => lo <= z <= hi) zs -> Forall isspace ws -> separated u ->
  exists ws', Forall isspace ws' /\ numerals lo hi (ws ++ layout f r k s (map show_int zs) ++ u) zs (ws' ++ u).
Proof.
  intros f r lo hi Hf s Hs. induction Hs as [|n s Hn Hs IH]; intros k zs ws u Hl Hz Hw Hu.
  - destruct zs as [|z [|y zs]]; try discriminate. cbn [map layout List.concat]. rewrite app_nil_r. exists []. split; auto. inversion Hz; subst. econstructor; [apply show_numeral; auto|auto|constructor].
  - pose proof (zprod_nonneg s Hs) as Hp. set (P := Z.to_nat (zprod s)) in *. cbn [layout]. fold P. destruct (between_space f r k Hf) as (Hg & Ng).
    assert (Hj : forall m zs ws u, List.length zs = (m * P)%nat -> Forall (fun z => lo <= z <= hi) zs -> Forall isspace ws -> separated u ->
      exists ws', Forall isspace ws' /\ numerals lo hi (ws ++ join (between f r k) (map (layout f r (S k) s) (pieces P m (map show_int zs))) ++ u) zs (ws' ++ u)).
    { clear zs ws u Hl Hz Hw Hu. induction m as [|m IHm]; intros zs ws u Hl Hz Hw Hu.
      - destruct zs; [|discriminate]. exists ws. split; auto. constructor.
      - cbn [pieces map]. rewrite firstn_map, skipn_map. assert (Z1 : Forall (fun z => lo <= z <= hi) (firstn P zs) /\ Forall (fun z => lo <= z <= hi) (skipn P zs)) by (rewrite <- Forall_app, firstn_skipn; auto).
        assert (L1 : List.length (firstn P zs) = P) by (rewrite firstn_length; lia). assert (L2 : List.length (skipn P zs) = (m * P)%nat) by (rewrite skipn_length; lia).
        destruct m as [|m].
        + cbn [pieces map join]. rewrite firstn_all2 by lia. apply IH; auto. lia.
        + set (bs := map (layout f r (S k) s) (pieces P (S m) (map show_int (skipn P zs)))). assert (E : join (between f r k) (layout f r (S k) s (map show_int (firstn P zs)) :: bs) =
            layout f r (S k) s (map show_int (firstn P zs)) ++ between f r k ++ join (between f r k) bs) by reflexivity. rewrite E.
          destruct (IH (S k) (firstn P zs) ws (between f r k ++ join (between f r k) bs ++ u) L1 (proj1 Z1) Hw (space_separated' _ _ Hg Ng)) as (ws1 & Hw1 & N1).
          destruct (IHm (skipn P zs) (ws1 ++ between f r k) u L2 (proj2 Z1) ltac:(apply Forall_app; auto) Hu) as (ws2 & Hw2 & N2). fold bs in N2. exists ws2. split; auto.
          rewrite <- (firstn_skipn P zs). rewrite (firstn_skipn P zs). rewrite <- (firstn_skipn P zs) at 2. rewrite <- !app_assoc. eapply numerals_app; [exact N1|]. rewrite <- !app_assoc in N2. exact N2. }
    assert (Hc : (Z.to_nat n * P = Z.to_nat (zprod (n::s)))%nat) by (cbn [zprod]; rewrite Z2Nat.inj_mul by auto; reflexivity).
    destruct Hf as (Ho & Hcl & _). destruct (Hj (Z.to_nat n) zs (ws ++ st_open f) (st_close f ++ u)) as (ws' & Hw' & N); auto.
    { rewrite Hc. auto. } { apply Forall_app; auto. } { apply space_separated; auto. }
    exists (ws' ++ st_close f). split; [apply Forall_app; auto|]. rewrite <- !app_assoc in *. exact N.
Qed.
Lemma join_numerals : forall lo hi zs ws u, Forall (fun z => lo <= z <= hi) zs -> Forall isspace ws -> separated u -> exists ws', Forall isspace ws' /\ numerals lo hi (ws ++ join (txt " ") (map show_int zs) ++ u) zs (ws' ++ u).
Proof.
  intros lo hi zs ws u Hz Hw Hu. destruct (layout_numerals jstyle 1 lo hi jstyle_blank [Z.of_nat (List.length zs)] ltac:(constructor; [lia|constructor]) 0 zs ws u ltac:(cbn; lia) Hz Hw Hu) as (ws' & H & N).
  rewrite <- (map_length show_int zs) in N. rewrite vec_layout in N. cbn [st_open st_close st_sep0 jstyle app] in N. rewrite app_nil_r in N. eauto.
Qed.

(* An array as an expression: iter (expr.hh:353-360), and how its elements print. *)
Definition aexpr {W T} (a : arr T) : expr (option T) W := Cell (adim a) (List.length (adim a)) (fun p => nth (Z.to_nat p) (astore a) None) 0.
Definition show_elem (o : option Z) : text := match o with Some z => show_int z | None => [] end.

Lemma aexpr_wf : forall W T (a : arr T), good a -> wf (aexpr a : expr (option T) W).
Proof. intros W T a (Hn & _). split; [cbn; lia|]. rewrite firstn_all. unfold nonneg, ashape in Hn. rewrite Forall_map in Hn. eapply Forall_impl; [|exact Hn]. intros d Hd. left. auto. Qed.
Lemma aexpr_shape : forall W T (a : arr T), good a -> shape_is (aexpr a : expr (option T) W) (ashape a).
Proof.
  intros W T a G. assert (E : shape (aexpr a : expr (option T) W) = ashape a).
  { unfold shape, ashape, rankn. cbn [rank aexpr]. rewrite Nat2Z.id. cbn [lene]. apply nth_ext with (d := 0) (d' := 0); [rewrite !map_length, seq_length; auto|]. intros n Hn. rewrite map_length, seq_length in Hn.
    rewrite (nth_indep _ 0 (len (nth 0 (adim a) dim0))) by (rewrite map_length, seq_length; auto). rewrite (map_nth (fun k => len (nth k (adim a) dim0)) (seq 0 (List.length (adim a))) 0%nat). rewrite seq_nth by auto.
    change 0 with (len dim0). rewrite map_nth. reflexivity. }
  rewrite <- E. apply shape_shape_is; [apply aexpr_wf; auto|]. apply validate_spec. rewrite E. split; [cbn; lia|]. destruct G as (G & _). exact G.
Qed.
Lemma in_order_vals : forall W A (l : list (M W A)) vs, Forall2 (fun m v => forall w, m w = Ok v w) l vs -> forall w, in_order l w = Ok vs w.
Proof. intros W A l vs H. induction H as [|m v l vs H _ IH]; intros w0; cbn [in_order]; [reflexivity|]. rewrite H, IH. reflexivity. Qed.
Lemma aexpr_elements : forall W T (a : arr T) (w : W), good a -> in_order (map (element (aexpr a)) (indices (ashape a))) w = Ok (astore a) w.
Proof.
  intros W T a w G. apply in_order_vals. pose proof G as (Hn & Hl & _).
  assert (E : astore a = map (fun j => nth (Z.to_nat (rm (ashape a) j)) (astore a) None) (indices (ashape a))).
  { rewrite <- (map_map (rm (ashape a)) (fun p => nth (Z.to_nat p) (astore a) None)). rewrite rm_indices by auto. unfold zrange. rewrite map_map. rewrite <- Hl, Nat2Z.id. apply nth_ext with (d := None) (d' := None).
    - rewrite map_length, seq_length. reflexivity.
    - intros k Hk. rewrite (nth_indep (map _ _) None (nth (Z.to_nat (Z.of_nat 0)) (astore a) None)) by (rewrite map_length, seq_length; auto). rewrite (map_nth (fun x => nth (Z.to_nat (Z.of_nat x)) (astore a) None)).
      rewrite seq_nth by auto. cbn [Nat.add]. rewrite Nat2Z.id. reflexivity. }
  rewrite E. assert (H : forall js, (forall j, In j js -> inshape j (ashape a)) -> Forall2 (fun (m : M W (option T)) v => forall w, m w = Ok v w) (map (element (aexpr a)) js) (map (fun j => nth (Z.to_nat (rm (ashape a) j)) (astore a) None) js)).
  { induction js as [|j js IH]; intros Hj; cbn [map]; constructor; [|apply IH; intros; apply Hj; right; auto]. intros w0. specialize (Hj j (or_introl eq_refl)). cbn [element aexpr]. rewrite firstn_all.
    pose proof (inshape_length _ _ Hj) as L. unfold ashape in L. rewrite map_length in L. rewrite firstn_all2 by lia. rewrite Z.add_0_l. rewrite good_place by auto. reflexivity. }
  apply H. intros j. apply in_indices.
Qed.

(* An array that has all its elements set, printed in the default style and read back. Before, the other array (c) may have any other contents and shape. Arrays with static rank 0 have static size, see C42_static. *)
Theorem C42_array : forall r a zs lo hi, r <> Some 0%nat -> reach r a -> astore a = map Some zs -> Forall (fun z => lo <= z <= hi) zs -> Forall (fun n => n < 2^63) (ashape a) -> Z.of_nat (List.length (ashape a)) < 2^63 ->
  forall W (w : W), exists t, format show_elem jstyle (match r with Some _ => false | None => true end) true (aexpr a) w = Ok t w /\
  forall c rest, separated rest -> exists b ws, read_array r lo hi c (Stream (t ++ rest) false) = Rdone b (Stream (ws ++ rest) false) /\ Forall isspace ws /\
    ashape b = ashape a /\ forall j, inshape j (ashape a) -> aget b j = aget a j.
Proof.
  intros r a zs lo hi _ Hr Ha Hz Hd Hrk W w. pose proof (reach_good r a Hr) as G. eexists. split.
  { rewrite (C43_format _ _ _ _ _ _ _ (ashape a)) by (try apply aexpr_wf; try apply aexpr_shape; auto). rewrite aexpr_elements by auto. cbn [st_shape jstyle]. reflexivity. }
  intros c rest Hrest. pose proof G as (Hn & Hl & _). set (s := ashape a) in *. set (u := layout jstyle (List.length s) 0 s (map show_elem (astore a)) ++ rest).
  assert (Eu : map show_elem (astore a) = map show_int zs) by (rewrite Ha, map_map; reflexivity).
  assert (Hs64 : Forall (fun z => lo64 <= z <= hi64) s) by (unfold lo64, hi64, nonneg in *; rewrite Forall_forall in *; intros z Iz; specialize (Hd z Iz); specialize (Hn z Iz); cbn beta in *; lia).
  (* the shape *)
  assert (Hsh : forall ws0, Forall isspace ws0 -> exists ws, Forall isspace ws /\ numerals lo64 hi64 (ws0 ++ join (txt " ") (map show_int s) ++ [eol] ++ u) s (ws ++ u)).
  { intros ws0 H0. assert (Hnl : Forall isspace [eol]) by (constructor; [cbn; auto 10|constructor]). destruct (join_numerals lo64 hi64 s ws0 ([eol] ++ u) Hs64 H0 (space_separated' _ _ Hnl ltac:(discriminate))) as (ws & Hw & N).
    exists (ws ++ [eol]). split; [apply Forall_app; auto|]. rewrite <- !app_assoc. exact N. }
  (* the elements *)
  assert (Hel : forall ws, Forall isspace ws -> exists ws', Forall isspace ws' /\ numerals lo hi (ws ++ u) zs (ws' ++ rest)).
  { intros ws Hw. unfold u. rewrite Eu. apply layout_numerals; auto; [apply jstyle_blank|]. apply (f_equal (@List.length _)) in Ha. rewrite map_length in Ha. lia. }
  assert (Hmk : exists dv, fill s [] = (dv, Some (zprod s))) by (apply fill_total; auto). destruct Hmk as (dv & Ef).
  assert (Hmake : make r s = Some (@Arr Z dv (repeat None (Z.to_nat (zprod s))))).
  { unfold make. rewrite Ef. replace (match r with Some n => Nat.eqb (List.length s) n | None => true end) with true; auto. destruct r as [n|]; auto. symmetry. apply Nat.eqb_eq. unfold s, ashape. rewrite map_length. exact (reach_rank _ _ Hr). }
  assert (Hpos : forallb (fun n => n >=? 0) s = true) by (apply forallb_forall; intros x Hx; unfold nonneg in Hn; rewrite Forall_forall in Hn; specialize (Hn x Hx); lia).
  assert (Hback : map (fun o => match o with Some z => z | None => 0 end) (map Some s) = s) by (rewrite map_map; apply map_id).
  apply fill_spec in Ef as Ef'. destruct Ef' as (_ & _ & Ld & Pd).
  assert (Hfin : forall ws, Forall isspace ws -> exists b ws', (let '(l, s2) := read_all lo hi (repeat None (Z.to_nat (zprod s))) (Stream (ws ++ u) false) in Rdone (Arr dv l) s2) = Rdone b (Stream (ws' ++ rest) false) /\ Forall isspace ws' /\
    ashape b = s /\ forall j, inshape j s -> aget b j = aget a j).
  { intros ws Hw. destruct (Hel ws Hw) as (ws' & Hw' & N). rewrite (read_all_good _ _ _ _ _ _ N) by (apply (f_equal (@List.length _)) in Ha; rewrite map_length in Ha; rewrite repeat_length; lia).
    exists (Arr dv (map Some zs)), ws'. split; [reflexivity|]. split; [auto|]. split; [unfold ashape; cbn [adim]; auto|]. intros j Hj.
    assert (Gb : good (Arr dv (map Some zs))).
    { split; [unfold ashape; cbn [adim]; rewrite Ld; auto|]. split; [unfold ashape; cbn [adim astore]; rewrite Ld, <- Ha; auto|]. cbn [adim]. apply (fill_first _ _ _ _ Ef). }
    rewrite (good_aget _ j Gb) by (unfold ashape; cbn [adim]; rewrite Ld; auto). rewrite (good_aget a j G) by auto. unfold ashape at 1. cbn [adim astore]. rewrite Ld, Ha. reflexivity. }
  unfold read_array. destruct r as [n|].
  - cbn [heading app]. rewrite <- !app_assoc. fold u. destruct (Hsh [] ltac:(constructor)) as (ws & Hw & N). cbn [app] in N. unfold read_static.
    assert (Hlen : List.length s = n) by (unfold s, ashape; rewrite map_length; exact (reach_rank _ _ Hr)).
    rewrite (read_all_good _ _ _ _ _ _ N) by (rewrite repeat_length; auto). cbn [bad]. rewrite Hback. rewrite Hpos, Hmake. cbn [astore adim]. apply Hfin. auto.
  - unfold heading. rewrite <- !app_assoc. fold u. assert (Hnl : Forall isspace [eol]) by (constructor; [cbn; auto 10|constructor]).
    destruct (Hsh [eol] Hnl) as (ws & Hw & N). unfold read_vector.
    pose proof (show_numeral [] (Z.of_nat (List.length s)) ([eol] ++ join (txt " ") (map show_int s) ++ [eol] ++ u) ltac:(constructor) (space_separated' _ _ Hnl ltac:(discriminate))) as N0. cbn [app] in N0, N |- *.
    rewrite (read_int_good lo64 hi64 _ _ _ N0) by (unfold lo64, hi64; lia).
    cbn [bad]. replace (Z.of_nat (List.length s) >=? 0) with true by lia. rewrite (read_all_good _ _ _ _ _ _ N) by (rewrite repeat_length; lia). cbn [bad]. rewrite Hback, Hpos, Hmake. cbn [astore adim]. apply Hfin. auto.
Qed.

(* Containers with static size are printed without the shape, and read into their elements; so are they in any style where there's only space between the elements. *)
Theorem C42_static : forall f W (e : expr Z W) s lo hi, blank f -> st_shape f <> Withshape -> wf e -> shape_is e s -> forall zs w w', in_order (map (element e) (indices s)) w = Ok zs w' -> Forall (fun z => lo <= z <= hi) zs ->
  exists t, format show_int f false false e w = Ok t w' /\
  forall l rest, List.length l = List.length zs -> separated rest -> exists ws, read_static lo hi l (Stream (t ++ rest) false) = Rdone (map Some zs) (Stream (ws ++ rest) false) /\ Forall isspace ws.
Proof.
  intros f W e s lo hi Hf Hsh Hw Hs zs w w' He Hz. eexists. split.
  { rewrite (C43_format _ _ _ _ _ _ _ s) by auto. rewrite He. destruct (st_shape f); [cbn [app]; reflexivity|contradiction|reflexivity]. }
  intros l rest Hl Hr. unfold read_static. assert (Hn : nonneg s) by (destruct (shape_is_shape e s Hw Hs) as (-> & Hv); apply validate_spec in Hv; apply Hv).
  assert (Lz : List.length zs = Z.to_nat (zprod s)) by (rewrite (in_order_length _ _ _ _ _ _ He), map_length; pose proof (indices_count s Hn); lia).
  destruct (layout_numerals f (List.length s) lo hi Hf s Hn 0 zs [] rest Lz Hz ltac:(constructor) Hr) as (ws & H & N). exists ws. split; auto. cbn [app] in N.
  destruct (st_shape f); [|contradiction|]; rewrite (read_all_good _ _ _ _ _ _ N) by auto; reflexivity.
Qed.

(* ---------------- C60 *)
(* The text begins with the shape p: the lengths, after how many they are if the rank isn't known. *)
Definition announces (r : option nat) (t : text) (p : list Z) (t' : text) : Prop :=
  match r with
  | Some n => List.length p = n /\ numerals (- 2^63) (2^63 - 1) t p t'
  | None => exists t1, numerals (- 2^63) (2^63 - 1) t [Z.of_nat (List.length p)] t1 /\ numerals (- 2^63) (2^63 - 1) t1 p t'
  end.
Definition negative_rank (t : text) (t' : text) : Prop := exists m, numeral t m t' /\ - 2^63 <= m < 0.

Lemma numerals_fun : forall lo hi zs t t1 ys t2, numerals lo hi t zs t1 -> numerals lo hi t ys t2 -> List.length zs = List.length ys -> zs = ys /\ t1 = t2.
Proof.
  intros lo hi zs t t1 ys t2 H. revert ys t2. induction H as [t|t z t1 zs t' Hn Hr H IH]; intros ys t2 H2 Hl; inversion H2; subst; try discriminate; auto.
  match goal with A : numeral t _ _, B : numeral t _ _ |- _ => destruct (numeral_fun _ _ _ _ _ A B); subst end. edestruct IH; eauto. subst. auto.
Qed.
Lemma read_shape_good : forall r lo hi c t p t', announces r t p t' -> read_array r lo hi c (Stream t false) =
  if forallb (fun n => n >=? 0) p then match make r p with Some cc => let '(l, s2) := read_all lo hi (astore cc) (Stream t' false) in Rdone (Arr (adim cc) l) s2 | None => Rfail c (Stream t' false) end else Rfail c (Stream t' false).
Proof.
  assert (Hback : forall s : list Z, map (fun o => match o with Some z => z | None => 0 end) (map Some s) = s) by (intros s; rewrite map_map; apply map_id).
  intros [n|] lo hi c t p t' H; unfold read_array.
  - destruct H as (L & N). unfold read_static, lo64, hi64. rewrite (read_all_good _ _ _ _ _ _ N) by (rewrite repeat_length; auto). cbn [bad]. rewrite Hback. reflexivity.
  - destruct H as (t1 & N0 & N). inversion N0; subst. match goal with H : numerals _ _ _ [] _ |- _ => inversion H; subst end. unfold read_vector, lo64, hi64.
    erewrite read_int_good by eauto. cbn [bad]. replace (Z.of_nat (List.length p) >=? 0) with true by lia. rewrite (read_all_good _ _ _ _ _ _ N) by (rewrite repeat_length; lia). cbn [bad]. rewrite Hback. reflexivity.
Qed.
Lemma read_all_first : forall lo hi vs t t', numerals lo hi t vs t' -> forall l, (List.length vs <= List.length l)%nat -> firstn (List.length vs) (fst (read_all lo hi l (Stream t false))) = map Some vs.
Proof.
  intros lo hi vs t t' H. induction H as [t|t z t1 zs t' Hn Hr H IH]; intros l Hl; [reflexivity|]. destruct l as [|x l]; [cbn in Hl; lia|]. cbn [read_all]. rewrite (read_int_good _ _ _ _ _ Hn Hr).
  specialize (IH l ltac:(cbn in Hl; lia)). destruct (read_all lo hi l (Stream t1 false)) as [l1 s2]. cbn [fst] in *. cbn [List.length map firstn]. f_equal. auto.
Qed.
(* The shape is right: the array takes it, and then the elements, in row-major order, while they can be read. *)
Theorem C60_read : forall r lo hi c t p t', announces r t p t' -> Forall (fun n => 0 <= n) p -> exists b s, read_array r lo hi c (Stream t false) = Rdone b s /\ ashape b = p /\ good b /\
  (forall vs t'', numerals lo hi t' vs t'' -> Z.of_nat (List.length vs) <= zprod p -> firstn (List.length vs) (astore b) = map Some vs) /\
  (forall vs t'', numerals lo hi t' vs t'' -> Z.of_nat (List.length vs) = zprod p -> s = Stream t'' false) /\
  ((forall vs t'', numerals lo hi t' vs t'' -> Z.of_nat (List.length vs) <> zprod p) -> bad s = true).
Proof.
  intros r lo hi c t p t' H Hp. rewrite (read_shape_good _ _ _ _ _ _ _ H). replace (forallb (fun n => n >=? 0) p) with true by (symmetry; apply forallb_forall; intros x Hx; rewrite Forall_forall in Hp; specialize (Hp x Hx); lia).
  destruct (fill_total p [] Hp) as (dv & Ef). assert (Hmake : make r p = Some (@Arr Z dv (repeat None (Z.to_nat (zprod p))))).
  { unfold make. rewrite Ef. replace (match r with Some n => Nat.eqb (List.length p) n | None => true end) with true; auto. destruct r as [n|]; auto. symmetry. apply Nat.eqb_eq. apply H. }
  rewrite Hmake. cbn [astore adim]. destruct (read_all lo hi (repeat None (Z.to_nat (zprod p))) (Stream t' false)) as [l s] eqn:E. exists (Arr dv l), s. pose proof (zprod_nonneg p Hp) as Pp.
  apply fill_spec in Ef as Ef'. destruct Ef' as (_ & _ & Ld & Pd).
  assert (Ll : List.length l = Z.to_nat (zprod p)).
  { assert (G : forall l s, List.length (fst (read_all lo hi l s)) = List.length l).
    { clear. induction l as [|x l IH]; intros s; [reflexivity|]. cbn [read_all]. destruct (read_int lo hi s) as [v s1]. specialize (IH s1). destruct (read_all lo hi l s1). cbn in *. lia. }
    pose proof (G (repeat None (Z.to_nat (zprod p))) (Stream t' false)) as G'. rewrite E, repeat_length in G'. exact G'. }
  split; [reflexivity|]. split; [unfold ashape; cbn [adim]; auto|]. split.
  { split; [unfold ashape; cbn [adim]; rewrite Ld; auto|]. split; [unfold ashape; cbn [adim astore]; rewrite Ld; lia|]. cbn [adim]. apply (fill_first _ _ _ _ Ef). }
  split; [|split].
  - intros vs t'' N L. cbn [astore]. pose proof (read_all_first _ _ _ _ _ N (repeat None (Z.to_nat (zprod p))) ltac:(rewrite repeat_length; lia)) as F. rewrite E in F. exact F.
  - intros vs t'' N L. rewrite (read_all_good _ _ _ _ _ _ N) in E by (rewrite repeat_length; lia). injection E as _ <-. reflexivity.
  - intros N. destruct (bad s) eqn:B; auto. exfalso. destruct (read_all_ok _ _ _ _ _ _ E B) as (zs & _ & Lz & Nz). rewrite repeat_length in Lz. apply (N _ _ Nz). lia.
Qed.
(* A negative length, or a negative number of lengths, is refused and the array is as before. *)
Theorem C60_negative : forall r lo hi c t p t', announces r t p t' -> Exists (fun n => n < 0) p -> read_array r lo hi c (Stream t false) = Rfail c (Stream t' false).
Proof.
  intros r lo hi c t p t' H Hp. rewrite (read_shape_good _ _ _ _ _ _ _ H). destruct (forallb (fun n => n >=? 0) p) eqn:E; auto. rewrite forallb_forall in E. apply Exists_exists in Hp as (n & Hn & L). specialize (E n Hn). lia.
Qed.
Theorem C60_negative_rank : forall lo hi c t t', negative_rank t t' -> read_array None lo hi c (Stream t false) = Rfail c (Stream t' false).
Proof.
  intros lo hi c t t' (m & N & R). unfold read_array, read_vector. rewrite (read_int_good lo64 hi64 _ _ _ N) by (unfold lo64, hi64; lia). cbn [bad]. replace (m >=? 0) with false by lia. reflexivity.
Qed.
(* Otherwise the stream fails and the array is as before. *)
Theorem C60_unread : forall r lo hi c t, ~ (exists p t', announces r t p t') -> (r = None -> ~ exists t', negative_rank t t') -> exists s, read_array r lo hi c (Stream t false) = Rdone c s /\ bad s = true.
Proof.
  intros r lo hi c t Hn Hr. unfold read_array. destruct r as [n|].
  - unfold read_static. destruct (read_all lo64 hi64 (repeat None n) (Stream t false)) as [l s] eqn:E. destruct (bad s) eqn:B; [exists s; auto|]. exfalso. destruct (read_all_ok _ _ _ _ _ _ E B) as (zs & _ & Lz & Nz).
    apply Hn. exists zs, (rest s). split; [rewrite Lz; apply repeat_length|exact Nz].
  - unfold read_vector. destruct (read_int lo64 hi64 (Stream t false)) as [v s] eqn:E. destruct (bad s) eqn:B; [exists s; destruct v; rewrite B; auto|].
    destruct (read_int_ok _ _ _ _ _ E B) as (m & -> & N & R). destruct (Z.geb_spec m 0) as [L|L].
    + destruct s as [t1 b]. cbn [bad rest] in *. subst b. destruct (read_all lo64 hi64 (repeat None (Z.to_nat m)) (Stream t1 false)) as [l s2] eqn:E2. destruct (bad s2) eqn:B2; [exists s2; auto|]. exfalso.
      destruct (read_all_ok _ _ _ _ _ _ E2 B2) as (zs & _ & Lz & Nz). rewrite repeat_length in Lz. apply Hn. exists zs, (rest s2). exists t1. split; auto. replace (Z.of_nat (List.length zs)) with m by lia.
      econstructor; [exact N|exact R|constructor].
    + exfalso. apply (Hr eq_refl). exists (rest s), m. unfold lo64, hi64 in R. split; auto. lia.
Qed.
(* From a stream that had failed nothing is read. *)
Theorem C60_failed : forall r lo hi c s, bad s = true -> read_array r lo hi c s = Rdone c s.
Proof.
  intros r lo hi c s H. unfold read_array, read_static, read_vector. destruct r as [n|]; [rewrite read_all_bad by auto|rewrite read_int_bad by auto]; rewrite H; reflexivity.
Qed.
(* std::vector *)
Theorem C60_vector : forall lo hi c t m t', numeral t m t' -> - 2^63 <= m <= 2^63 - 1 -> 
  (m < 0 -> read_vector lo hi c (Stream t false) = Rfail c (Stream t' false)) /\
  (forall vs t'', numerals lo hi t' vs t'' -> Z.of_nat (List.length vs) = m -> read_vector lo hi c (Stream t false) = Rdone (map Some vs) (Stream t'' false)).
Proof.
  intros lo hi c t m t' N R. unfold read_vector. rewrite (read_int_good lo64 hi64 _ _ _ N) by (unfold lo64, hi64; lia). cbn [bad]. split.
  - intros L. replace (m >=? 0) with false by lia. reflexivity.
  - intros vs t'' Nv L. replace (m >=? 0) with true by lia. rewrite (read_all_good _ _ _ _ _ _ Nv) by (rewrite repeat_length; lia). reflexivity.
Qed.
Theorem C60_vector_unread : forall lo hi c t, ~ (exists m t', numeral t m t' /\ - 2^63 <= m <= 2^63 - 1) -> exists s, read_vector lo hi c (Stream t false) = Rdone c s /\ bad s = true.
Proof.
  intros lo hi c t Hn. unfold read_vector. destruct (read_int lo64 hi64 (Stream t false)) as [v s] eqn:E. destruct (bad s) eqn:B; [exists s; destruct v; rewrite ?B; auto|]. exfalso. destruct (read_int_ok _ _ _ _ _ E B) as (m & -> & N & R).
  apply Hn. eauto.
Qed.

(* ---------------- C59 *)
(* The specification is a sequence of letters and separators. *)
Inductive item := Letter (c : ascii) | Seps (s0 sn : text).
Definition letters : list (ascii * (style -> style)) :=
  [("j"%char, fun _ => jstyle); ("c"%char, fun _ => cstyle); ("l"%char, fun _ => lstyle); ("p"%char, fun _ => pstyle);
   ("a"%char, fun f => Style (st_shape f) (st_open f) (st_close f) (st_sep0 f) (st_sepn f) (st_rep f) true);
   ("e"%char, fun f => Style (st_shape f) (st_open f) (st_close f) (st_sep0 f) (st_sepn f) (st_rep f) false);
   ("s"%char, fun f => Style Withshape (st_open f) (st_close f) (st_sep0 f) (st_sepn f) (st_rep f) (st_align f));
   ("n"%char, fun f => Style Noshape (st_open f) (st_close f) (st_sep0 f) (st_sepn f) (st_rep f) (st_align f));
   ("d"%char, fun f => Style Defaultshape (st_open f) (st_close f) (st_sep0 f) (st_sepn f) (st_rep f) (st_align f))].
Inductive acts (f : style) : item -> style -> Prop :=
| acts_letter : forall c g, In (c, g) letters -> acts f (Letter c) (g f)
| acts_seps : forall s0 sn, ~ In "}"%char s0 -> ~ In "}"%char sn -> acts f (Seps s0 sn) (Style (st_shape f) (st_open f) (st_close f) s0 sn (st_rep f) (st_align f)).
Inductive act_all : style -> list item -> style -> Prop :=
| act_nil : forall f, act_all f [] f
| act_cons : forall f x f1 l f2, acts f x f1 -> act_all f1 l f2 -> act_all f (x::l) f2.
Definition render (x : item) : text := match x with Letter c => [c] | Seps s0 sn => txt "S{" ++ s0 ++ txt "}{" ++ sn ++ txt "}" end.
Definition renders (l : list item) : text := List.concat (map render l).
(* the beginning of separators, cut short *)
Definition cut (t : text) : Prop :=
  t = txt "S" \/ (exists b, ~ In "}"%char b /\ t = txt "S{" ++ b) \/ (exists b, ~ In "}"%char b /\ t = txt "S{" ++ b ++ txt "}") \/
  (exists b b', ~ In "}"%char b /\ ~ In "}"%char b' /\ t = txt "S{" ++ b ++ txt "}{" ++ b').

Section Parse.
Variable mem : text.
Variable e : nat.
Variable under : nat -> option nat.
Hypothesis Hend : (e <= List.length mem)%nat.

Lemma mem_next : forall pre c suf, mem = pre ++ c :: suf -> nth_error mem (List.length pre) = Some c.
Proof. intros pre c suf ->. rewrite nth_error_app2, Nat.sub_diag by lia. reflexivity. Qed.
Lemma mem_none : forall pre, mem = pre ++ [] -> nth_error mem (List.length pre) = None.
Proof. intros pre H. rewrite app_nil_r in H. apply nth_error_None. rewrite H. lia. Qed.

Lemma body_done : forall b fuel pre acc tl i, mem = pre ++ b ++ "}"%char :: tl -> List.length pre = S i -> ~ In "}"%char b -> (i + List.length b < e)%nat -> (List.length b < fuel)%nat ->
  parse_body mem e fuel i acc = Parsed (acc ++ b) (S i + List.length b).
Proof.
  induction b as [|c b IH]; intros fuel pre acc tl i Hm Hp Hb He Hf; destruct fuel as [|fuel]; try (cbn in *; lia); cbn [parse_body].
  - replace (Nat.eqb i e) with false by (symmetry; apply Nat.eqb_neq; cbn in *; lia). rewrite <- Hp. rewrite (mem_next _ _ _ Hm). rewrite Ascii.eqb_refl. rewrite app_nil_r, Hp. cbn. rewrite Nat.add_0_r. reflexivity.
  - replace (Nat.eqb i e) with false by (symmetry; apply Nat.eqb_neq; cbn in *; lia). rewrite <- Hp at 1. rewrite (mem_next _ _ _ Hm). destruct (Ascii.eqb_spec c "}") as [->|N]; [contradiction Hb; left; auto|].
    rewrite (IH fuel (pre ++ [c]) (acc ++ [c]) tl (S i)); [|rewrite <- app_assoc; exact Hm|rewrite app_length; cbn; lia|intros H; apply Hb; right; auto|cbn in *; lia|cbn in *; lia].
    rewrite <- app_assoc. cbn. f_equal. lia.
Qed.
Lemma read_done : forall pre b tl i, mem = pre ++ "{"%char :: b ++ "}"%char :: tl -> List.length pre = S i -> ~ In "}"%char b -> (S i + List.length b < e)%nat -> parse_read mem e i = Parsed b (S (S i) + List.length b).
Proof.
  intros pre b tl i Hm Hp Hb He. unfold parse_read. replace (Nat.eqb i e) with false by (symmetry; apply Nat.eqb_neq; lia). rewrite <- Hp at 1. rewrite (mem_next _ _ _ Hm). rewrite Ascii.eqb_refl.
  rewrite (body_done b _ (pre ++ ["{"%char]) [] tl (S i)); [reflexivity|rewrite <- app_assoc; exact Hm|rewrite app_length; cbn; lia|auto|lia|]. rewrite Hm, !app_length. cbn. rewrite app_length. cbn. lia.
Qed.

(* one item, without looking further *)
Lemma acts_render : forall f x f', acts f x f' -> exists c u, render x = c :: u /\ c <> ":"%char /\ c <> "}"%char.
Proof.
  intros f x f' H. destruct H as [c g I|s0 sn H0 Hn]; [|eexists _, _; split; [reflexivity|split; discriminate]]. exists c, []. split; [reflexivity|]. unfold letters in I. cbn [In] in I.
  repeat destruct I as [I|I]; try (injection I as <- _; split; discriminate). contradiction.
Qed.
Lemma item_done : forall pre x tl f f' c u, mem = pre ++ render x ++ tl -> render x = c :: u -> acts f x f' -> (List.length pre + List.length (render x) <= e)%nat ->
  parse_item mem e f (List.length pre) c = Parsed f' (List.length pre + List.length (render x) - 1).
Proof.
  intros pre x tl f f' c u Hm Hr Ha He. destruct Ha as [c' g I|s0 sn H0 Hn].
  - cbn in Hr. injection Hr as -> <-. cbn [render List.length] in *. replace (List.length pre + 1 - 1)%nat with (List.length pre) by lia. unfold letters in I. cbn [In] in I.
    repeat destruct I as [I|I]; try (injection I as <- <-; reflexivity). contradiction.
  - assert (L : List.length (render (Seps s0 sn)) = (5 + List.length s0 + List.length sn)%nat) by (cbn; repeat (rewrite app_length; cbn); lia). rewrite L in *. cbn in Hr. injection Hr as <- <-.
    change (parse_item mem e f (List.length pre) "S") with (match parse_read mem e (List.length pre) with
      | Parsed s0 i0 => match parse_read mem e i0 with Parsed sn i1 => Parsed (with_seps f s0 sn) i1 | Perror => Perror | Past => Past end | Perror => Perror | Past => Past end).
    rewrite (read_done (pre ++ ["S"%char]) s0 ("{"%char :: sn ++ "}"%char :: tl)); auto; [| |rewrite app_length; cbn; lia|lia].
    2: { rewrite Hm. cbn. repeat (rewrite <- app_assoc; cbn). reflexivity. }
    rewrite (read_done (pre ++ ["S"%char] ++ "{"%char :: s0 ++ ["}"%char]) sn tl); auto; [| |repeat (rewrite app_length; cbn [List.length]); lia|lia].
    2: { rewrite Hm. cbn. repeat (rewrite <- app_assoc; cbn). reflexivity. }
    unfold with_seps. f_equal. lia.
Qed.
Lemma loop_done : forall xs f f', act_all f xs f' -> forall fuel pre tl, mem = pre ++ renders xs ++ tl -> (List.length pre + List.length (renders xs) <= e)%nat -> (List.length (renders xs) <= fuel)%nat ->
  exists fuel', (fuel <= fuel' + List.length (renders xs))%nat /\ parse_loop mem e fuel f (List.length pre) = parse_loop mem e fuel' f' (List.length (pre ++ renders xs)).
Proof.
  intros xs f f' H. induction H as [f|f x f1 xs f2 Ha H IH]; intros fuel pre tl Hm He Hf.
  - exists fuel. cbn. rewrite app_nil_r. split; [lia|reflexivity].
  - unfold renders in *. cbn [map List.concat] in *. fold (renders xs) in *. rewrite app_length in He, Hf |- *. destruct (acts_render _ _ _ Ha) as (c & u & Er & N1 & N2). assert (Lx : (1 <= List.length (render x))%nat) by (rewrite Er; cbn; lia).
    destruct fuel as [|fuel]; [lia|]. rewrite <- app_assoc in Hm. destruct (IH fuel (pre ++ render x) tl) as (fuel' & Hf' & E'); [rewrite <- app_assoc; exact Hm|rewrite app_length; lia|lia|].
    exists fuel'. split; [lia|]. rewrite app_assoc, <- E'. cbn [parse_loop]. replace (Nat.eqb (List.length pre) e) with false by (symmetry; apply Nat.eqb_neq; lia).
    assert (Hm' : mem = pre ++ c :: (u ++ renders xs ++ tl)) by (rewrite Hm, Er; reflexivity). rewrite (mem_next _ _ _ Hm'). destruct (Ascii.eqb_spec c ":") as [?|_]; [contradiction|]. destruct (Ascii.eqb_spec c "}") as [?|_]; [contradiction|]. cbn [orb].
    rewrite (item_done pre x (renders xs ++ tl) f f1 c u Hm Er Ha) by lia. rewrite app_length. f_equal. lia.
Qed.
(* A sequence of items and then } is accepted, with the effect of those items on the default style. *)
Theorem C59_accept : forall xs f tl, act_all jstyle xs f -> mem = renders xs ++ "}"%char :: tl -> (List.length (renders xs) < e)%nat -> parse mem e under = Parsed f (List.length (renders xs)).
Proof.
  intros xs f tl Ha Hm He. unfold parse. destruct (loop_done xs jstyle f Ha (S (List.length mem)) [] ("}"%char :: tl) Hm) as (fuel' & Hf & E); try (cbn; lia). cbn [List.length app] in E. rewrite E.
  destruct fuel' as [|fuel']; [rewrite Hm, app_length in Hf; cbn in Hf; lia|]. cbn [parse_loop]. replace (Nat.eqb (List.length (renders xs)) e) with false by (symmetry; apply Nat.eqb_neq; lia). rewrite (mem_next _ _ _ Hm). cbn [Ascii.eqb Bool.eqb orb].
  replace (Nat.eqb (List.length (renders xs)) e) with false by (symmetry; apply Nat.eqb_neq; lia). rewrite (mem_next _ _ _ Hm). reflexivity.
Qed.
(* After : comes the specification for the elements. *)
Theorem C59_accept_under : forall xs f tl i, act_all jstyle xs f -> mem = renders xs ++ ":"%char :: tl -> (List.length (renders xs) < e)%nat -> under (S (List.length (renders xs))) = Some i -> (i < e)%nat -> nth_error mem i = Some "}"%char ->
  parse mem e under = Parsed f i.
Proof.
  intros xs f tl i Ha Hm He Hu Hi Hc. unfold parse. destruct (loop_done xs jstyle f Ha (S (List.length mem)) [] (":"%char :: tl) Hm) as (fuel' & Hf & E); try (cbn; lia). cbn [List.length app] in E. rewrite E.
  destruct fuel' as [|fuel']; [rewrite Hm, app_length in Hf; cbn in Hf; lia|]. cbn [parse_loop]. replace (Nat.eqb (List.length (renders xs)) e) with false by (symmetry; apply Nat.eqb_neq; lia). rewrite (mem_next _ _ _ Hm). cbn [Ascii.eqb Bool.eqb orb].
  replace (Nat.eqb (List.length (renders xs)) e) with false by (symmetry; apply Nat.eqb_neq; lia). rewrite (mem_next _ _ _ Hm). cbn [Ascii.eqb Bool.eqb]. rewrite Hu. replace (Nat.eqb i e) with false by (symmetry; apply Nat.eqb_neq; lia).
  rewrite Hc. reflexivity.
Qed.
(* Separators that are cut short at the end, when the end is also the end of what can be read. *)
Lemma body_past : forall b fuel pre acc i, mem = pre ++ b -> List.length pre = S i -> ~ In "}"%char b -> e = List.length mem -> parse_body mem e fuel i acc = Past.
Proof.
  intros b fuel. revert b. induction fuel as [|fuel IH]; intros b pre acc i Hm Hp Hb He; [reflexivity|]. cbn [parse_body]. replace (Nat.eqb i e) with false by (symmetry; apply Nat.eqb_neq; rewrite He, Hm, app_length; lia).
  destruct b as [|c b]; rewrite <- Hp.
  - rewrite (mem_none _ Hm). reflexivity.
  - rewrite (mem_next _ _ _ Hm). destruct (Ascii.eqb_spec c "}") as [->|N]; [contradiction Hb; left; auto|]. rewrite Hp. apply (IH b (pre ++ [c])); [rewrite <- app_assoc; exact Hm|rewrite app_length; cbn; lia|intros H; apply Hb; right; auto|auto].
Qed.
Lemma read_past : forall pre suf i, mem = pre ++ suf -> List.length pre = S i -> suf = [] \/ (exists b, ~ In "}"%char b /\ suf = "{"%char :: b) -> e = List.length mem -> parse_read mem e i = Past.
Proof.
  intros pre suf i Hm Hp Hs He. unfold parse_read. replace (Nat.eqb i e) with false by (symmetry; apply Nat.eqb_neq; rewrite He, Hm, app_length; lia). rewrite <- Hp. destruct Hs as [->|(b & Hb & ->)].
  - rewrite (mem_none _ Hm). reflexivity.
  - rewrite (mem_next _ _ _ Hm). rewrite Ascii.eqb_refl. apply (body_past b _ (pre ++ ["{"%char])); [rewrite <- app_assoc; exact Hm|rewrite app_length; cbn; lia|auto|auto].
Qed.
Theorem C59_cut : forall xs f tl, act_all jstyle xs f -> mem = renders xs ++ tl -> cut tl -> e = List.length mem -> parse mem e under = Past.
Proof.
  intros xs f tl Ha Hm Hc He. unfold parse. assert (L : List.length mem = (List.length (renders xs) + List.length tl)%nat) by (rewrite Hm, app_length; lia).
  destruct (loop_done xs jstyle f Ha (S (List.length mem)) [] tl Hm) as (fuel' & Hf & E); try (cbn; lia). cbn [List.length app] in E. rewrite E. destruct fuel' as [|fuel']; [reflexivity|].
  assert (Hs : exists u, tl = "S"%char :: u /\ (u = [] \/ (exists b, ~ In "}"%char b /\ u = "{"%char :: b) \/ (exists b v, ~ In "}"%char b /\ u = "{"%char :: b ++ "}"%char :: v /\ (v = [] \/ exists b', ~ In "}"%char b' /\ v = "{"%char :: b')))).
  { destruct Hc as [->|[(b & Hb & ->)|[(b & Hb & ->)|(b & b' & Hb & Hb' & ->)]]]; (eexists; split; [reflexivity|]).
    - left. reflexivity. - right. left. exists b. auto. - right. right. exists b, []. auto. - right. right. exists b, ("{"%char :: b'). split; [auto|]. split; [reflexivity|]. right. eauto. }
  destruct Hs as (u & -> & Hu). cbn [List.length] in L. cbn [parse_loop]. replace (Nat.eqb (List.length (renders xs)) e) with false by (symmetry; apply Nat.eqb_neq; lia). rewrite (mem_next _ _ _ Hm). cbn [Ascii.eqb Bool.eqb orb].
  change (parse_item mem e f (List.length (renders xs)) "S") with (match parse_read mem e (List.length (renders xs)) with
      | Parsed s0 i0 => match parse_read mem e i0 with Parsed sn i1 => Parsed (with_seps f s0 sn) i1 | Perror => Perror | Past => Past end | Perror => Perror | Past => Past end).
  assert (Hm' : mem = (renders xs ++ ["S"%char]) ++ u) by (rewrite <- app_assoc; exact Hm). assert (Lp : List.length (renders xs ++ ["S"%char]) = S (List.length (renders xs))) by (rewrite app_length; cbn; lia).
  destruct Hu as [Hu|[Hu|(b & v & Hb & -> & Hv)]]; [rewrite (read_past _ u _ Hm' Lp (or_introl Hu) He); reflexivity|rewrite (read_past _ u _ Hm' Lp (or_intror Hu) He); reflexivity|].
  cbn [List.length] in L. rewrite app_length in L. cbn [List.length] in L. rewrite (read_done _ b v _ Hm' Lp Hb) by lia.
  rewrite (read_past (renders xs ++ ["S"%char] ++ "{"%char :: b ++ ["}"%char]) v); auto; [|repeat (rewrite app_length; cbn [List.length]); lia]. rewrite Hm'. rewrite <- !app_assoc. cbn. rewrite <- !app_assoc. reflexivity.
Qed.

(* what's at the end isn't taken for the end of separators *)
Hypothesis Hfence : nth_error mem e <> Some "}"%char.

Lemma body_inv : forall fuel pre suf acc i, mem = pre ++ suf -> List.length pre = S i -> (i <= e)%nat -> (e - i < fuel)%nat ->
  parse_body mem e fuel i acc = Perror \/
  (exists b tl, suf = b ++ "}"%char :: tl /\ ~ In "}"%char b /\ (S i + List.length b < e)%nat /\ parse_body mem e fuel i acc = Parsed (acc ++ b) (S i + List.length b)) \/
  (parse_body mem e fuel i acc = Past /\ e = List.length mem /\ ~ In "}"%char suf).
Proof.
  induction fuel as [|fuel IH]; intros pre suf acc i Hm Hp Hi Hf; [lia|]. cbn [parse_body]. destruct (Nat.eqb_spec i e) as [E|E]; [left; reflexivity|]. destruct suf as [|c suf].
  - right. right. rewrite <- Hp, (mem_none _ Hm). split; auto. rewrite Hm, app_nil_r in Hend |- *. split; [lia|auto].
  - assert (E1 : nth_error mem (S i) = Some c) by (rewrite <- Hp; apply (mem_next _ _ _ Hm)). rewrite E1. destruct (Ascii.eqb_spec c "}") as [->|N].
    + right. left. exists [], suf. cbn [app List.length]. rewrite app_nil_r, Nat.add_0_r. repeat split; auto. apply mem_next in Hm. rewrite Hp in Hm. assert (S i <> e) by (intros <-; contradiction). lia.
    + destruct (IH (pre ++ [c]) suf (acc ++ [c]) (S i)) as [H|[(b & tl & -> & Hb & Hl & H)|(H & He & Hn)]]; try lia.
      * rewrite <- app_assoc. exact Hm.
      * rewrite app_length. cbn. lia.
      * left. exact H.
      * right. left. exists (c::b), tl. split; [reflexivity|]. split; [intros [?|?]; [congruence|contradiction]|]. split; [cbn; lia|]. rewrite H. rewrite <- app_assoc. cbn. f_equal. lia.
      * right. right. split; auto. split; auto. intros [?|?]; [congruence|contradiction].
Qed.
Lemma read_inv : forall pre suf i, mem = pre ++ suf -> List.length pre = S i -> (i < e)%nat ->
  parse_read mem e i = Perror \/
  (exists b tl, suf = "{"%char :: b ++ "}"%char :: tl /\ ~ In "}"%char b /\ (S (S i) + List.length b < e)%nat /\ parse_read mem e i = Parsed b (S (S i) + List.length b)) \/
  (parse_read mem e i = Past /\ e = List.length mem /\ (suf = [] \/ exists b, ~ In "}"%char b /\ suf = "{"%char :: b)).
Proof.
  intros pre suf i Hm Hp Hi. unfold parse_read. replace (Nat.eqb i e) with false by (symmetry; apply Nat.eqb_neq; lia). destruct suf as [|c suf].
  - right. right. rewrite <- Hp, (mem_none _ Hm). split; auto. rewrite Hm, app_nil_r in Hend |- *. split; [lia|auto].
  - assert (E : nth_error mem (S i) = Some c) by (rewrite <- Hp; apply (mem_next _ _ _ Hm)). rewrite E. destruct (Ascii.eqb_spec c "{") as [->|N]; [|left; reflexivity].
    destruct (body_inv (S (List.length mem)) (pre ++ ["{"%char]) suf [] (S i)) as [H|[(b & tl & -> & Hb & Hl & H)|(H & He & Hn)]]; try lia.
    + rewrite <- app_assoc. exact Hm.
    + rewrite app_length. cbn. lia.
    + left. exact H.
    + right. left. exists b, tl. auto.
    + right. right. split; auto. split; auto. right. exists suf. auto.
Qed.
(* one item *)
Lemma item_inv : forall pre c suf f, mem = pre ++ c :: suf -> (List.length pre < e)%nat ->
  parse_item mem e f (List.length pre) c = Perror \/
  (exists x tl f', c :: suf = render x ++ tl /\ acts f x f' /\ (List.length pre + List.length (render x) <= e)%nat /\ parse_item mem e f (List.length pre) c = Parsed f' (List.length pre + List.length (render x) - 1)) \/
  (parse_item mem e f (List.length pre) c = Past /\ e = List.length mem /\ cut (c :: suf)).
Proof.
  intros pre c suf f Hm Hp. unfold parse_item.
  assert (Hlet : forall c g, In (c, g) letters -> (List.length pre < e)%nat -> exists x tl f', c :: suf = render x ++ tl /\ acts f x f' /\ (List.length pre + List.length (render x) <= e)%nat /\
    Parsed (g f) (List.length pre) = Parsed f' (List.length pre + List.length (render x) - 1)).
  { intros c0 g I L. exists (Letter c0), suf, (g f). split; [reflexivity|]. split; [constructor; auto|]. cbn. split; [lia|]. f_equal. lia. }
  do 9 (match goal with |- context [Ascii.eqb c ?k] => destruct (Ascii.eqb_spec c k) as [->|?] end; [right; left; first [exact (Hlet _ _ (or_introl eq_refl) Hp) | exact (Hlet _ _ (or_intror (or_introl eq_refl)) Hp) | exact (Hlet _ _ (or_intror (or_intror (or_introl eq_refl))) Hp) | exact (Hlet _ _ (or_intror (or_intror (or_intror (or_introl eq_refl)))) Hp) | exact (Hlet _ _ (or_intror (or_intror (or_intror (or_intror (or_introl eq_refl))))) Hp) | exact (Hlet _ _ (or_intror (or_intror (or_intror (or_intror (or_intror (or_introl eq_refl)))))) Hp) | exact (Hlet _ _ (or_intror (or_intror (or_intror (or_intror (or_intror (or_intror (or_introl eq_refl))))))) Hp) | exact (Hlet _ _ (or_intror (or_intror (or_intror (or_intror (or_intror (or_intror (or_intror (or_introl eq_refl)))))))) Hp) | exact (Hlet _ _ (or_intror (or_intror (or_intror (or_intror (or_intror (or_intror (or_intror (or_intror (or_introl eq_refl))))))))) Hp)]|]).
  destruct (Ascii.eqb_spec c "S") as [->|N]; [|left; reflexivity].
  destruct (read_inv (pre ++ ["S"%char]) suf (List.length pre)) as [H|[(b & tl & -> & Hb & Hl & H)|(H & He & Hn)]].
  { rewrite <- app_assoc. exact Hm. } { rewrite app_length. cbn. lia. } { auto. }
  - rewrite H. left. reflexivity.
  - rewrite H. destruct (read_inv (pre ++ ["S"%char] ++ "{"%char :: b ++ ["}"%char]) tl (S (S (List.length pre)) + List.length b)) as [H'|[(b' & tl' & -> & Hb' & Hl' & H')|(H' & He' & Hn')]].
    { rewrite Hm. rewrite <- !app_assoc. cbn. rewrite <- !app_assoc. reflexivity. } { repeat (rewrite app_length; cbn [List.length]). lia. } { lia. }
    + rewrite H'. left. reflexivity.
    + rewrite H'. right. left. exists (Seps b b'), tl', (with_seps f b b'). split; [cbn; rewrite <- !app_assoc; cbn; rewrite <- !app_assoc; reflexivity|]. split; [constructor; auto|].
      assert (L : List.length (render (Seps b b')) = (5 + List.length b + List.length b')%nat) by (cbn; repeat (rewrite app_length; cbn); lia). rewrite L. split; [lia|]. f_equal. lia.
    + rewrite H'. right. right. split; auto. split; auto. destruct Hn' as [->|(b' & Hb' & ->)].
      * right. right. left. exists b. split; auto.
      * right. right. right. exists b, b'. split; auto.
  - rewrite H. right. right. split; auto. split; auto. destruct Hn as [->|(b & Hb & ->)]; [left; reflexivity|]. right. left. exists b. split; auto.
Qed.
Lemma loop_inv : forall fuel pre suf f, mem = pre ++ suf -> (List.length pre <= e)%nat -> (e - List.length pre < fuel)%nat ->
  parse_loop mem e fuel f (List.length pre) = Perror \/
  (exists xs tl f', suf = renders xs ++ tl /\ act_all f xs f' /\ (List.length pre + List.length (renders xs) <= e)%nat /\ parse_loop mem e fuel f (List.length pre) = Parsed f' (List.length pre + List.length (renders xs)) /\
     ((List.length pre + List.length (renders xs))%nat = e \/ exists c tl', tl = c :: tl' /\ (c = ":"%char \/ c = "}"%char))) \/
  (parse_loop mem e fuel f (List.length pre) = Past /\ e = List.length mem /\ exists xs tl f', suf = renders xs ++ tl /\ act_all f xs f' /\ cut tl).
Proof.
  induction fuel as [|fuel IH]; intros pre suf f Hm Hp Hf; [lia|]. cbn [parse_loop]. destruct (Nat.eqb_spec (List.length pre) e) as [E|E].
  - right. left. exists [], suf, f. cbn. rewrite Nat.add_0_r. split; [reflexivity|]. split; [constructor|]. split; [lia|]. split; [reflexivity|auto].
  - destruct suf as [|c suf]; [rewrite app_nil_r in Hm; subst pre; lia|]. rewrite (mem_next _ _ _ Hm). destruct (Ascii.eqb_spec c ":") as [->|N1]; cbn [orb].
    { right. left. exists [], (":"%char :: suf), f. cbn. rewrite Nat.add_0_r. split; [reflexivity|]. split; [constructor|]. split; [lia|]. split; [reflexivity|right; eexists _, _; split; [reflexivity|auto]]. }
    destruct (Ascii.eqb_spec c "}") as [->|N2].
    { right. left. exists [], ("}"%char :: suf), f. cbn. rewrite Nat.add_0_r. split; [reflexivity|]. split; [constructor|]. split; [lia|]. split; [reflexivity|right; eexists _, _; split; [reflexivity|auto]]. }
    destruct (item_inv pre c suf f Hm ltac:(lia)) as [H|[(x & tl & f' & Es & Ha & Hl & H)|(H & He & Hc)]]; rewrite H.
    + left. reflexivity.
    + assert (Lx : (1 <= List.length (render x))%nat) by (destruct x; cbn; lia). rewrite Es in Hm. rewrite app_assoc in Hm.
      assert (Ei : S (List.length pre + List.length (render x) - 1) = List.length (pre ++ render x)) by (rewrite app_length; lia). rewrite Ei.
      destruct (IH (pre ++ render x) tl f' Hm) as [H'|[(xs & tl' & f2 & -> & Ha' & Hl' & H' & Ht)|(H' & He & xs & tl' & f2 & -> & Ha' & Hc)]]; try (rewrite app_length in *; lia).
      * left. exact H'.
      * right. left. exists (x::xs), tl', f2. rewrite Es. unfold renders. cbn [map List.concat]. fold (renders xs). rewrite !app_length in H', Hl', Ht |- *. rewrite Nat.add_assoc. split; [apply app_assoc|]. split; [econstructor; eauto|].
        split; [lia|]. split; [rewrite <- H'; f_equal; apply app_length|exact Ht].
      * right. right. split; auto. split; auto. exists (x::xs), tl', f2. rewrite Es. unfold renders. cbn [map List.concat]. fold (renders xs). split; [apply app_assoc|]. split; [econstructor; eauto|auto].
    + right. right. split; auto. split; auto. exists [], (c::suf), f. split; [reflexivity|]. split; [constructor|auto].
Qed.

Hypothesis Hunder : forall i i', under i = Some i' -> (i' <= e)%nat.
Lemma close_inv : forall (f : style) i, (i <= e)%nat -> (if Nat.eqb i e then Perror else match nth_error mem i with None => Past | Some c => if Ascii.eqb c "}" then Parsed f i else Perror end) =
  if (Nat.ltb i e && match nth_error mem i with Some c => Ascii.eqb c "}" | None => false end)%bool then Parsed f i else Perror.
Proof.
  intros f i H. destruct (Nat.eqb_spec i e) as [->|N]; [rewrite Nat.ltb_irrefl; reflexivity|]. replace (Nat.ltb i e) with true by (symmetry; apply Nat.ltb_lt; lia). destruct (nth_error mem i) as [c|] eqn:E; [cbn; destruct (Ascii.eqb c "}"); reflexivity|].
  apply nth_error_None in E. lia.
Qed.
(* What's accepted is a sequence of items and then either } or the specification for the elements and then }. *)
Theorem C59_sound : forall f i, parse mem e under = Parsed f i -> (i < e)%nat /\ nth_error mem i = Some "}"%char /\
  exists xs tl, act_all jstyle xs f /\ ((mem = renders xs ++ "}"%char :: tl /\ i = List.length (renders xs)) \/ (mem = renders xs ++ ":"%char :: tl /\ under (S (List.length (renders xs))) = Some i)).
Proof.
  intros f i H. unfold parse in H. destruct (loop_inv (S (List.length mem)) [] mem jstyle eq_refl) as [H'|[(xs & tl & f' & Es & Ha & Hl & H' & Ht)|(H' & _)]]; try (cbn; lia); cbn [List.length] in H'; rewrite H' in H; try discriminate.
  cbn [Nat.add List.length] in *. rewrite !close_inv in H by auto. destruct (Nat.eqb_spec (List.length (renders xs)) e) as [E|E].
  - rewrite E, Nat.ltb_irrefl in H. discriminate.
  - destruct Ht as [Ht|(c & tl' & -> & Hc)]; [contradiction|]. rewrite (mem_next _ _ _ Es) in H. destruct Hc as [->| ->].
    + cbn in H. destruct (under (S (List.length (renders xs)))) as [i'|] eqn:Eu; [|discriminate]. rewrite close_inv in H by eauto. destruct (Nat.ltb_spec i' e) as [L|L]; cbn [andb] in H; [|discriminate].
      destruct (nth_error mem i') as [c|] eqn:Ec; [|discriminate]. destruct (Ascii.eqb_spec c "}") as [->|N]; [|discriminate]. injection H as <- <-. split; auto. split; auto. exists xs, tl'. split; auto.
    + replace (Nat.ltb (List.length (renders xs)) e) with true in H by (symmetry; apply Nat.ltb_lt; lia). cbn in H. injection H as <- <-. split; [lia|]. split; [eapply mem_next; eauto|]. exists xs, tl'. split; auto.
Qed.
(* Nothing is read past the end, unless there are separators that are cut short and the end is also the end of what can be read. *)
Theorem C59_past : parse mem e under = Past -> e = List.length mem /\ exists xs tl f, mem = renders xs ++ tl /\ act_all jstyle xs f /\ cut tl.
Proof.
  intros H. unfold parse in H. destruct (loop_inv (S (List.length mem)) [] mem jstyle eq_refl) as [H'|[(xs & tl & f' & Es & Ha & Hl & H' & Ht)|(H' & He & xs & tl & f' & Es & Ha & Hc)]]; try (cbn; lia); cbn [List.length] in H'; rewrite H' in H; try discriminate.
  - exfalso. cbn [Nat.add List.length] in *. rewrite !close_inv in H by auto. destruct (Nat.eqb_spec (List.length (renders xs)) e) as [E|E]; [rewrite E, Nat.ltb_irrefl in H; discriminate|].
    destruct Ht as [Ht|(c & tl' & -> & Hc)]; [contradiction|]. rewrite (mem_next _ _ _ Es) in H. destruct Hc as [->| ->].
    + cbn in H. destruct (under (S (List.length (renders xs)))) as [i'|] eqn:Eu; [|discriminate]. rewrite close_inv in H by eauto. destruct (_ && _)%bool; discriminate.
    + destruct (Nat.ltb _ _); discriminate.
  - split; auto. exists xs, tl, f'. auto.
Qed.
End Parse.

(* So if the string is followed by NUL, as string literals are, the parser never reads past the end, and stops before it. Missing: strings that aren't followed by anything, or that are followed by }. See C59_refuted. *)
Theorem C59_partial : forall mem e under, nth_error mem e = Some zero -> (forall i i', under i = Some i' -> (i' <= e)%nat) -> parse mem e under = Perror \/ exists f i, parse mem e under = Parsed f i /\ (i < e)%nat /\ nth_error mem i = Some "}"%char.
Proof.
  intros mem e under Hz Hu. assert (L : (e < List.length mem)%nat) by (apply nth_error_Some; congruence). destruct (parse mem e under) as [f i| |] eqn:E; auto.
  - right. exists f, i. destruct (C59_sound mem e under ltac:(lia) ltac:(rewrite Hz; discriminate) Hu f i E) as (A & B & _). auto.
  - destruct (C59_past mem e under ltac:(lia) ltac:(rewrite Hz; discriminate) Hu E) as (A & _). lia.
Qed.
(* There are format strings, without anything after them, where the parser reads past the end; and others that are followed by } where it doesn't see the end, whatever comes next, and stops after it. *)
Theorem C59_refuted : (forall under, parse (txt "S") 1 under = Past) /\ (forall under, parse (txt "cS{abc") 6 under = Past) /\ (forall under, parse (txt "S{a}{b}j}") 6 under = Parsed jstyle 8).
Proof. repeat split; intros; vm_compute; reflexivity. Qed.

(* ---------------- examples *)
Definition a222 : arr Z := Arr [Dim 2 4; Dim 2 2; Dim 2 1] [Some 1; Some (-2); Some 3; Some 4; Some 5; Some 60; Some 7; Some 8].
Definition a30 : arr Z := Arr [Dim 3 0; Dim 0 1] [].
Example C43_ex :
  format show_elem cstyle false true (aexpr (W := unit) a222) tt = Ok (txt "{{{1, -2}," ++ [eol] ++ txt "  {3, 4}}," ++ [eol] ++ txt " {{5, 60}," ++ [eol] ++ txt "  {7, 8}}}") tt /\
  format show_elem pstyle false true (aexpr (W := unit) a222) tt = Ok (txt "[[[1, -2]," ++ [eol] ++ txt "  [3, 4]]," ++ [eol; eol] ++ txt " [[5, 60]," ++ [eol] ++ txt "  [7, 8]]]") tt /\
  format show_elem jstyle true true (aexpr (W := unit) a222) tt = Ok (txt "3" ++ [eol] ++ txt "2 2 2" ++ [eol] ++ txt "1 -2" ++ [eol] ++ txt "3 4" ++ [eol; eol] ++ txt "5 60" ++ [eol] ++ txt "7 8") tt /\
  format show_elem (with_shape lstyle Withshape) false true (aexpr (W := unit) a30) tt = Ok (txt "3 0" ++ [eol] ++ txt "(()" ++ [eol] ++ txt " ()" ++ [eol] ++ txt " ())") tt /\
  format show_elem cstyle false false (aexpr (W := unit) (Arr [] [Some 9])) tt = Ok (txt "9") tt /\
  format show_int cstyle false false (Map (fun _ => ret 0) [vec [1; 2]; vec [1; 2; 3]] : expr Z unit) tt = Fail tt.
Proof. repeat split; vm_compute; reflexivity. Qed.
Example C42_ex : reach (Some 2%nat) (Arr [Dim 1 2; Dim 2 1] [Some (-3); Some 14]) /\
  format show_elem jstyle false true (aexpr (W := unit) (Arr [Dim 1 2; Dim 2 1] [Some (-3); Some 14])) tt = Ok (txt "1 2" ++ [eol] ++ txt "-3 14") tt /\
  read_array (Some 2%nat) (- 2^31) (2^31 - 1) (Arr [Dim 0 0; Dim 0 1] []) (Stream (txt "1 2" ++ [eol] ++ txt "-3 14 rest") false) = Rdone (Arr [Dim 1 2; Dim 2 1] [Some (-3); Some 14]) (Stream (txt " rest") false) /\
  read_array None (- 2^31) (2^31 - 1) (Arr [Dim 0 1] []) (Stream (txt "0" ++ [eol; eol] ++ txt "7") false) = Rdone (Arr [] [Some 7]) (Stream [] false) /\
  read_static (- 2^31) (2^31 - 1) [Some 0; None; Some 0] (Stream (txt "1 -2" ++ [eol] ++ txt "3") false) = Rdone [Some 1; Some (-2); Some 3] (Stream [] false).
Proof.
  split; [|repeat split; vm_compute; reflexivity].
  assert (H : make (Some 2%nat) [1; 2] = Some (@Arr Z [Dim 1 2; Dim 2 1] [None; None])) by reflexivity. pose proof (r_make (Some 2%nat) _ _ H) as R.
  pose proof (r_set (Some 2%nat) _ [0; 0] (-3) _ R eq_refl) as R1. exact (r_set (Some 2%nat) _ [0; 1] 14 _ R1 eq_refl).
Qed.
Example C60_ex : let c := Arr [Dim 2 1] [Some 5; Some 6] in
  announces (Some 1%nat) (txt " -4 1") [-4] (txt " 1") /\ read_array (Some 1%nat) (-128) 127 c (Stream (txt " -4 1") false) = Rfail c (Stream (txt " 1") false) /\
  announces None (txt "1 3 1 2") [3] (txt " 1 2") /\ read_array None (-128) 127 c (Stream (txt "1 3 1 2") false) = Rdone (Arr [Dim 3 1] [Some 1; Some 2; None]) (Stream [] true) /\
  negative_rank (txt "-1 3") (txt " 3") /\ read_array None (-128) 127 c (Stream (txt "-1 3") false) = Rfail c (Stream (txt " 3") false) /\
  (~ exists p t', announces (Some 1%nat) (txt "x 3") p t') /\ read_array (Some 1%nat) (-128) 127 c (Stream (txt "x 3") false) = Rdone c (Stream (txt "x 3") true) /\
  read_array (Some 1%nat) (-128) 127 c (Stream (txt "9223372036854775808 3") false) = Rdone c (Stream (txt " 3") true) /\
  read_array (Some 1%nat) (-128) 127 c (Stream (txt "3 1 1000 4") false) = Rdone (Arr [Dim 3 1] [Some 1; Some 127; None]) (Stream (txt " 4") true) /\
  read_vector (-128) 127 [Some 5] (Stream (txt "2 7 +8") false) = Rdone [Some 7; Some 8] (Stream [] false) /\
  read_vector (-128) 127 [Some 5] (Stream (txt "-2 7") false) = Rfail [Some 5] (Stream (txt " 7") false).
Proof.
  assert (D : forall c, In c (txt "12345") -> decimal c) by (intros c H; cbn in H; repeat destruct H as [<-|H]; try contradiction; split; vm_compute; lia).
  assert (S : isspace " ") by (cbn; auto 10).
  assert (N1 : numeral (txt " -4 1") (-4) (txt " 1")).
  { exists (txt " "), (txt "-"), (txt "4"). split; [reflexivity|]. split; [constructor; [exact S|constructor]|]. split; [constructor; [apply D; cbn; tauto|constructor]|]. split; [discriminate|]. split; [apply space_not_digit; exact S|right; split; reflexivity]. }
  assert (Np : forall c u, In c (txt "12345") -> numeral (c :: " "%char :: u) (Z.of_nat (nat_of_ascii c) - 48) (" "%char :: u)).
  { intros c u H. exists [], [], [c]. split; [reflexivity|]. split; [constructor|]. split; [constructor; [apply D; auto|constructor]|]. split; [discriminate|]. split; [apply space_not_digit; exact S|left; split; [auto|cbn; lia]]. }
  cbn zeta. split; [|split; [vm_compute; reflexivity|split; [|split; [vm_compute; reflexivity|split; [|split; [vm_compute; reflexivity|split; [|repeat split; vm_compute; reflexivity]]]]]]].
  - split; [reflexivity|]. econstructor; [exact N1|lia|constructor].
  - exists (txt " 3 1 2"). split; [econstructor; [apply (Np "1"%char (txt "3 1 2")); cbn; tauto|cbn; lia|constructor]|]. econstructor; [|shelve|constructor].
    pose proof (numerals_space (-2^63) (2^63-1) (txt "3 1 2") [3] (txt " 1 2")) as H. destruct (Np "3"%char (txt "1 2") ltac:(cbn; tauto)) as (ws & sg & ds & E & Hw & R). exists (" "%char :: ws), sg, ds. split; [cbn; f_equal; exact E|]. split; [constructor; auto|exact R].
    Unshelve. lia.
  - exists (-1). split; [|lia]. exists [], (txt "-"), (txt "1"). split; [reflexivity|]. split; [constructor|]. split; [constructor; [apply D; cbn; tauto|constructor]|]. split; [discriminate|]. split; [apply space_not_digit; exact S|right; split; reflexivity].
  - intros (p & t' & L & N). destruct p as [|z [|y p]]; try discriminate. inversion N; subst. match goal with H : numeral _ z ?t1, R : _ <= z <= _ |- _ => pose proof (read_int_good _ _ _ _ _ H R) as E end. vm_compute in E. discriminate.
Qed.
Definition no_under (i : nat) : option nat := None.
Example C59_ex :
  parse (txt "pS{; }{;}nes} and more") 21 no_under = Parsed (Style Withshape (txt "[") (txt "]") (txt "; ") (txt ";") [eol] false) 12 /\
  act_all jstyle [Letter "p"; Seps (txt "; ") (txt ";"); Letter "n"; Letter "e"; Letter "s"] (Style Withshape (txt "[") (txt "]") (txt "; ") (txt ";") [eol] false) /\
  parse (txt "c:08.3f}") 8 (fun i => if Nat.eqb i 2 then Some 7%nat else None) = Parsed cstyle 7 /\
  parse (txt "cx}") 3 no_under = Perror /\ parse (txt "c") 1 no_under = Perror /\ parse (txt "S{abc" ++ [zero]) 5 no_under = Perror /\ parse (txt "S{}x") 4 no_under = Perror /\ parse (txt "c:3") 3 no_under = Perror /\
  cut (txt "S{a}{b").
Proof.
  split; [vm_compute; reflexivity|]. split; [|repeat (split; [vm_compute; reflexivity|])].
  - apply act_cons with pstyle; [exact (acts_letter jstyle "p" (fun _ => pstyle) ltac:(unfold letters; cbn [In]; tauto))|].
    apply act_cons with (Style Noshape (txt "[") (txt "]") (txt "; ") (txt ";") [eol] true); [apply (acts_seps pstyle); cbn; intuition discriminate|].
    apply act_cons with (Style Noshape (txt "[") (txt "]") (txt "; ") (txt ";") [eol] true); [eapply (acts_letter (Style Noshape (txt "[") (txt "]") (txt "; ") (txt ";") [eol] true) "n" (fun f => Style Noshape (st_open f) (st_close f) (st_sep0 f) (st_sepn f) (st_rep f) (st_align f))); unfold letters; cbn [In]; tauto|].
    apply act_cons with (Style Noshape (txt "[") (txt "]") (txt "; ") (txt ";") [eol] false); [eapply (acts_letter (Style Noshape (txt "[") (txt "]") (txt "; ") (txt ";") [eol] true) "e" (fun f => Style (st_shape f) (st_open f) (st_close f) (st_sep0 f) (st_sepn f) (st_rep f) false)); unfold letters; cbn [In]; tauto|].
    apply act_cons with (Style Withshape (txt "[") (txt "]") (txt "; ") (txt ";") [eol] false); [eapply (acts_letter (Style Noshape (txt "[") (txt "]") (txt "; ") (txt ";") [eol] false) "s" (fun f => Style Withshape (st_open f) (st_close f) (st_sep0 f) (st_sepn f) (st_rep f) (st_align f))); unfold letters; cbn [In]; tauto|].
    constructor.
  - right. right. right. exists (txt "a"), (txt "b"). cbn. split; [intuition discriminate|]. split; [intuition discriminate|reflexivity].
Qed.

Print Assumptions C42_array.
Print Assumptions C42_static.
Print Assumptions C43_layout.
Print Assumptions C43_format.
Print Assumptions C43_refuse.
Print Assumptions C43_order.
Print Assumptions C43_styles.
Print Assumptions C59_accept.
Print Assumptions C59_accept_under.
Print Assumptions C59_sound.
Print Assumptions C59_past.
Print Assumptions C59_cut.
Print Assumptions C59_partial.
Print Assumptions C59_refuted.
Print Assumptions C60_read.
Print Assumptions C60_negative.
Print Assumptions C60_negative_rank.
Print Assumptions C60_unread.
Print Assumptions C60_failed.
Print Assumptions C60_vector.
Print Assumptions C60_vector_unread.
