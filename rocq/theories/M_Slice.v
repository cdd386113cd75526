(* Model: subscripts. Source: ra/ply.hh:239-457, 503-551. *)
From Coq Require Import ZArith List Lia Bool.
From Verif Require Import M_Base M_View.
Import ListNotations.
Open Scope Z_scope.

(* ---- ra::len ---- *)

(* Integer expressions with ra::len (ply.hh:239-295). LLen: base.hh:278 Len. LScalar: a scalar. LArr: any other leaf, given by its lengths and its elements.
   LMap, LPick: expr.hh:640-735. LSeq: Ptr or ViewPtr on a Seq, i.e. iota(n, o, s) (ply.hh:320-321); the three parts are scalar expressions. The length n may be
   the static UNB, which is LScalar UNB here; it isn't checked (expr.hh:358). *)
Inductive lx :=
| LLen
| LScalar (c : Z)
| LArr (ls : list Z) (f : list Z -> Z)
| LMap (op : list Z -> Z) (t : list lx)
| LPick (t : list lx)
| LSeq (o n s : lx).

(* base.hh:294 has_len: WLen is defined for the type (ply.hh:255-295) *)
Fixpoint has_len (e : lx) : bool :=
  match e with
  | LLen => true
  | LScalar _ | LArr _ _ => false
  | LMap _ t | LPick t => existsb has_len t
  | LSeq o n s => has_len o || has_len n || has_len s
  end.

(* at(j) for expressions without len. pick: expr.hh:688-697. An occurrence of len has no value (None); out of range pick is a failed check (None). *)
Fixpoint lat (e : lx) (j : list Z) : option Z :=
  let lats := fix go (t : list lx) : option (list Z) :=
    match t with [] => Some [] | a::t' => match lat a j, go t' with Some x, Some r => Some (x::r) | _, _ => None end end in
  match e with
  | LLen => None
  | LScalar c => Some c
  | LArr ls f => Some (f (firstn (length ls) j))
  | LMap op t => match lats t with Some xs => Some (op xs) | None => None end
  | LPick [] => None
  | LPick (p::t) =>
    match lat p j with
    | None => None
    | Some i => (fix go (i : Z) (t : list lx) : option Z := match t with [] => None | a::t' => if i =? 0 then lat a j else go (i-1) t' end) i t
    end
  | LSeq o n s => match lat o [], lat s [] with Some o, Some s => Some (o + nth 0 j 0 * s) | _, _ => None end
  end.

(* ply.hh:243-295 wlen. None: the length of a new sequence is negative (expr.hh:358, run time lengths) or has no value.
   VAL (expr.hh:134) of a rank-0 expression is lat at []. *)
Fixpoint wlen (ln : Z) (e : lx) : option lx :=
  let wlens := fix go (t : list lx) : option (list lx) :=
    match t with [] => Some [] | a::t' => match wlen ln a, go t' with Some x, Some r => Some (x::r) | _, _ => None end end in
  let val e := match wlen ln e with Some e' => lat e' [] | None => None end in
  if has_len e then
    match e with
    | LLen => Some (LScalar ln)                                                                        (* 255-260 *)
    | LMap op t => match wlens t with Some t' => Some (LMap op t') | None => None end                  (* 262-267 *)
    | LPick t => match wlens t with Some t' => Some (LPick t') | None => None end                      (* 269-274 *)
    | LSeq o n s =>                                                                                    (* 276-295 *)
      match val o, val n, val s with
      | Some o', Some n', Some s' => if negb (has_len n) || (0 <=? n') then Some (LSeq (LScalar o') (LScalar n') (LScalar s')) else None
      | _, _, _ => None
      end
    | _ => Some e
    end
  else Some e.

(* VAL(wlen(la, e)), ply.hh:397 *)
Definition lval (e : lx) : Z -> option Z := fun la => match wlen la e with Some e' => lat e' [] | None => None end.

(* ---- subscripts ---- *)

(* SIdx: rank 0 expression. SSeq: iota(n, o, s), one axis. SSeqN: the same with any number (>0) of axes (ply.hh:323-330); only o may have len. SDots, SInsert: ply.hh:314-318; None is UNB.
   SArr: any other (unbeaten) subscript, of any rank. Integers in a subscript are functions of the length of the axis they are for, cf lval; None is a failed check. *)
Inductive sub :=
| SIdx (i : Z -> option Z)
| SSeq (o n s : Z -> option Z)
| SSeqN (o : Z -> option Z) (dv : list dim)
| SDots (n : option nat)
| SInsert (n : nat)
| SArr.

(* ply.hh:344-349; 0 for UNB, cf 355, 363 *)
Definition fsrc (s : sub) : nat := match s with SDots (Some n) => n | SDots None => 0 | SInsert _ => 0 | _ => 1 end.
Definition fdst (s : sub) : nat :=
  match s with SIdx _ => 0 | SSeq _ _ _ => 1 | SSeqN _ dv => length dv | SDots (Some n) => n | SDots None => 0 | SInsert n => n | SArr => 1 end.
Definition sumn (l : list nat) : nat := fold_right Nat.add 0%nat l.
(* ply.hh:351-365 frombrank *)
Definition frombrank (a : view) (subs : list sub) : Z :=
  Z.of_nat (vrank a) - Z.of_nat (sumn (map fsrc subs)) + Z.of_nat (sumn (map fdst subs)).
Definition is_rest (s : sub) : bool := match s with SDots None => true | _ => false end.

(* ply.hh:404-413, the condition on axis q of a sequence with start o *)
Definition seq_ok (la o : Z) (q : dim) : bool := (0 =? len q) || (inside o la && inside (o + (len q - 1) * step q) la).

(* ply.hh:367-435 fromb with dopl. av: the axes of a from ak on. bv: the axes of b up to bk. If dobv is false the axes are not read or written.
   A read of a.dimv out of range is UB. In the code the loop on q (401-414) sets bv[bk] before the check. *)
Fixpoint fromb (dobv : bool) (subs : list sub) (av : list dim) (bv : list dim) (pl : Z) : res (list dim * Z) :=
  match subs with
  | [] => Good (bv ++ (if dobv then av else []), pl)                                                   (* 371-384 *)
  | SIdx i :: r =>                                                                                     (* 391-400 *)
    match av with
    | [] => UB
    | d::av' =>
      match i (len d) with
      | None => Refused
      | Some x => if inside x (len d) || ((UNB =? len d) && (0 =? step d)) then fromb dobv r av' bv (pl + x * step d) else Refused
      end
    end
  | SSeq o n s :: r =>                                                                                 (* 401-417 *)
    match av with
    | [] => UB
    | d::av' =>
      match o (len d), n (len d), s (len d) with
      | Some o, Some n, Some s =>
        if n <? 0 then Refused                                                                         (* expr.hh:358 *)
        else if seq_ok (len d) o (Dim n s) then fromb dobv r av' (bv ++ (if dobv then [Dim n (s * step d)] else [])) (pl + o * step d)
        else Refused
      | _, _, _ => Refused
      end
    end
  | SSeqN o dv :: r =>
    match av with
    | [] => UB
    | d::av' =>
      match o (len d) with
      | Some o =>
        if forallb (seq_ok (len d) o) dv then
          fromb dobv r av' (bv ++ (if dobv then map (fun q => Dim (len q) (step q * step d)) dv else []))
                (fold_left (fun pl q => pl + o * step d) dv pl)                                        (* 412, once for each q *)
        else Refused
      | None => Refused
      end
    end
  | SDots k :: r =>                                                                                    (* 418-424 *)
    let n := match k with Some n => n | None => (length av - sumn (map fsrc r))%nat end in
    if dobv && (length av <? n)%nat then UB
    else fromb dobv r (skipn n av) (bv ++ (if dobv then firstn n av else [])) pl
  | SInsert n :: r => fromb dobv r av (bv ++ (if dobv then repeat (Dim UNB 0) n else [])) pl           (* 425-429 *)
  | SArr :: r =>                                                                                       (* 430-435 *)
    match av with
    | [] => if dobv then UB else fromb dobv r [] bv pl
    | d::av' => fromb dobv r av' (bv ++ (if dobv then [d] else [])) pl
    end
  end.

(* ply.hh:503-531 from, the beaten part. A second dots<> (354, 362) and a negative rank (std::array with a negative size at 440, or resize() at 528) are refused. With rank 0 only the
   place is computed (509, 528). *)
Definition from (a : view) (subs : list sub) : res view :=
  if (1 <? length (filter is_rest subs))%nat then Refused
  else
    let bn := frombrank a subs in
    if bn <? 0 then Refused
    else if bn =? 0 then rbind (fromb false subs (vdv a) [] (vcp a)) (fun r => Good (Vw [] (snd r)))
    else rbind (fromb true subs (vdv a) [] (vcp a)) (fun r => Good (Vw (fst r) (snd r))).

(* ply.hh:318 *)
Definition all : sub := SDots (Some 1%nat).
(* subscripts without len *)
Definition cidx (i : Z) : sub := SIdx (fun _ => Some i).
Definition ciota (n o s : Z) : sub := SSeq (fun _ => Some o) (fun _ => Some n) (fun _ => Some s).
