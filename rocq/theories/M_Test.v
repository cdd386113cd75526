(* Model: the test recorder and the statistics of the benchmarks. Source: ra/test.hh. *)
From Coq Require Import ZArith List Lia Bool Reals.
From Verif Require Import M_Base M_Expr M_Ply M_Val M_View M_Static.
Import ListNotations.
Open Scope Z_scope.

(* ---- TestRecorder: test.hh:33-123 ---- *)

(* test.hh:54-57. What is printed isn't modelled (o, verbose, infos). *)
Record recorder := Rec { willskip : bool; willexpectfail : bool; willstrict : bool;
  total : Z; skipped : Z; passed_good : Z; passed_bad : Z; failed_good : Z; failed_bad : Z; bad : list Z }.
Definition fresh : recorder := Rec false false false 0 0 0 0 0 0 [].

(* test.hh:81-83 skip, strict, expectfail *)
Inductive option_call := CallSkip (b : bool) | CallStrict (b : bool) | CallExpectFail (b : bool).
Definition call (t : recorder) (c : option_call) : recorder :=
  match t with Rec sk ef st n s pg pb fg fb l =>
    match c with
    | CallSkip b => Rec b ef st n s pg pb fg fb l
    | CallStrict b => Rec sk ef b n s pg pb fg fb l
    | CallExpectFail b => Rec sk b st n s pg pb fg fb l
    end
  end.

(* test.hh:88-121 test: from 111 on *)
Definition test (c : bool) (t : recorder) : recorder :=
  match t with Rec sk ef _ n s pg pb fg fb l =>
    if negb sk then
      Rec false false false (n + 1) s
        (if ef then pg else if c then pg + 1 else pg) (if ef then (if c then pb + 1 else pb) else pb)
        (if ef then (if c then fg else fg + 1) else fg) (if ef then fb else if c then fb else fb + 1)
        (if Bool.eqb c ef then l ++ [n] else l)
    else Rec false false false (n + 1) (s + 1) pg pb fg fb l
  end.

(* test.hh:218-233 summary: the value *)
Definition summary (t : recorder) : Z := Z.of_nat (length (bad t)).

(* the options and the condition of each test, in order *)
Fixpoint run_tests (s : list (list option_call * bool)) (t : recorder) : recorder :=
  match s with
  | [] => t
  | (o, c)::s' => run_tests s' (test c (fold_left call o t))
  end.

(* ---- test_comp: test.hh:138-176 ---- *)

(* expr.hh:639 agree: Match::check (555-568) with the shortcut of check_s. t is the type of the Match. *)
Definition agree_ct {X W} (t : ty) (a : list (expr X W)) : bool :=
  if 1 =? check_s t then agree a else negb (0 =? check_s t).
(* 142-148: same rank, and every length the same. 'every' on two vectors of the same length. *)
Fixpoint same_lens (s t : list Z) : bool := match s, t with x::s', y::t' => (x =? y) && same_lens s' t' | _, _ => true end.
Definition strict_shapes {X W} (a b : expr X W) : bool := (rank a =? rank b) && same_lens (shape a) (shape b).
(* 139-164 the value of test_comp, which is also the condition of the test. comp isn't a verb, so agree_op is agree (expr.hh:642). *)
Definition test_comp {T} (fixed : bool) (z : list zt) (strict : bool) (t : ty) (comp : T -> T -> bool) (a b : expr (val T) (mem T)) : M (mem T) bool :=
  if (if strict then strict_shapes a b else agree_ct t [a; b])
  then every fixed z (fun _ => false) (Map (op2 (fun u v => x <- rd u ;; y <- rd v ;; ret (VB (comp x y)))) [a; b])
  else ret false.

(* ---- test_abs, test_rel: test.hh:178-216 ---- *)

(* Floating point numbers: reals and the special values. No rounding, no overflow, no sign of zero. *)
Inductive fl := Fin (r : R) | PInf | NInf | NaN.
Definition fl_isnan (x : fl) : bool := match x with NaN => true | _ => false end.
Definition fl_isinf (x : fl) : bool := match x with PInf | NInf => true | _ => false end.
Definition fl_isfinite (x : fl) : bool := match x with Fin _ => true | _ => false end.
Definition fl_lt (x y : fl) : bool :=
  match x, y with
  | NaN, _ | _, NaN => false
  | Fin a, Fin b => if Rlt_dec a b then true else false
  | NInf, NInf => false | NInf, _ => true
  | Fin _, PInf => true
  | _, _ => false
  end.
Definition fl_eq (x y : fl) : bool :=
  match x, y with Fin a, Fin b => if Req_EM_T a b then true else false | PInf, PInf | NInf, NInf => true | _, _ => false end.
Definition fl_le (x y : fl) : bool := fl_lt x y || fl_eq x y.
Definition fl_abs (x : fl) : fl := match x with Fin a => Fin (Rabs a) | NInf => PInf | _ => x end.
Definition fl_neg (x : fl) : fl := match x with Fin a => Fin (- a) | PInf => NInf | NInf => PInf | NaN => NaN end.
Definition fl_add (x y : fl) : fl :=
  match x, y with
  | NaN, _ | _, NaN | PInf, NInf | NInf, PInf => NaN
  | Fin a, Fin b => Fin (a + b)
  | Fin _, i => i
  | i, _ => i
  end.
Definition fl_sub (x y : fl) : fl := fl_add x (fl_neg y).
(* the divisor isn't zero, or negative, in any use *)
Definition fl_div (x y : fl) : fl :=
  match x, y with
  | Fin a, Fin b => Fin (a / b)
  | Fin _, PInf | Fin _, NInf => Fin 0
  | PInf, Fin _ => PInf | NInf, Fin _ => NInf
  | _, _ => NaN
  end.

(* test.hh:38-46 amax_strict. c is part of the state. *)
Definition post_t (v : val fl) : option fl := match v with VT t => Some t | _ => None end.
Definition amax_strict_op : list (val fl) -> M (mem fl * fl) (val fl) :=
  op1 (fun v => x <- rdl v ;; fun s => Ok (if fl_isnan x then VT NaN else VUnit) (fst s, if fl_lt (snd s) x then x else snd s)).
Definition amax_strict (fixed : bool) (z : list zt) (e : expr (val fl) (mem fl)) : M (mem fl) fl :=
  fun m => match ply fixed post_t z (Map amax_strict_op [lift e]) (m, NInf) with
           | Ok (Some r) s => Ok r (fst s)
           | Ok None s => Ok (snd s) (fst s)
           | Fail s => Fail (fst s)
           | Undef => Undef
           end.
(* test.hh:179-186 nanny: the nested where() are one function of the elements of ref and a, as none of the expressions has effects *)
Definition nan_err (err : fl -> fl -> fl) (ref a : fl) : fl :=
  if fl_isfinite ref then err ref a
  else if fl_isinf ref then (if fl_eq ref a then Fin 0 else PInf)
  else if fl_isnan a then Fin 0 else PInf.
Definition nanny (fixed : bool) (z : list zt) (err : fl -> fl -> fl) (ref a : expr (val fl) (mem fl)) : M (mem fl) fl :=
  e <- amax_strict fixed z (Map (op2 (fun u v => x <- rd u ;; y <- rd v ;; ret (VT (nan_err err x y)))) [ref; a]) ;; ret (fl_abs e).
(* ra.hh:92 rel_error for real numbers, ra.hh:76 norm2 *)
Definition rel_error (a b : fl) : fl :=
  let D := fl_add (fl_abs a) (fl_abs b) in
  if fl_eq D (Fin 0) then Fin 0 else fl_div (fl_add (fl_abs (fl_sub a b)) (fl_abs (fl_sub a b))) D.
(* test.hh:202-213 test_abs, 187-201 test_rel: the condition of the test *)
Definition test_abs (fixed : bool) (z : list zt) (req : R) (ref a : expr (val fl) (mem fl)) : M (mem fl) bool :=
  e <- nanny fixed z (fun x y => fl_abs (fl_sub x y)) ref a ;; ret (fl_le e (Fin req)).
Definition test_rel (fixed : bool) (z : list zt) (req level : R) (ref a : expr (val fl) (mem fl)) : M (mem fl) bool :=
  e <- (if Rle_dec level 0 then nanny fixed z rel_error ref a
        else nanny fixed z (fun x y => fl_div (fl_abs (fl_sub x y)) (Fin level)) ref a) ;; ret (fl_le e (Fin req)).

(* ---- Benchmark: test.hh:237-312 ---- *)

(* std::ranges::nth_element leaves at n what would be there in the sorted array *)
Fixpoint insert_sorted (x : Z) (l : list Z) : list Z := match l with [] => [x] | y::l' => if x <=? y then x :: l else y :: insert_sorted x l' end.
Definition sorted (l : list Z) : list Z := fold_right insert_sorted [] l.
(* test.hh:253-260 median, doubled so that it's an integer. The times are integers. Positions outside of t are undefined (t.begin()+n-1 with n=0). *)
Definition median2 (t : list Z) : res Z :=
  match t with
  | [] => Good 0
  | _ =>
    let n := Z.of_nat (length t) / 2 in
    if negb (Z.lxor (Z.of_nat (length t)) 1 =? 0) then Good (2 * nth (Z.to_nat n) (sorted t) 0)
    else if n - 1 <? 0 then UB
    else Good (nth (Z.to_nat n) (sorted t) 0 + nth (Z.to_nat (n - 1)) (sorted t) 0)
  end.
(* test.hh:291-308 once_f, from the times of each run on: med (times 2) and mad (times 4), before they are divided by the number of repetitions *)
Definition med_mad (secs : list Z) : res (Z * Z) :=
  rbind (median2 secs) (fun med => rbind (median2 (map (fun s => 2 * s - med) secs)) (fun mad => Good (med, mad))).
