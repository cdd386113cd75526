(* Model: complex helpers and dual numbers in exact real arithmetic. Source: ra/ra.hh:45-56, 61-107, 627-690.
   float, double are the reals, so rounding isn't modelled. A result that isn't finite (division by zero, arguments outside of the domain) is None. *)
From Coq Require Import Reals Lra ZArith.
Open Scope R_scope.

(* ---- complex numbers ---- *)
(* std::complex<R> *)
Record cplx := C { real : R; imag : R }.
(* std::fma *)
Definition fma_r (a b c : R) : R := a * b + c.
(* ra.hh:47-52 *)
Definition fma_c (a b c : cplx) : cplx :=
  C (fma_r (real a) (real b) (fma_r (- imag a) (imag b) (real c))) (fma_r (real a) (imag b) (fma_r (imag a) (real b) (imag c))).
(* ra.hh:65 sqr *)
Definition sqr_r (x : R) : R := x * x.
(* ra.hh:71-74 sqrm *)
Definition sqrm_r (x : R) : R := sqr_r x.
Definition sqrm_rr (x y : R) : R := sqr_r (x - y).
Definition sqrm_c (x : cplx) : R := sqr_r (real x) + sqr_r (imag x).
Definition sqrm_cc (x y : cplx) : R := sqr_r (real x - real y) + sqr_r (imag x - imag y).
(* ra.hh:75-78 norm2 *)
Definition norm2_r (x : R) : R := Rabs x.
Definition norm2_rr (x y : R) : R := Rabs (x - y).
Definition norm2_c (x : cplx) : R := sqrt (sqrm_c x).
Definition norm2_cc (x y : cplx) : R := sqrt (sqrm_cc x y).
(* ra.hh:81-85 mul_conj *)
Definition mul_conj (a b : cplx) : cplx := C (real a * real b + imag a * imag b) (real a * imag b - imag a * real b).
(* ra.hh:86-90 fma_conj *)
Definition fma_conj (a b c : cplx) : cplx :=
  C (fma_r (real a) (real b) (fma_r (imag a) (imag b) (real c))) (fma_r (real a) (imag b) (fma_r (- imag a) (real b) (imag c))).
(* ra.hh:91 *)
Definition fma_sqrm (a : cplx) (c : R) : R := fma_r (real a) (real a) (fma_r (imag a) (imag a) c).
(* ra.hh:92-93 rel_error. std::abs of a complex number is the modulus. *)
Definition abs_c (x : cplx) : R := sqrt (real x * real x + imag x * imag x).
Definition rel_error_r (a b : R) : R := let D := Rabs a + Rabs b in if Req_EM_T D 0 then 0 else 2 * norm2_rr a b / D.
Definition rel_error_c (a b : cplx) : R := let D := abs_c a + abs_c b in if Req_EM_T D 0 then 0 else 2 * norm2_cc a b / D.
(* ra.hh:101-102 xi *)
Definition xi_r (x : R) : cplx := C 0 x.
Definition xi_c (z : cplx) : cplx := C (- imag z) (real z).

(* ra.hh:53-55 on the kinds of floating point values *)
Inductive kind := Finite | Infinite | NotANumber.
Definition isfinite (k : kind) : bool := match k with Finite => true | _ => false end.
Definition isinf (k : kind) : bool := match k with Infinite => true | _ => false end.
Definition isnan (k : kind) : bool := match k with NotANumber => true | _ => false end.
Definition isfinite_c (re im : kind) : bool := isfinite re && isfinite im.
Definition isnan_c (re im : kind) : bool := isnan re || isnan im.
Definition isinf_c (re im : kind) : bool := (isinf re || isinf im) && negb (isnan_c re im).

(* ---- dual numbers ---- *)
Definition bind {A B} (x : option A) (f : A -> option B) : option B := match x with Some a => f a | None => None end.
Notation "x <- a ;; b" := (bind a (fun x => b)) (at level 61, a at next level, right associativity).
(* operations of the component type, where they are finite *)
Definition div (x y : R) : option R := if Req_EM_T y 0 then None else Some (x / y).
Definition log_r (x : R) : option R := if Rlt_dec 0 x then Some (ln x) else None.
Definition sqrt_r (x : R) : option R := if Rle_dec 0 x then Some (sqrt x) else None.
Definition tan_r (x : R) : option R := div (sin x) (cos x).
(* std::pow. A negative base is only possible with an integer exponent, and 0 only with one that isn't negative. *)
Definition pow_r (x y : R) : option R :=
  if Rlt_dec 0 x then Some (Rpower x y)
  else if Req_EM_T y (IZR (Int_part y)) then
    if Req_EM_T x 0 then (if Rlt_dec y 0 then None else Some (powerRZ x (Int_part y)))
    else Some (powerRZ x (Int_part y))
  else if Req_EM_T x 0 then (if Rlt_dec y 0 then None else Some 0) else None.

(* ra.hh:634-656 Dual<T> with T real *)
Record dual := D { re : R; du : R }.
(* ra.hh:645, 660 *)
Definition dual1 (r : R) : dual := D r 0.
(* ra.hh:663-673 *)
Definition add (a b : dual) : dual := D (re a + re b) (du a + du b).
Definition add_ds (a : dual) (b : R) : dual := D (re a + b) (du a).
Definition add_sd (a : R) (b : dual) : dual := D (a + re b) (du b).
Definition neg (a : dual) : dual := D (- re a) (- du a).
Definition sub (a b : dual) : dual := D (re a - re b) (du a - du b).
Definition sub_ds (a : dual) (b : R) : dual := D (re a - b) (du a).
Definition sub_sd (a : R) (b : dual) : dual := D (a - re b) (- du b).
Definition mul (a b : dual) : dual := D (re a * re b) (re a * du b + du a * re b).
Definition mul_ds (a : dual) (b : R) : dual := D (re a * b) (du a * b).
Definition mul_sd (a : R) (b : dual) : dual := D (a * re b) (a * du b).
(* ra.hh:680 *)
Definition inv (a : dual) : option dual := i <- div 1 (re a) ;; Some (D i (- du a * sqr_r i)).
(* ra.hh:674-676 *)
Definition quot (a b : dual) : option dual := i <- inv b ;; Some (mul a i).
Definition quot_ds (a : dual) (b : R) : option dual := i <- inv (dual1 b) ;; Some (mul a i).
Definition quot_sd (a : R) (b : dual) : option dual := i <- inv b ;; Some (mul (dual1 a) i).
(* ra.hh:678-690 *)
Definition fma_d (a b c : dual) : dual := D (fma_r (re a) (re b) (re c)) (fma_r (re a) (du b) (fma_r (du a) (re b) (du c))).
Definition sqr_d (a : dual) : dual := mul a a.
Definition cos_d (a : dual) : dual := D (cos (re a)) (- sin (re a) * du a).
Definition sin_d (a : dual) : dual := D (sin (re a)) (cos (re a) * du a).
Definition cosh_d (a : dual) : dual := D (cosh (re a)) (sinh (re a) * du a).
Definition sinh_d (a : dual) : dual := D (sinh (re a)) (cosh (re a) * du a).
Definition tan_d (a : dual) : option dual := let c := cos (du a) in t <- tan_r (re a) ;; d <- div (du a) (c * c) ;; Some (D t d).
Definition exp_d (a : dual) : dual := D (exp (re a)) (exp (re a) * du a).
Definition pow_d (a : dual) (b : R) : option dual := p <- pow_r (re a) b ;; q <- pow_r (re a) (b - 1) ;; Some (D p (b * q * du a)).
Definition log_d (a : dual) : option dual := l <- log_r (re a) ;; d <- div (du a) (re a) ;; Some (D l d).
Definition sqrt_d (a : dual) : option dual := s <- sqrt_r (re a) ;; d <- div (du a) (2 * s) ;; Some (D s d).
(* the result isn't a dual number; if one is needed then it's converted by 645 *)
Definition abs_d (a : dual) : R := Rabs (re a).

(* A program that computes with x, made of the functions above. The operations of a dual number and a scalar are used if one of the arguments is a constant. *)
Inductive prog :=
  | Arg | Const (c : R)
  | Add (a b : prog) | Sub (a b : prog) | Mul (a b : prog) | Quot (a b : prog) | Neg (a : prog)
  | AddDS (a : prog) (c : R) | AddSD (c : R) (a : prog) | SubDS (a : prog) (c : R) | SubSD (c : R) (a : prog)
  | MulDS (a : prog) (c : R) | MulSD (c : R) (a : prog) | QuotDS (a : prog) (c : R) | QuotSD (c : R) (a : prog)
  | Fma (a b c : prog) | Sqr (a : prog) | Inv (a : prog)
  | Cos (a : prog) | Sin (a : prog) | Cosh (a : prog) | Sinh (a : prog) | Exp (a : prog) | Pow (a : prog) (c : R) | Log (a : prog) | Sqrt (a : prog).
(* run on a dual number *)
Fixpoint run (p : prog) (x : dual) : option dual :=
  match p with
  | Arg => Some x
  | Const c => Some (dual1 c)
  | Add a b => u <- run a x ;; v <- run b x ;; Some (add u v)
  | Sub a b => u <- run a x ;; v <- run b x ;; Some (sub u v)
  | Mul a b => u <- run a x ;; v <- run b x ;; Some (mul u v)
  | Quot a b => u <- run a x ;; v <- run b x ;; quot u v
  | Neg a => u <- run a x ;; Some (neg u)
  | AddDS a c => u <- run a x ;; Some (add_ds u c)
  | AddSD c a => u <- run a x ;; Some (add_sd c u)
  | SubDS a c => u <- run a x ;; Some (sub_ds u c)
  | SubSD c a => u <- run a x ;; Some (sub_sd c u)
  | MulDS a c => u <- run a x ;; Some (mul_ds u c)
  | MulSD c a => u <- run a x ;; Some (mul_sd c u)
  | QuotDS a c => u <- run a x ;; quot_ds u c
  | QuotSD c a => u <- run a x ;; quot_sd c u
  | Fma a b c => u <- run a x ;; v <- run b x ;; w <- run c x ;; Some (fma_d u v w)
  | Sqr a => u <- run a x ;; Some (sqr_d u)
  | Inv a => u <- run a x ;; inv u
  | Cos a => u <- run a x ;; Some (cos_d u)
  | Sin a => u <- run a x ;; Some (sin_d u)
  | Cosh a => u <- run a x ;; Some (cosh_d u)
  | Sinh a => u <- run a x ;; Some (sinh_d u)
  | Exp a => u <- run a x ;; Some (exp_d u)
  | Pow a c => u <- run a x ;; pow_d u c
  | Log a => u <- run a x ;; log_d u
  | Sqrt a => u <- run a x ;; sqrt_d u
  end.
