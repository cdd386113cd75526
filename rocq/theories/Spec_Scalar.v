(* What the properties of complex and dual numbers are stated with. *)
From Coq Require Import Reals.
From Verif Require Import M_Scalar.
Open Scope R_scope.

(* complex arithmetic *)
Definition cadd (a b : cplx) : cplx := C (real a + real b) (imag a + imag b).
Definition csub (a b : cplx) : cplx := C (real a - real b) (imag a - imag b).
Definition cmul (a b : cplx) : cplx := C (real a * real b - imag a * imag b) (real a * imag b + imag a * real b).
Definition conj (a : cplx) : cplx := C (real a) (- imag a).
Definition i : cplx := C 0 1.
Definition inject (x : R) : cplx := C x 0.

(* x^y: by repeated multiplication if y is an integer, else exp(y log x) *)
Definition power (x y : R) : R := if Req_EM_T y (IZR (Int_part y)) then powerRZ x (Int_part y) else exp (y * ln x).
(* the value of a program, as a mathematical function of x *)
Fixpoint value (p : prog) (x : R) : R :=
  match p with
  | Arg => x
  | Const c => c
  | Add a b => value a x + value b x
  | Sub a b => value a x - value b x
  | Mul a b => value a x * value b x
  | Quot a b => value a x / value b x
  | Neg a => - value a x
  | AddDS a c | AddSD c a => value a x + c
  | SubDS a c => value a x - c
  | SubSD c a => c - value a x
  | MulDS a c | MulSD c a => value a x * c
  | QuotDS a c => value a x / c
  | QuotSD c a => c / value a x
  | Fma a b c => value a x * value b x + value c x
  | Sqr a => value a x * value a x
  | Inv a => / value a x
  | Cos a => cos (value a x)
  | Sin a => sin (value a x)
  | Cosh a => cosh (value a x)
  | Sinh a => sinh (value a x)
  | Exp a => exp (value a x)
  | Pow a c => power (value a x) c
  | Log a => ln (value a x)
  | Sqrt a => sqrt (value a x)
  end.

(* x is a point where every part of the program is differentiable *)
Fixpoint regular (p : prog) (x : R) : Prop :=
  match p with
  | Arg | Const _ => True
  | Add a b | Sub a b | Mul a b => regular a x /\ regular b x
  | Quot a b => regular a x /\ regular b x /\ value b x <> 0
  | Neg a | AddDS a _ | AddSD _ a | SubDS a _ | SubSD _ a | MulDS a _ | MulSD _ a | Sqr a | Cos a | Sin a | Cosh a | Sinh a | Exp a => regular a x
  | QuotDS a c => regular a x /\ c <> 0
  | QuotSD _ a | Inv a => regular a x /\ value a x <> 0
  | Fma a b c => regular a x /\ regular b x /\ regular c x
  | Pow a c => regular a x /\ (0 < value a x \/ exists n, c = IZR n /\ (value a x <> 0 \/ (1 <= n)%Z))
  | Log a | Sqrt a => regular a x /\ 0 < value a x
  end.
