(* Model: the functions of examples/laplace3d.cc, in exact arithmetic (real numbers). *)
From Coq Require Import Reals ZArith.
Open Scope R_scope.

(* examples/laplace3d.cc:117 double h = 1./n; PI is that of the library of real numbers *)
Definition step_ (n : Z) : R := 1 / IZR n.
(* examples/laplace3d.cc:126-128, a coordinate of a vertex *)
Definition coord (n i : Z) : R := -1 + 2 * IZR i * step_ n.
(* examples/laplace3d.cc:103-106 *)
Definition g_exact (x y z : R) : R := cos (/ 2 * PI * x) * cos (/ 2 * PI * y) * cos (/ 2 * PI * z).
(* examples/laplace3d.cc:107-110 *)
Definition f_right (x y z : R) : R := / 4 * 3 * PI * PI * cos (/ 2 * PI * x) * cos (/ 2 * PI * y) * cos (/ 2 * PI * z).
