(* Model: the mesh and the tables of examples/laplace3d.cc. *)
From Coq Require Import ZArith List.
From Verif Require Import M_Base M_Expr M_Ply M_Val M_View M_Frame M_Assembly.
Import ListNotations.
Open Scope Z_scope.

(* examples/laplace3d.cc:97-100 *)
Definition pos (n i j k : Z) : Z := n * (n * i + j) + k.
(* examples/laplace3d.cc:43-44 *)
Definition ISF : list (list Z) := [[0; 0; 0]; [1; 0; 0]; [1; 1; 0]; [0; 1; 0]; [0; 0; 1]; [1; 0; 1]; [1; 1; 1]; [0; 1; 1]].
Definition isf (v : Z) (c : nat) : Z := nth c (nth (Z.to_nat v) ISF []) 0.
(* ra::iota(n), as an iterator: base.hh start(), expr.hh:279-311 *)
Definition iota_e {T W} (n : Z) : expr (val T) W := Cell [Dim n 1] 1 VI 0.

(* examples/laplace3d.cc:132-133, the operation. v of E(q) is in the 8 places from e0 + 8q; E has n*n*n elements (122). *)
Definition vertex_op (e0 n : Z) (xs : list (val Z)) : M (mem Z) (val Z) :=
  match xs with
  | [VI i; VI j; VI k; VI v] =>
    if inside (pos n i j k) (n * n * n) then fun m => Ok VUnit (wr (e0 + 8 * pos n i j k + v) (pos (n + 1) (i + isf v 0) (j + isf v 1) (k + isf v 2)) m) else fail
  | _ => undef
  end.
(* examples/laplace3d.cc:131-134; ply.hh:547-549 from with an operation *)
Definition set_elements (fixed : bool) (z : list zt) (e0 n : Z) : M (mem Z) (option unit) :=
  match from_op (vertex_op e0 n) [iota_e n; iota_e n; iota_e n; iota_e 8] with Some e => ply fixed no_stop z e | None => undef end.

(* examples/laplace3d.cc:137-147: the state is the memory and k. B is in the 6*(n+1)*(n+1) places from b0 (121); B[k++] checks, arrays.hh:319. *)
Definition put_b (b0 n q : Z) : M (mem Z * Z) unit := fun s => if inside (snd s) (6 * (n + 1) * (n + 1)) then Ok tt (wr (b0 + snd s) q (fst s), snd s + 1) else Fail s.
Definition border_ij (b0 n i j : Z) : M (mem Z * Z) unit :=
  let at_ := pos (n + 1) in
  _ <- put_b b0 n (at_ 0 i j) ;; _ <- put_b b0 n (at_ n i j) ;; _ <- put_b b0 n (at_ i 0 j) ;; _ <- put_b b0 n (at_ i n j) ;; _ <- put_b b0 n (at_ i j 0) ;; put_b b0 n (at_ i j n).
(* for (i=0; i<=n; ++i) *)
Fixpoint up_to {W} (r : nat) (i : Z) (f : Z -> M W unit) : M W unit := match r with O => ret tt | S r' => _ <- f i ;; up_to r' (i + 1) f end.
Definition set_border (b0 n : Z) : M (mem Z) unit := fun m =>
  match up_to (Z.to_nat (n + 1)) 0 (fun i => up_to (Z.to_nat (n + 1)) 0 (border_ij b0 n i)) (m, 0) with Ok _ s => Ok tt (fst s) | Fail s => Fail (fst s) | Undef => Undef end.

(* E and B as M_Assembly.v has them. The registers of E(q) are in the 16 places from r0 + 16q. *)
Definition elements_of (m : mem Z) (e0 r0 n : Z) : list element_ :=
  map (fun q => let q := Z.of_nat q in El (map (fun v => m (e0 + 8 * q + Z.of_nat v)) (seq 0 8)) (r0 + 16 * q) (r0 + 16 * q + 8)) (seq 0 (Z.to_nat (n * n * n))).
Definition border_of (m : mem Z) (b0 n : Z) : list Z := map (fun k => m (b0 + Z.of_nat k)) (seq 0 (Z.to_nat (6 * (n + 1) * (n + 1)))).

Section Tables.
Context {T : Type}.
Variables (zero one : T) (add div : T -> T -> T) (opp : T -> T).
(* an integer literal *)
Fixpoint lit (n : nat) : T := match n with O => zero | S n' => add (lit n') one end.
(* examples/laplace3d.cc:25-26 *)
Definition d23 := div (lit 2) (lit 3).
Definition d16 := div (opp one) (lit 6).
Definition d00 := zero.
Definition d827 := div (lit 8) (lit 27).
Definition d427 := div (lit 4) (lit 27).
Definition d227 := div (lit 2) (lit 27).
Definition d127 := div one (lit 27).
(* examples/laplace3d.cc:27-34 *)
Definition SM : list (list T) :=
  [[d23; d00; d16; d00; d00; d16; d16; d16];
   [d00; d23; d00; d16; d16; d00; d16; d16];
   [d16; d00; d23; d00; d16; d16; d00; d16];
   [d00; d16; d00; d23; d16; d16; d16; d00];
   [d00; d16; d16; d16; d23; d00; d16; d00];
   [d16; d00; d16; d16; d00; d23; d00; d16];
   [d16; d16; d00; d16; d16; d00; d23; d00];
   [d16; d16; d16; d00; d00; d16; d00; d23]].
(* examples/laplace3d.cc:35-42 *)
Definition MM : list (list T) :=
  [[d827; d427; d227; d427; d427; d227; d127; d227];
   [d427; d827; d427; d227; d227; d427; d227; d127];
   [d227; d427; d827; d427; d127; d227; d427; d227];
   [d427; d227; d427; d827; d227; d127; d227; d427];
   [d427; d227; d127; d227; d827; d427; d227; d427];
   [d227; d427; d227; d127; d427; d827; d427; d227];
   [d127; d227; d427; d227; d227; d427; d827; d427];
   [d227; d127; d227; d427; d427; d227; d427; d827]].
Definition entry (t : list (list T)) (i k : Z) : T := nth (Z.to_nat k) (nth (Z.to_nat i) t []) zero.
End Tables.
