(* Examples from test/io.cc. *)
From Coq Require Import ZArith List Bool Ascii String.
From Verif Require Import Spec M_Base M_Expr M_Ply M_View M_Array M_Text T_Base.
Import ListNotations.
Open Scope Z_scope.

Definition arr_ (s l : list Z) : expr Z unit := Cell (at_row s) (List.length s) (fun p => nth (Z.to_nat p) l 0) 0.
Definition by_ (s : list Z) (f : list Z -> Z) : expr Z unit := Cell (at_row s) (List.length s) (fun p => f (unravel s p)) 0.
Definition ostr (f : style) (dynrank dynsize : bool) (e : expr Z unit) : option string := match format show_int f dynrank dynsize e tt with Ok t _ => Some (string_of_list_ascii t) | _ => None end.
(* io.cc:58-71 *)
Example io_62 : ostr (Style Withshape [] [] (txt "|") (txt "-") [nl] false) false false (arr_ [2; 2] [1; 2; 3; 4]) = Some "2 2
1|2-3|4"%string /\ ostr (Style Noshape [] [] (txt "|") (txt "-") [nl] false) false true (arr_ [2; 2] [1; 2; 3; 4]) = Some "1|2-3|4"%string.
Proof. vm_compute. auto. Qed.
(* io.cc:72-160 *)
Definition A2222 := by_ [2; 2; 2; 2] (fun i => i0 i + i1 i + i2 i + i3 i).
Example io_76 : ostr cstyle false true A2222 = Some "{{{{0, 1},
   {1, 2}},
  {{1, 2},
   {2, 3}}},
 {{{1, 2},
   {2, 3}},
  {{2, 3},
   {3, 4}}}}"%string.
Proof. vm_compute. reflexivity. Qed.
Example io_91 : ostr (with_shape cstyle Withshape) false true A2222 = Some "2 2 2 2
{{{{0, 1},
   {1, 2}},
  {{1, 2},
   {2, 3}}},
 {{{1, 2},
   {2, 3}},
  {{2, 3},
   {3, 4}}}}"%string.
Proof. vm_compute. reflexivity. Qed.
Example io_109 : ostr jstyle false true A2222 = Some "2 2 2 2
0 1
1 2

1 2
2 3


1 2
2 3

2 3
3 4"%string.
Proof. vm_compute. reflexivity. Qed.
Example io_129 : ostr lstyle false true A2222 = Some "((((0 1)
   (1 2))
  ((1 2)
   (2 3)))
 (((1 2)
   (2 3))
  ((2 3)
   (3 4))))"%string /\ ostr (with_align lstyle false) false true A2222 = Some "((((0 1)
(1 2))
((1 2)
(2 3)))
(((1 2)
(2 3))
((2 3)
(3 4))))"%string.
Proof. vm_compute. auto. Qed.
Example io_161 : ostr pstyle false true A2222 = Some "[[[[0, 1],
   [1, 2]],

  [[1, 2],
   [2, 3]]],


 [[[1, 2],
   [2, 3]],

  [[2, 3],
   [3, 4]]]]"%string.
Proof. vm_compute. reflexivity. Qed.
(* io.cc:181-195 *)
Example io_184 : ostr (with_shape jstyle Withshape) false false (arr_ [2; 2] [1; 2; 3; 4]) = Some "2 2
1 2
3 4"%string /\ ostr nstyle false true (arr_ [2; 2] [1; 2; 3; 4]) = Some "1 2
3 4"%string.
Proof. vm_compute. auto. Qed.
(* io.cc:20-32, 45-57, 196-242: what's written is read back as it was. 32 bit elements. *)
Definition lo32 := - 2 ^ 31.
Definition hi32 := 2 ^ 31 - 1.
Definition back_static (e : expr Z unit) : option (list (option Z)) :=
  match format show_int jstyle false false e tt with Ok t _ => match read_static lo32 hi32 (repeat None (Z.to_nat (sizee e))) (Stream t false) with Rdone l s => if bad s then None else Some l | _ => None end | _ => None end.
Definition back_array (r : option nat) (e : expr Z unit) : option (arr Z) :=
  match format show_int jstyle (match r with None => true | _ => false end) true e tt with
  | Ok t _ => match read_array r lo32 hi32 (match r with Some k => default_static k | None => default_any end) (Stream t false) with Rdone a s => if bad s then None else Some a | _ => None end
  | _ => None end.
Definition is_arr (o : option (arr Z)) (s l : list Z) : Prop := match o with Some a => map len (adim a) = s /\ astore a = map Some l | None => False end.
Example io_48 : is_arr (back_array (Some 2%nat) (by_ [5; 3] (fun i => i0 i - i1 i))) [5; 3] [0; -1; -2; 1; 0; -1; 2; 1; 0; 3; 2; 1; 4; 3; 2] /\ is_arr (back_array (Some 1%nat) (arr_ [1] [1])) [1] [1].
Proof. vm_compute. auto. Qed.
Definition neg_ (e : expr Z unit) : expr Z unit := Map (fun xs => match xs with [x] => ret (- x) | _ => undef end) [e].
Example io_199 : back_static (neg_ (arr_ [3] [0; 1; 2])) = Some [Some 0; Some (-1); Some (-2)] /\
  back_static (neg_ (by_ [3; 2; 3] (fun i => i0 i - i1 i + i2 i))) = Some (map (fun i => Some (- (i0 i - i1 i + i2 i))) (indices [3; 2; 3])) /\
  is_arr (back_array (Some 2%nat) (neg_ (arr_ [2; 3] [1; 2; 3; 4; 5; 6]))) [2; 3] [-1; -2; -3; -4; -5; -6].
Proof. vm_compute. auto. Qed.
(* io.cc:213-230. The rank isn't in the type of the transposed array. *)
Definition turned : expr Z unit := Cell [Dim 2 1; Dim 3 2] 2 (fun p => nth (Z.to_nat p) [1; 2; 3; 4; 5; 6] 0) 0.
Example io_217 : is_arr (back_array (Some 2%nat) (arr_ [3; 2] [1; 2; 3; 4; 5; 6])) [3; 2] [1; 2; 3; 4; 5; 6] /\ is_arr (back_array None turned) [2; 3] [1; 3; 5; 2; 4; 6] /\ back_static turned = Some [Some 1; Some 3; Some 5; Some 2; Some 4; Some 6].
Proof. vm_compute. repeat split. Qed.
(* io.cc:231-242 *)
Definition mul_ (f : Z -> Z -> Z) (a b : expr Z unit) : expr Z unit := Map (fun xs => match xs with [x; y] => ret (f x y) | _ => undef end) [a; b].
Example io_234 : back_static (mul_ (fun i j => - i * j) (arr_ [3] [0; 1; 2]) (Cell [Dim UNB 1] 1 (fun i => i) 0)) = Some [Some 0; Some (-1); Some (-4)] /\
  is_arr (back_array None (mul_ Z.add (arr_ [2; 2] [1; 2; 3; 4]) (arr_ [2; 2] [1; 2; 3; 4]))) [2; 2] [2; 4; 6; 8].
Proof. vm_compute. repeat split. Qed.
(* io.cc:248-284 *)
Example io_254 : ostr jstyle false false (arr_ [3] [1; 2; 3]) = Some "1 2 3"%string /\ ostr cstyle false true (arr_ [0] []) = Some "{}"%string /\ ostr jstyle false false (arr_ [] [7]) = Some "7"%string /\ ostr jstyle false false (Scalar 99) = Some "99"%string.
Proof. vm_compute. repeat split. Qed.
