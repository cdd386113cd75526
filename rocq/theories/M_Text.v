(* Model: input and output. Source: ra/ply.hh:578-697, ra/base.hh:433-453. *)
From Coq Require Import ZArith List Lia Bool Ascii String.
From Verif Require Import M_Base M_Expr M_Array.
Import ListNotations.
Open Scope Z_scope.

Definition text := list ascii.
Definition txt (s : string) : text := list_ascii_of_string s.
Definition nl : ascii := "010"%char.

(* base.hh:437-444 shape_t, format_t *)
Inductive shape_t := Defaultshape | Withshape | Noshape.
Record style := Style { st_shape : shape_t; st_open : text; st_close : text; st_sep0 : text; st_sepn : text; st_rep : text; st_align : bool }.
(* base.hh:446-450 *)
Definition jstyle := Style Defaultshape [] [] (txt " ") [nl] [nl] false.
Definition nstyle := Style Noshape [] [] (txt " ") [nl] [nl] false.
Definition cstyle := Style Noshape (txt "{") (txt "}") (txt ", ") (txt "," ++ [nl]) [] true.
Definition lstyle := Style Noshape (txt "(") (txt ")") (txt " ") [nl] [] true.
Definition pstyle := Style Noshape (txt "[") (txt "]") (txt ", ") (txt "," ++ [nl]) [nl] true.

Section Format.
Context {X W : Type}.
Notation expr := (expr X W).
(* under.format: the text of an element *)
Variable show : X -> text.

(* ply.hh:678-686: what is printed after an item on axis k that isn't the last one *)
Definition gap (f : style) (rank : Z) (k : nat) : text :=
  (if Z.of_nat k =? rank - 1 then st_sep0 f else st_sepn f) ++
  List.concat (repeat (st_rep f) (Z.to_nat (Z.max 0 (rank - 2 - Z.of_nat k)))) ++
  (if st_align f && (Z.of_nat k <? rank - 1) then repeat " "%char (Z.to_nat ((Z.of_nat k + 1) * Z.of_nat (List.length (st_open f)))) else []).

(* ply.hh:668-694 goin, for the axes from k on, which have lengths sha. The iterator and the text so far are captured by reference. The counter (674) is an int in the code. *)
Fixpoint goin (f : style) (rank : Z) (k : nat) (sha : list Z) (e : expr) (out : text) : M W (expr * text) :=
  match sha with
  | [] => bind (deref e) (fun x => ret (e, out ++ show x))
  | n::sha' =>
    bind ((fix loop (m : nat) (e : expr) (out : text) : M W (expr * text) :=
       match m with
       | O => ret (e, out)
       | S m' => bind (goin f rank (S k) sha' e out) (fun eo =>
                 match m' with
                 | O => ret (adv (fst eo) k (1-n), snd eo)
                 | S _ => loop m' (adv (fst eo) k 1) (snd eo ++ gap f rank k)
                 end)
       end) (Z.to_nat n) e (out ++ st_open f)) (fun eo => ret (fst eo, snd eo ++ st_close f))
  end.
(* ply.hh:656-697 without the shape (664-666) *)
Definition format_plain (f : style) (e : expr) : M W text :=
  if validate e then bind (goin f (rank e) 0 (shape e) e []) (fun eo => ret (snd eo)) else fail.
End Format.

(* std::format("{}") of an integer: decimal digits, after - if it's negative. Standard library. *)
Definition digit (d : Z) : ascii := ascii_of_nat (Z.to_nat (48 + d)).
Fixpoint digits (fuel : nat) (n : Z) (acc : text) : text :=
  match fuel with
  | O => acc
  | S fuel' => if n <? 10 then digit n :: acc else digits fuel' (n / 10) (digit (n mod 10) :: acc)
  end.
Definition show_nat (n : Z) : text := digits (S (Z.to_nat (Z.log2 n))) n [].
Definition show_int (z : Z) : text := if z <? 0 then "-"%char :: show_nat (- z) else show_nat z.

(* the std::array or std::vector that ra::shape (base.hh:416-430) gives, as an expression: iter of a range, expr.hh:353-360 *)
Definition vec {W} (l : list Z) : expr Z W := Cell [Dim (Z.of_nat (List.length l)) 1] 1 (fun p => nth (Z.to_nat p) l 0) 0.

(* ply.hh:664-666: the shape, with {:d}: this is the default style, so the shape of the shape is printed if the size of the shape isn't static, i.e. if the rank isn't (base.hh:416-430);
   the shape of the shape is an array of 1. *)
Definition format_shape {W} (dynrank : bool) (s : list Z) : M W text :=
  bind (if dynrank then bind (format_plain show_int jstyle (vec [Z.of_nat (List.length s)])) (fun t => ret (t ++ [nl])) else ret []) (fun t0 =>
  bind (format_plain show_int jstyle (vec s)) (fun t1 => ret (t0 ++ t1 ++ [nl]))).

(* ply.hh:656-697 format. dynrank: the rank isn't static; dynsize: size_s(a)==ANY. *)
Definition format {X W} (show : X -> text) (f : style) (dynrank dynsize : bool) (e : expr X W) : M W text :=
  if validate e then
    bind (match st_shape f with
          | Withshape => format_shape dynrank (shape e)
          | Defaultshape => if dynsize then format_shape dynrank (shape e) else ret []
          | Noshape => ret []
          end) (fun t0 =>
    bind (goin show f (rank e) 0 (shape e) e []) (fun eo => ret (t0 ++ snd eo)))
  else fail.

(* A std::istream: what's left to read, and whether it has failed. That the end has been reached isn't kept, because then there's nothing left to read. *)
Record stream := Stream { rest : text; bad : bool }.
(* std::isspace in the C locale. Standard library. *)
Definition space (c : ascii) : bool := let n := nat_of_ascii c in (Nat.eqb n 32 || ((9 <=? n)%nat && (n <=? 13)%nat))%bool.
Definition isdigit (c : ascii) : bool := let n := nat_of_ascii c in ((48 <=? n)%nat && (n <=? 57)%nat)%bool.
Fixpoint skip_space (t : text) : text := match t with c::t' => if space c then skip_space t' else t | [] => [] end.
(* the digits at the beginning: their value, how many they are, and what's left *)
Fixpoint take_digits (t : text) (v : Z) (n : nat) : Z * nat * text :=
  match t with
  | c::t' => if isdigit c then take_digits t' (10 * v + (Z.of_nat (nat_of_ascii c) - 48)) (S n) else (v, n, t)
  | [] => (v, n, [])
  end.
(* std::istream >> of an integer type with range lo...hi: skips space, takes a sign and then digits. If there are no digits the value is 0, if the value is out of range it's the nearest end of the range, and in both
   cases the stream fails. None: the stream had failed, or there was nothing to read, and then the variable isn't written. Standard library (no digit grouping; a signed type). *)
Definition read_int (lo hi : Z) (s : stream) : option Z * stream :=
  if bad s then (None, s) else
  match skip_space (rest s) with
  | [] => (None, Stream [] true)
  | c::t' =>
    let neg := Ascii.eqb c "-" in
    let '(v, n, t) := take_digits (if neg || Ascii.eqb c "+" then t' else c::t') 0 0 in
    let z := if neg then - v else v in
    match n with
    | O => (Some 0, Stream t true)
    | S _ => if z <? lo then (Some lo, Stream t true) else if hi <? z then (Some hi, Stream t true) else (Some z, Stream t false)
    end
  end.

(* for (auto & ci: c) { i >> ci; } (ply.hh:582, 594, 607) over the elements given *)
Fixpoint read_all (lo hi : Z) (l : list (option Z)) (s : stream) : list (option Z) * stream :=
  match l with
  | [] => ([], s)
  | x::l' => let '(v, s1) := read_int lo hi s in
             let '(l1, s2) := read_all lo hi l' s1 in
             (match v with Some z => Some z | None => x end :: l1, s2)
  end.

(* Normal end, or a failed check *)
Inductive rout (A : Type) := Rdone (a : A) (s : stream) | Rfail (a : A) (s : stream).
Arguments Rdone {A}. Arguments Rfail {A}.

(* ply.hh:578-584 for a container with static size *)
Definition read_static (lo hi : Z) (l : list (option Z)) (s : stream) : rout (list (option Z)) := let '(l', s') := read_all lo hi l s in Rdone l' s'.
Definition lo64 := - 2 ^ 63.
Definition hi64 := 2 ^ 63 - 1.
(* ply.hh:586-597 for std::vector *)
Definition read_vector (lo hi : Z) (c : list (option Z)) (s : stream) : rout (list (option Z)) :=
  match read_int lo64 hi64 s with
  | (Some n, s1) => if bad s1 then Rdone c s1 else if n >=? 0 then let '(l, s2) := read_all lo hi (repeat None (Z.to_nat n)) s1 in Rdone l s2 else Rfail c s1
  | (None, s1) => Rdone c s1
  end.
(* ply.hh:599-610 for other containers. r: the static rank (None if the rank is dynamic). The shape (603) is a std::array, which isn't initialized, or a std::vector (base.hh:416-430).
   C cc(s, none) is make (M_Array.v), where sizes don't overflow and there's always space. swap (606) is between containers of the same type. The elements are visited in the order of storage (arrays.hh:311). *)
Definition read_array (r : option nat) (lo hi : Z) (c : arr Z) (s : stream) : rout (arr Z) :=
  match (match r with Some n => read_static lo64 hi64 (repeat None n) s | None => read_vector lo64 hi64 [] s end) with
  | Rfail _ s1 => Rfail c s1
  | Rdone sh s1 =>
    if bad s1 then Rdone c s1 else
    let p := map (fun o => match o with Some z => z | None => 0 end) sh in
    if forallb (fun n => n >=? 0) p then
      match make r p with
      | Some cc => let '(l, s2) := read_all lo hi (astore cc) s1 in Rdone (Arr (adim cc) l) s2
      | None => Rfail c s1
      end
    else Rfail c s1
  end.

(* ply.hh:621-655 parse. mem: what can be read from ctx.begin() on; it's undefined to read past that. e: where ctx.end() is. *)
Inductive parsed (A : Type) := Parsed (a : A) (i : nat) | Perror | Past.
Arguments Parsed {A}. Arguments Perror {A}. Arguments Past {A}.
Section Parse.
Variable mem : text.
Variable e : nat.
(* under.parse (652), given where it begins. None: throws. *)
Variable under : nat -> option nat.

(* ply.hh:643: while ('}'!=*nexti()) s+=*i; nexti is 637-640 *)
Fixpoint parse_body (fuel : nat) (i : nat) (acc : text) : parsed text :=
  match fuel with
  | O => Past
  | S fuel' =>
    if Nat.eqb i e then Perror else
    match nth_error mem (S i) with
    | None => Past
    | Some c => if Ascii.eqb c "}" then Parsed acc (S i) else parse_body fuel' (S i) (acc ++ [c])
    end
  end.
(* ply.hh:641-644 read *)
Definition parse_read (i : nat) : parsed text :=
  if Nat.eqb i e then Perror else
  match nth_error mem (S i) with
  | None => Past
  | Some c => if Ascii.eqb c "{" then parse_body (S (List.length mem)) (S i) [] else Perror
  end.
Definition with_shape (f : style) (s : shape_t) := Style s (st_open f) (st_close f) (st_sep0 f) (st_sepn f) (st_rep f) (st_align f).
Definition with_align (f : style) (a : bool) := Style (st_shape f) (st_open f) (st_close f) (st_sep0 f) (st_sepn f) (st_rep f) a.
Definition with_seps (f : style) (s0 sn : text) := Style (st_shape f) (st_open f) (st_close f) s0 sn (st_rep f) (st_align f).
(* ply.hh:626-650, one turn of the loop, at character c *)
Definition parse_item (f : style) (i : nat) (c : ascii) : parsed style :=
  if Ascii.eqb c "j" then Parsed jstyle i
  else if Ascii.eqb c "c" then Parsed cstyle i
  else if Ascii.eqb c "l" then Parsed lstyle i
  else if Ascii.eqb c "p" then Parsed pstyle i
  else if Ascii.eqb c "a" then Parsed (with_align f true) i
  else if Ascii.eqb c "e" then Parsed (with_align f false) i
  else if Ascii.eqb c "s" then Parsed (with_shape f Withshape) i
  else if Ascii.eqb c "n" then Parsed (with_shape f Noshape) i
  else if Ascii.eqb c "d" then Parsed (with_shape f Defaultshape) i
  else if Ascii.eqb c "S" then
    match parse_read i with
    | Parsed s0 i0 => match parse_read i0 with Parsed sn i1 => Parsed (with_seps f s0 sn) i1 | Perror => Perror | Past => Past end
    | Perror => Perror
    | Past => Past
    end
  else Perror.
(* ply.hh:625-651 *)
Fixpoint parse_loop (fuel : nat) (f : style) (i : nat) : parsed style :=
  match fuel with
  | O => Past
  | S fuel' =>
    if Nat.eqb i e then Parsed f i else
    match nth_error mem i with
    | None => Past
    | Some c => if (Ascii.eqb c ":" || Ascii.eqb c "}")%bool then Parsed f i else
                match parse_item f i c with Parsed f' i' => parse_loop fuel' f' (S i') | Perror => Perror | Past => Past end
    end
  end.
(* ply.hh:621-655. The default style (base.hh:439-444) is jstyle. *)
Definition parse : parsed style :=
  match parse_loop (S (List.length mem)) jstyle 0 with
  | Parsed f i =>
    let close i := if Nat.eqb i e then Perror else match nth_error mem i with None => Past | Some c => if Ascii.eqb c "}" then Parsed f i else Perror end in
    if Nat.eqb i e then close i else
    match nth_error mem i with
    | None => Past
    | Some c => if Ascii.eqb c ":" then match under (S i) with Some i' => close i' | None => Perror end else close i
    end
  | Perror => Perror
  | Past => Past
  end.
End Parse.
