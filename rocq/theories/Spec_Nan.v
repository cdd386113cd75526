(* What the properties with NaN are stated with. *)
From Coq Require Import ZArith List Bool.
Import ListNotations.

(* a strict order where what isn't a number is neither before nor after anything *)
Definition order_with_nan {T} (nan : T -> bool) (ltb : T -> T -> bool) : Prop :=
  (forall a b, nan a = true \/ nan b = true -> ltb a b = false) /\
  (forall a, ltb a a = false) /\ (forall a b c, ltb a b = true -> ltb b c = true -> ltb a c = true) /\
  (forall a b, nan a = false -> nan b = false -> ltb a b = false -> ltb b a = false -> a = b).
