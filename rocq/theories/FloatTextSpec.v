(** * What the text of a float is (specification). *)
From Verif Require Import Base TextSpec.
From Coq Require Import Floats.SpecFloat.

(** The magnitude of the double m * 2^e as a fraction. *)
Definition numer (m : positive) (e : Z) : Z := Z.pos m * 2 ^ Z.max e 0.
Definition denom (e : Z) : Z := 2 ^ Z.max (- e) 0.
(** A decimal text: a sign or nothing, digits without a superfluous leading zero, a dot, one to six digits of which the last is not a
    zero unless it is the only one. [v] is the number it denotes, in millionths. *)
Definition decimal (neg : bool) (v : Z) (t : list Z) : Prop :=
  exists ip fp, t = (if neg then [45] else []) ++ ip ++ [46] ++ fp /\
    Forall dec_digit ip /\ Forall dec_digit fp /\ (ip = [48] \/ exists c r, ip = c :: r /\ c <> 48) /\
    (1 <= length fp <= 6)%nat /\ ((length fp = 1)%nat \/ last fp 0 <> 48) /\
    v = denotes 10 (ip ++ fp) * 10 ^ (6 - Z.of_nat (length fp)).
(** [v] millionths is the nearest to a/b, and the even one of two equally near. *)
Definition nearest (v a b : Z) : Prop := 2 * Z.abs (v * b - a * 1000000) <= b /\ (2 * Z.abs (v * b - a * 1000000) = b -> Z.even v = true).
