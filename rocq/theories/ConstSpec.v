(** * What may appear as a literal of a program. *)
From Verif Require Import Base Value FloatFacts.

(** Ints of 64 bits, valid doubles other than NaN and -0.0, byte strings shorter than 2^62. *)
Definition literal (v : value) : Prop :=
  match v with
  | VInt i => in_i64 i
  | VFloat f => f_valid f = true /\ f <> S754_nan /\ f <> S754_zero true
  | VStr s => Forall is_byte s /\ Z.of_nat (length s) < 2 ^ 62
  | _ => False
  end.
