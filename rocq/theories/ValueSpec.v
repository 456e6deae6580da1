(** * Specification of equality and truthiness of primitive values. *)
From Verif Require Import Base Value.

(** The primitive values: everything but containers, functions and userdata. *)
Definition prim (v : value) : Prop :=
  match v with VUndef | VBool _ | VInt _ | VFloat _ | VStr _ | VUserPtr _ => True | _ => False end.

(** Two doubles denote the same number: neither is NaN, and they are identical or both zeros. *)
Definition same_number (f g : float) : Prop :=
  f <> S754_nan /\ g <> S754_nan /\
  (f = g \/ (exists s, f = S754_zero s) /\ (exists s, g = S754_zero s)).

(** What [==] is meant to be. *)
Definition spec_eq (a b : value) : Prop :=
  match a, b with
  | VUndef, VUndef => True
  | VBool x, VBool y => x = y
  | VInt x, VInt y => x = y
  | VStr s, VStr t => s = t
  | VUserPtr p, VUserPtr q => p = q
  | VFloat f, VFloat g => same_number f g
  | VInt x, VFloat g => same_number (f_of_int x) g
  | VFloat f, VInt y => same_number f (f_of_int y)
  | _, _ => False
  end.

(** What a condition treats as false. *)
Definition spec_false (v : value) : Prop :=
  v = VUndef \/ v = VBool false \/ v = VStr [] \/ v = VFloat S754_nan.

(** Bytewise lexicographic order on strings. *)
Inductive lex_lt : list Z -> list Z -> Prop :=
| lex_nil : forall y b, lex_lt [] (y :: b)
| lex_head : forall x a y b, x < y -> lex_lt (x :: a) (y :: b)
| lex_tail : forall x a b, lex_lt a b -> lex_lt (x :: a) (x :: b).

(** A proper number: an int or a float that is not NaN. *)
Definition number (v : value) : Prop := match v with VInt _ => True | VFloat f => f <> S754_nan | _ => False end.
