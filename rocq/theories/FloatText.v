(** * The text of a float and the number conversions: model of /repo/util/yasl_float.c, /repo/interpreter/float_methods.c:9-34 and
    int_methods.c:20-24. *)
From Verif Require Import Base Value Ops Text.
From Coq Require Import Floats.SpecFloat.

(** [snprintf(.., "%f", d)] of the C library for the finite double (-1)^s * m * 2^e: the exact value rounded to six decimals, ties to
    even (glibc in the default rounding mode). [micros] is the magnitude in millionths. *)
Definition micros (m : positive) (e : Z) : Z :=
  if 0 <=? e then Z.pos m * 2 ^ e * 1000000
  else let p := 2 ^ (- e) in
       let n := Z.pos m * 1000000 in
       let q := n / p in
       let r := n mod p in
       if 2 * r <? p then q else if p <? 2 * r then q + 1 else if Z.even q then q else q + 1.
(** Decimal digits without leading zeros; as many divisions as the number has bits are enough. *)
Definition dec_text (n : Z) : list Z := dec_digits (S (Z.to_nat (Z.log2 n))) n [].
(** Exactly six digits. *)
Definition six_text (n : Z) : list Z := map (fun k => 48 + (n / 10 ^ k) mod 10) [5; 4; 3; 2; 1; 0].
Definition printf_f (s : bool) (n : Z) : list Z := (if s then [45] else []) ++ dec_text (n / 1000000) ++ 46 :: six_text (n mod 1000000).

(** The array read [ptr[i]], [i] an int. *)
Definition at_ptr (ptr : list Z) (i : Z) : outcome Z := match nthZ ptr i with Some c => Ok c | None => UB end.
(** The loop of yasl_float.c:27-29; [fuel] is the number of iterations allowed. *)
Fixpoint strip_zeros (fuel : nat) (ptr : list Z) (size : Z) : outcome Z :=
  match fuel with
  | O => NoFuel
  | S f => do a <- at_ptr ptr (size - 1);
           if a =? 48 then do b <- at_ptr ptr (size - 2); if negb (b =? 46) then strip_zeros f ptr (size - 1) else Ok size
           else Ok size
  end.
(** [float64_to_str], yasl_float.c:8-33, as the zero-terminated string that the caller sees; the buffer has room for the text and
    its NUL (:24-26). An infinity or a NaN is recognised by comparing with 0 (:11-20). *)
Definition float64_to_str (d : float) : outcome (list Z) :=
  let finite s n :=
    let t := printf_f s n in
    let ptr := t ++ [0] in
    do size <- strip_zeros (S (length t)) ptr (Z.of_nat (length t));
    do ptr <- (if size <? 0 then UB else wr ptr (Z.to_nat size) 0);
    Ok (cstr (firstn (S (Z.to_nat size)) ptr)) in
  match d with
  | S754_infinity false => Ok [105; 110; 102]
  | S754_infinity true => Ok [45; 105; 110; 102]
  | S754_nan => Ok [110; 97; 110]
  | S754_zero s => finite s 0
  | S754_finite s m e => finite s (micros m e)
  end.
(** [float_tostr], float_methods.c:28-34: [YASL_pushzstr] of that string. *)
Definition float_tostr (d : float) : outcome (list Z) := float64_to_str d.
(** [float_toint], float_methods.c:9-13: the C conversion [(yasl_int)val], undefined when the truncated value does not fit. *)
Definition float_toint (d : float) : outcome Z := f_to_int d.
(** [int_tofloat], int_methods.c:20-24. *)
Definition int_tofloat (n : Z) : float := f_of_int n.
(** [float_tobool], float_methods.c:15-19: [val == val]. *)
Definition float_tobool (d : float) : bool := f_eqb d d.
