(** * C63: the text of a float, and conversions between ints and floats. *)
From Verif Require Import Base Value Ops Text TextSpec TextProofs FloatText FloatTextSpec FloatFacts FloatTextProofs.
From Coq Require Import Floats.SpecFloat.

(** C63. Every float has a text, without undefined behaviour: a decimal number with its sign, one to six decimals and no superfluous
    zero, the nearest one in millionths to the exact value (of two equally near ones the even one); or inf, -inf, nan. *)
Theorem C63_text d : exists t, float_tostr d = Ok t /\
  match d with
  | S754_finite s m e => exists v, nearest v (numer m e) (denom e) /\ decimal s v t
  | S754_zero s => decimal s 0 t /\ t = (if s then [45; 48; 46; 48] else [48; 46; 48])
  | S754_infinity s => t = (if s then [45; 105; 110; 102] else [105; 110; 102])
  | S754_nan => t = [110; 97; 110]
  end.
Proof.
  destruct d as [s|s| |s m e].
  - destruct (finite_decimal s 0 ltac:(lia)) as (t & E & D). exists t. split; [exact E|]. split; [exact D|]. destruct s; vm_compute in E; injection E as <-; reflexivity.
  - destruct s; eexists; split; reflexivity.
  - eexists. split; reflexivity.
  - destruct (micros_nearest m e) as [N P]. destruct (finite_decimal s (micros m e) P) as (t & E & D). exists t. split; [exact E|]. exists (micros m e). split; [exact N|exact D].
Qed.
(** A float that is a whole number of millionths is written exactly. *)
Theorem C63_exact s m e k : numer m e * 1000000 = k * denom e -> exists t, float_tostr (S754_finite s m e) = Ok t /\ decimal s k t.
Proof.
  intros E. destruct (C63_text (S754_finite s m e)) as (t & T & v & N & D). exists t. split; [exact T|].
  assert (B : 0 < denom e) by (unfold denom; apply Z.pow_pos_nonneg; lia).
  replace k with v; [exact D|]. apply (nearest_unique v k (numer m e) (denom e) B N). split; rewrite E, Z.sub_diag; cbn; lia.
Qed.
(** An int turned into a float is written as the int followed by .0, and turned back is the int. *)
Theorem C63_of_int n : Z.abs n < 2 ^ 53 -> float_tostr (int_tofloat n) = Ok (int_tostr n ++ [46; 48]) /\ float_toint (int_tofloat n) = Ok n.
Proof. intros B. split; [apply tostr_of_int, B|apply toint_of_int, B]. Qed.
(** A float turned into an int loses its decimals, towards zero, whenever the result is an int. *)
Theorem C63_toint s m e n : float_toint (S754_finite s m e) = Ok n ->
  in_i64 n /\ Z.abs n * denom e <= numer m e < (Z.abs n + 1) * denom e /\ (if s then n <= 0 else 0 <= n).
Proof.
  unfold float_toint, f_to_int, f_trunc. set (a := if 0 <=? e then Z.pos m * 2 ^ e else Z.pos m / 2 ^ (- e)).
  assert (A : 0 <= a /\ a * denom e <= numer m e < (a + 1) * denom e).
  { unfold a, denom, numer. destruct (Z.leb_spec 0 e).
    - rewrite (Z.max_l e 0), (Z.max_r (- e) 0) by lia. assert (0 < 2 ^ e) by (apply Z.pow_pos_nonneg; lia). change (2 ^ 0) with 1. nia.
    - rewrite (Z.max_r e 0), (Z.max_l (- e) 0) by lia. assert (0 < 2 ^ (- e)) by (apply Z.pow_pos_nonneg; lia). set (p := 2 ^ (- e)) in *. change (2 ^ 0) with 1.
      pose proof (Z.div_mod (Z.pos m) p ltac:(lia)). pose proof (Z.mod_pos_bound (Z.pos m) p ltac:(lia)). pose proof (Z.div_pos (Z.pos m) p ltac:(lia) ltac:(lia)). lia. }
  destruct (in_i64b (if s then - a else a)) eqn:I; [|discriminate]. intros E. injection E as <-. unfold in_i64b in I. split; [unfold in_i64; lia|]. destruct s; (split; [|lia]).
  - rewrite Z.abs_opp, Z.abs_eq by lia. apply A.
  - rewrite Z.abs_eq by lia. apply A.
Qed.
Theorem C63_toint_defined s m e : numer m e < 2 ^ 63 * denom e -> exists n, float_toint (S754_finite s m e) = Ok n.
Proof.
  intros B. unfold float_toint, f_to_int, f_trunc. set (a := if 0 <=? e then Z.pos m * 2 ^ e else Z.pos m / 2 ^ (- e)).
  assert (A : 0 <= a < 2 ^ 63).
  { unfold a. unfold denom, numer in B. destruct (Z.leb_spec 0 e).
    - rewrite (Z.max_l e 0), (Z.max_r (- e) 0) in B by lia. change (2 ^ 0) with 1 in B. assert (0 < 2 ^ e) by (apply Z.pow_pos_nonneg; lia). lia.
    - rewrite (Z.max_r e 0), (Z.max_l (- e) 0) in B by lia. assert (0 < 2 ^ (- e)) by (apply Z.pow_pos_nonneg; lia). split; [apply Z.div_pos; lia|]. apply Z.div_lt_upper_bound; [lia|]. change (2 ^ 0) with 1 in B. lia. }
  change (2 ^ 63) with 9223372036854775808 in A. exists (if s then - a else a). replace (in_i64b (if s then - a else a)) with true; [reflexivity|]. symmetry. unfold in_i64b, int_min, int_max. destruct s; lia.
Qed.
(** What a user expects and does not get: two different floats can have the same text (2^-30 is written 0.0) ... *)
Theorem C63_distinct_refuted : exists d d' t, f_eqb d d' = false /\ float_tostr d = Ok t /\ float_tostr d' = Ok t.
Proof. exists (S754_zero false), (S754_finite false 4503599627370496 (-82)), [48; 46; 48]. repeat split; vm_compute; reflexivity. Qed.
(** tobool of a float is true, zeros included, except for NaN. *)
Theorem C63_tobool d : float_tobool d = match d with S754_nan => false | _ => true end.
Proof.
  unfold float_tobool, f_eqb, SFeqb. destruct d as [s|[]| |[] m e]; try reflexivity; cbn [SFcompare]; rewrite Z.compare_refl; change (Pos.compare_cont Eq m m) with (Pos.compare m m); rewrite Pos.compare_refl; reflexivity.
Qed.
Print Assumptions C63_tobool.
(** ... and toint of a float outside the range of ints (here 2^63), an infinity or a NaN is undefined. *)
Theorem C63_toint_refuted : float_toint (S754_finite false 4503599627370496 11) = UB /\ (forall s, float_toint (S754_infinity s) = UB) /\ float_toint S754_nan = UB.
Proof. repeat split. Qed.
(** 1.5; -0.1 (not exact: rounded); 2^-21 = 0.000000476837158203125 (rounds to zero); 2^-7 = 0.0078125 (a tie, to the even 7812); toint of -2.75,
    which is a whole number of millionths. *)
Example C63_nonvacuous :
  float_tostr (S754_finite false 6755399441055744 (-52)) = Ok [49; 46; 53] /\
  float_tostr (S754_finite true 7205759403792794 (-56)) = Ok [45; 48; 46; 49] /\
  float_tostr (S754_finite false 4503599627370496 (-73)) = Ok [48; 46; 48] /\
  float_tostr (S754_finite false 4503599627370496 (-59)) = Ok [48; 46; 48; 48; 55; 56; 49; 50] /\
  float_toint (S754_finite true 6192449487634432 (-51)) = Ok (-2) /\
  numer 6192449487634432 (-51) * 1000000 = 2750000 * denom (-51).
Proof. repeat split; vm_compute; reflexivity. Qed.
Print Assumptions C63_text.
Print Assumptions C63_exact.
Print Assumptions C63_of_int.
Print Assumptions C63_toint.
Print Assumptions C63_toint_defined.
Print Assumptions C63_distinct_refuted.
Print Assumptions C63_toint_refuted.
