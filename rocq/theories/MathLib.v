(** * Math library: model of /repo/std/yasl-std-math.c *)
From Verif Require Import Base Value Ops Prime.

(** Reading a numeric argument as an int, yasl-std-math.c:164-169, 199-204, 211-216 (the type test is
    lines 159-162, 194-197, 206-209). *)
Definition arg_int (v : value) : outcome Z :=
  match v with VInt i => Ok i | VFloat f => f_to_int f | _ => Err EType end.

(** The loop of [gcd_helper], yasl-std-math.c:185-190 (its guard [r != 0] holds on entry). *)
Fixpoint gcd_loop (fuel : nat) (a b : Z) : outcome Z :=
  match fuel with
  | O => NoFuel
  | S k => if b =? 0 then UB else
           let r := Z.rem a b in
           if r =? 0 then Ok b else gcd_loop k b r
  end.
(** [gcd_helper], yasl-std-math.c:178-192. *)
Definition gcd_helper (fuel : nat) (a b : Z) : outcome Z :=
  if a <? b then gcd_loop fuel b a else gcd_loop fuel a b.

(** [YASL_math_gcd], yasl-std-math.c:193-226: [x] is the first argument, [y] (on top of the stack) the second. *)
Definition math_gcd (fuel : nat) (x y : value) : outcome value :=
  do a <- arg_int y; do b <- arg_int x;
  if (0 <? a) && (0 <? b) then omap VInt (gcd_helper fuel a b) else Ok VUndef.

(** [YASL_math_lcm], yasl-std-math.c:227-261: [b*a/gcd]. *)
Definition math_lcm (fuel : nat) (x y : value) : outcome value :=
  do a <- arg_int y; do b <- arg_int x;
  if (0 <? a) && (0 <? b) then
    do g <- gcd_helper fuel a b;
    if in_i64b (b * a) then sint (Z.quot (b * a) g) else UB
  else Ok VUndef.

(** [YASL_math_abs], yasl-std-math.c:51-67. *)
Definition math_abs (v : value) : outcome value :=
  match v with
  | VInt i => if i <? 0 then sint (- i) else Ok (VInt i)
  | VFloat f => if f_ltb f (S754_zero false) then Ok (VFloat (f_opp f)) else Ok (VFloat f)
  | _ => Err EType
  end.

(** One iteration of the loop of [YASL_math_max]/[min], yasl-std-math.c:95-111, 123-139. [best] is the local
    [max]; the arguments are given top of stack first. *)
Fixpoint extremum_loop (better : float -> float -> bool) (best : value) (args : list value) : outcome value :=
  match args with
  | [] => Ok best
  | VInt i :: rest =>
      extremum_loop better (if better (f_of_int i) (get_num best) then VInt i else best) rest
  | VFloat f :: rest =>
      if negb (f_eqb f f) then Ok (VFloat S754_nan)
      else extremum_loop better (if better f (get_num best) then VFloat f else best) rest
  | _ => Err EType
  end.
(** [YASL_math_max] / [YASL_math_min], yasl-std-math.c:86-141; [args] in call order. *)
Definition math_max (args : list value) : outcome value :=
  extremum_loop (fun t m => f_leb m t) (VFloat (S754_infinity true)) (rev args).
Definition math_min (args : list value) : outcome value :=
  extremum_loop (fun t m => f_leb t m) (VFloat (S754_infinity false)) (rev args).

(** [YASL_math_isprime], yasl-std-math.c:158-177: the [yasl_int] is converted to [size_t]. *)
Definition math_isprime (fsqrt : Z -> Z) (fuel : nat) (v : value) : outcome value :=
  do n <- arg_int v; omap VBool (is_prime fsqrt fuel (u64 n)).
