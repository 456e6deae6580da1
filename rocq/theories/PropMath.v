(** C33: math.gcd, math.lcm and friends. *)
From Coq Require Import Znumtheory.
From Verif Require Import Base Value ValueSpec Ops Prime PrimeProofs MathLib MathProofs.

(** gcd is the greatest common divisor of positive ints, undef otherwise. *)
Theorem C33_gcd : forall fuel x y r, math_gcd fuel (VInt x) (VInt y) = Ok r ->
  if (0 <? x) && (0 <? y)
  then exists d, r = VInt d /\ 0 < d /\ (d | x) /\ (d | y) /\ (forall e, (e | x) -> (e | y) -> e <= d)
  else r = VUndef.
Proof. exact math_gcd_spec. Qed.
Print Assumptions C33_gcd.

(** ... and its loop terminates on every pair of ints. *)
Theorem C33_gcd_total : forall x y, exists fuel r, math_gcd fuel (VInt x) (VInt y) = Ok r.
Proof. exact math_gcd_total. Qed.
Print Assumptions C33_gcd_total.

(** lcm is the least common multiple when the product fits in an int (the code multiplies before dividing). Missing:
    a least common multiple that fits while the product does not, refuted below. *)
Theorem C33_lcm_partial : forall fuel x y, math_lcm fuel (VInt x) (VInt y) <> NoFuel -> in_i64 (x * y) ->
  if (0 <? x) && (0 <? y) then math_lcm fuel (VInt x) (VInt y) = Ok (VInt (Z.lcm x y))
  else math_lcm fuel (VInt x) (VInt y) = Ok VUndef.
Proof. exact math_lcm_spec. Qed.
Print Assumptions C33_lcm_partial.

(** math.lcm(2^32, 2^32) is 2^32, but the code overflows (undefined behaviour). *)
Theorem C33_lcm_refuted : exists fuel x y, 0 < x <= int_max /\ 0 < y <= int_max /\ in_i64 (Z.lcm x y)
  /\ math_lcm fuel (VInt x) (VInt y) = UB.
Proof. exists 10%nat, 4294967296, 4294967296. vm_compute. intuition congruence. Qed.
Print Assumptions C33_lcm_refuted.

(** max/min of proper numbers return one of the arguments, at least (at most) every argument in the double order. *)
Theorem C33_max : forall args, Forall number args -> args <> [] -> exists m, math_max args = Ok m /\ In m args /\
  forall v, In v args -> f_leb (get_num v) (get_num m) = true.
Proof. exact math_max_in. Qed.
Print Assumptions C33_max.
Theorem C33_min : forall args, Forall number args -> args <> [] -> exists m, math_min args = Ok m /\ In m args /\
  forall v, In v args -> f_leb (get_num m) (get_num v) = true.
Proof. exact math_min_in. Qed.
Print Assumptions C33_min.

(** abs is the absolute value for every int but the least, where it overflows. *)
Theorem C33_abs : forall i, in_i64 i ->
  (i <> int_min -> math_abs (VInt i) = Ok (VInt (Z.abs i))) /\ (i = int_min -> math_abs (VInt i) = UB).
Proof. exact math_abs_spec. Qed.
Print Assumptions C33_abs.

(** isprime decides primality for every non-negative int, given a sane floor(sqrt). *)
Theorem C33_isprime : forall fsqrt fuel n b, (forall y, 4 <= y -> Z.sqrt y <= fsqrt y < y) -> 0 <= n <= int_max ->
  math_isprime fsqrt fuel (VInt n) = Ok b -> exists c, b = VBool c /\ (c = true <-> prime n).
Proof. exact math_isprime_ok. Qed.
Print Assumptions C33_isprime.

Example C33_nonvacuous :
  math_gcd 50 (VInt 84) (VInt 36) = Ok (VInt 12) /\ math_gcd 50 (VInt 0) (VInt 36) = Ok VUndef
  /\ math_lcm 50 (VInt 84) (VInt 36) = Ok (VInt 252)
  /\ math_max [VInt 3; VFloat (f_of_int 7); VInt 5] = Ok (VFloat (f_of_int 7))
  /\ math_min [VInt 3; VFloat (f_of_int 7); VInt (-5)] = Ok (VInt (-5))
  /\ math_isprime Z.sqrt 50 (VInt 211) = Ok (VBool true).
Proof. vm_compute. repeat split; reflexivity. Qed.

(** Arguments that are not numbers are type errors. *)
Definition no_number (v : value) : Prop := match v with VInt _ | VFloat _ => False | _ => True end.
Theorem C33_type_errors : forall fuel fsqrt v x i before after, no_number v ->
  math_gcd fuel x v = Err EType /\ math_gcd fuel v (VInt i) = Err EType /\ math_lcm fuel x v = Err EType /\ math_lcm fuel v (VInt i) = Err EType /\
  math_isprime fsqrt fuel v = Err EType /\ math_abs v = Err EType /\
  (Forall number after -> math_max (before ++ v :: after) = Err EType /\ math_min (before ++ v :: after) = Err EType).
Proof.
  intros fuel fsqrt v x i before after N. do 6 (split; [destruct v; try destruct N; reflexivity|]).
  intros F.
  assert (L : forall better l best, Forall number l -> extremum_loop better best (l ++ v :: rev before) = Err EType).
  { intros better. induction l as [|a l IH]; intros best G; cbn [app].
    - destruct v; try destruct N; reflexivity.
    - inversion G as [|? ? Na Gl]; subst. destruct a; cbn [number] in Na; try (exfalso; exact Na); cbn [extremum_loop]; [rewrite (f_eqb_refl _ Na); cbn [negb]; apply IH, Gl|apply IH, Gl]. }
  unfold math_max, math_min. rewrite rev_app_distr. cbn [rev]. rewrite <- app_assoc. cbn [app]. split; apply L; apply Forall_rev; exact F.
Qed.
Print Assumptions C33_type_errors.
