(** C07: capacities are primes. *)
From Coq Require Import Znumtheory.
From Verif Require Import Base Prime PrimeProofs Table.

(** Whatever [floor(sqrt(x))] the C library computes, provided it lies between the true integer square
    root and x: the answer of the primality test is right, for numbers of any size. *)
Theorem C07_is_prime_correct : forall fsqrt fuel x b,
  (forall y, 4 <= y -> Z.sqrt y <= fsqrt y < y) ->
  is_prime fsqrt fuel x = Ok b -> (b = true <-> prime x).
Proof. exact is_prime_correct. Qed.
Print Assumptions C07_is_prime_correct.

(** ... and the test always answers (never UB or an error) once its trial divisors are exhausted. *)
Theorem C07_is_prime_total : forall fsqrt fuel x,
  fsqrt x < Z.of_nat fuel -> (1 <= fuel)%nat -> exists b, is_prime fsqrt fuel x = Ok b.
Proof. exact is_prime_total. Qed.
Print Assumptions C07_is_prime_total.

(** The capacity chosen is the least prime not below the request. *)
Theorem C07_next_prime_correct : forall fsqrt ifuel fuel x p,
  (forall y, 4 <= y -> Z.sqrt y <= fsqrt y < y) ->
  next_prime fsqrt ifuel fuel x = Ok p ->
  prime p /\ x <= p /\ (forall q, x <= q < p -> ~ prime q).
Proof. exact (fun f i n x p H => next_prime_correct f i n H x p). Qed.
Print Assumptions C07_next_prime_correct.

(** The search for a capacity terminates for every request. *)
Theorem C07_next_prime_total : forall fsqrt x,
  (forall y, 4 <= y -> Z.sqrt y <= fsqrt y < y) ->
  exists ifuel fuel p, next_prime fsqrt ifuel fuel x = Ok p.
Proof. exact next_prime_total. Qed.
Print Assumptions C07_next_prime_total.

(** Every freshly allocated table has the least prime capacity not below its base size, all slots empty. *)
Theorem C07_table_capacity : forall base t, table_new_sized base = Ok t ->
  prime (t_size t) /\ base <= t_size t /\ (forall q, base <= q < t_size t -> ~ prime q)
  /\ t_items t = repeat EMPTY (Z.to_nat (t_size t)).
Proof. exact table_capacity. Qed.
Print Assumptions C07_table_capacity.

Example C07_nonvacuous : (forall y, 4 <= y -> Z.sqrt y <= Z.sqrt y < y) /\
  next_prime Z.sqrt 100 100 200 = Ok 211 /\ is_prime Z.sqrt 100 40401 = Ok false /\ is_prime Z.sqrt 200 44521 = Ok false
  /\ is_prime Z.sqrt 200 44519 = Ok true /\ omap t_size (table_new_sized 60) = Ok 61.
Proof. split; [exact sqrt_ok_Zsqrt|]. vm_compute. auto. Qed.
