(** * Primes: model of /repo/util/prime.c *)
From Verif Require Import Base.

(** [PRIMES_UNDER_200], /repo/util/prime.c:6. *)
Definition PRIMES_UNDER_200 : list Z :=
  [2;3;5;7;11;13;17;19;23;29;31;37;41;43;47;53;59;61;67;71;73;79;83;89;97;101;103;107;109;113;
   127;131;137;139;149;151;157;163;167;173;179;181;191;193;197;199].

(** The first loop of [is_prime], /repo/util/prime.c:12-14: [Some b] when it returns [b],
    [None] when it falls through. *)
Fixpoint small_divisor (ps : list Z) (x : Z) : option bool :=
  match ps with
  | [] => None
  | p :: ps' => if x mod p =? 0 then Some (x =? p) else small_divisor ps' x
  end.

(** The second loop, /repo/util/prime.c:15-19: [i] runs over odd numbers while [i <= bound]. *)
Fixpoint odd_loop (fuel : nat) (i bound x : Z) : outcome bool :=
  match fuel with
  | O => NoFuel
  | S k => if i <=? bound then (if x mod i =? 0 then Ok false else odd_loop k (i + 2) bound x) else Ok true
  end.

(** [is_prime], /repo/util/prime.c:9-21. [fsqrt x] stands for [floor(sqrt((double) x))]
    (line 15), left abstract because it is computed by the C library; theorems only assume
    [Z.sqrt x <= fsqrt x < x]. *)
Definition is_prime (fsqrt : Z -> Z) (fuel : nat) (x : Z) : outcome bool :=
  if x <? 2 then Ok false
  else if x <? 4 then Ok true
  else match small_divisor PRIMES_UNDER_200 x with
       | Some b => Ok b
       | None => odd_loop fuel 201 (fsqrt x) x
       end.

(** [next_prime], /repo/util/prime.c:23-26: [while (!is_prime(x++)); return x - 1]. [fuel]
    bounds this loop, [ifuel] the inner one. size_t wrap-around of [x] is not modelled. *)
Fixpoint next_prime (fsqrt : Z -> Z) (ifuel fuel : nat) (x : Z) : outcome Z :=
  match fuel with
  | O => NoFuel
  | S k => do p <- is_prime fsqrt ifuel x;
           if p then Ok x else next_prime fsqrt ifuel k (x + 1)
  end.
