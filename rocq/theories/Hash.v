(** * Hashing: model of /repo/util/hash_function.c *)
From Verif Require Import Base Value.

(** PRIME_A and PRIME_B, /repo/util/prime.h. *)
Definition PRIME_A : Z := 37.
Definition PRIME_B : Z := 67.

(** String branch of [hash_function], /repo/util/hash_function.c:8-15. [str[i]] is a (signed) char,
    converted to size_t by the xor. *)
Fixpoint hash_str (s : list Z) (a m hash : Z) : Z :=
  match s with
  | [] => hash
  | c :: s' => hash_str s' a m (u64 (Z.lxor (u64 (hash * a)) (u64 (schar c))) mod m)
  end.

(** [hash_function], /repo/util/hash_function.c:6-24. *)
Definition hash_function (v : value) (a m : Z) : Z :=
  match v with
  | VStr s => hash_str s a m 0
  | _ =>
    let iv := raw_bits v in
    let ll := Z.land iv 65535 in
    let lu := Z.shiftr (Z.land iv 4294901760) 16 in
    let ul := Z.shiftr (Z.land iv 281470681743360) 32 in
    let uu := Z.shiftr (Z.land iv 18446462598732840960) 48 in
    (u64 (Z.lxor (Z.lxor (Z.lxor (u64 (a * ll * ll * ll * ll)) (u64 (a * a * lu * lu * lu)))
                (u64 (a * a * a * ul * ul))) (u64 (a * a * a * a * uu)))) mod m
  end.

(** [get_hash], /repo/util/hash_function.c:26-33. *)
Definition get_hash (v : value) (num_buckets attempt : Z) : Z :=
  let hash_a := hash_function v PRIME_A num_buckets in
  if attempt =? 0 then hash_a mod num_buckets
  else
    let hash_b := hash_function v PRIME_B num_buckets in
    u64 (hash_a + u64 (attempt * (hash_b + (if hash_b =? 0 then 1 else 0)))) mod num_buckets.
