(** C01: variable-length integers. *)
From Verif Require Import Base Varint VarintProofs.

(** Every unsigned 64-bit value has an encoding of 1..10 bytes, of minimal length, which is decoded
    back to it and skipped exactly, whatever bytes follow. *)
Theorem C01_varint_roundtrip : forall v, in_u64 v ->
  exists bs, (forall fuel, (10 <= fuel)%nat -> vint_encode fuel v = Ok bs)
    /\ Forall is_byte bs
    /\ (1 <= length bs <= 10)%nat
    /\ (forall rest, vint_decode (bs ++ rest) = Ok v)
    /\ (forall rest, vint_next (bs ++ rest) = Ok rest)
    /\ v < 2 ^ (7 * Z.of_nat (length bs))
    /\ (length bs = 1%nat \/ 2 ^ (7 * (Z.of_nat (length bs) - 1)) <= v).
Proof. exact vint_roundtrip. Qed.
Print Assumptions C01_varint_roundtrip.

Example C01_nonvacuous : in_u64 18446744073709551615 /\ vint_encode 10 300 = Ok [172; 2].
Proof. split; [split; [discriminate|reflexivity]|reflexivity]. Qed.
