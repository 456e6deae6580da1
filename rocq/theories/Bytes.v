(** * Eight-byte integers as stored by memcpy (little-endian host), /repo/data-structures/YASL_ByteBuffer.c:50-61
    and /repo/interpreter/VM.c:289-294. *)
From Verif Require Import Base.

(** [n] little-endian bytes of [z]. *)
Fixpoint le_bytes (n : nat) (z : Z) : list Z :=
  match n with O => [] | S k => z mod 256 :: le_bytes k (z / 256) end.
Fixpoint le_value (bs : list Z) : Z :=
  match bs with [] => 0 | b :: bs' => b + 256 * le_value bs' end.

(** memcpy of a [yasl_int] into 8 bytes, and back. *)
Definition enc8 (z : Z) : list Z := le_bytes 8 (u64 z).
Definition dec8 (bs : list Z) : Z := i64 (le_value bs).

(** [vm_read_int], VM.c:289-294: the int stored at [pc]; reading past the end is UB. *)
Definition read8 (code : list Z) (pc : Z) : outcome Z :=
  if (0 <=? pc) && (pc + 8 <=? Z.of_nat (length code)) then Ok (dec8 (firstn 8 (skipn (Z.to_nat pc) code))) else UB.

(** [YASL_ByteBuffer_rewrite_int_fast], YASL_ByteBuffer.c:59-62, on the contents. *)
Definition rewrite8 (bs : list Z) (index : nat) (v : Z) : list Z :=
  firstn index bs ++ enc8 v ++ skipn (index + 8) bs.
