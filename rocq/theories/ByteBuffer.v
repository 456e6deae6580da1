(** * Growing byte buffers: model of /repo/data-structures/YASL_ByteBuffer.c *)
From Verif Require Import Base Bytes Varint.

(** [bb_bytes] are the first [count] bytes of the block, [bb_size] the block's size. The growth computations
    are assumed not to wrap around 2^64. *)
Record bbuf : Type := BB { bb_size : Z; bb_bytes : list Z }.
Definition bb_count (b : bbuf) : Z := Z.of_nat (length (bb_bytes b)).

(** [YASL_ByteBuffer_new] / [NEW_BB], YASL_ByteBuffer.c:9-15, YASL_ByteBuffer.h:14-18. *)
Definition bb_new (size : Z) : bbuf := BB size [].

(** Writing [bs] at [count] in a block of [size] bytes: out of bounds is UB. *)
Definition bb_write (size : Z) (b : bbuf) (bs : list Z) : outcome bbuf :=
  if bb_count b + Z.of_nat (length bs) <=? size then Ok (BB size (bb_bytes b ++ bs)) else UB.

(** [YASL_ByteBuffer_extend], YASL_ByteBuffer.c:22-26; [add_float] and [add_int], lines 45-57, and [add_vint],
    lines 33-42, have the same shape. *)
Definition bb_extend (b : bbuf) (bs : list Z) : outcome bbuf :=
  let n := Z.of_nat (length bs) in
  let size := if bb_size b <? bb_count b + n then (bb_count b + n) * 2 else bb_size b in
  bb_write size b bs.
(** [YASL_ByteBuffer_add_byte], YASL_ByteBuffer.c:28-31. *)
Definition bb_add_byte (b : bbuf) (byte : Z) : outcome bbuf :=
  let size := if bb_size b <=? bb_count b then bb_count b * 2 else bb_size b in
  bb_write size b [byte].
Definition bb_add_int (b : bbuf) (v : Z) : outcome bbuf := bb_extend b (enc8 v).
Definition bb_add_vint (b : bbuf) (v : Z) : outcome bbuf :=
  do bs <- vint_encode 11 v; if 12 <? Z.of_nat (length bs) then UB else bb_extend b bs.
(** [YASL_ByteBuffer_rewrite_int_fast], YASL_ByteBuffer.c:59-62; the assertion of line 60 is the caller's duty. *)
Definition bb_rewrite_int (b : bbuf) (index v : Z) : outcome bbuf :=
  if (0 <=? index) && (index + 8 <=? bb_count b) then Ok (BB (bb_size b) (rewrite8 (bb_bytes b) (Z.to_nat index) v)) else UB.

Inductive bbop : Type :=
| BBByte (b : Z) | BBInt (v : Z) | BBVint (v : Z) | BBExtend (bs : list Z) | BBRewrite (index v : Z).
Definition bb_step (b : bbuf) (o : bbop) : outcome bbuf :=
  match o with
  | BBByte x => bb_add_byte b x
  | BBInt v => bb_add_int b v
  | BBVint v => bb_add_vint b v
  | BBExtend bs => bb_extend b bs
  | BBRewrite i v => bb_rewrite_int b i v
  end.
Fixpoint bb_run (b : bbuf) (ops : list bbop) : outcome bbuf :=
  match ops with [] => Ok b | o :: os => do b' <- bb_step b o; bb_run b' os end.
