(** * Variable-width integers: model of /repo/util/varint.c *)
From Verif Require Import Base.

(** [vint_encode], /repo/util/varint.c:3-11. The C function writes through [buff] and
    returns the number of bytes; the model returns the bytes written, so the number is their
    length.  [fuel] bounds the recursion depth; exhausting it is the distinct outcome [NoFuel].
    [(unsigned char)] truncation to 8 bits is the [mod 256]. *)
Fixpoint vint_encode (fuel : nat) (val : Z) : outcome (list Z) :=
  match fuel with
  | O => NoFuel
  | S k =>
    if val <=? 127 then Ok [val mod 256]
    else
      let tmp := (Z.lor (Z.land val 127) (Z.shiftl 1 7)) mod 256 in
      do rest <- vint_encode k (Z.shiftr val 7);
      Ok (tmp :: rest)
  end.

(** [vint_decode], /repo/util/varint.c:13-19. Running off the end of the buffer is [UB];
    [<< 7] wraps modulo 2^64. *)
Fixpoint vint_decode (buff : list Z) : outcome Z :=
  match buff with
  | [] => UB
  | b :: buff' =>
    if Z.land b (Z.shiftl 1 7) =? 0 then Ok b
    else
      let tmp := (Z.land b 127) mod 256 in
      do r <- vint_decode buff';
      Ok (Z.lor tmp (u64 (Z.shiftl r 7)))
  end.

(** [vint_next], /repo/util/varint.c:21-24: the remaining buffer after one integer. *)
Fixpoint vint_next (buff : list Z) : outcome (list Z) :=
  match buff with
  | [] => UB
  | b :: buff' => if Z.land b (Z.shiftl 1 7) =? 0 then Ok buff' else vint_next buff'
  end.
