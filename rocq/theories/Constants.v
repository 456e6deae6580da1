(** * The constant pool: model of the interning functions of /repo/compiler/compiler.c:725-771, of the layout of
    a compiled program (compiler.c:269-310) and of its loading by [vm_setupconstants], /repo/interpreter/VM.c:1325-1362. *)
From Verif Require Import Base Bytes Value Table.

(** The pool: [compiler->strings] (a hash table from literal to index) and [compiler->header] after its first
    24 bytes. *)
Record cpool : Type := CP { cp_tab : table; cp_hdr : list Z }.

(** NEW_COMPILER, compiler.h:18-37, and [header->count = 24], yasl.c:27/46/104. *)
Definition pool_new : outcome cpool := do t <- table_new; Ok (CP t []).

(** [enum Constants], /repo/opcode.h:99-104. *)
Definition C_FLOAT : Z := 0.
Definition C_INT_1 : Z := 1.
Definition C_INT_8 : Z := 2.
Definition C_STR : Z := 3.

(** The bytes appended to the header for one new literal, compiler.c:731-733, 746-747, 761-767. *)
Definition enc_const (v : value) : list Z :=
  match v with
  | VStr s => C_STR :: enc8 (Z.of_nat (length s)) ++ s
  | VFloat f => C_FLOAT :: enc8 (f_bits f)
  | VInt i => if (-128 <? i) && (i <? 128) then [C_INT_1; i mod 256] else C_INT_8 :: enc8 i
  | _ => []
  end.

(** [compiler_intern_string], [_float], [_int], compiler.c:725-771: the three differ only in the literal's type. *)
Definition intern (fuel : nat) (p : cpool) (v : value) : outcome (Z * cpool) :=
  do r <- table_search fuel (cp_tab p) v;
  if is_end r then
    let index := t_count (cp_tab p) in
    do t' <- insert_fast fuel (cp_tab p) v (VInt index);
    Ok (index, CP t' (cp_hdr p ++ enc_const v))
  else Ok (raw_bits r, p).

(** All the literals of a program, in the order the compiler meets them. *)
Fixpoint intern_all (fuel : nat) (p : cpool) (vs : list value) : outcome (list Z * cpool) :=
  match vs with
  | [] => Ok ([], p)
  | v :: vs' => do r <- intern fuel p v; do r' <- intern_all fuel (snd r) vs'; Ok (fst r :: fst r', snd r')
  end.

(** [return_bytes], compiler.c:269-310: header (three ints, then the constants), code, O_HALT, line table. *)
Definition O_HALT : Z := 15.
Definition return_bytes (p : cpool) (code lines : list Z) : list Z :=
  let hc := 24 + Z.of_nat (length (cp_hdr p)) in
  enc8 hc ++ enc8 (Z.of_nat (length code) + hc + 1) ++ enc8 (t_count (cp_tab p)) ++ cp_hdr p ++ code ++ [O_HALT] ++ lines.

(** The double with these 64 bits. *)
Definition f_of_bits (b : Z) : float :=
  let b := b mod two64 in
  let s := 9223372036854775808 <=? b in
  let r := b mod 9223372036854775808 in
  let e := r / 4503599627370496 in
  let m := r mod 4503599627370496 in
  if e =? 2047 then (if m =? 0 then S754_infinity s else S754_nan)
  else if e =? 0 then match m with Z.pos p => S754_finite s p (-1074) | _ => S754_zero s end
  else match m + 4503599627370496 with Z.pos p => S754_finite s p (e - 1075) | _ => S754_nan end.

(** Eight bytes at the front of the rest of the program; reading past the end is UB. *)
Definition take8 (bs : list Z) : outcome (Z * list Z) :=
  if (length bs <? 8)%nat then UB else Ok (dec8 (firstn 8 bs), skipn 8 bs).

(** One iteration of the loop of [vm_setupconstants], VM.c:1330-1360. An unknown tag leaves the entry
    uninitialised (UB here). *)
Definition read_const (bs : list Z) : outcome (value * list Z) :=
  match bs with
  | [] => UB
  | tag :: bs1 =>
    if tag =? C_STR then
      do r <- take8 bs1;
      if (fst r <? 0) || (Z.of_nat (length (snd r)) <? fst r) then UB
      else Ok (VStr (firstn (Z.to_nat (fst r)) (snd r)), skipn (Z.to_nat (fst r)) (snd r))
    else if tag =? C_INT_1 then
      match bs1 with [] => UB | b :: bs2 => Ok (VInt (schar b), bs2) end
    else if tag =? C_INT_8 then do r <- take8 bs1; Ok (VInt (fst r), snd r)
    else if tag =? C_FLOAT then do r <- take8 bs1; Ok (VFloat (f_of_bits (fst r)), snd r)
    else UB
  end.
Fixpoint read_consts (n : nat) (bs : list Z) : outcome (list value) :=
  match n with
  | O => Ok []
  | S n' => do r <- read_const bs; do l <- read_consts n' (snd r); Ok (fst r :: l)
  end.
(** [vm_setupconstants], VM.c:1325-1362. *)
Definition setup_constants (bc : list Z) : outcome (list value) :=
  do n <- read8 bc 16; read_consts (Z.to_nat n) (skipn 24 bc).
(** The entry point, yasl.c:134/154: the first int of the program. *)
Definition entry_point (bc : list Z) : outcome Z := read8 bc 0.
