(** * Base: outcomes and machine integers shared by every model file.
    Models C conventions rather than one file of /repo: [size_t] is an unsigned 64-bit
    integer, [yasl_int] is [int64_t] (/repo/yasl_conf.h, yasl_plat.h). *)
From Coq Require Export ZArith List Lia Bool Arith.
From Coq Require Export ZifyBool ZifyNat ZifyN.
Export ListNotations.
Open Scope Z_scope.

(** Error codes of /repo/yasl_error.h:8-21 (YASL_SUCCESS and YASL_MODULE_SUCCESS are not errors). *)
Inductive yerr : Set :=
| EError | EInit | ESyntax | EType | EDivZero | EValue | ETooManyVar | EPlatform | EAssert
| EStackOverflow.

(** Result of running a piece of C code.
    - [Ok a]      normal return;
    - [Err e]     a YASL error was raised with code [e];
    - [UB]        undefined behaviour (out-of-bounds access, use of freed memory,
                  signed overflow, uninitialised read, size_t underflow fed to memcpy/malloc);
    - [NoFuel]    the loop did not finish within the given fuel. *)
Inductive outcome (A : Type) : Type :=
| Ok (a : A)
| Err (e : yerr)
| UB
| NoFuel.
Arguments Ok {A} a. Arguments Err {A} e. Arguments UB {A}. Arguments NoFuel {A}.

Definition bind {A B} (x : outcome A) (f : A -> outcome B) : outcome B :=
  match x with Ok a => f a | Err e => Err e | UB => UB | NoFuel => NoFuel end.
Notation "'do' x <- e ; f" := (bind e (fun x => f))
  (at level 60, x pattern, e at level 60, f at level 60, right associativity).

Definition omap {A B} (f : A -> B) (x : outcome A) : outcome B :=
  match x with Ok a => Ok (f a) | Err e => Err e | UB => UB | NoFuel => NoFuel end.

(** C unsigned 64-bit arithmetic (size_t, uint64_t): wrap modulo 2^64. *)
Definition two64 : Z := 18446744073709551616.
Definition u64 (z : Z) : Z := z mod two64.

(** int64_t: the representable range, and the two's complement reading of 64 bits. *)
Definition int_min : Z := -9223372036854775808.
Definition int_max : Z := 9223372036854775807.
Definition in_i64 (z : Z) : Prop := int_min <= z <= int_max.
Definition in_i64b (z : Z) : bool := (int_min <=? z) && (z <=? int_max).
Definition i64 (z : Z) : Z := (z + 9223372036854775808) mod two64 - 9223372036854775808.
Definition in_u64 (z : Z) : Prop := 0 <= z < two64.

(** [(signed char) b] for a byte 0..255. *)
Definition schar (b : Z) : Z := if b <? 128 then b else b - 256.

Definition is_byte (b : Z) : Prop := 0 <= b < 256.
Definition is_byteb (b : Z) : bool := (0 <=? b) && (b <? 256).

(** Array read with an integer index; [None] when out of bounds. *)
Definition nthZ {A} (l : list A) (i : Z) : option A :=
  if i <? 0 then None else nth_error l (Z.to_nat i).
