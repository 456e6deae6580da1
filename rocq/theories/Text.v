(** * Text of ints, parsing of ints, and echo. Bytes are [Z]; C strings are byte lists without their terminating NUL. *)
From Verif Require Import Base Value.

(** ** C library. [isspace], [isalpha] in the C locale. *)
Definition is_space (c : Z) : bool := (c =? 32) || ((9 <=? c) && (c <=? 13)).
Definition is_alpha (c : Z) : bool := ((65 <=? c) && (c <=? 90)) || ((97 <=? c) && (c <=? 122)).
(** Value of a digit or letter; 99 for any other character. *)
Definition digit_of (c : Z) : Z :=
  if (48 <=? c) && (c <=? 57) then c - 48 else if (65 <=? c) && (c <=? 90) then c - 55 else if (97 <=? c) && (c <=? 122) then c - 87 else 99.
(** The digits at the head of [s] in the given base: number of digits read, value, and the rest. *)
Fixpoint read_digits (base acc : Z) (s : list Z) : nat * Z * list Z :=
  match s with
  | c :: s' => if digit_of c <? base then let '(n, v, r) := read_digits base (acc * base + digit_of c) s' in (S n, v, r) else (O, acc, s)
  | [] => (O, acc, [])
  end.
Fixpoint skip_space (s : list Z) : list Z := match s with c :: s' => if is_space c then skip_space s' else s | [] => [] end.
(** [strtoll(s, &end, base)]: the (saturated) value and the bytes from [end] on. Without a digit, [end == s]. The optional
    "0x" is accepted in base 16; no "0b" prefix (C11). *)
Definition strtoll (base : Z) (s : list Z) : Z * list Z :=
  let s1 := skip_space s in
  let '(neg, s2) := match s1 with c :: r => if c =? 45 then (true, r) else if c =? 43 then (false, r) else (false, s1) | [] => (false, s1) end in
  let s3 := match s2 with
            | z :: x :: d :: r => if (base =? 16) && (z =? 48) && ((x =? 120) || (x =? 88)) && (digit_of d <? 16) then d :: r else s2
            | _ => s2 end in
  let '(n, v, r) := read_digits base 0 s3 in
  match n with
  | O => (0, s)
  | S _ => ((if neg then Z.max int_min (- v) else Z.min int_max v), r)
  end.
(** [snprintf(.., "%" PRId64, n)]. 20 digits are enough for 64 bits. *)
Fixpoint dec_digits (fuel : nat) (n : Z) (acc : list Z) : list Z :=
  match fuel with
  | O => acc
  | S f => if n <? 10 then (48 + n) :: acc else dec_digits f (n / 10) ((48 + n mod 10) :: acc)
  end.
Definition print_i64 (n : Z) : list Z := if n <? 0 then 45 :: dec_digits 20 (- n) [] else dec_digits 20 n [].

(** ** [parseint64], /repo/data-structures/YASL_String.c:170-183, on a buffer without NUL: the result and [*ok]. *)
Definition parseint64 (s : list Z) : Z * bool :=
  let '(v, e) := match s with
                 | c0 :: c1 :: ((_ :: _) as r) =>
                     if (c0 =? 48) && ((c1 =? 120) || (c1 =? 88)) then strtoll 16 r
                     else if (c0 =? 48) && ((c1 =? 98) || (c1 =? 66)) then strtoll 2 r else strtoll 10 s
                 | _ => strtoll 10 s end in
  match e with [] => (v, true) | _ => (0, false) end.
(** The buffer as [strlen] and [strtoll] see it. *)
Fixpoint cstr (s : list Z) : list Z := match s with c :: s' => if c =? 0 then [] else c :: cstr s' | [] => [] end.
Definition strip_sep (s : list Z) : list Z := filter (fun c => negb (c =? 95)) s.
(** [YASL_String_toint], YASL_String.c:218-266, and [str_toint], /repo/interpreter/str_methods.c:55-59. [YASL_ASSERT] is
    empty unless YASL_DEBUG is defined (/repo/debug.h:30-35): a buffer that does not parse gives 0. *)
Definition str_toint (s : list Z) : Z :=
  if (length s <=? 2)%nat then fst (parseint64 (cstr s))
  else match s with
       | c0 :: c1 :: r => if (c0 =? 48) && is_alpha c1 then fst (parseint64 (cstr (c0 :: c1 :: strip_sep r))) else fst (parseint64 (cstr (strip_sep s)))
       | _ => fst (parseint64 (cstr (strip_sep s)))
       end.
(** [int_tostr], /repo/interpreter/int_methods.c:27-35. *)
Definition int_tostr (n : Z) : list Z := print_i64 n.
(** [get_int], /repo/compiler/parser.c:1072-1081: the value of an int literal's text. *)
Definition get_int (s : list Z) : Z :=
  match s with
  | c0 :: c1 :: r => if c1 =? 120 then fst (strtoll 16 r) else if c1 =? 98 then fst (strtoll 2 r) else fst (strtoll 10 s)
  | _ => fst (strtoll 10 s)
  end.

(** ** tostr of the primitive values other than floats: [undef_tostr] (undef_methods.c:6), [bool_tostr] (bool_methods.c:7),
    [int_tostr], [str_tostr] (str_methods.c:67). *)
Definition prim_tostr (v : value) : option (list Z) :=
  match v with
  | VUndef => Some [117; 110; 100; 101; 102]
  | VBool true => Some [116; 114; 117; 101]
  | VBool false => Some [102; 97; 108; 115; 101]
  | VInt n => Some (int_tostr n)
  | VStr s => Some s
  | _ => None
  end.

(** ** Echo. [io_str_strip_char], /repo/util/IO.c:31-56 (without SECURE_SCRATCH): [n] iterations from index [i]; a read or a
    write outside its array is undefined behaviour. *)
Definition wr (l : list Z) (i : nat) (v : Z) : outcome (list Z) := if (i <? length l)%nat then Ok (firstn i l ++ v :: skipn (S i) l) else UB.
Definition rdb (l : list Z) (i : nat) : outcome Z := match nth_error l i with Some c => Ok c | None => UB end.
Fixpoint strip_loop (n i sc dc ct : nat) (dest src : list Z) (rem : Z) : outcome (nat * list Z) :=
  match n with
  | O => Ok (ct, dest)
  | S n' => do c <- rdb src i;
            if c =? rem then strip_loop n' (S i) (S sc) dc ct dest src rem
            else do x <- rdb src sc; do dest' <- wr dest dc x; strip_loop n' (S i) (S sc) (S dc) (S ct) dest' src rem
  end.
(** [printf("%.*s\n", k, dest)]: at most [k] bytes, up to the first NUL; reading past the array is undefined. *)
Fixpoint print_s (k : nat) (l : list Z) : outcome (list Z) :=
  match k with
  | O => Ok []
  | S k' => match l with c :: l' => if c =? 0 then Ok [] else omap (cons c) (print_s k' l') | [] => UB end
  end.
Definition scratch_size : nat := 1024.
(** [vm_ECHO], /repo/interpreter/VM.c:1303-1323, after the value has been converted: what is written to the output. [scratch]:
    the state's scratch array; [heap]: the contents of a fresh block of the given size. Lengths below 2^31 ([(int)] casts). *)
Definition vm_echo (scratch : list Z) (heap : nat -> list Z) (s : list Z) : outcome (list Z) :=
  let dest := if (scratch_size <? length s)%nat then heap (length s) else scratch in
  do (copied, dest') <- strip_loop (length s) 0 0 0 0 dest s 0;
  do t <- print_s copied dest'; Ok (t ++ [10]).
