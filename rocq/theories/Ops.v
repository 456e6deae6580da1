(** * Run-time operators on values: model of the operator functions of /repo/interpreter/VM.c:346-560
    and of their dispatch in [vm_executenext], VM.c:1395-1478. *)
From Verif Require Import Base Value.

(** What the operators take from outside the modelled core. Metamethod calls are represented by functions of
    their operands (a YASL-level method may also have side effects; those are not modelled). *)
Record world : Type := World {
  (** C library [pow] *)
  w_pow : float -> float -> float;
  (** result of the metamethod dispatch of a binary / unary operator (VM.c:307-330); includes the type error
      raised when there is no such method *)
  w_meta2 : Z -> value -> value -> outcome value;
  w_meta1 : Z -> value -> outcome value;
  (** [vm_stringify_top], VM.c:541-590 *)
  w_tostr : value -> outcome (list Z);
  (** whether two strings with these contents are the same object in memory *)
  w_strid : list Z -> list Z -> bool }.

(** Opcodes of the operators, /repo/opcode.h. *)
Inductive binop : Set :=
| BOr | BXor | BAnd | BAndNot | BShl | BShr | BAdd | BSub | BMul | BFdiv | BIdiv | BMod | BPow
| BCnct | BGt | BGe | BLt | BLe | BEq | BId.
Inductive unop : Set := UNeg | UPos | UNot | UBnot | ULen.

Definition binop_code (op : binop) : Z :=
  match op with
  | BOr => 0 | BXor => 1 | BAnd => 2 | BAndNot => 3 | BShl => 4 | BShr => 5 | BAdd => 6 | BSub => 7
  | BMul => 8 | BFdiv => 9 | BIdiv => 10 | BMod => 11 | BPow => 12 | BCnct => 13 | BGt => 14
  | BGe => 15 | BLt => 16 | BLe => 17 | BEq => 18 | BId => 19
  end.
Definition unop_code (op : unop) : Z :=
  match op with UNeg => 0 | UPos => 1 | UNot => 2 | UBnot => 3 | ULen => 4 end.

(** A signed 64-bit result; leaving the range is undefined behaviour in C. *)
Definition sint (z : Z) : outcome value := if in_i64b z then Ok (VInt z) else UB.

(** C conversion [(yasl_int) d]: truncation; undefined if the value does not fit. *)
Definition f_trunc (f : float) : option Z :=
  match f with
  | S754_zero _ => Some 0
  | S754_finite s m e =>
      let a := if 0 <=? e then Z.pos m * 2 ^ e else Z.pos m / 2 ^ (- e) in
      Some (if s then - a else a)
  | _ => None
  end.
Definition f_to_int (f : float) : outcome Z :=
  match f_trunc f with Some z => if in_i64b z then Ok z else UB | None => UB end.

(** The [INT_BINOP]s, VM.c:346-355, and [NUM_BINOP]s, VM.c:386-392, on ints. C99 6.5.7: a shift count outside
    0..63, or a left shift of a negative number or out of the range, is undefined; [>>] of a negative number is
    implementation-defined and taken to be arithmetic. C99 6.5.5: INT_MIN / -1 overflows. *)
Definition int_binop (op : binop) (a b : Z) : outcome value :=
  match op with
  | BOr => Ok (VInt (Z.lor a b))
  | BXor => Ok (VInt (Z.lxor a b))
  | BAnd => Ok (VInt (Z.land a b))
  | BAndNot => Ok (VInt (Z.land a (Z.lnot b)))
  | BShl => if (0 <=? b) && (b <? 64) && (0 <=? a) then sint (Z.shiftl a b) else UB
  | BShr => if (0 <=? b) && (b <? 64) then Ok (VInt (Z.shiftr a b)) else UB
  | BAdd => sint (a + b)
  | BSub => sint (a - b)
  | BMul => sint (a * b)
  | BIdiv => if b =? 0 then UB else sint (Z.quot a b)
  | BMod => if (b =? 0) || negb (in_i64b (Z.quot a b)) then UB else Ok (VInt (Z.rem a b))
  | _ => UB
  end.
(** The [FLOAT_BINOP]s. *)
Definition float_binop (op : binop) (a b : float) : outcome value :=
  match op with
  | BAdd => Ok (VFloat (f_add a b))
  | BSub => Ok (VFloat (f_sub a b))
  | BMul => Ok (VFloat (f_mul a b))
  | _ => UB
  end.

Section World.
Variable w : world.

(** [vm_int_binop], VM.c:369-385. *)
Definition vm_int_binop (op : binop) (a b : value) : outcome value :=
  match a, b with
  | VInt x, VInt y => int_binop op x y
  | _, _ => w_meta2 w (binop_code op) a b
  end.

(** [vm_num_binop], VM.c:398-418. *)
Definition vm_num_binop (op : binop) (a b : value) : outcome value :=
  match a, b with
  | VInt x, VInt y => int_binop op x y
  | _, _ => if is_num a && is_num b then float_binop op (get_num a) (get_num b)
            else w_meta2 w (binop_code op) a b
  end.

(** [vm_fdiv], VM.c:420-436. *)
Definition vm_fdiv (a b : value) : outcome value :=
  if is_num a && is_num b then Ok (VFloat (f_div (get_num a) (get_num b)))
  else w_meta2 w (binop_code BFdiv) a b.

(** [vm_pow], VM.c:438-448, and [int_pow], VM.c:394-396. *)
Definition vm_pow (a b : value) : outcome value :=
  match a, b with
  | VInt x, VInt y =>
      if y <? 0 then Ok (VFloat (w_pow w (f_of_int x) (f_of_int y)))
      else do r <- f_to_int (w_pow w (f_of_int x) (f_of_int y)); Ok (VInt r)
  | _, _ => if is_num a && is_num b then Ok (VFloat (w_pow w (get_num a) (get_num b)))
            else w_meta2 w (binop_code BPow) a b
  end.

(** O_IDIV and O_MOD, VM.c:1427-1441: the divisor is tested for int 0 first, whatever the dividend. *)
Definition vm_divmod (op : binop) (a b : value) : outcome value :=
  match b with
  | VInt y => if y =? 0 then Err EDivZero else vm_int_binop op a b
  | _ => vm_int_binop op a b
  end.

(** [COMP], VM.h:57-68, and [DEFINE_COMP], VM.c:519-539. *)
Definition comp_int (op : binop) (x y : Z) : bool :=
  match op with BGt => y <? x | BGe => y <=? x | BLt => x <? y | _ => x <=? y end.
Definition comp_float (op : binop) (x y : float) : bool :=
  match op with BGt => f_ltb y x | BGe => f_leb y x | BLt => f_ltb x y | _ => f_leb x y end.
Definition vm_comp (op : binop) (a b : value) : outcome value :=
  match a, b with
  | VStr s, VStr t => Ok (VBool (comp_int op (str_cmp s t) 0))
  | VInt x, VInt y => Ok (VBool (comp_int op x y))
  | _, _ => if is_num a && is_num b then Ok (VBool (comp_float op (get_num a) (get_num b)))
            else w_meta2 w (binop_code op) a b
  end.

(** [vm_EQ], VM.c:489-506. *)
Definition vm_eq (a b : value) : outcome value :=
  match a, b with
  | VUserData _, VUserData _ | VTable _, VTable _ | VList _, VList _ => w_meta2 w (binop_code BEq) a b
  | _, _ => Ok (VBool (is_equal a b))
  end.

(** O_ID, VM.c:1474-1478: same tag and same 64 bits; for strings these are the object's address. Addresses of
    containers and functions are the model's [p]. *)
Definition same_bits (a b : value) : bool :=
  match a, b with
  | VStr s, VStr t => w_strid w s t
  | VFloat x, VFloat y => f_bits x =? f_bits y
  | VUndef, VUndef | VEnd, VEnd => true
  | VBool x, VBool y => Bool.eqb x y
  | VInt x, VInt y => x =? y
  | VList p, VList q | VTable p, VTable q | VFn p, VFn q | VClosure p, VClosure q | VCfn p, VCfn q
  | VUserPtr p, VUserPtr q | VUserData p, VUserData q => p =? q
  | _, _ => false
  end.
Definition vm_id (a b : value) : outcome value := Ok (VBool (same_bits a b)).

(** [vm_CNCT], VM.c:508-517: the right operand is converted first. *)
Definition vm_cnct (a b : value) : outcome value :=
  do y <- w_tostr w b; do x <- w_tostr w a; Ok (VStr (x ++ y)).

(** The binary operator cases of [vm_executenext], VM.c:1395-1478. *)
Definition exec_binop (op : binop) (a b : value) : outcome value :=
  match op with
  | BOr | BXor | BAnd | BAndNot | BShl | BShr => vm_int_binop op a b
  | BAdd | BSub | BMul => vm_num_binop op a b
  | BFdiv => vm_fdiv a b
  | BIdiv | BMod => vm_divmod op a b
  | BPow => vm_pow a b
  | BCnct => vm_cnct a b
  | BGt | BGe | BLt | BLe => vm_comp op a b
  | BEq => vm_eq a b
  | BId => vm_id a b
  end.

(** [vm_num_unop]/[vm_int_unop]/[vm_len_unop], VM.c:450-487, and O_NOT, VM.c:1451-1453. *)
Definition exec_unop (op : unop) (a : value) : outcome value :=
  match op, a with
  | UNeg, VInt x => sint (- x)
  | UNeg, VFloat f => Ok (VFloat (f_opp f))
  | UPos, VInt x => Ok (VInt x)
  | UPos, VFloat f => Ok (VFloat f)
  | UBnot, VInt x => Ok (VInt (Z.lnot x))
  | UNot, _ => Ok (VBool (is_falsey a))
  | ULen, VStr s => Ok (VInt (Z.of_nat (length s)))
  | _, _ => w_meta1 w (unop_code op) a
  end.
End World.
