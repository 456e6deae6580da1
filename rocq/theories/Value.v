(** * Values: model of /repo/interpreter/YASL_Object.{h,c} *)
From Coq Require Export SpecFloat.
From Verif Require Import Base.

(** ** IEEE-754 doubles ([yasl_float] = [double], /repo/yasl_conf.h:38).
    Coq's axiom-free [spec_float] with 53 bits of precision; all NaNs are one value. *)
Definition fprec : Z := 53.
Definition femax : Z := 1024.
Definition float := spec_float.
Definition f_add : float -> float -> float := SFadd fprec femax.
Definition f_sub : float -> float -> float := SFsub fprec femax.
Definition f_mul : float -> float -> float := SFmul fprec femax.
Definition f_div : float -> float -> float := SFdiv fprec femax.
Definition f_opp : float -> float := SFopp.
(** C's [==], [<], [<=] on doubles (all false when an operand is NaN). *)
Definition f_eqb : float -> float -> bool := SFeqb.
Definition f_ltb : float -> float -> bool := SFltb.
Definition f_leb : float -> float -> bool := SFleb.
(** C's conversion [(double) i] of a 64-bit integer: round to nearest even. *)
Definition f_of_int (i : Z) : float := binary_normalize fprec femax i 0 false.
Definition f_is_nan (f : float) : bool := match f with S754_nan => true | _ => false end.

(** The 64 bits of a double, as read through the union's [ival] member. The sign and payload of a
    NaN are fixed arbitrarily (0x7FF8000000000000); nothing proved depends on them. *)
Definition f_bits (f : float) : Z :=
  match f with
  | S754_zero s => if s then 9223372036854775808 else 0
  | S754_infinity s => (if s then 9223372036854775808 else 0) + 9218868437227405312
  | S754_nan => 9221120237041090560
  | S754_finite s m e =>
      (if s then 9223372036854775808 else 0)
      + (if Z.pos m <? 4503599627370496 then Z.pos m
         else (e + 1075) * 4503599627370496 + (Z.pos m - 4503599627370496))
  end.

(** ** [struct YASL_Object], /repo/interpreter/YASL_Object.h:38-50 and /repo/yasl_types.h:8-26.
    A string is represented by its contents (bytes 0..255); [Str.v] models the buffer representation.
    Containers, functions, userdata and user pointers are addresses. The weak-reference tags
    Y_STR_W/Y_LIST_W/Y_TABLE_W/Y_USERDATA_W are never created by the code and are omitted. *)
Inductive value : Type :=
| VEnd
| VUndef
| VFloat (f : float)
| VInt (i : Z)
| VBool (b : bool)
| VStr (s : list Z)
| VList (p : Z)
| VTable (p : Z)
| VFn (p : Z)
| VClosure (p : Z)
| VCfn (p : Z)
| VUserPtr (p : Z)
| VUserData (p : Z).

(** The [type] tag, /repo/yasl_types.h:8-26. *)
Inductive ytype : Set :=
| TEnd | TUndef | TFloat | TInt | TBool | TStr | TList | TTable | TFn | TClosure | TCfn | TUserPtr
| TUserData.

Definition vtype (v : value) : ytype :=
  match v with
  | VEnd => TEnd | VUndef => TUndef | VFloat _ => TFloat | VInt _ => TInt | VBool _ => TBool
  | VStr _ => TStr | VList _ => TList | VTable _ => TTable | VFn _ => TFn | VClosure _ => TClosure
  | VCfn _ => TCfn | VUserPtr _ => TUserPtr | VUserData _ => TUserData
  end.

Definition ytype_eqb (a b : ytype) : bool :=
  match a, b with
  | TEnd, TEnd | TUndef, TUndef | TFloat, TFloat | TInt, TInt | TBool, TBool | TStr, TStr
  | TList, TList | TTable, TTable | TFn, TFn | TClosure, TClosure | TCfn, TCfn
  | TUserPtr, TUserPtr | TUserData, TUserData => true
  | _, _ => false
  end.

Definition is_undef (v : value) : bool := match v with VUndef => true | _ => false end.
Definition is_end (v : value) : bool := match v with VEnd => true | _ => false end.
Definition is_num (v : value) : bool := match v with VInt _ | VFloat _ => true | _ => false end.
Definition is_str (v : value) : bool := match v with VStr _ => true | _ => false end.

(** [obj_getnum], /repo/interpreter/YASL_Object.h:146-148 (meaningful on numbers only). *)
Definition get_num (v : value) : float :=
  match v with VFloat f => f | VInt i => f_of_int i | _ => S754_nan end.

(** C's [memcmp] on [n] bytes, as -1/0/1 (only the sign is specified by C). The caller passes
    the first [n] bytes of both operands. *)
Fixpoint memcmp (a b : list Z) : Z :=
  match a, b with
  | x :: a', y :: b' => if x <? y then -1 else if y <? x then 1 else memcmp a' b'
  | _, _ => 0
  end.

(** [YASL_String_cmp], /repo/data-structures/YASL_String.c:22-34, on contents. *)
Definition str_cmp (l r : list Z) : Z :=
  let ll := length l in
  let rl := length r in
  if Nat.eqb ll rl then memcmp l r
  else if Nat.ltb ll rl then
    (let tmp := memcmp l (firstn ll r) in if tmp =? 0 then -1 else tmp)
  else
    (let tmp := memcmp (firstn rl l) r in if tmp =? 0 then 1 else tmp).

(** [yasl_object_cmp], /repo/interpreter/YASL_Object.c:55-79. The YASL_ASSERT of line 56 makes any
    other operand pair a caller error; the final [return 0] is kept. *)
Definition obj_cmp (a b : value) : Z :=
  match a, b with
  | VStr l, VStr r => str_cmp l r
  | _, _ =>
    if is_num a && is_num b then
      (if f_ltb (get_num a) (get_num b) then -1
       else if f_ltb (get_num b) (get_num a) then 1 else 0)
    else 0
  end.

(** [ishashable], /repo/interpreter/YASL_Object.c:81-90. *)
Definition is_hashable (v : value) : bool :=
  match v with
  | VUndef | VBool _ | VFloat _ | VInt _ | VStr _ | VUserPtr _ => true
  | _ => false
  end.

(** [isfalsey], /repo/interpreter/YASL_Object.c:92-106. *)
Definition is_falsey (v : value) : bool :=
  match v with
  | VUndef => true
  | VBool b => negb b
  | VStr s => Nat.eqb (length s) 0
  | VFloat f => negb (f_eqb f f)
  | _ => false
  end.

(** [isequal], /repo/interpreter/YASL_Object.c:108-136. The pointer test [left == right] of line
    112 is subsumed by content equality. *)
Definition is_equal (a b : value) : bool :=
  match a, b with
  | VStr l, VStr r => str_cmp l r =? 0
  | VUndef, VUndef => true
  | VBool x, VBool y => Bool.eqb x y
  | VInt x, VInt y => x =? y
  | VInt _, VFloat _ | VFloat _, VInt _ | VFloat _, VFloat _ => f_eqb (get_num a) (get_num b)
  | VUserPtr p, VUserPtr q => p =? q
  | _, _ => false
  end.

(** [isequal_typed], /repo/data-structures/YASL_Table.c:98-100. *)
Definition is_equal_typed (a b : value) : bool := ytype_eqb (vtype a) (vtype b) && is_equal a b.

(** [value.ival] read through the union (/repo/interpreter/YASL_Object.h:40-49) for the
    hashable, non-string values. *)
Definition raw_bits (v : value) : Z :=
  match v with
  | VFloat f => f_bits f
  | VInt i => i
  | VBool b => if b then 1 else 0
  | VUserPtr p => p
  | _ => 0
  end.
