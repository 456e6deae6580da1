(** * Constant folding: model of /repo/compiler/middleend.c *)
From Verif Require Import Base Value Ops Ast.

(** C arithmetic performed by the compiler on folded ints: out-of-range results are undefined behaviour, as in
    [Ops.int_binop] (the same C operators, middleend.c:81-97). *)
Definition mk_int (z : Z) : outcome expr := if in_i64b z then Ok (EInt z) else UB.

(** [fold_BinOp], int/int case, middleend.c:104-173. *)
Definition fold_int_int (op : bop) (x y : Z) : outcome expr :=
  let node := EBin op (EInt x) (EInt y) in
  match op with
  | BOp BOr => Ok (EInt (Z.lor x y))
  | BOp BXor => Ok (EInt (Z.lxor x y))
  | BOp BAnd => Ok (EInt (Z.land x y))
  | BOp BAndNot => Ok (EInt (Z.land x (Z.lnot y)))
  | BOp BEq | BOp BId => Ok (EBool (x =? y))
  | BNe | BNi => Ok (EBool (negb (x =? y)))
  | BOp BGt => Ok (EBool (y <? x))
  | BOp BGe => Ok (EBool (y <=? x))
  | BOp BLt => Ok (EBool (x <? y))
  | BOp BLe => Ok (EBool (x <=? y))
  | BOp BCnct => Ok node
  | BOp BShr => if (0 <=? y) && (y <? 64) then Ok (EInt (Z.shiftr x y)) else UB
  | BOp BShl => if (0 <=? y) && (y <? 64) && (0 <=? x) then mk_int (Z.shiftl x y) else UB
  | BOp BAdd => mk_int (x + y)
  | BOp BSub => mk_int (x - y)
  | BOp BMul => mk_int (x * y)
  | BOp BFdiv => Ok (EFloat (f_div (f_of_int x) (f_of_int y)))
  | BOp BIdiv => if y =? 0 then Ok node else mk_int (Z.quot x y)
  | BOp BMod => if y =? 0 then Ok node
                else if in_i64b (Z.quot x y) then Ok (EInt (Z.rem x y)) else UB
  | BOp BPow => Ok node
  end.

(** float/float, float/int and int/float cases, middleend.c:174-298: identical up to the conversion of the int
    operand; [x], [y] are the converted operands. *)
Definition fold_float (op : bop) (node : expr) (x y : float) : expr :=
  match op with
  | BOp BEq | BOp BId => EBool (f_eqb x y)
  | BNe | BNi => EBool (negb (f_eqb x y))
  | BOp BGt => EBool (f_ltb y x)
  | BOp BGe => EBool (f_leb y x)
  | BOp BLt => EBool (f_ltb x y)
  | BOp BLe => EBool (f_leb x y)
  | BOp BAdd => EFloat (f_add x y)
  | BOp BSub => EFloat (f_sub x y)
  | BOp BMul => EFloat (f_mul x y)
  | BOp BFdiv => EFloat (f_div x y)
  | _ => node
  end.

(** [fold_BinOp] after its children have been folded, middleend.c:99-299. The short-circuit operators share the
    node kind N_BINOP but hit the [default] cases. *)
Definition fold_bin (op : bop) (l r : expr) : outcome expr :=
  match l, r with
  | EInt x, EInt y => fold_int_int op x y
  | EFloat x, EFloat y => Ok (fold_float op (EBin op l r) x y)
  | EFloat x, EInt y => Ok (fold_float op (EBin op l r) x (f_of_int y))
  | EInt x, EFloat y => Ok (fold_float op (EBin op l r) (f_of_int x) y)
  | _, _ => Ok (EBin op l r)
  end.

(** [fold_UnOp] after its child, middleend.c:301-351. *)
Definition fold_un (op : unop) (e : expr) : outcome expr :=
  match e, op with
  | EInt x, UPos => Ok (EInt x)
  | EInt x, UNeg => mk_int (- x)
  | EInt x, UNot => Ok (EBool false)
  | EInt x, UBnot => Ok (EInt (Z.lnot x))
  | EBool b, UNot => Ok (EBool (negb b))
  | EFloat f, UPos => Ok (EFloat f)
  | EFloat f, UNeg => Ok (EFloat (f_opp f))
  | EFloat f, UNot => Ok (EBool false)
  | _, _ => Ok (EUn op e)
  end.

(** [fold], middleend.c:369-422, on the modelled nodes. *)
Fixpoint fold (e : expr) : outcome expr :=
  match e with
  | EUn op e1 => do e1' <- fold e1; fold_un op e1'
  | EBin op l r => do l' <- fold l; do r' <- fold r; fold_bin op l' r'
  | ESc op l r => do l' <- fold l; do r' <- fold r; Ok (ESc op l' r')
  | ETri c a b => do c' <- fold c; do a' <- fold a; do b' <- fold b; Ok (ETri c' a' b')
  | _ => Ok e
  end.
