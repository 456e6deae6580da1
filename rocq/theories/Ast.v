(** * Expressions: the fragment of the syntax tree of /repo/compiler/ast.h (node kinds of nodetype.x) covered
    by the folding and compilation models, and its meaning. *)
From Verif Require Import Base Value Ops.

(** Identifiers are byte strings. *)
Definition name := list Z.
Definition name_eqb (x y : name) : bool := if list_eq_dec Z.eq_dec x y then true else false.

(** Binary operator tokens that are not short-circuiting: one VM operator each, except [!=] and [!==]
    (/repo/compiler/compiler.c:1204-1274). *)
Inductive bop : Set := BOp (o : binop) | BNe | BNi.
(** Short-circuit operators [&&], [||], [??]. *)
Inductive scop : Set := SAnd | SOr | SCoal.

(** N_UNDEF, N_BOOL, N_INT, N_FLOAT, N_STR, N_VAR, N_UNOP, N_BINOP, N_TRIOP. *)
Inductive expr : Type :=
| EUndef
| EBool (b : bool)
| EInt (i : Z)
| EFloat (f : float)
| EStr (s : list Z)
| EVar (x : name)
| EUn (op : unop) (e : expr)
| EBin (op : bop) (l r : expr)
| ESc (op : scop) (l r : expr)
| ETri (c a b : expr).

(** ** Meaning, independent of the compiler: left operand first, conditions by truthiness, the right operand
    of a short-circuit operator only when the left one does not decide. *)
Definition not_value (v : value) : value := VBool (is_falsey v).
Definition eval_bop (w : world) (op : bop) (a b : value) : outcome value :=
  match op with
  | BOp o => exec_binop w o a b
  | BNe => omap not_value (exec_binop w BEq a b)
  | BNi => omap not_value (exec_binop w BId a b)
  end.
(** the left value decides *)
Definition decides (op : scop) (v : value) : bool :=
  match op with SAnd => is_falsey v | SOr => negb (is_falsey v) | SCoal => negb (is_undef v) end.

Fixpoint eval (w : world) (rho : name -> outcome value) (e : expr) : outcome value :=
  match e with
  | EUndef => Ok VUndef
  | EBool b => Ok (VBool b)
  | EInt i => Ok (VInt i)
  | EFloat f => Ok (VFloat f)
  | EStr s => Ok (VStr s)
  | EVar x => rho x
  | EUn op e1 => do v <- eval w rho e1; exec_unop w op v
  | EBin op l r => do a <- eval w rho l; do b <- eval w rho r; eval_bop w op a b
  | ESc op l r => do a <- eval w rho l; if decides op a then Ok a else eval w rho r
  | ETri c a b => do v <- eval w rho c; if is_falsey v then eval w rho b else eval w rho a
  end.

(** Sub-expressions, reflexively. *)
Inductive sub : expr -> expr -> Prop :=
| sub_refl e : sub e e
| sub_un op e s : sub s e -> sub s (EUn op e)
| sub_bin_l op l r s : sub s l -> sub s (EBin op l r)
| sub_bin_r op l r s : sub s r -> sub s (EBin op l r)
| sub_sc_l op l r s : sub s l -> sub s (ESc op l r)
| sub_sc_r op l r s : sub s r -> sub s (ESc op l r)
| sub_tri_c c a b s : sub s c -> sub s (ETri c a b)
| sub_tri_a c a b s : sub s a -> sub s (ETri c a b)
| sub_tri_b c a b s : sub s b -> sub s (ETri c a b).
