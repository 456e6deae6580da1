(** * How programs with functions, calls, lists and tables are written (specification): the grammar of ParseSpec.v continued. *)
From Verif Require Import Base Value Ops Ast Fold Stmt Lexer LexSpec TextSpec ParseSpec Tree.
Local Open Scope list_scope.

Definition mix (o : operator) (l r : xe) : xe := match o with OBin o => XBin o l r | OSc o => XSc o l r end.
(** An operator expression as a tree. *)
Fixpoint embed (e : expr) : xe :=
  match e with
  | EUndef => XUndef | EBool b => XBool b | EInt i => XInt i | EFloat f => XFloat f | EStr s => XStr s | EVar x => XVar x
  | EUn u e => XUn u (embed e) | EBin o l r => XBin o (embed l) (embed r) | ESc o l r => XSc o (embed l) (embed r) | ETri c a b => XTri (embed c) (embed a) (embed b)
  end.
(** A call gives one value, except as the last one of a list of values: there it gives [n] values, or (-1) as many as it has. *)
Definition is_call (e : xe) : bool := match e with XCall _ _ | XMeth _ _ _ => true | _ => false end.
Fixpoint keep (n : Z) (es : xes) : xes :=
  match es with XNil => XNil | XCons e XNil => XCons (if is_call e then XCtx n e else e) XNil | XCons e r => XCons e (keep n r) end.
Fixpoint ends_in_call (es : xes) : bool := match es with XNil => false | XCons e XNil => is_call e | XCons _ r => ends_in_call r end.
(** The values for [n] places: a call at the end fills the places left, other places get undef. *)
Definition filled (n : nat) (es : list xe) : xes :=
  if ends_in_call (xes_of es) then keep (Z.of_nat n - Z.of_nat (length es) + 1) (xes_of es) else xes_of (es ++ repeat XUndef (n - length es)).
Inductive params_written : list (name * bool) -> list lexeme -> Prop :=
| w_noparams : params_written [] []
| w_params p ps a : params_written1 (p :: ps) a -> params_written (p :: ps) a
with params_written1 : list (name * bool) -> list lexeme -> Prop :=
| w_param p a : param_written p a -> params_written1 [p] a
| w_moreparams p ps a b : param_written p a -> params_written1 ps b -> params_written1 (p :: ps) (a ++ LFixed T_COMMA :: b)
with param_written : name * bool -> list lexeme -> Prop :=
| w_letparam x : param_written (x, false) [LId x]
| w_constparam x : param_written (x, true) [LFixed T_CONST; LId x].
(** a line may end before a closing bracket, and after the first element or entry *)
Definition line_end (a : list lexeme) : Prop := a = [] \/ a = [LNewline].
Definition order (l : list xs) : xs := fold_right XSeq XSkip l.

Definition not_fn (a : list lexeme) : Prop := match a with l :: _ => kind l <> T_FN | [] => False end.   (* does not begin with the word fn *)

Section Grammar.
Variable float_value : list Z -> float.
(** ** [x_at k e ls]: [ls] is a way to write [e] using, outside parentheses, operators of strength at least [k]; 15: calls, methods,
    fields, indices, slices; 16: literals, variables, lists, tables, functions, parentheses. *)
Inductive x_at : nat -> xe -> list lexeme -> Prop :=
| x_stronger k e a : x_at (S k) e a -> (k < 16)%nat -> x_at k e a
| x_left o l r a b : groups o = Left -> x_at (strength o) l a -> x_at (S (strength o)) r b -> x_at (strength o) (mix o l r) (a ++ LFixed (symbol o) :: b)
| x_right o l r a b : groups o = Right -> o <> OBin (BOp BPow) -> x_at (S (strength o)) l a -> x_at (strength o) r b -> x_at (strength o) (mix o l r) (a ++ LFixed (symbol o) :: b)
| x_ternary c x y a b d : x_at 1 c a -> x_at 0 x b -> x_at 0 y d -> x_at 0 (XTri c x y) (a ++ LFixed T_QMARK :: b ++ LFixed T_COLON :: d)
| x_prefix u e a : x_at 13 e a -> x_at 13 (XUn u e) (LFixed (prefix_symbol u) :: a)
| x_power l r a b : x_at 15 l a -> x_at 13 r b -> x_at 14 (XBin (BOp BPow) l r) (a ++ LFixed T_DSTAR :: b)
| x_field c x a : x_at 15 c a -> x_at 15 (XGet c (XStr x)) (a ++ [LFixed T_DOT; LId x])
| x_index c k a b : x_at 15 c a -> x_at 0 k b -> x_at 15 (XGet c k) (a ++ LFixed T_LSQB :: b ++ [LFixed T_RSQB])
| x_slice c x y a b d : x_at 15 c a -> bound x b -> bound y d -> x_at 15 (XSlice c x y) (a ++ LFixed T_LSQB :: b ++ LFixed T_COLON :: d ++ [LFixed T_RSQB])
| x_call c es a b : x_at 15 c a -> args_written es b -> x_at 15 (XCall c (keep (-1) es)) (a ++ LFixed T_LPAR :: b ++ [LFixed T_RPAR])
| x_method c x es a b : x_at 15 c a -> args_written es b -> x_at 15 (XMeth c x (keep (-1) es)) (a ++ LFixed T_RIGHT_ARR :: LId x :: LFixed T_LPAR :: b ++ [LFixed T_RPAR])
| x_parens e a : x_at 0 e a -> x_at 16 e (LFixed T_LPAR :: a ++ [LFixed T_RPAR])
| x_leaf e a : leaf float_value e a -> x_at 16 (embed e) a
| x_nolist : x_at 16 (XList XNil) [LFixed T_LSQB; LFixed T_RSQB]
| x_list1 e a n : x_at 0 e a -> line_end n -> x_at 16 (XList (XCons e XNil)) (LFixed T_LSQB :: a ++ n ++ [LFixed T_RSQB])
| x_list e es a b n n' : x_at 0 e a -> line_end n -> es_written es b -> line_end n' -> x_at 16 (XList (XCons e es)) (LFixed T_LSQB :: a ++ n ++ LFixed T_COMMA :: b ++ n' ++ [LFixed T_RSQB])
| x_notable : x_at 16 (XTable XNil) [LFixed T_LBRC; LFixed T_RBRC]
| x_table1 k v a b n : x_at 0 k a -> x_at 0 v b -> line_end n -> x_at 16 (XTable (XCons k (XCons v XNil))) (LFixed T_LBRC :: a ++ LFixed T_COLON :: b ++ n ++ [LFixed T_RBRC])
| x_table k v es a b d n n' : x_at 0 k a -> x_at 0 v b -> line_end n -> entries_written es d -> line_end n' ->
    x_at 16 (XTable (XCons k (XCons v es))) (LFixed T_LBRC :: a ++ LFixed T_COLON :: b ++ n ++ LFixed T_COMMA :: d ++ n' ++ [LFixed T_RBRC])
| x_fn ps b a d : params_written ps a -> b_written b d -> x_at 16 (XFn ps b) (LFixed T_FN :: LFixed T_LPAR :: a ++ LFixed T_RPAR :: d)
with bound : xe -> list lexeme -> Prop :=
| w_nobound : bound XUndef []
| w_bound e a : x_at 0 e a -> bound e a
with args_written : xes -> list lexeme -> Prop :=
| w_noargs : args_written XNil []
| w_args es a : es_written es a -> args_written es a
with es_written : xes -> list lexeme -> Prop :=                 (* comma separated, at least one *)
| w_one e a : x_at 0 e a -> es_written (XCons e XNil) a
| w_more e es a b : x_at 0 e a -> es_written es b -> es_written (XCons e es) (a ++ LFixed T_COMMA :: b)
with entries_written : xes -> list lexeme -> Prop :=
| w_entry k v a b : x_at 0 k a -> x_at 0 v b -> entries_written (XCons k (XCons v XNil)) (a ++ LFixed T_COLON :: b)
| w_entries k v es a b d : x_at 0 k a -> x_at 0 v b -> entries_written es d -> entries_written (XCons k (XCons v es)) (a ++ LFixed T_COLON :: b ++ LFixed T_COMMA :: d)
(** ** Statements. *)
with assigns : xs -> list lexeme -> Prop :=
| w_set_var x e a : x_at 0 e a -> assigns (XAssign x e) (LId x :: LFixed T_EQ :: a)
| w_set_var_op x o t e a : compound o = Some t -> x_at 0 e a -> assigns (XAssign x (mix o (XVar x) e)) (LId x :: LFixed t :: a)
| w_set c k e a b : x_at 15 (XGet c k) a -> not_fn a -> x_at 0 e b -> assigns (XSet c k e) (a ++ LFixed T_EQ :: b)
| w_set_op c k o t e a b : compound o = Some t -> x_at 15 (XGet c k) a -> not_fn a -> x_at 0 e b -> assigns (XSet c k (mix o (XGet c k) e)) (a ++ LFixed t :: b)
with st_written : xs -> list lexeme -> Prop :=
| w_echo e a : x_at 0 e a -> st_written (XEcho e) (LFixed T_ECHO :: a)
| w_assert e a : x_at 0 e a -> st_written (XAssert e) (LFixed T_ASS :: a)
| w_exprst e a : x_at 0 e a -> not_fn a -> st_written (XExpr e) a
| w_assigns s a : assigns s a -> st_written s a
| w_decl ls es a b : lvals_written ls a -> (match ls with [LAssign _] => False | _ => True end) -> es_written es b -> (length (xes_list es) <= length ls)%nat ->
    st_written (XDecl ls (filled (length ls) (xes_list es))) (a ++ LFixed T_EQ :: b)
| w_fndecl x ps b a d : params_written ps a -> b_written b d -> st_written (XFnDecl false x ps b) (LFixed T_FN :: LId x :: LFixed T_LPAR :: a ++ LFixed T_RPAR :: d)
| w_constfn x ps b a d : params_written ps a -> b_written b d -> st_written (XFnDecl true x ps b) (LFixed T_CONST :: LFixed T_FN :: LId x :: LFixed T_LPAR :: a ++ LFixed T_RPAR :: d)
| w_fnfield x y ps b a d : params_written ps a -> b_written b d -> st_written (XSet (XVar x) (XStr y) (XFn ps b)) (LFixed T_FN :: LId x :: LFixed T_DOT :: LId y :: LFixed T_LPAR :: a ++ LFixed T_RPAR :: d)
| w_return e a : x_at 0 e a -> st_written (XReturn (XCtx (-1) e)) (LFixed T_RET :: a)
| w_returns e es a b : x_at 0 e a -> es_written es b -> st_written (XReturns (keep (-1) (XCons e es))) (LFixed T_RET :: a ++ LFixed T_COMMA :: b)
| w_if s a : if_written s a -> st_written s (LFixed T_IF :: a)
| w_while c b a d : x_at 0 c a -> b_written b d -> st_written (XWhile c (XBlock b)) (LFixed T_WHILE :: a ++ d)
| w_for x e c s b a1 a2 a3 d t1 t2 : x_at 0 e a1 -> semicolon t1 -> x_at 0 c a2 -> semicolon t2 -> assigns s a3 -> b_written b d ->
    st_written (XBlock (order [XLet x e; XWhilePost c (XBlock b) s])) (LFixed T_FOR :: LFixed T_LET :: LId x :: LFixed T_EQ :: a1 ++ t1 :: a2 ++ t2 :: a3 ++ d)
| w_forin x e b a d : x_at 0 e a -> b_written b d -> st_written (XForIn x e (XBlock b)) (LFixed T_FOR :: LId x :: LFixed T_LEFT_ARR :: a ++ d)
| w_break : st_written XBreak [LFixed T_BREAK]
| w_continue : st_written XContinue [LFixed T_CONT]
with if_written : xs -> list lexeme -> Prop :=      (* after the word if or elseif *)
| w_then c b a d : x_at 0 c a -> b_written b d -> if_written (XIf c (XBlock b)) (a ++ d)
| w_else c b b2 a d d2 : x_at 0 c a -> b_written b d -> b_written b2 d2 -> if_written (XIfElse c (XBlock b) (XBlock b2)) (a ++ d ++ LFixed T_ELSE :: d2)
| w_elseif c b s a d d2 : x_at 0 c a -> b_written b d -> if_written s d2 -> if_written (XIfElse c (XBlock b) s) (a ++ d ++ LFixed T_ELSEIF :: d2)
with b_written : xs -> list lexeme -> Prop :=    (* { statements } *)
| w_body l a : sts_written l a -> b_written (order l) (LFixed T_LBRC :: a ++ [LFixed T_RBRC])
with sts_written : list xs -> list lexeme -> Prop :=
| w_none : sts_written [] []
| w_some s t l a b : st_written s a -> semicolon t -> sts_written l b -> sts_written (s :: l) (a ++ t :: b).
End Grammar.

(** ** The program with the constants of its expressions folded (C24), everywhere. *)
Fixpoint fold_e (e : xe) : outcome xe :=
  match e with
  | XUn o e1 => do e1' <- fold_e e1; foldx_un o e1'
  | XBin o l r => do l' <- fold_e l; do r' <- fold_e r; foldx_bin o l' r'
  | XSc o l r => do l' <- fold_e l; do r' <- fold_e r; Ok (XSc o l' r')
  | XTri c a b => do c' <- fold_e c; do a' <- fold_e a; do b' <- fold_e b; Ok (XTri c' a' b')
  | XList es => do es' <- fold_es es; Ok (XList es')
  | XTable es => do es' <- fold_es es; Ok (XTable es')
  | XGet c k => do c' <- fold_e c; do k' <- fold_e k; Ok (XGet c' k')
  | XSlice c a b => do c' <- fold_e c; do a' <- fold_e a; do b' <- fold_e b; Ok (XSlice c' a' b')
  | XMeth c x es => do c' <- fold_e c; do es' <- fold_es es; Ok (XMeth c' x es')
  | XCall c es => do c' <- fold_e c; do es' <- fold_es es; Ok (XCall c' es')
  | XCtx n e1 => do e1' <- fold_e e1; Ok (XCtx n e1')
  | XFn ps b => do b' <- fold_s b; Ok (XFn ps b')
  | _ => Ok e
  end
with fold_es (es : xes) : outcome xes :=
  match es with XNil => Ok XNil | XCons e r => do e' <- fold_e e; do r' <- fold_es r; Ok (XCons e' r') end
with fold_s (s : xs) : outcome xs :=
  match s with
  | XSkip => Ok XSkip | XBreak => Ok XBreak | XContinue => Ok XContinue
  | XSeq a b => do a' <- fold_s a; do b' <- fold_s b; Ok (XSeq a' b')
  | XExpr e => do e' <- fold_e e; Ok (XExpr e')
  | XLet x e => do e' <- fold_e e; Ok (XLet x e')
  | XDecl ls es => do es' <- fold_es es; Ok (XDecl ls es')
  | XAssign x e => do e' <- fold_e e; Ok (XAssign x e')
  | XSet c k v => do c' <- fold_e c; do k' <- fold_e k; do v' <- fold_e v; Ok (XSet c' k' v')
  | XFnDecl k x ps b => do b' <- fold_s b; Ok (XFnDecl k x ps b')
  | XBlock b => do b' <- fold_s b; Ok (XBlock b')
  | XIf c a => do c' <- fold_e c; do a' <- fold_s a; Ok (XIf c' a')
  | XIfElse c a b => do c' <- fold_e c; do a' <- fold_s a; do b' <- fold_s b; Ok (XIfElse c' a' b')
  | XWhile c b => do c' <- fold_e c; do b' <- fold_s b; Ok (XWhile c' b')
  | XWhilePost c b p => do c' <- fold_e c; do b' <- fold_s b; do p' <- fold_s p; Ok (XWhilePost c' b' p')
  | XForIn x e b => do e' <- fold_e e; do b' <- fold_s b; Ok (XForIn x e' b')
  | XEcho e => do e' <- fold_e e; Ok (XEcho e')
  | XAssert e => do e' <- fold_e e; Ok (XAssert e')
  | XReturn e => do e' <- fold_e e; Ok (XReturn e')
  | XReturns es => do es' <- fold_es es; Ok (XReturns es')
  | XPop s => do s' <- fold_s s; Ok (XPop s')
  end.
Fixpoint fold_l (l : list xs) : outcome (list xs) := match l with [] => Ok [] | s :: r => do s' <- fold_s s; do r' <- fold_l r; Ok (s' :: r') end.

(** The tokens [toks] are those of the lexemes [ls]. *)
Definition tokens (toks : list token) (ls : list lexeme) : Prop := tokens_of toks ls /\ Forall2 (fun t l => nl_fits l (t_nl t) = true) toks ls.
