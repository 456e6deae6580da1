(** * How expressions and statements are written (specification): a grammar over the lexemes of LexSpec.v.
    It says which operator binds tighter and which way each one groups. *)
From Verif Require Import Base Value Ops Ast Fold Stmt Lexer LexSpec TextSpec.

(** ** Operators: from the loosest binding (0) to the tightest.
       0  ?:            grouping right        7  |        left
       1  ??            right                 8  ^        left
       2  ||            right                 9  & &^     left
       3  &&            right                10  >> <<    left
       4  == != === !== left                 11  + -      left
       5  < <= > >=     left                 12  * / // % left
       6  ~             right                13  unary + - ! ^ len
                                             14  **  (tighter than a unary operator on its left, looser than one on its right)
                                             15  literals, variables, parentheses *)
Inductive operator : Set := OBin (o : bop) | OSc (o : scop).
Definition combine (o : operator) (l r : expr) : expr := match o with OBin o => EBin o l r | OSc o => ESc o l r end.
Definition symbol (o : operator) : tk :=
  match o with
  | OSc SCoal => T_DQMARK | OSc SOr => T_DBAR | OSc SAnd => T_DAMP
  | OBin (BOp BEq) => T_DEQ | OBin BNe => T_BANGEQ | OBin (BOp BId) => T_TEQ | OBin BNi => T_BANGDEQ
  | OBin (BOp BLt) => T_LT | OBin (BOp BLe) => T_LTEQ | OBin (BOp BGt) => T_GT | OBin (BOp BGe) => T_GTEQ
  | OBin (BOp BCnct) => T_TILDE
  | OBin (BOp BOr) => T_BAR | OBin (BOp BXor) => T_CARET | OBin (BOp BAnd) => T_AMP | OBin (BOp BAndNot) => T_AMPCARET
  | OBin (BOp BShr) => T_DGT | OBin (BOp BShl) => T_DLT
  | OBin (BOp BAdd) => T_PLUS | OBin (BOp BSub) => T_MINUS
  | OBin (BOp BMul) => T_STAR | OBin (BOp BIdiv) => T_DSLASH | OBin (BOp BFdiv) => T_SLASH | OBin (BOp BMod) => T_MOD
  | OBin (BOp BPow) => T_DSTAR
  end.
Definition strength (o : operator) : nat :=
  match o with
  | OSc SCoal => 1 | OSc SOr => 2 | OSc SAnd => 3
  | OBin (BOp (BEq | BId)) | OBin (BNe | BNi) => 4
  | OBin (BOp (BLt | BLe | BGt | BGe)) => 5
  | OBin (BOp BCnct) => 6
  | OBin (BOp BOr) => 7 | OBin (BOp BXor) => 8 | OBin (BOp (BAnd | BAndNot)) => 9
  | OBin (BOp (BShr | BShl)) => 10
  | OBin (BOp (BAdd | BSub)) => 11
  | OBin (BOp (BMul | BIdiv | BFdiv | BMod)) => 12
  | OBin (BOp BPow) => 14
  end%nat.
Inductive side : Set := Left | Right.
Definition groups (o : operator) : side := match o with OSc _ | OBin (BOp BCnct) | OBin (BOp BPow) => Right | _ => Left end.
Definition prefix_symbol (u : unop) : tk :=
  match u with UPos => T_PLUS | UNeg => T_MINUS | UNot => T_BANG | UBnot => T_CARET | ULen => T_LEN end.

Section Grammar.
Variable float_value : list Z -> float.   (* the number a decimal float literal denotes: the C library's strtod *)

(** ** Literals and variables. *)
Inductive leaf : expr -> list lexeme -> Prop :=
| leaf_undef : leaf EUndef [LFixed T_UNDEF]
| leaf_bool b : leaf (EBool b) [LBool b]
| leaf_int ds : denotes 10 ds <= 9223372036854775807 -> Forall dec_digit ds -> ds <> [] -> leaf (EInt (denotes 10 ds)) [LInt ds]
| leaf_hex ds : denotes 16 ds <= 9223372036854775807 -> Forall hex_digit ds -> ds <> [] -> leaf (EInt (denotes 16 ds)) [LHex ds]
| leaf_bin ds : denotes 2 ds <= 9223372036854775807 -> Forall bin_digit ds -> ds <> [] -> leaf (EInt (denotes 2 ds)) [LBin ds]
| leaf_float a b : leaf (EFloat (float_value (a ++ 46 :: b))) [LFloat a b]
| leaf_str s : leaf (EStr s) [LStr s]
| leaf_esc ps : leaf (EStr (map piece_byte ps)) [LEsc ps]
| leaf_dbl ps : leaf (EStr (map piece_byte ps)) [LDbl ps]
| leaf_raw s : leaf (EStr s) [LRaw s]
| leaf_dot x : leaf (EStr x) [LFixed T_DOT; LId x]
| leaf_var x : leaf (EVar x) [LId x].
(** ** [expr_at k e ls]: [ls] is a way to write [e] using, outside parentheses, operators of strength at least [k]. *)
Inductive expr_at : nat -> expr -> list lexeme -> Prop :=
| at_stronger k e a : expr_at (S k) e a -> (k < 15)%nat -> expr_at k e a
| at_left o l r a b : groups o = Left -> expr_at (strength o) l a -> expr_at (S (strength o)) r b ->
    expr_at (strength o) (combine o l r) (a ++ LFixed (symbol o) :: b)
| at_right o l r a b : groups o = Right -> o <> OBin (BOp BPow) -> expr_at (S (strength o)) l a -> expr_at (strength o) r b ->
    expr_at (strength o) (combine o l r) (a ++ LFixed (symbol o) :: b)
| at_ternary c x y a b d : expr_at 1 c a -> expr_at 0 x b -> expr_at 0 y d -> expr_at 0 (ETri c x y) (a ++ LFixed T_QMARK :: b ++ LFixed T_COLON :: d)
| at_prefix u e a : expr_at 13 e a -> expr_at 13 (EUn u e) (LFixed (prefix_symbol u) :: a)
| at_power l r a b : expr_at 15 l a -> expr_at 13 r b -> expr_at 14 (EBin (BOp BPow) l r) (a ++ LFixed T_DSTAR :: b)
| at_parens e a : expr_at 0 e a -> expr_at 15 e (LFixed T_LPAR :: a ++ [LFixed T_RPAR])
| at_leaf e a : leaf e a -> expr_at 15 e a.

(** ** Writing with no more parentheses than needed. *)
Definition wrap (b : bool) (a : list lexeme) : list lexeme := if b then LFixed T_LPAR :: a ++ [LFixed T_RPAR] else a.
Definition own_strength (e : expr) : nat :=
  match e with EBin o _ _ => strength (OBin o) | ESc o _ _ => strength (OSc o) | EUn _ _ => 13 | ETri _ _ _ => 0 | _ => 15 end%nat.
Variable digits : Z -> list Z.            (* decimal digits *)
Fixpoint written (k : nat) (e : expr) : list lexeme :=
  wrap (own_strength e <? k)%nat
    match e with
    | EUndef => [LFixed T_UNDEF] | EBool b => [LBool b] | EInt i => [LInt (digits i)] | EFloat _ => [] | EStr s => [LStr s] | EVar x => [LId x]
    | EUn u e => LFixed (prefix_symbol u) :: written 13 e
    | EBin o l r =>
        match o with
        | BOp BPow => written 15 l ++ LFixed T_DSTAR :: written 13 r
        | _ => let s := strength (OBin o) in
               match groups (OBin o) with
               | Left => written s l ++ LFixed (symbol (OBin o)) :: written (S s) r
               | Right => written (S s) l ++ LFixed (symbol (OBin o)) :: written s r
               end
        end
    | ESc o l r => let s := strength (OSc o) in written (S s) l ++ LFixed (symbol (OSc o)) :: written s r
    | ETri c x y => written 1 c ++ LFixed T_QMARK :: written 0 x ++ LFixed T_COLON :: written 0 y
    end.
(** Trees that have a way to be written: no float leaf (see [leaf_float]), no negative int leaf. *)
Fixpoint writable (e : expr) : bool :=
  match e with
  | EInt i => (0 <=? i) && (i <=? 9223372036854775807)
  | EFloat _ => false
  | EUn _ e => writable e
  | EBin _ l r | ESc _ l r => writable l && writable r
  | ETri c x y => writable c && writable x && writable y
  | _ => true
  end.

(** ** Statements. *)
Definition semicolon (l : lexeme) : Prop := l = LFixed T_SEMI \/ l = LNewline.
Inductive lval_written : lval -> list lexeme -> Prop :=
| w_let x : lval_written (LLet x) [LFixed T_LET; LId x]
| w_const x : lval_written (LConst x) [LFixed T_CONST; LId x]
| w_assign x : lval_written (LAssign x) [LId x].
Inductive lvals_written : list lval -> list lexeme -> Prop :=      (* comma separated, at least one *)
| w_lval l a : lval_written l a -> lvals_written [l] a
| w_lvals l a ls b : lval_written l a -> lvals_written ls b -> lvals_written (l :: ls) (a ++ LFixed T_COMMA :: b).
Inductive exprs_written : list expr -> list lexeme -> Prop :=
| w_expr e a : expr_at 0 e a -> exprs_written [e] a
| w_exprs e a es b : expr_at 0 e a -> exprs_written es b -> exprs_written (e :: es) (a ++ LFixed T_COMMA :: b).
(** The operators with an assignment form. *)
Definition compound (o : operator) : option tk :=
  match o with
  | OSc SCoal => Some T_DQMARKEQ | OSc SOr => Some T_DBAREQ | OSc SAnd => Some T_DAMPEQ
  | OBin (BOp BCnct) => Some T_TILDEEQ
  | OBin (BOp BOr) => Some T_BAREQ | OBin (BOp BXor) => Some T_CARETEQ | OBin (BOp BAnd) => Some T_AMPEQ | OBin (BOp BAndNot) => Some T_AMPCARETEQ
  | OBin (BOp BShr) => Some T_DGTEQ | OBin (BOp BShl) => Some T_DLTEQ
  | OBin (BOp BAdd) => Some T_PLUSEQ | OBin (BOp BSub) => Some T_MINUSEQ
  | OBin (BOp BMul) => Some T_STAREQ | OBin (BOp BIdiv) => Some T_DSLASHEQ | OBin (BOp BFdiv) => Some T_SLASHEQ | OBin (BOp BMod) => Some T_MODEQ
  | OBin (BOp BPow) => Some T_DSTAREQ
  | _ => None
  end.
Inductive assignment : stmt -> list lexeme -> Prop :=
| w_plain x e a : expr_at 0 e a -> assignment (SAssign x e) (LId x :: LFixed T_EQ :: a)
| w_compound x o t e a : compound o = Some t -> expr_at 0 e a -> assignment (SAssign x (combine o (EVar x) e)) (LId x :: LFixed t :: a).
(** A list of statements, as a statement. *)
Definition sequence (l : list stmt) : stmt := fold_right SSeq SSkip l.
Inductive stmt_written : stmt -> list lexeme -> Prop :=
| w_echo e a : expr_at 0 e a -> stmt_written (SEcho e) (LFixed T_ECHO :: a)
| w_assert e a : expr_at 0 e a -> stmt_written (SAssert e) (LFixed T_ASS :: a)
| w_exprstmt e a : expr_at 0 e a -> stmt_written (SExpr e) a
| w_assignment s a : assignment s a -> stmt_written s a
(* let a, const b, c = e1, e2: the values that are not written are undef *)
| w_decl ls es n a b : lvals_written ls a -> (match ls with [LAssign _] => False | _ => True end) -> exprs_written es b -> (length ls = length es + n)%nat ->
    stmt_written (SDecl ls (es ++ repeat EUndef n)) (a ++ LFixed T_EQ :: b)
| w_if s a : if_written s a -> stmt_written s (LFixed T_IF :: a)
| w_while c b a d : expr_at 0 c a -> body_written b d -> stmt_written (SWhile c (SBlock b)) (LFixed T_WHILE :: a ++ d)
| w_for x e c s b a1 a2 a3 d t1 t2 : expr_at 0 e a1 -> semicolon t1 -> expr_at 0 c a2 -> semicolon t2 -> assignment s a3 -> body_written b d ->
    stmt_written (SBlock (sequence [SLet x e; SWhilePost c (SBlock b) s])) (LFixed T_FOR :: LFixed T_LET :: LId x :: LFixed T_EQ :: a1 ++ t1 :: a2 ++ t2 :: a3 ++ d)
| w_forin x e b a d : expr_at 0 e a -> body_written b d -> stmt_written (SForIn x e (SBlock b)) (LFixed T_FOR :: LId x :: LFixed T_LEFT_ARR :: a ++ d)
| w_break : stmt_written SBreak [LFixed T_BREAK]
| w_continue : stmt_written SContinue [LFixed T_CONT]
with if_written : stmt -> list lexeme -> Prop :=      (* after the word if or elseif *)
| w_then c b a d : expr_at 0 c a -> body_written b d -> if_written (SIf c (SBlock b)) (a ++ d)
| w_else c b b2 a d d2 : expr_at 0 c a -> body_written b d -> body_written b2 d2 -> if_written (SIfElse c (SBlock b) (SBlock b2)) (a ++ d ++ LFixed T_ELSE :: d2)
| w_elseif c b s a d d2 : expr_at 0 c a -> body_written b d -> if_written s d2 -> if_written (SIfElse c (SBlock b) s) (a ++ d ++ LFixed T_ELSEIF :: d2)
with body_written : stmt -> list lexeme -> Prop :=    (* { statements } *)
| w_body l a : stmts_written l a -> body_written (sequence l) (LFixed T_LBRC :: a ++ [LFixed T_RBRC])
with stmts_written : list stmt -> list lexeme -> Prop :=
| w_none : stmts_written [] []
| w_some s t l a b : stmt_written s a -> semicolon t -> stmts_written l b -> stmts_written (s :: l) (a ++ t :: b).
End Grammar.

(** The tokens [toks] are those of the lexemes [ls]. *)
Definition tokens_of (toks : list token) (ls : list lexeme) : Prop :=
  map (fun t => (t_type t, t_val t, t_interp t)) toks = map (fun l => (kind l, content l, false)) ls.

(** The statement with the constants of each of its expressions folded (C24). *)
Fixpoint fold_list (es : list expr) : outcome (list expr) :=
  match es with [] => Ok [] | e :: r => do e' <- fold e; do r' <- fold_list r; Ok (e' :: r') end.
Fixpoint simplified (s : stmt) : outcome stmt :=
  match s with
  | SSkip => Ok SSkip | SBreak => Ok SBreak | SContinue => Ok SContinue
  | SSeq a b => do a' <- simplified a; do b' <- simplified b; Ok (SSeq a' b')
  | SExpr e => do e' <- fold e; Ok (SExpr e')
  | SLet x e => do e' <- fold e; Ok (SLet x e')
  | SConst x e => do e' <- fold e; Ok (SConst x e')
  | SDecl ls rs => do rs' <- fold_list rs; Ok (SDecl ls rs')
  | SAssign x e => do e' <- fold e; Ok (SAssign x e')
  | SBlock b => do b' <- simplified b; Ok (SBlock b')
  | SIf c a => do c' <- fold c; do a' <- simplified a; Ok (SIf c' a')
  | SIfElse c a b => do c' <- fold c; do a' <- simplified a; do b' <- simplified b; Ok (SIfElse c' a' b')
  | SWhile c b => do c' <- fold c; do b' <- simplified b; Ok (SWhile c' b')
  | SWhilePost c b p => do c' <- fold c; do b' <- simplified b; do p' <- simplified p; Ok (SWhilePost c' b' p')
  | SForIn x e b => do e' <- fold e; do b' <- simplified b; Ok (SForIn x e' b')
  | SEcho e => do e' <- fold e; Ok (SEcho e')
  | SAssert e => do e' <- fold e; Ok (SAssert e')
  | SPop s => do s' <- simplified s; Ok (SPop s')
  end.
Fixpoint simplified_list (l : list stmt) : outcome (list stmt) :=
  match l with [] => Ok [] | s :: r => do s' <- simplified s; do r' <- simplified_list r; Ok (s' :: r') end.

(** The expressions of a statement. *)
Fixpoint exprs_of (s : stmt) : list expr :=
  match s with
  | SSeq a b => exprs_of a ++ exprs_of b
  | SExpr e | SLet _ e | SConst _ e | SAssign _ e | SEcho e | SAssert e => [e]
  | SDecl _ rs => rs
  | SBlock b | SPop b => exprs_of b
  | SIf c a => c :: exprs_of a
  | SIfElse c a b => c :: exprs_of a ++ exprs_of b
  | SWhile c b => c :: exprs_of b
  | SWhilePost c b p => c :: exprs_of b ++ exprs_of p
  | SForIn _ e b => e :: exprs_of b
  | _ => []
  end.

(** The tokens that go on with an expression; anything else ends it. *)
Definition continues (t : tk) : bool :=
  existsb (tk_eqb t) [T_QMARK; T_DQMARK; T_DBAR; T_DAMP; T_DEQ; T_BANGEQ; T_TEQ; T_BANGDEQ; T_LT; T_LTEQ; T_GT; T_GTEQ; T_TILDE; T_BAR; T_CARET; T_AMP; T_AMPCARET; T_DGT; T_DLT;
    T_PLUS; T_MINUS; T_STAR; T_DSLASH; T_SLASH; T_MOD; T_DSTAR; T_LSQB; T_DOT; T_LPAR; T_RIGHT_ARR].
(** Leaves that constant folding leaves alone. *)
Fixpoint no_numbers (e : expr) : bool :=
  match e with
  | EInt _ | EFloat _ | EBool _ => false
  | EUn _ e => no_numbers e
  | EBin _ l r | ESc _ l r => no_numbers l && no_numbers r
  | ETri c x y => no_numbers c && no_numbers x && no_numbers y
  | _ => true
  end.
