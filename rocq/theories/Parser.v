(** * The parser: model of /repo/compiler/parser.c on the fragment of the syntax the compiler model covers.
    The parser works on the tokens of the text (Lexer.v): its lookahead functions [isconstfndecl], [ismultiassign]
    (:214-237) read one more token and seek back, which changes no token, only the line counter; lines are not modelled
    here. A failed [eattok] (:135-152) sets the status, skips to the end of the statement and lets the parser go on; since
    the status is never cleared, [compile] then returns NULL (compiler.c:318-327): here it is [PSyntax] at once.
    Constructs outside the fragment (functions, calls, indexing, lists, tables, interpolated strings, match, return,
    export) give [POut]. *)
From Verif Require Import Base Value Ops Ast Fold Stmt Text Lexer.

Inductive pres (A : Type) : Type := POk (a : A) | PSyntax | POut | PUB | PFuel.
Arguments POk {A} a. Arguments PSyntax {A}. Arguments POut {A}. Arguments PUB {A}. Arguments PFuel {A}.
Definition pbind {A B} (x : pres A) (f : A -> pres B) : pres B :=
  match x with POk a => f a | PSyntax => PSyntax | POut => POut | PUB => PUB | PFuel => PFuel end.
Notation "'get' p <- x ; e" := (pbind x (fun p => e)) (at level 200, p pattern, x at level 100, e at level 200).
Definition fuelled {A} (o : outcome A) : pres A := match o with Ok a => POk a | UB => PUB | Err _ => PSyntax | NoFuel => PFuel end.

(** [curtok], :120-122; past the last token the lexer keeps answering T_EOF. *)
Definition cur (ts : list token) : tk := match ts with t :: _ => t_type t | [] => T_EOF end.
Definition cur_val (ts : list token) : list Z := match ts with t :: _ => t_val t | [] => [] end.
Definition cur_interp (ts : list token) : bool := match ts with t :: _ => t_interp t | [] => false end.
Definition is (k : tk) (ts : list token) : bool := tk_eqb (cur ts) k.
Definition one (ks : list tk) (ts : list token) : bool := existsb (tk_eqb (cur ts)) ks.
(** [eattok], :135-152; [eatname], :154-160. *)
Definition eat (k : tk) (ts : list token) : pres (list token) := if is k ts then POk (tl ts) else PSyntax.
Definition eatname (ts : list token) : pres (name * list token) := if is T_ID ts then POk (cur_val ts, tl ts) else PSyntax.

(** The node of a binary operator token: [new_BinOp] keeps the token; its meaning is compiler.c:1204-1274. *)
Definition mk_bin (t : tk) (l r : expr) : option expr :=
  match t with
  | T_DQMARK => Some (ESc SCoal l r) | T_DBAR => Some (ESc SOr l r) | T_DAMP => Some (ESc SAnd l r)
  | T_DEQ => Some (EBin (BOp BEq) l r) | T_BANGEQ => Some (EBin BNe l r) | T_TEQ => Some (EBin (BOp BId) l r) | T_BANGDEQ => Some (EBin BNi l r)
  | T_LT => Some (EBin (BOp BLt) l r) | T_LTEQ => Some (EBin (BOp BLe) l r) | T_GT => Some (EBin (BOp BGt) l r) | T_GTEQ => Some (EBin (BOp BGe) l r)
  | T_TILDE => Some (EBin (BOp BCnct) l r)
  | T_BAR => Some (EBin (BOp BOr) l r) | T_CARET => Some (EBin (BOp BXor) l r) | T_AMP => Some (EBin (BOp BAnd) l r) | T_AMPCARET => Some (EBin (BOp BAndNot) l r)
  | T_DGT => Some (EBin (BOp BShr) l r) | T_DLT => Some (EBin (BOp BShl) l r)
  | T_PLUS => Some (EBin (BOp BAdd) l r) | T_MINUS => Some (EBin (BOp BSub) l r)
  | T_STAR => Some (EBin (BOp BMul) l r) | T_DSLASH => Some (EBin (BOp BIdiv) l r) | T_SLASH => Some (EBin (BOp BFdiv) l r) | T_MOD => Some (EBin (BOp BMod) l r)
  | T_DSTAR => Some (EBin (BOp BPow) l r)
  | _ => None
  end.
Definition mk_un (t : tk) (e : expr) : option expr :=
  match t with
  | T_PLUS => Some (EUn UPos e) | T_MINUS => Some (EUn UNeg e) | T_BANG => Some (EUn UNot e) | T_CARET => Some (EUn UBnot e) | T_LEN => Some (EUn ULen e)
  | _ => None
  end.
Definition node (o : option expr) : pres expr := match o with Some e => POk e | None => PSyntax end.

(** ** Expressions. Levels are numbered in the order the functions call each other:
    0 [parse_ternary] (:824-834), 1 [parse_undef_or], 2 [parse_or], 3 [parse_and], 4 [parse_equals], 5 [parse_comparator],
    6 [parse_concat], 7 [parse_bor], 8 [parse_bxor], 9 [parse_band], 10 [parse_bshift], 11 [parse_add], 12 [parse_multiply]
    (:836-876), 13 [parse_unary] (:878-888), 14 [parse_power] (:890-898), 15 [parse_call] (:900-968), 16 [parse_constant]
    (:970-1022). The macro arguments of BINOP_R and BINOP_L, :863-876: *)
Inductive assoc : Set := ALeft | ARight.
Definition binary (k : nat) : option (assoc * list tk) :=
  match k with
  | 1 => Some (ARight, [T_DQMARK])
  | 2 => Some (ARight, [T_DBAR])
  | 3 => Some (ARight, [T_DAMP])
  | 4 => Some (ALeft, [T_DEQ; T_BANGEQ; T_TEQ; T_BANGDEQ])
  | 5 => Some (ALeft, [T_LT; T_LTEQ; T_GT; T_GTEQ])
  | 6 => Some (ARight, [T_TILDE])
  | 7 => Some (ALeft, [T_BAR])
  | 8 => Some (ALeft, [T_CARET])
  | 9 => Some (ALeft, [T_AMP; T_AMPCARET])
  | 10 => Some (ALeft, [T_DGT; T_DLT])
  | 11 => Some (ALeft, [T_PLUS; T_MINUS])
  | 12 => Some (ALeft, [T_STAR; T_DSLASH; T_SLASH; T_MOD])
  | _ => None
  end%nat.

Section Parser.
Variable strtod : list Z -> float.   (* [get_float], :1047-1049 *)

(** [parse_id], [parse_undef], [parse_float], [parse_integer], [parse_boolean], [parse_string] (:1024-1120) and the literal
    [.name]. *)
Definition p_leaf (ts : list token) : pres (expr * list token) :=
  match cur ts with
  | T_DOT => get (x, ts) <- eatname (tl ts); POk (EStr x, ts)
  | T_ID => POk (EVar (cur_val ts), tl ts)
  | T_STR => if cur_interp ts then POut else POk (EStr (cur_val ts), tl ts)
  | T_INT => POk (EInt (get_int (cur_val ts)), tl ts)
  | T_FLOAT => POk (EFloat (strtod (cur_val ts)), tl ts)
  | T_BOOL => POk (EBool (bytes_eqb (cur_val ts) [116; 114; 117; 101]), tl ts)
  | T_UNDEF => POk (EUndef, tl ts)
  | T_LSQB | T_LBRC | T_FN => POut
  | _ => PSyntax
  end.
Fixpoint p_level (fuel : nat) (k : nat) (ts : list token) {struct fuel} : pres (expr * list token) :=
  match fuel with
  | O => PFuel
  | S f =>
    match binary k with
    | Some (ARight, ops) =>
        get (l, ts) <- p_level f (S k) ts;
        if one ops ts then get (r, ts') <- p_level f k (tl ts); get e <- node (mk_bin (cur ts) l r); POk (e, ts') else POk (l, ts)
    | Some (ALeft, ops) => get (l, ts) <- p_level f (S k) ts; p_loop f k l ts
    | None =>
      match k with
      | 0 => get (c, ts) <- p_level f 1 ts;
             if is T_QMARK ts then
               get (a, ts) <- p_level f 0 (tl ts); get ts <- eat T_COLON ts; get (b, ts) <- p_level f 0 ts; POk (ETri c a b, ts)
             else POk (c, ts)
      | 13 => if one [T_PLUS; T_MINUS; T_BANG; T_CARET; T_LEN] ts
              then get (e, ts') <- p_level f 13 (tl ts); get e <- node (mk_un (cur ts) e); POk (e, ts')
              else p_level f 14 ts
      | 14 => get (l, ts) <- p_level f 15 ts;
              if is T_DSTAR ts then get (r, ts) <- p_level f 13 (tl ts); POk (EBin (BOp BPow) l r, ts) else POk (l, ts)
      | 15 => get (e, ts) <- p_level f 16 ts; if one [T_LSQB; T_DOT; T_LPAR; T_RIGHT_ARR] ts then POut else POk (e, ts)
      | _ => if is T_LPAR ts then get (e, ts) <- p_expr f (tl ts); get ts <- eat T_RPAR ts; POk (e, ts) else p_leaf ts
      end%nat
    end
  end
with p_loop (fuel : nat) (k : nat) (l : expr) (ts : list token) {struct fuel} : pres (expr * list token) :=   (* BINOP_L's while *)
  match fuel with
  | O => PFuel
  | S f =>
    match binary k with
    | Some (_, ops) =>
        if one ops ts then get (r, ts') <- p_level f (S k) (tl ts); get e <- node (mk_bin (cur ts) l r); p_loop f k e ts' else POk (l, ts)
    | None => PSyntax
    end
  end
with p_expr (fuel : nat) (ts : list token) {struct fuel} : pres (expr * list token) :=   (* [parse_expr], :773-778 *)
  match fuel with
  | O => PFuel
  | S f => get (e, ts) <- p_level f 0 ts; get e <- fuelled (fold e); POk (e, ts)
  end.

(** ** Statements. *)
(** [tok_isaugmented], :108-118. *)
Definition augmented (t : tk) : bool :=
  existsb (tk_eqb t) [T_CARETEQ; T_STAREQ; T_SLASHEQ; T_DSLASHEQ; T_MODEQ; T_PLUSEQ; T_MINUSEQ; T_DGTEQ; T_DLTEQ; T_DBAREQ; T_DAMPEQ; T_TILDEEQ; T_AMPEQ; T_AMPCARETEQ; T_DSTAREQ; T_BAREQ; T_DQMARKEQ].
(** [parse_assign], :780-822. The operator of [op=] is the token before it in the enumeration. *)
Definition p_assign (fuel : nat) (e : expr) (ts : list token) : pres (stmt * list token) :=
  if is T_EQ ts then
    match e with EVar x => get (v, ts) <- p_expr fuel (tl ts); POk (SAssign x v, ts) | _ => PSyntax end
  else
    let op := tk_of_code (tk_code (cur ts) - 1) in
    match e with EVar x => get (v, ts) <- p_expr fuel (tl ts); get b <- node (mk_bin op (EVar x) v); POk (SAssign x b, ts) | _ => PSyntax end.
(** [parse_assign_or_exprstmt], :180-201, without the [N_GET] case. *)
Definition p_simple (fuel : nat) (ts : list token) : pres (stmt * list token) :=
  get (e, ts) <- p_expr fuel ts;
  if is T_EQ ts || augmented (cur ts) then p_assign fuel e ts else POk (SExpr e, ts).
(** [parse_let_const_or_var], :406-427. *)
Definition p_lval (fuel : nat) (ts : list token) : pres (lval * list token) :=
  if is T_LET ts then get (x, ts) <- eatname (tl ts); POk (LLet x, ts)
  else if is T_CONST ts then get (x, ts) <- eatname (tl ts); POk (LConst x, ts)
  else get (e, ts) <- p_level fuel 15 ts; match e with EVar x => POk (LAssign x, ts) | _ => PSyntax end.
(** The loop of [parse_decl_helper], :447-452. *)
Fixpoint p_lvals (fuel : nat) (ts : list token) : pres (list lval * list token) :=
  match fuel with
  | O => PFuel
  | S f => if is T_COMMA ts then get (l, ts) <- p_lval f (tl ts); get (ls, ts) <- p_lvals f ts; POk (l :: ls, ts) else POk ([], ts)
  end.
(** [parse_var_pack], :429-445: at least one value, more while [more] are allowed, then undef up to [expected]. The
    fragment has no calls, so [will_var_expand] is false. *)
Fixpoint p_exprs (fuel : nat) (more : nat) (ts : list token) : pres (list expr * list token) :=
  match fuel with
  | O => PFuel
  | S f =>
      get (e, ts) <- p_expr f ts;
      match more with
      | O => POk ([e], ts)
      | S m => if is T_COMMA ts then get (es, ts) <- p_exprs f m (tl ts); POk (e :: es, ts) else POk ([e], ts)
      end
  end.
Definition p_pack (fuel expected : nat) (ts : list token) : pres (list expr * list token) :=
  get (es, ts) <- p_exprs fuel expected ts; POk (es ++ repeat EUndef (expected - length es), ts).
(** [parse_decl], :460-470, with [parse_decl_helper]. *)
Definition p_decl (fuel : nat) (ts : list token) : pres (stmt * list token) :=
  get (l, ts) <- p_lval fuel ts;
  get (ls, ts) <- p_lvals fuel ts;
  get ts <- eat T_EQ ts;
  get (es, ts) <- p_pack fuel (length (l :: ls)) ts;
  POk (SDecl (l :: ls) es, ts).
(** [new_ExprStmt] around the post statement of a for (:519): [visit_ExprStmt] adds no pop after an assignment
    (compiler.c:358-378). *)
Definition post_stmt (s : stmt) : stmt := match s with SAssign _ _ => s | _ => SPop s end.
Definition seq_of (l : list stmt) : stmt := fold_right SSeq SSkip l.

(** [parse_program], :239-300; [parse_body], :302-313; [parse_for], :501-524; [parse_while], :526-533; [parse_if], :739-771;
    [parse_assert], :767-771. *)
Fixpoint p_stmt (fuel : nat) (ts : list token) {struct fuel} : pres (stmt * list token) :=
  match fuel with
  | O => PFuel
  | S f =>
    match cur ts with
    | T_ECHO => get (e, ts) <- p_expr f (tl ts); POk (SEcho e, ts)
    | T_FN | T_RET | T_EXPORT | T_MATCH => POut
    | T_CONST => if is T_FN (tl ts) then POut else p_decl f ts
    | T_LET => p_decl f ts
    | T_ID => if is T_COMMA (tl ts) then p_decl f ts else p_simple f ts
    | T_FOR =>
        let ts := tl ts in
        if is T_LET ts then
          get (x, ts) <- eatname (tl ts); get ts <- eat T_EQ ts; get (e, ts) <- p_expr f ts;        (* [parse_let], :472-480 *)
          get ts <- eat T_SEMI ts; get (c, ts) <- p_expr f ts; get ts <- eat T_SEMI ts;
          get (post, ts) <- p_simple f ts; get (b, ts) <- p_body f ts;
          POk (SBlock (seq_of [SLet x e; SWhilePost c (SBlock b) (post_stmt post)]), ts)
        else
          get (x, ts) <- eatname ts; get ts <- eat T_LEFT_ARR ts; get (e, ts) <- p_expr f ts;       (* [parse_iterate], :482-489 *)
          get (b, ts) <- p_body f ts; POk (SForIn x e (SBlock b), ts)
    | T_WHILE => get (c, ts) <- p_expr f (tl ts); get (b, ts) <- p_body f ts; POk (SWhile c (SBlock b), ts)
    | T_BREAK => POk (SBreak, tl ts)
    | T_CONT => POk (SContinue, tl ts)
    | T_IF => p_if f (tl ts)
    | T_ELSEIF | T_ELSE => PSyntax
    | T_ASS => get (e, ts) <- p_expr f (tl ts); POk (SAssert e, ts)
    | T_UNKNOWN => PSyntax
    | _ => p_simple f ts
    end
  end
with p_if (fuel : nat) (ts : list token) {struct fuel} : pres (stmt * list token) :=     (* after `if` or `elseif` *)
  match fuel with
  | O => PFuel
  | S f =>
    get (c, ts) <- p_expr f ts; get (b, ts) <- p_body f ts;
    match cur ts with
    | T_ELSEIF => get (e, ts) <- p_if f (tl ts); POk (SIfElse c (SBlock b) e, ts)
    | T_ELSE => get (e, ts) <- p_body f (tl ts); POk (SIfElse c (SBlock b) (SBlock e), ts)
    | _ => POk (SIf c (SBlock b), ts)
    end
  end
with p_body (fuel : nat) (ts : list token) {struct fuel} : pres (stmt * list token) :=
  match fuel with
  | O => PFuel
  | S f => get ts <- eat T_LBRC ts; get (l, ts) <- p_stmts f ts; get ts <- eat T_RBRC ts; POk (seq_of l, ts)
  end
with p_stmts (fuel : nat) (ts : list token) {struct fuel} : pres (list stmt * list token) :=
  match fuel with
  | O => PFuel
  | S f =>
    if is T_RBRC ts || is T_EOF ts then POk ([], ts)
    else get (s, ts) <- p_stmt f ts; get ts <- eat T_SEMI ts; get (l, ts) <- p_stmts f ts; POk (s :: l, ts)
  end.
(** The loop of [compile], compiler.c:316-330, without the code generation. *)
Fixpoint p_program (fuel : nat) (ts : list token) : pres (list stmt) :=
  match fuel with
  | O => PFuel
  | S f =>
    if is T_EOF ts then POk []
    else get (s, ts) <- p_stmt f ts; get ts <- eat T_SEMI ts; get l <- p_program f ts; POk (s :: l)
  end.
(** From the text. *)
Definition parse_text (fuel : nat) (text : list Z) : pres (list stmt) :=
  match lex text with Some ts => p_program fuel (map fst ts) | None => PFuel end.
End Parser.
