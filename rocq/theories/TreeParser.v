(** * The parser for programs with functions, calls, lists and tables: model of /repo/compiler/parser.c. Continues Parser.v, whose token
    functions and operator table it uses. Outside ([POut]): match, export, comprehensions, interpolated strings, assignments to
    several places of which one is [c[k]], a statement that starts with a function literal, and [.] or [->] followed by anything but a name. *)
From Verif Require Import Base Value Ops Ast Fold Stmt Text Lexer Parser Tree.
Local Open Scope list_scope.

(** [new_BinOp], [new_UnOp] keep the token; its meaning is compiler.c:1204-1300. *)
Definition mkx_bin (t : tk) (l r : xe) : option xe :=
  match t with
  | T_DQMARK => Some (XSc SCoal l r) | T_DBAR => Some (XSc SOr l r) | T_DAMP => Some (XSc SAnd l r)
  | T_DEQ => Some (XBin (BOp BEq) l r) | T_BANGEQ => Some (XBin BNe l r) | T_TEQ => Some (XBin (BOp BId) l r) | T_BANGDEQ => Some (XBin BNi l r)
  | T_LT => Some (XBin (BOp BLt) l r) | T_LTEQ => Some (XBin (BOp BLe) l r) | T_GT => Some (XBin (BOp BGt) l r) | T_GTEQ => Some (XBin (BOp BGe) l r)
  | T_TILDE => Some (XBin (BOp BCnct) l r)
  | T_BAR => Some (XBin (BOp BOr) l r) | T_CARET => Some (XBin (BOp BXor) l r) | T_AMP => Some (XBin (BOp BAnd) l r) | T_AMPCARET => Some (XBin (BOp BAndNot) l r)
  | T_DGT => Some (XBin (BOp BShr) l r) | T_DLT => Some (XBin (BOp BShl) l r)
  | T_PLUS => Some (XBin (BOp BAdd) l r) | T_MINUS => Some (XBin (BOp BSub) l r)
  | T_STAR => Some (XBin (BOp BMul) l r) | T_DSLASH => Some (XBin (BOp BIdiv) l r) | T_SLASH => Some (XBin (BOp BFdiv) l r) | T_MOD => Some (XBin (BOp BMod) l r)
  | T_DSTAR => Some (XBin (BOp BPow) l r)
  | _ => None
  end.
Definition mkx_un (t : tk) (e : xe) : option xe :=
  match t with
  | T_PLUS => Some (XUn UPos e) | T_MINUS => Some (XUn UNeg e) | T_BANG => Some (XUn UNot e) | T_CARET => Some (XUn UBnot e) | T_LEN => Some (XUn ULen e)
  | _ => None
  end.
Definition nodex (o : option xe) : pres xe := match o with Some e => POk e | None => PSyntax end.
(** [will_var_expand], ast.c:161-163. *)
Definition expands (e : xe) : bool := match e with XCall _ _ | XMeth _ _ _ => true | _ => false end.
(** the last one, if a call, in a variadic context: parser.c:345-348, 918-922, 961-965 *)
Fixpoint in_context (n : Z) (es : xes) : xes :=
  match es with XNil => XNil | XCons e XNil => XCons (if expands e then XCtx n e else e) XNil | XCons e r => XCons e (in_context n r) end.
Fixpoint last_expands (es : xes) : bool := match es with XNil => false | XCons e XNil => expands e | XCons _ r => last_expands r end.
Fixpoint xlength (es : xes) : nat := match es with XNil => O | XCons _ r => S (xlength r) end.
Fixpoint xapp (es l : xes) : xes := match es with XNil => l | XCons e r => XCons e (xapp r l) end.
Fixpoint undefs (n : nat) : xes := match n with O => XNil | S n => XCons XUndef (undefs n) end.
(** [while (parser->lex.c == '\n') eattok(parser, T_SEMI)], :1145, 1157, 1170, 1192, 1205, 1213. *)
Fixpoint skip_nl (ts : list token) : pres (list token) :=
  match ts with t :: r => if t_nl t then if is T_SEMI ts then skip_nl r else PSyntax else POk ts | [] => POk [] end.
(** [parse_function_params], :315-333. *)
Fixpoint p_params (ts : list token) : pres (list (name * bool) * list token) :=
  match ts with
  | t :: r =>
    match t_type t with
    | T_ID => match r with
              | t2 :: r2 => match t_type t2 with T_COMMA => get (ps, ts) <- p_params r2; POk ((t_val t, false) :: ps, ts) | _ => POk ([(t_val t, false)], r) end
              | [] => POk ([(t_val t, false)], r) end
    | T_CONST => match r with
                 | t1 :: r1 => match t_type t1 with
                               | T_ID => match r1 with
                                         | t2 :: r2 => match t_type t2 with T_COMMA => get (ps, ts) <- p_params r2; POk ((t_val t1, true) :: ps, ts) | _ => POk ([(t_val t1, true)], r1) end
                                         | [] => POk ([(t_val t1, true)], r1) end
                               | _ => PSyntax end
                 | [] => PSyntax end
    | _ => POk ([], ts)
    end
  | [] => POk ([], ts)
  end.

Section Parser.
Variable strtod : list Z -> float.   (* [get_float], :1047-1049 *)
Definition px : Type := pres (xe * list token).

(** Leaves of [parse_constant], :970-1022. *)
Definition q_leaf (ts : list token) : px :=
  match cur ts with
  | T_DOT => get (x, ts) <- eatname (tl ts); POk (XStr x, ts)
  | T_ID => POk (XVar (cur_val ts), tl ts)
  | T_STR => if cur_interp ts then POut else POk (XStr (cur_val ts), tl ts)
  | T_INT => POk (XInt (get_int (cur_val ts)), tl ts)
  | T_FLOAT => POk (XFloat (strtod (cur_val ts)), tl ts)
  | T_BOOL => POk (XBool (bytes_eqb (cur_val ts) [116; 114; 117; 101]), tl ts)
  | T_UNDEF => POk (XUndef, tl ts)
  | _ => PSyntax
  end.
(** ** Pieces that read expressions with [pe] ([parse_expr]); [fuel] bounds the loops. *)
Section Pieces.
Variable pe : list token -> px.
(** The arguments of a call, :912-917, 955-960. *)
Fixpoint q_args (fuel : nat) (ts : list token) : pres (xes * list token) :=
  match fuel with
  | O => PFuel
  | S f =>
    if is T_RPAR ts || is T_EOF ts then POk (XNil, ts)
    else get (e, ts) <- pe ts;
         if is T_COMMA ts then get (es, ts) <- q_args f (tl ts); POk (XCons e es, ts) else POk (XCons e XNil, ts)
  end.
Definition q_call (fuel : nat) (ts : list token) : pres (xes * list token) :=
  get ts <- eat T_LPAR ts; get (es, ts) <- q_args fuel ts; get ts <- eat T_RPAR ts; POk (in_context (-1) es, ts).
(** The loops of [parse_list], :1209-1212, and [parse_table], :1165-1169. *)
Fixpoint q_more (fuel : nat) (ts : list token) : pres (xes * list token) :=
  match fuel with
  | O => PFuel
  | S f => if is T_COMMA ts then get (e, ts) <- pe (tl ts); get (es, ts) <- q_more f ts; POk (XCons e es, ts) else POk (XNil, ts)
  end.
Fixpoint q_more_entries (fuel : nat) (ts : list token) : pres (xes * list token) :=
  match fuel with
  | O => PFuel
  | S f => if is T_COMMA ts then get (k, ts) <- pe (tl ts); get ts <- eat T_COLON ts; get (v, ts) <- pe ts; get (es, ts) <- q_more_entries f ts; POk (XCons k (XCons v es), ts) else POk (XNil, ts)
  end.
(** [parse_list], :1180-1218, and [parse_table], :1124-1176, after the opening bracket. *)
Definition q_list (fuel : nat) (ts : list token) : px :=
  if is T_RSQB ts then POk (XList XNil, tl ts)
  else get (e, ts) <- pe ts; get ts <- skip_nl ts;
       if is T_FOR ts then POut
       else get (es, ts) <- q_more fuel ts; get ts <- skip_nl ts; get ts <- eat T_RSQB ts; POk (XList (XCons e es), ts).
Definition q_table (fuel : nat) (ts : list token) : px :=
  if is T_RBRC ts then POk (XTable XNil, tl ts)
  else get (k, ts) <- pe ts; get ts <- eat T_COLON ts; get (v, ts) <- pe ts; get ts <- skip_nl ts;
       if is T_FOR ts then POut
       else get (es, ts) <- q_more_entries fuel ts; get ts <- skip_nl ts; get ts <- eat T_RBRC ts; POk (XTable (XCons k (XCons v es)), ts).
(** The loop of [parse_call], :902-966. *)
Fixpoint q_post (fuel : nat) (e : xe) (ts : list token) : px :=
  match fuel with
  | O => PFuel
  | S f =>
    match cur ts with
    | T_RIGHT_ARR => if is T_ID (tl ts) then get (es, ts') <- q_call f (tl (tl ts)); q_post f (XMeth e (cur_val (tl ts)) es) ts' else POut
    | T_DOT => if is T_ID (tl ts) then q_post f (XGet e (XStr (cur_val (tl ts)))) (tl (tl ts)) else POut
    | T_LSQB =>
        let ts := tl ts in
        if is T_COLON ts then
          let ts := tl ts in
          if is T_RSQB ts then q_post f (XSlice e XUndef XUndef) (tl ts)
          else get (b, ts) <- pe ts; get ts <- eat T_RSQB ts; q_post f (XSlice e XUndef b) ts
        else
          get (a, ts) <- pe ts;
          if is T_COLON ts then
            let ts := tl ts in
            if is T_RSQB ts then q_post f (XSlice e a XUndef) (tl ts)
            else get (b, ts) <- pe ts; get ts <- eat T_RSQB ts; q_post f (XSlice e a b) ts
          else get ts <- eat T_RSQB ts; q_post f (XGet e a) ts
    | T_LPAR => get (es, ts) <- q_call f ts; q_post f (XCall e es) ts
    | _ => POk (e, ts)
    end
  end.
(** [parse_assign], :780-822. *)
Definition q_assign (e : xe) (ts : list token) : pres (xs * list token) :=
  if is T_EQ ts then
    match e with
    | XVar x => get (v, ts) <- pe (tl ts); POk (XAssign x v, ts)
    | XGet c k => get (v, ts) <- pe (tl ts); POk (XSet c k v, ts)
    | _ => PSyntax end
  else
    let op := tk_of_code (tk_code (cur ts) - 1) in
    match e with
    | XVar x => get (v, ts) <- pe (tl ts); get b <- nodex (mkx_bin op (XVar x) v); POk (XAssign x b, ts)
    | XGet c k => get (v, ts) <- pe (tl ts); get b <- nodex (mkx_bin op (XGet c k) v); POk (XSet c k b, ts)
    | _ => PSyntax end.
(** [parse_assign_or_exprstmt], :180-201. *)
Definition q_simple (ts : list token) : pres (xs * list token) :=
  get (e, ts) <- pe ts;
  if is T_EQ ts || augmented (cur ts) then q_assign e ts
  else match e with XGet _ _ => if is T_COMMA ts then POut else POk (XExpr e, ts) | _ => POk (XExpr e, ts) end.
(** [parse_let_const_or_var], :406-427; a place that is not a variable is outside. *)
Definition q_lval (ts : list token) : pres (lval * list token) :=
  if is T_LET ts then get (x, ts) <- eatname (tl ts); POk (LLet x, ts)
  else if is T_CONST ts then get (x, ts) <- eatname (tl ts); POk (LConst x, ts)
  else if is T_ID ts then if one [T_LSQB; T_DOT; T_LPAR; T_RIGHT_ARR] (tl ts) then POut else POk (LAssign (cur_val ts), tl ts)
  else POut.
(** The loop of [parse_decl_helper], :450-455. *)
Fixpoint q_lvals (fuel : nat) (ts : list token) : pres (list lval * list token) :=
  match fuel with
  | O => PFuel
  | S f => if is T_COMMA ts then get (l, ts) <- q_lval (tl ts); get (ls, ts) <- q_lvals f ts; POk (l :: ls, ts) else POk ([], ts)
  end.
(** [parse_var_pack], :429-448. *)
Fixpoint q_exprs (fuel : nat) (more : nat) (ts : list token) : pres (xes * list token) :=
  match fuel with
  | O => PFuel
  | S f =>
      get (e, ts) <- pe ts;
      match more with
      | O => POk (XCons e XNil, ts)
      | S m => if is T_COMMA ts then get (es, ts) <- q_exprs f m (tl ts); POk (XCons e es, ts) else POk (XCons e XNil, ts)
      end
  end.
Definition packed (expected : nat) (es : xes) : xes :=
  if last_expands es then in_context (Z.of_nat expected - Z.of_nat (xlength es) + 1) es else xapp es (undefs (expected - xlength es)).
Definition q_decl (fuel : nat) (ts : list token) : pres (xs * list token) :=      (* [parse_decl], :463-473 *)
  get (l, ts) <- q_lval ts;
  get (ls, ts) <- q_lvals fuel ts;
  get ts <- eat T_EQ ts;
  get (es, ts) <- q_exprs fuel (length (l :: ls)) ts;
  POk (XDecl (l :: ls) (packed (length (l :: ls)) es), ts).
(** [parse_return], :335-352. *)
Definition q_return (fuel : nat) (ts : list token) : pres (xs * list token) :=
  get (e, ts) <- pe ts;
  if is T_COMMA ts then get (es, ts) <- q_more fuel ts; POk (XReturns (in_context (-1) (XCons e es)), ts)
  else POk (XReturn (XCtx (-1) e), ts).
End Pieces.
(** [new_ExprStmt] around the post statement of a for, :522. *)
Definition post_x (s : xs) : xs := match s with XAssign _ _ | XSet _ _ _ => s | _ => XPop s end.   (* no pop after these two, compiler.c:358-378 *)
Definition seq_x (l : list xs) : xs := fold_right XSeq XSkip l.

(** ** Expressions (levels as in Parser.v) and statements. *)
Fixpoint q_level (fuel : nat) (k : nat) (ts : list token) {struct fuel} : px :=
  match fuel with
  | O => PFuel
  | S f =>
    match binary k with
    | Some (ARight, ops) =>
        get (l, ts) <- q_level f (S k) ts;
        if one ops ts then get (r, ts') <- q_level f k (tl ts); get e <- nodex (mkx_bin (cur ts) l r); POk (e, ts') else POk (l, ts)
    | Some (ALeft, ops) => get (l, ts) <- q_level f (S k) ts; q_loop f k l ts
    | None =>
      match k with
      | 0 => get (c, ts) <- q_level f 1 ts;
             if is T_QMARK ts then
               get (a, ts) <- q_level f 0 (tl ts); get ts <- eat T_COLON ts; get (b, ts) <- q_level f 0 ts; POk (XTri c a b, ts)
             else POk (c, ts)
      | 13 => if one [T_PLUS; T_MINUS; T_BANG; T_CARET; T_LEN] ts
              then get (e, ts') <- q_level f 13 (tl ts); get e <- nodex (mkx_un (cur ts) e); POk (e, ts')
              else q_level f 14 ts
      | 14 => get (l, ts) <- q_level f 15 ts;
              if is T_DSTAR ts then get (r, ts) <- q_level f 13 (tl ts); POk (XBin (BOp BPow) l r, ts) else POk (l, ts)
      | 15 => get (e, ts) <- q_level f 16 ts; q_post (q_expr f) f e ts
      | _ =>
        match cur ts with
        | T_LPAR => get (e, ts) <- q_expr f (tl ts); get ts <- eat T_RPAR ts; POk (e, ts)
        | T_LSQB => q_list (q_expr f) f (tl ts)
        | T_LBRC => q_table (q_expr f) f (tl ts)
        | T_FN => get ts <- eat T_LPAR (tl ts); get (ps, ts) <- p_params ts; get ts <- eat T_RPAR ts; get (b, ts) <- q_body f ts; POk (XFn ps b, ts)   (* [parse_lambda], :1034-1045 *)
        | _ => q_leaf ts
        end
      end%nat
    end
  end
with q_loop (fuel : nat) (k : nat) (l : xe) (ts : list token) {struct fuel} : px :=   (* BINOP_L's while *)
  match fuel with
  | O => PFuel
  | S f =>
    match binary k with
    | Some (_, ops) =>
        if one ops ts then get (r, ts') <- q_level f (S k) (tl ts); get e <- nodex (mkx_bin (cur ts) l r); q_loop f k e ts' else POk (l, ts)
    | None => PSyntax
    end
  end
with q_expr (fuel : nat) (ts : list token) {struct fuel} : px :=   (* [parse_expr], :773-778 *)
  match fuel with
  | O => PFuel
  | S f => get (e, ts) <- q_level f 0 ts; get e <- fuelled (cfold e); POk (e, ts)
  end
(* [parse_program], :239-300; [parse_fn], :354-386; [parse_const_fn], :388-404; [parse_for], :501-524; [parse_while]; [parse_if]; [parse_assert] *)
with q_stmt (fuel : nat) (ts : list token) {struct fuel} : pres (xs * list token) :=
  match fuel with
  | O => PFuel
  | S f =>
    match cur ts with
    | T_ECHO => get (e, ts) <- q_expr f (tl ts); POk (XEcho e, ts)
    | T_FN => if is T_ID (tl ts) then q_fn f false (tl ts) else POut
    | T_RET => q_return (q_expr f) f (tl ts)
    | T_EXPORT | T_MATCH => POut
    | T_CONST => if is T_FN (tl ts) then q_fn f true (tl (tl ts)) else q_decl (q_expr f) f ts
    | T_LET => q_decl (q_expr f) f ts
    | T_ID => if is T_COMMA (tl ts) then q_decl (q_expr f) f ts else q_simple (q_expr f) ts
    | T_FOR =>
        let ts := tl ts in
        if is T_LET ts then
          get (x, ts) <- eatname (tl ts); get ts <- eat T_EQ ts; get (e, ts) <- q_expr f ts;
          get ts <- eat T_SEMI ts; get (c, ts) <- q_expr f ts; get ts <- eat T_SEMI ts;
          get (post, ts) <- q_simple (q_expr f) ts; get (b, ts) <- q_body f ts;
          POk (XBlock (seq_x [XLet x e; XWhilePost c (XBlock b) (post_x post)]), ts)
        else
          get (x, ts) <- eatname ts; get ts <- eat T_LEFT_ARR ts; get (e, ts) <- q_expr f ts;
          get (b, ts) <- q_body f ts; POk (XForIn x e (XBlock b), ts)
    | T_WHILE => get (c, ts) <- q_expr f (tl ts); get (b, ts) <- q_body f ts; POk (XWhile c (XBlock b), ts)
    | T_BREAK => POk (XBreak, tl ts)
    | T_CONT => POk (XContinue, tl ts)
    | T_IF => q_if f (tl ts)
    | T_ELSEIF | T_ELSE => PSyntax
    | T_ASS => get (e, ts) <- q_expr f (tl ts); POk (XAssert e, ts)
    | T_UNKNOWN => PSyntax
    | _ => q_simple (q_expr f) ts
    end
  end
with q_fn (fuel : nat) (k : bool) (ts : list token) {struct fuel} : pres (xs * list token) :=     (* after `fn` *)
  match fuel with
  | O => PFuel
  | S f =>
    get (x, ts) <- eatname ts;
    if negb k && is T_DOT ts then                                          (* fn a.b(...) { } *)
      get (y, ts) <- eatname (tl ts); get ts <- eat T_LPAR ts; get (ps, ts) <- p_params ts; get ts <- eat T_RPAR ts; get (b, ts) <- q_body f ts;
      POk (XSet (XVar x) (XStr y) (XFn ps b), ts)
    else get ts <- eat T_LPAR ts; get (ps, ts) <- p_params ts; get ts <- eat T_RPAR ts; get (b, ts) <- q_body f ts; POk (XFnDecl k x ps b, ts)
  end
with q_if (fuel : nat) (ts : list token) {struct fuel} : pres (xs * list token) :=     (* after `if` or `elseif` *)
  match fuel with
  | O => PFuel
  | S f =>
    get (c, ts) <- q_expr f ts; get (b, ts) <- q_body f ts;
    match cur ts with
    | T_ELSEIF => get (e, ts) <- q_if f (tl ts); POk (XIfElse c (XBlock b) e, ts)
    | T_ELSE => get (e, ts) <- q_body f (tl ts); POk (XIfElse c (XBlock b) (XBlock e), ts)
    | _ => POk (XIf c (XBlock b), ts)
    end
  end
with q_body (fuel : nat) (ts : list token) {struct fuel} : pres (xs * list token) :=
  match fuel with
  | O => PFuel
  | S f => get ts <- eat T_LBRC ts; get (l, ts) <- q_stmts f ts; get ts <- eat T_RBRC ts; POk (seq_x l, ts)
  end
with q_stmts (fuel : nat) (ts : list token) {struct fuel} : pres (list xs * list token) :=
  match fuel with
  | O => PFuel
  | S f =>
    if is T_RBRC ts || is T_EOF ts then POk ([], ts)
    else get (s, ts) <- q_stmt f ts; get ts <- eat T_SEMI ts; get (l, ts) <- q_stmts f ts; POk (s :: l, ts)
  end.
(** The loop of [compile], compiler.c:316-330, without the code generation. *)
Fixpoint q_program (fuel : nat) (ts : list token) : pres (list xs) :=
  match fuel with
  | O => PFuel
  | S f =>
    if is T_EOF ts then POk []
    else get (s, ts) <- q_stmt f ts; get ts <- eat T_SEMI ts; get l <- q_program f ts; POk (s :: l)
  end.
Definition read_text (fuel : nat) (text : list Z) : pres (list xs) :=
  match lex text with Some ts => q_program fuel (map fst ts) | None => PFuel end.
End Parser.
