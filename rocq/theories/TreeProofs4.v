(** * The parser reads what is written: proofs for the grammar of TreeSpec.v, statements. *)
From Verif Require Import Base Value Ops Ast Fold FoldProofs Stmt Text TextSpec TextProofs PropText Lexer LexSpec Parser ParseSpec ParseProofs Tree TreeParser TreeSpec TreeProofs TreeProofs2 TreeProofs3.
Local Open Scope list_scope.

Section Stmts.
Variable strtod : list Z -> float.
Notation q_expr := (TreeParser.q_expr strtod).
Notation q_body := (TreeParser.q_body strtod).
Notation q_stmt := (TreeParser.q_stmt strtod).
Notation q_stmts := (TreeParser.q_stmts strtod).
Notation q_if := (TreeParser.q_if strtod).
Notation q_fn := (TreeParser.q_fn strtod).
Notation x_at := (TreeSpec.x_at strtod).
Notation reads := (TreeProofs2.reads strtod).
Notation parses := (TreeProofs2.parses strtod).
Notation item := (TreeProofs2.item strtod).
Notation sep := (TreeProofs2.sep strtod).
Ltac b1 := eapply (ev_bind _ (fun m '(e, ts) => _)).
Ltac b2 := eapply (ev2_bind _ (fun m f '(e, ts) => _)).
Lemma stmt_step m ts : q_stmt (S m) ts = match cur ts with
    | T_ECHO => get (e, ts) <- q_expr m (tl ts); POk (XEcho e, ts)
    | T_FN => if is T_ID (tl ts) then q_fn m false (tl ts) else POut
    | T_RET => q_return (q_expr m) m (tl ts)
    | T_EXPORT | T_MATCH => POut
    | T_CONST => if is T_FN (tl ts) then q_fn m true (tl (tl ts)) else q_decl (q_expr m) m ts
    | T_LET => q_decl (q_expr m) m ts
    | T_ID => if is T_COMMA (tl ts) then q_decl (q_expr m) m ts else q_simple (q_expr m) ts
    | T_FOR =>
        let ts := tl ts in
        if is T_LET ts then
          get (x, ts) <- eatname (tl ts); get ts <- eat T_EQ ts; get (e, ts) <- q_expr m ts;
          get ts <- eat T_SEMI ts; get (c, ts) <- q_expr m ts; get ts <- eat T_SEMI ts;
          get (post, ts) <- q_simple (q_expr m) ts; get (b, ts) <- q_body m ts;
          POk (XBlock (seq_x [XLet x e; XWhilePost c (XBlock b) (post_x post)]), ts)
        else
          get (x, ts) <- eatname ts; get ts <- eat T_LEFT_ARR ts; get (e, ts) <- q_expr m ts;
          get (b, ts) <- q_body m ts; POk (XForIn x e (XBlock b), ts)
    | T_WHILE => get (c, ts) <- q_expr m (tl ts); get (b, ts) <- q_body m ts; POk (XWhile c (XBlock b), ts)
    | T_BREAK => POk (XBreak, tl ts)
    | T_CONT => POk (XContinue, tl ts)
    | T_IF => q_if m (tl ts)
    | T_ELSEIF | T_ELSE => PSyntax
    | T_ASS => get (e, ts) <- q_expr m (tl ts); POk (XAssert e, ts)
    | T_UNKNOWN => PSyntax
    | _ => q_simple (q_expr m) ts
    end.
Proof. reflexivity. Qed.
Lemma fn_step m k ts : q_fn (S m) k ts =
    get (x, ts) <- eatname ts;
    if negb k && is T_DOT ts then
      get (y, ts) <- eatname (tl ts); get ts <- eat T_LPAR ts; get (ps, ts) <- p_params ts; get ts <- eat T_RPAR ts; get (b, ts) <- q_body m ts;
      POk (XSet (XVar x) (XStr y) (XFn ps b), ts)
    else get ts <- eat T_LPAR ts; get (ps, ts) <- p_params ts; get ts <- eat T_RPAR ts; get (b, ts) <- q_body m ts; POk (XFnDecl k x ps b, ts).
Proof. reflexivity. Qed.
Lemma if_step m ts : q_if (S m) ts = get (c, ts) <- q_expr m ts; get (b, ts) <- q_body m ts;
    match cur ts with
    | T_ELSEIF => get (e, ts) <- q_if m (tl ts); POk (XIfElse c (XBlock b) e, ts)
    | T_ELSE => get (e, ts) <- q_body m (tl ts); POk (XIfElse c (XBlock b) (XBlock e), ts)
    | _ => POk (XIf c (XBlock b), ts)
    end.
Proof. reflexivity. Qed.
Lemma body_step m ts : q_body (S m) ts = get ts <- eat T_LBRC ts; get (l, ts) <- q_stmts m ts; get ts <- eat T_RBRC ts; POk (seq_x l, ts). Proof. reflexivity. Qed.
Lemma stmts_step m ts : q_stmts (S m) ts = if is T_RBRC ts || is T_EOF ts then POk ([], ts) else get (s, ts) <- q_stmt m ts; get ts <- eat T_SEMI ts; get (l, ts) <- q_stmts m ts; POk (s :: l, ts). Proof. reflexivity. Qed.

(** ** Statements that start like expressions. *)
Lemma simple_start ts m : xstarter (cur ts) = true -> cur ts <> T_FN -> (cur ts = T_ID -> is T_COMMA (tl ts) = false) -> q_stmt (S m) ts = q_simple (q_expr m) ts.
Proof. intros X N C. rewrite stmt_step. destruct (cur ts); try discriminate X; try congruence. rewrite C by reflexivity. reflexivity. Qed.
Lemma stronger k j e a : x_at k e a -> reads k e a -> (j <= k <= 16)%nat -> reads j e a.
Proof.
  intros H R. remember (k - j)%nat as d eqn:D. revert k j H R D. induction d as [|d IH]; intros k j H R D L; [replace j with k by lia; exact R|].
  destruct k as [|k]; [lia|]. apply (IH k j); [apply x_stronger; [exact H|lia]|eapply stronger_reads; [exact H|exact R|lia]|lia|lia].
Qed.
Lemma second_tok toks a rest : tokens toks a -> a <> [] -> second_ok a -> cur rest <> T_COMMA -> cur (toks ++ rest) = T_ID -> is T_COMMA (tl (toks ++ rest)) = false.
Proof. intros (T & _). apply (second_cur toks a rest T). Qed.
Lemma not_fn_starts a : not_fn a -> starts a <> T_FN. Proof. destruct a; cbn; [tauto|auto]. Qed.
Definition first_ok (a : list lexeme) : Prop := a <> [] /\ xstarter (starts a) = true /\ not_fn a /\ second_ok a.
Lemma first_simple a toks rest : first_ok a -> tokens toks a -> cur rest <> T_COMMA -> forall m, q_stmt (S m) (toks ++ rest) = q_simple (q_expr m) (toks ++ rest).
Proof.
  intros (Ne & St & Nf & Se) T C m. apply simple_start; [rewrite (tok_cur _ _ _ T Ne); exact St|rewrite (tok_cur _ _ _ T Ne); apply not_fn_starts, Nf|].
  apply second_tok with (a := a); assumption.
Qed.
Definition st_reads (s : xs) (a : list lexeme) : Prop := forall toks rest sf, tokens toks a -> fold_s s = Ok sf -> cur rest = T_SEMI -> eventually (fun m => q_stmt m (toks ++ rest)) (sf, rest).
Definition simple_reads (s : xs) (a : list lexeme) : Prop := forall toks rest sf, tokens toks a -> fold_s s = Ok sf -> binds (cur rest) = None -> eventually (fun m => q_simple (q_expr m) (toks ++ rest)) (sf, rest).
Lemma var_parses x : parses (XVar x) [LId x].
Proof. apply reads_parses. apply (stronger 16); [apply (x_leaf _ (EVar x)); constructor|apply (leaf_reads strtod (EVar x)); constructor|lia]. Qed.
Lemma set_var_reads x e a : item e a -> simple_reads (XAssign x e) (LId x :: LFixed T_EQ :: a).
Proof.
  intros (P & _) toks rest sf T F B. cbn [fold_s] in F. unbind F. injection F as <-. change (LId x :: LFixed T_EQ :: a) with ([LId x] ++ LFixed T_EQ :: a) in T. tka T tx tb Tx. tk1 T nl t1. rewrite <- app_assoc. cbn [app kind content].
  unfold q_simple. b1; [apply (var_parses x); [exact Tx|reflexivity|reflexivity]|]. cbv beta iota. eapply ev_eq; [intros; rewrite is_eq by reflexivity; reflexivity|]. unfold q_assign. eapply ev_eq; [intros; rewrite is_eq by reflexivity; cbn [tl]; reflexivity|].
  b1; [apply P; eassumption|]. apply ev_ret.
Qed.
Lemma set_var_op_reads x o t e a : compound o = Some t -> item e a -> simple_reads (XAssign x (mix o (XVar x) e)) (LId x :: LFixed t :: a).
Proof.
  intros C (P & _) toks rest sf T F B. destruct (compound_ok _ _ C) as (Au & Ne & Bi & Op & _). cbn [fold_s] in F. unbind F. injection F as <-. destruct (fold_mix_var _ _ _ _ E) as (e' & Fe & ->). change (LId x :: LFixed t :: a) with ([LId x] ++ LFixed t :: a) in T. tka T tx tb Tx. tk1 T nl t1. rewrite <- app_assoc. cbn [app kind content].
  unfold q_simple. b1; [apply (var_parses x); [exact Tx|reflexivity|exact Bi]|]. cbv beta iota. eapply ev_eq; [intros; cbn [cur t_type]; rewrite Au, orb_true_r; reflexivity|]. unfold q_assign. eapply ev_eq; [intros; rewrite is_neq by exact Ne; cbn [cur t_type tl]; rewrite Op; reflexivity|].
  b1; [apply P; eassumption|]. eapply ev_eq; [intros; cbv beta iota; rewrite mkx_mix; reflexivity|]. apply ev_ret.
Qed.
Lemma set_reads c k e a b : parses (XGet c k) a -> item e b -> simple_reads (XSet c k e) (a ++ LFixed T_EQ :: b).
Proof.
  intros Pg (P & _) toks rest sf T F B. cbn [fold_s] in F. unbind F. injection F as <-. tka T tx tb Tx. tk1 T nl t1. rewrite <- app_assoc. cbn [app kind content].
  unfold q_simple. b1; [apply Pg; [exact Tx|cbn [fold_e]; rewrite E, E0; reflexivity|reflexivity]|]. cbv beta iota. eapply ev_eq; [intros; rewrite is_eq by reflexivity; reflexivity|]. unfold q_assign. eapply ev_eq; [intros; rewrite is_eq by reflexivity; cbn [tl]; reflexivity|].
  b1; [apply P; eassumption|]. apply ev_ret.
Qed.
Lemma set_op_reads c k o t e a b : compound o = Some t -> parses (XGet c k) a -> item e b -> simple_reads (XSet c k (mix o (XGet c k) e)) (a ++ LFixed t :: b).
Proof.
  intros C Pg (P & _) toks rest sf T F B. destruct (compound_ok _ _ C) as (Au & Ne & Bi & Op & _). cbn [fold_s] in F. unbind F. injection F as <-. destruct (fold_mix_get _ _ _ _ _ E1) as (c' & k' & e' & Fc & Fk & Fe & ->). assert (c' = a0) by congruence. assert (k' = a1) by congruence. subst c' k'.
  tka T tx tb Tx. tk1 T nl t1. rewrite <- app_assoc. cbn [app kind content].
  unfold q_simple. b1; [apply Pg; [exact Tx|cbn [fold_e]; rewrite E, E0; reflexivity|exact Bi]|]. cbv beta iota. eapply ev_eq; [intros; cbn [cur t_type]; rewrite Au, orb_true_r; reflexivity|]. unfold q_assign. eapply ev_eq; [intros; rewrite is_neq by exact Ne; cbn [cur t_type tl]; rewrite Op; reflexivity|].
  b1; [apply P; eassumption|]. eapply ev_eq; [intros; cbv beta iota; rewrite mkx_mix; reflexivity|]. apply ev_ret.
Qed.
Lemma expr_stmt_reads e a : item e a -> first_ok a -> st_reads (XExpr e) a.
Proof.
  intros (P & _) Fo toks rest sf T F C. cbn [fold_s] in F. unbind F. injection F as <-. eapply ev_step; [|intros m; apply (first_simple a); [exact Fo|exact T|rewrite C; discriminate]].
  unfold q_simple. b1; [apply P; [exact T|exact E|rewrite C; reflexivity]|]. cbv beta iota. eapply ev_eq; [intros; rewrite !is_neq by (rewrite C; discriminate); rewrite C; cbn [orb augmented]; reflexivity|].
  destruct a0; apply ev_ret.
Qed.
Lemma simple_st_reads s a : simple_reads s a -> first_ok a -> st_reads s a.
Proof.
  intros R Fo toks rest sf T F C. eapply ev_step; [|intros m; apply (first_simple a); [exact Fo|exact T|rewrite C; discriminate]]. apply R; [exact T|exact F|rewrite C; reflexivity].
Qed.
Lemma assigns_first s a : assigns strtod s a -> first_ok a.
Proof.
  destruct 1 as [x e a H|x o t e a C H|c k e a b H Nf H2|c k o t e a b C H Nf H2].
  - repeat split; try discriminate. all: cbn; discriminate.
  - repeat split; try discriminate. all: cbn; try discriminate. intros _. apply (compound_ok _ _ C).
  - assert (a <> []) by (eapply x_nonempty; eassumption). repeat split.
    + destruct a; [congruence|discriminate].
    + rewrite starts_app by assumption. eapply x_starts; eassumption.
    + destruct a; [congruence|exact Nf].
    + apply second_app; [assumption|eapply x_second; eassumption|discriminate].
  - assert (a <> []) by (eapply x_nonempty; eassumption). repeat split.
    + destruct a; [congruence|discriminate].
    + rewrite starts_app by assumption. eapply x_starts; eassumption.
    + destruct a; [congruence|exact Nf].
    + apply second_app; [assumption|eapply x_second; eassumption|apply (compound_ok _ _ C)].
Qed.
Lemma x_first e a : x_at 0 e a -> not_fn a -> first_ok a.
Proof. intros H Nf. split; [eapply x_nonempty; eassumption|]. split; [eapply x_starts; eassumption|]. split; [exact Nf|eapply x_second; eassumption]. Qed.
Lemma post_same s a sf : assigns strtod s a -> fold_s s = Ok sf -> post_x sf = sf.
Proof. destruct 1; cbn [fold_s]; intros F; unbind F; injection F as <-; reflexivity. Qed.

(** ** Declarations. *)
Lemma lval_ok l a toks rest : lval_written l a -> tokens toks a -> binds (cur rest) = None -> q_lval (toks ++ rest) = POk (l, rest).
Proof.
  intros H T B. destruct H as [x|x|x]; tk1 T nl t1.
  1,2: tk1 T nl2 t2; tkn T; reflexivity.
  tkn T. cbn [app kind content spell]. unfold q_lval. rewrite !(is_neq _ (Tok T_ID x nl false :: rest)) by discriminate. rewrite is_eq by reflexivity. cbn [tl]. unfold one. destruct (cur rest); try discriminate B; reflexivity.
Qed.
Lemma lvals_ok ls a : lvals_written ls a -> forall toks rest, tokens toks a -> cur rest = T_EQ -> exists l r tl', ls = l :: r /\ q_lval (toks ++ rest) = POk (l, tl') /\ eventually (fun f => q_lvals f tl') (r, rest).
Proof.
  induction 1 as [l a H|l a ls b H HH IH]; intros toks rest T C.
  - exists l, [], rest. split; [reflexivity|]. split; [eapply lval_ok; try eassumption; rewrite C; reflexivity|]. eapply ev_step; [|intros m; cbn [q_lvals]; rewrite is_neq by (rewrite C; discriminate); reflexivity]. apply ev_ret.
  - tka T ta tb Ta. tk1 T nl ts. destruct (IH ts rest T C) as (l2 & r & tl' & -> & A & B). rewrite <- app_assoc. cbn [app kind content].
    exists l, (l2 :: r), (Tok T_COMMA [] nl false :: ts ++ rest). split; [reflexivity|]. split; [eapply lval_ok; try eassumption; reflexivity|].
    eapply ev_step; [|intros m; cbn [q_lvals]; rewrite is_eq by reflexivity; cbn [tl]; rewrite A; cbn [pbind]; reflexivity]. b1; [exact B|]. apply ev_ret.
Qed.
Lemma decl_start ls a : lvals_written ls a -> (match ls with [LAssign _] => False | _ => True end) -> forall toks rest, tokens toks a -> forall m, q_stmt (S m) (toks ++ rest) = q_decl (q_expr m) m (toks ++ rest).
Proof.
  intros H N toks rest T m. rewrite stmt_step. destruct H as [l a [x|x|x]|l a ls b [x|x|x] H]; try contradiction; cbn [app] in T; tk1 T nl t1; cbn [app cur kind t_type]; try reflexivity; tk1 T nl2 t2; cbn [tl app]; reflexivity.
Qed.
Lemma decl_reads ls es a b : lvals_written ls a -> (match ls with [LAssign _] => False | _ => True end) -> sep es b -> (length (xes_list es) <= length ls)%nat ->
  st_reads (XDecl ls (filled (length ls) (xes_list es))) (a ++ LFixed T_EQ :: b).
Proof.
  intros H N Sp L toks rest sf T F C. cbn [fold_s] in F. unbind F. injection F as <-. destruct (fold_filled _ _ _ E) as (esf & Fe & ->). tka T ta tb Ta. tk1 T nl ts. rewrite <- app_assoc. cbn [app kind content].
  eapply ev_step; [|intros m; eapply decl_start; eassumption]. destruct (lvals_ok _ _ H ta (Tok T_EQ [] nl false :: ts ++ rest) Ta eq_refl) as (l & r & tl' & -> & A & B).
  apply ev2_diag with (F := fun m f => q_decl (q_expr m) f _). unfold q_decl. eapply ev2_eq; [intros; rewrite A; cbn [pbind]; reflexivity|]. b2; [destruct B as (n & B); exists n; intros m f _ Lf; apply B; exact Lf|]. cbv beta iota. eapply ev2_eq; [intros; rewrite eat_tok; cbn [pbind]; reflexivity|].
  b2; [eapply exprs_ev; eassumption|]. cbv beta iota. apply ev2_ret.
Qed.

(** ** Functions, return. *)
Notation body_reads := (TreeProofs3.body_reads strtod).
Definition block (b : xs) (d : list lexeme) : Prop := body_reads b d /\ starts d = T_LBRC /\ d <> [].
Lemma block_binds b d td rest : block b d -> tokens td d -> binds (cur (td ++ rest)) = None.
Proof. intros (_ & S & N) T. rewrite (tok_cur _ _ _ T N), S. reflexivity. Qed.
Lemma fn_ok k x ps b a d : params_written ps a -> block b d -> forall toks rest bf, tokens toks (LId x :: LFixed T_LPAR :: a ++ LFixed T_RPAR :: d) -> fold_s b = Ok bf -> eventually (fun m => q_fn m k (toks ++ rest)) (XFnDecl k x ps bf, rest).
Proof.
  intros Hp (Hb & _) toks rest bf T F. tk1 T nl t1. tk1 T nl2 t2. tka T ta tb Ta. tk1 T nl3 t3. cbn [kind content spell app]. rewrite <- app_assoc. cbn [app].
  eapply ev_step; [|intros m; rewrite fn_step; rewrite eatname_tok; cbn [pbind]; rewrite (is_neq T_DOT) by discriminate; rewrite andb_false_r; rewrite eat_tok; cbn [pbind]; rewrite (params_ok _ _ Hp _ _ _ Ta); cbn [pbind]; rewrite eat_tok; cbn [pbind]; reflexivity].
  b1; [apply Hb; [exact T|exact F]|]. apply ev_ret.
Qed.
Lemma fn_field_ok x y ps b a d : params_written ps a -> block b d -> st_reads (XSet (XVar x) (XStr y) (XFn ps b)) (LFixed T_FN :: LId x :: LFixed T_DOT :: LId y :: LFixed T_LPAR :: a ++ LFixed T_RPAR :: d).
Proof.
  intros Hp (Hb & _) toks rest sf T F C. cbn [fold_s fold_e bind] in F. unbind F. injection F as <-. unbind E. injection E as <-. tk1 T nl0 t0. tk1 T nl t1. tk1 T nl5 t5. tk1 T nl6 t6. tk1 T nl2 t2. tka T ta tb Ta. tk1 T nl3 t3. cbn [kind content spell app]. rewrite <- app_assoc. cbn [app].
  eapply ev_step; [|intros m; rewrite stmt_step; cbn [cur t_type tl]; rewrite is_eq by reflexivity; reflexivity].
  eapply ev_step; [|intros m; rewrite fn_step; rewrite eatname_tok; cbn [pbind]; rewrite (is_eq T_DOT) by reflexivity; cbn [negb andb tl]; rewrite eatname_tok; cbn [pbind]; rewrite eat_tok; cbn [pbind]; rewrite (params_ok _ _ Hp _ _ _ Ta); cbn [pbind]; rewrite eat_tok; cbn [pbind]; reflexivity].
  b1; [apply Hb; [exact T|eassumption]|]. apply ev_ret.
Qed.
Lemma fn_decl_reads x ps b a d : params_written ps a -> block b d -> st_reads (XFnDecl false x ps b) (LFixed T_FN :: LId x :: LFixed T_LPAR :: a ++ LFixed T_RPAR :: d).
Proof.
  intros Hp Hb toks rest sf T F C. cbn [fold_s] in F. unbind F. injection F as <-. tk1 T nl0 t0. cbn [app kind content].
  eapply ev_step; [|intros m; rewrite stmt_step; cbn [cur t_type tl]; rewrite is_eq by (rewrite (tok_cur _ _ _ T) by discriminate; reflexivity); reflexivity]. eapply fn_ok; eassumption.
Qed.
Lemma const_fn_reads x ps b a d : params_written ps a -> block b d -> st_reads (XFnDecl true x ps b) (LFixed T_CONST :: LFixed T_FN :: LId x :: LFixed T_LPAR :: a ++ LFixed T_RPAR :: d).
Proof.
  intros Hp Hb toks rest sf T F C. cbn [fold_s] in F. unbind F. injection F as <-. tk1 T nl0 t0. tk1 T nl1 t1. cbn [app kind content].
  eapply ev_step; [|intros m; rewrite stmt_step; cbn [cur t_type tl]; rewrite is_eq by reflexivity; cbn [tl]; reflexivity]. eapply fn_ok; eassumption.
Qed.
Lemma return_reads e a : item e a -> st_reads (XReturn (XCtx (-1) e)) (LFixed T_RET :: a).
Proof.
  intros It toks rest sf T F C. cbn [fold_s fold_e] in F. unbind F. injection F as <-. unbind E. injection E as <-. tk1 T nl t1. cbn [app kind content].
  eapply ev_step; [|intros m; rewrite stmt_step; cbn [cur t_type tl]; reflexivity]. apply ev2_diag with (F := fun m f => q_return (q_expr m) f _). unfold q_return.
  b2; [eapply item_ev; [exact It|exact T|eassumption|rewrite C; reflexivity]|]. cbv beta iota. eapply ev2_eq; [intros; rewrite is_neq by (rewrite C; discriminate); reflexivity|]. apply ev2_ret.
Qed.
Lemma returns_reads e es a b : item e a -> sep es b -> st_reads (XReturns (keep (-1) (XCons e es))) (LFixed T_RET :: a ++ LFixed T_COMMA :: b).
Proof.
  intros It Sp toks rest sf T F C. cbn [fold_s] in F. unbind F. injection F as <-. destruct (fold_keep _ _ _ E) as (esf & Fe & ->). clear E. cbn [fold_es] in Fe. unbind Fe. injection Fe as <-. tk1 T nl t1. tka T ta tb Ta. tk1 T nl2 t2. cbn [app kind content]. rewrite <- app_assoc. cbn [app].
  eapply ev_step; [|intros m; rewrite stmt_step; cbn [cur t_type tl]; reflexivity]. apply ev2_diag with (F := fun m f => q_return (q_expr m) f _). unfold q_return.
  b2; [eapply item_ev; [exact It|exact Ta|eassumption|reflexivity]|]. cbv beta iota. eapply ev2_eq; [intros; rewrite is_eq by reflexivity; reflexivity|].
  b2; [eapply more_ev; [exact Sp|exact T|eassumption|rewrite C; reflexivity|rewrite C; discriminate]|]. apply ev2_ret.
Qed.

(** ** The other statements. *)
Lemma echo_reads e a : item e a -> st_reads (XEcho e) (LFixed T_ECHO :: a).
Proof.
  intros (P & _) toks rest sf T F C. cbn [fold_s] in F. unbind F. injection F as <-. tk1 T nl t1. cbn [app kind content]. eapply ev_step; [|intros m; rewrite stmt_step; cbn [cur t_type tl]; reflexivity]. b1; [apply P; [exact T|exact E|rewrite C; reflexivity]|]. apply ev_ret.
Qed.
Lemma assert_reads e a : item e a -> st_reads (XAssert e) (LFixed T_ASS :: a).
Proof.
  intros (P & _) toks rest sf T F C. cbn [fold_s] in F. unbind F. injection F as <-. tk1 T nl t1. cbn [app kind content]. eapply ev_step; [|intros m; rewrite stmt_step; cbn [cur t_type tl]; reflexivity]. b1; [apply P; [exact T|exact E|rewrite C; reflexivity]|]. apply ev_ret.
Qed.
Lemma while_reads c b a d : item c a -> block b d -> st_reads (XWhile c (XBlock b)) (LFixed T_WHILE :: a ++ d).
Proof.
  intros (P & _) Hb toks rest sf T F C. cbn [fold_s] in F. unbind F. injection F as <-. unbind E0. injection E0 as <-. tk1 T nl t1. tka T ta tb Ta. cbn [app kind content]. rewrite <- app_assoc. eapply ev_step; [|intros m; rewrite stmt_step; cbn [cur t_type tl]; reflexivity].
  b1; [apply P; [exact Ta|exact E|eapply block_binds; eassumption]|]. cbv beta iota. b1; [apply Hb; [exact T|eassumption]|]. apply ev_ret.
Qed.
Lemma forin_reads x e b a d : item e a -> block b d -> st_reads (XForIn x e (XBlock b)) (LFixed T_FOR :: LId x :: LFixed T_LEFT_ARR :: a ++ d).
Proof.
  intros (P & _) Hb toks rest sf T F C. cbn [fold_s] in F. unbind F. injection F as <-. unbind E0. injection E0 as <-. tk1 T nl t1. tk1 T nl2 t2. tk1 T nl3 t3. tka T ta tb Ta. cbn [app kind content spell]. rewrite <- app_assoc.
  eapply ev_step; [|intros m; rewrite stmt_step; cbn [cur t_type tl]; cbv zeta; rewrite is_neq by discriminate; rewrite eatname_tok; cbn [pbind]; rewrite eat_tok; cbn [pbind]; reflexivity].
  b1; [apply P; [exact Ta|exact E|eapply block_binds; eassumption]|]. cbv beta iota. b1; [apply Hb; [exact T|eassumption]|]. apply ev_ret.
Qed.
Lemma for_reads x e c s b a1 a2 a3 d t1 t2 : item e a1 -> semicolon t1 -> item c a2 -> semicolon t2 -> assigns strtod s a3 -> simple_reads s a3 -> block b d ->
    st_reads (XBlock (order [XLet x e; XWhilePost c (XBlock b) s])) (LFixed T_FOR :: LFixed T_LET :: LId x :: LFixed T_EQ :: a1 ++ t1 :: a2 ++ t2 :: a3 ++ d).
Proof.
  intros (Pe & _) S1 (Pc & _) S2 As Rs Hb toks rest sf T F C. cbn [fold_s order fold_right] in F. repeat match goal with H : (do _ <- _; _) = Ok _ |- _ => unbind H | H : Ok _ = Ok _ |- _ => injection H as <- end.
  tk1 T nl0 u0. tk1 T nl1 u1. tk1 T nl2 u2. tk1 T nl3 u3. tka T ta tb Ta. tk1 T nl4 u4. tka T tc td Tc. tk1 T nl5 u5. tka T te tf Te. cbn [app kind content spell]. repeat (rewrite <- app_assoc; cbn [app]). rewrite (semi_kind _ S1), (semi_kind _ S2).
  eapply ev_step; [|intros m; rewrite stmt_step; cbn [cur t_type tl]; cbv zeta; rewrite is_eq by reflexivity; cbn [tl]; rewrite eatname_tok; cbn [pbind]; rewrite eat_tok; cbn [pbind]; reflexivity].
  b1; [apply Pe; [exact Ta|eassumption|reflexivity]|]. cbv beta iota. eapply ev_eq; [intros; rewrite eat_tok; cbn [pbind]; reflexivity|].
  b1; [apply Pc; [exact Tc|eassumption|reflexivity]|]. cbv beta iota. eapply ev_eq; [intros; rewrite eat_tok; cbn [pbind]; reflexivity|].
  b1; [apply Rs; [exact Te|eassumption|eapply block_binds; eassumption]|]. cbv beta iota. b1; [apply Hb; [exact T|eassumption]|]. cbv beta iota. eapply ev_eq; [intros; erewrite post_same by eassumption; reflexivity|]. apply ev_ret.
Qed.
Definition if_reads (s : xs) (a : list lexeme) : Prop := forall toks rest sf, tokens toks a -> fold_s s = Ok sf -> cur rest = T_SEMI -> eventually (fun m => q_if m (toks ++ rest)) (sf, rest).
Lemma if_st_reads s a : if_reads s a -> st_reads s (LFixed T_IF :: a).
Proof. intros R toks rest sf T F C. tk1 T nl t1. cbn [app kind content]. eapply ev_step; [|intros m; rewrite stmt_step; cbn [cur t_type tl]; reflexivity]. apply R; assumption. Qed.
Lemma then_reads c b a d : item c a -> block b d -> if_reads (XIf c (XBlock b)) (a ++ d).
Proof.
  intros (P & _) Hb toks rest sf T F C. cbn [fold_s] in F. unbind F. injection F as <-. unbind E0. injection E0 as <-. tka T ta tb Ta. rewrite <- app_assoc. eapply ev_step; [|intros m; rewrite if_step; reflexivity].
  b1; [apply P; [exact Ta|exact E|eapply block_binds; eassumption]|]. cbv beta iota. b1; [apply Hb; [exact T|eassumption]|]. cbv beta iota. eapply ev_eq; [intros; rewrite C; reflexivity|]. apply ev_ret.
Qed.
Lemma else_reads c b b2 a d d2 : item c a -> block b d -> block b2 d2 -> if_reads (XIfElse c (XBlock b) (XBlock b2)) (a ++ d ++ LFixed T_ELSE :: d2).
Proof.
  intros (P & _) Hb Hb2 toks rest sf T F C. cbn [fold_s] in F. repeat match goal with H : (do _ <- _; _) = Ok _ |- _ => unbind H | H : Ok _ = Ok _ |- _ => injection H as <- end. tka T ta tb Ta. tka T tc td Tc. tk1 T nl t1. repeat (rewrite <- app_assoc; cbn [app]). cbn [kind content]. eapply ev_step; [|intros m; rewrite if_step; reflexivity].
  b1; [apply P; [exact Ta|eassumption|exact (block_binds _ _ _ _ Hb Tc)]|]. cbv beta iota. b1; [eapply (proj1 Hb); [exact Tc|eassumption]|]. cbv beta iota. cbn [cur t_type tl]. b1; [apply Hb2; [exact T|eassumption]|]. apply ev_ret.
Qed.
Lemma elseif_reads c b s a d d2 : item c a -> block b d -> if_reads s d2 -> if_reads (XIfElse c (XBlock b) s) (a ++ d ++ LFixed T_ELSEIF :: d2).
Proof.
  intros (P & _) Hb Hs toks rest sf T F C. cbn [fold_s] in F. repeat match goal with H : (do _ <- _; _) = Ok _ |- _ => unbind H | H : Ok _ = Ok _ |- _ => injection H as <- end. tka T ta tb Ta. tka T tc td Tc. tk1 T nl t1. repeat (rewrite <- app_assoc; cbn [app]). cbn [kind content]. eapply ev_step; [|intros m; rewrite if_step; reflexivity].
  b1; [apply P; [exact Ta|eassumption|exact (block_binds _ _ _ _ Hb Tc)]|]. cbv beta iota. b1; [eapply (proj1 Hb); [exact Tc|eassumption]|]. cbv beta iota. cbn [cur t_type tl]. b1; [apply Hs; [exact T|eassumption|exact C]|]. apply ev_ret.
Qed.
Lemma fold_order l : forall r, fold_s (order l) = Ok r -> exists l', fold_l l = Ok l' /\ r = seq_x l'.
Proof.
  induction l as [|s l IH]; intros r F; cbn [order fold_right fold_s fold_l] in *; [injection F as <-; exists []; auto|]. change (fold_right XSeq XSkip l) with (order l) in F. unbind F. injection F as <-. destruct (IH _ eq_refl) as (l' & -> & ->). cbn [bind]. eexists. split; reflexivity.
Qed.
Definition sts_reads (l : list xs) (a : list lexeme) : Prop := forall toks rest lf, tokens toks a -> fold_l l = Ok lf -> cur rest = T_RBRC -> eventually (fun m => q_stmts m (toks ++ rest)) (lf, rest).
Lemma block_of l a : sts_reads l a -> block (order l) (LFixed T_LBRC :: a ++ [LFixed T_RBRC]).
Proof.
  intros R. split; [|split; [reflexivity|discriminate]]. intros toks rest bf T F. destruct (fold_order _ _ F) as (l' & Fl & ->). tk1 T nl t1. tka T ta tb Ta. tk1 T nl2 t2. tkn T. cbn [app kind content]. rewrite <- app_assoc. cbn [app].
  eapply ev_step; [|intros m; rewrite body_step; rewrite eat_tok; cbn [pbind]; reflexivity]. b1; [apply R; [exact Ta|exact Fl|reflexivity]|]. cbv beta iota. eapply ev_eq; [intros; rewrite eat_tok; cbn [pbind]; reflexivity|]. apply ev_ret.
Qed.
Definition st_starter (t : tk) : bool := xstarter t || match t with T_ECHO | T_ASS | T_LET | T_CONST | T_IF | T_WHILE | T_FOR | T_BREAK | T_CONT | T_RET => true | _ => false end.
Lemma st_starts s a : st_written strtod s a -> st_starter (starts a) = true /\ a <> [].
Proof.
  destruct 1; try (split; [reflexivity|discriminate]).
  - split; [|eapply x_nonempty; eassumption]. unfold st_starter. erewrite x_starts by eassumption. reflexivity.
  - destruct (assigns_first _ _ H) as (A & B & _). split; [unfold st_starter; rewrite B; reflexivity|exact A].
  - destruct H as [l a [x|x|x]|l a ls b' [x|x|x] H]; split; try discriminate; reflexivity.
Qed.
Lemma none_reads : sts_reads [] [].
Proof. intros toks rest lf T F C. injection F as <-. tkn T. exists 1%nat. intros [|m] L; [lia|]. rewrite stmts_step. cbn [app]. rewrite is_eq by exact C. reflexivity. Qed.
Lemma some_reads s t l a b : st_written strtod s a -> st_reads s a -> semicolon t -> sts_reads l b -> sts_reads (s :: l) (a ++ t :: b).
Proof.
  intros H Hs S Hl toks rest lf T F C. cbn [fold_l] in F. unbind F. injection F as <-. destruct (st_starts _ _ H) as (St & Ne). tka T ta tb Ta. tk1 T nl ts. rewrite <- app_assoc. cbn [app]. rewrite (semi_kind _ S).
  pose proof (tok_cur _ _ (Tok T_SEMI (content t) nl false :: ts ++ rest) Ta Ne) as Cu.
  eapply ev_step; [|intros m; rewrite stmts_step; rewrite !is_neq by (rewrite Cu; intros X; rewrite X in St; discriminate); cbn [orb]; reflexivity].
  b1; [apply Hs; [exact Ta|exact E|reflexivity]|]. cbv beta iota. eapply ev_eq; [intros; rewrite eat_tok; cbn [pbind]; reflexivity|]. b1; [apply Hl; [exact T|eassumption|exact C]|]. apply ev_ret.
Qed.

Scheme g_x := Minimality for TreeSpec.x_at Sort Prop with g_bound := Minimality for bound Sort Prop with g_args := Minimality for args_written Sort Prop with g_es := Minimality for es_written Sort Prop
  with g_entries := Minimality for entries_written Sort Prop with g_assigns := Minimality for assigns Sort Prop with g_st := Minimality for st_written Sort Prop with g_if := Minimality for TreeSpec.if_written Sort Prop
  with g_b := Minimality for b_written Sort Prop with g_sts := Minimality for sts_written Sort Prop.
Combined Scheme grammar_mind from g_x, g_bound, g_args, g_es, g_entries, g_assigns, g_st, g_if, g_b, g_sts.
Theorem grammar_reads :
  (forall k e a, x_at k e a -> reads k e a) /\ (forall e a, bound strtod e a -> edge strtod e a) /\ (forall es a, args_written strtod es a -> some_args strtod es a) /\ (forall es a, es_written strtod es a -> sep es a) /\
  (forall es a, entries_written strtod es a -> seps strtod es a) /\ (forall s a, assigns strtod s a -> simple_reads s a) /\ (forall s a, st_written strtod s a -> st_reads s a) /\ (forall s a, TreeSpec.if_written strtod s a -> if_reads s a) /\
  (forall b a, b_written strtod b a -> block b a) /\ (forall l a, sts_written strtod l a -> sts_reads l a).
Proof.
  apply (grammar_mind strtod reads (edge strtod) (some_args strtod) sep (seps strtod) simple_reads st_reads if_reads block sts_reads); intros.
  all: repeat match goal with H : x_at 0 ?e ?a, R : reads 0 ?e ?a |- _ => lazymatch goal with _ : item e a |- _ => fail | _ => pose proof (item_of _ _ _ H R) end end.
  - eapply stronger_reads; eassumption.
  - apply left_reads; assumption.
  - apply right_reads; assumption.
  - apply ternary_reads; assumption.
  - apply prefix_reads; assumption.
  - apply power_reads; assumption.
  - apply field_reads; assumption.
  - apply index_reads; assumption.
  - apply slice_reads; assumption.
  - apply call_reads; assumption.
  - apply method_reads; assumption.
  - apply parens_reads; assumption.
  - apply leaf_reads; assumption.
  - apply nolist_reads.
  - apply list1_reads; assumption.
  - apply list_reads; assumption.
  - apply notable_reads.
  - apply table1_reads; assumption.
  - apply table_reads; assumption.
  - apply fn_reads; [assumption|]. match goal with H : block _ _ |- _ => apply H end.
  - constructor.
  - apply edge_some; assumption.
  - constructor.
  - apply sa_some; assumption.
  - constructor; assumption.
  - constructor; assumption.
  - constructor; assumption.
  - constructor; assumption.
  - apply set_var_reads; assumption.
  - apply set_var_op_reads; assumption.
  - apply set_reads; [apply reads_parses, (stronger 15); [assumption|assumption|lia]|assumption].
  - apply set_op_reads; [assumption|apply reads_parses, (stronger 15); [assumption|assumption|lia]|assumption].
  - apply echo_reads; assumption.
  - apply assert_reads; assumption.
  - apply expr_stmt_reads; [assumption|eapply x_first; eassumption].
  - apply simple_st_reads; [assumption|eapply assigns_first; eassumption].
  - apply decl_reads; assumption.
  - apply fn_decl_reads; assumption.
  - apply const_fn_reads; assumption.
  - apply fn_field_ok; assumption.
  - apply return_reads; assumption.
  - apply returns_reads; assumption.
  - apply if_st_reads; assumption.
  - apply while_reads; assumption.
  - apply for_reads; assumption.
  - apply forin_reads; assumption.
  - intros toks rest sf T F C. injection F as <-. tk1 T nl t1. tkn T. exists 1%nat. intros [|m] L; [lia|]. reflexivity.
  - intros toks rest sf T F C. injection F as <-. tk1 T nl t1. tkn T. exists 1%nat. intros [|m] L; [lia|]. reflexivity.
  - apply then_reads; assumption.
  - apply else_reads; assumption.
  - apply elseif_reads; assumption.
  - apply block_of; assumption.
  - apply none_reads.
  - apply some_reads; assumption.
Qed.
Theorem program_read l a : sts_written strtod l a -> forall toks rest lf, tokens toks a -> fold_l l = Ok lf -> cur rest = T_EOF -> eventually (fun m => q_program strtod m (toks ++ rest)) lf.
Proof.
  induction 1 as [|s t l a b H S HL IHL]; intros toks rest lf T F C.
  - injection F as <-. tkn T. exists 1%nat. intros [|m] L; [lia|]. cbn [q_program app]. rewrite is_eq by exact C. reflexivity.
  - cbn [fold_l] in F. unbind F. injection F as <-. destruct (st_starts _ _ H) as (St & Ne). tka T ta tb Ta. tk1 T nl ts. rewrite <- app_assoc. cbn [app]. rewrite (semi_kind _ S).
    pose proof (tok_cur _ _ (Tok T_SEMI (content t) nl false :: ts ++ rest) Ta Ne) as Cu.
    eapply ev_step; [|intros m; cbn [q_program]; rewrite is_neq by (rewrite Cu; intros X; rewrite X in St; discriminate); reflexivity].
    b1; [apply (proj1 (proj2 (proj2 (proj2 (proj2 (proj2 (proj2 grammar_reads)))))) _ _ H); [exact Ta|exact E|reflexivity]|]. cbv beta iota. eapply ev_eq; [intros; rewrite eat_tok; cbn [pbind]; reflexivity|]. eapply (ev_bind _ (fun m e => _)); [apply IHL; [exact T|reflexivity|exact C]|]. apply ev_ret.
Qed.
Theorem expression_read e a : x_at 0 e a -> forall toks rest ef, tokens toks a -> fold_e e = Ok ef -> binds (cur rest) = None -> eventually (fun m => q_expr m (toks ++ rest)) (ef, rest).
Proof. intros H. apply reads_parses. apply (proj1 grammar_reads _ _ _ H). Qed.
End Stmts.
