(** * C56: programs with calls, functions, lists and tables are read as they are written. *)
From Coq Require Import String.
From Verif Require Import Base Value Ops Ast Fold Stmt Text TextSpec Lexer LexSpec LexProofs PropLex Parser ParseSpec ParseProofs ParseFuel PropParse Names.
From Verif Require Import Tree TreeParser TreeSpec TreeProofs TreeProofs2 TreeProofs3 TreeProofs4 TreeFuel.
Local Open Scope list_scope.

(** ** However an expression is written (TreeSpec.v), the parser reads that expression, with its constants folded, and stops where it ends. *)
Theorem C56_expression : forall strtod e ls toks rest ef, x_at strtod 0 e ls -> tokens toks ls -> fold_e e = Ok ef -> continues (cur rest) = false ->
  exists n, forall m, (n <= m)%nat -> q_expr strtod m (toks ++ rest) = POk (ef, rest).
Proof. intros strtod e ls toks rest ef H T F C. apply (expression_read strtod e ls H toks rest ef T F). apply continues_binds, C. Qed.
Print Assumptions C56_expression.
(** ** ... and whole programs: declarations, assignments to variables, fields and indices, functions, return, if, while, for, for-in. *)
Theorem C56_program : forall strtod pr ls toks rest prf, sts_written strtod pr ls -> tokens toks ls -> fold_l pr = Ok prf -> cur rest = T_EOF ->
  exists n, forall m, (n <= m)%nat -> q_program strtod m (toks ++ rest) = POk prf.
Proof. intros strtod pr ls toks rest prf H T F C. exact (program_read strtod pr ls H toks rest prf T F C). Qed.
Print Assumptions C56_program.
(** ** ... from the text, with any blanks and comments. *)
Theorem C56_text : forall strtod items last pr prf, well_written T_UNKNOWN items last -> sts_written strtod pr (map snd items) -> fold_l pr = Ok prf ->
  exists n, forall m, (n <= m)%nat -> read_text strtod m (text_of items last) = POk prf.
Proof.
  intros strtod items last pr prf W H F.
  assert (X : exists toks, lex (text_of items last) = Some toks /\ map view toks = expected 1 items last /\ Forall (fun p => t_interp (fst p) = false) toks /\
    exists ts e, toks = ts ++ [e] /\ Forall2 (fun p l => nl_fits l (t_nl (fst p)) = true) ts (map snd items)).
  { apply (lex_text_nl items last T_UNKNOWN); [pose proof (text_len items last W); lia|exact W]. }
  destruct X as (toks & L & V & Fi & ts & e & -> & Fn).
  assert (K : forall items line ts, map view (ts ++ [e]) = expected line items last -> Forall (fun p => t_interp (fst p) = false) (ts ++ [e]) -> tokens_of (map fst ts) (map snd items) /\ t_type (fst e) = T_EOF).
  { clear. induction items as [|[b l] items IH]; intros line ts V Fi; cbn [expected] in V.
    - destruct ts as [|t [|]]; try discriminate V. destruct e as [e z]. cbn in V. injection V as E1 E2 E3. split; [reflexivity|exact E1].
    - destruct ts as [|[t z] ts]; [destruct items as [|[? ?] ?]; discriminate V|]. cbn [map app] in V. unfold view at 1 in V. injection V as E1 E2 E3 V. inversion Fi as [|? ? F1 F2]; subst. destruct (IH _ _ V F2) as (T & Te). split; [|exact Te].
      cbn [fst] in *. unfold tokens_of in *. cbn [map snd fst]. rewrite T, E1, E2, F1. reflexivity. }
  destruct (K items 1 ts V Fi) as (T & Te). unfold read_text. rewrite L, map_app. apply (C56_program strtod pr (map snd items) (map fst ts) [fst e] prf H); [split; [exact T|]|exact F|exact Te].
  clear - Fn. induction Fn as [|p l ts ls A B IH]; constructor; auto.
Qed.
Print Assumptions C56_text.
(** ** A text has one reading: two programs that can be written the same way are the same program (up to folding). *)
Theorem C56_unambiguous : forall strtod pr1 pr2 ls, sts_written strtod pr1 ls -> sts_written strtod pr2 ls -> forall f1 f2, fold_l pr1 = Ok f1 -> fold_l pr2 = Ok f2 -> f1 = f2.
Proof.
  intros strtod pr1 pr2 ls H1 H2 f1 f2 F1 F2. set (toks := map (fun l => Tok (kind l) (content l) (match l with LNewline => true | _ => false end) false) ls).
  assert (T : tokens toks ls).
  { unfold toks. split; [unfold tokens_of; rewrite map_map; reflexivity|]. clear. induction ls as [|l ls IH]; constructor; [|exact IH]. cbn. destruct l; try reflexivity. cbn. apply orb_true_r. }
  pose (eof := Tok T_EOF [] false false). destruct (C56_program strtod pr1 ls toks [eof] f1 H1 T F1 eq_refl) as (n1 & A1). destruct (C56_program strtod pr2 ls toks [eof] f2 H2 T F2 eq_refl) as (n2 & A2).
  specialize (A1 (Nat.max n1 n2) ltac:(lia)). specialize (A2 (Nat.max n1 n2) ltac:(lia)). congruence.
Qed.
Print Assumptions C56_unambiguous.
(** The answer does not depend on the fuel of the model. *)
Theorem C56_deterministic : forall strtod text f g a b, read_text strtod f text = POk a -> read_text strtod g text = POk b -> a = b.
Proof.
  intros strtod text f g a b Ha Hb. pose proof (TreeFuel.text_fuel strtod f (Nat.max f g) text ltac:(lia) _ Ha) as A. pose proof (TreeFuel.text_fuel strtod g (Nat.max f g) text ltac:(lia) _ Hb) as B. congruence.
Qed.
Print Assumptions C56_deterministic.


(** ** The conditions can be met. The program:
<<
fn f(a, const b) {
	return a + b, f
}
let t = {.x: [1
	, f(2, 3), 4], 'k': {}}
t.x[0] += f(1 + 1, t.x[2])
t.g = fn() { }
for i <- t.x[1:] {
	if i > 2 { echo i->s(); } else { t->p(i, -i); }
}
>> *)
Definition calls_items : list (list Z * lexeme) :=
  [([], LFixed T_FN); ([32], LId [102]); ([], LFixed T_LPAR); ([], LId [97]); ([], LFixed T_COMMA); ([32], LFixed T_CONST); ([32], LId [98]); ([], LFixed T_RPAR);
   ([32], LFixed T_LBRC); ([10; 9], LFixed T_RET); ([32], LId [97]); ([32], LFixed T_PLUS); ([32], LId [98]); ([], LFixed T_COMMA); ([32], LId [102]); ([], LNewline);
   ([], LFixed T_RBRC); ([], LNewline); ([], LFixed T_LET); ([32], LId [116]); ([32], LFixed T_EQ); ([32], LFixed T_LBRC); ([], LFixed T_DOT); ([], LId [120]);
   ([], LFixed T_COLON); ([32], LFixed T_LSQB); ([], LInt [49]); ([], LNewline); ([9], LFixed T_COMMA); ([32], LId [102]); ([], LFixed T_LPAR); ([], LInt [50]);
   ([], LFixed T_COMMA); ([32], LInt [51]); ([], LFixed T_RPAR); ([], LFixed T_COMMA); ([32], LInt [52]); ([], LFixed T_RSQB); ([], LFixed T_COMMA); ([32], LStr [107]);
   ([], LFixed T_COLON); ([32], LFixed T_LBRC); ([], LFixed T_RBRC); ([], LFixed T_RBRC); ([], LNewline); ([], LId [116]); ([], LFixed T_DOT); ([], LId [120]);
   ([], LFixed T_LSQB); ([], LInt [48]); ([], LFixed T_RSQB); ([32], LFixed T_PLUSEQ); ([32], LId [102]); ([], LFixed T_LPAR); ([], LInt [49]); ([32], LFixed T_PLUS);
   ([32], LInt [49]); ([], LFixed T_COMMA); ([32], LId [116]); ([], LFixed T_DOT); ([], LId [120]); ([], LFixed T_LSQB); ([], LInt [50]); ([], LFixed T_RSQB);
   ([], LFixed T_RPAR); ([], LNewline); ([], LId [116]); ([], LFixed T_DOT); ([], LId [103]); ([32], LFixed T_EQ); ([32], LFixed T_FN); ([], LFixed T_LPAR);
   ([], LFixed T_RPAR); ([32], LFixed T_LBRC); ([32], LFixed T_RBRC); ([], LNewline); ([], LFixed T_FOR); ([32], LId [105]); ([32], LFixed T_LEFT_ARR); ([32], LId [116]);
   ([], LFixed T_DOT); ([], LId [120]); ([], LFixed T_LSQB); ([], LInt [49]); ([], LFixed T_COLON); ([], LFixed T_RSQB); ([32], LFixed T_LBRC); ([10; 9], LFixed T_IF);
   ([32], LId [105]); ([32], LFixed T_GT); ([32], LInt [50]); ([32], LFixed T_LBRC); ([32], LFixed T_ECHO); ([32], LId [105]); ([], LFixed T_RIGHT_ARR); ([], LId [115]);
   ([], LFixed T_LPAR); ([], LFixed T_RPAR); ([], LFixed T_SEMI); ([32], LFixed T_RBRC); ([32], LFixed T_ELSE); ([32], LFixed T_LBRC); ([32], LId [116]); ([], LFixed T_RIGHT_ARR);
   ([], LId [112]); ([], LFixed T_LPAR); ([], LId [105]); ([], LFixed T_COMMA); ([32], LFixed T_MINUS); ([], LId [105]); ([], LFixed T_RPAR); ([], LFixed T_SEMI);
   ([32], LFixed T_RBRC); ([], LNewline); ([], LFixed T_RBRC); ([], LNewline)].
Notation nf := [102]. Notation na := [97]. Notation nb := [98]. Notation nt := [116]. Notation nx := [120]. Notation ng := [103]. Notation ni := [105]. Notation nk := [107]. Notation ns := [115]. Notation np := [112].
Definition x2 (a b : xe) : xes := XCons a (XCons b XNil).
Definition calls_program : list xs :=
  let tx := XGet (XVar nt) (XStr nx) in
  [XFnDecl false nf [(na, false); (nb, true)] (order [XReturns (x2 (XBin (BOp BAdd) (XVar na) (XVar nb)) (XVar nf))]);
   XDecl [LLet nt] (XCons (XTable (XCons (XStr nx) (XCons (XList (XCons (XInt 1) (x2 (XCall (XVar nf) (x2 (XInt 2) (XInt 3))) (XInt 4)))) (XCons (XStr nk) (XCons (XTable XNil) XNil))))) XNil);
   XSet tx (XInt 0) (XBin (BOp BAdd) (XGet tx (XInt 0)) (XCall (XVar nf) (x2 (XBin (BOp BAdd) (XInt 1) (XInt 1)) (XGet tx (XInt 2)))));
   XSet (XVar nt) (XStr ng) (XFn [] XSkip);
   XForIn ni (XSlice tx (XInt 1) XUndef) (XBlock (order
     [XIfElse (XBin (BOp BGt) (XVar ni) (XInt 2)) (XBlock (order [XEcho (XMeth (XVar ni) ns XNil)])) (XBlock (order [XExpr (XMeth (XVar nt) np (x2 (XVar ni) (XUn UNeg (XVar ni))))]))]))].
Section Demo.
Variable strtod : list Z -> float.
Lemma lw k j e a : ((j <=? k) && (k <=? 16))%nat = true -> x_at strtod k e a -> x_at strtod j e a.
Proof. intros L H. apply andb_true_iff in L. destruct L as (L1 & L2). apply Nat.leb_le in L1, L2. assert (K : forall i, (i <= k)%nat -> x_at strtod (k - i) e a) by (induction i as [|i IH]; intros L'; [replace (k - 0)%nat with k by lia; exact H|replace (k - i)%nat with (S (k - S i)) in IH by lia; apply x_stronger; [apply IH; lia|lia]]). replace j with (k - (k - j))%nat by lia. apply K. lia. Qed.
Lemma vr x k : (k <=? 16)%nat = true -> x_at strtod k (XVar x) [LId x]. Proof. intros L. apply (lw 16); [rewrite L; reflexivity|]. apply (x_leaf strtod (EVar x)). constructor. Qed.
Lemma dg i k : (k <=? 16)%nat = true -> (0 <=? i) && (i <=? 9) = true -> x_at strtod k (XInt i) [LInt [48 + i]].
Proof.
  intros L D. assert (Q : i = 0 \/ i = 1 \/ i = 2 \/ i = 3 \/ i = 4 \/ i = 5 \/ i = 6 \/ i = 7 \/ i = 8 \/ i = 9) by lia. apply (lw 16); [rewrite L; reflexivity|]. apply (x_leaf strtod (EInt i)).
  assert (E : denotes 10 [48 + i] = i) by (repeat (destruct Q as [->|Q]; [reflexivity|]); subst i; reflexivity). rewrite <- E at 1. apply leaf_int; [rewrite E; lia|repeat constructor; unfold dec_digit; lia|discriminate].
Qed.
Definition d_tx : x_at strtod 15 (XGet (XVar nt) (XStr nx)) _ := x_field strtod _ nx _ (vr nt 15 eq_refl).
Definition d_sum o a b l r (S : strength o = 11%nat) (G : groups o = Left) (H1 : x_at strtod 11 l a) (H2 : x_at strtod 12 r b) : x_at strtod 0 (mix o l r) (a ++ LFixed (symbol o) :: b).
Proof. apply (lw 11); [reflexivity|]. rewrite <- S. apply x_left; [exact G|rewrite S; exact H1|rewrite S; exact H2]. Qed.
Lemma d_end s l a b : st_written strtod s a -> sts_written strtod l b -> sts_written strtod (s :: l) (a ++ LNewline :: b). Proof. intros H1 H2. apply (TreeSpec.w_some strtod s LNewline l a b H1 (or_intror eq_refl) H2). Qed.
Lemma d_semi s l a b : st_written strtod s a -> sts_written strtod l b -> sts_written strtod (s :: l) (a ++ LFixed T_SEMI :: b). Proof. intros H1 H2. apply (TreeSpec.w_some strtod s (LFixed T_SEMI) l a b H1 (or_introl eq_refl) H2). Qed.
Notation sum := (ParseSpec.OBin (BOp BAdd)).
Definition d_fn := w_fndecl strtod nf _ _ _ _ (w_params _ _ _ (w_moreparams _ _ _ _ (w_letparam na) (w_param _ _ (w_constparam nb))))
  (w_body strtod _ _ (d_end _ _ _ _ (w_returns strtod _ _ _ _ (d_sum sum _ _ _ _ eq_refl eq_refl (vr na 11 eq_refl) (vr nb 12 eq_refl)) (w_one strtod _ _ (vr nf 0 eq_refl))) (TreeSpec.w_none strtod))).
Definition d_f23 := lw 15 0 _ _ eq_refl (x_call strtod _ _ _ _ (vr nf 15 eq_refl) (w_args strtod _ _ (w_more strtod _ _ _ _ (dg 2 0 eq_refl eq_refl) (w_one strtod _ _ (dg 3 0 eq_refl eq_refl))))).
Definition d_list := lw 16 0 _ _ eq_refl (x_list strtod _ _ _ _ _ _ (dg 1 0 eq_refl eq_refl) (or_intror eq_refl) (w_more strtod _ _ _ _ d_f23 (w_one strtod _ _ (dg 4 0 eq_refl eq_refl))) (or_introl eq_refl)).
Definition d_table := lw 16 0 _ _ eq_refl (x_table strtod _ _ _ _ _ _ _ _ (lw 16 0 _ _ eq_refl (x_leaf strtod _ _ (leaf_dot strtod nx))) d_list (or_introl eq_refl)
  (w_entry strtod _ _ _ _ (lw 16 0 _ _ eq_refl (x_leaf strtod _ _ (leaf_str strtod nk))) (lw 16 0 _ _ eq_refl (x_notable strtod))) (or_introl eq_refl)).
Definition d_let := TreeSpec.w_decl strtod [LLet nt] _ _ _ (w_lval _ _ (w_let nt)) I (w_one strtod _ _ d_table) (le_n 1).
Definition d_at i D := x_index strtod _ _ _ _ d_tx (dg i 0 eq_refl D).
Definition d_sum_call := lw 15 0 _ _ eq_refl (x_call strtod _ _ _ _ (vr nf 15 eq_refl) (w_args strtod _ _ (w_more strtod _ _ _ _ (d_sum sum _ _ _ _ eq_refl eq_refl (dg 1 11 eq_refl eq_refl) (dg 1 12 eq_refl eq_refl)) (w_one strtod _ _ (lw 15 0 _ _ eq_refl (d_at 2 eq_refl)))))).
Lemma d_set : st_written strtod (nth 2 calls_program XSkip) [LId nt; LFixed T_DOT; LId nx; LFixed T_LSQB; LInt [48]; LFixed T_RSQB; LFixed T_PLUSEQ; LId nf; LFixed T_LPAR; LInt [49]; LFixed T_PLUS; LInt [49]; LFixed T_COMMA; LId nt; LFixed T_DOT; LId nx; LFixed T_LSQB; LInt [50]; LFixed T_RSQB; LFixed T_RPAR].
Proof. apply w_assigns. apply (w_set_op strtod _ _ sum T_PLUSEQ _ [LId nt; LFixed T_DOT; LId nx; LFixed T_LSQB; LInt [48]; LFixed T_RSQB] _ eq_refl (d_at 0 eq_refl)); [discriminate|exact d_sum_call]. Qed.
Lemma d_field : st_written strtod (nth 3 calls_program XSkip) [LId nt; LFixed T_DOT; LId ng; LFixed T_EQ; LFixed T_FN; LFixed T_LPAR; LFixed T_RPAR; LFixed T_LBRC; LFixed T_RBRC].
Proof. apply w_assigns. apply (w_set strtod (XVar nt) (XStr ng) _ [LId nt; LFixed T_DOT; LId ng]); [exact (x_field strtod _ ng _ (vr nt 15 eq_refl))|discriminate|]. exact (lw 16 0 _ _ eq_refl (x_fn strtod _ _ _ _ w_noparams (w_body strtod _ _ (TreeSpec.w_none strtod)))). Qed.
Definition d_cond := lw 5 0 _ _ eq_refl (x_left strtod (ParseSpec.OBin (BOp BGt)) _ _ _ _ eq_refl (vr ni 5 eq_refl) (dg 2 6 eq_refl eq_refl)).
Definition d_then := w_body strtod _ _ (d_semi _ _ _ _ (TreeSpec.w_echo strtod _ _ (lw 15 0 _ _ eq_refl (x_method strtod _ ns _ _ _ (vr ni 15 eq_refl) (w_noargs strtod)))) (TreeSpec.w_none strtod)).
Definition d_minus := lw 13 0 _ _ eq_refl (x_prefix strtod UNeg _ _ (vr ni 13 eq_refl)).
Definition d_insert := lw 15 0 _ _ eq_refl (x_method strtod _ np _ _ _ (vr nt 15 eq_refl) (w_args strtod _ _ (w_more strtod _ _ _ _ (vr ni 0 eq_refl) (w_one strtod _ _ d_minus)))).
Lemma id_not_fn x l : not_fn (LId x :: l). Proof. discriminate. Qed.
Definition d_else := w_body strtod _ _ (d_semi _ _ _ _ (w_exprst strtod _ _ d_insert (id_not_fn _ _)) (TreeSpec.w_none strtod)).
Definition d_if := TreeSpec.w_if strtod _ _ (TreeSpec.w_else strtod _ _ _ _ _ _ d_cond d_then d_else).
Definition d_slice := lw 15 0 _ _ eq_refl (x_slice strtod _ _ _ _ _ _ d_tx (w_bound strtod _ _ (dg 1 0 eq_refl eq_refl)) (w_nobound strtod)).
Definition d_forin := TreeSpec.w_forin strtod ni _ _ _ _ d_slice (w_body strtod _ _ (d_end _ _ _ _ d_if (TreeSpec.w_none strtod))).
Example C56_nonvacuous : well_written T_UNKNOWN calls_items [] /\ sts_written strtod calls_program (map snd calls_items) /\
  exists prf, fold_l calls_program = Ok prf /\ read_text strtod 200 (text_of calls_items []) = POk prf /\ prf <> calls_program.
Proof.
  split; [|split].
  - unfold calls_items. cbn [well_written text_of app spell kind ends_statement negb].
    repeat match goal with
    | |- _ /\ _ => split
    | |- blank _ _ => solve [repeat constructor]
    | |- ends_at _ _ => vm_compute; reflexivity
    | |- last_blank _ _ => exists [], []; split; [reflexivity|]; split; [constructor|left; reflexivity]
    | |- wf_lexeme _ (LId [?c]) => split; [exists c, []; repeat split; [unfold letter; lia|constructor]|right; right; repeat split; [vm_compute; intuition discriminate|intros ([] & W & E); discriminate|discriminate|discriminate]]
    | |- wf_lexeme _ (LFixed _) => split; [discriminate|intros _; split; discriminate]
    | |- wf_lexeme _ (LInt _) => split; [discriminate|repeat constructor; unfold digit; lia]
    | |- wf_lexeme _ (LStr _) => exact I
    | |- wf_lexeme _ LNewline => reflexivity
    end.
  - exact (d_end _ _ _ _ d_fn (d_end _ _ _ _ d_let (d_end _ _ _ _ d_set (d_end _ _ _ _ d_field (d_end _ _ _ _ d_forin (TreeSpec.w_none strtod)))))).
  - eexists. split; [vm_compute; reflexivity|]. split; [vm_compute; reflexivity|discriminate].
Qed.
End Demo.
(** ** Layout: a line may end after the first element of a list, but not after a later one:
<<
[1
, 2, 3]        is read          [1, 2
                                , 3]      is a syntax error
>> *)
Theorem C56_layout_refuted : forall strtod n, read_text strtod (60 + n) (bytes_of "[1" ++ 10 :: bytes_of ", 2, 3]" ++ [10]) = POk [XExpr (XList (XCons (XInt 1) (x2 (XInt 2) (XInt 3))))] /\
  read_text strtod (60 + n) (bytes_of "[1, 2" ++ 10 :: bytes_of ", 3]" ++ [10]) = PSyntax.
Proof. intros strtod n. split; vm_compute; reflexivity. Qed.
Print Assumptions C56_layout_refuted.
(** The step of a for may be any expression, but then its value is popped twice (it is an expression statement inside an expression statement). *)
Theorem C56_step_refuted : forall strtod n, read_text strtod (60 + n) (bytes_of "for let i = 0; i; f() { }" ++ [10]) =
  POk [XBlock (order [XLet ni (XInt 0); XWhilePost (XVar ni) (XBlock XSkip) (XPop (XExpr (XCall (XVar nf) XNil)))])].
Proof. intros strtod n. vm_compute. reflexivity. Qed.
Print Assumptions C56_step_refuted.
(** [let a = 1, 2] is read with one value too many. *)
Theorem C56_extra_value_refuted : forall strtod n, read_text strtod (60 + n) (bytes_of "let a = 1, 2" ++ [10]) = POk [XDecl [LLet na] (x2 (XInt 1) (XInt 2))].
Proof. intros strtod n. vm_compute. reflexivity. Qed.
Print Assumptions C56_extra_value_refuted.
