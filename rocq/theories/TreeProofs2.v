(** * The parser reads what is written: proofs for the grammar of TreeSpec.v, continued. *)
From Verif Require Import Base Value Ops Ast Fold FoldProofs Stmt Text TextSpec TextProofs PropText Lexer LexSpec Parser ParseSpec ParseProofs Tree TreeParser TreeSpec TreeProofs.
Local Open Scope list_scope.

Section Expr.
Variable strtod : list Z -> float.
Notation q_level := (TreeParser.q_level strtod).
Notation q_loop := (TreeParser.q_loop strtod).
Notation q_expr := (TreeParser.q_expr strtod).
Notation q_body := (TreeParser.q_body strtod).
Notation x_at := (TreeSpec.x_at strtod).
Definition yields (k : nat) (ts : list token) (e : xe) (ts' : list token) : Prop := eventually (fun m => q_level m k ts) (e, ts').
Definition loops (k : nat) (l : xe) (ts : list token) (e : xe) (ts' : list token) : Prop := eventually (fun m => q_loop m k l ts) (e, ts').
Definition posts (l : xe) (ts : list token) (e : xe) (ts' : list token) : Prop := ev2 (fun m f => q_post (q_expr m) f l ts) (e, ts').
Definition follows (k : nat) (l : xe) (ts : list token) (e : xe) (ts' : list token) : Prop := if (k =? 15)%nat then posts l ts e ts' else loops k l ts e ts'.
Definition loopy (k : nat) : Prop := k = 15%nat \/ exists ops, binary k = Some (ALeft, ops).
Lemma level_left k ops : binary k = Some (ALeft, ops) -> forall m ts, q_level (S m) k ts = get (l, ts) <- q_level m (S k) ts; q_loop m k l ts.
Proof. intros B m ts. cbn [TreeParser.q_level]. rewrite B. reflexivity. Qed.
Lemma level_right k ops : binary k = Some (ARight, ops) -> forall m ts, q_level (S m) k ts = get (l, ts) <- q_level m (S k) ts; if one ops ts then get (r, ts') <- q_level m k (tl ts); get e <- nodex (mkx_bin (cur ts) l r); POk (e, ts') else POk (l, ts).
Proof. intros B m ts. cbn [TreeParser.q_level]. rewrite B. reflexivity. Qed.
Lemma loop_step k a ops : binary k = Some (a, ops) -> forall m l ts, q_loop (S m) k l ts = if one ops ts then get (r, ts') <- q_level m (S k) (tl ts); get e <- nodex (mkx_bin (cur ts) l r); q_loop m k e ts' else POk (l, ts).
Proof. intros B m l ts. cbn [TreeParser.q_loop]. rewrite B. reflexivity. Qed.
Lemma left_15 k ops : binary k = Some (ALeft, ops) -> (k =? 15)%nat = false.
Proof. intros B. destruct (Nat.eqb_spec k 15) as [->|]; [discriminate|reflexivity]. Qed.
Lemma post_stop pe f l ts : stops 15 (cur ts) -> q_post pe (S f) l ts = POk (l, ts).
Proof. intros H. cbn [q_post]. unfold stops in H. destruct (cur ts); cbn in H; try reflexivity; lia. Qed.
Lemma follows_done k l ts : loopy k -> stops k (cur ts) -> follows k l ts l ts.
Proof.
  unfold follows. intros [->|(ops & B)] H.
  - cbn [Nat.eqb]. eapply ev2_step; [|intros m f; apply post_stop, H]. apply ev2_ret.
  - rewrite (left_15 _ _ B). eapply ev_step; [|intros m; rewrite (loop_step _ _ _ B), (stops_one _ _ _ _ B H); reflexivity]. apply ev_ret.
Qed.
Lemma level_loopy k ts l ts1 e ts2 : loopy k -> yields (S k) ts l ts1 -> follows k l ts1 e ts2 -> yields k ts e ts2.
Proof.
  unfold follows, yields. intros [->|(ops & B)] Y F.
  - cbn [Nat.eqb] in F. eapply ev_step; [|intros m; cbn [TreeParser.q_level binary]; reflexivity]. eapply (ev_bind _ (fun m '(e, ts) => _)); [exact Y|]. cbv beta iota. apply (ev2_diag _ _ F).
  - rewrite (left_15 _ _ B) in F. eapply ev_step; [|intros m; apply (level_left _ _ B)]. eapply (ev_bind _ (fun m '(e, ts) => _)); [exact Y|]. exact F.
Qed.
(** The two claims proved together, as in ParseProofs.v. *)
Definition reads (k : nat) (e : xe) (ls : list lexeme) : Prop := forall toks rest ef, tokens toks ls -> fold_e e = Ok ef ->
  (stops k (cur rest) -> exists e', cfold e' = Ok ef /\ yields k (toks ++ rest) e' rest) /\
  (loopy k -> stops (S k) (cur rest) -> exists e', cfold e' = Ok ef /\ forall e2 rest2, follows k e' rest e2 rest2 -> yields k (toks ++ rest) e2 rest2).
Lemma reads_loopy k e ls : loopy k ->
  (forall toks rest ef, tokens toks ls -> fold_e e = Ok ef -> stops (S k) (cur rest) -> exists e', cfold e' = Ok ef /\ forall e2 rest2, follows k e' rest e2 rest2 -> yields k (toks ++ rest) e2 rest2) -> reads k e ls.
Proof.
  intros B H toks rest ef T F. split.
  - intros S. destruct (H toks rest ef T F ltac:(eapply stops_le; [exact S|lia])) as (e' & F' & L). exists e'. split; [exact F'|]. apply L. apply follows_done; assumption.
  - intros B' S. apply (H toks rest ef T F S).
Qed.
Lemma reads_other k e ls : ~ loopy k ->
  (forall toks rest ef, tokens toks ls -> fold_e e = Ok ef -> stops k (cur rest) -> exists e', cfold e' = Ok ef /\ yields k (toks ++ rest) e' rest) -> reads k e ls.
Proof. intros N H toks rest ef T F. split; [apply H; assumption|]. intros B. contradiction. Qed.
Lemma right_not_loopy k ops : binary k = Some (ARight, ops) -> ~ loopy k. Proof. intros B [->|(ops' & B')]; [discriminate|congruence]. Qed.
Lemma stops16 t : stops 16 t. Proof. unfold stops. destruct t; cbn; try exact I; lia. Qed.
(** what an expression at the top level is, once read and folded *)
Definition parses (e : xe) (a : list lexeme) : Prop := forall toks rest ef, tokens toks a -> fold_e e = Ok ef -> binds (cur rest) = None -> eventually (fun m => q_expr m (toks ++ rest)) (ef, rest).
Lemma expr_step m ts : q_expr (S m) ts = get (e, ts) <- q_level m 0 ts; get e <- fuelled (cfold e); POk (e, ts). Proof. reflexivity. Qed.
Lemma reads_parses e a : reads 0 e a -> parses e a.
Proof.
  intros R toks rest ef T F B. destruct (R toks rest ef T F) as [H _]. destruct H as (e' & F' & Y); [unfold stops; rewrite B; exact I|].
  eapply ev_step; [|intros m; apply expr_step]. eapply (ev_bind _ (fun m '(e, ts) => _)); [exact Y|]. cbv beta iota. rewrite F'. apply ev_ret.
Qed.
(** ** How an expression starts. *)
Lemma leaf_some e a : leaf strtod e a -> a <> []. Proof. destruct 1; discriminate. Qed.
Lemma x_nonempty k e a : x_at k e a -> a <> [].
Proof. induction 1; try (intros X; apply app_eq_nil in X; destruct X; congruence); try discriminate; auto. eapply leaf_some; eassumption. Qed.
Definition xstarter (t : tk) : bool := starter t || match t with T_LSQB | T_LBRC | T_FN => true | _ => false end.
Lemma x_starts k e a : x_at k e a -> xstarter (starts a) = true.
Proof.
  induction 1; try (rewrite starts_app by (eapply x_nonempty; eassumption)); auto.
  - destruct u; reflexivity.
  - match goal with H : leaf _ _ _ |- _ => destruct H; reflexivity end.
Qed.
Lemma x_not_prefix k e a : x_at k e a -> (14 <= k)%nat -> not_prefix (starts a).
Proof.
  induction 1; intros K; try (rewrite starts_app by (eapply x_nonempty; eassumption)); try lia; try (unfold not_prefix; cbn; repeat split; discriminate); auto.
  - match goal with H : leaf _ _ _ |- _ => destruct H; unfold not_prefix; cbn; repeat split; discriminate end.
Qed.
Lemma second_app_nocomma a l b : a <> [] -> second_ok a -> kind l <> T_COMMA -> second_ok (a ++ l :: b). Proof. apply second_app. Qed.
Lemma x_second k e a : x_at k e a -> second_ok a.
Proof.
  induction 1; auto; try (apply second_app; [eapply x_nonempty; eassumption|assumption|try discriminate]); try (cbn; destruct a; discriminate); try (cbn; intros; discriminate).
  - destruct o as [[[]| |]|[]]; discriminate.
  - destruct o as [[[]| |]|[]]; discriminate.
  - cbn. destruct a; [exact I|]. destruct u; discriminate.
  - match goal with H : leaf _ _ _ |- _ => destruct H; cbn; try exact I; discriminate end.
  - cbn. destruct a, n; try discriminate; try exact I.
  - cbn. destruct a, n; discriminate.
Qed.
(** ** Leaves. *)
Lemma leaf_read e a : leaf strtod e a -> forall toks rest, tokens toks a -> q_leaf strtod (toks ++ rest) = POk (embed e, rest) /\ cur (toks ++ rest) <> T_LPAR /\ cur (toks ++ rest) <> T_LSQB /\ cur (toks ++ rest) <> T_LBRC /\ cur (toks ++ rest) <> T_FN.
Proof.
  intros L toks rest (T & _). destruct (leaf_token strtod e a L toks rest T) as (P & N). split; [|split; [exact N|rewrite (tokens_cur _ _ _ T) by (eapply leaf_some; eassumption); destruct L; repeat split; discriminate]].
  unfold p_leaf, q_leaf in *. destruct L; apply tokens_cons_inv in T; destruct T as (nl & ts & -> & T); try (apply tokens_cons_inv in T; destruct T as (nl2 & ts2 & -> & T)); cbn in P |- *; congruence.
Qed.
Lemma leaf_embed e a : leaf strtod e a -> fold_e (embed e) = Ok (embed e) /\ cfold (embed e) = Ok (embed e). Proof. destruct 1; split; reflexivity. Qed.
(** ** Newlines, commas. *)
Lemma skip_ends n tn k v ts : line_end n -> tokens tn n -> skip_nl (tn ++ Tok k v false false :: ts) = POk (Tok k v false false :: ts).
Proof. intros [->| ->] T; [apply tok_nil in T; subst; reflexivity|]. tk1 T nl tb. tkn T. cbn in Nl. subst nl. reflexivity. Qed.
Lemma skip_stay k v ts : skip_nl (Tok k v false false :: ts) = POk (Tok k v false false :: ts). Proof. reflexivity. Qed.
Lemma ends_binds n tn k v nl ts : line_end n -> tokens tn n -> binds k = None -> binds (cur (tn ++ Tok k v nl false :: ts)) = None.
Proof. intros [->| ->] T B; [apply tok_nil in T; subst; exact B|]. tk1 T nl2 tb. reflexivity. Qed.
Definition item (e : xe) (a : list lexeme) : Prop := parses e a /\ xstarter (starts a) = true /\ a <> [].
Lemma item_of e a : x_at 0 e a -> reads 0 e a -> item e a. Proof. intros H R. split; [apply reads_parses, R|]. split; [eapply x_starts; eassumption|eapply x_nonempty; eassumption]. Qed.
Inductive sep : xes -> list lexeme -> Prop :=
| sep_one e a : item e a -> sep (XCons e XNil) a
| sep_more e es a b : item e a -> sep es b -> sep (XCons e es) (a ++ LFixed T_COMMA :: b).
Inductive seps : xes -> list lexeme -> Prop :=
| seps_one k v a b : item k a -> item v b -> seps (XCons k (XCons v XNil)) (a ++ LFixed T_COLON :: b)
| seps_more k v es a b d : item k a -> item v b -> seps es d -> seps (XCons k (XCons v es)) (a ++ LFixed T_COLON :: b ++ LFixed T_COMMA :: d).
Lemma item_ev e a toks rest ef : item e a -> tokens toks a -> fold_e e = Ok ef -> binds (cur rest) = None -> ev2 (fun m _ => q_expr m (toks ++ rest)) (ef, rest).
Proof. intros (P & _) T F B. apply ev2_left, P; assumption. Qed.
Lemma item_not e a toks rest k : item e a -> tokens toks a -> xstarter k = false -> is k (toks ++ rest) = false.
Proof. intros (_ & St & Ne) T X. apply is_neq. rewrite (tok_cur _ _ _ T Ne). intros E. rewrite E in St. congruence. Qed.
Ltac b2 := eapply (ev2_bind _ (fun m f '(e, ts) => _)).
(** the three loops over comma separated expressions *)
Lemma args_ev es a : sep es a -> forall toks rest esf, tokens toks a -> fold_es es = Ok esf -> cur rest = T_RPAR -> ev2 (fun m f => q_args (q_expr m) f (toks ++ rest)) (esf, rest).
Proof.
  induction 1 as [e a I|e es a b I Hs IH]; intros toks rest esf T F C; cbn [fold_es] in F; unbind F; injection F as <-.
  - eapply ev2_step; [|intros m f; cbn [q_args]; rewrite !(item_not _ _ _ _ _ I T) by reflexivity; cbn [orb]; reflexivity]. b2; [eapply item_ev; try eassumption; rewrite C; reflexivity|]. cbv beta iota. eapply ev2_eq; [intros; rewrite is_neq by (rewrite C; discriminate); reflexivity|]. apply ev2_ret.
  - tka T ta tb Ta. tk1 T nl tc. rewrite <- app_assoc. cbn [app kind content].
    eapply ev2_step; [|intros m f; cbn [q_args]; rewrite !(item_not _ _ _ _ _ I Ta) by reflexivity; cbn [orb]; reflexivity]. b2; [eapply item_ev; try eassumption; reflexivity|]. cbv beta iota. eapply ev2_eq; [intros; rewrite is_eq by reflexivity; cbn [tl]; reflexivity|].
    b2; [apply IH; [exact T|reflexivity|exact C]|]. apply ev2_ret.
Qed.
Lemma more_ev es a : sep es a -> forall toks nl rest esf, tokens toks a -> fold_es es = Ok esf -> binds (cur rest) = None -> cur rest <> T_COMMA -> ev2 (fun m f => q_more (q_expr m) f (Tok T_COMMA [] nl false :: toks ++ rest)) (esf, rest).
Proof.
  induction 1 as [e a I|e es a b I Hs IH]; intros toks nl rest esf T F C N; cbn [fold_es] in F; unbind F; injection F as <-; (eapply ev2_step; [|intros m f; cbn [q_more]; rewrite is_eq by reflexivity; cbn [tl]; reflexivity]).
  - b2; [eapply item_ev; eassumption|]. cbv beta iota. b2; [eapply ev2_step; [|intros m f; cbn [q_more]; rewrite is_neq by exact N; reflexivity]; apply ev2_ret|]. apply ev2_ret.
  - tka T ta tb Ta. tk1 T nl2 tc. rewrite <- app_assoc. cbn [app kind content].
    b2; [eapply item_ev; try eassumption; reflexivity|]. cbv beta iota. b2; [apply IH; [exact T|reflexivity|exact C|exact N]|]. apply ev2_ret.
Qed.
Lemma exprs_ev es a : sep es a -> forall toks rest esf more, tokens toks a -> fold_es es = Ok esf -> cur rest = T_SEMI -> (length (xes_list es) <= more)%nat -> ev2 (fun m f => q_exprs (q_expr m) f more (toks ++ rest)) (esf, rest).
Proof.
  induction 1 as [e a I|e es a b I Hs IH]; intros toks rest esf more T F C L; (destruct more as [|more]; [cbn in L; lia|]); cbn [fold_es] in F; unbind F; injection F as <-.
  - eapply ev2_step; [|intros m f; cbn [q_exprs]; reflexivity]. b2; [eapply item_ev; try eassumption; rewrite C; reflexivity|]. cbv beta iota. eapply ev2_eq; [intros; rewrite is_neq by (rewrite C; discriminate); reflexivity|]. apply ev2_ret.
  - tka T ta tb Ta. tk1 T nl tc. rewrite <- app_assoc. cbn [app kind content].
    eapply ev2_step; [|intros m f; cbn [q_exprs]; reflexivity]. b2; [eapply item_ev; try eassumption; reflexivity|]. cbv beta iota. eapply ev2_eq; [intros; rewrite is_eq by reflexivity; cbn [tl]; reflexivity|].
    b2; [apply IH; [exact T|reflexivity|exact C|cbn in L; lia]|]. apply ev2_ret.
Qed.
Lemma entries_ev es a : seps es a -> forall toks nl rest esf, tokens toks a -> fold_es es = Ok esf -> binds (cur rest) = None -> cur rest <> T_COMMA -> ev2 (fun m f => q_more_entries (q_expr m) f (Tok T_COMMA [] nl false :: toks ++ rest)) (esf, rest).
Proof.
  induction 1 as [k v a b I J|k v es a b d I J Hs IH]; intros toks nl rest esf T F C N; cbn [fold_es] in F; unbind F; unbind E0; injection F as <-; (eapply ev2_step; [|intros m f; cbn [q_more_entries]; rewrite is_eq by reflexivity; cbn [tl]; reflexivity]);
    tka T ta tb Ta; tk1 T nl2 tc; rewrite <- app_assoc; cbn [app kind content].
  - b2; [eapply item_ev; [exact I|exact Ta|exact E|reflexivity]|]. cbv beta iota. eapply ev2_eq; [intros; rewrite eat_tok; cbn [pbind]; reflexivity|]. injection E0 as <-. b2; [eapply item_ev; [exact J|exact T|exact E1|exact C]|]. cbv beta iota. b2; [eapply ev2_step; [|intros m f; cbn [q_more_entries]; rewrite is_neq by exact N; reflexivity]; apply ev2_ret|]. apply ev2_ret.
  - tka T td te Td. tk1 T nl3 tf. rewrite <- app_assoc. cbn [app kind content]. injection E0 as <-.
    b2; [eapply item_ev; [exact I|exact Ta|exact E|reflexivity]|]. cbv beta iota. eapply ev2_eq; [intros; rewrite eat_tok; cbn [pbind]; reflexivity|]. b2; [eapply item_ev; [exact J|exact Td|exact E1|reflexivity]|]. cbv beta iota. b2; [apply IH; [exact T|first [eassumption|reflexivity]|exact C|exact N]|]. apply ev2_ret.
Qed.
Inductive some_args : xes -> list lexeme -> Prop := sa_none : some_args XNil [] | sa_some es a : sep es a -> some_args es a.
Lemma call_ev es a toks nl nl2 rest esf : some_args es a -> tokens toks a -> fold_es es = Ok esf -> ev2 (fun m f => q_call (q_expr m) f (Tok T_LPAR [] nl false :: toks ++ Tok T_RPAR [] nl2 false :: rest)) (in_context (-1) esf, rest).
Proof.
  intros H T F. unfold q_call. eapply ev2_eq; [intros; rewrite eat_tok; cbn [pbind]; reflexivity|]. b2.
  - destruct H as [|es a H]; [|eapply args_ev; try eassumption; reflexivity]. tkn T. injection F as <-. cbn [app]. eapply ev2_step; [|intros m f; cbn [q_args]; rewrite is_eq by reflexivity; cbn [orb]; reflexivity]. apply ev2_ret.
  - cbv beta iota. eapply ev2_eq; [intros; rewrite eat_tok; cbn [pbind]; reflexivity|]. apply ev2_ret.
Qed.
Inductive edge : xe -> list lexeme -> Prop := edge_none : edge XUndef [] | edge_some e a : item e a -> edge e a.
(** ** Parameters. *)
Lemma params_ok ps a : params_written ps a -> forall toks nl rest, tokens toks a -> p_params (toks ++ Tok T_RPAR [] nl false :: rest) = POk (ps, Tok T_RPAR [] nl false :: rest).
Proof.
  destruct 1 as [|p ps a H]; intros toks nl rest T; [tkn T; reflexivity|]. revert toks T. remember (p :: ps) as l eqn:El. clear p ps El. induction H as [p a [x|x]|p ps a b [x|x] H IH]; intros toks T; cbn [app] in T.
  - tk1 T nl1 t1. tkn T. reflexivity.
  - tk1 T nl1 t1. tk1 T nl2 t2. tkn T. reflexivity.
  - tk1 T nl1 t1. tk1 T nl2 t2. cbn [app kind content spell]. cbn [p_params t_type t_val]. rewrite (IH _ T). reflexivity.
  - tk1 T nl1 t1. tk1 T nl2 t2. tk1 T nl3 t3. cbn [app kind content spell]. cbn [p_params t_type t_val]. rewrite (IH _ T). reflexivity.
Qed.
End Expr.
