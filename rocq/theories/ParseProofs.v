(** * Proofs about the parser. *)
From Verif Require Import Base Value Ops Ast Fold FoldProofs Stmt Text TextSpec TextProofs PropText Lexer LexSpec Parser ParseSpec.

(** ** Folding twice is folding once. *)
Lemma fold_mk_int z e : mk_int z = Ok e -> exists i, e = EInt i.
Proof. unfold mk_int. destruct (in_i64b z); [intros [= <-]; eauto|discriminate]. Qed.
Definition atom (e : expr) : Prop := match e with EUn _ _ | EBin _ _ _ | ESc _ _ _ | ETri _ _ _ => False | _ => True end.
Lemma fold_bin_shape op l r e : fold_bin op l r = Ok e -> e = EBin op l r \/ atom e.
Proof.
  unfold fold_bin. destruct l, r; try (intros [= <-]; left; reflexivity); intros E.
  - destruct op as [o| |]; cbn [fold_int_int] in E; [|injection E as <-; right; exact I|injection E as <-; right; exact I].
    destruct o; try (injection E as <-; right; exact I); try (injection E as <-; left; reflexivity);
      repeat match type of E with (if ?b then _ else _) = _ => destruct b end; try discriminate E; try (apply fold_mk_int in E; destruct E as (j & ->); right; exact I); try (injection E as <-; first [left; reflexivity|right; exact I]).
  - injection E as <-. destruct op as [o| |]; [destruct o|..]; cbn [fold_float]; first [left; reflexivity|right; exact I].
  - injection E as <-. destruct op as [o| |]; [destruct o|..]; cbn [fold_float]; first [left; reflexivity|right; exact I].
  - injection E as <-. destruct op as [o| |]; [destruct o|..]; cbn [fold_float]; first [left; reflexivity|right; exact I].
Qed.
Lemma fold_un_shape op e e' : fold_un op e = Ok e' -> e' = EUn op e \/ atom e'.
Proof.
  unfold fold_un. destruct e; try (intros [= <-]; left; reflexivity); destruct op; intros E; try (injection E as <-; first [left; reflexivity|right; exact I]). apply fold_mk_int in E. destruct E as (j & ->). right. exact I.
Qed.
Lemma fold_atom e : atom e -> fold e = Ok e. Proof. destruct e; cbn; tauto || reflexivity. Qed.
Lemma fold_idem : forall e ef, fold e = Ok ef -> fold ef = Ok ef.
Proof.
  induction e as [| | | | | |u e IH|o l IHl r IHr|o l IHl r IHr|c IHc a IHa b IHb]; intros ef E; try (cbn in E; injection E as <-; reflexivity); cbn [fold] in E.
  - destruct (fold e) as [e1| | |] eqn:E1; try discriminate. cbn [bind] in E. specialize (IH _ eq_refl). destruct (fold_un_shape _ _ _ E) as [->|A]; [|apply fold_atom, A]. cbn [fold]. rewrite IH. exact E.
  - destruct (fold l) as [l1| | |] eqn:E1; try discriminate. cbn [bind] in E. destruct (fold r) as [r1| | |] eqn:E2; try discriminate. cbn [bind] in E. specialize (IHl _ eq_refl). specialize (IHr _ eq_refl).
    destruct (fold_bin_shape _ _ _ _ E) as [->|A]; [|apply fold_atom, A]. cbn [fold]. rewrite IHl, IHr. exact E.
  - destruct (fold l) as [l1| | |] eqn:E1; try discriminate. cbn [bind] in E. destruct (fold r) as [r1| | |] eqn:E2; try discriminate. cbn [bind] in E. injection E as <-. cbn [fold]. rewrite (IHl _ eq_refl), (IHr _ eq_refl). reflexivity.
  - destruct (fold c) as [c1| | |] eqn:E0; try discriminate. cbn [bind] in E. destruct (fold a) as [a1| | |] eqn:E1; try discriminate. cbn [bind] in E. destruct (fold b) as [b1| | |] eqn:E2; try discriminate. cbn [bind] in E. injection E as <-.
    cbn [fold]. rewrite (IHc _ eq_refl), (IHa _ eq_refl), (IHb _ eq_refl). reflexivity.
Qed.
Lemma fold_combine o l r ef : fold (combine o l r) = Ok ef -> exists lf rf, fold l = Ok lf /\ fold r = Ok rf /\ forall l' r', fold l' = Ok lf -> fold r' = Ok rf -> fold (combine o l' r') = Ok ef.
Proof.
  destruct o as [o|o]; cbn [combine fold]; intros E; destruct (fold l) as [l1| | |] eqn:E1; try discriminate; cbn [bind] in E; destruct (fold r) as [r1| | |] eqn:E2; try discriminate; cbn [bind] in E;
  exists l1, r1; split; [reflexivity| |reflexivity|]; (split; [reflexivity|]); intros l' r' -> ->; exact E.
Qed.

(** ** Tokens. *)
Lemma tokens_cons_inv toks l ls : tokens_of toks (l :: ls) -> exists nl ts, toks = Tok (kind l) (content l) nl false :: ts /\ tokens_of ts ls.
Proof. unfold tokens_of. destruct toks as [|[ty v nl i] ts]; cbn [map]; [discriminate|]. intros [= -> -> -> E]. exists nl, ts. split; [reflexivity|exact E]. Qed.
Lemma tokens_nil_inv toks : tokens_of toks [] -> toks = []. Proof. unfold tokens_of. destruct toks; [reflexivity|discriminate]. Qed.
Lemma tokens_app_inv toks a b : tokens_of toks (a ++ b) -> exists ta tb, toks = ta ++ tb /\ tokens_of ta a /\ tokens_of tb b.
Proof.
  revert toks. induction a as [|l a IH]; intros toks H; cbn [app] in H.
  - exists [], toks. repeat split. exact H.
  - apply tokens_cons_inv in H. destruct H as (nl & ts & -> & H). destruct (IH _ H) as (ta & tb & -> & A & B). exists (Tok (kind l) (content l) nl false :: ta), tb. split; [reflexivity|]. split; [|exact B]. unfold tokens_of in *. cbn [map t_type t_val t_interp]. rewrite A. reflexivity.
Qed.
(** ** What may follow. *)
Definition binds (t : tk) : option nat :=
  match t with
  | T_QMARK => Some 0
  | T_DQMARK => Some 1 | T_DBAR => Some 2 | T_DAMP => Some 3
  | T_DEQ | T_BANGEQ | T_TEQ | T_BANGDEQ => Some 4
  | T_LT | T_LTEQ | T_GT | T_GTEQ => Some 5
  | T_TILDE => Some 6 | T_BAR => Some 7 | T_CARET => Some 8 | T_AMP | T_AMPCARET => Some 9 | T_DGT | T_DLT => Some 10
  | T_PLUS | T_MINUS => Some 11 | T_STAR | T_DSLASH | T_SLASH | T_MOD => Some 12
  | T_DSTAR => Some 14
  | T_LSQB | T_DOT | T_LPAR | T_RIGHT_ARR => Some 15
  | _ => None
  end%nat.
Definition stops (k : nat) (t : tk) : Prop := match binds t with Some j => (j < k)%nat | None => True end.
Lemma stops_le k j t : stops k t -> (k <= j)%nat -> stops j t.
Proof. unfold stops. destruct (binds t); [lia|trivial]. Qed.
Lemma binary_binds k a ops ts : binary k = Some (a, ops) -> one ops ts = true -> binds (cur ts) = Some k.
Proof. unfold one. do 13 (destruct k as [|k]; [try discriminate; intros [= <- <-]; destruct (cur ts); cbn; intros; reflexivity || discriminate|]). discriminate. Qed.
Lemma stops_one k a ops ts : binary k = Some (a, ops) -> stops k (cur ts) -> one ops ts = false.
Proof. intros B S. destruct (one ops ts) eqn:E; [|reflexivity]. apply (binary_binds _ _ _ _ B) in E. unfold stops in S. rewrite E in S. lia. Qed.
Lemma symbol_level o : o <> OBin (BOp BPow) -> exists ops, binary (strength o) = Some (match groups o with Left => ALeft | Right => ARight end, ops) /\ (forall ts, cur ts = symbol o -> one ops ts = true) /\ binds (symbol o) = Some (strength o) /\ (forall l r, mk_bin (symbol o) l r = Some (combine o l r)).
Proof.
  intros N. destruct o as [[o| |]|[]]; [destruct o; try congruence|..]; eexists; (split; [reflexivity|]); (split; [intros ts E; unfold one; rewrite E; reflexivity|]); split; try reflexivity; intros; reflexivity.
Qed.

Section Expr.
Variable strtod : list Z -> float.
Notation p_level := (Parser.p_level strtod).
Notation p_loop := (Parser.p_loop strtod).
Notation p_expr := (Parser.p_expr strtod).
Notation expr_at := (ParseSpec.expr_at strtod).
Definition yields (k : nat) (ts : list token) (e : expr) (ts' : list token) : Prop := exists n, forall m, (n <= m)%nat -> p_level m k ts = POk (e, ts').
Definition loops (k : nat) (l : expr) (ts : list token) (e : expr) (ts' : list token) : Prop := exists n, forall m, (n <= m)%nat -> p_loop m k l ts = POk (e, ts').
Definition expr_yields (ts : list token) (e : expr) (ts' : list token) : Prop := exists n, forall m, (n <= m)%nat -> p_expr m ts = POk (e, ts').
Lemma big2 (P Q R : nat -> Prop) : (exists n, forall m, (n <= m)%nat -> P m) -> (exists n, forall m, (n <= m)%nat -> Q m) -> (forall m, P m -> Q m -> R (S m)) -> exists n, forall m, (n <= m)%nat -> R m.
Proof. intros (n1 & H1) (n2 & H2) H. exists (S (Nat.max n1 n2)). intros [|m] L; [lia|]. apply H; [apply H1|apply H2]; lia. Qed.
Lemma big1 (P R : nat -> Prop) : (exists n, forall m, (n <= m)%nat -> P m) -> (forall m, P m -> R (S m)) -> exists n, forall m, (n <= m)%nat -> R m.
Proof. intros (n1 & H1) H. exists (S n1). intros [|m] L; [lia|]. apply H, H1. lia. Qed.
(** unfolding by level *)
Lemma level_left k ops : binary k = Some (ALeft, ops) -> forall m ts, p_level (S m) k ts = get (l, ts) <- p_level m (S k) ts; p_loop m k l ts.
Proof. intros B m ts. cbn [Parser.p_level]. rewrite B. reflexivity. Qed.
Lemma level_right k ops : binary k = Some (ARight, ops) -> forall m ts, p_level (S m) k ts = get (l, ts) <- p_level m (S k) ts; if one ops ts then get (r, ts') <- p_level m k (tl ts); get e <- node (mk_bin (cur ts) l r); POk (e, ts') else POk (l, ts).
Proof. intros B m ts. cbn [Parser.p_level]. rewrite B. reflexivity. Qed.
Lemma loop_step k a ops : binary k = Some (a, ops) -> forall m l ts, p_loop (S m) k l ts = if one ops ts then get (r, ts') <- p_level m (S k) (tl ts); get e <- node (mk_bin (cur ts) l r); p_loop m k e ts' else POk (l, ts).
Proof. intros B m l ts. cbn [Parser.p_loop]. rewrite B. reflexivity. Qed.
Lemma loops_done k a ops l ts : binary k = Some (a, ops) -> stops k (cur ts) -> loops k l ts l ts.
Proof. intros B S. exists 1%nat. intros [|m] L; [lia|]. rewrite (loop_step _ _ _ B). rewrite (stops_one _ _ _ _ B S). reflexivity. Qed.

(** The two claims proved together: with [stops k] after it the expression is read up to there; at a left-grouping level,
    with only [stops (S k)], reading goes on in the loop with the expression read so far as the left operand. *)
Definition reads (k : nat) (e : expr) (ls : list lexeme) : Prop := forall toks rest ef, tokens_of toks ls -> fold e = Ok ef ->
  (stops k (cur rest) -> exists e', fold e' = Ok ef /\ yields k (toks ++ rest) e' rest) /\
  (forall ops, binary k = Some (ALeft, ops) -> stops (S k) (cur rest) -> exists e', fold e' = Ok ef /\ forall e2 rest2, loops k e' rest e2 rest2 -> yields k (toks ++ rest) e2 rest2).
Lemma reads_left k ops e ls : binary k = Some (ALeft, ops) ->
  (forall toks rest ef, tokens_of toks ls -> fold e = Ok ef -> stops (S k) (cur rest) -> exists e', fold e' = Ok ef /\ forall e2 rest2, loops k e' rest e2 rest2 -> yields k (toks ++ rest) e2 rest2) -> reads k e ls.
Proof.
  intros B H toks rest ef T F. split.
  - intros S. destruct (H toks rest ef T F ltac:(eapply stops_le; [exact S|lia])) as (e' & F' & L). exists e'. split; [exact F'|]. apply L. eapply loops_done; eauto.
  - intros ops' B' S. apply (H toks rest ef T F S).
Qed.
Lemma reads_other k e ls : (forall ops, binary k <> Some (ALeft, ops)) ->
  (forall toks rest ef, tokens_of toks ls -> fold e = Ok ef -> stops k (cur rest) -> exists e', fold e' = Ok ef /\ yields k (toks ++ rest) e' rest) -> reads k e ls.
Proof. intros N H toks rest ef T F. split; [apply H; assumption|]. intros ops B. exfalso. eapply N, B. Qed.
Lemma is_eq k ts : cur ts = k -> is k ts = true.
Proof. intros <-. unfold is, tk_eqb. destruct (tk_eq_dec (cur ts) (cur ts)); congruence. Qed.
Lemma is_neq k ts : cur ts <> k -> is k ts = false.
Proof. intros H. unfold is, tk_eqb. destruct (tk_eq_dec (cur ts) k); congruence. Qed.
Lemma eat_ok k ts rest : cur (ts ++ rest) = k -> eat k (ts ++ rest) = POk (tl (ts ++ rest)).
Proof. intros H. unfold eat. rewrite (is_eq _ _ H). reflexivity. Qed.
(** first token of an expression at the unary level, when it is not a prefix operator *)
Definition not_prefix (t : tk) : Prop := t <> T_PLUS /\ t <> T_MINUS /\ t <> T_BANG /\ t <> T_CARET /\ t <> T_LEN.
Lemma not_prefix_one ts : not_prefix (cur ts) -> one [T_PLUS; T_MINUS; T_BANG; T_CARET; T_LEN] ts = false.
Proof. unfold not_prefix, one. destruct (cur ts); cbn; tauto. Qed.
Definition starts (ls : list lexeme) : tk := match ls with l :: _ => kind l | [] => T_EOF end.
Lemma starts_app a b : a <> [] -> starts (a ++ b) = starts a. Proof. destruct a; [congruence|reflexivity]. Qed.
Lemma tokens_cur toks ls rest : tokens_of toks ls -> ls <> [] -> cur (toks ++ rest) = starts ls.
Proof. destruct ls as [|l ls]; [congruence|]. intros T _. apply tokens_cons_inv in T. destruct T as (nl & ts & -> & _). reflexivity. Qed.
Lemma leaf_nonempty e a : leaf strtod e a -> a <> []. Proof. destruct 1; discriminate. Qed.
Lemma expr_nonempty k e a : expr_at k e a -> a <> [].
Proof. induction 1; try (intros X; apply app_eq_nil in X; destruct X; congruence); try discriminate; auto. eapply leaf_nonempty; eassumption. Qed.
Lemma strength_14 o : (strength o < 14)%nat \/ o = OBin (BOp BPow).
Proof. destruct o as [[[]| |]|[]]; cbn; first [left; lia|right; reflexivity]. Qed.
Lemma strong_not_prefix k e a : expr_at k e a -> (14 <= k)%nat -> not_prefix (starts a).
Proof.
  induction 1 as [k e a H IH L|o l r a b G H1 IH1 H2 IH2|o l r a b G N H1 IH1 H2 IH2|c x y a b d H1 IH1 H2 IH2 H3 IH3|u e a H IH|l r a b H1 IH1 H2 IH2|e a H IH|e a H]; intros K.
  - apply IH. lia.
  - exfalso. destruct (strength_14 o) as [X|X]; [lia|]. subst o. discriminate.
  - exfalso. destruct (strength_14 o) as [X|X]; [lia|]. contradiction.
  - lia.
  - lia.
  - rewrite starts_app by (eapply expr_nonempty; eassumption). apply IH1. lia.
  - unfold not_prefix. cbn. repeat split; discriminate.
  - unfold not_prefix. destruct H; cbn; repeat split; discriminate.
Qed.
Lemma digits_hex ds : Forall hex_digit ds -> Forall hex_digit ds. Proof. trivial. Qed.
Lemma clamp_small z : 0 <= z <= 9223372036854775807 -> clamp z = z. Proof. unfold clamp. lia. Qed.
Lemma denotes_nonneg base ds : 0 <= base -> Forall (fun c => 0 <= digit_val c) ds -> 0 <= denotes base ds.
Proof.
  intros B F. unfold denotes. assert (F' : Forall (fun c => 0 <= digit_val c) (rev ds)) by (apply Forall_rev, F). clear F. induction F' as [|c r H _ IH]; cbn [denotes_rev]; nia.
Qed.
Lemma leaf_token e a : leaf strtod e a -> forall toks rest, tokens_of toks a -> p_leaf strtod (toks ++ rest) = POk (e, rest) /\ cur (toks ++ rest) <> T_LPAR.
Proof.
  destruct 1 as [|b|ds L F N|ds L F N|ds L F N|a b|s|ps|ps|s|x|x]; intros toks rest T; apply tokens_cons_inv in T; destruct T as (nl & ts & -> & T).
  12: apply tokens_nil_inv in T; subst ts; split; [reflexivity|discriminate].
  11: { apply tokens_cons_inv in T. destruct T as (nl2 & ts2 & -> & T). apply tokens_nil_inv in T. subst ts2. split; [reflexivity|discriminate]. }
  all: apply tokens_nil_inv in T; subst ts; (split; [|discriminate]); cbn [app p_leaf cur t_type kind cur_interp t_interp tl cur_val t_val content spell]; try reflexivity.
  - destruct b; reflexivity.
  - destruct (C41_literal ds N) as (H & _). rewrite (H F). rewrite clamp_small; [reflexivity|]. split; [|exact L]. apply denotes_nonneg; [lia|]. eapply Forall_impl; [|exact F]. unfold dec_digit, digit_val. intros c Hc. destruct (Z.leb_spec c 57); lia.
  - destruct (C41_literal ds N) as (_ & H & _). rewrite (H F). rewrite clamp_small; [reflexivity|]. split; [|exact L]. apply denotes_nonneg; [lia|]. eapply Forall_impl; [|exact F]. unfold hex_digit, digit_val. intros c Hc. destruct (Z.leb_spec c 57), (Z.leb_spec c 90); lia.
  - destruct (C41_literal ds N) as (_ & _ & H). rewrite (H F). rewrite clamp_small; [reflexivity|]. split; [|exact L]. apply denotes_nonneg; [lia|]. eapply Forall_impl; [|exact F]. unfold bin_digit, digit_val. intros c Hc. destruct (Z.leb_spec c 57), (Z.leb_spec c 90); lia.
Qed.
Theorem expr_reads k e ls : expr_at k e ls -> reads k e ls.
Proof.
  induction 1 as [k e a H IH L|o l r a b G H1 IH1 H2 IH2|o l r a b G N H1 IH1 H2 IH2|c x y a b d H1 IH1 H2 IH2 H3 IH3|u e a H IH|l r a b H1 IH1 H2 IH2|e a H IH|e a H].
  - (* a stronger expression *) destruct (binary k) as [[[|] ops]|] eqn:B.
    + apply (reads_left k ops _ _ B). intros toks rest ef T F S. destruct (IH toks rest ef T F) as [A _]. destruct (A S) as (e' & F' & Y). exists e'. split; [exact F'|]. intros e2 rest2 Lp.
      apply (big2 _ _ (fun m => p_level m k (toks ++ rest) = POk (e2, rest2)) Y Lp). intros m E1 E2. rewrite (level_left _ _ B), E1. cbn [pbind]. exact E2.
    + apply reads_other; [congruence|]. intros toks rest ef T F S. destruct (IH toks rest ef T F) as [A _]. destruct (A ltac:(eapply stops_le; [exact S|lia])) as (e' & F' & Y). exists e'. split; [exact F'|].
      apply (big1 _ (fun m => p_level m k (toks ++ rest) = POk (e', rest)) Y). intros m E1. rewrite (level_right _ _ B), E1. cbn [pbind]. rewrite (stops_one _ _ _ _ B S). reflexivity.
    + apply reads_other; [congruence|]. intros toks rest ef T F S. destruct (IH toks rest ef T F) as [A _]. destruct (A ltac:(eapply stops_le; [exact S|lia])) as (e' & F' & Y). exists e'. split; [exact F'|].
      assert (K : k = 0%nat \/ k = 13%nat \/ k = 14%nat) by (do 15 (destruct k as [|k]; [try discriminate B; tauto|]); lia).
      apply (big1 _ (fun m => p_level m k (toks ++ rest) = POk (e', rest)) Y). intros m E1. destruct K as [-> | [-> | ->]]; cbn [Parser.p_level binary].
      * rewrite E1. cbn [pbind]. rewrite is_neq; [reflexivity|]. intros X. unfold stops in S. rewrite X in S. cbn in S. lia.
      * rewrite not_prefix_one; [exact E1|]. rewrite (tokens_cur _ _ _ T) by (eapply expr_nonempty; eassumption). eapply strong_not_prefix; [eassumption|lia].
      * rewrite E1. cbn [pbind]. rewrite is_neq; [reflexivity|]. intros X. unfold stops in S. rewrite X in S. cbn in S. lia.
  - (* left *) assert (Np : o <> OBin (BOp BPow)) by (intros ->; discriminate). destruct (symbol_level o Np) as (ops & B & On & Bi & Mk). rewrite G in B.
    apply (reads_left _ ops _ _ B). intros toks rest ef T F S. destruct (fold_combine _ _ _ _ F) as (lf & rf & Fl & Fr & Fc).
    apply tokens_app_inv in T. destruct T as (ta & tb & -> & Ta & Tb). apply tokens_cons_inv in Tb. destruct Tb as (nl & tb' & -> & Tb). cbn [kind content] in *.
    set (opt := Tok (symbol o) [] nl false) in *. rewrite <- app_assoc. cbn [app].
    destruct (IH1 ta (opt :: tb' ++ rest) lf Ta Fl) as [_ Bc]. destruct (Bc ops B) as (l' & Fl' & Hl). { unfold stops. cbn [cur opt t_type]. rewrite Bi. lia. }
    destruct (IH2 tb' rest rf Tb Fr) as [Ac _]. destruct (Ac S) as (r' & Fr' & Hr).
    exists (combine o l' r'). split; [apply Fc; assumption|]. intros e2 rest2 Lp. apply Hl.
    apply (big2 _ _ (fun m => p_loop m (strength o) l' (opt :: tb' ++ rest) = POk (e2, rest2)) Hr Lp). intros m E1 E2. rewrite (loop_step _ _ _ B), On by reflexivity. cbn [tl]. rewrite E1. cbn [pbind cur opt t_type]. rewrite Mk. cbn [node pbind]. exact E2.
  - (* right *) destruct (symbol_level o N) as (ops & B & On & Bi & Mk). rewrite G in B.
    apply reads_other; [congruence|]. intros toks rest ef T F S. destruct (fold_combine _ _ _ _ F) as (lf & rf & Fl & Fr & Fc).
    apply tokens_app_inv in T. destruct T as (ta & tb & -> & Ta & Tb). apply tokens_cons_inv in Tb. destruct Tb as (nl & tb' & -> & Tb). cbn [kind content] in *.
    set (opt := Tok (symbol o) [] nl false) in *. rewrite <- app_assoc. cbn [app].
    destruct (IH1 ta (opt :: tb' ++ rest) lf Ta Fl) as [Ac _]. destruct Ac as (l' & Fl' & Hl). { unfold stops. cbn [cur opt t_type]. rewrite Bi. lia. }
    destruct (IH2 tb' rest rf Tb Fr) as [Ac _]. destruct (Ac S) as (r' & Fr' & Hr).
    exists (combine o l' r'). split; [apply Fc; assumption|].
    apply (big2 _ _ (fun m => p_level m (strength o) (ta ++ opt :: tb' ++ rest) = POk (combine o l' r', rest)) Hl Hr). intros m E1 E2. rewrite (level_right _ _ B), E1. cbn [pbind]. rewrite On by reflexivity. cbn [tl]. rewrite E2. cbn [pbind cur opt t_type]. rewrite Mk. reflexivity.
  - (* ternary *) apply reads_other; [discriminate|]. intros toks rest ef T F S. cbn [fold] in F. destruct (fold c) as [cf| | |] eqn:Fc; try discriminate. cbn [bind] in F. destruct (fold x) as [xf| | |] eqn:Fx; try discriminate. cbn [bind] in F. destruct (fold y) as [yf| | |] eqn:Fy; try discriminate. cbn [bind] in F. injection F as <-.
    apply tokens_app_inv in T. destruct T as (ta & tb & -> & Ta & Tb). apply tokens_cons_inv in Tb. destruct Tb as (nl & tb' & -> & Tb). apply tokens_app_inv in Tb. destruct Tb as (tx & ty & -> & Tx & Ty). apply tokens_cons_inv in Ty. destruct Ty as (nl2 & ty' & -> & Ty). cbn [kind content] in *.
    rewrite <- app_assoc. cbn [app]. rewrite <- app_assoc. cbn [app]. set (q := Tok T_QMARK [] nl false). set (cl := Tok T_COLON [] nl2 false).
    destruct (IH1 ta (q :: tx ++ cl :: ty' ++ rest) cf Ta Fc) as [A1 _]. destruct A1 as (c' & Fc' & Hc); [cbn; lia|].
    destruct (IH2 tx (cl :: ty' ++ rest) xf Tx Fx) as [A2 _]. destruct A2 as (x' & Fx' & Hx); [exact I|].
    destruct (IH3 ty' rest yf Ty Fy) as [A3 _]. destruct (A3 S) as (y' & Fy' & Hy).
    exists (ETri c' x' y'). split; [cbn [fold]; rewrite Fc', Fx', Fy'; reflexivity|].
    destruct Hc as (n1 & Hc), Hx as (n2 & Hx), Hy as (n3 & Hy). exists (Datatypes.S (n1 + n2 + n3)). intros [|m] Lm; [lia|]. cbn [Parser.p_level binary]. rewrite Hc by lia. cbn [pbind]. rewrite is_eq by reflexivity. cbn [tl]. rewrite Hx by lia. cbn [pbind]. unfold eat. rewrite is_eq by reflexivity. cbn [pbind tl]. rewrite Hy by lia. reflexivity.
  - (* prefix *) apply reads_other; [discriminate|]. intros toks rest ef T F S. cbn [fold] in F. destruct (fold e) as [e1| | |] eqn:Fe; try discriminate. cbn [bind] in F.
    apply tokens_cons_inv in T. destruct T as (nl & ts & -> & T). cbn [kind content] in *. destruct (IH ts rest e1 T Fe) as [A _]. destruct (A S) as (e' & Fe' & Y).
    exists (EUn u e'). split; [cbn [fold]; rewrite Fe'; exact F|]. cbn [app].
    apply (big1 _ (fun m => p_level m 13 (Tok (prefix_symbol u) [] nl false :: ts ++ rest) = POk (EUn u e', rest)) Y). intros m E. cbn [Parser.p_level binary]. destruct u; unfold one; cbn; rewrite E; reflexivity.
  - (* power *) apply reads_other; [discriminate|]. intros toks rest ef T F S. destruct (fold_combine (OBin (BOp BPow)) _ _ _ F) as (lf & rf & Fl & Fr & Fc).
    apply tokens_app_inv in T. destruct T as (ta & tb & -> & Ta & Tb). apply tokens_cons_inv in Tb. destruct Tb as (nl & tb' & -> & Tb). cbn [kind content] in *. rewrite <- app_assoc. cbn [app].
    set (opt := Tok T_DSTAR [] nl false). destruct (IH1 ta (opt :: tb' ++ rest) lf Ta Fl) as [A1 _]. destruct A1 as (l' & Fl' & Hl); [cbn; lia|].
    destruct (IH2 tb' rest rf Tb Fr) as [A2 _]. destruct A2 as (r' & Fr' & Hr). { clear - S. unfold stops in *. destruct (cur rest); cbn in *; lia. }
    exists (EBin (BOp BPow) l' r'). split; [apply Fc; assumption|].
    apply (big2 _ _ (fun m => p_level m 14 (ta ++ opt :: tb' ++ rest) = POk (EBin (BOp BPow) l' r', rest)) Hl Hr). intros m E1 E2. cbn [Parser.p_level binary]. rewrite E1. cbn [pbind]. rewrite is_eq by reflexivity. cbn [tl]. rewrite E2. reflexivity.
  - (* parentheses *) apply reads_other; [discriminate|]. intros toks rest ef T F S. apply tokens_cons_inv in T. destruct T as (nl & ts & -> & T). apply tokens_app_inv in T. destruct T as (ta & tb & -> & Ta & Tb). apply tokens_cons_inv in Tb. destruct Tb as (nl2 & tb' & -> & Tb). apply tokens_nil_inv in Tb. subst tb'. cbn [kind content] in *.
    cbn [app]. rewrite <- app_assoc. cbn [app]. destruct (IH ta (Tok T_RPAR [] nl2 false :: rest) ef Ta F) as [A _]. destruct A as (e' & Fe & Y); [exact I|].
    exists ef. split; [eapply fold_idem; eassumption|]. destruct Y as (n & Y). exists (Datatypes.S (Datatypes.S (Datatypes.S n))). intros [|[|[|m]]] L; try lia. cbn [Parser.p_level binary]. rewrite is_eq by reflexivity. cbn [tl Parser.p_expr]. rewrite Y by lia. cbn [pbind]. rewrite Fe. cbn [fuelled pbind]. unfold eat. rewrite is_eq by reflexivity. cbn [pbind tl].
    replace (one _ rest) with false; [reflexivity|]. symmetry. unfold one. unfold stops in S. destruct (cur rest); cbn in *; try reflexivity; lia.
  - (* leaf *) apply reads_other; [discriminate|]. intros toks rest ef T F S. exists e. assert (At : atom e) by (destruct H; exact I). split; [exact F|]. destruct (leaf_token _ _ H toks rest T) as (Lf & Np).
    exists 2%nat. intros [|[|m]] L; try lia. cbn [Parser.p_level binary]. rewrite is_neq by exact Np. rewrite Lf. cbn [pbind]. replace (one _ rest) with false; [reflexivity|]. symmetry. unfold one. unfold stops in S. destruct (cur rest); cbn in *; try reflexivity; lia.
Qed.
Theorem expr_parsed e ls toks rest ef : expr_at 0 e ls -> tokens_of toks ls -> fold e = Ok ef -> stops 0 (cur rest) -> expr_yields (toks ++ rest) ef rest.
Proof.
  intros H T F S. destruct (expr_reads 0 e ls H toks rest ef T F) as [A _]. destruct (A S) as (e' & F' & Y). apply (big1 _ (fun m => p_expr m (toks ++ rest) = POk (ef, rest)) Y). intros m E. change (p_expr (Datatypes.S m) (toks ++ rest)) with (get (e0, ts) <- p_level m 0 (toks ++ rest); get e1 <- fuelled (fold e0); POk (e1, ts)). rewrite E. cbn [pbind]. rewrite F'. reflexivity.
Qed.

(** ** Statements. *)
Notation p_stmt := (Parser.p_stmt strtod).
Notation p_if := (Parser.p_if strtod).
Notation p_body := (Parser.p_body strtod).
Notation p_stmts := (Parser.p_stmts strtod).
Notation p_simple := (Parser.p_simple strtod).
Notation p_assign := (Parser.p_assign strtod).
Definition eventually {A} (f : nat -> pres A) (a : A) : Prop := exists n, forall m, (n <= m)%nat -> f m = POk a.
Lemma ev_step {A} (f g : nat -> pres A) a : eventually g a -> (forall m, f (S m) = g m) -> eventually f a.
Proof. intros (n & H) E. exists (S n). intros [|m] L; [lia|]. rewrite E. apply H. lia. Qed.
Lemma ev_ret {A} (a : A) : eventually (fun _ => POk a) a. Proof. exists O. reflexivity. Qed.
Lemma ev_bind {A B} (f : nat -> pres A) (g : nat -> A -> pres B) a b : eventually f a -> eventually (fun m => g m a) b -> eventually (fun m => get x <- f m; g m x) b.
Proof. intros (n & H) (n2 & H2). exists (Nat.max n n2). intros m L. rewrite H by lia. cbn [pbind]. apply H2. lia. Qed.
Lemma ev_eq {A} (f g : nat -> pres A) a : (forall m, f m = g m) -> eventually g a -> eventually f a.
Proof. intros E (n & H). exists n. intros m L. rewrite E. apply H, L. Qed.
Lemma eat_tok k v nl i ts : eat k (Tok k v nl i :: ts) = POk ts.
Proof. unfold eat. rewrite is_eq by reflexivity. reflexivity. Qed.
Lemma eatname_tok v nl i ts : eatname (Tok T_ID v nl i :: ts) = POk (v, ts). Proof. reflexivity. Qed.
(** How an expression starts. *)
Definition starter (t : tk) : bool :=
  match t with T_UNDEF | T_BOOL | T_INT | T_FLOAT | T_STR | T_DOT | T_ID | T_LPAR | T_PLUS | T_MINUS | T_BANG | T_CARET | T_LEN => true | _ => false end.
Lemma expr_starts k e a : expr_at k e a -> starter (starts a) = true.
Proof.
  induction 1 as [k e a H IH L|o l r a b G H1 IH1 H2 IH2|o l r a b G N H1 IH1 H2 IH2|c x y a b d H1 IH1 H2 IH2 H3 IH3|u e a H IH|l r a b H1 IH1 H2 IH2|e a H IH|e a H]; try (rewrite starts_app by (eapply expr_nonempty; eassumption)); auto.
  - destruct u; reflexivity.
  - destruct H; reflexivity.
Qed.
(** ... and what follows a variable at its start. *)
Definition second_ok (ls : list lexeme) : Prop := match ls with l :: l2 :: _ => kind l = T_ID -> kind l2 <> T_COMMA | _ => True end.
Lemma second_app a l b : a <> [] -> second_ok a -> kind l <> T_COMMA -> second_ok (a ++ l :: b).
Proof. destruct a as [|x [|y a]]; [congruence|cbn; auto|cbn; auto]. Qed.
Lemma expr_second k e a : expr_at k e a -> second_ok a.
Proof.
  induction 1 as [k e a H IH L|o l r a b G H1 IH1 H2 IH2|o l r a b G N H1 IH1 H2 IH2|c x y a b d H1 IH1 H2 IH2 H3 IH3|u e a H IH|l r a b H1 IH1 H2 IH2|e a H IH|e a H]; auto;
    try (apply second_app; [eapply expr_nonempty; eassumption|assumption|try discriminate]).
  - destruct o as [[[]| |]|[]]; discriminate.
  - destruct o as [[[]| |]|[]]; discriminate.
  - cbn. destruct a; [exact I|]. destruct u; discriminate.
  - cbn. destruct a; discriminate.
  - destruct H; cbn; try exact I. discriminate.
Qed.
Lemma second_cur toks a rest : tokens_of toks a -> a <> [] -> second_ok a -> cur rest <> T_COMMA -> cur (toks ++ rest) = T_ID -> is T_COMMA (tl (toks ++ rest)) = false.
Proof.
  intros T Ne O R C. apply is_neq. destruct a as [|x a]; [congruence|]. apply tokens_cons_inv in T. destruct T as (nl & ts & -> & T). cbn in C |- *.
  destruct a as [|y a]; [apply tokens_nil_inv in T; subst ts; exact R|]. apply tokens_cons_inv in T. destruct T as (nl2 & ts2 & -> & _). cbn in *. auto.
Qed.
Lemma expr_ev e a toks rest ef : expr_at 0 e a -> tokens_of toks a -> fold e = Ok ef -> binds (cur rest) = None -> eventually (fun m => p_expr m (toks ++ rest)) (ef, rest).
Proof. intros H T F B. apply (expr_parsed e a); auto. unfold stops. rewrite B. exact I. Qed.

(** dispatch of a statement that starts like an expression *)
Lemma stmt_simple ts m : starter (cur ts) = true -> (cur ts = T_ID -> is T_COMMA (tl ts) = false) -> p_stmt (S m) ts = p_simple m ts.
Proof. intros S C. cbn [Parser.p_stmt]. destruct (cur ts); try discriminate S; try reflexivity. rewrite C by reflexivity. reflexivity. Qed.
Lemma compound_ok o t : compound o = Some t -> augmented t = true /\ t <> T_EQ /\ binds t = None /\ tk_of_code (tk_code t - 1) = symbol o /\ t <> T_COMMA.
Proof. destruct o as [[[]| |]|[]]; intros [= <-]; repeat split; discriminate. Qed.
Lemma mk_combine o l r : mk_bin (symbol o) l r = Some (combine o l r).
Proof. destruct o as [[[]| |]|[]]; reflexivity. Qed.
Lemma fold_combine_var o x e ef : fold (combine o (EVar x) e) = Ok ef -> exists e', fold e = Ok e' /\ ef = combine o (EVar x) e'.
Proof.
  destruct o as [o|o]; cbn [combine fold]; destruct (fold e) as [e'| | |]; try discriminate; cbn [bind]; intros E; exists e'; split; try reflexivity; cbn in E; congruence.
Qed.
Lemma var_ev x nl rest : binds (cur rest) = None -> eventually (fun m => p_expr m (Tok T_ID x nl false :: rest)) (EVar x, rest).
Proof.
  intros B. apply (expr_ev (EVar x) [LId x] [Tok T_ID x nl false] rest (EVar x)); auto; [|reflexivity].
  assert (K : forall k, (k <= 15)%nat -> expr_at (15 - k) (EVar x) [LId x]) by (induction k as [|k IH]; intros L; [apply at_leaf, leaf_var|replace (15 - k)%nat with (S (15 - S k)) in IH by lia; apply at_stronger; [apply IH; lia|lia]]).
  apply (K 15%nat). lia.
Qed.
Lemma assign_ev s a toks rest sf : assignment strtod s a -> tokens_of toks a -> simplified s = Ok sf -> binds (cur rest) = None -> eventually (fun m => p_simple m (toks ++ rest)) (sf, rest).
Proof.
  intros H T F B. destruct H as [x e a H|x o t e a C H]; apply tokens_cons_inv in T; destruct T as (nl & t1 & -> & T); apply tokens_cons_inv in T; destruct T as (nl2 & t2 & -> & T); cbn [kind content spell simplified app] in *.
  - destruct (fold e) as [e'| | |] eqn:E; try discriminate. injection F as <-. unfold Parser.p_simple.
    eapply (ev_bind _ (fun m '(e, ts) => _)); [apply var_ev; reflexivity|]. cbv beta iota. eapply ev_eq; [intros; rewrite is_eq by reflexivity; reflexivity|]. unfold Parser.p_assign. eapply ev_eq; [intros; rewrite is_eq by reflexivity; reflexivity|].
    eapply (ev_bind _ (fun m '(e, ts) => _)); [eapply expr_ev; eassumption|]. apply ev_ret.
  - destruct (compound_ok _ _ C) as (Au & Ne & Bi & Op & _). destruct (fold (combine o (EVar x) e)) as [c'| | |] eqn:E; try discriminate. injection F as <-. destruct (fold_combine_var _ _ _ _ E) as (e' & Fe & ->). unfold Parser.p_simple.
    eapply (ev_bind _ (fun m '(e, ts) => _)); [apply var_ev; exact Bi|]. cbv beta iota. eapply ev_eq; [intros; cbn [cur t_type]; rewrite Au, orb_true_r; reflexivity|]. unfold Parser.p_assign. eapply ev_eq; [intros; rewrite is_neq by exact Ne; cbn [cur t_type]; rewrite Op; reflexivity|].
    eapply (ev_bind _ (fun m '(e, ts) => _)); [eapply expr_ev; eassumption|]. eapply ev_eq; [intros; cbv beta iota; rewrite mk_combine; reflexivity|]. apply ev_ret.
Qed.

Lemma semi_kind t : semicolon t -> kind t = T_SEMI. Proof. intros [-> | ->]; reflexivity. Qed.
Lemma fold_list_app a b r : fold_list (a ++ b) = Ok r -> exists ra rb, fold_list a = Ok ra /\ fold_list b = Ok rb /\ r = ra ++ rb.
Proof.
  revert r. induction a as [|e a IH]; intros r E; cbn [app fold_list] in *; [eauto|]. destruct (fold e) as [e'| | |]; try discriminate. cbn [bind] in *. destruct (fold_list (a ++ b)) as [l| | |] eqn:E1; try discriminate. cbn [bind] in E. injection E as <-.
  destruct (IH _ eq_refl) as (ra & rb & A & B & ->). rewrite A. cbn [bind]. eauto.
Qed.
Lemma fold_list_undefs n : fold_list (repeat EUndef n) = Ok (repeat EUndef n).
Proof. induction n as [|n IH]; [reflexivity|]. cbn [repeat fold_list fold bind]. rewrite IH. reflexivity. Qed.
Lemma fold_list_length a r : fold_list a = Ok r -> length r = length a.
Proof. revert r. induction a as [|e a IH]; intros r E; cbn [fold_list] in E; [injection E as <-; reflexivity|]. destruct (fold e); try discriminate. cbn [bind] in E. destruct (fold_list a); try discriminate. cbn [bind] in E. injection E as <-. cbn. f_equal. apply IH. reflexivity. Qed.
Lemma exprs_nonempty es a : exprs_written strtod es a -> (1 <= length es)%nat. Proof. destruct 1; cbn; lia. Qed.
Lemma exprs_ev es a : exprs_written strtod es a -> forall toks rest esf more, tokens_of toks a -> fold_list es = Ok esf -> cur rest = T_SEMI -> (length es <= more)%nat ->
  eventually (fun m => Parser.p_exprs strtod m more (toks ++ rest)) (esf, rest).
Proof.
  induction 1 as [e a H|e a es b H HH IH]; intros toks rest esf more T F C L; (destruct more as [|more]; [cbn in L; lia|]); cbn [fold_list] in F; (destruct (fold e) as [e'| | |] eqn:E; try discriminate); cbn [bind] in F.
  - injection F as <-. eapply ev_step; [|intros m; cbn [Parser.p_exprs]; reflexivity]. eapply (ev_bind _ (fun m '(e, ts) => _)); [eapply expr_ev; try eassumption; rewrite C; reflexivity|]. cbv beta iota. eapply ev_eq; [intros; rewrite is_neq by (rewrite C; discriminate); reflexivity|]. apply ev_ret.
  - destruct (fold_list es) as [es'| | |] eqn:Es; try discriminate. injection F as <-. apply tokens_app_inv in T. destruct T as (ta & tb & -> & Ta & Tb). apply tokens_cons_inv in Tb. destruct Tb as (nl & ts & -> & Tb). rewrite <- app_assoc. cbn [app kind content].
    eapply ev_step; [|intros m; cbn [Parser.p_exprs]; reflexivity]. eapply (ev_bind _ (fun m '(e, ts) => _)); [eapply expr_ev; try eassumption; reflexivity|]. cbv beta iota. eapply ev_eq; [intros; rewrite is_eq by reflexivity; cbn [tl]; reflexivity|].
    eapply (ev_bind _ (fun m '(e, ts) => _)); [eapply IH; try eassumption; [reflexivity|cbn in L; lia]|]. apply ev_ret.
Qed.
Lemma lval_ev l a toks rest : lval_written l a -> tokens_of toks a -> binds (cur rest) = None -> eventually (fun m => Parser.p_lval strtod m (toks ++ rest)) (l, rest).
Proof.
  intros H T B. destruct H as [x|x|x]; apply tokens_cons_inv in T; destruct T as (nl & t1 & -> & T).
  1,2: apply tokens_cons_inv in T; destruct T as (nl2 & t2 & -> & T); apply tokens_nil_inv in T; subst t2; exists O; reflexivity.
  apply tokens_nil_inv in T. subst t1. cbn [app kind content spell]. exists 2%nat. intros [|[|m]] L; try lia. unfold Parser.p_lval. cbn [is cur t_type]. change (tk_eqb T_ID T_LET) with false. change (tk_eqb T_ID T_CONST) with false. cbv iota.
  cbn [Parser.p_level binary]. unfold is, p_leaf. cbn [cur t_type cur_val t_val tl]. change (tk_eqb T_ID T_LPAR) with false. cbv iota. cbn [pbind]. unfold one. destruct (cur rest); try discriminate B; reflexivity.
Qed.
Lemma lvals_ev ls a : lvals_written ls a -> forall toks rest, tokens_of toks a -> cur rest = T_EQ -> exists l r tl', ls = l :: r /\ eventually (fun m => Parser.p_lval strtod m (toks ++ rest)) (l, tl') /\ eventually (fun m => Parser.p_lvals strtod m tl') (r, rest).
Proof.
  induction 1 as [l a H|l a ls b H HH IH]; intros toks rest T C.
  - exists l, [], rest. split; [reflexivity|]. split; [eapply lval_ev; try eassumption; rewrite C; reflexivity|]. eapply ev_step; [|intros m; cbn [Parser.p_lvals]; rewrite is_neq by (rewrite C; discriminate); reflexivity]. apply ev_ret.
  - apply tokens_app_inv in T. destruct T as (ta & tb & -> & Ta & Tb). apply tokens_cons_inv in Tb. destruct Tb as (nl & ts & -> & Tb). destruct (IH ts rest Tb C) as (l2 & r & tl' & -> & A & B). rewrite <- app_assoc. cbn [app kind content].
    exists l, (l2 :: r), (Tok T_COMMA [] nl false :: ts ++ rest). split; [reflexivity|]. split; [eapply lval_ev; try eassumption; reflexivity|].
    eapply ev_step; [|intros m; cbn [Parser.p_lvals]; rewrite is_eq by reflexivity; cbn [tl]; reflexivity]. eapply (ev_bind _ (fun m '(e, ts) => _)); [exact A|]. cbv beta iota. eapply (ev_bind _ (fun m '(e, ts) => _)); [exact B|]. apply ev_ret.
Qed.
Lemma lvals_start ls a : lvals_written ls a -> (match ls with [LAssign _] => False | _ => True end) -> forall toks rest, tokens_of toks a -> forall m, p_stmt (S m) (toks ++ rest) = Parser.p_decl strtod m (toks ++ rest).
Proof.
  intros H N toks rest T m. destruct H as [l a [x|x|x]|l a ls b [x|x|x] H]; try contradiction; cbn [app] in T; apply tokens_cons_inv in T; destruct T as (nl & t1 & -> & T); cbn [Parser.p_stmt app cur kind t_type]; try reflexivity; apply tokens_cons_inv in T; destruct T as (nl2 & t2 & -> & T); reflexivity.
Qed.

Scheme stmt_mind := Minimality for stmt_written Sort Prop
  with if_mind := Minimality for if_written Sort Prop
  with body_mind := Minimality for body_written Sort Prop
  with stmts_mind := Minimality for stmts_written Sort Prop.
Combined Scheme written_mind from stmt_mind, if_mind, body_mind, stmts_mind.

Definition stmt_starter (t : tk) : bool := starter t || match t with T_ECHO | T_ASS | T_LET | T_CONST | T_IF | T_WHILE | T_FOR | T_BREAK | T_CONT => true | _ => false end.
Lemma stmt_starts s a : stmt_written strtod s a -> stmt_starter (starts a) = true /\ a <> [].
Proof.
  destruct 1 as [e a H|e a H|e a H|s a H|ls es n a b H N H2 L|s a H|c b a d H HB|x e c s b a1 a2 a3 d t1 t2 H1 S1 H2 S2 H3 HB|x e b a d H HB| |]; try (split; [reflexivity|discriminate]).
  - split; [|eapply expr_nonempty; eassumption]. unfold stmt_starter. rewrite (expr_starts _ _ _ H). reflexivity.
  - destruct H; split; try discriminate; reflexivity.
  - destruct H as [l a [x|x|x]|l a ls b' [x|x|x] H]; split; try discriminate; reflexivity.
Qed.
Lemma simplified_seq l : forall r, simplified (sequence l) = Ok r -> exists l', simplified_list l = Ok l' /\ r = sequence l'.
Proof.
  induction l as [|s l IH]; intros r E; cbn [sequence fold_right simplified simplified_list] in *; [injection E as <-; exists []; auto|].
  destruct (simplified s) as [s'| | |]; try discriminate. cbn [bind] in *. change (fold_right SSeq SSkip l) with (sequence l) in E. destruct (simplified (sequence l)) as [r'| | |]; try discriminate. cbn [bind] in E. injection E as <-. destruct (IH _ eq_refl) as (l' & -> & ->). cbn [bind]. exists (s' :: l'). auto.
Qed.
Theorem statements_parsed :
  (forall s a, stmt_written strtod s a -> forall toks rest sf, tokens_of toks a -> simplified s = Ok sf -> cur rest = T_SEMI -> eventually (fun m => p_stmt m (toks ++ rest)) (sf, rest)) /\ (forall s a, if_written strtod s a -> forall toks rest sf, tokens_of toks a -> simplified s = Ok sf -> cur rest = T_SEMI -> eventually (fun m => p_if m (toks ++ rest)) (sf, rest)) /\ (forall b a, body_written strtod b a -> forall toks rest bf, tokens_of toks a -> simplified b = Ok bf -> eventually (fun m => p_body m (toks ++ rest)) (bf, rest)) /\ (forall l a, stmts_written strtod l a -> forall toks rest lf, tokens_of toks a -> simplified_list l = Ok lf -> cur rest = T_RBRC -> eventually (fun m => p_stmts m (toks ++ rest)) (lf, rest)).
Proof.
  apply (written_mind strtod (fun s a => forall toks rest sf, tokens_of toks a -> simplified s = Ok sf -> cur rest = T_SEMI -> eventually (fun m => p_stmt m (toks ++ rest)) (sf, rest))
    (fun s a => forall toks rest sf, tokens_of toks a -> simplified s = Ok sf -> cur rest = T_SEMI -> eventually (fun m => p_if m (toks ++ rest)) (sf, rest))
    (fun b a => forall toks rest bf, tokens_of toks a -> simplified b = Ok bf -> eventually (fun m => p_body m (toks ++ rest)) (bf, rest))
    (fun l a => forall toks rest lf, tokens_of toks a -> simplified_list l = Ok lf -> cur rest = T_RBRC -> eventually (fun m => p_stmts m (toks ++ rest)) (lf, rest))).
  - (* echo *) intros e a H toks rest sf T F C. cbn [simplified] in F. destruct (fold e) as [e'| | |] eqn:E; try discriminate. injection F as <-. apply tokens_cons_inv in T. destruct T as (nl & ts & -> & T). cbn [app kind].
    eapply ev_step; [|intros m; cbn [Parser.p_stmt cur t_type tl]; reflexivity]. eapply (ev_bind _ (fun m '(e, ts) => _)); [eapply expr_ev; try eassumption; rewrite C; reflexivity|]. apply ev_ret.
  - (* assert *) intros e a H toks rest sf T F C. cbn [simplified] in F. destruct (fold e) as [e'| | |] eqn:E; try discriminate. injection F as <-. apply tokens_cons_inv in T. destruct T as (nl & ts & -> & T). cbn [app kind].
    eapply ev_step; [|intros m; cbn [Parser.p_stmt cur t_type tl]; reflexivity]. eapply (ev_bind _ (fun m '(e, ts) => _)); [eapply expr_ev; try eassumption; rewrite C; reflexivity|]. apply ev_ret.
  - (* expression *) intros e a H toks rest sf T F C. cbn [simplified] in F. destruct (fold e) as [e'| | |] eqn:E; try discriminate. injection F as <-.
    pose proof (expr_nonempty _ _ _ H) as Ne. eapply ev_step; [|intros m; apply stmt_simple; [rewrite (tokens_cur _ _ _ T Ne); eapply expr_starts; eassumption|intros Id; apply (second_cur toks a rest T Ne (expr_second _ _ _ H)); [rewrite C; discriminate|exact Id]]].
    unfold Parser.p_simple. eapply (ev_bind _ (fun m '(e, ts) => _)); [eapply expr_ev; try eassumption; rewrite C; reflexivity|]. cbv beta iota. eapply ev_eq; [intros; rewrite is_neq by (rewrite C; discriminate); rewrite C; reflexivity|]. apply ev_ret.
  - (* assignment *) intros s a H toks rest sf T F C. eapply ev_step; [eapply assign_ev; try eassumption; rewrite C; reflexivity|]. intros m.
    destruct H as [x e a H|x o t e a Co H]; apply tokens_cons_inv in T; destruct T as (nl & t1 & -> & T); apply tokens_cons_inv in T; destruct T as (nl2 & t2 & -> & T); (apply stmt_simple; [reflexivity|]); intros _; apply is_neq; cbn; first [discriminate|destruct (compound_ok _ _ Co) as (_ & _ & _ & _ & Nc); exact Nc].
  - (* declaration *) intros ls es n a b H N H2 L toks rest sf T F C. cbn [simplified] in F. destruct (fold_list (es ++ repeat EUndef n)) as [r| | |] eqn:E; try discriminate. injection F as <-.
    destruct (fold_list_app _ _ _ E) as (esf & u & Ef & Eu & ->). rewrite fold_list_undefs in Eu. injection Eu as <-.
    apply tokens_app_inv in T. destruct T as (ta & tb & -> & Ta & Tb). apply tokens_cons_inv in Tb. destruct Tb as (nl & ts & -> & Tb). rewrite <- app_assoc. cbn [app kind content].
    eapply ev_step; [|intros m; eapply lvals_start; eassumption]. destruct (lvals_ev _ _ H ta (Tok T_EQ [] nl false :: ts ++ rest) Ta eq_refl) as (l & r & tl' & -> & A & B).
    unfold Parser.p_decl. eapply (ev_bind _ (fun m '(e, ts) => _)); [exact A|]. cbv beta iota. eapply (ev_bind _ (fun m '(e, ts) => _)); [exact B|]. cbv beta iota. eapply ev_eq; [intros; rewrite eat_tok; cbn [pbind]; reflexivity|].
    unfold p_pack. eapply (ev_bind _ (fun m '(e, ts) => _)).
    + eapply (ev_bind _ (fun m '(e, ts) => _)); [eapply exprs_ev; try eassumption; rewrite L; lia|]. apply ev_ret.
    + cbv beta iota. replace (length (l :: r) - length esf)%nat with n by (rewrite (fold_list_length _ _ Ef), L; lia). apply ev_ret.
  - (* if *) intros s a H IH toks rest sf T F C. apply tokens_cons_inv in T. destruct T as (nl & ts & -> & T). cbn [app kind].
    eapply ev_step; [|intros m; cbn [Parser.p_stmt cur t_type tl]; reflexivity]. apply IH; assumption.
  - (* while *) intros c b a d H HB IH toks rest sf T F C. cbn [simplified] in F. destruct (fold c) as [c'| | |] eqn:E; try discriminate. cbn [bind] in F. destruct (simplified b) as [b'| | |] eqn:E2; try discriminate. injection F as <-. apply tokens_cons_inv in T. destruct T as (nl & ts & -> & T). apply tokens_app_inv in T. destruct T as (ta & tb & -> & Ta & Tb). cbn [app kind]. rewrite <- app_assoc.
    eapply ev_step; [|intros m; cbn [Parser.p_stmt cur t_type tl]; reflexivity]. eapply (ev_bind _ (fun m '(e, ts) => _)); [eapply expr_ev; try eassumption; destruct HB; apply tokens_cons_inv in Tb; destruct Tb as (? & ? & -> & _); reflexivity|]. cbv beta iota.
    eapply (ev_bind _ (fun m '(e, ts) => _)); [eapply IH; try eassumption; reflexivity|]. apply ev_ret.
  - (* for *) intros x e c s b a1 a2 a3 d t1 t2 H1 S1 H2 S2 H3 HB IH toks rest sf T F C. cbn [simplified sequence fold_right] in F. destruct (fold e) as [e'| | |] eqn:Ee; try discriminate. cbn [bind] in F. destruct (fold c) as [c'| | |] eqn:Ec; try discriminate. cbn [bind] in F. destruct (simplified b) as [b'| | |] eqn:Eb; try discriminate. cbn [bind] in F. destruct (simplified s) as [s'| | |] eqn:Es; try discriminate. cbn [bind] in F. injection F as <-.
    apply tokens_cons_inv in T. destruct T as (nl & ts & -> & T). apply tokens_cons_inv in T. destruct T as (nl1 & ts1 & -> & T). apply tokens_cons_inv in T. destruct T as (nl2 & ts2 & -> & T). apply tokens_cons_inv in T. destruct T as (nl3 & ts3 & -> & T).
    apply tokens_app_inv in T. destruct T as (ta & tb & -> & Ta & T). apply tokens_cons_inv in T. destruct T as (nl4 & ts4 & -> & T). apply tokens_app_inv in T. destruct T as (tc & td & -> & Tc & T). apply tokens_cons_inv in T. destruct T as (nl5 & ts5 & -> & T). apply tokens_app_inv in T. destruct T as (te & tf & -> & Te & Tf).
    cbn [app kind content spell]. repeat (rewrite <- app_assoc; cbn [app]). rewrite (semi_kind _ S1), (semi_kind _ S2).
    eapply ev_step; [|intros m; cbn [Parser.p_stmt cur t_type tl]; rewrite is_eq by reflexivity; rewrite eatname_tok; cbn [pbind]; rewrite eat_tok; cbn [pbind]; reflexivity].
    eapply (ev_bind _ (fun m '(e, ts) => _)); [apply (expr_ev _ _ _ _ _ H1 Ta Ee); reflexivity|]. cbv beta iota. eapply ev_eq; [intros; rewrite eat_tok; cbn [pbind]; reflexivity|].
    eapply (ev_bind _ (fun m '(e, ts) => _)); [apply (expr_ev _ _ _ _ _ H2 Tc Ec); reflexivity|]. cbv beta iota. eapply ev_eq; [intros; rewrite eat_tok; cbn [pbind]; reflexivity|].
    eapply (ev_bind _ (fun m '(e, ts) => _)); [eapply (assign_ev _ _ _ _ _ H3 Te Es); destruct HB; apply tokens_cons_inv in Tf; destruct Tf as (? & ? & -> & _); reflexivity|]. cbv beta iota.
    eapply (ev_bind _ (fun m '(e, ts) => _)); [eapply IH; try eassumption; reflexivity|]. cbv beta iota. replace (post_stmt s') with s'; [apply ev_ret|]. destruct H3; cbn [simplified] in Es; match type of Es with (do _ <- fold ?q; _) = _ => destruct (fold q); try discriminate end; injection Es as <-; reflexivity.
  - (* for in *) intros x e b a d H HB IH toks rest sf T F C. cbn [simplified] in F. destruct (fold e) as [e'| | |] eqn:E; try discriminate. cbn [bind] in F. destruct (simplified b) as [b'| | |] eqn:E2; try discriminate. injection F as <-.
    apply tokens_cons_inv in T. destruct T as (nl & ts & -> & T). apply tokens_cons_inv in T. destruct T as (nl1 & ts1 & -> & T). apply tokens_cons_inv in T. destruct T as (nl2 & ts2 & -> & T). apply tokens_app_inv in T. destruct T as (ta & tb & -> & Ta & Tb). cbn [app kind content spell]. rewrite <- app_assoc.
    eapply ev_step; [|intros m; cbn [Parser.p_stmt cur t_type tl]; rewrite is_neq by discriminate; rewrite eatname_tok; cbn [pbind]; rewrite eat_tok; cbn [pbind]; reflexivity].
    eapply (ev_bind _ (fun m '(e, ts) => _)); [eapply expr_ev; try eassumption; destruct HB; apply tokens_cons_inv in Tb; destruct Tb as (? & ? & -> & _); reflexivity|]. cbv beta iota.
    eapply (ev_bind _ (fun m '(e, ts) => _)); [eapply IH; try eassumption; reflexivity|]. apply ev_ret.
  - (* break *) intros toks rest sf T F C. injection F as <-. apply tokens_cons_inv in T. destruct T as (nl & ts & -> & T). apply tokens_nil_inv in T. subst ts. exists 1%nat. intros [|m] L; [lia|]. reflexivity.
  - (* continue *) intros toks rest sf T F C. injection F as <-. apply tokens_cons_inv in T. destruct T as (nl & ts & -> & T). apply tokens_nil_inv in T. subst ts. exists 1%nat. intros [|m] L; [lia|]. reflexivity.
  - (* then *) intros c b a d H HB IH toks rest sf T F C. cbn [simplified] in F. destruct (fold c) as [c'| | |] eqn:E; try discriminate. cbn [bind] in F. destruct (simplified b) as [b'| | |] eqn:E2; try discriminate. injection F as <-. apply tokens_app_inv in T. destruct T as (ta & tb & -> & Ta & Tb). rewrite <- app_assoc.
    eapply ev_step; [|intros m; cbn [Parser.p_if]; reflexivity]. eapply (ev_bind _ (fun m '(e, ts) => _)); [eapply expr_ev; try eassumption; destruct HB; apply tokens_cons_inv in Tb; destruct Tb as (? & ? & -> & _); reflexivity|]. cbv beta iota.
    eapply (ev_bind _ (fun m '(e, ts) => _)); [eapply IH; try eassumption; reflexivity|]. cbv beta iota. eapply ev_eq; [intros; rewrite C; reflexivity|]. apply ev_ret.
  - (* else *) intros c b b2 a d d2 H HB IH HB2 IH2 toks rest sf T F C. cbn [simplified] in F. destruct (fold c) as [c'| | |] eqn:E; try discriminate. cbn [bind] in F. destruct (simplified b) as [b'| | |] eqn:E2; try discriminate. cbn [bind] in F. destruct (simplified b2) as [b2'| | |] eqn:E3; try discriminate. injection F as <-. apply tokens_app_inv in T. destruct T as (ta & tb & -> & Ta & T). apply tokens_app_inv in T. destruct T as (tb1 & tb2 & -> & Tb & T). apply tokens_cons_inv in T. destruct T as (nl & ts & -> & T). repeat (rewrite <- app_assoc; cbn [app]). cbn [kind content].
    eapply ev_step; [|intros m; cbn [Parser.p_if]; reflexivity]. eapply (ev_bind _ (fun m '(e, ts) => _)); [eapply expr_ev; try eassumption; destruct HB; apply tokens_cons_inv in Tb; destruct Tb as (? & ? & -> & _); reflexivity|]. cbv beta iota.
    eapply (ev_bind _ (fun m '(e, ts) => _)); [eapply IH; try eassumption; reflexivity|]. cbv beta iota. cbn [cur t_type tl]. eapply (ev_bind _ (fun m '(e, ts) => _)); [eapply IH2; try eassumption; reflexivity|]. apply ev_ret.
  - (* elseif *) intros c b s a d d2 H HB IH HB2 IH2 toks rest sf T F C. cbn [simplified] in F. destruct (fold c) as [c'| | |] eqn:E; try discriminate. cbn [bind] in F. destruct (simplified b) as [b'| | |] eqn:E2; try discriminate. cbn [bind] in F. destruct (simplified s) as [s'| | |] eqn:E3; try discriminate. injection F as <-. apply tokens_app_inv in T. destruct T as (ta & tb & -> & Ta & T). apply tokens_app_inv in T. destruct T as (tb1 & tb2 & -> & Tb & T). apply tokens_cons_inv in T. destruct T as (nl & ts & -> & T). repeat (rewrite <- app_assoc; cbn [app]). cbn [kind content].
    eapply ev_step; [|intros m; cbn [Parser.p_if]; reflexivity]. eapply (ev_bind _ (fun m '(e, ts) => _)); [eapply expr_ev; try eassumption; destruct HB; apply tokens_cons_inv in Tb; destruct Tb as (? & ? & -> & _); reflexivity|]. cbv beta iota.
    eapply (ev_bind _ (fun m '(e, ts) => _)); [eapply IH; try eassumption; reflexivity|]. cbv beta iota. cbn [cur t_type tl]. eapply (ev_bind _ (fun m '(e, ts) => _)); [eapply IH2; try eassumption; reflexivity|]. apply ev_ret.
  - (* body *) intros l a H IH toks rest bf T F. destruct (simplified_seq _ _ F) as (l' & El & ->). apply tokens_cons_inv in T. destruct T as (nl & ts & -> & T). apply tokens_app_inv in T. destruct T as (ta & tb & -> & Ta & T). apply tokens_cons_inv in T. destruct T as (nl2 & ts2 & -> & T). apply tokens_nil_inv in T. subst ts2. cbn [app kind content]. rewrite <- app_assoc. cbn [app].
    eapply ev_step; [|intros m; cbn [Parser.p_body]; rewrite eat_tok; cbn [pbind]; reflexivity]. eapply (ev_bind _ (fun m '(e, ts) => _)); [eapply IH; try eassumption; reflexivity|]. cbv beta iota. eapply ev_eq; [intros; rewrite eat_tok; cbn [pbind]; reflexivity|]. apply ev_ret.
  - (* no statement *) intros toks rest lf T F C. injection F as <-. apply tokens_nil_inv in T. subst toks. exists 1%nat. intros [|m] L; [lia|]. cbn [Parser.p_stmts app]. rewrite is_eq by exact C. reflexivity.
  - (* statement ; statements *) intros s t l a b H IH S HL IHL toks rest lf T F C. cbn [simplified_list] in F. destruct (simplified s) as [s'| | |] eqn:E1; try discriminate. cbn [bind] in F. destruct (simplified_list l) as [l'| | |] eqn:E2; try discriminate. injection F as <-. destruct (stmt_starts _ _ H) as (St & Ne). apply tokens_app_inv in T. destruct T as (ta & tb & -> & Ta & T). apply tokens_cons_inv in T. destruct T as (nl & ts & -> & T). rewrite <- app_assoc. cbn [app]. rewrite (semi_kind _ S).
    pose proof (tokens_cur _ _ (Tok T_SEMI (content t) nl false :: ts ++ rest) Ta Ne) as Cu.
    eapply ev_step; [|intros m; cbn [Parser.p_stmts]; rewrite !is_neq by (rewrite Cu; intros X; rewrite X in St; discriminate); cbn [orb]; reflexivity].
    eapply (ev_bind _ (fun m '(e, ts) => _)); [eapply IH; try eassumption; reflexivity|]. cbv beta iota. eapply ev_eq; [intros; rewrite eat_tok; cbn [pbind]; reflexivity|]. eapply (ev_bind _ (fun m '(e, ts) => _)); [eapply IHL; try eassumption; reflexivity|]. apply ev_ret.
Qed.
Theorem program_parsed l a : stmts_written strtod l a -> forall toks rest lf, tokens_of toks a -> simplified_list l = Ok lf -> cur rest = T_EOF -> eventually (fun m => Parser.p_program strtod m (toks ++ rest)) lf.
Proof.
  induction 1 as [|s t l a b H S HL IHL]; intros toks rest lf T F C.
  - injection F as <-. apply tokens_nil_inv in T. subst toks. exists 1%nat. intros [|m] L; [lia|]. cbn [Parser.p_program app]. rewrite is_eq by exact C. reflexivity.
  - cbn [simplified_list] in F. destruct (simplified s) as [s'| | |] eqn:E1; try discriminate. cbn [bind] in F. destruct (simplified_list l) as [l'| | |] eqn:E2; try discriminate. injection F as <-. destruct (stmt_starts _ _ H) as (St & Ne). apply tokens_app_inv in T. destruct T as (ta & tb & -> & Ta & T). apply tokens_cons_inv in T. destruct T as (nl & ts & -> & T). rewrite <- app_assoc. cbn [app]. rewrite (semi_kind _ S).
    pose proof (tokens_cur _ _ (Tok T_SEMI (content t) nl false :: ts ++ rest) Ta Ne) as Cu.
    eapply ev_step; [|intros m; cbn [Parser.p_program]; rewrite is_neq by (rewrite Cu; intros X; rewrite X in St; discriminate); reflexivity].
    eapply (ev_bind _ (fun m '(e, ts) => _)); [eapply (proj1 statements_parsed); try eassumption; reflexivity|]. cbv beta iota. eapply ev_eq; [intros; rewrite eat_tok; cbn [pbind]; reflexivity|]. eapply (ev_bind _ (fun m e => _)); [eapply IHL; try eassumption; reflexivity|]. apply ev_ret.
Qed.
End Expr.
