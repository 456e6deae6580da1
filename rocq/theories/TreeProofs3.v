(** * The parser reads what is written: proofs for the grammar of TreeSpec.v, expressions. *)
From Verif Require Import Base Value Ops Ast Fold FoldProofs Stmt Text TextSpec TextProofs PropText Lexer LexSpec Parser ParseSpec ParseProofs Tree TreeParser TreeSpec TreeProofs TreeProofs2.
Local Open Scope list_scope.

Section Expr.
Variable strtod : list Z -> float.
Notation q_level := (TreeParser.q_level strtod).
Notation q_loop := (TreeParser.q_loop strtod).
Notation q_expr := (TreeParser.q_expr strtod).
Notation q_body := (TreeParser.q_body strtod).
Notation x_at := (TreeSpec.x_at strtod).
Notation reads := (TreeProofs2.reads strtod).
Notation yields := (TreeProofs2.yields strtod).
Notation posts := (TreeProofs2.posts strtod).
Notation item := (TreeProofs2.item strtod).
Notation sep := (TreeProofs2.sep strtod).
Notation seps := (TreeProofs2.seps strtod).
Ltac b1 := eapply (ev_bind _ (fun m '(e, ts) => _)).
Ltac b2 := eapply (ev2_bind _ (fun m f '(e, ts) => _)).
Lemma level0 m ts : q_level (S m) 0 ts = get (c, ts) <- q_level m 1 ts;
             if is T_QMARK ts then get (a, ts) <- q_level m 0 (tl ts); get ts <- eat T_COLON ts; get (b, ts) <- q_level m 0 ts; POk (XTri c a b, ts) else POk (c, ts).
Proof. reflexivity. Qed.
Lemma level13 m ts : q_level (S m) 13 ts = if one [T_PLUS; T_MINUS; T_BANG; T_CARET; T_LEN] ts then get (e, ts') <- q_level m 13 (tl ts); get e <- nodex (mkx_un (cur ts) e); POk (e, ts') else q_level m 14 ts.
Proof. reflexivity. Qed.
Lemma level14 m ts : q_level (S m) 14 ts = get (l, ts) <- q_level m 15 ts; if is T_DSTAR ts then get (r, ts) <- q_level m 13 (tl ts); POk (XBin (BOp BPow) l r, ts) else POk (l, ts).
Proof. reflexivity. Qed.
Lemma level16 m ts : q_level (S m) 16 ts = match cur ts with
        | T_LPAR => get (e, ts) <- q_expr m (tl ts); get ts <- eat T_RPAR ts; POk (e, ts)
        | T_LSQB => q_list (q_expr m) m (tl ts)
        | T_LBRC => q_table (q_expr m) m (tl ts)
        | T_FN => get ts <- eat T_LPAR (tl ts); get (ps, ts) <- p_params ts; get ts <- eat T_RPAR ts; get (b, ts) <- q_body m ts; POk (XFn ps b, ts)
        | _ => q_leaf strtod ts
        end.
Proof. reflexivity. Qed.
Lemma stronger_reads k e a : x_at (S k) e a -> reads (S k) e a -> (k < 16)%nat -> reads k e a.
Proof.
  intros H IH L. destruct (binary k) as [[[|] ops]|] eqn:B.
  - apply reads_loopy; [right; eauto|]. intros toks rest ef T F S. destruct (IH toks rest ef T F) as [A _]. destruct (A S) as (e' & F' & Y). exists e'. split; [exact F'|]. intros e2 rest2 Lp. eapply level_loopy; [right; eauto|exact Y|exact Lp].
  - apply reads_other; [eapply right_not_loopy; eassumption|]. intros toks rest ef T F S. destruct (IH toks rest ef T F) as [A _]. destruct (A ltac:(eapply stops_le; [exact S|lia])) as (e' & F' & Y). exists e'. split; [exact F'|].
    eapply ev_step; [|intros m; apply (level_right _ _ _ B)]. b1; [exact Y|]. cbv beta iota. rewrite (stops_one _ _ _ _ B S). apply ev_ret.
  - assert (K : k = 0%nat \/ k = 13%nat \/ k = 14%nat \/ k = 15%nat) by (do 16 (destruct k as [|k]; [try discriminate B; tauto|]); lia).
    destruct K as [->|[->|[->| ->]]].
    + apply reads_other; [intros [X|(? & X)]; discriminate|]. intros toks rest ef T F S. destruct (IH toks rest ef T F) as [A _]. destruct (A ltac:(eapply stops_le; [exact S|lia])) as (e' & F' & Y). exists e'. split; [exact F'|].
      eapply ev_step; [|intros m; apply level0]. b1; [exact Y|]. cbv beta iota. rewrite is_neq; [apply ev_ret|]. intros X. unfold stops in S. rewrite X in S. cbn in S. lia.
    + apply reads_other; [intros [X|(? & X)]; discriminate|]. intros toks rest ef T F S. destruct (IH toks rest ef T F) as [A _]. destruct (A ltac:(eapply stops_le; [exact S|lia])) as (e' & F' & Y). exists e'. split; [exact F'|].
      eapply ev_step; [|intros m; rewrite level13; rewrite not_prefix_one; [reflexivity|]; rewrite (tok_cur _ _ _ T) by (eapply x_nonempty; eassumption); eapply x_not_prefix; [eassumption|lia]]. exact Y.
    + apply reads_other; [intros [X|(? & X)]; discriminate|]. intros toks rest ef T F S. destruct (IH toks rest ef T F) as [A _]. destruct (A ltac:(eapply stops_le; [exact S|lia])) as (e' & F' & Y). exists e'. split; [exact F'|].
      eapply ev_step; [|intros m; apply level14]. b1; [exact Y|]. cbv beta iota. rewrite is_neq; [apply ev_ret|]. intros X. unfold stops in S. rewrite X in S. cbn in S. lia.
    + apply reads_loopy; [left; reflexivity|]. intros toks rest ef T F S. destruct (IH toks rest ef T F) as [A _]. destruct (A S) as (e' & F' & Y). exists e'. split; [exact F'|]. intros e2 rest2 Lp. eapply level_loopy; [left; reflexivity|exact Y|exact Lp].
Qed.
Lemma left_reads o l r a b : groups o = Left -> reads (strength o) l a -> reads (S (strength o)) r b -> reads (strength o) (mix o l r) (a ++ LFixed (symbol o) :: b).
Proof.
  intros G IH1 IH2. assert (Np : o <> OBin (BOp BPow)) by (intros ->; discriminate). destruct (symbol_level o Np) as (ops & B & On & Bi & _). rewrite G in B.
  apply reads_loopy; [right; eauto|]. intros toks rest ef T F S. destruct (fold_mix _ _ _ _ F) as (lf & rf & Fl & Fr & Fc).
  tka T ta tb Ta. tk1 T nl tb'. cbn [kind content]. set (opt := Tok (symbol o) [] nl false) in *. rewrite <- app_assoc. cbn [app].
  destruct (IH1 ta (opt :: tb' ++ rest) lf Ta Fl) as [_ Bc]. destruct Bc as (l' & Fl' & Hl); [right; eauto|unfold stops; cbn [cur opt t_type]; rewrite Bi; lia|].
  destruct (IH2 tb' rest rf T Fr) as [Ac _]. destruct (Ac S) as (r' & Fr' & Hr).
  exists (mix o l' r'). split; [apply Fc; assumption|]. intros e2 rest2 Lp. apply Hl. unfold follows in *. rewrite (left_15 _ _ B) in *.
  eapply ev_step; [|intros m; rewrite (loop_step _ _ _ _ B), On by reflexivity; cbn [tl]; reflexivity]. b1; [exact Hr|]. cbv beta iota. cbn [cur opt t_type]. rewrite mkx_mix. cbn [nodex pbind]. exact Lp.
Qed.
Lemma right_reads o l r a b : groups o = Right -> o <> OBin (BOp BPow) -> reads (S (strength o)) l a -> reads (strength o) r b -> reads (strength o) (mix o l r) (a ++ LFixed (symbol o) :: b).
Proof.
  intros G N IH1 IH2. destruct (symbol_level o N) as (ops & B & On & Bi & _). rewrite G in B.
  apply reads_other; [eapply right_not_loopy; eassumption|]. intros toks rest ef T F S. destruct (fold_mix _ _ _ _ F) as (lf & rf & Fl & Fr & Fc).
  tka T ta tb Ta. tk1 T nl tb'. cbn [kind content]. set (opt := Tok (symbol o) [] nl false) in *. rewrite <- app_assoc. cbn [app].
  destruct (IH1 ta (opt :: tb' ++ rest) lf Ta Fl) as [Ac _]. destruct Ac as (l' & Fl' & Hl); [unfold stops; cbn [cur opt t_type]; rewrite Bi; lia|].
  destruct (IH2 tb' rest rf T Fr) as [Ac _]. destruct (Ac S) as (r' & Fr' & Hr).
  exists (mix o l' r'). split; [apply Fc; assumption|].
  eapply ev_step; [|intros m; apply (level_right _ _ _ B)]. b1; [exact Hl|]. cbv beta iota. rewrite On by reflexivity. cbn [tl]. b1; [exact Hr|]. cbv beta iota. cbn [cur opt t_type]. rewrite mkx_mix. apply ev_ret.
Qed.
Lemma ternary_reads c x y a b d : reads 1 c a -> reads 0 x b -> reads 0 y d -> reads 0 (XTri c x y) (a ++ LFixed T_QMARK :: b ++ LFixed T_COLON :: d).
Proof.
  intros IH1 IH2 IH3. apply reads_other; [intros [X|(? & X)]; discriminate|]. intros toks rest ef T F S. cbn [fold_e] in F. unbind F. injection F as <-.
  tka T ta tb Ta. tk1 T nl tb'. tka T tx ty Tx. tk1 T nl2 ty'. cbn [kind content]. rewrite <- app_assoc. cbn [app]. rewrite <- app_assoc. cbn [app]. set (q := Tok T_QMARK [] nl false). set (cl := Tok T_COLON [] nl2 false).
  destruct (IH1 ta (q :: tx ++ cl :: ty' ++ rest) _ Ta E) as [A1 _]. destruct A1 as (c' & Fc' & Hc); [cbn; lia|].
  destruct (IH2 tx (cl :: ty' ++ rest) _ Tx E0) as [A2 _]. destruct A2 as (x' & Fx' & Hx); [exact I|].
  destruct (IH3 ty' rest _ T E1) as [A3 _]. destruct (A3 S) as (y' & Fy' & Hy).
  exists (XTri c' x' y'). split; [cbn [cfold]; rewrite Fc', Fx', Fy'; reflexivity|].
  eapply ev_step; [|intros m; apply level0]. b1; [exact Hc|]. cbv beta iota. rewrite is_eq by reflexivity. cbn [tl]. b1; [exact Hx|]. cbv beta iota. eapply ev_eq; [intros; unfold cl; rewrite eat_tok; cbn [pbind]; reflexivity|]. b1; [exact Hy|]. apply ev_ret.
Qed.
Lemma prefix_reads u e a : reads 13 e a -> reads 13 (XUn u e) (LFixed (prefix_symbol u) :: a).
Proof.
  intros IH. apply reads_other; [intros [X|(? & X)]; discriminate|]. intros toks rest ef T F S. cbn [fold_e] in F. destruct (fold_e e) as [e1| | |] eqn:Fe; try discriminate. cbn [bind] in F.
  tk1 T nl ts. cbn [kind content]. destruct (IH ts rest e1 T Fe) as [A _]. destruct (A S) as (e' & Fe' & Y). exists (XUn u e'). split; [cbn [cfold]; rewrite Fe'; exact F|]. cbn [app].
  eapply ev_step; [|intros m; rewrite level13; replace (one _ _) with true by (destruct u; reflexivity); cbn [tl]; reflexivity]. b1; [exact Y|]. cbv beta iota. replace (mkx_un _ _) with (Some (XUn u e')) by (destruct u; reflexivity). apply ev_ret.
Qed.
Lemma power_reads l r a b : reads 15 l a -> reads 13 r b -> reads 14 (XBin (BOp BPow) l r) (a ++ LFixed T_DSTAR :: b).
Proof.
  intros IH1 IH2. apply reads_other; [intros [X|(? & X)]; discriminate|]. intros toks rest ef T F S. destruct (fold_mix (OBin (BOp BPow)) _ _ _ F) as (lf & rf & Fl & Fr & Fc).
  tka T ta tb Ta. tk1 T nl tb'. cbn [kind content]. rewrite <- app_assoc. cbn [app]. set (opt := Tok T_DSTAR [] nl false).
  destruct (IH1 ta (opt :: tb' ++ rest) lf Ta Fl) as [A1 _]. destruct A1 as (l' & Fl' & Hl); [cbn; lia|].
  destruct (IH2 tb' rest rf T Fr) as [A2 _]. destruct A2 as (r' & Fr' & Hr). { clear - S. unfold stops in *. destruct (cur rest); cbn in *; lia. }
  exists (XBin (BOp BPow) l' r'). split; [apply Fc; assumption|].
  eapply ev_step; [|intros m; apply level14]. b1; [exact Hl|]. cbv beta iota. rewrite is_eq by reflexivity. cbn [tl]. b1; [exact Hr|]. apply ev_ret.
Qed.
(** ** What comes after an expression of strength 15. *)
Lemma postfix_reads c a e b : reads 15 c a ->
  (forall ef, fold_e e = Ok ef -> exists cf ext, fold_e c = Ok cf /\ (forall c', cfold c' = Ok cf -> cfold (ext c') = Ok ef) /\
     forall toks rest c' e2 rest2, tokens toks b -> posts (ext c') rest e2 rest2 -> posts c' (toks ++ rest) e2 rest2) -> reads 15 e (a ++ b).
Proof.
  intros IH H. apply reads_loopy; [left; reflexivity|]. intros toks rest ef T F S. destruct (H ef F) as (cf & ext & Fc & Fx & P).
  tka T ta tb Ta. rewrite <- app_assoc. destruct (IH ta (tb ++ rest) cf Ta Fc) as [_ A]. destruct A as (c' & Fc' & Hc); [left; reflexivity|apply stops16|].
  exists (ext c'). split; [apply Fx, Fc'|]. intros e2 rest2 Q. apply Hc. unfold follows in *. cbn [Nat.eqb] in *. apply P; assumption.
Qed.
Lemma field_reads c x a : reads 15 c a -> reads 15 (XGet c (XStr x)) (a ++ [LFixed T_DOT; LId x]).
Proof.
  intros IH. apply postfix_reads with (1 := IH). intros ef F. cbn [fold_e] in F. unbind F. cbn [bind] in F. injection F as <-. exists a0, (fun c' => XGet c' (XStr x)). split; [reflexivity|]. split; [intros c' Fc; cbn [cfold]; rewrite Fc; reflexivity|].
  intros toks rest c' e2 rest2 T Q. tk1 T nl t1. tk1 T nl2 t2. tkn T. eapply ev2_step; [exact Q|]. intros m f. reflexivity.
Qed.
Lemma post_index m f c ts : xstarter (cur ts) = true -> q_post (q_expr m) (S f) c (Tok T_LSQB [] false false :: ts) =
  get (a, ts) <- q_expr m ts; if is T_COLON ts then let ts := tl ts in if is T_RSQB ts then q_post (q_expr m) f (XSlice c a XUndef) (tl ts) else get (b, ts) <- q_expr m ts; get ts <- eat T_RSQB ts; q_post (q_expr m) f (XSlice c a b) ts
          else get ts <- eat T_RSQB ts; q_post (q_expr m) f (XGet c a) ts.
Proof. intros St. cbn [q_post cur t_type tl]. rewrite is_neq; [reflexivity|]. intros X. rewrite X in St. discriminate. Qed.
Lemma index_reads c k a b : reads 15 c a -> item k b -> reads 15 (XGet c k) (a ++ LFixed T_LSQB :: b ++ [LFixed T_RSQB]).
Proof.
  intros IH It. apply postfix_reads with (1 := IH). intros ef F. cbn [fold_e] in F. unbind F. injection F as <-. exists a0, (fun c' => XGet c' a1). split; [reflexivity|]. split; [intros c' Fc; cbn [cfold]; rewrite Fc, (proj1 folded_twice _ _ E0); reflexivity|].
  intros toks rest c' e2 rest2 T Q. tk1 T nl t1. cbn in Nl. destruct nl; [discriminate|]. tka T tb tc Tb. tk1 T nl2 t2. tkn T. cbn [kind content app]. rewrite <- app_assoc. cbn [app].
  destruct It as (Pa & St & Ne). eapply ev2_step; [|intros m f; apply post_index; rewrite (tok_cur _ _ _ Tb Ne); exact St].
  b2; [apply ev2_left; apply Pa; [exact Tb|exact E0|reflexivity]|]. cbv beta iota. rewrite is_neq by discriminate. eapply ev2_eq; [intros; rewrite eat_tok; cbn [pbind]; reflexivity|]. exact Q.
Qed.
Lemma slice_reads c x y a b d : reads 15 c a -> edge strtod x b -> edge strtod y d -> reads 15 (XSlice c x y) (a ++ LFixed T_LSQB :: b ++ LFixed T_COLON :: d ++ [LFixed T_RSQB]).
Proof.
  intros IH Ex Ey. apply postfix_reads with (1 := IH). intros ef F. cbn [fold_e] in F. unbind F. injection F as <-. exists a0, (fun c' => XSlice c' a1 a2). split; [reflexivity|]. split; [intros c' Fc; cbn [cfold]; rewrite Fc, (proj1 folded_twice _ _ E0), (proj1 folded_twice _ _ E1); reflexivity|].
  intros toks rest c' e2 rest2 T Q. tk1 T nl t1. cbn in Nl. destruct nl; [discriminate|]. tka T tb tc Tb. tk1 T nl2 t2. tka T td te Td. tk1 T nl3 t3. tkn T. cbn [kind content app]. repeat (rewrite <- app_assoc; cbn [app]).
  destruct Ex as [|x b Ix].
  - tkn Tb. injection E0 as <-. cbn [app]. destruct Ey as [|y d Iy].
    + tkn Td. injection E1 as <-. cbn [app]. eapply ev2_step; [exact Q|]. intros m f. reflexivity.
    + eapply ev2_step; [|intros m f; cbn [q_post cur t_type tl]; rewrite is_eq by reflexivity; cbn [tl]; rewrite (item_not strtod _ _ _ _ T_RSQB Iy Td) by reflexivity; reflexivity].
      b2; [eapply item_ev; [exact Iy|exact Td|exact E1|reflexivity]|]. cbv beta iota. eapply ev2_eq; [intros; rewrite eat_tok; cbn [pbind]; reflexivity|]. exact Q.
  - destruct Ix as (Pa & St & Ne). eapply ev2_step; [|intros m f; apply post_index; rewrite (tok_cur _ _ _ Tb Ne); exact St].
    b2; [apply ev2_left; apply Pa; [exact Tb|exact E0|reflexivity]|]. cbv beta iota. rewrite is_eq by reflexivity. cbn [tl]. cbv zeta. destruct Ey as [|y d Iy].
    + tkn Td. injection E1 as <-. cbn [app]. exact Q.
    + eapply ev2_eq; [intros; rewrite (item_not strtod _ _ _ _ T_RSQB Iy Td) by reflexivity; reflexivity|].
      b2; [eapply item_ev; [exact Iy|exact Td|exact E1|reflexivity]|]. cbv beta iota. eapply ev2_eq; [intros; rewrite eat_tok; cbn [pbind]; reflexivity|]. exact Q.
Qed.
Lemma args_fold es a0 : fold_es (keep (-1) es) = Ok a0 -> exists esf, fold_es es = Ok esf /\ a0 = in_context (-1) esf /\ cfolds a0 = Ok a0.
Proof. intros F. destruct (fold_keep _ _ _ F) as (esf & Fe & ->). exists esf. split; [exact Fe|]. split; [reflexivity|]. apply cfolds_keep. apply (proj1 (proj2 folded_twice) _ _ Fe). Qed.
Lemma call_reads c es a b : reads 15 c a -> some_args strtod es b -> reads 15 (XCall c (keep (-1) es)) (a ++ LFixed T_LPAR :: b ++ [LFixed T_RPAR]).
Proof.
  intros IH Ar. apply postfix_reads with (1 := IH). intros ef F. cbn [fold_e] in F. unbind F. injection F as <-. destruct (args_fold _ _ E0) as (esf & Fe & -> & Fi). exists a0, (fun c' => XCall c' (in_context (-1) esf)). split; [reflexivity|]. split; [intros c' Fc; cbn [cfold]; rewrite Fc, Fi; reflexivity|].
  intros toks rest c' e2 rest2 T Q. tk1 T nl t1. tka T tb tc Tb. tk1 T nl2 t2. tkn T. cbn [kind content app]. rewrite <- app_assoc. cbn [app].
  eapply ev2_step; [|intros m f; cbn [q_post cur t_type]; reflexivity]. b2; [eapply call_ev; eassumption|]. exact Q.
Qed.
Lemma method_reads c x es a b : reads 15 c a -> some_args strtod es b -> reads 15 (XMeth c x (keep (-1) es)) (a ++ LFixed T_RIGHT_ARR :: LId x :: LFixed T_LPAR :: b ++ [LFixed T_RPAR]).
Proof.
  intros IH Ar. apply postfix_reads with (1 := IH). intros ef F. cbn [fold_e] in F. unbind F. injection F as <-. destruct (args_fold _ _ E0) as (esf & Fe & -> & Fi). exists a0, (fun c' => XMeth c' x (in_context (-1) esf)). split; [reflexivity|]. split; [intros c' Fc; cbn [cfold]; rewrite Fc, Fi; reflexivity|].
  intros toks rest c' e2 rest2 T Q. tk1 T nl0 t0. tk1 T nl3 t3. tk1 T nl t1. tka T tb tc Tb. tk1 T nl2 t2. tkn T. cbn [kind content app]. rewrite <- app_assoc. cbn [app].
  eapply ev2_step; [|intros m f; cbn [q_post cur t_type tl]; rewrite is_eq by reflexivity; cbn [tl cur_val t_val]; reflexivity]. b2; [eapply call_ev; eassumption|]. exact Q.
Qed.
(** ** Strength 16. *)
Lemma primary_reads e a : (forall toks rest ef, tokens toks a -> fold_e e = Ok ef -> exists e', cfold e' = Ok ef /\ yields 16 (toks ++ rest) e' rest) -> reads 16 e a.
Proof. intros H. apply reads_other; [intros [X|(? & X)]; discriminate|]. intros toks rest ef T F _. apply H; assumption. Qed.
Lemma parens_reads e a : item e a -> reads 16 e (LFixed T_LPAR :: a ++ [LFixed T_RPAR]).
Proof.
  intros (Pa & _). apply primary_reads. intros toks rest ef T F. exists ef. split; [apply (proj1 folded_twice _ _ F)|]. tk1 T nl t1. tka T ta tb Ta. tk1 T nl2 t2. tkn T. cbn [kind content app]. rewrite <- app_assoc. cbn [app].
  eapply ev_step; [|intros m; rewrite level16; cbn [cur t_type tl]; reflexivity]. b1; [apply Pa; [exact Ta|exact F|reflexivity]|]. cbv beta iota. eapply ev_eq; [intros; rewrite eat_tok; cbn [pbind]; reflexivity|]. apply ev_ret.
Qed.
Lemma leaf_reads e a : leaf strtod e a -> reads 16 (embed e) a.
Proof.
  intros L. apply primary_reads. intros toks rest ef T F. destruct (leaf_embed _ _ _ L) as (F1 & F2). assert (embed e = ef) by congruence. subst ef. exists (embed e). split; [exact F2|]. destruct (leaf_read _ _ _ L toks rest T) as (R & N1 & N2 & N3 & N4).
  eapply ev_step; [|intros m; rewrite level16; reflexivity]. destruct (cur (toks ++ rest)); try congruence; rewrite R; apply ev_ret.
Qed.
Lemma some_list_reads e es a (tail : list lexeme) : item e a ->
  (forall toks rest esf, tokens toks tail -> fold_es es = Ok esf -> exists ts, binds (cur (toks ++ rest)) = None /\ skip_nl (toks ++ rest) = POk ts /\ is T_FOR ts = false /\ exists ts2, ev2 (fun m f => q_more (q_expr m) f ts) (esf, ts2) /\ exists ts3, skip_nl ts2 = POk ts3 /\ eat T_RSQB ts3 = POk rest) ->
  reads 16 (XList (XCons e es)) (LFixed T_LSQB :: a ++ tail).
Proof.
  intros It H. apply primary_reads. intros toks rest ef T F. cbn [fold_e fold_es] in F. unbind F. unbind E. injection E as <-. injection F as <-.
  match goal with |- exists e', cfold e' = Ok ?x /\ _ => exists x end. split; [cbn [cfold cfolds]; rewrite (proj1 folded_twice _ _ E0), (proj1 (proj2 folded_twice) _ _ E1); reflexivity|].
  tk1 T nl t1. tka T ta tb Ta. cbn [kind content app]. rewrite <- app_assoc. destruct (H tb rest _ T eq_refl) as (ts & B & S1 & Nf & ts2 & M & ts3 & S2 & Ea).
  eapply ev_step; [|intros m; rewrite level16; cbn [cur t_type tl]; reflexivity]. apply ev2_diag with (F := fun m f => q_list (q_expr m) f _). unfold q_list. rewrite (item_not strtod _ _ _ _ T_RSQB It Ta) by reflexivity.
  b2; [eapply item_ev; [exact It|exact Ta|exact E0|exact B]|]. cbv beta iota. rewrite S1. cbn [pbind]. rewrite Nf. b2; [exact M|]. cbv beta iota. rewrite S2. cbn [pbind]. rewrite Ea. cbn [pbind]. apply ev2_ret.
Qed.
Lemma list1_reads e a n : item e a -> line_end n -> reads 16 (XList (XCons e XNil)) (LFixed T_LSQB :: a ++ n ++ [LFixed T_RSQB]).
Proof.
  intros It Ln. apply some_list_reads; [exact It|]. intros toks rest esf T F. injection F as <-. tka T tn tb Tn. tk1 T nl t1. tkn T. cbn in Nl. destruct nl; [discriminate|]. rewrite <- app_assoc. cbn [app kind content].
  exists (Tok T_RSQB [] false false :: rest). split; [eapply ends_binds; [exact Ln|exact Tn|reflexivity]|]. split; [apply (skip_ends n); assumption|]. split; [reflexivity|]. eexists. split; [eapply ev2_step; [|intros m f; cbn [q_more]; rewrite is_neq by discriminate; reflexivity]; apply ev2_ret|]. eexists. split; [apply skip_stay|]. apply eat_tok.
Qed.
Lemma list_reads e es a b n n' : item e a -> line_end n -> sep es b -> line_end n' -> reads 16 (XList (XCons e es)) (LFixed T_LSQB :: a ++ n ++ LFixed T_COMMA :: b ++ n' ++ [LFixed T_RSQB]).
Proof.
  intros It Ln Sp Ln'. apply some_list_reads; [exact It|]. intros toks rest esf T F. tka T tn tb Tn. tk1 T nl t1. tka T tc td Tc. tka T tn' te Tn'. tk1 T nl2 t2. tkn T. cbn in Nl, Nl0. destruct nl; [discriminate|]. destruct nl2; [discriminate|]. repeat (rewrite <- app_assoc; cbn [app]). cbn [kind content].
  eexists. split; [eapply ends_binds; [exact Ln|exact Tn|reflexivity]|]. split; [apply (skip_ends n); assumption|]. split; [reflexivity|]. eexists. split.
  - eapply more_ev; [exact Sp|exact Tc|exact F|eapply ends_binds; [exact Ln'|exact Tn'|reflexivity]|]. destruct Ln' as [->| ->]; [apply tok_nil in Tn'; subst; discriminate|]. tk1 Tn' nl3 t3. discriminate.
  - eexists. split; [apply (skip_ends n'); assumption|]. apply eat_tok.
Qed.
Lemma nolist_reads : reads 16 (XList XNil) [LFixed T_LSQB; LFixed T_RSQB].
Proof.
  apply primary_reads. intros toks rest ef T F. cbn in F. injection F as <-. match goal with |- exists e', cfold e' = Ok ?x /\ _ => exists x end. split; [reflexivity|]. tk1 T nl t1. tk1 T nl2 t2. tkn T. eapply ev_step; [|intros m; rewrite level16; cbn [app cur t_type kind tl]; unfold q_list; rewrite is_eq by reflexivity; cbn [tl]; reflexivity]. apply ev_ret.
Qed.
Lemma notable_reads : reads 16 (XTable XNil) [LFixed T_LBRC; LFixed T_RBRC].
Proof.
  apply primary_reads. intros toks rest ef T F. cbn in F. injection F as <-. match goal with |- exists e', cfold e' = Ok ?x /\ _ => exists x end. split; [reflexivity|]. tk1 T nl t1. tk1 T nl2 t2. tkn T. eapply ev_step; [|intros m; rewrite level16; cbn [app cur t_type kind tl]; unfold q_table; rewrite is_eq by reflexivity; cbn [tl]; reflexivity]. apply ev_ret.
Qed.
Lemma some_table_reads k v es a b (tail : list lexeme) : item k a -> item v b ->
  (forall toks rest esf, tokens toks tail -> fold_es es = Ok esf -> exists ts, binds (cur (toks ++ rest)) = None /\ skip_nl (toks ++ rest) = POk ts /\ is T_FOR ts = false /\ exists ts2, ev2 (fun m f => q_more_entries (q_expr m) f ts) (esf, ts2) /\ exists ts3, skip_nl ts2 = POk ts3 /\ eat T_RBRC ts3 = POk rest) ->
  reads 16 (XTable (XCons k (XCons v es))) (LFixed T_LBRC :: a ++ LFixed T_COLON :: b ++ tail).
Proof.
  intros It Iv H. apply primary_reads. intros toks rest ef T F. cbn [fold_e fold_es] in F. unbind F. unbind E. unbind E1. injection E1 as <-. injection E as <-. injection F as <-.
  match goal with |- exists e', cfold e' = Ok ?x /\ _ => exists x end. split; [cbn [cfold cfolds]; rewrite (proj1 folded_twice _ _ E0), (proj1 folded_twice _ _ E2), (proj1 (proj2 folded_twice) _ _ E3); reflexivity|].
  tk1 T nl t1. tka T ta tb Ta. tk1 T nl2 t2. tka T tc td Tc. cbn [kind content app]. repeat (rewrite <- app_assoc; cbn [app]). destruct (H td rest _ T eq_refl) as (ts & B & S1 & Nf & ts2 & M & ts3 & S2 & Ea).
  eapply ev_step; [|intros m; rewrite level16; cbn [cur t_type tl]; reflexivity]. apply ev2_diag with (F := fun m f => q_table (q_expr m) f _). unfold q_table. rewrite (item_not strtod _ _ _ _ T_RBRC It Ta) by reflexivity.
  b2; [eapply item_ev; [exact It|exact Ta|exact E0|reflexivity]|]. cbv beta iota. rewrite eat_tok. cbn [pbind]. b2; [eapply item_ev; [exact Iv|exact Tc|exact E2|exact B]|]. cbv beta iota. rewrite S1. cbn [pbind]. rewrite Nf. b2; [exact M|]. cbv beta iota. rewrite S2. cbn [pbind]. rewrite Ea. cbn [pbind]. apply ev2_ret.
Qed.
Lemma table1_reads k v a b n : item k a -> item v b -> line_end n -> reads 16 (XTable (XCons k (XCons v XNil))) (LFixed T_LBRC :: a ++ LFixed T_COLON :: b ++ n ++ [LFixed T_RBRC]).
Proof.
  intros It Iv Ln. apply some_table_reads; [exact It|exact Iv|]. intros toks rest esf T F. injection F as <-. tka T tn tb Tn. tk1 T nl t1. tkn T. cbn in Nl. destruct nl; [discriminate|]. rewrite <- app_assoc. cbn [app kind content].
  exists (Tok T_RBRC [] false false :: rest). split; [eapply ends_binds; [exact Ln|exact Tn|reflexivity]|]. split; [apply (skip_ends n); assumption|]. split; [reflexivity|]. eexists. split; [eapply ev2_step; [|intros m f; cbn [q_more_entries]; rewrite is_neq by discriminate; reflexivity]; apply ev2_ret|]. eexists. split; [apply skip_stay|]. apply eat_tok.
Qed.
Lemma table_reads k v es a b d n n' : item k a -> item v b -> line_end n -> seps es d -> line_end n' -> reads 16 (XTable (XCons k (XCons v es))) (LFixed T_LBRC :: a ++ LFixed T_COLON :: b ++ n ++ LFixed T_COMMA :: d ++ n' ++ [LFixed T_RBRC]).
Proof.
  intros It Iv Ln Sp Ln'. apply some_table_reads; [exact It|exact Iv|]. intros toks rest esf T F. tka T tn tb Tn. tk1 T nl t1. tka T tc td Tc. tka T tn' te Tn'. tk1 T nl2 t2. tkn T. cbn in Nl, Nl0. destruct nl; [discriminate|]. destruct nl2; [discriminate|]. repeat (rewrite <- app_assoc; cbn [app]). cbn [kind content].
  eexists. split; [eapply ends_binds; [exact Ln|exact Tn|reflexivity]|]. split; [apply (skip_ends n); assumption|]. split; [reflexivity|]. eexists. split.
  - eapply entries_ev; [exact Sp|exact Tc|exact F|eapply ends_binds; [exact Ln'|exact Tn'|reflexivity]|]. destruct Ln' as [->| ->]; [apply tok_nil in Tn'; subst; discriminate|]. tk1 Tn' nl3 t3. discriminate.
  - eexists. split; [apply (skip_ends n'); assumption|]. apply eat_tok.
Qed.
Definition body_reads (b : xs) (a : list lexeme) : Prop := forall toks rest bf, tokens toks a -> fold_s b = Ok bf -> eventually (fun m => q_body m (toks ++ rest)) (bf, rest).
Lemma fn_reads ps b a d : params_written ps a -> body_reads b d -> reads 16 (XFn ps b) (LFixed T_FN :: LFixed T_LPAR :: a ++ LFixed T_RPAR :: d).
Proof.
  intros Hp Hb. apply primary_reads. intros toks rest ef T F. cbn [fold_e] in F. unbind F. cbn in F. injection F as <-. match goal with |- exists e', cfold e' = Ok ?x /\ _ => exists x end. split; [reflexivity|]. tk1 T nl t1. tk1 T nl2 t2. tka T ta tb Ta. tk1 T nl3 t3. cbn [kind content app]. rewrite <- app_assoc. cbn [app].
  eapply ev_step; [|intros m; rewrite level16; cbn [cur t_type tl]; rewrite eat_tok; cbn [pbind]; rewrite (params_ok _ _ Hp _ _ _ Ta); cbn [pbind]; rewrite eat_tok; cbn [pbind]; reflexivity]. b1; [apply Hb; [exact T|exact E]|]. apply ev_ret.
Qed.
End Expr.
