From Verif Require Import Base Bytes BytesProofs Value Table Ops Ast Stmt Limits Constants VM Compiler ValueProofs TableSpec ConstSpec ConstProofs Gen GenProofs GenProofs2 SimBase Sim Program ProgProofs CompSpec CompProofs CompState Repl ReplSpec.

(** ** An empty outermost scope changes nothing for a statement that declares only inside blocks. *)
Definition bot (c : cst) : cst := set_scopes c (c_scopes c ++ [[]]).
Section Bot.
Variable fuel : nat.
Lemma get_bot ss x : scope_get (ss ++ [[]]) x = scope_get ss x.
Proof. induction ss as [|s ss IH]; cbn [app scope_get assoc]; [reflexivity|]. rewrite IH. reflexivity. Qed.
Lemma len_bot ss : scope_len (ss ++ [[]]) = scope_len ss.
Proof. unfold scope_len. rewrite concat_app. cbn [concat app]. rewrite app_nil_r. reflexivity. Qed.
Lemma slen_bot c : scope_len (c_scopes (bot c)) = scope_len (c_scopes c).
Proof. unfold bot. cbn [set_scopes c_scopes]. apply len_bot. Qed.
Lemma load_bot c x : load_var fuel (bot c) x = omap bot (load_var fuel c x).
Proof. unfold load_var, bot at 1. cbn [set_scopes c_scopes]. rewrite get_bot. destruct (scope_get (c_scopes c) x); [reflexivity|]. cbn [set_scopes bot c_globals]. destruct (assoc (c_globals c) x); [|reflexivity].
  change (pool_index fuel (bot c) x) with (pool_index fuel c x). destruct (pool_index fuel c x); reflexivity. Qed.
Lemma store_bot c x : store_var fuel (bot c) x = omap bot (store_var fuel c x).
Proof. unfold store_var, bot at 1. cbn [set_scopes c_scopes]. rewrite get_bot. destruct (scope_get (c_scopes c) x) as [v|]; [destruct (is_const v); reflexivity|]. cbn [set_scopes bot c_globals]. destruct (assoc (c_globals c) x) as [v|]; [|reflexivity].
  destruct (is_const v); [reflexivity|]. change (pool_index fuel (bot c) x) with (pool_index fuel c x). destruct (pool_index fuel c x); reflexivity. Qed.
Lemma contains_bot c x : contains_var (bot c) x = contains_var c x.
Proof. unfold contains_var. cbn [bot set_scopes c_scopes c_globals]. rewrite get_bot. reflexivity. Qed.
Lemma lit_bot c v : add_literal fuel (bot c) v = omap bot (add_literal fuel c v).
Proof. unfold add_literal. cbn [bot set_scopes c_pool]. destruct (intern fuel (c_pool c) v); reflexivity. Qed.
Lemma bind_omap {A B C} (o : outcome A) (f : A -> B) (g : B -> outcome C) : bind (omap f o) g = bind o (fun a => g (f a)).
Proof. destruct o; reflexivity. Qed.
Lemma omap_bind {A B C} (o : outcome A) (f : A -> outcome B) (g : B -> C) : omap g (bind o f) = bind o (fun a => omap g (f a)).
Proof. destruct o; reflexivity. Qed.
Lemma bind_ext {A B} (o : outcome A) (f g : A -> outcome B) : (forall a, o = Ok a -> f a = g a) -> bind o f = bind o g.
Proof. destruct o; cbn; auto. Qed.

(** The generator commutes with [bot]. *)
Definition nat_bot (f : cst -> outcome cst) (c : cst) : Prop := f (bot c) = omap bot (f c).
Lemma bind_bot f g c : nat_bot f c -> (forall c', f c = Ok c' -> nat_bot g c') -> nat_bot (fun c => bind (f c) g) c.
Proof. unfold nat_bot. intros F G. rewrite F, bind_omap, omap_bind. apply bind_ext. auto. Qed.
Lemma pre_bot (p : cst -> cst) g c : p (bot c) = bot (p c) -> nat_bot g (p c) -> nat_bot (fun c => g (p c)) c.
Proof. unfold nat_bot. intros -> G. exact G. Qed.
Lemma ok_bot (p : cst -> cst) c : p (bot c) = bot (p c) -> nat_bot (fun c => Ok (p c)) c.
Proof. unfold nat_bot. intros ->. reflexivity. Qed.
Lemma visit_e_bot e : forall c, nat_bot (visit_e fuel e) c.
Proof.
  induction e as [|b|i|f|s|x|o e IH|o l IHl r IHr|o l IHl r IHr|a IHa b IHb d IHd]; intros c; try reflexivity; try apply lit_bot; try apply load_bot.
  - apply (bind_bot (visit_e fuel e)); [apply IH|]. intros. reflexivity.
  - apply (bind_bot (visit_e fuel l)); [apply IHl|]. intros c1 _. apply (bind_bot (visit_e fuel r)); [apply IHr|]. reflexivity.
  - apply (bind_bot (visit_e fuel l)); [apply IHl|]. intros c1 _.
    apply (bind_bot (fun c => visit_e fuel r (emit (emit (emit (emit c (op O_DUP)) (op (sc_jump o))) (enc8 0)) (op O_POP)))
      (fun c2 => Ok (exit_jmp c2 (count (emit (emit c1 (op O_DUP)) (op (sc_jump o)))))) c1).
    + apply (pre_bot _ (visit_e fuel r)); [reflexivity|apply IHr].
    + reflexivity.
  - apply (bind_bot (visit_e fuel a)); [apply IHa|]. intros c1 _.
    set (i1 := count (emit c1 (op O_BRF_8))).
    apply (bind_bot (fun c => visit_e fuel b (emit (emit c (op O_BRF_8)) (enc8 0)))
      (fun c2 => do c <- visit_e fuel d (exit_jmp (emit (emit c2 (op O_BR_8)) (enc8 0)) i1); Ok (exit_jmp c (count (emit c2 (op O_BR_8))))) c1).
    + apply (pre_bot _ (visit_e fuel b)); [reflexivity|apply IHb].
    + intros c2 _. apply (bind_bot (fun c => visit_e fuel d (exit_jmp (emit (emit c (op O_BR_8)) (enc8 0)) i1)) (fun c3 => Ok (exit_jmp c3 (count (emit c2 (op O_BR_8))))) c2).
      * apply (pre_bot _ (visit_e fuel d)); [reflexivity|apply IHd].
      * reflexivity.
Qed.
Lemma visit_es_bot es : forall c, nat_bot (visit_es fuel es) c.
Proof. induction es as [|e es IH]; intros c; [reflexivity|]. apply (bind_bot (visit_e fuel e)); [apply visit_e_bot|]. intros. apply IH. Qed.
Lemma validate_bot f c : nat_bot f c -> nat_bot (validate f) c.
Proof. unfold nat_bot, validate. intros ->. destruct (f c); reflexivity. Qed.

(** *** The number of open scopes. *)
Definition deep (c : cst) : nat := length (c_scopes c).
Lemma load_deep c x c' : load_var fuel c x = Ok c' -> deep c' = deep c.
Proof. unfold load_var. destruct (scope_get _ _); [intros [= <-]; reflexivity|]. destruct (assoc _ _); [|discriminate]. destruct (pool_index _ _ _); try discriminate. intros [= <-]. reflexivity. Qed.
Lemma store_deep c x c' : store_var fuel c x = Ok c' -> deep c' = deep c.
Proof. unfold store_var. destruct (scope_get _ _) as [v|]; [destruct (is_const v); [discriminate|]; intros [= <-]; reflexivity|]. destruct (assoc _ _) as [v|]; [|discriminate]. destruct (is_const v); [discriminate|]. destruct (pool_index _ _ _); try discriminate. intros [= <-]. reflexivity. Qed.
Lemma lit_deep c v c' : add_literal fuel c v = Ok c' -> deep c' = deep c.
Proof. unfold add_literal. destruct (intern _ _ _); try discriminate. intros [= <-]. reflexivity. Qed.
Ltac ib E := match type of E with bind ?o _ = Ok _ => let c := fresh "c" in let Q := fresh "Q" in destruct o as [c| | |] eqn:Q; try discriminate E; cbn [bind] in E end.
Lemma visit_e_deep e : forall c c', visit_e fuel e c = Ok c' -> deep c' = deep c.
Proof.
  induction e as [|b|i|f|s|x|o e IH|o l IHl r IHr|o l IHl r IHr|a IHa b IHb d IHd]; intros c c' E; cbn [visit_e] in E; try (injection E as <-; reflexivity); try (eapply lit_deep; eassumption); try (eapply load_deep; eassumption).
  - ib E. injection E as <-. apply IH in Q. exact Q.
  - ib E. ib E. injection E as <-. apply IHl in Q. apply IHr in Q0. unfold deep in *. cbn in *. congruence.
  - ib E. unfold enter_jmp in E. cbv zeta in E. ib E. injection E as <-. apply IHl in Q. apply IHr in Q0. unfold deep in *. cbn in *. congruence.
  - ib E. unfold enter_jmp in E. cbv zeta in E. ib E. ib E. injection E as <-. apply IHa in Q. apply IHb in Q0. apply IHd in Q1. unfold deep in *. cbn in *. congruence.
Qed.
Lemma visit_es_deep es : forall c c', visit_es fuel es c = Ok c' -> deep c' = deep c.
Proof. induction es as [|e es IH]; intros c c' E; cbn [visit_es] in E; [injection E as <-; reflexivity|]. ib E. apply visit_e_deep in Q. apply IH in E. congruence. Qed.
Lemma decl_deep c x c' : decl_var fuel c x = Ok c' -> deep c' = deep c.
Proof.
  unfold decl_var, deep. destruct (c_scopes c) as [|s r] eqn:S.
  - intros E. ib E. injection E as <-. reflexivity.
  - destruct (_ >? 255); [discriminate|]. intros [= <-]. unfold scope_decl. cbn [set_scopes c_scopes]. destruct (assoc s x); reflexivity.
Qed.
Lemma scope_const_len ss x : length (scope_const ss x) = length ss.
Proof. induction ss as [|s r IH]; cbn [scope_const length]; [reflexivity|]. destruct (assoc s x); cbn [length]; [reflexivity|]. rewrite IH. reflexivity. Qed.
Lemma const_deep c x : deep (make_const c x) = deep c.
Proof. unfold make_const, deep. destruct (c_scopes c) as [|s r] eqn:S; [reflexivity|]. cbn [set_scopes c_scopes]. apply scope_const_len. Qed.
Lemma declare_deep c x e c' : declare fuel c x e = Ok c' -> deep c' = deep c.
Proof.
  unfold declare. destruct (in_current c x); [discriminate|]. intros E. ib E. ib E. apply visit_e_deep in Q. apply decl_deep in Q0. destruct (c_scopes c1); [apply store_deep in E|injection E as <-]; congruence.
Qed.
Lemma lvals_deep ls : forall c c', visit_lvals fuel ls c = Ok c' -> deep c' = deep c.
Proof.
  induction ls as [|l ls IH]; intros c c' E; cbn [visit_lvals] in E; [injection E as <-; reflexivity|]. destruct l as [x|x|x].
  - destruct (in_current c x); [discriminate|]. ib E. apply decl_deep in Q. ib E. apply IH in E. destruct (c_scopes c0); [apply store_deep in Q0; unfold deep in *; cbn in *|injection Q0 as <-]; congruence.
  - destruct (in_current c x); [discriminate|]. ib E. apply decl_deep in Q. ib E. apply IH in E. rewrite const_deep in E. destruct (c_scopes c0); [apply store_deep in Q0; unfold deep in *; cbn in *|injection Q0 as <-]; congruence.
  - destruct (contains_var c x); [|discriminate]. ib E. apply store_deep in Q. apply IH in E. unfold deep in *; cbn in *; congruence.
Qed.
Lemma exit_deep c : deep (exit_scope c) = pred (deep c).
Proof. unfold exit_scope, deep. destruct (c_scopes c) eqn:S; cbn [length pred]; [rewrite S; reflexivity|]. cbn. reflexivity. Qed.
Lemma validate_deep f c c' : (forall c', f c = Ok c' -> deep c' = deep c) -> validate f c = Ok c' -> deep c' = deep c.
Proof. unfold validate. intros H E. destruct (f c) as [c1| | |]; try discriminate. cbn in E. injection E as <-. specialize (H c1 eq_refl). exact H. Qed.
Lemma visit_s_deep s : forall c c', visit_s fuel s c = Ok c' -> deep c' = deep c.
Proof.
  induction s as [|a IHa b IHb|e|x e|x e|ls rs|x e|b IHb|cd a IHa|cd a IHa b IHb|cd b IHb|cd b IHb post IHp|x e b IHb| | |e|e|s IH]; intros c c' E; cbn [visit_s] in E.
  - injection E as <-. reflexivity.
  - ib E. apply IHa in Q. apply IHb in E. congruence.
  - assert (X : forall c', (do c <- visit_e fuel e c; Ok (emit c (op O_POP))) = Ok c' -> deep c' = deep c) by (intros c1 X; ib X; injection X as <-; apply visit_e_deep in Q; exact Q).
    destruct e; try (injection E as <-; reflexivity); auto. eapply validate_deep; [|exact E]. apply (visit_e_deep (EVar x)).
  - eapply declare_deep; exact E.
  - ib E. injection E as <-. rewrite const_deep. eapply declare_deep; exact Q.
  - ib E. apply visit_es_deep in Q. apply lvals_deep in E. congruence.
  - destruct (contains_var c x); [|discriminate]. ib E. apply visit_e_deep in Q. apply store_deep in E. congruence.
  - ib E. injection E as <-. apply IHb in Q. rewrite exit_deep, Q. reflexivity.
  - destruct (e_truthy cd); [eauto|]. destruct (e_falsey cd); [eapply validate_deep; eauto|]. ib E. unfold enter_jmp in E. cbv zeta in E. ib E. injection E as <-. apply visit_e_deep in Q. apply IHa in Q0. unfold deep in *. cbn in *. congruence.
  - destruct (e_truthy cd); [ib E; apply IHa in Q; apply validate_deep in E; [congruence|auto]|]. destruct (e_falsey cd); [ib E; apply validate_deep in Q; [apply IHb in E; congruence|auto]|].
    ib E. unfold enter_jmp in E. cbv zeta in E. ib E. ib E. injection E as <-. apply visit_e_deep in Q. apply IHa in Q0. apply IHb in Q1. unfold deep in *. cbn in *. congruence.
  - destruct (e_falsey cd); [eapply validate_deep; eauto|]. unfold enter_jmp in E. cbv zeta in E. ib E. ib E. injection E as <-. apply visit_e_deep in Q. apply IHb in Q0. unfold deep in *. cbn in *. congruence.
  - destruct (e_falsey cd); [ib E; apply validate_deep in Q; [apply validate_deep in E; [congruence|auto]|auto]|]. unfold enter_jmp in E. cbv zeta in E. ib E. ib E. ib E. injection E as <-. apply visit_e_deep in Q0. apply IHp in Q. apply IHb in Q1. unfold deep in *. cbn in *. congruence.
  - unfold enter_jmp in E. cbv zeta in E. ib E. ib E. ib E. ib E. injection E as <-. apply visit_e_deep in Q. apply decl_deep in Q0. apply store_deep in Q1. apply IHb in Q2.
    match goal with |- deep (set_cps ?X _) = _ => change (deep X = deep c) end. rewrite exit_deep. unfold deep in *. cbn in *. rewrite Q2, Q1, Q0, Q. reflexivity.
  - destruct (c_cps c); [discriminate|]. injection E as <-. reflexivity.
  - destruct (c_cps c) as [|? [|? ?]]; try discriminate. injection E as <-. reflexivity.
  - ib E. injection E as <-. apply visit_e_deep in Q. exact Q.
  - ib E. injection E as <-. apply visit_e_deep in Q. exact Q.
  - ib E. injection E as <-. apply IH in Q. exact Q.
Qed.

(** *** Statements. *)
Lemma in_current_bot c x : c_scopes c <> [] -> in_current (bot c) x = in_current c x.
Proof. unfold in_current, bot. cbn [set_scopes c_scopes c_globals]. destruct (c_scopes c); [congruence|]. reflexivity. Qed.
Lemma decl_bot x c : c_scopes c <> [] -> nat_bot (fun c => decl_var fuel c x) c.
Proof.
  intros N. unfold nat_bot, decl_var. destruct (c_scopes c) as [|s r] eqn:S; [congruence|]. unfold bot at 1. rewrite S. cbn [app set_scopes c_scopes].
  assert (D : scope_decl (s :: r ++ [[]]) x = scope_decl (s :: r) x ++ [[]]).
  { unfold scope_decl. change (s :: r ++ [[]]) with ((s :: r) ++ [[]]). rewrite len_bot. destruct (assoc s x); reflexivity. }
  rewrite D, len_bot. destruct (_ >? 255); [reflexivity|]. reflexivity.
Qed.
Lemma const_bot x c : c_scopes c <> [] -> make_const (bot c) x = bot (make_const c x).
Proof.
  intros N. unfold make_const. destruct (c_scopes c) as [|s r] eqn:S; [congruence|]. unfold bot at 1. rewrite S. cbn [app set_scopes c_scopes].
  assert (D : forall ss, scope_const (ss ++ [[]]) x = scope_const ss x ++ [[]]).
  { induction ss as [|t q IH]; cbn [app scope_const]; [reflexivity|]. destruct (assoc t x); [reflexivity|]. rewrite IH. reflexivity. }
  change (s :: r ++ [[]]) with ((s :: r) ++ [[]]). rewrite D. reflexivity.
Qed.
Lemma nonempty_deep c c' : deep c' = deep c -> c_scopes c <> [] -> c_scopes c' <> [].
Proof. unfold deep. destruct (c_scopes c), (c_scopes c'); cbn; congruence. Qed.
Lemma declare_bot x e c : c_scopes c <> [] -> nat_bot (fun c => declare fuel c x e) c.
Proof.
  intros N. unfold nat_bot, declare. rewrite in_current_bot by exact N. destruct (in_current c x); [reflexivity|].
  apply (bind_bot (visit_e fuel e)); [apply visit_e_bot|]. intros c1 E. pose proof (nonempty_deep _ _ (visit_e_deep _ _ _ E) N) as N1.
  apply (bind_bot (fun c => decl_var fuel c x)); [apply decl_bot, N1|]. intros c2 E2. pose proof (nonempty_deep _ _ (decl_deep _ _ _ E2) N1) as N2.
  unfold nat_bot. cbn [bot set_scopes c_scopes]. destruct (c_scopes c2); [congruence|]. reflexivity.
Qed.
Lemma lvals_bot ls : forall c, c_scopes c <> [] \/ length (filter is_decl ls) = 0%nat -> nat_bot (visit_lvals fuel ls) c.
Proof.
  induction ls as [|l ls IH]; intros c N; [reflexivity|]. unfold nat_bot. cbn [visit_lvals].
  assert (Nx : forall c', deep c' = deep c -> c_scopes c' <> [] \/ length (filter is_decl ls) = 0%nat).
  { intros c' D. destruct N as [N|N]; [left; eapply nonempty_deep; eauto|right]. cbn [filter] in N. destruct (is_decl l); cbn in N; [discriminate|exact N]. }
  destruct l as [x|x|x].
  - destruct N as [N|N]; [|discriminate N]. rewrite in_current_bot by exact N. destruct (in_current c x); [reflexivity|].
    apply (bind_bot (fun c => decl_var fuel c x)); [apply decl_bot, N|]. intros c1 E1. pose proof (decl_deep _ _ _ E1) as D1. pose proof (nonempty_deep _ _ D1 N) as N1.
    unfold nat_bot. cbn [bot set_scopes c_scopes]. destruct (c_scopes c1) as [|s r] eqn:S1; [congruence|]. cbn [app bind]. exact (IH c1 (Nx _ D1)).
  - destruct N as [N|N]; [|discriminate N]. rewrite in_current_bot by exact N. destruct (in_current c x); [reflexivity|].
    apply (bind_bot (fun c => decl_var fuel c x)); [apply decl_bot, N|]. intros c1 E1. pose proof (decl_deep _ _ _ E1) as D1. pose proof (nonempty_deep _ _ D1 N) as N1.
    unfold nat_bot. cbn [bot set_scopes c_scopes]. destruct (c_scopes c1) as [|s r] eqn:S1; [congruence|]. cbn [app bind]. rewrite const_bot by (rewrite S1; discriminate). apply IH, Nx. rewrite const_deep. exact D1.
  - rewrite contains_bot. destruct (contains_var c x); [|reflexivity]. rewrite slen_bot.
    apply (bind_bot (fun c' => store_var fuel (emit c' (op O_MOVEUP_FP ++ [scope_len (c_scopes c) mod 256])) x) (visit_lvals fuel ls) c).
    + apply (pre_bot (fun c' => emit c' (op O_MOVEUP_FP ++ [scope_len (c_scopes c) mod 256])) (fun c => store_var fuel c x)); [reflexivity|apply store_bot].
    + intros c1 E1. apply IH, Nx. exact (store_deep _ _ _ E1).
Qed.
Lemma exit_bot c : c_scopes c <> [] -> exit_scope (bot c) = bot (exit_scope c).
Proof. intros N. unfold exit_scope. cbn [bot set_scopes c_scopes]. destruct (c_scopes c) as [|s r]; [congruence|]. reflexivity. Qed.
Lemma enter_bot c : enter_scope (bot c) = bot (enter_scope c). Proof. reflexivity. Qed.
Lemma no_decls_iff s : no_decls s = true <-> decls s = 0%nat. Proof. apply Nat.eqb_eq. Qed.

Lemma visit_s_bot s : forall c, parsed s = true -> c_scopes c <> [] \/ decls s = 0%nat -> nat_bot (visit_s fuel s) c.
Proof.
  induction s as [|a IHa b IHb|e|x e|x e|ls rs|x e|b IHb|cd a IHa|cd a IHa b IHb|cd b IHb|cd b IHb post IHp|x e b IHb| | |e|e|s IH]; intros c W N; cbn [parsed decls] in W, N.
  - reflexivity.
  - apply andb_true_iff in W. destruct W as (W1 & W2). apply (bind_bot (visit_s fuel a)); [apply IHa; [exact W1|destruct N; [auto|right; lia]]|]. intros c1 E. apply IHb; [exact W2|]. destruct N as [N|N]; [left|right; lia]. eapply nonempty_deep; [|exact N]. eapply visit_s_deep; exact E.
  - assert (X : nat_bot (fun c => do c <- visit_e fuel e c; Ok (emit c (op O_POP))) c) by (apply (bind_bot (visit_e fuel e)); [apply visit_e_bot|reflexivity]).
    destruct e; try reflexivity; try exact X. apply (validate_bot (visit_e fuel (EVar x))), visit_e_bot.
  - destruct N as [N|N]; [|discriminate N]. apply declare_bot, N.
  - destruct N as [N|N]; [|discriminate N]. apply (bind_bot (fun c => declare fuel c x e)); [apply declare_bot, N|]. intros c1 E. apply ok_bot, const_bot. eapply nonempty_deep; [|exact N]. eapply declare_deep; exact E.
  - apply (bind_bot (visit_es fuel rs)); [apply visit_es_bot|]. intros c1 E. apply lvals_bot. destruct N as [N|N]; [left|right; exact N]. eapply nonempty_deep; [|exact N]. eapply visit_es_deep; exact E.
  - unfold nat_bot. cbn [visit_s]. rewrite contains_bot. destruct (contains_var c x); [|reflexivity]. apply (bind_bot (visit_e fuel e)); [apply visit_e_bot|]. intros c1 E. apply store_bot.
  - apply (bind_bot (fun c => visit_s fuel b (enter_scope c))).
    + apply (pre_bot enter_scope (visit_s fuel b)); [reflexivity|]. apply IHb; [exact W|]. left. discriminate.
    + intros c1 E. apply ok_bot, exit_bot. eapply nonempty_deep; [eapply visit_s_deep; exact E|]. discriminate.
  - apply andb_true_iff in W. destruct W as (W1 & D1). apply no_decls_iff in D1. unfold nat_bot. cbn [visit_s]. destruct (e_truthy cd); [apply IHa; auto|]. destruct (e_falsey cd); [apply validate_bot, IHa; auto|].
    apply (bind_bot (visit_e fuel cd)); [apply visit_e_bot|]. intros c1 _. set (i1 := count (emit c1 (op O_BRF_8))).
    apply (bind_bot (fun c => visit_s fuel a (emit (emit c (op O_BRF_8)) (enc8 0))) (fun c2 => Ok (exit_jmp c2 i1)) c1); [|reflexivity].
    apply (pre_bot _ (visit_s fuel a)); [reflexivity|apply IHa; auto].
  - rewrite !andb_true_iff in W. destruct W as (((W1 & D1) & W2) & D2). apply no_decls_iff in D1, D2. unfold nat_bot. cbn [visit_s]. destruct (e_truthy cd); [|destruct (e_falsey cd)].
    + apply (bind_bot (visit_s fuel a)); [apply IHa; auto|]. intros c1 _. apply validate_bot, IHb; auto.
    + apply (bind_bot (validate (visit_s fuel a))); [apply validate_bot, IHa; auto|]. intros c1 _. apply IHb; auto.
    + apply (bind_bot (visit_e fuel cd)); [apply visit_e_bot|]. intros c1 _. set (i1 := count (emit c1 (op O_BRF_8))).
      apply (bind_bot (fun c => visit_s fuel a (emit (emit c (op O_BRF_8)) (enc8 0)))
        (fun c2 => do c <- visit_s fuel b (exit_jmp (emit (emit c2 (op O_BR_8)) (enc8 0)) i1); Ok (exit_jmp c (count (emit c2 (op O_BR_8))))) c1).
      * apply (pre_bot _ (visit_s fuel a)); [reflexivity|apply IHa; auto].
      * intros c2 _. apply (bind_bot (fun c => visit_s fuel b (exit_jmp (emit (emit c (op O_BR_8)) (enc8 0)) i1)) (fun c3 => Ok (exit_jmp c3 (count (emit c2 (op O_BR_8))))) c2); [|reflexivity].
        apply (pre_bot _ (visit_s fuel b)); [reflexivity|apply IHb; auto].
  - apply andb_true_iff in W. destruct W as (W1 & D1). apply no_decls_iff in D1. unfold nat_bot. cbn [visit_s]. destruct (e_falsey cd); [apply validate_bot, IHb; auto|].
    apply (bind_bot (fun c' => visit_e fuel cd (set_cps c' (count c :: c_cps c')))
       (fun c1 => do c2 <- visit_s fuel b (emit (emit (set_cps c1 (count c1 :: c_cps c1)) (op O_BRF_8)) (enc8 0));
          Ok (let c3 := exit_jmp (branch_back c2 (count c)) (count (emit (set_cps c1 (count c1 :: c_cps c1)) (op O_BRF_8))) in set_cps c3 (tl (tl (c_cps c3))))) c).
    + apply (pre_bot _ (visit_e fuel cd)); [reflexivity|apply visit_e_bot].
    + intros c1 _. apply (bind_bot (fun c1 => visit_s fuel b (emit (emit (set_cps c1 (count c1 :: c_cps c1)) (op O_BRF_8)) (enc8 0)))
        (fun c2 => Ok (let c3 := exit_jmp (branch_back c2 (count c)) (count (emit (set_cps c1 (count c1 :: c_cps c1)) (op O_BRF_8))) in set_cps c3 (tl (tl (c_cps c3))))) c1); [|reflexivity].
      apply (pre_bot _ (visit_s fuel b)); [reflexivity|apply IHb; auto].
  - rewrite !andb_true_iff in W. destruct W as ((((W1 & D1) & W2) & D2) & _). apply no_decls_iff in D1, D2. unfold nat_bot. cbn [visit_s]. destruct (e_falsey cd).
    { apply (bind_bot (validate (visit_s fuel b))); [apply validate_bot, IHb; auto|]. intros c1 _. apply validate_bot, IHp; auto. }
    set (i0 := count (emit c (op O_BR_8))). set (st := count (emit (emit c (op O_BR_8)) (enc8 0))).
    apply (bind_bot (fun c => visit_s fuel post (emit (emit c (op O_BR_8)) (enc8 0)))
      (fun c0 => do c1 <- visit_e fuel cd (let c0 := exit_jmp c0 i0 in set_cps c0 (st :: c_cps c0));
         do c2 <- visit_s fuel b (emit (emit (set_cps c1 (count c1 :: c_cps c1)) (op O_BRF_8)) (enc8 0));
          Ok (let c3 := exit_jmp (branch_back c2 st) (count (emit (set_cps c1 (count c1 :: c_cps c1)) (op O_BRF_8))) in set_cps c3 (tl (tl (c_cps c3))))) c).
    + apply (pre_bot _ (visit_s fuel post)); [reflexivity|apply IHp; auto].
    + intros c0 _. apply (bind_bot (fun c0 => visit_e fuel cd (let c0 := exit_jmp c0 i0 in set_cps c0 (st :: c_cps c0)))
         (fun c1 => do c2 <- visit_s fuel b (emit (emit (set_cps c1 (count c1 :: c_cps c1)) (op O_BRF_8)) (enc8 0));
          Ok (let c3 := exit_jmp (branch_back c2 st) (count (emit (set_cps c1 (count c1 :: c_cps c1)) (op O_BRF_8))) in set_cps c3 (tl (tl (c_cps c3))))) c0).
      * apply (pre_bot _ (visit_e fuel cd)); [reflexivity|apply visit_e_bot].
      * intros c1 _. apply (bind_bot (fun c1 => visit_s fuel b (emit (emit (set_cps c1 (count c1 :: c_cps c1)) (op O_BRF_8)) (enc8 0)))
          (fun c2 => Ok (let c3 := exit_jmp (branch_back c2 st) (count (emit (set_cps c1 (count c1 :: c_cps c1)) (op O_BRF_8))) in set_cps c3 (tl (tl (c_cps c3))))) c1); [|reflexivity].
        apply (pre_bot _ (visit_s fuel b)); [reflexivity|apply IHb; auto].
  - apply andb_true_iff in W. destruct W as (W1 & D1). apply no_decls_iff in D1. unfold nat_bot. cbn [visit_s]. unfold enter_jmp. cbv zeta.
    apply (bind_bot (fun c => visit_e fuel e (enter_scope c))
      (fun c1 => do c2 <- decl_var fuel (emit c1 (op O_INITFOR ++ op O_END)) x;
        do c3 <- store_var fuel (let d := emit (set_cps c2 (count c2 :: c_cps c2)) (op O_ITER_1) in emit (emit (set_cps d (count d :: c_cps d)) (op O_BRF_8)) (enc8 0)) x;
        do c4 <- visit_s fuel b c3;
        Ok (let d := emit (set_cps c2 (count c2 :: c_cps c2)) (op O_ITER_1) in
            let i := count (emit (set_cps d (count d :: c_cps d)) (op O_BRF_8)) in
            let c5 := exit_scope (emit (exit_jmp (branch_back c4 (count c2)) i) (op O_ENDFOR)) in set_cps c5 (tl (tl (c_cps c5))))) c).
    + apply (pre_bot _ (visit_e fuel e)); [reflexivity|apply visit_e_bot].
    + intros c1 E1. assert (N1 : c_scopes c1 <> []) by (eapply nonempty_deep; [eapply visit_e_deep; exact E1|discriminate]).
      apply (bind_bot (fun c1 => decl_var fuel (emit c1 (op O_INITFOR ++ op O_END)) x)
        (fun c2 => do c3 <- store_var fuel (let d := emit (set_cps c2 (count c2 :: c_cps c2)) (op O_ITER_1) in emit (emit (set_cps d (count d :: c_cps d)) (op O_BRF_8)) (enc8 0)) x;
          do c4 <- visit_s fuel b c3;
          Ok (let d := emit (set_cps c2 (count c2 :: c_cps c2)) (op O_ITER_1) in
            let i := count (emit (set_cps d (count d :: c_cps d)) (op O_BRF_8)) in
            let c5 := exit_scope (emit (exit_jmp (branch_back c4 (count c2)) i) (op O_ENDFOR)) in set_cps c5 (tl (tl (c_cps c5))))) c1).
      * apply (pre_bot (fun c1 => emit c1 (op O_INITFOR ++ op O_END)) (fun c => decl_var fuel c x)); [reflexivity|]. apply decl_bot. exact N1.
      * intros c2 E2. assert (N2 : c_scopes c2 <> []) by (eapply nonempty_deep; [eapply decl_deep; exact E2|exact N1]).
        apply (bind_bot (fun c2 => store_var fuel (let d := emit (set_cps c2 (count c2 :: c_cps c2)) (op O_ITER_1) in emit (emit (set_cps d (count d :: c_cps d)) (op O_BRF_8)) (enc8 0)) x)
          (fun c3 => do c4 <- visit_s fuel b c3; Ok (let d := emit (set_cps c2 (count c2 :: c_cps c2)) (op O_ITER_1) in
            let i := count (emit (set_cps d (count d :: c_cps d)) (op O_BRF_8)) in
            let c5 := exit_scope (emit (exit_jmp (branch_back c4 (count c2)) i) (op O_ENDFOR)) in set_cps c5 (tl (tl (c_cps c5))))) c2).
        -- apply (pre_bot (fun c2 => let d := emit (set_cps c2 (count c2 :: c_cps c2)) (op O_ITER_1) in emit (emit (set_cps d (count d :: c_cps d)) (op O_BRF_8)) (enc8 0)) (fun c => store_var fuel c x)); [reflexivity|apply store_bot].
        -- intros c3 E3. assert (N3 : c_scopes c3 <> []) by (eapply nonempty_deep; [eapply store_deep; exact E3|exact N2]).
           apply (bind_bot (visit_s fuel b)); [apply IHb; auto|]. intros c4 E4. assert (N4 : c_scopes c4 <> []) by (eapply nonempty_deep; [eapply visit_s_deep; exact E4|exact N3]).
           apply ok_bot. cbv zeta. match goal with |- set_cps (exit_scope (emit (exit_jmp (branch_back (bot c4) ?u) ?v) ?q)) _ = _ => change (emit (exit_jmp (branch_back (bot c4) u) v) q) with (bot (emit (exit_jmp (branch_back c4 u) v) q)) end.
           rewrite exit_bot by exact N4. reflexivity.
  - unfold nat_bot. cbn [visit_s]. cbn [bot set_scopes c_cps]. destruct (c_cps c); reflexivity.
  - unfold nat_bot. cbn [visit_s]. cbn [bot set_scopes c_cps]. destruct (c_cps c) as [|? [|? ?]]; reflexivity.
  - apply (bind_bot (visit_e fuel e)); [apply visit_e_bot|]. intros c1 _. apply (ok_bot (fun c => emit c (op O_ECHO ++ [scope_len (c_scopes c) mod 256]))). rewrite slen_bot. reflexivity.
  - apply (bind_bot (visit_e fuel e)); [apply visit_e_bot|]. reflexivity.
  - discriminate W.
Qed.
End Bot.
