(** Folding constants keeps the meaning of programs with functions (proofs only). *)
From Verif Require Import Base Value ValueProofs Ops Ast Fold FoldProofs Stmt VM Compiler HeapSpec2 Tree TreeSpec TreeProofs TreeExact ObjFold Fn FnSpec FnCompiler FnSource.
Local Open Scope list_scope.

(** [ge e e']: [e'] is [e] with constants folded. *)
Definition lit_f (e : fexpr) : option value := match e with FInt i => Some (VInt i) | FFloat f => Some (VFloat f) | FBool b => Some (VBool b) | FUndef => Some VUndef | FStr s => Some (VStr s) | _ => None end.
Definition leaf_f (e : fexpr) : bool := match e with FInt _ | FFloat _ | FBool _ | FUndef | FStr _ | FVar _ => true | _ => false end.
Inductive ge : fexpr -> fexpr -> Prop :=
| ge_leaf e : leaf_f e = true -> ge e e
| ge_un o e e' : ge e e' -> ge (FUn o e) (FUn o e')
| ge_bin o l r l' r' : ge l l' -> ge r r' -> ge (FBin o l r) (FBin o l' r')
| ge_sc o l r l' r' : ge l l' -> ge r r' -> ge (FSc o l r) (FSc o l' r')
| ge_tri c a b c' a' b' : ge c c' -> ge a a' -> ge b b' -> ge (FTri c a b) (FTri c' a' b')
| ge_call c es c' es' : ge c c' -> gas es es' -> ge (FCall c es) (FCall c' es')
| ge_ctx n e e' : ge e e' -> ge (FCtx n e) (FCtx n e')
| ge_fn l ps b b' : gs b b' -> ge (FFn l ps b) (FFn l ps b')
| ge_un_const o e e' q a v : ge e e' -> lit_f e' = Some a -> lit_f q = Some v -> (forall w, exec_unop w o a = Ok v) -> ge (FUn o e) q
| ge_bin_const o l r l' r' q a b v : ge l l' -> ge r r' -> lit_f l' = Some a -> lit_f r' = Some b -> lit_f q = Some v -> (forall w, eval_bop w o a b = Ok v) -> ge (FBin o l r) q
with gas : fargs -> fargs -> Prop :=
| gas_nil : gas ANil ANil
| gas_cons e r e' r' : ge e e' -> gas r r' -> gas (ACons e r) (ACons e' r')
with gs : fstmt -> fstmt -> Prop :=
| gs_skip : gs FSkip FSkip
| gs_seq a b a' b' : gs a a' -> gs b b' -> gs (FSeq a b) (FSeq a' b')
| gs_expr e e' : ge e e' -> gs (FExpr e) (FExpr e')
| gs_let k x e e' : ge e e' -> gs (FLet k x e) (FLet k x e')
| gs_fndecl k x l ps b b' : gs b b' -> gs (FFnDecl k x l ps b) (FFnDecl k x l ps b')
| gs_assign x e e' : ge e e' -> gs (FAssign x e) (FAssign x e')
| gs_block b b' : gs b b' -> gs (FBlock b) (FBlock b')
| gs_if c a c' a' : ge c c' -> gs a a' -> gs (FIf c a) (FIf c' a')
| gs_ifelse c a b c' a' b' : ge c c' -> gs a a' -> gs b b' -> gs (FIfElse c a b) (FIfElse c' a' b')
| gs_while c a c' a' : ge c c' -> gs a a' -> gs (FWhile c a) (FWhile c' a')
| gs_return e e' : ge e e' -> gs (FReturn e) (FReturn e')
| gs_returns es es' : gas es es' -> gs (FReturns es) (FReturns es')
| gs_echo e e' : ge e e' -> gs (FEcho e) (FEcho e')
| gs_assert e e' : ge e e' -> gs (FAssert e) (FAssert e').
Scheme ge_m := Minimality for ge Sort Prop with gas_m := Minimality for gas Sort Prop with gs_m := Minimality for gs Sort Prop.
Combined Scheme g_mind from ge_m, gas_m, gs_m.

(** ** The meaning. The states agree, except that the functions created have folded bodies. *)
Definition rel_fn (f f' : option frec) : Prop :=
  match f, f' with
  | None, None => True
  | Some f, Some f' => fr_params f' = fr_params f /\ fr_sees f' = fr_sees f /\ gs (fr_body f) (fr_body f')
  | _, _ => False end.
Record rel_st (st st' : fstate) : Prop := RS {
  r_loc : s_loc st' = s_loc st; r_file : s_file st' = s_file st; r_sees : s_sees st' = s_sees st; r_gl : s_gl st' = s_gl st; r_out : s_out st' = s_out st;
  r_next : s_next st' = s_next st; r_fun : forall v, rel_fn (s_fun st v) (s_fun st' v) }.
Definition rel {A} (r r' : res A) : Prop :=
  match r, r' with
  | RVal a st, RVal a' st' => a = a' /\ rel_st st st'
  | RStop o out, RStop o' out' => o = o' /\ out = out'
  | RFuel, RFuel | RDeep, RDeep | ROut, ROut | RStuck, RStuck => True
  | _, _ => False end.
Lemma rel_bind {A B} (r r' : res A) (k k' : A -> fstate -> res B) : rel r r' -> (forall a st st', rel_st st st' -> rel (k a st) (k' a st')) -> rel (rbind r k) (rbind r' k').
Proof. intros R K. destruct r, r'; cbn in R; try destruct R; subst; cbn; auto. Qed.
Ltac both_st := repeat match goal with R : rel_st ?s ?s' |- _ => destruct s, s'; destruct R as [? ? ? ? ? ? ?]; cbn in *; subst end.
Section Meaning.
Variable h : host.
Variable kind : nat -> option Z.
Lemma rel_of_outcome st st' o : rel_st st st' -> rel (of_outcome st o) (of_outcome st' o).
Proof. intros R. destruct o; cbn; auto; split; auto; symmetry; apply R. Qed.
Lemma rel_read st st' x : rel_st st st' -> f_read h st' x = f_read h st x.
Proof. intros R. both_st. reflexivity. Qed.
Definition rel_o (o o' : option fstate) : Prop := match o, o' with Some s, Some s' => rel_st s s' | None, None => True | _, _ => False end.
Lemma rel_write st st' x v : rel_st st st' -> rel_o (f_write h st x v) (f_write h st' x v).
Proof.
  intros R. both_st. unfold f_write, seen, unseen. cbn. destruct (find_var s_loc x) as [[[] ?]|]; cbn; auto; [constructor; auto|].
  destruct (lookup _ x) as [[[] ?]|]; cbn; auto; [constructor; auto|]. destruct (h_decl h x) as [[]|]; cbn; auto. constructor; auto.
Qed.
Lemma rel_declare st st' x k v : rel_st st st' -> rel_o (f_declare st x k v) (f_declare st' x k v).
Proof.
  intros R. both_st. unfold f_declare. cbn. destruct s_loc; [destruct s_sees; [exact I|]|]; (destruct (lookup _ x); [exact I|]); cbn; constructor; auto.
Qed.
Lemma rel_legal {A} o o' (k k' : fstate -> res A) : rel_o o o' -> (forall st st', rel_st st st' -> rel (k st) (k' st')) -> rel (f_legal o k) (f_legal o' k').
Proof. intros R K. destruct o, o'; cbn in R; try (exfalso; exact R); cbn; auto. Qed.
Lemma rel_enter st st' : rel_st st st' -> rel_st (f_enter st) (f_enter st').
Proof. intros R. both_st. constructor; auto. Qed.
Lemma rel_leaving {A} (r r' : res A) : rel r r' -> rel (f_leaving r) (f_leaving r').
Proof. intros R. unfold f_leaving. apply rel_bind; [exact R|]. intros a st st' S. split; [reflexivity|]. both_st. constructor; auto. Qed.
Lemma rel_make st st' l ps b b' n : rel_st st st' -> gs b b' -> fst (make_fn kind st l ps b n) = fst (make_fn kind st' l ps b' n) /\ rel_st (snd (make_fn kind st l ps b n)) (snd (make_fn kind st' l ps b' n)).
Proof.
  intros R G. both_st. unfold make_fn. cbn. split; [reflexivity|]. constructor; cbn; auto. intros v. match goal with |- context [value_eq_dec v ?u] => destruct (value_eq_dec v u) end; [|auto]. cbn. auto.
Qed.
Section Body.
Variable n : nat.
Variables call call' : value -> list value -> fstate -> res value.
Hypothesis CC : forall v vs st st', rel_st st st' -> rel (call v vs st) (call' v vs st').
Lemma eval_lit_f q v st c : lit_f q = Some v -> eval_e h kind n c q st = RVal v st.
Proof. destruct q; intros [= <-]; reflexivity. Qed.
Definition floop (c : fstate -> res value) (b : fstate -> res (option value)) := fix loop (m : nat) (st : fstate) : res (option value) :=
  match m with
  | O => RFuel
  | S m => rbind (c st) (fun v st => if is_falsey v then RVal None st else
             rbind (f_leaving (b (f_enter st))) (fun r st => match r with None => loop m st | Some v => RVal (Some v) st end))
  end.
Lemma while_floop cl c b st : exec_s h kind n cl (FWhile c b) st = floop (eval_e h kind n cl c) (exec_s h kind n cl b) n st.
Proof. reflexivity. Qed.
Lemma floop_rel c c' b b' : (forall st st', rel_st st st' -> rel (c st) (c' st')) -> (forall st st', rel_st st st' -> rel (b st) (b' st')) ->
  forall m st st', rel_st st st' -> rel (floop c b m st) (floop c' b' m st').
Proof.
  intros C B. induction m as [|m IH]; intros st st' R; [exact I|]. cbn [floop]. apply (rel_bind (c st) (c' st')); [auto|]. intros v s s' S. destruct (is_falsey v); [split; [reflexivity|exact S]|].
  apply (rel_bind (f_leaving (b (f_enter s))) (f_leaving (b' (f_enter s')))); [apply rel_leaving, B, rel_enter, S|]. intros [u|] t t' T; [split; [reflexivity|exact T]|]. apply IH, T.
Qed.
Lemma g_meaning : (forall e e', ge e e' -> forall st st', rel_st st st' -> rel (eval_e h kind n call e st) (eval_e h kind n call' e' st')) /\
  (forall es es', gas es es' -> forall st st', rel_st st st' -> rel (eval_args h kind n call es st) (eval_args h kind n call' es' st')) /\
  (forall s s', gs s s' -> forall st st', rel_st st st' -> rel (exec_s h kind n call s st) (exec_s h kind n call' s' st')).
Proof.
  apply g_mind; intros.
  - destruct e; try discriminate; cbn [eval_e]; try (split; [reflexivity|assumption]). rewrite (rel_read _ _ _ H0). destruct (f_read h st x); [split; [reflexivity|assumption]|exact I].
  - apply (rel_bind (eval_e h kind n call e st) (eval_e h kind n call' e' st')); [auto|]. intros a s s' S. apply rel_of_outcome, S.
  - apply (rel_bind (eval_e h kind n call l st) (eval_e h kind n call' l' st')); [auto|]. intros a s s' S. apply (rel_bind (eval_e h kind n call r s) (eval_e h kind n call' r' s')); [auto|]. intros b t t' T. apply rel_of_outcome, T.
  - apply (rel_bind (eval_e h kind n call l st) (eval_e h kind n call' l' st')); [auto|]. intros a s s' S. destruct (decides o a); [split; [reflexivity|exact S]|]. apply (H2 s s' S).
  - apply (rel_bind (eval_e h kind n call c st) (eval_e h kind n call' c' st')); [auto|]. intros v s s' S. destruct (is_falsey v); [apply (H4 s s' S)|apply (H2 s s' S)].
  - apply (rel_bind (eval_e h kind n call c st) (eval_e h kind n call' c' st')); [auto|]. intros v s s' S. destruct (callable v); [|exact I].
    apply (rel_bind (eval_args h kind n call es s) (eval_args h kind n call' es' s')); [auto|]. intros vs t t' T. apply CC, T.
  - apply (H0 st st' H1).
  - cbn [eval_e]. assert (X : sees_here st' = sees_here st) by (both_st; reflexivity). rewrite X. destruct (rel_make st st' l ps b b' (sees_here st) H1 H) as (E1 & E2).
    destruct (make_fn kind st l ps b (sees_here st)), (make_fn kind st' l ps b' (sees_here st)). split; assumption.
  - rewrite (eval_lit_f q v st' call' H2). cbn [eval_e]. specialize (H0 st st' H4). rewrite (eval_lit_f e' a st' call' H1) in H0. destruct (eval_e h kind n call e st); cbn in H0; try destruct H0; subst. cbn [rbind]. rewrite H3. split; [reflexivity|assumption].
  - rewrite (eval_lit_f q v st' call' H5). specialize (H0 st st' H7). rewrite (eval_lit_f l' a st' call' H3) in H0. cbn [eval_e]. destruct (eval_e h kind n call l st) as [a1 s1| | | | |]; cbn in H0; try destruct H0; subst. cbn [rbind].
    specialize (H2 s1 st' H8). rewrite (eval_lit_f r' b st' call' H4) in H2. destruct (eval_e h kind n call r s1); cbn in H2; try destruct H2; subst. cbn [rbind]. rewrite H6. split; [reflexivity|assumption].
  - split; [reflexivity|assumption].
  - apply (rel_bind (eval_e h kind n call e st) (eval_e h kind n call' e' st')); [auto|]. intros v s s' S. apply (rel_bind (eval_args h kind n call r s) (eval_args h kind n call' r' s')); [auto|]. intros vs t t' T. split; [reflexivity|exact T].
  - split; [reflexivity|assumption].
  - apply (rel_bind (exec_s h kind n call a st) (exec_s h kind n call' a' st')); [auto|]. intros [v|] s s' S; [split; [reflexivity|exact S]|]. apply (H2 s s' S).
  - apply (rel_bind (eval_e h kind n call e st) (eval_e h kind n call' e' st')); [auto|]. intros v s s' S. split; [reflexivity|exact S].
  - apply (rel_bind (eval_e h kind n call e st) (eval_e h kind n call' e' st')); [auto|]. intros v s s' S. apply rel_legal; [apply rel_declare, S|]. intros t t' T. split; [reflexivity|exact T].
  - cbn [exec_s]. assert (X : match s_loc st', s_sees st' with [], None => S (length (s_file st')) | _, _ => sees_here st' end = match s_loc st, s_sees st with [], None => S (length (s_file st)) | _, _ => sees_here st end) by (both_st; reflexivity).
    rewrite X. match goal with |- context [make_fn kind st l ps b ?m] => destruct (rel_make st st' l ps b b' m H1 H) as (E1 & E2); destruct (make_fn kind st l ps b m), (make_fn kind st' l ps b' m) end. cbn [fst snd] in E1, E2. subst.
    apply rel_legal; [apply rel_declare, E2|]. intros t t' T. split; [reflexivity|exact T].
  - apply (rel_bind (eval_e h kind n call e st) (eval_e h kind n call' e' st')); [auto|]. intros v s s' S. apply rel_legal; [apply rel_write, S|]. intros t t' T. split; [reflexivity|exact T].
  - apply (rel_leaving (exec_s h kind n call b (f_enter st)) (exec_s h kind n call' b' (f_enter st'))). apply H0, rel_enter, H1.
  - apply (rel_bind (eval_e h kind n call c st) (eval_e h kind n call' c' st')); [auto|]. intros v s s' S. destruct (is_falsey v); [split; [reflexivity|exact S]|]. apply (rel_leaving (exec_s h kind n call a (f_enter s)) (exec_s h kind n call' a' (f_enter s'))). apply H2, rel_enter, S.
  - apply (rel_bind (eval_e h kind n call c st) (eval_e h kind n call' c' st')); [auto|]. intros v s s' S. destruct (is_falsey v); [apply (rel_leaving (exec_s h kind n call b (f_enter s)) (exec_s h kind n call' b' (f_enter s'))), H4, rel_enter, S|apply (rel_leaving (exec_s h kind n call a (f_enter s)) (exec_s h kind n call' a' (f_enter s'))), H2, rel_enter, S].
  - rewrite !while_floop. apply floop_rel; auto.
  - cbn [exec_s]. rewrite (r_sees _ _ H1). destruct (s_sees st); [|exact I]. apply rel_bind; [auto|]. intros v s s' S. split; [reflexivity|exact S].
  - exact I.
  - apply (rel_bind (eval_e h kind n call e st) (eval_e h kind n call' e' st')); [auto|]. intros v s s' S. destruct (w_tostr (h_world h) v); cbn; [split; [reflexivity|]; both_st; constructor; auto|split; [reflexivity|symmetry; apply S]..].
  - apply (rel_bind (eval_e h kind n call e st) (eval_e h kind n call' e' st')); [auto|]. intros v s s' S. destruct (is_falsey v); [|split; [reflexivity|exact S]]. destruct (w_tostr (h_world h) v); cbn; (split; [reflexivity|symmetry; apply S]).
Qed.
End Body.
Lemma fcall_rel n d : forall v vs st st', rel_st st st' -> rel (fcall h kind n d v vs st) (fcall h kind n d v vs st').
Proof.
  induction d as [|d IH]; intros v vs st st' R; [exact I|]. cbn [fcall]. pose proof (r_fun _ _ R v) as F. destruct (s_fun st v) as [f|], (s_fun st' v) as [f'|]; cbn in F; try (exfalso; exact F); [|exact I]. destruct F as (F1 & F2 & F3).
  rewrite F1, F2. apply rel_bind.
  - apply (proj2 (proj2 (g_meaning n _ _ IH)) _ _ F3). both_st. constructor; auto.
  - intros a s s' S. split; [reflexivity|]. both_st. constructor; auto.
Qed.
Lemma fexec_rel n d s s' st st' : gs s s' -> rel_st st st' -> rel (fexec h kind n d s st) (fexec h kind n d s' st').
Proof. intros G R. exact (proj2 (proj2 (g_meaning n _ _ (fcall_rel n d))) _ _ G st st' R). Qed.
End Meaning.

(** ** The shape. *)
Lemma need_pos e : (1 <= fneed_e e)%nat.
Proof. induction e using fexpr_mut with (P0 := fun _ => True) (P1 := fun _ => True); auto; cbn [fneed_e]; lia. Qed.
Lemma lit_shape q v : lit_f q = Some v -> labels_e q = [] /\ (forall pl, plain_e pl q = true) /\ fneed_e q = 1%nat /\ (forall M, small_e M q = true).
Proof. destruct q; try discriminate; intros _; repeat split. Qed.
Lemma g_shape : (forall e e', ge e e' -> labels_e e' = labels_e e /\ (forall pl, plain_e pl e = true -> plain_e pl e' = true) /\ (fneed_e e' <= fneed_e e)%nat /\ (forall M, small_e M e = true -> small_e M e' = true)) /\
  (forall es es', gas es es' -> labels_args es' = labels_args es /\ (forall pl, plain_args pl es = true -> plain_args pl es' = true) /\ (fneed_args es' <= fneed_args es)%nat /\ (forall M, small_args M es = true -> small_args M es' = true)) /\
  (forall s s', gs s s' -> (labels_s s' = labels_s s /\ (forall pl, plain_s pl s = true -> plain_s pl s' = true) /\ (fneed s' <= fneed s)%nat /\ (forall M, small_s M s = true -> small_s M s' = true)) /\
     (forall pl, after_place pl s' = after_place pl s) /\ fdecls s' = fdecls s /\ (forall d, fpeak d s' = fpeak d s)).
Proof.
  apply g_mind; intros;
    repeat match goal with H : lit_f _ = Some _ |- _ => destruct (lit_shape _ _ H) as (? & ? & ? & ?); clear H end;
    repeat match goal with H : _ /\ _ |- _ => destruct H end;
    try (split; [|split; [intros; cbn [after_place]; repeat match goal with H : forall pl, after_place pl _ = _ |- _ => rewrite H; clear H end; reflexivity|split; [cbn [fdecls]; congruence|intros; cbn [fpeak]; repeat match goal with H : forall d, fpeak d _ = _ |- _ => rewrite H; clear H | H : fdecls _ = fdecls _ |- _ => rewrite H; clear H end; reflexivity]]]);
    (split; [cbn [labels_e labels_args labels_s]; first [congruence|repeat match goal with H : labels_e _ = labels_e _ |- _ => rewrite <- H; clear H end; repeat match goal with H : labels_e _ = [] |- _ => rewrite H; clear H end; reflexivity]|split; [|split]]);
    try (intros pl; cbn [plain_e plain_args plain_s]; rewrite ?andb_true_iff; repeat match goal with H : forall pl, after_place pl _ = _ |- _ => rewrite H; clear H end; intuition auto; fail);
    try (cbn [fneed_e fneed_args fneed]; repeat match goal with H : (fneed_e ?e' <= fneed_e ?e)%nat |- _ => pose proof (need_pos e'); revert H end; intros; repeat match goal with H : fdecls _ = fdecls _ |- _ => rewrite H; clear H end; lia).
  all: try (intros M0; cbn [small_e small_args small_s]; unfold small_fn; rewrite ?andb_true_iff, ?Nat.leb_le; repeat match goal with H : fdecls _ = fdecls _ |- _ => rewrite H; clear H | H : forall d, fpeak d _ = _ |- _ => rewrite H; clear H end; intuition (auto; lia); fail).
Qed.
