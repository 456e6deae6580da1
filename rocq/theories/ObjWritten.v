(** * What the grammar of TreeSpec.v writes is what the theorems about programs with lists and tables ask for. *)
From Verif Require Import Base Value Ops Ast Stmt Lexer LexSpec Parser ParseSpec Obj ObjCompiler Tree TreeParser TreeSpec TreeProofs4 TreeExact ObjSource ObjFold.
Local Open Scope list_scope.

Definition pe_ok (e : xe) : Prop := forall o, plain_e e = Some o -> parsed_e o = true.
Definition pes_ok (es : xes) : Prop := (forall o, plain_es es = Some o -> parsed_as o = true) /\ (forall o, plain_es (keep (-1) es) = Some o -> parsed_as o = true /\ last_call o = false) /\ (es = XNil \/ forall e, es = XCons e XNil -> pe_ok e).
Definition pen_ok (es : xes) : Prop := forall o, plain_es es = Some o -> parsed_as o = true /\ Nat.even (length_o o) = true.
Definition ps_ok (s : xs) : Prop := forall o, plain_s s = Some o -> parsed_o o = true.
Definition pa_ok (s : xs) : Prop := forall o, plain_s s = Some o -> parsed_o o = true /\ assigns_o o = true.
Definition pi_ok (s : xs) : Prop := forall o, plain_s s = Some o -> parsed_o o = true /\ decls_o o = O.
Definition pl_ok (l : list xs) : Prop := (forall o, plain_l l = Some o -> parsed_o (body_o o) = true) /\ ps_ok (order l).

Lemma mix_ok o l r : pe_ok l -> pe_ok r -> pe_ok (mix o l r).
Proof. intros A B q P. destruct o; cbn [mix plain_e] in P; opts; cbn [parsed_e]; rewrite (A _ P), (B _ P0); reflexivity. Qed.
Lemma embed_ok e : pe_ok (embed e).
Proof.
  induction e; intros q P; cbn [embed plain_e] in P; opts; try (injection P as <-; reflexivity); cbn [parsed_e];
  repeat match goal with I : pe_ok ?e, P : plain_e ?e = Some _ |- _ => rewrite (I _ P); clear P end; reflexivity.
Qed.
Lemma last_call_plain e o : plain_e e = Some o -> is_call e = false -> match o with OMeth _ _ _ => False | _ => True end.
Proof. destruct e; cbn [plain_e is_call]; intros P C; try discriminate; opts; try (injection P as <-); exact I. Qed.
Lemma decls_assigns o : assigns_o o = true -> decls_o o = O.
Proof. destruct o; try discriminate; reflexivity. Qed.

Lemma get_ok c k x y : pe_ok (XGet c k) -> plain_e c = Some x -> plain_e k = Some y -> parsed_e x = true /\ parsed_e y = true.
Proof. intros G A B. pose proof (G (OGet x y)) as K. cbn [plain_e] in K. rewrite A, B in K. specialize (K eq_refl). cbn [parsed_e] in K. apply andb_true_iff. exact K. Qed.
Lemma not_ctx strtod k e a : TreeSpec.x_at strtod k e a -> forall n e', e <> XCtx n e'.
Proof. induction 1; intros m e'; try discriminate; auto; try (destruct o; discriminate). destruct e; discriminate. Qed.
Ltac sm := repeat match goal with H : Some _ = Some _ |- _ => injection H as <- end.
Ltac use := repeat match goal with
  | I : pen_ok ?e, P : plain_es ?e = Some _ |- _ => let E := fresh "E" in destruct (I _ P) as (E & ?); clear P
  | I : (forall o, plain_es ?e = Some o -> parsed_as o = true), P : plain_es ?e = Some _ |- _ => let E := fresh "E" in pose proof (I _ P) as E; clear P
  | I : (forall o, plain_es ?e = Some o -> parsed_as o = true /\ last_call o = false), P : plain_es ?e = Some _ |- _ => let E := fresh "E" in destruct (I _ P) as (E & ?); clear P
  | I : pe_ok ?e, P : plain_e ?e = Some _ |- _ => let E := fresh "E" in pose proof (I _ P) as E; clear P
  | I : ps_ok ?e, P : plain_s ?e = Some _ |- _ => let E := fresh "E" in pose proof (I _ P) as E; clear P
  | I : pa_ok ?e, P : plain_s ?e = Some _ |- _ => let E := fresh "E" in destruct (I _ P) as (E & ?); clear P
  | I : pi_ok ?e, P : plain_s ?e = Some _ |- _ => let E := fresh "E" in destruct (I _ P) as (E & ?); clear P
  end.
Ltac done := cbn [parsed_e parsed_as parsed_o assigns_o length_o Nat.even]; unfold no_decls_o; cbn [decls_o]; repeat match goal with E : parsed_e _ = true |- _ => rewrite E; clear E | E : parsed_as _ = true |- _ => rewrite E; clear E | E : parsed_o _ = true |- _ => rewrite E; clear E | E : assigns_o _ = true |- _ => rewrite E; clear E | E : decls_o _ = O |- _ => rewrite E; clear E | E : last_call _ = _ |- _ => rewrite E; clear E | E : Nat.even _ = _ |- _ => rewrite E; clear E end; auto.

Lemma written_parsed_o strtod :
  (forall k e a, TreeSpec.x_at strtod k e a -> pe_ok e) /\ (forall e a, bound strtod e a -> True) /\ (forall es a, args_written strtod es a -> pes_ok es) /\ (forall es a, es_written strtod es a -> pes_ok es) /\
  (forall es a, entries_written strtod es a -> pen_ok es) /\ (forall s a, assigns strtod s a -> pa_ok s) /\ (forall s a, st_written strtod s a -> ps_ok s) /\ (forall s a, TreeSpec.if_written strtod s a -> pi_ok s) /\
  (forall b a, b_written strtod b a -> ps_ok b) /\ (forall l a, sts_written strtod l a -> pl_ok l).
Proof.
  apply (grammar_mind strtod (fun _ e _ => pe_ok e) (fun _ _ => True) (fun es _ => pes_ok es) (fun es _ => pes_ok es) (fun es _ => pen_ok es) (fun s _ => pa_ok s) (fun s _ => ps_ok s) (fun s _ => pi_ok s) (fun s _ => ps_ok s) (fun l _ => pl_ok l));
    intros; auto; try (apply mix_ok; assumption); try apply embed_ok;
    try (intros q P; cbn [plain_e plain_s plain_es order fold_right] in P; opts; try discriminate P; use; done; fail).
  - intros q P. cbn [plain_e] in P. opts. sm. use. done.
  - intros q P. cbn [plain_e] in P. opts. destruct H2 as (_ & K & _). use. done.
  - intros q P. cbn [plain_e plain_es] in P. injection P as <-. reflexivity.
  - intros q P. cbn [plain_e plain_es] in P. opts. sm. use. done.
  - intros q P. cbn [plain_e plain_es] in P. opts. destruct H3 as (K & _). use. done.
  - intros q P. cbn [plain_e plain_es] in P. injection P as <-. reflexivity.
  - intros q P. cbn [plain_e plain_es] in P. opts. sm. use. done. 
  - split; [|split; [|left; reflexivity]]; [intros q P; injection P as <-; reflexivity|intros q P; injection P as <-; split; reflexivity].
  - split; [|split].
    + intros q P. cbn [plain_es] in P. opts. sm. use. done.
    + intros q P. cbn [keep] in P. destruct (is_call e) eqn:C; cbn [plain_es plain_e] in P; opts; [discriminate|]. sm. match goal with Q : plain_e e = Some _ |- _ => pose proof (last_call_plain _ _ Q C) as L end. use. split; [done|]. cbn [last_call]. destruct a0; try reflexivity. destruct L.
    + right. intros e0 [= <-]. exact H0.
  - destruct H2 as (K1 & K2 & K3). split; [|split].
    + intros q P. cbn [plain_es] in P. opts. use. done.
    + intros q P. assert (Q : plain_es (XCons e (keep (-1) es)) = Some q) by (destruct es; [inversion H1|exact P]). clear P. cbn [plain_es] in Q. opts. match goal with Q : plain_es _ = Some _ |- _ => rename Q into P0 end. destruct (K2 _ P0) as (A & B). split; [use; done|]. cbn [last_call]. destruct a0; try exact B. destruct b0; [|exact B].
      exfalso. destruct es as [|e1 [|e2 es]]; [inversion H1| |]; cbn [keep plain_es] in P0; apply both_some in P0; destruct P0 as (? & ? & ? & ? & X); discriminate X.
    + right. intros e0 X. injection X as -> X2. subst es. inversion H1.
  - intros q P. cbn [plain_es] in P. opts. sm. use. split; done.
  - assert (M : pe_ok (mix o (XVar x) e)) by (apply mix_ok; [intros ? [= <-]; reflexivity|assumption]). intros q P. cbn [plain_s] in P. opts. use. split; done.
  - intros q P. cbn [plain_s] in P. opts. match goal with A : plain_e c = Some _, B : plain_e k = Some _ |- _ => destruct (get_ok _ _ _ _ ltac:(eassumption) A B) end. use. split; done.
  - assert (M : pe_ok (mix o (XGet c k) e)) by (apply mix_ok; assumption). intros q P. cbn [plain_s] in P. opts. match goal with A : plain_e c = Some _, B : plain_e k = Some _ |- _ => destruct (get_ok _ _ _ _ ltac:(eassumption) A B) end. use. split; done.
  - intros q P. cbn [plain_s] in P. destruct ls as [|l [|]]; [discriminate P| |destruct l; discriminate P]. assert (K : exists e, es = XCons e XNil).
    { destruct es as [|e1 [|e2 es]]; [inversion H1|eauto|cbn [xes_list length] in H3; lia]. }
    destruct K as (e & ->). destruct H2 as (_ & _ & [K|K]); [discriminate K|]. specialize (K _ eq_refl).
    assert (N : forall n e', e <> XCtx n e') by (inversion H1; subst; eapply not_ctx; eassumption).
    assert (V : forall v, plain_value e = Some v -> parsed_e v = true) by (intros v Pv; destruct e; try (exact (K _ Pv)); exfalso; eapply N; reflexivity).
    unfold filled in P. cbn [xes_list xes_of ends_in_call length] in P.
    destruct l as [y|y|y]; [| |destruct H0]; (destruct (is_call e) eqn:C; cbn in P; rewrite ?C in P; opts; cbn [parsed_o]; [apply K|apply V]; assumption).
  - intros q P. cbn [plain_s plain_e both] in P. discriminate P.
  - intros q P. cbn [plain_s order fold_right] in P. opts. sm. use. done.
  - intros q P. injection P as <-. reflexivity.
  - intros q P. injection P as <-. reflexivity.
  - apply H0.
  - split; intros q P; injection P as <-; reflexivity.
  - destruct H3 as (K1 & K2). split.
    + intros q P. cbn [plain_l] in P. opts. use. cbn [body_o fold_right parsed_o]. match goal with Q : plain_l l = Some ?b |- _ => fold (body_o b); rewrite (K1 _ Q) end. done.
    + intros q P. cbn [order fold_right plain_s] in P. opts. fold (order l) in *. use. done.
Qed.
Lemma program_parsed strtod l a o : sts_written strtod l a -> plain_l l = Some o -> parsed_o (body_o o) = true.
Proof. intros H P. exact (proj1 (proj2 (proj2 (proj2 (proj2 (proj2 (proj2 (proj2 (proj2 (proj2 (written_parsed_o strtod))))))))) l a H) o P). Qed.

(** ** The translation of the model is the relation of the specification. *)
Scheme is_e_mind := Minimality for is_e Sort Prop with is_es_mind := Minimality for is_es Sort Prop.
Combined Scheme is_mind from is_e_mind, is_es_mind.
Lemma is_e_plain : (forall e e', is_e e e' -> plain_e e = Some e') /\ (forall es es', is_es es es' -> plain_es es = Some es').
Proof. apply is_mind; intros; cbn [plain_e plain_es]; repeat match goal with H : plain_e _ = Some _ |- _ => rewrite H | H : plain_es _ = Some _ |- _ => rewrite H end; reflexivity. Qed.
Lemma is_value_plain e e' : is_value e e' -> plain_value e = Some e'.
Proof. destruct 1 as [e e' H|e e' H]; pose proof (proj1 is_e_plain _ _ H) as P; [|exact P]. destruct e; try exact P. discriminate P. Qed.
Lemma is_s_plain s s' : is_s s s' -> plain_s s = Some s'.
Proof.
  induction 1; cbn [plain_s]; repeat match goal with H : is_e _ _ |- _ => apply (proj1 is_e_plain) in H; rewrite H; clear H | H : is_value _ _ |- _ => apply is_value_plain in H; rewrite H; clear H | H : plain_s _ = Some _ |- _ => rewrite H; clear H end; reflexivity.
Qed.
Lemma is_l_plain l l' : Forall2 is_s l l' -> plain_l l = Some l'.
Proof. induction 1 as [|s s' l l' H1 H2 IH]; [reflexivity|]. cbn [plain_l]. rewrite (is_s_plain _ _ H1), IH. reflexivity. Qed.
Lemma plain_is_e : (forall e e', plain_e e = Some e' -> is_e e e') /\ (forall es es', plain_es es = Some es' -> is_es es es') /\ (forall s : xs, True).
Proof. apply tree_mind; intros; auto; cbn [plain_e plain_es] in *; opts; sm; try discriminate; constructor; auto. Qed.
Lemma plain_is_s s : forall s', plain_s s = Some s' -> is_s s s'.
Proof.
  pose proof (proj1 plain_is_e) as E.
  assert (V : forall e e', plain_value e = Some e' -> is_value e e').
  { intros e e' P. destruct e; try (apply is_plain, E, P). cbn [plain_value] in P. destruct (Z.eqb_spec n 1) as [->|]; [|discriminate P]. apply is_one, E, P. }
  assert (X : forall s : xs, forall s', plain_s s = Some s' -> is_s s s'); [|exact (X s)].
  clear s. induction s; intros s' P; cbn [plain_s] in P; try discriminate P; opts; sm; try (constructor; auto; fail).
  destruct ls as [|l [|]]; [discriminate P| |destruct l; discriminate P]. destruct l as [x|x|x]; [| |discriminate P]; (destruct es as [|e [|]]; try discriminate P); opts; constructor; auto.
Qed.
Lemma plain_is_l l : forall l', plain_l l = Some l' -> Forall2 is_s l l'.
Proof. induction l as [|s l IH]; intros l' P; cbn [plain_l] in P; opts; sm; [constructor|]. constructor; [apply plain_is_s; assumption|apply IH; assumption]. Qed.
