(** * The parser reads what is written: proofs for the grammar of TreeSpec.v. *)
From Verif Require Import Base Value Ops Ast Fold FoldProofs Stmt Text TextSpec TextProofs PropText Lexer LexSpec Parser ParseSpec ParseProofs Tree TreeParser TreeSpec.
Local Open Scope list_scope.

(** ** Folding. *)
Lemma cfold_back e : cfold (back e) = Ok (back e). Proof. destruct e; reflexivity. Qed.
Lemma foldx_bin_shape o l r e : foldx_bin o l r = Ok e -> e = XBin o l r \/ exists a, e = back a.
Proof.
  unfold foldx_bin. destruct (leafx l) as [a|]; [|intros [= <-]; auto]. destruct (leafx r) as [b|]; [|intros [= <-]; auto]. destruct (fold_bin o a b) as [c| | |]; cbn [bind]; intros E; try discriminate. injection E as <-. destruct (is_leaf c); eauto.
Qed.
Lemma foldx_un_shape o l e : foldx_un o l = Ok e -> e = XUn o l \/ exists a, e = back a.
Proof. unfold foldx_un. destruct (leafx l) as [a|]; [|intros [= <-]; auto]. destruct (fold_un o a) as [c| | |]; cbn [bind]; intros E; try discriminate. injection E as <-. destruct (is_leaf c); eauto. Qed.
Ltac unbind F := repeat match type of F with (do _ <- ?q; _) = Ok _ => let E := fresh "E" in destruct q eqn:E; try discriminate F; cbn [bind] in F end.
Ltac rebind := repeat match goal with H : _ = Ok _ |- context [do _ <- ?q; _] => rewrite H; cbn [bind] end.
Lemma folded_twice : (forall e ef, fold_e e = Ok ef -> cfold ef = Ok ef) /\ (forall es esf, fold_es es = Ok esf -> cfolds esf = Ok esf) /\ (forall s : xs, True).
Proof.
  apply tree_mind; intros; auto; try (cbn in *; match goal with H : Ok _ = Ok _ |- _ => injection H as <- end; reflexivity); cbn [fold_e fold_es] in *; match goal with F : _ = Ok ?q |- _ ?q = Ok ?q => unbind F end;
    repeat match goal with IH : forall ef, Ok _ = Ok ef -> _ |- _ => specialize (IH _ eq_refl) end.
  - destruct (foldx_un_shape _ _ _ H0) as [->|(z & ->)]; [|apply cfold_back]. cbn [cfold]. rewrite H. exact H0.
  - destruct (foldx_bin_shape _ _ _ _ H1) as [->|(z & ->)]; [|apply cfold_back]. cbn [cfold]. rewrite H, H0. exact H1.
  - injection H1 as <-. cbn [cfold]. rewrite H, H0. reflexivity.
  - injection H2 as <-. cbn [cfold]. rewrite H, H0, H1. reflexivity.
  - injection H0 as <-. cbn [cfold]. rewrite H. reflexivity.
  - injection H0 as <-. cbn [cfold]. rewrite H. reflexivity.
  - injection H1 as <-. cbn [cfold]. rewrite H, H0. reflexivity.
  - injection H2 as <-. cbn [cfold]. rewrite H, H0, H1. reflexivity.
  - injection H1 as <-. cbn [cfold]. rewrite H, H0. reflexivity.
  - injection H1 as <-. cbn [cfold]. rewrite H, H0. reflexivity.
  - injection H0 as <-. reflexivity.
  - injection H0 as <-. reflexivity.
  - injection H1 as <-. cbn [cfolds]. rewrite H, H0. reflexivity.
Qed.
Lemma back_no_call a : is_call (back a) = false. Proof. destruct a; reflexivity. Qed.
Lemma fold_is_call e ef : fold_e e = Ok ef -> is_call ef = is_call e.
Proof.
  destruct e; cbn [fold_e]; intros F; unbind F; try (injection F as <-; reflexivity).
  - destruct (foldx_un_shape _ _ _ F) as [->|(x & ->)]; [reflexivity|apply back_no_call].
  - destruct (foldx_bin_shape _ _ _ _ F) as [->|(x & ->)]; [reflexivity|apply back_no_call].
Qed.
Lemma keep_cons n e r : r <> XNil -> keep n (XCons e r) = XCons e (keep n r). Proof. destruct r; [congruence|reflexivity]. Qed.
Lemma fold_es_nil es : fold_es es = Ok XNil -> es = XNil. Proof. destruct es; [reflexivity|]. cbn [fold_es]. intros F. unbind F. Qed.
Lemma fold_keep n es : forall r, fold_es (keep n es) = Ok r -> exists esf, fold_es es = Ok esf /\ r = in_context n esf.
Proof.
  change (in_context n) with (keep n). induction es as [|e es IH]; intros r F; [injection F as <-; exists XNil; auto|]. destruct es as [|e2 es].
  - cbn [keep fold_es] in *. destruct (is_call e) eqn:C.
    + cbn [fold_e] in F. unbind F. injection F as <-. cbn [bind] in E. unbind E. injection E as <-. eexists. split; [reflexivity|]. cbn [keep]. rewrite (fold_is_call _ _ E0), C. reflexivity.
    + unbind F. injection F as <-. eexists. split; [reflexivity|]. cbn [keep]. rewrite (fold_is_call _ _ E), C. reflexivity.
  - rewrite keep_cons in F by discriminate. cbn [fold_es] in F. unbind F. injection F as <-. destruct (IH _ eq_refl) as (esf & Fe & ->). exists (XCons a esf). change (fold_es (XCons e (XCons e2 es))) with (do e' <- fold_e e; do r' <- fold_es (XCons e2 es); Ok (XCons e' r')). rewrite E, Fe. split; [reflexivity|]. rewrite keep_cons; [reflexivity|]. intros ->. apply fold_es_nil in Fe. discriminate.
Qed.
Lemma cfolds_keep n esf : cfolds esf = Ok esf -> cfolds (in_context n esf) = Ok (in_context n esf).
Proof.
  change (in_context n) with (keep n). induction esf as [|e esf IH]; intros F; [reflexivity|]. destruct esf as [|e2 esf].
  - cbn [keep cfolds] in *. unbind F. injection F as ->. destruct (is_call e); cbn [cfold bind]; [reflexivity|]. rewrite E. reflexivity.
  - rewrite keep_cons by discriminate. set (r := XCons e2 esf) in *. cbn [cfolds] in F |- *. unbind F. injection F as Ea Eb. rewrite Ea in E. rewrite Eb in *. rewrite IH by reflexivity. rewrite Ea. reflexivity.
Qed.
Lemma fold_ends es : forall esf, fold_es es = Ok esf -> last_expands esf = ends_in_call es /\ xlength esf = length (xes_list es).
Proof.
  induction es as [|e es IH]; intros esf F; cbn [fold_es] in F; [injection F as <-; auto|]. unbind F. injection F as <-. destruct (IH _ eq_refl) as (A & B). cbn [xlength xes_list length]. split; [|rewrite B; reflexivity].
  destruct es as [|e2 es]; [injection E0 as <-; cbn [last_expands ends_in_call]; apply (fold_is_call _ _ E)|]. destruct a0 as [|x2 x0]; [apply fold_es_nil in E0; discriminate|]. exact A.
Qed.
Lemma fold_es_app es l : forall r, fold_es (xes_of (xes_list es ++ l)) = Ok r -> exists esf lf, fold_es es = Ok esf /\ fold_es (xes_of l) = Ok lf /\ r = xapp esf lf.
Proof.
  induction es as [|e es IH]; intros r F; cbn [xes_list app xes_of fold_es] in *; [exists XNil, r; auto|]. unbind F. injection F as <-. destruct (IH _ eq_refl) as (esf & lf & -> & -> & ->). cbn [bind]. exists (XCons a esf), lf. auto.
Qed.
Lemma fold_undefs n : fold_es (xes_of (repeat XUndef n)) = Ok (undefs n).
Proof. induction n as [|n IH]; [reflexivity|]. cbn [repeat xes_of fold_es fold_e bind undefs]. rewrite IH. reflexivity. Qed.
Lemma xes_list_of es : xes_of (xes_list es) = es. Proof. induction es as [|e es IH]; [reflexivity|]. cbn. rewrite IH. reflexivity. Qed.
Lemma fold_filled n es r : fold_es (filled n (xes_list es)) = Ok r -> exists esf, fold_es es = Ok esf /\ r = packed n esf.
Proof.
  unfold filled. rewrite xes_list_of. destruct (ends_in_call es) eqn:C; intros F.
  - destruct (fold_keep _ _ _ F) as (esf & Fe & ->). exists esf. split; [exact Fe|]. unfold packed. destruct (fold_ends _ _ Fe) as (-> & ->). rewrite C. reflexivity.
  - destruct (fold_es_app _ _ _ F) as (esf & lf & Fe & Fl & ->). exists esf. split; [exact Fe|]. rewrite fold_undefs in Fl. injection Fl as <-. unfold packed. destruct (fold_ends _ _ Fe) as (-> & ->). rewrite C. reflexivity.
Qed.
Lemma mkx_mix o l r : mkx_bin (symbol o) l r = Some (mix o l r). Proof. destruct o as [[[]| |]|[]]; reflexivity. Qed.
Lemma fold_mix o l r ef : fold_e (mix o l r) = Ok ef -> exists lf rf, fold_e l = Ok lf /\ fold_e r = Ok rf /\ forall l' r', cfold l' = Ok lf -> cfold r' = Ok rf -> cfold (mix o l' r') = Ok ef.
Proof.
  destruct o as [o|o]; cbn [mix fold_e cfold]; intros E; destruct (fold_e l) as [l1| | |] eqn:E1; try discriminate; cbn [bind] in E; destruct (fold_e r) as [r1| | |] eqn:E2; try discriminate; cbn [bind] in E;
  exists l1, r1; split; [reflexivity| |reflexivity|]; (split; [reflexivity|]); intros l' r' -> ->; exact E.
Qed.
Lemma foldx_var o x b : exists c, fold_bin o (EVar x) b = c /\ c = Ok (EBin o (EVar x) b). Proof. eexists. split; [reflexivity|]. reflexivity. Qed.
Lemma fold_mix_var o x e ef : fold_e (mix o (XVar x) e) = Ok ef -> exists e', fold_e e = Ok e' /\ ef = mix o (XVar x) e'.
Proof.
  destruct o as [o|o]; cbn [mix fold_e bind]; destruct (fold_e e) as [e'| | |]; try discriminate; cbn [bind]; intros E; exists e'; split; try reflexivity; [|congruence].
  unfold foldx_bin in E. cbn [leafx] in E. destruct (leafx e'); [|congruence]. cbn [fold_bin bind is_leaf] in E. congruence.
Qed.
Lemma fold_mix_get o c k e ef : fold_e (mix o (XGet c k) e) = Ok ef -> exists c' k' e', fold_e c = Ok c' /\ fold_e k = Ok k' /\ fold_e e = Ok e' /\ ef = mix o (XGet c' k') e'.
Proof.
  destruct o as [o|o]; cbn [mix fold_e bind]; intros F; unbind F; unbind E; injection E as <-; eexists _, _, _; (split; [reflexivity|]; split; [reflexivity|]; split; [reflexivity|]); unfold foldx_bin in F; cbn [leafx] in F; congruence.
Qed.

(** ** Tokens. *)
Lemma tok_cons toks l ls : tokens toks (l :: ls) -> exists nl ts, toks = Tok (kind l) (content l) nl false :: ts /\ nl_fits l nl = true /\ tokens ts ls.
Proof. intros (T & F). apply tokens_cons_inv in T. destruct T as (nl & ts & -> & T). inversion F; subst. exists nl, ts. repeat split; assumption. Qed.
Lemma tok_nil toks : tokens toks [] -> toks = []. Proof. intros (T & _). apply tokens_nil_inv, T. Qed.
Lemma tok_app toks a b : tokens toks (a ++ b) -> exists ta tb, toks = ta ++ tb /\ tokens ta a /\ tokens tb b.
Proof.
  revert toks. induction a as [|l a IH]; intros toks H; cbn [app] in H.
  - exists [], toks. repeat split; try apply H. constructor.
  - apply tok_cons in H. destruct H as (nl & ts & -> & N & H). destruct (IH _ H) as (ta & tb & -> & (A & A2) & B). exists (Tok (kind l) (content l) nl false :: ta), tb. split; [reflexivity|]. split; [|exact B]. split; [unfold tokens_of in *; cbn [map t_type t_val t_interp]; rewrite A; reflexivity|constructor; assumption].
Qed.
Lemma tok_cur toks ls rest : tokens toks ls -> ls <> [] -> cur (toks ++ rest) = starts ls. Proof. intros (T & _). apply (tokens_cur _ _ _ T). Qed.
Ltac tk1 T nl ts := apply tok_cons in T; let N := fresh "Nl" in destruct T as (nl & ts & -> & N & T).
Ltac tkn T := let E := fresh in pose proof (tok_nil _ T) as E; subst; clear T.
Ltac tka T ta tb Ta := apply tok_app in T; destruct T as (ta & tb & -> & Ta & T).

(** ** Two amounts of fuel. *)
Definition ev2 {A} (F : nat -> nat -> pres A) (a : A) : Prop := exists n, forall m f, (n <= m)%nat -> (n <= f)%nat -> F m f = POk a.
Lemma ev2_step {A} (F G : nat -> nat -> pres A) a : ev2 G a -> (forall m f, F m (S f) = G m f) -> ev2 F a.
Proof. intros (n & H) E. exists (S n). intros m [|f] L1 L2; [lia|]. rewrite E. apply H; lia. Qed.
Lemma ev2_ret {A} (a : A) : ev2 (fun _ _ => POk a) a. Proof. exists O. reflexivity. Qed.
Lemma ev2_bind {A B} (F : nat -> nat -> pres A) (G : nat -> nat -> A -> pres B) a b : ev2 F a -> ev2 (fun m f => G m f a) b -> ev2 (fun m f => get x <- F m f; G m f x) b.
Proof. intros (n & H) (n2 & H2). exists (Nat.max n n2). intros m f L1 L2. rewrite H by lia. cbn [pbind]. apply H2; lia. Qed.
Lemma ev2_eq {A} (F G : nat -> nat -> pres A) a : (forall m f, F m f = G m f) -> ev2 G a -> ev2 F a.
Proof. intros E (n & H). exists n. intros m f L1 L2. rewrite E. apply H; assumption. Qed.
Lemma ev2_left {A} (g : nat -> pres A) a : eventually g a -> ev2 (fun m _ => g m) a. Proof. intros (n & H). exists n. auto. Qed.
Lemma ev2_diag {A} (F : nat -> nat -> pres A) a : ev2 F a -> eventually (fun m => F m m) a. Proof. intros (n & H). exists n. intros m L. apply H; exact L. Qed.
