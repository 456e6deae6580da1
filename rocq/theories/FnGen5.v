From Verif Require Import Base Bytes BytesProofs Value Table Ops Ast Stmt Limits Constants VM Compiler ValueProofs TableSpec TableProofs TableProofs2 TableProofs3 ConstSpec ConstProofs Gen GenProofs GenProofs2 SimBase Program ProgProofs Fn FnSpec FnCompiler FnCode FnGen FnGen2 FnGen3 FnGen4.

(** ** The top level. *)
Lemma extends_trans a b c : extends a b -> extends b c -> extends a c.
Proof. intros (m & ->) (m' & ->). exists (m ++ m'). apply app_assoc_reverse. Qed.
Lemma fcompile_stmts_made fuel G prog : forall code c code' c' ss cs kind,
  fcompile_stmts fuel prog code c = Ok (code', c') -> f_envs c = [] -> c_buf (f_c c) = [] -> c_scopes (f_c c) = ss -> good c (InFile (snames ss)) [] cs -> c_globals (f_c c) = G ->
  plain_s (InFile (snames ss)) (fbody prog) = true -> Forall literal (flits_s (fbody prog)) -> NoDup (labels_s (fbody prog)) -> KI kind (len code) ->
  exists cs' kind' bs, pooled (c_pool (f_c c')) cs' /\ gl_in G cs' /\ extends cs cs' /\ KI kind' (len code') /\ kfix (labels_s (fbody prog)) kind kind' /\ code' = code ++ bs /\
    forall K k, extends cs' K -> kagree (labels_s (fbody prog)) k kind' -> code_s K k G (SFile ss) (len code) (fbody prog) bs.
Proof.
  induction prog as [|s prog IH]; intros code c code' c' ss cs kind E He Hb Hs Gd Gl P L N Ki.
  - cbn [fcompile_stmts] in E. injection E as <- <-. exists cs, kind, []. rewrite app_nil_r. pose proof (g_gl _ _ _ _ Gd) as Q. rewrite Gl in Q. split; [apply Gd|]. split; [exact Q|]. split; [apply extends_refl|]. split; [exact Ki|]. split; [apply kfix_refl|]. split; [reflexivity|]. intros. reflexivity.
  - cbn [fcompile_stmts] in E. destruct (fvisit_s fuel s 1 c) as [c1| | |] eqn:V; try discriminate. cbn [bind] in E.
    cbn [fbody fold_right] in *. fold (fbody prog) in *. cbn [plain_s flits_s labels_s] in *. apply andb_true_iff in P. destruct P as (P1 & P2). apply Forall_app in L. destruct L as (L1 & L2). pose proof (nodup_app_inv _ _ N) as (N1 & N2 & _).
    assert (F0 : fcount c = 0) by (unfold fcount, count; rewrite Hb; reflexivity). assert (Cu : cur c = ss) by (unfold cur; rewrite He; exact Hs).
    destruct (proj2 (proj2 (fvisit_made fuel (len code) G)) s 1 c c1 _ [] cs kind V (or_introl eq_refl) Gd Gl P1 L1 N1 ltac:(rewrite F0, Z.add_0_r; exact Ki)) as (cs1 & b1 & k1 & Gn & K1 & Kf1 & H1).
    assert (Hb1 : c_buf (f_c c1) = b1). { destruct Gn as ((_ & _ & _ & _ & _ & B) & _). specialize (B cs1 (extends_refl _)). change (c_buf (view c1)) with (c_buf (f_c c1)) in B. change (c_buf (view c)) with (c_buf (f_c c)) in B. rewrite Hb in B. exact B. }
    assert (He1 : f_envs c1 = []). { pose proof Gn as (_ & S & _). unfold estep in S. rewrite He in S. destruct (f_envs c1); [reflexivity|contradiction]. }
    pose proof (gens_cur _ _ _ _ _ _ Gn) as C1. rewrite Cu in C1, Gn. unfold cur in C1. rewrite He1 in C1.
    pose proof (gens_good _ _ _ _ _ _ _ _ Gn Gd (fafter_nonempty s ss ltac:(rewrite <- Cu; apply Gd))) as Gd1. cbn [set_names] in Gd1.
    assert (Ap : after_place (InFile (snames ss)) s = InFile (snames (fafter ss s))) by (exact (after_names s ss (InFile (snames ss)))). rewrite Ap in P2.
    assert (Gd2 : good (on_c (fun d => set_buf d []) c1) (InFile (snames (fafter ss s))) [] cs1) by (apply (good_fc c1); [exact Gd1|reflexivity..]).
    assert (Lc : len (code ++ c_buf (f_c c1)) = len code + fcount c1) by (rewrite len_app; reflexivity).
    destruct (IH (code ++ c_buf (f_c c1)) (on_c (fun d => set_buf d []) c1) code' c' (fafter ss s) cs1 k1 E) as (cs2 & k2 & b2 & A1 & A2 & A3 & A4 & A5 & A6 & A7); auto.
    { cbn. rewrite (gens_gl _ _ _ _ _ _ Gn). exact Gl. }
    { rewrite Lc. exact K1. }
    exists cs2, k2, (b1 ++ b2). split; [exact A1|]. split; [exact A2|]. split; [eapply extends_trans; [|exact A3]; eapply gens_ext; [exact Gn|apply extends_refl]|]. split; [exact A4|]. split; [eapply kfix_app; eassumption|]. split; [rewrite A6, Hb1, app_assoc; reflexivity|].
    intros K k HK HA. destruct (kagree_app _ _ _ _ _ N A5 HA) as (HA1 & HA2). cbn [code_s]. exists b1, b2. split; [|split; [|reflexivity]].
    + specialize (H1 K [] k ltac:(eapply extends_trans; eassumption) ltac:(unfold upn; rewrite He1; apply prefix_refl) HA1). rewrite F0, Z.add_0_r in H1. unfold senv_of in H1. rewrite He, Hs in H1. exact H1.
    + specialize (A7 K k HK HA2). rewrite len_app, Hb1 in A7. exact A7.
Qed.

Lemma fcompile_inv fuel gs pr lines bytes : fcompile_program fuel gs pr lines = Ok bytes -> Forall (fun x => literal (VStr x)) gs ->
  plain_s (InFile [[]]) (fbody pr) = true -> Forall literal (flits_s (fbody pr)) -> NoDup (labels_s (fbody pr)) ->
  exists G p cs kind code, good_globals G gs /\ pooled p cs /\ gl_in G cs /\ (forall l l' a, kind l = Some a -> kind l' = Some a -> l = l') /\
    code_s cs kind G (SFile [[]]) 0 (fbody pr) code /\ bytes = return_bytes p code lines.
Proof.
  intros E Fg Pl Fl N. unfold fcompile_program in E. destruct compiler_new as [c0| | |] eqn:Nw; try discriminate. cbn [bind] in E. unfold compiler_new in Nw.
  destruct pool_new as [p0| | |] eqn:Np; try discriminate. cbn [bind] in Nw. injection Nw as <-.
  destruct (declglobals fuel gs _) as [c1| | |] eqn:D; try discriminate. cbn [bind] in E.
  destruct (declglobals_gen fuel gs _ c1 [] [] D) as (cs1 & P1 & G1 & Go & B1 & C1 & S1); cbn [c_pool c_globals c_buf c_cps c_scopes]; auto.
  { apply pool_new_inv, Np. }
  { intros x z H. discriminate. }
  { intros x. reflexivity. }
  destruct (fcompile_stmts fuel pr [] (FC (enter_scope c1) [])) as [[code c2]| | |] eqn:CS; try discriminate. cbn [bind] in E. injection E as <-.
  destruct (fcompile_stmts_made fuel (c_globals c1) pr [] (FC (enter_scope c1) []) code c2 [[]] cs1 (fun _ => None) CS) as (cs' & kind & bs & A1 & A2 & A3 & A4 & A5 & A6 & A7); auto.
  { cbn. rewrite S1. reflexivity. }
  { constructor; cbn; auto; try (rewrite S1; discriminate). rewrite S1. reflexivity. }
  { split; intros l; intros; discriminate. }
  cbn [app] in A6. subst bs. exists (c_globals c1), (c_pool (f_c c2)), cs', kind, code. split; [exact Go|]. split; [exact A1|]. split; [exact A2|]. split; [apply A4|]. split; [|reflexivity].
  apply A7; [apply extends_refl|intros l _; reflexivity].
Qed.
