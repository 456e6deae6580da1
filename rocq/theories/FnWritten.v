(** Folding the syntax trees of programs with functions, and the compiler does not look at labels (proofs only). *)
From Verif Require Import Base Value ValueProofs Ops Ast Fold FoldProofs Stmt VM Compiler HeapSpec2 Tree TreeSpec TreeProofs TreeExact ObjFold Fn FnSpec FnCompiler FnSource FnFold.
Local Open Scope list_scope.

Scheme is_fe_mind := Minimality for is_fe Sort Prop with is_fes_mind := Minimality for is_fes Sort Prop with is_fs_mind := Minimality for is_fs Sort Prop.
Combined Scheme is_f_mind from is_fe_mind, is_fes_mind, is_fs_mind.

Lemma leaf_fe l a v o : leafx l = Some a -> lit_e a = Some v -> is_fe l o -> lit_f o = Some v.
Proof. destruct l; intros [= <-] [= <-] H; inversion H; reflexivity. Qed.
Lemma back_fe e v : lit_e e = Some v -> exists q, is_fe (back e) q /\ lit_f q = Some v.
Proof. destruct e; cbn; intros [= <-]; eexists; (split; [constructor|reflexivity]). Qed.
Lemma foldx_bin_ge o l r l' r' ol or_ ol' or' ef : foldx_bin o l' r' = Ok ef -> fold_e l = Ok l' -> fold_e r = Ok r' -> match o with BOp BId | BNi => negb (float_pair_x l r) | _ => true end = true ->
  is_fe l' ol' -> is_fe r' or' -> ge ol ol' -> ge or_ or' -> exists q, is_fe ef q /\ ge (FBin o ol or_) q.
Proof.
  intros F Fl Fr G Pl Pr El Er. unfold foldx_bin in F.
  assert (K : ef = XBin o l' r' -> exists q, is_fe ef q /\ ge (FBin o ol or_) q).
  { intros ->. eexists. split; [constructor; eassumption|]. apply ge_bin; assumption. }
  destruct (leafx l') as [a|] eqn:La; [|injection F as <-; auto]. destruct (leafx r') as [b|] eqn:Lb; [|injection F as <-; auto].
  destruct (fold_bin o a b) as [e| | |] eqn:FB; try discriminate. cbn [bind] in F. injection F as <-. destruct (is_leaf e) eqn:IL; [|auto].
  destruct (fold_bin_leaf o a b e FB IL) as (va & vb & v & Ha & Hb & Hv & Na & Nb & No). destruct (back_fe _ _ Hv) as (q & Q & Q').
  exists q. split; [exact Q|]. eapply ge_bin_const; [exact El|exact Er|exact (leaf_fe _ _ _ _ La Ha Pl)|exact (leaf_fe _ _ _ _ Lb Hb Pr)|exact Q'|].
  intros w. rewrite <- (lit_eval w (fun _ => UB) e v Hv). symmetry. eapply fold_bin_ok; [apply lit_eval, Ha|apply lit_eval, Hb|exact FB|].
  unfold float_pair_x in G. rewrite Fl, Fr in G. destruct (leafx_num _ _ La) as (N1 & N2). destruct (leafx_num _ _ Lb) as (N3 & N4). rewrite N1, N2, N3, N4 in G.
  destruct o as [[]| |]; try exact I; intros Hn; apply negb_true_iff in G; apply andb_true_iff in Hn; destruct Hn as (H1 & H2); rewrite H1, H2 in G; exact G.
Qed.
Lemma foldx_un_ge o e e' oe oe' ef : foldx_un o e' = Ok ef -> fold_e e = Ok e' -> match o with UNot => negb (is_nan_x e) | _ => true end = true ->
  is_fe e' oe' -> ge oe oe' -> exists q, is_fe ef q /\ ge (FUn o oe) q.
Proof.
  intros F Fl G Pl El. unfold foldx_un in F.
  assert (K : ef = XUn o e' -> exists q, is_fe ef q /\ ge (FUn o oe) q).
  { intros ->. eexists. split; [constructor; eassumption|]. apply ge_un; assumption. }
  destruct (leafx e') as [a|] eqn:La; [|injection F as <-; auto].
  destruct (fold_un o a) as [e1| | |] eqn:FB; try discriminate. cbn [bind] in F. injection F as <-. destruct (is_leaf e1) eqn:IL; [|auto].
  destruct (fold_un_leaf o a e1 FB IL) as (va & v & Ha & Hv & No). destruct (back_fe _ _ Hv) as (q & Q & Q').
  exists q. split; [exact Q|]. eapply ge_un_const; [exact El|exact (leaf_fe _ _ _ _ La Ha Pl)|exact Q'|].
  intros w. rewrite <- (lit_eval w (fun _ => UB) e1 v Hv). symmetry. eapply fold_un_ok; [apply lit_eval, Ha|exact FB|]. intros -> ->. unfold is_nan_x in G. rewrite Fl in G. destruct e'; try discriminate La. injection La as ->. discriminate G.
Qed.
Lemma fold_if_shape s sf : fold_s s = Ok sf -> match s with XIf _ _ | XIfElse _ _ _ => True | _ => False end -> match sf with XIf _ _ | XIfElse _ _ _ => True | _ => False end.
Proof. destruct s; try contradiction; intros F _; cbn [fold_s] in F; unbinds; exact I. Qed.
Lemma fold_g : (forall e ef o, fold_e e = Ok ef -> exact_e e = true -> is_fe e o -> exists o', is_fe ef o' /\ ge o o') /\
  (forall es esf o, fold_es es = Ok esf -> exact_es es = true -> is_fes es o -> exists o', is_fes esf o' /\ gas o o') /\
  (forall s sf o, fold_s s = Ok sf -> exact_s s = true -> is_fs s o -> exists o', is_fs sf o' /\ gs o o').
Proof.
  apply tree_mind; intros; match goal with H : is_fe _ _ |- _ => inversion H; subst; clear H | H : is_fes _ _ |- _ => inversion H; subst; clear H | H : is_fs _ _ |- _ => inversion H; subst; clear H end;
    cbn [fold_e fold_es fold_s exact_e exact_es exact_s] in *; opts; unbinds.
  all: repeat match goal with
    | IH : forall ef o, Ok _ = Ok ef -> exact_e ?e = true -> is_fe ?e o -> _, G : exact_e ?e = true, P : is_fe ?e _ |- _ => destruct (IH _ _ eq_refl G P) as (?q & ?Q & ?F); clear IH
    | IH : forall ef o, Ok _ = Ok ef -> exact_es ?e = true -> is_fes ?e o -> _, G : exact_es ?e = true, P : is_fes ?e _ |- _ => destruct (IH _ _ eq_refl G P) as (?q & ?Q & ?F); clear IH
    | IH : forall ef o, Ok _ = Ok ef -> exact_s ?e = true -> is_fs ?e o -> _, G : exact_s ?e = true, P : is_fs ?e _ |- _ => destruct (IH _ _ eq_refl G P) as (?q & ?Q & ?F); clear IH
    | IH : forall ef o, Ok (XBlock _) = Ok ef -> exact_s ?e = true -> is_fs (XBlock ?e) o -> _, G : exact_s ?e = true, P : is_fs ?e _ |- _ => let q := fresh "q" in let A := fresh "A" in let B := fresh "B" in destruct (IH _ _ eq_refl G (f_block _ _ P)) as (q & A & B); clear IH; inversion A; subst; inversion B; subst; clear A B
    end.
  all: try (eexists; split; constructor; first [reflexivity|assumption]).
  1: eapply foldx_un_ge; eassumption.
  1: eapply foldx_bin_ge; eassumption.
  all: try (eexists; split; [econstructor; eassumption|econstructor; first [reflexivity|eassumption]]; fail).
  1, 2: destruct (H _ (ACons e' ANil) eq_refl) as (q & A & B); [rewrite H1; reflexivity|constructor; [assumption|constructor]|]; inversion A; subst; inversion B; subst; eexists; (split; [constructor; eassumption|constructor; eassumption]).
  eexists. split; [eapply f_elseif; [eassumption..|]|constructor; eassumption]. eapply fold_if_shape; eassumption.
Qed.
Lemma fold_l_g l : forall lf o, fold_l l = Ok lf -> forallb exact_s l = true -> Forall2 is_fs l o -> exists o', Forall2 is_fs lf o' /\ gs (fbody o) (fbody o').
Proof.
  induction l as [|s l IH]; intros lf o F G P; inversion P; subst; cbn [fold_l forallb] in *.
  - injection F as <-. exists []. split; constructor.
  - opts. unbinds. match goal with A : fold_s s = Ok _, B : exact_s s = true, C : is_fs s _ |- _ => destruct (proj2 (proj2 fold_g) _ _ _ A B C) as (q & Q & Fq) end. match goal with B : forallb _ _ = true, C : Forall2 is_fs l _ |- _ => destruct (IH _ _ eq_refl B C) as (r & R & Fr) end.
    exists (q :: r). split; [constructor; assumption|]. cbn [fbody fold_right]. constructor; assumption.
Qed.

(** ** The compiler does not look at the labels. *)
Section Labels.
Variable fuel : nat.
Lemma pair_some {A B C} (f : A -> B -> C) x y z : pair f x y = Some z -> exists a b, x = Some a /\ y = Some b /\ z = f a b.
Proof. unfold pair. destruct x as [a|], y as [b|]; try discriminate. intros [= <-]. eauto. Qed.
Lemma bind_ext {A B} (x y : outcome A) (f g : A -> outcome B) : x = y -> (forall a, f a = g a) -> bind x f = bind y g.
Proof. intros -> E. destruct y; cbn; auto. Qed.
Lemma validate_ext v v' c : (forall c, v c = v' c) -> fvalidate v c = fvalidate v' c.
Proof. intros E. unfold fvalidate. rewrite E. reflexivity. Qed.
Definition same_e (e e' : fexpr) : Prop := (forall er c, fvisit_e fuel e er c = fvisit_e fuel e' er c) /\ f_truthy e = f_truthy e' /\ f_falsey e = f_falsey e' /\ (forall er c, fvisit_s fuel (FExpr e) er c = fvisit_s fuel (FExpr e') er c).
Definition same_s (s s' : fstmt) : Prop := forall er c, fvisit_s fuel s er c = fvisit_s fuel s' er c.
Ltac by_ih := match goal with H : forall (er : Z) (c : fcst), _ = _ |- _ => exact (H _ _) | H : same_s _ _ |- _ => exact (H _ _) end.
Ltac ext := repeat first [reflexivity | by_ih | match goal with
  | H : f_truthy ?e = _ |- context [f_truthy ?e] => rewrite H
  | H : f_falsey ?e = _ |- context [f_falsey ?e] => rewrite H
  | |- bind _ _ = bind _ _ => apply bind_ext; [|let a := fresh "a" in intros a]
  | |- fvalidate _ _ = fvalidate _ _ => apply validate_ext; let a := fresh "a" in intros a
  | |- (let (c, i) := ?p in _) = _ => destruct p
  | |- (if ?b then _ else _) = _ => destruct b
  end].
Lemma labels_free : (forall t e, is_fe t e -> exists e', fn_e t = Some e' /\ same_e e e') /\
  (forall ts es, is_fes ts es -> exists es', fn_es ts = Some es' /\ forall er c, fvisit_args fuel es er c = fvisit_args fuel es' er c) /\
  (forall t s, is_fs t s -> exists s', fn_s t = Some s' /\ same_s s s').
Proof.
  apply is_f_mind; intros;
    repeat match goal with H : exists _, _ /\ _ |- _ => let q := fresh "q" in let Q := fresh "Q" in destruct H as (q & Q & H) end;
    try (destruct s; try (exfalso; assumption); cbn [fn_s] in *);
    cbn [fn_e fn_es fn_s]; repeat match goal with H : fn_e _ = Some _ |- _ => rewrite H; clear H | H : fn_es _ = Some _ |- _ => rewrite H; clear H | H : fn_s _ = Some _ |- _ => rewrite H; clear H | H : match _ with XBlock _ => _ | _ => _ end = Some _ |- _ => rewrite H; clear H end; cbn [pair option_map];
    (eexists; split; [reflexivity|]);
    repeat match goal with H : same_e _ _ |- _ => let A := fresh "V" in let B := fresh "T" in let C := fresh "F" in let D := fresh "X" in destruct H as (A & B & C & D) end.
  all: try match goal with |- same_e ?e ?e' => assert (W : forall er c, fvisit_e fuel e er c = fvisit_e fuel e' er c); [intros; cbn [fvisit_e]; ext|unfold same_e; split; [exact W|split; [reflexivity|split; [reflexivity|]]]] end.
  all: try (intros; cbn [fvisit_args]; ext; fail).
  all: try (unfold same_s; intros; cbn [fvisit_s]; ext; fail).
Qed.


Lemma labels_free_l l q : Forall2 is_fs l q -> exists q', fn_l l = Some q' /\ Forall2 same_s q q'.
Proof.
  induction 1 as [|s s' l q H1 H2 (r & R1 & R2)]; [exists []; split; [reflexivity|constructor]|]. destruct (proj2 (proj2 labels_free) _ _ H1) as (s0 & S1 & S2). exists (s0 :: r). cbn [fn_l]. rewrite S1, R1. split; [reflexivity|constructor; assumption].
Qed.
Lemma same_stmts q q' : Forall2 same_s q q' -> forall code c, fcompile_stmts fuel q code c = fcompile_stmts fuel q' code c.
Proof. induction 1 as [|s s' q q' H1 H2 IH]; intros code c; [reflexivity|]. cbn [fcompile_stmts]. apply bind_ext; [apply H1|intros a; apply IH]. Qed.
Lemma same_program l q gs lines : Forall2 is_fs l q -> exists q', fn_l l = Some q' /\ fcompile_program fuel gs q' lines = fcompile_program fuel gs q lines.
Proof.
  intros H. destruct (labels_free_l _ _ H) as (q' & E & S). exists q'. split; [exact E|]. unfold fcompile_program. apply bind_ext; [reflexivity|]. intros c. apply bind_ext; [reflexivity|]. intros c1. apply bind_ext; [|reflexivity]. symmetry. apply same_stmts, S.
Qed.
End Labels.
