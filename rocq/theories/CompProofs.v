From Verif Require Import Base Bytes BytesProofs Value Table Ops Ast Stmt Limits Constants VM Compiler ValueProofs TableSpec ConstSpec ConstProofs Gen GenProofs GenProofs2 SimBase Sim Program ProgProofs CompSpec.

Definition er1 (s : scope) : list (name * bool) := map (fun p => (fst p, is_const (snd p))) s.
Definition er (ss : list scope) : names := map er1 ss.
Lemma er1_get s x : in_scope (er1 s) x = option_map is_const (assoc s x).
Proof. induction s as [|(y, z) s IH]; [reflexivity|]. cbn. destruct (name_eqb y x); [reflexivity|exact IH]. Qed.
Lemma er_get ss x : in_scopes (er ss) x = option_map is_const (scope_get ss x).
Proof. induction ss as [|s ss IH]; [reflexivity|]. cbn. rewrite er1_get. destruct (assoc s x); [reflexivity|exact IH]. Qed.
Lemma er_decl ss x k : er (decl ss x k) = add_name (er ss) x k.
Proof.
  destruct ss as [|s r]; [reflexivity|]. cbn [decl er map add_name er1]. do 2 f_equal. cbn [fst snd]. f_equal.
  pose proof (scope_len_nonneg (s :: r)). unfold is_const. set (q := scope_len (s :: r)) in *. destruct k; unfold Z.lnot; [destruct (Z.ltb_spec (Z.pred (- q)) 0)|destruct (Z.ltb_spec q 0)]; try reflexivity; lia.
Qed.
Lemma er_after_lval ss l : er (after_lval ss l) = add_lval (er ss) l.
Proof. destruct l; cbn [after_lval add_lval]; [apply er_decl..|reflexivity]. Qed.
Lemma er_after s : forall ss, er (after ss s) = names_after (er ss) s.
Proof.
  induction s; intros ss; cbn [after names_after]; auto using er_decl.
  - rewrite IHs2, IHs1. reflexivity.
  - revert ss. induction ls as [|l ls IH]; intros ss; cbn [fold_left]; [reflexivity|]. rewrite IH, er_after_lval. reflexivity.
Qed.

Section L.
Variable G : scope.
Variable gs : list name.
Hypothesis HG : good_globals G gs.
Lemma global_ok x : global gs x = match assoc G x with Some _ => true | None => false end.
Proof. specialize (HG x). unfold global. destruct (existsb _ gs), (assoc G x); cbn in HG; congruence. Qed.
Lemma global_const x z : assoc G x = Some z -> is_const z = false.
Proof. intros E. specialize (HG x). rewrite E in HG. cbn in HG. destruct (existsb _ gs); congruence. Qed.
Lemma known_eq ss x : known G ss x = declared gs (er ss) x.
Proof. unfold known, declared. rewrite er_get. destruct (scope_get ss x); [reflexivity|]. cbn. symmetry. apply global_ok. Qed.
Lemma writable_eq ss x : writable G ss x = assignable gs (er ss) x.
Proof.
  unfold writable, assignable. rewrite er_get. destruct (scope_get ss x); [reflexivity|]. cbn. rewrite global_ok. destruct (assoc G x) eqn:E; [|reflexivity]. rewrite (global_const _ _ E). reflexivity.
Qed.
Lemma fresh_eq ss x : fresh ss x = new_here (er ss) x.
Proof. destruct ss as [|s r]; [reflexivity|]. cbn [fresh er map new_here]. rewrite er1_get. destruct (assoc s x); reflexivity. Qed.
Lemma ok_e_eq e : forall ss, ok_e G ss e = legal_e gs (er ss) e.
Proof. induction e; intros ss; cbn [ok_e legal_e]; try reflexivity; rewrite ?IHe, ?IHe1, ?IHe2, ?IHe3; auto using known_eq. Qed.
Lemma forallb_ok_e ss es : forallb (ok_e G ss) es = forallb (legal_e gs (er ss)) es.
Proof. induction es as [|e es IH]; [reflexivity|]. cbn [forallb]. rewrite IH, ok_e_eq. reflexivity. Qed.
Lemma ok_lvals_sound ls : forall ss, ok_lvals G ss ls = true -> legal_lvals gs (er ss) ls = true.
Proof.
  induction ls as [|l ls IH]; intros ss H; [reflexivity|]. cbn [legal_lvals]. rewrite <- er_after_lval.
  destruct l as [x|x|x]; cbn [ok_lvals after_lval] in *; rewrite <- ?fresh_eq, <- ?writable_eq; repeat (apply andb_true_iff in H; destruct H as (H & ?)); apply andb_true_iff; split; auto.
Qed.
Lemma legal_nil D e : legal_e gs ([] :: D) e = legal_e gs D e.
Proof. induction e; cbn [legal_e]; rewrite ?IHe, ?IHe1, ?IHe2, ?IHe3; reflexivity. Qed.
Lemma legal_mono s : forall D, legal_s gs D false s = true -> legal_s gs D true s = true.
Proof.
  induction s; intros D H; cbn [legal_s] in *; auto; repeat (apply andb_true_iff in H; destruct H as (H & ?)); repeat (apply andb_true_iff; split); auto.
Qed.
Lemma ok_s_sound s : forall ss lp, ok_s G ss lp s = true -> legal_s gs (er ss) lp s = true.
Proof.
  induction s as [|a IHa b IHb|e|x e|x e|ls rs|x e|b IHb|c a IHa|c a IHa b IHb|c b IHb|c b IHb post IHp|x e b IHb| | |e|e|s IH]; intros ss lp H; cbn [ok_s legal_s] in *; auto;
    repeat (apply andb_true_iff in H; destruct H as (H & ?)); repeat (apply andb_true_iff; split); rewrite <- ?ok_e_eq, <- ?fresh_eq, <- ?writable_eq, <- ?forallb_ok_e; auto using ok_lvals_sound.
  - rewrite <- er_after. auto.
  - exact (IHb _ _ H).
  - apply IHb in H0. destruct (e_falsey c); [|exact H0]. destruct lp; [exact H0|]. apply legal_mono, H0.
  - apply IHb in H1. destruct (e_falsey c); [|exact H1]. destruct lp; [exact H1|]. apply legal_mono, H1.
  - rewrite ok_e_eq in H |- *. change (er ([] :: ss)) with ([] :: er ss) in H. rewrite legal_nil in H. exact H.
  - apply IHb in H0. rewrite er_decl in H0. exact H0.
Qed.
Lemma ok_top_sound l : forall ss, ok_top G ss l = true -> legal_s gs (er ss) false (body l) = true.
Proof.
  induction l as [|s l IH]; intros ss H; [reflexivity|]. cbn [ok_top body fold_right legal_s] in *. apply andb_true_iff in H. destruct H as (H1 & H2). rewrite (ok_s_sound _ _ _ H1). rewrite <- er_after. apply IH, H2.
Qed.
End L.

Lemma compiled_legal fuel gs pr lines bytes : compile_program fuel gs pr lines = Ok bytes -> Forall (fun x => literal (VStr x)) gs ->
  Forall literal (literals (body pr)) -> parsed (body pr) = true -> legal_program gs (body pr) = true.
Proof.
  intros E Fg Fl W. destruct (compile_inv _ _ _ _ _ E Fg Fl W) as (G & p & cs & Go & O & _). exact (ok_top_sound G gs Go pr [[]] O).
Qed.
