From Verif Require Import Base Bytes BytesProofs Value Table Ops Ast Stmt Limits Constants VM Compiler ValueProofs TableSpec TableProofs TableProofs2 TableProofs3 ConstSpec ConstProofs Gen GenProofs.

Ltac inv_bind H :=
  match type of H with
  | bind ?x _ = Ok _ => let c := fresh "c" in let E := fresh "E" in destruct x as [c| | |] eqn:E; [cbn [bind] in H|discriminate H..]
  end.

(** ** Scopes. *)
Lemma name_eqb_refl x : name_eqb x x = true.
Proof. unfold name_eqb. destruct (list_eq_dec Z.eq_dec x x); congruence. Qed.
Lemma assoc_put_cons x z v s : assoc_put ((x, v) :: s) x z = (x, z) :: s.
Proof. cbn. rewrite name_eqb_refl. reflexivity. Qed.

Lemma after_lval_shape l s r : exists t, after_lval (s :: r) l = t :: r /\ length t = (length s + length (filter is_decl [l]))%nat.
Proof. destruct l; cbn; eexists; (split; [reflexivity|]); cbn; lia. Qed.
Lemma after_lvals_shape ls : forall s r, exists t, fold_left after_lval ls (s :: r) = t :: r /\ length t = (length s + length (filter is_decl ls))%nat
  /\ (filter is_decl ls = [] -> t = s).
Proof.
  induction ls as [|l ls IH]; intros s r; [exists s; cbn; split; [reflexivity|split; [lia|auto]]|].
  destruct (after_lval_shape l s r) as (t & E & L). cbn [fold_left]. rewrite E. destruct (IH t r) as (u & E2 & L2 & Q). exists u. split; [exact E2|]. split.
  - rewrite L2, L. cbn. destruct (is_decl l); cbn; lia.
  - cbn. destruct l; cbn; try discriminate. intros F. cbn in E. injection E as <-. apply Q, F.
Qed.
Lemma after_shape s : forall t r, exists u, after (t :: r) s = u :: r /\ length u = (length t + decls s)%nat /\ (decls s = O -> u = t).
Proof.
  induction s; intros t r; cbn [after decls]; try (exists t; split; [reflexivity|split; [lia|auto]]; fail).
  - destruct (IHs1 t r) as (u & E & L & Q). rewrite E. destruct (IHs2 u r) as (v & E2 & L2 & Q2). exists v. split; [exact E2|]. split; [lia|].
    intros Z. rewrite Q2, Q by lia. reflexivity.
  - eexists. split; [reflexivity|]. cbn. split; [lia|discriminate].
  - eexists. split; [reflexivity|]. cbn. split; [lia|discriminate].
  - destruct (after_lvals_shape ls t r) as (u & E & L & Q). exists u. split; [exact E|]. split; [lia|]. intros Z. apply Q. destruct (filter is_decl ls); [reflexivity|discriminate].
Qed.
Lemma after_none s ss : ss <> [] -> no_decls s = true -> after ss s = ss.
Proof.
  intros N H. destruct ss as [|t r]; [congruence|]. destruct (after_shape s t r) as (u & E & _ & Q). rewrite E, Q; [reflexivity|]. apply Nat.eqb_eq, H.
Qed.
Lemma decl_nonempty ss x k : ss <> [] -> decl ss x k <> [].
Proof. destruct ss; [congruence|discriminate]. Qed.
Lemma after_nonempty s ss : ss <> [] -> after ss s <> [].
Proof. intros N. destruct ss as [|t r]; [congruence|]. destruct (after_shape s t r) as (u & E & _). rewrite E. discriminate. Qed.

Lemma scope_len_cons t r : scope_len (t :: r) = Z.of_nat (length t) + scope_len r.
Proof. unfold scope_len. cbn [concat]. rewrite app_length. lia. Qed.
Lemma scope_len_nonneg ss : 0 <= scope_len ss.
Proof. unfold scope_len. lia. Qed.
Lemma scope_len_decl ss x k : ss <> [] -> scope_len (decl ss x k) = scope_len ss + 1.
Proof. destruct ss as [|t r]; [congruence|]. intros _. cbn [decl]. rewrite !scope_len_cons. cbn [length]. lia. Qed.

Section F.
Variable fuel : nat.

(** A fresh name declared by [decl_var]. *)
Lemma decl_var_gen c x c' : decl_var fuel c x = Ok c' -> c_scopes c <> [] -> fresh (c_scopes c) x = true ->
  c' = set_scopes c (decl (c_scopes c) x false) /\ room (c_scopes c) = true.
Proof.
  unfold decl_var, fresh, room. destruct (c_scopes c) as [|t r] eqn:S; [congruence|]. intros E _ F. unfold scope_decl in E. destruct (assoc t x); [discriminate|].
  change (((x, scope_len (t :: r)) :: t) :: r) with (decl (t :: r) x false) in E. rewrite scope_len_decl in E by discriminate.
  destruct (Z.gtb_spec (scope_len (t :: r) + 1) 255); [discriminate|]. injection E as <-. split; [reflexivity|]. apply Z.ltb_lt. lia.
Qed.
Lemma make_const_decl c x : c_scopes c <> [] -> fresh (c_scopes c) x = true ->
  make_const (set_scopes c (decl (c_scopes c) x false)) x = set_scopes c (decl (c_scopes c) x true).
Proof.
  intros N F. destruct (c_scopes c) as [|t r] eqn:S; [congruence|]. unfold make_const. cbn [set_scopes c_scopes decl scope_const].
  cbn [assoc]. rewrite name_eqb_refl. rewrite assoc_put_cons. reflexivity.
Qed.
Lemma fresh_current c x : c_scopes c <> [] -> in_current c x = false -> fresh (c_scopes c) x = true.
Proof. unfold in_current, fresh. destruct (c_scopes c) as [|t r]; [congruence|]. destruct (assoc t x); congruence. Qed.

Lemma store_var_gen c x c' cs : store_var fuel c x = Ok c' -> pooled (c_pool c) cs -> gl_in (c_globals c) cs ->
  writable (c_globals c) (c_scopes c) x = true /\ ran c c' cs cs (c_scopes c) (fun K => store_code K (c_scopes c) x).
Proof.
  unfold store_var, store_code, writable. intros E P G. destruct (scope_get (c_scopes c) x) as [v|].
  - destruct (is_const v); [discriminate|]. injection E as <-. split; [reflexivity|]. apply ran_emit; auto.
  - destruct (assoc (c_globals c) x) as [v|] eqn:A; [|discriminate]. destruct (is_const v); [discriminate|]. split; [reflexivity|].
    destruct (pool_index fuel c x) as [i| | |] eqn:Q; try discriminate. cbn [bind] in E. injection E as <-.
    pose proof (pool_index_gen _ _ _ _ _ Q P (G _ _ A)) as HI.
    split; [exact P|]. split; [exists []; rewrite app_nil_r; reflexivity|]. do 3 (split; [reflexivity|]). intros K (more & ->). cbn [emit c_buf set_buf]. rewrite <- HI. reflexivity.
Qed.
Lemma ran_scope c cs ss : pooled (c_pool c) cs -> ran c (set_scopes c ss) cs cs ss (fun _ => []).
Proof. intros P. split; [exact P|]. split; [exists []; rewrite app_nil_r; reflexivity|]. do 3 (split; [reflexivity|]). intros. cbn. rewrite app_nil_r. reflexivity. Qed.
Lemma ran_refl c cs : pooled (c_pool c) cs -> ran c c cs cs (c_scopes c) (fun _ => []).
Proof. intros P. split; [exact P|]. split; [exists []; rewrite app_nil_r; reflexivity|]. do 3 (split; [reflexivity|]). intros. rewrite app_nil_r. reflexivity. Qed.

Lemma visit_es_gen es : forall c c' cs, visit_es fuel es c = Ok c' -> pooled (c_pool c) cs -> gl_in (c_globals c) cs -> Forall literal (concat (map lits_e es)) ->
  forallb (ok_e (c_globals c) (c_scopes c)) es = true /\ exists cs', ran c c' cs cs' (c_scopes c) (fun K => gen_es K (c_scopes c) es) /\ incl (concat (map lits_e es)) cs'.
Proof.
  induction es as [|e es IH]; intros c c' cs E P G L; cbn [visit_es] in E.
  - injection E as <-. split; [reflexivity|]. exists cs. split; [|apply incl_nil_l]. apply ran_refl, P.
  - inv_bind E. cbn [map concat] in L. apply Forall_app in L. destruct L as (L1 & L2). destruct (visit_e_gen fuel e _ _ _ E0 P G L1) as (A & cs1 & R1 & I1).
    destruct (IH _ _ cs1 E) as (B & cs2 & R2 & I2); [apply R1|apply (ran_gl_in _ _ _ _ _ _ R1 G)|exact L2|].
    rewrite (ran_scopes _ _ _ _ _ _ R1), (ran_gl _ _ _ _ _ _ R1) in *. split; [cbn [forallb]; rewrite A, B; reflexivity|]. exists cs2. split; [|cbn [map concat]; lits].
    eapply ran_trans; [exact R1|exact R2].
Qed.

Lemma visit_lvals_gen ls : forall c c' cs, visit_lvals fuel ls c = Ok c' -> c_scopes c <> [] -> pooled (c_pool c) cs -> gl_in (c_globals c) cs ->
  ok_lvals (c_globals c) (c_scopes c) ls = true /\ ran c c' cs cs (fold_left after_lval ls (c_scopes c)) (fun K => gen_lvals K (c_scopes c) ls).
Proof.
  induction ls as [|l ls IH]; intros c c' cs E N P G; cbn [visit_lvals] in E.
  - injection E as <-. split; [reflexivity|]. apply ran_refl, P.
  - destruct l as [x|x|x].
    + destruct (in_current c x) eqn:F; [discriminate|]. apply fresh_current in F; [|exact N]. inv_bind E.
      destruct (decl_var_gen _ _ _ E0 N F) as (-> & Rm). cbn [set_scopes c_scopes] in E.
      destruct (decl (c_scopes c) x false) as [|t r] eqn:D; [exfalso; apply (decl_nonempty _ x false N), D|]. cbn [bind] in E. rewrite <- D in E.
      destruct (IH _ _ cs E) as (A & R); [cbn; apply decl_nonempty, N|exact P|exact G|]. cbn [set_scopes c_scopes c_globals] in A, R.
      cbn [ok_lvals fold_left after_lval gen_lvals]. rewrite F, Rm, A. split; [reflexivity|].
      eapply ran_ext; [eapply ran_trans; [apply ran_scope, P|exact R]|intros; reflexivity].
    + destruct (in_current c x) eqn:F; [discriminate|]. apply fresh_current in F; [|exact N]. inv_bind E.
      destruct (decl_var_gen _ _ _ E0 N F) as (-> & Rm). cbn [set_scopes c_scopes] in E.
      destruct (decl (c_scopes c) x false) as [|t r] eqn:D; [exfalso; apply (decl_nonempty _ x false N), D|]. cbn [bind] in E. rewrite <- D in E.
      change (CS (c_buf c) (decl (c_scopes c) x false) (c_globals c) (c_pool c) (c_cps c)) with (set_scopes c (decl (c_scopes c) x false)) in E.
      rewrite make_const_decl in E by assumption.
      destruct (IH _ _ cs E) as (A & R); [cbn; apply decl_nonempty, N|exact P|exact G|]. cbn [set_scopes c_scopes c_globals] in A, R.
      cbn [ok_lvals fold_left after_lval gen_lvals]. rewrite F, Rm, A. split; [reflexivity|].
      eapply ran_ext; [eapply ran_trans; [apply ran_scope, P|exact R]|intros; reflexivity].
    + destruct (contains_var c x); [|discriminate]. inv_bind E. destruct (store_var_gen _ _ _ _ E0 P G) as (A & R1).
      cbn [emit set_buf c_scopes c_globals] in A, R1. pose proof (ran_scopes _ _ _ _ _ _ R1) as S1. pose proof (ran_gl _ _ _ _ _ _ R1) as G1. cbn [emit set_buf c_globals] in G1.
      destruct (IH _ _ cs E) as (B & R2); [congruence|apply R1|rewrite G1; exact G|]. rewrite S1, G1 in *.
      cbn [ok_lvals fold_left after_lval gen_lvals]. rewrite A, B. split; [reflexivity|].
      eapply ran_ext; [eapply ran_trans; [eapply ran_trans; [|exact R1]|exact R2]|].
      * apply ran_emit; [exact P|reflexivity].
      * intros K _. cbn beta. rewrite <- !app_assoc. reflexivity.
Qed.

(** ** Statements. *)
Lemma validate_inv v c c' : validate v c = Ok c' -> exists c1, v c = Ok c1 /\ c' = set_buf c1 (c_buf c).
Proof. unfold validate. destruct (v c) as [c1| | |]; try discriminate. cbn. intros [= <-]. eauto. Qed.
Lemma ran_validate c c1 cs cs' ss g : ran c c1 cs cs' ss g -> ran c (set_buf c1 (c_buf c)) cs cs' ss (fun _ => []).
Proof. intros (A & B & C & D & E & _). repeat (split; [assumption|]). intros. cbn. rewrite app_nil_r. reflexivity. Qed.
(** The checkpoints are local to the piece. *)
Lemma ran_cps_in c l c' cs cs' ss g : ran (set_cps c l) c' cs cs' ss g -> ran c (set_cps c' (c_cps c)) cs cs' ss g /\ c_cps c' = l.
Proof. intros (A & B & C & D & E & F). split; [|exact E]. repeat (split; [assumption|]). split; [reflexivity|exact F]. Qed.
Lemma ran_cps_any c c' cs cs' ss g l : ran c c' cs cs' ss g -> ran (set_cps c l) (set_cps c' l) cs cs' ss g.
Proof. intros (A & B & C & D & E & F). repeat (split; [assumption|]). split; [reflexivity|exact F]. Qed.
Lemma ran_cps_drop c c' cs cs' ss g : ran c c' cs cs' ss g -> set_cps c' (c_cps c) = c'.
Proof. intros (A & B & C & D & E & F). destruct c'; cbn in *. subst. reflexivity. Qed.
Lemma ran_back c cs ss index : pooled (c_pool c) cs -> c_scopes c = ss -> ran c (branch_back c index) cs cs ss (fun _ => back (count c) index).
Proof.
  intros P S. unfold branch_back, back. split; [exact P|]. split; [exists []; rewrite app_nil_r; reflexivity|]. split; [exact S|]. do 2 (split; [reflexivity|]).
  intros. cbn [emit c_buf set_buf]. rewrite <- app_assoc. do 4 f_equal. unfold count. cbn [emit set_buf c_buf]. rewrite app_length. cbn [op length]. lia.
Qed.
Lemma count_emit c bs : count (emit c bs) = count c + len bs.
Proof. unfold count, len. cbn [emit set_buf c_buf]. rewrite app_length. lia. Qed.
Lemma len_app a b : len (a ++ b) = len a + len b.
Proof. unfold len. rewrite app_length. lia. Qed.
Lemma len_op o : len (op o) = 1.
Proof. reflexivity. Qed.
Lemma len_enc8 v : len (enc8 v) = 8.
Proof. unfold len. rewrite enc8_length. reflexivity. Qed.
Lemma len_nonneg a : 0 <= len a.
Proof. unfold len. lia. Qed.
Lemma len_back a b : len (back a b) = 9.
Proof. unfold back. rewrite len_app, len_enc8. reflexivity. Qed.

Definition in_loop (c : cst) : bool := match c_cps c with [] => false | _ => true end.
Lemma ran_in_loop c c' cs cs' ss g : ran c c' cs cs' ss g -> in_loop c' = in_loop c.
Proof. intros R. unfold in_loop. replace (c_cps c') with (c_cps c); [reflexivity|symmetry; apply R]. Qed.
Lemma ran_cps c c' cs cs' ss g : ran c c' cs cs' ss g -> c_cps c' = c_cps c.
Proof. intros R. apply R. Qed.

Lemma visit_s_gen s : forall c c' cs, visit_s fuel s c = Ok c' -> c_scopes c <> [] -> pooled (c_pool c) cs -> gl_in (c_globals c) cs ->
  Forall literal (lits_s s) -> parsed s = true ->
  ok_s (c_globals c) (c_scopes c) (in_loop c) s = true /\
  exists cs', ran c c' cs cs' (after (c_scopes c) s) (fun K => gen_s K (c_scopes c) (count c) (c_cps c) s) /\ incl (lits_s s) cs'.
Proof.
  induction s as [|a IHa b IHb|e|x e|x e|ls rs|x e|b IHb|cd a IHa|cd a IHa b IHb|cd b IHb|cd b IHb post IHp|x e b IHb| | |e|e|s IH];
    intros c c' cs E N P G L W; cbn [visit_s] in E.
  - (* skip *) injection E as <-. split; [reflexivity|]. exists cs. split; [|lits]. apply ran_refl, P.
  - (* seq *) cbn [lits_s parsed] in L, W. apply Forall_app in L. destruct L as (L1 & L2). apply andb_true_iff in W. destruct W as (W1 & W2). inv_bind E.
    destruct (IHa _ _ _ E0 N P G L1 W1) as (A & cs1 & R1 & I1).
    destruct (IHb _ _ cs1 E) as (B & cs2 & R2 & I2); [rewrite (ran_scopes _ _ _ _ _ _ R1); apply after_nonempty, N|apply R1|apply (ran_gl_in _ _ _ _ _ _ R1 G)|exact L2|exact W2|].
    rewrite (ran_scopes _ _ _ _ _ _ R1), (ran_gl _ _ _ _ _ _ R1), (ran_in_loop _ _ _ _ _ _ R1), (ran_cps _ _ _ _ _ _ R1) in *.
    cbn [ok_s]. rewrite A, B. split; [reflexivity|]. exists cs2. split; [|lits]. cbn [after]. eapply ran_ext; [eapply ran_trans; [exact R1|exact R2]|].
    intros K HK. cbn beta. cbn [gen_s]. rewrite (ran_count _ _ _ _ _ _ K R1 (ran_extends _ _ _ _ _ _ _ R2 HK)). reflexivity.
  - (* expression *) cbn [ok_s after gen_s]. cbn [lits_s] in L.
    destruct e; cbn [quiet ok_e] in *; try (injection E as <-; split; [reflexivity|exists cs; split; [apply ran_refl, P|lits]]).
    2-5: inv_bind E; injection E as <-; destruct (visit_e_gen fuel _ _ _ _ E0 P G L) as (A & cs1 & R1 & I1); split; [exact A|]; exists cs1; (split; [|lits]); eapply ran_trans; [exact R1|apply ran_emit; apply R1].
    destruct (validate_inv _ _ _ E) as (c1 & E1 & ->). destruct (visit_e_gen fuel _ _ _ _ E1 P G (Forall_nil _)) as (A & cs1 & R1 & I1). split; [exact A|]. exists cs1. split; [|lits].
    apply (ran_validate _ _ _ _ _ _ R1).
  - (* let *) unfold declare in E. destruct (in_current c x) eqn:F; [discriminate|]. apply fresh_current in F; [|exact N]. inv_bind E. cbn [lits_s] in L.
    destruct (visit_e_gen fuel _ _ _ _ E0 P G L) as (A & cs1 & R1 & I1). inv_bind E. pose proof (ran_scopes _ _ _ _ _ _ R1) as S1.
    destruct (decl_var_gen _ _ _ E1) as (-> & Rm); [congruence|congruence|]. cbn [set_scopes c_scopes] in E.
    destruct (decl (c_scopes c0) x false) as [|t r] eqn:D; [exfalso; apply (decl_nonempty (c_scopes c0) x false ltac:(congruence)), D|]. injection E as <-. rewrite <- D.
    rewrite S1 in *. cbn [ok_s after gen_s]. rewrite F, A, Rm. split; [reflexivity|]. exists cs1. split; [|lits].
    eapply ran_ext; [eapply ran_trans; [exact R1|apply (ran_scope c0), R1]|]. intros; apply app_nil_r.
  - (* const *) inv_bind E. injection E as <-. unfold declare in E0. destruct (in_current c x) eqn:F; [discriminate|]. apply fresh_current in F; [|exact N]. inv_bind E0. cbn [lits_s] in L.
    destruct (visit_e_gen fuel _ _ _ _ E P G L) as (A & cs1 & R1 & I1). inv_bind E0. pose proof (ran_scopes _ _ _ _ _ _ R1) as S1.
    destruct (decl_var_gen _ _ _ E1) as (-> & Rm); [congruence|congruence|]. cbn [set_scopes c_scopes] in E0.
    destruct (decl (c_scopes c1) x false) as [|t r] eqn:D; [exfalso; apply (decl_nonempty (c_scopes c1) x false ltac:(congruence)), D|]. injection E0 as <-. rewrite <- D.
    change (CS (c_buf c1) (decl (c_scopes c1) x false) (c_globals c1) (c_pool c1) (c_cps c1)) with (set_scopes c1 (decl (c_scopes c1) x false)).
    rewrite make_const_decl by congruence.
    rewrite S1 in *. cbn [ok_s after gen_s]. rewrite F, A, Rm. split; [reflexivity|]. exists cs1. split; [|lits].
    eapply ran_ext; [eapply ran_trans; [exact R1|apply (ran_scope c1), R1]|]. intros; apply app_nil_r.
  - (* decl *) inv_bind E. cbn [lits_s] in L. destruct (visit_es_gen _ _ _ _ E0 P G L) as (A & cs1 & R1 & I1).
    destruct (visit_lvals_gen _ _ _ cs1 E) as (B & R2); [rewrite (ran_scopes _ _ _ _ _ _ R1); exact N|apply R1|apply (ran_gl_in _ _ _ _ _ _ R1 G)|].
    rewrite (ran_scopes _ _ _ _ _ _ R1), (ran_gl _ _ _ _ _ _ R1) in *. cbn [ok_s after gen_s]. rewrite A, B. split; [reflexivity|]. exists cs1. split; [|lits]. eapply ran_trans; [exact R1|exact R2].
  - (* assign *) destruct (contains_var c x); [|discriminate]. inv_bind E. cbn [lits_s] in L. destruct (visit_e_gen fuel _ _ _ _ E0 P G L) as (A & cs1 & R1 & I1).
    destruct (store_var_gen _ _ _ cs1 E) as (B & R2); [apply R1|apply (ran_gl_in _ _ _ _ _ _ R1 G)|].
    rewrite (ran_scopes _ _ _ _ _ _ R1), (ran_gl _ _ _ _ _ _ R1) in *. cbn [ok_s after gen_s]. rewrite A, B. split; [reflexivity|]. exists cs1. split; [|lits]. eapply ran_trans; [exact R1|exact R2].
  - (* block *) inv_bind E. injection E as <-. cbn [lits_s parsed] in L, W.
    destruct (IHb _ _ cs E0) as (B & cs1 & R1 & I1); [discriminate|exact P|exact G|exact L|exact W|].
    cbn [enter_scope set_scopes c_scopes c_globals] in B, R1. change (in_loop (enter_scope c)) with (in_loop c) in B.
    cbn [ok_s after gen_s]. rewrite B. split; [reflexivity|]. exists cs1. split; [|lits]. destruct (after_shape b [] (c_scopes c)) as (u & Eu & _). assert (Eu' : after (c_scopes (enter_scope c)) b = u :: c_scopes c) by exact Eu. cbn [enter_scope set_scopes c_scopes] in Eu'. rewrite Eu' in R1.
    pose proof (ran_scopes _ _ _ _ _ _ R1) as S1. unfold exit_scope. rewrite S1. 
    destruct R1 as (X1 & X2 & X3 & X4 & X5 & X6). repeat (split; [assumption || reflexivity|]). intros K HK. cbn [emit set_buf set_scopes c_buf]. rewrite (X6 K HK), Eu'. rewrite <- app_assoc. reflexivity.
  - (* if *) cbn [lits_s parsed] in L, W. apply andb_true_iff in W. destruct W as (W1 & W2). cbn [ok_s after gen_s]. destruct (e_truthy cd) eqn:T.
    + destruct (IHa _ _ _ E N P G L W1) as (A & cs1 & R1 & I1). rewrite A. rewrite (after_none a) in R1 by assumption. split; [destruct cd; try discriminate; reflexivity|]. exists cs1. split; [|lits]. exact R1.
    + destruct (e_falsey cd) eqn:Fl.
      * cbn [orb] in L. destruct (validate_inv _ _ _ E) as (c1 & E1 & ->). destruct (IHa _ _ _ E1 N P G L W1) as (A & cs1 & R1 & I1). rewrite A.
        rewrite (after_none a) in R1 by assumption. split; [destruct cd; try discriminate; reflexivity|]. exists cs1. split; [|lits]. apply (ran_validate _ _ _ _ _ _ R1).
      * cbn [orb] in L. apply Forall_app in L. destruct L as (L1 & L2). inv_bind E. cbn [enter_jmp] in E. inv_bind E. injection E as <-.
        destruct (visit_e_gen fuel _ _ _ _ E0 P G L1) as (A & cs1 & R1 & I1).
        destruct (IHa _ _ cs1 E1) as (B & cs2 & R2 & I2); [cbn; rewrite (ran_scopes _ _ _ _ _ _ R1); exact N|apply R1|apply (ran_gl_in _ _ _ _ _ _ R1 G)|exact L2|exact W1|].
        rewrite !count_emit, len_op, len_enc8 in R2. cbn [emit set_buf c_scopes c_globals c_cps] in B, R2.
        change (in_loop (emit (emit c0 (op O_BRF_8)) (enc8 0))) with (in_loop c0) in B.
        rewrite (ran_scopes _ _ _ _ _ _ R1), (ran_gl _ _ _ _ _ _ R1), (ran_in_loop _ _ _ _ _ _ R1), (ran_cps _ _ _ _ _ _ R1) in *.
        rewrite (after_none a) in R2 by assumption. rewrite A, B. split; [reflexivity|]. exists cs2. split; [|lits].
        eapply ran_ext; [eapply ran_trans; [exact R1|eapply ran_jump; [reflexivity|exact R2]]|].
        intros K HK. cbn beta. rewrite (ran_count _ _ _ _ _ _ K R1 (ran_extends _ _ _ _ _ _ _ R2 HK)).
        replace (count c + len (gen_e K (c_scopes c) cd) + 1 + 8) with (count c + len (gen_e K (c_scopes c) cd) + 9) by lia. reflexivity.
  - (* if else *) cbn [lits_s parsed] in L, W. apply andb_true_iff in W. destruct W as (W & W4). apply andb_true_iff in W. destruct W as (W & W3). apply andb_true_iff in W. destruct W as (W1 & W2).
    cbn [ok_s after gen_s]. destruct (e_truthy cd) eqn:T.
    + cbn [orb] in L. apply Forall_app in L. destruct L as (L1 & L2). inv_bind E. destruct (IHa _ _ _ E0 N P G L1 W1) as (A & cs1 & R1 & I1). rewrite (after_none a) in R1 by assumption.
      destruct (validate_inv _ _ _ E) as (c1 & E1 & ->).
      destruct (IHb _ _ cs1 E1) as (B & cs2 & R2 & I2); [rewrite (ran_scopes _ _ _ _ _ _ R1); exact N|apply R1|apply (ran_gl_in _ _ _ _ _ _ R1 G)|exact L2|exact W3|].
      rewrite (ran_scopes _ _ _ _ _ _ R1), (ran_gl _ _ _ _ _ _ R1), (ran_in_loop _ _ _ _ _ _ R1), (ran_cps _ _ _ _ _ _ R1) in *. rewrite (after_none b) in R2 by assumption.
      rewrite A, B. split; [destruct cd; try discriminate; reflexivity|]. exists cs2. split; [|lits]. eapply ran_ext; [eapply ran_trans; [exact R1|apply (ran_validate _ _ _ _ _ _ R2)]|]. intros; apply app_nil_r.
    + destruct (e_falsey cd) eqn:Fl.
      * cbn [orb] in L. apply Forall_app in L. destruct L as (L1 & L2). inv_bind E. destruct (validate_inv _ _ _ E0) as (c1 & E1 & ->).
        destruct (IHa _ _ _ E1 N P G L1 W1) as (A & cs1 & R1 & I1). rewrite (after_none a) in R1 by assumption. pose proof (ran_validate _ _ _ _ _ _ R1) as R1'.
        destruct (IHb _ _ cs1 E) as (B & cs2 & R2 & I2); [rewrite (ran_scopes _ _ _ _ _ _ R1'); exact N|apply R1'|apply (ran_gl_in _ _ _ _ _ _ R1' G)|exact L2|exact W3|].
        rewrite (ran_scopes _ _ _ _ _ _ R1'), (ran_gl _ _ _ _ _ _ R1'), (ran_in_loop _ _ _ _ _ _ R1'), (ran_cps _ _ _ _ _ _ R1') in *. rewrite (after_none b) in R2 by assumption.
        rewrite A, B. split; [destruct cd; try discriminate; reflexivity|]. exists cs2. split; [|lits]. eapply ran_ext; [eapply ran_trans; [exact R1'|exact R2]|]. intros K HK. cbn beta. cbn [app].
        reflexivity.
      * cbn [orb] in L. apply Forall_app in L. destruct L as (L1 & L2). apply Forall_app in L2. destruct L2 as (L2 & L3). inv_bind E. cbn [enter_jmp] in E. inv_bind E. inv_bind E. injection E as <-.
        destruct (visit_e_gen fuel _ _ _ _ E0 P G L1) as (A & cs1 & R1 & I1).
        destruct (IHa _ _ cs1 E1) as (B & cs2 & R2 & I2); [cbn; rewrite (ran_scopes _ _ _ _ _ _ R1); exact N|apply R1|apply (ran_gl_in _ _ _ _ _ _ R1 G)|exact L2|exact W1|].
        rewrite !count_emit, len_op, len_enc8 in R2. cbn [emit set_buf c_scopes c_globals c_cps] in B, R2.
        change (in_loop (emit (emit c0 (op O_BRF_8)) (enc8 0))) with (in_loop c0) in B.
        rewrite (ran_scopes _ _ _ _ _ _ R1), (ran_gl _ _ _ _ _ _ R1), (ran_in_loop _ _ _ _ _ _ R1), (ran_cps _ _ _ _ _ _ R1) in *.
        rewrite (after_none a) in R2 by assumption.
        set (ga := fun K => gen_s K (c_scopes c) (count c0 + 1 + 8) (c_cps c) a) in *.
        assert (J : ran c0 (exit_jmp (emit (emit c1 (op O_BR_8)) (enc8 0)) (count (emit c0 (op O_BRF_8)))) cs1 cs2 (c_scopes c)
          (fun K => op O_BRF_8 ++ enc8 (len (ga K ++ op O_BR_8 ++ enc8 0)) ++ ga K ++ op O_BR_8 ++ enc8 0)).
        { eapply ran_jump; [reflexivity|]. eapply ran_trans; [exact R2|]. destruct R2 as (X1 & X2 & X3 & X4 & X5 & X6). split; [exact X1|]. split; [exists []; rewrite app_nil_r; reflexivity|].
          split; [exact X3|]. do 2 (split; [reflexivity|]). intros K _. cbn [emit c_buf set_buf]. rewrite <- app_assoc. reflexivity. }
        destruct (IHb _ _ cs2 E2) as (D & cs3 & R3 & I3); [rewrite (ran_scopes _ _ _ _ _ _ J); exact N|apply J|eapply ran_gl_in; [exact J|apply (ran_gl_in _ _ _ _ _ _ R1 G)]|exact L3|exact W3|].
        pose proof (ran_ifelse _ _ _ _ _ _ _ _ _ _ _ _ R2 R3) as J2.
        rewrite (ran_scopes _ _ _ _ _ _ J), (ran_gl _ _ _ _ _ _ J), (ran_in_loop _ _ _ _ _ _ J), (ran_cps _ _ _ _ _ _ J) in *.
        rewrite (ran_gl _ _ _ _ _ _ R1), (ran_in_loop _ _ _ _ _ _ R1), (ran_cps _ _ _ _ _ _ R1) in *. rewrite (after_none b) in * by assumption.
        rewrite A, B, D. split; [reflexivity|]. exists cs3. split; [|lits].
        eapply ran_ext; [eapply ran_trans; [exact R1|exact J2]|].
        intros K HK. cbn beta. pose proof (ran_extends _ _ _ _ _ _ _ R3 HK) as HK2.
        rewrite (ran_count _ _ _ _ _ _ K J HK2). unfold ga. rewrite (ran_count _ _ _ _ _ _ K R1 (ran_extends _ _ _ _ _ _ _ R2 HK2)).
        replace (count c + len (gen_e K (c_scopes c) cd) + 1 + 8) with (count c + len (gen_e K (c_scopes c) cd) + 9) by lia.
        set (ba := gen_s K (c_scopes c) (count c + len (gen_e K (c_scopes c) cd) + 9) (c_cps c) a).
        replace (count c + len (gen_e K (c_scopes c) cd) + len (op O_BRF_8 ++ enc8 (len (ba ++ op O_BR_8 ++ enc8 0)) ++ ba ++ op O_BR_8 ++ enc8 0)) with (count c + len (gen_e K (c_scopes c) cd) + 9 + len ba + 9); [reflexivity|].
        repeat rewrite len_app. repeat rewrite len_op. repeat rewrite len_enc8. lia.
  - (* while *) cbn [lits_s parsed] in L, W. apply andb_true_iff in W. destruct W as (W1 & W2). cbn [ok_s after gen_s]. destruct (e_falsey cd) eqn:Fl.
    + destruct (validate_inv _ _ _ E) as (c1 & E1 & ->). destruct (IHb _ _ _ E1 N P G L W1) as (A & cs1 & R1 & I1). rewrite A.
      rewrite (after_none b) in R1 by assumption. split; [destruct cd; try discriminate; reflexivity|]. exists cs1. split; [|lits]. apply (ran_validate _ _ _ _ _ _ R1).
    + apply Forall_app in L. destruct L as (L1 & L2). inv_bind E. cbn [enter_jmp] in E. inv_bind E. injection E as <-.
      destruct (visit_e_gen fuel _ _ _ cs E0 P G L1) as (A & cs1 & R1 & I1). cbn [set_cps c_scopes c_globals] in A, R1.
      pose proof (ran_cps _ _ _ _ _ _ R1) as K1. cbn [set_cps c_cps] in K1. pose proof (ran_scopes _ _ _ _ _ _ R1) as S1. pose proof (ran_gl _ _ _ _ _ _ R1) as G1. cbn [c_globals] in G1.
      set (d := set_cps c0 (count c0 :: c_cps c0)) in *.
      destruct (IHb _ _ cs1 E1) as (B & cs2 & R2 & I2); [cbn; rewrite S1; exact N|apply R1|apply (ran_gl_in _ _ _ _ _ _ R1 G)|exact L2|exact W1|].
      rewrite !count_emit, len_op, len_enc8 in R2. 
      assert (B' : ok_s (c_globals c0) (c_scopes c0) true b = true) by exact B. clear B. rename B' into B.
      assert (R2' : ran (emit (emit d (op O_BRF_8)) (enc8 0)) c1 cs1 cs2 (after (c_scopes c0) b) (fun K => gen_s K (c_scopes c0) (count c0 + 1 + 8) (count c0 :: c_cps c0) b)) by exact R2. clear R2. rename R2' into R2.
      cbn [set_cps c_globals] in G1. rewrite S1, G1 in B. rewrite S1, K1 in R2. rewrite (after_none b) in R2 by assumption. rewrite A, B. split; [reflexivity|]. exists cs2. split; [|lits].
      pose proof (ran_back c1 cs2 (c_scopes c) (count c) (ran_pool _ _ _ _ _ _ R2) (ran_scopes _ _ _ _ _ _ R2)) as R3.
      pose proof (ran_jump _ _ _ _ _ _ _ _ eq_refl (ran_trans _ _ _ _ _ _ _ _ _ _ R2 R3)) as R4.
      unfold d in R4 at 1. destruct (ran_cps_in _ _ _ _ _ _ _ R4) as (R5 & K5).
      destruct (ran_cps_in _ _ _ _ _ _ _ (ran_trans _ _ _ _ _ _ _ _ _ _ R1 R5)) as (R6 & _).
      change (c_cps d) with (count c0 :: c_cps c0) in K5. assert (K5' : c_cps c1 = count c0 :: c_cps c0) by exact K5. rewrite K5', K1. cbn [tl].
      eapply ran_ext; [exact R6|]. intros K HK. cbn beta. pose proof (ran_extends _ _ _ _ _ _ _ R4 HK) as HK1.
      rewrite (ran_count _ _ _ _ _ _ K R2 HK). rewrite !count_emit, len_op, len_enc8. change (count d) with (count c0). rewrite (ran_count _ _ _ _ _ _ K R1 HK1).
      change (count (set_cps c (count c :: c_cps c))) with (count c).
      replace (count c + len (gen_e K (c_scopes c) cd) + 1 + 8) with (count c + len (gen_e K (c_scopes c) cd) + 9) by lia. rewrite len_app, len_back. reflexivity.
  - (* while with post *) cbn [lits_s parsed] in L, W. apply andb_true_iff in W. destruct W as (W & _). apply andb_true_iff in W. destruct W as (W & W4). apply andb_true_iff in W. destruct W as (W & W3). apply andb_true_iff in W. destruct W as (W1 & W2).
    cbn [ok_s after gen_s]. destruct (e_falsey cd) eqn:Fl.
    + apply Forall_app in L. destruct L as (L1 & L2). inv_bind E. destruct (validate_inv _ _ _ E0) as (c1 & E1 & ->).
      destruct (IHb _ _ _ E1 N P G L1 W1) as (A & cs1 & R1 & I1). rewrite (after_none b) in R1 by assumption. pose proof (ran_validate _ _ _ _ _ _ R1) as R1'.
      destruct (validate_inv _ _ _ E) as (c2 & E2 & ->).
      destruct (IHp _ _ cs1 E2) as (B & cs2 & R2 & I2); [rewrite (ran_scopes _ _ _ _ _ _ R1'); exact N|apply R1'|apply (ran_gl_in _ _ _ _ _ _ R1' G)|exact L2|exact W3|].
      rewrite (ran_scopes _ _ _ _ _ _ R1'), (ran_gl _ _ _ _ _ _ R1'), (ran_in_loop _ _ _ _ _ _ R1') in *. rewrite (after_none post) in R2 by assumption.
      rewrite A, B. split; [destruct cd; try discriminate; reflexivity|]. exists cs2. split; [|lits]. eapply ran_ext; [eapply ran_trans; [exact R1'|apply (ran_validate _ _ _ _ _ _ R2)]|]. reflexivity.
    + apply Forall_app in L. destruct L as (L0 & L). apply Forall_app in L. destruct L as (L1 & L2). cbn [enter_jmp] in E. inv_bind E. inv_bind E. inv_bind E. injection E as <-.
      (* post *)
      destruct (IHp _ _ cs E0) as (Q & cs0 & R0 & I0); [exact N|exact P|exact G|exact L0|exact W3|].
      rewrite !count_emit, len_op, len_enc8 in R0. cbn [emit set_buf c_scopes c_globals c_cps] in Q, R0. change (in_loop (emit (emit c (op O_BR_8)) (enc8 0))) with (in_loop c) in Q.
      rewrite (after_none post) in R0 by assumption. pose proof (ran_jump _ _ _ _ _ _ _ _ eq_refl R0) as J0.
      set (c3 := exit_jmp c0 (count (emit c (op O_BR_8)))) in *. pose proof (ran_scopes _ _ _ _ _ _ J0) as S0. pose proof (ran_gl _ _ _ _ _ _ J0) as G0. pose proof (ran_cps _ _ _ _ _ _ J0) as K0.
      replace (count (emit (emit c (op O_BR_8)) (enc8 0))) with (count c + 9) in * by (rewrite !count_emit, len_op, len_enc8; lia). set (st := count c + 9) in *.
      replace (count c + 1 + 8) with st in * by (unfold st; lia).
      (* condition *)
      destruct (visit_e_gen fuel _ _ _ cs0 E1 ltac:(apply J0)) as (A & cs1 & R1 & I1); [apply (ran_gl_in _ _ _ _ _ _ J0 G)|exact L1|]. cbn [set_cps c_scopes c_globals] in A, R1.
      pose proof (ran_cps _ _ _ _ _ _ R1) as K1. cbn [set_cps c_cps] in K1. pose proof (ran_scopes _ _ _ _ _ _ R1) as S1. pose proof (ran_gl _ _ _ _ _ _ R1) as G1. cbn [c_globals] in G1.
      assert (GI1 : gl_in (c_globals c1) cs1) by exact (ran_gl_in _ _ _ _ _ _ R1 (ran_gl_in _ _ _ _ _ _ J0 G)).
      rewrite S0 in *. rewrite G0 in *. rewrite K0 in *.
      set (d := set_cps c1 (count c1 :: c_cps c1)) in *.
      destruct (IHb _ _ cs1 E2) as (B & cs2 & R2 & I2); [cbn; rewrite S1; exact N|apply R1|exact GI1|exact L2|exact W1|].
      rewrite !count_emit, len_op, len_enc8 in R2. 
      assert (B' : ok_s (c_globals c1) (c_scopes c1) true b = true) by exact B. clear B. rename B' into B.
      assert (R2' : ran (emit (emit d (op O_BRF_8)) (enc8 0)) c2 cs1 cs2 (after (c_scopes c1) b) (fun K => gen_s K (c_scopes c1) (count c1 + 1 + 8) (count c1 :: c_cps c1) b)) by exact R2. clear R2. rename R2' into R2.
      cbn [set_cps c_globals] in G1. rewrite S1, G1 in B. rewrite S1, K1 in R2. rewrite (after_none b) in R2 by assumption. rewrite G0 in B. rewrite A, B, Q. split; [reflexivity|]. exists cs2. split; [|lits].
      pose proof (ran_back c2 cs2 (c_scopes c) st (ran_pool _ _ _ _ _ _ R2) (ran_scopes _ _ _ _ _ _ R2)) as R3.
      pose proof (ran_jump _ _ _ _ _ _ _ _ eq_refl (ran_trans _ _ _ _ _ _ _ _ _ _ R2 R3)) as R4.
      unfold d in R4 at 1. destruct (ran_cps_in _ _ _ _ _ _ _ R4) as (R5 & K5).
      destruct (ran_cps_in _ _ _ _ _ _ _ (ran_trans _ _ _ _ _ _ _ _ _ _ R1 R5)) as (R6 & _).
      assert (K5' : c_cps c2 = count c1 :: c_cps c1) by exact K5. rewrite K5', K1. cbn [tl]. rewrite K0 in R6.
      eapply ran_ext; [eapply ran_trans; [exact J0|exact R6]|]. intros K HK. cbn beta. pose proof (ran_extends _ _ _ _ _ _ _ R4 HK) as HK1.
      rewrite (ran_count _ _ _ _ _ _ K R2 HK). rewrite !count_emit, len_op, len_enc8. change (count d) with (count c1). rewrite (ran_count _ _ _ _ _ _ K R1 HK1).
      change (count (set_cps c3 (st :: c_cps c))) with (count c3). rewrite (ran_count _ _ _ _ _ _ K J0 (ran_extends _ _ _ _ _ _ _ R1 HK1)).
      set (bp := gen_s K (c_scopes c) st (c_cps c) post).
      replace (count c + len (op O_BR_8 ++ enc8 (len bp) ++ bp)) with (st + len bp) by (rewrite !len_app, len_op, len_enc8; unfold st; lia).
      replace (st + len bp + len (gen_e K (c_scopes c) cd) + 1 + 8) with (st + len bp + len (gen_e K (c_scopes c) cd) + 9) by lia. rewrite len_app, len_back. rewrite <- !app_assoc. reflexivity.
  - (* for in *) cbn [lits_s parsed] in L, W. apply andb_true_iff in W. destruct W as (W1 & W2). apply Forall_app in L. destruct L as (L1 & L2). cbn [ok_s after gen_s].
    inv_bind E. inv_bind E. cbn [enter_jmp] in E. inv_bind E. inv_bind E. injection E as <-.
    destruct (visit_e_gen fuel _ _ _ cs E0 P G L1) as (A & cs1 & R1 & I1). cbn [enter_scope set_scopes c_scopes c_globals] in A, R1.
    pose proof (ran_scopes _ _ _ _ _ _ R1) as S1. pose proof (ran_gl _ _ _ _ _ _ R1) as G1. cbn [c_globals] in G1. pose proof (ran_cps _ _ _ _ _ _ R1) as K1. cbn [c_cps] in K1.
    set (e1 := emit c0 (op O_INITFOR ++ op O_END)) in *.
    destruct (decl_var_gen e1 x c1 E1) as (-> & Rm); [unfold e1; cbn [emit set_buf c_scopes]; rewrite S1; discriminate|unfold e1; cbn [emit set_buf c_scopes]; rewrite S1; reflexivity|].
    change (c_scopes e1) with (c_scopes c0) in *. rewrite S1 in *. set (ss' := decl ([] :: c_scopes c) x false) in *.
    set (e2 := set_scopes e1 ss') in *. set (st := count e2) in *.
    set (e3 := emit (set_cps e2 (st :: c_cps e2)) (op O_ITER_1)) in *. set (ck := count e3) in *. set (e4 := set_cps e3 (ck :: c_cps e3)) in *.
    assert (Re : ran (enter_scope c) e2 cs cs1 ss' (fun K => gen_e K ([] :: c_scopes c) e ++ op O_INITFOR ++ op O_END)).
    { eapply ran_ext; [eapply ran_trans; [eapply ran_trans; [exact R1|apply (ran_emit c0); [apply R1|apply R1]]|apply (ran_scope e1); apply R1]|]. intros; cbn beta; rewrite app_nil_r; reflexivity. }
    assert (GI : gl_in (c_globals c0) cs1) by apply (ran_gl_in _ _ _ _ _ _ R1 G).
    destruct (store_var_gen _ _ _ cs1 E2) as (_ & Rx); [apply R1|exact GI|].
    cbn [emit set_buf c_scopes] in Rx. change (c_scopes e4) with ss' in Rx.
    pose proof (ran_scopes _ _ _ _ _ _ Rx) as Sx. pose proof (ran_gl _ _ _ _ _ _ Rx) as Gx. change (c_globals _) with (c_globals c0) in Gx at 2. pose proof (ran_cps _ _ _ _ _ _ Rx) as Kx.
    change (c_cps _) with (ck :: st :: c_cps c0) in Kx at 2.
    destruct (IHb _ _ cs1 E3) as (B & cs2 & R2 & I2); [rewrite Sx; discriminate|apply Rx|rewrite Gx; exact GI|exact L2|exact W1|].
    assert (IL : in_loop c2 = true) by (unfold in_loop; rewrite Kx; reflexivity). rewrite IL, Sx, Gx, Kx in *. rewrite K1, G1 in *. rewrite (after_none b ss') in R2 by (assumption || discriminate).
    replace (room (c_scopes c)) with true by (symmetry; exact Rm). change (ok_s (c_globals c) ss' true b = true) in B. rewrite A, B. split; [reflexivity|]. exists cs2. split; [|lits].
    pose proof (ran_back c3 cs2 ss' st (ran_pool _ _ _ _ _ _ R2) (ran_scopes _ _ _ _ _ _ R2)) as R3.
    pose proof (ran_jump _ _ _ _ _ _ _ _ eq_refl (ran_trans _ _ _ _ _ _ _ _ _ _ (ran_trans _ _ _ _ _ _ _ _ _ _ Rx R2) R3)) as R4.
    set (idx := count (emit e4 (op O_BRF_8))) in *. set (e5 := exit_jmp (branch_back c3 st) idx) in *.
    pose proof (ran_trans _ _ _ _ _ _ _ _ _ _ R4 (ran_emit e5 cs2 ss' (op O_ENDFOR) (ran_pool _ _ _ _ _ _ R4) (ran_scopes _ _ _ _ _ _ R4))) as R5.
    unfold e4 in R5 at 1. destruct (ran_cps_in _ _ _ _ _ _ _ R5) as (R6 & K6).
    assert (Ri : ran (set_cps e2 (st :: c_cps e2)) e3 cs1 cs1 ss' (fun _ => op O_ITER_1)) by (apply ran_emit; [apply Re|apply Re]).
    pose proof (ran_trans _ _ _ _ _ _ _ _ _ _ Ri R6) as R7. destruct (ran_cps_in _ _ _ _ _ _ _ R7) as (R8 & _).
    pose proof (ran_trans _ _ _ _ _ _ _ _ _ _ Re R8) as R9.
    assert (S6 : c_scopes (emit e5 (op O_ENDFOR)) = ss') by apply R5.
    assert (K9 : c_cps (exit_scope (emit e5 (op O_ENDFOR))) = ck :: st :: c_cps c).
    { unfold exit_scope. rewrite S6. cbn [ss' decl emit set_buf set_scopes c_cps]. change (c_cps (emit e5 (op O_ENDFOR))) with (c_cps e5) in K6. rewrite K6. unfold e3, e2, e1. cbn [emit set_buf set_cps set_scopes c_cps]. rewrite K1. reflexivity. }
    match goal with |- ran _ _ _ _ _ ?f => change (ran c (set_cps (exit_scope (emit e5 (op O_ENDFOR))) (tl (tl (c_cps (exit_scope (emit e5 (op O_ENDFOR))))))) cs cs2 (c_scopes c) f) end. rewrite K9. cbn [tl].
    assert (FIN : forall K, extends cs2 K -> c_buf (exit_scope (emit e5 (op O_ENDFOR))) = c_buf c ++ ((gen_e K ([] :: c_scopes c) e ++ op O_INITFOR ++ op O_END) ++
        op O_ITER_1 ++ (op O_BRF_8 ++ enc8 (len ((store_code K ss' x ++ gen_s K ss' (count c2) (ck :: st :: c_cps c) b) ++ back (count c3) st)) ++ (store_code K ss' x ++ gen_s K ss' (count c2) (ck :: st :: c_cps c) b) ++ back (count c3) st) ++ op O_ENDFOR) ++ op O_POP).
    { intros K HK. unfold exit_scope. rewrite S6. cbn [ss' decl emit set_buf set_scopes c_buf length repeat]. destruct R9 as (_ & _ & _ & _ & _ & R9). specialize (R9 K HK).
      cbn [set_cps c_buf emit set_buf enter_scope set_scopes] in R9. rewrite R9. rewrite <- app_assoc. reflexivity. }
    assert (HH : ran c (set_cps (exit_scope (emit e5 (op O_ENDFOR))) (c_cps c)) cs cs2 (c_scopes c) (fun K => ((gen_e K ([] :: c_scopes c) e ++ op O_INITFOR ++ op O_END) ++
        op O_ITER_1 ++ (op O_BRF_8 ++ enc8 (len ((store_code K ss' x ++ gen_s K ss' (count c2) (ck :: st :: c_cps c) b) ++ back (count c3) st)) ++ (store_code K ss' x ++ gen_s K ss' (count c2) (ck :: st :: c_cps c) b) ++ back (count c3) st) ++ op O_ENDFOR) ++ op O_POP)).
    { destruct R9 as (Y1 & Y2 & Y3 & Y4 & Y5 & _). unfold exit_scope in *. rewrite S6 in *. cbn [ss' decl emit set_buf set_scopes c_buf length repeat set_cps c_pool c_scopes c_globals c_cps] in *.
      split; [exact Y1|]. split; [exact Y2|]. split; [reflexivity|]. split; [exact Y4|]. split; [reflexivity|]. exact FIN. }
    eapply ran_ext; [exact HH|]. intros K HK. cbn beta.
    pose proof (ran_extends _ _ _ _ _ _ _ R2 HK) as HK1.
    assert (Est : st = count c + len (gen_e K ([] :: c_scopes c) e) + 2).
    { unfold st. rewrite (ran_count _ _ _ _ _ _ K Re HK1). rewrite !len_app, !len_op. change (count (enter_scope c)) with (count c). lia. }
    assert (Eck : ck = st + 1). { unfold ck, e3. rewrite count_emit, len_op. reflexivity. }
    assert (E2c : count c2 = ck + 9 + len (store_code K ss' x)).
    { rewrite (ran_count _ _ _ _ _ _ K Rx HK1). rewrite !count_emit, len_op, len_enc8. change (count e4) with ck. lia. }
    rewrite (ran_count _ _ _ _ _ _ K R2 HK). rewrite E2c. set (bx := store_code K ss' x) in *. rewrite <- Est. rewrite <- Eck.
    set (bb := gen_s K ss' (ck + 9 + len bx) (ck :: st :: c_cps c) b).
    rewrite !len_app, len_back. rewrite <- !app_assoc. reflexivity.
  - (* break *) cbn [ok_s after gen_s]. unfold in_loop. destruct (c_cps c) as [|cp cps]; [discriminate|]. injection E as <-. split; [reflexivity|]. exists cs. split; [|lits].
    eapply ran_ext; [eapply ran_trans; [apply ran_emit; [exact P|reflexivity]|apply ran_back; [exact P|reflexivity]]|]. intros K _. cbn beta. rewrite count_emit, len_op. reflexivity.
  - (* continue *) cbn [ok_s after gen_s]. unfold in_loop. destruct (c_cps c) as [|cp [|cp2 cps]]; [discriminate..|]. injection E as <-. split; [reflexivity|]. exists cs. split; [|lits].
    apply ran_back; [exact P|reflexivity].
  - (* echo *) cbn [lits_s] in L. inv_bind E. injection E as <-. destruct (visit_e_gen fuel _ _ _ _ E0 P G L) as (A & cs1 & R1 & I1). cbn [ok_s after gen_s]. split; [exact A|]. exists cs1. split; [|lits].
    rewrite (ran_scopes _ _ _ _ _ _ R1). eapply ran_trans; [exact R1|apply ran_emit; apply R1].
  - (* assert *) cbn [lits_s] in L. inv_bind E. injection E as <-. destruct (visit_e_gen fuel _ _ _ _ E0 P G L) as (A & cs1 & R1 & I1). cbn [ok_s after gen_s]. split; [exact A|]. exists cs1. split; [|lits].
    eapply ran_trans; [exact R1|apply ran_emit; apply R1].
  - discriminate W.
Qed.
End F.
