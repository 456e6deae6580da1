(** The compiler accepts exactly the legal programs with lists and tables (proofs only). *)
From Verif Require Import Base Bytes BytesProofs Value Table Ops Ast Stmt Limits Constants VM Compiler ValueProofs TableSpec TableProofs TableProofs2 TableProofs3 ConstSpec ConstProofs Gen GenProofs GenProofs2 Program ProgProofs CompSpec CompProofs TotalProofs.
From Verif Require Import FnTotal.
From Verif Require Import Obj ObjCompiler ObjGen ObjLegal.

Section T.
Variable fuel : nat.
Hypothesis Hf : FUEL_BOUND <= Z.of_nat fuel.
Variable gs : list name.

Record inv (c : cst) (cs : list value) (D : names) : Prop := Inv_ {
  i_pool : pst (c_pool c) cs; i_gl : gl_in (c_globals c) cs; i_good : good_globals (c_globals c) gs;
  i_rel : Forall2 rel1 (c_scopes c) D; i_ne : c_scopes c <> [] }.
(** [step c cs n ok r Q]: if [ok], [r] is a state as [Q] says, with at most [n] new constants; else [r] is a syntax error. *)
Definition step (c : cst) (cs : list value) (n : nat) (ok : bool) (r : outcome cst) (Q : cst -> Prop) : Prop :=
  if ok then exists c' cs' ext, r = Ok c' /\ pst (c_pool c') cs' /\ cs' = cs ++ ext /\ (length ext <= n)%nat /\ c_globals c' = c_globals c /\ Q c'
  else r = Err ESyntax.
Lemma step_ret c cs n c' (Q : cst -> Prop) : pst (c_pool c') cs -> c_globals c' = c_globals c -> Q c' -> step c cs n true (Ok c') Q.
Proof. intros P G H. exists c', cs, []. rewrite app_nil_r. cbn [length]. repeat split; auto. lia. Qed.
Lemma step_bind c cs n1 n2 n ok1 ok2 r f (Q1 Q2 : cst -> Prop) : step c cs n1 ok1 r Q1 -> (n1 + n2 <= n)%nat ->
  (ok1 = true -> forall c' ext, pst (c_pool c') (cs ++ ext) -> (length ext <= n1)%nat -> c_globals c' = c_globals c -> Q1 c' -> step c' (cs ++ ext) n2 ok2 (f c') Q2) ->
  step c cs n (ok1 && ok2) (bind r f) Q2.
Proof.
  intros H Hn K. destruct ok1; [|cbn in *; rewrite H; reflexivity]. destruct H as (c' & cs' & ext & -> & P & -> & L & G & Q). cbn [bind andb]. specialize (K eq_refl c' ext P L G Q). destruct ok2; [|exact K].
  destruct K as (c2 & cs2 & ext2 & -> & P2 & -> & L2 & G2 & H2). exists c2, ((cs ++ ext) ++ ext2), (ext ++ ext2). rewrite app_length, app_assoc. repeat split; auto; [lia|congruence].
Qed.
Lemma step_le c cs n m ok r Q : step c cs n ok r Q -> (n <= m)%nat -> step c cs m ok r Q.
Proof. intros H L. destruct ok; [|exact H]. destruct H as (c' & cs' & ext & E & P & Ec & Le & G & K). exists c', cs', ext. repeat split; auto. lia. Qed.
Lemma step_from c c0 cs n ok r Q : step c0 cs n ok r Q -> c_globals c0 = c_globals c -> step c cs n ok r Q.
Proof. intros H E. destruct ok; [|exact H]. destruct H as (c' & cs' & ext & E' & P & Ec & Le & G & K). exists c', cs', ext. repeat split; auto. congruence. Qed.
Lemma step_weak c cs n ok r (Q Q' : cst -> Prop) : step c cs n ok r Q -> (forall c', Q c' -> Q' c') -> step c cs n ok r Q'.
Proof. intros H K. destruct ok; [|exact H]. destruct H as (c' & cs' & ext & E' & P & Ec & Le & G & H'). exists c', cs', ext. repeat split; auto. Qed.
Lemma step_then c cs n ok r f (Q1 Q2 : cst -> Prop) : step c cs n ok r Q1 -> (forall c', Q1 c' -> exists c2, f c' = Ok c2 /\ c_pool c2 = c_pool c' /\ c_globals c2 = c_globals c' /\ Q2 c2) -> step c cs n ok (bind r f) Q2.
Proof.
  intros H K. destruct ok; [|cbn in *; rewrite H; reflexivity]. destruct H as (c' & cs' & ext & -> & P & Ec & L & G & Q). destruct (K c' Q) as (c2 & E2 & P2 & G2 & Q2'). cbn [bind]. exists c2, cs', ext. rewrite P2, G2. repeat split; auto.
Qed.
Lemma step_validate c cs n ok v (Q : cst -> Prop) : step c cs n ok (v c) Q -> (forall c', Q c' -> Q (set_buf c' (c_buf c))) -> step c cs n ok (validate v c) Q.
Proof.
  intros H K. unfold validate. destruct ok; [|cbn in *; rewrite H; reflexivity]. destruct H as (c' & cs' & ext & -> & P & Ec & L & G & Q'). eexists. exists cs', ext. split; [reflexivity|]. repeat split; auto.
Qed.
Lemma step_tot c cs n r (Q : cst -> Prop) : tot c cs n r (c_scopes c) (c_cps c) -> (forall c', c_scopes c' = c_scopes c -> c_cps c' = c_cps c -> Q c') -> step c cs n true r Q.
Proof. intros (c' & cs' & ext & E & P & Ec & L & S & G & C) K. exists c', cs', ext. repeat split; auto. Qed.
Definition same (c c' : cst) : Prop := c_scopes c' = c_scopes c /\ c_cps c' = c_cps c.
Lemma same_trans a b c : same a b -> same b c -> same a c.
Proof. intros (A & B) (C & D). split; congruence. Qed.
Lemma inv_step c cs D c' ext : inv c cs D -> pst (c_pool c') (cs ++ ext) -> c_globals c' = c_globals c -> same c c' -> inv c' (cs ++ ext) D.
Proof. intros [P G Go R N] P' G' (S1 & S2). constructor; auto; rewrite ?G', ?S1, ?S2; auto. apply gl_in_ext, G. Qed.
Lemma inv_on c cs D c0 : inv c cs D -> same c c0 -> c_pool c0 = c_pool c -> c_globals c0 = c_globals c -> inv c0 cs D.
Proof. intros [P G Go R N] (E1 & E4) E2 E3. constructor; rewrite ?E1, ?E2, ?E3; assumption. Qed.

(** ** Names. *)
Lemma declared_get c cs D x : inv c cs D -> declared gs D x = match scope_get (c_scopes c) x with Some _ => true | None => match assoc (c_globals c) x with Some _ => true | None => false end end.
Proof. intros I. unfold declared. rewrite <- (rel_get _ _ x (i_rel _ _ _ I)). destruct (scope_get (c_scopes c) x); [reflexivity|]. cbn. apply global_ok, I. Qed.
Lemma assignable_get c cs D x : inv c cs D -> assignable gs D x = match scope_get (c_scopes c) x with Some z => negb (is_const z) | None => match assoc (c_globals c) x with Some _ => true | None => false end end.
Proof. intros I. unfold assignable. rewrite <- (rel_get _ _ x (i_rel _ _ _ I)). destruct (scope_get (c_scopes c) x); [reflexivity|]. cbn. apply global_ok, I. Qed.
Lemma step_load c cs D x : inv c cs D -> step c cs 0 (declared gs D x) (load_var fuel c x) (same c).
Proof.
  intros I. rewrite (declared_get _ _ _ x I). destruct (scope_get (c_scopes c) x) eqn:S; [|destruct (assoc (c_globals c) x) eqn:A].
  - apply step_tot; [|split; assumption]. apply tot_load; [exact Hf|apply I|apply I|]. unfold known. rewrite S. reflexivity.
  - apply step_tot; [|split; assumption]. apply tot_load; [exact Hf|apply I|apply I|]. unfold known. rewrite S, A. reflexivity.
  - unfold step, load_var. rewrite S, A. reflexivity.
Qed.
Lemma step_store c cs D x : inv c cs D -> step c cs 0 (assignable gs D x) (store_var fuel c x) (same c).
Proof.
  intros I. rewrite (assignable_get _ _ _ x I). assert (GC : forall y z, assoc (c_globals c) y = Some z -> is_const z = false) by (intros y z; apply (global_const _ _ (i_good _ _ _ I))).
  destruct (scope_get (c_scopes c) x) as [z|] eqn:S; [destruct (is_const z) eqn:K|destruct (assoc (c_globals c) x) eqn:A]; cbn [negb].
  - unfold step, store_var. rewrite S, K. reflexivity.
  - apply step_tot; [|split; assumption]. apply tot_store; [exact Hf|apply I|apply I|]. unfold writable. rewrite S, K. reflexivity.
  - apply step_tot; [|split; assumption]. apply tot_store; [exact Hf|apply I|apply I|]. unfold writable. rewrite S, A, (GC _ _ A). reflexivity.
  - unfold step, store_var. rewrite S, A. reflexivity.
Qed.
Lemma contains_legal c cs D x : inv c cs D -> contains_var c x = declared gs D x.
Proof. intros I. rewrite (declared_get _ _ _ x I). unfold contains_var. destruct (scope_get (c_scopes c) x); [reflexivity|]. reflexivity. Qed.
Lemma assignable_declared D x : declared gs D x = false -> assignable gs D x = false.
Proof. unfold declared, assignable. destruct (in_scopes D x); [discriminate|auto]. Qed.
Lemma current_new c cs D x : inv c cs D -> new_here D x = negb (in_current c x).
Proof.
  intros I. pose proof (i_ne _ _ _ I) as N. pose proof (i_rel _ _ _ I) as R. unfold in_current. destruct (c_scopes c) as [|s r]; [congruence|].
  inversion R as [|s0 d ss D' H1 H2]; subst. cbn [new_here]. specialize (H1 x). destruct (assoc s x), (in_scope d x); cbn in H1; try discriminate; reflexivity.
Qed.
Lemma decl_eq c x s r : c_scopes c = s :: r -> (length (concat (s :: r)) + 1 <= 255)%nat -> decl_var fuel c x = Ok (set_scopes c (put_new s x (scope_len (s :: r)) :: r)).
Proof.
  intros E L. unfold decl_var. rewrite E.
  assert (Sd : scope_decl (s :: r) x = put_new s x (scope_len (s :: r)) :: r) by (unfold scope_decl, put_new; destruct (assoc s x); reflexivity). rewrite Sd.
  assert (B : scope_len (put_new s x (scope_len (s :: r)) :: r) <= 255). { unfold scope_len in *. cbn [concat] in *. rewrite app_length in *. pose proof (put_new_len s x (Z.of_nat (length (s ++ concat r)))). rewrite app_length in *. lia. }
  destruct (Z.gtb_spec (scope_len (put_new s x (scope_len (s :: r)) :: r)) 255); [lia|]. reflexivity.
Qed.
Lemma const_eq c x : c_scopes c <> [] -> make_const c x = set_scopes c (scope_const (c_scopes c) x).
Proof. intros N. unfold make_const. destruct (c_scopes c); [congruence|reflexivity]. Qed.
Lemma step_decl c x (k : bool) s r : c_scopes c = s :: r -> (length (concat (s :: r)) + 1 <= 255)%nat ->
  exists c', decl_var fuel c x = Ok c' /\ c_scopes c' <> [] /\ exists s', let c2 := (if k then make_const c' x else c') in
    c_pool c2 = c_pool c /\ c_globals c2 = c_globals c /\ c_cps c2 = c_cps c /\ c_scopes c2 = s' :: r /\ newest s s' x k.
Proof.
  intros E L. rewrite (decl_eq c x s r E L). eexists. split; [reflexivity|]. split; [discriminate|]. set (n := scope_len (s :: r)). assert (Hn : 0 <= n) by (unfold n, scope_len; lia). destruct k; cbv zeta.
  - exists (assoc_put (put_new s x n) x (Z.lnot n)). rewrite const_eq by discriminate. cbn [set_scopes c_scopes]. rewrite const_put. repeat split; apply newest_const; exact Hn.
  - exists (put_new s x n). repeat split; apply (newest_let fuel); exact Hn.
Qed.

(** ** Statements. *)
Definition after (c : cst) (s : ostmt) (D : names) (c' : cst) : Prop :=
  exists sc rest sc', c_scopes c = sc :: rest /\ c_scopes c' = sc' :: rest /\ (length sc' <= length sc + decls_o s)%nat /\ Forall2 rel1 (c_scopes c') (onames_after D s) /\ c_cps c' = c_cps c.
Lemma same_after c s D cs c' : inv c cs D -> same c c' -> onames_after D s = D -> after c s D c'.
Proof.
  intros I (E & C) F. pose proof (i_ne _ _ _ I) as N. destruct (c_scopes c) as [|sc rest] eqn:Ec; [congruence|]. exists sc, rest, sc. rewrite E, F. split; [exact Ec|]. split; [reflexivity|]. split; [lia|]. split; [rewrite <- Ec; apply I|exact C].
Qed.
Lemma after_inv c s D cs c' ext : inv c cs D -> after c s D c' -> pst (c_pool c') (cs ++ ext) -> c_globals c' = c_globals c -> inv c' (cs ++ ext) (onames_after D s).
Proof.
  intros I (sc & rest & sc' & Ec & C & L & R & Cp) P G. constructor; [exact P|rewrite G; apply gl_in_ext, I|rewrite G; apply I|exact R|rewrite C; discriminate].
Qed.
Lemma seq_e c cs D n1 n2 n ok1 ok2 r f Q : inv c cs D -> step c cs n1 ok1 r (same c) -> (n1 + n2 <= n)%nat -> small cs n ->
  (forall c' ext, inv c' (cs ++ ext) D -> small (cs ++ ext) n2 -> same c c' -> step c' (cs ++ ext) n2 ok2 (f c') Q) -> step c cs n (ok1 && ok2) (bind r f) Q.
Proof.
  intros I H L S K. eapply step_bind; [exact H|exact L|]. intros _ c' ext P Le G Sa. apply K; [eapply inv_step; eassumption| |exact Sa]. unfold small in *. rewrite app_length. lia.
Qed.
Lemma seq_s c cs D s n1 n2 n ok1 ok2 r f Q : inv c cs D -> step c cs n1 ok1 r (after c s D) -> (n1 + n2 <= n)%nat -> small cs n ->
  (forall c' ext, inv c' (cs ++ ext) (onames_after D s) -> small (cs ++ ext) n2 -> after c s D c' -> step c' (cs ++ ext) n2 ok2 (f c') Q) -> step c cs n (ok1 && ok2) (bind r f) Q.
Proof.
  intros I H L S K. eapply step_bind; [exact H|exact L|]. intros _ c' ext P Le G Sa. apply K; [eapply after_inv; eassumption| |exact Sa]. unfold small in *. rewrite app_length. lia.
Qed.
Lemma step_to c0 c cs n ok r (Q0 Q : cst -> Prop) : step c0 cs n ok r Q0 -> c_globals c0 = c_globals c -> (forall c', Q0 c' -> Q c') -> step c cs n ok r Q.
Proof. intros H E K. eapply step_from; [eapply step_weak; eassumption|exact E]. Qed.
Lemma step_fin c1 cX c cs n ok r g : step c1 cs n ok r (same c1) -> c_globals c1 = c_globals cX -> same c c1 ->
  (forall c', c_pool (g c') = c_pool c' /\ c_globals (g c') = c_globals c' /\ same c' (g c')) -> step cX cs n ok (bind r (fun c' => Ok (g c'))) (same c).
Proof.
  intros H G C K. eapply step_from; [eapply step_then; [exact H|]|exact G]. intros c' Sa. destruct (K c') as (K1 & K2 & K3). eexists. split; [reflexivity|]. repeat split; auto; [destruct C, Sa, K3; congruence..].
Qed.
Lemma step_stmt c cs D s n ok r : inv c cs D -> step c cs n ok r (same c) -> onames_after D s = D -> step c cs n ok r (after c s D).
Proof. intros I H E. eapply step_weak; [exact H|]. intros c' Sa. eapply same_after; [exact I|exact Sa|exact E]. Qed.
Ltac brk := repeat match goal with H : _ && _ = true |- _ => apply andb_true_iff in H; destruct H | H : Forall literal (_ ++ _) |- _ => apply Forall_app in H; destruct H | H : Forall literal (_ :: _) |- _ => inversion H; clear H; subst end; rewrite ?app_length in *.
Ltac sm := unfold small in *; cbn [lits_oe lits_as literals_o] in *; rewrite ?app_length in *; cbn [length] in *; rewrite ?app_length in *; lia.
Lemma truthy_legal e D : o_truthy e = true -> olegal_e gs D e = true. Proof. destruct e; cbn; congruence. Qed.
Lemma falsey_legal e D : o_falsey e = true -> olegal_e gs D e = true. Proof. destruct e; cbn; congruence. Qed.
Lemma falsey_off e : switched_off e = o_falsey e. Proof. reflexivity. Qed.
Lemma peak_mono s : forall d d', (d <= d')%nat -> (peak_o d s <= peak_o d' s)%nat.
Proof.
  induction s; intros d d' L; cbn [peak_o]; try lia; auto.
  - specialize (IHs1 d d' L). specialize (IHs2 (d + decls_o s1)%nat (d' + decls_o s1)%nat ltac:(lia)). lia.
  - specialize (IHs1 d d' L). specialize (IHs2 d d' L). lia.
  - apply IHs. lia.
Qed.
Lemma peak_ge_o s : forall d, (d <= peak_o d s)%nat.
Proof. induction s; intros d; cbn [peak_o]; repeat match goal with A : forall d, (d <= peak_o d _)%nat |- _ => pose proof (A d); pose proof (A (S d)); clear A end; lia. Qed.
Lemma assigns_len s : assigns_o s = true -> forall d, peak_o d s = d. Proof. destruct s; try discriminate; reflexivity. Qed.
Lemma nil_scopes D x : in_scopes ([] :: D) x = in_scopes D x. Proof. reflexivity. Qed.
Lemma legal_nil_mut : (forall e D, olegal_e gs ([] :: D) e = olegal_e gs D e) /\ (forall e D, olegal_as gs ([] :: D) e = olegal_as gs D e).
Proof. apply oexpr_mutind; intros; cbn [olegal_e olegal_as]; repeat match goal with H : forall D, _ = _ |- _ => rewrite H; clear H end; reflexivity. Qed.
Definition legal_nil e D : olegal_e gs ([] :: D) e = olegal_e gs D e := proj1 legal_nil_mut e D.
Lemma no_decls s : decls_o s = 0%nat -> forall D, onames_after D s = D.
Proof. induction s; intros E D; cbn [decls_o onames_after] in *; try reflexivity; try discriminate. rewrite IHs1 by lia. apply IHs2. lia. Qed.
Lemma lit_ok c cs v : pst (c_pool c) cs -> literal v -> small cs 1 -> step c cs 1 true (add_literal fuel c v) (same c).
Proof. intros P L S. apply step_tot; [|split; assumption]. apply tot_literal; auto. unfold small in S. lia. Qed.
Definition P_e (e : oexpr) : Prop := forall c cs D, inv c cs D -> Forall literal (lits_oe e) -> small cs (length (lits_oe e)) ->
  step c cs (length (lits_oe e)) (olegal_e gs D e) (visit_oe fuel e c) (same c).
Definition P_a (e : oargs) : Prop := forall c cs D, inv c cs D -> Forall literal (lits_as e) -> small cs (length (lits_as e)) ->
  step c cs (length (lits_as e)) (olegal_as gs D e) (visit_as fuel e c) (same c).
Ltac emits := intros ?c'; repeat split.
Lemma exprs_ok : (forall e, P_e e) /\ (forall e, P_a e).
Proof.
  apply oexpr_mutind; unfold P_e, P_a.
  - intros c cs D I L S. apply step_ret; [apply I|reflexivity|split; reflexivity].
  - intros b c cs D I L S. apply step_ret; [apply I|reflexivity|split; reflexivity].
  - intros i c cs D I L S. inversion L; subst. apply lit_ok; [apply I|assumption|sm].
  - intros i c cs D I L S. inversion L; subst. apply lit_ok; [apply I|assumption|sm].
  - intros i c cs D I L S. inversion L; subst. apply lit_ok; [apply I|assumption|sm].
  - intros x c cs D I L S. apply step_load; exact I.
  - intros o e IH c cs D I L S. cbn [visit_oe lits_oe olegal_e] in *. eapply step_fin; [apply IH; assumption|reflexivity|split; reflexivity|emits].
  - intros o l IHl r IHr c cs D I L S. cbn [visit_oe lits_oe olegal_e] in *. brk. eapply seq_e; [exact I|apply IHl; auto; sm|apply le_n|exact S|]. intros c1 x1 I1 S1 C1.
    eapply step_fin; [apply IHr; [exact I1|assumption|sm]|reflexivity|exact C1|emits].
  - intros o l IHl r IHr c cs D I L S. cbn [visit_oe lits_oe olegal_e] in *. brk. eapply seq_e; [exact I|apply IHl; auto; sm|apply le_n|exact S|]. intros c1 x1 I1 S1 C1. cbn [enter_jmp].
    eapply step_fin; [apply IHr; [eapply inv_on; [exact I1|split; reflexivity|reflexivity..]|assumption|sm]|reflexivity|exact C1|emits].
  - intros q IHq a IHa b IHb c cs D I L S. cbn [visit_oe lits_oe olegal_e] in *. brk. rewrite <- andb_assoc. eapply seq_e; [exact I|apply IHq; auto; sm|apply le_n|exact S|]. intros c1 x1 I1 S1 C1. cbn [enter_jmp].
    match goal with |- step _ _ _ _ (bind (visit_oe _ _ ?c2) _) _ => assert (I2 : inv c2 (cs ++ x1) D) by (eapply inv_on; [exact I1|split; reflexivity|reflexivity..]); assert (C2 : same c c2) by exact C1; apply (step_from c1 c2); [|reflexivity] end.
    eapply seq_e; [exact I2|apply IHa; [exact I2|assumption|sm]|apply le_n|exact S1|]. intros c3 x3 I3 S3 C3. cbn [enter_jmp].
    eapply step_fin; [apply IHb; [eapply inv_on; [exact I3|split; reflexivity|reflexivity..]|assumption|sm]|reflexivity|exact (same_trans _ _ _ C2 C3)|emits].
  - intros es IH c cs D I L S. cbn [visit_oe lits_oe olegal_e] in *. eapply step_fin; [apply IH; [eapply inv_on; [exact I|split; reflexivity|reflexivity..]|assumption..]|reflexivity|split; reflexivity|emits].
  - intros es IH c cs D I L S. cbn [visit_oe lits_oe olegal_e] in *. eapply step_fin; [apply IH; [eapply inv_on; [exact I|split; reflexivity|reflexivity..]|assumption..]|reflexivity|split; reflexivity|emits].
  - intros l IHl r IHr c cs D I L S. cbn [visit_oe lits_oe olegal_e] in *. brk. eapply seq_e; [exact I|apply IHl; auto; sm|apply le_n|exact S|]. intros c1 x1 I1 S1 C1.
    eapply step_fin; [apply IHr; [exact I1|assumption|sm]|reflexivity|exact C1|emits].
  - intros l IHl x es IHs c cs D I L S. cbn [visit_oe lits_oe olegal_e] in *. brk. cbn [length] in *. eapply seq_e; [exact I|apply IHl; auto; sm|apply le_n|exact S|]. intros c1 x1 I1 S1 C1.
    destruct (i_pool _ _ _ I1) as (k & m & P).
    match goal with A : literal (VStr x) |- _ => destruct (intern_ok fuel _ _ _ _ (VStr x) P A ltac:(sm) Hf) as (i & p' & cs' & k' & m' & E & P' & _ & Dj) end. rewrite E. cbn [bind fst snd].
    set (c2 := emit (set_pool c1 p') _). assert (X : exists e1, cs' = (cs ++ x1) ++ e1 /\ (length e1 <= 1)%nat) by (destruct Dj as [->| ->]; [exists []; rewrite app_nil_r|exists [VStr x]]; cbn; split; auto; lia). destruct X as (e1 & -> & Le).
    assert (I2 : inv c2 ((cs ++ x1) ++ e1) D) by (eapply inv_step; [exact I1|exists k', m'; exact P'|reflexivity|split; reflexivity]).
    assert (St : step c2 ((cs ++ x1) ++ e1) (length (lits_as es)) (olegal_as gs D es) (bind (visit_as fuel es c2) (fun c => Ok (emit c (op O_CALL)))) (same c)) by (eapply step_fin; [apply IHs; [exact I2|assumption|sm]|reflexivity|exact C1|emits]).
    change (step c1 (cs ++ x1) (Datatypes.S (length (lits_as es))) (olegal_as gs D es) (bind (visit_as fuel es c2) (fun c => Ok (emit c (op O_CALL)))) (same c)).
    destruct (olegal_as gs D es); [|exact St]. destruct St as (c' & cs2 & ext & E2 & P2 & -> & Le2 & G2 & Q). exists c', (((cs ++ x1) ++ e1) ++ ext), (e1 ++ ext). rewrite app_length, app_assoc. repeat split; auto; [lia|destruct Q; assumption..].
  - intros c cs D I L S. apply step_ret; [apply I|reflexivity|split; reflexivity].
  - intros e IHe r IHr c cs D I L S. cbn [visit_as lits_as olegal_as] in *. brk. eapply seq_e; [exact I|apply IHe; auto; sm|apply le_n|exact S|]. intros c1 x1 I1 S1 C1.
    eapply step_to; [apply IHr; [exact I1|assumption|sm]|reflexivity|]. intros c' Sa. exact (same_trans _ _ _ C1 Sa).
Qed.
Definition e_step e := proj1 exprs_ok e.
Definition P_s (s : ostmt) : Prop := forall c cs D, inv c cs D -> Forall literal (literals_o s) -> small cs (length (literals_o s)) -> parsed_o s = true -> (peak_o (length (concat (c_scopes c))) s <= 255)%nat -> length (c_cps c) <> 1%nat ->
  step c cs (length (literals_o s)) (olegal_s gs D (in_loop c) s) (visit_os fuel s c) (after c s D).
Lemma loop_same c c' : c_cps c' = c_cps c -> in_loop c' = in_loop c. Proof. intros E. unfold in_loop. rewrite E. reflexivity. Qed.
Lemma none_decls s : no_decls_o s = true -> decls_o s = 0%nat. Proof. unfold no_decls_o. apply Nat.eqb_eq. Qed.
Lemma set_decls s : assigns_o s = true -> decls_o s = 0%nat. Proof. destruct s; try discriminate; reflexivity. Qed.
Lemma inv_enter c cs D : inv c cs D -> inv (enter_scope c) cs ([] :: D).
Proof. intros I. constructor; cbn; try apply I; [constructor; [intros y; reflexivity|apply I]|discriminate]. Qed.
Lemma exit_after (c c' : cst) sc rest : c_scopes c' = sc :: rest -> c_scopes (exit_scope c') = rest /\ c_pool (exit_scope c') = c_pool c' /\ c_globals (exit_scope c') = c_globals c' /\ c_cps (exit_scope c') = c_cps c'.
Proof. intros E. unfold exit_scope. rewrite E. repeat split. Qed.
(** after a body without declarations the scopes have the names they had *)
Lemma after_same_inv c a D c0 cs ext c' : decls_o a = 0%nat -> inv c0 cs D -> same c c0 -> after c a D c' -> pst (c_pool c') (cs ++ ext) -> c_globals c' = c_globals c0 -> inv c' (cs ++ ext) D.
Proof.
  intros N I Sa A P G. rewrite <- (no_decls a N D). eapply (after_inv c0); [exact I| |exact P|exact G]. destruct A as (sc & rest & sc' & E & E' & R). exists sc, rest, sc'. destruct Sa as (S1 & S2). rewrite S1, S2. auto.
Qed.
Definition body_after (c : cst) (D : names) (c' : cst) : Prop := exists sc rest sc', c_scopes c = sc :: rest /\ c_scopes c' = sc' :: rest /\ (length sc' <= length sc)%nat /\ Forall2 rel1 (c_scopes c') D /\ c_cps c' = c_cps c.
Lemma body_after_of c a D c' : decls_o a = 0%nat -> (after c a D c' <-> body_after c D c').
Proof. intros N. unfold after, body_after. rewrite N, (no_decls a N). split; intros (sc & rest & sc' & E & E' & L & R); exists sc, rest, sc'; repeat split; try tauto; lia. Qed.
Lemma body_inv c D c0 cs ext c' : inv c0 cs D -> same c c0 -> body_after c D c' -> pst (c_pool c') (cs ++ ext) -> c_globals c' = c_globals c0 -> inv c' (cs ++ ext) D.
Proof.
  intros I (S1 & S2) (sc & rest & sc' & E & E' & L & R & C) P G. constructor; [exact P|rewrite G; apply gl_in_ext, I|rewrite G; apply I|exact R|rewrite E'; discriminate].
Qed.
Lemma body_trans c D c1 c2 : body_after c D c1 -> body_after c1 D c2 -> body_after c D c2.
Proof. intros (sc & rest & sc' & E & E' & L & R & C) (sd & rest' & sd' & F & F' & L' & R' & C'). rewrite E' in F. injection F as <- <-. exists sc, rest, sd'. repeat split; auto; [lia|congruence]. Qed.
Lemma body_same c D c1 c2 : same c c1 -> body_after c1 D c2 -> body_after c D c2.
Proof. intros (S1 & S2) (sc & rest & sc' & E & E' & L & R & C). exists sc, rest, sc'. repeat split; auto; congruence. Qed.
Lemma same_body c D cs c1 : inv c cs D -> same c c1 -> body_after c D c1.
Proof. intros I (S1 & S2). pose proof (i_ne _ _ _ I) as N. destruct (c_scopes c) as [|sc rest] eqn:E; [congruence|]. exists sc, rest, sc. repeat split; auto. rewrite S1, <- E. apply I. Qed.
Lemma body_len c D c1 a : body_after c D c1 -> (peak_o (length (concat (c_scopes c))) a <= 255)%nat -> (peak_o (length (concat (c_scopes c1))) a <= 255)%nat.
Proof. intros (sc & rest & sc' & E & E' & L & R & C) P. rewrite E' , E in *. cbn [concat] in *. rewrite !app_length in *. pose proof (peak_mono a (length sc' + length (concat rest)) (length sc + length (concat rest)) ltac:(lia)). lia. Qed.
(** the body of an [if] or of a loop *)
Lemma step_body' c1 a D cs lp : P_s a -> inv c1 cs D -> Forall literal (literals_o a) -> small cs (length (literals_o a)) -> parsed_o a = true -> decls_o a = 0%nat -> (peak_o (length (concat (c_scopes c1))) a <= 255)%nat -> length (c_cps c1) <> 1%nat -> in_loop c1 = lp ->
  step c1 cs (length (literals_o a)) (olegal_s gs D lp a) (visit_os fuel a c1) (body_after c1 D).
Proof. intros IH I L S W N Pk Cp <-. eapply step_weak; [apply IH; auto|]. intros c' A. apply (body_after_of _ a); assumption. Qed.
Lemma step_fin' c1 cX c D1 D cs n ok r g : step c1 cs n ok r (body_after c1 D1) -> c_globals c1 = c_globals cX ->
  (forall c', body_after c1 D1 c' -> c_pool (g c') = c_pool c' /\ c_globals (g c') = c_globals c' /\ body_after c D (g c')) -> step cX cs n ok (bind r (fun c' => Ok (g c'))) (body_after c D).
Proof. intros H G K. eapply step_from; [eapply step_then; [exact H|]|exact G]. intros c' Sa. destruct (K c' Sa) as (K1 & K2 & K3). eexists. split; [reflexivity|]. auto. Qed.
Lemma seq_b c cs D n1 n2 n ok1 ok2 r f Q : inv c cs D -> step c cs n1 ok1 r (body_after c D) -> (n1 + n2 <= n)%nat -> small cs n ->
  (forall c' ext, inv c' (cs ++ ext) D -> small (cs ++ ext) n2 -> body_after c D c' -> step c' (cs ++ ext) n2 ok2 (f c') Q) -> step c cs n (ok1 && ok2) (bind r f) Q.
Proof.
  intros I H L S K. eapply step_bind; [exact H|exact L|]. intros _ c' ext P Le G Sa. apply K; [eapply body_inv; [exact I|split; reflexivity|exact Sa|exact P|exact G]| |exact Sa]. unfold small in *. rewrite app_length. lia.
Qed.
Lemma step_stmt' c cs D s n ok r : decls_o s = 0%nat -> step c cs n ok r (body_after c D) -> step c cs n ok r (after c s D).
Proof. intros N H. eapply step_weak; [exact H|]. intros c' Sa. apply body_after_of; assumption. Qed.
Lemma buf_body c D c' b : body_after c D c' -> body_after c D (set_buf c' b). Proof. exact (fun H => H). Qed.
Lemma inv_cps c cs D l : inv c cs D -> inv (set_cps c l) cs D.
Proof. intros [P G Go R N]. constructor; assumption. Qed.
Lemma all_ok s : P_s s.
Proof.
  induction s as [|a IHa b IHb|e|k x e|x e|l k v|b IHb|q a IHa|q a IHa b IHb|q b IHb|q b IHb p IHp|x e b IHb| | |e|e]; intros c cs D I L S W Pk Cp; cbn [visit_os literals_o olegal_s parsed_o peak_o] in *.
  - apply step_ret; [apply I|reflexivity|]. eapply same_after; [exact I|split; reflexivity|reflexivity].
  - brk. eapply seq_s; [exact I|apply IHa; auto; [sm|lia]|apply le_n|exact S|]. intros c1 x1 I1 S1 A1. pose proof A1 as (sc & rest & sc1 & E1 & C1 & L1 & R1 & Cp1). rewrite <- (loop_same _ _ Cp1).
    eapply step_to; [apply IHb; auto|reflexivity|].
    + rewrite E1 in Pk. rewrite C1. cbn [concat] in *. rewrite !app_length in *. match goal with |- (peak_o ?x b <= _)%nat => pose proof (peak_mono b x (length sc + length (concat rest) + decls_o a)) end. lia.
    + rewrite Cp1. exact Cp.
    + intros c' (sc0 & rest0 & sc' & E & C & Le & R & Cp'). rewrite C1 in E. injection E as <- <-. exists sc, rest, sc'. cbn [decls_o onames_after]. repeat split; auto; [lia|congruence].
  - assert (V : step c cs (length (lits_oe e)) (olegal_e gs D e) (do c <- visit_oe fuel e c; Ok (emit c (op O_POP))) (after c (OExpr e) D)).
    { apply step_stmt; [exact I| |reflexivity]. eapply step_fin; [apply e_step; eauto|reflexivity|split; reflexivity|emits]. }
    assert (K : forall n, step c cs n true (Ok c) (after c (OExpr e) D)) by (intros n; apply step_ret; [apply I|reflexivity|eapply same_after; [exact I|split; reflexivity|reflexivity]]).
    destruct e; try exact V; try (apply K). apply step_stmt; [exact I| |reflexivity]. apply step_validate; [apply (e_step (OVar x) c cs D); auto|auto].
  - eapply (seq_e _ _ _ _ 0); [exact I|apply e_step; auto|lia|exact S|]. intros c1 x1 I1 S1 (C1 & C2). rewrite (current_new _ _ _ x I1). destruct (in_current c1 x); cbn [negb]; [reflexivity|].
    pose proof (i_ne _ _ _ I1) as Nn. destruct (c_scopes c1) as [|sc r] eqn:Ec; [congruence|]. rewrite <- C1 in Pk.
    destruct (step_decl c1 x k sc r Ec ltac:(lia)) as (c2 & -> & Ne & s1 & P1 & G1 & Cp' & Sc & Nw). cbv zeta in P1, G1, Cp', Sc. cbn [bind]. destruct (c_scopes c2) eqn:E2; [congruence|]. cbn [bind].
    apply step_ret; [rewrite P1; apply I1|exact G1|]. exists sc, r, s1. rewrite <- C1, Sc. cbn [decls_o onames_after]. destruct Nw as (Nw1 & Nw2). repeat split; auto; [lia| |congruence].
    pose proof (i_rel _ _ _ I1) as R. rewrite Ec in R. inversion R as [|s0 d ss D' H1 H2]; subst. constructor; [apply Nw2, H1|exact H2].
  - apply step_stmt; [exact I| |reflexivity]. rewrite (contains_legal _ _ _ x I). destruct (declared gs D x) eqn:Dx.
    + eapply (seq_e _ _ _ _ 0); [exact I|apply e_step; auto|lia|exact S|]. intros c1 x1 I1 S1 C1. eapply step_weak; [apply step_store; exact I1|]. intros c' Sa. exact (same_trans _ _ _ C1 Sa).
    + rewrite (assignable_declared _ _ Dx), andb_false_r. reflexivity.
  - brk. apply step_stmt; [exact I| |reflexivity]. rewrite <- andb_assoc. eapply seq_e; [exact I|apply e_step; auto; sm|apply le_n|exact S|]. intros c1 x1 I1 S1 C1.
    eapply seq_e; [exact I1|apply e_step; auto; sm|apply le_n|exact S1|]. intros c2 x2 I2 S2 C2. eapply step_fin; [apply e_step; [exact I2|assumption|sm]|reflexivity|exact (same_trans _ _ _ C1 C2)|emits].
  - apply step_stmt; [exact I| |reflexivity]. eapply step_from; [eapply step_then; [apply (IHb (enter_scope c) cs ([] :: D)); auto; apply inv_enter, I|]|reflexivity].
    intros c' (sc & rest & sc' & E & E' & _ & _ & Cp'). cbn in E. injection E as <- <-. destruct (exit_after c _ _ _ E') as (X1 & X2 & X3 & X4). eexists. split; [reflexivity|]. repeat split; auto. rewrite X4. exact Cp'.
  - brk. match goal with N : no_decls_o a = true |- _ => pose proof (none_decls _ N) as Na end. apply step_stmt'; [reflexivity|].
    assert (B : step c cs (length (literals_o a)) (olegal_s gs D (in_loop c) a) (visit_os fuel a c) (body_after c D)) by (apply step_body'; auto; sm).
    destruct (o_truthy q) eqn:Tq; [rewrite (truthy_legal _ _ Tq); eapply step_le; [exact B|lia]|]. destruct (o_falsey q) eqn:Fq; [rewrite (falsey_legal _ _ Fq); eapply step_le; [apply step_validate; [exact B|intros c'; apply buf_body]|lia]|]. clear B.
    eapply seq_e; [exact I|apply e_step; auto; sm|apply le_n|exact S|]. intros c1 x1 I1 S1 C1. cbn [enter_jmp].
    match goal with |- step _ _ _ _ (bind (visit_os _ _ ?c2) _) _ => assert (I2 : inv c2 (cs ++ x1) D) by (eapply inv_on; [exact I1|split; reflexivity|reflexivity..]); assert (C2 : same c c2) by exact C1; apply (step_from c1 c2); [|reflexivity] end.
    eapply step_fin'; [apply step_body'; [exact IHa|exact I2|assumption|sm|assumption|exact Na| | |]|reflexivity|].
    + rewrite (proj1 C2). exact Pk.
    + rewrite (proj2 C2). exact Cp.
    + exact (loop_same _ _ (proj2 C2)).
    + intros c' A. repeat split. exact (body_same _ _ _ _ C2 A).
  - brk. match goal with N : no_decls_o a = true |- _ => pose proof (none_decls _ N) as Na end. match goal with N : no_decls_o b = true |- _ => pose proof (none_decls _ N) as Nb end. apply step_stmt'; [reflexivity|].
    assert (Ba : forall c1 x1, inv c1 (cs ++ x1) D -> body_after c D c1 -> small (cs ++ x1) (length (literals_o a)) -> step c1 (cs ++ x1) (length (literals_o a)) (olegal_s gs D (in_loop c) a) (visit_os fuel a c1) (body_after c1 D)).
    { intros c1 x1 I1 B1 S1. pose proof B1 as (? & ? & ? & _ & _ & _ & _ & Cp'). apply step_body'; auto; [apply (body_len _ _ _ _ B1); lia|rewrite Cp'; exact Cp|apply loop_same, Cp']. }
    assert (Bb : forall c1 x1, inv c1 (cs ++ x1) D -> body_after c D c1 -> small (cs ++ x1) (length (literals_o b)) -> step c1 (cs ++ x1) (length (literals_o b)) (olegal_s gs D (in_loop c) b) (visit_os fuel b c1) (body_after c1 D)).
    { intros c1 x1 I1 B1 S1. pose proof B1 as (? & ? & ? & _ & _ & _ & _ & Cp'). apply step_body'; auto; [apply (body_len _ _ _ _ B1); lia|rewrite Cp'; exact Cp|apply loop_same, Cp']. }
    assert (Ba0 := Ba c []). rewrite app_nil_r in Ba0. specialize (Ba0 I (same_body _ _ _ _ I (conj eq_refl eq_refl)) ltac:(sm)).
    destruct (o_truthy q) eqn:Tq.
    { rewrite (truthy_legal _ _ Tq). cbn [andb]. eapply seq_b; [exact I|exact Ba0|instantiate (1 := length (literals_o b)); lia|exact S|]. intros c1 x1 I1 S1 A1. eapply step_weak; [apply step_validate; [apply Bb; auto|intros c'; apply buf_body]|]. intros c' Sa. exact (body_trans _ _ _ _ A1 Sa). }
    destruct (o_falsey q) eqn:Fq.
    { rewrite (falsey_legal _ _ Fq). cbn [andb]. eapply seq_b; [exact I|apply step_validate; [exact Ba0|intros c'; apply buf_body]|instantiate (1 := length (literals_o b)); lia|exact S|]. intros c1 x1 I1 S1 A1. eapply step_weak; [apply Bb; auto|]. intros c' Sa. exact (body_trans _ _ _ _ A1 Sa). }
    rewrite <- andb_assoc. eapply seq_e; [exact I|apply e_step; auto; sm|apply le_n|exact S|]. intros c1 x1 I1 S1 C1. cbn [enter_jmp].
    match goal with |- step _ _ _ _ (bind (visit_os _ _ ?c2) _) _ => assert (I2 : inv c2 (cs ++ x1) D) by (eapply inv_on; [exact I1|split; reflexivity|reflexivity..]); assert (C2 : same c c2) by exact C1; apply (step_from c1 c2); [|reflexivity] end.
    eapply seq_b; [exact I2|apply Ba; [exact I2|exact (same_body _ _ _ _ I C2)|sm]|apply le_n|exact S1|]. intros c3 x3 I3 S3 A3. cbn [enter_jmp]. rewrite <- app_assoc in *.
    match goal with |- step _ _ _ _ (bind (visit_os _ _ ?c4) _) _ => assert (I4 : inv c4 (cs ++ x1 ++ x3) D) by (eapply inv_on; [exact I3|split; reflexivity|reflexivity..]); assert (A4 : body_after c D c4) by exact (body_same _ _ _ _ C2 A3); apply (step_from c3 c4); [|reflexivity] end.
    eapply step_fin'; [apply Bb; [exact I4|exact A4|exact S3]|reflexivity|]. intros c' A. repeat split. exact (body_trans _ _ _ _ A4 A).
  - brk. match goal with N : no_decls_o b = true |- _ => pose proof (none_decls _ N) as Nb end. apply step_stmt'; [reflexivity|]. rewrite falsey_off.
    destruct (o_falsey q) eqn:Fq; cbn [negb]; [rewrite orb_false_r, (falsey_legal _ _ Fq); eapply step_le; [apply step_validate; [apply step_body'; auto; sm|intros c'; apply buf_body]|lia]|]. rewrite orb_true_r.
    match goal with |- step _ _ _ _ (bind (visit_oe _ _ ?c0) _) _ => set (c0' := c0) end. assert (I0 : inv c0' cs D) by (apply inv_cps, I).
    apply (step_from c c0'); [|reflexivity]. eapply seq_e; [exact I0|apply e_step; auto; sm|apply le_n|exact S|]. intros c1 x1 I1 S1 (C1 & C2). cbn [enter_jmp].
    match goal with |- step _ _ _ _ (bind (visit_os _ _ ?c2) _) _ => set (c2' := c2) end. assert (I2 : inv c2' (cs ++ x1) D) by (eapply inv_on; [apply inv_cps, I1|split; reflexivity|reflexivity..]). apply (step_from c1 c2'); [|reflexivity].
    eapply step_fin'; [apply step_body'; [exact IHb|exact I2|assumption|sm|assumption|exact Nb| | |]|reflexivity|].
    + change (c_scopes c2') with (c_scopes c1). rewrite C1. exact Pk.
    + change (c_cps c2') with (count c1 :: c_cps c1). rewrite C2. cbn. lia.
    + unfold in_loop. change (c_cps c2') with (count c1 :: c_cps c1). reflexivity.
    + intros c' (sc & rest & sc' & E & E' & Le & R & Cp'). repeat split. exists sc, rest, sc'. change (c_scopes c2') with (c_scopes c1) in E. rewrite C1 in E. change (c_cps c2') with (count c1 :: c_cps c1) in Cp'. rewrite C2 in Cp'. cbn. cbn in Cp'. rewrite Cp'. repeat split; assumption.
  - brk. match goal with N : no_decls_o b = true |- _ => pose proof (none_decls _ N) as Nb end. match goal with N : assigns_o p = true |- _ => pose proof (set_decls _ N) as Np; pose proof (assigns_len p N) as Pkp end. apply step_stmt'; [reflexivity|]. rewrite falsey_off.
    assert (Lp : (length (concat (c_scopes c)) <= 255)%nat) by (pose proof (peak_ge_o b (length (concat (c_scopes c)))); lia).
    destruct (o_falsey q) eqn:Fq; cbn [negb].
    { rewrite orb_false_r, (falsey_legal _ _ Fq). cbn [andb]. eapply seq_b; [exact I|apply step_validate; [apply step_body'; auto; sm|intros c'; apply buf_body]|instantiate (1 := length (literals_o p)); lia|exact S|]. intros c1 x1 I1 S1 A1. pose proof A1 as (? & ? & ? & _ & _ & _ & _ & Cp').
      eapply step_weak; [apply step_validate; [apply step_body'; auto; [apply (body_len _ _ _ _ A1); rewrite Pkp; exact Lp|rewrite Cp'; exact Cp|apply loop_same, Cp']|intros c'; apply buf_body]|]. intros c' Sa. exact (body_trans _ _ _ _ A1 Sa). }
    rewrite orb_true_r, andb_comm. cbn [enter_jmp].
    match goal with |- step _ _ _ _ (bind (visit_os _ _ ?c0) _) _ => set (c0' := c0) end. assert (I0 : inv c0' cs D) by (eapply inv_on; [exact I|split; reflexivity|reflexivity..]). apply (step_from c c0'); [|reflexivity].
    eapply seq_b; [exact I0|apply step_body'; [exact IHp|exact I0|assumption|sm|assumption|exact Np|rewrite Pkp; exact Lp|exact Cp|reflexivity]|instantiate (1 := (length (lits_oe q) + length (literals_o b))%nat); lia|exact S|]. intros c1 x1 I1 S1 A1.
    assert (A1' : body_after c D c1) by exact A1. clear A1. pose proof A1' as (? & ? & ? & _ & _ & _ & _ & Cp1).
    match goal with |- step _ _ _ _ (bind (visit_oe _ _ ?c2) _) _ => set (c2' := c2) end. assert (I2 : inv c2' (cs ++ x1) D) by (apply inv_cps; eapply inv_on; [exact I1|split; reflexivity|reflexivity..]). apply (step_from c1 c2'); [|reflexivity].
    eapply seq_e; [exact I2|apply e_step; auto; sm|apply le_n|exact S1|]. intros c3 x3 I3 S3 (C3 & C4). cbn [enter_jmp]. rewrite <- app_assoc in *.
    match goal with |- step _ _ _ _ (bind (visit_os _ _ ?c4) _) _ => set (c4' := c4) end. assert (I4 : inv c4' (cs ++ x1 ++ x3) D) by (eapply inv_on; [apply inv_cps, I3|split; reflexivity|reflexivity..]). apply (step_from c3 c4'); [|reflexivity].
    eapply step_fin'; [apply step_body'; [exact IHb|exact I4|assumption|exact S3|assumption|exact Nb| | |]|reflexivity|].
    + change (c_scopes c4') with (c_scopes c3). rewrite C3. exact (body_len _ _ _ _ A1' Pk).
    + change (c_cps c4') with (count c3 :: c_cps c3). rewrite C4. cbn. lia.
    + unfold in_loop. change (c_cps c4') with (count c3 :: c_cps c3). reflexivity.
    + intros c' (sc & rest & sc' & E & E' & Le & R & Cp'). repeat split. change (c_scopes c4') with (c_scopes c3) in E. rewrite C3 in E. change (c_cps c4') with (count c3 :: c_cps c3) in Cp'. rewrite C4 in Cp'. cbn in Cp'. change (c_scopes c2') with (c_scopes c1) in E.
      apply (body_trans _ _ _ _ A1'). exists sc, rest, sc'. cbn. rewrite Cp'. repeat split; auto.
  - brk. match goal with N : no_decls_o b = true |- _ => pose proof (none_decls _ N) as Nb end. apply step_stmt'; [reflexivity|].
    apply (step_from c (enter_scope c)); [|reflexivity]. pose proof (inv_enter _ _ _ I) as I0.
    assert (Le : olegal_e gs D e = olegal_e gs ([] :: D) e) by (symmetry; apply legal_nil). rewrite Le.
    eapply seq_e; [exact I0|apply e_step; auto; sm|apply le_n|exact S|]. intros c1 x1 I1 S1 (C1 & C2).
    pose proof (peak_ge_o b (Datatypes.S (length (concat (c_scopes c))))) as Pg.
    destruct (step_decl (emit c1 (op O_INITFOR ++ op O_END)) x false [] (c_scopes c) C1) as (c2 & -> & Ne & s1 & P2 & G2 & Cp2 & Sc2 & Nw); [cbn [concat app]; lia|]. cbv zeta in P2, G2, Cp2, Sc2. cbn [bind enter_jmp]. destruct Nw as (Nw1 & Nw2).
    assert (R2 : Forall2 rel1 (c_scopes c2) ([(x, false)] :: D)). { rewrite Sc2. constructor; [apply Nw2; intros y; reflexivity|apply I]. }
    match goal with |- step _ _ _ _ (bind (store_var _ ?c3 _) _) _ => set (c3' := c3) end.
    assert (I3 : inv c3' (cs ++ x1) ([(x, false)] :: D)). { constructor; [change (c_pool c3') with (c_pool c2); rewrite P2; apply I1|change (c_globals c3') with (c_globals c2); rewrite G2; apply I1|change (c_globals c3') with (c_globals c2); rewrite G2; apply I1|exact R2|exact Ne]. }
    apply (step_from c1 c3'); [|exact G2].
    rewrite <- (andb_true_l (olegal_s gs _ _ b)). assert (As : assignable gs ([(x, false)] :: D) x = true) by (unfold assignable; cbn [in_scopes in_scope]; rewrite name_eqb_refl; reflexivity). rewrite <- As.
    eapply (seq_e _ _ _ 0); [exact I3|apply step_store; exact I3|apply le_n|exact S1|]. intros c4 x4 I4 S4 (C4 & C5).
    change (c_scopes c3') with (c_scopes c2) in C4. change (c_cps c3') with (count (emit (set_cps c2 (count c2 :: c_cps c2)) (op O_ITER_1)) :: count c2 :: c_cps c2) in C5.
    eapply step_fin'; [apply step_body'; [exact IHb|exact I4|assumption|exact S4|assumption|exact Nb| | |]|reflexivity|].
    + rewrite C4, Sc2. cbn [concat]. rewrite app_length. cbn [length] in Nw1. pose proof (peak_mono b (length s1 + length (concat (c_scopes c))) (Datatypes.S (length (concat (c_scopes c))))). lia.
    + rewrite C5. cbn. lia.
    + rewrite As. unfold in_loop. rewrite C5. reflexivity.
    + intros c' (sc & rest & sc' & E & E' & Le' & R & Cp'). rewrite C4, Sc2 in E. injection E as <- <-. rewrite C5, Cp2 in Cp'. change (c_cps (emit c1 (op O_INITFOR ++ op O_END))) with (c_cps c1) in Cp'. rewrite C2 in Cp'.
      match goal with |- context [exit_scope ?c5] => destruct (exit_after c c5 sc' (c_scopes c) E') as (X1 & X2 & X3 & X4) end. cbn [set_cps c_pool c_globals]. split; [exact X2|]. split; [exact X3|].
      apply (same_body _ _ _ _ I). split; [exact X1|]. cbn [set_cps c_cps]. rewrite X4. cbn. rewrite Cp'. reflexivity.
  - apply step_stmt; [exact I| |reflexivity]. unfold in_loop. destruct (c_cps c) eqn:E; [reflexivity|]. apply step_ret; [apply I|reflexivity|split; reflexivity].
  - apply step_stmt; [exact I| |reflexivity]. unfold in_loop. destruct (c_cps c) as [|z [|z2 l]] eqn:E; [reflexivity|cbn in Cp; lia|]. apply step_ret; [apply I|reflexivity|split; reflexivity].
  - apply step_stmt; [exact I| |reflexivity]. eapply step_fin; [apply e_step; eauto|reflexivity|split; reflexivity|emits].
  - apply step_stmt; [exact I| |reflexivity]. eapply step_fin; [apply e_step; eauto|reflexivity|split; reflexivity|emits].
Qed.
(** ** Programs. *)
Lemma stmts_ok pr : forall code c cs D, inv c cs D -> c_cps c = [] -> Forall literal (literals_o (body_o pr)) -> small cs (length (literals_o (body_o pr))) -> parsed_o (body_o pr) = true -> (peak_o (length (concat (c_scopes c))) (body_o pr) <= 255)%nat ->
  if olegal_s gs D false (body_o pr) then exists r, compile_ostmts fuel pr code c = Ok r else compile_ostmts fuel pr code c = Err ESyntax.
Proof.
  induction pr as [|s pr IH]; intros code c cs D I Cp L S W Pk; [cbn; eauto|]. cbn [body_o fold_right compile_ostmts literals_o olegal_s parsed_o peak_o] in *. change (fold_right OSeq OSkip pr) with (body_o pr) in *. brk.
  pose proof (all_ok s c cs D I) as A. unfold in_loop in A. rewrite Cp in A. specialize (A ltac:(assumption) ltac:(sm) ltac:(assumption) ltac:(lia) ltac:(discriminate)).
  destruct (olegal_s gs D false s); cbn [andb]; [|cbn in A; rewrite A; reflexivity]. destruct A as (c1 & cs1 & ext & -> & P1 & -> & Le & G1 & A1). cbn [bind].
  pose proof (after_inv _ _ _ _ _ _ I A1 P1 G1) as I1. destruct A1 as (sc & rest & sc1 & E1 & C1 & L1 & R1 & Cp1).
  apply (IH _ (set_buf c1 []) (cs ++ ext)); auto.
  - eapply inv_on; [exact I1|split; reflexivity|reflexivity..].
  - cbn. congruence.
  - sm.
  - cbn [set_buf c_scopes]. rewrite E1 in Pk. rewrite C1. cbn [concat] in *. rewrite !app_length in *.
    match goal with |- (peak_o ?x ?b <= _)%nat => pose proof (peak_mono b x (length sc + length (concat rest) + decls_o s)) end. lia.
Qed.
End T.
Theorem verdict_o fuel gs pr lines : FUEL_BOUND <= Z.of_nat fuel -> Forall (fun x => literal (VStr x)) gs -> Forall literal (literals_o (body_o pr)) ->
  Z.of_nat (length gs) + Z.of_nat (length (literals_o (body_o pr))) <= 2 ^ 29 -> (peak_o 0 (body_o pr) <= 255)%nat -> parsed_o (body_o pr) = true ->
  if olegal_program gs (body_o pr) then exists bytes, compile_oprogram fuel gs pr lines = Ok bytes else compile_oprogram fuel gs pr lines = Err ESyntax.
Proof.
  intros Hf Fg Fl Sm Pk N. unfold compile_oprogram, compiler_new, olegal_program, compile_o. destruct pool_new_ok as (p0 & k0 & m0 & E0 & P0). rewrite E0. cbn [bind].
  destruct (tot_globals fuel Hf gs (CS [] [] [] p0 []) [] []) as (c1 & cs1 & ext & E1 & P1 & G1 & Go & C1 & S1 & Ec & Le); auto.
  { exists k0, m0. exact P0. }
  { intros x z H. discriminate. }
  { intros x. reflexivity. }
  { unfold small, name in *. cbn [length]. lia. }
  rewrite E1. cbn [bind]. cbn [app] in *.
  assert (I : inv gs (enter_scope c1) cs1 [[]]). { constructor; auto; cbn; [rewrite S1; repeat constructor|discriminate]. }
  pose proof (stmts_ok fuel Hf gs pr [] (enter_scope c1) cs1 [[]] I C1 Fl) as A.
  assert (X1 : small cs1 (length (literals_o (body_o pr)))) by (unfold small, name in *; rewrite Ec; lia).
  assert (X2 : (peak_o (length (concat (c_scopes (enter_scope c1)))) (body_o pr) <= 255)%nat) by (cbn; rewrite S1; exact Pk).
  specialize (A X1 N X2). destruct (olegal_s gs [[]] false (body_o pr)); [|rewrite A; reflexivity]. destruct A as ((co & c') & ->). cbn [bind]. eauto.
Qed.

