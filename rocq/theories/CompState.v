(** Facts about the states the compiler can be in. *)
From Verif Require Import Base Bytes BytesProofs Value Table Ops Ast Stmt Limits Constants VM Compiler ValueProofs TableSpec ConstSpec ConstProofs Gen GenProofs GenProofs2 SimBase Sim Program ProgProofs CompSpec CompProofs.

(** ** States reached while compiling. [c_buf] and [c_cps] are arbitrary: the code generated so far and the checkpoints
    of the loops around the current position, which lie in that code. *)
Inductive compiling (fuel : nat) : cst -> Prop :=
| compiling_new c : compiler_new = Ok c -> compiling fuel c
| compiling_global c x c' : compiling fuel c -> literal (VStr x) -> declglobal fuel c x = Ok c' -> compiling fuel c'
| compiling_enter c : compiling fuel c -> compiling fuel (enter_scope c)
| compiling_leave c : compiling fuel c -> compiling fuel (exit_scope c)
| compiling_var c x c' : compiling fuel c -> c_scopes c <> [] -> in_current c x = false -> decl_var fuel c x = Ok c' -> compiling fuel c'
| compiling_expr c e c' : compiling fuel c -> Forall literal (lits_e e) -> visit_e fuel e c = Ok c' -> compiling fuel c'
| compiling_stmt c s c' : compiling fuel c -> c_scopes c <> [] -> Forall literal (literals s) -> parsed s = true -> visit_s fuel s c = Ok c' -> compiling fuel c'
| compiling_at c b l : compiling fuel c -> Forall (fun t => 0 <= t <= Z.of_nat (length b)) l -> compiling fuel (CS b (c_scopes c) (c_globals c) (c_pool c) l).

(** Slot numbers are positions, counted from the oldest variable of the outermost scope. *)
Fixpoint numbered1 (base : Z) (s : scope) : Prop :=
  match s with [] => True | (x, z) :: s => get_index z = base + Z.of_nat (length s) /\ numbered1 base s end.
Fixpoint numbered (ss : list scope) : Prop := match ss with [] => True | s :: r => numbered1 (scope_len r) s /\ numbered r end.
Lemma numbered_decl ss x k : numbered ss -> numbered (decl ss x k).
Proof.
  destruct ss as [|s r]; [auto|]. cbn [decl numbered numbered1]. intros (A & B). pose proof (scope_len_nonneg (s :: r)). rewrite scope_len_cons in *. repeat split; auto.
  destruct k; [destruct (lnot_neg (Z.of_nat (length s) + scope_len r)) as (_ & ->)|destruct (pos_not_const (Z.of_nat (length s) + scope_len r)) as (_ & ->)]; lia.
Qed.
Lemma numbered_after s : forall ss, numbered ss -> numbered (after ss s).
Proof.
  induction s; intros ss N; cbn [after]; auto using numbered_decl.
  revert ss N. induction ls as [|l ls IH]; intros ss N; cbn [fold_left]; auto. apply IH. destruct l; cbn [after_lval]; auto using numbered_decl.
Qed.

Record cinv (c : cst) : Prop := CI {
  ci_pool : exists cs, pooled (c_pool c) cs /\ gl_in (c_globals c) cs;
  ci_num : numbered (c_scopes c);
  ci_gl : forall x z, assoc (c_globals c) x = Some z -> is_const z = false;
  ci_cps : Forall (fun t => 0 <= t <= count c) (c_cps c) }.

Lemma assoc_put_some s x z y v : assoc (assoc_put s x z) y = Some v -> (y = x /\ v = z) \/ assoc s y = Some v.
Proof.
  rewrite assoc_put_get. destruct (assoc s y); [|discriminate]. destruct (name_eqb x y) eqn:E; [|auto]. apply name_eqb_spec in E. intros [= <-]. auto.
Qed.
Lemma cps_weaken c (l : list Z) n : Forall (fun t => 0 <= t <= count c) l -> count c <= n -> Forall (fun t => 0 <= t <= n) l.
Proof. intros F L. eapply Forall_impl; [|exact F]. cbn. lia. Qed.
Lemma ran_inv c c' cs cs' ss g : cinv c -> ran c c' cs cs' ss g -> gl_in (c_globals c) cs -> numbered ss -> cinv c'.
Proof.
  intros [_ N G C] (P & (ext & Ec) & S & Gl & Cp & B) Hg Hn. constructor.
  - exists cs'. split; [exact P|]. rewrite Gl, Ec. apply gl_in_ext, Hg.
  - rewrite S. exact Hn.
  - rewrite Gl. exact G.
  - rewrite Cp. eapply cps_weaken; [exact C|]. unfold count. rewrite (B cs' ltac:(exists []; rewrite app_nil_r; reflexivity)), app_length. lia.
Qed.
Lemma compiling_inv fuel c : compiling fuel c -> cinv c.
Proof.
  induction 1 as [c E|c x c' H IH L E|c H IH|c H IH|c x c' H IH N F E|c e c' H IH L E|c s c' H IH N L W E|c b l H IH F].
  - unfold compiler_new in E. destruct pool_new as [p| | |] eqn:Np; try discriminate. injection E as <-. constructor; cbn; auto; [|discriminate].
    exists []. split; [apply pool_new_inv, Np|]. intros x z A. discriminate.
  - destruct IH as [(cs & P & G) N Gl C]. unfold declglobal in E. destruct (intern fuel (c_pool c) (VStr x)) as [[i p']| | |] eqn:I; try discriminate. cbn [bind fst snd] in E. injection E as <-.
    destruct (intern_part _ _ _ _ _ _ P L I) as (ext & P' & In' & _).
    assert (AS : forall y v, assoc (match assoc (c_globals c) x with
                               | Some _ => assoc_put (c_globals c) x (Z.of_nat (length (c_globals c)))
                               | None => (x, Z.of_nat (length (c_globals c))) :: c_globals c end) y = Some v -> (y = x /\ v = Z.of_nat (length (c_globals c))) \/ assoc (c_globals c) y = Some v).
    { intros y v. destruct (assoc (c_globals c) x); [apply assoc_put_some|]. cbn [assoc]. destruct (name_eqb x y) eqn:Ex; [|auto]. apply name_eqb_spec in Ex. intros [= <-]. auto. }
    constructor; cbn [c_pool c_globals c_scopes c_cps c_buf]; auto.
    + exists (cs ++ ext). split; [exact P'|]. intros y v A. destruct (AS _ _ A) as [(-> & _)|A']; [exact In'|]. apply in_or_app. left. eapply G. exact A'.
    + intros y v A. destruct (AS _ _ A) as [(-> & ->)|A']; [|eapply Gl; exact A']. unfold is_const. destruct (Z.ltb_spec (Z.of_nat (length (c_globals c))) 0); [lia|reflexivity].
  - destruct IH as [P N Gl C]. constructor; cbn; auto.
  - destruct IH as [P N Gl C]. unfold exit_scope. destruct (c_scopes c) as [|s r] eqn:S; [constructor; rewrite ?S; auto|]. constructor; cbn [emit set_scopes set_buf c_pool c_globals c_scopes c_cps c_buf]; auto.
    + destruct N as (_ & N). exact N.
    + eapply cps_weaken; [exact C|]. unfold count. cbn [emit set_buf set_scopes c_buf]. rewrite app_length. lia.
  - destruct IH as [P Nu Gl C]. unfold decl_var in E. destruct (c_scopes c) as [|s r] eqn:S; [congruence|]. unfold in_current in F. rewrite S in F. unfold scope_decl in E. destruct (assoc s x); [discriminate|].
    destruct (_ >? 255); [discriminate|]. injection E as <-. constructor; cbn [set_scopes c_pool c_globals c_scopes c_cps c_buf]; auto. exact (numbered_decl (s :: r) x false Nu).
  - pose proof IH as [(cs & P & G) N Gl C]. destruct (visit_e_gen fuel e c c' cs E P G L) as (O & cs' & R & I). eapply ran_inv; eauto.
  - pose proof IH as [(cs & P & G) Nu Gl C]. destruct (visit_s_gen fuel s c c' cs E N P G (literal_lits _ L) W) as (O & cs' & R & I). eapply ran_inv; eauto. apply numbered_after, Nu.
  - destruct IH as [P N Gl C]. constructor; cbn; auto.
Qed.

(** The declarations of an environment, without the values. *)
Definition decls_of (es : list (list binding)) : names := map (map (fun b => (fst b, fst (snd b)))) es.
Lemma agree_of ss : forall es, numbered ss -> decls_of es = er ss -> agree ss es.
Proof.
  induction ss as [|s ss IH]; intros [|b es] N E; try discriminate; [exact I|]. cbn [decls_of er map] in E. injection E as E1 E2. destruct N as (N1 & N2). cbn [agree]. split; [|apply IH; auto].
  pose proof (scope_len_nonneg ss). clear IH E2 N2. revert b E1. induction s as [|(x, z) s IHs]; intros [|(y, (k, v)) b] E1; try discriminate; [exact I|]. cbn in E1. injection E1 as Ex Ek E1. cbn [numbered1] in N1. destruct N1 as (Nz & N1).
  cbn [agree1]. repeat split; auto; try congruence. subst k. revert Nz. unfold get_index. destruct (is_const z); cbn; [|auto]. intros <-. rewrite Z.lnot_involutive. reflexivity.
Qed.
Lemma agree_decls ss : forall es, agree ss es -> decls_of es = er ss.
Proof.
  induction ss as [|s ss IH]; intros [|b es] A; cbn [agree] in A; try tauto. destruct A as (A & B). cbn [decls_of er map]. f_equal; [|apply IH, B].
  pose proof (scope_len_nonneg ss). clear IH B. revert b A. induction s as [|(x, z) s IHs]; intros [|(y, (k, v)) b] A; cbn [agree1] in A; try tauto. destruct A as (<- & Hz & A). cbn. f_equal; [|apply IHs, A].
  destruct (entry_index k (scope_len ss + Z.of_nat (length s)) z ltac:(lia) Hz) as (-> & _). reflexivity.
Qed.
