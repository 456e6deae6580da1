(** C25-C28, C44, C45: the code the compiler generates does what the source says. Models: Compiler.v (code generator), Constants.v
    (constant pool and bytecode layout), VM.v (interpreter), Program.v (YASL_execute). Specifications: Ast.v ([eval], the
    value of an expression), Stmt.v ([exec], the meaning of statements), CompSpec.v (legal programs), Limits.v. *)
From Verif Require Import Base Bytes BytesProofs Value Table Ops ValueSpec OpsProofs Ast Stmt Limits Constants VM Compiler ValueProofs TableSpec TableProofs3 ConstSpec ConstProofs Gen GenProofs SimBase Sim Program ProgProofs CompSpec CompProofs TotalProofs CompState SessProofs.

(** Definitions used in statements: [compiling fuel c], the states a compilation goes through (CompState.v); [decls_of es],
    the declarations of an environment without the values; [er], those of the compiler's scopes; [vals es], the values of
    the variables of [es], newest first; [len] the length of a byte string. *)

(** Everything a machine needs to run a piece of code compiled from state [c] to [c'] where the program is in
    environment [st]: the piece stands at the program counter, the pool of constants of [c'] begins the machine's
    constants, the globals are the ones declared, and below [temps] the stack holds the variables. *)
Record placed (c c' : cst) (h : host) (P : prog) (s : vstate) (st : env) (temps below : list value) (code : list Z) : Prop := Placed {
  pl_code : exists pre post, p_code P = pre ++ code ++ post /\ v_pc s = len pre /\ count c <= len pre;
  pl_buf : c_buf c' = c_buf c ++ code;
  pl_consts : exists K more, setup_constants (return_bytes (c_pool c') [] []) = Ok K /\ p_consts P = K ++ more;
  pl_sizes : len (return_bytes (c_pool c') [] []) <= int_max /\ len (p_code P) <= int_max /\ Z.of_nat (length (p_consts P)) <= int_max;
  pl_host : p_world P = h_world h /\ p_list P = h_list h /\ p_keys P = h_keys h;
  pl_globals : forall x, h_decl h x = option_map is_const (assoc (c_globals c) x);
  pl_decls : decls_of (e_scopes st) = er (c_scopes c);
  pl_fp : v_fp s = Z.of_nat (length below) - 1;
  pl_stack : v_stk s = temps ++ vals (e_scopes st) ++ below;
  pl_state : v_gl s = e_globals st /\ v_out s = e_out st }.

(** ** C25: expressions. *)
Theorem C25_expression : forall fuel c c' e h P s st temps below code,
  compiling fuel c -> Forall literal (lits_e e) -> visit_e fuel e c = Ok c' ->
  placed c c' h P s st temps below code ->
  (length (concat (e_scopes st)) <= 128)%nat -> Z.of_nat (length (v_stk s)) + Z.of_nat (need_e e) <= 1024 ->
  match eval (h_world h) (rho h st) e with
  | Ok v => exists n, run n P s = Next (set_stk (set_pc s (v_pc s + len code)) (v :: v_stk s))
  | Err er => exists n s', run n P s = Stop (Err er) s' /\ v_out s' = v_out s
  | UB => exists n s', run n P s = Stop UB s' /\ v_out s' = v_out s
  | NoFuel => exists n s', run n P s = Stop NoFuel s' /\ v_out s' = v_out s
  end.
Proof.
  intros fuel c c' e h P s st temps below code Hc L V [(pre & post & C & Hpc & Hct) B (K & more & HK & HKP) (S1 & S2 & S3) (W1 & W2 & W3) Hg Hd Hfp Hs (Hgl & Hout)] Hn R.
  eapply (any_e fuel c c' h P s st below pre post K more); eauto. rewrite <- (decls_length _ _ Hd). lia.
Qed.
Print Assumptions C25_expression.
(** Every expression over declared names compiles, so the theorem above speaks of every expression. *)
Theorem C25_compiles : forall fuel gs D e, Forall (fun x => literal (VStr x)) gs -> Forall literal (lits_e e) ->
  FUEL_BOUND <= Z.of_nat fuel -> Z.of_nat (length gs) + Z.of_nat (length (lits_e e)) <= 2 ^ 29 ->
  D = [] -> legal_e gs D e = true ->
  exists c0 c c' code, compiler_new = Ok c0 /\ declglobals fuel gs c0 = Ok c /\ compiling fuel c /\ visit_e fuel e c = Ok c' /\ c_buf c' = c_buf c ++ code.
Proof.
  intros fuel gs D e Fg Fl Hf Sm -> L. unfold compiler_new. destruct pool_new_ok as (p0 & k0 & m0 & E0 & P0). rewrite E0. cbn [bind].
  set (c0 := CS [] [] [] p0 []). assert (N0 : compiler_new = Ok c0) by (unfold compiler_new; rewrite E0; reflexivity).
  destruct (tot_globals fuel Hf gs c0 [] []) as (c1 & cs1 & ext & E1 & P1 & G1 & Go & C1 & S1 & Ec & Le); auto.
  { exists k0, m0. exact P0. }
  { intros x z H. discriminate. }
  { intros x. reflexivity. }
  { unfold small, name in *. cbn [length]. lia. }
  assert (Q : compiling fuel c1).
  { clear - E1 Fg N0. assert (Q : compiling fuel c0) by (apply compiling_new, N0). clear N0. clearbody c0. revert c0 Q E1. induction gs as [|x gs IH]; intros c0 Q E1; cbn [declglobals] in E1; [injection E1 as <-; exact Q|].
    inversion Fg; subst. destruct (declglobal fuel c0 x) as [c2| | |] eqn:D; try discriminate. cbn [bind] in E1. eapply (IH H2 c2); [eapply compiling_global; eauto|exact E1]. }
  destruct (tot_e fuel Hf e c1 cs1 P1 G1) as (c2 & cs2 & ext2 & E2 & _); auto.
  { rewrite S1. rewrite (ok_e_eq _ gs Go). exact L. }
  { unfold small, name in *. rewrite Ec. cbn [app] in *. lia. }
  destruct (compiling_inv _ _ Q) as [(cs & Pp & G) _ _ _]. destruct (GenProofs.visit_e_gen fuel e c1 c2 cs E2 Pp G Fl) as (_ & cs' & R & _). destruct R as (_ & _ & _ & _ & _ & B).
  exists c0, c1, c2, (gen_e cs' (c_scopes c1) e). repeat split; auto. apply B. exists []. rewrite app_nil_r. reflexivity.
Qed.
Print Assumptions C25_compiles.

(** ** C10: [&&], [||] and [??] evaluate the right operand exactly when the left one does not decide, and yield one of the
    operands unchanged: when the left value decides it is the result whatever the right operand is (also when evaluating
    it would fail), otherwise the result is the right operand's value or failure. *)
Definition left_decides (o : scop) (v : value) : Prop :=
  match o with SAnd => spec_false v | SOr => ~ spec_false v | SCoal => v <> VUndef end.
Theorem C10_short_circuit : forall fuel c c' o l r h P s st temps below code v,
  compiling fuel c -> Forall literal (lits_e (ESc o l r)) -> visit_e fuel (ESc o l r) c = Ok c' ->
  placed c c' h P s st temps below code ->
  (length (concat (e_scopes st)) <= 128)%nat -> Z.of_nat (length (v_stk s)) + Z.of_nat (need_e (ESc o l r)) <= 1024 ->
  eval (h_world h) (rho h st) l = Ok v ->
  (left_decides o v -> exists n, run n P s = Next (set_stk (set_pc s (v_pc s + len code)) (v :: v_stk s))) /\
  (~ left_decides o v ->
   match eval (h_world h) (rho h st) r with
   | Ok u => exists n, run n P s = Next (set_stk (set_pc s (v_pc s + len code)) (u :: v_stk s))
   | Err er => exists n s', run n P s = Stop (Err er) s' /\ v_out s' = v_out s
   | UB => exists n s', run n P s = Stop UB s' /\ v_out s' = v_out s
   | NoFuel => exists n s', run n P s = Stop NoFuel s' /\ v_out s' = v_out s
   end).
Proof.
  intros fuel c c' o l r h P s st temps below code v Hc L V Pl Hn R El.
  pose proof (C25_expression fuel c c' (ESc o l r) h P s st temps below code Hc L V Pl Hn R) as Q. cbn [eval] in Q. rewrite El in Q. cbn [bind] in Q.
  pose proof (OpsProofs.falsey_spec v) as F.
  assert (D : decides o v = true <-> left_decides o v).
  { destruct o; unfold left_decides, decides.
    - exact F.
    - rewrite <- F. destruct (is_falsey v); cbn; split; congruence.
    - destruct v; cbn; split; congruence. }
  destruct (decides o v) eqn:E; split; intros H.
  - exact Q.
  - exfalso. apply H, D. reflexivity.
  - exfalso. apply D in H. discriminate.
  - exact Q.
Qed.
Print Assumptions C10_short_circuit.

(** ** C26: statements. Balance holds where break and continue are used with no variable declared in the loop body yet;
    what is missing is refuted below. *)
Theorem C26_balance_partial : forall fuel c c' sm h P s st below code n,
  compiling fuel c -> c_scopes c <> [] -> Forall literal (literals sm) -> parsed sm = true -> visit_s fuel sm c = Ok c' ->
  placed c c' h P s st [] below code -> jumps_ok 0 sm = true ->
  (peak (length (concat (e_scopes st))) sm <= 128)%nat -> Z.of_nat (length (v_stk s)) + Z.of_nat (need sm) <= 1024 -> (length (v_loops s) + for_depth sm <= 16)%nat ->
  match Stmt.exec h n sm st with
  | XOk sg st' => exists k s', run k P s = Next s'
      (* the stack holds the variables in scope and what was below them; break pushes the false its loop will pop *)
      /\ v_stk s' = match sg with Break => [VBool false] | _ => [] end ++ vals (e_scopes st') ++ below
      /\ decls_of (e_scopes st') = match sg with Normal => names_after (decls_of (e_scopes st)) sm | _ => decls_of (e_scopes st) end
      (* it ends just past its code, or at the exit test or the start of the innermost loop around it *)
      /\ v_pc s' = v_pc s + match sg with Normal => len code | Break => hd 0 (c_cps c) - count c | Continue => hd 0 (tl (c_cps c)) - count c end
      /\ v_gl s' = e_globals st' /\ v_out s' = e_out st' /\ v_fp s' = v_fp s /\ v_loops s' = v_loops s /\ v_frames s' = v_frames s
  | XStop o out => exists k s', run k P s = Stop o s' /\ v_out s' = out
  | XFuel => exists s', run n P s = Next s'
  | XStuck => False
  end.
Proof.
  intros fuel c c' sm h P s st below code n Hc Ne L W V [(pre & post & C & Hpc & Hct) B (K & more & HK & HKP) (S1 & S2 & S3) (W1 & W2 & W3) Hg Hd Hfp Hs (Hgl & Hout)] J Pk R Fd.
  pose proof (any_s fuel c c' h P s st below pre post K more Hc Hd Hg W1 W2 W3 Hfp Hgl Hout Hpc HK S1 HKP (conj S2 S3) sm code n Ne V L W J Pk B Hs R Fd C Hct) as Q.
  destruct (Stmt.exec h n sm st) as [sg st'|o out| |]; try exact Q. destruct Q as (k & Q & D). exists k. eexists. split; [exact Q|]. cbn. repeat split; auto.
  f_equal. destruct sg; try reflexivity; unfold Gen.brk, Gen.cont, hd, tl; destruct (c_cps c) as [|? [|? ?]]; reflexivity.
Qed.
Print Assumptions C26_balance_partial.
(** In particular a statement that declares nothing in the scope around it leaves the height as it was. *)
Theorem C26_height_partial : forall fuel c c' sm h P s st st' below code n,
  compiling fuel c -> c_scopes c <> [] -> Forall literal (literals sm) -> parsed sm = true -> visit_s fuel sm c = Ok c' ->
  placed c c' h P s st [] below code -> jumps_ok 0 sm = true ->
  (peak (length (concat (e_scopes st))) sm <= 128)%nat -> Z.of_nat (length (v_stk s)) + Z.of_nat (need sm) <= 1024 -> (length (v_loops s) + for_depth sm <= 16)%nat ->
  Stmt.exec h n sm st = XOk Normal st' -> decls sm = 0%nat ->
  exists k s', run k P s = Next s' /\ length (v_stk s') = length (v_stk s) /\ v_pc s' = v_pc s + len code.
Proof.
  intros fuel c c' sm h P s st st' below code n Hc Ne L W V Pl J Pk R Fd E D0.
  pose proof (C26_balance_partial _ _ _ _ _ _ _ _ _ _ n Hc Ne L W V Pl J Pk R Fd) as Q. rewrite E in Q. destruct Q as (k & s' & Rn & Sk & D & Pc & _). exists k, s'. split; [exact Rn|]. split; [|exact Pc].
  rewrite Sk, (pl_stack _ _ _ _ _ _ _ _ _ Pl). cbn [app]. rewrite !app_length. f_equal.
  assert (X : er (after (c_scopes c) sm) = names_after (decls_of (e_scopes st)) sm) by (rewrite er_after, <- (pl_decls _ _ _ _ _ _ _ _ _ Pl); reflexivity).
  rewrite <- X in D. apply decls_length in D. pose proof (decls_length _ _ (pl_decls _ _ _ _ _ _ _ _ _ Pl)) as D'. pose proof (after_len' sm (c_scopes c) Ne) as A. unfold vals. rewrite !map_length. lia.
Qed.
Print Assumptions C26_height_partial.

(** ** C27: scoping. *)
(** What the compiler accepts is legal: every name used is declared, nothing is declared twice in one scope, no constant
    is assigned, break and continue are inside loops. *)
Theorem C27_rejects : forall fuel gs pr lines bytes, Forall (fun x => literal (VStr x)) gs -> Forall literal (literals (body pr)) -> parsed (body pr) = true ->
  compile_program fuel gs pr lines = Ok bytes -> legal_program gs (body pr) = true.
Proof. intros fuel gs pr lines bytes Fg Fl W E. eapply compiled_legal; eassumption. Qed.
Print Assumptions C27_rejects.
(** Legal programs are accepted, when no break or continue belongs to a loop whose condition is literally false or undef
    and at most 255 variables are in scope at once. *)
Theorem C27_accepts : forall fuel gs pr lines, Forall (fun x => literal (VStr x)) gs -> Forall literal (literals (body pr)) -> parsed (body pr) = true ->
  legal_program gs (body pr) = true -> live_jumps false (body pr) = true -> (peak 0 (body pr) <= 255)%nat ->
  FUEL_BOUND <= Z.of_nat fuel -> Z.of_nat (length gs) + Z.of_nat (length (literals (body pr))) <= 2 ^ 29 ->
  exists bytes, compile_program fuel gs pr lines = Ok bytes.
Proof. intros fuel gs pr lines Fg Fl W L J Pk Hf Sm. eapply legal_compiles; eassumption. Qed.
Print Assumptions C27_accepts.
(** Variables in scope at the same time have different slots, numbered from 0 without gaps. *)
Theorem C27_slots : forall fuel c, compiling fuel c ->
  NoDup (map (fun p => get_index (snd p)) (concat (c_scopes c))) /\
  forall i, In i (map (fun p => get_index (snd p)) (concat (c_scopes c))) -> 0 <= i < Z.of_nat (length (concat (c_scopes c))).
Proof. intros fuel c H. destruct (compiling_inv _ _ H) as [_ N _ _]. exact (numbered_nodup _ N). Qed.
Print Assumptions C27_slots.
(** A block restores the meaning of every name. *)
Lemma block_names : forall gs D b, names_after D (SBlock b) = D /\ legal_s gs D false (SBlock b) = legal_s gs ([] :: D) false b.
Proof. intros. split; reflexivity. Qed.
Theorem C27_block_slots : forall fuel c b c' x, compiling fuel c -> c_scopes c <> [] -> Forall literal (literals b) -> parsed b = true ->
  visit_s fuel (SBlock b) c = Ok c' -> scope_get (c_scopes c') x = scope_get (c_scopes c) x /\ assoc (c_globals c') x = assoc (c_globals c) x.
Proof.
  intros fuel c b c' x Hc Ne L W V. destruct (compiling_inv _ _ Hc) as [(cs & P & G) _ _ _].
  destruct (GenProofs2.visit_s_gen fuel (SBlock b) c c' cs V Ne P G (literal_lits (SBlock b) L) W) as (_ & cs' & (_ & _ & S & Gl & _) & _). rewrite S, Gl. split; reflexivity.
Qed.
Print Assumptions C27_block_slots.

(** ** C28: up to 128 variables each is read and written at its own slot. *)
Theorem C28_read_partial : forall fuel c c' x h P s st temps below code k v,
  compiling fuel c -> visit_e fuel (EVar x) c = Ok c' -> placed c c' h P s st temps below code ->
  (length (concat (e_scopes st)) <= 128)%nat -> Z.of_nat (length (v_stk s)) < 1024 -> find_var (e_scopes st) x = Some (k, v) ->
  exists n, run n P s = Next (set_stk (set_pc s (v_pc s + len code)) (v :: v_stk s)).
Proof.
  intros fuel c c' x h P s st temps below code k v Hc V Pl N R F. pose proof (C25_expression fuel c c' (EVar x) h P s st temps below code Hc (Forall_nil _) V Pl N ltac:(cbn [need_e]; lia)) as Q.
  cbn [eval] in Q. unfold rho, read_var in Q. rewrite F in Q. exact Q.
Qed.
Print Assumptions C28_read_partial.
Theorem C28_write_partial : forall fuel c c' x y h P s st below code v u,
  compiling fuel c -> c_scopes c <> [] -> visit_s fuel (SAssign x (EVar y)) c = Ok c' -> placed c c' h P s st [] below code ->
  (length (concat (e_scopes st)) <= 128)%nat -> Z.of_nat (length (v_stk s)) < 1024 -> (length (v_loops s) <= 16)%nat ->
  find_var (e_scopes st) x = Some (false, v) -> find_var (e_scopes st) y = Some u ->
  exists n s', run n P s = Next s' /\ v_stk s' = vals (set_var (e_scopes st) x (snd u)) ++ below /\ v_pc s' = v_pc s + len code.
Proof.
  intros fuel c c' x y h P s st below code v [ku u] Hc Ne V Pl N R Fd Fx Fy.
  pose proof (C26_balance_partial fuel c c' (SAssign x (EVar y)) h P s st below code 0 Hc Ne (Forall_nil _) eq_refl V Pl eq_refl ltac:(cbn [peak]; lia) ltac:(cbn [need need_e]; lia) ltac:(cbn [for_depth]; lia)) as Q.
  cbn [Stmt.exec] in Q. unfold ev in Q. cbn [closed eval] in Q. unfold rho, read_var in Q. rewrite Fy in Q. cbn [snd] in *. unfold write_var in Q. rewrite Fx in Q. cbn [legal] in Q.
  destruct Q as (k & s' & A & B & _ & C & _). exists k, s'. auto.
Qed.
Print Assumptions C28_write_partial.

(** ** C44: whole programs. *)
Theorem C44_program_partial : forall fuel gs pr lines bytes w ls ks gl n,
  Forall (fun x => literal (VStr x)) gs -> Forall literal (literals (body pr)) -> parsed (body pr) = true ->
  compile_program fuel gs pr lines = Ok bytes -> len bytes <= int_max ->
  jumps_ok 0 (body pr) = true -> (peak 0 (body pr) <= 128)%nat -> (need (body pr) <= 1024)%nat -> (for_depth (body pr) <= 16)%nat ->
  exists P, load bytes w ls ks = Ok P /\
  match Stmt.exec (host_of w ls ks gs) n (body pr) (Env [[]] gl []) with
  | XOk Normal st => exists k s, run k P (vm_start gl) = Stop (Ok tt) s /\ v_out s = e_out st /\ v_gl s = e_globals st
  | XOk _ _ | XStuck => False
  | XStop o out => exists k s, run k P (vm_start gl) = Stop o s /\ v_out s = out
  | XFuel => exists s, run n P (vm_start gl) = Next s
  end.
Proof.
  intros fuel gs pr lines bytes w ls ks gl n Fg Fl W E LB J Pk Rm Fd. destruct (program_ok fuel gs pr lines bytes w ls ks gl n E LB Fg Fl W J Pk Rm Fd) as (P & E1 & Q). exists P. split; [exact E1|].
  destruct (Stmt.exec _ n (body pr) _) as [[| |] st|o out| |]; try exact Q. destruct Q as (k & s & A & B & C & _). exists k, s. auto.
Qed.
Print Assumptions C44_program_partial.

(** ** C45: several programs on one state. [served c s gl out]: the state after any number of programs that declare nothing at
    top level ran to completion, ending with globals [gl] and output [out]. *)
Inductive served (fuel : nat) (w : world) (ls ks : Z -> list value) (gs : list name) : cst -> vstate -> (name -> option value) -> list Z -> Prop :=
| served_new c0 c gl : compiler_new = Ok c0 -> declglobals fuel gs c0 = Ok c -> served fuel w ls ks gs c (vm_start gl) gl []
| served_next c s gl out pr lines k s' c' n st : served fuel w ls ks gs c s gl out ->
    Forall literal (literals (body pr)) -> parsed (body pr) = true -> jumps_ok 0 (body pr) = true -> decls (body pr) = 0%nat ->
    (peak 0 (body pr) <= 128)%nat -> (need (body pr) <= 1024)%nat -> (for_depth (body pr) <= 16)%nat ->
    (forall r, compile fuel pr c = Ok r -> len (return_bytes (c_pool (snd r)) (fst r) lines) <= int_max) ->
    execute fuel k pr lines w ls ks c s = Ok (Stop (Ok tt) s', c') ->
    Stmt.exec (host_of w ls ks gs) n (body pr) (Env [[]] gl out) = XOk Normal st ->
    served fuel w ls ks gs c' s' (e_globals st) (e_out st).

Lemma run_stop_unique P s : forall n m a b, run n P s = Stop a b -> forall a' b', run m P s = Stop a' b' -> a = a' /\ b = b'.
Proof.
  intros n. revert s. induction n as [|n IH]; intros s m a b E a' b' E'; [discriminate|]. destruct m as [|m]; [discriminate|]. cbn [run] in *.
  destruct (step P s) as [s1|o s1|s1]; [eapply IH; eassumption|injection E as <- <-; injection E' as <- <-; auto|discriminate].
Qed.
Lemma served_inv fuel w ls ks gs c s gl out : Forall (fun x => literal (VStr x)) gs -> served fuel w ls ks gs c s gl out ->
  cinv c /\ c_buf c = [] /\ c_scopes c = [] /\ c_cps c = [] /\ good_globals (c_globals c) gs /\ set_pc s 0 = top 0 (Env [[]] gl out).
Proof.
  intros Fg. induction 1 as [c0 c gl E0 E1|c s gl out pr lines k s' c' n st H IH Fl W J D Pk Rm Fd LB E X].
  - unfold compiler_new in E0. destruct pool_new as [p0| | |] eqn:Np; try discriminate. cbn [bind] in E0. injection E0 as <-.
    destruct (declglobals_gen fuel gs _ c [] [] E1) as (cs1 & P1 & G1 & Go & B1 & C1 & S1); cbn [c_pool c_globals c_buf c_cps c_scopes]; auto.
    { apply pool_new_inv, Np. }
    { intros x z Q. discriminate. }
    { intros x. reflexivity. }
    repeat split; auto.
    + exists cs1. auto.
    + rewrite S1. exact I.
    + intros x z A. specialize (Go x). rewrite A in Go. cbn in Go. destruct (existsb (fun y : name => name_eqb y x) gs); congruence.
    + rewrite C1. constructor.
  - destruct IH as (CI & B & S & C & Go & Sv). unfold execute in E. destruct (compile fuel pr c) as [[code c2]| | |] eqn:Ec; try discriminate. cbn [bind fst snd] in E.
    destruct (program_next fuel gs pr lines c code c2 w ls ks gl out n _ Ec eq_refl CI B S C Go (LB _ eq_refl) Fl W J Pk Rm Fd) as (P & El & Q). rewrite El in E. cbn [bind] in E. rewrite X in Q. destruct Q as (k' & Q & AD).
    injection E as Er Ec'. rewrite Sv in Er. destruct (run_stop_unique _ _ _ _ _ _ Er _ _ Q) as (_ & Es). subst s' c'.
    pose proof Ec as Ec2. unfold compile in Ec2. destruct (compile_stmts fuel pr [] (enter_scope c)) as [[code1 c1]| | |] eqn:CS; try discriminate. cbn [bind fst snd] in Ec2. injection Ec2 as <- <-.
    assert (St : forall l code c code' c', compile_stmts fuel l code c = Ok (code', c') -> forall cs, c_scopes c <> [] -> GenProofs.pooled (c_pool c) cs -> GenProofs.gl_in (c_globals c) cs -> Forall literal (literals (body l)) -> parsed (body l) = true ->
      c_scopes c' = after (c_scopes c) (body l) /\ c_globals c' = c_globals c /\ c_cps c' = c_cps c /\ exists cs', GenProofs.pooled (c_pool c') cs' /\ GenProofs.gl_in (c_globals c') cs').
    { clear. induction l as [|sm l IH]; intros code c code' c' E cs Ne P G L W; cbn [compile_stmts] in E.
      - injection E as <- <-. cbn. eauto 10.
      - cbn [body fold_right literals parsed] in L, W. apply Forall_app in L. destruct L as (L1 & L2). apply andb_true_iff in W. destruct W as (W1 & W2).
        destruct (visit_s fuel sm c) as [c1| | |] eqn:V; try discriminate. cbn [bind] in E.
        destruct (GenProofs2.visit_s_gen fuel sm c c1 cs V Ne P G (literal_lits _ L1) W1) as (O1 & cs1 & (P1 & (ext & Ecs) & S1 & G1 & C1 & _) & I1).
        destruct (IH _ _ _ _ E cs1) as (A & B & C & Q); cbn [set_buf c_scopes c_pool c_globals]; auto.
        + rewrite S1. apply GenProofs2.after_nonempty, Ne.
        + rewrite G1, Ecs. apply GenProofs.gl_in_ext, G.
        + cbn [set_buf c_scopes c_globals c_cps] in A, B, C. rewrite S1 in A. repeat split; auto; congruence. }
    destruct CI as [(cs & Pp & G) _ Gl _].
    destruct (St pr [] (enter_scope c) code1 c1 CS cs) as (S1 & G1 & C1 & Q1); auto; [discriminate|].
    unfold enter_scope in S1, G1, C1. cbn [set_scopes c_scopes c_globals c_cps] in S1, G1, C1. rewrite S in S1.
    destruct (GenProofs2.after_shape (body pr) [] []) as (u & Eu & _). assert (S2 : c_scopes c1 = [u]) by (rewrite S1; exact Eu). unfold exit_scope. rewrite S2. cbn [emit set_scopes set_buf c_pool c_globals c_scopes c_cps c_buf].
    repeat split; auto; unfold emit, set_buf, set_scopes; cbn [c_pool c_globals c_scopes c_cps c_buf]; auto.
    + rewrite G1. exact Gl.
    + rewrite C1, C. constructor.
    + congruence.
    + rewrite G1. exact Go.
    + unfold set_pc, top, atp, mk. cbn. 
      assert (V : vals (e_scopes st) = []); [|rewrite V; reflexivity].
      assert (X1 : er (after [[]] (body pr)) = names_after [[]] (body pr)) by (rewrite er_after; reflexivity).
      rewrite <- X1 in AD. apply decls_length in AD. rewrite after_len', D in AD by discriminate. unfold vals. destruct (concat (e_scopes st)); [reflexivity|]. cbn in AD. lia.
Qed.
Theorem C45_next_program_partial : forall fuel w ls ks gs c s gl out pr lines n r,
  Forall (fun x => literal (VStr x)) gs -> served fuel w ls ks gs c s gl out ->
  Forall literal (literals (body pr)) -> parsed (body pr) = true -> compile fuel pr c = Ok r ->
  len (return_bytes (c_pool (snd r)) (fst r) lines) <= int_max ->
  jumps_ok 0 (body pr) = true -> (peak 0 (body pr) <= 128)%nat -> (need (body pr) <= 1024)%nat -> (for_depth (body pr) <= 16)%nat ->
  let h := host_of w ls ks gs in
  match Stmt.exec h n (body pr) (Env [[]] gl out) with
  | XOk Normal st => exists k s' c', execute fuel k pr lines w ls ks c s = Ok (Stop (Ok tt) s', c') /\ v_out s' = e_out st /\ v_gl s' = e_globals st
  | XOk _ _ | XStuck => False
  | XStop o out' => exists k s' c', execute fuel k pr lines w ls ks c s = Ok (Stop o s', c') /\ v_out s' = out'
  | XFuel => exists s' c', execute fuel n pr lines w ls ks c s = Ok (Next s', c')
  end.
Proof.
  intros fuel w ls ks gs c s gl out pr lines n [code c2] Fg Sv Fl W Ec LB J Pk Rm Fd h. destruct (served_inv _ _ _ _ _ _ _ _ _ Fg Sv) as (CI & B & S & C & Go & E0).
  destruct (program_next fuel gs pr lines c code c2 w ls ks gl out n _ Ec eq_refl CI B S C Go LB Fl W J Pk Rm Fd) as (P & El & Q). unfold execute. rewrite Ec. cbn [bind fst snd] in *. rewrite El, E0. cbn [bind]. unfold h.
  destruct (Stmt.exec _ n (body pr) _) as [[| |] st|o out'| |]; try exact Q.
  - destruct Q as (k & Q & _). exists k. do 2 eexists. rewrite Q. split; [reflexivity|]. split; reflexivity.
  - destruct Q as (k & s' & Q & V). exists k, s'. eexists. rewrite Q. split; [reflexivity|exact V].
  - destruct Q as (s' & Q). exists s'. eexists. rewrite Q. reflexivity.
Qed.
Print Assumptions C45_next_program_partial.
