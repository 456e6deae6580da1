(** C62: the interactive mode. Each line typed is compiled by the compiler of the lines before and run on the machine as
    they left it; what it does is what the specification says it means in the session so far. *)
From Verif Require Import Base Bytes BytesProofs Value Table Ops Ast Stmt Limits Constants VM Compiler ValueProofs TableSpec TableProofs3 ConstSpec ConstProofs Gen GenProofs GenProofs2 SimBase Sim Program ProgProofs CompSpec CompProofs TotalProofs CompState SessProofs PropCompile PropCompile2 Repl ReplSpec ReplProofs ReplProofs2 ReplProofs3 ReplLegal.

(** A new session: the globals of the host are known, none of them constant, and nothing has been printed. *)
Definition start (gs : list name) (gl : name -> option value) : sess := Sess (map (fun x => (x, false)) gs) gl [].
Definition fits (fuel : nat) (line : list stmt) (lines : list Z) (c : cst) : Prop :=
  forall r, compile_repl fuel line c = Ok r -> len (return_bytes (c_pool (snd r)) (fst r) lines) <= int_max.

(** What has happened to a compiler and a machine: the host declared its globals, then lines were typed one after the
    other, each ending without error. *)
Section Session.
Variables (fuel : nat) (w : world) (ls ks : Z -> list value) (gs : list name) (gl : name -> option value).
Inductive interactive : list (list stmt) -> cst -> vstate -> Prop :=
| i_start c0 c : compiler_new = Ok c0 -> declglobals fuel gs c0 = Ok c -> interactive [] c (vm_start gl)
| i_line hist c s k line lines s' c' : interactive hist c s -> Forall item_ok line -> fits fuel line lines c ->
    execute_repl fuel k line lines w ls ks c s = Ok (Stop (Ok tt) s', c') -> interactive (hist ++ [line]) c' s'.

End Session.

(** ** Proofs. *)
Lemma ev_stop h st e k o out : (forall v, k v <> XStop (Ok tt) out) -> ev h st e k = XStop o out -> o <> Ok tt.
Proof. unfold ev. intros H E ->. destruct (closed h st e); [|discriminate]. destruct (eval _ _ e); try discriminate. exact (H _ E). Qed.
Lemma evs_stop h st es : forall k out, (forall v, k v <> XStop (Ok tt) out) -> ev_list h st es k <> XStop (Ok tt) out.
Proof. induction es as [|e es IH]; intros k out H; [apply H|]. cbn [ev_list]. intros E. refine (ev_stop h st e _ _ _ _ E eq_refl). intros v. apply IH. auto. Qed.
Lemma legal_stop (a : option env) k (r : xres) : (forall st, k st <> r) -> r <> XStuck -> legal a k <> r.
Proof. intros H N. destruct a; cbn; auto. Qed.
Lemma leaving_stop r out : r <> XStop (Ok tt) out -> leaving r <> XStop (Ok tt) out.
Proof. destruct r; cbn; congruence. Qed.
Lemma exec_stop h n s : forall st out, Stmt.exec h n s st <> XStop (Ok tt) out.
Proof.
  induction s as [|a IHa b IHb|e|x e|x e|l rs|x e|b IHb|cd a IHa|cd a IHa b IHb|cd b IHb|cd b IHb post IHp|x e b IHb| | |e|e|s IH]; intros st out; cbn [Stmt.exec]; try discriminate;
    try (intros E; refine (ev_stop h st _ _ _ _ _ E eq_refl); intros v; try discriminate; try (apply legal_stop; discriminate)).
  - intros E. destruct (Stmt.exec h n a st) as [[| |] ?|? ?| |] eqn:E1; try discriminate E; [eapply IHb; exact E|]. injection E as -> ->. eapply IHa; exact E1.
  - apply evs_stop. intros v. apply legal_stop; discriminate.
  - apply leaving_stop, IHb.
  - destruct (is_falsey v); [discriminate|apply IHa].
  - destruct (is_falsey v); [apply IHb|apply IHa].
  - generalize n at 2 as m. intros m. revert st. induction m as [|m IHm]; intros st; [discriminate|]. intros E. refine (ev_stop h st _ _ _ _ _ E eq_refl). intros v. destruct (is_falsey v); [discriminate|].
    destruct (Stmt.exec h n b st) as [[| |] ?|? ?| |] eqn:E1; try discriminate; try apply IHm. intros [= -> ->]. eapply IHb; exact E1.
  - generalize n at 4 as m. intros m. revert st. induction m as [|m IHm]; intros st; [discriminate|]. intros E. refine (ev_stop h st _ _ _ _ _ E eq_refl). intros v. destruct (is_falsey v); [discriminate|].
    destruct (Stmt.exec h n b st) as [[| |] ?|? ?| |] eqn:E1; try discriminate; try (intros [= -> ->]; eapply IHb; exact E1).
    + match goal with |- context [Stmt.exec h n post ?x] => destruct (Stmt.exec h n post x) as [[| |] ?|? ?| |] eqn:E2; try discriminate; try apply IHm; intros [= -> ->]; eapply IHp; exact E2 end.
    + match goal with |- context [Stmt.exec h n post ?x] => destruct (Stmt.exec h n post x) as [[| |] ?|? ?| |] eqn:E2; try discriminate; try apply IHm; intros [= -> ->]; eapply IHp; exact E2 end.
  - intros E. refine (ev_stop h _ _ _ _ _ _ E eq_refl). intros v. destruct (iter_elements h v) as [vs|]; [|discriminate]. apply legal_stop; [|discriminate]. intros st1. apply leaving_stop. revert st1. induction vs as [|u vs IHv]; intros st1; [discriminate|]. apply legal_stop; [|discriminate]. intros st2.
    destruct (Stmt.exec h n b st2) as [[| |] ?|? ?| |] eqn:E1; try discriminate; try apply IHv. intros [= -> ->]. eapply IHb; exact E1.
  - destruct (w_tostr _ v); discriminate.
  - destruct (is_falsey v); [|discriminate]. destruct (w_tostr _ v); discriminate.
Qed.
Section Stops.
Variables (w : world) (ls ks : Z -> list value).
Lemma value_stop se e k out : (forall v, k v <> LStop (Ok tt) out) -> value_in w ls ks se e k <> LStop (Ok tt) out.
Proof. intros H. unfold value_in. destruct (closed _ _ e); [|discriminate]. destruct (eval _ _ e); try discriminate. apply H. Qed.
Lemma values_stop se es : forall k out, (forall v, k v <> LStop (Ok tt) out) -> values_in w ls ks se es k <> LStop (Ok tt) out.
Proof. induction es as [|e es IH]; intros k out H; [apply H|]. cbn [values_in]. apply value_stop. intros v. apply IH. auto. Qed.
Lemma done_stop a out : done a <> LStop (Ok tt) out. Proof. destruct a; discriminate. Qed.
Lemma stmt_stop n s se out : stmt_means w ls ks n s se <> LStop (Ok tt) out.
Proof.
  assert (X : match Stmt.exec (host_in w ls ks se) n s (env_in se) with
         | XOk Normal st => LDone (Sess (s_decl se) (e_globals st) (e_out st)) | XStop o out => LStop o out | XFuel => LFuel | _ => LBad end <> LStop (Ok tt) out).
  { pose proof (exec_stop (host_in w ls ks se) n s (env_in se)) as E. destruct (Stmt.exec _ n s _) as [[| |] ?|? ?| |]; try discriminate. intros [= -> ->]. eapply E; reflexivity. }
  destruct s; try exact X; cbn [stmt_means]; [apply value_stop|apply value_stop|apply values_stop]; intros v; apply done_stop.
Qed.
Lemma line_stop n line : forall se out, line_means w ls ks n line se <> LStop (Ok tt) out.
Proof.
  induction line as [|s r IH]; intros se out; [discriminate|]. cbn [line_means]. pose proof (stmt_stop n (shown_if_last (match r with [] => true | _ => false end) s) se) as H. destruct (stmt_means w ls ks n _ se); try discriminate; [apply IH|]. intros [= -> ->]. eapply H; reflexivity.
Qed.
End Stops.

(** The machine between two lines: an empty stack, and the values and the output of the session. *)
Definition rest (pc : Z) (se : sess) : vstate := VS pc [] (-1) (s_vals se) (s_out se) [] [] (-1) [] [] [].
Record between (c : cst) (se : sess) : Prop := Btw {
  b_sc : c_scopes c = []; b_buf : c_buf c = []; b_cps : c_cps c = []; b_rel : rel (c_globals c) se;
  b_pool : exists cs, pooled (c_pool c) cs /\ gl_in (c_globals c) cs }.
Lemma line_next fuel w ls ks line lines c se code c2 pc : between c se -> compile_repl fuel line c = Ok (code, c2) -> Forall item_ok line -> len (return_bytes (c_pool c2) code lines) <= int_max ->
  exists P, load (return_bytes (c_pool c2) code lines) w ls ks = Ok P /\ forall n,
  match line_means w ls ks n line se with
  | LDone se' => between (set_buf c2 []) se' /\ exists k, run k P (set_pc (rest pc se) 0) = Stop (Ok tt) (rest (len code + 1) se')
  | LStop o out => exists k s, run k P (set_pc (rest pc se) 0) = Stop o s /\ v_out s = out
  | LFuel => exists s, run n P (set_pc (rest pc se) 0) = Next s
  | LBad => False
  end.
Proof.
  intros [Sc Bf Cp R (cs0 & P0 & G0)] E F LB. unfold compile_repl in E. rewrite repl_as_items in E. pose proof (items_ok line F) as Fi.
  destruct (line1 fuel _ _ _ _ _ _ E Sc Bf Cp Fi P0 G0) as (O & S2 & B2 & C2 & G2 & cs & Pp & _ & Gl & I & Eg). specialize (Eg cs ltac:(exists []; rewrite app_nil_r; reflexivity)). cbn [app] in Eg.
  set (bytes := return_bytes (c_pool c2) code lines) in *. unfold len in LB.
  assert (Lh : Z.of_nat (length (cp_hdr (c_pool c2))) + Z.of_nat (length code) + 25 + Z.of_nat (length lines) = Z.of_nat (length bytes)).
  { unfold bytes, return_bytes. rewrite !app_length, !enc8_length. cbn [length]. lia. }
  assert (Lc : Z.of_nat (length cs) <= Z.of_nat (length (cp_hdr (c_pool c2)))).
  { destruct Pp as (m & PI). rewrite (pi_hdr _ _ _ PI). pose proof (enc_consts_len cs (pi_lit _ _ _ PI)). lia. }
  destruct (layout_ok (c_pool c2) code lines ltac:(lia)) as (e & E1 & E2 & E3). fold bytes in E1, E3.
  unfold load. rewrite E1. cbn [bind]. pose proof (pool_setup (c_pool c2) cs code lines Pp ltac:(lia)) as PS. fold bytes in PS. rewrite PS. cbn [bind]. rewrite E3.
  eexists. split; [reflexivity|]. set (P := Prog (code ++ [Constants.O_HALT] ++ lines) cs w ls ks). intros n.
  assert (C : code_at P 0 (code ++ [Constants.O_HALT] ++ lines)) by (exists [], []; rewrite app_nil_r; split; reflexivity).
  assert (HK : len (p_code P) <= int_max /\ Z.of_nat (length (p_consts P)) <= int_max).
  { cbn [P p_code p_consts]. unfold len. rewrite !app_length. cbn [length]. lia. }
  rewrite means_items. rewrite G2 in Gl. pose proof C as C'. rewrite Eg in C'.
  pose proof (run_line P w ls ks eq_refl eq_refl eq_refl HK n (items line) (c_globals c) se 0 _ R Gl O Fi I ltac:(lia) C') as Q. cbn [P p_consts] in Q. fold P in Q. rewrite <- Eg in Q.
  change (set_pc (rest pc se) 0) with (at_ 0 [] se). destruct (plain_means w ls ks n (items line) se) as [se'|o out| |]; cbn [stmt_runs] in Q; try exact Q.
  - destruct Q as (R' & k & _ & Q). split.
    + split; cbn [set_buf c_scopes c_buf c_cps c_globals c_pool]; auto; [rewrite G2; exact R'|]. exists cs. split; [exact Pp|]. rewrite G2. exact Gl.
    + exists (k + 1)%nat. rewrite run_app, Q. cbn [run]. apply code_at_r in C. change [Constants.O_HALT] with (op VM.O_HALT) in C. rewrite (step_op P _ VM.O_HALT lines) by (exact C). cbn [VM.exec]. reflexivity.
  - destruct Q as (k & s' & L & Q). replace k with (n + (k - n))%nat in Q by lia. rewrite run_app in Q. destruct (run n P (at_ 0 [] se)) as [s1| |]; [eauto|discriminate Q..].
Qed.
Lemma session_inv fuel w ls ks gs gl hist c s : Forall (fun x => literal (VStr x)) gs -> interactive fuel w ls ks gs gl hist c s ->
  exists se pc, reached w ls ks (start gs gl) hist se /\ between c se /\ s = rest pc se.
Proof.
  intros Fg. induction 1 as [c0 c N D|hist c s k line lines s' c' Hi IH F Fit X].
  - exists (start gs gl), 0. split; [constructor|]. split; [|reflexivity]. unfold compiler_new in N. destruct pool_new as [p0| | |] eqn:Np; try discriminate N. cbn [bind] in N. injection N as <-.
    destruct (declglobals_gen fuel gs _ c [] [] D) as (cs1 & P1 & G1 & Go & B1 & C1 & S1); cbn [c_pool c_globals c_buf c_cps c_scopes]; auto.
    { apply pool_new_inv, Np. }
    { intros x z H. discriminate H. }
    { intros x. reflexivity. }
    split; auto; [|exists cs1; auto]. intros x. pose proof (Go x) as Gx. cbn [app] in Gx. rewrite Gx. cbn [start s_decl]. clear. induction gs as [|y l IH]; [reflexivity|]. cbn [map in_scope existsb]. destruct (name_eqb y x); [reflexivity|exact IH].
  - destruct IH as (se & pc & Re & Bt & ->). unfold execute_repl in X. destruct (compile_repl fuel line c) as [[code c2]| | |] eqn:E; try discriminate X. cbn [bind fst snd] in X.
    destruct (line_next fuel w ls ks line lines c se code c2 pc Bt E F (Fit _ E)) as (P & EL & Q). rewrite EL in X. cbn [bind] in X. injection X as X <-. specialize (Q k).
    pose proof (line_stop w ls ks k line se) as NS. destruct (line_means w ls ks k line se) as [se'|o out| |] eqn:M.
    + destruct Q as (Bt' & k' & Q). exists se', (len code + 1). split; [econstructor; eassumption|]. split; [exact Bt'|]. exact (proj2 (run_stop_unique P _ _ _ _ _ X _ _ Q)).
    + destruct Q as (k' & s1 & Q & _). destruct (run_stop_unique P _ _ _ _ _ X _ _ Q) as (<- & _). exfalso. eapply NS; reflexivity.
    + destruct Q as (s1 & Q). congruence.
    + destruct Q.
Qed.

(** ** C62. After any lines that ended normally the machine shows the session they mean, with an empty stack, and the next
    line does what it means in that session. Missing: a line after one that was rejected or failed (see below), and the
    limits in [item_ok]. *)
Theorem C62_line_partial : forall fuel w ls ks gs gl hist c s line lines r,
  Forall (fun x => literal (VStr x)) gs -> interactive fuel w ls ks gs gl hist c s -> Forall item_ok line -> fits fuel line lines c -> compile_repl fuel line c = Ok r ->
  exists se, reached w ls ks (start gs gl) hist se /\ v_gl s = s_vals se /\ v_out s = s_out se /\ v_stk s = [] /\ forall n,
  match line_means w ls ks n line se with
  | LDone se' => exists k s' c', execute_repl fuel k line lines w ls ks c s = Ok (Stop (Ok tt) s', c') /\ v_gl s' = s_vals se' /\ v_out s' = s_out se' /\ v_stk s' = []
  | LStop o out => exists k s' c', execute_repl fuel k line lines w ls ks c s = Ok (Stop o s', c') /\ v_out s' = out
  | LFuel => exists s' c', execute_repl fuel n line lines w ls ks c s = Ok (Next s', c')
  | LBad => False
  end.
Proof.
  intros fuel w ls ks gs gl hist c s line lines [code c2] Fg Hi F Fit E. destruct (session_inv _ _ _ _ _ _ _ _ _ Fg Hi) as (se & pc & Re & Bt & ->). exists se. do 3 (split; [assumption || reflexivity|]). split; [reflexivity|]. intros n.
  destruct (line_next fuel w ls ks line lines c se code c2 pc Bt E F (Fit _ E)) as (P & EL & Q). specialize (Q n). unfold execute_repl. rewrite E. cbn [bind fst snd]. rewrite EL. cbn [bind].
  destruct (line_means w ls ks n line se) as [se'|o out| |]; [| | |exact Q].
  - destruct Q as (_ & k & Q). exists k. do 2 eexists. rewrite Q. repeat split; reflexivity.
  - destruct Q as (k & s1 & Q & V). exists k, s1. eexists. rewrite Q. split; [reflexivity|exact V].
  - destruct Q as (s1 & Q). do 2 eexists. rewrite Q. reflexivity.
Qed.
Print Assumptions C62_line_partial.

(** A line is accepted only if it is legal with the names of the session as the outermost scope: names introduced by
    earlier lines can be read, constants cannot be assigned, and no name is introduced twice. *)
Theorem C62_rejects : forall fuel w ls ks gs gl hist c s line r,
  Forall (fun x => literal (VStr x)) gs -> interactive fuel w ls ks gs gl hist c s -> Forall item_ok line -> compile_repl fuel line c = Ok r ->
  exists se, reached w ls ks (start gs gl) hist se /\ legal_s [] [s_decl se] false (body line) = true.
Proof.
  intros fuel w ls ks gs gl hist c s line [code c2] Fg Hi F E. destruct (session_inv _ _ _ _ _ _ _ _ _ Fg Hi) as (se & pc & Re & [Sc Bf Cp R (cs0 & P0 & G0)] & _). exists se. split; [exact Re|].
  unfold compile_repl in E. rewrite repl_as_items in E. destruct (line1 fuel _ _ _ _ _ _ E Sc Bf Cp (items_ok line F) P0 G0) as (O & _). rewrite <- items_legal. exact (line_sound _ _ _ R (items_ok line F) O).
Qed.
Print Assumptions C62_rejects.

(** And legal lines are accepted, as long as the session has not used up the constants. *)
Definition consts_in (gs : list name) (hist : list (list stmt)) : nat := length gs + fold_right (fun l n => (consts_of l + n)%nat) 0%nat hist.
Lemma consts_app gs h l : consts_in gs (h ++ [l]) = (consts_in gs h + consts_of l)%nat.
Proof. unfold consts_in. rewrite <- Nat.add_assoc. f_equal. induction h as [|a h IH]; cbn [app fold_right]; lia. Qed.
Lemma items_consts_of line : consts_of (items line) = consts_of line.
Proof. induction line as [|s r IH]; [reflexivity|]. cbn [items consts_of fold_right]. fold (items r). fold (consts_of (items r)). fold (consts_of r). rewrite IH. f_equal. destruct s; try reflexivity. cbn [shown_if_last]. destruct (is_last r); reflexivity. Qed.
Lemma session_pst fuel w ls ks gs gl hist c s : Forall (fun x => literal (VStr x)) gs -> FUEL_BOUND <= Z.of_nat fuel -> interactive fuel w ls ks gs gl hist c s -> Z.of_nat (consts_in gs hist) <= 2 ^ 29 ->
  exists cs, pst (c_pool c) cs /\ gl_in (c_globals c) cs /\ (length cs <= consts_in gs hist)%nat.
Proof.
  intros Fg Hf. induction 1 as [c0 c N D|hist c s k line lines s' c' Hi IH F Fit X]; intros Sm.
  - unfold compiler_new in N. destruct pool_new_ok as (p0 & k0 & m0 & E0 & P0). rewrite E0 in N. cbn [bind] in N. injection N as <-.
    destruct (tot_globals fuel Hf gs (CS [] [] [] p0 []) [] []) as (c1 & cs1 & ext & E1 & P1 & G1 & Go & C1 & S1 & Ec & Le); auto.
    { exists k0, m0. exact P0. }
    { intros x z H. discriminate H. }
    { intros x. reflexivity. }
    { unfold small, consts_in in *. unfold name in *. cbn [length fold_right] in *. lia. }
    rewrite E1 in D. injection D as <-. exists cs1. split; [exact P1|]. split; [exact G1|]. rewrite Ec. unfold consts_in. cbn [app fold_right] in *. unfold name in *. lia.
  - rewrite consts_app in *. destruct (IH ltac:(lia)) as (cs & P & Gi & Le). destruct (session_inv _ _ _ _ _ _ _ _ _ Fg Hi) as (se & pc & _ & [Sc Bf Cp R (cs0 & P0 & G0)] & _).
    unfold execute_repl in X. destruct (compile_repl fuel line c) as [[code c2]| | |] eqn:E; try discriminate X. cbn [bind fst snd] in X. destruct (load _ w ls ks); try discriminate X. cbn [bind] in X. injection X as _ <-.
    unfold compile_repl in E. rewrite repl_as_items in E. destruct (line1 fuel _ _ _ _ _ _ E Sc Bf Cp (items_ok line F) P0 G0) as (O & _).
    destruct (line_t fuel Hf (items line) [] c cs P Sc Bf Cp Gi (items_ok line F) O) as (code' & c3 & cs' & E' & P' & L' & Gi'); [unfold small; rewrite items_consts_of; lia|]. rewrite E in E'. injection E' as <- <-. rewrite items_consts_of in L'. exists cs'. split; [exact P'|]. split; [exact Gi'|]. lia.
Qed.
Theorem C62_accepts : forall fuel w ls ks gs gl hist c s line,
  Forall (fun x => literal (VStr x)) gs -> FUEL_BOUND <= Z.of_nat fuel -> interactive fuel w ls ks gs gl hist c s -> Forall item_ok line -> Z.of_nat (consts_in gs (hist ++ [line])) <= 2 ^ 29 ->
  exists se, reached w ls ks (start gs gl) hist se /\
  (legal_s [] [s_decl se] false (body line) = true -> live_jumps false (body line) = true -> exists r, compile_repl fuel line c = Ok r).
Proof.
  intros fuel w ls ks gs gl hist c s line Fg Hf Hi F Sm. destruct (session_inv _ _ _ _ _ _ _ _ _ Fg Hi) as (se & pc & Re & [Sc Bf Cp R _] & _). exists se. split; [exact Re|]. intros Lg Lj. rewrite consts_app in Sm.
  destruct (session_pst _ _ _ _ _ _ _ _ _ Fg Hf Hi ltac:(lia)) as (cs & P & Gi & Le). unfold compile_repl. rewrite repl_as_items.
  destruct (line_t fuel Hf (items line) [] c cs P Sc Bf Cp Gi (items_ok line F)) as (code' & c3 & cs' & E' & _); [|unfold small; rewrite items_consts_of; lia|eauto].
  eapply line_done; [exact R|apply items_ok, F|rewrite items_legal; exact Lg|rewrite items_jumps; exact Lj].
Qed.
Print Assumptions C62_accepts.

(** ** What the theorem leaves out is false: a line after one that failed. [YASL_execute_REPL] does not empty the stack, and
    local variables are addressed from the bottom of it. After [echo 1 + (2 + undef)], which fails leaving 1 behind, the
    line [{ let a = 5; echo a }] prints 1. *)
Definition failing : list stmt := [SEcho (add_ (EInt 1) (add_ (EInt 2) EUndef))].
Definition blocks : list stmt := [SBlock (SSeq (let_ a (EInt 5)) (SEcho (EVar a)))].
Ltac items_solve := repeat (apply Forall_cons; [repeat split; try reflexivity; try (apply Nat.leb_le; vm_compute; reflexivity); cbn [literals lits_e app map concat let_ add_ new_names lval_name]; repeat constructor; try (vm_compute; discriminate)|]); try apply Forall_nil.
Definition left_by (line : list stmt) (p : cst * vstate) : cst * vstate :=
  match execute_repl 64 300 line [] demo_world none none (fst p) (snd p) with Ok (Stop _ s, c) => (c, s) | _ => p end.
Theorem C62_after_error_refuted : exists c s s1 c1 k1 k2 s2 c2,
  interactive 64 demo_world none none [] unset [] c s /\ Forall item_ok failing /\ Forall item_ok blocks /\
  execute_repl 64 k1 failing [] demo_world none none c s = Ok (Stop (Err EType) s1, c1) /\ v_out s1 = [] /\
  execute_repl 64 k2 blocks [] demo_world none none c1 s1 = Ok (Stop (Ok tt) s2, c2) /\
  (exists se, line_means demo_world none none 1 blocks (start [] unset) = LDone se /\ s_out se = [53; 10]) /\ v_out s2 = [49; 10].
Proof.
  pose (p0 := (got compiler_new, vm_start unset)). pose (p1 := left_by failing p0). pose (p2 := left_by blocks p1).
  exists (fst p0), (snd p0), (snd p1), (fst p1), 300%nat, 300%nat, (snd p2), (fst p2).
  split; [econstructor; [vm_compute; reflexivity|reflexivity]|]. split; [items_solve|]. split; [items_solve|].
  split; [vm_compute; reflexivity|]. split; [vm_compute; reflexivity|]. split; [vm_compute; reflexivity|]. split; [eexists; split; vm_compute; reflexivity|vm_compute; reflexivity].
Qed.
Print Assumptions C62_after_error_refuted.

(** ** The hypotheses are met: [let a = 2], then [const b = a + 1; a, let x = b, a], then [a + b] prints 6; and
    [b = 1] is then not legal, nor is [let a = 1]. *)
Definition typed (line : list stmt) (p : cst * vstate) : cst * vstate :=
  match execute_repl 64 300 line [] demo_world none none (fst p) (snd p) with Ok (Stop (Ok tt) s, c) => (c, s) | _ => p end.
Definition works (line : list stmt) (p : cst * vstate) : bool :=
  match execute_repl 64 300 line [] demo_world none none (fst p) (snd p) with Ok (Stop (Ok tt) s, c) => true | _ => false end
  && match compile_repl 64 line (fst p) with Ok r => len (return_bytes (c_pool (snd r)) (fst r) []) <=? int_max | _ => false end.
Lemma typed_ok gs gl hist p line : interactive 64 demo_world none none gs gl hist (fst p) (snd p) -> Forall item_ok line -> works line p = true ->
  fits 64 line [] (fst p) /\ interactive 64 demo_world none none gs gl (hist ++ [line]) (fst (typed line p)) (snd (typed line p)).
Proof.
  intros Hi F Wk. unfold works in Wk. apply andb_true_iff in Wk. destruct Wk as (W1 & W2).
  assert (Ft : fits 64 line [] (fst p)) by (intros r E; rewrite E in W2; apply Z.leb_le, W2). split; [exact Ft|].
  unfold typed. destruct (execute_repl 64 300 line [] demo_world none none (fst p) (snd p)) as [[[s0|o1 s1|] c1]| | |] eqn:E; try discriminate W1. destruct o1 as [[]| | |]; try discriminate W1. econstructor; eauto.
Qed.
Definition line1_ : list stmt := [let_ a (EInt 2)].
Definition line2_ : list stmt := [SConst b (add_ (EVar a) (EInt 1)); SDecl [LAssign a; LLet x] [EVar b; EVar a]].
Definition line3_ : list stmt := [SExpr (add_ (EVar a) (EVar b))].
Definition p0_ : cst * vstate := (got compiler_new, vm_start unset).
Notation p2_ := (typed line2_ (typed line1_ p0_)).
Example C62_nonvacuous :
  interactive 64 demo_world none none [] unset [line1_; line2_] (fst p2_) (snd p2_) /\ Forall item_ok line3_ /\ fits 64 line3_ [] (fst p2_) /\ (exists r, compile_repl 64 line3_ (fst p2_) = Ok r)
  /\ (exists s c, execute_repl 64 300 line3_ [] demo_world none none (fst p2_) (snd p2_) = Ok (Stop (Ok tt) s, c) /\ v_out s = [54; 10])
  /\ (exists se, reached demo_world none none (start [] unset) [line1_; line2_] se /\ s_decl se = [(x, false); (b, true); (a, false)] /\ s_vals se a = Some (VInt 3) /\ s_vals se b = Some (VInt 3) /\ s_vals se x = Some (VInt 2)
       /\ (exists se', line_means demo_world none none 1 line3_ se = LDone se' /\ s_out se' = [54; 10])
       /\ legal_s [] [s_decl se] false (body line3_) = true /\ live_jumps false (body line3_) = true
       /\ legal_s [] [s_decl se] false (SAssign b (EInt 1)) = false /\ legal_s [] [s_decl se] false (let_ a (EInt 1)) = false)
  /\ compile_repl 64 [SAssign b (EInt 1)] (fst p2_) = Err ESyntax /\ compile_repl 64 [let_ a (EInt 1)] (fst p2_) = Err ESyntax.
Proof.
  assert (I0 : interactive 64 demo_world none none [] unset [] (fst p0_) (snd p0_)) by (econstructor; [vm_compute; reflexivity|reflexivity]).
  assert (F1 : Forall item_ok line1_) by items_solve. assert (F2 : Forall item_ok line2_) by items_solve. assert (F3 : Forall item_ok line3_) by items_solve.
  destruct (typed_ok [] unset [] p0_ line1_ I0 F1 ltac:(vm_compute; reflexivity)) as (_ & I1). cbn [app] in I1.
  destruct (typed_ok [] unset [line1_] (typed line1_ p0_) line2_ I1 F2 ltac:(vm_compute; reflexivity)) as (_ & I2). cbn [app] in I2.
  destruct (typed_ok [] unset _ p2_ line3_ I2 F3 ltac:(vm_compute; reflexivity)) as (Ft & _).
  split; [exact I2|]. split; [exact F3|]. split; [exact Ft|]. split; [eexists; vm_compute; reflexivity|]. split; [do 2 eexists; split; vm_compute; reflexivity|].
  split; [|split; vm_compute; reflexivity].
  pose (next := fun l se => match line_means demo_world none none 1 l se with LDone se' => se' | _ => se end).
  exists (next line2_ (next line1_ (start [] unset))).
  split; [refine (reached_line _ _ _ _ [line1_] (next line1_ (start [] unset)) 1 line2_ _ (reached_line _ _ _ _ [] (start [] unset) 1 line1_ _ (reached_none _ _ _ _) _) _); vm_compute; reflexivity|].
  split; [vm_compute; reflexivity|]. split; [vm_compute; reflexivity|]. split; [vm_compute; reflexivity|]. split; [vm_compute; reflexivity|]. split; [exists (next line3_ (next line2_ (next line1_ (start [] unset)))); split; vm_compute; reflexivity|].
  split; [vm_compute; reflexivity|]. split; [vm_compute; reflexivity|]. split; vm_compute; reflexivity.
Qed.
(** The bound on the table search is met with an empty history. *)
Example C62_accepts_nonvacuous : exists fuel c s, FUEL_BOUND <= Z.of_nat fuel /\ interactive fuel demo_world none none [] unset [] c s /\ Forall item_ok line1_ /\ Z.of_nat (consts_in [] [line1_]) <= 2 ^ 29.
Proof.
  exists (Z.to_nat FUEL_BOUND), (got compiler_new), (vm_start unset). split; [rewrite Z2Nat.id; [apply Z.le_refl|vm_compute; discriminate]|]. split; [econstructor; [vm_compute; reflexivity|reflexivity]|]. split; [items_solve|vm_compute; discriminate].
Qed.
