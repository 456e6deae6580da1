(** C32: pattern matching. Models: Match.v (matcher, machine and code generator), Table.v (tables). Specification: MatchSpec.v
    ([pmatch]: what a pattern matches and binds; [cases]: which clause of a match statement is executed). *)
From Verif Require Import Base Bytes BytesProofs Value Table Ops Ast Stmt Limits Constants VM Compiler ValueProofs TableSpec ConstSpec ConstProofs Gen GenProofs GenProofs2 SimBase Sim Program ProgProofs CompSpec CompProofs CompState SessProofs MatchSpec Match MatchProofs MatchProofs2 MatchProofs3 MatchProofs4 MatchProofs5 MatchProofs6 MatchProofs7 PropCompile PropCompile2.

(** The tables of the heap: each results from a history of assignments and removals of present keys, has a slot that was
    never used (C06), and holds the entries [tables a]. *)
Definition heap_holds (tfuel : nat) (T : Z -> table) (tables : Z -> list (value * value)) : Prop :=
  forall a, exists fuel ops, Forall op_ok ops /\ removals_present mempty ops /\ run_new fuel ops = Ok (T a) /\ In EMPTY (t_items (T a)) /\ t_size (T a) <= Z.of_nat tfuel /\
    NoDup (map fst (tables a)) /\ forall k v, In (k, v) (tables a) <-> good_key k /\ spec_run ops k = Some v.
Lemma heap_facts tfuel T tables : heap_holds tfuel T tables ->
  (forall a k, good_key k -> table_search tfuel (T a) k = Ok (match entry (tables a) k with Some v => v | None => VEnd end)) /\
  (forall a k v, entry (tables a) k = Some v -> v <> VEnd) /\ (forall a, u64 (t_count (T a)) = Z.of_nat (length (tables a))).
Proof.
  intros H. split; [|split]; intros a; destruct (H a) as (fuel & ops & A & B & C & D & E & F & G); [eapply built_search|eapply built_val|eapply built_count]; eassumption.
Qed.

(** ** A match statement executes what [cases] says: the first clause whose pattern matches and whose guard holds, with the
    pattern's variables bound. Restrictions: [alts_ok], no table pattern with entries to the left of |; [guards_safe], a guarded
    clause binds nothing, or is not the last and its pattern is a single variable; when no clause applies the value that was
    matched is left on the stack. All three are refuted without the restriction below. *)
Theorem C32_match_partial : forall fuel c c' e cls h P s st below code n T tables tfuel depth m,
  compiling fuel c -> c_scopes c <> [] -> Forall literal (lits_e e) -> visit_match fuel e cls c = Ok c' -> cls <> [] ->
  placed c c' h P s st [] below code -> heap_holds tfuel T tables ->
  (length (concat (e_scopes st)) <= 128)%nat -> (length (v_stk s) + need_e e <= 1024)%nat ->
  Forall (clause_fits depth (length (concat (e_scopes st))) (length (v_stk s)) (length (v_loops s))) cls -> guards_safe cls = true ->
  match eval (h_world h) (rho h st) e with
  | Ok v =>
    match cases h tables n v st cls with
    | Some (XOk sg st') => exists k s' m', xrun P T tfuel depth k (XS s m) = XNext (XS s' m')
        /\ v_stk s' = match sg with Break => [VBool false] | _ => [] end ++ vals (e_scopes st') ++ below
        /\ decls_of (e_scopes st') = decls_of (e_scopes st)
        /\ v_pc s' = v_pc s + match sg with Normal => len code | Break => hd 0 (c_cps c) - count c | Continue => hd 0 (tl (c_cps c)) - count c end
        /\ v_gl s' = e_globals st' /\ v_out s' = e_out st' /\ v_fp s' = v_fp s /\ v_loops s' = v_loops s /\ v_frames s' = v_frames s
    | Some (XStop o out) => exists k s', xrun P T tfuel depth k (XS s m) = XEnd o s' /\ v_out s' = out
    | Some XFuel => exists x, xrun P T tfuel depth n (XS s m) = XNext x
    | Some XStuck => False
    | None => exists k s' m', xrun P T tfuel depth k (XS s m) = XNext (XS s' m') /\ v_pc s' = v_pc s + len code
        /\ v_stk s' = v :: v_stk s /\ v_gl s' = v_gl s /\ v_out s' = v_out s
    end
  | Err er => exists k s', xrun P T tfuel depth k (XS s m) = XEnd (Err er) s' /\ v_out s' = v_out s
  | UB => exists k s', xrun P T tfuel depth k (XS s m) = XEnd UB s' /\ v_out s' = v_out s
  | NoFuel => exists k s', xrun P T tfuel depth k (XS s m) = XEnd NoFuel s' /\ v_out s' = v_out s
  end.
Proof.
  intros fuel c c' e cls h P s st below code n T tables tfuel depth m Hc Ne L V NN [(pre & post & C & Hpc & Hct) B (K & more & HK & HKP) (S1 & S2 & S3) (W1 & W2 & W3) Hg Hd Hfp Hs (Hgl & Hout)] Hh Sl R F GS.
  destruct (heap_facts _ _ _ Hh) as (HT & HTv & HTc).
  pose proof (any_match fuel c c' h P s st below pre post K more Hc Hd Hg W1 W2 W3 Hfp Hgl Hout Hpc HK S1 HKP (conj S2 S3) T tfuel depth tables HT HTv HTc e cls code n Ne V L F GS NN B Hs Sl R C Hct) as Q.
  destruct (eval (h_world h) (rho h st) e) as [v|er0| |]; [|exact (Q m)..].
  destruct (cases h tables n v st cls) as [[sg st'|o out| |]|]; cbn [xopt] in Q.
  - cbn [xresd] in Q. assert (Jp : forall z, v_pc s + z - count c = v_pc s + (z - count c)) by (intros; lia).
    destruct sg; destruct Q as (Q & A); destruct (Q m) as (m' & k & _ & E); exists k; eexists; exists m'; (split; [exact E|]); cbn; (split; [reflexivity|]);
      (split; [rewrite (agree_decls _ _ A), <- Hd; reflexivity|]); repeat split; try rewrite Jp; try reflexivity; f_equal; f_equal; unfold brk, cont, hd, tl; destruct (c_cps c) as [|? [|? ?]]; reflexivity.
  - exact (Q m).
  - destruct (Q m) as (k & x & Lk & E). replace k with (n + (k - n))%nat in E by lia. rewrite xrun_app in E. destruct (xrun P T tfuel depth n (XS s m)) as [x1| |]; [eauto|discriminate..].
  - exact Q.
  - destruct (Q m) as (m' & k & _ & E). exists k. eexists. exists m'. split; [exact E|]. cbn. rewrite Hs. auto.
Qed.
Print Assumptions C32_match_partial.

(** ** The compiled pattern matches exactly the values the pattern stands for. On success the matcher has read exactly the
    pattern's code ([len pre + len code]) and has stored the i-th variable's value in the i-th slot above the matched value. *)
Theorem C32_pattern_partial : forall fuel c s' p P fp T tables tfuel depth code pre post K more m v,
  compiling fuel c -> legal_pat p = true -> alts_ok p = true -> (pdepth p <= depth)%nat -> Forall literal (plits p) ->
  visit_pat fuel p (PS (enter_scope c) true []) = Ok s' -> c_buf (ps_c s') = c_buf c ++ code ->
  setup_constants (return_bytes (c_pool (ps_c s')) [] []) = Ok K -> p_consts P = K ++ more -> p_code P = pre ++ code ++ post ->
  len (return_bytes (c_pool (ps_c s')) [] []) <= int_max -> len (p_code P) <= int_max -> Z.of_nat (length (p_consts P)) <= int_max -> heap_holds tfuel T tables ->
  let vars := scope_len (c_scopes c) in let sp := fp + 1 + vars in
  vars + Z.of_nat (length (pvars p)) <= 128 -> -1 <= fp -> sp + Z.of_nat (length (pvars p)) < 1024 ->
  match pmatch (p_list P) tables p v with
  | Some b => exists m', match_sub P T tfuel fp sp depth (len pre) m v = Ok (true, len pre + len code, m')
      /\ forall i x k, nth_error (pvars p) i = Some (x, k) -> m' (sp + 1 + Z.of_nat i) = Some (bound b x)
  | None => exists pc' m', match_sub P T tfuel fp sp depth (len pre) m v = Ok (false, pc', m')
  end.
Proof.
  intros fuel c s' p P fp T tables tfuel depth code pre post K more m v Hc Lg Al Dp Lt V B HK HKP C S1 S2 S3 Hh vars sp Hv Hfp Hsp.
  destruct (heap_facts _ _ _ Hh) as (HT & HTv & HTc). destruct (compiling_inv _ _ Hc) as [(cs & Pp & G) N Gl Cp].
  destruct (visit_pat_gen fuel p Lg (PS (enter_scope c) true []) s' cs [] (c_scopes c) V eq_refl Pp Lt) as (cs' & t & (_ & Dt & Rp) & Ip).
  cbn [ps_left ps_c] in Dt, Rp. specialize (Rp _ (slot_in_cons t (c_scopes c))). fold (case_scope (c_scopes c) p) in Dt. rewrite Dt in Rp. set (sl := slot_in (case_scope (c_scopes c) p)) in *.
  destruct Rp as (P' & _ & _ & _ & _ & Bf).
  pose proof (pool_setup _ _ [] [] P' ltac:(pose proof (pool_bytes _ _ P'); unfold len in S1; lia)) as PS. rewrite HK in PS. injection PS as PS. subst K.
  pose proof (Bf (p_consts P) ltac:(exists more; exact HKP)) as Bc. rewrite B in Bc. cbn [enter_scope set_scopes c_buf] in Bc. apply app_inv_head in Bc. change (slot_in (declp ([] :: c_scopes c) (pvars p))) with sl in Bc.
  assert (Li : incl (plits p) (p_consts P)) by (rewrite HKP; intros u Hu; apply in_or_app; left; apply Ip, Hu).
  assert (Vs : forall x, In x (map fst (pvars p)) -> exists i k, nth_error (pvars p) i = Some (x, k) /\ sl x = vars + Z.of_nat i /\ (i < length (pvars p))%nat).
  { intros x0 H0. apply in_map_iff in H0. destruct H0 as ((y0, k) & <- & I0). apply In_nth_error in I0. destruct I0 as (i & E). exists i, k. split; [exact E|]. split; [|apply nth_error_Some; congruence].
    cbn [fst]. unfold sl, case_scope. rewrite (declp_slot (pvars p) ([] :: c_scopes c) i y0 k ltac:(discriminate) (legal_distinct p Lg) E). rewrite scope_len_cons. cbn [length]. fold vars. lia. }
  assert (SN : 0 <= vars) by (unfold vars; apply scope_len_nonneg).
  assert (So : slots_ok fp sp sl p).
  { intros x0 Hx. destruct (Vs x0 Hx) as (i & k & _ & E & L). unfold slot_of. rewrite E. lia. }
  assert (Cd : code_at P (len pre) (gen_pat (p_consts P) sl p ++ [])) by (exists pre, post; rewrite app_nil_r, <- Bc; auto).
  pose proof (match_sub_ok P T tfuel fp sp sl tables (conj S2 S3) HT HTv HTc p depth Lg Al Li Lt So Dp (len pre) m v [] Cd) as Q.
  destruct (pmatch (p_list P) tables p v) as [b0|] eqn:Em.
  - destruct Q as (m' & Q & W). exists m'. rewrite <- Bc in Q. split; [exact Q|]. intros i x0 k E.
    assert (Ix : In x0 (map fst (pvars p))) by (apply in_map_iff; exists (x0, k); split; [reflexivity|eapply nth_error_In, E]).
    destruct (Vs x0 Ix) as (j & k' & E' & Es & _).
    assert (j = i). { pose proof (legal_distinct p Lg) as ND. rewrite NoDup_nth_error in ND. apply ND; [rewrite map_length; apply nth_error_Some; congruence|]. rewrite !nth_error_map, E, E'. reflexivity. } subst j.
    rewrite W. replace (sp + 1 + Z.of_nat i) with (slot_of fp sl x0) by (unfold slot_of, sp; lia).
    apply wr_get; [|exact (pm_nodup _ _ p Lg _ _ Em)|apply (pm_dom _ _ p Lg _ _ Em), Ix].
    intros y0 z0 Hy Hz E2. apply (pm_dom _ _ p Lg _ _ Em) in Hy. apply (pm_dom _ _ p Lg _ _ Em) in Hz. destruct (Vs y0 Hy) as (i1 & k1 & Q1 & T1 & _). destruct (Vs z0 Hz) as (i2 & k2 & Q2 & T2 & _).
    unfold slot_of in E2. assert (i1 = i2) by lia. subst i2. congruence.
  - destruct Q as (pc' & m' & qs & Q & _). eauto.
Qed.
Print Assumptions C32_pattern_partial.

(** ** Concrete programs: the statements [pre]; [match g { cls }]; the statements [post]. The global [g] holds [v]. *)
Definition lists0 (lst : list value) : Z -> list value := fun a => if a =? 0 then lst else [].
Definition match_code (pre : list stmt) (cls : list clause) (post : list stmt) : outcome (list Z) :=
  do c <- compiler_new; do c <- declglobals 64 [g] c; do c <- visit_s 64 (body pre) (enter_scope c); do c <- visit_match 64 (EVar g) cls c; do c <- visit_s 64 (body post) c;
  Ok (return_bytes (c_pool c) (c_buf c) []).
Definition gval (v : value) : name -> option value := fun q => if name_eqb q g then Some v else None.
Definition prints (v : value) (lst : list value) (T : Z -> table) (pre : list stmt) (cls : list clause) (post : list stmt) : option (outcome unit * list Z) :=
  match (do bc <- match_code pre cls post; load bc demo_world (lists0 lst) none) with
  | Ok P => match xrun P T 64 64 500 (XS (vm_start (gval v)) no_slots) with XEnd o s => Some (o, v_out s) | _ => None end
  | _ => None end.
Definition should_print (v : value) (lst : list value) (tables : Z -> list (value * value)) (pre : list stmt) (cls : list clause) (post : list stmt) : option (outcome unit * list Z) :=
  let h := host_of demo_world (lists0 lst) none [g] in
  match Stmt.exec h 50 (body pre) (Env [[]] (gval v) []) with
  | XOk Normal st =>
    match exec_match_stmt h tables 50 (EVar g) cls st with
    | XOk Normal st => match Stmt.exec h 50 (body post) st with XOk Normal st' => Some (Ok tt, e_out st') | _ => None end
    | _ => None end
  | _ => None end.
Definition t_of (ops : list Table.top) : Z -> table := fun _ => match run_new 64 ops with Ok t => t | _ => Tbl 0 0 0 [] end.
Definition echo_n (k : Z) : stmt := SEcho (EInt k).
Definition eq_ l r := EBin (BOp BEq) l r.

(** [match g { 7 -> echo 0; const x if x == -7 -> echo 1; [const a, 2 | 3] -> echo a; [[*, let b] | let b, int, ...] -> echo b;
    {.k: const y, ...} -> echo y; * -> echo 9 }] *)
Definition cls_ex : list clause :=
  [ (PInt 7, None, echo_n 0);
    (PBind true x, Some (eq_ (EVar x) (EInt (-7))), echo_n 1);
    (PList false [PBind true a; PAlt (PInt 2) (PInt 3)], None, SEcho (EVar a));
    (PList true [PAlt (PList false [PAny; PBind false b]) (PBind false b); PType PtInt], None, SEcho (EVar b));
    (PTable true [(PStr [107], PBind true y)], None, SEcho (EVar y));
    (PAny, None, echo_n 9) ].
Definition tops : list Table.top := [TSet (VStr [107]) (VInt 5); TSet (VInt 3) (VInt 4)].
Definition tents : Z -> list (value * value) := fun _ => [(VStr [107], VInt 5); (VInt 3, VInt 4)].
Example C32_nonvacuous :
  Forall (clause_fits 64 0 1 0) cls_ex /\ guards_safe cls_ex = true /\ heap_holds 64 (t_of tops) tents /\
  (exists bc, match_code [] cls_ex [] = Ok bc) /\
  map (fun vl => (prints (fst vl) (snd vl) (t_of tops) [] cls_ex [], should_print (fst vl) (snd vl) tents [] cls_ex []))
    [(VInt 7, []); (VInt (-7), []); (VList 0, [VInt 4; VInt 3]); (VList 0, [VInt 4; VInt 6]); (VTable 0, []); (VBool true, [])] =
  map (fun k => (Some (Ok tt, [48 + k; 10]), Some (Ok tt, [48 + k; 10]))) [0; 1; 4; 4; 5; 9].
Proof.
  split; [|split; [reflexivity|split; [|split]]].
  - unfold cls_ex. repeat apply Forall_cons; [..|apply Forall_nil]; (split; [reflexivity|]); (split; [reflexivity|]); (split; [vm_compute; lia|]); (split; [repeat constructor; vm_compute; intuition discriminate|]); repeat split; vm_compute; lia.
  - intros q. exists 64%nat, tops. split; [repeat constructor; discriminate|]. split; [vm_compute; auto|]. split; [vm_compute; reflexivity|]. split; [vm_compute; auto|]. split; [vm_compute; discriminate|].
    split; [repeat constructor; vm_compute; intuition discriminate|]. intros k v. unfold tents, tops, spec_run. cbn [fold_left spec_step]. unfold mset, mempty. cbn [In].
    destruct (value_eq_dec k (VInt 3)) as [->|N1]; [|destruct (value_eq_dec k (VStr [107])) as [->|N2]].
    + split; [intros [Q|[Q|[]]]; [discriminate|injection Q as <-; split; [exact I|reflexivity]]|intros (_ & Q); injection Q as <-; auto].
    + split; [intros [Q|[Q|[]]]; [injection Q as <-; split; [exact I|reflexivity]|discriminate]|intros (_ & Q); injection Q as <-; auto].
    + split; [intros [Q|[Q|[]]]; exfalso; congruence|intros (_ & Q); discriminate].
  - eexists. vm_compute. reflexivity.
  - vm_compute. reflexivity.
Qed.

(** ** What the restrictions exclude is false of the code. *)
(** No clause applies: the matched value stays on the stack, in the place of the next variable.
    [match 5 { 1 -> {} }; let x = 7; echo x] prints 5. *)
Theorem C32_no_clause_refuted : let cls := [(PInt 1, None, SSkip)] in let post := [let_ x (EInt 7); SEcho (EVar x)] in
  should_print (VInt 5) [] tents [] cls post = Some (Ok tt, [55; 10]) /\ prints (VInt 5) [] (t_of []) [] cls post = Some (Ok tt, [53; 10]).
Proof. split; vm_compute; reflexivity. Qed.
Print Assumptions C32_no_clause_refuted.
(** A guard fails after a variable was bound inside a list: the matched value is popped and the clauses after it are given the
    first variable instead. [[0, 6]] against [[0, const y] if y < 5 -> echo 1; [0, *] -> echo 2; * -> echo 3] prints 3. *)
Theorem C32_guard_refuted : exists cls, Forall (clause_fits 64 0 1 0) cls /\
  should_print (VList 0) [VInt 0; VInt 6] tents [] cls [] = Some (Ok tt, [50; 10]) /\ prints (VList 0) [VInt 0; VInt 6] (t_of []) [] cls [] = Some (Ok tt, [51; 10]).
Proof.
  exists [(PList false [PInt 0; PBind true y], Some (lt_ (EVar y) (EInt 5)), echo_n 1); (PList false [PInt 0; PAny], None, echo_n 2); (PAny, None, echo_n 3)].
  split; [|split; vm_compute; reflexivity].
  repeat apply Forall_cons; [..|apply Forall_nil]; (split; [reflexivity|]); (split; [reflexivity|]); (split; [vm_compute; lia|]); (split; [repeat constructor; vm_compute; intuition discriminate|]); repeat split; vm_compute; lia.
Qed.
Print Assumptions C32_guard_refuted.
(** The guard of the last clause holds and the clause has a variable: after the body a value too many is popped.
    [let x = 7; let y = 8; match 3 { const a if a < 5 -> echo a }; let i = 6; echo y] prints 3 and 6. *)
Theorem C32_last_guard_refuted : exists pre cls post, Forall (clause_fits 64 2 3 0) cls /\
  should_print (VInt 3) [] tents pre cls post = Some (Ok tt, [51; 10; 56; 10]) /\ prints (VInt 3) [] (t_of []) pre cls post = Some (Ok tt, [51; 10; 54; 10]).
Proof.
  exists [let_ x (EInt 7); let_ y (EInt 8)], [(PBind true a, Some (lt_ (EVar a) (EInt 5)), SEcho (EVar a))], [let_ i (EInt 6); SEcho (EVar y)].
  split; [|split; vm_compute; reflexivity].
  repeat apply Forall_cons; [..|apply Forall_nil]; (split; [reflexivity|]); (split; [reflexivity|]); (split; [vm_compute; lia|]); (split; [repeat constructor; vm_compute; intuition discriminate|]); repeat split; vm_compute; lia.
Qed.
Print Assumptions C32_last_guard_refuted.
(** A key that is missing on the left of |: the value's pattern [*] is taken for the alternative, so [{.b: *, ...} | 7] matches
    the empty table. *)
Theorem C32_missing_key_refuted : exists p, legal_pat p = true /\
  should_print (VTable 0) [] (fun _ => []) [] [(p, None, echo_n 1); (PAny, None, echo_n 2)] [] = Some (Ok tt, [50; 10]) /\
  prints (VTable 0) [] (t_of []) [] [(p, None, echo_n 1); (PAny, None, echo_n 2)] [] = Some (Ok tt, [49; 10]).
Proof. exists (PAlt (PTable true [(PStr [98], PAny)]) (PInt 7)). split; [reflexivity|]. split; vm_compute; reflexivity. Qed.
Print Assumptions C32_missing_key_refuted.
(** A key that is not a literal is compiled, and matching reads an uninitialised value: [{int: *}]. *)
Theorem C32_key_refuted : exists p, prints (VTable 0) [] (t_of [TSet (VInt 1) (VInt 2)]) [] [(p, None, echo_n 1)] [] = Some (UB, []).
Proof. exists (PTable false [(PType PtInt, PAny)]). vm_compute. reflexivity. Qed.
Print Assumptions C32_key_refuted.
(** The alternatives of | need not bind the same variables: the right one can bind again what was bound before it, as in
    [[const x, (1 | const x)]]; for [[5, 6]] it prints 6. *)
Theorem C32_alternatives_refuted : exists p, legal_pat p = false /\ prints (VList 0) [VInt 5; VInt 6] (t_of []) [] [(p, None, SEcho (EVar x))] [] = Some (Ok tt, [54; 10]).
Proof. exists (PList false [PBind true x; PAlt (PInt 1) (PBind true x)]). split; vm_compute; reflexivity. Qed.
Print Assumptions C32_alternatives_refuted.
