(** C38, C39: the embedding API. The promise (an abstract machine read off /repo/yasl.h) is ApiSpec.v, the model Api.v. *)
From Verif Require Import Base Value ValueProofs Hash Table TableSpec TableProofs TableProofs3 Lists ListSpec Api ApiSpec ApiProofs.
From Coq Require Import Permutation.

(** A state some host program has reached by promised calls, with the abstract state it should show. *)
Definition reached (fuel : nat) (run : bool) (s : api) (a : host) : Prop :=
  exists ops s0 rs, Z.of_nat (length ops) < 2 ^ 28 /\
    api_new run = Ok s0 /\ promises (host_new run) ops = HsOk a rs /\ hruns fuel s0 ops = Ok (s, rs).
Lemma reached_sim fuel run s a : FUEL_BOUND <= Z.of_nat fuel -> reached fuel run s a -> exists n, n < 2 ^ 29 /\ sim n s a.
Proof.
  intros F (ops & s0 & rs & L & E & P & R). destruct (sim_new run) as (s0' & E' & S0). rewrite E in E'. injection E' as <-.
  pose proof (runs_agree fuel F ops 0 s0 _ ltac:(lia) S0) as H. rewrite P in H. destruct H as (s' & n' & A & B). rewrite R in A. injection A as <-.
  assert (G : forall ops n s a, n + Z.of_nat (length ops) < 2 ^ 29 -> sim n s a -> forall a' rs s', promises a ops = HsOk a' rs -> hruns fuel s ops = Ok (s', rs) ->
              exists n', n' < 2 ^ 29 /\ sim n' s' a').
  { clear - F. induction ops as [|o ops IH]; intros n s a B H a' rs s' P R; cbn [promises hruns] in *.
    - injection P as <- <-. injection R as <-. cbn in B. exists n. split; [lia|exact H].
    - cbn [length] in B. pose proof (step_agrees fuel n F ltac:(lia) s a o H) as K. destruct (promise a o) as [a1 r|e|]; try discriminate P.
      destruct K as (s1 & E1 & S1). rewrite E1 in R. cbn [bind] in R. destruct (promises a1 ops) as [a2 rs2|e|] eqn:P2; try discriminate P. injection P as <- <-.
      destruct (hruns fuel s1 ops) as [[s2 rs3]|e| |] eqn:R2; cbn [bind] in R; try discriminate R. injection R as <- <-.
      apply (IH (n + 1) s1 a1 ltac:(lia) S1 _ _ _ P2 R2). }
  apply (G ops 0 s0 _ ltac:(lia) S0 _ _ _ P R).
Qed.

(** ** C39: any host program (any sequence of API calls) whose calls are promised returns exactly the promised results
    and leaves the promised stack, containers, globals and metatables; a promised error is raised. *)
Theorem C39_host_history : forall fuel run ops, FUEL_BOUND <= Z.of_nat fuel -> Z.of_nat (length ops) <= 2 ^ 29 ->
  exists s0, api_new run = Ok s0 /\
  match promises (host_new run) ops with
  | HsOk a rs => exists s, hruns fuel s0 ops = Ok (s, rs) /\ shows fuel s a
  | HsErr e => hruns fuel s0 ops = Err e
  | HsNot => True
  end.
Proof.
  intros fuel run ops F L. destruct (sim_new run) as (s0 & E & S0). exists s0. split; [exact E|].
  pose proof (runs_agree fuel F ops 0 s0 _ ltac:(lia) S0) as H. destruct (promises (host_new run) ops); try exact H.
  destruct H as (s & n & A & B). exists s. split; [exact A|]. apply (sim_shows fuel n); assumption.
Qed.
Print Assumptions C39_host_history.

Definition ex_host : list hop :=
  [HPushTable; HPush (VStr [107]); HPush (VInt 1); HTableSet; HPush (VStr [107]); HPush (VInt 2); HTableSet; HLen; HPopInt;
   HPushList; HPush (VInt 5); HListPush; HPush (VBool true); HListPush; HListGet (-1); HPopBool; HListGet 0; HPeekInt; HIs KInt; HIs KFloat;
   HDecl [120]; HSetGlobal [120]; HLoadGlobal [120]; HLoadGlobal [121]; HSetGlobal [121]; HDup; HFrame 2; HPeekNInt 1; HPush (VStr [104; 105]); HPopCstr;
   HPushTable; HRegisterMt [109]; HPushList; HLoadMt [109]; HSetMt; HPush (VInt 1); HListGet 0].
Example C39_nonvacuous :
  (exists a, promises (host_new true) ex_host = HsOk a
   [RUnit; RUnit; RUnit; RStatus Success; RUnit; RUnit; RStatus Success; RUnit; RInt 1;
    RUnit; RUnit; RStatus Success; RUnit; RStatus Success; RStatus Success; RBool true; RStatus Success; RInt 5; RBool true; RBool false;
    RStatus Success; RStatus Success; RStatus Success; RStatus (Failure EError); RStatus (Failure EError); RStatus Success; RUnit; RInt 5; RUnit; RCstr (Some [104; 105; 0]);
    RUnit; RStatus Success; RUnit; RStatus Success; RStatus Success; RUnit; RStatus (Failure EType)]) /\
  promises (host_new true) (ex_host ++ [HPop; HListGet 7]) = HsErr EValue /\
  promises (host_new true) (repeat (HPush (VInt 0)) 1025) = HsErr EStackOverflow /\
  (exists a, promises (host_new true) (repeat (HPush (VInt 0)) 1024) = HsOk a (repeat RUnit 1024)).
Proof.
  split; [eexists; vm_compute; reflexivity|]. split; [vm_compute; reflexivity|]. split; [vm_compute; reflexivity|]. eexists; vm_compute; reflexivity.
Qed.

(** Iterating with YASL_tablenext from undef meets every entry exactly once, and leaves the table on top. *)
Theorem C39_tablenext_enumerates : forall fuel run s a p st m, FUEL_BOUND <= Z.of_nat fuel -> reached fuel run s a ->
  h_stack a = VUndef :: VTable p :: st -> (length st + 3 <= 1024)%nat -> h_tables a p = Some m ->
  exists steps s' l, next_loop fuel steps s = Ok (s', l) /\ Permutation l m /\ shows fuel s' (with_stack a (VTable p :: st)).
Proof.
  intros fuel run s a p st m F R E L M. destruct (reached_sim fuel run s a F R) as (n & _ & H).
  pose proof (sm_tables _ _ _ H p) as T. rewrite M in T. destruct T as (t & Et & Ht & _). pose proof (sm_stk _ _ _ H) as K. rewrite E in K.
  destruct (hd_inv _ _ Ht) as (j & I). pose proof (ti_wf _ _ I) as W.
  assert (NA : next_all fuel (S (length (t_items t))) t VUndef = Ok (map kv (for_table t))).
  { apply next_all_ok; [exact W| |lia]. pose proof (wf_lim t W). unfold FUEL_BOUND, ALLOC_LIMIT in *. lia. }
  destruct (next_loop_all fuel p t st _ s VUndef _ K L Et NA) as (sl & sp & NE & K').
  exists (S (length (t_items t))), (set_stack s sl sp), (map kv (for_table t)). split; [exact NE|]. split; [apply kv_perm, Ht|].
  apply (sim_shows fuel n); [exact F|]. apply sim_stack; assumption.
Qed.
Print Assumptions C39_tablenext_enumerates.
Lemma reached_intro fuel run ops s0 a rs : FUEL_BOUND <= Z.of_nat fuel -> Z.of_nat (length ops) < 2 ^ 28 -> api_new run = Ok s0 ->
  promises (host_new run) ops = HsOk a rs -> exists s, reached fuel run s a.
Proof.
  intros F L E P. destruct (sim_new run) as (s0' & E' & S0). rewrite E in E'. injection E' as <-.
  pose proof (runs_agree fuel F ops 0 s0 _ ltac:(lia) S0) as H. rewrite P in H. destruct H as (s & n & R & _). exists s, ops, s0, rs. auto.
Qed.
Example C39_tablenext_nonvacuous : forall fuel, FUEL_BOUND <= Z.of_nat fuel -> exists s a, reached fuel true s a /\
  h_stack a = [VUndef; VTable 1] /\ h_tables a 1 = Some [(VInt 1, VBool true); (VStr [107], VInt 9)].
Proof.
  intros fuel F. destruct (sim_new true) as (s0 & E & _).
  destruct (reached_intro fuel true [HPushTable; HPush (VInt 1); HPush (VBool true); HTableSet; HPush (VStr [107]); HPush (VInt 9); HTableSet; HPush VUndef] s0
    (Host [VUndef; VTable 1] 0 (fun _ => None) (at_addr (at_addr (at_addr (fun _ => None) 1 []) 1 [(VInt 1, VBool true)]) 1 [(VInt 1, VBool true); (VStr [107], VInt 9)])
      (fun _ => None) [] [] (fun _ => false) 2 true) [RUnit; RUnit; RUnit; RStatus Success; RUnit; RUnit; RStatus Success; RUnit] F) as (s & R).
  - vm_compute. reflexivity.
  - exact E.
  - reflexivity.
  - exists s. eexists. split; [exact R|]. split; reflexivity.
Qed.

(** ** C38: reading never changes the state, whatever it is; popping a value of the right type removes exactly it. *)
Definition reads (o : hop) : bool :=
  match o with
  | HIs _ | HIsN _ _ | HPeekBool | HPeekFloat | HPeekInt | HPeekNBool _ | HPeekNFloat _ | HPeekNInt _ | HPeekCstr => true
  | _ => false
  end.
Theorem C38_reads_change_nothing : forall fuel s o s' r, reads o = true -> hstep fuel s o = Ok (s', r) -> s' = s.
Proof.
  intros fuel s o s' r R E. destruct o; try discriminate R; cbn [hstep] in E.
  - destruct k; unfold ret, YASL_isundef, YASL_isbool, YASL_isfloat, YASL_isint, YASL_isstr, YASL_islist, YASL_istable, a_test in E; destruct (a_peek s); cbn in E; congruence.
  - destruct k; unfold ret, YASL_isnundef, YASL_isnbool, YASL_isnfloat, YASL_isnint, YASL_isnstr, YASL_isnlist, YASL_isntable, a_testn in E; destruct (a_slot s (a_fp s + 1 + n)); cbn in E; congruence.
  - unfold ret, YASL_peekbool, YASL_isbool, a_test in E. destruct (a_peek s) as [v| | |] eqn:P; cbn in E; try discriminate E. destruct v; cbn in E; rewrite ?P in E; cbn in E; congruence.
  - unfold ret, YASL_peekfloat, YASL_isfloat, a_test in E. destruct (a_peek s) as [v| | |] eqn:P; cbn in E; try discriminate E. destruct v; cbn in E; rewrite ?P in E; cbn in E; congruence.
  - unfold ret, YASL_peekint, YASL_isint, a_test in E. destruct (a_peek s) as [v| | |] eqn:P; cbn in E; try discriminate E. destruct v; cbn in E; rewrite ?P in E; cbn in E; congruence.
  - unfold ret, YASL_peeknbool, YASL_isnbool, a_testn in E. destruct (a_slot s (a_fp s + 1 + n)) as [v| | |] eqn:P; cbn in E; try discriminate E. destruct v; cbn [v_isbool bind] in E; rewrite ?P in E; cbn in E; congruence.
  - unfold ret, YASL_peeknfloat, YASL_isnfloat, a_testn in E. destruct (a_slot s (a_fp s + 1 + n)) as [v| | |] eqn:P; cbn in E; try discriminate E. destruct v; cbn [v_isfloat bind] in E; rewrite ?P in E; cbn in E; congruence.
  - unfold ret, YASL_peeknint, YASL_isnint, a_testn in E. destruct (a_slot s (a_fp s + 1 + n)) as [v| | |] eqn:P; cbn in E; try discriminate E. destruct v; cbn [v_isint bind] in E; rewrite ?P in E; cbn in E; congruence.
  - unfold ret, YASL_peekcstr, YASL_isstr, a_test in E. destruct (a_peek s) as [v| | |] eqn:P; cbn in E; try discriminate E. destruct v; cbn in E; rewrite ?P in E; cbn in E; congruence.
Qed.
Print Assumptions C38_reads_change_nothing.

Theorem C38_pops_remove_the_top : forall fuel run s a v st, FUEL_BOUND <= Z.of_nat fuel -> reached fuel run s a -> h_stack a = v :: st ->
  (forall i, v = VInt i -> exists s', YASL_popint s = Ok (s', i) /\ shows fuel s' (with_stack a st)) /\
  (forall b, v = VBool b -> exists s', YASL_popbool s = Ok (s', b) /\ shows fuel s' (with_stack a st)) /\
  (forall f, v = VFloat f -> exists s', YASL_popfloat s = Ok (s', f) /\ shows fuel s' (with_stack a st)) /\
  (exists s', YASL_popcstr s = Ok (s', match v with VStr x => Some (x ++ [0]) | _ => None end) /\ shows fuel s' (with_stack a st)).
Proof.
  intros fuel run s a v st F R E. destruct (reached_sim fuel run s a F R) as (n & N & H).
  assert (G : forall o r, promise a o = HOk (with_stack a st) r -> exists s', hstep fuel s o = Ok (s', r) /\ shows fuel s' (with_stack a st)).
  { intros o r P. pose proof (step_agrees fuel n F N s a o H) as K. rewrite P in K. destruct K as (s' & A & B). exists s'. split; [exact A|]. apply (sim_shows fuel (n + 1)); assumption. }
  repeat split.
  - intros i ->. destruct (G HPopInt (RInt i)) as (s' & A & B); [cbn; unfold popping; rewrite E; reflexivity|]. cbn [hstep] in A. unfold ret in A.
    destruct (YASL_popint s) as [[s1 x]| | |]; cbn in A; try discriminate A. injection A as <- <-. eauto.
  - intros b ->. destruct (G HPopBool (RBool b)) as (s' & A & B); [cbn; unfold popping; rewrite E; reflexivity|]. cbn [hstep] in A. unfold ret in A.
    destruct (YASL_popbool s) as [[s1 x]| | |]; cbn in A; try discriminate A. injection A as <- <-. eauto.
  - intros f ->. destruct (G HPopFloat (RFloat f)) as (s' & A & B); [cbn; unfold popping; rewrite E; reflexivity|]. cbn [hstep] in A. unfold ret in A.
    destruct (YASL_popfloat s) as [[s1 x]| | |]; cbn in A; try discriminate A. injection A as <- <-. eauto.
  - destruct (G HPopCstr (RCstr (match v with VStr x => Some (x ++ [0]) | _ => None end))) as (s' & A & B); [cbn; unfold popping; rewrite E; reflexivity|]. cbn [hstep] in A. unfold ret in A.
    destruct (YASL_popcstr s) as [[s1 x]| | |]; cbn [bind] in A; try discriminate A. injection A as <- <-. eauto.
Qed.
Print Assumptions C38_pops_remove_the_top.
Example C38_nonvacuous : forall fuel, FUEL_BOUND <= Z.of_nat fuel -> exists s a, reached fuel true s a /\ h_stack a = [VInt 7; VStr [104]].
Proof.
  intros fuel F. destruct (sim_new true) as (s0 & E & _).
  destruct (reached_intro fuel true [HPush (VStr [104]); HPush (VInt 7)] s0 (with_stack (host_new true) [VInt 7; VStr [104]]) [RUnit; RUnit] F) as (s & R);
    [vm_compute; reflexivity|exact E|reflexivity|]. exists s, (with_stack (host_new true) [VInt 7; VStr [104]]). split; [exact R|reflexivity].
Qed.

(** The header says the pop functions remove the top of the stack whatever it is ([-1, +0]); on another type they
    return 0 and remove nothing, so the value stays in the way of what is below. *)
Theorem C38_pop_mismatch_refuted : forall fuel run s a v st, FUEL_BOUND <= Z.of_nat fuel -> reached fuel run s a -> h_stack a = v :: st ->
  (has_kind KInt v = false -> YASL_popint s = Ok (s, 0)) /\
  (has_kind KBool v = false -> YASL_popbool s = Ok (s, false)) /\
  (has_kind KFloat v = false -> YASL_popfloat s = Ok (s, S754_zero false)).
Proof.
  intros fuel run s a v st F R E. destruct (reached_sim fuel run s a F R) as (n & N & H). pose proof (sim_peek _ _ _ _ _ H E) as P.
  repeat split; intros K; [unfold YASL_popint, YASL_isint|unfold YASL_popbool, YASL_isbool|unfold YASL_popfloat, YASL_isfloat];
    unfold a_test; rewrite P; cbn [bind]; destruct v; try discriminate K; reflexivity.
Qed.
Print Assumptions C38_pop_mismatch_refuted.

(** ** Promises the code breaks *)
Definition run_host (fuel : nat) (run : bool) (ops : list hop) : outcome (list hres) :=
  do s0 <- api_new run; do (_, rs) <- hruns fuel s0 ops; Ok rs.
(** A declared global set to undef is lost when a global whose name falls into the same slot is set ("B" and "a"):
    loading it then fails, and setting it again does not disturb the other. *)
Theorem C39_global_undef_refuted :
  run_host 100 true [HDecl [66]; HDecl [97]; HPush VUndef; HSetGlobal [66]; HLoadGlobal [66]; HIs KUndef] =
    Ok [RStatus Success; RStatus Success; RUnit; RStatus Success; RStatus Success; RBool true] /\
  run_host 100 true [HDecl [66]; HDecl [97]; HPush VUndef; HSetGlobal [66]; HPush (VInt 1); HSetGlobal [97]; HLoadGlobal [66]] =
    Ok [RStatus Success; RStatus Success; RUnit; RStatus Success; RUnit; RStatus Success; RStatus (Failure EError)].
Proof. split; vm_compute; reflexivity. Qed.
Print Assumptions C39_global_undef_refuted.
(** Storing undef with YASL_tableset does not remove the key: the length grows and the entry is still enumerated. *)
Theorem C39_tableset_undef_refuted :
  run_host 100 true [HPushTable; HPush (VInt 1); HPush VUndef; HTableSet; HLen; HPopInt] =
    Ok [RUnit; RUnit; RUnit; RStatus Success; RUnit; RInt 1].
Proof. vm_compute. reflexivity. Qed.
Print Assumptions C39_tableset_undef_refuted.
(** YASL_setmt accepts undef on top, meaning "no metatable", but never pops it: it always fails, for every value below. *)
Theorem C39_setmt_undef_refuted : forall fuel run s a st, FUEL_BOUND <= Z.of_nat fuel -> reached fuel run s a -> h_stack a = VUndef :: st ->
  YASL_setmt s = Ok (s, Failure EType).
Proof.
  intros fuel run s a st F R E. destruct (reached_sim fuel run s a F R) as (n & N & H). pose proof (sim_peek _ _ _ _ _ H E) as P.
  unfold YASL_setmt. rewrite P. cbn [bind v_istable v_isundef negb andb]. rewrite P. reflexivity.
Qed.
Print Assumptions C39_setmt_undef_refuted.
(** YASL_setglobal is documented to pop the value ([-1, +0]); for an undeclared name it returns an error and leaves it.
    YASL_registermt is documented to leave the stack alone ([-0, +0]); it pops the table. *)
Theorem C39_stack_effects_refuted :
  run_host 100 true [HPush (VInt 3); HPush (VInt 4); HSetGlobal [97]; HPopInt] = Ok [RUnit; RUnit; RStatus (Failure EError); RInt 4] /\
  run_host 100 true [HPush (VInt 3); HPushTable; HRegisterMt [97]; HPopInt] = Ok [RUnit; RUnit; RStatus Success; RInt 3].
Proof. split; vm_compute; reflexivity. Qed.
Print Assumptions C39_stack_effects_refuted.
(** Called by a host outside YASL_execute, the calls that raise errors jump to a buffer that was never set. *)
Theorem C39_errors_outside_execution_refuted :
  run_host 100 true [HPushList; HListGet 0] = Err EValue /\ run_host 100 false [HPushList; HListGet 0] = UB /\
  run_host 100 false (repeat (HPush VUndef) 1025) = UB.
Proof. split; [|split]; vm_compute; reflexivity. Qed.
Print Assumptions C39_errors_outside_execution_refuted.
