(** The interpreter with hash-table globals simulates the one with a map, while no global is set to undef. *)
From Verif Require Import Base Bytes Value ValueProofs Hash Table TableSpec TableProofs3 Ops VM Globals ApiSpec ApiProofs.
Local Open Scope Z_scope.

Definition regl (g : list Z -> option value) (r : sres) : sres :=
  match r with Next s => Next (set_gl s g) | Stop o s => Stop o (set_gl s g) | Outside s => Outside (set_gl s g) end.

Lemma push_regl g s v : push (set_gl s g) v = regl g (push s v).
Proof. unfold push. change (sp (set_gl s g)) with (sp s). destruct (sp s + 1 >=? STACK_SIZE); reflexivity. Qed.
Lemma pop_regl g s f f' : (forall v s, f' v (set_gl s g) = regl g (f v s)) -> pop (set_gl s g) f' = regl g (pop s f).
Proof. intros H. unfold pop. cbn [set_gl v_stk]. destruct (v_stk s); [reflexivity|]. apply (H v (set_stk s l)). Qed.
Lemma rd1_regl g P s f f' : (forall b s, f' b (set_gl s g) = regl g (f b s)) -> rd1 P (set_gl s g) f' = regl g (rd1 P s f).
Proof. intros H. unfold rd1. cbn [set_gl v_pc]. destruct (nthZ (p_code P) (v_pc s)); [|reflexivity]. apply (H z (set_pc s (v_pc s + 1))). Qed.
Lemma rd8_regl g P s f f' : (forall b s, f' b (set_gl s g) = regl g (f b s)) -> rd8 P (set_gl s g) f' = regl g (rd8 P s f).
Proof. intros H. unfold rd8. cbn [set_gl v_pc]. destruct (read8 (p_code P) (v_pc s)); try reflexivity. apply (H a (set_pc s (v_pc s + 8))). Qed.
Lemma lift_regl {A} g s (o : outcome A) f f' : (forall a, f' a = regl g (f a)) -> lift (set_gl s g) o f' = regl g (lift s o f).
Proof. intros H. destruct o; cbn [lift]; try reflexivity. apply H. Qed.
Lemma opt_regl {A} g s (o : option A) f f' : (forall a, f' a = regl g (f a)) -> opt (set_gl s g) o f' = regl g (opt s o f).
Proof. intros H. destruct o; cbn [opt]; try reflexivity. apply H. Qed.
Lemma undefs_regl g n : forall s, push_undefs n (set_gl s g) = regl g (push_undefs n s).
Proof.
  induction n as [|n IH]; intros s; cbn [push_undefs]; [reflexivity|]. rewrite push_regl. destruct (push s VUndef) as [s'|o s'|s']; cbn [regl]; try reflexivity. apply IH.
Qed.
Lemma add_upvalue_regl g s loc : add_upvalue (set_gl s g) loc = option_map (fun r => (fst r, set_gl (snd r) g)) (add_upvalue s loc).
Proof. unfold add_upvalue. cbn [set_gl v_upv v_pending]. destruct (find_upv (v_upv s) [] (v_pending s) loc) as [[c|[pre post]]|]; reflexivity. Qed.
Lemma capture_regl g P n : forall s acc f f', (forall i s, f' i (set_gl s g) = regl g (f i s)) -> capture P n (set_gl s g) acc f' = regl g (capture P n s acc f).
Proof.
  induction n as [|n IH]; intros s acc f f' H; cbn [capture]; [apply H|]. apply rd1_regl. intros u s0. destruct (schar u >=? 0).
  - cbn [set_gl v_fp]. change (VS (v_pc s0) (v_stk s0) (v_fp s0) g (v_out s0) (v_loops s0) (v_frames s0) (v_next_fp s0) (v_upv s0) (v_pending s0) (v_clo s0)) with (set_gl s0 g).
    rewrite add_upvalue_regl. destruct (add_upvalue s0 (v_fp s0 + 1 + u)) as [[c s1]|]; cbn [option_map opt fst snd]; [|reflexivity]. apply IH, H.
  - apply opt_regl. intros k. apply opt_regl. intros id. apply IH, H.
Qed.
Lemma fill_regl g s n f f' : (forall s, f' (set_gl s g) = regl g (f s)) -> fill_args (set_gl s g) n f' = regl g (fill_args s n f).
Proof.
  intros H. unfold fill_args. change (sp (set_gl s g)) with (sp s). change (v_fp (set_gl s g)) with (v_fp s). change (v_stk (set_gl s g)) with (v_stk s).
  destruct (sp s - v_fp s <? n).
  - rewrite undefs_regl. destruct (push_undefs (Z.to_nat (n - (sp s - v_fp s))) s); cbn [regl]; try reflexivity. apply H.
  - apply (H (set_stk s (skipn (Z.to_nat (sp s - v_fp s - n)) (v_stk s)))).
Qed.
Lemma native_regl g P s code : call_native P (set_gl s g) code = regl g (call_native P s code).
Proof.
  unfold call_native. change (v_frames (set_gl s g)) with (v_frames s). destruct (v_frames s) as [|fr frs]; [reflexivity|].
  destruct (nthZ (p_code P) code) as [n|]; [|reflexivity].
  apply (fill_regl g (set_frames s (v_fp s) (CF (v_pc s) (f_prev_fp fr) (f_curr_fp fr) (f_lp fr) (f_nret fr) :: frs) (v_next_fp s))). reflexivity.
Qed.
Lemma exitframe_regl g s n : exitframe (set_gl s g) n = regl g (exitframe s n).
Proof.
  unfold exitframe. change (v_stk (set_gl s g)) with (v_stk s). change (v_fp (set_gl s g)) with (v_fp s). apply opt_regl. intros k.
  change (v_frames (set_gl s g)) with (v_frames s). destruct (v_frames s) as [|fr frs]; [reflexivity|].
  change (set_stk (set_gl s g) k) with (set_gl (set_stk s k) g). generalize (set_stk s k). intros s1. cbv zeta.
  change (sp (set_gl s1 g)) with (sp s1). change (v_fp (set_gl s1 g)) with (v_fp s1).
  destruct (f_nret fr <? 0); [reflexivity|]. destruct (sp s1 + 1 - v_fp s1 <? f_nret fr); [|reflexivity].
  rewrite undefs_regl. destruct (push_undefs (Z.to_nat (f_nret fr - (sp s1 + 1 - v_fp s1))) s1); reflexivity.
Qed.
Lemma iter_regl g P s : exec_iter P (set_gl s g) = regl g (exec_iter P s).
Proof.
  unfold exec_iter. change (v_loops (set_gl s g)) with (v_loops s). destruct (v_loops s) as [|[it i] rest]; [reflexivity|].
  destruct (elements P it) as [vs|]; [|reflexivity]. destruct (nthZ vs i) as [v|]; [|apply push_regl].
  change (set_loops (set_gl s g) ((it, i + 1) :: rest)) with (set_gl (set_loops s ((it, i + 1) :: rest)) g). rewrite push_regl.
  destruct (push (set_loops s ((it, i + 1) :: rest)) v); cbn [regl]; try reflexivity. apply push_regl.
Qed.
Lemma init_regl g s n : init_call (set_gl s g) n = regl g (init_call s n).
Proof.
  unfold init_call. change (v_stk (set_gl s g)) with (v_stk s). destruct (v_stk s) as [|v k]; [reflexivity|].
  change (v_frames (set_gl s g)) with (v_frames s). destruct v; try reflexivity; destruct (Z.of_nat (length (v_frames s)) >=? NUM_FRAMES); reflexivity.
Qed.
Lemma exec_call_regl g P s : exec_call P (set_gl s g) = regl g (exec_call P s).
Proof.
  unfold exec_call. change (set_frames (set_gl s g) (v_next_fp (set_gl s g)) (v_frames (set_gl s g)) (v_next_fp (set_gl s g))) with (set_gl (set_frames s (v_next_fp s) (v_frames s) (v_next_fp s)) g).
  generalize (set_frames s (v_next_fp s) (v_frames s) (v_next_fp s)). intros s1. cbv zeta.
  change (slot_get (v_stk (set_gl s1 g)) (v_fp (set_gl s1 g))) with (slot_get (v_stk s1) (v_fp s1)).
  destruct (slot_get (v_stk s1) (v_fp s1)) as [v|]; [|reflexivity]. destruct v; try reflexivity; [apply native_regl|].
  apply opt_regl. intros c. apply native_regl.
Qed.
Lemma close_regl g s f f' : (forall s, f' (set_gl s g) = regl g (f s)) -> close_all (set_gl s g) f' = regl g (close_all s f).
Proof.
  intros H. unfold close_all. change (close_pending (v_stk (set_gl s g)) (v_fp (set_gl s g)) (v_upv (set_gl s g)) (v_pending (set_gl s g)))
    with (close_pending (v_stk s) (v_fp s) (v_upv s) (v_pending s)).
  destruct (close_pending (v_stk s) (v_fp s) (v_upv s) (v_pending s)) as [[u p]|]; [|reflexivity]. apply (H (set_upv s u p)).
Qed.
Lemma upval_set_regl g s id v : upval_set (set_gl s g) id v = option_map (fun s => set_gl s g) (upval_set s id v).
Proof.
  unfold upval_set. change (v_upv (set_gl s g)) with (v_upv s). destruct (nth_error (v_upv s) id) as [[l|w]|]; try reflexivity.
  change (v_stk (set_gl s g)) with (v_stk s). destruct (slot_set (v_stk s) l v); reflexivity.
Qed.

Lemma exec_regl g P o s : o <> O_GLOAD_8 -> o <> O_GSTORE_8 -> exec P o (set_gl s g) = regl g (exec P o s).
Proof.
  intros N1 N2. destruct o; try congruence; cbn [exec]; try reflexivity; try apply push_regl.
  - (* FCONST *) apply rd8_regl. intros c s0. change (v_pc (set_gl s0 g)) with (v_pc s0). rewrite push_regl. destruct (push s0 (VFn (v_pc s0))); reflexivity.
  - (* CCONST *) apply rd8_regl. intros c s0. apply (rd1_regl g P (set_pc s0 (v_pc s0 + c))). intros n s1. apply capture_regl. intros ids s2.
    apply (push_regl g (add_clo s2 (Clo (v_pc s0) ids))).
  - apply pop_regl. intros b s0. apply pop_regl. intros a s1. apply lift_regl. intros r. apply push_regl.
  - apply pop_regl. intros b s0. apply lift_regl. intros r. apply push_regl.
  - (* ASS *) apply pop_regl. intros v s0. destruct (is_falsey v); [|reflexivity]. apply lift_regl. reflexivity.
  - (* LIT *) apply rd1_regl. intros b s0. apply opt_regl. intros v. apply push_regl.
  - apply rd8_regl. intros b s0. apply opt_regl. intros v. apply push_regl.
  - (* MOVEUP *) apply rd1_regl. intros b s0. apply (opt_regl g s0). reflexivity.
  - (* SWAP *) apply pop_regl. intros a s0. apply pop_regl. reflexivity.
  - (* DUP *) change (v_stk (set_gl s g)) with (v_stk s). destruct (v_stk s); [reflexivity|]. apply push_regl.
  - (* DECSP *) apply rd1_regl. reflexivity.
  - (* POP *) apply pop_regl. reflexivity.
  - apply rd8_regl. reflexivity.
  - apply rd8_regl. intros c s0. apply pop_regl. intros v s1. cbn [regl]. destruct (is_falsey v); reflexivity.
  - apply rd8_regl. intros c s0. apply pop_regl. intros v s1. cbn [regl]. destruct (is_falsey v); reflexivity.
  - apply rd8_regl. intros c s0. apply pop_regl. intros v s1. cbn [regl]. destruct (is_undef v); reflexivity.
  - (* INITFOR *) apply pop_regl. intros v s0. change (v_loops (set_gl s0 g)) with (v_loops s0). destruct (Z.of_nat (length (v_loops s0)) >=? NUM_LOOPS); reflexivity.
  - (* ENDCOMP *) apply pop_regl. intros a s0. apply pop_regl. intros b s1. rewrite push_regl. destruct (push s1 a) as [s2|o s2|s2]; cbn [regl]; try reflexivity.
    change (v_loops (set_gl s2 g)) with (v_loops s2). destruct (v_loops s2); reflexivity.
  - (* ENDFOR *) change (v_loops (set_gl s g)) with (v_loops s). destruct (v_loops s); reflexivity.
  - apply iter_regl.
  - apply rd1_regl. intros b s0. apply init_regl.
  - apply exec_call_regl.
  - apply rd1_regl. intros b s0. apply exitframe_regl.
  - apply close_regl. intros s0. apply rd1_regl. intros b s1. apply exitframe_regl.
  - (* USTORE *) apply rd1_regl. intros b s0. change (cur_closure (set_gl s0 g)) with (cur_closure s0). apply opt_regl. intros k. apply opt_regl. intros id.
    apply pop_regl. intros v s1. rewrite upval_set_regl. destruct (upval_set s1 id v); reflexivity.
  - apply rd1_regl. intros b s0. change (cur_closure (set_gl s0 g)) with (cur_closure s0). apply opt_regl. intros k. apply opt_regl. intros id.
    change (upval_get (set_gl s0 g) id) with (upval_get s0 id). apply opt_regl. intros v. apply push_regl.
  - (* LSTORE *) apply rd1_regl. intros b s0. apply pop_regl. intros v s1. change (slot_set (v_stk (set_gl s1 g)) (v_fp (set_gl s1 g) + schar b + 1) v) with (slot_set (v_stk s1) (v_fp s1 + schar b + 1) v).
    apply opt_regl. reflexivity.
  - apply rd1_regl. intros b s0. change (slot_get (v_stk (set_gl s0 g)) (v_fp (set_gl s0 g) + schar b + 1)) with (slot_get (v_stk s0) (v_fp s0 + schar b + 1)).
    apply opt_regl. intros v. apply push_regl.
  - (* ECHO *) apply rd1_regl. intros b s0. apply pop_regl. intros v s1. apply lift_regl. reflexivity.
Qed.

Definition gsim (n : Z) (t : table) (gl : list Z -> option value) : Prop :=
  exists m, holds t m /\ Z.of_nat (length m) <= n /\ forall x, find (VStr x) m = gl x.
Lemma gsim_le n n' t gl : n <= n' -> gsim n t gl -> gsim n' t gl.
Proof. intros L (m & A & B & C). exists m. split; [exact A|]. split; [lia|exact C]. Qed.
Lemma str_eqb_spec x y : str_eqb x y = true <-> x = y.
Proof. unfold str_eqb. destruct (list_eq_dec Z.eq_dec x y); split; congruence. Qed.

Definition sres_state (r : sres) : vstate := match r with Next s | Stop _ s | Outside s => s end.
Definition defined_globals (s : vstate) : Prop := forall x, v_gl s x <> Some VUndef /\ v_gl s x <> Some VEnd.

Lemma set_gl_pc s g pc : set_pc (set_gl s g) pc = set_gl (set_pc s pc) g. Proof. reflexivity. Qed.

Lemma gl_unchanged P o s : o <> O_GSTORE_8 -> v_gl (sres_state (exec P o s)) = v_gl s.
Proof.
  intros N. destruct (Bool.bool_dec (match o with O_GLOAD_8 => true | _ => false end) true) as [E|E].
  - destruct o; try discriminate E. cbn [exec]. unfold rd8. destruct (read8 (p_code P) (v_pc s)); try reflexivity. unfold opt.
    destruct (const_name P a); [|reflexivity]. unfold push. destruct (sp _ + 1 >=? STACK_SIZE); reflexivity.
  - assert (N1 : o <> O_GLOAD_8) by (intros ->; congruence).
    pose proof (exec_regl (v_gl s) P o s N1 N) as H. assert (Es : set_gl s (v_gl s) = s) by (destruct s; reflexivity). rewrite Es in H.
    destruct (exec P o s) as [s'|r s'|s']; cbn [regl sres_state] in *; injection H as H; apply (f_equal v_gl) in H; exact H.
Qed.

Section Globals.
Variables (fuel : nat) (P : prog) (g : list Z -> option value).
Hypothesis HF : FUEL_BOUND <= Z.of_nat fuel.

Lemma gstep_sim n s t : n < 2 ^ 29 -> gsim n t (v_gl s) -> (forall s', step P s = Next s' -> defined_globals s') ->
  exists t', gstep fuel P (set_gl s g) t = (regl g (step P s), t') /\ gsim (n + 1) t' (v_gl (sres_state (step P s))).
Proof.
  intros Hn G D. unfold gstep, step, rd1 in *. change (v_pc (set_gl s g)) with (v_pc s).
  destruct (nthZ (p_code P) (v_pc s)) as [b|]; [|exists t; split; [reflexivity|apply (gsim_le n); [lia|exact G]]].
  destruct (op_of_byte b) as [o|]; [|exists t; split; [reflexivity|apply (gsim_le n); [lia|exact G]]].
  change (set_pc (set_gl s g) (v_pc s + 1)) with (set_gl (set_pc s (v_pc s + 1)) g).
  assert (G1 : gsim n t (v_gl (set_pc s (v_pc s + 1)))) by exact G. clear G. revert G1 D. generalize (set_pc s (v_pc s + 1)). clear s. intros s G D.
  assert (K : o = O_GLOAD_8 \/ o = O_GSTORE_8 \/ (o <> O_GLOAD_8 /\ o <> O_GSTORE_8)).
  { destruct o; auto; right; right; split; discriminate. }
  destruct K as [->|[->|[N1 N2]]].
  - exists t. cbn [gexec]. rewrite gl_unchanged by discriminate. split; [|apply (gsim_le n); [lia|exact G]]. f_equal.
    destruct G as (m & Hm & _ & Fm). cbn [exec]. unfold rd8. change (v_pc (set_gl s g)) with (v_pc s).
    destruct (read8 (p_code P) (v_pc s)) as [c| | |]; try reflexivity. unfold opt. destruct (const_name P c) as [x|]; [|reflexivity].
    rewrite (holds_search fuel t m (VStr x) Hm I HF), Fm. cbn [lift]. change (v_gl (set_pc s (v_pc s + 8))) with (v_gl s). apply (push_regl g (set_pc s (v_pc s + 8))).
  - cbn [gexec exec] in *. unfold rd8 in *. change (v_pc (set_gl s g)) with (v_pc s).
    destruct (read8 (p_code P) (v_pc s)) as [c| | |]; try (exists t; split; [reflexivity|apply (gsim_le n); [lia|exact G]]). unfold opt in *.
    change (set_pc (set_gl s g) (v_pc s + 8)) with (set_gl (set_pc s (v_pc s + 8)) g).
    revert G D. change (v_gl s) with (v_gl (set_pc s (v_pc s + 8))). generalize (set_pc s (v_pc s + 8)). clear s. intros s G D.
    destruct (const_name P c) as [x|]; [|exists t; split; [reflexivity|apply (gsim_le n); [lia|exact G]]].
    unfold pop in *. change (v_stk (set_gl s g)) with (v_stk s). destruct (v_stk s) as [|v k]; [exists t; split; [reflexivity|apply (gsim_le n); [lia|exact G]]|].
    specialize (D _ eq_refl x). cbn [set_gl v_gl] in D. assert (E : str_eqb x x = true) by (apply str_eqb_spec; reflexivity). rewrite E in D.
    destruct G as (m & Hm & Lm & Fm). destruct (holds_insert fuel t m (VStr x) v Hm I) as (t' & Ei & Ht'); [split; intros ->; intuition congruence|lia|exact HF|].
    rewrite Ei. exists t'. split; [reflexivity|]. exists (put (VStr x) v m). split; [exact Ht'|]. split; [pose proof (put_length (VStr x) v m); lia|].
    intros y. rewrite find_put. unfold mset. cbn [sres_state set_gl v_gl]. destruct (value_eq_dec (VStr y) (VStr x)) as [Ey|Ny].
    + injection Ey as ->. rewrite E. reflexivity.
    + destruct (str_eqb y x) eqn:Eq; [apply str_eqb_spec in Eq; congruence|]. apply Fm.
  - exists t. assert (Eg : gexec fuel P o (set_gl s g) t = (exec P o (set_gl s g), t)) by (destruct o; try reflexivity; congruence).
    rewrite Eg, exec_regl by assumption. split; [reflexivity|]. rewrite gl_unchanged by exact N2. apply (gsim_le n); [lia|exact G].
Qed.

Lemma grun_sim k : forall n s t, n + Z.of_nat k <= 2 ^ 29 -> gsim n t (v_gl s) ->
  (forall j s', (j <= k)%nat -> run j P s = Next s' -> defined_globals s') ->
  exists t', grun fuel k P (set_gl s g) t = (regl g (run k P s), t') /\ gsim (n + Z.of_nat k) t' (v_gl (sres_state (run k P s))).
Proof.
  induction k as [|k IH]; intros n s t B G D; cbn [grun run].
  - exists t. split; [reflexivity|]. cbn [sres_state]. replace (n + Z.of_nat 0) with n by lia. exact G.
  - destruct (gstep_sim n s t ltac:(lia) G) as (t1 & E1 & G1).
    { intros s' Es. apply (D 1%nat s'); [lia|]. cbn [run]. rewrite Es. reflexivity. }
    rewrite E1. destruct (step P s) as [s1|o s1|s1] eqn:Es; cbn [regl sres_state] in *.
    + destruct (IH (n + 1) s1 t1 ltac:(lia) G1) as (t' & E2 & G2).
      { intros j s' Lj R. apply (D (S j) s'); [lia|]. cbn [run]. rewrite Es. exact R. }
      exists t'. split; [exact E2|]. replace (n + Z.of_nat (S k)) with (n + 1 + Z.of_nat k) by lia. exact G2.
    + exists t1. split; [reflexivity|]. apply (gsim_le (n + 1)); [lia|exact G1].
    + exists t1. split; [reflexivity|]. apply (gsim_le (n + 1)); [lia|exact G1].
Qed.
End Globals.

(** Setting the initial globals one after another. *)
Definition sets (init : list (list Z * value)) : list Table.top := map (fun p => TSet (VStr (fst p)) (snd p)) init.
Lemma sets_holds fuel : FUEL_BOUND <= Z.of_nat fuel -> forall init t m, holds t m -> Forall (fun p => good_val (snd p)) init ->
  Z.of_nat (length m) + Z.of_nat (length init) <= 2 ^ 29 ->
  exists t' m', run_table fuel (sets init) t = Ok t' /\ holds t' m' /\ Z.of_nat (length m') <= Z.of_nat (length m) + Z.of_nat (length init) /\
    forall k, find k m' = fold_left spec_step (sets init) (fun k => find k m) k.
Proof.
  intros HF. induction init as [|[x v] init IH]; intros t m Hm Fi B; cbn [sets map run_table fold_left].
  - exists t, m. split; [reflexivity|]. split; [exact Hm|]. split; [cbn; lia|reflexivity].
  - inversion Fi as [|? ? Gv Fi']; subst. cbn [fst snd] in *. cbn [length] in B.
    destruct (holds_insert fuel t m (VStr x) v Hm I Gv ltac:(lia) HF) as (t1 & E1 & H1).
    assert (Es : table_set fuel t (VStr x) v = Ok t1).
    { unfold table_set, table_insert. destruct Gv as [Nu Ne]. replace (is_undef v) with false by (destruct v; try reflexivity; congruence).
      cbn [is_hashable]. rewrite E1. reflexivity. }
    rewrite Es. cbn [bind]. pose proof (put_length (VStr x) v m) as Lp. destruct (IH t1 _ H1 Fi' ltac:(lia)) as (t' & m' & R & Hm' & L' & F').
    exists t', m'. split; [exact R|]. split; [exact Hm'|]. split; [cbn [length]; lia|]. intros k. rewrite F'.
    assert (Ext : forall ops (f h : amap), (forall k, f k = h k) -> forall k, fold_left spec_step ops f k = fold_left spec_step ops h k).
    { clear. induction ops as [|o ops IH]; intros f h E k; cbn [fold_left]; [apply E|]. apply IH. intros q.
      destruct o as [k' w|k']; cbn [spec_step]; [destruct w|]; unfold mset, mrm; rewrite ?E; destruct (value_eq_dec q k'); try reflexivity; apply E. }
    apply Ext. intros q. rewrite find_put. destruct Gv as [Nu Ne]. destruct v; try reflexivity; congruence.
Qed.
