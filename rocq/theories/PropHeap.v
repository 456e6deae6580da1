(** * C52: indexing, storing, lengths, concatenation, union, literals and methods of lists and tables, at the level of the
    instructions that evaluate them. *)
From Coq Require Import String Permutation.
From Verif Require Import Base Bytes Value ValueProofs Hash Table TableSpec TableProofs TableProofs2 TableProofs3.
From Verif Require Import ApiProofs Ops Text VM SimBase CallSpec CallProofs Names Heap HeapSpec HeapProofs HeapProofs2 HeapProofs3 HeapProofs4 HeapProofs5.
Local Open Scope list_scope.
Local Open Scope Z_scope.

(** [enough_fuel]: the loops of the hash table are bounded by [fuel] in the model; any number above 2^32 will do (C05). *)
Definition enough_fuel (fuel : nat) : Prop := FUEL_BOUND <= Z.of_nat fuel.
(** the next instruction is [o]; [n] more values and one more call frame fit *)
Definition next_op (P : prog) (s : vstate) (o : opc) : Prop := nthZ (p_code P) (v_pc s) = Some (op_byte o).
Definition fits (s : vstate) (n : nat) : Prop := Z.of_nat (length (v_stk s)) + Z.of_nat n <= 1024 /\ Z.of_nat (length (v_frames s)) < 1000.
(** The state after an instruction that is [len] bytes long: its operands are replaced by [vs] (topmost first); everything else
    is unchanged. *)
Definition then_on_top (s : vstate) (len : Z) (vs rest : list value) : vstate :=
  VS (v_pc s + len) (vs ++ rest) (v_fp s) (v_gl s) (v_out s) (v_loops s) (v_frames s) (v_next_fp s) (v_upv s) (v_pending s) (v_clo s).
(** What the instruction must do: leave these values in this memory, or raise this error and print nothing. *)
Definition does (r : hres) (s : vstate) (rest : list value) (x : said (mem * list value)) : Prop :=
  match x with
  | Gives (m', vs) => exists h', r = HNext (then_on_top s 1 vs rest) h' /\ shows h' m'
  | Raises e => exists s' h', r = HStop (Err e) s' h' /\ v_out s' = v_out s
  | Unsaid => True
  end.
Definition value_of (m : mem) (x : said value) : said (mem * list value) := match x with Gives v => Gives (m, [v]) | Raises e => Raises e | Unsaid => Unsaid end.
Definition memory_of (x : said mem) : said (mem * list value) := match x with Gives m => Gives (m, []) | Raises e => Raises e | Unsaid => Unsaid end.
Definition both_of (x : said (mem * value)) : said (mem * list value) := match x with Gives (m, v) => Gives (m, [v]) | Raises e => Raises e | Unsaid => Unsaid end.

(** the same, with what happens to the tables (used in C55 only) *)
Definition does_in (d : option Z) (h : heap) (r : hres) (s : vstate) (rest : list value) (x : said (mem * list value)) : Prop :=
  match x with
  | Gives (m', vs) => exists h', r = HNext (then_on_top s 1 vs rest) h' /\ becomes d h h' m'
  | Raises e => exists s' h', r = HStop (Err e) s' h' /\ v_out s' = v_out s
  | Unsaid => True
  end.
Lemma does_forget d h r s rest x : does_in d h r s rest x -> does r s rest x.
Proof. destruct x as [[m' vs]|e|]; cbn; auto. intros (h' & A & B & _). eauto. Qed.
Lemma answers_does d h r s rest x y : answers d h r (set_pc s (v_pc s + 1)) rest x -> x = y -> does_in d h r s rest y.
Proof. intros A <-. destruct x as [[m' vs]|e|]; exact A. Qed.
Lemma value_of_omap m x : omap_said (fun v => (m, [v])) x = value_of m x. Proof. destruct x; reflexivity. Qed.
Lemma memory_of_omap x : omap_said (fun m' => (m', @nil value)) x = memory_of x. Proof. destruct x; reflexivity. Qed.
Lemma both_of_omap x : omap_said (fun p => (fst p, [snd p])) x = both_of x. Proof. destruct x as [[m v]| |]; reflexivity. Qed.
Lemma step_op P s o : next_op P s o -> nthZ (p_code P) (v_pc s) = Some (op_byte o) /\ op_of_byte (op_byte o) = Some o.
Proof. intros N. split; [exact N|apply op_round]. Qed.

(** A new state holds no objects. *)
Theorem C52_start : forall fuel, enough_fuel fuel -> exists h, heap_new fuel = Ok h /\ shows h mem_new.
Proof. intros fuel F. apply heap_new_ok, F. Qed.

(** [c[k]] *)
Lemma get_in : forall fuel w P s h m c k rest, enough_fuel fuel -> shows h m -> next_op P s O_GET -> v_stk s = k :: c :: rest -> fits s 2 ->
  does_in None h (h_step fuel w P s h) s rest (value_of m (index_spec m c k)).
Proof.
  intros fuel w P s h m c k rest F Sh N Es R. destruct (step_op P s _ N) as (A & B). unfold h_step. rewrite A, B. eapply answers_does; [|apply value_of_omap].
  apply exec_get_ok; assumption.
Qed.
Theorem C52_get : forall fuel w P s h m c k rest, enough_fuel fuel -> shows h m -> next_op P s O_GET -> v_stk s = k :: c :: rest -> fits s 2 ->
  does (h_step fuel w P s h) s rest (value_of m (index_spec m c k)).
Proof. intros. eapply does_forget, get_in; eassumption. Qed.
(** [c[k] = v] *)
Lemma set_in : forall fuel w P s h m c k v rest, enough_fuel fuel -> shows h m -> next_op P s O_SET -> v_stk s = v :: k :: c :: rest -> fits s 1 ->
  does_in (match c with VTable p => Some p | _ => None end) h (h_step fuel w P s h) s rest (memory_of (store_spec m c k v)).
Proof.
  intros fuel w P s h m c k v rest F Sh N Es R. destruct (step_op P s _ N) as (A & B). unfold h_step. rewrite A, B. eapply answers_does; [|apply memory_of_omap].
  apply exec_set_ok; assumption.
Qed.
Theorem C52_set : forall fuel w P s h m c k v rest, enough_fuel fuel -> shows h m -> next_op P s O_SET -> v_stk s = v :: k :: c :: rest -> fits s 1 ->
  does (h_step fuel w P s h) s rest (memory_of (store_spec m c k v)).
Proof. intros. eapply does_forget, set_in; eassumption. Qed.
(** [len c] *)
Lemma len_in : forall fuel w P s h m c rest, enough_fuel fuel -> shows h m -> next_op P s (O_UN ULen) -> v_stk s = c :: rest -> fits s 2 ->
  does_in None h (h_step fuel w P s h) s rest (value_of m (length_spec m c)).
Proof.
  intros fuel w P s h m c rest F Sh N Es R. destruct (step_op P s _ N) as (A & B). unfold h_step. rewrite A, B.
  cbn [set_pc v_stk]. rewrite Es. assert (G : does_in None h (exec_len fuel w P (set_pc s (v_pc s + 1)) h) s rest (value_of m (length_spec m c))).
  { eapply answers_does; [|apply value_of_omap]. apply exec_len_ok; assumption. }
  destruct c; try exact G.
Qed.
Theorem C52_len : forall fuel w P s h m c rest, enough_fuel fuel -> shows h m -> next_op P s (O_UN ULen) -> v_stk s = c :: rest -> fits s 2 ->
  does (h_step fuel w P s h) s rest (value_of m (length_spec m c)).
Proof. intros. eapply does_forget, len_in; eassumption. Qed.
(** [a + b] where [a] is a list, [a | b] where [a] is a table *)
Lemma concat_in : forall fuel w P s h m a b rest, enough_fuel fuel -> shows h m -> next_op P s (O_BIN BAdd) -> v_stk s = b :: a :: rest -> fits s 2 ->
  does_in None h (h_step fuel w P s h) s rest (both_of (concat_spec m a b)).
Proof.
  intros fuel w P s h m a b rest F Sh N Es R. destruct (step_op P s _ N) as (A & B). unfold h_step. rewrite A, B. cbn [op_name set_pc v_stk]. rewrite Es.
  destruct (is_container a) eqn:C; [|destruct a; try exact I; discriminate C]. eapply answers_does; [|apply both_of_omap]. apply exec_add_ok; assumption.
Qed.
Theorem C52_concat : forall fuel w P s h m a b rest, enough_fuel fuel -> shows h m -> next_op P s (O_BIN BAdd) -> v_stk s = b :: a :: rest -> fits s 2 ->
  does (h_step fuel w P s h) s rest (both_of (concat_spec m a b)).
Proof. intros. eapply does_forget, concat_in; eassumption. Qed.
Lemma union_in : forall fuel w P s h m a b rest, enough_fuel fuel -> shows h m -> next_op P s (O_BIN BOr) -> v_stk s = b :: a :: rest -> fits s 2 ->
  does_in None h (h_step fuel w P s h) s rest (both_of (union_spec m a b)).
Proof.
  intros fuel w P s h m a b rest F Sh N Es R. destruct (step_op P s _ N) as (A & B). unfold h_step. rewrite A, B. cbn [op_name set_pc v_stk]. rewrite Es.
  destruct (is_container a) eqn:C; [|destruct a; try exact I; discriminate C]. eapply answers_does; [|apply both_of_omap]. apply exec_bor_ok; assumption.
Qed.
Theorem C52_union : forall fuel w P s h m a b rest, enough_fuel fuel -> shows h m -> next_op P s (O_BIN BOr) -> v_stk s = b :: a :: rest -> fits s 2 ->
  does (h_step fuel w P s h) s rest (both_of (union_spec m a b)).
Proof. intros. eapply does_forget, union_in; eassumption. Qed.
(** Literals: the values lie above a marker, the first lowest. *)
Lemma list_literal_in : forall fuel w P s h m xs rest, shows h m -> next_op P s O_NEWLIST -> v_stk s = rev xs ++ VEnd :: rest -> Forall (fun v => v <> VEnd) xs ->
  does_in None h (h_step fuel w P s h) s rest (both_of (Gives (list_spec m xs))).
Proof.
  intros fuel w P s h m xs rest Sh N Es NE. destruct (step_op P s _ N) as (A & B). unfold h_step. rewrite A, B. eapply answers_does; [apply (exec_newlist_ok (set_pc s (v_pc s + 1)) h m xs rest Sh Es NE)|reflexivity].
Qed.
Theorem C52_list_literal : forall fuel w P s h m xs rest, shows h m -> next_op P s O_NEWLIST -> v_stk s = rev xs ++ VEnd :: rest -> Forall (fun v => v <> VEnd) xs ->
  does (h_step fuel w P s h) s rest (both_of (Gives (list_spec m xs))).
Proof. intros. eapply does_forget, list_literal_in; eassumption. Qed.
Fixpoint pushed (kvs : list (value * value)) : list value := match kvs with [] => [] | (k, v) :: r => k :: v :: pushed r end.
Lemma table_literal_in : forall fuel w P s h m kvs rest, enough_fuel fuel -> shows h m -> next_op P s O_NEWTABLE -> v_stk s = rev (pushed kvs) ++ VEnd :: rest -> Forall (fun p => snd p <> VEnd) kvs ->
  does_in None h (h_step fuel w P s h) s rest (both_of (table_spec m kvs)).
Proof.
  intros fuel w P s h m kvs rest F Sh N Es NE. destruct (step_op P s _ N) as (A & B). unfold h_step. rewrite A, B. eapply answers_does; [apply (exec_newtable_ok fuel F (set_pc s (v_pc s + 1)) h m kvs rest Sh Es NE)|apply both_of_omap].
Qed.
Theorem C52_table_literal : forall fuel w P s h m kvs rest, enough_fuel fuel -> shows h m -> next_op P s O_NEWTABLE -> v_stk s = rev (pushed kvs) ++ VEnd :: rest -> Forall (fun p => snd p <> VEnd) kvs ->
  does (h_step fuel w P s h) s rest (both_of (table_spec m kvs)).
Proof. intros. eapply does_forget, table_literal_in; eassumption. Qed.

(** ** Methods: [c->x(args)] pushes [c], opens the call, evaluates the arguments, calls. *)
(** the state after opening the call: the method below the receiver, one more frame, nothing else *)
Definition opened (s s1 : vstate) (c f : value) (rest : list value) : Prop :=
  v_stk s1 = c :: f :: rest /\ v_pc s1 = v_pc s + 10 /\ v_fp s1 = v_fp s /\ v_gl s1 = v_gl s /\ v_out s1 = v_out s /\ v_loops s1 = v_loops s /\ v_upv s1 = v_upv s /\ v_pending s1 = v_pending s /\ v_clo s1 = v_clo s
  /\ v_next_fp s1 = Z.of_nat (length rest) /\ exists fr, v_frames s1 = fr :: v_frames s.
(** [s1] after the evaluation of the arguments: whatever else that did, it left [args] on the stack *)
Definition args_evaluated (s1 s2 : vstate) (args : list value) : Prop :=
  v_stk s2 = rev args ++ v_stk s1 /\ v_fp s2 = v_fp s1 /\ v_loops s2 = v_loops s1 /\ v_frames s2 = v_frames s1 /\ v_next_fp s2 = v_next_fp s1.
(** the state after the call: as [s2], but with the frame of the call and everything from the method upwards gone *)
Definition after_call (s s2 : vstate) (v : value) (rest : list value) : vstate :=
  VS (v_pc s2 + 1) (v :: rest) (v_fp s) (v_gl s2) (v_out s2) (v_loops s) (v_frames s) (v_next_fp s) (v_upv s2) (v_pending s2) (v_clo s2).
Definition calls_method (P : prog) (s : vstate) (nret : Z) (x : list Z) : Prop :=
  next_op P s O_INIT_MC /\ nthZ (p_code P) (v_pc s + 1) = Some nret /\ exists i, read8 (p_code P) (v_pc s + 2) = Ok i /\ nthZ (p_consts P) i = Some (VStr x).
Definition is_method (x : list Z) : Prop := In x [m_push; m_pop; m_copy; m_reverse; m_clear; m_insert; m_count; m_search].
Lemma is_method_list x : is_method x -> exists id lm n, list_method x = Some (id, lm, n).
Proof. unfold is_method. intros HI. cbn [In] in HI. repeat destruct HI as [<-|HI]; try (eexists _, _, _; reflexivity). contradiction. Qed.

Lemma method_in : forall fuel w P s h m p xs x rest, enough_fuel fuel -> shows h m -> m_list m p = Some xs -> is_method x -> calls_method P s 1 x -> v_stk s = VList p :: rest -> fits s 4 ->
  exists s1 f, h_step fuel w P s h = HNext s1 h /\ opened s s1 (VList p) f rest /\
    forall args s2 h2 m2, args_evaluated s1 s2 args -> shows h2 m2 -> next_op P s2 O_CALL ->
      match method_spec m2 (VList p) x args with
      | Gives (m3, v) => exists h3, h_step fuel w P s2 h2 = HNext (after_call s s2 v rest) h3 /\ becomes None h2 h3 m3
      | Raises e => exists s3 h3, h_step fuel w P s2 h2 = HStop (Err e) s3 h3 /\ v_out s3 = v_out s2
      | Unsaid => True
      end.
Proof.
  intros fuel w P s h m p xs x rest F Sh E IM (N & Eb & i & Ei & Ek) Es (R1 & R2). destruct (is_method_list x IM) as (id & lm & n & EM). destruct (step_op P s _ N) as (A & B).
  set (s0 := set_pc s (v_pc s + 1)).
  assert (SE : h_step fuel w P s h = HNext (entered (set_pc s0 (v_pc s0 + 9)) id 1 [VList p] rest) h).
  { unfold h_step. rewrite A, B. assert (Sc : schar 1 = 1) by reflexivity. rewrite <- Sc at 2. eapply (init_mc_ok fuel w P F s0 h m p xs x id lm n rest 1 i Sh E EM); try assumption.
    - unfold roomy. unfold s0. cbn [set_pc v_stk v_frames]. lia.
    - unfold s0. cbn [set_pc v_pc]. replace (v_pc s + 1 + 1) with (v_pc s + 2) by lia. exact Ei. }
  eexists _, (VCfn id). split; [exact SE|]. split.
  { unfold opened, s0. cbn [entered set_pc v_stk v_pc v_fp v_gl v_out v_loops v_upv v_pending v_clo v_next_fp v_frames rev app]. repeat split; try lia. eexists. reflexivity. }
  intros args s2 h2 m2 (G1 & G2 & G3 & G4 & G5) Sh2 N2. destruct (step_op P s2 _ N2) as (A2 & B2).
  cbn [entered set_pc v_stk v_fp v_loops v_frames v_next_fp v_pc rev app] in G1, G2, G3, G4, G5.
  set (t := VS (v_pc s0 + 9) (v_stk s) (v_fp s) (v_gl s2) (v_out s2) (v_loops s) (v_frames s) (v_next_fp s) (v_upv s2) (v_pending s2) (v_clo s2)).
  assert (T : set_pc s2 (v_pc s2 + 1) = set_pc (entered t id 1 (VList p :: args) rest) (v_pc s2 + 1)).
  { apply vs_eq; unfold t; cbn [entered set_pc v_stk v_pc v_fp v_gl v_out v_loops v_upv v_pending v_clo v_next_fp v_frames rev app]; try reflexivity; try assumption. rewrite G1, <- app_assoc. reflexivity. }
  assert (MC := method_call_ok fuel w P t h2 m2 p x args rest (v_pc s2 + 1) id lm n Sh2 EM).
  assert (L : Z.of_nat (length rest) + 5 <= 1024) by (rewrite Es in R1; cbn [length] in R1; lia). specialize (MC L). rewrite <- T in MC.
  unfold h_step. rewrite A2, B2. destruct (method_spec m2 (VList p) x args) as [[m3 v]|e|]; cbn [omap_said answers fst snd] in MC; exact MC.
Qed.
Theorem C52_method : forall fuel w P s h m p xs x rest, enough_fuel fuel -> shows h m -> m_list m p = Some xs -> is_method x -> calls_method P s 1 x -> v_stk s = VList p :: rest -> fits s 4 ->
  exists s1 f, h_step fuel w P s h = HNext s1 h /\ opened s s1 (VList p) f rest /\
    forall args s2 h2 m2, args_evaluated s1 s2 args -> shows h2 m2 -> next_op P s2 O_CALL ->
      match method_spec m2 (VList p) x args with
      | Gives (m3, v) => exists h3, h_step fuel w P s2 h2 = HNext (after_call s s2 v rest) h3 /\ shows h3 m3
      | Raises e => exists s3 h3, h_step fuel w P s2 h2 = HStop (Err e) s3 h3 /\ v_out s3 = v_out s2
      | Unsaid => True
      end.
Proof.
  intros fuel w P s h m p xs x rest F Sh E IM C Es R. destruct (method_in fuel w P s h m p xs x rest F Sh E IM C Es R) as (s1 & f & A & B & G). exists s1, f. split; [exact A|]. split; [exact B|].
  intros args s2 h2 m2 A2 Sh2 N2. specialize (G args s2 h2 m2 A2 Sh2 N2). destruct (method_spec m2 (VList p) x args) as [[m3 v]|e|]; try exact G. destruct G as (h3 & G1 & G2 & _). eauto.
Qed.
(** A name that is neither a method nor a key. *)
Theorem C52_no_such_method : forall fuel w P s h m c x nret rest e, enough_fuel fuel -> shows h m -> index_spec m c (VStr x) = Raises e -> calls_method P s nret x -> v_stk s = c :: rest -> fits s 4 ->
  exists s' h', h_step fuel w P s h = HStop (Err e) s' h' /\ v_out s' = v_out s.
Proof.
  intros fuel w P s h m c x nret rest e F Sh EI (N & Eb & i & Ei & Ek) Es R. destruct (step_op P s _ N) as (A & B). unfold h_step. rewrite A, B.
  destruct (init_mc_absent fuel w P F (set_pc s (v_pc s + 1)) h m c x rest nret i e Sh EI Es R Eb) as (s' & h' & E1 & E2).
  - cbn [set_pc v_pc]. replace (v_pc s + 1 + 1) with (v_pc s + 2) by lia. exact Ei.
  - exact Ek.
  - exists s', h'. split; [exact E1|exact E2].
Qed.

(** [t->keys()] and [t->values()]: a new list of them, in some order. *)
Lemma keys_in : forall fuel w P s h m p kv x part rest, enough_fuel fuel -> shows h m -> m_tab m p = Some kv ->
  (x = m_keys /\ part = @fst value value \/ x = m_values /\ part = @snd value value) -> calls_method P s 1 x -> v_stk s = VTable p :: rest -> fits s 4 ->
  exists s1 f, h_step fuel w P s h = HNext s1 h /\ opened s s1 (VTable p) f rest /\
    forall args s2 h2 m2 kv2, args_evaluated s1 s2 args -> shows h2 m2 -> m_tab m2 p = Some kv2 -> next_op P s2 O_CALL ->
      exists xs h3, Permutation xs (map part kv2) /\ h_step fuel w P s2 h2 = HNext (after_call s s2 (VList (m_next m2)) rest) h3 /\ becomes None h2 h3 (fresh_list m2 xs).
Proof.
  intros fuel w P s h m p kv x part rest F Sh E IM (N & Eb & i & Ei & Ek) Es (R1 & R2). destruct (step_op P s _ N) as (A & B).
  set (s0 := set_pc s (v_pc s + 1)).
  assert (ID : exists id tm, meth_id (MT_TABLE * 100) table_names x = Some id /\ cfn_of id = Some (CTable tm, Z.of_nat 1) /\ (tm = TKeys \/ tm = TValues) /\ part = match tm with TKeys => fst | _ => snd end).
  { destruct IM as [(-> & ->)|(-> & ->)]; [exists 802, TKeys|exists 803, TValues]; auto. }
  destruct ID as (id & tm & EI & EC & ET & Epart).
  assert (SE : h_step fuel w P s h = HNext (entered (set_pc s0 (v_pc s0 + 9)) id 1 [VTable p] rest) h).
  { unfold h_step. rewrite A, B. assert (Sc : schar 1 = 1) by reflexivity. rewrite <- Sc at 2. eapply (init_mc_gen fuel w P F s0 h (VTable p) MT_TABLE table_names x id rest 1 i); try assumption.
    - exact (sh_meta _ _ Sh).
    - exact m_tables.
    - eapply mt_tab; eassumption.
    - unfold roomy. unfold s0. cbn [set_pc v_stk v_frames]. lia.
    - unfold s0. cbn [set_pc v_pc]. replace (v_pc s + 1 + 1) with (v_pc s + 2) by lia. exact Ei. }
  eexists _, (VCfn id). split; [exact SE|]. split.
  { unfold opened, s0. cbn [entered set_pc v_stk v_pc v_fp v_gl v_out v_loops v_upv v_pending v_clo v_next_fp v_frames rev app]. repeat split; try lia. eexists. reflexivity. }
  intros args s2 h2 m2 kv2 (G1 & G2 & G3 & G4 & G5) Sh2 E2 N2. destruct (step_op P s2 _ N2) as (A2 & B2).
  cbn [entered set_pc v_stk v_fp v_loops v_frames v_next_fp v_pc rev app] in G1, G2, G3, G4, G5.
  set (t := VS (v_pc s0 + 9) (v_stk s) (v_fp s) (v_gl s2) (v_out s2) (v_loops s) (v_frames s) (v_next_fp s) (v_upv s2) (v_pending s2) (v_clo s2)).
  assert (T : set_pc s2 (v_pc s2 + 1) = set_pc (entered t id 1 (VTable p :: args) rest) (v_pc s2 + 1)).
  { apply vs_eq; unfold t; cbn [entered set_pc v_stk v_pc v_fp v_gl v_out v_loops v_upv v_pending v_clo v_next_fp v_frames rev app]; try reflexivity; try assumption. rewrite G1, <- app_assoc. reflexivity. }
  assert (L : Z.of_nat (length rest) + 5 <= 1024) by (rewrite Es in R1; cbn [length] in R1; lia).
  destruct (body_keys fuel w (Z.to_nat (1023 - Z.of_nat (length rest) - Z.of_nat 1)) (Z.to_nat (999 - Z.of_nat (length (v_frames t)))) h2 m2 p kv2 tm args Sh2 E2 ltac:(lia) ET) as (xs & PX & BX).
  assert (MC := entered_call fuel w P None t h2 id (CTable tm) 1 1 (VTable p :: args) rest (v_pc s2 + 1) _ EC ltac:(lia) ltac:(lia) BX). rewrite <- T in MC. cbn [omap_said answers] in MC.
  destruct MC as (h3 & MC & Sh3). exists xs, h3. split; [rewrite Epart; exact PX|]. split; [|exact Sh3]. unfold h_step. rewrite A2, B2. exact MC.
Qed.

Theorem C52_keys : forall fuel w P s h m p kv x part rest, enough_fuel fuel -> shows h m -> m_tab m p = Some kv ->
  (x = m_keys /\ part = @fst value value \/ x = m_values /\ part = @snd value value) -> calls_method P s 1 x -> v_stk s = VTable p :: rest -> fits s 4 ->
  exists s1 f, h_step fuel w P s h = HNext s1 h /\ opened s s1 (VTable p) f rest /\
    forall args s2 h2 m2 kv2, args_evaluated s1 s2 args -> shows h2 m2 -> m_tab m2 p = Some kv2 -> next_op P s2 O_CALL ->
      exists xs h3, Permutation xs (map part kv2) /\ h_step fuel w P s2 h2 = HNext (after_call s s2 (VList (m_next m2)) rest) h3 /\ shows h3 (fresh_list m2 xs).
Proof.
  intros fuel w P s h m p kv x part rest F Sh E IM C Es R. destruct (keys_in fuel w P s h m p kv x part rest F Sh E IM C Es R) as (s1 & f & A & B & G). exists s1, f. split; [exact A|]. split; [exact B|].
  intros args s2 h2 m2 kv2 A2 Sh2 E2 N2. destruct (G args s2 h2 m2 kv2 A2 Sh2 E2 N2) as (xs & h3 & G1 & G2 & G3 & _). eauto.
Qed.
(** ** The hypotheses are met: a run of the compiled form of [let l = [10, 20]; l->push(30); l[-1]] and of
    [let t = {'a': 1}; t['a'] = 2; t['b']; t['a']]. *)
Definition no_world : world := World (fun _ _ => S754_nan) (fun _ _ _ => NoFuel) (fun _ _ => NoFuel) (fun _ => NoFuel) (fun _ _ => false).
Definition demo (code : list Z) (consts : list value) : prog := Prog code consts no_world (fun _ => []) (fun _ => []).
Definition demo_run (code : list Z) (consts : list value) (n : nat) : option (list value) :=
  match heap_new 200 with
  | Ok h => match h_run 200 no_world (demo code consts) n (vm_start (fun _ => None)) h with HNext s _ => Some (v_stk s) | _ => None end
  | _ => None
  end.
Definition demo_stop (code : list Z) (consts : list value) (n : nat) : option (outcome unit) :=
  match heap_new 200 with
  | Ok h => match h_run 200 no_world (demo code consts) n (vm_start (fun _ => None)) h with HStop o _ _ => Some o | _ => None end
  | _ => None
  end.
Example C52_list_demo : demo_run [176; 154; 0; 154; 1; 157; 184; 231; 1; 3; 0; 0; 0; 0; 0; 0; 0; 154; 2; 233; 191; 154; 4; 136] [VInt 10; VInt 20; VInt 30; VStr m_push; VInt (-1)] 11 = Some [VInt 30].
Proof. vm_compute. reflexivity. Qed.
Example C52_table_demo : demo_run [176; 154; 0; 154; 1; 156; 184; 184; 154; 0; 154; 2; 128; 154; 0; 136] [VStr [97]; VInt 1; VInt 2] 11 = Some [VInt 2; VTable 16].
Proof. vm_compute. reflexivity. Qed.
Example C52_shown : exists h m p q, shows h m /\ m_list m p = Some [VInt 10; VTable q] /\ m_tab m q = Some [(VStr [97], VList p)].
Proof.
  destruct (C52_start (Z.to_nat FUEL_BOUND)) as (h & _ & Sh). { unfold enough_fuel. lia. }
  destruct (shows_new_list h _ [VInt 10; VTable 17] Sh) as (Sh1 & _). destruct holds_new as (t0 & _ & H0).
  destruct (holds_put (Z.to_nat FUEL_BOUND) ltac:(lia) t0 [] (VStr [97]) (VList 16) H0 eq_refl ltac:(discriminate) ltac:(discriminate) eq_refl) as (t1 & _ & H1).
  destruct (shows_new_tab _ _ t1 _ Sh1 H1) as (Sh2 & _). eexists _, _, 16, 17. split; [exact Sh2|]. split; reflexivity.
Qed.

(** ** What the code refutes. *)
(** A key that is the name of a method can be stored but not read back: [t = {}; t.keys = 5; t.keys] is the method. *)
Theorem C52_method_key_refuted : demo_run [176; 156; 184; 154; 0; 154; 1; 128; 154; 0; 136] [VStr m_keys; VInt 5] 8 = Some [VCfn 802].
Proof. vm_compute. reflexivity. Qed.
(** A copy of a table has no metatable: reading an absent key of it is a value error instead of undef, storing is a type error. *)
Theorem C52_copy_refuted :
  demo_run [176; 156; 154; 0; 136] [VStr [97]; VStr m_copy] 4 = Some [VUndef] /\
  demo_stop [176; 156; 231; 1; 1; 0; 0; 0; 0; 0; 0; 0; 233; 154; 0; 136] [VStr [97]; VStr m_copy] 6 = Some (Err EValue) /\
  demo_stop [176; 156; 231; 1; 1; 0; 0; 0; 0; 0; 0; 0; 233; 154; 0; 154; 0; 128] [VStr [97]; VStr m_copy] 7 = Some (Err EType).
Proof. repeat split; vm_compute; reflexivity. Qed.
(** Indexing a function reads an entry of the array of metatables that was never written. *)
Theorem C52_function_refuted : demo_stop [176; 156; 154; 0; 136; 154; 0; 136] [VStr m_keys] 6 = Some UB.
Proof. vm_compute. reflexivity. Qed.

Print Assumptions C52_start.
Print Assumptions C52_get.
Print Assumptions C52_set.
Print Assumptions C52_len.
Print Assumptions C52_concat.
Print Assumptions C52_union.
Print Assumptions C52_list_literal.
Print Assumptions C52_table_literal.
Print Assumptions C52_method.
Print Assumptions C52_no_such_method.
Print Assumptions C52_keys.
Print Assumptions C52_method_key_refuted.
Print Assumptions C52_copy_refuted.
Print Assumptions C52_function_refuted.
