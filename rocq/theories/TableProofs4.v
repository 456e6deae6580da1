From Coq Require Import Znumtheory.
From Verif Require Import Base ListFacts Prime PrimeProofs Value ValueProofs Hash HashProofs Table TableSpec TableProofs TableProofs2 TableProofs3.
Ltac Zify.zify_post_hook ::= Z.div_mod_to_equations.

Lemma hist_get fuel fuel' ops t q r : Forall op_ok ops -> run_new fuel ops = Ok t -> good_key q ->
  table_get fuel' t q = Ok r -> r = match spec_run ops q with Some v => v | None => VUndef end.
Proof.
  intros Ho E Hq G. destruct (run_new_ok _ _ _ Ho E) as (W & R & _). eapply get_ok; eassumption.
Qed.

Lemma get_total fuel t k q : TInv t k -> good_key q -> t_size t <= Z.of_nat fuel -> exists r, table_get fuel t q = Ok r.
Proof.
  intros I Hq Hf. destruct (search_total fuel t q (ti_wf _ _ I) Hq Hf) as (r & E).
  - left. exact (TInv_empty t k I).
  - unfold table_get. rewrite E. cbn. eauto.
Qed.

Lemma set_only_ok ops : Forall set_only ops -> Forall op_ok ops.
Proof.
  intros H. eapply Forall_impl; [|exact H]. intros [k v|k]; cbn; [|tauto]. intros [A B]. split; [assumption|apply B].
Qed.

Lemma set_only_removals ops : Forall set_only ops -> forall m, removals_present m ops.
Proof.
  intros H. induction H as [|o ops Ho Hl IH]; intros m; cbn [removals_present]; [exact I|].
  split; [|apply IH]. destruct o as [k v|k]; [|destruct Ho]. destruct Ho as [_ [Hv _]]. destruct v; try exact I. congruence.
Qed.

Lemma insertions_total fuel ops : FUEL_BOUND <= Z.of_nat fuel -> Forall set_only ops ->
  Z.of_nat (length ops) <= 2 ^ 29 ->
  exists t, run_new fuel ops = Ok t /\
    forall q, good_key q -> table_get fuel t q = Ok (match spec_run ops q with Some v => v | None => VUndef end).
Proof.
  intros Hf Ho Hl. destruct new_TInv as (t0 & E0 & I0 & L0 & R0).
  destruct (run_total fuel ops Hf t0 0 I0 Ho) as (t & k & E & I1 & L1); [lia|].
  assert (En : run_new fuel ops = Ok t) by (unfold run_new; rewrite E0; exact E).
  exists t. split; [exact En|]. intros q Hq.
  destruct (get_total fuel t k q I1 Hq) as (r & Er).
  { pose proof (wf_lim t (ti_wf _ _ I1)). unfold FUEL_BOUND, ALLOC_LIMIT in *. lia. }
  rewrite Er. f_equal. eapply hist_get; [apply set_only_ok; exact Ho|exact En|exact Hq|exact Er].
Qed.

Lemma spec_run_app ops o : spec_run (ops ++ [o]) = spec_step (spec_run ops) o.
Proof. unfold spec_run. rewrite fold_left_app. reflexivity. Qed.

Lemma hist_remove fuel fuel' ops k t q r : Forall op_ok ops -> good_key k -> good_key q ->
  run_new fuel (ops ++ [TRm k]) = Ok t -> table_get fuel' t q = Ok r ->
  r = if value_eq_dec q k then VUndef else match spec_run ops q with Some v => v | None => VUndef end.
Proof.
  intros Ho Hk Hq E G. apply (hist_get fuel fuel' (ops ++ [TRm k]) t q r) in G; try assumption.
  - rewrite G, spec_run_app. cbn. unfold mrm. destruct (value_eq_dec q k); reflexivity.
  - apply Forall_app. split; [assumption|]. constructor; [exact Hk|constructor].
Qed.

Lemma hist_length fuel ops t : Forall op_ok ops -> removals_present mempty ops -> run_new fuel ops = Ok t ->
  exists keys, NoDup keys /\ (forall k, good_key k -> (In k keys <-> spec_run ops k <> None))
    /\ Forall good_key keys /\ table_length t = Z.of_nat (length keys).
Proof.
  intros Ho Hp E. destruct (run_new_ok _ _ _ Ho E) as (W & R & C). exists (table_keys t).
  destruct (keys_spec t _ W R) as [A B]. split; [assumption|]. split; [|split].
  - intros k Hk. rewrite B. tauto.
  - apply Forall_forall. intros k Hk. apply B in Hk. tauto.
  - apply length_spec; auto.
Qed.

Lemma hist_enumerate fuel fuel' steps ops t : Forall op_ok ops -> run_new fuel ops = Ok t ->
  (length (t_items t) < steps)%nat -> t_size t <= Z.of_nat fuel' ->
  exists entries,
    (* the entries are exactly the mapping, each key once *)
    NoDup (map fst entries) /\ (forall k v, In (k, v) entries <-> good_key k /\ spec_run ops k = Some v) /\
    (* for k <- t *)
    iterate steps t 0 = Ok (map fst entries) /\
    (* t.keys() and t.values() *)
    table_keys t = map fst entries /\ table_values t = map snd entries /\
    (* YASL_tablenext fed with its own results *)
    next_all fuel' steps t VUndef = Ok entries.
Proof.
  intros Ho E Hs Hf. destruct (run_new_ok _ _ _ Ho E) as (W & R & _). exists (map kv (for_table t)).
  assert (Hk : map fst (map kv (for_table t)) = table_keys t) by (unfold table_keys; rewrite map_map; reflexivity).
  rewrite Hk. split; [apply (keys_spec t _ W R)|]. split.
  - intros k v. rewrite <- (for_table_in t _ k v W R). rewrite in_map_iff. split.
    + intros ([k0 v0] & Eq & Hin). injection Eq as <- <-. exact Hin.
    + intros Hin. exists (Item k v). auto.
  - split; [apply iterate_keys; assumption|]. split; [reflexivity|]. split.
    + unfold table_values. rewrite map_map. reflexivity.
    + apply next_all_ok; assumption.
Qed.

(** ** Union and copy *)
Lemma mset_all_for t m m0 : WF t -> repr t m -> forall q, good_key q ->
  mset_all (for_table t) m0 q = match m q with Some v => Some v | None => m0 q end.
Proof.
  intros H Hr q Hq. pose proof (for_table_keys_nodup t H) as Hnd.
  assert (Hs : forall v, mset_all (for_table t) m0 q = Some v <->
      (match m q with Some v => Some v | None => m0 q end) = Some v).
  { intros v. rewrite (mset_all_spec _ _ _ Hnd). rewrite (for_table_in t m) by assumption.
    destruct (keys_spec t m H Hr) as [_ K]. change (map ik (for_table t)) with (table_keys t). rewrite K.
    destruct (m q) as [w|]; split.
    - intros [[_ E]|[N _]]; [assumption|]. exfalso. apply N. split; [assumption|discriminate].
    - intros E. left. auto.
    - intros [[_ E]|[_ E]]; [discriminate|assumption].
    - intros E. right. split; [|assumption]. intros [_ N]. congruence. }
  destruct (mset_all (for_table t) m0 q) as [v|] eqn:E1.
  - symmetry. apply Hs. reflexivity.
  - destruct (match m q with Some v => Some v | None => m0 q end) as [v|] eqn:E2; [|reflexivity].
    specialize (Hs v). destruct Hs as [_ Hs]. discriminate Hs. reflexivity.
Qed.

Lemma bor_ok fuel l r t ml mr : WF l -> repr l ml -> WF r -> repr r mr -> table_bor fuel l r = Ok t ->
  WF t /\ repr t (fun q => match mr q with Some v => Some v | None => ml q end) /\ counted t.
Proof.
  intros Wl Rl Wr Rr E. unfold table_bor in E.
  destruct (table_new_sized (t_base l)) as [t0|e| |] eqn:E0; cbn [bind] in E; try discriminate E.
  destruct (new_sized_ok _ _ E0) as (W0 & R0 & C0 & _).
  destruct (insert_all (insert_fast fuel) (for_table l) t0) as [t1|e| |] eqn:E1; cbn [bind] in E; try discriminate E.
  destruct (insert_all_ok _ (insert_fast_ok fuel) _ _ _ (for_table_good l Wl) W0 E1) as (W1 & R1 & C1).
  destruct (insert_all_ok _ (insert_fast_ok fuel) _ _ _ (for_table_good r Wr) W1 E) as (W2 & R2 & C2).
  split; [assumption|]. split; [|auto]. eapply repr_iff; [|apply R2, R1, R0].
  intros q Hq. cbn beta. rewrite (mset_all_for r mr) by assumption. destruct (mr q); [reflexivity|].
  rewrite (mset_all_for l ml) by assumption. unfold mempty. destruct (ml q); reflexivity.
Qed.

Lemma copy_ok fuel l t ml : WF l -> repr l ml -> table_copy fuel l = Ok t ->
  WF t /\ repr t ml /\ counted t.
Proof.
  intros Wl Rl E. unfold table_copy in E.
  destruct (table_new_sized (t_base l)) as [t0|e| |] eqn:E0; cbn [bind] in E; try discriminate E.
  destruct (new_sized_ok _ _ E0) as (W0 & R0 & C0 & _).
  destruct (insert_all_ok _ (insert_fast_ok fuel) _ _ _ (for_table_good l Wl) W0 E) as (W1 & R1 & C1).
  split; [assumption|]. split; [|auto]. eapply repr_iff; [|apply R1, R0].
  intros q Hq. rewrite (mset_all_for l ml) by assumption. unfold mempty. destruct (ml q); reflexivity.
Qed.

Lemma hist_bor fuel ops1 ops2 l r t fuel' q x : Forall op_ok ops1 -> Forall op_ok ops2 ->
  run_new fuel ops1 = Ok l -> run_new fuel ops2 = Ok r -> table_bor fuel l r = Ok t -> good_key q ->
  table_get fuel' t q = Ok x ->
  x = match spec_run ops2 q with Some v => v
      | None => match spec_run ops1 q with Some v => v | None => VUndef end end.
Proof.
  intros H1 H2 E1 E2 E Hq G. destruct (run_new_ok _ _ _ H1 E1) as (W1 & R1 & _). destruct (run_new_ok _ _ _ H2 E2) as (W2 & R2 & _).
  destruct (bor_ok _ _ _ _ _ _ W1 R1 W2 R2 E) as (W & R & _).
  rewrite (get_ok _ _ _ _ _ W R Hq G). destruct (spec_run ops2 q); reflexivity.
Qed.

Lemma hist_copy fuel ops l t fuel' q x : Forall op_ok ops ->
  run_new fuel ops = Ok l -> table_copy fuel l = Ok t -> good_key q ->
  table_get fuel' t q = Ok x ->
  x = match spec_run ops q with Some v => v | None => VUndef end.
Proof.
  intros H1 E1 E Hq G. destruct (run_new_ok _ _ _ H1 E1) as (W1 & R1 & _).
  destruct (copy_ok _ _ _ _ W1 R1 E) as (W & R & _). exact (get_ok _ _ _ _ _ W R Hq G).
Qed.

(** ** Termination *)
Lemma rm_loop_halts fuel key n : prime n -> n < ALLOC_LIMIT -> forall t k k', t_size t = n -> n = Z.of_nat (length (t_items t)) ->
  0 <= k <= k' -> k' < n -> undef_slot t (get_hash key n k') -> k' - k < Z.of_nat fuel ->
  exists t', rm_loop fuel t key (get_hash key n k) (k + 1) = Ok t'.
Proof.
  intros Hp Hlim. pose proof (prime_ge_2 n Hp) as Hn2.
  induction fuel as [|f IH]; intros t k k' Hs Hl Hkk Hk' Hu Hf; [lia|]. cbn [rm_loop].
  rewrite get_item_slot. pose proof (get_hash_range key n k ltac:(lia)) as Hr.
  destruct (slot_range t (get_hash key n k)) as (it & E); [lia|]. rewrite E. cbn [bind].
  destruct (is_undef (ik it)) eqn:U; [eauto|].
  assert (Hlt : k < k').
  { destruct (Z.eq_dec k k') as [->|]; [|lia]. destruct Hu as (it2 & A & B). rewrite E in A. injection A as <-.
    rewrite B in U. discriminate U. }
  rewrite Hs. rewrite (u64_succ n) by (assumption || lia).
  set (c := negb (is_end (ik it)) && is_equal_typed (ik it) key). destruct c.
  - apply (IH (set_item t (get_hash key n k) TOMBSTONE) (k + 1) k'); try assumption; try lia.
    + cbn. rewrite upd_length. assumption.
    + destruct Hu as (it2 & A & B). exists it2. split; [|assumption]. rewrite slot_set_neq; [assumption|lia|].
      intros Eq. apply probe_inj in Eq; try assumption; lia.
  - apply (IH t (k + 1) k'); try assumption; lia.
Qed.

Lemma rm_total fuel t key : WF t -> good_key key -> empty_exists t -> 10 <= load t \/ t_base t / 2 < TABLE_BASESIZE ->
  t_size t <= Z.of_nat fuel -> exists t', table_rm fuel t key = Ok t'.
Proof.
  intros H Hk He Hl Hf. unfold table_rm. rewrite good_hashable by assumption.
  assert ((if load t <? 10 then table_resize (insert_fast fuel) t (t_base t / 2) else Ok t) = Ok t) as ->.
  { destruct (Z.ltb_spec (load t) 10); [|reflexivity]. unfold table_resize.
    destruct (Z.ltb_spec (t_base t / 2) TABLE_BASESIZE); [reflexivity|lia]. }
  cbn [bind]. destruct (first_empty t key H He) as (k' & Hk' & Hu & _).
  destruct (rm_loop_halts fuel key (t_size t) (wf_prime t H) (wf_lim t H) t 0 k' eq_refl (wf_len t H)) as (t' & E); try assumption; try lia.
  change (0 + 1) with 1 in E. rewrite E. cbn [bind]. eauto.
Qed.

Lemma insert_noresize_total fuel t key v : WF t -> good_key key -> empty_exists t -> load t <= 70 ->
  t_size t < Z.of_nat fuel -> exists t', insert_fast fuel t key v = Ok t'.
Proof.
  intros H Hk He Hl Hf. destruct fuel as [|f]; [pose proof (size_pos t H); lia|]. cbn [insert_fast].
  destruct (Z.ltb_spec 70 (load t)); [lia|]. cbn [bind].
  destruct (getindex_total f t key H Hk He ltac:(lia)) as (idx & Eg). rewrite Eg. cbn [bind].
  destruct (getindex_ok _ _ _ _ H Hk Eg) as (i & Hi & Hidx & _).
  destruct (gh_slot t key i H) as (it & Eit). rewrite <- Hidx in Eit. rewrite get_item_slot, Eit. cbn [bind]. eauto.
Qed.

(** In any table reached by a history, while at least one slot was never used, every operation that does not
    resize finishes within as many probes as there are slots. *)
Lemma hist_terminates fuel fuel' ops t : Forall op_ok ops -> run_new fuel ops = Ok t ->
  In EMPTY (t_items t) -> t_size t < Z.of_nat fuel' ->
  (forall q, good_key q -> exists r, table_get fuel' t q = Ok r) /\
  (forall k v, good_key k -> good_val v -> load t <= 70 -> exists t', table_set fuel' t k v = Ok t') /\
  (forall k, good_key k -> 10 <= load t \/ t_base t / 2 < TABLE_BASESIZE -> exists t', table_rm fuel' t k = Ok t').
Proof.
  intros Ho E He Hf. destruct (run_new_ok _ _ _ Ho E) as (W & R & _).
  assert (Ee : empty_exists t) by (destruct (in_slot t _ He) as (j & Ej); exists j; exact Ej).
  split; [|split].
  - intros q Hq. destruct (search_total fuel' t q W Hq) as (r & Er); [lia|left; exact Ee|].
    unfold table_get. rewrite Er. cbn. eauto.
  - intros k v Hk [Hv1 Hv2] Hl. unfold table_set. assert (is_undef v = false) as -> by (destruct v; cbn; congruence).
    unfold table_insert. rewrite good_hashable by assumption.
    destruct (insert_noresize_total fuel' t k v W Hk Ee Hl Hf) as (t' & Et). rewrite Et. cbn. eauto.
  - intros k Hk Hl. apply rm_total; try assumption. lia.
Qed.

(** A history that fills every slot of a fresh table with removal marks. *)
Definition churn : list top :=
  concat (map (fun n => [TSet (VInt (Z.of_nat n)) (VBool true); TRm (VInt (Z.of_nat n))]) (seq 0 30))
  ++ [TSet (VInt 30) (VBool true)].
Definition churned : table := match run_new 100 churn with Ok t => t | _ => Tbl 0 0 0 [] end.

Lemma churn_run : run_new 100 churn = Ok churned.
Proof. vm_compute. reflexivity. Qed.

Lemma churn_ok : Forall op_ok churn.
Proof.
  unfold churn. apply Forall_app. split; [|repeat constructor; discriminate].
  apply Forall_forall. intros o Ho. apply in_concat in Ho. destruct Ho as (l & Hl & Ho).
  apply in_map_iff in Hl. destruct Hl as (n & <- & _). destruct Ho as [<-|[<-|[]]]; cbn; [split; [exact I|discriminate]|exact I].
Qed.

Lemma churn_full : forallb (fun it => negb (is_undef (ik it))) (t_items churned) = true.
Proof. vm_compute. reflexivity. Qed.

Lemma churn_hangs : forall q, good_key q -> q <> VInt 30 -> forall fuel,
  table_get fuel churned q = NoFuel /\ insert_fast fuel churned q (VBool true) = NoFuel.
Proof.
  intros q Hq Hne fuel. destruct (run_new_ok 100 churn churned churn_ok churn_run) as (W & R & _).
  assert (He : forall j, slot churned j <> Some EMPTY).
  { intros j Ej. apply slot_some in Ej. destruct Ej as [_ Hin]. pose proof churn_full as F.
    rewrite forallb_forall in F. specialize (F _ Hin). discriminate F. }
  assert (Ha : forall j v, slot churned j <> Some (Item q v)).
  { intros j v Ej. assert (Hs : spec_run churn q = Some v) by (eapply repr_fun; eassumption).
    assert (Hk : forallb (fun it => is_end (ik it) || is_equal_typed (ik it) (VInt 30)) (t_items churned) = true) by (vm_compute; reflexivity).
    apply slot_some in Ej. destruct Ej as [_ Hin]. rewrite forallb_forall in Hk. specialize (Hk _ Hin). cbn in Hk.
    assert (Q : is_end q = false) by (clear -Hq; destruct q; cbn in *; tauto). rewrite Q in Hk. cbn in Hk.
    apply keq_good in Hk; [congruence|assumption|exact I]. }
  split.
  - unfold table_get. rewrite (search_diverges churned q W Hq He Ha fuel). reflexivity.
  - destruct fuel as [|f]; [reflexivity|]. cbn [insert_fast].
    replace (70 <? load churned) with false by (vm_compute; reflexivity). cbn [bind].
    rewrite (getindex_diverges churned q W Hq He Ha f). reflexivity.
Qed.

Lemma churn_rm_hangs : forall fuel, table_rm fuel churned (VInt 30) = NoFuel.
Proof.
  intros fuel. destruct (run_new_ok 100 churn churned churn_ok churn_run) as (W & R & _).
  unfold table_rm. cbn [is_hashable].
  replace (load churned <? 10) with true by (vm_compute; reflexivity).
  unfold table_resize. replace (t_base churned / 2 <? TABLE_BASESIZE) with true by (vm_compute; reflexivity). cbn [bind].
  destruct (rm_loop_wf fuel churned (VInt 30) W I) as [N|((j & Ej) & _)]; [rewrite N; reflexivity|].
  exfalso. apply slot_some in Ej. destruct Ej as [_ Hin]. pose proof churn_full as F.
  rewrite forallb_forall in F. specialize (F _ Hin). discriminate F.
Qed.

(** After t.clear() the capacity is 30, not a prime: three keys suffice to make the next probe cycle. *)
Definition after_clear : table := table_clear (match table_new with Ok t => t | _ => Tbl 0 0 0 [] end).
Definition cleared2 : table :=
  match run_table 100 [TSet (VInt 15) (VBool true); TSet (VInt 45) (VBool true)] after_clear with Ok t => t | _ => after_clear end.

Lemma cleared2_run : run_table 100 [TSet (VInt 15) (VBool true); TSet (VInt 45) (VBool true)] after_clear = Ok cleared2.
Proof. vm_compute. reflexivity. Qed.

Lemma hash75 i : 0 <= i <= 2 ^ 60 -> get_hash (VInt 75) 30 i = 15 \/ get_hash (VInt 75) 30 i = 0.
Proof.
  intros Hi. unfold get_hash. replace (hash_function (VInt 75) PRIME_A 30) with 15 by (vm_compute; reflexivity).
  replace (hash_function (VInt 75) PRIME_B 30) with 15 by (vm_compute; reflexivity).
  destruct (i =? 0); [left; reflexivity|]. change (15 =? 0) with false. cbv iota. change (2 ^ 60) with 1152921504606846976 in Hi.
  unfold u64, two64. rewrite (Z.mod_small (i * (15 + 0))) by lia. rewrite (Z.mod_small (15 + _)) by lia.
  replace (15 + i * (15 + 0)) with (15 * (i + 1)) by lia. lia.
Qed.

Lemma clear_loop_hangs fuel : forall index i, index = 15 \/ index = 0 -> 0 <= i -> i + Z.of_nat fuel <= 2 ^ 60 ->
  getindex_loop fuel cleared2 (VInt 75) index i = NoFuel.
Proof.
  induction fuel as [|f IH]; intros index i Hidx Hi Hf; [reflexivity|]. cbn [getindex_loop].
  change (2 ^ 60) with 1152921504606846976 in *.
  assert (E : exists it, get_item cleared2 index = Ok it /\ is_undef (iv it) = false /\ is_equal_typed (ik it) (VInt 75) = false).
  { destruct Hidx as [->| ->].
    - exists (Item (VInt 15) (VBool true)). vm_compute. auto.
    - exists (Item (VInt 45) (VBool true)). vm_compute. auto. }
  destruct E as (it & E0 & E1 & E2). rewrite E0. cbn [bind]. rewrite E1, E2, andb_false_r.
  assert (u64 (i + 1) = i + 1) as -> by (unfold u64, two64; rewrite Z.mod_small; lia).
  apply IH; [|lia|lia]. change (t_size cleared2) with 30. apply hash75. change (2 ^ 60) with 1152921504606846976. lia.
Qed.

Lemma clear_hangs fuel : Z.of_nat fuel < 2 ^ 60 -> table_set fuel cleared2 (VInt 75) (VBool true) = NoFuel.
Proof.
  intros Hf. unfold table_set, table_insert. cbn [is_undef is_hashable]. destruct fuel as [|f]; [reflexivity|]. cbn [insert_fast].
  replace (70 <? load cleared2) with false by (vm_compute; reflexivity). cbn [bind].
  unfold getindex. change (t_size cleared2) with 30. rewrite clear_loop_hangs; [reflexivity| |lia|lia].
  apply hash75. change (2 ^ 60) with 1152921504606846976. lia.
Qed.

Lemma clear_refuted : exists t0 t,
  table_new = Ok t0 /\
  run_table 100 [TSet (VInt 15) (VBool true); TSet (VInt 45) (VBool true)] (table_clear t0) = Ok t /\
  (forall fuel, Z.of_nat fuel < 2 ^ 60 -> table_set fuel t (VInt 75) (VBool true) = NoFuel).
Proof.
  exists (match table_new with Ok t => t | _ => Tbl 0 0 0 [] end), cleared2.
  split; [vm_compute; reflexivity|]. split; [exact cleared2_run|exact clear_hangs].
Qed.

Lemma tombstones_refuted : exists ops t,
  Forall op_ok ops /\ run_new 100 ops = Ok t /\ table_length t = 1 /\
  (forall q fuel, good_key q -> q <> VInt 30 -> table_get fuel t q = NoFuel /\ table_set fuel t q (VBool true) = NoFuel) /\
  (forall fuel, table_rm fuel t (VInt 30) = NoFuel).
Proof.
  exists churn, churned. split; [exact churn_ok|]. split; [exact churn_run|]. split; [vm_compute; reflexivity|].
  split; [|exact churn_rm_hangs]. intros q fuel Hq Hne. destruct (churn_hangs q Hq Hne fuel) as [A B]. split; [exact A|].
  unfold table_set, table_insert. cbn [is_undef]. rewrite good_hashable by assumption. rewrite B. reflexivity.
Qed.

Lemma nth_repeat_some {A} (x : A) n i : (i < n)%nat -> nth_error (repeat x n) i = Some x.
Proof. revert i; induction n as [|n IH]; intros [|i] H; cbn; try lia; [reflexivity|apply IH; lia]. Qed.

Lemma remove_absent k : good_key k ->
  exists t0 t1 t2, table_new = Ok t0 /\ table_length t0 = 0 /\
    run_new 100 [TRm k] = Ok t1 /\ table_length t1 = -1 /\
    run_new 100 [TSet k VUndef] = Ok t2 /\ table_length t2 = -1.
Proof.
  intros Hk.
  assert (En : table_new = Ok (Tbl 31 30 0 (repeat EMPTY 31))) by (vm_compute; reflexivity).
  set (t0 := Tbl 31 30 0 (repeat EMPTY 31)) in *.
  assert (Er : table_rm 100 t0 k = Ok (set_count t0 (-1))).
  { unfold table_rm. rewrite good_hashable by assumption.
    change (load t0 <? 10) with true. cbv iota.
    change (table_resize (insert_fast 100) t0 (t_base t0 / 2)) with (@Ok table t0). cbn [bind].
    change (t_size t0) with 31. change 100%nat with (S 99). generalize 99%nat as f. intros f. cbn [rm_loop].
    unfold get_item, nthZ. pose proof (get_hash_range k 31 0 ltac:(lia)) as Hr.
    destruct (Z.ltb_spec (get_hash k 31 0) 0); [lia|].
    change (t_items t0) with (repeat EMPTY 31). rewrite nth_repeat_some by lia. reflexivity. }
  exists t0, (set_count t0 (-1)), (set_count t0 (-1)).
  split; [exact En|]. split; [reflexivity|]. unfold run_new. rewrite En. cbn [bind run_table]. unfold table_set. cbn [is_undef].
  rewrite Er. cbn [bind]. repeat split.
Qed.
