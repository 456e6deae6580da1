From Coq Require Import Znumtheory.
From Verif Require Import Base ListFacts Prime PrimeProofs Value ValueProofs Hash HashProofs Table TableSpec TableProofs TableProofs2.
Ltac Zify.zify_post_hook ::= Z.div_mod_to_equations.

(** ** Histories *)
Lemma is_undef_iff v : is_undef v = true <-> v = VUndef.
Proof. destruct v; cbn; split; congruence. Qed.

Lemma step_ok fuel t m o t' : WF t -> repr t m -> op_ok o -> run_table fuel [o] t = Ok t' ->
  WF t' /\ repr t' (spec_step m o) /\ (counted t -> removals_present m [o] -> counted t').
Proof.
  intros H Hr Ho E. destruct o as [k v|k]; cbn [run_table] in E.
  - destruct Ho as [Hk Hv]. unfold table_set in E. destruct (is_undef v) eqn:U.
    + apply is_undef_iff in U. subst v.
      destruct (table_rm fuel t k) as [t1|e| |] eqn:E1; cbn [bind] in E; try discriminate E. injection E as <-.
      destruct (table_rm_ok _ _ _ _ m H Hk Hr E1) as (A & B & C). split; [assumption|]. split; [assumption|].
      intros Hc [Hp _]. specialize (C Hc). destruct (m k); [assumption|congruence].
    + assert (Hg : good_val v) by (split; [destruct v; cbn in U; congruence|assumption]).
      unfold table_insert in E. rewrite good_hashable in E by assumption.
      destruct (insert_fast fuel t k v) as [t1|e| |] eqn:E1; cbn [omap bind] in E; try discriminate E. injection E as <-.
      destruct (insert_fast_ok _ _ _ _ _ H Hk Hg E1) as (A & B & C). split; [assumption|].
      assert (Es : spec_step m (TSet k v) = mset m k v) by (cbn; destruct v; cbn in U; congruence).
      rewrite Es. split; [apply B; assumption|]. auto.
  - cbn in Ho. destruct (table_rm fuel t k) as [t1|e| |] eqn:E1; cbn [bind] in E; try discriminate E. injection E as <-.
    destruct (table_rm_ok _ _ _ _ m H Ho Hr E1) as (A & B & C). split; [assumption|]. split; [assumption|].
    intros Hc [Hp _]. specialize (C Hc). destruct (m k); [assumption|congruence].
Qed.

Lemma run_cons fuel o ops t : run_table fuel (o :: ops) t = do t' <- run_table fuel [o] t; run_table fuel ops t'.
Proof. destruct o; cbn [run_table]; [destruct (table_set fuel t k v)|destruct (table_rm fuel t k)]; reflexivity. Qed.

Lemma run_ok fuel ops : forall t m t', WF t -> repr t m -> Forall op_ok ops -> run_table fuel ops t = Ok t' ->
  WF t' /\ repr t' (fold_left spec_step ops m) /\ (counted t -> removals_present m ops -> counted t').
Proof.
  induction ops as [|o ops IH]; intros t m t' H Hr Ho E.
  - injection E as <-. cbn. auto.
  - inversion Ho as [|? ? Ho1 Ho2]; subst. rewrite run_cons in E.
    destruct (run_table fuel [o] t) as [t1|e| |] eqn:E1; cbn [bind] in E; try discriminate E.
    destruct (step_ok _ _ _ _ _ H Hr Ho1 E1) as (A & B & C).
    destruct (IH _ _ _ A B Ho2 E) as (A2 & B2 & C2). split; [assumption|]. split; [assumption|].
    intros Hc Hp. cbn [removals_present] in Hp. destruct Hp as [Hp1 Hp2]. apply C2; [|assumption].
    apply C; [assumption|]. cbn. auto.
Qed.

Lemma run_new_ok fuel ops t' : Forall op_ok ops -> run_new fuel ops = Ok t' ->
  WF t' /\ repr t' (spec_run ops) /\ (removals_present mempty ops -> counted t').
Proof.
  intros Ho E. unfold run_new, table_new in E.
  destruct (table_new_sized TABLE_BASESIZE) as [t0|e| |] eqn:E0; cbn [bind] in E; try discriminate E.
  destruct (new_sized_ok _ _ E0) as (W & R & C & _).
  destruct (run_ok _ _ _ _ _ W R Ho E) as (A & B & D). split; [assumption|]. split; [assumption|]. auto.
Qed.

(** Values stored are never undef. *)
Lemma spec_val_good t m k v : WF t -> repr t m -> good_key k -> m k = Some v -> v <> VEnd /\ v <> VUndef.
Proof.
  intros H Hr Hk Hm. apply Hr in Hm; [|assumption]. destruct Hm as (j & Ej).
  destruct (good_item_slot t j _ H Ej) as [E|[E|[_ [A B]]]].
  - injection E as -> _. destruct Hk.
  - injection E as -> _. destruct Hk.
  - auto.
Qed.

Lemma get_ok fuel t m q r : WF t -> repr t m -> good_key q -> table_get fuel t q = Ok r ->
  r = match m q with Some v => v | None => VUndef end.
Proof.
  intros H Hr Hq E. unfold table_get in E.
  destruct (table_search fuel t q) as [x|e| |] eqn:S; cbn [bind] in E; try discriminate E. injection E as <-.
  apply (search_ok _ _ _ _ m H Hr Hq) in S. subst x.
  destruct (m q) as [v|] eqn:Em; [|reflexivity].
  destruct (spec_val_good t m q v H Hr Hq Em) as [N _]. destruct v; cbn; congruence.
Qed.

(** ** Iteration *)
Lemma keys_spec t m : WF t -> repr t m ->
  NoDup (table_keys t) /\ (forall k, In k (table_keys t) <-> good_key k /\ m k <> None).
Proof.
  intros H Hr. split; [exact (for_table_keys_nodup t H)|]. intros k. unfold table_keys. rewrite in_map_iff. split.
  - intros ([k0 v0] & Ek & Hin). cbn in Ek. subst k0. apply (for_table_in t m) in Hin; [|assumption..].
    destruct Hin as [A B]. split; [assumption|congruence].
  - intros [Gk Hm]. destruct (m k) as [v|] eqn:E; [|congruence]. exists (Item k v). split; [reflexivity|].
    apply (for_table_in t m); auto.
Qed.

Lemma length_spec t : WF t -> counted t -> table_length t = Z.of_nat (length (table_keys t)).
Proof.
  intros H C. unfold table_length. rewrite C. unfold live_count, table_keys. rewrite map_length, for_table_live by assumption.
  pose proof (count_bound t H) as B. unfold live_count in B. pose proof (wf_lim t H). unfold ALLOC_LIMIT in *.
  unfold i64, two64. rewrite Z.mod_small by lia. lia.
Qed.

Lemma iterate_keys fuel t : WF t -> (length (t_items t) < fuel)%nat -> iterate fuel t 0 = Ok (table_keys t).
Proof.
  intros H Hf. rewrite iterate_ok; [|lia|cbn; lia|cbn; lia]. unfold table_keys. rewrite for_table_live by assumption. reflexivity.
Qed.

(** *** YASL_tablenext *)
Lemma next_skip_filter l :
  match next_skip l with
  | None => filter live l = []
  | Some (k, v) => exists pre post, l = pre ++ Item k v :: post /\ filter live pre = [] /\ live (Item k v) = true
  end.
Proof.
  induction l as [|it l IH]; cbn [next_skip]; [reflexivity|].
  destruct (is_end (ik it) || is_undef (ik it)) eqn:D.
  - assert (live it = false) as L by (unfold live; destruct (ik it); cbn in *; congruence).
    destruct (next_skip l) as [[k v]|].
    + destruct IH as (pre & post & -> & A & B). exists (it :: pre), post. split; [reflexivity|]. split; [cbn; rewrite L; exact A|exact B].
    + cbn. rewrite L. exact IH.
  - exists [], l. split; [destruct it; reflexivity|]. split; [reflexivity|].
    destruct it as [k0 v0]. unfold live. cbn [ik iv] in *. apply orb_false_iff in D. destruct D as [D1 D2]. rewrite D1, D2. reflexivity.
Qed.

Lemma getindex_present fuel t k v j : WF t -> good_key k -> slot t j = Some (Item k v) -> t_size t <= Z.of_nat fuel ->
  getindex fuel t k = Ok j.
Proof.
  intros H Hk Ej Hf.
  assert (HT : exists idx, getindex fuel t k = Ok idx).
  { unfold getindex. pose proof (size_pos t H) as Hn. rewrite getindex_probe; [|assumption|apply get_hash_range; lia].
    destruct (probe_total (t_size t) k (stop_ins t k) (wf_prime t H) (wf_lim t H) fuel) as (idx & P).
    - exists j. split; [apply slot_some in Ej; rewrite wf_len by assumption; apply Ej|].
      unfold stop_ins. rewrite Ej. cbn [ik iv]. assert (is_equal_typed k k = true) as -> by (apply keq_good; auto).
      destruct (good_not_undef _ Hk) as [_ N]. destruct k; cbn; try congruence; apply orb_true_r.
    - assumption.
    - rewrite P. eauto. }
  destruct HT as (idx & E). rewrite E. f_equal.
  destruct (getindex_ok _ _ _ _ H Hk E) as (i & Hi & Hidx & Hslot & Hb).
  destruct (wf_chain t H _ _ _ Ej Hk) as (i2 & Hi2 & Hg2 & Hb2).
  destruct Hslot as [He|(v0 & He)]; [|eapply unique_slot; eassumption].
  destruct (Z.lt_trichotomy i i2) as [L|[->|L]].
  - destruct (Hb2 i ltac:(lia)) as (it & A & B & _). rewrite <- Hidx, He in A. injection A as <-. cbn in B. congruence.
  - congruence.
  - destruct (Hb i2 ltac:(lia)) as (it & A & _ & B). rewrite Hg2, Ej in A. injection A as <-. cbn in B. congruence.
Qed.

Lemma next_all_from steps : forall fuel t key pos, WF t -> t_size t <= Z.of_nat fuel ->
  (key = VUndef /\ pos = 0 \/ (exists v, good_key key /\ slot t (pos - 1) = Some (Item key v))) ->
  0 <= pos <= Z.of_nat (length (t_items t)) -> (length (t_items t) < Z.to_nat pos + steps)%nat ->
  next_all fuel steps t key = Ok (map kv (filter live (skipn (Z.to_nat pos) (t_items t)))).
Proof.
  induction steps as [|s IH]; intros fuel t key pos H Hf Hkey Hpos Hs; [lia|]. cbn [next_all]. unfold table_next.
  assert (Hidx : (if is_undef key then Ok 0 else omap (fun i => u64 (i + 1)) (getindex fuel t key)) = Ok pos).
  { destruct Hkey as [[-> ->]|(v & Gk & Es)]; [reflexivity|].
    destruct (good_not_undef _ Gk) as [N _]. assert (is_undef key = false) as -> by (destruct key; cbn; congruence).
    rewrite (getindex_present fuel t key v (pos - 1)) by assumption. cbn. f_equal. unfold u64, two64.
    pose proof (wf_lim t H). pose proof (wf_len t H). unfold ALLOC_LIMIT in *. rewrite Z.mod_small; lia. }
  rewrite Hidx. cbn [bind]. pose proof (next_skip_filter (skipn (Z.to_nat pos) (t_items t))) as HS.
  destruct (next_skip (skipn (Z.to_nat pos) (t_items t))) as [[k v]|]; [|rewrite HS; reflexivity].
  destruct HS as (pre & post & Esk & A & B).
  assert (Hlen : (length pre + 1 <= length (t_items t) - Z.to_nat pos)%nat).
  { rewrite <- skipn_length, Esk, app_length. cbn. lia. }
  assert (Es : slot t (pos + Z.of_nat (length pre)) = Some (Item k v)).
  { unfold slot, nthZ. destruct (Z.ltb_spec (pos + Z.of_nat (length pre)) 0); [lia|].
    replace (Z.to_nat (pos + Z.of_nat (length pre))) with (Z.to_nat pos + length pre)%nat by lia.
    rewrite <- (firstn_skipn (Z.to_nat pos) (t_items t)) at 1.
    rewrite nth_error_app2 by (rewrite firstn_length; lia). rewrite firstn_length, Nat.min_l by lia.
    replace (Z.to_nat pos + length pre - Z.to_nat pos)%nat with (length pre) by lia.
    rewrite Esk, nth_error_app2, Nat.sub_diag by lia. reflexivity. }
  assert (Gk : good_key k) by (apply (live_good (Item k v)); [exact (good_item_slot t _ _ H Es)|exact B]).
  rewrite (IH fuel t k (pos + Z.of_nat (length pre) + 1)); try assumption; try lia.
  2:{ right. exists v. split; [assumption|]. rewrite <- Es. f_equal. lia. }
  cbn [bind]. rewrite Esk, filter_app, A. cbn [app filter]. rewrite B. cbn [map kv ik iv]. do 3 f_equal.
  replace (Z.to_nat (pos + Z.of_nat (length pre) + 1)) with (length pre + 1 + Z.to_nat pos)%nat by lia.
  rewrite <- (skipn_skipn (length pre + 1)). rewrite Esk.
  replace (pre ++ Item k v :: post) with ((pre ++ [Item k v]) ++ post) by (rewrite <- app_assoc; reflexivity).
  rewrite skipn_app. rewrite skipn_all2 by (rewrite app_length; cbn; lia).
  rewrite app_length. cbn [length]. rewrite Nat.sub_diag. reflexivity.
Qed.

Lemma next_all_ok fuel steps t : WF t -> t_size t <= Z.of_nat fuel -> (length (t_items t) < steps)%nat ->
  next_all fuel steps t VUndef = Ok (map kv (for_table t)).
Proof.
  intros H Hf Hs. rewrite (next_all_from steps fuel t VUndef 0); try assumption; try lia.
  - rewrite for_table_live by assumption. reflexivity.
  - left. auto.
Qed.

(** ** Termination of insertion-only histories *)
Definition no_tombs (t : table) : Prop := forall j, slot t j <> Some TOMBSTONE.
Definition MAXLVL : Z := 25.
Definition base_of (k : Z) : Z := 30 * 2 ^ k.

Lemma levels_b : forallb (fun n =>
    match next_prime Z.sqrt DIVISOR_FUEL PRIME_FUEL (base_of (Z.of_nat n)) with
    | Ok p => (p <? ALLOC_LIMIT) && (base_of (Z.of_nat n) <=? p)
              && (match next_prime Z.sqrt DIVISOR_FUEL PRIME_FUEL (base_of (Z.of_nat n + 1)) with
                  | Ok p' => p + 2 <=? p'
                  | _ => (n =? 25)%nat
                  end)
    | _ => false end) (seq 0 26) = true.
Proof. vm_compute. reflexivity. Qed.

Lemma level_ok k : 0 <= k <= MAXLVL -> exists p, next_prime Z.sqrt DIVISOR_FUEL PRIME_FUEL (base_of k) = Ok p
  /\ p < ALLOC_LIMIT /\ base_of k <= p /\
  (k < MAXLVL -> exists p', next_prime Z.sqrt DIVISOR_FUEL PRIME_FUEL (base_of (k + 1)) = Ok p' /\ p + 2 <= p').
Proof.
  unfold MAXLVL. intros Hk. pose proof levels_b as L. rewrite forallb_forall in L. specialize (L (Z.to_nat k)).
  rewrite in_seq in L. specialize (L ltac:(lia)). rewrite Z2Nat.id in L by lia.
  destruct (next_prime Z.sqrt DIVISOR_FUEL PRIME_FUEL (base_of k)) as [p|e| |]; try discriminate L.
  exists p. split; [reflexivity|]. apply andb_true_iff in L. destruct L as [L L3]. apply andb_true_iff in L. destruct L as [L1 L2].
  split; [lia|]. split; [lia|]. intros Hlt.
  destruct (next_prime Z.sqrt DIVISOR_FUEL PRIME_FUEL (base_of (k + 1))) as [p'|e| |]; try (exfalso; lia).
  exists p'. split; [reflexivity|lia].
Qed.

Record TInv (t : table) (k : Z) : Prop := {
  ti_wf : WF t;
  ti_cnt : counted t;
  ti_nt : no_tombs t;
  ti_k : 0 <= k <= MAXLVL;
  ti_base : t_base t = base_of k;
  ti_size : next_prime Z.sqrt DIVISOR_FUEL PRIME_FUEL (base_of k) = Ok (t_size t);
  ti_load : 100 * live_count t <= 71 * t_size t + 99 }.

Lemma no_empty_full t : WF t -> no_tombs t -> (forall j, slot t j <> Some EMPTY) -> live_count t = t_size t.
Proof.
  intros H Hn He. rewrite (wf_len t H). unfold live_count. f_equal. f_equal.
  assert (HA : Forall (fun it => live it = true) (t_items t)).
  { apply Forall_forall. intros it Hin. destruct (in_slot t it Hin) as (j & Ej).
    apply live_good; [eapply good_item_slot; eassumption|].
    destruct (good_item_slot t j it H Ej) as [->|[->|[G _]]]; [destruct (He j Ej)|destruct (Hn j Ej)|exact G]. }
  clear -HA. induction HA as [|x l Hx Hl IH]; cbn; [reflexivity|]. rewrite Hx, IH. reflexivity.
Qed.

Lemma load_val t : WF t -> counted t -> load t = live_count t * 100 / t_size t.
Proof.
  intros H C. unfold load. rewrite C. pose proof (count_bound t H). pose proof (wf_lim t H). unfold ALLOC_LIMIT in *.
  unfold u64, two64. rewrite (Z.mod_small (live_count t * 100)) by lia. reflexivity.
Qed.

(** One insertion without resizing. *)
Lemma insert_noresize fuel t k key v : TInv t k -> good_key key -> good_val v ->
  100 * live_count t < 71 * t_size t -> t_size t < Z.of_nat fuel ->
  exists t', insert_fast fuel t key v = Ok t' /\ TInv t' k /\ live_count t' <= live_count t + 1 /\ t_size t' = t_size t.
Proof.
  intros I Hk Hv Hl Hf. pose proof (ti_wf t k I) as H. pose proof (size_pos t H) as Hn. destruct fuel as [|f]; [lia|].
  cbn [insert_fast]. rewrite (load_val t H (ti_cnt t k I)).
  destruct (Z.ltb_spec 70 (live_count t * 100 / t_size t)) as [Hb|_].
  { exfalso. pose proof (Z.mul_div_le (live_count t * 100) (t_size t) ltac:(lia)). nia. }
  cbn [bind].
  assert (He : exists j, slot t j = Some EMPTY).
  { destruct (empty_dec t H) as [E|N]; [exact E|]. pose proof (no_empty_full t H (ti_nt t k I) N). lia. }
  destruct (getindex_total f t key H Hk He ltac:(lia)) as (idx & Eg). rewrite Eg. cbn [bind].
  destruct (getindex_ok _ _ _ _ H Hk Eg) as (i & Hi & Hidx & Hslot & Hb).
  destruct (gh_slot t key i H) as (it & Eit). rewrite <- Hidx in Eit. rewrite get_item_slot, Eit. cbn [bind].
  assert (Hslot' : slot t idx = Some EMPTY \/ (exists v0, slot t idx = Some (Item key v0))) by exact Hslot.
  destruct (write_ok t key v idx it i H Hk Hv Hi Hidx Eit Hslot' Hb) as (W2 & _ & C2).
  fold (write t idx it key v). exists (write t idx it key v). split; [reflexivity|].
  assert (Hsz : t_size (write t idx it key v) = t_size t) by (unfold write; destruct (is_equal_typed (ik it) key); reflexivity).
  assert (Hba : t_base (write t idx it key v) = t_base t) by (unfold write; destruct (is_equal_typed (ik it) key); reflexivity).
  assert (Hitems : t_items (write t idx it key v) = upd (t_items t) (Z.to_nat idx) (Item key v)).
  { unfold write. destruct (is_equal_typed (ik it) key); reflexivity. }
  assert (Hlc : live_count (write t idx it key v) <= live_count t + 1).
  { assert (Hnth : nth_error (t_items t) (Z.to_nat idx) = Some it).
    { unfold slot, nthZ in Eit. destruct (Z.ltb_spec idx 0); [discriminate|assumption]. }
    pose proof (filter_upd live _ _ (Item key v) _ Hnth) as HF. rewrite <- Hitems in HF. unfold live_count.
    destruct (live it), (live (Item key v)); lia. }
  assert (Hidx0 : 0 <= idx) by (rewrite Hidx; apply get_hash_range; lia).
  split; [|auto]. constructor.
  - exact W2.
  - exact (C2 (ti_cnt t k I)).
  - intros j Ej. unfold slot, nthZ in Ej. rewrite Hitems in Ej. destruct (Z.ltb_spec j 0); [discriminate|].
    destruct (Z.eq_dec j idx) as [->|Hne].
    + rewrite nth_upd_eq in Ej by (apply slot_some in Eit; lia). injection Ej as -> _.
      destruct Hk.
    + rewrite nth_upd_neq in Ej by lia. apply (ti_nt t k I j). unfold slot, nthZ. destruct (Z.ltb_spec j 0); [lia|assumption].
  - exact (ti_k t k I).
  - rewrite Hba. exact (ti_base t k I).
  - rewrite Hsz. exact (ti_size t k I).
  - rewrite Hsz. lia.
Qed.

Lemma insert_all_total fuel k : forall l t, TInv t k -> Forall (fun it => good_key (ik it) /\ good_val (iv it)) l ->
  100 * (live_count t + Z.of_nat (length l)) < 71 * t_size t + 100 -> t_size t < Z.of_nat fuel ->
  exists t', insert_all (insert_fast fuel) l t = Ok t' /\ TInv t' k /\ live_count t' <= live_count t + Z.of_nat (length l) /\ t_size t' = t_size t.
Proof.
  induction l as [|it l IH]; intros t I HF Hl Hf; cbn [insert_all length] in *.
  - exists t. split; [reflexivity|]. split; [assumption|]. split; [lia|reflexivity].
  - inversion HF as [|? ? [Hk Hv] HF']; subst.
    destruct (insert_noresize fuel t k (ik it) (iv it) I Hk Hv) as (t1 & E1 & I1 & L1 & S1); [lia|assumption|].
    rewrite E1. cbn [bind]. destruct (IH t1 I1 HF') as (t2 & E2 & I2 & L2 & S2); [lia|lia|].
    exists t2. split; [exact E2|]. split; [assumption|]. split; [lia|lia].
Qed.

Definition FUEL_BOUND : Z := 4294967300.

Lemma base_of_succ k : 0 <= k <= MAXLVL -> u64 (base_of k * 2) = base_of (k + 1) /\ TABLE_BASESIZE <= base_of (k + 1).
Proof.
  unfold base_of, MAXLVL, TABLE_BASESIZE. intros Hk. rewrite Z.pow_add_r by lia. change (2 ^ 1) with 2.
  assert (1 <= 2 ^ k <= 2 ^ 25) by (split; [change 1 with (2^0)|]; apply Z.pow_le_mono_r; lia).
  change (2 ^ 25) with 33554432 in *. unfold u64, two64. rewrite Z.mod_small by lia. lia.
Qed.

Lemma insert_total fuel t k key v : TInv t k -> good_key key -> good_val v ->
  live_count t < 2 ^ 29 -> FUEL_BOUND <= Z.of_nat fuel ->
  exists t' k', insert_fast fuel t key v = Ok t' /\ TInv t' k' /\ live_count t' <= live_count t + 1.
Proof.
  intros I Hk Hv Hlc Hf. unfold FUEL_BOUND in Hf. pose proof (ti_wf t k I) as H. pose proof (size_pos t H) as Hn.
  pose proof (wf_lim t H) as Hlim. unfold ALLOC_LIMIT in Hlim.
  destruct (Z_lt_le_dec (100 * live_count t) (71 * t_size t)) as [Hsm|Hbig].
  { destruct (insert_noresize fuel t k key v I Hk Hv Hsm ltac:(lia)) as (t' & E & I' & L & _). exists t', k. auto. }
  destruct fuel as [|f]; [lia|].
  pose proof (ti_k t k I) as Hkk.
  destruct (level_ok k Hkk) as (p & Ep & Hp1 & Hp2 & Hnext). rewrite (ti_size t k I) in Ep. injection Ep as <-.
  assert (Hk25 : k < MAXLVL).
  { destruct (Z.eq_dec k MAXLVL) as [->|]; [|lia]. exfalso. change (base_of MAXLVL) with 1006632960 in Hp2.
    change (2 ^ 29) with 536870912 in Hlc. lia. }
  destruct (Hnext Hk25) as (p' & Ep' & Hpp).
  destruct (level_ok (k + 1)) as (p2 & Ep2 & Hlim2 & _); [unfold MAXLVL in *; lia|]. rewrite Ep' in Ep2. injection Ep2 as <-.
  destruct (base_of_succ k Hkk) as [Hb1 Hb2].
  assert (Eres : exists t1, table_resize (insert_fast f) t (u64 (t_base t * 2)) = Ok t1 /\ TInv t1 (k + 1) /\
            live_count t1 <= live_count t /\ t_size t1 = p').
  { unfold table_resize. rewrite (ti_base t k I), Hb1. destruct (Z.ltb_spec (base_of (k + 1)) TABLE_BASESIZE); [lia|].
    assert (En : table_new_sized (base_of (k + 1)) = Ok (Tbl p' (base_of (k + 1)) 0 (repeat EMPTY (Z.to_nat p')))).
    { unfold table_new_sized. rewrite Ep'. cbn [bind]. destruct (Z.ltb_spec p' ALLOC_LIMIT); [reflexivity|unfold ALLOC_LIMIT in *; lia]. }
    rewrite En. cbn [bind]. destruct (new_sized_ok _ _ En) as (W0 & R0 & C0 & B0 & S0 & Em & _).
    set (nt := Tbl p' (base_of (k + 1)) 0 (repeat EMPTY (Z.to_nat p'))) in *.
    assert (L0 : live_count nt = 0) by (unfold counted in C0; rewrite <- C0; reflexivity).
    assert (I0 : TInv nt (k + 1)).
    { constructor; try assumption.
      - intros j Ej. apply Em in Ej. discriminate Ej.
      - unfold MAXLVL in *. lia.
      - rewrite L0. pose proof (size_pos nt W0). lia. }
    assert (Hlen : Z.of_nat (length (for_table t)) = live_count t) by (rewrite for_table_live by assumption; reflexivity).
    destruct (insert_all_total f (k + 1) (for_table t) nt I0 (for_table_good t H)) as (t1 & E1 & I1 & L1 & S1).
    - rewrite L0, Hlen. change (t_size nt) with p'. pose proof (ti_load t k I). lia.
    - change (t_size nt) with p'. unfold ALLOC_LIMIT in *. lia.
    - rewrite E1. cbn [bind]. exists (Tbl (t_size t1) (t_base t1) (t_count t1) (t_items t1)). split; [reflexivity|].
      replace (Tbl (t_size t1) (t_base t1) (t_count t1) (t_items t1)) with t1 by (destruct t1; reflexivity).
      split; [assumption|]. split; [lia|exact S1]. }
  destruct Eres as (t1 & E1 & I1 & L1 & S1).
  (* now the tail of insert_fast on t1 is insert without resize *)
  assert (Hsm1 : 100 * live_count t1 < 71 * t_size t1) by (pose proof (ti_load t k I); lia).
  destruct (insert_noresize (S f) t1 (k + 1) key v I1 Hk Hv Hsm1) as (t' & E & I' & L & _).
  { rewrite S1. unfold ALLOC_LIMIT in *. lia. }
  exists t', (k + 1). split; [|split; [assumption|lia]].
  cbn [insert_fast] in E |- *.
  rewrite (load_val t H (ti_cnt t k I)).
  destruct (Z.ltb_spec 70 (live_count t * 100 / t_size t)) as [_|Hb].
  2:{ exfalso. pose proof (Z.mul_succ_div_gt (live_count t * 100) (t_size t) ltac:(lia)). nia. }
  rewrite E1. cbn [bind].
  rewrite (load_val t1 (ti_wf _ _ I1) (ti_cnt _ _ I1)) in E.
  destruct (Z.ltb_spec 70 (live_count t1 * 100 / t_size t1)) as [Hb|_].
  { exfalso. pose proof (size_pos t1 (ti_wf _ _ I1)) as Hn1. pose proof (Z.mul_div_le (live_count t1 * 100) (t_size t1) ltac:(lia)). nia. }
  exact E.
Qed.

Lemma new_TInv : exists t, table_new = Ok t /\ TInv t 0 /\ live_count t = 0 /\ repr t mempty.
Proof.
  destruct (level_ok 0) as (p & Ep & Hl & Hb & _); [unfold MAXLVL; lia|].
  assert (En : table_new = Ok (Tbl p TABLE_BASESIZE 0 (repeat EMPTY (Z.to_nat p)))).
  { unfold table_new, table_new_sized. change TABLE_BASESIZE with (base_of 0). rewrite Ep. cbn [bind].
    destruct (Z.ltb_spec p ALLOC_LIMIT); [reflexivity|unfold ALLOC_LIMIT in *; lia]. }
  eexists. split; [exact En|]. destruct (new_sized_ok _ _ En) as (W0 & R0 & C0 & B0 & S0 & Em & _).
  assert (L0 : live_count (Tbl p TABLE_BASESIZE 0 (repeat EMPTY (Z.to_nat p))) = 0) by (unfold counted in C0; rewrite <- C0; reflexivity).
  split; [|split; assumption]. constructor; try assumption.
  - intros j Ej. apply Em in Ej. discriminate Ej.
  - unfold MAXLVL; lia.
  - rewrite L0. pose proof (size_pos _ W0). lia.
Qed.

Lemma run_total fuel ops : FUEL_BOUND <= Z.of_nat fuel -> forall t k, TInv t k -> Forall set_only ops ->
  live_count t + Z.of_nat (length ops) <= 2 ^ 29 ->
  exists t' k', run_table fuel ops t = Ok t' /\ TInv t' k' /\ live_count t' <= live_count t + Z.of_nat (length ops).
Proof.
  intros Hf. induction ops as [|o ops IH]; intros t k I Ho Hl; cbn [length run_table] in *.
  - exists t, k. split; [reflexivity|]. split; [assumption|lia].
  - inversion Ho as [|? ? Ho1 Ho2]; subst. destruct o as [key v|]; [|destruct Ho1]. destruct Ho1 as [Hk Hv].
    destruct (insert_total fuel t k key v I Hk Hv) as (t1 & k1 & E1 & I1 & L1); [lia|assumption|].
    cbn [run_table]. unfold table_set, table_insert. rewrite good_hashable by assumption. rewrite E1. cbn [omap bind].
    assert (is_undef v = false) as -> by (destruct Hv; destruct v; cbn; congruence). cbn [bind].
    destruct (IH t1 k1 I1 Ho2) as (t2 & k2 & E2 & I2 & L2); [lia|].
    exists t2, k2. split; [exact E2|]. split; [assumption|lia].
Qed.

Lemma TInv_empty t k : TInv t k -> empty_exists t.
Proof.
  intros I. pose proof (ti_wf _ _ I) as H. destruct (empty_dec t H) as [E|N]; [exact E|].
  pose proof (no_empty_full t H (ti_nt _ _ I) N). pose proof (ti_load _ _ I). 
  destruct (level_ok k (ti_k _ _ I)) as (p & Ep & _ & Hp2 & _). rewrite (ti_size _ _ I) in Ep. injection Ep as <-.
  assert (30 <= base_of k). { unfold base_of. assert (1 <= 2 ^ k); [|lia]. change 1 with (2 ^ 0). apply Z.pow_le_mono_r; [lia|]. apply (ti_k _ _ I). }
  lia.
Qed.
