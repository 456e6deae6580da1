From Coq Require Import Znumtheory.
From Verif Require Import Base ListFacts Prime PrimeProofs Value ValueProofs Hash HashProofs Table TableSpec TableProofs.
Ltac Zify.zify_post_hook ::= Z.div_mod_to_equations.

(** *** Search *)
Definition stop_search (t : table) (key : value) (idx : Z) : bool :=
  match slot t idx with
  | Some it => is_undef (ik it) || is_equal_typed (ik it) key
  | None => false
  end.

Lemma search_probe fuel : forall t key index i, WF t -> 0 <= index < t_size t ->
  search_loop fuel t key index i =
    match probe fuel (t_size t) key (stop_search t key) index i with
    | Some x => match slot t x with
                | Some it => Ok (if is_undef (ik it) then VEnd else iv it)
                | None => UB end
    | None => NoFuel end.
Proof.
  induction fuel as [|f IH]; intros t key index i H Hi; cbn [search_loop probe]; [reflexivity|].
  rewrite get_item_slot. destruct (slot_range t index) as (it & E); [rewrite <- wf_len; assumption|].
  rewrite E. cbn [bind]. unfold stop_search at 1. rewrite E.
  destruct (is_undef (ik it)) eqn:EU; cbn [orb]; [rewrite E, EU; reflexivity|].
  destruct (is_equal_typed (ik it) key); [rewrite E, EU; reflexivity|].
  apply IH; [assumption|]. apply get_hash_range. pose proof (size_pos t H). lia.
Qed.

Lemma stop_search_spec t key idx it : WF t -> good_key key -> slot t idx = Some it ->
  (stop_search t key idx = true <-> ik it = VUndef \/ ik it = key).
Proof.
  intros H Hk E. unfold stop_search. rewrite E. rewrite orb_true_iff.
  assert (is_undef (ik it) = true <-> ik it = VUndef) as -> by (destruct (ik it); cbn; split; congruence).
  destruct (good_item_slot t idx it H E) as [->|[->|[Gk Gv]]].
  - cbn [ik EMPTY]. rewrite keq_undef_l by assumption. split; [intros [?|?]; [auto|discriminate]|auto].
  - cbn [ik TOMBSTONE]. rewrite keq_end_l. destruct (good_not_undef _ Hk) as [A B].
    split; [intros [?|?]; [auto|discriminate]|intros [?|?]; [auto|congruence]].
  - rewrite keq_good by assumption. tauto.
Qed.

Lemma search_ok fuel t key r m : WF t -> repr t m -> good_key key -> table_search fuel t key = Ok r ->
  r = match m key with Some v => v | None => VEnd end.
Proof.
  intros H Hr Hk E. unfold table_search in E. rewrite good_hashable in E by assumption.
  pose proof (size_pos t H) as Hn.
  rewrite search_probe in E; [|assumption|apply get_hash_range; lia].
  destruct (probe fuel (t_size t) key (stop_search t key) (get_hash key (t_size t) 0) 1) as [x|] eqn:P; [|discriminate E].
  apply probe_some in P; [|apply wf_prime; assumption|apply wf_lim; assumption].
  destruct P as (k' & Hk' & -> & Hs & Hb).
  destruct (gh_slot t key k' H) as (it & Eit). rewrite Eit in E. injection E as <-.
  apply (stop_search_spec t key _ it H Hk Eit) in Hs.
  destruct (good_not_undef _ Hk) as [N1 N2].
  destruct (value_eq_dec (ik it) key) as [Ek|Nk].
  - assert (is_undef (ik it) = false) as -> by (rewrite Ek; destruct key; cbn; congruence).
    destruct it as [k0 v0]. cbn in *. subst k0. rewrite (repr_fun t m key _ v0 H Hr Hk Eit). reflexivity.
  - destruct Hs as [Hu|?]; [|congruence]. rewrite Hu. cbn [is_undef].
    destruct (m key) as [v|] eqn:Em; [|reflexivity]. exfalso.
    apply Hr in Em; [|assumption]. destruct Em as (j & Ej).
    destruct (wf_chain t H _ _ _ Ej Hk) as (i & Hi & Hg & Hbi).
    destruct (Z.lt_trichotomy i k') as [L|[->|L]].
    + specialize (Hb i ltac:(lia)). rewrite Hg in Hb.
      assert (stop_search t key j = true) by (apply (stop_search_spec t key j _ H Hk Ej); right; reflexivity). congruence.
    + rewrite Hg, Ej in Eit. injection Eit as <-. cbn in Nk. congruence.
    + destruct (Hbi k' ltac:(lia)) as (it' & A & B & _). rewrite Eit in A. injection A as <-. congruence.
Qed.

Lemma search_total fuel t key : WF t -> good_key key -> t_size t <= Z.of_nat fuel ->
  ((exists j, slot t j = Some EMPTY) \/ (exists j v, slot t j = Some (Item key v))) ->
  exists r, table_search fuel t key = Ok r.
Proof.
  intros H Hk Hf Hex. unfold table_search. rewrite good_hashable by assumption. pose proof (size_pos t H) as Hn.
  rewrite search_probe; [|assumption|apply get_hash_range; lia].
  destruct (probe_total (t_size t) key (stop_search t key) (wf_prime t H) (wf_lim t H) fuel) as (idx & P).
  - destruct Hex as [(j & Hj)|(j & v & Hj)]; exists j; (split; [apply slot_some in Hj; rewrite wf_len by assumption; apply Hj|]).
    + apply (stop_search_spec t key j EMPTY H Hk Hj). left; reflexivity.
    + apply (stop_search_spec t key j _ H Hk Hj). right; reflexivity.
  - assumption.
  - rewrite P. apply probe_some in P; [|apply wf_prime; assumption|apply wf_lim; assumption].
    destruct P as (k' & _ & -> & _). destruct (gh_slot t key k' H) as (it & Eit). rewrite Eit. eauto.
Qed.

(** With no empty slot left, looking up an absent key never returns. *)
Lemma search_diverges t key : WF t -> good_key key ->
  (forall j, slot t j <> Some EMPTY) -> (forall j v, slot t j <> Some (Item key v)) ->
  forall fuel, table_search fuel t key = NoFuel.
Proof.
  intros H Hk He Ha fuel. unfold table_search. rewrite good_hashable by assumption. pose proof (size_pos t H) as Hn.
  rewrite search_probe; [|assumption|apply get_hash_range; lia].
  rewrite probe_never; [reflexivity|apply wf_prime; assumption|apply get_hash_range; lia|].
  intros j Hj. destruct (slot_range t j) as (it & E); [rewrite <- wf_len; assumption|].
  destruct (stop_search t key j) eqn:S; [|reflexivity]. exfalso.
  apply (stop_search_spec t key j it H Hk E) in S. destruct S as [S|S].
  - destruct (good_item_slot t j it H E) as [->|[->|[G _]]].
    + exact (He j E).
    + discriminate S.
    + rewrite S in G. exact G.
  - apply (Ha j (iv it)). rewrite E. destruct it; cbn in *; congruence.
Qed.

Lemma getindex_diverges t key : WF t -> good_key key ->
  (forall j, slot t j <> Some EMPTY) -> (forall j v, slot t j <> Some (Item key v)) ->
  forall fuel, getindex fuel t key = NoFuel.
Proof.
  intros H Hk He Ha fuel. unfold getindex. pose proof (size_pos t H) as Hn.
  rewrite getindex_probe; [|assumption|apply get_hash_range; lia].
  rewrite probe_never; [reflexivity|apply wf_prime; assumption|apply get_hash_range; lia|].
  intros j Hj. destruct (stop_ins t key j) eqn:S; [|reflexivity]. exfalso.
  apply stop_ins_true in S; [|assumption..]. destruct S as [S|(v & S)]; [exact (He j S)|exact (Ha j v S)].
Qed.

Lemma u64_succ n i : n < ALLOC_LIMIT -> 0 <= i <= n -> u64 (i + 1) = i + 1.
Proof. intros Hlim H. unfold u64, two64. unfold ALLOC_LIMIT in Hlim. apply Z.mod_small. lia. Qed.

(** *** Removal *)
Section Rm.
  Variables (key : value) (n : Z).
  Hypothesis Hk : good_key key.
  Hypothesis Hp : prime n.
  Hypothesis Hlim : n < ALLOC_LIMIT.
  Notation gh := (get_hash key n).

  Definition undef_slot (t : table) (j : Z) : Prop := exists it, slot t j = Some it /\ ik it = VUndef.
  Definition def_slot (t : table) (j : Z) : Prop := exists it, slot t j = Some it /\ ik it <> VUndef.
  Definition nomatch (t : table) (j : Z) : Prop := exists it, slot t j = Some it /\ is_equal_typed (ik it) key = false.

  Lemma rm_loop_nomatch fuel : forall t k k', t_size t = n -> 0 <= k <= k' -> k' < n ->
    undef_slot t (gh k') -> (forall j, k <= j < k' -> def_slot t (gh j) /\ nomatch t (gh j)) ->
    rm_loop fuel t key (gh k) (k + 1) = if k' - k <? Z.of_nat fuel then Ok t else NoFuel.
  Proof.
    induction fuel as [|f IH]; intros t k k' Hs Hkk Hk' Hu Hd; cbn [rm_loop].
    - destruct (Z.ltb_spec (k' - k) (Z.of_nat 0)); [lia|reflexivity].
    - rewrite get_item_slot. destruct (Z.eq_dec k k') as [->|Hne].
      + destruct Hu as (it & E & U). rewrite E. cbn [bind]. rewrite U. cbn [is_undef].
        destruct (Z.ltb_spec (k' - k') (Z.of_nat (S f))); [reflexivity|lia].
      + destruct (Hd k ltac:(lia)) as [(it & E & U) (it2 & E2 & NM)].
        rewrite E in E2. injection E2 as <-. rewrite E. cbn [bind].
        assert (is_undef (ik it) = false) as -> by (destruct (ik it); cbn; congruence).
        rewrite NM, andb_false_r. rewrite Hs. rewrite (u64_succ n) by (assumption || lia).
        rewrite (IH t (k + 1) k'); try assumption; try lia.
        * destruct (Z.ltb_spec (k' - (k + 1)) (Z.of_nat f)), (Z.ltb_spec (k' - k) (Z.of_nat (S f))); try lia; reflexivity.
        * intros j Hj. apply Hd. lia.
  Qed.

  Lemma rm_loop_match fuel : forall t k j0 k' it0, t_size t = n -> n = Z.of_nat (length (t_items t)) ->
    0 <= k <= j0 -> j0 < k' -> k' < n ->
    undef_slot t (gh k') -> (forall j, k <= j < k' -> def_slot t (gh j)) ->
    (forall j, k <= j < k' -> j <> j0 -> nomatch t (gh j)) ->
    slot t (gh j0) = Some it0 -> is_end (ik it0) = false -> is_equal_typed (ik it0) key = true ->
    rm_loop fuel t key (gh k) (k + 1) = if k' - k <? Z.of_nat fuel then Ok (set_item t (gh j0) TOMBSTONE) else NoFuel.
  Proof.
    pose proof (prime_ge_2 n Hp) as Hn2.
    induction fuel as [|f IH]; intros t k j0 k' it0 Hs Hl Hkj Hjk Hk' Hu Hd Hm E0 Hne0 Heq0; cbn [rm_loop].
    - destruct (Z.ltb_spec (k' - k) (Z.of_nat 0)); [lia|reflexivity].
    - rewrite get_item_slot. destruct (Hd k ltac:(lia)) as (it & E & U). rewrite E. cbn [bind].
      assert (is_undef (ik it) = false) as -> by (destruct (ik it); cbn; congruence).
      destruct (Z.eq_dec k j0) as [->|Hne].
      + rewrite E0 in E. injection E as <-. rewrite Hne0, Heq0. cbn [negb andb].
        rewrite Hs. rewrite (u64_succ n) by (assumption || lia).
        assert (Hrg : forall j, 0 <= gh j < n) by (intros j; apply get_hash_range; lia).
        assert (Sne : forall j, j0 < j <= k' -> slot (set_item t (gh j0) TOMBSTONE) (gh j) = slot t (gh j)).
        { intros j Hj. apply slot_set_neq; [apply Hrg|]. intros Heq. apply probe_inj in Heq; try assumption; lia. }
        rewrite (rm_loop_nomatch f (set_item t (gh j0) TOMBSTONE) (j0 + 1) k'); try assumption; try lia.
        * destruct (Z.ltb_spec (k' - (j0 + 1)) (Z.of_nat f)), (Z.ltb_spec (k' - j0) (Z.of_nat (S f))); try lia; reflexivity.
        * destruct Hu as (itu & A & B). exists itu. rewrite Sne by lia. auto.
        * intros j Hj. unfold def_slot, nomatch. rewrite !Sne by lia. split; [apply Hd; lia|apply Hm; lia].
      + destruct (Hm k ltac:(lia) Hne) as (it2 & E2 & NM). rewrite E in E2. injection E2 as <-.
        rewrite NM, andb_false_r. rewrite Hs. rewrite (u64_succ n) by (assumption || lia).
        rewrite (IH t (k + 1) j0 k' it0); try assumption; try lia.
        * destruct (Z.ltb_spec (k' - (k + 1)) (Z.of_nat f)), (Z.ltb_spec (k' - k) (Z.of_nat (S f))); try lia; reflexivity.
        * intros j Hj. apply Hd; lia.
        * intros j Hj. apply Hm; lia.
  Qed.

  (** No empty slot: the loop of [YASL_Table_rm] never exits. *)
  Lemma rm_loop_never fuel : forall t index i, t_size t = n -> n = Z.of_nat (length (t_items t)) -> 0 <= index < n ->
    (forall j, ~ undef_slot t j) -> rm_loop fuel t key index i = NoFuel.
  Proof.
    pose proof (prime_ge_2 n Hp) as Hn2.
    induction fuel as [|f IH]; intros t index i Hs Hl Hi Hno; cbn [rm_loop]; [reflexivity|].
    rewrite get_item_slot. destruct (slot_range t index) as (it & E); [lia|]. rewrite E. cbn [bind].
    assert (is_undef (ik it) = false) as ->.
    { destruct (is_undef (ik it)) eqn:U; [|reflexivity]. exfalso. apply (Hno index). exists it. split; [assumption|].
      destruct (ik it); cbn in U; congruence. }
    set (c := negb (is_end (ik it)) && is_equal_typed (ik it) key).
    assert (Hs' : t_size (if c then set_item t index TOMBSTONE else t) = n) by (destruct c; assumption).
    apply IH.
    - exact Hs'.
    - destruct c; [cbn; rewrite upd_length; assumption|assumption].
    - rewrite Hs. apply get_hash_range. lia.
    - destruct c; [|assumption]. intros j (it2 & A & B).
      destruct (Z.eq_dec j index) as [->|Hj].
      + rewrite slot_set_eq in A by lia. injection A as <-. discriminate B.
      + rewrite slot_set_neq in A by lia. apply (Hno j). exists it2. auto.
  Qed.
End Rm.

Definition empty_exists (t : table) : Prop := exists j, slot t j = Some EMPTY.

Lemma undef_empty t j : WF t -> undef_slot t j <-> slot t j = Some EMPTY.
Proof.
  intros H. split.
  - intros (it & E & U). destruct (good_item_slot t j it H E) as [->|[->|[G _]]]; [assumption|discriminate U|].
    rewrite U in G. destruct G.
  - intros E. exists EMPTY. auto.
Qed.

Lemma empty_dec t : WF t -> empty_exists t \/ (forall j, slot t j <> Some EMPTY).
Proof.
  intros H.
  destruct (stop_dec (t_size t) (fun j => match slot t j with Some it => is_undef (ik it) | None => false end) (wf_prime t H)) as [(j & Hj & S)|N].
  - left. exists j. apply undef_empty; [assumption|]. destruct (slot t j) as [it|] eqn:E; [|discriminate S].
    exists it. split; [exact E|]. destruct (ik it); cbn in S; congruence.
  - right. intros j E. specialize (N j). rewrite E in N.
    assert (0 <= j < t_size t) by (apply slot_some in E; rewrite wf_len by assumption; apply E).
    specialize (N H0). discriminate N.
Qed.

(** First empty attempt. *)
Lemma first_empty t key : WF t -> empty_exists t ->
  exists k', 0 <= k' < t_size t /\ undef_slot t (get_hash key (t_size t) k') /\
    forall j, 0 <= j < k' -> def_slot t (get_hash key (t_size t) j).
Proof.
  intros H (j & Hj).
  destruct (first_stop (t_size t) key (fun j => match slot t j with Some it => is_undef (ik it) | None => false end)
             (wf_prime t H) (wf_lim t H)) as (k' & Hk' & S & Hb).
  { exists j. split; [apply slot_some in Hj; rewrite wf_len by assumption; apply Hj|]. rewrite Hj. reflexivity. }
  exists k'. split; [assumption|]. split.
  - destruct (slot t (get_hash key (t_size t) k')) as [it|] eqn:E; [|discriminate S]. exists it. split; [assumption|].
    destruct (ik it); cbn in S; congruence.
  - intros j' Hj'. specialize (Hb j' Hj'). destruct (gh_slot t key j' H) as (it & E). exists it. split; [assumption|].
    rewrite E in Hb. destruct (ik it); cbn in Hb; congruence.
Qed.

Lemma keq_false_of_neq t j it key : WF t -> good_key key -> slot t j = Some it -> ik it <> key -> is_equal_typed (ik it) key = false.
Proof.
  intros H Hk E Hne. destruct (good_item_slot t j it H E) as [->|[->|[G _]]].
  - apply keq_undef_l; assumption.
  - apply keq_end_l.
  - destruct (is_equal_typed (ik it) key) eqn:Q; [|reflexivity]. apply keq_good in Q; [contradiction|assumption..].
Qed.

(** What the loop of rm computes on a well-formed table. *)
Lemma rm_loop_wf fuel t key : WF t -> good_key key ->
  rm_loop fuel t key (get_hash key (t_size t) 0) 1 = NoFuel \/
  (empty_exists t /\
   ((exists j v, slot t j = Some (Item key v) /\ rm_loop fuel t key (get_hash key (t_size t) 0) 1 = Ok (set_item t j TOMBSTONE)) \/
    ((forall j v, slot t j <> Some (Item key v)) /\ rm_loop fuel t key (get_hash key (t_size t) 0) 1 = Ok t))).
Proof.
  intros H Hk. pose proof (size_pos t H) as Hn.
  pose proof (wf_prime t H) as Hp. pose proof (wf_lim t H) as Hl. pose proof (wf_len t H) as Hlen.
  destruct (empty_dec t H) as [He|Hne].
  2:{ left. apply (rm_loop_never key (t_size t) Hp); try reflexivity; try assumption.
      - apply get_hash_range; lia.
      - intros j U. apply undef_empty in U; [|assumption]. exact (Hne j U). }
  destruct (first_empty t key H He) as (k' & Hk' & Hu & Hd).
  assert (HM : (exists j v, slot t j = Some (Item key v)) \/ (forall j v, slot t j <> Some (Item key v))).
  { destruct (stop_dec (t_size t) (fun j => match slot t j with Some it => is_equal_typed (ik it) key | None => false end) Hp) as [(j & Hj & S)|N].
    - left. destruct (slot t j) as [it|] eqn:E; [|discriminate S]. exists j, (iv it).
      destruct (value_eq_dec (ik it) key) as [Ek|Nk]; [destruct it; cbn in *; congruence|].
      rewrite (keq_false_of_neq t j it key H Hk E Nk) in S. discriminate S.
    - right. intros j v E. specialize (N j). rewrite E in N.
      assert (0 <= j < t_size t) by (apply slot_some in E; rewrite wf_len by assumption; apply E).
      specialize (N H0). cbn [ik] in N. assert (is_equal_typed key key = true) by (apply keq_good; auto). congruence. }
  destruct HM as [(j & v & Ej)|Habs].
  - destruct (wf_chain t H _ _ _ Ej Hk) as (i & Hi & Hg & Hb).
    destruct (good_not_undef _ Hk) as [N1 N2].
    assert (Hik : i < k').
    { destruct (Z.lt_trichotomy i k') as [L|[->|L]]; [assumption| |].
      - exfalso. destruct Hu as (it & A & B). rewrite Hg, Ej in A. injection A as <-. cbn in B. congruence.
      - exfalso. destruct (Hb k' ltac:(lia)) as (it & A & B & _). destruct Hu as (it2 & C & D). congruence. }
    pose proof (rm_loop_match key (t_size t) Hp Hl fuel t 0 i k' (Item key v) eq_refl Hlen ltac:(lia) Hik ltac:(lia) Hu) as R.
    change (0 + 1) with 1 in R. rewrite Hg in R.
    rewrite R; clear R.
    + destruct (k' - 0 <? Z.of_nat fuel); [|left; reflexivity]. right. split; [assumption|]. left. exists j, v. auto.
    + intros j' Hj'. apply Hd. lia.
    + intros j' Hj' Hne. destruct (gh_slot t key j' H) as (it' & E'). exists it'. split; [assumption|].
      apply (keq_false_of_neq t _ it' key H Hk E'). intros Ek.
      assert (E'' : slot t (get_hash key (t_size t) j') = Some (Item key (iv it'))) by (rewrite E'; destruct it'; cbn in *; congruence).
      assert (get_hash key (t_size t) j' = j) by (eapply unique_slot; eassumption).
      rewrite <- Hg in H0. apply probe_inj in H0; try assumption; lia.
    + exact Ej.
    + cbn. destruct key; cbn in *; congruence.
    + cbn. apply keq_good; auto.
  - pose proof (rm_loop_nomatch key (t_size t) Hl fuel t 0 k' eq_refl ltac:(lia) ltac:(lia) Hu) as R.
    change (0 + 1) with 1 in R. rewrite R; clear R.
    + destruct (k' - 0 <? Z.of_nat fuel); [|left; reflexivity]. right. split; [assumption|]. right. auto.
    + intros j' Hj'. split; [apply Hd; lia|]. destruct (gh_slot t key j' H) as (it' & E'). exists it'. split; [assumption|].
      apply (keq_false_of_neq t _ it' key H Hk E'). intros Ek. apply (Habs (get_hash key (t_size t) j') (iv it')).
      rewrite E'. destruct it'; cbn in *; congruence.
Qed.

Lemma tomb_ok t j key v m : WF t -> good_key key -> slot t j = Some (Item key v) -> repr t m ->
  WF (set_item t j TOMBSTONE) /\ repr (set_item t j TOMBSTONE) (mrm m key)
  /\ live_count (set_item t j TOMBSTONE) = live_count t - 1.
Proof.
  intros H Hk Ej Hr. pose proof (slot_some t j _ Ej) as [Hj _].
  set (t' := set_item t j TOMBSTONE).
  assert (Seq : slot t' j = Some TOMBSTONE) by (apply slot_set_eq; exact Hj).
  assert (Sne : forall i, i <> j -> slot t' i = slot t i) by (intros i Hi; apply slot_set_neq; lia).
  split; [|split].
  - constructor.
    + cbn. rewrite upd_length. apply wf_len; assumption.
    + exact (wf_prime t H).
    + exact (wf_lim t H).
    + cbn. apply Forall_upd; [apply wf_items; assumption|]. right; left; reflexivity.
    + change (t_size t') with (t_size t). intros i k w Ei Gk.
      destruct (Z.eq_dec i j) as [->|Hne]; [rewrite Seq in Ei; injection Ei as <- <-; destruct Gk|].
      rewrite Sne in Ei by assumption. destruct (wf_chain t H _ _ _ Ei Gk) as (a & Ha & Hg & Hb).
      exists a. split; [assumption|]. split; [assumption|]. intros a' Ha'.
      destruct (Z.eq_dec (get_hash k (t_size t) a') j) as [Heq|Hneq].
      * exists TOMBSTONE. rewrite Heq. split; [exact Seq|]. destruct (good_not_undef _ Gk). cbn. split; [discriminate|congruence].
      * rewrite Sne by assumption. apply Hb; assumption.
  - intros q w Hq. unfold mrm. destruct (value_eq_dec q key) as [->|Hne].
    + split; [discriminate|]. intros (i & Ei). exfalso.
      destruct (Z.eq_dec i j) as [->|Hi]; [rewrite Seq in Ei; injection Ei as <- <-; destruct Hq|].
      rewrite Sne in Ei by assumption. apply Hi. eapply (unique_slot t i j key); eassumption.
    + rewrite (Hr q w Hq). split; intros (i & Ei); exists i.
      * rewrite Sne; [assumption|]. intros ->. rewrite Ej in Ei. injection Ei; congruence.
      * destruct (Z.eq_dec i j) as [->|Hi]; [rewrite Seq in Ei; injection Ei as <- <-; destruct Hq|].
        rewrite Sne in Ei by assumption. assumption.
  - assert (Hnth : nth_error (t_items t) (Z.to_nat j) = Some (Item key v)).
    { unfold slot, nthZ in Ej. destruct (Z.ltb_spec j 0); [discriminate|assumption]. }
    pose proof (filter_upd live _ _ TOMBSTONE _ Hnth) as HF.
    assert (live (Item key v) = true) as L0 by (apply live_good; [exact (good_item_slot t j _ H Ej)|assumption]).
    rewrite L0 in HF. change (live TOMBSTONE) with false in HF. cbv iota in HF.
    unfold live_count. cbn [set_item t' t_items]. lia.
Qed.

Lemma resize_count ins t base t' : ins_ok ins -> WF t -> table_resize ins t base = Ok t' ->
  counted t \/ base < TABLE_BASESIZE \/ counted t'.
Proof.
  intros Hins H E. unfold table_resize in E. destruct (Z.ltb_spec base TABLE_BASESIZE); [right; left; assumption|].
  destruct (table_new_sized base) as [nt|e| |] eqn:En; cbn [bind] in E; try discriminate E.
  destruct (new_sized_ok _ _ En) as (W0 & R0 & C0 & _).
  destruct (insert_all ins (for_table t) nt) as [nt'|e| |] eqn:Ei; cbn [bind] in E; try discriminate E.
  injection E as <-. right; right. destruct (insert_all_ok ins Hins _ _ _ (for_table_good t H) W0 Ei) as (_ & _ & C1). exact (C1 C0).
Qed.

(** Removal: the abstract map loses exactly [key]; the count is decremented whether or not it was there. *)
Lemma table_rm_ok fuel t key t' m : WF t -> good_key key -> repr t m -> table_rm fuel t key = Ok t' ->
  WF t' /\ repr t' (mrm m key) /\
  (counted t -> match m key with
                | Some _ => counted t'
                | None => t_count t' = u64 (live_count t' - 1)
                end).
Proof.
  intros H Hk Hr E. unfold table_rm in E. rewrite good_hashable in E by assumption.
  assert (HR : exists t1, (if load t <? 10 then table_resize (insert_fast fuel) t (t_base t / 2) else Ok t) = Ok t1
     /\ WF t1 /\ repr t1 m /\ (counted t -> counted t1)).
  { destruct (load t <? 10).
    - destruct (table_resize (insert_fast fuel) t (t_base t / 2)) as [t1|e| |] eqn:E1; cbn [bind] in E; try discriminate E.
      exists t1. split; [reflexivity|]. destruct (resize_ok _ _ _ _ (insert_fast_ok fuel) H E1) as (A & B & C). auto.
    - exists t. auto. }
  destruct HR as (t1 & E1 & W1 & R1 & C1). rewrite E1 in E. cbn [bind] in E.
  destruct (rm_loop_wf fuel t1 key W1 Hk) as [N|(He & [(j & v & Ej & R)|(Habs & R)])].
  - rewrite N in E. discriminate E.
  - rewrite R in E. cbn [bind] in E. injection E as <-.
    destruct (tomb_ok t1 j key v m W1 Hk Ej R1) as (W2 & R2 & L2).
    split; [apply WF_set_count; exact W2|]. split; [apply (repr_ext (set_item t1 j TOMBSTONE)); [reflexivity|exact R2]|].
    intros C. rewrite (repr_fun t1 m key j v W1 R1 Hk Ej). unfold counted. specialize (C1 C). unfold counted in C1.
    transitivity (live_count (set_item t1 j TOMBSTONE)); [|reflexivity].
    rewrite L2. cbn [set_count set_item t_count]. rewrite C1. unfold u64, two64. apply Z.mod_small.
    pose proof (count_bound _ W2). rewrite L2 in H0. pose proof (count_bound t1 W1). pose proof (wf_lim t1 W1). unfold ALLOC_LIMIT in *. lia.
  - rewrite R in E. cbn [bind] in E. injection E as <-.
    assert (Hm : m key = None).
    { destruct (m key) as [v|] eqn:Em; [|reflexivity]. apply R1 in Em; [|assumption]. destruct Em as (j & Ej). destruct (Habs j v Ej). }
    split; [apply WF_set_count; exact W1|]. split.
    + apply (repr_ext t1); [reflexivity|]. apply (repr_iff t1 m); [|exact R1].
      intros q Hq. unfold mrm. destruct (value_eq_dec q key) as [->|]; [assumption|reflexivity].
    + intros C. rewrite Hm. specialize (C1 C). unfold counted in C1. cbn [set_count t_count].
      change (live_count (set_count t1 (t_count t1 - 1))) with (live_count t1). rewrite C1. reflexivity.
Qed.

Lemma rm_diverges t key : WF t -> good_key key -> (forall j, slot t j <> Some EMPTY) -> 10 <= load t ->
  forall fuel, table_rm fuel t key = NoFuel.
Proof.
  intros H Hk He Hld fuel. unfold table_rm. rewrite good_hashable by assumption.
  destruct (Z.ltb_spec (load t) 10); [lia|]. cbn [bind].
  destruct (rm_loop_wf fuel t key H Hk) as [N|((j & Ej) & _)]; [rewrite N; reflexivity|]. destruct (He j Ej).
Qed.

(** *** Iteration *)
Lemma iter_skip_filter l i :
  match iter_skip l i with
  | None => filter live l = []
  | Some (k, i') => exists it pre post, l = pre ++ it :: post /\ filter live pre = [] /\ live it = true /\ ik it = k
                    /\ i' = i + Z.of_nat (length pre) + 1
  end.
Proof.
  revert i. induction l as [|it l IH]; intros i; cbn [iter_skip]; [reflexivity|].
  destruct (is_end (ik it) || is_undef (ik it)) eqn:D.
  - assert (live it = false) as L by (unfold live; destruct (ik it); cbn in *; congruence).
    specialize (IH (i + 1)). destruct (iter_skip l (i + 1)) as [[k i']|].
    + destruct IH as (it' & pre & post & -> & A & B & C & ->). exists it', (it :: pre), post.
      split; [reflexivity|]. split; [cbn; rewrite L; exact A|]. split; [assumption|]. split; [assumption|]. cbn [length]. lia.
    + cbn. rewrite L. exact IH.
  - exists it, [], l. split; [reflexivity|]. split; [reflexivity|]. split.
    + unfold live. apply orb_false_iff in D. destruct D as [-> ->]. reflexivity.
    + split; [reflexivity|]. cbn. lia.
Qed.

Lemma iterate_ok fuel : forall t i, 0 <= i -> (Z.to_nat i <= length (t_items t))%nat -> (length (t_items t) < Z.to_nat i + fuel)%nat ->
  iterate fuel t i = Ok (map ik (filter live (skipn (Z.to_nat i) (t_items t)))).
Proof.
  induction fuel as [|f IH]; intros t i Hi Hil Hf; cbn [iterate].
  - lia.
  - unfold iter_table. pose proof (iter_skip_filter (skipn (Z.to_nat i) (t_items t)) i) as HS.
    destruct (iter_skip (skipn (Z.to_nat i) (t_items t)) i) as [[k i']|].
    + destruct HS as (it & pre & post & Esk & A & B & C & ->).
      assert (Hlen : (length pre + 1 <= length (t_items t) - Z.to_nat i)%nat).
      { rewrite <- skipn_length, Esk, app_length. cbn. lia. }
      rewrite IH; [|lia|lia|lia]. cbn [bind].
      rewrite Esk, filter_app, A. cbn [app filter]. rewrite B. cbn [map]. rewrite C. f_equal. f_equal. f_equal. f_equal.
      replace (Z.to_nat (i + Z.of_nat (length pre) + 1)) with (length pre + 1 + Z.to_nat i)%nat by lia.
      rewrite <- (skipn_skipn (length pre + 1)). rewrite Esk.
      replace (pre ++ it :: post) with ((pre ++ [it]) ++ post) by (rewrite <- app_assoc; reflexivity).
      rewrite skipn_app. rewrite skipn_all2 by (rewrite app_length; cbn; lia).
      rewrite app_length. cbn [length]. rewrite Nat.sub_diag. reflexivity.
    + rewrite HS. reflexivity.
Qed.
