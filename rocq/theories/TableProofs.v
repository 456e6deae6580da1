From Coq Require Import Znumtheory.
From Verif Require Import Base Prime PrimeProofs Value ValueProofs Hash HashProofs Table TableSpec.
Ltac Zify.zify_post_hook ::= Z.div_mod_to_equations.

Lemma good_not_undef k : good_key k -> k <> VUndef /\ k <> VEnd.
Proof. destruct k; cbn; intros H; try tauto; split; discriminate. Qed.

Lemma good_hashable k : good_key k -> is_hashable k = true.
Proof. destruct k; cbn; tauto. Qed.

Lemma keq_good a b : good_key a -> good_key b -> (is_equal_typed a b = true <-> a = b).
Proof.
  intros Ha Hb. unfold is_equal_typed.
  destruct a, b; cbn [vtype ytype_eqb andb is_equal]; cbn in Ha, Hb; try tauto;
    try (split; [discriminate|intros E; discriminate E]).
  - cbn [get_num]. rewrite f_eqb_spec. split.
    + destruct f as [s|s| |s m e], f0 as [s'|s'| |s' m' e']; try tauto; try (intros E; rewrite E; reflexivity).
      intros _. destruct s, s'; try tauto; reflexivity.
    + intros E; injection E as <-. destruct f; try tauto; reflexivity.
  - rewrite Z.eqb_eq. split; [intros ->; reflexivity|intros E; injection E; auto].
  - rewrite Bool.eqb_true_iff. split; [intros ->; reflexivity|intros E; injection E; auto].
  - rewrite Z.eqb_eq, str_cmp_eq. split; [intros ->; reflexivity|intros E; injection E; auto].
  - rewrite Z.eqb_eq. split; [intros ->; reflexivity|intros E; injection E; auto].
Qed.

Lemma keq_undef_l k : good_key k -> is_equal_typed VUndef k = false.
Proof. destruct k; cbn; tauto. Qed.
Lemma keq_end_l k : is_equal_typed VEnd k = false.
Proof. destruct k; reflexivity. Qed.

(** ** [upd] *)
Lemma upd_length {A} (l : list A) n x : length (upd l n x) = length l.
Proof. revert n; induction l as [|y l IH]; intros [|n]; cbn; auto. Qed.
Lemma nth_upd_eq {A} (l : list A) n x : (n < length l)%nat -> nth_error (upd l n x) n = Some x.
Proof. revert n; induction l as [|y l IH]; intros [|n] H; cbn in *; try lia; [reflexivity|]. apply IH; lia. Qed.
Lemma nth_upd_neq {A} (l : list A) n m x : n <> m -> nth_error (upd l n x) m = nth_error l m.
Proof. revert n m; induction l as [|y l IH]; intros [|n] [|m] H; cbn; try reflexivity; try lia. apply IH; lia. Qed.
Lemma filter_upd {A} (f : A -> bool) (l : list A) n x y : nth_error l n = Some y ->
  (length (filter f (upd l n x)) + (if f y then 1 else 0) = length (filter f l) + (if f x then 1 else 0))%nat.
Proof.
  revert n; induction l as [|z l IH]; intros [|n] H; cbn in *; try discriminate.
  - injection H as ->. destruct (f x), (f y); cbn; lia.
  - specialize (IH n H). destruct (f z); cbn; lia.
Qed.
Lemma Forall_upd {A} (P : A -> Prop) l n x : Forall P l -> P x -> Forall P (upd l n x).
Proof. intros H Hx. revert n; induction H as [|y l Hy Hl IH]; intros [|n]; cbn; constructor; auto. Qed.

Definition slot (t : table) (j : Z) : option item := nthZ (t_items t) j.

Lemma slot_some t j it : slot t j = Some it -> 0 <= j < Z.of_nat (length (t_items t)) /\ In it (t_items t).
Proof.
  unfold slot, nthZ. destruct (Z.ltb_spec j 0); [discriminate|]. intros E.
  pose proof (nth_error_In _ _ E).
  assert (Z.to_nat j < length (t_items t))%nat by (apply nth_error_Some; rewrite E; discriminate).
  split; [lia|assumption].
Qed.
Lemma slot_range t j : 0 <= j < Z.of_nat (length (t_items t)) -> exists it, slot t j = Some it.
Proof.
  intros H. unfold slot, nthZ. destruct (Z.ltb_spec j 0); [lia|].
  destruct (nth_error (t_items t) (Z.to_nat j)) eqn:E; [eauto|]. apply nth_error_None in E. lia.
Qed.
Lemma in_slot t it : In it (t_items t) -> exists j, slot t j = Some it.
Proof.
  intros H. apply In_nth_error in H. destruct H as (n & Hn). exists (Z.of_nat n).
  unfold slot, nthZ. destruct (Z.ltb_spec (Z.of_nat n) 0); [lia|]. rewrite Nat2Z.id. exact Hn.
Qed.
Lemma slot_set_eq t j it : 0 <= j < Z.of_nat (length (t_items t)) -> slot (set_item t j it) j = Some it.
Proof.
  intros H. unfold slot, set_item, nthZ; cbn [t_items]. destruct (Z.ltb_spec j 0); [lia|].
  apply nth_upd_eq. lia.
Qed.
Lemma slot_set_neq t i j it : 0 <= i -> i <> j -> slot (set_item t i it) j = slot t j.
Proof.
  intros H Hne. unfold slot, set_item, nthZ; cbn [t_items]. destruct (Z.ltb_spec j 0); [reflexivity|].
  apply nth_upd_neq. lia.
Qed.
Lemma slot_set_count t c j : slot (set_count t c) j = slot t j.
Proof. reflexivity. Qed.
Lemma get_item_slot t j : get_item t j = match slot t j with Some it => Ok it | None => UB end.
Proof. reflexivity. Qed.

(** ** Probing in general *)
Fixpoint probe (fuel : nat) (n : Z) (key : value) (stop : Z -> bool) (index i : Z) : option Z :=
  match fuel with
  | O => None
  | S f => if stop index then Some index
           else probe f n key stop (get_hash key n i) (u64 (i + 1))
  end.

Section Probe.
  Variables (n : Z) (key : value) (stop : Z -> bool).
  Hypothesis Hp : prime n.
  Hypothesis Hlim : n < ALLOC_LIMIT.
  Notation gh := (get_hash key n).

  Lemma u64_small i : 0 <= i <= n -> u64 (i + 1) = i + 1.
  Proof. intros H. unfold u64, two64. unfold ALLOC_LIMIT in Hlim. apply Z.mod_small. lia. Qed.

  Lemma probe_found fuel : forall k k', 0 <= k <= k' -> k' < n ->
    (forall j, k <= j < k' -> stop (gh j) = false) -> stop (gh k') = true ->
    probe fuel n key stop (gh k) (k + 1) = if k' - k <? Z.of_nat fuel then Some (gh k') else None.
  Proof.
    induction fuel as [|f IH]; intros k k' Hk Hk' Hno Hyes; cbn [probe].
    - destruct (Z.ltb_spec (k' - k) (Z.of_nat 0)); [lia|reflexivity].
    - destruct (Z.eq_dec k k') as [->|Hne].
      + rewrite Hyes. destruct (Z.ltb_spec (k' - k') (Z.of_nat (S f))); [reflexivity|lia].
      + rewrite (Hno k) by lia. rewrite u64_small by lia. rewrite (IH (k + 1) k'); try assumption; try lia.
        * destruct (Z.ltb_spec (k' - (k + 1)) (Z.of_nat f)), (Z.ltb_spec (k' - k) (Z.of_nat (S f))); try lia; reflexivity.
        * intros j Hj. apply Hno. lia.
  Qed.

  Lemma probe_never fuel : forall index i, 0 <= index < n -> (forall j, 0 <= j < n -> stop j = false) ->
    probe fuel n key stop index i = None.
  Proof.
    induction fuel as [|f IH]; intros index i Hi Hno; cbn [probe]; [reflexivity|].
    rewrite Hno by assumption. apply IH; [|assumption]. apply get_hash_range. pose proof (prime_ge_2 n Hp). lia.
  Qed.

  Lemma first_stop : (exists j, 0 <= j < n /\ stop j = true) ->
    exists k', 0 <= k' < n /\ stop (gh k') = true /\ forall j, 0 <= j < k' -> stop (gh j) = false.
  Proof.
    intros (j & Hj & Hs). destruct (probe_surj key n j Hp Hlim Hj) as (k & Hk & E). rewrite <- E in Hs. clear j Hj E.
    assert (H : forall m : nat, forall k, 0 <= k < Z.of_nat m -> k < n -> stop (gh k) = true ->
       exists k', 0 <= k' < n /\ stop (gh k') = true /\ forall j, 0 <= j < k' -> stop (gh j) = false).
    { induction m as [|m IH]; intros k0 Hk0 Hk0n Hs0; [lia|].
      assert (D : (exists j, 0 <= j < k0 /\ stop (gh j) = true) \/ (forall j, 0 <= j < k0 -> stop (gh j) = false)).
      { clear -Hk0. assert (0 <= k0) as H0 by lia. clear Hk0.
        revert k0 H0. apply (natlike_ind (fun k0 => (exists j, 0 <= j < k0 /\ stop (gh j) = true) \/ (forall j, 0 <= j < k0 -> stop (gh j) = false))).
        - right. intros j Hj. lia.
        - intros x Hx [(j & Hj & Hs)|Hn].
          + left. exists j. split; [lia|assumption].
          + destruct (stop (gh x)) eqn:E.
            * left. exists x. split; [lia|assumption].
            * right. intros j Hj. destruct (Z.eq_dec j x) as [->|]; [assumption|apply Hn; lia]. }
      destruct D as [(j & Hj & Hsj)|Hn].
      - apply (IH j); [lia|lia|assumption].
      - exists k0. repeat split; try lia; assumption. }
    apply (H (S (Z.to_nat k)) k); try lia; assumption.
  Qed.

  Lemma stop_dec : (exists j, 0 <= j < n /\ stop j = true) \/ (forall j, 0 <= j < n -> stop j = false).
  Proof.
    assert (H0 : 0 <= n) by (pose proof (prime_ge_2 n Hp); lia).
    clear Hp Hlim. revert n H0. apply (natlike_ind (fun n => (exists j, 0 <= j < n /\ stop j = true) \/ (forall j, 0 <= j < n -> stop j = false))).
    - right. intros j Hj. lia.
    - intros x Hx [(j & Hj & Hs)|Hn].
      + left. exists j. split; [lia|assumption].
      + destruct (stop x) eqn:E.
        * left. exists x. split; [lia|assumption].
        * right. intros j Hj. destruct (Z.eq_dec j x) as [->|]; [assumption|apply Hn; lia].
  Qed.

  (** A probe that returns has stopped at the first stopping attempt, below [n]. *)
  Lemma probe_some fuel idx : probe fuel n key stop (gh 0) 1 = Some idx ->
    exists k', 0 <= k' < n /\ idx = gh k' /\ stop idx = true /\ forall j, 0 <= j < k' -> stop (gh j) = false.
  Proof.
    intros H. destruct stop_dec as [Hex|Hno].
    - destruct (first_stop Hex) as (k' & Hk' & Hs & Hb).
      assert (E := probe_found fuel 0 k' ltac:(lia) ltac:(lia) ltac:(intros; apply Hb; lia) Hs).
      change (0 + 1) with 1 in E. rewrite E in H. destruct (k' - 0 <? Z.of_nat fuel); [|discriminate H]. injection H as <-.
      exists k'. repeat split; try lia; assumption.
    - rewrite probe_never in H; [discriminate H| |assumption].
      apply get_hash_range. pose proof (prime_ge_2 n Hp). lia.
  Qed.

  Lemma probe_total fuel : (exists j, 0 <= j < n /\ stop j = true) -> n <= Z.of_nat fuel ->
    exists idx, probe fuel n key stop (gh 0) 1 = Some idx.
  Proof.
    intros Hex Hf. destruct (first_stop Hex) as (k' & Hk' & Hs & Hb).
    assert (E := probe_found fuel 0 k' ltac:(lia) ltac:(lia) ltac:(intros; apply Hb; lia) Hs).
    change (0 + 1) with 1 in E. rewrite E. destruct (Z.ltb_spec (k' - 0) (Z.of_nat fuel)); [eauto|lia].
  Qed.
End Probe.

(** ** Invariant of the slot array *)
Definition good_item (it : item) : Prop :=
  it = EMPTY \/ it = TOMBSTONE \/ (good_key (ik it) /\ good_val (iv it)).

Record WF (t : table) : Prop := {
  wf_len : t_size t = Z.of_nat (length (t_items t));
  wf_prime : prime (t_size t);
  wf_lim : t_size t < ALLOC_LIMIT;
  wf_items : Forall good_item (t_items t);
  wf_chain : forall j k v, slot t j = Some (Item k v) -> good_key k ->
    exists i, 0 <= i < t_size t /\ get_hash k (t_size t) i = j /\
      forall i', 0 <= i' < i -> exists it', slot t (get_hash k (t_size t) i') = Some it'
                                  /\ ik it' <> VUndef /\ ik it' <> k }.

Definition live (it : item) : bool := negb (is_end (ik it)) && negb (is_undef (ik it)).
Definition live_count (t : table) : Z := Z.of_nat (length (filter live (t_items t))).
Definition counted (t : table) : Prop := t_count t = live_count t.

Definition repr (t : table) (m : amap) : Prop :=
  forall q v, good_key q -> (m q = Some v <-> exists j, slot t j = Some (Item q v)).

Lemma good_item_slot t j it : WF t -> slot t j = Some it -> good_item it.
Proof. intros H E. apply slot_some in E. destruct E as [_ E]. eapply Forall_forall in E; [exact E|]. apply wf_items; assumption. Qed.

Lemma live_good it : good_item it -> live it = true <-> good_key (ik it).
Proof.
  intros [->|[->|[Hk _]]]; unfold live; cbn.
  - split; [discriminate|tauto].
  - split; [discriminate|tauto].
  - split; [intros _; assumption|]. intros _. destruct (good_not_undef _ Hk) as [A B].
    destruct (ik it); cbn; try reflexivity; congruence.
Qed.

Lemma size_pos t : WF t -> 2 <= t_size t.
Proof. intros H. apply prime_ge_2, wf_prime; assumption. Qed.

Lemma gh_slot t k i : WF t -> exists it, slot t (get_hash k (t_size t) i) = Some it.
Proof.
  intros H. apply slot_range. rewrite <- wf_len by assumption. apply get_hash_range. pose proof (size_pos t H). lia.
Qed.

(** Keys are unique. *)
Lemma unique_slot t j1 j2 k v1 v2 : WF t -> good_key k ->
  slot t j1 = Some (Item k v1) -> slot t j2 = Some (Item k v2) -> j1 = j2.
Proof.
  intros H Hk E1 E2. destruct (wf_chain t H _ _ _ E1 Hk) as (i1 & Hi1 & Hg1 & Hb1).
  destruct (wf_chain t H _ _ _ E2 Hk) as (i2 & Hi2 & Hg2 & Hb2).
  destruct (Z.lt_trichotomy i1 i2) as [L|[E|L]].
  - destruct (Hb2 i1 ltac:(lia)) as (it & Hs & _ & Hne). rewrite Hg1, E1 in Hs. injection Hs as <-. cbn in Hne. congruence.
  - congruence.
  - destruct (Hb1 i2 ltac:(lia)) as (it & Hs & _ & Hne). rewrite Hg2, E2 in Hs. injection Hs as <-. cbn in Hne. congruence.
Qed.

Lemma repr_fun t m k j v : WF t -> repr t m -> good_key k -> slot t j = Some (Item k v) -> m k = Some v.
Proof. intros H Hr Hk E. apply Hr; [assumption|]. eauto. Qed.

Lemma count_bound t : WF t -> 0 <= live_count t <= t_size t.
Proof.
  intros H. unfold live_count. rewrite (wf_len t H).
  assert (length (filter live (t_items t)) <= length (t_items t))%nat; [|lia].
  clear. induction (t_items t) as [|x l IH]; cbn; [lia|]. destruct (live x); cbn; lia.
Qed.

(** *** getindex *)
Definition stop_ins (t : table) (key : value) (idx : Z) : bool :=
  match slot t idx with
  | Some it => is_undef (iv it) || (negb (is_end (ik it)) && is_equal_typed (ik it) key)
  | None => false
  end.

Lemma getindex_probe fuel : forall t key index i, WF t -> 0 <= index < t_size t ->
  getindex_loop fuel t key index i =
    match probe fuel (t_size t) key (stop_ins t key) index i with Some x => Ok x | None => NoFuel end.
Proof.
  induction fuel as [|f IH]; intros t key index i H Hi; cbn [getindex_loop probe]; [reflexivity|].
  rewrite get_item_slot. destruct (slot_range t index) as (it & E); [rewrite <- wf_len; assumption|].
  rewrite E. cbn [bind]. unfold stop_ins at 1. rewrite E.
  destruct (is_undef (iv it)); [reflexivity|]. cbn [orb].
  destruct (negb (is_end (ik it)) && is_equal_typed (ik it) key); [reflexivity|].
  apply IH; [assumption|]. apply get_hash_range. pose proof (size_pos t H). lia.
Qed.

Lemma stop_ins_true t key idx : WF t -> good_key key -> stop_ins t key idx = true ->
  slot t idx = Some EMPTY \/ exists v, slot t idx = Some (Item key v).
Proof.
  intros H Hk. unfold stop_ins. destruct (slot t idx) as [it|] eqn:E; [|discriminate].
  pose proof (good_item_slot t idx it H E) as G. destruct G as [->|[->|[Gk Gv]]].
  - intros _. left. reflexivity.
  - cbn. discriminate.
  - intros S. right. exists (iv it). f_equal.
    assert (is_undef (iv it) = false) as EU by (destruct Gv; destruct (iv it); cbn; congruence).
    rewrite EU in S. cbn [orb] in S. apply andb_true_iff in S. destruct S as [_ S].
    apply keq_good in S; [|assumption..]. destruct it; cbn in *; congruence.
Qed.

Lemma stop_ins_false t key idx : WF t -> good_key key -> 0 <= idx < t_size t -> stop_ins t key idx = false ->
  exists it, slot t idx = Some it /\ ik it <> VUndef /\ ik it <> key.
Proof.
  intros H Hk Hi. unfold stop_ins. destruct (slot_range t idx) as (it & E); [rewrite <- wf_len; assumption|].
  rewrite E. intros S. exists it. split; [reflexivity|].
  pose proof (good_item_slot t idx it H E) as G. destruct G as [->|[->|[Gk Gv]]].
  - cbn in S. discriminate.
  - cbn. destruct (good_not_undef _ Hk). split; [discriminate|congruence].
  - destruct (good_not_undef _ Gk) as [N1 N2]. split; [assumption|]. intros Heq.
    apply orb_false_iff in S. destruct S as [_ S]. apply andb_false_iff in S. destruct S as [S|S].
    + destruct (ik it); cbn in *; congruence.
    + assert (is_equal_typed (ik it) key = true) by (apply keq_good; assumption). congruence.
Qed.

Lemma getindex_ok fuel t key idx : WF t -> good_key key -> getindex fuel t key = Ok idx ->
  exists i, 0 <= i < t_size t /\ idx = get_hash key (t_size t) i /\
    (slot t idx = Some EMPTY \/ exists v, slot t idx = Some (Item key v)) /\
    forall i', 0 <= i' < i -> exists it', slot t (get_hash key (t_size t) i') = Some it' /\ ik it' <> VUndef /\ ik it' <> key.
Proof.
  intros H Hk E. unfold getindex in E. pose proof (size_pos t H) as Hn.
  rewrite getindex_probe in E; [|assumption|apply get_hash_range; lia].
  destruct (probe fuel (t_size t) key (stop_ins t key) (get_hash key (t_size t) 0) 1) as [x|] eqn:P; [|discriminate E].
  injection E as ->.
  apply probe_some in P; [|apply wf_prime; assumption|apply wf_lim; assumption].
  destruct P as (i & Hi & -> & Hs & Hb). exists i. split; [assumption|]. split; [reflexivity|].
  split; [apply stop_ins_true; assumption|]. intros i' Hi'.
  apply stop_ins_false; [assumption..| |apply Hb; assumption]. apply get_hash_range; lia.
Qed.

Lemma getindex_total fuel t key : WF t -> good_key key -> (exists j, slot t j = Some EMPTY) ->
  t_size t <= Z.of_nat fuel -> exists idx, getindex fuel t key = Ok idx.
Proof.
  intros H Hk (j & Hj) Hf. pose proof (size_pos t H) as Hn. unfold getindex.
  rewrite getindex_probe; [|assumption|apply get_hash_range; lia].
  destruct (probe_total (t_size t) key (stop_ins t key) (wf_prime t H) (wf_lim t H) fuel) as (idx & P).
  - exists j. split.
    + apply slot_some in Hj. rewrite wf_len by assumption. apply Hj.
    + unfold stop_ins. rewrite Hj. reflexivity.
  - assumption.
  - rewrite P. eauto.
Qed.

(** *** Writing an entry at the index found *)
Lemma write_wf t key v idx c i : WF t -> good_key key -> good_val v ->
  0 <= i < t_size t -> idx = get_hash key (t_size t) i ->
  (slot t idx = Some EMPTY \/ exists v0, slot t idx = Some (Item key v0)) ->
  (forall i', 0 <= i' < i -> exists it', slot t (get_hash key (t_size t) i') = Some it' /\ ik it' <> VUndef /\ ik it' <> key) ->
  WF (set_item (set_count t c) idx (Item key v)).
Proof.
  intros H Hk Hv Hi Hidx Hslot Hb. pose proof (size_pos t H) as Hn.
  assert (Hr : 0 <= idx < t_size t) by (rewrite Hidx; apply get_hash_range; lia).
  assert (Hr' : 0 <= idx < Z.of_nat (length (t_items t))) by (rewrite <- wf_len; assumption).
  set (t' := set_item (set_count t c) idx (Item key v)).
  assert (Sz : t_size t' = t_size t) by reflexivity.
  assert (Seq : slot t' idx = Some (Item key v)) by (apply slot_set_eq; exact Hr').
  assert (Sne : forall j, j <> idx -> slot t' j = slot t j).
  { intros j Hj. unfold t'. rewrite slot_set_neq by lia. apply slot_set_count. }
  constructor.
  - cbn. rewrite upd_length. apply wf_len; assumption.
  - exact (wf_prime t H).
  - exact (wf_lim t H).
  - cbn. apply Forall_upd; [apply wf_items; assumption|]. right; right. split; assumption.
  - intros j k' v' Ej Hk'. rewrite Sz.
    destruct (Z.eq_dec j idx) as [->|Hne].
    + rewrite Seq in Ej. injection Ej as <- <-. exists i. split; [assumption|]. split; [congruence|].
      intros i' Hi'. destruct (Hb i' Hi') as (it' & A & B & C). exists it'. split; [|split; assumption].
      rewrite Sne; [exact A|]. intros Heq.
      assert (i' = i); [|lia].
      apply (probe_inj key (t_size t)); [apply wf_prime; assumption|apply wf_lim; assumption|lia|lia|congruence].
    + rewrite Sne in Ej by assumption. destruct (wf_chain t H _ _ _ Ej Hk') as (i2 & Hi2 & Hg2 & Hb2).
      assert (Hkk : k' <> key).
      { intros ->. destruct Hslot as [He|(v0 & He)].
        - (* the key would have been found before the empty slot *)
          destruct (Z.lt_trichotomy i i2) as [L|[E|L]].
          + destruct (Hb2 i ltac:(lia)) as (it & A & B & _). rewrite <- Hidx, He in A. injection A as <-. cbn in B. congruence.
          + subst i2. congruence.
          + destruct (Hb i2 ltac:(lia)) as (it & A & _ & B). rewrite Hg2, Ej in A. injection A as <-. cbn in B. congruence.
        - apply Hne. eapply unique_slot; eassumption. }
      exists i2. split; [assumption|]. split; [assumption|]. intros i' Hi'.
      destruct (Z.eq_dec (get_hash k' (t_size t) i') idx) as [Heq|Hneq].
      * exists (Item key v). rewrite Heq. split; [exact Seq|]. cbn. split; [apply good_not_undef; assumption|congruence].
      * rewrite Sne by assumption. apply Hb2; assumption.
Qed.

Lemma WF_ext t t' : t_size t' = t_size t -> t_items t' = t_items t -> WF t -> WF t'.
Proof.
  intros Es Ei H. assert (Sl : forall j, slot t' j = slot t j) by (intros j; unfold slot; rewrite Ei; reflexivity).
  constructor; rewrite ?Es, ?Ei; try apply H. intros j k v E Hk. rewrite Sl in E.
  destruct (wf_chain t H _ _ _ E Hk) as (i & A & B & C). exists i. split; [assumption|]. split; [assumption|].
  intros i' Hi'. destruct (C i' Hi') as (it' & D). exists it'. rewrite Sl. exact D.
Qed.
Lemma repr_ext t t' m : t_items t' = t_items t -> repr t m -> repr t' m.
Proof.
  intros Ei Hr q v Hq. assert (Sl : forall j, slot t' j = slot t j) by (intros j; unfold slot; rewrite Ei; reflexivity).
  rewrite (Hr q v Hq). split; intros (j & E); exists j; rewrite ?Sl in *; assumption.
Qed.
Lemma WF_set_count t c : WF t -> WF (set_count t c).
Proof. apply WF_ext; reflexivity. Qed.

Definition write (t : table) (idx : Z) (it : item) (key v : value) : table :=
  set_item (if is_equal_typed (ik it) key then t else set_count t (t_count t + 1)) idx (Item key v).

Lemma write_ok t key v idx it i : WF t -> good_key key -> good_val v ->
  0 <= i < t_size t -> idx = get_hash key (t_size t) i ->
  slot t idx = Some it ->
  (slot t idx = Some EMPTY \/ exists v0, slot t idx = Some (Item key v0)) ->
  (forall i', 0 <= i' < i -> exists it', slot t (get_hash key (t_size t) i') = Some it' /\ ik it' <> VUndef /\ ik it' <> key) ->
  WF (write t idx it key v) /\ (forall m, repr t m -> repr (write t idx it key v) (mset m key v))
  /\ (counted t -> counted (write t idx it key v)).
Proof.
  intros H Hk Hv Hi Hidx Hit Hslot Hb. pose proof (size_pos t H) as Hn.
  assert (Hr' : 0 <= idx < Z.of_nat (length (t_items t))).
  { rewrite <- wf_len by assumption. rewrite Hidx. apply get_hash_range; lia. }
  assert (Hitems : t_items (write t idx it key v) = upd (t_items t) (Z.to_nat idx) (Item key v)).
  { unfold write. destruct (is_equal_typed (ik it) key); reflexivity. }
  assert (Hsz : t_size (write t idx it key v) = t_size t).
  { unfold write. destruct (is_equal_typed (ik it) key); reflexivity. }
  assert (W : WF (write t idx it key v)).
  { apply (WF_ext (set_item (set_count t 0) idx (Item key v))); [exact Hsz|exact Hitems|].
    eapply write_wf; eassumption. }
  set (t' := write t idx it key v) in *.
  assert (Seq : slot t' idx = Some (Item key v)).
  { unfold slot, nthZ. rewrite Hitems. destruct (Z.ltb_spec idx 0); [lia|]. apply nth_upd_eq. lia. }
  assert (Sne : forall j, j <> idx -> slot t' j = slot t j).
  { intros j Hj. unfold slot, nthZ. rewrite Hitems. destruct (Z.ltb_spec j 0); [reflexivity|]. apply nth_upd_neq. lia. }
  split; [exact W|]. split.
  - intros m Hr q w Hq. unfold mset. destruct (value_eq_dec q key) as [->|Hne].
    + split.
      * intros E. injection E as <-. exists idx. exact Seq.
      * intros (j & E). assert (j = idx) by (eapply (unique_slot t'); eassumption). subst j. congruence.
    + rewrite (Hr q w Hq). split; intros (j & E).
      * exists j. rewrite Sne; [assumption|]. intros ->.
        destruct Hslot as [He|(v0 & He)]; rewrite He in E; [injection E as <- _; cbn in Hq; exact Hq|].
        injection E; congruence.
      * exists j. destruct (Z.eq_dec j idx) as [->|Hj]; [rewrite Seq in E; injection E; congruence|].
        rewrite Sne in E by assumption. assumption.
  - unfold counted, live_count. intros C.
    assert (Hnth : nth_error (t_items t) (Z.to_nat idx) = Some it).
    { unfold slot, nthZ in Hit. destruct (Z.ltb_spec idx 0); [discriminate|assumption]. }
    pose proof (filter_upd live _ _ (Item key v) _ Hnth) as HF. rewrite <- Hitems in HF.
    assert (Lnew : live (Item key v) = true) by (apply live_good; [right; right; split; assumption|assumption]).
    rewrite Lnew in HF. pose proof (count_bound t H) as HB. unfold live_count in HB. pose proof (wf_lim t H) as HL.
    unfold ALLOC_LIMIT in HL.
    destruct Hslot as [He|(v0 & He)]; rewrite Hit in He; injection He as ->.
    + cbn [live] in HF. change (live EMPTY) with false in HF. cbv iota in HF.
      unfold t', write. cbn [ik EMPTY]. rewrite keq_undef_l by assumption. cbn [set_item set_count t_count].
      unfold u64, two64. rewrite Z.mod_small by lia. unfold t', write in HF. cbn [ik EMPTY] in HF. rewrite keq_undef_l in HF by assumption.
      cbn [set_item set_count t_items] in *. lia.
    + assert (live (Item key v0) = true) as L0.
      { apply live_good; [exact (good_item_slot t idx _ H Hit)|assumption]. }
      rewrite L0 in HF. 
      assert (is_equal_typed key key = true) as KK by (apply keq_good; auto).
      unfold t', write. cbn [ik]. rewrite KK. cbn [set_item t_count]. unfold t', write in HF. cbn [ik] in HF. rewrite KK in HF.
      cbn [set_item t_items] in *. lia.
Qed.

(** *** Fresh tables *)
Lemma new_sized_ok base t : table_new_sized base = Ok t ->
  WF t /\ repr t mempty /\ counted t /\ t_base t = base /\ base <= t_size t
  /\ (forall j it, slot t j = Some it -> it = EMPTY)
  /\ t_items t = repeat EMPTY (Z.to_nat (t_size t)).
Proof.
  unfold table_new_sized. destruct (next_prime Z.sqrt DIVISOR_FUEL PRIME_FUEL base) as [p|e| |] eqn:E; cbn [bind]; try discriminate.
  destruct (Z.ltb_spec p ALLOC_LIMIT) as [L|L]; [|discriminate]. intros HH; injection HH as <-.
  apply next_prime_correct in E; [|exact sqrt_ok_Zsqrt]. destruct E as (Hp & Hle & _).
  pose proof (prime_ge_2 p Hp) as H2.
  assert (Sl : forall j it, slot {| t_size := p; t_base := base; t_count := 0; t_items := repeat EMPTY (Z.to_nat p) |} j = Some it -> it = EMPTY).
  { intros j it Es. apply slot_some in Es. destruct Es as [_ Es]. cbn in Es. apply repeat_spec in Es. exact Es. }
  assert (HE : forall k, ~ (exists n, filter live (repeat EMPTY n) = k :: nil) -> True) by auto. clear HE.
  split; [constructor|split; [|split; [|split; [|split; [|split]]]]].
  - cbn. rewrite repeat_length. lia.
  - exact Hp.
  - exact L.
  - cbn. apply Forall_forall. intros x Hx. apply repeat_spec in Hx. subst. left; reflexivity.
  - intros j k v Es Hk. apply Sl in Es. injection Es as -> _. cbn in Hk. tauto.
  - intros q v Hq. unfold mempty. split; [discriminate|]. intros (j & Es). apply Sl in Es. injection Es as -> _. cbn in Hq; tauto.
  - unfold counted, live_count. cbn. assert (forall n, filter live (repeat EMPTY n) = []) as -> by (induction n; cbn; auto). reflexivity.
  - reflexivity.
  - cbn. exact Hle.
  - exact Sl.
  - reflexivity.
Qed.

(** *** The entries visited by FOR_TABLE *)
Definition kv (it : item) : value * value := (ik it, iv it).

Lemma for_table_live t : WF t -> for_table t = filter live (t_items t).
Proof.
  intros H. unfold for_table. pose proof (wf_items t H) as HF.
  induction HF as [|it l Hit Hl IH]; cbn [filter]; [reflexivity|]. rewrite IH.
  replace (live it) with (negb (is_end (ik it)) && negb (is_undef (iv it))); [reflexivity|].
  destruct Hit as [->|[->|[Hk Hv]]]; [reflexivity..|]. unfold live. f_equal. f_equal.
  destruct (good_not_undef _ Hk) as [A B]. destruct Hv as [C D].
  destruct (iv it); destruct (ik it); cbn; congruence.
Qed.

Lemma NoDup_nth_filter {A} (f : A -> bool) (g : A -> value) l :
  (forall i j x y, nth_error l i = Some x -> nth_error l j = Some y -> f x = true -> f y = true -> g x = g y -> i = j) ->
  NoDup (map g (filter f l)).
Proof.
  induction l as [|a l IH]; intros H; cbn [filter map]; [constructor|].
  assert (IH' : NoDup (map g (filter f l))).
  { apply IH. intros i j x y Hx Hy Fx Fy E. specialize (H (S i) (S j) x y Hx Hy Fx Fy E). lia. }
  destruct (f a) eqn:Fa; [|exact IH']. cbn [map]. constructor; [|exact IH'].
  intros Hin. apply in_map_iff in Hin. destruct Hin as (y & Ey & Hy). apply filter_In in Hy. destruct Hy as [Hy Fy].
  apply In_nth_error in Hy. destruct Hy as (n & Hn).
  specialize (H 0%nat (S n) a y eq_refl Hn Fa Fy (eq_sym Ey)). lia.
Qed.

Lemma for_table_keys_nodup t : WF t -> NoDup (map ik (for_table t)).
Proof.
  intros H. rewrite for_table_live by assumption. apply NoDup_nth_filter.
  intros i j x y Hx Hy Lx Ly E.
  assert (Sx : slot t (Z.of_nat i) = Some x).
  { unfold slot, nthZ. destruct (Z.ltb_spec (Z.of_nat i) 0); [lia|]. rewrite Nat2Z.id. exact Hx. }
  assert (Sy : slot t (Z.of_nat j) = Some y).
  { unfold slot, nthZ. destruct (Z.ltb_spec (Z.of_nat j) 0); [lia|]. rewrite Nat2Z.id. exact Hy. }
  assert (Gx : good_key (ik x)) by (apply live_good; [eapply good_item_slot; eassumption|assumption]).
  destruct x as [kx vx], y as [ky vy]. cbn in *. subst ky.
  assert (Z.of_nat i = Z.of_nat j) by (eapply unique_slot; eassumption). lia.
Qed.

Lemma for_table_in t m k v : WF t -> repr t m ->
  (In (Item k v) (for_table t) <-> good_key k /\ m k = Some v).
Proof.
  intros H Hr. rewrite for_table_live by assumption. rewrite filter_In. split.
  - intros [Hin Hl]. destruct (in_slot _ _ Hin) as (j & Hj).
    assert (Gk : good_key k) by (apply (live_good (Item k v)); [eapply good_item_slot; eassumption|assumption]).
    split; [assumption|]. eapply repr_fun; eassumption.
  - intros [Gk Hm]. apply Hr in Hm; [|assumption]. destruct Hm as (j & Hj). split; [eapply slot_some; eassumption|].
    apply live_good; [eapply good_item_slot; eassumption|assumption].
Qed.

Lemma for_table_good t : WF t -> Forall (fun it => good_key (ik it) /\ good_val (iv it)) (for_table t).
Proof.
  intros H. apply Forall_forall. intros it Hin. rewrite for_table_live in Hin by assumption.
  apply filter_In in Hin. destruct Hin as [Hin Hl]. pose proof (wf_items t H) as HF.
  rewrite Forall_forall in HF. specialize (HF it Hin). destruct HF as [->|[->|HG]]; try discriminate Hl. exact HG.
Qed.

(** *** Insertion: partial correctness for every fuel *)
Definition ins_ok (ins : table -> value -> value -> outcome table) : Prop :=
  forall t k v t', WF t -> good_key k -> good_val v -> ins t k v = Ok t' ->
    WF t' /\ (forall m, repr t m -> repr t' (mset m k v)) /\ (counted t -> counted t').

Definition mset_all (l : list item) (m : amap) : amap := fold_left (fun m it => mset m (ik it) (iv it)) l m.

Lemma insert_all_ok ins : ins_ok ins -> forall l t t', Forall (fun it => good_key (ik it) /\ good_val (iv it)) l -> WF t ->
  insert_all ins l t = Ok t' ->
  WF t' /\ (forall m, repr t m -> repr t' (mset_all l m)) /\ (counted t -> counted t').
Proof.
  intros Hins. induction l as [|it l IH]; intros t t' HF H E; cbn [insert_all] in E.
  - injection E as <-. split; [assumption|]. split; [intros m Hm; exact Hm|auto].
  - inversion HF as [|? ? [Hk Hv] HF']; subst.
    destruct (ins t (ik it) (iv it)) as [t1|e| |] eqn:E1; cbn [bind] in E; try discriminate E.
    destruct (Hins _ _ _ _ H Hk Hv E1) as (W1 & R1 & C1).
    destruct (IH t1 t' HF' W1 E) as (W2 & R2 & C2). split; [assumption|]. split; [|auto].
    intros m Hm. cbn [mset_all fold_left]. apply R2, R1, Hm.
Qed.

Lemma mset_all_spec l : forall m q, NoDup (map ik l) ->
  forall v, mset_all l m q = Some v <-> (In (Item q v) l \/ (~ In q (map ik l) /\ m q = Some v)).
Proof.
  induction l as [|it l IH]; intros m q Hnd v; cbn [mset_all fold_left map In].
  - tauto.
  - inversion Hnd as [|? ? Hni Hnd']; subst. fold (mset_all l (mset m (ik it) (iv it))).
    rewrite IH by assumption. unfold mset. destruct (value_eq_dec q (ik it)) as [->|Hne].
    + split.
      * intros [Hin|[_ Hs]].
        { exfalso. apply Hni. apply in_map_iff. exists (Item (ik it) v). split; [reflexivity|assumption]. }
        { injection Hs as <-. left. left. destruct it; reflexivity. }
      * intros [[E|Hin]|[Hn _]].
        { right. split; [assumption|]. rewrite E; reflexivity. }
        { left; assumption. }
        { exfalso. apply Hn. left. reflexivity. }
    + split.
      * intros [Hin|[Hn Hs]]; [left; right; assumption|]. right. split; [|assumption].
        intros [E|E]; [congruence|contradiction].
      * intros [[E|Hin]|[Hn Hs]].
        { exfalso. apply Hne. rewrite E. reflexivity. }
        { left; assumption. }
        { right. split; [|assumption]. intros E. apply Hn. right. assumption. }
Qed.

Lemma repr_iff t m m' : (forall q, good_key q -> m q = m' q) -> repr t m -> repr t m'.
Proof. intros E H q v Hq. rewrite <- E by assumption. apply H; assumption. Qed.

Lemma repr_for_table t m : WF t -> repr t m -> forall q, good_key q -> mset_all (for_table t) mempty q = m q.
Proof.
  intros H Hr q Hq. pose proof (for_table_keys_nodup t H) as Hnd.
  assert (Hs : forall v, mset_all (for_table t) mempty q = Some v <-> m q = Some v).
  { intros v. rewrite (mset_all_spec _ _ _ Hnd). rewrite (for_table_in t m) by assumption. unfold mempty.
    split; [intros [[_ ?]|[_ ?]]; [assumption|discriminate]|intros ?; left; auto]. }
  destruct (mset_all (for_table t) mempty q) as [v|] eqn:E1.
  - symmetry. apply Hs. reflexivity.
  - destruct (m q) as [v|] eqn:E2; [|reflexivity]. specialize (Hs v). destruct Hs as [_ Hs]. discriminate Hs. reflexivity.
Qed.

Lemma resize_ok ins t base t' : ins_ok ins -> WF t -> table_resize ins t base = Ok t' ->
  WF t' /\ (forall m, repr t m -> repr t' m) /\ (counted t -> counted t').
Proof.
  intros Hins H E. unfold table_resize in E. destruct (base <? TABLE_BASESIZE); [injection E as <-; auto|].
  destruct (table_new_sized base) as [nt|e| |] eqn:En; cbn [bind] in E; try discriminate E.
  destruct (new_sized_ok _ _ En) as (W0 & R0 & C0 & _).
  destruct (insert_all ins (for_table t) nt) as [nt'|e| |] eqn:Ei; cbn [bind] in E; try discriminate E.
  injection E as <-.
  destruct (insert_all_ok ins Hins _ _ _ (for_table_good t H) W0 Ei) as (W1 & R1 & C1).
  split; [exact (WF_ext nt' (Tbl _ _ _ _) eq_refl eq_refl W1)|]. split.
  - intros m Hm. apply (repr_ext nt' (Tbl _ _ _ _) m eq_refl). eapply repr_iff; [|apply R1; exact R0].
    apply repr_for_table; assumption.
  - intros _. exact (C1 C0).
Qed.

Lemma insert_fast_ok fuel : ins_ok (insert_fast fuel).
Proof.
  induction fuel as [|f IH]; intros t k v t' H Hk Hv E; [discriminate E|]. cbn [insert_fast] in E.
  assert (HR : exists t1, (if 70 <? load t then table_resize (insert_fast f) t (u64 (t_base t * 2)) else Ok t) = Ok t1
     /\ WF t1 /\ (forall m, repr t m -> repr t1 m) /\ (counted t -> counted t1)).
  { destruct (70 <? load t).
    - destruct (table_resize (insert_fast f) t (u64 (t_base t * 2))) as [t1|e| |] eqn:E1; cbn [bind] in E; try discriminate E.
      exists t1. split; [reflexivity|]. eapply resize_ok; eassumption.
    - exists t. auto. }
  destruct HR as (t1 & E1 & W1 & R1 & C1). rewrite E1 in E. cbn [bind] in E.
  destruct (getindex f t1 k) as [idx|e| |] eqn:Eg; cbn [bind] in E; try discriminate E.
  destruct (getindex_ok _ _ _ _ W1 Hk Eg) as (i & Hi & Hidx & Hslot & Hb).
  rewrite get_item_slot in E. destruct (slot t1 idx) as [it|] eqn:Es; cbn [bind] in E; [|discriminate E].
  injection E as <-.
  assert (Hslot' : slot t1 idx = Some EMPTY \/ (exists v0, slot t1 idx = Some (Item k v0))) by (rewrite Es; exact Hslot).
  destruct (write_ok t1 k v idx it i W1 Hk Hv Hi Hidx Es Hslot' Hb) as (W2 & R2 & C2).
  unfold write in *. split; [exact W2|]. split; [|auto]. intros m Hm. apply R2, R1, Hm.
Qed.
