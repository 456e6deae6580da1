From Coq Require Import Znumtheory.
From Verif Require Import Base ListFacts Prime PrimeProofs Value ValueProofs Hash HashProofs Table TableSpec
  TableProofs TableProofs2 TableProofs3 TableProofs4 OpsProofs Sets SetSpec.
Ltac Zify.zify_post_hook ::= Z.div_mod_to_equations.

(** ** A set is a table whose values are all [true] *)
Definition TT : value := VBool true.
Definition enc_item (v : value) : item :=
  match v with VUndef => EMPTY | VEnd => TOMBSTONE | _ => Item v TT end.
Definition enc (s : yset) : table := Tbl (s_size s) (s_base s) (s_count s) (map enc_item (s_items s)).

Section Enc.
  Variable U : value -> Prop.
  Hypothesis HU : universe U.

  Lemma U_good v : U v -> good_key v.
  Proof. apply HU. Qed.

  Definition member_ok (v : value) : Prop := v = VUndef \/ v = VEnd \/ U v.
  Definition sgood (s : yset) : Prop := Forall member_ok (s_items s).

  (** In the universe, [==] does not look through types. *)
  Lemma eq_typed it k : member_ok it -> U k -> is_equal it k = is_equal_typed it k.
  Proof.
    intros [->|[->|Hi]] Hk.
    - rewrite keq_undef_l by (apply U_good; assumption). pose proof (U_good _ Hk). destruct k; cbn in *; try reflexivity; tauto.
    - destruct k; reflexivity.
    - unfold is_equal_typed. destruct it, k; cbn [vtype ytype_eqb andb]; try reflexivity.
      + cbn. rewrite f_eqb_sym. apply HU; assumption.
      + cbn. apply HU; assumption.
  Qed.

  Lemma enc_ik v : ik (enc_item v) = v.
  Proof. destruct v; reflexivity. Qed.
  Lemma enc_undef v : is_undef (iv (enc_item v)) = is_undef v.
  Proof. destruct v; reflexivity. Qed.

  Lemma enc_get s i : get_item (enc s) i = omap enc_item (get_member s i).
  Proof.
    unfold get_item, get_member, nthZ. cbn [enc t_items]. destruct (i <? 0); [reflexivity|].
    rewrite nth_error_map. destruct (nth_error (s_items s) (Z.to_nat i)); reflexivity.
  Qed.

  Lemma get_member_ok s i v : sgood s -> get_member s i = Ok v -> member_ok v.
  Proof.
    unfold get_member, nthZ. intros G E. destruct (i <? 0); [discriminate E|].
    destruct (nth_error (s_items s) (Z.to_nat i)) eqn:N; [|discriminate E]. injection E as <-.
    apply nth_error_In in N. eapply Forall_forall in N; [exact N|exact G].
  Qed.

  Lemma map_upd {A B} (f : A -> B) l n x : map f (upd l n x) = upd (map f l) n (f x).
  Proof. revert n. induction l as [|y l IH]; intros [|n]; cbn; try reflexivity. rewrite IH. reflexivity. Qed.

  Lemma enc_set s i v : enc (set_member s i v) = set_item (enc s) i (enc_item v).
  Proof. unfold enc, set_member, set_item. cbn. rewrite map_upd. reflexivity. Qed.
  Lemma enc_count s c : enc (set_scount s c) = set_count (enc s) c.
  Proof. reflexivity. Qed.
  Lemma sgood_set s i v : sgood s -> member_ok v -> sgood (set_member s i v).
  Proof. intros G H. unfold sgood, set_member. cbn. apply Forall_upd; assumption. Qed.

  Lemma enc_new base : omap enc (set_new_sized base) = table_new_sized base /\
    (forall s, set_new_sized base = Ok s -> sgood s).
  Proof.
    unfold set_new_sized, table_new_sized. destruct (next_prime Z.sqrt DIVISOR_FUEL PRIME_FUEL base) as [p|e| |]; cbn [bind omap];
      try (split; [reflexivity|discriminate]).
    destruct (p <? ALLOC_LIMIT); [|split; [reflexivity|discriminate]]. split.
    - cbn [omap]. unfold enc. cbn. f_equal. f_equal. induction (Z.to_nat p); cbn; congruence.
    - intros s E. injection E as <-. unfold sgood. cbn. apply Forall_forall. intros x Hx. apply repeat_spec in Hx. left. exact Hx.
  Qed.

  Lemma enc_find fuel : forall s k index i, sgood s -> U k ->
    omap fst (set_find fuel s k index i) = getindex_loop fuel (enc s) k index i /\
    (forall idx b, set_find fuel s k index i = Ok (idx, b) -> exists it, get_member s idx = Ok it /\ is_equal_typed it k = b).
  Proof.
    induction fuel as [|f IH]; intros s k index i G Hk; cbn [set_find getindex_loop]; [split; [reflexivity|discriminate]|].
    rewrite enc_get. destruct (get_member s index) as [it|e| |] eqn:E; cbn [omap bind]; try (split; [reflexivity|discriminate]).
    rewrite enc_undef, enc_ik. destruct (is_undef it) eqn:Eu.
    - split; [reflexivity|]. intros idx b H. injection H as <- <-. exists it. split; [assumption|].
      destruct it; try discriminate Eu. apply keq_undef_l, U_good, Hk.
    - rewrite (eq_typed it k (get_member_ok _ _ _ G E) Hk).
      destruct (negb (is_end it) && is_equal_typed it k) eqn:Eq.
      + split; [reflexivity|]. intros idx b H. injection H as <- <-. exists it. split; [assumption|].
        apply andb_true_iff in Eq. apply Eq.
      + apply IH; assumption.
  Qed.

  Lemma enc_for s : for_table (enc s) = map enc_item (for_set s).
  Proof.
    unfold for_table, for_set, enc. cbn [t_items]. induction (s_items s) as [|v l IH]; [reflexivity|].
    cbn [map filter]. rewrite enc_ik, enc_undef. destruct (negb (is_end v) && negb (is_undef v)); cbn [map]; rewrite IH; reflexivity.
  Qed.
  Lemma for_set_U s : sgood s -> Forall U (for_set s).
  Proof.
    intros G. apply Forall_forall. intros v Hv. apply filter_In in Hv. destruct Hv as [Hv Hf].
    eapply Forall_forall in Hv; [|exact G]. destruct Hv as [->|[->|H]]; [discriminate|discriminate|exact H].
  Qed.

  Definition ins_rel (si : yset -> value -> outcome (bool * yset)) (ti : table -> value -> value -> outcome table) : Prop :=
    forall s k, sgood s -> U k -> omap (fun p => enc (snd p)) (si s k) = ti (enc s) k TT /\
      (forall b s', si s k = Ok (b, s') -> b = true /\ sgood s').

  Lemma enc_insert_all si ti : ins_rel si ti -> forall l s, sgood s -> Forall U l ->
    omap enc (set_insert_all si l s) = insert_all ti (map enc_item l) (enc s) /\
    (forall s', set_insert_all si l s = Ok s' -> sgood s').
  Proof.
    intros R. induction l as [|v l IH]; intros s G HF; cbn [set_insert_all map insert_all].
    - split; [reflexivity|]. intros s' E. injection E as <-. exact G.
    - inversion HF as [|? ? Hv HF']; subst. destruct (R s v G Hv) as [E1 E2].
      assert (Hiv : iv (enc_item v) = TT) by (pose proof (U_good _ Hv); destruct v; cbn in *; try reflexivity; tauto).
      rewrite enc_ik, Hiv, <- E1. destruct (si s v) as [[b s1]|e| |]; cbn [omap bind snd]; try (split; [reflexivity|discriminate]).
      destruct (E2 b s1 eq_refl) as [_ G1]. apply IH; assumption.
  Qed.

  Lemma enc_resize si ti s base : ins_rel si ti -> sgood s ->
    omap enc (set_resize si s base) = table_resize ti (enc s) base /\
    (forall s', set_resize si s base = Ok s' -> sgood s').
  Proof.
    intros R G. unfold set_resize, table_resize. change SET_BASESIZE with TABLE_BASESIZE.
    destruct (base <? TABLE_BASESIZE).
    - split; [reflexivity|]. intros s' E. injection E as <-. exact G.
    - destruct (enc_new base) as [E1 E2]. rewrite <- E1. destruct (set_new_sized base) as [ns|e| |]; cbn [omap bind];
        try (split; [reflexivity|discriminate]).
      destruct (enc_insert_all si ti R (for_set s) ns (E2 _ eq_refl) (for_set_U s G)) as [A B].
      rewrite enc_for, <- A. split; [|exact B].
      destruct (set_insert_all si (for_set s) ns) as [s'|e| |]; reflexivity.
  Qed.

  Lemma enc_insert fuel : ins_rel (set_insert fuel) (insert_fast fuel).
  Proof.
    induction fuel as [|f IH]; intros s k G Hk; cbn [set_insert insert_fast]; [split; [reflexivity|discriminate]|].
    rewrite (good_hashable k) by (apply U_good; assumption).
    change (load (enc s)) with (sload s). change (t_base (enc s)) with (s_base s).
    assert (HR : omap enc (if 70 <? sload s then set_resize (set_insert f) s (u64 (s_base s * 2)) else Ok s)
                 = (if 70 <? sload s then table_resize (insert_fast f) (enc s) (u64 (s_base s * 2)) else Ok (enc s))
                 /\ (forall s1, (if 70 <? sload s then set_resize (set_insert f) s (u64 (s_base s * 2)) else Ok s) = Ok s1 -> sgood s1)).
    { destruct (70 <? sload s); [apply enc_resize; assumption|]. split; [reflexivity|]. intros s1 E. injection E as <-. exact G. }
    destruct HR as [HR1 HR2]. rewrite <- HR1.
    destruct (if 70 <? sload s then set_resize (set_insert f) s (u64 (s_base s * 2)) else Ok s) as [s1|e| |]; cbn [omap bind];
      try (split; [reflexivity|discriminate]).
    specialize (HR2 s1 eq_refl). unfold getindex. change (t_size (enc s1)) with (s_size s1).
    destruct (enc_find f s1 k (get_hash k (s_size s1) 0) 1 HR2 Hk) as [F1 F2]. rewrite <- F1.
    destruct (set_find f s1 k (get_hash k (s_size s1) 0) 1) as [[idx b]|e| |]; cbn [omap bind fst];
      try (split; [reflexivity|discriminate]).
    destruct (F2 idx b eq_refl) as (it & Ei & Eq). rewrite enc_get, Ei. cbn [omap bind]. rewrite enc_ik, Eq.
    assert (Ek : enc_item k = Item k TT) by (pose proof (U_good _ Hk); destruct k; cbn in *; try reflexivity; tauto).
    destruct b; cbn [omap snd].
    - rewrite enc_set, Ek. split; [reflexivity|]. intros b s' E. injection E as <- <-. split; [reflexivity|].
      apply sgood_set; [assumption|right; right; assumption].
    - rewrite enc_count, enc_set, Ek. split; [reflexivity|]. intros b s' E. injection E as <- <-. split; [reflexivity|].
      apply (sgood_set s1 idx k); [assumption|right; right; assumption].
  Qed.

  Lemma enc_search fuel s k : sgood s -> U k ->
    table_search fuel (enc s) k = omap (fun b : bool => if b then TT else VEnd) (set_search fuel s k).
  Proof.
    intros G Hk. unfold table_search, set_search. rewrite (good_hashable k) by (apply U_good; assumption).
    change (t_size (enc s)) with (s_size s). generalize (get_hash k (s_size s) 0) as index, 1 as i.
    induction fuel as [|f IH]; intros index i; cbn [search_loop set_search_loop]; [reflexivity|].
    rewrite enc_get. destruct (get_member s index) as [it|e| |] eqn:E; cbn [omap bind]; try reflexivity.
    rewrite enc_ik. destruct (is_undef it) eqn:Eu; [reflexivity|].
    rewrite <- (eq_typed it k (get_member_ok _ _ _ G E) Hk). destruct (is_equal it k) eqn:Eq; [|apply IH].
    cbn. destruct it; try reflexivity; try discriminate Eu. destruct k; discriminate Eq.
  Qed.

  Lemma enc_rm_loop fuel : forall s k index i, sgood s -> U k ->
    omap enc (set_rm_loop fuel s k index i) = rm_loop fuel (enc s) k index i /\
    (forall s', set_rm_loop fuel s k index i = Ok s' -> sgood s').
  Proof.
    induction fuel as [|f IH]; intros s k index i G Hk; cbn [set_rm_loop rm_loop]; [split; [reflexivity|discriminate]|].
    rewrite enc_get. destruct (get_member s index) as [it|e| |] eqn:E; cbn [omap bind]; try (split; [reflexivity|discriminate]).
    rewrite enc_ik. destruct (is_undef it).
    - split; [reflexivity|]. intros s' H. injection H as <-. exact G.
    - rewrite (eq_typed it k (get_member_ok _ _ _ G E) Hk). change (t_size (enc s)) with (s_size s).
      destruct (negb (is_end it) && is_equal_typed it k).
      + change TOMBSTONE with (enc_item VEnd). rewrite <- enc_set. change (s_size s) with (s_size (set_member s index VEnd)).
        apply IH; [|assumption]. apply sgood_set; [assumption|]. right; left; reflexivity.
      + apply IH; assumption.
  Qed.

  Lemma enc_rm fuel s k : sgood s -> U k ->
    omap enc (set_rm fuel s k) = table_rm fuel (enc s) k /\ (forall s', set_rm fuel s k = Ok s' -> sgood s').
  Proof.
    intros G Hk. unfold set_rm, table_rm. rewrite (good_hashable k) by (apply U_good; assumption).
    change (load (enc s)) with (sload s). change (t_base (enc s)) with (s_base s).
    assert (HR : omap enc (if sload s <? 10 then set_resize (set_insert fuel) s (s_base s / 2) else Ok s)
                 = (if sload s <? 10 then table_resize (insert_fast fuel) (enc s) (s_base s / 2) else Ok (enc s))
                 /\ (forall s1, (if sload s <? 10 then set_resize (set_insert fuel) s (s_base s / 2) else Ok s) = Ok s1 -> sgood s1)).
    { destruct (sload s <? 10); [apply enc_resize; [apply enc_insert|assumption]|]. split; [reflexivity|]. intros s1 E. injection E as <-. exact G. }
    destruct HR as [HR1 HR2]. rewrite <- HR1.
    destruct (if sload s <? 10 then set_resize (set_insert fuel) s (s_base s / 2) else Ok s) as [s1|e| |]; cbn [omap bind];
      try (split; [reflexivity|discriminate]).
    specialize (HR2 s1 eq_refl). change (t_size (enc s1)) with (s_size s1).
    destruct (enc_rm_loop fuel s1 k (get_hash k (s_size s1) 0) 1 HR2 Hk) as [A B]. rewrite <- A.
    destruct (set_rm_loop fuel s1 k (get_hash k (s_size s1) 0) 1) as [s2|e| |]; cbn [omap bind];
      try (split; [reflexivity|discriminate]).
    split; [reflexivity|]. intros s' E. injection E as <-. apply (B s2 eq_refl).
  Qed.

  (** ** Histories *)
  Definition tr (o : sop) : top := match o with SAdd v => TSet v TT | SRm v => TRm v end.

  Lemma enc_run fuel : forall ops s, sgood s -> Forall (sop_in U) ops ->
    omap enc (run_set fuel ops s) = run_table fuel (map tr ops) (enc s) /\
    (forall s', run_set fuel ops s = Ok s' -> sgood s').
  Proof.
    induction ops as [|o ops IH]; intros s G HF; cbn [run_set map run_table].
    - split; [reflexivity|]. intros s' E. injection E as <-. exact G.
    - inversion HF as [|? ? Ho HF']; subst. destruct o as [v|v]; cbn [tr sop_in] in *.
      + unfold set_add, table_set, table_insert. cbn [is_undef TT]. rewrite (good_hashable v) by (apply U_good; assumption).
        destruct (enc_insert fuel s v G Ho) as [A B]. change (VBool true) with TT. rewrite <- A.
        destruct (set_insert fuel s v) as [[b s1]|e| |]; cbn [omap bind snd]; try (split; [reflexivity|discriminate]).
        destruct (B b s1 eq_refl) as [-> G1]. cbn [bind]. apply IH; assumption.
      + destruct (enc_rm fuel s v G Ho) as [A B]. rewrite <- A.
        destruct (set_rm fuel s v) as [s1|e| |]; cbn [omap bind]; try (split; [reflexivity|discriminate]).
        apply IH; [apply B; reflexivity|assumption].
  Qed.

  Definition as_map (A : vset) : amap := fun q => if A q then Some TT else None.

  Lemma tr_contents ops : forall A q, fold_left spec_step (map tr ops) (as_map A) q = as_map (fold_left set_step ops A) q.
  Proof.
    assert (H : forall ops (m m' : amap), (forall q, m q = m' q) -> forall q, fold_left spec_step ops m q = fold_left spec_step ops m' q).
    { clear. induction ops as [|o ops IH]; intros m m' E q; cbn; [apply E|]. apply IH. clear q. intros q.
      destruct o as [k v|k]; cbn; [destruct v|]; unfold mrm, mset; destruct (value_eq_dec q k); auto. }
    induction ops as [|o ops IH]; intros A q; [reflexivity|]. cbn [map fold_left]. rewrite <- IH. apply H. clear q. intros q.
    unfold as_map. destruct o as [v|v]; cbn; unfold mset, mrm, s_add, s_del; destruct (value_eq_dec q v); reflexivity.
  Qed.
  Lemma tr_spec ops q : spec_run (map tr ops) q = as_map (contents ops) q.
  Proof. unfold spec_run, contents. rewrite <- tr_contents. reflexivity. Qed.

  Lemma tr_ok ops : Forall (sop_in U) ops -> Forall op_ok (map tr ops).
  Proof.
    intros H. induction H as [|o ops Ho Hl IH]; cbn; constructor; [|assumption].
    destruct o; cbn in *; [split; [apply U_good; assumption|discriminate]|apply U_good; assumption].
  Qed.
  Lemma tr_present ops : forall A, removes_members A ops -> forall m, (forall q, m q = as_map A q) -> removals_present m (map tr ops).
  Proof.
    induction ops as [|o ops IH]; intros A HA m Em; cbn [map removals_present removes_members] in *; [exact I|].
    destruct HA as [H1 H2]. split.
    - destruct o; cbn in *; [exact I|]. rewrite Em. unfold as_map. rewrite H1. discriminate.
    - apply (IH _ H2). intros q. unfold as_map. destruct o as [v|v]; cbn; unfold mset, mrm, s_add, s_del;
        destruct (value_eq_dec q v); try reflexivity; rewrite Em; reflexivity.
  Qed.

  (** What is known of a set reached by a history: [srep]resents [A], and its count is right if only members were removed. *)
  Record srep (s : yset) (A : vset) : Prop := {
    sr_good : sgood s; sr_wf : WF (enc s);
    sr_repr : exists m, repr (enc s) m /\ forall q, U q -> m q = as_map A q }.

  Lemma run_srep fuel ops s : Forall (sop_in U) ops -> run_new_set fuel ops = Ok s ->
    srep s (contents ops) /\ (removes_members s_empty ops -> counted (enc s)).
  Proof.
    intros HF E. unfold run_new_set, set_new in E. destruct (enc_new SET_BASESIZE) as [N1 N2].
    destruct (set_new_sized SET_BASESIZE) as [s0|e| |]; cbn [bind] in E; try discriminate E.
    destruct (enc_run fuel ops s0 (N2 _ eq_refl) HF) as [R1 R2].
    assert (ER : run_new fuel (map tr ops) = Ok (enc s)).
    { unfold run_new, table_new. change TABLE_BASESIZE with SET_BASESIZE. rewrite <- N1. cbn [omap bind]. rewrite <- R1, E. reflexivity. }
    destruct (run_new_ok _ _ _ (tr_ok ops HF) ER) as (W & R & C). split.
    - constructor; [apply R2; exact E|exact W|]. eexists. split; [exact R|]. intros q _. apply tr_spec.
    - intros HM. apply C. apply (tr_present ops s_empty HM). reflexivity.
  Qed.

  Lemma srep_search fuel s A q b : srep s A -> U q -> set_search fuel s q = Ok b -> b = A q.
  Proof.
    intros R Hq E. pose proof (enc_search fuel s q (sr_good _ _ R) Hq) as S0. rewrite E in S0. cbn [omap] in S0.
    destruct (sr_repr _ _ R) as (m & Rm & Em).
    pose proof (search_ok fuel (enc s) q _ _ (sr_wf _ _ R) Rm (U_good _ Hq) S0) as H. rewrite (Em q Hq) in H. unfold as_map in H.
    destruct b, (A q); try reflexivity; discriminate H.
  Qed.

  Lemma srep_listing s A : srep s A -> listing U A (for_set s).
  Proof.
    intros R. destruct (sr_repr _ _ R) as (m & Rm & Em). destruct (keys_spec (enc s) _ (sr_wf _ _ R) Rm) as [K1 K2].
    assert (E : table_keys (enc s) = for_set s).
    { unfold table_keys. rewrite enc_for, map_map. rewrite <- (map_id (for_set s)) at 2. apply map_ext. apply enc_ik. }
    rewrite E in *. split; [assumption|]. split; [|apply for_set_U, R].
    intros q Hq. rewrite K2, (Em q Hq). unfold as_map. pose proof (U_good _ Hq). destruct (A q); split; intros; try tauto; try discriminate.
    split; [assumption|discriminate].
  Qed.

  Lemma for_set_live s : for_set s = map ik (for_table (enc s)).
  Proof. rewrite enc_for, map_map. rewrite <- (map_id (for_set s)) at 1. apply map_ext. intros a. symmetry. apply enc_ik. Qed.

  Lemma srep_count s A : srep s A -> counted (enc s) -> s_count s = Z.of_nat (length (for_set s)) /\ s_count s < ALLOC_LIMIT.
  Proof.
    intros R C. unfold counted in C. cbn in C. rewrite C. unfold live_count. rewrite <- for_table_live by apply R.
    rewrite for_set_live, map_length. split; [reflexivity|]. pose proof (count_bound _ (sr_wf _ _ R)) as B. unfold live_count in B.
    rewrite <- for_table_live in B by apply R. pose proof (wf_lim _ (sr_wf _ _ R)). lia.
  Qed.

  Lemma srep_length s A : srep s A -> counted (enc s) -> set_length s = Z.of_nat (length (for_set s)).
  Proof.
    intros R C. destruct (srep_count s A R C) as [E L]. unfold set_length. rewrite E in *. unfold i64, two64, ALLOC_LIMIT in *. lia.
  Qed.

  Lemma listing_length A l1 l2 : listing U A l1 -> listing U A l2 -> length l1 = length l2.
  Proof.
    intros (N1 & I1 & F1) (N2 & I2 & F2). apply Nat.le_antisymm; apply NoDup_incl_length; try assumption.
    - intros q Hq. pose proof (proj1 (Forall_forall _ _) F1 q Hq) as Uq. apply I2; [assumption|]. apply I1; assumption.
    - intros q Hq. pose proof (proj1 (Forall_forall _ _) F2 q Hq) as Uq. apply I1; [assumption|]. apply I2; assumption.
  Qed.

  (** ** The operators are histories of insertions *)
  Lemma insert_all_run fuel l s : sgood s -> Forall U l -> set_insert_all (set_insert fuel) l s = run_set fuel (map SAdd l) s.
  Proof.
    revert s. induction l as [|v l IH]; intros s G HF; cbn [set_insert_all map run_set]; [reflexivity|].
    inversion HF as [|? ? Hv HF']; subst. unfold set_add. destruct (enc_insert fuel s v G Hv) as [_ B].
    destruct (set_insert fuel s v) as [[b s1]|e| |]; cbn [bind]; try reflexivity.
    destruct (B b s1 eq_refl) as [-> G1]. cbn [bind]. apply IH; assumption.
  Qed.

  Lemma select_run fuel keep r R : srep r R -> forall l s t, sgood s -> Forall U l -> set_select fuel keep r l s = Ok t ->
    run_set fuel (map SAdd (filter (fun v => Bool.eqb (R v) keep) l)) s = Ok t.
  Proof.
    intros HR. induction l as [|v l IH]; intros s t G HF E; cbn [set_select filter map run_set] in *; [assumption|].
    inversion HF as [|? ? Hv HF']; subst. destruct (set_search fuel r v) as [c|e| |] eqn:Es; cbn [bind] in E; try discriminate E.
    rewrite (srep_search _ _ _ _ _ HR Hv Es) in E. destruct (Bool.eqb (R v) keep); cbn [bind map run_set] in *.
    - unfold set_add. destruct (enc_insert fuel s v G Hv) as [_ B].
      destruct (set_insert fuel s v) as [[b s1]|e| |]; cbn [omap bind snd] in *; try discriminate E.
      destruct (B b s1 eq_refl) as [-> G1]. cbn [bind]. apply IH; assumption.
    - apply IH; assumption.
  Qed.

  Lemma run_set_app fuel a : forall b s, run_set fuel (a ++ b) s = do t <- run_set fuel a s; run_set fuel b t.
  Proof.
    induction a as [|o a IH]; intros b s; cbn [app run_set]; [reflexivity|].
    destruct o as [v|v]; [destruct (set_add fuel s v)|destruct (set_rm fuel s v)]; cbn [bind]; auto.
  Qed.

  Lemma contents_adds l : forall A q, fold_left set_step (map SAdd l) A q = if in_dec value_eq_dec q l then true else A q.
  Proof.
    induction l as [|v l IH]; intros A q; cbn [map fold_left]; [reflexivity|]. rewrite IH. cbn [set_step]. unfold s_add.
    destruct (in_dec value_eq_dec q l), (in_dec value_eq_dec q (v :: l)) as [Hi|Hn], (value_eq_dec q v); try reflexivity; exfalso.
    - apply Hn. right. assumption.
    - apply Hn. right. assumption.
    - destruct Hi; congruence.
    - apply Hn. left. congruence.
  Qed.

  Lemma adds_in l : Forall U l -> Forall (sop_in U) (map SAdd l).
  Proof. intros H. induction H; cbn; constructor; assumption. Qed.
  Lemma adds_members l A : removes_members A (map SAdd l).
  Proof. revert A. induction l; intros A; cbn; auto. Qed.

  Lemma srep_ext s A B : srep s A -> (forall q, U q -> A q = B q) -> srep s B.
  Proof.
    intros [G W (m & Rm & Em)] H. constructor; [assumption|assumption|]. exists m. split; [assumption|].
    intros q Hq. rewrite (Em q Hq). unfold as_map. rewrite (H q Hq). reflexivity.
  Qed.

  (** A set obtained by inserting [l] into a new set. *)
  Lemma adds_srep fuel l t (B : vset) : Forall U l -> run_new_set fuel (map SAdd l) = Ok t ->
    (forall q, U q -> B q = true <-> In q l) -> srep t B /\ counted (enc t).
  Proof.
    intros HF E HB.
    destruct (run_srep fuel _ t (adds_in l HF) E) as [R C]. split; [|apply C, adds_members].
    apply (srep_ext _ _ _ R). intros q Hq. unfold contents. rewrite contents_adds. specialize (HB q Hq).
    destruct (in_dec value_eq_dec q l) as [Hi|Hn]; [symmetry; apply HB; exact Hi|].
    unfold s_empty. destruct (B q); [|reflexivity]. destruct Hn. apply HB. reflexivity.
  Qed.

  Lemma filter_U (f : value -> bool) l : Forall U l -> Forall U (filter f l).
  Proof. intros H. apply Forall_forall. intros x Hx. apply filter_In in Hx. eapply Forall_forall in H; [exact H|apply Hx]. Qed.

  Lemma run_new_of fuel ops t : (do s <- set_new; run_set fuel ops s) = Ok t -> run_new_set fuel ops = Ok t.
  Proof. auto. Qed.

  Lemma new_sgood s : set_new = Ok s -> sgood s.
  Proof. apply enc_new. Qed.

  Lemma union_ok fuel l r L R t : srep l L -> srep r R -> set_union fuel l r = Ok t ->
    srep t (fun q => L q || R q) /\ counted (enc t).
  Proof.
    intros HL HR E. destruct (srep_listing l L HL) as (_ & IL & FL). destruct (srep_listing r R HR) as (_ & IR & FR).
    apply (adds_srep fuel (for_set l ++ for_set r)).
    - apply Forall_app; auto.
    - unfold run_new_set. unfold set_union in E. destruct set_new as [s0|e| |] eqn:E0; cbn [bind] in *; try discriminate E.
      rewrite insert_all_run in E by (try assumption; apply new_sgood; assumption).
      rewrite map_app, run_set_app. destruct (enc_run fuel (map SAdd (for_set l)) s0 (new_sgood _ E0) (adds_in _ FL)) as [_ G].
      destruct (run_set fuel (map SAdd (for_set l)) s0) as [s1|e| |]; cbn [bind] in *; try discriminate E.
      rewrite insert_all_run in E by (try assumption; apply G; reflexivity). exact E.
    - intros q Hq. rewrite in_app_iff, orb_true_iff, IL, IR by assumption. reflexivity.
  Qed.

  Lemma intersection_ok fuel l r L R t : srep l L -> srep r R -> set_intersection fuel l r = Ok t ->
    srep t (fun q => L q && R q) /\ counted (enc t).
  Proof.
    intros HL HR E. destruct (srep_listing l L HL) as (_ & IL & FL).
    apply (adds_srep fuel (filter (fun v => Bool.eqb (R v) true) (for_set l))).
    - apply filter_U; assumption.
    - unfold run_new_set. unfold set_intersection in E. destruct set_new as [s0|e| |] eqn:E0; cbn [bind] in *; try discriminate E.
      apply (select_run fuel true r R HR (for_set l)); try assumption. apply new_sgood; assumption.
    - intros q Hq. rewrite filter_In, andb_true_iff, (IL q Hq). destruct (R q); cbn; tauto.
  Qed.

  Lemma difference_ok fuel l r L R t : srep l L -> srep r R -> set_difference fuel l r = Ok t ->
    srep t (fun q => L q && negb (R q)) /\ counted (enc t).
  Proof.
    intros HL HR E. destruct (srep_listing l L HL) as (_ & IL & FL).
    apply (adds_srep fuel (filter (fun v => Bool.eqb (R v) false) (for_set l))).
    - apply filter_U; assumption.
    - unfold run_new_set. unfold set_difference in E. destruct set_new as [s0|e| |] eqn:E0; cbn [bind] in *; try discriminate E.
      apply (select_run fuel false r R HR (for_set l)); try assumption. apply new_sgood; assumption.
    - intros q Hq. rewrite filter_In, andb_true_iff, (IL q Hq). destruct (R q); cbn; tauto.
  Qed.

  Lemma symmetric_ok fuel l r L R t : srep l L -> srep r R -> set_symmetric_difference fuel l r = Ok t ->
    srep t (fun q => xorb (L q) (R q)) /\ counted (enc t).
  Proof.
    intros HL HR E. destruct (srep_listing l L HL) as (_ & IL & FL). destruct (srep_listing r R HR) as (_ & IR & FR).
    apply (adds_srep fuel (filter (fun v => Bool.eqb (R v) false) (for_set l) ++ filter (fun v => Bool.eqb (L v) false) (for_set r))).
    - apply Forall_app; split; apply filter_U; assumption.
    - unfold run_new_set. unfold set_symmetric_difference in E. destruct set_new as [s0|e| |] eqn:E0; cbn [bind] in *; try discriminate E.
      destruct (set_select fuel false r (for_set l) s0) as [s1|e| |] eqn:E1; cbn [bind] in *; try discriminate E.
      apply (select_run fuel false r R HR (for_set l)) in E1; try assumption; [|apply new_sgood; assumption].
      rewrite map_app, run_set_app, E1. cbn [bind].
      destruct (enc_run fuel _ s0 (new_sgood _ E0) (adds_in _ (filter_U (fun v => Bool.eqb (R v) false) _ FL))) as [_ G].
      apply (select_run fuel false l L HL (for_set r)) in E; try assumption. apply (G _ E1).
    - intros q Hq. rewrite in_app_iff, !filter_In, (IL q Hq), (IR q Hq). destruct (R q), (L q); cbn; intuition congruence.
  Qed.

  Lemma copy_srep fuel s A t : srep s A -> set_copy fuel s = Ok t -> srep t A /\ counted (enc t).
  Proof.
    intros HS E. destruct (srep_listing s A HS) as (_ & IL & FL).
    apply (adds_srep fuel (for_set s)); try assumption.
    - unfold run_new_set. unfold set_copy in E. destruct set_new as [s0|e| |] eqn:E0; cbn [bind] in *; try discriminate E.
      rewrite insert_all_run in E by (try assumption; apply new_sgood; assumption). exact E.
    - intros q Hq. symmetry. apply IL; assumption.
  Qed.

  Lemma add_all_run fuel l : forall s, set_add_all fuel l s = run_set fuel (map SAdd l) s.
  Proof. induction l as [|v l IH]; intros s; cbn; [reflexivity|]. destruct (set_add fuel s v); cbn [bind]; auto. Qed.

  Lemma of_args_ok fuel args t : Forall U args -> set_of_args fuel args = Ok t ->
    srep t (fun q => if in_dec value_eq_dec q args then true else false) /\ counted (enc t).
  Proof.
    intros HF E. unfold set_of_args in E. apply (adds_srep fuel (rev args)).
    - apply Forall_rev; assumption.
    - unfold run_new_set. destruct set_new; cbn [bind] in *; try discriminate E. rewrite add_all_run in E. exact E.
    - intros q Hq. rewrite <- in_rev. destruct (in_dec value_eq_dec q args); split; intros; try tauto; discriminate.
  Qed.
  Lemma of_list_ok fuel l t : Forall U l -> set_of_list fuel l = Ok t ->
    srep t (fun q => if in_dec value_eq_dec q l then true else false) /\ counted (enc t).
  Proof.
    intros HF E. unfold set_of_list in E. apply (adds_srep fuel l); [assumption| |].
    - unfold run_new_set. destruct set_new; cbn [bind] in *; try discriminate E. rewrite add_all_run in E. exact E.
    - intros q Hq. destruct (in_dec value_eq_dec q l); split; intros; try tauto; discriminate.
  Qed.

  (** ** Comparisons *)
  Lemma all_in_ok fuel r R : srep r R -> forall l b, Forall U l -> set_all_in fuel r l = Ok b ->
    (b = true <-> forall q, In q l -> R q = true).
  Proof.
    intros HR. induction l as [|v l IH]; intros b HF E; cbn [set_all_in] in E.
    - injection E as <-. split; [intros _ q []|reflexivity].
    - inversion HF as [|? ? Hv HF']; subst. destruct (set_search fuel r v) as [c|e| |] eqn:Es; cbn [bind] in E; try discriminate E.
      pose proof (srep_search _ _ _ _ _ HR Hv Es) as Ec. destruct c.
      + rewrite (IH b HF' E). split; [intros H q [<-|Hq]; auto|intros H q Hq; apply H; right; exact Hq].
      + injection E as <-. split; [discriminate|]. intros H. specialize (H v (or_introl eq_refl)). congruence.
  Qed.

  Lemma all_in_subset fuel l r L R b : srep l L -> srep r R -> set_all_in fuel r (for_set l) = Ok b -> (b = true <-> subset U L R).
  Proof.
    intros HL HR E. destruct (srep_listing l L HL) as (_ & IL & FL). rewrite (all_in_ok fuel r R HR _ _ FL E). unfold subset. split.
    - intros H q Hq Ha. apply H. apply IL; assumption.
    - intros H q Hin. pose proof (proj1 (Forall_forall _ _) FL q Hin) as Uq. apply H; [assumption|]. apply IL; assumption.
  Qed.

  Lemma subset_count l r L R : srep l L -> srep r R -> counted (enc l) -> counted (enc r) -> subset U L R ->
    s_count l <= s_count r /\ (s_count r <= s_count l -> subset U R L).
  Proof.
    intros HL HR CL CR Hs. destruct (srep_count l L HL CL) as [El _]. destruct (srep_count r R HR CR) as [Er _]. rewrite El, Er.
    destruct (srep_listing l L HL) as (NL & IL & FL). destruct (srep_listing r R HR) as (NR & IR & FR).
    assert (Hi : incl (for_set l) (for_set r)).
    { intros q Hin. pose proof (proj1 (Forall_forall _ _) FL q Hin) as Uq. apply IR; [assumption|]. apply Hs; [assumption|]. apply IL; assumption. }
    split; [pose proof (NoDup_incl_length NL Hi); lia|]. intros Hle q Hq Hrq.
    apply IL; [assumption|]. apply (NoDup_length_incl (l' := for_set r) NL); [lia|exact Hi|]. apply IR; assumption.
  Qed.

  Lemma compare_ok fuel l r L R : srep l L -> srep r R -> counted (enc l) -> counted (enc r) ->
    (forall b, set_le fuel l r = Ok b -> (b = true <-> subset U L R)) /\
    (forall b, set_lt fuel l r = Ok b -> (b = true <-> subset U L R /\ ~ subset U R L)) /\
    (forall b, set_ge fuel l r = Ok b -> (b = true <-> subset U R L)) /\
    (forall b, set_gt fuel l r = Ok b -> (b = true <-> subset U R L /\ ~ subset U L R)) /\
    (forall b, set_eq fuel l r = Ok b -> (b = true <-> same_set U L R)).
  Proof.
    intros HL HR CL CR.
    assert (SC := subset_count l r L R HL HR CL CR). assert (SC' := subset_count r l R L HR HL CR CL).
    split; [|split; [|split; [|split]]]; intros b E.
    - unfold set_le in E. destruct (set_all_in fuel r (for_set l)) as [c|e| |] eqn:Ec; cbn [bind] in E; try discriminate E.
      injection E as <-. pose proof (all_in_subset fuel l r L R c HL HR Ec) as Hc. destruct c; [|rewrite <- Hc; tauto].
      destruct SC as [A _]; [apply Hc; reflexivity|]. rewrite <- Hc. split; [reflexivity|]. intros _. lia.
    - unfold set_lt in E. destruct (set_all_in fuel r (for_set l)) as [c|e| |] eqn:Ec; cbn [bind] in E; try discriminate E.
      injection E as <-. pose proof (all_in_subset fuel l r L R c HL HR Ec) as Hc. destruct c; [|rewrite <- Hc; intuition congruence].
      assert (Hs : subset U L R) by (apply Hc; reflexivity). destruct (SC Hs) as [A B]. split.
      + intros H. split; [assumption|]. intros Hr. destruct (SC' Hr) as [A' _]. lia.
      + intros [_ N]. destruct (Z_lt_le_dec (s_count l) (s_count r)); [lia|]. destruct N. apply B. assumption.
    - unfold set_ge in E. destruct (set_all_in fuel l (for_set r)) as [c|e| |] eqn:Ec; cbn [bind] in E; try discriminate E.
      injection E as <-. pose proof (all_in_subset fuel r l R L c HR HL Ec) as Hc. destruct c; [|rewrite <- Hc; tauto].
      destruct SC' as [A _]; [apply Hc; reflexivity|]. rewrite <- Hc. split; [reflexivity|]. intros _. lia.
    - unfold set_gt in E. destruct (set_all_in fuel l (for_set r)) as [c|e| |] eqn:Ec; cbn [bind] in E; try discriminate E.
      injection E as <-. pose proof (all_in_subset fuel r l R L c HR HL Ec) as Hc. destruct c; [|rewrite <- Hc; intuition congruence].
      assert (Hs : subset U R L) by (apply Hc; reflexivity). destruct (SC' Hs) as [A B]. split.
      + intros H. split; [assumption|]. intros Hr. destruct (SC Hr) as [A' _]. lia.
      + intros [_ N]. destruct (Z_lt_le_dec (s_count r) (s_count l)); [lia|]. destruct N. apply B. assumption.
    - assert (HS : same_set U L R <-> subset U L R /\ subset U R L).
      { unfold same_set, subset. split.
        - intros H. split; intros q Hq; rewrite (H q Hq); auto.
        - intros [H1 H2] q Hq. specialize (H1 q Hq). specialize (H2 q Hq). destruct (L q), (R q); try reflexivity.
          + symmetry. auto. + apply H2; reflexivity. }
      unfold set_eq in E. destruct (Z.eqb_spec (s_count l) (s_count r)) as [Eq|Nq]; cbn [negb] in E.
      + rewrite (all_in_subset fuel l r L R b HL HR E), HS. split; [|tauto]. intros H. split; [assumption|]. apply SC; [assumption|lia].
      + injection E as <-. split; [discriminate|]. intros H. apply HS in H. destruct H as [H1 H2]. destruct (SC H1), (SC' H2). lia.
  Qed.

  (** ** Totality of insertion-only sets *)
  Definition stot (s : yset) : Prop := exists k, TInv (enc s) k.

  Lemma adds_set_only l : Forall U l -> Forall set_only (map tr (map SAdd l)).
  Proof. intros H. induction H; cbn; constructor; [|assumption]. split; [apply U_good; assumption|split; discriminate]. Qed.

  Lemma adds_total fuel l s : FUEL_BOUND <= Z.of_nat fuel -> Forall U l -> sgood s -> stot s ->
    live_count (enc s) + Z.of_nat (length l) <= 2 ^ 29 ->
    exists t, run_set fuel (map SAdd l) s = Ok t /\ stot t /\ live_count (enc t) <= live_count (enc s) + Z.of_nat (length l).
  Proof.
    intros Hf HF G (k & I) Hl.
    destruct (run_total fuel (map tr (map SAdd l)) Hf (enc s) k I (adds_set_only l HF)) as (t' & k' & E & I' & L').
    { rewrite !map_length. exact Hl. }
    destruct (enc_run fuel (map SAdd l) s G (adds_in l HF)) as [A _]. rewrite E in A.
    destruct (run_set fuel (map SAdd l) s) as [t|e| |]; cbn [omap] in A; try discriminate A. injection A as <-.
    exists t. split; [reflexivity|]. rewrite !map_length in L'. split; [exists k'; assumption|assumption].
  Qed.

  Lemma new_total : exists s, set_new = Ok s /\ sgood s /\ stot s /\ live_count (enc s) = 0.
  Proof.
    destruct new_TInv as (t0 & E0 & I0 & L0 & _). destruct (enc_new SET_BASESIZE) as [N1 N2].
    unfold table_new in E0. change TABLE_BASESIZE with SET_BASESIZE in E0. rewrite E0 in N1. unfold set_new.
    destruct (set_new_sized SET_BASESIZE) as [s|e| |]; cbn [omap] in N1; try discriminate N1. injection N1 as <-.
    exists s. split; [reflexivity|]. split; [apply N2; reflexivity|]. split; [exists 0; assumption|assumption].
  Qed.

  Lemma new_adds_total fuel l : FUEL_BOUND <= Z.of_nat fuel -> Forall U l -> Z.of_nat (length l) <= 2 ^ 29 ->
    exists t, run_new_set fuel (map SAdd l) = Ok t /\ stot t.
  Proof.
    intros Hf HF Hl. destruct new_total as (s & E & G & T & L). destruct (adds_total fuel l s Hf HF G T) as (t & Et & Tt & _); [lia|].
    exists t. split; [|assumption]. unfold run_new_set. rewrite E. exact Et.
  Qed.

  Lemma search_tot fuel s q : FUEL_BOUND <= Z.of_nat fuel -> sgood s -> stot s -> U q -> exists b, set_search fuel s q = Ok b.
  Proof.
    intros Hf G (k & I) Hq. pose proof (enc_search fuel s q G Hq) as E.
    destruct (search_total fuel (enc s) q (ti_wf _ _ I) (U_good _ Hq)) as (r & Er).
    - pose proof (wf_lim _ (ti_wf _ _ I)). unfold FUEL_BOUND, ALLOC_LIMIT in *. lia.
    - left. exact (TInv_empty _ _ I).
    - rewrite Er in E. destruct (set_search fuel s q) as [b|e| |]; try discriminate E. exists b. reflexivity.
  Qed.

  Lemma all_in_tot fuel r : FUEL_BOUND <= Z.of_nat fuel -> sgood r -> stot r -> forall l, Forall U l -> exists b, set_all_in fuel r l = Ok b.
  Proof.
    intros Hf G T. induction l as [|v l IH]; intros HF; cbn [set_all_in]; [eauto|]. inversion HF as [|? ? Hv HF']; subst.
    destruct (search_tot fuel r v Hf G T Hv) as (b & ->). cbn [bind]. destruct b; [apply IH; assumption|eauto].
  Qed.

  Lemma select_tot fuel keep r : FUEL_BOUND <= Z.of_nat fuel -> sgood r -> stot r -> forall l s, Forall U l -> sgood s -> stot s ->
    live_count (enc s) + Z.of_nat (length l) <= 2 ^ 29 ->
    exists t, set_select fuel keep r l s = Ok t /\ sgood t /\ stot t /\ live_count (enc t) <= live_count (enc s) + Z.of_nat (length l).
  Proof.
    intros Hf Gr Tr. induction l as [|v l IH]; intros s HF G T Hl; cbn [set_select length] in *.
    - exists s. split; [reflexivity|]. split; [assumption|]. split; [assumption|lia].
    - inversion HF as [|? ? Hv HF']; subst. destruct (search_tot fuel r v Hf Gr Tr Hv) as (b & ->). cbn [bind].
      destruct (Bool.eqb b keep).
      + destruct (adds_total fuel [v] s Hf ltac:(constructor; [assumption|constructor]) G T) as (t1 & E1 & T1 & L1); [cbn [length]; lia|].
        cbn [map run_set] in E1. unfold set_add in E1. destruct (enc_insert fuel s v G Hv) as [_ B].
        destruct (set_insert fuel s v) as [[ok s1]|e| |]; cbn [bind] in E1; try discriminate E1.
        destruct (B ok s1 eq_refl) as [-> G1]. cbn [bind] in E1. injection E1 as <-. cbn [omap snd bind].
        cbn [length] in L1. destruct (IH s1 HF' G1 T1) as (t & E & Gt & Tt & Lt); [lia|].
        exists t. split; [exact E|]. split; [assumption|]. split; [assumption|lia].
      + cbn [bind]. destruct (IH s HF' G T) as (t & E & Gt & Tt & Lt); [lia|].
        exists t. split; [exact E|]. split; [assumption|]. split; [assumption|lia].
  Qed.

  Lemma ops_total fuel l r L R : FUEL_BOUND <= Z.of_nat fuel -> srep l L -> srep r R -> stot l -> stot r ->
    Z.of_nat (length (for_set l)) + Z.of_nat (length (for_set r)) <= 2 ^ 29 ->
    (exists t, set_union fuel l r = Ok t /\ stot t) /\ (exists t, set_intersection fuel l r = Ok t /\ stot t) /\
    (exists t, set_difference fuel l r = Ok t /\ stot t) /\ (exists t, set_symmetric_difference fuel l r = Ok t /\ stot t) /\
    (exists b, set_le fuel l r = Ok b) /\ (exists b, set_lt fuel l r = Ok b) /\ (exists b, set_ge fuel l r = Ok b) /\
    (exists b, set_gt fuel l r = Ok b) /\ (exists b, set_eq fuel l r = Ok b).
  Proof.
    intros Hf HL HR TL TR Hlen. destruct (srep_listing l L HL) as (_ & _ & FL). destruct (srep_listing r R HR) as (_ & _ & FR).
    pose proof (sr_good _ _ HL) as GL. pose proof (sr_good _ _ HR) as GR.
    destruct new_total as (s0 & E0 & G0 & T0 & L0).
    unfold set_union, set_intersection, set_difference, set_symmetric_difference, set_le, set_lt, set_ge, set_gt, set_eq.
    rewrite E0. cbn [bind].
    destruct (all_in_tot fuel r Hf GR TR _ FL) as (c & Ec). destruct (all_in_tot fuel l Hf GL TL _ FR) as (d & Ed). rewrite Ec, Ed.
    split; [|split; [|split; [|split; [|split; [eexists; reflexivity|split; [eexists; reflexivity|split; [eexists; reflexivity|split; [eexists; reflexivity|]]]]]]]].
    - rewrite insert_all_run by assumption. destruct (adds_total fuel (for_set l) s0 Hf FL G0 T0) as (t & E & T & LL); [lia|]. rewrite E. cbn [bind].
      destruct (enc_run fuel _ s0 G0 (adds_in _ FL)) as [_ G]. specialize (G t E).
      rewrite insert_all_run by assumption. destruct (adds_total fuel (for_set r) t Hf FR G T) as (t2 & E2 & T2 & _); [lia|]. eauto.
    - destruct (select_tot fuel true r Hf GR TR (for_set l) s0 FL G0 T0) as (t & E & _ & T & _); [lia|]. eauto.
    - destruct (select_tot fuel false r Hf GR TR (for_set l) s0 FL G0 T0) as (t & E & _ & T & _); [lia|]. eauto.
    - destruct (select_tot fuel false r Hf GR TR (for_set l) s0 FL G0 T0) as (t & E & G & T & LL); [lia|]. rewrite E. cbn [bind].
      destruct (select_tot fuel false l Hf GL TL (for_set r) t FR G T) as (t2 & E2 & _ & T2 & _); [lia|]. eauto.
    - destruct (negb (s_count l =? s_count r)); eauto.
  Qed.
End Enc.
