From Coq Require Import Permutation.
From Verif Require Import Base Bytes Value ValueProofs Hash Table TableSpec ListFacts TableProofs TableProofs2 TableProofs3 TableProofs4.
From Verif Require Import Lists ListSpec ListProofs Api ApiSpec ApiProofs.
From Verif Require Import Ops Text VM CallSpec CallProofs Names Heap HeapSpec HeapProofs HeapProofs2.
Local Open Scope list_scope.
Local Open Scope Z_scope.

Lemma m_undef : In (MT_UNDEF, undef_names) metas. Proof. cbn. tauto. Qed.
Lemma m_float : In (MT_FLOAT, float_names) metas. Proof. cbn. tauto. Qed.
Lemma m_int : In (MT_INT, int_names) metas. Proof. cbn. tauto. Qed.
Lemma m_bool : In (MT_BOOL, bool_names) metas. Proof. cbn. tauto. Qed.
Lemma m_str : In (MT_STR, str_names) metas. Proof. cbn. tauto. Qed.
Lemma m_lists : In (MT_LIST, list_names) metas. Proof. cbn. tauto. Qed.
Lemma m_tables : In (MT_TABLE, table_names) metas. Proof. cbn. tauto. Qed.
#[export] Hint Resolve m_undef m_float m_int m_bool m_str m_lists m_tables : metas.

Section Fuel.
Variable fuel : nat.
Hypothesis HF : FUEL_BOUND <= Z.of_nat fuel.
Variable w : world.
Variable P : prog.

Lemma search_name h mt names x : meta_ok h -> In (mt, names) metas -> search fuel h mt (VStr x) = Ok (option_map VCfn (meth_id (mt * 100) names x)).
Proof. intros M HI. apply (meta_search fuel HF h mt names (VStr x) M HI). reflexivity. Qed.
Lemma method_name h v mt names x : meta_ok h -> In (mt, names) metas -> metatable h v = Ok (Some mt) -> method fuel h v x = Ok (option_map VCfn (meth_id (mt * 100) names x)).
Proof. intros M HI E. unfold method. rewrite E. cbn [bind]. apply search_name; assumption. Qed.
Lemma mt_list h m p xs : shows h m -> m_list m p = Some xs -> metatable h (VList p) = Ok (Some MT_LIST).
Proof. intros Sh E. destruct (sh_list _ _ Sh _ _ E) as (_ & B & _). cbn. rewrite B. reflexivity. Qed.
Lemma mt_tab h m p kv : shows h m -> m_tab m p = Some kv -> metatable h (VTable p) = Ok (Some MT_TABLE).
Proof. intros Sh E. destruct (sh_tab _ _ Sh _ _ E) as (B & _). cbn. rewrite B. reflexivity. Qed.

Lemma one_val m (x : said value) : omap_said (deliver 1) (omap_said (fun v => (m, [v])) x) = omap_said (fun v => (m, [v])) x.
Proof. destruct x; reflexivity. Qed.
Lemma one_new (x : said (mem * value)) : omap_said (deliver 1) (omap_said (fun p => (fst p, [snd p])) x) = omap_said (fun p => (fst p, [snd p])) x.
Proof. destruct x as [[m v]| |]; reflexivity. Qed.

Lemma spec_asked names k : (if keyable k && negb (names_method names k) || never_key k then Raises EValue else Unsaid) = @Unsaid value \/ keyable k && negb (names_method names k) || never_key k = true.
Proof. destruct (keyable k && negb (names_method names k) || never_key k); auto. Qed.
Lemma index_asked_list m p xs k : m_list m p = Some xs -> index_spec m (VList p) k = Unsaid \/ keyable k && negb (names_method list_names k) || never_key k = true.
Proof.
  intros E. destruct (keyable k && negb (names_method list_names k) || never_key k) eqn:K; [auto|]. left. unfold index_spec. rewrite E. destruct k; try (rewrite K; reflexivity). discriminate K.
Qed.
Lemma index_asked_tab m p kv k : m_tab m p = Some kv -> index_spec m (VTable p) k = Unsaid \/ keyable k && negb (names_method table_names k) || never_key k = true.
Proof.
  intros E. destruct (keyable k && negb (names_method table_names k)) eqn:K; [auto|]. destruct (never_key k) eqn:NK; [auto|]. left. unfold index_spec. rewrite E, K, NK. reflexivity.
Qed.

Lemma exec_get_ok s h m k c rest : shows h m -> v_stk s = k :: c :: rest -> roomy s 2 ->
  answers None h (exec_get fuel w P s h) s rest (omap_said (fun v => (m, [v])) (index_spec m c k)).
Proof.
  intros Sh Es Ro. pose proof (sh_meta _ _ Sh) as M. unfold exec_get. rewrite Es.
  assert (SC : forall mt names, In (mt, names) metas -> metatable h c = Ok (Some mt) -> meth_id (mt * 100) names n_get = None ->
    match c with VTable _ => False | _ => True end -> keyable k && negb (names_method names k) || never_key k = true ->
    exists s' h', exec_get fuel w P s h = HStop (Err EValue) s' h' /\ v_out s' = v_out s).
  { intros mt names HI E G NT K. unfold exec_get. rewrite Es, E. cbn [lifth]. rewrite (meta_absent fuel HF h mt names k M HI K). cbn [lifth]. rewrite (search_name h mt names n_get M HI), G. cbn [option_map lifth].
    exists s, h. split; [|reflexivity]. destruct c; try reflexivity. contradiction. }
  unfold exec_get in SC. rewrite Es in SC.
  destruct c; try exact I.
  - unfold index_spec. destruct (spec_asked undef_names k) as [->|K]; [exact I|]. rewrite K. exact (SC _ _ m_undef eq_refl eq_refl I K).
  - unfold index_spec. destruct (spec_asked float_names k) as [->|K]; [exact I|]. rewrite K. exact (SC _ _ m_float eq_refl eq_refl I K).
  - unfold index_spec. destruct (spec_asked int_names k) as [->|K]; [exact I|]. rewrite K. exact (SC _ _ m_int eq_refl eq_refl I K).
  - unfold index_spec. destruct (spec_asked bool_names k) as [->|K]; [exact I|]. rewrite K. exact (SC _ _ m_bool eq_refl eq_refl I K).
  - clear SC. destruct (m_list m p) as [xs|] eqn:E; [|unfold index_spec; rewrite E; exact I]. destruct (index_asked_list m p xs k E) as [->|K]; [exact I|].
    rewrite (mt_list _ _ _ _ Sh E). cbn [lifth]. rewrite (meta_absent fuel HF h _ _ k M m_lists K). cbn [lifth]. rewrite (search_name h _ _ n_get M m_lists).
    replace (option_map VCfn (meth_id (MT_LIST * 100) list_names n_get)) with (Some (VCfn 606)) by reflexivity. cbn [lifth]. rewrite <- one_val.
    apply (call_method_ok fuel w P None s h 606 (CList LGet) 2 1 [VList p; k] rest); try reflexivity.
    + exact Es.
    + unfold roomy in *. lia.
    + apply (body_lget fuel w _ _ h m p xs k Sh E); [|exact K]. destruct Ro as (R1 & _). rewrite Es in R1. cbn [length] in R1. lia.
  - clear SC. destruct (m_tab m p) as [kv|] eqn:E; [|unfold index_spec; rewrite E; exact I]. destruct (index_asked_tab m p kv k E) as [->|K]; [exact I|].
    rewrite (mt_tab _ _ _ _ Sh E). cbn [lifth]. rewrite (meta_absent fuel HF h _ _ k M m_tables K). cbn [lifth]. rewrite (search_name h _ _ n_get M m_tables).
    replace (option_map VCfn (meth_id (MT_TABLE * 100) table_names n_get)) with (Some (VCfn 806)) by reflexivity. cbn [lifth]. rewrite <- one_val.
    apply (call_method_ok fuel w P None s h 806 (CTable TGet) 2 1 [VTable p; k] rest); try reflexivity.
    + exact Es.
    + unfold roomy in *. lia.
    + apply (body_tget fuel HF w _ _ h m p kv k Sh E K).
Qed.

(** Operators found through the metatable. *)
Lemma operator_ok d s h v mt names x id c n nret args rest y : meta_ok h -> In (mt, names) metas -> metatable h v = Ok (Some mt) -> meth_id (mt * 100) names x = Some id ->
  cfn_of id = Some (c, Z.of_nat n) -> length args = n -> v_stk s = rev args ++ rest -> roomy s 1 ->
  body_answers d h (cbody fuel w (Z.to_nat (1023 - Z.of_nat (length rest) - Z.of_nat n)) (Z.to_nat (999 - Z.of_nat (length (v_frames s)))) h c args) y -> nret <= 1 ->
  answers d h (operator fuel w P s h v x n nret) s rest (omap_said (deliver nret) y).
Proof.
  intros M HI Em Ei Ec La Es Ro B Hn. unfold operator. rewrite push_ok by (destruct Ro; lia). cbn [then_]. rewrite (method_name h v mt names x M HI Em), Ei. cbn [option_map lifth].
  eapply call_method_ok; eassumption.
Qed.
Lemma operator_none s h v mt names x n nret : meta_ok h -> In (mt, names) metas -> metatable h v = Ok (Some mt) -> meth_id (mt * 100) names x = None -> roomy s 1 ->
  operator fuel w P s h v x n nret = HStop (Err EType) s h.
Proof.
  intros M HI Em Ei Ro. unfold operator. rewrite push_ok by (destruct Ro; lia). cbn [then_]. rewrite (method_name h v mt names x M HI Em), Ei. reflexivity.
Qed.
Lemma no_vals (f : mem -> value) (x : said mem) : omap_said (deliver 0) (omap_said (fun m' => (m', [f m'])) x) = omap_said (fun m' => (m', [])) x.
Proof. destruct x; reflexivity. Qed.

Lemma exec_set_ok s h m v k c rest : shows h m -> v_stk s = v :: k :: c :: rest -> roomy s 1 ->
  answers (match c with VTable p => Some p | _ => None end) h (exec_set fuel w P s h) s rest (omap_said (fun m' => (m', [])) (store_spec m c k v)).
Proof.
  intros Sh Es Ro. pose proof (sh_meta _ _ Sh) as M. unfold exec_set. rewrite Es.
  destruct c; try exact I.
  - cbn [store_spec omap_said answers]. rewrite (operator_none _ _ VUndef MT_UNDEF undef_names n_set _ _ M m_undef eq_refl eq_refl Ro). eauto.
  - cbn [store_spec omap_said answers]. rewrite (operator_none _ _ (VFloat f) MT_FLOAT float_names n_set _ _ M m_float eq_refl eq_refl Ro). eauto.
  - cbn [store_spec omap_said answers]. rewrite (operator_none _ _ (VInt i) MT_INT int_names n_set _ _ M m_int eq_refl eq_refl Ro). eauto.
  - cbn [store_spec omap_said answers]. rewrite (operator_none _ _ (VBool b) MT_BOOL bool_names n_set _ _ M m_bool eq_refl eq_refl Ro). eauto.
  - cbn [store_spec omap_said answers]. rewrite (operator_none _ _ (VStr s0) MT_STR str_names n_set _ _ M m_str eq_refl eq_refl Ro). eauto.
  - destruct (m_list m p) as [xs|] eqn:E; [|unfold store_spec; rewrite E; exact I]. rewrite <- (no_vals (fun _ => k)).
    apply (operator_ok None s h (VList p) MT_LIST list_names n_set 607 (CList LSet) 3 0 [VList p; k; v] rest); try reflexivity; try assumption; auto with metas.
    + eapply mt_list; eassumption.
    + eapply body_lset; eassumption.
    + lia.
  - destruct (m_tab m p) as [kv|] eqn:E; [|unfold store_spec; rewrite E; exact I]. rewrite <- (no_vals (fun _ => VTable p)).
    apply (operator_ok (Some p) s h (VTable p) MT_TABLE table_names n_set 807 (CTable TSet) 3 0 [VTable p; k; v] rest); try reflexivity; try assumption; auto with metas.
    + eapply mt_tab; eassumption.
    + eapply body_tset; eassumption.
    + lia.
Qed.

Lemma exec_len_ok s h m c rest : shows h m -> v_stk s = c :: rest -> roomy s 2 ->
  answers None h (exec_len fuel w P s h) s rest (omap_said (fun v => (m, [v])) (length_spec m c)).
Proof.
  intros Sh Es Ro. assert (Ro1 : roomy s 1) by (unfold roomy in *; lia). pose proof (sh_meta _ _ Sh) as M. unfold exec_len. rewrite Es.
  destruct c; try exact I.
  - cbn [length_spec omap_said answers]. rewrite (operator_none _ _ VUndef MT_UNDEF undef_names n_len _ _ M m_undef eq_refl eq_refl Ro1). eauto.
  - cbn [length_spec omap_said answers]. rewrite (operator_none _ _ (VFloat f) MT_FLOAT float_names n_len _ _ M m_float eq_refl eq_refl Ro1). eauto.
  - cbn [length_spec omap_said answers]. rewrite (operator_none _ _ (VInt i) MT_INT int_names n_len _ _ M m_int eq_refl eq_refl Ro1). eauto.
  - cbn [length_spec omap_said answers]. rewrite (operator_none _ _ (VBool b) MT_BOOL bool_names n_len _ _ M m_bool eq_refl eq_refl Ro1). eauto.
  - destruct (m_list m p) as [xs|] eqn:E; [|unfold length_spec; rewrite E; exact I]. rewrite <- one_val.
    apply (operator_ok None s h (VList p) MT_LIST list_names n_len 600 (CList LLen) 1 1 [VList p] rest); try reflexivity; try assumption; auto with metas.
    + eapply mt_list; eassumption.
    + destruct (sh_list _ _ Sh _ _ E) as (E1 & _). unfold length_spec. rewrite E. cbn [cbody lbody]. unfold list_at. rewrite E1. cbn [bind]. unfold Heap.pushing.
      assert (Q : exists r, Z.to_nat (1023 - Z.of_nat (length rest) - Z.of_nat 1) = S r) by (apply body_enough; destruct Ro as (R1 & _); rewrite Es in R1; cbn [length] in R1; lia).
      destruct Q as (r & ->). cbn [need1 omap_said body_answers]. exists h, [VList p]. split; [reflexivity|apply became_same, Sh].
  - destruct (m_tab m p) as [kv|] eqn:E; [|unfold length_spec; rewrite E; exact I]. rewrite <- one_val.
    apply (operator_ok None s h (VTable p) MT_TABLE table_names n_len 800 (CTable TLen) 1 1 [VTable p] rest); try reflexivity; try assumption; auto with metas.
    + eapply mt_tab; eassumption.
    + destruct (sh_tab _ _ Sh _ _ E) as (_ & _ & t & E1 & H). unfold length_spec. rewrite E. cbn [cbody tbody]. unfold tab_at. rewrite E1. cbn [bind]. rewrite (holds_length _ _ H). unfold Heap.pushing.
      assert (Q : exists r, Z.to_nat (1023 - Z.of_nat (length rest) - Z.of_nat 1) = S r) by (apply body_enough; destruct Ro as (R1 & _); rewrite Es in R1; cbn [length] in R1; lia).
      destruct Q as (r & ->). cbn [need1 omap_said body_answers]. exists h, [VTable p]. split; [reflexivity|apply became_same, Sh].
Qed.

Lemma exec_add_ok s h m a b rest : shows h m -> v_stk s = b :: a :: rest -> roomy s 2 -> is_container a = true ->
  answers None h (operator fuel w P s h a n_add 2 1) s rest (omap_said (fun p => (fst p, [snd p])) (concat_spec m a b)).
Proof.
  intros Sh Es Ro Ca. assert (Ro1 : roomy s 1) by (unfold roomy in *; lia). pose proof (sh_meta _ _ Sh) as M.
  destruct a; try discriminate Ca; try exact I. destruct (m_list m p) as [xs|] eqn:E; [|unfold concat_spec; rewrite E; destruct b; exact I].
  assert (Q : exists r, Z.to_nat (1023 - Z.of_nat (length rest) - Z.of_nat 2) = S r) by (apply body_enough; destruct Ro as (R1 & _); rewrite Es in R1; cbn [length] in R1; lia). destruct Q as (r & Q).
  rewrite <- one_new. apply (operator_ok None s h (VList p) MT_LIST list_names n_add 603 (CList LAdd) 2 1 [VList p; b] rest); try reflexivity; try assumption; auto with metas.
  - eapply mt_list; eassumption.
  - destruct (sh_list _ _ Sh _ _ E) as (E1 & _). unfold concat_spec. rewrite E. cbn [cbody lbody]. destruct b; try reflexivity. destruct (m_list m p0) as [ys|] eqn:E0; [|exact I].
    destruct (sh_list _ _ Sh _ _ E0) as (E2 & _). unfold list_at. rewrite E1, E2. cbn [bind]. destruct (shows_new_list h m (xs ++ ys) Sh) as (Sh' & Ev).
    pose proof (kept_new_list None h (xs ++ ys)) as KN. destruct (new_list h (xs ++ ys)) as (h', l). cbn [fst snd] in *. subst l. rewrite Q. cbn [need1 Heap.pushing omap_said body_answers fst snd]. exists h', [VList p0; VList p]. split; [reflexivity|exact (conj Sh' KN)].
Qed.
End Fuel.
