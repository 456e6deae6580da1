(** Simulation between the API model (Api.v) and its promise (ApiSpec.v). *)
From Verif Require Import Base Value ValueProofs Hash Table TableSpec ListFacts TableProofs TableProofs2 TableProofs3 TableProofs4.
From Verif Require Import Lists ListSpec ListProofs Api ApiSpec.
From Coq Require Import Permutation.
Local Open Scope Z_scope.

Definition stk (s : api) (st : list value) : Prop :=
  length (a_slots s) = 1024%nat /\ a_sp s + 1 = Z.of_nat (length st) /\ firstn (length st) (a_slots s) = rev st.

Lemma stk_len s st : stk s st -> (length st <= 1024)%nat.
Proof. intros (A & B & C). apply (f_equal (@length _)) in C. rewrite firstn_length, rev_length in C. lia. Qed.

Lemma nth_firstn {A} (l : list A) n i : (i < n)%nat -> nth_error (firstn n l) i = nth_error l i.
Proof. revert n i; induction l as [|x l IH]; intros [|n] [|i] H; try lia; try reflexivity. cbn. apply IH. lia. Qed.
Lemma stk_nth s st i : stk s st -> (i < length st)%nat -> nth_error (a_slots s) i = nth_error (rev st) i.
Proof. intros (A & B & C) H. rewrite <- C. symmetry. apply nth_firstn, H. Qed.
Lemma nth_rev_top {A} (v : A) st : nth_error (rev (v :: st)) (length st) = Some v.
Proof. cbn [rev]. rewrite nth_error_app2 by (rewrite rev_length; lia). rewrite rev_length, Nat.sub_diag. reflexivity. Qed.
Lemma stk_peek s v st : stk s (v :: st) -> a_peek s = Ok v.
Proof.
  intros H. pose proof H as (A & B & C). cbn [length] in B. unfold a_peek, a_slot, nthZ.
  destruct (Z.ltb_spec (a_sp s) 0); [lia|]. replace (Z.to_nat (a_sp s)) with (length st) by lia.
  rewrite (stk_nth s _ _ H) by (cbn; lia). rewrite nth_rev_top. reflexivity.
Qed.
Lemma firstn_rev_tail s v st : stk s (v :: st) -> firstn (length st) (a_slots s) = rev st.
Proof.
  intros (A & B & C). apply (f_equal (firstn (length st))) in C. rewrite firstn_firstn in C. cbn [length] in C.
  replace (Nat.min (length st) (S (length st))) with (length st) in C by lia. rewrite C. cbn [rev].
  rewrite firstn_app, rev_length, Nat.sub_diag. cbn [firstn]. rewrite app_nil_r. rewrite <- (rev_length st) at 1. apply firstn_all.
Qed.
Lemma stk_pop s v st : stk s (v :: st) -> a_pop s = Ok (set_stack s (a_slots s) (a_sp s - 1), v) /\ stk (set_stack s (a_slots s) (a_sp s - 1)) st.
Proof.
  intros H. split.
  - unfold a_pop. rewrite (stk_peek _ _ _ H). reflexivity.
  - pose proof H as (A & B & C). cbn [length] in B. repeat split; cbn [a_slots a_sp set_stack]; try lia. apply (firstn_rev_tail s v st H).
Qed.
Lemma firstn_upd {A} (l : list A) n x : (n < length l)%nat -> firstn (S n) (upd l n x) = firstn n l ++ [x].
Proof. revert n; induction l as [|y l IH]; intros [|n] H; cbn in H; try lia; [reflexivity|]. cbn [upd]. cbn [firstn app]. f_equal. apply IH. lia. Qed.
Lemma stk_push s v st : stk s st -> (length st < 1024)%nat ->
  exists slots, a_push s v = Ok (set_stack s slots (a_sp s + 1)) /\ stk (set_stack s slots (a_sp s + 1)) (v :: st).
Proof.
  intros H L. pose proof H as (A & B & C). unfold a_push, API_STACK_SIZE.
  replace (a_sp s + 1 >=? 1024) with false by (symmetry; apply Z.geb_leb in B || (apply Bool.not_true_iff_false; rewrite Z.geb_le; lia)).
  unfold nthZ. destruct (Z.ltb_spec (a_sp s + 1) 0); [lia|]. destruct (nth_error (a_slots s) (Z.to_nat (a_sp s + 1))) eqn:E.
  - eexists. split; [reflexivity|]. repeat split; cbn [a_slots a_sp set_stack length].
    + rewrite upd_length. exact A.
    + lia.
    + replace (Z.to_nat (a_sp s + 1)) with (length st) by lia. rewrite firstn_upd by lia. rewrite C. reflexivity.
  - apply nth_error_None in E. lia.
Qed.
Lemma stk_push_full s v st : stk s st -> ~ (length st < 1024)%nat -> a_push s v = throw s EStackOverflow.
Proof.
  intros H L. pose proof H as (A & B & C). unfold a_push, API_STACK_SIZE.
  replace (a_sp s + 1 >=? 1024) with true; [reflexivity|]. symmetry. rewrite Z.geb_le. lia.
Qed.

(** Tables that hold a finite map. *)
Record holds (t : table) (m : list (value * value)) : Prop := {
  hd_inv : exists k, TInv t k;
  hd_repr : repr t (fun k => find k m);
  hd_nodup : NoDup (map fst m);
  hd_good : Forall good_key (map fst m);
  hd_cnt : live_count t = Z.of_nat (length m) }.

Lemma find_in k m : find k m <> None <-> In k (map fst m).
Proof.
  induction m as [|[k' v] m IH]; cbn; [tauto|]. destruct (value_eq_dec k k') as [->|N].
  - split; intros; [auto|discriminate].
  - rewrite IH. split; [auto|intros [E|I]; [congruence|exact I]].
Qed.
Lemma find_put q k v m : find q (put k v m) = mset (fun q => find q m) k v q.
Proof.
  unfold mset. induction m as [|[k' v'] m IH]; cbn [put find].
  - destruct (value_eq_dec q k); reflexivity.
  - destruct (value_eq_dec k k') as [->|N]; cbn [find]; destruct (value_eq_dec q k'); try reflexivity.
    + subst q. destruct (value_eq_dec k' k); [congruence|reflexivity].
    + exact IH.
Qed.
Lemma put_keys k v m x : In x (map fst (put k v m)) <-> x = k \/ In x (map fst m).
Proof.
  induction m as [|[k' v'] m IH]; cbn [put].
  - cbn. intuition congruence.
  - destruct (value_eq_dec k k') as [->|N]; cbn [map fst In]; [intuition congruence|]. rewrite IH. intuition congruence.
Qed.
Lemma put_nodup k v m : NoDup (map fst m) -> NoDup (map fst (put k v m)).
Proof.
  induction m as [|[k' v'] m IH]; cbn [put]; intros H.
  - constructor; [intros []|constructor].
  - cbn [map fst] in H. inversion H; subst. destruct (value_eq_dec k k') as [->|N]; cbn [map fst]; constructor; try assumption.
    + rewrite put_keys. intuition congruence.
    + apply IH. assumption.
Qed.
Lemma put_length k v m : (length (put k v m) <= S (length m))%nat.
Proof. induction m as [|[k' v'] m IH]; cbn [put]; [cbn; lia|]. destruct (value_eq_dec k k'); cbn [length]; lia. Qed.

Lemma live_keys t m : WF t -> repr t (fun k => find k m) -> NoDup (map fst m) -> Forall good_key (map fst m) ->
  live_count t = Z.of_nat (length m).
Proof.
  intros W R ND G. unfold live_count. f_equal. rewrite <- for_table_live by exact W.
  rewrite <- (map_length ik), <- (map_length fst m). apply Permutation_length. apply NoDup_Permutation; [apply for_table_keys_nodup, W|exact ND|].
  intros k. destruct (keys_spec t _ W R) as (_ & K). change (map ik (for_table t)) with (table_keys t). split; intros I.
  - apply K in I. apply find_in, I.
  - rewrite Forall_forall in G. apply K. split; [apply G, I|apply find_in, I].
Qed.

Lemma holds_new : exists t, table_new = Ok t /\ holds t [].
Proof.
  destruct new_TInv as (t & E & I & L & R). exists t. split; [exact E|]. constructor.
  - exists 0. exact I.
  - eapply repr_iff; [|exact R]. reflexivity.
  - constructor.
  - constructor.
  - exact L.
Qed.
Lemma holds_insert fuel t m k v : holds t m -> good_key k -> good_val v -> Z.of_nat (length m) < 2 ^ 29 -> FUEL_BOUND <= Z.of_nat fuel ->
  exists t', insert_fast fuel t k v = Ok t' /\ holds t' (put k v m).
Proof.
  intros [(j & I) R N G C] Gk Gv B F. destruct (insert_total fuel t j k v I Gk Gv ltac:(lia) F) as (t' & j' & E & I' & _).
  exists t'. split; [exact E|].
  destruct (insert_fast_ok fuel t k v t' (ti_wf _ _ I) Gk Gv E) as (W' & R' & _).
  assert (RP : repr t' (fun q => find q (put k v m))).
  { eapply repr_iff; [|apply R', R]. intros q _. symmetry. apply find_put. }
  assert (NP : NoDup (map fst (put k v m))) by (apply put_nodup, N).
  assert (GP : Forall good_key (map fst (put k v m))).
  { apply Forall_forall. intros x Ix. apply put_keys in Ix. destruct Ix as [->|Ix]; [exact Gk|]. rewrite Forall_forall in G. apply G, Ix. }
  constructor; try assumption; [exists j'; exact I'|]. apply live_keys; assumption.
Qed.
Lemma holds_search fuel t m k : holds t m -> good_key k -> FUEL_BOUND <= Z.of_nat fuel ->
  table_search fuel t k = Ok (match find k m with Some v => v | None => VEnd end).
Proof.
  intros [(j & I) R N G C] Gk F. pose proof (ti_wf _ _ I) as W.
  destruct (search_total fuel t k W Gk) as (r & E).
  - pose proof (wf_lim t W). unfold ALLOC_LIMIT, FUEL_BOUND in *. lia.
  - left. apply (TInv_empty t j I).
  - rewrite E. f_equal. apply (search_ok fuel t k r _ W R Gk E).
Qed.
Lemma holds_val t m k v : holds t m -> good_key k -> find k m = Some v -> good_val v.
Proof. intros [(j & I) R N G C] Gk E. destruct (spec_val_good t _ k v (ti_wf _ _ I) R Gk E). split; assumption. Qed.
Lemma holds_length t m : holds t m -> table_length t = Z.of_nat (length m).
Proof.
  intros [(j & I) R N G C]. unfold table_length. pose proof (ti_cnt _ _ I) as Cn. unfold counted in Cn. rewrite Cn, C.
  pose proof (count_bound t (ti_wf _ _ I)). pose proof (wf_lim t (ti_wf _ _ I)). unfold ALLOC_LIMIT in *. unfold i64, two64. rewrite Z.mod_small; lia.
Qed.

(** The simulation; [n] bounds the number of keys in any table. *)
Record sim (n : Z) (s : api) (a : host) : Prop := {
  sm_stk : stk s (h_stack a);
  sm_fp : a_fp s + 1 = h_frame a;
  sm_lists : forall p, match h_lists a p with Some xs => exists l, a_lists s p = Some l /\ lrep l xs | None => a_lists s p = None end;
  sm_tables : forall p, match h_tables a p with
    Some m => exists t, a_tables s p = Some t /\ holds t m /\ Z.of_nat (length m) <= n | None => a_tables s p = None end;
  sm_mt : forall p, a_mt s p = h_mt a p;
  sm_gl : holds (a_globals s) (h_globals a);
  sm_gln : Z.of_nat (length (h_globals a)) <= n;
  sm_mts : holds (a_mts s) (h_mts a);
  sm_mtsn : Z.of_nat (length (h_mts a)) <= n;
  sm_decl : forall x, decl_of (a_decl s) x = if h_decl a x then Some false else None;
  sm_next : a_next s = h_next a;
  sm_run : a_run s = h_run a }.

Lemma sim_le n n' s a : n <= n' -> sim n s a -> sim n' s a.
Proof.
  intros L [H1 H2 H3 H4 H5 H6 H7 H8 H9 H10 H11 H12]. constructor; try assumption; try lia.
  intros p. specialize (H4 p). destruct (h_tables a p); [|exact H4]. destruct H4 as (t & A & B & C). exists t. split; [exact A|]. split; [exact B|lia].
Qed.

Lemma sim_stack n s a slots sp st : sim n s a -> stk (set_stack s slots sp) st -> sim n (set_stack s slots sp) (with_stack a st).
Proof. intros [H1 H2 H3 H4 H5 H6 H7 H8 H9 H10 H11 H12] K. constructor; cbn; assumption. Qed.

(** What one promised call does. *)
Definition agrees (n : Z) (x : outcome (api * hres)) (y : hout) : Prop :=
  match y with
  | HOk a' r => exists s', x = Ok (s', r) /\ sim n s' a'
  | HErr e => x = Err e
  | HNot => True
  end.

Lemma agrees_throw n s a e : sim n s a -> agrees n (throw s e) (raise a e).
Proof. intros H. unfold throw, raise. rewrite (sm_run _ _ _ H). destruct (h_run a); [reflexivity|exact I]. Qed.
Lemma bind_throw {A B} s e (f : A -> outcome B) : bind (throw s e) f = throw s e.
Proof. unfold throw. destruct (a_run s); reflexivity. Qed.
Lemma agrees_push n s a v (f : api -> outcome (api * hres)) r :
  sim n s a -> (forall s', f s' = Ok (s', r)) -> agrees n (do s' <- a_push s v; f s') (pushing a v r).
Proof.
  intros H F. unfold pushing. pose proof (sm_stk _ _ _ H) as K. destruct (Z.ltb_spec (Z.of_nat (length (h_stack a))) 1024) as [L|L].
  - destruct (stk_push s v _ K ltac:(lia)) as (sl & E & K'). rewrite E. cbn [bind agrees]. rewrite F. eexists. split; [reflexivity|].
    apply sim_stack; assumption.
  - rewrite (stk_push_full s v _ K ltac:(lia)), bind_throw. apply agrees_throw, H.
Qed.
Lemma sim_pop n s a v st : sim n s a -> h_stack a = v :: st ->
  a_pop s = Ok (set_stack s (a_slots s) (a_sp s - 1), v) /\ sim n (set_stack s (a_slots s) (a_sp s - 1)) (with_stack a st).
Proof.
  intros H E. pose proof (sm_stk _ _ _ H) as K. rewrite E in K. destruct (stk_pop s v st K) as (P & Q). split; [exact P|]. apply sim_stack; assumption.
Qed.
Lemma sim_peek n s a v st : sim n s a -> h_stack a = v :: st -> a_peek s = Ok v.
Proof. intros H E. pose proof (sm_stk _ _ _ H) as K. rewrite E in K. apply (stk_peek _ _ _ K). Qed.
Lemma sim_top n s a v : sim n s a -> top a = Some v -> a_peek s = Ok v.
Proof. intros H E. unfold top in E. destruct (h_stack a) eqn:Es; [discriminate|]. injection E as ->. eapply sim_peek; eassumption. Qed.
Lemma sim_arg n s a i v : sim n s a -> arg a i = Some v -> a_slot s (a_fp s + 1 + i) = Ok v.
Proof.
  intros H E. pose proof (sm_stk _ _ _ H) as K. unfold arg in E. destruct (Z.ltb_spec i 0); [discriminate|].
  destruct (Z.ltb_spec (h_frame a + i) 0); [discriminate|]. unfold a_slot, nthZ. rewrite (sm_fp _ _ _ H).
  destruct (Z.ltb_spec (h_frame a + i) 0); [lia|]. rewrite (stk_nth s _ _ K), E; [reflexivity|].
  assert (L : nth_error (rev (h_stack a)) (Z.to_nat (h_frame a + i)) <> None) by congruence. apply nth_error_Some in L. rewrite rev_length in L. exact L.
Qed.

Lemma plain_push s v : plain v = true -> push_value s v = a_push s v.
Proof. destruct v; try discriminate; reflexivity. Qed.
Lemma good_keyb_ok k : good_keyb k = true -> good_key k.
Proof. destruct k; cbn; try discriminate; try (intros _; exact I). destruct f as [[]| | |]; try discriminate; intros _; split; discriminate. Qed.
Ltac fin := eexists; split; [reflexivity|].
Lemma agrees_read n s a (x : option value) (y : outcome value) (g : value -> outcome (api * hres)) f :
  sim n s a -> (forall v, x = Some v -> y = Ok v) -> (forall v, x = Some v -> g v = Ok (s, f v)) -> agrees n (bind y g) (reading a x f).
Proof.
  intros H X G. unfold reading. destruct x as [v|]; [|exact I]. rewrite (X v eq_refl). cbn [bind]. rewrite (G v eq_refl). fin. exact H.
Qed.

Lemma is_end_good v : good_val v -> is_end v = false.
Proof. intros [A B]. destruct v; try reflexivity. congruence. Qed.

Section Step.
Variables (fuel : nat) (n : Z).
Hypotheses (HF : FUEL_BOUND <= Z.of_nat fuel) (HN : n < 2 ^ 29).

Lemma step_agrees s a o : sim n s a -> agrees (n + 1) (hstep fuel s o) (promise a o).
Proof.
  intros H0. assert (H : sim (n + 1) s a) by (apply (sim_le n); [lia|exact H0]).
  destruct o; cbn [hstep promise].
  - (* push *) destruct (plain v) eqn:P; [|exact I]. rewrite (plain_push s v P). apply agrees_push; [exact H|reflexivity].
  - (* pushlist *) unfold YASL_pushlist. rewrite (sm_next _ _ _ H). apply agrees_push; [|reflexivity].
    destruct H as [H1 H2 H3 H4 H5 H6 H7 H8 H9 H10 H11 H12]. constructor; cbn; try assumption; try lia.
    intros p. unfold at_addr. destruct (p =? h_next a); [|apply H3]. eexists. split; [reflexivity|]. apply new_rep.
  - (* pushtable *) destruct holds_new as (t & E & K). unfold YASL_pushtable. rewrite E. cbn [bind]. rewrite (sm_next _ _ _ H). apply agrees_push; [|reflexivity].
    destruct H as [H1 H2 H3 H4 H5 H6 H7 H8 H9 H10 H11 H12]. constructor; cbn; try assumption; try lia.
    intros p. unfold at_addr. destruct (p =? h_next a); [|apply H4]. exists t. split; [reflexivity|]. split; [exact K|]. cbn. pose proof (Nat2Z.is_nonneg (length (h_globals a))). lia.
  - (* pop *) unfold popping. destruct (h_stack a) as [|v st] eqn:E; [exact I|]. destruct (sim_pop _ _ _ _ _ H E) as (P & Q).
    unfold YASL_pop. rewrite P. cbn [bind agrees]. fin. exact Q.
  - (* dup *) destruct (top a) as [v|] eqn:E; [|exact I]. unfold YASL_duptop. rewrite (sim_top _ _ _ _ H E). cbn [bind ret].
    unfold ret. pose proof (agrees_push (n + 1) s a v (fun s' => Ok (s', RStatus Success)) (RStatus Success) H (fun _ => eq_refl)) as Q.
    destruct (a_push s v); exact Q.
  - (* is *) assert (E : forall f, ret RBool (a_test f s) = do v <- a_peek s; Ok (s, RBool (f v))).
    { intros f. unfold ret, a_test. destruct (a_peek s); reflexivity. }
    replace (ret RBool (match k with KUndef => YASL_isundef | KBool => YASL_isbool | KFloat => YASL_isfloat | KInt => YASL_isint | KStr => YASL_isstr
      | KList => YASL_islist | KTable => YASL_istable end s)) with (do v <- a_peek s; Ok (s, RBool (has_kind k v))).
    + apply (agrees_read _ s); [exact H|intros; eapply sim_top; eassumption|reflexivity].
    + destruct k; symmetry; [change YASL_isundef with (a_test v_isundef)|change YASL_isbool with (a_test v_isbool)|change YASL_isfloat with (a_test v_isfloat)
      |change YASL_isint with (a_test v_isint)|change YASL_isstr with (a_test v_isstr)|change YASL_islist with (a_test v_islist)|change YASL_istable with (a_test v_istable)];
      rewrite E; destruct (a_peek s) as [v| | |]; try reflexivity; destruct v; reflexivity.
  - (* isn *) assert (E : forall f, ret RBool (a_testn f s n0) = do v <- a_slot s (a_fp s + 1 + n0); Ok (s, RBool (f v))).
    { intros f. unfold ret, a_testn. destruct (a_slot s (a_fp s + 1 + n0)); reflexivity. }
    replace (ret RBool (match k with KUndef => YASL_isnundef | KBool => YASL_isnbool | KFloat => YASL_isnfloat | KInt => YASL_isnint | KStr => YASL_isnstr
      | KList => YASL_isnlist | KTable => YASL_isntable end s n0)) with (do v <- a_slot s (a_fp s + 1 + n0); Ok (s, RBool (has_kind k v))).
    + apply (agrees_read _ s); [exact H|intros; eapply sim_arg; eassumption|reflexivity].
    + destruct k; symmetry; [change YASL_isnundef with (a_testn v_isundef)|change YASL_isnbool with (a_testn v_isbool)|change YASL_isnfloat with (a_testn v_isfloat)
      |change YASL_isnint with (a_testn v_isint)|change YASL_isnstr with (a_testn v_isstr)|change YASL_isnlist with (a_testn v_islist)|change YASL_isntable with (a_testn v_istable)];
      rewrite E; destruct (a_slot s (a_fp s + 1 + n0)) as [v| | |]; try reflexivity; destruct v; reflexivity.
  - unfold reading. destruct (top a) as [v|] eqn:E; [|exact I]. pose proof (sim_top _ _ _ _ H E) as P.
    unfold YASL_peekbool, YASL_isbool, a_test, ret. rewrite P. cbn [bind]. destruct v; cbn; rewrite ?P; cbn; fin; exact H.
  - unfold reading. destruct (top a) as [v|] eqn:E; [|exact I]. pose proof (sim_top _ _ _ _ H E) as P.
    unfold YASL_peekfloat, YASL_isfloat, a_test, ret. rewrite P. cbn [bind]. destruct v; cbn; rewrite ?P; cbn; fin; exact H.
  - unfold reading. destruct (top a) as [v|] eqn:E; [|exact I]. pose proof (sim_top _ _ _ _ H E) as P.
    unfold YASL_peekint, YASL_isint, a_test, ret. rewrite P. cbn [bind]. destruct v; cbn; rewrite ?P; cbn; fin; exact H.
  - unfold reading. destruct (arg a n0) as [v|] eqn:E; [|exact I]. pose proof (sim_arg _ _ _ _ _ H E) as P.
    unfold YASL_peeknbool, YASL_isnbool, a_testn, ret. rewrite P. cbn [bind]. destruct v; cbn [v_isbool]; rewrite ?P; cbn; fin; exact H.
  - unfold reading. destruct (arg a n0) as [v|] eqn:E; [|exact I]. pose proof (sim_arg _ _ _ _ _ H E) as P.
    unfold YASL_peeknfloat, YASL_isnfloat, a_testn, ret. rewrite P. cbn [bind]. destruct v; cbn [v_isfloat]; rewrite ?P; cbn; fin; exact H.
  - unfold reading. destruct (arg a n0) as [v|] eqn:E; [|exact I]. pose proof (sim_arg _ _ _ _ _ H E) as P.
    unfold YASL_peeknint, YASL_isnint, a_testn, ret. rewrite P. cbn [bind]. destruct v; cbn [v_isint]; rewrite ?P; cbn; fin; exact H.
  - unfold reading. destruct (top a) as [v|] eqn:E; [|exact I]. pose proof (sim_top _ _ _ _ H E) as P.
    unfold YASL_peekcstr, YASL_isstr, a_test, ret. rewrite P. cbn [bind]. destruct v; cbn; rewrite ?P; cbn; fin; exact H.
  - unfold popping. destruct (h_stack a) as [|v st] eqn:E; [exact I|]. destruct (sim_pop _ _ _ _ _ H E) as (P & Q). pose proof (sim_peek _ _ _ _ _ H E) as R.
    destruct v; try exact I. unfold YASL_popbool, YASL_isbool, a_test, ret. rewrite R. cbn [bind v_isbool]. rewrite P. cbn. fin. exact Q.
  - unfold popping. destruct (h_stack a) as [|v st] eqn:E; [exact I|]. destruct (sim_pop _ _ _ _ _ H E) as (P & Q). pose proof (sim_peek _ _ _ _ _ H E) as R.
    destruct v; try exact I. unfold YASL_popfloat, YASL_isfloat, a_test, ret. rewrite R. cbn [bind v_isfloat]. rewrite P. cbn. fin. exact Q.
  - unfold popping. destruct (h_stack a) as [|v st] eqn:E; [exact I|]. destruct (sim_pop _ _ _ _ _ H E) as (P & Q). pose proof (sim_peek _ _ _ _ _ H E) as R.
    destruct v; try exact I. unfold YASL_popint, YASL_isint, a_test, ret. rewrite R. cbn [bind v_isint]. rewrite P. cbn. fin. exact Q.
  - unfold popping. destruct (h_stack a) as [|v st] eqn:E; [exact I|]. destruct (sim_pop _ _ _ _ _ H E) as (P & Q). pose proof (sim_peek _ _ _ _ _ H E) as R.
    unfold YASL_popcstr, YASL_peekcstr, YASL_isstr, a_test, ret, YASL_pop. rewrite R. cbn [bind]. destruct v; cbn [v_isstr]; rewrite ?R; cbn [bind]; rewrite P; cbn; fin; exact Q.
  - (* listpush *) destruct (h_stack a) as [|v [|w st]] eqn:E; [exact I| |].
    + exact I.
    + destruct (sim_pop _ _ _ _ _ H E) as (P & Q). unfold YASL_listpush, ret. rewrite P. cbn [bind].
      rewrite (sim_peek _ _ (with_stack a (w :: st)) w st Q eq_refl). cbn [bind].
      destruct w; try (fin; exact Q). unfold list_at. cbn [set_stack a_lists].
      pose proof (sm_lists _ _ _ H p) as L. destruct (h_lists a p) as [xs|]; [|exact I]. destruct L as (l & El & Rl). rewrite El. cbn [bind].
      destruct (append_rep l xs v Rl) as (l' & El' & Rl'). rewrite El'. cbn [bind]. fin.
      destruct Q as [H1 H2 H3 H4 H5 H6 H7 H8 H9 H10 H11 H12]. constructor; cbn in *; try assumption.
      intros q. unfold at_addr. destruct (q =? p); [|apply H3]. exists l'. auto.
  - (* listget *) destruct (h_stack a) as [|v st] eqn:E; [exact I|]. unfold YASL_listget, ret. rewrite (sim_peek _ _ _ _ _ H E). cbn [bind].
    destruct v; try (fin; exact H). unfold list_at.
    pose proof (sm_lists _ _ _ H p) as L. destruct (h_lists a p) as [xs|]; [|exact I]. destruct L as (l & El & Rl). rewrite El. cbn [bind].
    rewrite (get_rep l xs n0 Rl). destruct (position (length xs) n0) as [i|].
    + cbn [throwing bind].
      pose proof (agrees_push (n + 1) s a (nth i xs VUndef) (fun s' => Ok (s', RStatus Success)) (RStatus Success) H (fun _ => eq_refl)) as Q.
      destruct (a_push s (nth i xs VUndef)); exact Q.
    + cbn [throwing]. rewrite bind_throw, bind_throw. apply agrees_throw, H.
  - (* tableset *) destruct (h_stack a) as [|v [|k [|w st]]] eqn:E; try exact I.
    destruct (sim_pop _ _ _ _ _ H E) as (P & Q). destruct (sim_pop _ _ _ _ _ Q eq_refl) as (P2 & Q2).
    unfold YASL_tableset, ret. rewrite P. cbn [bind]. rewrite P2. cbn [bind].
    rewrite (sim_peek _ _ (with_stack (with_stack a (k :: w :: st)) (w :: st)) w st Q2 eq_refl). cbn [bind].
    destruct w; try (fin; exact Q2). unfold table_at. cbn [set_stack a_tables].
    pose proof (sm_tables _ _ _ H0 p) as L. destruct (h_tables a p) as [m|]; [|exact I]. destruct L as (t & Et & Rt & Bt). rewrite Et. cbn [bind].
    destruct (good_keyb k) eqn:Gk.
    + apply good_keyb_ok in Gk. unfold table_insert. rewrite (good_hashable k Gk).
      assert (D : good_val v \/ v = VUndef \/ v = VEnd) by (destruct v; auto; left; split; discriminate).
      destruct D as [D|[->| ->]]; [|exact I|exact I].
      destruct (holds_insert fuel t m k v Rt Gk D ltac:(lia) HF) as (t' & Ei & Rt'). rewrite Ei. cbn [omap bind].
      assert (Z : sim (n + 1) (set_tables (set_stack (set_stack s (a_slots s) (a_sp s - 1)) (a_slots (set_stack s (a_slots s) (a_sp s - 1)))
          (a_sp (set_stack s (a_slots s) (a_sp s - 1)) - 1)) (at_addr (a_tables s) p t')) (with_table (with_stack a (VTable p :: st)) p (put k v m))).
      { destruct Q2 as [H1 H2 H3 H4 H5 H6 H7 H8 H9 H10 H11 H12]. constructor; cbn in *; try assumption.
        intros q. unfold at_addr. destruct (q =? p); [|apply H4]. exists t'. split; [reflexivity|]. split; [exact Rt'|]. pose proof (put_length k v m). lia. }
      destruct v; try exact I; (fin; exact Z).
    + destruct k; try discriminate Gk; try exact I; (unfold table_insert; cbn [is_hashable bind]; fin; exact Q2).
  - (* len *) destruct (h_stack a) as [|v st] eqn:E; [exact I|]. destruct (sim_pop _ _ _ _ _ H E) as (P & Q).
    unfold YASL_len. rewrite P. cbn [bind].
    assert (LS : (length st < 1024)%nat) by (pose proof (stk_len _ _ (sm_stk _ _ _ H)) as L; rewrite E in L; cbn in L; lia).
    assert (PU : forall w, exists s', a_push (set_stack s (a_slots s) (a_sp s - 1)) w = Ok s' /\ sim (n + 1) s' (with_stack a (w :: st))).
    { intros w. destruct (stk_push _ w _ (sm_stk _ _ _ Q) LS) as (sl & Es & Ks). eexists. split; [exact Es|]. apply (sim_stack (n + 1) _ (with_stack a st) _ _ _ Q Ks). }
    destruct v; try (unfold throw; cbn [set_stack a_run]; rewrite bind_throw; apply agrees_throw, H).
    all: try (change (throw (set_stack s (a_slots s) (a_sp s - 1)) EType) with (@throw api s EType); rewrite bind_throw; apply agrees_throw, H).
    + destruct (PU (VInt (Z.of_nat (length s0)))) as (s' & Es & Ss). rewrite Es. cbn [bind]. fin. exact Ss.
    + unfold list_at. pose proof (sm_lists _ _ _ H p) as L. destruct (h_lists a p) as [xs|]; [|exact I]. destruct L as (l & El & Rl). rewrite El. cbn [bind].
      destruct (len_room a p); [|exact I]. destruct Rl as (Cl & _). unfold list_length. rewrite Cl.
      destruct (PU (VInt (Z.of_nat (length xs)))) as (s' & Es & Ss). rewrite Es. cbn [bind]. fin. exact Ss.
    + unfold table_at. pose proof (sm_tables _ _ _ H p) as L. destruct (h_tables a p) as [m|]; [|exact I]. destruct L as (t & Et & Rt & _). rewrite Et. cbn [bind].
      destruct (len_room a p); [|exact I]. rewrite (holds_length t m Rt).
      destruct (PU (VInt (Z.of_nat (length m)))) as (s' & Es & Ss). rewrite Es. cbn [bind]. fin. exact Ss.
  - (* decl *) unfold YASL_declglobal, ret. cbn [bind]. fin.
    destruct H as [H1 H2 H3 H4 H5 H6 H7 H8 H9 H10 H11 H12]. constructor; cbn; try assumption.
    intros y. unfold aname_eqb. destruct (list_eq_dec Z.eq_dec x y), (list_eq_dec Z.eq_dec y x); try congruence; apply H10.
  - (* setglobal *) unfold YASL_setglobal, ret. rewrite (sm_decl _ _ _ H). destruct (h_decl a x); [|cbn [bind]; fin; exact H].
    destruct (h_stack a) as [|v st] eqn:E; [exact I|]. rewrite (sim_peek _ _ _ _ _ H E). cbn [bind].
    assert (D : good_val v \/ v = VUndef \/ v = VEnd) by (destruct v; auto; left; split; discriminate).
    destruct D as [D|[->| ->]]; [|exact I|exact I].
    destruct (holds_insert fuel (a_globals s) (h_globals a) (VStr x) v (sm_gl _ _ _ H0)) as (t' & Ei & Rt'); [exact I|exact D|pose proof (sm_gln _ _ _ H0); lia|exact HF|].
    rewrite Ei. cbn [bind]. unfold YASL_pop.
    assert (S1 : sim (n + 1) (set_globals s t') (with_globals a (put (VStr x) v (h_globals a)))).
    { pose proof (sm_gln _ _ _ H0) as Bn. destruct H as [H1 H2 H3 H4 H5 H6 H7 H8 H9 H10 H11 H12]. constructor; cbn; try assumption.
      pose proof (put_length (VStr x) v (h_globals a)). lia. }
    destruct (sim_pop _ _ (with_globals a (put (VStr x) v (h_globals a))) v st S1 E) as (P & Q). rewrite P. cbn [bind].
    destruct v; try exact I; (fin; exact Q).
  - (* loadglobal *) unfold YASL_loadglobal, ret. rewrite (holds_search fuel _ _ (VStr x) (sm_gl _ _ _ H) I HF). cbn [bind].
    destruct (find (VStr x) (h_globals a)) as [v|] eqn:Ev.
    + rewrite (is_end_good v (holds_val _ _ (VStr x) v (sm_gl _ _ _ H) I Ev)).
      pose proof (agrees_push (n + 1) s a v (fun s' => Ok (s', RStatus Success)) (RStatus Success) H (fun _ => eq_refl)) as Q.
      destruct (a_push s v); exact Q.
    + cbn [is_end bind]. fin. exact H.
  - (* registermt *) unfold YASL_registermt, ret.
    destruct (h_stack a) as [|v st] eqn:E; [exact I|]. rewrite (sim_peek _ _ _ _ _ H E). cbn [bind].
    assert (D : good_val v \/ v = VUndef \/ v = VEnd) by (destruct v; auto; left; split; discriminate).
    destruct D as [D|[->| ->]]; [|exact I|exact I].
    destruct (holds_insert fuel (a_mts s) (h_mts a) (VStr x) v (sm_mts _ _ _ H0)) as (t' & Ei & Rt'); [exact I|exact D|pose proof (sm_mtsn _ _ _ H0); lia|exact HF|].
    rewrite Ei. cbn [bind]. unfold YASL_pop.
    assert (S1 : sim (n + 1) (set_mts s t') (with_mts a (put (VStr x) v (h_mts a)))).
    { pose proof (sm_mtsn _ _ _ H0) as Bn. destruct H as [H1 H2 H3 H4 H5 H6 H7 H8 H9 H10 H11 H12]. constructor; cbn; try assumption.
      pose proof (put_length (VStr x) v (h_mts a)). lia. }
    destruct (sim_pop _ _ (with_mts a (put (VStr x) v (h_mts a))) v st S1 E) as (P & Q). rewrite P. cbn [bind].
    destruct v; try exact I; (fin; exact Q).
  - (* loadmt *) unfold YASL_loadmt, ret. rewrite (holds_search fuel _ _ (VStr x) (sm_mts _ _ _ H) I HF). cbn [bind].
    destruct (find (VStr x) (h_mts a)) as [v|] eqn:Ev.
    + rewrite (is_end_good v (holds_val _ _ (VStr x) v (sm_mts _ _ _ H) I Ev)).
      pose proof (agrees_push (n + 1) s a v (fun s' => Ok (s', RStatus Success)) (RStatus Success) H (fun _ => eq_refl)) as Q.
      destruct (a_push s v); exact Q.
    + cbn [is_end bind]. fin. exact H.
  - (* setmt *) unfold YASL_setmt, ret. destruct (h_stack a) as [|v st] eqn:E; [exact I|].
    rewrite (sim_peek _ _ _ _ _ H E). cbn [bind].
    destruct v; cbn [v_istable v_isundef negb andb]; try exact I; try (cbn [bind]; fin; exact H).
    destruct st as [|w st]; [exact I|]. destruct (sim_pop _ _ _ _ _ H E) as (P & Q). rewrite P. cbn [bind].
    rewrite (sim_peek _ _ (with_stack a (w :: st)) w st Q eq_refl). cbn [bind].
    assert (S1 : forall q, sim (n + 1) (set_mt (set_stack s (a_slots s) (a_sp s - 1)) (fun x => if x =? q then Some p else a_mt s x)) (with_mt (with_stack a (w :: st)) q p)).
    { intros q. destruct Q as [H1 H2 H3 H4 H5 H6 H7 H8 H9 H10 H11 H12]. constructor; cbn in *; try assumption.
      intros x. unfold at_addr. destruct (x =? q); [reflexivity|apply H5]. }
    destruct w; try (fin; exact Q); (fin; apply S1).
  - (* frame *) destruct ((0 <=? n0) && (n0 <=? Z.of_nat (length (h_stack a)))) eqn:C; [|exact I]. fin.
    destruct H as [H1 H2 H3 H4 H5 H6 H7 H8 H9 H10 H11 H12]. constructor; cbn; try assumption. destruct H1 as (_ & B & _). lia.
Qed.
End Step.

Lemma runs_agree fuel : FUEL_BOUND <= Z.of_nat fuel -> forall ops n s a, n + Z.of_nat (length ops) <= 2 ^ 29 -> sim n s a ->
  match promises a ops with
  | HsOk a' rs => exists s' n', hruns fuel s ops = Ok (s', rs) /\ sim n' s' a'
  | HsErr e => hruns fuel s ops = Err e
  | HsNot => True
  end.
Proof.
  intros HF. induction ops as [|o ops IH]; intros n s a B H; cbn [promises hruns].
  - exists s, n. auto.
  - cbn [length] in B. pose proof (step_agrees fuel n HF ltac:(lia) s a o H) as K. destruct (promise a o) as [a' r|e|]; [| |exact I].
    + destruct K as (s' & E & S'). rewrite E. cbn [bind]. specialize (IH (n + 1) s' a' ltac:(lia) S').
      destruct (promises a' ops) as [a'' rs|e|]; [| |exact I].
      * destruct IH as (s'' & n'' & E' & S''). rewrite E'. cbn [bind]. eauto.
      * rewrite IH. reflexivity.
    + cbn [agrees] in K. rewrite K. reflexivity.
Qed.
Lemma holds_shows fuel t m : FUEL_BOUND <= Z.of_nat fuel -> holds t m -> table_shows fuel t m.
Proof. intros F H. split; [apply holds_length, H|]. intros k G. apply holds_search; assumption. Qed.
Lemma sim_shows fuel n s a : FUEL_BOUND <= Z.of_nat fuel -> sim n s a -> shows fuel s a.
Proof.
  intros F H. pose proof (sm_stk _ _ _ H) as K. repeat split.
  - apply K.
  - destruct K as (A & _). rewrite A. apply (stk_len s). apply (sm_stk _ _ _ H).
  - intros i L. apply stk_nth; assumption.
  - apply (sm_fp _ _ _ H).
  - intros p xs E. pose proof (sm_lists _ _ _ H p) as L. rewrite E in L. destruct L as (l & A & B). exists l. split; [exact A|apply elements_rep, B].
  - intros p m E. pose proof (sm_tables _ _ _ H p) as L. rewrite E in L. destruct L as (t & A & B & _). exists t. split; [exact A|apply holds_shows; assumption].
  - apply (sm_mt _ _ _ H).
  - apply (holds_shows fuel _ _ F (sm_gl _ _ _ H)).
  - apply (holds_shows fuel _ _ F (sm_gl _ _ _ H)).
  - apply (holds_shows fuel _ _ F (sm_mts _ _ _ H)).
  - apply (holds_shows fuel _ _ F (sm_mts _ _ _ H)).
Qed.
Lemma sim_new run : exists s, api_new run = Ok s /\ sim 0 s (host_new run).
Proof.
  destruct holds_new as (t & E & K). unfold api_new. rewrite E. cbn [bind]. eexists. split; [reflexivity|].
  constructor; cbn; try lia; try reflexivity; try assumption.
  - repeat split; cbn [a_slots a_sp length rev firstn]; try reflexivity.
Qed.

(** Iterating with YASL_tablenext. *)
Lemma next_loop_all fuel p t st : forall steps s key l, stk s (key :: VTable p :: st) -> (length st + 3 <= 1024)%nat ->
  a_tables s p = Some t -> next_all fuel steps t key = Ok l ->
  exists slots sp, next_loop fuel steps s = Ok (set_stack s slots sp, l) /\ stk (set_stack s slots sp) (VTable p :: st).
Proof.
  induction steps as [|steps IH]; intros s key l K L T E; [discriminate E|].
  cbn [next_all] in E. cbn [next_loop]. unfold YASL_tablenext.
  destruct (stk_pop s key _ K) as (P & Q). rewrite P. cbn [bind]. rewrite (stk_peek _ _ _ Q). cbn [bind]. unfold table_at. cbn [set_stack a_tables]. rewrite T. cbn [bind].
  destruct (table_next fuel t key) as [[[k' v']|]|e| |]; cbn [bind] in E; try discriminate E.
  - cbn [bind]. destruct (next_all fuel steps t k') as [l'|e| |] eqn:E'; cbn [bind] in E; try discriminate E. injection E as <-.
    destruct (stk_push _ k' _ Q ltac:(cbn; lia)) as (sl1 & P1 & K1). rewrite P1. cbn [bind].
    destruct (stk_push _ v' _ K1 ltac:(cbn; lia)) as (sl2 & P2 & K2). rewrite P2. cbn [bind].
    destruct (stk_pop _ _ _ K2) as (P3 & K3). rewrite P3. cbn [bind]. rewrite (stk_peek _ _ _ K3). cbn [bind].
    destruct (IH _ k' l' K3 L T E') as (sl & sp & E2 & K4). rewrite E2. cbn [bind]. eexists _, _. split; [reflexivity|exact K4].
  - injection E as <-. cbn [bind]. eexists _, _. split; [reflexivity|exact Q].
Qed.
Lemma kv_perm t m : holds t m -> Permutation (map kv (for_table t)) m.
Proof.
  intros [(j & I) R N G C]. pose proof (ti_wf _ _ I) as W.
  assert (N2 : forall (l : list (value * value)), NoDup (map fst l) -> NoDup l) by (intros l; apply NoDup_map_inv).
  apply NoDup_Permutation.
  - apply N2. rewrite map_map. exact (for_table_keys_nodup t W).
  - apply N2, N.
  - intros [k v]. assert (F : In (k, v) m <-> find k m = Some v).
    { clear - N. induction m as [|[k' v'] m IH]; cbn [find In]; [split; [tauto|discriminate]|]. cbn [map fst] in N. inversion N; subst.
      destruct (value_eq_dec k k') as [->|NE].
      - split; [intros [E|E]; [congruence|exfalso; apply H1; apply (in_map fst) in E; exact E]|intros E; left; congruence].
      - rewrite <- (IH H2). split; [intros [E|E]; [congruence|exact E]|auto]. }
    rewrite F. pose proof (for_table_in t _ k v W R) as FI. rewrite in_map_iff. split.
    + intros ([k0 v0] & E & J). injection E as <- <-. apply FI, J.
    + intros E. exists (Item k v). split; [reflexivity|]. apply FI. split; [|exact E]. rewrite Forall_forall in G. apply G. apply find_in. congruence.
Qed.
