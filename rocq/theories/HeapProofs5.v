From Coq Require Import Permutation.
From Verif Require Import Base Bytes Value ValueProofs Hash Table TableSpec ListFacts TableProofs TableProofs2 TableProofs3 TableProofs4.
From Verif Require Import Lists ListSpec ListProofs Api ApiSpec ApiProofs.
From Verif Require Import Ops Text VM CallSpec CallProofs Names Heap HeapSpec HeapProofs HeapProofs2 HeapProofs3 HeapProofs4.
Local Open Scope list_scope.
Local Open Scope Z_scope.

(** the method of a list named [x] *)
Definition list_method (x : list Z) : option (Z * lmeth * nat) :=
  if named x m_push then Some (601, LPush, 2%nat) else if named x m_pop then Some (605, LPop, 1%nat) else if named x m_copy then Some (602, LCopy, 1%nat)
  else if named x m_reverse then Some (610, LReverse, 1%nat) else if named x m_clear then Some (611, LClear, 1%nat) else if named x m_count then Some (615, LCount, 2%nat)
  else if named x m_search then Some (609, LSearch, 2%nat) else if named x m_insert then Some (616, LInsert, 3%nat) else None.
Lemma named_eq x y : named x y = true -> x = y.
Proof. unfold named. destruct (list_eq_dec Z.eq_dec x y); congruence. Qed.
Lemma list_method_id x id lm n : list_method x = Some (id, lm, n) -> meth_id (MT_LIST * 100) list_names x = Some id /\ cfn_of id = Some (CList lm, Z.of_nat n).
Proof.
  unfold list_method. intros E.
  repeat match type of E with (if named x ?y then _ else _) = _ => let N := fresh "N" in destruct (named x y) eqn:N; [apply named_eq in N; subst x; injection E as <- <- <-; split; reflexivity|] end.
  discriminate E.
Qed.
Lemma fit_one a args : fit 1 (a :: args) = [a].
Proof. reflexivity. Qed.
Lemma fit_two a args : fit 2 (a :: args) = [a; arg args 0].
Proof. destruct args; reflexivity. Qed.
Lemma fit_three a args : fit 3 (a :: args) = [a; arg args 0; arg args 1].
Proof. destruct args as [|b [|c args]]; reflexivity. Qed.
(** what the bodies return: [reverse] and [clear] return nothing *)
Definition results (x : list Z) (p : mem * value) : mem * list value := if named x m_reverse || named x m_clear then (fst p, []) else (fst p, [snd p]).
Lemma deliver_results m c x args : omap_said (deliver 1) (omap_said (results x) (method_spec m c x args)) = omap_said (fun p => (fst p, [snd p])) (method_spec m c x args).
Proof.
  destruct c; try reflexivity. unfold method_spec. destruct (m_list m p) as [xs|]; [|reflexivity]. cbv zeta. unfold results.
  destruct (named x m_push) eqn:E1. { apply named_eq in E1. subst. reflexivity. }
  destruct (named x m_pop) eqn:E2. { apply named_eq in E2. subst. destruct xs; reflexivity. }
  destruct (named x m_copy) eqn:E3. { apply named_eq in E3. subst. reflexivity. }
  destruct (named x m_reverse) eqn:E4. { reflexivity. }
  destruct (named x m_clear) eqn:E5. { reflexivity. }
  cbn [orb]. destruct (named x m_count); [reflexivity|]. destruct (named x m_search); [reflexivity|]. destruct (named x m_insert); [|reflexivity].
  destruct (arg args 0); try reflexivity. destruct (i =? Z.of_nat (length xs)); [reflexivity|]. destruct (position (length xs) i); reflexivity.
Qed.

Section Fuel.
Variable fuel : nat.
Variable w : world.
Variable P : prog.

Lemma body_method r f h m p xs x id lm n args : shows h m -> m_list m p = Some xs -> (1 <= r)%nat -> list_method x = Some (id, lm, n) ->
  body_answers None h (cbody fuel w r f h (CList lm) (fit n (VList p :: args))) (omap_said (results x) (method_spec m (VList p) x args)).
Proof.
  intros Sh E R EM. destruct (sh_list _ _ Sh _ _ E) as (E1 & _). unfold method_spec. rewrite E. unfold list_method in EM. cbv zeta. cbn [cbody].
  destruct r as [|r]; [lia|].
  destruct (named x m_push) eqn:N1.
  { apply named_eq in N1. subst x. injection EM as <- <- <-. rewrite fit_two. cbn [lbody]. unfold list_at. rewrite E1. cbn [bind omap_said results body_answers]. eexists _, []. split; [reflexivity|]. eapply became_put_list; eassumption. }
  destruct (named x m_pop) eqn:N2.
  { apply named_eq in N2. subst x. injection EM as <- <- <-. rewrite fit_one. cbn [lbody]. unfold list_at. rewrite E1. cbn [bind].
    destruct xs as [|y ys] using rev_ind; [reflexivity|]. clear IHys. rewrite rev_app_distr. cbn [rev app].
    assert (G : match ys ++ [y] with [] => Raises EValue | _ => Gives (HeapSpec.with_list m p (removelast (ys ++ [y])), last (ys ++ [y]) VUndef) end = Gives (HeapSpec.with_list m p ys, y)).
    { rewrite removelast_last, last_last. destruct ys; reflexivity. }
    rewrite G. unfold Heap.pushing. cbn [need1 omap_said results body_answers]. eexists _, [VList p]. split; [reflexivity|]. rewrite rev_involutive. eapply became_put_list; eassumption. }
  destruct (named x m_copy) eqn:N3.
  { apply named_eq in N3. subst x. injection EM as <- <- <-. rewrite fit_one. cbn [lbody]. unfold list_at. rewrite E1. cbn [bind].
    destruct (shows_new_list h m xs Sh) as (Sh' & Ev). pose proof (kept_new_list None h xs) as KN. destruct (new_list h xs) as (h', l). cbn [fst snd] in *. subst l. cbn [Heap.pushing need1 omap_said results body_answers]. exists h', [VList p]. split; [reflexivity|exact (conj Sh' KN)]. }
  destruct (named x m_reverse) eqn:N4.
  { apply named_eq in N4. subst x. injection EM as <- <- <-. rewrite fit_one. cbn [lbody]. unfold list_at. rewrite E1. cbn [bind omap_said results body_answers]. eexists _, [VList p]. split; [reflexivity|]. eapply became_put_list; eassumption. }
  destruct (named x m_clear) eqn:N5.
  { apply named_eq in N5. subst x. injection EM as <- <- <-. rewrite fit_one. cbn [lbody]. unfold list_at. rewrite E1. cbn [bind omap_said results body_answers]. eexists _, [VList p]. split; [reflexivity|]. eapply became_put_list; eassumption. }
  destruct (named x m_count) eqn:N6.
  { apply named_eq in N6. subst x. injection EM as <- <- <-. rewrite fit_two. cbn [lbody]. unfold list_at. rewrite E1. cbn [bind omap_said results body_answers]. eexists _, [VList p]. split; [reflexivity|apply became_same, Sh]. }
  destruct (named x m_search) eqn:N7.
  { apply named_eq in N7. subst x. injection EM as <- <- <-. rewrite fit_two. cbn [lbody]. unfold list_at. rewrite E1. cbn [bind]. cbv zeta. rewrite last_pos_spec. cbn [omap_said results body_answers]. eexists _, [VList p]. split; [|apply became_same, Sh].
    pose proof (last_pos_shape xs (arg args 0) 0) as LS. replace (results m_search (m, last_pos xs (arg args 0) 0)) with (m, [last_pos xs (arg args 0) 0]) by reflexivity. destruct (last_pos xs (arg args 0) 0); try contradiction; reflexivity. }
  destruct (named x m_insert) eqn:N8; [|discriminate EM].
  apply named_eq in N8. subst x. injection EM as <- <- <-. rewrite fit_three. destruct (arg args 0); try reflexivity. cbn [lbody]. unfold list_at. rewrite E1. cbn [bind]. cbv zeta.
  destruct (i =? Z.of_nat (length xs)) eqn:Ei.
  { cbn [omap_said results body_answers]. eexists _, []. split; [reflexivity|]. eapply became_put_list; eassumption. }
  apply Z.eqb_neq in Ei. unfold position.
  destruct (Z.leb_spec 0 i), (Z.ltb_spec i (Z.of_nat (length xs))), (Z.leb_spec (- Z.of_nat (length xs)) i), (Z.ltb_spec i 0), (Z.geb_spec i (Z.of_nat (length xs))), (Z.ltb_spec i (- Z.of_nat (length xs))); try lia; cbn [orb andb omap_said results body_answers]; try reflexivity.
  - eexists _, []. split; [reflexivity|]. eapply became_put_list; eassumption.
  - replace (i + Z.of_nat (length xs)) with (Z.of_nat (length xs) + i) by lia. eexists _, []. split; [reflexivity|]. eapply became_put_list; eassumption.
Qed.

(** a call of a method whose frame was opened earlier; [s]: the state when it was opened *)
Lemma entered_call d s h id c n nret args rest pc0 x : cfn_of id = Some (c, Z.of_nat n) -> Z.of_nat (length rest) + 1 + Z.of_nat n <= 1024 -> 0 <= nret <= 1 ->
  body_answers d h (cbody fuel w (Z.to_nat (1023 - Z.of_nat (length rest) - Z.of_nat n)) (Z.to_nat (999 - Z.of_nat (length (v_frames s)))) h c (fit n args)) x ->
  answers d h (h_call fuel w P (set_pc (entered s id nret args rest) pc0) h) (set_pc s pc0) rest (omap_said (deliver nret) x).
Proof.
  intros Ec R Hn B. pose proof (call_entered fuel w P s h id c n nret args rest pc0 Ec R) as CE. cbn zeta in CE.
  destruct x as [[m' vs]|e|]; cbn [body_answers answers omap_said deliver] in *.
  - destruct B as (h' & mid & E & Sh). rewrite E in CE. exists h'. split; [|exact Sh].
    rewrite (CE (rev vs) mid); [|rewrite rev_involutive; reflexivity|rewrite rev_length; reflexivity|lia].
    reflexivity.
  - rewrite B in CE. destruct CE as (s' & E & O). eauto.
  - exact I.
Qed.

Hypothesis HF : FUEL_BOUND <= Z.of_nat fuel.
(** the first half of a method call: the receiver is on top of the stack *)
Lemma init_mc_gen s h c mt names x id rest nb cst : meta_ok h -> In (mt, names) metas -> metatable h c = Ok (Some mt) -> meth_id (mt * 100) names x = Some id -> v_stk s = c :: rest -> roomy s 1 ->
  nthZ (p_code P) (v_pc s) = Some nb -> read8 (p_code P) (v_pc s + 1) = Ok cst -> nthZ (p_consts P) cst = Some (VStr x) ->
  exec_init_mc fuel w P s h = HNext (entered (set_pc s (v_pc s + 9)) id (schar nb) [c] rest) h.
Proof.
  intros M HI E EI Es (R1 & R2) Eb Ec Ek.
  unfold exec_init_mc, rd1. rewrite Eb. cbn [set_pc v_stk v_pc]. rewrite Es. rewrite push_ok by (cbn [set_pc v_stk]; lia). cbn [then_]. rewrite Ec, Ek. unfold get_named.
  rewrite E. cbn [lifth]. rewrite (search_name fuel HF h _ _ x M HI), EI. cbn [option_map lifth]. rewrite push_ok by (cbn [set_pc v_stk]; lia). cbn [then_ set_stk set_pc v_stk]. rewrite Es.
  unfold h_init_call. cbn [set_stk set_pc v_stk]. unfold sp. cbn [set_stk v_stk length].
  replace (Z.of_nat (S (S (length rest))) - 1 - 1) with (Z.of_nat (length rest)) by lia.
  pose proof (slot_fn [c] (VCfn id) rest) as SF. cbn [rev app] in SF. rewrite SF.
  match goal with |- context [if ?b then _ else _] => replace b with false by (unfold NUM_FRAMES; cbn [set_stk set_pc v_frames]; lia) end.
  replace (v_pc s + 9) with (v_pc s + 1 + 8) by lia. reflexivity.
Qed.
Lemma init_mc_ok s h m p xs x id lm n rest nb cst : shows h m -> m_list m p = Some xs -> list_method x = Some (id, lm, n) -> v_stk s = VList p :: rest -> roomy s 1 ->
  nthZ (p_code P) (v_pc s) = Some nb -> read8 (p_code P) (v_pc s + 1) = Ok cst -> nthZ (p_consts P) cst = Some (VStr x) ->
  exec_init_mc fuel w P s h = HNext (entered (set_pc s (v_pc s + 9)) id (schar nb) [VList p] rest) h.
Proof.
  intros Sh E EM Es R Eb Ec Ek. destruct (list_method_id _ _ _ _ EM) as (EI & EC).
  eapply init_mc_gen; try eassumption; [exact (sh_meta _ _ Sh)|exact m_lists|eapply mt_list; eassumption].
Qed.
(** the second half *)
Lemma method_call_ok s h m p x args rest pc0 id lm n : shows h m -> list_method x = Some (id, lm, n) -> Z.of_nat (length rest) + 5 <= 1024 ->
  answers None h (h_call fuel w P (set_pc (entered s id 1 (VList p :: args) rest) pc0) h) (set_pc s pc0) rest (omap_said (fun p => (fst p, [snd p])) (method_spec m (VList p) x args)).
Proof.
  intros Sh EM R. destruct (m_list m p) as [xs|] eqn:E; [|unfold method_spec; rewrite E; exact I]. destruct (list_method_id _ _ _ _ EM) as (EI & EC).
  assert (Ln : (n <= 3)%nat).
  { clear -EM. unfold list_method in EM. repeat match type of EM with (if ?c then _ else _) = _ => destruct c; [injection EM as <- <- <-; auto with arith|] end. discriminate EM. }
  rewrite <- deliver_results. apply (entered_call None s h id (CList lm) n 1 (VList p :: args) rest pc0); [exact EC|lia|lia|]. apply (body_method _ _ h m p xs x id lm n args Sh E); [|exact EM]. lia.
Qed.
(** names that are not methods *)
Lemma init_mc_absent s h m c x rest nb cst e : shows h m -> index_spec m c (VStr x) = Raises e -> v_stk s = c :: rest -> roomy s 4 ->
  nthZ (p_code P) (v_pc s) = Some nb -> read8 (p_code P) (v_pc s + 1) = Ok cst -> nthZ (p_consts P) cst = Some (VStr x) ->
  exists s' h', exec_init_mc fuel w P s h = HStop (Err e) s' h' /\ v_out s' = v_out s.
Proof.
  intros Sh EI Es (R1 & R2) Eb Ec Ek. pose proof (sh_meta _ _ Sh) as M.
  unfold exec_init_mc, rd1. rewrite Eb. cbn [set_pc v_stk v_pc]. rewrite Es. rewrite push_ok by (cbn [set_pc v_stk]; lia). cbn [then_]. rewrite Ec, Ek. unfold get_named.
  set (s2 := set_pc (set_pc s (v_pc s + 1)) (v_pc s + 1 + 8)).
  assert (SC : forall mt names, In (mt, names) metas -> metatable h c = Ok (Some mt) -> meth_id (mt * 100) names n_get = None ->
    match c with VTable _ => False | _ => True end -> (if keyable (VStr x) && negb (names_method names (VStr x)) || never_key (VStr x) then Raises EValue else @Unsaid value) = Raises e ->
    exists s' h', lifth s2 h (metatable h c) (fun m0 : option Z => match m0 with Some mt => lifth s2 h (search fuel h mt (VStr x)) (fun r => match r with
            | Some u => then_ h (push s2 u) (fun s0 => match v_stk s0 with m1 :: v :: rest0 => h_init_call fuel (set_stk s0 (v :: m1 :: rest0)) h (sp (set_stk s0 (v :: m1 :: rest0)) - 1) (schar nb) (fun s1 => HNext s1 h) | _ => HStop UB s0 h end)
            | None => lifth s2 h (search fuel h mt (VStr n_get)) (fun r0 => match r0 with
                | Some (VCfn id) => then_ h (push s2 (VCfn id)) (fun s0 => h_init_call fuel s0 h (sp s0) 1 (fun s1 => then_ h (push s1 c) (fun s3 => then_ h (push s3 (VStr x)) (fun s4 =>
                     match h_call fuel w P s4 h with HNext s5 h0 => match v_stk s5 with m1 :: v :: rest0 => h_init_call fuel (set_stk s5 (v :: m1 :: rest0)) h0 (sp (set_stk s5 (v :: m1 :: rest0)) - 1) (schar nb) (fun s6 => HNext s6 h0) | _ => HStop UB s5 h0 end | HStop o s5 h0 => HStop o s5 h0 | HOut => HOut end))))
                | Some _ => HOut
                | None => HStop (Err EValue) s2 h end) end)
      | None => HStop (Err EValue) s2 h end) = HStop (Err e) s' h' /\ v_out s' = v_out s).
  { intros mt names HI E G NT K. rewrite E. cbn [lifth]. destruct (keyable (VStr x) && negb (names_method names (VStr x)) || never_key (VStr x)) eqn:K2; [|discriminate K]. injection K as <-.
    rewrite (meta_absent fuel HF h mt names (VStr x) M HI K2). cbn [lifth]. rewrite (search_name fuel HF h mt names n_get M HI), G. cbn [option_map lifth].
    exists s2, h. split; reflexivity. }
  destruct c; try discriminate EI.
  - exact (SC _ _ m_undef eq_refl eq_refl I EI).
  - exact (SC _ _ m_float eq_refl eq_refl I EI).
  - exact (SC _ _ m_int eq_refl eq_refl I EI).
  - exact (SC _ _ m_bool eq_refl eq_refl I EI).
  - clear SC. destruct (m_list m p) as [xs|] eqn:E; [|unfold index_spec in EI; rewrite E in EI; discriminate EI].
    destruct (index_asked_list m p xs (VStr x) E) as [C|K]; [rewrite C in EI; discriminate EI|].
    rewrite (mt_list _ _ _ _ Sh E). cbn [lifth]. rewrite (meta_absent fuel HF h _ _ (VStr x) M m_lists K). cbn [lifth]. rewrite (search_name fuel HF h _ _ n_get M m_lists).
    replace (option_map VCfn (meth_id (MT_LIST * 100) list_names n_get)) with (Some (VCfn 606)) by reflexivity. cbn [lifth].
    assert (Lr : Z.of_nat (length (VList p :: rest)) + 4 <= 1024) by (rewrite <- Es; lia).
    rewrite push_ok by (unfold s2; cbn [set_pc v_stk]; lia). cbn [then_].
    assert (E2 : v_stk s2 = VList p :: rest) by exact Es. rewrite E2. unfold h_init_call. cbn [set_stk v_stk].
    assert (Esp : sp (set_stk s2 (VCfn 606 :: VList p :: rest)) = Z.of_nat (length (VList p :: rest))) by (unfold sp; cbn [set_stk v_stk length]; lia).
    rewrite Esp. pose proof (slot_fn [] (VCfn 606) (VList p :: rest)) as SF. cbn [rev app] in SF. rewrite SF.
    change (v_frames (set_stk s2 (VCfn 606 :: VList p :: rest))) with (v_frames s). unfold NUM_FRAMES. destruct (Z.geb_spec (Z.of_nat (length (v_frames s))) 1000); [lia|].
    cbn [length] in Lr. rewrite push_ok by (cbn [set_frames set_stk v_stk length]; lia). cbn [then_]. rewrite push_ok by (cbn [set_frames set_stk v_stk length]; lia). cbn [then_].
    pose proof (entered_call None s2 h 606 (CList LGet) 2 1 [VList p; VStr x] (VList p :: rest) (v_pc s2) (omap_said (fun v => (m, [v])) (index_spec m (VList p) (VStr x))) eq_refl) as EC.
    cbn [length] in EC. specialize (EC ltac:(lia) ltac:(lia)).
    rewrite fit_two in EC. cbn [arg nth] in EC. 
    match type of EC with body_answers _ _ (cbody _ _ ?r ?f _ _ _) _ -> _ => assert (Lr2 : (1 <= r)%nat) by lia; specialize (EC (body_lget fuel w r f h m p xs (VStr x) Sh E Lr2 K)); clear Lr2 end.
    rewrite EI in EC. cbn [omap_said answers] in EC. destruct EC as (s' & h' & EC & EO).
    match goal with |- context [h_call fuel w P ?z h] => replace z with (set_pc (entered s2 606 1 [VList p; VStr x] (VList p :: rest)) (v_pc s2)) by (destruct s; reflexivity) end.
    rewrite EC. exists s', h'. split; [reflexivity|exact EO].
  - unfold index_spec in EI. destruct (m_tab m p); [|discriminate EI]. destruct (keyable (VStr x) && negb (names_method table_names (VStr x))); discriminate EI.
Qed.
(** tables: the keys and the values, in some order *)
Lemma body_keys r f h m p kv tm args : shows h m -> m_tab m p = Some kv -> (1 <= r)%nat -> tm = TKeys \/ tm = TValues ->
  exists xs, Permutation xs (map (match tm with TKeys => fst | _ => snd end) kv) /\
  body_answers None h (cbody fuel w r f h (CTable tm) (fit 1 (VTable p :: args))) (Gives (fresh_list m xs, [VList (m_next m)])).
Proof.
  intros Sh E R TM. destruct (sh_tab _ _ Sh _ _ E) as (_ & _ & t & E1 & Ht). rewrite fit_one. destruct r as [|r]; [lia|]. pose proof (kv_perm t kv Ht) as PK.
  destruct TM as [-> | ->].
  - exists (table_keys t). split; [unfold table_keys; apply (Permutation_map fst) in PK; rewrite map_map in PK; exact PK|].
    cbn [cbody tbody]. unfold tab_at. rewrite E1. cbn [bind]. destruct (shows_new_list h m (table_keys t) Sh) as (Sh' & Ev). pose proof (kept_new_list None h (table_keys t)) as KN. destruct (new_list h (table_keys t)) as (h', l). cbn [fst snd] in *. subst l.
    cbn [Heap.pushing need1 body_answers]. exists h', [VTable p]. split; [reflexivity|exact (conj Sh' KN)].
  - exists (table_values t). split; [unfold table_values; apply (Permutation_map snd) in PK; rewrite map_map in PK; exact PK|].
    cbn [cbody tbody]. unfold tab_at. rewrite E1. cbn [bind]. destruct (shows_new_list h m (table_values t) Sh) as (Sh' & Ev). pose proof (kept_new_list None h (table_values t)) as KN. destruct (new_list h (table_values t)) as (h', l). cbn [fst snd] in *. subst l.
    cbn [Heap.pushing need1 body_answers]. exists h', [VTable p]. split; [reflexivity|exact (conj Sh' KN)].
Qed.
End Fuel.
