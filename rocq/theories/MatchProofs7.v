From Coq Require Import Permutation.
From Verif Require Import Base Bytes BytesProofs Value Table Ops Ast Stmt Limits Constants VM Compiler ValueProofs TableSpec TableProofs TableProofs2 TableProofs3 TableProofs4 ConstSpec ConstProofs Gen GenProofs GenProofs2 SimBase Sim Program ProgProofs CompSpec CompProofs CompState SessProofs MatchSpec Match MatchProofs MatchProofs2 MatchProofs3 MatchProofs4 MatchProofs5 MatchProofs6.

Lemma entry_in m : forall k, NoDup (map fst m) -> forall v, entry m k = Some v <-> In (k, v) m.
Proof.
  induction m as [|(k', u) m IH]; intros k N v; [split; [discriminate|intros []]|]. cbn [map fst] in N. inversion N; subst. cbn [entry]. destruct (value_eq_dec k' k) as [->|D].
  - split; [intros [= ->]; left; reflexivity|]. intros [Q|Q]; [congruence|]. exfalso. apply H1. apply in_map_iff. exists (k, v). auto.
  - rewrite IH by assumption. split; [intros; right; assumption|]. intros [Q|Q]; [congruence|exact Q].
Qed.
Lemma entry_none m : forall k, entry m k = None <-> ~ In k (map fst m).
Proof.
  induction m as [|(k', u) m IH]; intros k; [split; [intros _ []|reflexivity]|]. cbn [entry map fst In]. destruct (value_eq_dec k' k) as [->|D]; [split; [discriminate|intros []; auto]|]. rewrite IH. intuition.
Qed.

Lemma u64_i64 z : u64 (i64 z) = u64 z.
Proof. unfold u64, i64. rewrite Zminus_mod_idemp_l. f_equal. lia. Qed.
Lemma i64_range z : in_i64 (i64 z).
Proof. unfold in_i64, i64, int_min, int_max. pose proof (Z.mod_pos_bound (z + 9223372036854775808) two64 eq_refl). unfold two64 in *. lia. Qed.
Section Tab.
Variable tfuel : nat.
Variables (t : table) (m : list (value * value)) (fuel : nat) (ops : list Table.top).
Hypothesis (Fo : Forall op_ok ops) (Rp : removals_present mempty ops) (Rn : run_new fuel ops = Ok t) (Em : In EMPTY (t_items t)) (Sz : t_size t <= Z.of_nat tfuel).
Hypothesis (Nd : NoDup (map fst m)) (In' : forall k v, In (k, v) m <-> good_key k /\ spec_run ops k = Some v).
Lemma entry_spec k : good_key k -> entry m k = spec_run ops k.
Proof.
  intros G. destruct (spec_run ops k) as [v|] eqn:E.
  - apply entry_in; [exact Nd|]. apply In'. auto.
  - apply entry_none. intros H. apply in_map_iff in H. destruct H as ((k', v) & Q & H). cbn in Q. subst k'. apply In' in H. destruct H. congruence.
Qed.
Lemma built_search k : good_key k -> table_search tfuel t k = Ok (match entry m k with Some v => v | None => VEnd end).
Proof.
  intros G. destruct (run_new_ok _ _ _ Fo Rn) as (W & R & _).
  destruct (search_total tfuel t k W G Sz) as (r & E).
  - left. destruct (in_slot t _ Em) as (j & Ej). exists j. exact Ej.
  - rewrite E. f_equal. rewrite (entry_spec k G). apply (search_ok tfuel t k r _ W R G E).
Qed.
Lemma built_val k v : entry m k = Some v -> v <> VEnd.
Proof.
  intros E. apply entry_in in E; [|exact Nd]. apply In' in E. destruct E as (G & E). destruct (run_new_ok _ _ _ Fo Rn) as (W & R & _). exact (proj1 (spec_val_good t _ k v W R G E)).
Qed.
Lemma built_count : u64 (t_count t) = Z.of_nat (length m).
Proof.
  destruct (hist_length fuel ops t Fo Rp Rn) as (keys & Nk & Ik & Gk & L).
  assert (P : Permutation keys (map fst m)).
  { apply NoDup_Permutation; [exact Nk|exact Nd|]. intros k. split; intros H.
    - rewrite Forall_forall in Gk. pose proof (Gk _ H) as G. apply Ik in H; [|exact G]. destruct (spec_run ops k) as [v|] eqn:E; [|congruence]. apply in_map_iff. exists (k, v). split; [reflexivity|]. apply In'. auto.
    - apply in_map_iff in H. destruct H as ((k', v) & Q & H). cbn in Q. subst k'. apply In' in H. destruct H as (G & H). apply Ik; [exact G|congruence]. }
  apply Permutation_length in P. rewrite map_length in P. rewrite P in L. unfold table_length in L.
  assert (Q : u64 (i64 (t_count t)) = u64 (t_count t)) by apply u64_i64. rewrite <- Q, L. unfold u64. apply Z.mod_small.
  pose proof (i64_range (t_count t)) as Rg. rewrite L in Rg. unfold two64. unfold in_i64, int_min, int_max in Rg. lia.
Qed.
End Tab.

Section Any.
Variables (fuel : nat) (c c' : cst) (h : host) (P : prog) (s : vstate) (st : env) (below : list value) (pre post : list Z) (K0 more : list value).
Hypothesis Hc : compiling fuel c.
Hypothesis Hd : decls_of (e_scopes st) = er (c_scopes c).
Hypothesis Hg : forall x, h_decl h x = option_map is_const (assoc (c_globals c) x).
Hypothesis Hw : p_world P = h_world h.
Hypothesis Hl : p_list P = h_list h.
Hypothesis Hk : p_keys P = h_keys h.
Hypothesis Hfp : v_fp s = Z.of_nat (length below) - 1.
Hypothesis Hgl : v_gl s = e_globals st.
Hypothesis Hout : v_out s = e_out st.
Hypothesis Hpc : v_pc s = len pre.
Hypothesis HK0 : setup_constants (return_bytes (c_pool c') [] []) = Ok K0.
Hypothesis HKs : Z.of_nat (length (return_bytes (c_pool c') [] [])) <= int_max.
Hypothesis HKP : p_consts P = K0 ++ more.
Hypothesis Hlen : len (p_code P) <= int_max /\ Z.of_nat (length (p_consts P)) <= int_max.
Variables (T : Z -> table) (tfuel depth : nat) (tables : Z -> list (value * value)).
Hypothesis HT : forall a k, good_key k -> table_search tfuel (T a) k = Ok (match entry (tables a) k with Some v => v | None => VEnd end).
Hypothesis HTv : forall a k v, entry (tables a) k = Some v -> v <> VEnd.
Hypothesis HTc : forall a, u64 (t_count (T a)) = Z.of_nat (length (tables a)).

Lemma any_match e cls code n : c_scopes c <> [] -> visit_match fuel e cls c = Ok c' -> Forall literal (lits_e e) ->
  Forall (clause_fits depth (length (concat (e_scopes st))) (length (v_stk s)) (length (v_loops s))) cls -> guards_safe cls = true -> cls <> [] ->
  c_buf c' = c_buf c ++ code -> v_stk s = vals (e_scopes st) ++ below -> (length (concat (e_scopes st)) <= 128)%nat -> (length (v_stk s) + need_e e <= 1024)%nat ->
  p_code P = pre ++ code ++ post -> count c <= len pre ->
  match eval (h_world h) (rho h st) e with
  | Ok v => xopt P (v_fp s) below (v_frames s) (v_next_fp s) (v_upv s) (v_pending s) (v_clo s) T tfuel depth (c_scopes c) (v_pc s + len code) (v_pc s + brk (c_cps c) - count c) (v_pc s + cont (c_cps c) - count c) n (v_loops s) v st (cases h tables n v st cls) s
  | Err er => xhalts P T tfuel depth s (Err er) (v_out s)
  | UB => xhalts P T tfuel depth s UB (v_out s)
  | NoFuel => xhalts P T tfuel depth s NoFuel (v_out s)
  end.
Proof.
  intros Ne V L F GS NN B Hs Sl R C Ct. destruct (compiling_inv _ _ Hc) as [(cs & Pp & G) N Gl Cp]. unfold visit_match in V. destruct (visit_e fuel e c) as [c1| | |] eqn:V1; try discriminate. cbn [bind] in V.
  assert (V2 : visit_clauses fuel cls c1 = Ok c') by (destruct cls; [congruence|exact V]). clear V.
  destruct (visit_e_gen fuel e c c1 cs V1 Pp G L) as (O & cs1 & (P1 & (ext1 & Ec1) & S1 & G1 & C1 & B1) & I1).
  destruct (visit_clauses_gen fuel cls c1 c' cs1 V2) as (OC & cs' & (P' & (ext & Ec) & _ & _ & _ & B2) & I2).
  { rewrite S1. exact Ne. } { exact P1. } { rewrite G1, Ec1. apply gl_in_ext, G. }
  { eapply Forall_impl; [|exact F]. intros ((p, g), b) Q. unfold clause_fits in Q. cbn [fst snd]. tauto. }
  pose proof (pool_setup _ _ [] [] P' ltac:(pose proof (pool_bytes _ _ P'); lia)) as PS. rewrite HK0 in PS. injection PS as PS. subst K0.
  assert (X1 : extends cs1 (p_consts P)) by (rewrite HKP, Ec, <- app_assoc; eexists; reflexivity).
  pose proof (B1 _ X1) as Bc1. pose proof (B2 (p_consts P) ltac:(exists more; exact HKP)) as Bc2. rewrite B, Bc1, <- app_assoc in Bc2. apply app_inv_head in Bc2.
  pose proof (agree_of _ _ N Hd) as A. pose proof (agree_length _ _ A) as AL. pose proof (decls_length _ _ Hd) as DL.
  assert (HGK : gl_in (c_globals c) (p_consts P)) by (rewrite HKP; intros x z Q; apply in_or_app; left; rewrite Ec, Ec1, <- app_assoc; apply in_or_app; left; eapply G, Q).
  set (ge := gen_e (p_consts P) (c_scopes c) e) in *. set (gc := gen_cases (p_consts P) (c_scopes c1) (c_cps c1) (count c1) cls) in *.
  assert (Ctc : count c1 = count c + len ge) by (unfold count, len; rewrite Bc1, app_length; lia).
  assert (Cc : code_at P (v_pc s) (ge ++ gc ++ [])) by (exists pre, post; rewrite app_nil_r, <- Bc2; auto).
  assert (Hs' : v_stk s = [] ++ vals (e_scopes st) ++ below) by exact Hs.
  destruct (sim_e P h (c_globals c) (v_fp s) below (v_frames s) (v_next_fp s) (v_upv s) (v_pending s) (v_clo s) ltac:(lia) Hw Hg HGK Hlen e (c_scopes c) st (v_pc s) [] (v_loops s) (gc ++ []) O) as (_ & Y).
  { intros v Hv. destruct X1 as (m1 & ->). apply in_or_app. left. apply I1, Hv. }
  { exact A. } { lia. } { unfold room_for. rewrite Hs, app_length in R. cbn [length]. lia. } { exact Cc. }
  fold ge in Y. unfold atp in Y at 1. rewrite <- Hgl, <- Hout in Y. rewrite <- (get_slot_state s [] _ _ Hs') in Y.
  destruct (eval (h_world h) (rho h st) e) as [v|er| |]; cbn [yields] in Y; [|apply lift_halts, Y..].
  eapply xopt_pre; [exact Hlen|exact HT|exact HTv|exact HTc|apply lift_goes; exact Y|].
  apply code_at_r in Cc.
  pose proof (cases_sim P h (c_globals c) (v_fp s) below (v_frames s) (v_next_fp s) (v_upv s) (v_pending s) (v_clo s) ltac:(lia) Hw Hl Hk Hg HGK Hlen T tfuel depth tables HT HTv HTc n cls (c_scopes c) st (len pre - count c) (count c1) (c_cps c) (v_loops s) (in_loop c) [] v) as Q.
  replace (len pre - count c + count c1) with (v_pc s + len ge) in Q by lia.
  unfold gc in Bc2, Cc. rewrite S1, C1 in Bc2, Cc.
  replace (v_pc s + len code) with (v_pc s + len ge + len (gen_cases (p_consts P) (c_scopes c) (c_cps c) (count c1) cls)) by (rewrite Bc2, len_app; lia).
  replace (v_pc s + brk (c_cps c) - count c) with (len pre - count c + brk (c_cps c)) by lia. replace (v_pc s + cont (c_cps c) - count c) with (len pre - count c + cont (c_cps c)) by lia.
  apply Q; clear Q.
  - rewrite S1, G1 in OC. unfold in_loop in OC |- *. rewrite C1 in OC. exact OC.
  - eapply Forall_impl; [|exact F]. intros ((p, g), b) (Q1 & Q2 & Q3 & Q4 & Q5 & Q6 & Q7 & Q8 & Q9). unfold clause_ok. unfold clause_lits in Q4. apply Forall_app in Q4. destruct Q4 as (Q4 & _).
    split; [exact Q1|]. split; [exact Q2|]. split; [exact Q4|]. split; [exact Q3|]. split; [exact Q5|]. split; [exact Q6|].
    split; [rewrite <- DL, Nat2Z.id; lia|]. split; [|lia]. unfold room_for. rewrite Hs, app_length in Q8. cbn [length]. lia.
  - exact GS.
  - intros v0 Hv. rewrite HKP. apply in_or_app. left. apply I2, Hv.
  - exact A.
  - lia.
  - unfold count. lia.
  - eapply Forall_impl; [|exact Cp]. cbn beta. intros t Ht. pose proof (len_nonneg ge). lia.
  - exact Cc.
Qed.
End Any.
