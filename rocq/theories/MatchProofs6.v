From Verif Require Import Base Bytes BytesProofs Value Table Ops Ast Stmt Limits Constants VM Compiler ValueProofs TableSpec ConstSpec ConstProofs Gen GenProofs GenProofs2 SimBase Sim MatchSpec Match MatchProofs MatchProofs2 MatchProofs3 MatchProofs4 MatchProofs5.

Section Sim.
Variable P : prog.
Variable h : host.
Variable G : scope.
Variables (fp : Z) (below : list value) (frames : list frame) (nfp : Z) (upvs : list upv) (pend : list nat) (clo : list closure).
Notation K := (p_consts P).
Hypothesis Hfp : Z.of_nat (length below) = fp + 1.
Hypothesis Hw : p_world P = h_world h.
Hypothesis Hl : p_list P = h_list h.
Hypothesis Hk : p_keys P = h_keys h.
Hypothesis HG : forall x, h_decl h x = option_map is_const (assoc G x).
Hypothesis HGK : gl_in G K.
Hypothesis HKlen : len (p_code P) <= int_max /\ Z.of_nat (length K) <= int_max.
Variable T : Z -> table.
Variables (tfuel depth : nat).
Variable tables : Z -> list (value * value).
Hypothesis HT : forall a k, good_key k -> table_search tfuel (T a) k = Ok (match entry (tables a) k with Some v => v | None => VEnd end).
Hypothesis HTv : forall a k v, entry (tables a) k = Some v -> v <> VEnd.
Hypothesis HTc : forall a, u64 (t_count (T a)) = Z.of_nat (length (tables a)).

Notation mk := (mk fp frames nfp upvs pend clo).
Notation atp := (atp fp below frames nfp upvs pend clo).
Notation res := (res P fp below frames nfp upvs pend clo).
Notation room_for := (room_for below).
Notation xto := (xto P T tfuel depth). Notation xgoes := (xgoes P T tfuel depth). Notation xhalts := (xhalts P T tfuel depth). Notation xruns := (xruns P T tfuel depth).
Notation code_at := (code_at P).
Notation pm := (pmatch (h_list h) tables).

Definition xresd (ss ss' : list scope) (np bp cp : Z) (n : nat) (lps : list (value * Z)) (r : xres) (s : vstate) : Prop :=
  match r with
  | XOk Normal st' => xto 0 s (atp np [] st' lps) /\ agree ss' (e_scopes st')
  | XOk Break st' => xto 0 s (atp bp [VBool false] st' lps) /\ agree ss (e_scopes st')
  | XOk Continue st' => xto 0 s (atp cp [] st' lps) /\ agree ss (e_scopes st')
  | XStop o out => xhalts s o out
  | XFuel => xruns s n
  | XStuck => False
  end.
Lemma lift_res ss ss' np bp cp n lps r s : res ss ss' np bp cp n lps r s -> xresd ss ss' np bp cp n lps r s.
Proof.
  destruct r as [[| |] st'|o out| |]; cbn [Sim.res xresd]; try tauto.
  - intros (A & B). split; [apply lift_goes, A|exact B].
  - intros (A & B). split; [eapply xto_le; [apply lift_goes, A|lia]|exact B].
  - intros (A & B). split; [eapply xto_le; [apply lift_goes, A|lia]|exact B].
  - apply lift_halts.
  - apply lift_runs.
Qed.
Lemma xres_pre i s s1 ss ss' np bp cp n lps r : xto i s s1 -> xresd ss ss' np bp cp n lps r s1 -> xresd ss ss' np bp cp n lps r s.
Proof.
  intros Go. destruct r as [[| |] st'|o out| |]; cbn [xresd]; try tauto.
  - intros (A & B). split; [eapply xto_le; [eapply xto_trans; eassumption|lia]|exact B].
  - intros (A & B). split; [eapply xto_le; [eapply xto_trans; eassumption|lia]|exact B].
  - intros (A & B). split; [eapply xto_le; [eapply xto_trans; eassumption|lia]|exact B].
  - apply xto_halts with (1 := Go).
  - apply xto_runs with (1 := Go).
Qed.

Lemma nthZ_at pc o bs : code_at pc (op o ++ bs) -> nthZ (p_code P) pc = Some (op_byte o).
Proof. intros (pre & post & E & L). rewrite L, E. unfold len. cbn [op app]. apply nthZ_app. Qed.
Lemma nthZ_byte pc b bs : code_at pc (b :: bs) -> nthZ (p_code P) pc = Some b.
Proof. intros (pre & post & E & L). rewrite L, E. unfold len. cbn [app]. apply nthZ_app. Qed.

Lemma xstep_match pc stk gl out lps m bs : code_at pc (op O_MATCH ++ bs) -> xstep P T tfuel depth (XS (mk pc stk gl out lps) m) = exec_match P T tfuel depth (mk (pc + 1) stk gl out lps) m.
Proof. intros C. unfold xstep. cbn [x_vm x_above v_pc Sim.mk]. rewrite (nthZ_at _ _ _ C), op_round. reflexivity. Qed.
Lemma xstep_incsp pc stk gl out lps m n k bs : code_at pc (op O_INCSP ++ n :: bs) -> raise (Z.to_nat n) stk m = Some k ->
  xstep P T tfuel depth (XS (mk pc stk gl out lps) m) = XNext (XS (mk (pc + 2) k gl out lps) no_slots).
Proof.
  intros C R. unfold xstep. cbn [x_vm x_above v_pc v_stk Sim.mk set_pc]. rewrite (nthZ_at _ _ _ C), op_round. apply code_at_r in C. rewrite len_op in C. rewrite (nthZ_byte _ _ _ C), R. unfold set_stk, set_pc. cbn. unfold Sim.mk. do 2 f_equal. f_equal. lia.
Qed.
Lemma xstep_del pc stk gl out lps m c k bs : code_at pc (op O_DEL_FP ++ c :: bs) -> delete_slot stk (fp + 1 + c) = Some k ->
  xstep P T tfuel depth (XS (mk pc stk gl out lps) m) = XNext (XS (mk (pc + 2) k gl out lps) no_slots).
Proof.
  intros C R. unfold xstep. cbn [x_vm x_above v_pc v_stk v_fp Sim.mk set_pc]. rewrite (nthZ_at _ _ _ C), op_round. apply code_at_r in C. rewrite len_op in C. rewrite (nthZ_byte _ _ _ C). rewrite R. unfold Sim.mk, set_stk, set_pc. cbn [v_pc v_stk v_fp v_gl v_out v_loops v_frames v_next_fp v_upv v_pending v_clo]. do 2 f_equal. f_equal. lia.
Qed.
Lemma goes_moveup pc ts v vs gl out lps c bs : code_at pc (op O_MOVEUP_FP ++ (c mod 256) :: bs) -> 0 <= c < 128 -> c = Z.of_nat (length vs) ->
  goes P 1 (mk pc (ts ++ v :: vs ++ below) gl out lps) (mk (pc + 2) (v :: ts ++ vs ++ below) gl out lps).
Proof.
  intros C B E. apply goes_step. rewrite (step_op P (mk pc _ gl out lps) O_MOVEUP_FP _ C). cbn [VM.exec].
  rewrite (rd1_at P (set_pc (mk pc (ts ++ v :: vs ++ below) gl out lps) (pc + 1)) _ _ _ (code_at_r P _ _ _ C)).
  unfold Sim.mk, set_pc, set_stk. cbn [v_pc v_stk v_fp v_gl v_out v_loops v_frames v_next_fp v_upv v_pending v_clo]. rewrite (schar_idx P below) by exact B.
  unfold slot_get, from_top. rewrite app_length. cbn [length]. rewrite app_length.
  match goal with |- context [if ?b then _ else _] => assert (Hb : b = true) by lia; rewrite Hb end.
  replace (Z.to_nat _) with (length ts) by lia. rewrite nth_error_app2, Nat.sub_diag by lia. cbn [nth_error opt].
  rewrite firstn_app, firstn_all, Nat.sub_diag, firstn_O, app_nil_r. rewrite skipn_app, (skipn_all2 ts) by lia. replace (Datatypes.S (length ts) - length ts)%nat with 1%nat by lia. cbn [skipn app]. do 2 f_equal. lia.
Qed.

(** One clause's pattern. *)
Section Clause.
Variables (ss : list scope) (p : pat) (st : env) (lps : list (value * Z)) (v : value).
Hypothesis (Lg : legal_pat p = true) (Al : alts_ok p = true) (Li : incl (plits p) K) (Lt : Forall literal (plits p)) (Dp : (pdepth p <= depth)%nat).
Hypothesis (Ag : agree ss (e_scopes st)) (Sl : scope_len ss + Z.of_nat (length (pvars p)) <= 128) (Rm : room_for ss [] (Datatypes.S (length (pvars p)))).
Notation S1 := (case_scope ss p).
Notation sl := (slot_in S1).

Lemma var_slot x : In x (map fst (pvars p)) -> exists i k, nth_error (pvars p) i = Some (x, k) /\ sl x = scope_len ss + Z.of_nat i /\ (i < length (pvars p))%nat.
Proof.
  intros H. apply in_map_iff in H. destruct H as ((y, k) & <- & I). apply In_nth_error in I. destruct I as (i & E). exists i, k. split; [exact E|]. split; [|apply nth_error_Some; congruence].
  cbn [fst]. unfold case_scope. rewrite (declp_slot (pvars p) ([] :: ss) i y k ltac:(discriminate) (legal_distinct p Lg) E). rewrite scope_len_cons. cbn [length]. lia.
Qed.
Lemma var_inj x y : In x (map fst (pvars p)) -> In y (map fst (pvars p)) -> slot_of fp sl x = slot_of fp sl y -> x = y.
Proof.
  intros Hx Hy E. destruct (var_slot x Hx) as (i & k & E1 & S1 & _). destruct (var_slot y Hy) as (j & k' & E2 & S2 & _). unfold slot_of in E. assert (i = j) by lia. subst j. congruence.
Qed.
Lemma slots_fit : slots_ok fp (Z.of_nat (length ([v] ++ vals (e_scopes st) ++ below)) - 1) sl p.
Proof.
  intros x Hx. destruct (var_slot x Hx) as (i & k & _ & E & L). unfold slot_of. rewrite E. rewrite (stk_len P below ss (e_scopes st) [v] Ag). pose proof (scope_len_nonneg ss). unfold Sim.room_for in Rm. cbn [length] in *. lia.
Qed.

Lemma match_yes pc b total bs m : code_at pc (op O_MATCH ++ enc8 total ++ gen_pat K sl p ++ bs) -> in_i64 total -> pm p v = Some b ->
  exists m', xgoes 1 (XS (atp pc [v] st lps) m) (XS (atp (pc + 9 + len (gen_pat K sl p)) [v] st lps) m') /\ forall i, m' i = wr fp sl m b i.
Proof.
  intros C It E. pose proof (code_at_r P _ _ _ C) as C1. rewrite len_op in C1. pose proof (code_at_r P _ _ _ C1) as C2. rewrite len_enc8 in C2.
  pose proof (match_sub_ok P T tfuel fp _ sl tables HKlen HT HTv HTc p depth Lg Al Li Lt slots_fit Dp _ m v _ C2) as H. rewrite Hl, E in H. destruct H as (m' & M & W).
  exists m'. split; [|exact W]. exists 1%nat. split; [lia|]. cbn [xrun]. unfold Sim.atp. rewrite (xstep_match _ _ _ _ _ _ _ C). unfold exec_match. cbn [v_stk Sim.mk app v_pc v_fp].
  rewrite (read8_at P _ _ _ C1 It). unfold msub in M. change (sp _) with (Z.of_nat (length ([v] ++ vals (e_scopes st) ++ below)) - 1). rewrite M. unfold set_pc, Sim.mk. cbn. do 3 f_equal. lia.
Qed.
Lemma match_no pc total bs : code_at pc (op O_MATCH ++ enc8 total ++ gen_pat K sl p ++ bs) -> in_i64 total -> pm p v = None ->
  xto 1 (atp pc [v] st lps) (atp (pc + 9 + total) [v] st lps).
Proof.
  intros C It E m. pose proof (code_at_r P _ _ _ C) as C1. rewrite len_op in C1. pose proof (code_at_r P _ _ _ C1) as C2. rewrite len_enc8 in C2.
  pose proof (match_sub_ok P T tfuel fp _ sl tables HKlen HT HTv HTc p depth Lg Al Li Lt slots_fit Dp _ m v _ C2) as H. rewrite Hl, E in H. destruct H as (pc' & m' & qs & M & _).
  exists m', 1%nat. split; [lia|]. cbn [xrun]. unfold Sim.atp. rewrite (xstep_match _ _ _ _ _ _ _ C). unfold exec_match. cbn [v_stk Sim.mk app v_pc v_fp].
  rewrite (read8_at P _ _ _ C1 It). unfold msub in M. change (sp _) with (Z.of_nat (length ([v] ++ vals (e_scopes st) ++ below)) - 1). rewrite M. unfold set_pc, Sim.mk. cbn. do 3 f_equal. lia.
Qed.
(** The values that are bound, in order. *)
Definition bvals (b : list (name * value)) : list value := map (fun xk => bound b (fst xk)) (pvars p).
Lemma raise_bindings b m m' stk : pm p v = Some b -> (forall i, m' i = wr fp sl m b i) -> Z.of_nat (length stk) = fp + 2 + scope_len ss -> raise (length (pvars p)) stk m' = Some (rev (bvals b) ++ stk).
Proof.
  intros E W L. rewrite <- (map_length (fun xk : name * bool => bound b (fst xk)) (pvars p)). apply raise_ok. intros i u Hi. unfold bvals in Hi. rewrite nth_error_map in Hi. destruct (nth_error (pvars p) i) as [(x, k)|] eqn:N; [|discriminate]. injection Hi as <-. cbn [fst].
  assert (Ix : In x (map fst (pvars p))) by (apply in_map_iff; exists (x, k); split; [reflexivity|eapply nth_error_In, N]).
  rewrite W. destruct (var_slot x Ix) as (j & k' & N' & Es & _).
  assert (j = i). { pose proof (legal_distinct p Lg) as ND. rewrite NoDup_nth_error in ND. apply ND; [rewrite map_length; apply nth_error_Some; congruence|]. rewrite !nth_error_map, N, N'. reflexivity. } subst j.
  replace (Z.of_nat (length stk) + Z.of_nat i) with (slot_of fp sl x) by (unfold slot_of; lia).
  apply wr_get; [|exact (pm_nodup _ _ p Lg _ _ E)|apply (pm_dom _ _ p Lg _ _ E), Ix]. intros y z Hy Hz. apply var_inj; apply (pm_dom _ _ p Lg _ _ E); assumption.
Qed.
Lemma binding_vals b : vals (e_scopes (with_bindings st p b)) = rev (bvals b) ++ vals (e_scopes st).
Proof. unfold with_bindings. cbn [set_escopes e_scopes]. rewrite map_vals_cons, map_rev, map_map. reflexivity. Qed.
Lemma binding_agree b : agree S1 (e_scopes (with_bindings st p b)).
Proof.
  pose proof (agree_declp (fun xk => bound b (fst xk)) (pvars p) [] ss [] (e_scopes st) (conj Logic.I Ag)) as Q. rewrite app_nil_r in Q. exact Q.
Qed.
Lemma case_len : scope_len S1 = scope_len ss + Z.of_nat (length (pvars p)).
Proof. destruct (case_scope_shape ss p) as (t & E & L). rewrite E, scope_len_cons, L. lia. Qed.
Lemma stk_v : Z.of_nat (length (v :: vals (e_scopes st) ++ below)) = fp + 2 + scope_len ss.
Proof. cbn [length]. rewrite app_length. pose proof (agree_length _ _ Ag). lia. Qed.
Lemma vars_mod : Z.to_nat (Z.of_nat (length (pvars p)) mod 256) = length (pvars p).
Proof. pose proof (scope_len_nonneg ss). rewrite Z.mod_small by lia. apply Nat2Z.id. Qed.

(** Without a guard: the value is gone and the bindings are variables. *)
Lemma enter_plain pc b m m' bs : code_at pc (case_mv ss p None ++ bs) -> pm p v = Some b -> (forall i, m' i = wr fp sl m b i) ->
  exists m2, xgoes 0 (XS (atp pc [v] st lps) m') (XS (atp (pc + len (case_mv ss p None)) [] (with_bindings st p b) lps) m2).
Proof.
  intros C E W. unfold case_mv in *. destruct (is_nil (pvars p)) eqn:N.
  - pose proof (goes_pop P fp frames nfp upvs pend clo pc v (vals (e_scopes st) ++ below) (e_globals st) (e_out st) lps bs C) as Go. destruct (lift_goes P T tfuel depth _ _ _ Go m') as (m2 & X). exists m2.
    eapply xgoes_le; [|apply Nat.le_0_l]. rewrite len_op. assert (Q : atp (pc + 1) [] (with_bindings st p b) lps = mk (pc + 1) (vals (e_scopes st) ++ below) (e_globals st) (e_out st) lps).
    { unfold Sim.atp. rewrite binding_vals. unfold bvals. destruct (pvars p); [reflexivity|discriminate]. } rewrite Q. exact X.
  - exists no_slots. exists 2%nat. split; [lia|]. cbn [xrun]. unfold Sim.atp. cbn [app]. rewrite <- !app_assoc in C. cbn [app] in C.
    rewrite (xstep_incsp _ _ _ _ _ m' _ (rev (bvals b) ++ v :: vals (e_scopes st) ++ below) _ C). 2:{ rewrite vars_mod. eapply raise_bindings; [exact E|exact W|exact stk_v]. }
    assert (C2 : code_at (pc + 2) (op O_DEL_FP ++ (scope_len ss mod 256) :: bs)).
    { replace (pc + 2) with (pc + len (op O_INCSP ++ [Z.of_nat (length (pvars p)) mod 256])) by (unfold len; cbn; lia). apply code_at_r. rewrite <- app_assoc. exact C. }
    rewrite (xstep_del _ _ _ _ _ no_slots _ (rev (bvals b) ++ vals (e_scopes st) ++ below) _ C2).
    2:{ apply delete_ok. pose proof (scope_len_nonneg ss). rewrite Z.mod_small by lia. pose proof (agree_length _ _ Ag). lia. }
    rewrite binding_vals. rewrite <- app_assoc. cbn. do 2 f_equal. unfold Sim.mk. f_equal. unfold len. cbn [length op app]. lia.
Qed.
(** With a guard: the value is above the bindings. *)
Lemma enter_guard pc g b m m' bs : code_at pc (case_mv ss p (Some g) ++ bs) -> pm p v = Some b -> (forall i, m' i = wr fp sl m b i) ->
  exists m2, xgoes 0 (XS (atp pc [v] st lps) m') (XS (atp (pc + len (case_mv ss p (Some g))) [v] (with_bindings st p b) lps) m2).
Proof.
  intros C E W. unfold case_mv in *. destruct (is_nil (pvars p)) eqn:N.
  - exists m', O. split; [lia|]. cbn [xrun]. do 2 f_equal. unfold Sim.atp. rewrite binding_vals. unfold bvals. destruct (pvars p); [|discriminate]. cbn. change (len []) with 0. rewrite Z.add_0_r. reflexivity.
  - rewrite <- !app_assoc in C. cbn [app] in C.
    assert (C2 : code_at (pc + 2) (op O_MOVEUP_FP ++ (scope_len ss mod 256) :: bs)).
    { replace (pc + 2) with (pc + len (op O_INCSP ++ [Z.of_nat (length (pvars p)) mod 256])) by (unfold len; cbn; lia). apply code_at_r. rewrite <- app_assoc. exact C. }
    assert (S1' : xgoes 1 (XS (atp pc [v] st lps) m') (XS (mk (pc + 2) (rev (bvals b) ++ v :: vals (e_scopes st) ++ below) (e_globals st) (e_out st) lps) no_slots)).
    { exists 1%nat. split; [lia|]. cbn [xrun]. unfold Sim.atp. cbn [app]. rewrite (xstep_incsp _ _ _ _ _ m' _ (rev (bvals b) ++ v :: vals (e_scopes st) ++ below) _ C); [reflexivity|]. rewrite vars_mod. eapply raise_bindings; [exact E|exact W|exact stk_v]. }
    assert (Ln : (1 <= length (pvars p))%nat) by (destruct (pvars p); [discriminate|cbn; lia]).
    pose proof (scope_len_nonneg ss) as SN.
    pose proof (goes_moveup (pc + 2) (rev (bvals b)) v (vals (e_scopes st)) (e_globals st) (e_out st) lps (scope_len ss) bs C2 ltac:(lia) (eq_sym (agree_length _ _ Ag))) as Go.
    destruct (lift_goes P T tfuel depth _ _ _ Go no_slots) as (m2 & X). exists m2. eapply xgoes_le; [eapply xgoes_trans; [exact S1'|]|lia].
    replace (atp (pc + len (op O_INCSP ++ [Z.of_nat (length (pvars p)) mod 256] ++ op O_MOVEUP_FP ++ [scope_len ss mod 256])) [v] (with_bindings st p b) lps) with (mk (pc + 2 + 2) (v :: rev (bvals b) ++ vals (e_scopes st) ++ below) (e_globals st) (e_out st) lps); [exact X|].
    unfold Sim.atp. rewrite binding_vals. rewrite <- app_assoc. cbn [app]. unfold len. cbn [length op app]. f_equal. lia.
Qed.
End Clause.

(** The body of a clause, and the way out. *)
Definition clause_ok (ss : list scope) (lps : list (value * Z)) (cl : clause) : Prop :=
  let '(p, g, b) := cl in
  legal_pat p = true /\ alts_ok p = true /\ Forall literal (plits p) /\ (pdepth p <= depth)%nat /\ parsed b = true /\ jumps_ok (length (pvars p)) b = true /\
  Z.of_nat (peak (Z.to_nat (scope_len ss) + length (pvars p)) b) <= 128 /\ room_for ss [] (Datatypes.S (length (pvars p) + Nat.max (need_g g) (need b))) /\ Z.of_nat (length lps) + Z.of_nat (for_depth b) <= 16.

Lemma body_ok n ss p b st bs B pos cps lps lp : ok_s G (case_scope ss p) lp b = true -> incl (lits_s b) K -> parsed b = true -> jumps_ok (length (pvars p)) b = true ->
  Z.of_nat (peak (Z.to_nat (scope_len ss) + length (pvars p)) b) <= 128 -> room_for ss [] (length (pvars p) + need b) -> Z.of_nat (length lps) + Z.of_nat (for_depth b) <= 16 ->
  agree (case_scope ss p) (e_scopes st) -> 0 <= B -> 0 <= pos -> Forall (fun t => 0 <= t <= pos) cps ->
  code_at (B + pos) ((gen_s K (case_scope ss p) pos cps b ++ pops (after (case_scope ss p) b)) ++ bs) ->
  xresd ss ss (B + pos + len (gen_s K (case_scope ss p) pos cps b ++ pops (after (case_scope ss p) b))) (B + brk cps) (B + cont cps) n lps (leaving (Stmt.exec h n b st)) (atp (B + pos) [] st lps).
Proof.
  intros OK LI PA JU PK RM FD A HB HP FC C. rewrite <- app_assoc in C.
  destruct (case_scope_shape ss p) as (t & Et & Lt). assert (NE : case_scope ss p <> []) by (rewrite Et; discriminate).
  assert (SL : scope_len (case_scope ss p) = scope_len ss + Z.of_nat (length (pvars p))) by (rewrite Et, scope_len_cons, Lt; lia). pose proof (scope_len_nonneg ss) as SN.
  assert (R : res (case_scope ss p) (after (case_scope ss p) b) (B + pos + len (gen_s K (case_scope ss p) pos cps b)) (B + brk cps) (B + cont cps) n lps (Stmt.exec h n b st) (atp (B + pos) [] st lps)).
  { eapply (sim_s P h G fp below frames nfp upvs pend clo Hfp Hw Hl Hk HG HGK HKlen n b); try eassumption; [|unfold Sim.room_for in *; rewrite SL; lia].
    rewrite SL. replace (Z.to_nat (scope_len ss + Z.of_nat (length (pvars p)))) with (Z.to_nat (scope_len ss) + length (pvars p))%nat by lia. exact PK. }
  destruct (after_shape b t ss) as (u & Eu & Lu & _). rewrite <- Et in Eu. rewrite Eu in *. cbn [pops] in *. rewrite len_app. assert (LP : len (repeat (op_byte O_POP) (length u)) = Z.of_nat (length u)) by (unfold len; rewrite repeat_length; reflexivity).
  apply code_at_r in C. set (bb := gen_s K (case_scope ss p) pos cps b) in *.
  assert (J : forall sg st', Stmt.exec h n b st = XOk sg st' -> sg <> Normal -> t = []).
  { intros sg st' Es Ns. assert (Z0 : length (pvars p) = O) by (eapply jumps_zero; [..|exact JU|eapply exec_jump; [..|exact Es|exact Ns]]; eassumption). rewrite Z0 in Lt. destruct t; [reflexivity|discriminate]. }
  destruct (Stmt.exec h n b st) as [[| |] st1|o out| |] eqn:Es; cbn [leaving Sim.res xresd] in *.
  - destruct R as (R1 & R2). destruct (agree_cons P HKlen _ _ _ R2) as (b0 & q & E & Lb & Aq). unfold leave. rewrite E. cbn [tl set_escopes e_scopes]. split; [|exact Aq].
    eapply (xto_trans P T tfuel depth 0 0); [apply lift_goes; exact R1|]. rewrite LP, Z.add_assoc, <- Lb, <- (map_length bval b0).
    unfold Sim.atp. cbn [e_scopes e_globals e_out set_escopes app]. rewrite E, map_vals_cons, <- app_assoc. apply lift_goes. eapply (goes_pops P h G fp below); [exact HG|]. rewrite map_length, Lb. exact C.
  - destruct R as (R1 & R2). rewrite Et, (J _ _ eq_refl ltac:(discriminate)) in R2. destruct (agree_cons P HKlen _ _ _ R2) as (b0 & q & E & Lb & Aq). destruct b0; [|discriminate]. unfold leave. rewrite E. cbn [tl set_escopes e_scopes]. split; [|exact Aq].
    eapply xto_le; [apply lift_goes; unfold Sim.atp in *; cbn [e_scopes e_globals e_out set_escopes] in *; rewrite E in R1; exact R1|lia].
  - destruct R as (R1 & R2). rewrite Et, (J _ _ eq_refl ltac:(discriminate)) in R2. destruct (agree_cons P HKlen _ _ _ R2) as (b0 & q & E & Lb & Aq). destruct b0; [|discriminate]. unfold leave. rewrite E. cbn [tl set_escopes e_scopes]. split; [|exact Aq].
    eapply xto_le; [apply lift_goes; unfold Sim.atp in *; cbn [e_scopes e_globals e_out set_escopes] in *; rewrite E in R1; exact R1|lia].
  - apply lift_halts, R.
  - apply lift_runs, R.
  - destruct R.
Qed.

Lemma xto_refl s : xto 0 s s.
Proof. intros m. exists m, O. split; [lia|reflexivity]. Qed.
Lemma xres_np ss np np' bp cp n lps r s : xresd ss ss np bp cp n lps r s -> (forall st', xto 0 (atp np [] st' lps) (atp np' [] st' lps)) -> xresd ss ss np' bp cp n lps r s.
Proof.
  destruct r as [[| |] st'|o out| |]; cbn [xresd]; auto. intros (A & B) H. split; [|exact B]. eapply (xto_trans P T tfuel depth 0 0); [exact A|apply H].
Qed.

(** The value stays where it is when no clause applies. *)
Definition xopt (ss : list scope) (np bp cp : Z) (n : nat) (lps : list (value * Z)) (v : value) (st : env) (o : option xres) (s : vstate) : Prop :=
  match o with Some r => xresd ss ss np bp cp n lps r s | None => xto 0 s (atp np [v] st lps) end.
Lemma xopt_pre i s s1 ss np bp cp n lps v st o : xto i s s1 -> xopt ss np bp cp n lps v st o s1 -> xopt ss np bp cp n lps v st o s.
Proof.
  intros Go. destruct o as [r|]; cbn [xopt]; [apply xres_pre with (1 := Go)|]. intros H. eapply xto_le; [eapply xto_trans; eassumption|lia].
Qed.

Lemma cases_sim n cls : forall ss st B pos cps lps lp bs v, Forall (ok_clause G ss lp) cls -> Forall (clause_ok ss lps) cls -> guards_safe cls = true -> incl (concat (map clause_lits cls)) K ->
  agree ss (e_scopes st) -> 0 <= B -> 0 <= pos -> Forall (fun t => 0 <= t <= pos) cps -> code_at (B + pos) (gen_cases K ss cps pos cls ++ bs) ->
  xopt ss (B + pos + len (gen_cases K ss cps pos cls)) (B + brk cps) (B + cont cps) n lps v st (cases h tables n v st cls) (atp (B + pos) [v] st lps).
Proof.
  induction cls as [|((p, g), b) rest IH]; intros ss st B pos cps lps lp bs v OK CL GS LI A HB HP FC C; [cbn [gen_cases cases xopt]; change (len []) with 0; rewrite Z.add_0_r; apply xto_refl|].
  inversion OK as [|? ? Oc OK']; subst. unfold ok_clause in Oc. destruct Oc as (Og & Ob). inversion CL as [|? ? Cl CL']; subst. cbn [map concat clause_lits] in LI.
  cbn [guards_safe] in GS. apply andb_true_iff in GS. destruct GS as (Gs & GS').
  unfold clause_ok in Cl. destruct Cl as (Lg & Al & Lt & Dp & Pa & Ju & Pk & Rm & Fd).
  assert (Lip : incl (plits p) K) by (intros x Hx; apply LI, in_or_app; left; apply in_or_app; auto).
  assert (Lig : incl (glits g) K) by (intros x Hx; apply LI, in_or_app; left; apply in_or_app; right; apply in_or_app; auto).
  assert (Lib : incl (lits_s b) K) by (intros x Hx; apply LI, in_or_app; left; apply in_or_app; right; apply in_or_app; auto).
  assert (Lir : incl (concat (map clause_lits rest)) K) by (intros x Hx; apply LI, in_or_app; auto). clear LI.
  pose proof (scope_len_nonneg ss) as SN. pose proof (peak_ge P h G below HG b (Z.to_nat (scope_len ss) + length (pvars p))) as PG.
  assert (Sl : scope_len ss + Z.of_nat (length (pvars p)) <= 128) by lia.
  assert (Rm1 : room_for ss [] (Datatypes.S (length (pvars p)))) by (unfold Sim.room_for in *; lia).
  cbn [gen_cases] in C |- *. set (S1 := case_scope ss p) in *. set (gp := gen_pat K (slot_in S1) p) in *. set (mv := case_mv ss p g) in *.
  set (total := case_total K ss cps pos p g b (is_nil rest)) in *. set (R := gen_cases K ss cps (pos + 9 + total) rest) in *.
  set (cg := case_guard K ss cps pos p g b (is_nil rest)) in *. set (bb := case_body K ss cps pos p g b) in *. set (cf := case_fin p g) in *.
  set (br := if is_nil rest then [] else op O_BR_8 ++ enc8 (len cf + len R)) in *.
  assert (Lbr : len br = if is_nil rest then 0 else 9) by (unfold br; destruct (is_nil rest); lens; reflexivity).
  assert (Lcg : len cg = case_glen K ss p g) by (unfold cg, case_guard, case_glen; destruct g; lens; lia).
  assert (Etot : total = len gp + len mv + len cg + len bb + len br + len cf) by (rewrite Lcg, Lbr; unfold total, case_total; fold S1 gp mv bb cf; lia).
  rewrite <- !app_assoc in C.
  pose proof (len_nonneg gp). pose proof (len_nonneg mv). pose proof (len_nonneg cg). pose proof (len_nonneg bb). pose proof (len_nonneg br). pose proof (len_nonneg cf). pose proof (len_nonneg R).
  assert (It : in_i64 total).
  { pose proof (code_at_len P _ _ C) as CL0. rewrite !len_app, len_op, len_enc8 in CL0. destruct HKlen. pose proof (len_nonneg bs). unfold in_i64, int_min, int_max in *. lia. }
  assert (LEN : len (op O_MATCH ++ enc8 total ++ gp ++ mv ++ cg ++ bb ++ br ++ cf ++ R) = 9 + total + len R) by (rewrite !len_app, len_op, len_enc8; lia).
  rewrite LEN.
  (* where the parts are *)
  pose proof (code_at_r P _ _ _ (code_at_r P _ _ _ C)) as Cp. rewrite len_op, len_enc8 in Cp.
  pose proof (code_at_r P _ _ _ Cp) as Cm. pose proof (code_at_r P _ _ _ Cm) as Cg. pose proof (code_at_r P _ _ _ Cg) as Cb. pose proof (code_at_r P _ _ _ Cb) as Cbr. pose proof (code_at_r P _ _ _ Cbr) as Cf. pose proof (code_at_r P _ _ _ Cf) as CR.
  assert (Next : xopt ss (B + pos + (9 + total + len R)) (B + brk cps) (B + cont cps) n lps v st (cases h tables n v st rest) (atp (B + pos + 9 + total) [v] st lps)).
  { replace (B + pos + 9 + total) with (B + (pos + 9 + total)) by lia. replace (B + pos + (9 + total + len R)) with (B + (pos + 9 + total) + len R) by lia.
    eapply IH; [exact OK'|exact CL'|exact GS'|exact Lir|exact A|exact HB|lia|refine (Forall_impl _ _ FC); cbn beta; intros ? ?; lia| ]. fold R. replace (B + (pos + 9 + total)) with (B + pos + 1 + 8 + len gp + len mv + len cg + len bb + len br + len cf) by lia. exact CR. }
  (* the body and the jump behind the rest *)
  assert (Body : forall st1, agree S1 (e_scopes st1) -> xresd ss ss (B + pos + (9 + total + len R)) (B + brk cps) (B + cont cps) n lps (leaving (Stmt.exec h n b st1)) (atp (B + pos + 9 + len gp + len mv + len cg) [] st1 lps)).
  { intros st1 A1. unfold bb, case_body in Cb. fold S1 gp mv in Cb. rewrite <- Lcg in Cb.
    replace (B + pos + 1 + 8 + len gp + len mv + len cg) with (B + (pos + 9 + len gp + len mv + len cg)) in Cb by lia.
    replace (B + pos + 9 + len gp + len mv + len cg) with (B + (pos + 9 + len gp + len mv + len cg)) by lia.
    eapply xres_np; [eapply (body_ok n ss p b st1 _ B (pos + 9 + len gp + len mv + len cg) cps lps lp); try eassumption; [unfold Sim.room_for in *; lia|lia|refine (Forall_impl _ _ FC); cbn beta; intros ? ?; lia]|].
    intros st'. fold S1. unfold bb, case_body in Etot, Cbr. fold S1 gp mv in Etot, Cbr. rewrite <- Lcg in Etot, Cbr. set (L0 := len (gen_s K S1 (pos + 9 + len gp + len mv + len cg) cps b ++ pops (after S1 b))) in *.
    unfold br in Cbr, Lbr, Etot. destruct (is_nil rest) eqn:Nr.
    - assert (Rn : R = []) by (unfold R; destruct rest; [reflexivity|discriminate]).
      assert (Lc : cf = []). { unfold cf, case_fin. destruct g; [|reflexivity]. cbn [guard_safe negb andb] in Gs. rewrite orb_false_r in Gs. destruct (pvars p); [reflexivity|discriminate]. }
      rewrite Rn. rewrite Lc in Etot. change (len []) with 0 in *. replace (B + pos + (9 + total + 0)) with (B + (pos + 9 + len gp + len mv + len cg) + L0) by lia. apply xto_refl.
    - rewrite <- app_assoc in Cbr.
      assert (Id : in_i64 (len cf + len R)). { pose proof (code_at_len P _ _ CR) as CL0. rewrite len_app in CL0. pose proof (len_nonneg bs). destruct HKlen. unfold in_i64, int_min, int_max in *. lia. }
      pose proof (goes_br P h G fp below frames nfp upvs pend clo HG _ (vals (e_scopes st') ++ below) (e_globals st') (e_out st') lps _ _ Cbr Id) as Go.
      eapply xto_le; [apply lift_goes|apply Nat.le_0_l]. unfold Sim.atp. cbn [app].
      rewrite len_app, len_op, len_enc8 in Etot.
      replace (B + pos + (9 + total + len R)) with (B + (pos + 9 + len gp + len mv + len cg) + L0 + 9 + (len cf + len R)) by lia.
      replace (B + (pos + 9 + len gp + len mv + len cg) + L0) with (B + pos + 1 + 8 + len gp + len mv + len cg + L0) by lia. exact Go. }
  cbn [cases]. destruct (pm p v) as [bi|] eqn:Em.
  2:{ eapply xopt_pre; [|exact Next]. eapply match_no; try eassumption. }
  pose proof (binding_agree ss p st A bi) as A1. fold S1 in A1.
  assert (IM : forall m, exists m', xgoes 1 (XS (atp (B + pos) [v] st lps) m) (XS (atp (B + pos + 9 + len gp) [v] st lps) m') /\ forall i, m' i = wr fp (slot_in S1) m bi i).
  { intros m. eapply match_yes; try eassumption. }
  destruct g as [e|].
  - assert (En : xto 0 (atp (B + pos) [v] st lps) (atp (B + pos + 9 + len gp + len mv) [v] (with_bindings st p bi) lps)).
    { intros m. destruct (IM m) as (m' & G1 & W). replace (B + pos + 1 + 8 + len gp) with (B + pos + 9 + len gp) in Cm by lia. destruct (enter_guard ss p st lps v Lg Dp A Sl Rm1 _ e bi m m' _ Cm Em W) as (m2 & G2). exists m2. eapply xgoes_le; [eapply xgoes_trans; [exact G1|exact G2]|lia]. }
    eapply xopt_pre; [exact En|]. unfold cg, case_guard in Cg. rewrite <- !app_assoc in Cg. replace (B + pos + 1 + 8 + len gp + len mv) with (B + pos + 9 + len gp + len mv) in Cg by lia. cbn [need_g] in Rm.
    assert (CLn : scope_len S1 = scope_len ss + Z.of_nat (length (pvars p))) by (destruct (case_scope_shape ss p) as (t & Q1 & Q2); unfold S1; rewrite Q1, scope_len_cons, Q2; lia).
    assert (Sl1 : scope_len S1 <= 128) by lia.
    assert (Rm2 : room_for S1 [v] (need_e e)) by (unfold Sim.room_for in *; rewrite CLn; cbn [length] in *; lia).
    destruct (sim_e P h G fp below frames nfp upvs pend clo Hfp Hw HG HGK HKlen e S1 (with_bindings st p bi) (B + pos + 9 + len gp + len mv) [v] lps _ Og Lig A1 Sl1 Rm2 Cg) as (Ce & Y).
    rewrite Ce. cbn [e_out with_bindings set_escopes] in Y. destruct (eval (h_world h) (rho h (with_bindings st p bi)) e) as [u|er| |]; cbn [Sim.yields] in Y.
    + pose proof (code_at_r P _ _ _ Cg) as Cj. fold S1 in Cj, Lcg. cbn [case_glen] in Lcg. fold S1 in Lcg. set (ge := gen_e K S1 e) in *. fold bb in Cj.
      set (d := 1 + len bb + (if is_nil rest then 0 else 9)) in *.
      assert (Dl : 0 <= d <= len (op O_POP ++ bb ++ br ++ cf ++ R ++ bs)) by (unfold d; rewrite !len_app, len_op, <- Lbr; pose proof (len_nonneg bs); lia).
      pose proof (goes_brf P h G fp below frames nfp upvs pend clo HG HKlen _ u (v :: vals (e_scopes (with_bindings st p bi)) ++ below) (e_globals st) (e_out st) lps d _ Cj Dl) as Gb.
      set (p1 := B + pos + 9 + len gp + len mv + len ge) in *.
      assert (G1 : goes P 0 (atp (B + pos + 9 + len gp + len mv) [v] (with_bindings st p bi) lps) (mk (if is_falsey u then p1 + 9 + d else p1 + 9) (v :: vals (e_scopes (with_bindings st p bi)) ++ below) (e_globals st) (e_out st) lps)).
      { eapply goes_le; [eapply goes_trans; [exact Y|exact Gb]|lia]. }
      eapply xopt_pre; [apply lift_goes; exact G1|]. clear G1 Gb Y.
      pose proof (code_at_r P _ _ _ (code_at_r P _ _ _ Cj)) as Cq. rewrite len_op, len_enc8 in Cq. fold p1 in Cq.
      destruct (is_falsey u) eqn:Fu.
      * (* the guard is falsey *)
        cbn [guard_safe] in Gs. apply orb_true_iff in Gs. replace (p1 + 9 + d) with (B + pos + 1 + 8 + len gp + len mv + len cg + len bb + len br) by (unfold d, p1; rewrite Lcg, Lbr; lia).
        assert (Fin : xto 0 (mk (B + pos + 1 + 8 + len gp + len mv + len cg + len bb + len br) (v :: vals (e_scopes (with_bindings st p bi)) ++ below) (e_globals st) (e_out st) lps) (atp (B + pos + 9 + total) [v] st lps)).
        { rewrite (binding_vals p st bi). unfold bvals. destruct Gs as [Gs|Gs].
          - assert (Pn : pvars p = []) by (destruct (pvars p); [reflexivity|discriminate]). rewrite Pn. cbn [map rev app].
            assert (Cn : cf = []) by (unfold cf, case_fin; rewrite Pn; reflexivity). rewrite Cn in Etot. change (len []) with 0 in Etot.
            replace (B + pos + 9 + total) with (B + pos + 1 + 8 + len gp + len mv + len cg + len bb + len br) by lia. apply xto_refl.
          - apply andb_true_iff in Gs. destruct Gs as (_ & Gs). destruct p; try discriminate. cbn [pmatch] in Em. injection Em as <-. cbn [pvars map rev app fst bound]. unfold name_eqb. destruct (list_eq_dec Z.eq_dec x x); [|congruence].
            change cf with (op O_POP) in *. rewrite len_op in Etot.
            pose proof (goes_pop P fp frames nfp upvs pend clo _ v (v :: vals (e_scopes st) ++ below) (e_globals st) (e_out st) lps _ Cf) as Gp.
            replace (B + pos + 9 + total) with (B + pos + 1 + 8 + len gp + len mv + len cg + len bb + len br + 1) by lia. eapply xto_le; [apply lift_goes; exact Gp|lia]. }
        eapply xopt_pre; [exact Fin|]. exact Next.
      *
        pose proof (goes_pop P fp frames nfp upvs pend clo _ v (vals (e_scopes (with_bindings st p bi)) ++ below) (e_globals st) (e_out st) lps _ Cq) as Gp.
        eapply xopt_pre; [apply lift_goes; replace (p1 + 9) with (p1 + 1 + 8) by lia; exact Gp|].
        pose proof (Body _ A1) as Bd. replace (B + pos + 9 + len gp + len mv + len cg) with (p1 + 1 + 8 + 1) in Bd by (unfold p1; lia). exact Bd.
    + apply lift_halts, Y.
    + apply lift_halts, Y.
    + apply lift_halts, Y.
  - assert (En : xto 0 (atp (B + pos) [v] st lps) (atp (B + pos + 9 + len gp + len mv) [] (with_bindings st p bi) lps)).
    { intros m. destruct (IM m) as (m' & G1 & W). replace (B + pos + 1 + 8 + len gp) with (B + pos + 9 + len gp) in Cm by lia. destruct (enter_plain ss p st lps v Lg Dp A Sl Rm1 _ bi m m' _ Cm Em W) as (m2 & G2). exists m2. eapply xgoes_le; [eapply xgoes_trans; [exact G1|exact G2]|lia]. }
    eapply xopt_pre; [exact En|]. specialize (Body _ A1). unfold cg, case_guard in Body. change (len []) with 0 in Body. rewrite Z.add_0_r in Body. exact Body.
Qed.
End Sim.
