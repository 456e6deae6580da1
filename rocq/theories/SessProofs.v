From Verif Require Import Base Bytes BytesProofs Value Table Ops Ast Stmt Limits Constants VM Compiler ValueProofs TableSpec ConstSpec ConstProofs Gen GenProofs GenProofs2 SimBase Sim Program ProgProofs CompSpec CompProofs CompState.

(** ** Expressions and statements, at any point of a compilation. *)
Lemma get_slot_state s temps es below : v_stk s = temps ++ vals es ++ below -> s = mk (v_fp s) (v_frames s) (v_next_fp s) (v_upv s) (v_pending s) (v_clo s) (v_pc s) (temps ++ vals es ++ below) (v_gl s) (v_out s) (v_loops s).
Proof. intros <-. destruct s; reflexivity. Qed.

Lemma pool_bytes p cs : pooled p cs -> Z.of_nat (length cs) <= Z.of_nat (length (return_bytes p [] [])).
Proof.
  intros (m & PI). unfold return_bytes. rewrite !app_length, (pi_hdr _ _ _ PI). pose proof (enc_consts_len cs (pi_lit _ _ _ PI)). lia.
Qed.
Lemma decls_length es ss : decls_of es = er ss -> Z.of_nat (length (concat es)) = scope_len ss.
Proof.
  unfold scope_len. revert es. induction ss as [|s ss IH]; intros [|b es] E; try discriminate; [reflexivity|]. cbn [decls_of er map] in E. injection E as E1 E2. cbn [concat]. rewrite !app_length, !Nat2Z.inj_add, (IH es E2).
  assert (L : length b = length s) by (apply (f_equal (@length _)) in E1; unfold er1 in E1; rewrite !map_length in E1; exact E1). rewrite L. reflexivity.
Qed.

Section Any.
Variables (fuel : nat) (c c' : cst) (h : host) (P : prog) (s : vstate) (st : env) (below : list value) (pre post : list Z) (K0 more : list value).
Hypothesis Hc : compiling fuel c.
Hypothesis Hd : decls_of (e_scopes st) = er (c_scopes c).
Hypothesis Hg : forall x, h_decl h x = option_map is_const (assoc (c_globals c) x).
Hypothesis Hw : p_world P = h_world h.
Hypothesis Hl : p_list P = h_list h.
Hypothesis Hk : p_keys P = h_keys h.
Hypothesis Hfp : v_fp s = Z.of_nat (length below) - 1.
Hypothesis Hgl : v_gl s = e_globals st.
Hypothesis Hout : v_out s = e_out st.
Hypothesis Hpc : v_pc s = len pre.
Hypothesis HK0 : setup_constants (return_bytes (c_pool c') [] []) = Ok K0.
Hypothesis HKs : Z.of_nat (length (return_bytes (c_pool c') [] [])) <= int_max.
Hypothesis HKP : p_consts P = K0 ++ more.
Hypothesis Hlen : len (p_code P) <= int_max /\ Z.of_nat (length (p_consts P)) <= int_max.

Lemma any_e e temps code : visit_e fuel e c = Ok c' -> Forall literal (lits_e e) -> scope_len (c_scopes c) <= 128 -> c_buf c' = c_buf c ++ code ->
  v_stk s = temps ++ vals (e_scopes st) ++ below -> Z.of_nat (length (v_stk s)) + Z.of_nat (need_e e) <= 1024 -> p_code P = pre ++ code ++ post ->
  match eval (h_world h) (rho h st) e with
  | Ok v => exists n, run n P s = Next (set_stk (set_pc s (v_pc s + len code)) (v :: v_stk s))
  | Err er => exists n s', run n P s = Stop (Err er) s' /\ v_out s' = v_out s
  | UB => exists n s', run n P s = Stop UB s' /\ v_out s' = v_out s
  | NoFuel => exists n s', run n P s = Stop NoFuel s' /\ v_out s' = v_out s
  end.
Proof.
  intros V L S B Hs R C. destruct (compiling_inv _ _ Hc) as [(cs & Pp & G) N Gl Cp]. destruct (visit_e_gen fuel e c c' cs V Pp G L) as (O & cs' & (P' & (ext & Ec) & _ & _ & _ & Bf) & I).
  pose proof (pool_setup _ _ [] [] P' ltac:(pose proof (pool_bytes _ _ P'); lia)) as PS. rewrite HK0 in PS. injection PS as PS. subst K0.
  pose proof (Bf (p_consts P) ltac:(exists more; exact HKP)) as Bc. rewrite B in Bc. apply app_inv_head in Bc.
  pose proof (agree_of _ _ N Hd) as A. pose proof (agree_length _ _ A) as AL.
  destruct (sim_e P h (c_globals c) (v_fp s) below (v_frames s) (v_next_fp s) (v_upv s) (v_pending s) (v_clo s) ltac:(lia) Hw Hg) with (e := e) (ss := c_scopes c) (st := st) (pc := v_pc s) (temps := temps) (lps := v_loops s) (bs := @nil Z) as (_ & Y); auto.
  - rewrite HKP. intros x z Q. apply in_or_app. left. rewrite Ec. apply in_or_app. left. eapply G, Q.
  - rewrite HKP. intros v Hv. apply in_or_app. left. apply I, Hv.
  - unfold room_for. rewrite Hs, !app_length in R. lia.
  - exists pre, post. rewrite app_nil_r, <- Bc. auto.
  - rewrite <- Bc in Y. unfold atp in Y. rewrite <- Hgl, <- Hout in Y. rewrite <- (get_slot_state s temps _ _ Hs) in Y.
    destruct (eval (h_world h) (rho h st) e) as [v|er| |]; cbn [yields] in Y.
    + destruct Y as (n & _ & Y). exists n. rewrite Y. f_equal. unfold mk, set_stk, set_pc. cbn. rewrite Hs. reflexivity.
    + exact Y.
    + exact Y.
    + exact Y.
Qed.

Lemma any_s sm code n : c_scopes c <> [] -> visit_s fuel sm c = Ok c' -> Forall literal (literals sm) -> parsed sm = true -> jumps_ok 0 sm = true ->
  (peak (length (concat (e_scopes st))) sm <= 128)%nat -> c_buf c' = c_buf c ++ code ->
  v_stk s = vals (e_scopes st) ++ below -> Z.of_nat (length (v_stk s)) + Z.of_nat (need sm) <= 1024 -> (length (v_loops s) + for_depth sm <= 16)%nat ->
  p_code P = pre ++ code ++ post -> count c <= len pre ->
  match Stmt.exec h n sm st with
  | XOk sg st' => exists k, run k P s = Next (VS
      (v_pc s + match sg with Normal => len code | Break => brk (c_cps c) - count c | Continue => cont (c_cps c) - count c end)
      (match sg with Break => [VBool false] | _ => [] end ++ vals (e_scopes st') ++ below)
      (v_fp s) (e_globals st') (e_out st') (v_loops s) (v_frames s) (v_next_fp s) (v_upv s) (v_pending s) (v_clo s)) /\
      decls_of (e_scopes st') = match sg with Normal => names_after (decls_of (e_scopes st)) sm | _ => decls_of (e_scopes st) end
  | XStop o out => exists k s', run k P s = Stop o s' /\ v_out s' = out
  | XFuel => exists s', run n P s = Next s'
  | XStuck => False
  end.
Proof.
  intros Ne V L W J Pk B Hs R Fd C Ct. destruct (compiling_inv _ _ Hc) as [(cs & Pp & G) N Gl Cp]. destruct (visit_s_gen fuel sm c c' cs V Ne Pp G (literal_lits _ L) W) as (O & cs' & (P' & (ext & Ec) & _ & _ & _ & Bf) & I).
  pose proof (pool_setup _ _ [] [] P' ltac:(pose proof (pool_bytes _ _ P'); lia)) as PS. rewrite HK0 in PS. injection PS as PS. subst K0.
  pose proof (Bf (p_consts P) ltac:(exists more; exact HKP)) as Bc. rewrite B in Bc. apply app_inv_head in Bc.
  pose proof (agree_of _ _ N Hd) as A. pose proof (agree_length _ _ A) as AL. pose proof (decls_length _ _ Hd) as DL.
  pose proof (sim_s P h (c_globals c) (v_fp s) below (v_frames s) (v_next_fp s) (v_upv s) (v_pending s) (v_clo s) ltac:(lia) Hw Hl Hk Hg) as Sim.
  assert (HGK : gl_in (c_globals c) (p_consts P)) by (rewrite HKP; intros x z Q; apply in_or_app; left; rewrite Ec; apply in_or_app; left; eapply G, Q).
  assert (HI : incl (lits_s sm) (p_consts P)) by (rewrite HKP; intros v Hv; apply in_or_app; left; apply I, Hv).
  assert (Cc : 0 <= count c) by (unfold count; lia).
  specialize (Sim HGK Hlen n sm (c_scopes c) st (len pre - count c) (count c) (c_cps c) (v_loops s) (in_loop c) 0%nat (@nil Z) O HI W J A Ne).
  assert (Q1 : Z.of_nat (peak (Z.to_nat (scope_len (c_scopes c))) sm) <= 128) by (rewrite <- DL, Nat2Z.id; lia).
  assert (Q2 : room_for below (c_scopes c) [] (need sm)) by (unfold room_for; rewrite Hs, !app_length in R; cbn [length]; lia).
  specialize (Sim Q1 Q2 ltac:(lia) ltac:(lia) Cc Cp).
  replace (len pre - count c + count c) with (len pre) in Sim by lia.
  assert (Q3 : code_at P (len pre) (gen_s (p_consts P) (c_scopes c) (count c) (c_cps c) sm ++ [])) by (exists pre, post; rewrite app_nil_r, <- Bc; auto).
  specialize (Sim Q3). rewrite <- Bc, <- Hpc in Sim. unfold atp in Sim at 1. rewrite <- Hgl, <- Hout in Sim. rewrite <- (get_slot_state s [] _ _ Hs) in Sim.
  destruct (Stmt.exec h n sm st) as [sg st'|o out| |]; cbn [res] in Sim.
  - destruct sg.
    + destruct Sim as ((k & _ & E) & A'). exists k. split; [rewrite E; reflexivity|]. rewrite (agree_decls _ _ A'), er_after, <- Hd. reflexivity.
    + destruct Sim as ((k & _ & E) & A'). exists k. split; [rewrite E|rewrite (agree_decls _ _ A'), <- Hd; reflexivity]. unfold atp, mk. f_equal. f_equal. lia.
    + destruct Sim as ((k & _ & E) & A'). exists k. split; [rewrite E|rewrite (agree_decls _ _ A'), <- Hd; reflexivity]. unfold atp, mk. f_equal. f_equal. lia.
  - exact Sim.
  - destruct Sim as (k & s' & Lk & E). replace k with (n + (k - n))%nat in E by lia. rewrite run_app in E. destruct (run n P s) as [s1| |]; [eauto|discriminate..].
  - exact Sim.
Qed.
End Any.

(** ** Slots of live variables are distinct. *)
Lemma numbered1_nodup base s : 0 <= base -> numbered1 base s -> NoDup (map (fun p => get_index (snd p)) s) /\ forall i, In i (map (fun p => get_index (snd p)) s) -> base <= i < base + Z.of_nat (length s).
Proof.
  intros Hb. induction s as [|(x, z) s IH]; cbn [numbered1 map length]; intros H; [split; [constructor|intros i []]|]. destruct H as (E & H). destruct (IH H) as (A & B). cbn [snd] in *. rewrite E. split.
  - constructor; [|exact A]. intros I. apply B in I. lia.
  - intros i [<-|I]; [lia|]. apply B in I. lia.
Qed.
Lemma numbered_nodup ss : numbered ss -> NoDup (map (fun p => get_index (snd p)) (concat ss)) /\ forall i, In i (map (fun p => get_index (snd p)) (concat ss)) -> 0 <= i < scope_len ss.
Proof.
  induction ss as [|s ss IH]; cbn [numbered concat]; intros H; [split; [constructor|intros i []]|]. destruct H as (H1 & H2). destruct (IH H2) as (A & B). pose proof (scope_len_nonneg ss).
  destruct (numbered1_nodup (scope_len ss) s ltac:(assumption) H1) as (A1 & B1). rewrite scope_len_cons, map_app. split.
  - set (m1 := map (fun p => get_index (snd p)) s) in *. set (m2 := map (fun p => get_index (snd p)) (concat ss)) in *. clearbody m1 m2. clear - A A1 B B1. induction m1 as [|i l IHl]; cbn; [exact A|]. inversion A1; subst. constructor.
    + rewrite in_app_iff. intros [I|I]; [contradiction|]. apply B in I. specialize (B1 i (or_introl eq_refl)). lia.
    + apply IHl; auto. intros j J. apply B1. right. exact J.
  - intros i I. apply in_app_iff in I. destruct I as [I|I]; [apply B1 in I|apply B in I]; lia.
Qed.

(** ** Several programs on one state. *)
Lemma compile_next fuel pr c code c2 : compile fuel pr c = Ok (code, c2) -> cinv c -> c_buf c = [] -> c_scopes c = [] -> c_cps c = [] -> Forall literal (literals (body pr)) -> parsed (body pr) = true ->
  exists cs, ok_top (c_globals c) [[]] pr = true /\ pooled (c_pool c2) cs /\ gl_in (c_globals c) cs /\ incl (lits_s (body pr)) cs /\ code = gen_top cs [[]] pr.
Proof.
  intros E [(cs & P & G) _ _ _] B S C Fl W. unfold compile in E. destruct (compile_stmts fuel pr [] (enter_scope c)) as [[code1 c1]| | |] eqn:CS; try discriminate. cbn [bind fst snd] in E. injection E as <- <-.
  destruct (compile_stmts_gen fuel pr [] (enter_scope c) code1 c1 cs CS) as (O & cs' & P2 & (ext & Ecs) & I & Bf); auto; try (unfold enter_scope; cbn [set_scopes c_scopes]; rewrite ?S; discriminate).
  unfold enter_scope in O, Bf. cbn [set_scopes c_globals c_scopes] in O, Bf. rewrite S in O, Bf.
  exists cs'. split; [exact O|]. split; [unfold exit_scope; destruct (c_scopes c1); exact P2|]. split; [rewrite Ecs; apply gl_in_ext, G|]. split; [exact I|].
  specialize (Bf cs' ltac:(exists []; rewrite app_nil_r; reflexivity)). exact Bf.
Qed.

Lemma program_next fuel gs pr lines c code c2 w ls ks gl out n bytes :
  compile fuel pr c = Ok (code, c2) -> bytes = return_bytes (c_pool c2) code lines -> cinv c -> c_buf c = [] -> c_scopes c = [] -> c_cps c = [] -> good_globals (c_globals c) gs ->
  Z.of_nat (length bytes) <= int_max ->
  Forall literal (literals (body pr)) -> parsed (body pr) = true -> jumps_ok 0 (body pr) = true ->
  (peak 0 (body pr) <= 128)%nat -> (need (body pr) <= 1024)%nat -> (for_depth (body pr) <= 16)%nat ->
  exists P, load bytes w ls ks = Ok P /\
  match Stmt.exec (host_of w ls ks gs) n (body pr) (Env [[]] gl out) with
  | XOk Normal st => exists k, run k P (top 0 (Env [[]] gl out)) = Stop (Ok tt) (VS (len code + 1) (vals (e_scopes st)) (-1) (e_globals st) (e_out st) [] [] (-1) [] [] []) /\ decls_of (e_scopes st) = names_after [[]] (body pr)
  | XOk _ _ | XStuck => False
  | XStop o out' => exists k s, run k P (top 0 (Env [[]] gl out)) = Stop o s /\ v_out s = out'
  | XFuel => exists s, run n P (top 0 (Env [[]] gl out)) = Next s
  end.
Proof.
  intros E EB CI Bc Sc Cc Go LB Fl W J Pk Rm Fd. destruct (compile_next _ _ _ _ _ E CI Bc Sc Cc Fl W) as (cs & O & Pp & Gl & I & Eg).
  assert (Lh : Z.of_nat (length (cp_hdr (c_pool c2))) + Z.of_nat (length code) + 25 + Z.of_nat (length lines) = Z.of_nat (length bytes)).
  { rewrite EB. unfold return_bytes. rewrite !app_length, !enc8_length. cbn [length]. lia. }
  assert (Lc : Z.of_nat (length cs) <= Z.of_nat (length (cp_hdr (c_pool c2)))).
  { destruct Pp as (m & PI). rewrite (pi_hdr _ _ _ PI). pose proof (enc_consts_len cs (pi_lit _ _ _ PI)). lia. }
  destruct (layout_ok (c_pool c2) code lines ltac:(lia)) as (e & E1 & E2 & E3). rewrite <- EB in E1, E3.
  unfold load. rewrite E1. cbn [bind]. pose proof (pool_setup (c_pool c2) cs code lines Pp ltac:(lia)) as PS. rewrite <- EB in PS. rewrite PS. cbn [bind]. rewrite E3.
  eexists. split; [reflexivity|]. set (P := Prog (code ++ [Constants.O_HALT] ++ lines) cs w ls ks).
  assert (C : code_at P 0 (code ++ [Constants.O_HALT] ++ lines)) by (exists [], []; rewrite app_nil_r; split; reflexivity).
  pose proof (sim_top P (host_of w ls ks gs) (c_globals c) eq_refl eq_refl eq_refl (fun x => eq_sym (Go x)) Gl) as S.
  assert (HK : len (p_code P) <= int_max /\ Z.of_nat (length (p_consts P)) <= int_max).
  { cbn [P p_code p_consts]. unfold len. rewrite !app_length. cbn [length]. lia. }
  rewrite Eg in C. specialize (S HK n pr [[]] (Env [[]] gl out) 0 0%nat ([Constants.O_HALT] ++ lines) O I W J (conj Logic.I Logic.I) ltac:(discriminate)).
  change (Z.to_nat (scope_len [[]])) with 0%nat in S. change (scope_len [[]]) with 0 in S. specialize (S ltac:(lia) ltac:(lia) ltac:(lia) ltac:(lia) C). rewrite <- Eg in C.
  cbn [P p_consts] in S. fold P in S. rewrite <- Eg in S.
  destruct (Stmt.exec (host_of w ls ks gs) n (body pr) (Env [[]] gl out)) as [[| |] st|o out'| |]; try exact S.
  - destruct S as ((k & _ & S) & AG). apply code_at_r in C.
    exists (k + 1)%nat. split; [|rewrite (agree_decls _ _ AG), er_after; reflexivity]. rewrite run_app, S. cbn [run]. change [Constants.O_HALT] with (op VM.O_HALT) in C. rewrite (step_op P _ VM.O_HALT lines) by (exact C). cbn [VM.exec]. f_equal. unfold top, atp, mk, set_pc. cbn. rewrite app_nil_r. reflexivity.
  - destruct S as (k & s' & L & S). assert (Q : exists s, run n P (top 0 (Env [[]] gl out)) = Next s); [|exact Q].
    replace k with (n + (k - n))%nat in S by lia. rewrite run_app in S. destruct (run n P (top 0 (Env [[]] gl out))) as [s1| |]; [eauto|discriminate..].
Qed.
