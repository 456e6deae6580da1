(** Whole programs with lists and tables (proofs only). *)
From Verif Require Import Base Bytes BytesProofs Value Table Ops Text Ast Stmt Limits Constants VM Compiler ValueProofs TableSpec ConstSpec ConstProofs Gen GenProofs GenProofs2 SimBase Program ProgProofs CallSpec CallProofs Heap HeapSpec HeapSpec2 HeapProofs HeapProofs2 PropHeap PropHeap2 PropHeap3 Obj ObjCompiler ObjGen ObjGen2 ObjFacts ObjSim.
Local Open Scope list_scope.
Local Open Scope Z_scope.

Fixpoint gen_otop (K : list value) (ss : list scope) (l : list ostmt) : list Z :=
  match l with [] => [] | s :: r => gen_os K ss 0 [] s ++ gen_otop K (after_o ss s) r end.
Fixpoint ok_otop (G : scope) (ss : list scope) (l : list ostmt) : bool :=
  match l with [] => true | s :: r => ok_os G ss false s && ok_otop G (after_o ss s) r end.
Lemma literal_lits_o s : Forall literal (literals_o s) -> Forall literal (lits_os s).
Proof. rewrite !Forall_forall. intros H v Hv. apply H, lits_os_incl, Hv. Qed.

Lemma compile_ostmts_gen fuel l : forall code c code' c' cs, compile_ostmts fuel l code c = Ok (code', c') -> c_buf c = [] -> c_cps c = [] -> c_scopes c <> [] ->
  pooled (c_pool c) cs -> gl_in (c_globals c) cs -> Forall literal (literals_o (body_o l)) -> parsed_o (body_o l) = true ->
  ok_otop (c_globals c) (c_scopes c) l = true /\
  exists cs', pooled (c_pool c') cs' /\ (exists ext, cs' = cs ++ ext) /\ incl (lits_os (body_o l)) cs' /\
    forall K, extends cs' K -> code' = code ++ gen_otop K (c_scopes c) l.
Proof.
  induction l as [|s l IH]; intros code c code' c' cs E Hb Hc N P G L W; cbn [compile_ostmts] in E.
  - injection E as <- <-. split; [reflexivity|]. exists cs. split; [exact P|]. split; [exists []; rewrite app_nil_r; reflexivity|]. split; [apply incl_nil_l|]. intros K _. cbn [gen_otop]. rewrite app_nil_r. reflexivity.
  - cbn [body_o fold_right literals_o parsed_o] in L, W. apply Forall_app in L. destruct L as (L1 & L2). apply andb_true_iff in W. destruct W as (W1 & W2).
    destruct (visit_os fuel s c) as [c1| | |] eqn:V; try discriminate. cbn [bind] in E.
    destruct (visit_os_gen fuel s c c1 cs V N P G (literal_lits_o _ L1) (parsed_shaped _ W1)) as (O1 & cs1 & R1 & I1).
    destruct R1 as (P1 & (ext & Ecs) & S1 & G1 & C1 & B1).
    destruct (IH (code ++ c_buf c1) (set_buf c1 []) code' c' cs1 E) as (O2 & cs2 & P2 & (ext2 & Ecs2) & I2 & B2); cbn [set_buf c_buf c_cps c_scopes c_pool c_globals].
    + reflexivity.
    + congruence.
    + rewrite S1. apply after_nonempty_o, N.
    + exact P1.
    + rewrite G1, Ecs. apply gl_in_ext, G.
    + exact L2.
    + exact W2.
    + cbn [set_buf c_globals c_scopes] in O2, B2. rewrite G1, S1 in O2. rewrite S1 in B2. split.
      * cbn [ok_otop]. unfold in_loop in O1. rewrite Hc in O1. rewrite O1. exact O2.
      * exists cs2. split; [exact P2|]. split; [exists (ext ++ ext2); rewrite app_assoc, <- Ecs; exact Ecs2|]. split.
        -- cbn [body_o fold_right lits_os]. apply incl_app; [|exact I2]. intros v Hv. rewrite Ecs2. apply in_or_app. left. apply I1, Hv.
        -- intros K HK. rewrite (B2 K HK). cbn [gen_otop]. rewrite (B1 K). 2:{ destruct HK as (m & ->). rewrite Ecs2, <- app_assoc. eauto. }
           unfold count. rewrite Hb, Hc. cbn [app length Z.of_nat]. rewrite <- app_assoc. reflexivity.
Qed.

(** no jump leaves a statement that is not in a loop *)
Lemma jumps_any G s : forall ss d d', ok_os G ss false s = true -> jumps_ok_o d s = true -> jumps_ok_o d' s = true.
Proof.
  induction s as [|a IHa b IHb|e|k x e|x e|c i v|b IHb|c a IHa|c a IHa b IHb|c b IHb|c b IHb p IHp|x e b IHb| | |e|e]; intros ss d d' O J; cbn [ok_os jumps_ok_o] in *; try reflexivity; try discriminate; eauto.
  - apply andb_true_iff in O. destruct O as (O1 & O2). apply andb_true_iff in J. destruct J as (J1 & J2). apply andb_true_iff. eauto.
  - apply andb_true_iff in O. destruct O as (O1 & O2). eauto.
  - apply andb_true_iff in O. destruct O as (O & O3). apply andb_true_iff in O. destruct O as (O1 & O2). apply andb_true_iff in J. destruct J as (J1 & J2). apply andb_true_iff. eauto.
Qed.

Section R.
Variable fuel : nat.
Variable P : prog.
Variable h : host.
Variable G : scope.
Variable D : nat.
Notation K := (p_consts P).
Notation w := (h_world h).
Hypothesis HF : enough_fuel fuel.
Hypothesis HG : forall x, h_decl h x = option_map is_const (assoc G x).
Hypothesis HGK : gl_in G K.
Hypothesis HKlen : len (p_code P) <= int_max /\ Z.of_nat (length K) <= int_max.
Hypothesis HW : float_texts w.
Definition topo (pc : Z) (st : ost) : vstate := atp (-1) [] [] [] [] pc [] (o_env st) [] ([], -1).

Lemma sim_otop n l : forall ss st hp B d bs,
  ok_otop G ss l = true -> incl (lits_os (body_o l)) K -> parsed_o (body_o l) = true -> jumps_ok_o d (body_o l) = true -> agree ss (e_scopes (o_env st)) -> ss <> [] ->
  Z.of_nat (peak_o (Z.to_nat (scope_len ss)) (body_o l)) <= 128 -> scope_len ss + Z.of_nat (need_o (body_o l)) + 3 * Z.of_nat D + 32 <= 1024 -> Z.of_nat (for_depth_o (body_o l)) <= 16 ->
  0 <= B -> good_st st hp -> code_at P B (gen_otop K ss l ++ bs) ->
  sim fuel P h n outo (topo B st, hp) (exec_o h D n (body_o l) st)
    (fun sg st' c => sg = Normal /\ exists hp', c = (topo (B + len (gen_otop K ss l)) st', hp') /\ good_st st' hp').
Proof.
  induction l as [|s l IH]; intros ss st hp B d bs O L W J A N Pk Rm Fd HB Gs C.
  - refine (sim_done fuel P h [] n outo _ Normal st _ _). split; [reflexivity|]. exists hp. cbn [gen_otop]. change (len []) with 0. rewrite Z.add_0_r. auto.
  - cbn [body_o fold_right parsed_o jumps_ok_o peak_o need_o for_depth_o lits_os gen_otop ok_otop] in *. fold (body_o l) in *. apply andb_true_iff in O. destruct O as (O1 & O2). apply andb_true_iff in W. destruct W as (W1 & W2). apply andb_true_iff in J. destruct J as (J1 & J2).
    rewrite <- app_assoc in C. cbn [exec_o]. pose proof (scope_len_nonneg ss).
    pose proof (sim_s_o fuel P h G (-1) [] [] [] [] HF eq_refl HG HGK HKlen D HW n s ss st hp B 0 [] [] false 1%nat ([], -1) (gen_otop K (after_o ss s) l ++ bs) O1 (ObjSim.incl_l _ _ _ L) W1 (jumps_any _ _ _ _ _ O1 J1) A N ltac:(lia)
      ltac:(split; cbn [length fst]; lia) ltac:(cbn [length]; lia) HB ltac:(lia) (Forall_nil _) Gs ltac:(rewrite Z.add_0_r; exact C)) as R.
    rewrite Z.add_0_r in R. eapply (sim_bind fuel P h []); [exact R|]. intros sg st1 c1 (hp1 & -> & A1 & G1 & _ & D1). destruct sg; [|specialize (D1 ltac:(discriminate)); discriminate..].
    pose proof (after_len_o P [] s ss N) as AL. apply code_at_r in C. pose proof (len_nonneg (gen_os K ss 0 [] s)).
    pose proof (IH (after_o ss s) st1 hp1 (B + len (gen_os K ss 0 [] s)) (d + decls_o s)%nat bs O2 (ObjSim.incl_r _ _ _ L) W2 J2 A1 (after_nonempty_o _ _ N)) as I1.
    replace (Z.to_nat (scope_len (after_o ss s))) with (Z.to_nat (scope_len ss) + decls_o s)%nat in I1 by lia.
    specialize (I1 ltac:(lia) ltac:(lia) ltac:(lia) ltac:(lia) G1 C). rewrite len_app, Z.add_assoc. exact I1.
Qed.
End R.

Lemma compile_oinv fuel gs pr lines bytes : compile_oprogram fuel gs pr lines = Ok bytes -> Forall (fun x => literal (VStr x)) gs ->
  Forall literal (literals_o (body_o pr)) -> parsed_o (body_o pr) = true ->
  exists G p cs, good_globals G gs /\ ok_otop G [[]] pr = true /\ pooled p cs /\ gl_in G cs /\ incl (lits_os (body_o pr)) cs /\
    bytes = return_bytes p (gen_otop cs [[]] pr) lines.
Proof.
  intros E Fg Fl W. unfold compile_oprogram in E. destruct compiler_new as [c0| | |] eqn:N; try discriminate. cbn [bind] in E. unfold compiler_new in N.
  destruct pool_new as [p0| | |] eqn:Np; try discriminate. cbn [bind] in N. injection N as <-.
  destruct (declglobals fuel gs _) as [c1| | |] eqn:D; try discriminate. cbn [bind] in E.
  destruct (declglobals_gen fuel gs _ c1 [] [] D) as (cs1 & P1 & G1 & Go & B1 & C1 & S1); cbn [c_pool c_globals c_buf c_cps c_scopes]; auto.
  { apply pool_new_inv, Np. }
  { intros x z H. discriminate. }
  { intros x. reflexivity. }
  unfold compile_o in E. destruct (compile_ostmts fuel pr [] (enter_scope c1)) as [[code c2]| | |] eqn:CS; try discriminate. cbn [bind fst snd] in E. injection E as <-.
  destruct (compile_ostmts_gen fuel pr [] (enter_scope c1) code c2 cs1 CS) as (O & cs' & P2 & (ext & Ecs) & I & B); auto; try (unfold enter_scope; cbn [set_scopes c_scopes]; rewrite ?S1; discriminate).
  unfold enter_scope in O, B. cbn [set_scopes c_globals c_scopes] in O, B. rewrite S1 in O, B.
  exists (c_globals c1), (c_pool c2), cs'. split; [exact Go|]. split; [exact O|]. split; [exact P2|]. split; [rewrite Ecs; apply gl_in_ext, G1|]. split; [exact I|].
  replace (c_pool (exit_scope c2)) with (c_pool c2) by (unfold exit_scope; destruct (c_scopes c2); reflexivity).
  specialize (B cs' ltac:(exists []; rewrite app_nil_r; reflexivity)). cbn [app] in B. rewrite B. reflexivity.
Qed.
Lemma complete_new : complete mem_new.
Proof. split; intros p x E; discriminate E. Qed.

Lemma oprogram_ok fuel cfuel gs pr lines bytes w ls ks D hp0 :
  enough_fuel fuel -> float_texts w -> heap_new fuel = Ok hp0 ->
  compile_oprogram cfuel gs pr lines = Ok bytes -> Z.of_nat (length bytes) <= int_max ->
  Forall (fun x => literal (VStr x)) gs -> Forall literal (literals_o (body_o pr)) -> parsed_o (body_o pr) = true -> jumps_ok_o 0 (body_o pr) = true ->
  (peak_o 0 (body_o pr) <= 128)%nat -> (need_o (body_o pr) + 3 * D + 32 <= 1024)%nat -> (for_depth_o (body_o pr) <= 16)%nat ->
  exists P, load bytes w ls ks = Ok P /\ forall gl n, exists r, exec_o (host_of w ls ks gs) D n (body_o pr) (OST (Env [[]] gl []) mem_new (fun _ => O)) r /\
  match r with
  | Done sg st => sg = Normal /\ exists k s hp, h_run fuel w P k (vm_start gl) hp0 = HStop (Ok tt) s hp /\ v_out s = e_out (o_env st) /\ v_gl s = e_globals (o_env st) /\ shows hp (o_mem st)
  | Stop e st => exists k s hp, h_run fuel w P k (vm_start gl) hp0 = HStop (Err e) s hp /\ v_out s = e_out (o_env st)
  | Fuel => exists s hp, h_run fuel w P n (vm_start gl) hp0 = HNext s hp
  | Stuck => False
  | Open => True
  end.
Proof.
  intros HF HW HN E LB Fg Fl W J Pk Rm Fd. destruct (compile_oinv _ _ _ _ _ E Fg Fl W) as (G & p & cs & Go & OK & Pp & Gl & I & EB).
  set (code := gen_otop cs [[]] pr) in *.
  assert (Lh : Z.of_nat (length (cp_hdr p)) + Z.of_nat (length code) + 25 + Z.of_nat (length lines) = Z.of_nat (length bytes)).
  { rewrite EB. unfold return_bytes. rewrite !app_length, !enc8_length. cbn [length]. lia. }
  assert (Lc : Z.of_nat (length cs) <= Z.of_nat (length (cp_hdr p))).
  { destruct Pp as (m & PI). rewrite (pi_hdr _ _ _ PI). pose proof (enc_consts_len cs (pi_lit _ _ _ PI)). lia. }
  destruct (layout_ok p code lines ltac:(lia)) as (e & E1 & E2 & E3). rewrite <- EB in E1, E3.
  unfold load. rewrite E1. cbn [bind]. pose proof (pool_setup p cs code lines Pp ltac:(lia)) as PS. rewrite <- EB in PS. rewrite PS. cbn [bind]. rewrite E3.
  eexists. split; [reflexivity|]. set (P := Prog (code ++ [Constants.O_HALT] ++ lines) cs w ls ks). intros gl n.
  assert (C : code_at P 0 (code ++ [Constants.O_HALT] ++ lines)) by (exists [], []; rewrite app_nil_r; split; reflexivity).
  assert (HK : len (p_code P) <= int_max /\ Z.of_nat (length (p_consts P)) <= int_max).
  { cbn [P p_code p_consts]. unfold len. rewrite !app_length. cbn [length]. lia. }
  destruct (heap_new_ok fuel HF) as (hp0' & HN' & Sh0). assert (hp0' = hp0) by congruence. subst hp0'.
  pose proof (sim_otop fuel P (host_of w ls ks gs) G D HF (fun x => eq_sym (Go x)) Gl HK HW n pr [[]] (OST (Env [[]] gl []) mem_new (fun _ => 0%nat)) hp0 0 0%nat ([Constants.O_HALT] ++ lines) OK I W J (conj Logic.I Logic.I) ltac:(discriminate)) as S.
  change (Z.to_nat (scope_len [[]])) with 0%nat in S. change (scope_len [[]]) with 0 in S. specialize (S ltac:(lia) ltac:(lia) ltac:(lia) ltac:(lia) (conj Sh0 complete_new) C).
  change (topo 0 (OST (Env [[]] gl []) mem_new (fun _ => 0%nat))) with (vm_start gl) in S. change (h_world (host_of w ls ks gs)) with w in S.
  destruct S as (r & Hr & S). exists r. split; [exact Hr|]. destruct r as [sg st|er st| | |]; try exact S.
  - destruct S as (c' & (k & _ & Rk) & -> & hp & -> & (Sh & _)). split; [reflexivity|]. fold code in Rk. cbn [P p_consts] in Rk. fold P in Rk. apply code_at_r in C. cbn [Z.add] in C. cbn [fst snd] in Rk.
    exists (k + 1)%nat. eexists _, hp. split; [|split; [|split; [|exact Sh]]].
    + pose proof (runc_app fuel P (host_of w ls ks gs) k 1 (vm_start gl, hp0)) as RA. rewrite Rk in RA. unfold runc in RA. cbn [fst snd] in RA. change (h_world (host_of w ls ks gs)) with w in RA. rewrite RA. cbn [h_run].
      change [Constants.O_HALT] with (op VM.O_HALT) in C. rewrite (step_plain fuel w P _ hp VM.O_HALT (code_next P _ _ _ (topo (0 + len (gen_otop cs [[]] pr)) st) C eq_refl) Logic.I). cbn [VM.exec with_heap]. reflexivity.
    + reflexivity.
    + reflexivity.
  - destruct S as (k & s' & hp & L & Rk). replace k with (n + (k - n))%nat in Rk by lia. rewrite runc_app in Rk. assert (Q : exists s hp, runc fuel P (host_of w ls ks gs) n (vm_start gl, hp0) = HNext s hp); [|exact Q].
    destruct (runc fuel P (host_of w ls ks gs) n (vm_start gl, hp0)) as [s1 h1|o1 s1 h1|]; [eauto|discriminate Rk..].
Qed.
