From Verif Require Import Base Bytes BytesProofs Value Table Ops Ast Stmt Limits Constants VM Compiler ValueProofs TableSpec ConstSpec ConstProofs Gen GenProofs GenProofs2 SimBase Sim Program.

(** ** The code of a list of top-level statements. *)
Fixpoint gen_top (K : list value) (ss : list scope) (l : list stmt) : list Z :=
  match l with [] => [] | s :: r => gen_s K ss 0 [] s ++ gen_top K (after ss s) r end.
Fixpoint ok_top (G : scope) (ss : list scope) (l : list stmt) : bool :=
  match l with [] => true | s :: r => ok_s G ss false s && ok_top G (after ss s) r end.

Lemma lits_s_incl s : incl (lits_s s) (literals s).
Proof.
  induction s; cbn [lits_s literals]; try apply incl_refl; auto;
    repeat match goal with |- context [if ?b then _ else _] => destruct b end;
    unfold incl in *; intros v Hv; repeat rewrite in_app_iff in *; try (destruct Hv; fail); repeat (destruct Hv as [Hv|Hv]); auto.
Qed.
Lemma literal_lits s : Forall literal (literals s) -> Forall literal (lits_s s).
Proof. rewrite !Forall_forall. intros H v Hv. apply H, lits_s_incl, Hv. Qed.

Section G.
Variable fuel : nat.
Lemma compile_stmts_gen l : forall code c code' c' cs, compile_stmts fuel l code c = Ok (code', c') -> c_buf c = [] -> c_cps c = [] -> c_scopes c <> [] ->
  pooled (c_pool c) cs -> gl_in (c_globals c) cs -> Forall literal (literals (body l)) -> parsed (body l) = true ->
  ok_top (c_globals c) (c_scopes c) l = true /\
  exists cs', pooled (c_pool c') cs' /\ (exists ext, cs' = cs ++ ext) /\ incl (lits_s (body l)) cs' /\
    forall K, extends cs' K -> code' = code ++ gen_top K (c_scopes c) l.
Proof.
  induction l as [|s l IH]; intros code c code' c' cs E Hb Hc N P G L W; cbn [compile_stmts] in E.
  - injection E as <- <-. split; [reflexivity|]. exists cs. split; [exact P|]. split; [exists []; rewrite app_nil_r; reflexivity|]. split; [apply incl_nil_l|]. intros K _. cbn [gen_top]. rewrite app_nil_r. reflexivity.
  - cbn [body fold_right literals parsed] in L, W. apply Forall_app in L. destruct L as (L1 & L2). apply andb_true_iff in W. destruct W as (W1 & W2).
    destruct (visit_s fuel s c) as [c1| | |] eqn:V; try discriminate. cbn [bind] in E.
    destruct (visit_s_gen fuel s c c1 cs V N P G (literal_lits _ L1) W1) as (O1 & cs1 & R1 & I1).
    destruct R1 as (P1 & (ext & Ecs) & S1 & G1 & C1 & B1).
    destruct (IH (code ++ c_buf c1) (set_buf c1 []) code' c' cs1 E) as (O2 & cs2 & P2 & (ext2 & Ecs2) & I2 & B2); cbn [set_buf c_buf c_cps c_scopes c_pool c_globals].
    + reflexivity.
    + congruence.
    + rewrite S1. apply after_nonempty, N.
    + exact P1.
    + rewrite G1, Ecs. apply gl_in_ext, G.
    + exact L2.
    + exact W2.
    + cbn [set_buf c_globals c_scopes] in O2, B2. rewrite G1, S1 in O2. rewrite S1 in B2. split.
      * cbn [ok_top]. unfold in_loop in O1. rewrite Hc in O1. rewrite O1. exact O2.
      * exists cs2. split; [exact P2|]. split; [exists (ext ++ ext2); rewrite app_assoc, <- Ecs; exact Ecs2|]. split.
        -- cbn [body fold_right lits_s]. apply incl_app; [|exact I2]. intros v Hv. rewrite Ecs2. apply in_or_app. left. apply I1, Hv.
        -- intros K HK. rewrite (B2 K HK). cbn [gen_top]. rewrite (B1 K). 2:{ destruct HK as (m & ->). rewrite Ecs2, <- app_assoc. eauto. }
           unfold count. rewrite Hb, Hc. cbn [app length Z.of_nat]. rewrite <- app_assoc. reflexivity.
Qed.
End G.

(** ** Running the list. *)
Lemma after_len' s ss : ss <> [] -> scope_len (after ss s) = scope_len ss + Z.of_nat (decls s).
Proof. intros N. destruct ss as [|t r]; [congruence|]. destruct (after_shape s t r) as (u & E & L & _). rewrite E, !scope_len_cons, L. lia. Qed.
Lemma no_jump G s : forall ss, ok_s G ss false s = true -> has_jump s = false.
Proof.
  induction s as [|a IHa b IHb|e|x e|x e|ls rs|x e|b IHb|c a IHa|c a IHa b IHb|c b IHb|c b IHb post IHp|x e b IHb| | |e|e|s IH]; intros ss O; cbn [ok_s has_jump] in *; try reflexivity; try discriminate; eauto.
  - apply andb_true_iff in O. destruct O as (O1 & O2). rewrite (IHa _ O1), (IHb _ O2). reflexivity.
  - apply andb_true_iff in O. destruct O as (O1 & O2). eauto.
  - apply andb_true_iff in O. destruct O as (O & O3). apply andb_true_iff in O. destruct O as (O1 & O2). rewrite (IHa _ O2), (IHb _ O3). reflexivity.
Qed.

Section R.
Variable P : prog.
Variable h : host.
Variable G : scope.
Notation K := (p_consts P).
Hypothesis Hw : p_world P = h_world h.
Hypothesis Hl : p_list P = h_list h.
Hypothesis Hk : p_keys P = h_keys h.
Hypothesis HG : forall x, h_decl h x = option_map is_const (assoc G x).
Hypothesis HGK : gl_in G K.
Hypothesis HKlen : len (p_code P) <= int_max /\ Z.of_nat (length K) <= int_max.

(** The machine outside any function. *)
Definition top (pc : Z) (st : env) : vstate := atp (-1) [] [] (-1) [] [] [] pc [] st [].

Lemma sim_top n l : forall ss st B d bs,
  ok_top G ss l = true -> incl (lits_s (body l)) K -> parsed (body l) = true -> jumps_ok d (body l) = true -> agree ss (e_scopes st) -> ss <> [] ->
  Z.of_nat (peak (Z.to_nat (scope_len ss)) (body l)) <= 128 -> scope_len ss + Z.of_nat (need (body l)) <= 1024 -> Z.of_nat (for_depth (body l)) <= 16 ->
  0 <= B -> code_at P B (gen_top K ss l ++ bs) ->
  match Stmt.exec h n (body l) st with
  | XOk Normal st' => goes P 0 (top B st) (top (B + len (gen_top K ss l)) st') /\ agree (after ss (body l)) (e_scopes st')
  | XOk _ _ | XStuck => False
  | XStop o out => halts P (top B st) o out
  | XFuel => runs_on P (top B st) n
  end.
Proof.
  induction l as [|s l IH]; intros ss st B d bs O L W J A N Pk Rm Fd HB C.
  - cbn [body fold_right Stmt.exec gen_top]. change (len []) with 0. rewrite Z.add_0_r. split; [apply goes_refl|exact A].
  - cbn [body fold_right parsed jumps_ok peak need for_depth lits_s gen_top ok_top] in *. fold (body l) in *. apply andb_true_iff in O. destruct O as (O1 & O2). apply andb_true_iff in W. destruct W as (W1 & W2). apply andb_true_iff in J. destruct J as (J1 & J2).
    rewrite <- app_assoc in C.
    pose proof (sim_s P h G (-1) [] [] (-1) [] [] [] eq_refl Hw Hl Hk HG HGK HKlen n s ss st B 0 [] [] false d (gen_top K (after ss s) l ++ bs) O1 (incl_l _ _ _ L) W1 J1 A N ltac:(lia)
      ltac:(unfold room_for; cbn [length]; lia) ltac:(cbn [length]; lia) HB ltac:(lia) (Forall_nil _) ltac:(rewrite Z.add_0_r; exact C)) as R.
    rewrite Z.add_0_r in R. cbn [Stmt.exec]. pose proof (exec_jump h n s st) as EJ. pose proof (no_jump _ _ _ O1) as NJ.
    destruct (Stmt.exec h n s st) as [sg st1|o out| |]; cbn [res] in R; try exact R.
    destruct sg; [|rewrite (EJ _ _ eq_refl ltac:(discriminate)) in NJ; discriminate..]. destruct R as (R1 & R2). fold (top B st) in R1.
    pose proof (after_len' s ss N) as AL. pose proof (scope_len_nonneg ss). apply code_at_r in C.
    pose proof (IH (after ss s) st1 (B + len (gen_s K ss 0 [] s)) (d + decls s)%nat bs O2 (incl_r _ _ _ L) W2 J2 R2 (after_nonempty _ _ N)) as I.
    replace (Z.to_nat (scope_len (after ss s))) with (Z.to_nat (scope_len ss) + decls s)%nat in I by lia.
    pose proof (len_nonneg (gen_s K ss 0 [] s)). specialize (I ltac:(lia) ltac:(lia) ltac:(lia) ltac:(lia) C).
    destruct (Stmt.exec h n (body l) st1) as [[| |] st2|o out| |]; try exact I.
    + destruct I as (I & I2). rewrite len_app, Z.add_assoc. split; [exact (goes_trans P 0 0 _ _ _ R1 I)|exact I2].
    + eapply goes_halts; eassumption.
    + exact (goes_runs P 0 n _ _ R1 I).
Qed.
End R.

(** ** Globals. *)
Definition good_globals (G : scope) (gs : list name) : Prop :=
  forall x, option_map is_const (assoc G x) = if existsb (fun y => name_eqb y x) gs then Some false else None.
Lemma name_eqb_spec x y : name_eqb x y = true <-> x = y.
Proof. unfold name_eqb. destruct (list_eq_dec Z.eq_dec x y); split; congruence. Qed.
Lemma name_eqb_sym x y : name_eqb x y = name_eqb y x.
Proof. unfold name_eqb. destruct (list_eq_dec Z.eq_dec x y), (list_eq_dec Z.eq_dec y x); congruence. Qed.
Lemma assoc_put_get s x z y : assoc (assoc_put s x z) y = match assoc s y with Some v => Some (if name_eqb x y then z else v) | None => None end.
Proof.
  induction s as [|(a, b) s IH]; [reflexivity|]. cbn [assoc_put]. destruct (name_eqb a x) eqn:E; cbn [assoc].
  - apply name_eqb_spec in E. subst a. destruct (name_eqb x y); [reflexivity|]. destruct (assoc s y); reflexivity.
  - destruct (name_eqb a y) eqn:E2; [|exact IH]. apply name_eqb_spec in E2. subst a. rewrite (name_eqb_sym x y), E. reflexivity.
Qed.
Lemma declglobals_gen fuel gs : forall c c' cs done, declglobals fuel gs c = Ok c' -> pooled (c_pool c) cs -> gl_in (c_globals c) cs -> good_globals (c_globals c) done ->
  c_buf c = [] -> c_cps c = [] -> c_scopes c = [] -> Forall (fun x => literal (VStr x)) gs ->
  exists cs', pooled (c_pool c') cs' /\ gl_in (c_globals c') cs' /\ good_globals (c_globals c') (done ++ gs) /\ c_buf c' = [] /\ c_cps c' = [] /\ c_scopes c' = [].
Proof.
  induction gs as [|x gs IH]; intros c c' cs done E P G Go B C S F; cbn [declglobals] in E.
  - injection E as <-. exists cs. rewrite app_nil_r. auto 10.
  - inversion F; subst. destruct (declglobal fuel c x) as [c1| | |] eqn:D; try discriminate. cbn [bind] in E. unfold declglobal in D.
    destruct (intern fuel (c_pool c) (VStr x)) as [[i p']| | |] eqn:I; try discriminate. cbn [bind fst snd] in D. injection D as <-.
    destruct (intern_part _ _ _ _ _ _ P H1 I) as (ext & P' & In' & _).
    assert (AS : forall y, assoc (match assoc (c_globals c) x with
                               | Some _ => assoc_put (c_globals c) x (Z.of_nat (length (c_globals c)))
                               | None => (x, Z.of_nat (length (c_globals c))) :: c_globals c end) y =
                 if name_eqb x y then Some (Z.of_nat (length (c_globals c))) else assoc (c_globals c) y).
    { intros y. destruct (assoc (c_globals c) x) eqn:Ax.
      - rewrite assoc_put_get. destruct (name_eqb x y) eqn:Exy; [apply name_eqb_spec in Exy; subst y; rewrite Ax; reflexivity|]. destruct (assoc (c_globals c) y); reflexivity.
      - cbn [assoc]. reflexivity. }
    replace (done ++ x :: gs) with ((done ++ [x]) ++ gs) by (rewrite <- app_assoc; reflexivity).
    apply (IH _ _ (cs ++ ext) (done ++ [x]) E); cbn [c_pool c_globals c_buf c_cps c_scopes]; auto.
    + intros y z Hy. rewrite AS in Hy. destruct (name_eqb x y) eqn:Exy; [apply name_eqb_spec in Exy; subst y; exact In'|]. apply in_or_app. left. eapply G. exact Hy.
    + intros y. rewrite AS. rewrite existsb_app. cbn [existsb]. rewrite orb_false_r. destruct (name_eqb x y) eqn:Exy.
      * rewrite orb_true_r. cbn [option_map]. unfold is_const. destruct (Z.ltb_spec (Z.of_nat (length (c_globals c))) 0); [lia|reflexivity].
      * rewrite orb_false_r. apply Go.
Qed.

Lemma pool_setup p cs code lines : pooled p cs -> Z.of_nat (length cs) <= int_max -> setup_constants (return_bytes p code lines) = Ok cs.
Proof.
  intros (m & PI) L. unfold setup_constants, return_bytes.
  set (hc := 24 + Z.of_nat (length (cp_hdr p))). rewrite (pool_inv_count _ _ _ PI).
  set (rest := cp_hdr p ++ code ++ [Constants.O_HALT] ++ lines).
  assert (R : read8 (enc8 hc ++ enc8 (Z.of_nat (length code) + hc + 1) ++ enc8 (Z.of_nat (length cs)) ++ rest) 16 = Ok (Z.of_nat (length cs))).
  { pose proof (read8_app (enc8 hc ++ enc8 (Z.of_nat (length code) + hc + 1)) (Z.of_nat (length cs)) rest) as H.
    rewrite app_length, !enc8_length in H. rewrite <- app_assoc in H. change (Z.of_nat (8 + 8)) with 16 in H. rewrite H.
    rewrite i64_id by (unfold in_i64, int_min, int_max in *; lia). reflexivity. }
  rewrite R. cbn [bind]. rewrite Nat2Z.id.
  assert (S : skipn 24 (enc8 hc ++ enc8 (Z.of_nat (length code) + hc + 1) ++ enc8 (Z.of_nat (length cs)) ++ rest) = rest).
  { rewrite !app_assoc. rewrite skipn_app. rewrite skipn_all2 by (rewrite !app_length, !enc8_length; lia).
    rewrite !app_length, !enc8_length. reflexivity. }
  rewrite S. unfold rest. rewrite (pi_hdr _ _ _ PI). apply read_consts_app, (pi_lit _ _ _ PI).
Qed.
Lemma enc_const_len v : literal v -> (1 <= length (enc_const v))%nat.
Proof. destruct v; cbn [literal enc_const]; try contradiction; intros _; try (cbn [length]; lia). destruct ((-128 <? i) && (i <? 128)); cbn [length]; lia. Qed.
Lemma enc_consts_len cs : Forall literal cs -> (length cs <= length (concat (map enc_const cs)))%nat.
Proof. induction 1 as [|v cs H F IH]; cbn [map concat length]; [lia|]. rewrite app_length. pose proof (enc_const_len v H). lia. Qed.

(** ** Whole programs. *)
Lemma compile_inv fuel gs pr lines bytes : compile_program fuel gs pr lines = Ok bytes -> Forall (fun x => literal (VStr x)) gs ->
  Forall literal (literals (body pr)) -> parsed (body pr) = true ->
  exists G p cs, good_globals G gs /\ ok_top G [[]] pr = true /\ pooled p cs /\ gl_in G cs /\ incl (lits_s (body pr)) cs /\
    bytes = return_bytes p (gen_top cs [[]] pr) lines.
Proof.
  intros E Fg Fl W. unfold compile_program in E. destruct compiler_new as [c0| | |] eqn:N; try discriminate. cbn [bind] in E. unfold compiler_new in N.
  destruct pool_new as [p0| | |] eqn:Np; try discriminate. cbn [bind] in N. injection N as <-.
  destruct (declglobals fuel gs _) as [c1| | |] eqn:D; try discriminate. cbn [bind] in E.
  destruct (declglobals_gen fuel gs _ c1 [] [] D) as (cs1 & P1 & G1 & Go & B1 & C1 & S1); cbn [c_pool c_globals c_buf c_cps c_scopes]; auto.
  { apply pool_new_inv, Np. }
  { intros x z H. discriminate. }
  { intros x. reflexivity. }
  unfold compile in E. destruct (compile_stmts fuel pr [] (enter_scope c1)) as [[code c2]| | |] eqn:CS; try discriminate. cbn [bind fst snd] in E. injection E as <-.
  destruct (compile_stmts_gen fuel pr [] (enter_scope c1) code c2 cs1 CS) as (O & cs' & P2 & (ext & Ecs) & I & B); auto; try (unfold enter_scope; cbn [set_scopes c_scopes]; rewrite ?S1; discriminate).
  unfold enter_scope in O, B. cbn [set_scopes c_globals c_scopes] in O, B. rewrite S1 in O, B.
  exists (c_globals c1), (c_pool c2), cs'. split; [exact Go|]. split; [exact O|]. split; [exact P2|]. split; [rewrite Ecs; apply gl_in_ext, G1|]. split; [exact I|].
  replace (c_pool (exit_scope c2)) with (c_pool c2) by (unfold exit_scope; destruct (c_scopes c2); reflexivity).
  specialize (B cs' ltac:(exists []; rewrite app_nil_r; reflexivity)). cbn [app] in B. rewrite B. reflexivity.
Qed.

Lemma program_ok fuel gs pr lines bytes w ls ks gl n :
  compile_program fuel gs pr lines = Ok bytes -> Z.of_nat (length bytes) <= int_max ->
  Forall (fun x => literal (VStr x)) gs -> Forall literal (literals (body pr)) -> parsed (body pr) = true -> jumps_ok 0 (body pr) = true ->
  (peak 0 (body pr) <= 128)%nat -> (need (body pr) <= 1024)%nat -> (for_depth (body pr) <= 16)%nat ->
  exists P, load bytes w ls ks = Ok P /\
  match Stmt.exec (host_of w ls ks gs) n (body pr) (Env [[]] gl []) with
  | XOk Normal st => exists k s, run k P (vm_start gl) = Stop (Ok tt) s /\ v_out s = e_out st /\ v_gl s = e_globals st /\ v_stk s = vals (e_scopes st)
  | XOk _ _ | XStuck => False
  | XStop o out => exists k s, run k P (vm_start gl) = Stop o s /\ v_out s = out
  | XFuel => exists s, run n P (vm_start gl) = Next s
  end.
Proof.
  intros E LB Fg Fl W J Pk Rm Fd. destruct (compile_inv _ _ _ _ _ E Fg Fl W) as (G & p & cs & Go & O & Pp & Gl & I & EB).
  set (code := gen_top cs [[]] pr) in *.
  assert (Lh : Z.of_nat (length (cp_hdr p)) + Z.of_nat (length code) + 25 + Z.of_nat (length lines) = Z.of_nat (length bytes)).
  { rewrite EB. unfold return_bytes. rewrite !app_length, !enc8_length. cbn [length]. lia. }
  assert (Lc : Z.of_nat (length cs) <= Z.of_nat (length (cp_hdr p))).
  { destruct Pp as (m & PI). rewrite (pi_hdr _ _ _ PI). pose proof (enc_consts_len cs (pi_lit _ _ _ PI)). lia. }
  destruct (layout_ok p code lines ltac:(lia)) as (e & E1 & E2 & E3). rewrite <- EB in E1, E3.
  unfold load. rewrite E1. cbn [bind]. pose proof (pool_setup p cs code lines Pp ltac:(lia)) as PS. rewrite <- EB in PS. rewrite PS. cbn [bind]. rewrite E3.
  eexists. split; [reflexivity|]. set (P := Prog (code ++ [Constants.O_HALT] ++ lines) cs w ls ks).
  assert (C : code_at P 0 (code ++ [Constants.O_HALT] ++ lines)) by (exists [], []; rewrite app_nil_r; split; reflexivity).
  pose proof (sim_top P (host_of w ls ks gs) G eq_refl eq_refl eq_refl (fun x => eq_sym (Go x)) Gl) as S.
  assert (HK : len (p_code P) <= int_max /\ Z.of_nat (length (p_consts P)) <= int_max).
  { cbn [P p_code p_consts]. unfold len. rewrite !app_length. cbn [length]. lia. }
  specialize (S HK n pr [[]] (Env [[]] gl []) 0 0%nat ([Constants.O_HALT] ++ lines) O I W J (conj Logic.I Logic.I) ltac:(discriminate)).
  change (Z.to_nat (scope_len [[]])) with 0%nat in S. change (scope_len [[]]) with 0 in S. specialize (S ltac:(lia) ltac:(lia) ltac:(lia) ltac:(lia) C).
  change (top 0 (Env [[]] gl [])) with (vm_start gl) in S.
  destruct (Stmt.exec (host_of w ls ks gs) n (body pr) (Env [[]] gl [])) as [[| |] st|o out| |]; try exact S.
  - destruct S as ((k & _ & S) & _). fold code in S. cbn [P p_consts] in S. fold P in S. apply code_at_r in C.
    exists (k + 1)%nat. eexists. split.
    + rewrite run_app, S. cbn [run]. change [Constants.O_HALT] with (op VM.O_HALT) in C. rewrite (step_op P _ VM.O_HALT lines) by (exact C). cbn [VM.exec]. reflexivity.
    + cbn. rewrite app_nil_r. auto.
  - destruct S as (k & s' & L & S). assert (Q : exists s, run n P (vm_start gl) = Next s); [|exact Q].
    replace k with (n + (k - n))%nat in S by lia. rewrite run_app in S. destruct (run n P (vm_start gl)) as [s1| |]; [eauto|discriminate..].
Qed.
