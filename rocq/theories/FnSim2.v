From Verif Require Import Base Bytes BytesProofs Value Table Ops Ast Stmt Limits Constants VM Compiler ValueProofs TableSpec ConstSpec ConstProofs Gen GenProofs GenProofs2 SimBase Sim CallSpec CallProofs Fn FnSpec FnCompiler FnCode FnGen FnSim.

Section S.
Variable P : prog.
Variable h : host.
Variable G : scope.
Variable kind : nat -> option Z.
Variable M : nat.
Notation K := (p_consts P).
Hypothesis Hw : p_world P = h_world h.
Hypothesis HG : forall x, h_decl h x = option_map is_const (assoc G x).
Hypothesis HGK : gl_in G K.
Hypothesis HKlen : len (p_code P) <= int_max /\ Z.of_nat (length K) <= int_max.
Notation goes := (goes P). Notation halts := (halts P). Notation runs_on := (runs_on P). Notation code_at := (code_at P).

(** ** The functions that exist. *)
Definition reg (m : mem) (file : list binding) (v : value) (f : frec) : Prop :=
  exists U F bb a,
    match v with
    | VFn a' => a' = a /\ U = []
    | VClosure k => exists ids, nthZ (m_clo m) k = Some (Clo a ids) /\ Forall2 (cap F (m_upv m)) U ids
    | _ => False
    end /\
    code_at a ([Z.of_nat (length (fr_params f)) mod 256] ++ bb ++ op O_NCONST ++ op O_RET ++ [scope_len (fafter (pscope (fr_params f)) (fr_body f)) mod 256]) /\
    code_s K kind G (SFun U (pscope (fr_params f)) F) (a + 1) (fr_body f) bb /\
    (fr_sees f <= length file)%nat /\ agree1 0 F (oldest (fr_sees f) file) /\ names_ok U F /\
    small_fn M (fr_params f) (fr_body f) = true /\ small_s M (fr_body f) = true.
Definition Inv (st : fstate) (m : mem) : Prop :=
  (forall v f, s_fun st v = Some f -> reg m (s_file st) v f) /\ Z.of_nat (length (m_clo m)) = s_next st /\
  Forall (fun u => exists l, u = UOpen l) (m_upv m) /\ Forall (fun c => (c < length (m_upv m))%nat) (m_pend m).

Lemma reg_mono m m' file file' v f : reg m file v f -> grow m m' -> (length file <= length file')%nat ->
  (forall n, (n <= length file)%nat -> shape (oldest n file') = shape (oldest n file)) -> reg m' file' v f.
Proof.
  intros (U & F & bb & a & A & B & C & D & E & N & S) (G1 & G2) L Sh. exists U, F, bb, a. split.
  - destruct v; try exact A. destruct A as (ids & A1 & A2). exists ids. split; [eapply nthZ_prefix; eassumption|]. eapply Forall2_imp; [|exact A2]. intros. eapply cap_grow; eassumption.
  - split; [exact B|]. split; [exact C|]. split; [lia|]. split; [eapply agree1_shape; [exact E|apply Sh, D]|]. auto.
Qed.
Lemma reg_shape m file file' v f : reg m file v f -> shape file' = shape file -> reg m file' v f.
Proof. intros R S. eapply reg_mono; [exact R|apply grow_refl|rewrite (shape_length _ _ S); lia|]. intros n _. apply oldest_shape, S. Qed.
Lemma Inv_state st st' m : Inv st m -> s_fun st' = s_fun st -> s_next st' = s_next st -> shape (s_file st') = shape (s_file st) -> Inv st' m.
Proof. intros (A & B & C & D) E1 E2 E3. split; [|split; [congruence|auto]]. intros v f H. rewrite E1 in H. eapply reg_shape; [apply A, H|exact E3]. Qed.
Lemma Inv_file_cons st m b : Inv st m -> Inv (set_file st (b :: s_file st)) m.
Proof.
  intros (A & B & C & D). split; [|auto]. intros v f H. cbn [set_file s_file]. eapply reg_mono; [apply A, H|apply grow_refl|cbn [length]; lia|]. intros n Hn. rewrite oldest_cons by exact Hn. reflexivity.
Qed.

(** ** Single instructions. *)
Ltac simp_st := cbn [set_pc set_stk set_gl set_out set_loops set_frames set_upv add_clo v_stk v_fp v_gl v_out v_loops v_frames v_next_fp v_upv v_pending v_clo v_pc att].
Ltac vs := unfold att, stack, set_pc, set_stk, set_gl, set_out, set_loops, set_frames, set_upv, add_clo;
  cbn [v_stk v_fp v_gl v_out v_loops v_frames v_next_fp v_upv v_pending v_clo v_pc app s_loc s_file s_gl s_out set_loc set_file set_fgl set_fout];
  match goal with |- Next (VS ?a _ _ _ _ _ _ _ _ _ _) = Next (VS ?b _ _ _ _ _ _ _ _ _ _) => replace b with a; [try reflexivity|] end.
Lemma op_goes s o bs s' : code_at (v_pc s) (op o ++ bs) -> VM.exec P o (set_pc s (v_pc s + 1)) = Next s' -> goes 1 s s'.
Proof. intros C E. apply goes_step. rewrite (step_op P s o bs C). exact E. Qed.
Lemma op_halts s o bs r s' : code_at (v_pc s) (op o ++ bs) -> VM.exec P o (set_pc s (v_pc s + 1)) = Stop r s' -> halts s r (v_out s').
Proof. intros C E. apply halts_step. rewrite (step_op P s o bs C). exact E. Qed.
Definition yield (s : vstate) (o : outcome value) (k : value -> vstate) (out : list Z) : Prop :=
  match o with Ok v => goes 1 s (k v) | Err e => halts s (Err e) out | UB => halts s UB out | NoFuel => halts s NoFuel out end.
Lemma un_ok x pc a temps st m o bs : code_at pc (op (O_UN o) ++ bs) -> Z.of_nat (length (stack x temps st)) < 1024 ->
  yield (att x pc (a :: temps) st m) (exec_unop (h_world h) o a) (fun v => att x (pc + 1) (v :: temps) st m) (s_out st).
Proof.
  intros C R. assert (X : VM.exec P (O_UN o) (att x (pc + 1) (a :: temps) st m) = lift (att x (pc + 1) temps st m) (exec_unop (h_world h) o a) (push (att x (pc + 1) temps st m))) by (cbn [VM.exec]; rewrite Hw; reflexivity).
  destruct (exec_unop (h_world h) o a) as [v|e| |]; cbn [yield lift] in *.
  - eapply op_goes; [exact C|]. simp_st. etransitivity; [exact X|]. rewrite CallProofs.push_ok by exact R. reflexivity.
  - exact (op_halts (att x pc (a :: temps) st m) _ _ _ _ C X).
  - exact (op_halts (att x pc (a :: temps) st m) _ _ _ _ C X).
  - exact (op_halts (att x pc (a :: temps) st m) _ _ _ _ C X).
Qed.
Lemma bin_ok x pc a b temps st m o bs : code_at pc (op (O_BIN o) ++ bs) -> Z.of_nat (length (stack x temps st)) < 1024 ->
  yield (att x pc (b :: a :: temps) st m) (exec_binop (h_world h) o a b) (fun v => att x (pc + 1) (v :: temps) st m) (s_out st).
Proof.
  intros C R. assert (X : VM.exec P (O_BIN o) (att x (pc + 1) (b :: a :: temps) st m) = lift (att x (pc + 1) temps st m) (exec_binop (h_world h) o a b) (push (att x (pc + 1) temps st m))) by (cbn [VM.exec]; rewrite Hw; reflexivity).
  destruct (exec_binop (h_world h) o a b) as [v|e| |]; cbn [yield lift] in *.
  - eapply op_goes; [exact C|]. simp_st. etransitivity; [exact X|]. rewrite CallProofs.push_ok by exact R. reflexivity.
  - exact (op_halts (att x pc (b :: a :: temps) st m) _ _ _ _ C X).
  - exact (op_halts (att x pc (b :: a :: temps) st m) _ _ _ _ C X).
  - exact (op_halts (att x pc (b :: a :: temps) st m) _ _ _ _ C X).
Qed.
Lemma yield_not x pc temps st m s o bs : yield s o (fun v => att x pc (v :: temps) st m) (s_out st) -> code_at pc (op (O_UN UNot) ++ bs) -> Z.of_nat (length (stack x temps st)) < 1024 ->
  yield s (omap not_value o) (fun v => att x (pc + 1) (v :: temps) st m) (s_out st).
Proof.
  intros Y C R. destruct o as [v|e| |]; cbn [yield omap bind] in *; try exact Y. eapply goes_le; [eapply goes_trans; [exact Y|]|]; [|instantiate (1 := 1%nat); lia].
  exact (un_ok x pc v temps st m UNot bs C R).
Qed.
Lemma bop_ok x pc a b temps st m o bs : code_at pc (bop_code o ++ bs) -> Z.of_nat (length (stack x temps st)) < 1024 ->
  yield (att x pc (b :: a :: temps) st m) (eval_bop (h_world h) o a b) (fun v => att x (pc + len (bop_code o)) (v :: temps) st m) (s_out st).
Proof.
  intros C R. destruct o as [o| |]; cbn [bop_code eval_bop] in *.
  - rewrite len_op. eapply bin_ok; eassumption.
  - rewrite <- app_assoc in C. rewrite len_app, !len_op, Z.add_assoc. pose proof (bin_ok x pc a b temps st m BEq _ C R) as Y. apply code_at_r in C. rewrite len_op in C. eapply yield_not; eassumption.
  - rewrite <- app_assoc in C. rewrite len_app, !len_op, Z.add_assoc. pose proof (bin_ok x pc a b temps st m BId _ C R) as Y. apply code_at_r in C. rewrite len_op in C. eapply yield_not; eassumption.
Qed.
Lemma const_ok x pc o v temps st m bs : code_at pc (op o ++ bs) -> Z.of_nat (length (stack x temps st)) < 1024 ->
  (o = O_NCONST /\ v = VUndef \/ o = O_BCONST_T /\ v = VBool true \/ o = O_BCONST_F /\ v = VBool false) -> goes 1 (att x pc temps st m) (att x (pc + 1) (v :: temps) st m).
Proof. intros C R D. eapply op_goes; [exact C|]. destruct D as [(-> & ->)|[(-> & ->)|(-> & ->)]]; cbn [VM.exec]; rewrite CallProofs.push_ok by exact R; reflexivity. Qed.
Lemma lit_ok x pc v temps st m bs : In v K -> Z.of_nat (length (stack x temps st)) < 1024 -> code_at pc (lit_code K v ++ bs) ->
  goes 1 (att x pc temps st m) (att x (pc + len (lit_code K v)) (v :: temps) st m).
Proof.
  intros Hin R C. destruct (index_K P v Hin) as (B & N). unfold lit_code in *. destruct (Z.ltb_spec (index_of K v) 128).
  - rewrite <- app_assoc in C. eapply op_goes; [exact C|]. cbn [VM.exec]. erewrite rd1_at by (apply (code_at_r P _ _ _ C)). rewrite Z.mod_small by lia. rewrite N. cbn [opt].
    rewrite CallProofs.push_ok by exact R. vs. unfold len. cbn [op app length]. lia.
  - rewrite <- app_assoc in C. eapply op_goes; [exact C|]. cbn [VM.exec]. erewrite rd8_at; [|apply (code_at_r P _ _ _ C)|destruct HKlen; unfold in_i64, int_min, int_max in *; lia]. rewrite N. cbn [opt].
    rewrite CallProofs.push_ok by exact R. vs. rewrite len_app, len_op, len_enc8. lia.
Qed.
Lemma brf_ok x pc v temps st m d bs : code_at pc (op O_BRF_8 ++ enc8 d ++ bs) -> 0 <= d <= len bs ->
  goes 1 (att x pc (v :: temps) st m) (att x (if is_falsey v then pc + 9 + d else pc + 9) temps st m).
Proof. intros C L. exact (goes_brf P h G (x_fp x) [] (x_frs x) (x_nfp x) (m_upv m) (m_pend m) (m_clo m) HG HKlen pc v (stack x temps st) (s_gl st) (s_out st) [] d bs C L). Qed.
Lemma br_ok x pc temps st m d bs : code_at pc (op O_BR_8 ++ enc8 d ++ bs) -> in_i64 d -> goes 1 (att x pc temps st m) (att x (pc + 9 + d) temps st m).
Proof. intros C L. exact (goes_br P h G (x_fp x) [] (x_frs x) (x_nfp x) (m_upv m) (m_pend m) (m_clo m) HG pc (stack x temps st) (s_gl st) (s_out st) [] d bs C L). Qed.
Lemma sc_ok x o pc v temps st m d bs : code_at pc (op (sc_jump o) ++ enc8 d ++ bs) -> 0 <= d <= len bs ->
  goes 1 (att x pc (v :: temps) st m) (att x (if decides o v then pc + 9 + d else pc + 9) temps st m).
Proof. intros C L. exact (goes_sc P h G (x_fp x) [] (x_frs x) (x_nfp x) (m_upv m) (m_pend m) (m_clo m) HG HKlen o pc v (stack x temps st) (s_gl st) (s_out st) [] d bs C L). Qed.
Lemma pop_ok x pc v temps st m bs : code_at pc (op O_POP ++ bs) -> goes 1 (att x pc (v :: temps) st m) (att x (pc + 1) temps st m).
Proof. intros C. eapply op_goes; [exact C|]. reflexivity. Qed.
Lemma dup_ok x pc v temps st m bs : code_at pc (op O_DUP ++ bs) -> Z.of_nat (length (stack x (v :: temps) st)) < 1024 -> goes 1 (att x pc (v :: temps) st m) (att x (pc + 1) (v :: v :: temps) st m).
Proof. intros C R. eapply op_goes; [exact C|]. cbn [VM.exec att set_pc v_stk stack app]. rewrite CallProofs.push_ok by exact R. reflexivity. Qed.

(** ** Variables. *)
Lemma cv_slot x temps st cv b : x_base x = cv :: b -> slot_get (stack x temps st) (Z.of_nat (length b) + Z.of_nat (length (s_file st))) = Some cv.
Proof.
  intros E. unfold stack. rewrite E. pose proof (slot_nth P (b ++ map bval (s_file st)) (temps ++ vals (s_loc st)) [cv] 0 cv eq_refl) as S. rewrite app_length, map_length in S. cbn [length app] in S.
  rewrite <- app_assoc in S. cbn [app]. rewrite <- S. f_equal. lia.
Qed.
Lemma file_slot x temps st n i v : (n <= length (s_file st))%nat -> nth_error (map bval (oldest n (s_file st))) i = Some v ->
  slot_get (stack x temps st) (Z.of_nat n - 1 - Z.of_nat i) = Some v.
Proof.
  intros Ln E. unfold stack, oldest in *. set (k := (length (s_file st) - n)%nat) in *.
  pose proof (slot_nth P [] (temps ++ vals (s_loc st) ++ x_base x ++ map bval (firstn k (s_file st))) _ i v E) as S. rewrite map_length, skipn_length in S. rewrite app_nil_r, <- !app_assoc, <- map_app, firstn_skipn in S. rewrite <- S. f_equal. cbn [length]. unfold k. lia.
Qed.
Lemma file_put x temps st n i v : (n <= length (s_file st))%nat -> (i < n)%nat ->
  slot_set (stack x temps st) (Z.of_nat n - 1 - Z.of_nat i) v =
  Some (temps ++ vals (s_loc st) ++ x_base x ++ map bval (firstn (length (s_file st) - n) (s_file st)) ++ put (map bval (oldest n (s_file st))) i v).
Proof.
  intros Ln Li. unfold stack, oldest in *. set (k := (length (s_file st) - n)%nat) in *.
  assert (Lo : length (map bval (skipn k (s_file st))) = n) by (rewrite map_length, skipn_length; unfold k; lia).
  pose proof (slot_put P [] (temps ++ vals (s_loc st) ++ x_base x ++ map bval (firstn k (s_file st))) (map bval (skipn k (s_file st))) i v ltac:(lia)) as S. rewrite Lo, !app_nil_r, <- !app_assoc, <- map_app, firstn_skipn in S. rewrite <- S. f_equal.
Qed.
Lemma cap_nth F u U ids i x : Forall2 (cap F u) U ids -> nth_error U i = Some x -> exists id, nth_error ids i = Some id /\ cap F u x id.
Proof.
  intros H. revert i. induction H as [|y id U ids C H IH]; intros [|i] E; cbn in *; try discriminate; [injection E as ->; eauto|eauto].
Qed.
Lemma nthZ_nat {A} (l : list A) i : nthZ l (Z.of_nat i) = nth_error l i.
Proof. unfold nthZ. destruct (Z.ltb_spec (Z.of_nat i) 0); [lia|]. rewrite Nat2Z.id. reflexivity. Qed.

Lemma load_ok E x st m y pc temps bs r : here E x st m -> c_load K G E y bs -> code_at pc (bs ++ r) -> scope_len (sc E) <= 128 -> hgt E x st temps < 1024 ->
  exists v, f_read h st y = Some v /\ goes 1 (att x pc temps st m) (att x (pc + len bs) (v :: temps) st m).
Proof.
  intros He L C S R. pose proof (here_hgt _ _ _ _ temps He) as Hh. destruct E as [ss|U ss F]; cbn [here c_load sc] in *.
  - destruct He as (A & B & D & Ag). destruct L as (Kn & ->).
    destruct (sim_load P h G (-1) [] (x_frs x) (x_nfp x) (m_upv m) (m_pend m) (m_clo m) eq_refl HG HGK HKlen y ss (Env (s_loc st ++ [s_file st]) (s_gl st) (s_out st)) pc temps [] r Kn Ag S) as (v & Rd & Go); [|exact C|].
    { unfold room_for. cbn [length]. unfold hgt in R. cbn [sc] in R. lia. }
    exists v. split.
    + unfold f_read, seen, unseen. rewrite A. unfold read_var in Rd. cbn [e_scopes e_globals] in Rd. rewrite find_var_app in Rd. cbn [skipn]. destruct (find_var (s_loc st) y) as [(k, u)|]; [congruence|]. destruct (lookup (s_file st) y) as [(k, u)|]; [congruence|]. destruct (h_decl h y); congruence.
    + unfold att, stack. rewrite B, D. unfold atp, mk in Go. cbn [e_scopes e_globals e_out] in Go. rewrite app_nil_r, vals_snoc in Go. exact Go.
  - destruct He as (cv & b & n & A & B & Ln & D & Ag & Af & Nm & Cp).
    assert (GL : scope_get ss y <> None \/ (scope_get ss y = None /\ assoc F y = None) -> known G ss y = true -> bs = load_code K ss y ->
      exists v, f_read h st y = Some v /\ goes 1 (att x pc temps st m) (att x (pc + len bs) (v :: temps) st m)).
    { intros Q Kn ->. destruct (sim_load P h G (x_fp x) (x_base x ++ map bval (s_file st)) (x_frs x) (x_nfp x) (m_upv m) (m_pend m) (m_clo m) ltac:(rewrite app_length, map_length, A; cbn [length]; lia) HG HGK HKlen y ss (Env (s_loc st) (s_gl st) (s_out st)) pc temps [] r Kn Ag S) as (v & Rd & Go); [|exact C|].
      { unfold room_for. unfold hgt in R. cbn [sc] in R. rewrite app_length, map_length. lia. }
      exists v. split; [|exact Go]. unfold f_read, seen, unseen. rewrite B. unfold read_var in Rd. cbn [e_scopes e_globals] in Rd. pose proof (get_var ss y _ Ag) as Gv.
      destruct (find_var (s_loc st) y) as [(k, u)|] eqn:Fv; [congruence|].
      destruct Q as [Q|(_ & Q)]; [destruct (scope_get ss y); [|congruence]; destruct Gv as (k & u & i & Gv & _); congruence|].
      pose proof (assoc1 0 F y _ ltac:(lia) Af) as As. rewrite Q in As. unfold oldest in As. rewrite As. destruct (h_decl h y); congruence. }
    destruct (scope_get ss y) as [z|] eqn:Sg.
    + apply GL; [left; discriminate|unfold known; rewrite Sg; reflexivity|unfold load_code; rewrite Sg; exact L].
    + destruct (assoc F y) as [z|] eqn:Fy.
      * destruct L as (i & Ui & ->). destruct Cp as [->|(k & a & ids & -> & Ck & Fc)]; [destruct i; discriminate|].
        destruct (cap_nth _ _ _ _ _ _ Fc Ui) as (id & Hid & z' & Fz & Hu). rewrite Fy in Fz. injection Fz as <-.
        pose proof (assoc1 0 F y _ ltac:(lia) Af) as As. rewrite Fy in As. destruct As as (k' & v & j & Lk & _ & Rg & Hj & Nv & _).
        assert (Lo : length (oldest n (s_file st)) = n) by (unfold oldest; rewrite skipn_length; lia). pose proof (agree1_length _ _ _ Af) as LF.
        pose proof (get_var ss y _ Ag) as Gv. rewrite Sg in Gv. exists v. split; [unfold f_read, seen, unseen; rewrite B, Gv; unfold oldest in Lk; rewrite Lk; reflexivity|].
        assert (Li : (i < length U)%nat) by (apply nth_error_Some; congruence). pose proof (U_small _ _ Nm) as LU.
        rewrite <- app_assoc in C. eapply op_goes; [exact C|]. cbn [VM.exec]. erewrite rd1_at by (apply (code_at_r P _ _ _ C)). unfold cur_closure. simp_st. rewrite D, (cv_slot x temps st _ _ A). cbn [opt].
        rewrite Ck. cbn [opt k_upv]. rewrite (schar_idx P []) by lia. rewrite nthZ_nat, Hid. cbn [opt]. unfold upval_get. simp_st. rewrite Hu.
        replace (get_index z) with (Z.of_nat n - 1 - Z.of_nat j) by lia. rewrite (file_slot x temps st n j v Ln Nv). cbn [opt].
        rewrite CallProofs.push_ok by (simp_st; rewrite Hh; exact R). vs. rewrite len_app, len_op. unfold len. cbn [length]. lia.
      * destruct L as (L1 & L2). apply GL; [right; auto|unfold known; rewrite Sg; destruct (assoc G y); congruence|unfold load_code; rewrite Sg; exact L2].
Qed.

Lemma agree_snoc_loc ss l b : agree ss (l ++ [b]) -> forall l', map shape l' = map shape l -> agree ss (l' ++ [b]).
Proof. intros A l' H. eapply agree_shape; [exact A|]. rewrite !map_app, H. reflexivity. Qed.
Lemma store_ok E x st m y v pc temps bs r : here E x st m -> c_store K G E y bs -> code_at pc (bs ++ r) -> scope_len (sc E) <= 128 ->
  exists st', f_write h st y v = Some st' /\ goes 1 (att x pc (v :: temps) st m) (att x (pc + len bs) temps st' m) /\ same st st' /\ s_fun st' = s_fun st /\ s_next st' = s_next st.
Proof.
  intros He L C S. destruct E as [ss|U ss F]; cbn [here c_store sc] in *.
  - destruct He as (A & B & D & Ag). destruct L as (Wr & ->).
    destruct (sim_store P h G (-1) [] (x_frs x) (x_nfp x) (m_upv m) (m_pend m) (m_clo m) eq_refl HG HGK HKlen y v ss (Env (s_loc st ++ [s_file st]) (s_gl st) (s_out st)) pc temps [] r Wr Ag S C) as (e' & We & _ & _ & Go).
    unfold write_var in We. cbn [e_scopes e_globals e_out] in We. rewrite find_var_app in We. unfold atp, mk in Go. cbn [e_scopes e_globals e_out] in Go. rewrite app_nil_r, vals_snoc in Go.
    unfold f_write, seen, unseen, att, stack. rewrite A, B, D. cbn [skipn firstn app]. destruct (find_var (s_loc st) y) as [([|], u)|] eqn:Fv; [discriminate| |].
    + injection We as <-. eexists. split; [reflexivity|]. cbn [set_escopes e_scopes e_globals e_out] in Go. rewrite set_var_app, Fv, app_nil_r, vals_snoc in Go. split; [exact Go|]. split; [|split; reflexivity].
      split; [reflexivity|]. split; [apply shape_set_var|reflexivity].
    + destruct (lookup (s_file st) y) as [([|], u)|] eqn:Fl; [discriminate| |].
      * injection We as <-. eexists. split; [reflexivity|]. cbn [set_escopes e_scopes e_globals e_out] in Go. rewrite set_var_app, Fv, Fl, app_nil_r, vals_snoc in Go. split; [exact Go|]. split; [|split; reflexivity].
        split; [reflexivity|]. split; [reflexivity|apply shape_set_in].
      * destruct (h_decl h y) as [[|]|]; try discriminate. injection We as <-. eexists. split; [reflexivity|]. cbn [e_scopes e_globals e_out] in Go. rewrite app_nil_r, vals_snoc in Go. split; [exact Go|]. split; [|split; reflexivity]. repeat split.
  - destruct He as (cv & b & n & A & B & Ln & D & Ag & Af & Nm & Cp). pose proof (get_var ss y _ Ag) as Gv. pose proof (assoc1 0 F y _ ltac:(lia) Af) as As.
    assert (GL : writable G ss y = true -> bs = store_code K ss y -> exists e', write_var h (Env (s_loc st) (s_gl st) (s_out st)) y v = Some e' /\
       goes 1 (att x pc (v :: temps) st m) (VS (pc + len bs) (temps ++ vals (e_scopes e') ++ x_base x ++ map bval (s_file st)) (x_fp x) (e_globals e') (e_out e') [] (x_frs x) (x_nfp x) (m_upv m) (m_pend m) (m_clo m))).
    { intros Wr ->. destruct (sim_store P h G (x_fp x) (x_base x ++ map bval (s_file st)) (x_frs x) (x_nfp x) (m_upv m) (m_pend m) (m_clo m) ltac:(rewrite app_length, map_length, A; cbn [length]; lia) HG HGK HKlen y v ss (Env (s_loc st) (s_gl st) (s_out st)) pc temps [] r Wr Ag S C) as (e' & We & _ & _ & Go).
      exists e'. split; [exact We|exact Go]. }
    unfold write_var in GL. cbn [e_scopes e_globals e_out] in GL. unfold f_write.
    destruct (scope_get ss y) as [z|] eqn:Sg.
    + destruct L as (Nc & L). destruct GL as (e' & We & Go); [unfold writable; rewrite Sg, Nc; reflexivity|unfold store_code; rewrite Sg; exact L|].
      destruct Gv as (k & u & i & Gv & _). rewrite Gv in *. destruct k; [discriminate|]. injection We as <-. eexists. split; [reflexivity|]. split; [exact Go|]. split; [|split; reflexivity]. split; [reflexivity|]. split; [apply shape_set_var|reflexivity].
    + rewrite Gv in *. unfold seen, unseen. rewrite B. change (skipn (length (s_file st) - n) (s_file st)) with (oldest n (s_file st)). destruct (assoc F y) as [z|] eqn:Fy.
      * destruct L as (Nc & i & Ui & ->). destruct Cp as [->|(k & a & ids & -> & Ck & Fc)]; [destruct i; discriminate|].
        destruct (cap_nth _ _ _ _ _ _ Fc Ui) as (id & Hid & z' & Fz & Hu). rewrite Fy in Fz. injection Fz as <-.
        destruct As as (k' & u & j & Lk & Ck' & Rg & Hj & Nv & Up). rewrite Lk. rewrite Nc in Ck'. subst k'. destruct (Up v) as (Up1 & _).
        assert (Lo : length (oldest n (s_file st)) = n) by (unfold oldest; rewrite skipn_length; lia). pose proof (agree1_length _ _ _ Af) as LF.
        eexists. split; [reflexivity|]. split.
        -- assert (Li : (i < length U)%nat) by (apply nth_error_Some; congruence). pose proof (U_small _ _ Nm) as LU.
           rewrite <- app_assoc in C. eapply op_goes; [exact C|]. cbn [VM.exec]. erewrite rd1_at by (apply (code_at_r P _ _ _ C)). unfold cur_closure. simp_st. rewrite D, (cv_slot x (v :: temps) st _ _ A). cbn [opt].
           rewrite Ck. cbn [opt k_upv]. rewrite (schar_idx P []) by lia. rewrite nthZ_nat, Hid. cbn [opt]. unfold pop, stack. simp_st. cbn [app]. unfold upval_set. simp_st. rewrite Hu.
           replace (get_index z) with (Z.of_nat n - 1 - Z.of_nat j) by lia. pose proof (file_put x temps st n j v Ln ltac:(lia)) as FP. change (stack x (v :: temps) st) with (v :: stack x temps st). cbn [app]. rewrite FP. cbn [option_map opt].
           rewrite <- Up1. replace (pc + len (op O_USTORE ++ [Z.of_nat i mod 256])) with (pc + 1 + 1) by (rewrite len_app, len_op; unfold len; cbn [length]; lia). unfold att, stack, set_pc, set_stk. cbn. rewrite map_app. reflexivity.
        -- split; [|split; reflexivity]. split; [reflexivity|]. split; [reflexivity|]. cbn [set_file s_file]. unfold shape. rewrite map_app. fold (shape (set_in (oldest n (s_file st)) y v)). rewrite shape_set_in. unfold shape, oldest. rewrite <- map_app, firstn_skipn. reflexivity.
      * destruct L as ((z & Gz & Nc) & L). destruct GL as (e' & We & Go); [unfold writable; rewrite Sg, Gz, Nc; reflexivity|unfold store_code; rewrite Sg; exact L|].
        rewrite As. destruct (h_decl h y) as [[|]|]; try discriminate. injection We as <-. eexists. split; [reflexivity|]. split; [exact Go|]. split; [|split; reflexivity]. repeat split.
Qed.

(** ** Function literals. *)
Definition bounded (F : scope) : Prop := forall x z, assoc F x = Some z -> 0 <= get_index z < 128.
Definition capturable (E0 : senv) (F : scope) (fp : Z) (stk : list value) (clo : list closure) (u : list upv) : Prop :=
  match E0 with
  | SFile ss0 => fp = -1 /\ F = last ss0 []
  | SFun U0 _ F0 => F = F0 /\ (length U0 <= 128)%nat /\
      (U0 = [] \/ exists k a ids, slot_get stk fp = Some (VClosure k) /\ nthZ clo k = Some (Clo a ids) /\ Forall2 (cap F u) U0 ids)
  end.
Lemma capturable_grow E0 F fp stk clo u u' : prefix u u' -> capturable E0 F fp stk clo u -> capturable E0 F fp stk clo u'.
Proof.
  intros Pf. destruct E0 as [ss|U0 ss0 F0]; cbn [capturable]; [auto|]. intros (A & B & [->|(k & a & ids & D & E & H)]); (split; [exact A|]; split; [exact B|]); [left; reflexivity|right]. exists k, a, ids. repeat (split; [assumption|]).
  eapply Forall2_imp; [|exact H]. intros. eapply cap_grow; eassumption.
Qed.
Lemma find_upv_ok u loc : Forall (fun w => exists l, w = UOpen l) u -> forall pend pre, Forall (fun c => (c < length u)%nat) pend ->
  match find_upv u pre pend loc with
  | None => False
  | Some (inl c) => nth_error u c = Some (UOpen loc)
  | Some (inr (a, b)) => exists pa, a = pre ++ pa /\ pend = pa ++ b
  end.
Proof.
  intros Op. induction pend as [|c pend IH]; intros pre Fp; cbn [find_upv]; [exists []; rewrite app_nil_r; auto|].
  inversion Fp as [|? ? Hc Fp']; subst. destruct (nth_error u c) as [w|] eqn:Ew; [|apply nth_error_None in Ew; lia].
  destruct (proj1 (Forall_forall _ _) Op w (nth_error_In _ _ Ew)) as (l & ->). destruct (loc <? l).
  - specialize (IH (pre ++ [c]) Fp'). destruct (find_upv u (pre ++ [c]) pend loc) as [[c'|(a & b)]|]; auto. destruct IH as (pa & -> & ->). exists (c :: pa). rewrite <- app_assoc. auto.
  - destruct (Z.eqb_spec l loc); [subst; exact Ew|]. exists [c]. auto.
Qed.
Definition open_all (u : list upv) (pend : list nat) : Prop := Forall (fun w => exists l, w = UOpen l) u /\ Forall (fun c => (c < length u)%nat) pend.
Lemma add_upvalue_ok s loc : open_all (v_upv s) (v_pending s) -> exists id u' p', add_upvalue s loc = Some (id, set_upv s u' p') /\ nth_error u' id = Some (UOpen loc) /\ prefix (v_upv s) u' /\ open_all u' p'.
Proof.
  intros (Op & Fp). unfold add_upvalue. pose proof (find_upv_ok (v_upv s) loc Op (v_pending s) [] Fp) as H. destruct (find_upv (v_upv s) [] (v_pending s) loc) as [[c|(a & b)]|]; [| |contradiction].
  - exists c, (v_upv s), (v_pending s). split; [destruct s; reflexivity|]. split; [exact H|]. split; [apply prefix_refl|split; assumption].
  - destruct H as (pa & -> & E). cbn [app] in *. exists (length (v_upv s)), (v_upv s ++ [UOpen loc]), (pa ++ length (v_upv s) :: b). split; [reflexivity|].
    split; [rewrite nth_error_app2, Nat.sub_diag by lia; reflexivity|]. split; [eexists; reflexivity|]. split; [apply Forall_app; split; [exact Op|repeat constructor; eauto]|].
    rewrite app_length. cbn [length]. rewrite E in Fp. apply Forall_app in Fp. destruct Fp as (F1 & F2). apply Forall_app. split; [|constructor; [lia|]]; (eapply Forall_impl; [|eassumption]; cbn beta; intros; lia).
Qed.
Lemma capture_ok E0 F stk fp gl out lps frs nfp clo r f : bounded F -> forall U cb, Forall2 (c_capture E0) U cb -> forall pc u p acc, code_at pc (cb ++ r) -> capturable E0 F fp stk clo u -> open_all u p ->
  exists ids u' p', capture P (length U) (VS pc stk fp gl out lps frs nfp u p clo) acc f = f (acc ++ ids) (VS (pc + len cb) stk fp gl out lps frs nfp u' p' clo) /\
    Forall2 (cap F u') U ids /\ prefix u u' /\ open_all u' p'.
Proof.
  intros Bd. induction 1 as [|x b U cb Cx Fc IH]; intros pc u p acc C Ca Op.
  - exists [], u, p. cbn [length capture]. rewrite app_nil_r. change (len []) with 0. rewrite Z.add_0_r. split; [reflexivity|]. split; [constructor|]. split; [apply prefix_refl|exact Op].
  - cbn [length capture app] in *. erewrite rd1_at by exact C. unfold set_pc at 1. simp_st. pose proof C as C1. change (b :: cb ++ r) with ([b] ++ cb ++ r) in C1. apply code_at_r in C1. change (len [b]) with 1 in C1.
    assert (NX : forall id u1 p1, cap F u1 x id -> prefix u u1 -> open_all u1 p1 -> exists ids u' p',
      capture P (length U) (VS (pc + 1) stk fp gl out lps frs nfp u1 p1 clo) (acc ++ [id]) f = f (acc ++ ids) (VS (pc + len (b :: cb)) stk fp gl out lps frs nfp u' p' clo) /\ Forall2 (cap F u') (x :: U) ids /\ prefix u u' /\ open_all u' p').
    { intros id u1 p1 Cp Px Op1. destruct (IH (pc + 1) u1 p1 (acc ++ [id]) C1 (capturable_grow _ _ _ _ _ _ _ Px Ca) Op1) as (ids & u' & p' & A1 & A2 & A3 & A4).
      exists (id :: ids), u', p'. split; [rewrite A1, <- app_assoc; cbn [app]; f_equal; f_equal; unfold len; cbn [length]; lia|]. split; [constructor; [eapply cap_grow; eassumption|exact A2]|]. split; [eapply prefix_trans; eassumption|exact A4]. }
    destruct E0 as [ss0|U0 ss0 F0]; cbn [capturable c_capture] in *.
    + destruct Ca as (-> & ->). destruct Cx as (z & Az & ->). pose proof (Bd _ _ Az) as Bz. rewrite (schar_idx P []) by exact Bz. destruct (Z.geb_spec (get_index z) 0); [|lia]. rewrite Z.mod_small by lia.
      match goal with |- context [add_upvalue ?s ?l] => destruct (add_upvalue_ok s l Op) as (id & u1 & p1 & A1 & A2 & A3 & A4) end. rewrite A1. cbn [opt fst snd]. unfold set_upv. simp_st.
      apply NX; [|exact A3|exact A4]. exists z. split; [exact Az|]. rewrite A2. do 2 f_equal.
    + destruct Ca as (<- & LU & Ca). destruct Cx as (j & Uj & ->). assert (Lj : (j < length U0)%nat) by (apply nth_error_Some; congruence).
      destruct Ca as [->|(k & a & ids0 & Sg & Ck & Fi)]; [destruct j; discriminate|].
      assert (Sc : schar (Z.lnot (Z.of_nat j) mod 256) = -1 - Z.of_nat j).
      { unfold Z.lnot. replace (Z.pred (- Z.of_nat j) mod 256) with (255 - Z.of_nat j) by (apply (Z.mod_unique _ _ (-1)); lia). unfold schar. destruct (Z.ltb_spec (255 - Z.of_nat j) 128); lia. }
      rewrite Sc. destruct (Z.geb_spec (-1 - Z.of_nat j) 0); [lia|]. unfold cur_closure. simp_st. rewrite Sg, Ck. cbn [opt k_upv]. replace (-1 - (-1 - Z.of_nat j)) with (Z.of_nat j) by lia. rewrite nthZ_nat.
      destruct (cap_nth _ _ _ _ _ _ Fi Uj) as (id & Hid & Cp). rewrite Hid. cbn [opt]. apply NX; [exact Cp|apply prefix_refl|exact Op].
Qed.
Definition fn_value (st : fstate) (l : nat) : value := match kind l with Some a => VFn a | None => VClosure (s_next st) end.
Definition fn_next (st : fstate) (l : nat) : Z := match kind l with Some _ => s_next st | None => s_next st + 1 end.
Lemma fn_runs E0 F l ps b (body : senv -> Z -> list Z -> Prop) x st m a bs r temps : code_at a (bs ++ r) -> c_fn kind E0 F l ps b body a bs -> capturable E0 F (x_fp x) (stack x temps st) (m_clo m) (m_upv m) -> bounded F -> (length F <= 128)%nat ->
  Inv st m -> Z.of_nat (length (stack x temps st)) < 1024 ->
  exists m' U bb, goes 1 (att x a temps st m) (att x (a + len bs) (fn_value st l :: temps) st m') /\ grow m m' /\ Z.of_nat (length (m_clo m')) = fn_next st l /\ open_all (m_upv m') (m_pend m') /\
    match fn_value st l with
    | VFn a' => a' = a + 9 /\ U = []
    | VClosure k => exists ids, nthZ (m_clo m') k = Some (Clo (a + 9) ids) /\ Forall2 (cap F (m_upv m')) U ids
    | _ => False
    end /\
    code_at (a + 9) ([Z.of_nat (length ps) mod 256] ++ bb ++ op O_NCONST ++ op O_RET ++ [scope_len (fafter (pscope ps) b) mod 256]) /\
    body (SFun U (pscope ps) F) (a + 9 + 1) bb /\ names_ok U F.
Proof.
  intros C (U & bb & cb & N & In' & Bo & Fc & Bs) Ca Bd LF (Iv & Nx & Op1 & Op2) R. set (inner := [Z.of_nat (length ps) mod 256] ++ bb ++ op O_NCONST ++ op O_RET ++ [scope_len (fafter (pscope ps) b) mod 256] ++ pops (fafter (pscope ps) b)) in *.
  assert (Nm : names_ok U F) by (split; [exact N|split; [exact In'|exact LF]]). pose proof (U_small _ _ Nm) as LU. replace (a + 10) with (a + 9 + 1) in Bo by lia.
  assert (Q : forall q o rest, code_at a (op o ++ enc8 q ++ inner ++ rest) -> code_at (a + 9) ([Z.of_nat (length ps) mod 256] ++ bb ++ op O_NCONST ++ op O_RET ++ [scope_len (fafter (pscope ps) b) mod 256])).
  { clear - inner. intros q o rest D. apply code_at_r, code_at_r in D. rewrite len_op, len_enc8 in D. replace (a + 1 + 8) with (a + 9) in D by lia. apply code_at_l in D.
    assert (X : inner = ([Z.of_nat (length ps) mod 256] ++ bb ++ op O_NCONST ++ op O_RET ++ [scope_len (fafter (pscope ps) b) mod 256]) ++ pops (fafter (pscope ps) b)) by (unfold inner; rewrite <- !app_assoc; reflexivity).
    rewrite X in D. apply code_at_l in D. exact D. }
  unfold fn_value, fn_next. destruct U as [|y U'].
  - destruct Bs as (Kd & ->). rewrite Kd. exists m, [], bb. rewrite <- !app_assoc in C. split; [|split; [apply grow_refl|]].
    + eapply op_goes; [exact C|]. cbn [VM.exec]. erewrite rd8_at; [|apply (code8 P _ _ _ _ C)|eapply (code_in P h G [] HG HKlen); [exact C|rewrite len_app; pose proof (len_nonneg inner); pose proof (len_nonneg r); lia]].
      rewrite CallProofs.push_ok by exact R. unfold att, stack, set_pc, set_stk. simp_st. replace (a + 1 + 8) with (a + 9) by lia.
      replace (a + len (op O_FCONST ++ enc8 (len inner) ++ inner)) with (a + 9 + len inner) by (rewrite !len_app, len_op, len_enc8; lia). reflexivity.
    + split; [exact Nx|]. split; [split; assumption|]. split; [split; reflexivity|]. split; [eapply Q; exact C|]. split; [exact Bo|exact Nm].
  - destruct Bs as (Kd & ->). rewrite Kd. rewrite <- !app_assoc in C. set (UU := y :: U') in *.
    pose proof (code_at_r P _ _ _ (code_at_r P _ _ _ C)) as C2. rewrite len_op, len_enc8 in C2. replace (a + 1 + 8) with (a + 9) in C2 by lia. pose proof (code_at_r P _ _ _ C2) as C3.
    destruct (capture_ok E0 F (stack x temps st) (x_fp x) (s_gl st) (s_out st) [] (x_frs x) (x_nfp x) (m_clo m) r
       (fun ids s => let k := Z.of_nat (length (v_clo s)) in push (add_clo s (Clo (a + 9) ids)) (VClosure k)) Bd UU cb Fc (a + 9 + len inner + 1) (m_upv m) (m_pend m) []) as (ids & u' & p' & A1 & A2 & A3 & A4).
    { apply code_at_r in C3. exact C3. } { exact Ca. } { split; assumption. }
    exists (Mem u' p' (m_clo m ++ [Clo (a + 9) ids])), UU, bb. split.
    + eapply op_goes; [exact C|]. cbn [VM.exec]. erewrite rd8_at; [|apply (code8 P _ _ _ _ C)|eapply (code_in P h G [] HG HKlen); [exact C|rewrite !len_app; pose proof (len_nonneg inner); pose proof (len_nonneg r); pose proof (len_nonneg cb); pose proof (len_nonneg [Z.of_nat (length UU) mod 256]); lia]].
      simp_st. cbv zeta. replace (a + 1 + 8) with (a + 9) by lia. erewrite rd1_at by (simp_st; exact C3). rewrite Z.mod_small by lia. rewrite Nat2Z.id.
      unfold att, set_pc. simp_st. etransitivity; [exact A1|]. cbv zeta. simp_st. rewrite CallProofs.push_ok by (simp_st; exact R). rewrite <- Nx. cbn [app]. unfold set_stk, add_clo. simp_st. cbn [m_upv m_pend m_clo app]. unfold stack. cbn [app].
      match goal with |- Next (VS ?a _ _ _ _ _ _ _ _ _ _) = Next (VS ?b _ _ _ _ _ _ _ _ _ _) => replace b with a; [reflexivity|] end. rewrite !len_app, len_op, len_enc8. unfold len. cbn [length app]. lia.
    + cbn [m_upv m_pend m_clo]. split; [split; [exact A3|eexists; reflexivity]|]. split; [rewrite app_length; cbn [length]; lia|]. split; [exact A4|]. split.
      * exists ids. split; [rewrite <- Nx, nthZ_nat, nth_error_app2, Nat.sub_diag by lia; reflexivity|exact A2].
      * split; [eapply Q; exact C|]. split; [exact Bo|exact Nm].
Qed.
End S.
