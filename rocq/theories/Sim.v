From Verif Require Import Base Bytes BytesProofs Value Table Ops Ast Stmt Limits Constants VM Compiler ValueProofs TableSpec ConstSpec ConstProofs Gen GenProofs GenProofs2 SimBase.

Section Sim.
Variable P : prog.
Variable h : host.
Variable G : scope.
Variables (fp : Z) (below : list value) (frames : list frame) (nfp : Z) (upvs : list upv) (pend : list nat) (clo : list closure).
Notation K := (p_consts P).
Hypothesis Hfp : Z.of_nat (length below) = fp + 1.
Hypothesis Hw : p_world P = h_world h.
Hypothesis Hl : p_list P = h_list h.
Hypothesis Hk : p_keys P = h_keys h.
Hypothesis HG : forall x, h_decl h x = option_map is_const (assoc G x).
Hypothesis HGK : gl_in G K.
Hypothesis HKlen : len (p_code P) <= int_max /\ Z.of_nat (length K) <= int_max.

Notation goes := (goes P). Notation halts := (halts P). Notation runs_on := (runs_on P). Notation code_at := (code_at P).
Definition mk (pc : Z) (stk : list value) (gl : list Z -> option value) (out : list Z) (lps : list (value * Z)) : vstate :=
  VS pc stk fp gl out lps frames nfp upvs pend clo.
(** The machine at [pc] with the variables of [st] and [temps] above them. *)
Definition atp (pc : Z) (temps : list value) (st : env) (lps : list (value * Z)) : vstate :=
  mk pc (temps ++ vals (e_scopes st) ++ below) (e_globals st) (e_out st) lps.

Ltac simp_st := unfold set_pc, set_stk, set_gl, set_out, set_loops, mk; cbn [set_pc set_stk set_gl set_out set_loops v_stk v_fp v_gl v_out v_loops v_frames v_next_fp v_upv v_pending v_clo v_pc mk].
Ltac fin := unfold atp; simp_st; unfold mk; simp_st; cbn [e_scopes e_globals e_out set_escopes];
  match goal with |- Next (VS ?a _ _ _ _ _ _ _ _ _ _) = Next (VS ?b _ _ _ _ _ _ _ _ _ _) => replace b with a; [reflexivity|] end.

Lemma index_K v : In v K -> 0 <= index_of K v < Z.of_nat (length K) /\ nthZ K (index_of K v) = Some v.
Proof. intros H. pose proof (index_of_in K v H []) as A. rewrite app_nil_r in A. exact A. Qed.

(** ** One instruction. *)
Lemma goes_op pc stk gl out lps o bs s' : code_at pc (op o ++ bs) -> VM.exec P o (mk (pc + 1) stk gl out lps) = Next s' -> goes 1 (mk pc stk gl out lps) s'.
Proof. intros C E. apply goes_step. rewrite (step_op P (mk pc stk gl out lps) o bs C). exact E. Qed.
Lemma halts_op pc stk gl out lps o bs r s' : code_at pc (op o ++ bs) -> VM.exec P o (mk (pc + 1) stk gl out lps) = Stop r s' -> halts (mk pc stk gl out lps) r (v_out s').
Proof. intros C E. apply halts_step. rewrite (step_op P (mk pc stk gl out lps) o bs C). exact E. Qed.
Lemma code8 pc o v bs : code_at pc (op o ++ enc8 v ++ bs) -> code_at (pc + 1) (enc8 v ++ bs).
Proof. apply (code_at_r P pc (op o)). Qed.
Lemma push_ok pc stk gl out lps v : Z.of_nat (length stk) < 1024 -> push (mk pc stk gl out lps) v = Next (mk pc (v :: stk) gl out lps).
Proof. intros H. unfold push, sp, STACK_SIZE. cbn [v_stk mk]. destruct (Z.geb_spec (Z.of_nat (length stk) - 1 + 1) 1024); [lia|reflexivity]. Qed.
Lemma push_any s v : Z.of_nat (length (v_stk s)) < 1024 -> push s v = Next (set_stk s (v :: v_stk s)).
Proof. intros H. unfold push, sp, STACK_SIZE. destruct (Z.geb_spec (Z.of_nat (length (v_stk s)) - 1 + 1) 1024); [lia|reflexivity]. Qed.
Lemma code_in pc o v bs : code_at pc (op o ++ enc8 v ++ bs) -> 0 <= v <= len bs -> in_i64 v.
Proof.
  intros C H. apply code_at_len in C. rewrite !len_app, len_enc8 in C. pose proof (len_nonneg (op o)). destruct HKlen. unfold in_i64, int_min, int_max in *. lia.
Qed.

(** ** Values. *)
Definition yields (s : vstate) (o : outcome value) (k : value -> vstate) (out : list Z) : Prop :=
  match o with Ok v => goes 1 s (k v) | Err e => halts s (Err e) out | UB => halts s UB out | NoFuel => halts s NoFuel out end.
Lemma yields_bind s o k f k2 out : yields s o k out -> (forall v, o = Ok v -> yields (k v) (f v) k2 out) -> yields s (bind o f) k2 out.
Proof.
  destruct o as [v|e| |]; cbn [yields bind]; auto. intros A B. specialize (B v eq_refl). destruct (f v) as [u|e| |]; cbn [yields] in *.
  - eapply goes_le; [eapply goes_trans; eassumption|lia].
  - eapply goes_halts; eassumption.
  - eapply goes_halts; eassumption.
  - eapply goes_halts; eassumption.
Qed.
Lemma yields_pre i s s1 o k out : goes i s s1 -> yields s1 o k out -> yields s o k out.
Proof.
  intros A. destruct o as [u|e| |]; cbn [yields]; intros B.
  - eapply goes_le; [eapply goes_trans; eassumption|lia].
  - eapply goes_halts; eassumption.
  - eapply goes_halts; eassumption.
  - eapply goes_halts; eassumption.
Qed.
Lemma yields_ext s o k k2 out : yields s o k out -> (forall v, k v = k2 v) -> yields s o k2 out.
Proof. destruct o; cbn; intros A B; auto. rewrite <- B. exact A. Qed.

Lemma slot_nth temps vs n v : nth_error vs n = Some v ->
  slot_get (temps ++ vs ++ below) (Z.of_nat (length below) + (Z.of_nat (length vs) - 1 - Z.of_nat n)) = Some v.
Proof.
  intros E. assert (L : (n < length vs)%nat) by (apply nth_error_Some; congruence). unfold slot_get, from_top. rewrite !app_length.
  match goal with |- (if ?b then _ else _) = _ => assert (Hb : b = true) by lia; rewrite Hb end.
  replace (Z.to_nat _) with (length temps + n)%nat by lia. rewrite nth_error_app2 by lia. replace (length temps + n - length temps)%nat with n by lia. rewrite nth_error_app1 by lia. exact E.
Qed.
Lemma slot_put temps vs n v : (n < length vs)%nat ->
  slot_set (temps ++ vs ++ below) (Z.of_nat (length below) + (Z.of_nat (length vs) - 1 - Z.of_nat n)) v = Some (temps ++ put vs n v ++ below).
Proof.
  intros L. unfold slot_set, from_top. rewrite !app_length.
  match goal with |- (if ?b then _ else _) = _ => assert (Hb : b = true) by lia; rewrite Hb end.
  replace (Z.to_nat _) with (length temps + n)%nat by lia. rewrite put_app_r, put_app_l by lia. reflexivity.
Qed.

Lemma schar_idx z : 0 <= z < 128 -> schar (z mod 256) = z.
Proof. intros H. rewrite Z.mod_small by lia. unfold schar. destruct (Z.ltb_spec z 128); lia. Qed.

Definition room_for (ss : list scope) (temps : list value) (n : nat) : Prop :=
  Z.of_nat (length below) + scope_len ss + Z.of_nat (length temps) + Z.of_nat n <= 1024.
Lemma stk_len ss es temps : agree ss es -> Z.of_nat (length (temps ++ vals es ++ below)) = Z.of_nat (length below) + scope_len ss + Z.of_nat (length temps).
Proof. intros A. rewrite !app_length. pose proof (agree_length _ _ A). lia. Qed.

(** ** Expressions. *)
Lemma sim_lit v ss st pc temps lps bs : In v K -> agree ss (e_scopes st) -> room_for ss temps 1 -> code_at pc (lit_code K v ++ bs) ->
  goes 1 (atp pc temps st lps) (atp (pc + len (lit_code K v)) (v :: temps) st lps).
Proof.
  intros Hin A R C. destruct (index_K v Hin) as (B & N). unfold lit_code in *. pose proof (stk_len _ _ temps A) as SL. unfold room_for in R. destruct (Z.ltb_spec (index_of K v) 128).
  - rewrite <- app_assoc in C. eapply goes_op; [exact C|]. cbn [VM.exec]. rewrite (rd1_at P (mk _ _ _ _ _) _ _ _ (code_at_r P _ _ _ C)). rewrite Z.mod_small by lia. rewrite N. cbn [opt].
    rewrite push_any by (simp_st; lia). fin. unfold len. cbn [op app length]. lia.
  - rewrite <- app_assoc in C. eapply goes_op; [exact C|]. cbn [VM.exec].
    rewrite (rd8_at P (mk _ _ _ _ _) _ _ _ (code8 _ _ _ _ C)) by (destruct HKlen; unfold in_i64, int_min, int_max in *; lia). rewrite N. cbn [opt].
    rewrite push_any by (simp_st; lia). fin. rewrite len_app, len_op, len_enc8. lia.
Qed.

Lemma const_name_K x : In (VStr x) K -> const_name P (index_of K (VStr x)) = Some x.
Proof. intros H. destruct (index_K _ H) as (_ & N). unfold const_name. rewrite N. reflexivity. Qed.

Lemma sim_load x ss st pc temps lps bs : known G ss x = true -> agree ss (e_scopes st) -> scope_len ss <= 128 -> room_for ss temps 1 ->
  code_at pc (load_code K ss x ++ bs) ->
  exists v, read_var h st x = RVal v /\ goes 1 (atp pc temps st lps) (atp (pc + len (load_code K ss x)) (v :: temps) st lps).
Proof.
  intros Kn A S R C. unfold known in Kn. unfold load_code in *. pose proof (get_var _ x _ A) as H. unfold read_var. pose proof (stk_len _ _ temps A) as SL. unfold room_for in R.
  destruct (scope_get ss x) as [z|].
  - destruct H as (k & v & n & F & _ & B & N & E & _). rewrite F. exists v. split; [reflexivity|]. rewrite <- app_assoc in C. eapply goes_op; [exact C|]. cbn [VM.exec].
    rewrite (rd1_at P (mk _ _ _ _ _) _ _ _ (code_at_r P _ _ _ C)). simp_st. rewrite schar_idx by lia.
    pose proof (agree_length _ _ A) as LV. assert (n < length (vals (e_scopes st)))%nat by (apply nth_error_Some; congruence).
    replace (fp + get_index z + 1) with (Z.of_nat (length below) + (Z.of_nat (length (vals (e_scopes st))) - 1 - Z.of_nat n)) by lia. rewrite (slot_nth temps _ _ _ E). cbn [opt].
    rewrite push_any by (simp_st; lia). fin. unfold len. cbn [op app length]. lia.
  - rewrite H. rewrite HG. destruct (assoc G x) as [z|] eqn:Ax; [|discriminate]. cbn [option_map]. eexists. split; [reflexivity|]. rewrite <- app_assoc in C. eapply goes_op; [exact C|]. cbn [VM.exec].
    pose proof (HGK _ _ Ax) as Hin. destruct (index_K _ Hin) as (B & _).
    rewrite (rd8_at P (mk _ _ _ _ _) _ _ _ (code8 _ _ _ _ C)) by (destruct HKlen; unfold in_i64, int_min, int_max in *; lia). rewrite (const_name_K x Hin). cbn [opt]. 
    rewrite push_any by (simp_st; lia). fin. rewrite len_app, len_op, len_enc8. lia.
Qed.

Lemma sim_store x v ss st pc temps lps bs : writable G ss x = true -> agree ss (e_scopes st) -> scope_len ss <= 128 ->
  code_at pc (store_code K ss x ++ bs) ->
  exists st', write_var h st x v = Some st' /\ agree ss (e_scopes st') /\ e_out st' = e_out st /\
    goes 1 (atp pc (v :: temps) st lps) (atp (pc + len (store_code K ss x)) temps st' lps).
Proof.
  intros Wr A S C. unfold writable in Wr. unfold store_code in *. pose proof (get_var _ x _ A) as H. unfold write_var. pose proof (agree_length _ _ A) as LV.
  destruct (scope_get ss x) as [z|].
  - destruct H as (k & u & n & F & Ck & B & N & E & U). rewrite F. rewrite Ck in Wr. destruct k; [discriminate|]. destruct (U v) as (U1 & U2). eexists. split; [reflexivity|]. split; [exact U2|]. split; [reflexivity|].
    rewrite <- app_assoc in C. eapply goes_op; [exact C|]. cbn [VM.exec]. rewrite (rd1_at P (mk _ _ _ _ _) _ _ _ (code_at_r P _ _ _ C)). 
    unfold pop. unfold atp. simp_st. cbn [app]. simp_st.
    assert (Gz : get_index z = z). { unfold get_index. rewrite Ck. reflexivity. } rewrite <- Gz. rewrite schar_idx by lia.
    assert (n < length (vals (e_scopes st)))%nat by (apply nth_error_Some; congruence).
    replace (fp + get_index z + 1) with (Z.of_nat (length below) + (Z.of_nat (length (vals (e_scopes st))) - 1 - Z.of_nat n)) by lia.
    rewrite slot_put by assumption. cbn [opt]. rewrite <- U1. fin. { cbn [app]. unfold len. cbn [op app length]. lia. }
  - rewrite H. rewrite HG. destruct (assoc G x) as [z|] eqn:Ax; [|discriminate]. cbn [option_map]. destruct (is_const z); [discriminate|]. eexists. split; [reflexivity|]. split; [exact A|]. split; [reflexivity|].
    rewrite <- app_assoc in C. eapply goes_op; [exact C|]. cbn [VM.exec].
    pose proof (HGK _ _ Ax) as Hin. destruct (index_K _ Hin) as (B & _).
    rewrite (rd8_at P (mk _ _ _ _ _) _ _ _ (code8 _ _ _ _ C)) by (destruct HKlen; unfold in_i64, int_min, int_max in *; lia). rewrite (const_name_K x Hin). cbn [opt].
    unfold pop, atp. simp_st. cbn [app]. fin. rewrite len_app, len_op, len_enc8. lia.
Qed.

(** A forward jump of distance [d] with operand [v] popped. *)
Lemma goes_brf pc v stk gl out lps d bs : code_at pc (op O_BRF_8 ++ enc8 d ++ bs) -> 0 <= d <= len bs ->
  goes 1 (mk pc (v :: stk) gl out lps) (mk (if is_falsey v then pc + 9 + d else pc + 9) stk gl out lps).
Proof.
  intros C H. eapply goes_op; [exact C|]. cbn [VM.exec]. rewrite (rd8_at P (mk _ _ _ _ _) _ _ _ (code8 _ _ _ _ C)) by (eapply code_in; eassumption).
  unfold pop. simp_st. destruct (is_falsey v); fin; lia.
Qed.
Lemma goes_br pc stk gl out lps d bs : code_at pc (op O_BR_8 ++ enc8 d ++ bs) -> in_i64 d ->
  goes 1 (mk pc stk gl out lps) (mk (pc + 9 + d) stk gl out lps).
Proof.
  intros C H. eapply goes_op; [exact C|]. cbn [VM.exec]. rewrite (rd8_at P (mk _ _ _ _ _) _ _ _ (code8 _ _ _ _ C)) by assumption.
  fin. lia.
Qed.
Lemma goes_sc o pc v stk gl out lps d bs : code_at pc (op (sc_jump o) ++ enc8 d ++ bs) -> 0 <= d <= len bs ->
  goes 1 (mk pc (v :: stk) gl out lps) (mk (if decides o v then pc + 9 + d else pc + 9) stk gl out lps).
Proof.
  intros C H. eapply goes_op; [exact C|].
  destruct o; cbn [sc_jump VM.exec decides] in *; rewrite (rd8_at P (mk _ _ _ _ _) _ _ _ (code8 _ _ _ _ C)) by (eapply code_in; eassumption);
  unfold pop; simp_st;
  match goal with |- context [if ?b then _ else _] => destruct b end; fin; lia.
Qed.
Lemma goes_pop pc v stk gl out lps bs : code_at pc (op O_POP ++ bs) -> goes 1 (mk pc (v :: stk) gl out lps) (mk (pc + 1) stk gl out lps).
Proof. intros C. eapply goes_op; [exact C|]. reflexivity. Qed.
Lemma goes_dup pc v stk gl out lps bs : code_at pc (op O_DUP ++ bs) -> Z.of_nat (length stk) + 2 <= 1024 ->
  goes 1 (mk pc (v :: stk) gl out lps) (mk (pc + 1) (v :: v :: stk) gl out lps).
Proof. intros C H. eapply goes_op; [exact C|]. cbn [VM.exec v_stk mk]. apply push_ok. cbn [length]. lia. Qed.
Lemma goes_const pc o v stk gl out lps bs : code_at pc (op o ++ bs) -> Z.of_nat (length stk) + 1 <= 1024 ->
  (o = O_NCONST /\ v = VUndef \/ o = O_BCONST_T /\ v = VBool true \/ o = O_BCONST_F /\ v = VBool false \/ o = O_END /\ v = VEnd) ->
  goes 1 (mk pc stk gl out lps) (mk (pc + 1) (v :: stk) gl out lps).
Proof. intros C H D. eapply goes_op; [exact C|]. destruct D as [(-> & ->)|[(-> & ->)|[(-> & ->)|(-> & ->)]]]; cbn [VM.exec]; apply push_ok; lia. Qed.

Lemma yields_bin pc a b stk st lps o bs ss temps : code_at pc (op (O_BIN o) ++ bs) -> stk = temps ++ vals (e_scopes st) ++ below -> agree ss (e_scopes st) -> room_for ss temps 1 ->
  yields (mk pc (b :: a :: stk) (e_globals st) (e_out st) lps) (exec_binop (h_world h) o a b) (fun v => atp (pc + 1) (v :: temps) st lps) (e_out st).
Proof.
  intros C E A R. pose proof (stk_len _ _ temps A) as SL. unfold room_for in R.
  destruct (exec_binop (h_world h) o a b) as [v|e| |] eqn:X; cbn [yields].
  - eapply goes_op; [exact C|]. cbn [VM.exec]. unfold pop. cbn [v_stk mk set_stk]. rewrite Hw, X. cbn [lift]. subst stk. rewrite push_any by (simp_st; lia). fin. reflexivity.
  - eapply (halts_op pc _ _ _ _ _ bs _ (mk (pc+1) stk (e_globals st) (e_out st) lps)); [exact C|]. cbn [VM.exec]. unfold pop. cbn [v_stk mk set_stk]. rewrite Hw, X. reflexivity.
  - eapply (halts_op pc _ _ _ _ _ bs _ (mk (pc+1) stk (e_globals st) (e_out st) lps)); [exact C|]. cbn [VM.exec]. unfold pop. cbn [v_stk mk set_stk]. rewrite Hw, X. reflexivity.
  - eapply (halts_op pc _ _ _ _ _ bs _ (mk (pc+1) stk (e_globals st) (e_out st) lps)); [exact C|]. cbn [VM.exec]. unfold pop. cbn [v_stk mk set_stk]. rewrite Hw, X. reflexivity.
Qed.
Lemma yields_un pc a stk st lps o bs ss temps : code_at pc (op (O_UN o) ++ bs) -> stk = temps ++ vals (e_scopes st) ++ below -> agree ss (e_scopes st) -> room_for ss temps 1 ->
  yields (mk pc (a :: stk) (e_globals st) (e_out st) lps) (exec_unop (h_world h) o a) (fun v => atp (pc + 1) (v :: temps) st lps) (e_out st).
Proof.
  intros C E A R. pose proof (stk_len _ _ temps A) as SL. unfold room_for in R.
  destruct (exec_unop (h_world h) o a) as [v|e| |] eqn:X; cbn [yields].
  - eapply goes_op; [exact C|]. cbn [VM.exec]. unfold pop. cbn [v_stk mk set_stk]. rewrite Hw, X. cbn [lift]. subst stk. rewrite push_any by (simp_st; lia). fin. reflexivity.
  - eapply (halts_op pc _ _ _ _ _ bs _ (mk (pc+1) stk (e_globals st) (e_out st) lps)); [exact C|]. cbn [VM.exec]. unfold pop. cbn [v_stk mk set_stk]. rewrite Hw, X. reflexivity.
  - eapply (halts_op pc _ _ _ _ _ bs _ (mk (pc+1) stk (e_globals st) (e_out st) lps)); [exact C|]. cbn [VM.exec]. unfold pop. cbn [v_stk mk set_stk]. rewrite Hw, X. reflexivity.
  - eapply (halts_op pc _ _ _ _ _ bs _ (mk (pc+1) stk (e_globals st) (e_out st) lps)); [exact C|]. cbn [VM.exec]. unfold pop. cbn [v_stk mk set_stk]. rewrite Hw, X. reflexivity.
Qed.

(** ** Expressions. *)
Lemma need_pos e : (1 <= need_e e)%nat.
Proof. induction e; cbn [need_e]; lia. Qed.
Ltac room R := unfold room_for in R |- *; cbn [need_e need length] in R |- *; repeat rewrite Nat2Z.inj_max in *; lia.

Lemma sim_e e : forall ss st pc temps lps bs, ok_e G ss e = true -> incl (lits_e e) K -> agree ss (e_scopes st) -> scope_len ss <= 128 ->
  room_for ss temps (need_e e) -> code_at pc (gen_e K ss e ++ bs) ->
  closed h st e = true /\
  yields (atp pc temps st lps) (eval (h_world h) (rho h st) e) (fun v => atp (pc + len (gen_e K ss e)) (v :: temps) st lps) (e_out st).
Proof.
  induction e as [|b|i|f|s|x|o e IH|o l IHl r IHr|o l IHl r IHr|a IHa b IHb d IHd]; intros ss st pc temps lps bs O L A S R C; cbn [ok_e lits_e gen_e] in *; cbn [closed eval].
  - split; [reflexivity|]. cbn [yields]. eapply goes_const; [exact C| |left; auto]. rewrite (stk_len _ _ _ A). room R.
  - split; [reflexivity|]. cbn [yields]. eapply goes_const; [exact C| |destruct b; auto]. rewrite (stk_len _ _ _ A). room R.
  - split; [reflexivity|]. cbn [yields]. eapply sim_lit; [apply L; left; reflexivity|exact A|room R|exact C].
  - split; [reflexivity|]. cbn [yields]. eapply sim_lit; [apply L; left; reflexivity|exact A|room R|exact C].
  - split; [reflexivity|]. cbn [yields]. eapply sim_lit; [apply L; left; reflexivity|exact A|room R|exact C].
  - destruct (sim_load x ss st pc temps lps bs O A S) as (v & E & Go); [room R|exact C|]. unfold rho. rewrite E. split; [reflexivity|exact Go].
  - rewrite <- app_assoc in C. destruct (IH ss st pc temps lps _ O L A S R C) as (Cl & Y). split; [exact Cl|]. eapply yields_bind; [exact Y|]. intros v _. cbn beta.
    eapply yields_ext; [eapply yields_un; [exact (code_at_r P _ _ _ C)|reflexivity|exact A|pose proof (need_pos e); room R]|]. intros u. cbn beta. rewrite len_app, len_op, Z.add_assoc. reflexivity.
  - apply andb_true_iff in O. destruct O as (O1 & O2). rewrite <- !app_assoc in C.
    pose proof (need_pos l) as Nl. pose proof (need_pos r) as Nr.
    destruct (IHl ss st pc temps lps _ O1 (fun v H => L v (in_or_app _ _ _ (or_introl H))) A S ltac:(room R) C) as (C1 & Y1). apply code_at_r in C.
    assert (Y2 : forall v, closed h st r = true /\ yields (atp (pc + len (gen_e K ss l)) (v :: temps) st lps) (eval (h_world h) (rho h st) r) (fun u => atp (pc + len (gen_e K ss l) + len (gen_e K ss r)) (u :: v :: temps) st lps) (e_out st))
      by (intros v; exact (IHr ss st _ (v :: temps) lps _ O2 (fun v H => L v (in_or_app _ _ _ (or_intror H))) A S ltac:(room R) C)).
    apply code_at_r in C. split; [rewrite C1; apply (Y2 VUndef)|]. eapply yields_bind; [exact Y1|]. intros a _. eapply yields_bind; [apply (Y2 a)|]. intros b _. cbn beta.
    replace (pc + len (gen_e K ss l ++ gen_e K ss r ++ bop_code o)) with (pc + len (gen_e K ss l) + len (gen_e K ss r) + len (bop_code o)) by (rewrite !len_app; lia).
    destruct o as [o| |]; cbn [bop_code eval_bop] in *.
    + rewrite len_op. eapply yields_bin; [exact C|reflexivity|exact A|room R].
    + rewrite <- app_assoc in C. rewrite len_app, !len_op. pose proof (yields_bin _ a b _ st lps BEq _ ss temps C eq_refl A ltac:(room R)) as Y. apply code_at_r in C. rewrite len_op in C.
      replace (omap not_value (exec_binop (h_world h) BEq a b)) with (do v <- exec_binop (h_world h) BEq a b; exec_unop (h_world h) UNot v) by (destruct (exec_binop (h_world h) BEq a b); reflexivity).
      eapply yields_bind; [exact Y|]. intros v _. cbn beta. rewrite Z.add_assoc. eapply yields_un; [exact C|reflexivity|exact A|room R].
    + rewrite <- app_assoc in C. rewrite len_app, !len_op. pose proof (yields_bin _ a b _ st lps BId _ ss temps C eq_refl A ltac:(room R)) as Y. apply code_at_r in C. rewrite len_op in C.
      replace (omap not_value (exec_binop (h_world h) BId a b)) with (do v <- exec_binop (h_world h) BId a b; exec_unop (h_world h) UNot v) by (destruct (exec_binop (h_world h) BId a b); reflexivity).
      eapply yields_bind; [exact Y|]. intros v _. cbn beta. rewrite Z.add_assoc. eapply yields_un; [exact C|reflexivity|exact A|room R].
  - apply andb_true_iff in O. destruct O as (O1 & O2). rewrite <- !app_assoc in C. set (br := gen_e K ss r) in *.
    pose proof (need_pos l) as Nl. pose proof (need_pos r) as Nr.
    destruct (IHl ss st pc temps lps _ O1 (fun v H => L v (in_or_app _ _ _ (or_introl H))) A S ltac:(room R) C) as (C1 & Y1). apply code_at_r in C.
    set (p1 := pc + len (gen_e K ss l)) in *. pose proof (code_at_r P _ _ _ C) as C2. rewrite len_op in C2.
    pose proof (code_at_r P _ _ _ C2) as C3. rewrite len_op in C3. pose proof (code_at_r P _ _ _ C3) as C4. rewrite len_enc8 in C4. pose proof (code_at_r P _ _ _ C4) as C5. rewrite len_op in C5.
    destruct (IHr ss st _ temps lps _ O2 (fun v H => L v (in_or_app _ _ _ (or_intror H))) A S ltac:(room R) C5) as (C6 & Y2).
    split; [rewrite C1; exact C6|]. eapply yields_bind; [exact Y1|]. intros a _. cbn beta.
    replace (pc + len (gen_e K ss l ++ op O_DUP ++ op (sc_jump o) ++ enc8 (1 + len br) ++ op O_POP ++ br)) with (p1 + 11 + len br) by (rewrite !len_app, !len_op, len_enc8; unfold p1; lia).
    pose proof (stk_len _ _ temps A) as SL.
    assert (D : goes 2 (atp p1 (a :: temps) st lps) (atp (if decides o a then p1 + 11 + len br else p1 + 10) (a :: temps) st lps)).
    { eapply (goes_trans P 1 1); [exact (goes_dup p1 a (temps ++ vals (e_scopes st) ++ below) (e_globals st) (e_out st) lps _ C ltac:(rewrite SL; room R))|].
      pose proof (goes_sc o _ a (a :: temps ++ vals (e_scopes st) ++ below) (e_globals st) (e_out st) lps _ _ C2 ltac:(rewrite len_app, len_app, len_op; pose proof (len_nonneg br); pose proof (len_nonneg bs); lia)) as Go.
      replace (if decides o a then p1 + 11 + len br else p1 + 10) with (if decides o a then p1 + 1 + 9 + (1 + len br) else p1 + 1 + 9) by (destruct (decides o a); lia). exact Go. }
    destruct (decides o a).
    + cbn [yields]. eapply goes_le; [exact D|lia].
    + eapply yields_pre; [exact D|]. replace (p1 + 1 + 1 + 8) with (p1 + 10) in * by lia.
      eapply yields_pre; [eapply goes_pop; exact C4|]. eapply yields_ext; [exact Y2|]. intros u. cbn beta. fold br. f_equal. lia.
  - apply andb_true_iff in O. destruct O as (O & O3). apply andb_true_iff in O. destruct O as (O1 & O2). rewrite <- !app_assoc in C. set (ba := gen_e K ss b) in *. set (bd := gen_e K ss d) in *.
    pose proof (need_pos a) as Na. pose proof (need_pos b) as Nb. pose proof (need_pos d) as Nd.
    destruct (IHa ss st pc temps lps _ O1 (fun v H => L v (in_or_app _ _ _ (or_introl H))) A S ltac:(room R) C) as (C1 & Y1). apply code_at_r in C.
    set (p1 := pc + len (gen_e K ss a)) in *. pose proof (code_at_r P _ _ _ C) as C2. rewrite len_op in C2. pose proof (code_at_r P _ _ _ C2) as C3. rewrite len_enc8 in C3.
    destruct (IHb ss st _ temps lps _ O2 (fun v H => L v (in_or_app _ _ _ (or_intror (in_or_app _ _ _ (or_introl H))))) A S ltac:(room R) C3) as (C4 & Y2).
    apply code_at_r in C3. fold ba in C3. pose proof (code_at_r P _ _ _ C3) as C5. rewrite len_op in C5. pose proof (code_at_r P _ _ _ C5) as C6. rewrite len_enc8 in C6.
    destruct (IHd ss st _ temps lps _ O3 (fun v H => L v (in_or_app _ _ _ (or_intror (in_or_app _ _ _ (or_intror H))))) A S ltac:(room R) C6) as (C7 & Y3).
    split; [rewrite C1, C4; exact C7|]. eapply yields_bind; [exact Y1|]. intros v _. cbn beta.
    replace (pc + len (gen_e K ss a ++ op O_BRF_8 ++ enc8 (len ba + 9) ++ ba ++ op O_BR_8 ++ enc8 (len bd) ++ bd)) with (p1 + 18 + len ba + len bd) by (rewrite !len_app, !len_op, !len_enc8; unfold p1; lia).
    pose proof (len_nonneg ba). pose proof (len_nonneg bd). pose proof (len_nonneg bs).
    pose proof (goes_brf p1 v (temps ++ vals (e_scopes st) ++ below) (e_globals st) (e_out st) lps _ _ C ltac:(rewrite !len_app, !len_op, !len_enc8; lia)) as Go.
    eapply yields_pre; [exact Go|]. destruct (is_falsey v).
    + replace (p1 + 9 + (len ba + 9)) with (p1 + 1 + 8 + len ba + 1 + 8) by lia. eapply yields_ext; [exact Y3|]. intros u. cbn beta. fold bd. f_equal. lia.
    + replace (p1 + 9) with (p1 + 1 + 8) by lia. fold ba in Y2.
      assert (J : forall u, goes 1 (atp (p1 + 1 + 8 + len ba) (u :: temps) st lps) (atp (p1 + 18 + len ba + len bd) (u :: temps) st lps)).
      { intros u. pose proof (goes_br _ (u :: temps ++ vals (e_scopes st) ++ below) (e_globals st) (e_out st) lps _ _ C3 ltac:(eapply code_in; [exact C3|rewrite !len_app; lia])) as Gb.
        replace (p1 + 18 + len ba + len bd) with (p1 + 1 + 8 + len ba + 9 + len bd) by lia. exact Gb. }
      destruct (eval (h_world h) (rho h st) b) as [u|e| |]; cbn [yields] in *; [|exact Y2..]. eapply goes_le; [eapply goes_trans; [exact Y2|apply J]|lia].
Qed.

(** ** Statements. *)
Definition res (ss ss' : list scope) (np bp cp : Z) (n : nat) (lps : list (value * Z)) (r : xres) (s : vstate) : Prop :=
  match r with
  | XOk Normal st' => goes 0 s (atp np [] st' lps) /\ agree ss' (e_scopes st')
  | XOk Break st' => goes 1 s (atp bp [VBool false] st' lps) /\ agree ss (e_scopes st')
  | XOk Continue st' => goes 1 s (atp cp [] st' lps) /\ agree ss (e_scopes st')
  | XStop o out => halts s o out
  | XFuel => runs_on s n
  | XStuck => False
  end.
Lemma res_pre i s s1 ss ss' np bp cp n lps r : goes i s s1 -> res ss ss' np bp cp n lps r s1 -> res ss ss' np bp cp n lps r s.
Proof.
  intros Go. destruct r as [[| |] st'|o out| |]; cbn [res].
  - intros (A & B). split; [eapply goes_le; [eapply goes_trans; eassumption|lia]|exact B].
  - intros (A & B). split; [eapply goes_le; [eapply goes_trans; eassumption|lia]|exact B].
  - intros (A & B). split; [eapply goes_le; [eapply goes_trans; eassumption|lia]|exact B].
  - apply goes_halts with (1 := Go).
  - intros A. eapply runs_le; [eapply goes_runs; eassumption|lia].
  - tauto.
Qed.
Lemma res_ev ss ss' np bp cp n lps st e kont s k : closed h st e = true -> yields s (eval (h_world h) (rho h st) e) k (e_out st) ->
  (forall v, eval (h_world h) (rho h st) e = Ok v -> res ss ss' np bp cp n lps (kont v) (k v)) -> res ss ss' np bp cp n lps (ev h st e kont) s.
Proof.
  intros C Y H. unfold ev. rewrite C. destruct (eval (h_world h) (rho h st) e) as [v|er| |]; cbn [yields] in Y; cbn [res]; auto.
  eapply res_pre; [exact Y|apply H; reflexivity].
Qed.
Lemma known_read ss st x : known G ss x = true -> agree ss (e_scopes st) -> exists v, read_var h st x = RVal v.
Proof.
  intros Kn A. pose proof (get_var _ x _ A) as H. unfold known, read_var in *. destruct (scope_get ss x) as [z|].
  - destruct H as (k & v & n & F & _). rewrite F. eauto.
  - rewrite H, HG. destruct (assoc G x); [|discriminate]. cbn. eauto.
Qed.
Lemma quiet_ev ss st e kont : quiet e = true -> ok_e G ss e = true -> agree ss (e_scopes st) -> exists v, ev h st e kont = kont v.
Proof.
  intros Q O A. unfold ev. destruct e; try discriminate; cbn [closed eval]; eauto. cbn [ok_e] in O. destruct (known_read _ _ _ O A) as (v & E). unfold rho. rewrite E. eauto.
Qed.
Lemma truthy_ev st e kont : e_truthy e = true -> exists v, ev h st e kont = kont v /\ is_falsey v = false.
Proof. intros T. destruct e; try discriminate; cbn; [|eauto]. cbn in T. subst. eauto. Qed.
Lemma falsey_ev st e kont : e_falsey e = true -> exists v, ev h st e kont = kont v /\ is_falsey v = true.
Proof. intros T. destruct e; try discriminate; cbn; [eauto|]. cbn in T. destruct b; [discriminate|]. eauto. Qed.

Lemma goes_back B p target stk gl out lps bs : code_at (B + p) (back p target ++ bs) -> 0 <= B -> 0 <= target <= p ->
  goes 1 (mk (B + p) stk gl out lps) (mk (B + target) stk gl out lps).
Proof.
  intros C HB Ht. unfold back in C. rewrite <- app_assoc in C. pose proof (code_at_len _ _ _ C) as L. rewrite !len_app, len_op, len_enc8 in L. pose proof (len_nonneg bs).
  replace (B + target) with (B + p + 9 + (target - (p + 1) - 8)) by lia. eapply goes_br; [exact C|]. destruct HKlen. unfold in_i64, int_min, int_max in *. lia.
Qed.
Lemma goes_pops ts : forall pc stk gl out lps bs, code_at pc (repeat (op_byte O_POP) (length ts) ++ bs) ->
  goes 0 (mk pc (ts ++ stk) gl out lps) (mk (pc + Z.of_nat (length ts)) stk gl out lps).
Proof.
  induction ts as [|t ts IH]; intros pc stk gl out lps bs C.
  - cbn [length]. rewrite Z.add_0_r. apply goes_refl.
  - cbn [length repeat app] in C. change (op_byte O_POP :: repeat (op_byte O_POP) (length ts) ++ bs) with (op O_POP ++ repeat (op_byte O_POP) (length ts) ++ bs) in C.
    eapply goes_le; [eapply goes_trans; [exact (goes_pop pc t (ts ++ stk) gl out lps _ C)|]|].
    + apply code_at_r in C. rewrite len_op in C. replace (pc + Z.of_nat (length (t :: ts))) with (pc + 1 + Z.of_nat (length ts)) by (cbn [length]; lia). exact (IH _ _ _ _ _ _ C).
    + lia.
Qed.

Lemma sim_es es : forall ss st pc temps lps bs kont ss1 ss2 np bp cp n l2,
  forallb (ok_e G ss) es = true -> incl (concat (map lits_e es)) K -> agree ss (e_scopes st) -> scope_len ss <= 128 ->
  room_for ss temps (need_es es) -> code_at pc (gen_es K ss es ++ bs) ->
  (forall vs, length vs = length es -> res ss1 ss2 np bp cp n l2 (kont vs) (atp (pc + len (gen_es K ss es)) (rev vs ++ temps) st lps)) ->
  res ss1 ss2 np bp cp n l2 (ev_list h st es kont) (atp pc temps st lps).
Proof.
  induction es as [|e es IH]; intros ss st pc temps lps bs kont ss1 ss2 np bp cp n l2 O L A S R C H; cbn [ev_list].
  - specialize (H [] eq_refl). cbn in H. change (len []) with 0 in H. rewrite Z.add_0_r in H. exact H.
  - cbn [forallb] in O. apply andb_true_iff in O. destruct O as (O1 & O2). unfold gen_es in C, H. cbn [map concat need_es] in C, R, L, H. fold (gen_es K ss es) in C, H. rewrite <- app_assoc in C.
    destruct (sim_e e ss st pc temps lps _ O1 (fun v H => L v (in_or_app _ _ _ (or_introl H))) A S ltac:(room R) C) as (Cl & Y).
    eapply res_ev; [exact Cl|exact Y|]. intros v _. cbn beta. eapply (IH ss); [exact O2|exact (fun v H => L v (in_or_app _ _ _ (or_intror H)))|exact A|exact S|room R|exact (code_at_r P _ _ _ C)|].
    intros vs Hv. specialize (H (v :: vs) ltac:(cbn; lia)). cbn [rev] in H. rewrite <- app_assoc in H. cbn [app] in H. rewrite len_app, Z.add_assoc in H. exact H.
Qed.

Lemma fresh_lookup ss st x : fresh ss x = true -> agree ss (e_scopes st) -> forall k v, exists b q, e_scopes st = b :: q /\ declare_var st x k v = Some (set_escopes st (((x, (k, v)) :: b) :: q)).
Proof.
  intros F A k v. unfold fresh, declare_var in *. destruct ss as [|s r]; [discriminate|]. destruct (e_scopes st) as [|b q]; [destruct A|]. destruct A as (A1 & A2). exists b, q. split; [reflexivity|].
  pose proof (assoc1 _ _ x _ (scope_len_nonneg r) A1) as H. destruct (assoc s x); [discriminate|]. rewrite H. reflexivity.
Qed.
Lemma atp_declare pc temps st lps x k v b q : e_scopes st = b :: q -> atp pc (temps ++ [v]) st lps = atp pc temps (set_escopes st (((x, (k, v)) :: b) :: q)) lps.
Proof. intros E. unfold atp. cbn [e_scopes set_escopes e_globals e_out]. rewrite E, !map_vals_cons. cbn [map bval snd]. rewrite <- !app_assoc. reflexivity. Qed.

Lemma sim_lvals ls : forall vs ss st pc lps bs, length vs = length ls -> ok_lvals G ss ls = true -> agree ss (e_scopes st) ->
  scope_len ss + Z.of_nat (length ls) <= 128 -> code_at pc (gen_lvals K ss ls ++ bs) ->
  exists st', give h ls vs st = Some st' /\ agree (fold_left after_lval ls ss) (e_scopes st') /\
    goes 0 (atp pc (rev vs) st lps) (atp (pc + len (gen_lvals K ss ls)) [] st' lps).
Proof.
  induction ls as [|l ls IH]; intros vs ss st pc lps bs Hv O A S C; destruct vs as [|v vs]; try discriminate.
  - exists st. split; [reflexivity|]. split; [exact A|]. cbn [gen_lvals rev]. change (len []) with 0. rewrite Z.add_0_r. apply goes_refl.
  - cbn [length] in Hv, S. destruct l as [x|x|x]; cbn [ok_lvals gen_lvals after_lval fold_left give] in *.
    + apply andb_true_iff in O. destruct O as (O & O2). apply andb_true_iff in O. destruct O as (F & _). destruct (fresh_lookup _ _ _ F A false v) as (b & q & E & D). rewrite D.
      destruct (IH vs (decl ss x false) (set_escopes st (((x, (false, v)) :: b) :: q)) pc lps bs) as (st' & E1 & E2 & E3); [lia|exact O2| | |exact C|].
      * pose proof (agree_decl _ _ x false v A) as Q. rewrite E in Q. destruct ss; [discriminate|]. exact Q.
      * rewrite scope_len_decl; [lia|]. destruct ss; discriminate.
      * exists st'. split; [exact E1|]. split; [exact E2|]. cbn [rev]. rewrite (atp_declare _ _ _ _ x false v b q E). exact E3.
    + apply andb_true_iff in O. destruct O as (O & O2). apply andb_true_iff in O. destruct O as (F & _). destruct (fresh_lookup _ _ _ F A true v) as (b & q & E & D). rewrite D.
      destruct (IH vs (decl ss x true) (set_escopes st (((x, (true, v)) :: b) :: q)) pc lps bs) as (st' & E1 & E2 & E3); [lia|exact O2| | |exact C|].
      * pose proof (agree_decl _ _ x true v A) as Q. rewrite E in Q. destruct ss; [discriminate|]. exact Q.
      * rewrite scope_len_decl; [lia|]. destruct ss; discriminate.
      * exists st'. split; [exact E1|]. split; [exact E2|]. cbn [rev]. rewrite (atp_declare _ _ _ _ x true v b q E). exact E3.
    + apply andb_true_iff in O. destruct O as (W & O2). rewrite <- !app_assoc in C. pose proof (scope_len_nonneg ss) as SN.
      assert (M : goes 1 (atp pc (rev (v :: vs)) st lps) (atp (pc + 2) (v :: rev vs) st lps)).
      { eapply goes_op; [exact C|]. cbn [VM.exec]. rewrite (rd1_at P (mk _ _ _ _ _) _ _ _ (code_at_r P _ _ _ C)). simp_st. rewrite schar_idx by lia.
        pose proof (slot_nth (rev vs) (v :: vals (e_scopes st)) 0 v eq_refl) as Sl. pose proof (agree_length _ _ A) as LV. cbn [length] in Sl.
        cbn [rev]. rewrite <- !app_assoc. cbn [app] in *.
        replace (fp + scope_len ss + 1) with (Z.of_nat (length below) + (Z.of_nat (Datatypes.S (length (vals (e_scopes st)))) - 1 - Z.of_nat 0)) by lia. rewrite Sl. cbn [opt].
        unfold from_top. rewrite app_length. cbn [length]. rewrite app_length.
        replace (Z.to_nat _) with (length (rev vs)) by lia.
        rewrite firstn_app, firstn_all, Nat.sub_diag, firstn_O, app_nil_r. rewrite skipn_app. rewrite (skipn_all2 (rev vs)) by lia. replace (Datatypes.S (length (rev vs)) - length (rev vs))%nat with 1%nat by lia. cbn [skipn app].
        fin. unfold len. cbn [op length]. lia. }
      pose proof (code_at_r P _ _ _ (code_at_r P _ _ _ C)) as C2. change (len [scope_len ss mod 256]) with 1 in C2. rewrite len_op in C2.
      destruct (sim_store x v ss st (pc + 1 + 1) (rev vs) lps _ W A ltac:(lia) C2) as (st1 & E1 & A1 & _ & G1). rewrite E1.
      destruct (IH vs ss st1 (pc + 1 + 1 + len (store_code K ss x)) lps bs) as (st' & E2 & A2 & G2); [lia|exact O2|exact A1|lia|exact (code_at_r P _ _ _ C2)|].
      exists st'. split; [exact E2|]. split; [exact A2|]. eapply goes_le; [eapply goes_trans; [exact M|]|lia].
      replace (pc + 2) with (pc + 1 + 1) by lia. eapply goes_trans; [exact G1|].
      replace (pc + len (op O_MOVEUP_FP ++ [scope_len ss mod 256] ++ store_code K ss x ++ gen_lvals K ss ls)) with (pc + 1 + 1 + len (store_code K ss x) + len (gen_lvals K ss ls)); [exact G2|].
      rewrite !len_app. change (len [scope_len ss mod 256]) with 1. rewrite len_op. lia.
Qed.

(** ** Loops, named. *)
Definition wloop (n : nat) (c : expr) (b : stmt) : nat -> env -> xres :=
  fix loop (m : nat) (st : env) : xres :=
    match m with
    | O => XFuel
    | Datatypes.S m => ev h st c (fun v => if is_falsey v then XOk Normal st else
               match Stmt.exec h n b st with
               | XOk Normal st | XOk Continue st => loop m st
               | XOk Break st => XOk Normal st
               | r => r
               end)
    end.
Definition wploop (n : nat) (c : expr) (b post : stmt) : nat -> env -> xres :=
  fix loop (m : nat) (st : env) : xres :=
    match m with
    | O => XFuel
    | Datatypes.S m => ev h st c (fun v => if is_falsey v then XOk Normal st else
               match Stmt.exec h n b st with
               | XOk Normal st | XOk Continue st => match Stmt.exec h n post st with XOk Normal st => loop m st | XOk _ _ => XStuck | r => r end
               | XOk Break st => XOk Normal st
               | r => r
               end)
    end.
Definition floop (n : nat) (x : name) (b : stmt) : list value -> env -> xres :=
  fix loop (vs : list value) (st : env) : xres :=
    match vs with
    | [] => XOk Normal st
    | v :: vs => legal (write_var h st x v) (fun st =>
        match Stmt.exec h n b st with
        | XOk Normal st | XOk Continue st => loop vs st
        | XOk Break st => XOk Normal st
        | r => r
        end)
    end.

Lemma exec_jump n s : forall st sg st', Stmt.exec h n s st = XOk sg st' -> sg <> Normal -> has_jump s = true.
Proof.
  assert (EV : forall st e k sg st', ev h st e k = XOk sg st' -> exists v, k v = XOk sg st').
  { intros st e k sg st'. unfold ev. destruct (closed h st e); [|discriminate]. destruct (eval (h_world h) (rho h st) e); try discriminate. eauto. }
  assert (EVL : forall st es k sg st', ev_list h st es k = XOk sg st' -> exists vs, k vs = XOk sg st').
  { intros st es. induction es as [|e es IH]; intros k sg st' H; cbn [ev_list] in H; [eauto|]. apply EV in H. destruct H as (v & H). apply IH in H. destruct H as (vs & H). eauto. }
  assert (WL : forall c b m st sg st', wloop n c b m st = XOk sg st' -> sg = Normal).
  { intros c b m. induction m as [|m IH]; intros st sg st' H; [discriminate|]. cbn [wloop] in H. apply EV in H. destruct H as (v & H). destruct (is_falsey v); [congruence|].
    destruct (Stmt.exec h n b st) as [[| |] st1|o out| |]; try discriminate; try congruence; eauto. }
  assert (WP : forall c b post m st sg st', wploop n c b post m st = XOk sg st' -> sg = Normal).
  { intros c b post m. induction m as [|m IH]; intros st sg st' H; [discriminate|]. cbn [wploop] in H. apply EV in H. destruct H as (v & H). destruct (is_falsey v); [congruence|].
    destruct (Stmt.exec h n b st) as [[| |] st1|o out| |]; try discriminate; try congruence; destruct (Stmt.exec h n post st1) as [[| |] st2|o out| |]; try discriminate; eauto. }
  assert (FL : forall x b vs st sg st', floop n x b vs st = XOk sg st' -> sg = Normal).
  { intros x b vs. induction vs as [|v vs IH]; intros st sg st' H; cbn [floop] in H; [congruence|]. unfold legal in H. destruct (write_var h st x v) as [st0|]; [|discriminate].
    destruct (Stmt.exec h n b st0) as [[| |] st1|o out| |]; try discriminate; try congruence; eauto. }
  induction s as [|a IHa b IHb|e|x e|x e|ls rs|x e|b IHb|c a IHa|c a IHa b IHb|c b IHb|c b IHb post IHp|x e b IHb| | |e|e|s IH];
    intros st sg st' E N; cbn [Stmt.exec has_jump] in *; try (congruence || reflexivity).
  - destruct (Stmt.exec h n a st) as [[| |] st1|o out| |] eqn:Ea; try discriminate.
    + rewrite (IHb _ _ _ E N). apply orb_true_r.
    + rewrite (IHa _ _ _ Ea ltac:(congruence)). reflexivity.
    + rewrite (IHa _ _ _ Ea ltac:(congruence)). reflexivity.
  - apply EV in E. destruct E as (v & E). congruence.
  - apply EV in E. destruct E as (v & E). unfold legal in E. destruct (declare_var st x false v); congruence.
  - apply EV in E. destruct E as (v & E). unfold legal in E. destruct (declare_var st x true v); congruence.
  - apply EVL in E. destruct E as (vs & E). unfold legal in E. destruct (give h ls vs st); congruence.
  - apply EV in E. destruct E as (v & E). unfold legal in E. destruct (write_var h st x v); congruence.
  - unfold leaving in E. destruct (Stmt.exec h n b (enter st)) as [sg1 st1|o out| |] eqn:Eb; try discriminate. eapply IHb; [exact Eb|congruence].
  - apply EV in E. destruct E as (v & E). destruct (is_falsey v); [congruence|]. eapply IHa; eassumption.
  - apply EV in E. destruct E as (v & E). destruct (is_falsey v); [rewrite (IHb _ _ _ E N); apply orb_true_r|rewrite (IHa _ _ _ E N); reflexivity].
  - exfalso. apply N. eapply (WL c b n st). exact E.
  - exfalso. apply N. eapply (WP c b post n st). exact E.
  - apply EV in E. destruct E as (v & E). destruct (iter_elements h v) as [vs|]; [|discriminate]. unfold legal at 1 in E. destruct (declare_var (enter st) x false VEnd) as [st1|]; [|discriminate].
    change (leaving (floop n x b vs st1) = XOk sg st') in E. unfold leaving in E. destruct (floop n x b vs st1) as [sg1 st2|o out| |] eqn:F; try discriminate. exfalso. apply N. injection E as <- _. eapply FL. exact F.
  - apply EV in E. destruct E as (v & E). destruct (w_tostr (h_world h) v); congruence.
  - apply EV in E. destruct E as (v & E). destruct (is_falsey v); [|congruence]. destruct (w_tostr (h_world h) v); congruence.
Qed.
Lemma jumps_zero s : forall d, jumps_ok d s = true -> has_jump s = true -> d = O.
Proof.
  induction s as [|a IHa b IHb|e|x e|x e|ls rs|x e|b IHb|c a IHa|c a IHa b IHb|c b IHb|c b IHb post IHp|x e b IHb| | |e|e|s IH]; intros d J H; cbn [jumps_ok has_jump] in *; try discriminate; eauto.
  - apply andb_true_iff in J. destruct J as (J1 & J2). apply orb_true_iff in H. destruct H as [H|H]; [eauto|]. specialize (IHb _ J2 H). lia.
  - apply andb_true_iff in J. destruct J as (J1 & J2). apply orb_true_iff in H. destruct H as [H|H]; eauto.
  - apply Nat.eqb_eq, J.
  - apply Nat.eqb_eq, J.
Qed.
Lemma peak_ge s : forall d, (d <= peak d s)%nat.
Proof.
  induction s; intros d; cbn [peak]; try lia; try (specialize (IHs1 d); lia); try (specialize (IHs d); lia).
  specialize (IHs (Datatypes.S d)). lia.
Qed.
Lemma after_len s ss : ss <> [] -> scope_len (after ss s) = scope_len ss + Z.of_nat (decls s).
Proof. intros N. destruct ss as [|t r]; [congruence|]. destruct (after_shape s t r) as (u & E & L & _). rewrite E, !scope_len_cons, L. lia. Qed.
Lemma Forall_le_trans cps p q : Forall (fun t => 0 <= t <= p) cps -> p <= q -> Forall (fun t => 0 <= t <= q) cps.
Proof. intros F H. eapply Forall_impl; [|exact F]. cbn. lia. Qed.
Lemma brk_range cps p : Forall (fun t => 0 <= t <= p) cps -> 0 <= p -> 0 <= brk cps <= p.
Proof. intros F H. destruct cps; cbn [brk]; [lia|]. inversion F; assumption. Qed.
Lemma cont_range cps p : Forall (fun t => 0 <= t <= p) cps -> 0 <= p -> 0 <= cont cps <= p.
Proof. intros F H. destruct cps as [|a [|b cps]]; cbn [cont]; try lia. inversion F as [|? ? ? F2]; subst. inversion F2; assumption. Qed.
Lemma atp_enter pc temps st lps : atp pc temps (enter st) lps = atp pc temps st lps.
Proof. reflexivity. Qed.
Lemma incl_l {A} (a b K : list A) : incl (a ++ b) K -> incl a K.
Proof. intros H v Hv. apply H, in_or_app. auto. Qed.
Lemma incl_r {A} (a b K : list A) : incl (a ++ b) K -> incl b K.
Proof. intros H v Hv. apply H, in_or_app. auto. Qed.

Lemma res_weak ss ss' np bp cp n m lps r s : res ss ss' np bp cp n lps r s -> (m <= n)%nat -> res ss ss' np bp cp m lps r s.
Proof. destruct r as [[| |] st'|o out| |]; cbn [res]; auto. intros A L. eapply runs_le; eassumption. Qed.

Lemma res_step i s s1 ss ss' np bp cp n lps r : goes (Datatypes.S i) s s1 -> res ss ss' np bp cp n lps r s1 -> res ss ss' np bp cp (Datatypes.S n) lps r s.
Proof.
  intros Go R. destruct r as [[| |] st'|o out| |]; try (exact (res_pre _ _ _ _ _ _ _ _ n _ _ Go R)).
  cbn [res] in *. eapply runs_le; [eapply goes_runs; eassumption|lia].
Qed.

Definition sim_spec (n : nat) (s : stmt) : Prop := forall ss st B pos cps lps lp d bs,
  ok_s G ss lp s = true -> incl (lits_s s) K -> parsed s = true -> jumps_ok d s = true -> agree ss (e_scopes st) -> ss <> [] ->
  Z.of_nat (peak (Z.to_nat (scope_len ss)) s) <= 128 -> room_for ss [] (need s) -> Z.of_nat (length lps) + Z.of_nat (for_depth s) <= 16 ->
  0 <= B -> 0 <= pos -> Forall (fun t => 0 <= t <= pos) cps ->
  code_at (B + pos) (gen_s K ss pos cps s ++ bs) ->
  res ss (after ss s) (B + pos + len (gen_s K ss pos cps s)) (B + brk cps) (B + cont cps) n lps (Stmt.exec h n s st) (atp (B + pos) [] st lps).

Lemma peak_len ss s : Z.of_nat (peak (Z.to_nat (scope_len ss)) s) <= 128 -> scope_len ss <= 128.
Proof. intros H. pose proof (peak_ge s (Z.to_nat (scope_len ss))). lia. Qed.

(** One iteration of a while loop, shared by both kinds. *)
Lemma sim_while n c b : sim_spec n b -> forall m st ss B pos cps lps bs,
  (m <= n)%nat -> ok_e G ss c = true -> ok_s G ss true b = true -> incl (lits_e c) K -> incl (lits_s b) K -> parsed b = true -> no_decls b = true -> jumps_ok 0 b = true ->
  agree ss (e_scopes st) -> ss <> [] -> Z.of_nat (peak (Z.to_nat (scope_len ss)) b) <= 128 -> room_for ss [] (need_e c) -> room_for ss [] (need b) ->
  Z.of_nat (length lps) + Z.of_nat (for_depth b) <= 16 -> 0 <= B -> 0 <= pos -> Forall (fun t => 0 <= t <= pos) cps ->
  (let bc := gen_e K ss c in let ck := pos + len bc in let bb := gen_s K ss (ck + 9) (ck :: pos :: cps) b in
   code_at (B + pos) ((bc ++ op O_BRF_8 ++ enc8 (len bb + 9) ++ bb ++ back (ck + 9 + len bb) pos) ++ bs) ->
   forall bp cp, res ss ss (B + ck + 18 + len bb) bp cp m lps (wloop n c b m st) (atp (B + pos) [] st lps)).
Proof.
  intros IHb m. induction m as [|m IHm]; intros st ss B pos cps lps bs Hm Oc Ob Lc Lb W D J A NE Pk Rc Rb Fd HB Hp Fc bc ck bb C bp cp.
  - cbn [wloop res]. exists 0%nat, (atp (B + pos) [] st lps). split; [lia|reflexivity].
  - cbn [wloop]. pose proof C as C0. rewrite <- !app_assoc in C.
    pose proof (len_nonneg bc) as Lbc. pose proof (len_nonneg bb) as Lbb. pose proof (len_nonneg bs) as Lbs.
    destruct (sim_e c ss st (B + pos) [] lps _ Oc Lc A (peak_len _ _ Pk) Rc C) as (Cl & Y). apply code_at_r in C. fold bc in C, Y. replace (B + pos + len bc) with (B + ck) in * by (unfold ck; lia).
    eapply res_ev; [exact Cl|exact Y|]. intros v _.
    assert (BR : forall v st', goes 1 (atp (B + ck) [v] st' lps) (atp (if is_falsey v then B + ck + 18 + len bb else B + (ck + 9)) [] st' lps)).
    { intros v' st'. pose proof (goes_brf _ v' (vals (e_scopes st') ++ below) (e_globals st') (e_out st') lps _ _ C ltac:(rewrite len_app, len_app, len_back; lia)) as Go.
      replace (if is_falsey v' then B + ck + 18 + len bb else B + (ck + 9)) with (if is_falsey v' then B + ck + 9 + (len bb + 9) else B + ck + 9) by (destruct (is_falsey v'); lia). exact Go. }
    pose proof (BR v st) as Go. destruct (is_falsey v).
    + cbn [res]. split; [|exact A]. eapply goes_le; [exact Go|lia].
    + pose proof (code_at_r P _ _ _ (code_at_r P _ _ _ C)) as C2. rewrite len_op, len_enc8 in C2. replace (B + ck + 1 + 8) with (B + (ck + 9)) in C2 by lia.
      eapply res_pre; [exact Go|].
      assert (Fc' : Forall (fun t => 0 <= t <= ck + 9) (ck :: pos :: cps)). { constructor; [unfold ck; lia|]. constructor; [unfold ck; lia|]. eapply Forall_le_trans; [exact Fc|unfold ck; lia]. }
      pose proof (IHb ss st B (ck + 9) (ck :: pos :: cps) lps true 0%nat _ Ob Lb W J A NE Pk Rb Fd HB ltac:(unfold ck; lia) Fc' C2) as R. fold bb in R.
      apply code_at_r in C2. fold bb in C2. rewrite (after_none b ss NE D) in R.
      replace (B + (ck + 9) + len bb) with (B + (ck + 9 + len bb)) in * by lia.
      destruct (Stmt.exec h n b st) as [[| |] st1|o out| |]; cbn [res brk cont] in R.
      * destruct R as (R1 & R2). eapply res_step.
        -- eapply (goes_trans P 0 1); [exact R1|]. exact (goes_back B _ pos _ _ _ _ _ C2 HB ltac:(unfold ck; lia)).
        -- exact (IHm st1 ss B pos cps lps bs ltac:(lia) Oc Ob Lc Lb W D J R2 NE Pk Rc Rb Fd HB Hp Fc C0 bp cp).
      * destruct R as (R1 & R2). cbn [res]. split; [|exact R2]. eapply goes_le; [eapply goes_trans; [exact R1|exact (BR (VBool false) st1)]|lia].
      * destruct R as (R1 & R2). eapply res_step; [exact R1|].
        exact (IHm st1 ss B pos cps lps bs ltac:(lia) Oc Ob Lc Lb W D J R2 NE Pk Rc Rb Fd HB Hp Fc C0 bp cp).
      * exact R.
      * eapply runs_le; [exact R|lia].
      * exact R.
Qed.

Lemma jumpless n s st sg st' : has_jump s = false -> Stmt.exec h n s st = XOk sg st' -> sg = Normal.
Proof. intros H E. destruct sg; [reflexivity|..]; rewrite (exec_jump n s _ _ _ E) in H by discriminate; discriminate. Qed.

Lemma sim_whilepost n c b post : sim_spec n b -> sim_spec n post -> forall m st ss B pos cps lps bs lp d,
  (m <= n)%nat -> ok_e G ss c = true -> ok_s G ss true b = true -> ok_s G ss lp post = true ->
  incl (lits_e c) K -> incl (lits_s b) K -> incl (lits_s post) K -> parsed b = true -> parsed post = true -> no_decls b = true -> no_decls post = true -> has_jump post = false ->
  jumps_ok 0 b = true -> jumps_ok d post = true ->
  agree ss (e_scopes st) -> ss <> [] -> Z.of_nat (peak (Z.to_nat (scope_len ss)) b) <= 128 -> Z.of_nat (peak (Z.to_nat (scope_len ss)) post) <= 128 ->
  room_for ss [] (need_e c) -> room_for ss [] (need b) -> room_for ss [] (need post) ->
  Z.of_nat (length lps) + Z.of_nat (for_depth b) <= 16 -> Z.of_nat (length lps) + Z.of_nat (for_depth post) <= 16 -> 0 <= B -> 0 <= pos -> Forall (fun t => 0 <= t <= pos) cps ->
  (let bp := gen_s K ss (pos + 9) cps post in
   let bc := gen_e K ss c in let ck := pos + 9 + len bp + len bc in let bb := gen_s K ss (ck + 9) (ck :: (pos + 9) :: cps) b in
   code_at (B + (pos + 9)) ((bp ++ bc ++ op O_BRF_8 ++ enc8 (len bb + 9) ++ bb ++ back (ck + 9 + len bb) (pos + 9)) ++ bs) ->
   forall bp' cp', res ss ss (B + ck + 18 + len bb) bp' cp' m lps (wploop n c b post m st) (atp (B + (pos + 9 + len bp)) [] st lps)).
Proof.
  intros IHb IHp m. induction m as [|m IHm]; intros st ss B pos cps lps bs lp d Hm Oc Ob Op Lc Lb Lp W Wp D Dp Hj J Jp A NE Pk Pkp Rc Rb Rp Fd Fdp HB Hp Fc bp bc ck bb C bp' cp'.
  - cbn [wploop res]. exists 0%nat, (atp (B + (pos + 9 + len bp)) [] st lps). split; [lia|reflexivity].
  - cbn [wploop]. pose proof C as C0. rewrite <- !app_assoc in C.
    pose proof (len_nonneg bc) as Lbc. pose proof (len_nonneg bb) as Lbb. pose proof (len_nonneg bs) as Lbs. pose proof (len_nonneg bp) as Lbp.
    pose proof C as Cp. apply code_at_r in C. replace (B + (pos + 9) + len bp) with (B + (pos + 9 + len bp)) in C by lia.
    destruct (sim_e c ss st (B + (pos + 9 + len bp)) [] lps _ Oc Lc A (peak_len _ _ Pk) Rc C) as (Cl & Y). apply code_at_r in C. fold bc in C, Y. replace (B + (pos + 9 + len bp) + len bc) with (B + ck) in * by (unfold ck; lia).
    eapply res_ev; [exact Cl|exact Y|]. intros v _.
    assert (BR : forall v st', goes 1 (atp (B + ck) [v] st' lps) (atp (if is_falsey v then B + ck + 18 + len bb else B + (ck + 9)) [] st' lps)).
    { intros v' st'. pose proof (goes_brf _ v' (vals (e_scopes st') ++ below) (e_globals st') (e_out st') lps _ _ C ltac:(rewrite len_app, len_app, len_back; lia)) as Go.
      replace (if is_falsey v' then B + ck + 18 + len bb else B + (ck + 9)) with (if is_falsey v' then B + ck + 9 + (len bb + 9) else B + ck + 9) by (destruct (is_falsey v'); lia). exact Go. }
    pose proof (BR v st) as Go. destruct (is_falsey v).
    + cbn [res]. split; [|exact A]. eapply goes_le; [exact Go|lia].
    + pose proof (code_at_r P _ _ _ (code_at_r P _ _ _ C)) as C2. rewrite len_op, len_enc8 in C2. replace (B + ck + 1 + 8) with (B + (ck + 9)) in C2 by lia.
      eapply res_pre; [exact Go|].
      assert (Fc' : Forall (fun t => 0 <= t <= ck + 9) (ck :: (pos + 9) :: cps)). { constructor; [unfold ck; lia|]. constructor; [unfold ck; lia|]. eapply Forall_le_trans; [exact Fc|unfold ck; lia]. }
      pose proof (IHb ss st B (ck + 9) (ck :: (pos + 9) :: cps) lps true 0%nat _ Ob Lb W J A NE Pk Rb Fd HB ltac:(unfold ck; lia) Fc' C2) as R. fold bb in R.
      apply code_at_r in C2. fold bb in C2. rewrite (after_none b ss NE D) in R.
      replace (B + (ck + 9) + len bb) with (B + (ck + 9 + len bb)) in * by lia.
      assert (PO : forall st1 s, agree ss (e_scopes st1) -> goes 1 s (atp (B + (pos + 9)) [] st1 lps) ->
        res ss ss (B + ck + 18 + len bb) bp' cp' (Datatypes.S m) lps (match Stmt.exec h n post st1 with XOk Normal st => wploop n c b post m st | XOk _ _ => XStuck | r => r end) s).
      { intros st1 s A1 Gs. pose proof (IHp ss st1 B (pos + 9) cps lps lp d _ Op Lp Wp Jp A1 NE Pkp Rp Fdp HB ltac:(lia) (Forall_le_trans cps pos (pos + 9) Fc ltac:(lia)) Cp) as Rpost.
        fold bp in Rpost. rewrite (after_none post ss NE Dp) in Rpost. pose proof (jumpless n post st1) as JL. replace (B + (pos + 9) + len bp) with (B + (pos + 9 + len bp)) in Rpost by lia.
        destruct (Stmt.exec h n post st1) as [sg st2|o out| |].
        - rewrite (JL sg st2 Hj eq_refl) in *. cbn [res] in Rpost. destruct Rpost as (R1 & R2). eapply (res_step 0); [exact (goes_trans P 1 0 _ _ _ Gs R1)|].
          exact (IHm st2 ss B pos cps lps bs lp d ltac:(lia) Oc Ob Op Lc Lb Lp W Wp D Dp Hj J Jp R2 NE Pk Pkp Rc Rb Rp Fd Fdp HB Hp Fc C0 bp' cp').
        - cbn [res] in *. eapply goes_halts; eassumption.
        - cbn [res] in *. eapply runs_le; [eapply goes_runs; eassumption|lia].
        - exact Rpost. }
      destruct (Stmt.exec h n b st) as [[| |] st1|o out| |]; cbn [res brk cont] in R.
      * destruct R as (R1 & R2). apply PO; [exact R2|]. eapply (goes_trans P 0 1); [exact R1|].
        exact (goes_back B _ (pos + 9) _ _ _ _ _ C2 HB ltac:(unfold ck; lia)).
      * destruct R as (R1 & R2). cbn [res]. split; [|exact R2]. eapply goes_le; [eapply goes_trans; [exact R1|exact (BR (VBool false) st1)]|lia].
      * destruct R as (R1 & R2). apply PO; assumption.
      * exact R.
      * eapply runs_le; [exact R|lia].
      * exact R.
Qed.

Lemma writable_loopvar ss x : writable G (decl ([] :: ss) x false) x = true.
Proof.
  unfold writable, decl. cbn [scope_get assoc]. rewrite name_eqb_refl. unfold is_const. pose proof (scope_len_nonneg ([] :: ss)).
  destruct (Z.ltb_spec (scope_len ([] :: ss)) 0); [lia|reflexivity].
Qed.
Lemma skipn_nth {A} (l : list A) i v r : skipn i l = v :: r -> nth_error l i = Some v /\ skipn (Datatypes.S i) l = r.
Proof. revert l. induction i as [|i IH]; intros [|a l] E; cbn in *; try discriminate; [injection E as -> ->; auto|]. apply IH. exact E. Qed.
Lemma skipn_nil_nth {A} (l : list A) i : skipn i l = [] -> nth_error l i = None.
Proof. revert l. induction i as [|i IH]; intros [|a l] E; cbn in *; try discriminate; auto. Qed.

Lemma sim_for n x b cv vs0 : sim_spec n b -> elements P cv = Some vs0 -> forall vs i st ss B p cps lps bs,
  let ss' := decl ([] :: ss) x false in
  vs = skipn i vs0 -> ok_s G ss' true b = true -> incl (lits_s b) K -> parsed b = true -> no_decls b = true -> jumps_ok 0 b = true ->
  agree ss' (e_scopes st) -> Z.of_nat (peak (Z.to_nat (scope_len ss')) b) <= 128 -> room_for ss' [] 2 -> room_for ss' [] (need b) ->
  Z.of_nat (length lps) + 1 + Z.of_nat (for_depth b) <= 16 -> 0 <= B -> 0 <= p -> Forall (fun t => 0 <= t <= p) cps ->
  (let ck := p + 1 in let bx := store_code K ss' x in let bb := gen_s K ss' (ck + 9 + len bx) (ck :: p :: cps) b in
   code_at (B + p) ((op O_ITER_1 ++ op O_BRF_8 ++ enc8 (len bx + len bb + 9) ++ bx ++ bb ++ back (ck + 9 + len bx + len bb) p ++ op O_ENDFOR) ++ bs) ->
   forall bp cp, res ss' ss' (B + ck + 19 + len bx + len bb) bp cp n lps (floop n x b vs st) (atp (B + p) [] st ((cv, Z.of_nat i) :: lps))).
Proof.
  intros IHb HE vs. induction vs as [|v vs IH]; intros i st ss B p cps lps bs ss' Hv Ob Lb W D J A Pk R2 Rb Fd HB Hp Fc ck bx bb C bp cp; pose proof C as C0; rewrite <- !app_assoc in C.
  all: pose proof (len_nonneg bx) as Lbx; pose proof (len_nonneg bb) as Lbb; pose proof (len_nonneg bs) as Lbs; pose proof (stk_len _ _ [] A) as SL.
  all: pose proof (code_at_r P _ _ _ C) as C1; rewrite len_op in C1; replace (B + p + 1) with (B + ck) in C1 by (unfold ck; lia).
  all: assert (BR : forall v l gl out lps, goes 1 (mk (B + ck) (v :: l) gl out lps) (mk (if is_falsey v then B + ck + 18 + len bx + len bb else B + (ck + 9)) l gl out lps))
    by (intros v' l gl out lps'; pose proof (goes_brf _ v' l gl out lps' _ _ C1 ltac:(rewrite !len_app, len_back, len_op; lia)) as Go;
      replace (if is_falsey v' then B + ck + 18 + len bx + len bb else B + (ck + 9)) with (if is_falsey v' then B + ck + 9 + (len bx + len bb + 9) else B + ck + 9) by (destruct (is_falsey v'); lia); exact Go).
  all: pose proof (code_at_r P _ _ _ (code_at_r P _ _ _ C1)) as C2; rewrite len_op, len_enc8 in C2; replace (B + ck + 1 + 8) with (B + (ck + 9)) in C2 by lia.
  all: pose proof (code_at_r P _ _ _ C2) as C3; replace (B + (ck + 9) + len bx) with (B + (ck + 9 + len bx)) in C3 by lia.
  all: pose proof (code_at_r P _ _ _ C3) as C4; replace (B + (ck + 9 + len bx) + len bb) with (B + (ck + 9 + len bx + len bb)) in C4 by lia.
  all: pose proof (code_at_r P _ _ _ C4) as C5; rewrite len_back in C5; replace (B + (ck + 9 + len bx + len bb) + 9) with (B + ck + 18 + len bx + len bb) in C5 by lia.
  all: assert (BRs : forall v ts st' j, goes 1 (atp (B + ck) (v :: ts) st' ((cv, j) :: lps)) (atp (if is_falsey v then B + ck + 18 + len bx + len bb else B + (ck + 9)) ts st' ((cv, j) :: lps)))
    by (intros v' ts st' j; exact (BR v' (ts ++ vals (e_scopes st') ++ below) (e_globals st') (e_out st') ((cv, j) :: lps))).
  all: assert (EF : forall st' j, goes 1 (atp (B + ck + 18 + len bx + len bb) [] st' ((cv, j) :: lps)) (atp (B + ck + 19 + len bx + len bb) [] st' lps))
    by (intros st' j; eapply goes_op; [exact C5|]; cbn [VM.exec v_loops mk]; fin; lia).
  - cbn [floop res]. split; [|exact A]. eapply goes_le; [eapply goes_trans; [|eapply goes_trans; [exact (BRs (VBool false) [] st (Z.of_nat i))|exact (EF st (Z.of_nat i))]]|].
    + eapply goes_op; [exact C|]. cbn [VM.exec]. unfold exec_iter. cbn [v_loops mk]. rewrite HE. unfold nthZ. destruct (Z.ltb_spec (Z.of_nat i) 0); [lia|]. rewrite Nat2Z.id, (skipn_nil_nth _ _ (eq_sym Hv)).
      rewrite push_any by (simp_st; cbn [app length] in *; unfold room_for in R2; cbn [length] in R2; lia). fin. unfold ck; lia.
    + lia.
  - symmetry in Hv. apply skipn_nth in Hv. destruct Hv as (Hn & Hs). cbn [floop].
    destruct (sim_store x v ss' st (B + (ck + 9)) [] ((cv, Z.of_nat i + 1) :: lps) _ (writable_loopvar ss x) A (peak_len _ _ Pk) C2) as (st1 & E1 & A1 & _ & G1). rewrite E1. cbn [legal].
    replace (B + (ck + 9) + len (store_code K ss' x)) with (B + (ck + 9 + len bx)) in G1 by (unfold bx; lia).
    assert (Go : goes 1 (atp (B + p) [] st ((cv, Z.of_nat i) :: lps)) (atp (B + (ck + 9 + len bx)) [] st1 ((cv, Z.of_nat i + 1) :: lps))).
    { eapply goes_le; [eapply goes_trans; [|eapply goes_trans; [exact (BRs (VBool true) [v] st (Z.of_nat i + 1))|exact G1]]|lia].
      eapply goes_op; [exact C|]. cbn [VM.exec]. unfold exec_iter. cbn [v_loops mk]. rewrite HE. unfold nthZ. destruct (Z.ltb_spec (Z.of_nat i) 0); [lia|]. rewrite Nat2Z.id, Hn.
      rewrite push_any by (simp_st; cbn [app length] in *; unfold room_for in R2; cbn [length] in R2; lia). cbv iota. rewrite push_any by (simp_st; cbn [app length] in *; unfold room_for in R2; cbn [length] in R2; lia). fin. unfold ck; lia. }
    eapply res_pre; [exact Go|].
    assert (NE : ss' <> []) by discriminate.
    assert (Fc' : Forall (fun t => 0 <= t <= ck + 9 + len bx) (ck :: p :: cps)). { constructor; [unfold ck; lia|]. constructor; [unfold ck; lia|]. eapply Forall_le_trans; [exact Fc|unfold ck; lia]. }
    pose proof (IHb ss' st1 B (ck + 9 + len bx) (ck :: p :: cps) ((cv, Z.of_nat i + 1) :: lps) true 0%nat _ Ob Lb W J A1 NE Pk Rb ltac:(cbn [length]; lia) HB ltac:(unfold ck; lia) Fc' C3) as R. fold bb in R.
    rewrite (after_none b ss' NE D) in R. replace (B + (ck + 9 + len bx) + len bb) with (B + (ck + 9 + len bx + len bb)) in R by lia.
    assert (NX : forall st2, agree ss' (e_scopes st2) -> res ss' ss' (B + ck + 19 + len bx + len bb) bp cp n lps (floop n x b vs st2) (atp (B + p) [] st2 ((cv, Z.of_nat i + 1) :: lps))).
    { intros st2 A2. replace (Z.of_nat i + 1) with (Z.of_nat (Datatypes.S i)) by lia. exact (IH (Datatypes.S i) st2 ss B p cps lps bs (eq_sym Hs) Ob Lb W D J A2 Pk R2 Rb Fd HB Hp Fc C0 bp cp). }
    destruct (Stmt.exec h n b st1) as [[| |] st2|o out| |]; cbn [res brk cont] in R.
    + destruct R as (Ra & Rc). eapply res_pre; [eapply goes_trans; [exact Ra|]|apply NX; exact Rc].
      exact (goes_back B _ p _ _ _ _ _ C4 HB ltac:(unfold ck; lia)).
    + destruct R as (Ra & Rc). cbn [res]. split; [|exact Rc]. eapply goes_le; [eapply goes_trans; [exact Ra|eapply goes_trans; [exact (BRs (VBool false) [] st2 (Z.of_nat i + 1))|exact (EF st2 _)]]|lia].
    + destruct R as (Ra & Rc). eapply res_pre; [exact Ra|apply NX; exact Rc].
    + exact R.
    + exact R.
    + exact R.
Qed.

Lemma agree_cons u ss es : agree (u :: ss) es -> exists b q, es = b :: q /\ length b = length u /\ agree ss q.
Proof. destruct es as [|b q]; cbn [agree]; [tauto|]. intros (A & B). exists b, q. split; [reflexivity|]. split; [eapply agree1_length; exact A|exact B]. Qed.
Lemma room_le ss n m : room_for ss [] n -> (m <= n)%nat -> room_for ss [] m.
Proof. unfold room_for. lia. Qed.
Lemma iter_elements_eq v : elements P v = iter_elements h v.
Proof. unfold elements, iter_elements. rewrite Hl, Hk. reflexivity. Qed.

Lemma sim_s n s : sim_spec n s.
Proof.
  induction s as [|a IHa b IHb|e|x e|x e|ls rs|x e|b IHb|c a IHa|c a IHa b IHb|c b IHb|c b IHb post IHp|x e b IHb| | |e|e|s IH];
    unfold sim_spec; intros ss st B pos cps lps lp d bs OK LI PA JU A NE PK RM FD HB HP FC C;
    cbn [ok_s lits_s parsed jumps_ok peak for_depth gen_s Stmt.exec after] in *; pose proof (scope_len_nonneg ss) as SN.
  - cbn [res]. change (len []) with 0. rewrite Z.add_0_r. split; [apply goes_refl|exact A].
  - apply andb_true_iff in OK. destruct OK as (O1 & O2). apply andb_true_iff in PA. destruct PA as (P1 & P2). apply andb_true_iff in JU. destruct JU as (J1 & J2).
    set (ba := gen_s K ss pos cps a) in *. rewrite <- app_assoc in C. pose proof (len_nonneg ba) as Lba.
    pose proof (IHa ss st B pos cps lps lp d _ O1 (incl_l _ _ _ LI) P1 J1 A NE ltac:(lia) ltac:(eapply room_le; [exact RM|cbn [need]; lia]) ltac:(lia) HB HP FC C) as Ra. fold ba in Ra.
    destruct (Stmt.exec h n a st) as [[| |] st1|o out| |]; cbn [res] in Ra; try exact Ra.
    destruct Ra as (R1 & R2). eapply res_pre; [exact R1|]. apply code_at_r in C. replace (B + pos + len ba) with (B + (pos + len ba)) in * by lia.
    pose proof (after_len a ss NE) as AL.
    pose proof (IHb (after ss a) st1 B (pos + len ba) cps lps lp (d + decls a)%nat bs O2 (incl_r _ _ _ LI) P2 J2 R2 (after_nonempty _ _ NE)) as Rb.
    replace (Z.to_nat (scope_len (after ss a))) with (Z.to_nat (scope_len ss) + decls a)%nat in Rb by lia.
    specialize (Rb ltac:(lia) ltac:(unfold room_for in *; cbn [need] in RM; lia) ltac:(lia) HB ltac:(lia) (Forall_le_trans cps pos (pos + len ba) FC ltac:(lia)) C).
    replace (B + pos + len (ba ++ gen_s K (after ss a) (pos + len ba) cps b)) with (B + (pos + len ba) + len (gen_s K (after ss a) (pos + len ba) cps b)) by (rewrite len_app; lia).
    pose proof (exec_jump n b st1) as EJ.
    destruct (Stmt.exec h n b st1) as [[| |] st2|o out| |]; cbn [res] in *; try exact Rb.
    + destruct Rb as (Rx & Ry). split; [exact Rx|]. pose proof (jumps_zero _ _ J2 (EJ _ _ eq_refl ltac:(discriminate))). rewrite (after_none a ss NE) in Ry by (apply Nat.eqb_eq; lia). exact Ry.
    + destruct Rb as (Rx & Ry). split; [exact Rx|]. pose proof (jumps_zero _ _ J2 (EJ _ _ eq_refl ltac:(discriminate))). rewrite (after_none a ss NE) in Ry by (apply Nat.eqb_eq; lia). exact Ry.
  - destruct (quiet e) eqn:Q.
    + destruct (quiet_ev ss st e (fun _ => XOk Normal st) Q OK A) as (v & E). rewrite E. cbn [res]. change (len []) with 0. rewrite Z.add_0_r. split; [apply goes_refl|exact A].
    + rewrite <- app_assoc in C. destruct (sim_e e ss st (B + pos) [] lps _ OK LI A ltac:(lia) RM C) as (Cl & Y). eapply res_ev; [exact Cl|exact Y|]. intros v _. cbn [res]. split; [|exact A].
      eapply goes_le; [|apply Nat.le_0_l]. rewrite len_app, len_op, Z.add_assoc. eapply goes_pop. exact (code_at_r P _ _ _ C).
  - apply andb_true_iff in OK. destruct OK as (OK & _). apply andb_true_iff in OK. destruct OK as (F & OK).
    destruct (sim_e e ss st (B + pos) [] lps _ OK LI A ltac:(lia) RM C) as (Cl & Y). eapply res_ev; [exact Cl|exact Y|]. intros v _.
    destruct (fresh_lookup _ _ _ F A false v) as (b & q & E & D). rewrite D. cbn [legal res]. rewrite <- (atp_declare _ [] st lps x false v b q E). cbn [app]. split; [apply goes_refl|].
    pose proof (agree_decl _ _ x false v A) as Q. rewrite E in Q. destruct ss; [congruence|]. exact Q.
  - apply andb_true_iff in OK. destruct OK as (OK & _). apply andb_true_iff in OK. destruct OK as (F & OK).
    destruct (sim_e e ss st (B + pos) [] lps _ OK LI A ltac:(lia) RM C) as (Cl & Y). eapply res_ev; [exact Cl|exact Y|]. intros v _.
    destruct (fresh_lookup _ _ _ F A true v) as (b & q & E & D). rewrite D. cbn [legal res]. rewrite <- (atp_declare _ [] st lps x true v b q E). cbn [app]. split; [apply goes_refl|].
    pose proof (agree_decl _ _ x true v A) as Q. rewrite E in Q. destruct ss; [congruence|]. exact Q.
  - apply andb_true_iff in OK. destruct OK as (O1 & O2). rewrite <- app_assoc in C. apply Nat.eqb_eq in PA.
    eapply (sim_es rs ss); [exact O1|exact LI|exact A|lia|exact RM|exact C|]. intros vs Hv. rewrite app_nil_r.
    destruct (sim_lvals ls vs ss st _ lps bs ltac:(lia) O2 A ltac:(lia) (code_at_r P _ _ _ C)) as (st' & E1 & E2 & E3). rewrite E1. cbn [legal res]. split; [|exact E2]. rewrite len_app, Z.add_assoc. exact E3.
  - apply andb_true_iff in OK. destruct OK as (O1 & O2). rewrite <- app_assoc in C. destruct (sim_e e ss st (B + pos) [] lps _ O1 LI A ltac:(lia) RM C) as (Cl & Y). eapply res_ev; [exact Cl|exact Y|]. intros v _.
    destruct (sim_store x v ss st _ [] lps bs O2 A ltac:(lia) (code_at_r P _ _ _ C)) as (st' & E1 & E2 & _ & E3). rewrite E1. cbn [legal res]. split; [|exact E2]. rewrite len_app, Z.add_assoc. eapply goes_le; [exact E3|lia].
  - rewrite <- app_assoc in C. pose proof (IHb ([] :: ss) (enter st) B pos cps lps lp d _ OK LI PA JU (conj I A) ltac:(discriminate) PK RM FD HB HP FC C) as R.
    apply code_at_r in C. set (bb := gen_s K ([] :: ss) pos cps b) in *. destruct (after_shape b [] ss) as (u & Eu & Lu & _). match type of R with context [after ?q b] => assert (Eq : after q b = u :: ss) by exact Eu end. rewrite Eq in R. clear Eq.
    match type of C with context [after ?q b] => assert (Eq : after q b = u :: ss) by exact Eu end. rewrite Eq in C. clear Eq.
    match goal with |- context [after ?q b] => assert (Eq : after q b = u :: ss) by exact Eu end. rewrite Eq. clear Eq. cbn [pops] in C |- *. cbn [length Nat.add] in Lu.
    assert (LP : len (repeat (op_byte O_POP) (length u)) = Z.of_nat (length u)) by (unfold len; rewrite repeat_length; reflexivity).
    change (atp (B + pos) [] (enter st) lps) with (atp (B + pos) [] st lps) in R.
    destruct (Stmt.exec h n b (enter st)) as [[| |] st1|o out| |]; cbn [leaving res] in *; try exact R.
    + destruct R as (R1 & R2). destruct (agree_cons _ _ _ R2) as (b0 & q & E & Lb & Aq). unfold leave. rewrite E. cbn [tl set_escopes e_scopes]. split; [|exact Aq].
      eapply (goes_trans P 0 0); [exact R1|]. rewrite len_app, LP, Z.add_assoc, <- Lb, <- (map_length bval b0).
      unfold atp. cbn [e_scopes e_globals e_out set_escopes app]. rewrite E, map_vals_cons, <- app_assoc. eapply (goes_pops (map bval b0)). rewrite map_length, Lb. exact C.
    + destruct R as (R1 & R2). destruct (agree_cons _ _ _ R2) as (b0 & q & E & Lb & Aq). destruct b0; [|discriminate]. unfold leave. rewrite E. cbn [tl set_escopes e_scopes]. split; [|exact Aq].
      unfold atp in *. cbn [e_scopes e_globals e_out set_escopes] in *. rewrite E in R1. exact R1.
    + destruct R as (R1 & R2). destruct (agree_cons _ _ _ R2) as (b0 & q & E & Lb & Aq). destruct b0; [|discriminate]. unfold leave. rewrite E. cbn [tl set_escopes e_scopes]. split; [|exact Aq].
      unfold atp in *. cbn [e_scopes e_globals e_out set_escopes] in *. rewrite E in R1. exact R1.
  - apply andb_true_iff in OK. destruct OK as (O1 & O2). apply andb_true_iff in PA. destruct PA as (P1 & P2). pose proof (need_pos c).
    destruct (e_truthy c) eqn:T; [|destruct (e_falsey c) eqn:F]; cbn [orb] in LI.
    + destruct (truthy_ev st c (fun v => if is_falsey v then XOk Normal st else Stmt.exec h n a st) T) as (v & E & Fv). rewrite E, Fv.
      pose proof (IHa ss st B pos cps lps lp d bs O2 LI P1 JU A NE PK ltac:(eapply room_le; [exact RM|cbn [need]; lia]) FD HB HP FC C) as R. rewrite (after_none a ss NE P2) in R. exact R.
    + destruct (falsey_ev st c (fun v => if is_falsey v then XOk Normal st else Stmt.exec h n a st) F) as (v & E & Fv). rewrite E, Fv. cbn [res]. change (len []) with 0. rewrite Z.add_0_r. split; [apply goes_refl|exact A].
    + set (bc := gen_e K ss c) in *. set (ba := gen_s K ss (pos + len bc + 9) cps a) in *. rewrite <- !app_assoc in C. pose proof (len_nonneg bc). pose proof (len_nonneg ba). pose proof (len_nonneg bs).
      destruct (sim_e c ss st (B + pos) [] lps _ O1 (incl_l _ _ _ LI) A (peak_len _ _ PK) ltac:(eapply room_le; [exact RM|cbn [need]; lia]) C) as (Cl & Y). apply code_at_r in C. eapply res_ev; [exact Cl|exact Y|]. intros v _. fold bc.
      pose proof (goes_brf _ v (vals (e_scopes st) ++ below) (e_globals st) (e_out st) lps _ _ C ltac:(rewrite len_app; lia)) as Go. eapply res_pre; [exact Go|]. apply code_at_r, code_at_r in C. rewrite len_op, len_enc8 in C. fold bc in C.
      replace (B + pos + len bc + 1 + 8) with (B + (pos + len bc + 9)) in C by lia.
      replace (B + pos + len (bc ++ op O_BRF_8 ++ enc8 (len ba) ++ ba)) with (B + (pos + len bc + 9) + len ba) by (rewrite !len_app, len_op, len_enc8; lia).
      destruct (is_falsey v).
      * cbn [res]. split; [|exact A]. fold bc. replace (B + pos + len bc + 9 + len ba) with (B + (pos + len bc + 9) + len ba) by lia. apply goes_refl.
      * fold bc. replace (B + pos + len bc + 9) with (B + (pos + len bc + 9)) by lia.
        pose proof (IHa ss st B (pos + len bc + 9) cps lps lp d bs O2 (incl_r _ _ _ LI) P1 JU A NE PK ltac:(eapply room_le; [exact RM|cbn [need]; lia]) FD HB ltac:(lia) (Forall_le_trans cps pos (pos + len bc + 9) FC ltac:(lia)) C) as R. rewrite (after_none a ss NE P2) in R. exact R.
  - apply andb_true_iff in OK. destruct OK as (OK & O3). apply andb_true_iff in OK. destruct OK as (O1 & O2). apply andb_true_iff in PA. destruct PA as (PA & P4). apply andb_true_iff in PA. destruct PA as (PA & P3). apply andb_true_iff in PA. destruct PA as (P1 & P2).
    apply andb_true_iff in JU. destruct JU as (J1 & J2). pose proof (need_pos c).
    destruct (e_truthy c) eqn:T; [|destruct (e_falsey c) eqn:F]; cbn [orb] in LI.
    + destruct (truthy_ev st c (fun v => if is_falsey v then Stmt.exec h n b st else Stmt.exec h n a st) T) as (v & E & Fv). rewrite E, Fv.
      pose proof (IHa ss st B pos cps lps lp d bs O2 (incl_l _ _ _ LI) P1 J1 A NE ltac:(lia) ltac:(eapply room_le; [exact RM|cbn [need]; lia]) ltac:(lia) HB HP FC C) as R. rewrite (after_none a ss NE P2) in R. exact R.
    + destruct (falsey_ev st c (fun v => if is_falsey v then Stmt.exec h n b st else Stmt.exec h n a st) F) as (v & E & Fv). rewrite E, Fv.
      pose proof (IHb ss st B pos cps lps lp d bs O3 (incl_r _ _ _ LI) P3 J2 A NE ltac:(lia) ltac:(eapply room_le; [exact RM|cbn [need]; lia]) ltac:(lia) HB HP FC C) as R. rewrite (after_none b ss NE P4) in R. exact R.
    + set (bc := gen_e K ss c) in *. set (ba := gen_s K ss (pos + len bc + 9) cps a) in *. set (bb := gen_s K ss (pos + len bc + 9 + len ba + 9) cps b) in *. rewrite <- !app_assoc in C. pose proof (len_nonneg bc). pose proof (len_nonneg ba). pose proof (len_nonneg bs). pose proof (len_nonneg bb).
      destruct (sim_e c ss st (B + pos) [] lps _ O1 (incl_l _ _ _ LI) A (peak_len ss a ltac:(lia)) ltac:(eapply room_le; [exact RM|cbn [need]; lia]) C) as (Cl & Y). apply code_at_r in C. eapply res_ev; [exact Cl|exact Y|]. intros v _. fold bc.
      pose proof (goes_brf _ v (vals (e_scopes st) ++ below) (e_globals st) (e_out st) lps _ _ C ltac:(rewrite !len_app, len_op, len_enc8; lia)) as Go. eapply res_pre; [exact Go|]. apply code_at_r, code_at_r in C. rewrite len_op, len_enc8 in C. fold bc in C |- *.
      replace (B + pos + len bc + 1 + 8) with (B + (pos + len bc + 9)) in C by lia.
      pose proof C as Ca. apply code_at_r in C. fold ba in C. pose proof C as Cj. apply code_at_r, code_at_r in C. rewrite len_op, len_enc8 in C. replace (B + (pos + len bc + 9) + len ba + 1 + 8) with (B + (pos + len bc + 9 + len ba + 9)) in C by lia.
      replace (B + pos + len (bc ++ op O_BRF_8 ++ enc8 (len ba + 9) ++ ba ++ op O_BR_8 ++ enc8 (len bb) ++ bb)) with (B + (pos + len bc + 9 + len ba + 9) + len bb) by (rewrite !len_app, !len_op, !len_enc8; lia).
      destruct (is_falsey v).
      * replace (B + pos + len bc + 9 + (len ba + 9)) with (B + (pos + len bc + 9 + len ba + 9)) by lia.
        pose proof (IHb ss st B (pos + len bc + 9 + len ba + 9) cps lps lp d bs O3 (incl_r _ _ _ (incl_r _ _ _ LI)) P3 J2 A NE ltac:(lia) ltac:(eapply room_le; [exact RM|cbn [need]; lia]) ltac:(lia) HB ltac:(lia) (Forall_le_trans cps pos (pos + len bc + 9 + len ba + 9) FC ltac:(lia)) C) as R. rewrite (after_none b ss NE P4) in R. exact R.
      * replace (B + pos + len bc + 9) with (B + (pos + len bc + 9)) by lia.
        pose proof (IHa ss st B (pos + len bc + 9) cps lps lp d _ O2 (incl_l _ _ _ (incl_r _ _ _ LI)) P1 J1 A NE ltac:(lia) ltac:(eapply room_le; [exact RM|cbn [need]; lia]) ltac:(lia) HB ltac:(lia) (Forall_le_trans cps pos (pos + len bc + 9) FC ltac:(lia)) Ca) as R. rewrite (after_none a ss NE P2) in R.
        destruct (Stmt.exec h n a st) as [[| |] st1|o out| |]; cbn [res] in *; try exact R.
        destruct R as (R1 & R2). split; [|exact R2]. eapply goes_le; [eapply goes_trans; [exact R1|]|apply Nat.le_0_l].
        replace (B + (pos + len bc + 9 + len ba + 9) + len bb) with (B + (pos + len bc + 9) + len ba + 9 + len bb) by lia. eapply goes_br; [exact Cj|]. eapply code_in; [exact Cj|]. rewrite len_app. fold bb. lia.
  - apply andb_true_iff in OK. destruct OK as (O1 & O2). apply andb_true_iff in PA. destruct PA as (P1 & P2). pose proof (need_pos c). destruct (e_falsey c) eqn:F.
    + change (res ss ss (B + pos + len []) (B + brk cps) (B + cont cps) n lps (wloop n c b n st) (atp (B + pos) [] st lps)). destruct n as [|n1]; cbn [wloop].
      * cbn [res]. exists 0%nat, (atp (B + pos) [] st lps). split; [lia|reflexivity].
      * match goal with |- res _ _ _ _ _ _ _ (ev _ _ _ ?k) _ => destruct (falsey_ev st c k F) as (v & E & Fv) end. rewrite E, Fv. cbn [res]. change (len []) with 0. rewrite Z.add_0_r. split; [apply goes_refl|exact A].
    + pose proof (sim_while n c b IHb n st ss B pos cps lps bs (le_n n) O1 O2 (incl_l _ _ _ LI) (incl_r _ _ _ LI) P1 P2 JU A NE PK ltac:(eapply room_le; [exact RM|cbn [need]; lia]) ltac:(eapply room_le; [exact RM|cbn [need]; lia]) FD HB HP FC C (B + brk cps) (B + cont cps)) as R.
      match goal with |- res _ _ ?q _ _ _ _ _ _ => match type of R with res _ _ ?q' _ _ _ _ _ _ => replace q with q' by (rewrite !len_app, len_op, len_enc8, len_back; lia) end end. exact R.
  - apply andb_true_iff in OK. destruct OK as (OK & O3). apply andb_true_iff in OK. destruct OK as (O1 & O2). apply andb_true_iff in PA. destruct PA as (PA & P5). apply andb_true_iff in PA. destruct PA as (PA & P4). apply andb_true_iff in PA. destruct PA as (PA & P3). apply andb_true_iff in PA. destruct PA as (P1 & P2).
    apply andb_true_iff in JU. destruct JU as (J1 & J2). apply negb_true_iff in P5. pose proof (need_pos c). destruct (e_falsey c) eqn:F.
    + change (res ss ss (B + pos + len []) (B + brk cps) (B + cont cps) n lps (wploop n c b post n st) (atp (B + pos) [] st lps)). destruct n as [|n1]; cbn [wploop].
      * cbn [res]. exists 0%nat, (atp (B + pos) [] st lps). split; [lia|reflexivity].
      * match goal with |- res _ _ _ _ _ _ _ (ev _ _ _ ?k) _ => destruct (falsey_ev st c k F) as (v & E & Fv) end. rewrite E, Fv. cbn [res]. change (len []) with 0. rewrite Z.add_0_r. split; [apply goes_refl|exact A].
    + rewrite <- !app_assoc in C. set (bp := gen_s K ss (pos + 9) cps post) in *. pose proof (len_nonneg bp). pose proof (len_nonneg bs).
      assert (Go : goes 1 (atp (B + pos) [] st lps) (atp (B + (pos + 9 + len bp)) [] st lps)).
      { replace (B + (pos + 9 + len bp)) with (B + pos + 9 + len bp) by lia. eapply goes_br; [exact C|]. eapply code_in; [exact C|]. rewrite !len_app. 
        repeat match goal with |- context [len ?x] => lazymatch goal with H : 0 <= len x |- _ => fail | _ => pose proof (len_nonneg x) end end. lia. }
      eapply res_pre; [exact Go|]. apply code_at_r, code_at_r in C. rewrite len_op, len_enc8 in C. replace (B + pos + 1 + 8) with (B + (pos + 9)) in C by lia.
      assert (C' : code_at (B + (pos + 9)) ((bp ++ gen_e K ss c ++ op O_BRF_8 ++ enc8 (len (gen_s K ss (pos + 9 + len bp + len (gen_e K ss c) + 9) (pos + 9 + len bp + len (gen_e K ss c) :: pos + 9 :: cps) b) + 9) ++
        gen_s K ss (pos + 9 + len bp + len (gen_e K ss c) + 9) (pos + 9 + len bp + len (gen_e K ss c) :: pos + 9 :: cps) b ++
        back (pos + 9 + len bp + len (gen_e K ss c) + 9 + len (gen_s K ss (pos + 9 + len bp + len (gen_e K ss c) + 9) (pos + 9 + len bp + len (gen_e K ss c) :: pos + 9 :: cps) b)) (pos + 9)) ++ bs)) by (rewrite <- !app_assoc; exact C).
      pose proof (sim_whilepost n c b post IHb IHp n st ss B pos cps lps bs lp d (le_n n) O1 O2 O3 (incl_l _ _ _ (incl_r _ _ _ LI)) (incl_r _ _ _ (incl_r _ _ _ LI)) (incl_l _ _ _ LI) P1 P3 P2 P4 P5 J1 J2 A NE ltac:(lia) ltac:(lia)
        ltac:(eapply room_le; [exact RM|cbn [need]; lia]) ltac:(eapply room_le; [exact RM|cbn [need]; lia]) ltac:(eapply room_le; [exact RM|cbn [need]; lia]) ltac:(lia) ltac:(lia) HB HP FC C' (B + brk cps) (B + cont cps)) as R.
      match goal with |- res _ _ ?q _ _ _ _ _ _ => match type of R with res _ _ ?q' _ _ _ _ _ _ => replace q with q' by (fold bp; rewrite !len_app, !len_op, !len_enc8, len_back; lia) end end. exact R.
  - apply andb_true_iff in OK. destruct OK as (OK & O3). apply andb_true_iff in OK. destruct OK as (O1 & O2). apply andb_true_iff in PA. destruct PA as (P1 & P2). rewrite <- !app_assoc in C. pose proof (need_pos e).
    set (ss' := decl ([] :: ss) x false) in *. assert (SL' : scope_len ss' = scope_len ss + 1) by (unfold ss'; rewrite scope_len_decl by discriminate; reflexivity).
    set (be := gen_e K ([] :: ss) e) in *. set (p := pos + len be + 2) in *. pose proof (len_nonneg be).
    assert (PK' : Z.of_nat (peak (Z.to_nat (scope_len ss')) b) <= 128) by (rewrite SL'; replace (Z.to_nat (scope_len ss + 1)) with (Datatypes.S (Z.to_nat (scope_len ss))) by lia; exact PK).
    pose proof (peak_len _ _ PK') as P128. rewrite SL' in P128. assert (R3 : room_for ss [] 3) by (eapply room_le; [exact RM|cbn [need]; lia]).
    destruct (sim_e e ([] :: ss) (enter st) (B + pos) [] lps _ O1 (incl_l _ _ _ LI) (conj I A) ltac:(change (scope_len ([] :: ss)) with (scope_len ss); lia) ltac:(change (room_for ([] :: ss) [] (need_e e)) with (room_for ss [] (need_e e)); eapply room_le; [exact RM|cbn [need]; lia]) C) as (Cl & Y).
    change (atp (B + pos) [] st lps) with (atp (B + pos) [] (enter st) lps). eapply res_ev; [exact Cl|exact Y|]. intros v _. fold be.
    apply code_at_r in C. fold be in C. pose proof C as C1. apply code_at_r in C. rewrite len_op in C. pose proof C as C2. apply code_at_r in C. rewrite len_op in C. replace (B + pos + len be + 1 + 1) with (B + p) in C by (unfold p; lia).
    pose proof (stk_len _ _ [] A) as SK.
    assert (Go : goes 1 (atp (B + pos + len be) [v] (enter st) lps) (mk (B + p) (VEnd :: vals (e_scopes st) ++ below) (e_globals st) (e_out st) ((v, 0) :: lps))).
    { eapply goes_le; [eapply (goes_trans P 1 1 _ (mk (B + pos + len be + 1) (vals (e_scopes st) ++ below) (e_globals st) (e_out st) ((v, 0) :: lps)))|lia].
      - eapply goes_op; [exact C1|]. cbn [VM.exec]. unfold pop. simp_st. cbn [app]. simp_st. unfold NUM_LOOPS. destruct (Z.geb_spec (Z.of_nat (length lps)) 16); [lia|]. reflexivity.
      - replace (B + p) with (B + pos + len be + 1 + 1) by (unfold p; lia). eapply goes_const; [exact C2| |tauto]. cbn [app length] in SK. unfold room_for in R3. cbn [length] in R3. lia. }
    eapply res_pre; [exact Go|]. rewrite <- iter_elements_eq. destruct (elements P v) as [vs|] eqn:EL.
    + unfold declare_var at 1. cbn [enter set_escopes e_scopes lookup legal].
      set (st1 := set_escopes (enter st) ([(x, (false, VEnd))] :: e_scopes st)).
      assert (A1 : agree ss' (e_scopes st1)). { cbn [ss' decl agree e_scopes st1 set_escopes agree1 length]. split; [|exact A]. split; [reflexivity|]. split; [|exact I]. rewrite scope_len_cons. cbn [length]. lia. }
      set (bb := gen_s K ss' (p + 1 + 9 + len (store_code K ss' x)) (p + 1 :: p :: cps) b) in *. set (bx := store_code K ss' x) in *.
      assert (C' : code_at (B + p) ((op O_ITER_1 ++ op O_BRF_8 ++ enc8 (len bx + len bb + 9) ++ bx ++ bb ++ back (p + 1 + 9 + len bx + len bb) p ++ op O_ENDFOR) ++ op O_POP ++ bs)) by (rewrite <- !app_assoc; exact C).
      pose proof (sim_for n x b v vs IHb EL vs 0%nat st1 ss B p cps lps (op O_POP ++ bs) eq_refl O3 (incl_r _ _ _ LI) P1 P2 JU A1 PK' ltac:(unfold room_for in *; fold ss'; lia) ltac:(unfold room_for in *; fold ss'; cbn [need] in RM; lia) ltac:(lia) HB ltac:(unfold p; lia) (Forall_le_trans cps pos p FC ltac:(unfold p; lia)) C' 0 0) as R.
      fold ss' bx bb in R. change (atp (B + p) [] st1 ((v, Z.of_nat 0) :: lps)) with (mk (B + p) (VEnd :: vals (e_scopes st) ++ below) (e_globals st) (e_out st) ((v, 0) :: lps)) in R.
      change (res ss ss (B + pos + len (be ++ op O_INITFOR ++ op O_END ++ op O_ITER_1 ++ op O_BRF_8 ++ enc8 (len bx + len bb + 9) ++ bx ++ bb ++ back (p + 1 + 9 + len bx + len bb) p ++ op O_ENDFOR ++ op O_POP)) (B + brk cps) (B + cont cps) n lps (leaving (floop n x b vs st1)) (mk (B + p) (VEnd :: vals (e_scopes st) ++ below) (e_globals st) (e_out st) ((v, 0) :: lps))).
      assert (FN : forall sg st2, floop n x b vs st1 = XOk sg st2 -> sg = Normal).
      { clear. generalize st1. clear. induction vs as [|v vs IH]; intros st0 sg st2 E; cbn [floop] in E; [congruence|]. unfold legal in E. destruct (write_var h st0 x v) as [st3|]; [|discriminate].
        destruct (Stmt.exec h n b st3) as [[| |] st4|o out| |]; try discriminate; try congruence; eauto. }
      apply code_at_r in C'. replace (B + p + len (op O_ITER_1 ++ op O_BRF_8 ++ enc8 (len bx + len bb + 9) ++ bx ++ bb ++ back (p + 1 + 9 + len bx + len bb) p ++ op O_ENDFOR)) with (B + (p + 1) + 19 + len bx + len bb) in C' by (rewrite !len_app, !len_op, len_enc8, len_back; lia).
      destruct (floop n x b vs st1) as [sg st2|o out| |]; cbn [leaving]; [|exact R..]. rewrite (FN _ _ eq_refl) in *. cbn [res] in *. destruct R as (R1 & R2).
      unfold ss' in R2. cbn [decl] in R2. destruct (agree_cons _ _ _ R2) as (b0 & q & E & Lb & Aq). destruct b0 as [|b1 [|]]; try discriminate. unfold leave. rewrite E. cbn [tl set_escopes e_scopes]. split; [|exact Aq].
      eapply goes_le; [eapply goes_trans; [exact R1|]|apply Nat.le_0_l].
      replace (B + pos + len (be ++ op O_INITFOR ++ op O_END ++ op O_ITER_1 ++ op O_BRF_8 ++ enc8 (len bx + len bb + 9) ++ bx ++ bb ++ back (p + 1 + 9 + len bx + len bb) p ++ op O_ENDFOR ++ op O_POP)) with (B + (p + 1) + 19 + len bx + len bb + 1) by (unfold p; rewrite !len_app, !len_op, len_enc8, len_back; lia).
      unfold atp. cbn [e_scopes e_globals e_out set_escopes]. rewrite E, map_vals_cons. cbn [map app]. eapply goes_pop. exact C'.
    + cbn [res]. eapply (halts_op (B + p) _ _ _ _ _ _ _ (mk (B + p + 1) (VEnd :: vals (e_scopes st) ++ below) (e_globals st) (e_out st) ((v, 0) :: lps))); [exact C|]. cbn [VM.exec]. unfold exec_iter. cbn [v_loops mk]. rewrite EL. reflexivity.
  - rewrite <- app_assoc in C. cbn [res]. split; [|exact A]. eapply goes_le; [eapply (goes_trans P 1 1)|lia].
    + eapply goes_const; [exact C| |tauto]. rewrite (stk_len _ _ [] A). unfold room_for in RM. cbn [need length] in *. lia.
    + apply code_at_r in C. rewrite len_op in C. replace (B + pos + 1) with (B + (pos + 1)) in * by lia. pose proof (brk_range cps pos FC HP). eapply goes_back; [exact C|exact HB|lia].
  - cbn [res]. split; [|exact A]. pose proof (cont_range cps pos FC HP). eapply goes_back; [exact C|exact HB|lia].
  - rewrite <- !app_assoc in C. destruct (sim_e e ss st (B + pos) [] lps _ OK LI A ltac:(lia) RM C) as (Cl & Y). eapply res_ev; [exact Cl|exact Y|]. intros v _. apply code_at_r in C.
    pose proof (code_at_r P _ _ _ C) as C1. rewrite len_op in C1.
    assert (X : VM.exec P O_ECHO (mk (B + pos + len (gen_e K ss e) + 1) (v :: vals (e_scopes st) ++ below) (e_globals st) (e_out st) lps) =
      lift (mk (B + pos + len (gen_e K ss e) + 2) (vals (e_scopes st) ++ below) (e_globals st) (e_out st) lps) (w_tostr (h_world h) v)
        (fun t => Next (mk (B + pos + len (gen_e K ss e) + 2) (vals (e_scopes st) ++ below) (e_globals st) (e_out st ++ echo_bytes t) lps))).
    { cbn [VM.exec]. rewrite (rd1_at P (mk _ _ _ _ _) _ _ _ C1). unfold pop. simp_st. rewrite Hw. replace (B + pos + len (gen_e K ss e) + 1 + 1) with (B + pos + len (gen_e K ss e) + 2) by lia. reflexivity. }
    destruct (w_tostr (h_world h) v) as [t|er| |] eqn:T; cbn [lift] in X; cbn [res].
    + split; [|exact A]. eapply goes_le; [|apply Nat.le_0_l]. replace (B + pos + len (gen_e K ss e ++ op O_ECHO ++ [scope_len ss mod 256])) with (B + pos + len (gen_e K ss e) + 2) by (rewrite !len_app; unfold len at 3 4; cbn [op length]; lia).
      eapply goes_op; [exact C|]. exact X.
    + exact (halts_op _ _ _ _ _ _ _ _ _ C X).
    + exact (halts_op _ _ _ _ _ _ _ _ _ C X).
    + exact (halts_op _ _ _ _ _ _ _ _ _ C X).
  - rewrite <- !app_assoc in C. destruct (sim_e e ss st (B + pos) [] lps _ OK LI A ltac:(lia) RM C) as (Cl & Y). eapply res_ev; [exact Cl|exact Y|]. intros v _. apply code_at_r in C.
    assert (X : VM.exec P O_ASS (mk (B + pos + len (gen_e K ss e) + 1) (v :: vals (e_scopes st) ++ below) (e_globals st) (e_out st) lps) =
      let s := mk (B + pos + len (gen_e K ss e) + 1) (vals (e_scopes st) ++ below) (e_globals st) (e_out st) lps in
      if is_falsey v then lift s (w_tostr (h_world h) v) (fun _ => Stop (Err EAssert) s) else Next s).
    { cbn [VM.exec]. unfold pop. simp_st. rewrite Hw. reflexivity. }
    destruct (is_falsey v).
    + destruct (w_tostr (h_world h) v) as [t|er| |] eqn:T; cbn [lift] in X; cbn [res]; exact (halts_op _ _ _ _ _ _ _ _ _ C X).
    + cbn [res]. split; [|exact A]. eapply goes_le; [|apply Nat.le_0_l]. rewrite len_app, len_op, Z.add_assoc. eapply goes_op; [exact C|exact X].
  - discriminate.
Qed.
End Sim.
