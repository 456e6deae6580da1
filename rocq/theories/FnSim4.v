From Verif Require Import Base Bytes BytesProofs Value Table Ops Ast Stmt Limits Constants VM Compiler ValueProofs TableSpec ConstSpec ConstProofs Gen GenProofs GenProofs2 SimBase Sim CallSpec CallProofs Fn FnSpec FnCompiler FnCode FnGen FnGen2 FnSim FnSim2 FnSim3.

(** ** The parameters. *)
Lemma agree_fold ps : forall s b vs, length vs = length ps -> agree [s] [b] ->
  agree (fold_left (fun ss (p : name * bool) => decl ss (fst p) (snd p)) ps [s]) [rev (map (fun p => (fst (fst p), (snd (fst p), snd p))) (combine ps vs)) ++ b].
Proof.
  induction ps as [|(y, k) ps IH]; intros s b [|v vs] L A; try discriminate; cbn [fold_left combine map rev fst snd app]; [exact A|].
  rewrite <- app_assoc. cbn [app]. cbn [decl]. apply IH; [injection L; auto|]. exact (agree_decl [s] [b] y k v A).
Qed.
Lemma fit_length n vs : length (fit n vs) = n.
Proof. unfold fit. rewrite app_length, firstn_length, repeat_length. lia. Qed.
Lemma bound_agree ps vs : agree (pscope ps) [bound ps vs].
Proof. unfold pscope, bound. pose proof (agree_fold ps [] [] (fit (length ps) vs) (fit_length _ _) (conj I I)) as Q. rewrite app_nil_r in Q. exact Q. Qed.
Lemma bound_vals ps vs : vals [bound ps vs] = rev (fit (length ps) vs).
Proof.
  unfold vals, bound. cbn [concat]. rewrite app_nil_r, map_rev, map_map. f_equal. pose proof (fit_length (length ps) vs) as L. revert L. generalize (fit (length ps) vs) as ws. induction ps as [|p ps IH]; intros [|w ws] L; try discriminate; cbn; [reflexivity|]. f_equal. apply IH. injection L; auto.
Qed.
Lemma bound_length ps vs : length (vals [bound ps vs]) = length ps.
Proof. rewrite bound_vals, rev_length. apply fit_length. Qed.
Lemma pscope_len ps : scope_len (pscope ps) = Z.of_nat (length ps).
Proof. pose proof (agree_length _ _ (bound_agree ps [])) as L. rewrite bound_length in L. lia. Qed.

Section S.
Variable P : prog.
Variable h : host.
Variable G : scope.
Variable kind : nat -> option Z.
Variable M : nat.
Notation K := (p_consts P).
Hypothesis Hw : p_world P = h_world h.
Hypothesis HG : forall x, h_decl h x = option_map is_const (assoc G x).
Hypothesis HGK : gl_in G K.
Hypothesis HKlen : len (p_code P) <= int_max /\ Z.of_nat (length K) <= int_max.
Notation Inv := (Inv P G kind M). Notation reg := (reg P G kind M).
Notation goes := (goes P). Notation halts := (halts P). Notation runs_on := (runs_on P). Notation code_at := (code_at P).

Lemma code_byte a b bs : code_at a (b :: bs) -> nthZ (p_code P) a = Some b.
Proof. intros (pre & post & E & ->). rewrite E. unfold len. cbn [app]. apply nthZ_app. Qed.
Lemma call_enter v vs below pc fp fr frs st m r U F bb a ps rest :
  code_at pc (op O_CALL ++ r) -> code_at a ([Z.of_nat (length ps) mod 256] ++ rest) -> (length ps <= 128)%nat ->
  match v with
    | VFn a' => a' = a /\ U = []
    | VClosure k => exists ids, nthZ (m_clo m) k = Some (Clo a ids) /\ Forall2 (cap F (m_upv m)) U ids
    | _ => False
  end ->
  Z.of_nat (length below) + Z.of_nat (length (s_file st)) + 1 + Z.of_nat (length ps) <= 1024 ->
  goes 1 (call_at v vs below pc fp fr frs st m)
    (att (Cx (Z.of_nat (length below) + Z.of_nat (length (s_file st))) (v :: below) (CF (pc + 1) (f_prev_fp fr) (f_curr_fp fr) (f_lp fr) (f_nret fr) :: frs) (Z.of_nat (length below) + Z.of_nat (length (s_file st))))
      (a + 1) [] (FS [bound ps vs] (s_file st) bb (s_gl st) (s_out st) (s_fun st) (s_next st)) m).
Proof.
  intros C Ca Lp Vf R. eapply op_goes; [exact C|]. cbn [VM.exec]. unfold exec_call, call_at, set_pc, set_frames. cbn [v_pc v_stk v_fp v_gl v_out v_loops v_frames v_next_fp v_upv v_pending v_clo].
  set (nfp := Z.of_nat (length below) + Z.of_nat (length (s_file st))) in *.
  assert (Sg : slot_get (rev vs ++ v :: below ++ map bval (s_file st)) nfp = Some v).
  { pose proof (FnSim2.cv_slot P kind M (Cx nfp (v :: below) [] 0) (rev vs) (FS [] (s_file st) None (s_gl st) [] (s_fun st) 0) v below eq_refl) as Q. exact Q. }
  rewrite Sg.
  assert (Cn : call_native P (VS (pc + 1) (rev vs ++ v :: below ++ map bval (s_file st)) nfp (s_gl st) (s_out st) [] (fr :: frs) nfp (m_upv m) (m_pend m) (m_clo m)) a =
    Next (VS (a + 1) (rev (fit (length ps) vs) ++ v :: below ++ map bval (s_file st)) nfp (s_gl st) (s_out st) [] (CF (pc + 1) (f_prev_fp fr) (f_curr_fp fr) (f_lp fr) (f_nret fr) :: frs) nfp (m_upv m) (m_pend m) (m_clo m))).
  { unfold call_native. cbn [v_pc v_stk v_fp v_gl v_out v_loops v_frames v_next_fp v_upv v_pending v_clo]. rewrite (code_byte a _ _ Ca). rewrite Z.mod_small by lia.
    erewrite fill_args_ok; [reflexivity|reflexivity| |]; cbn [set_frames v_fp]; unfold nfp in *; rewrite ?app_length, ?map_length; lia. }
  destruct v; try contradiction.
  - destruct Vf as (-> & _). rewrite Cn. unfold att, stack. cbn [x_fp x_base x_frs x_nfp s_loc s_file s_gl s_out app]. rewrite bound_vals. reflexivity.
  - destruct Vf as (ids & -> & _). cbn [opt k_code]. rewrite Cn. unfold att, stack. cbn [x_fp x_base x_frs x_nfp s_loc s_file s_gl s_out app]. rewrite bound_vals. reflexivity.
Qed.

Lemma call_ok n : forall d, call_spec P G kind M n d (fcall h kind n d).
Proof.
  induction d as [|d IH]; intros v vs st m pc fp fr frs below r C Cv Iv Or R1 R2; cbn [fcall]; [exact I|].
  destruct (s_fun st v) as [f|] eqn:Fv; [|exact I]. destruct f as (ps, b, sees). cbn [fr_params fr_body fr_sees].
  pose proof Iv as (Rg & Nx & Op). destruct (Rg v _ Fv) as (U & F & bb & a & Vf & Ca & Cb & Ls & Ag & Nm & Sm1 & Sm2). cbn [fr_params fr_body fr_sees] in *.
  unfold small_fn in Sm1. apply andb_true_iff in Sm1. destruct Sm1 as (Pk & Nd). apply Nat.leb_le in Pk, Nd. pose proof (fpeak_ge P h G HG b (length ps)) as Pg.
  set (nfp := Z.of_nat (length below) + Z.of_nat (length (s_file st))) in *.
  assert (DM : Z.of_nat (S d) * Z.of_nat M = Z.of_nat d * Z.of_nat M + Z.of_nat M) by lia. rewrite DM in R1. assert (D0 : 0 <= Z.of_nat d * Z.of_nat M) by (apply Z.mul_nonneg_nonneg; lia).
  pose proof (call_enter v vs below pc fp fr frs st m r U F (Some sees) a ps _ C Ca ltac:(lia) Vf ltac:(lia)) as Go. fold nfp in Go.
  set (fr' := CF (pc + 1) (f_prev_fp fr) (f_curr_fp fr) (f_lp fr) (f_nret fr)) in *. set (x := Cx nfp (v :: below) (fr' :: frs) nfp) in *. set (st1 := FS [bound ps vs] (s_file st) (Some sees) (s_gl st) (s_out st) (s_fun st) (s_next st)) in *.
  set (E := SFun U (pscope ps) F) in *.
  assert (He : here E x st1 m).
  { exists v, below, sees. split; [reflexivity|]. split; [reflexivity|]. split; [exact Ls|]. split; [reflexivity|]. split; [apply bound_agree|]. split; [exact Ag|]. split; [exact Nm|].
    destruct U as [|u U]; [left; reflexivity|right]. destruct v; try contradiction; [destruct Vf; discriminate|]. destruct Vf as (ids & V1 & V2). eauto 6. }
  assert (Iv1 : Inv st1 m) by exact Iv. pose proof (code_at_r P _ _ _ Ca) as C1. change (len [Z.of_nat (length ps) mod 256]) with 1 in C1.
  assert (HH : hgt E x st1 [] = Z.of_nat (length ps) + 1 + nfp). { unfold hgt, E, x, st1, nfp. cbn [sc x_base s_file length]. rewrite pscope_len. lia. }
  assert (Rm : room M d E x st1 [] (fneed b)). { split; rewrite HH; [lia|]. unfold x. cbn [x_frs length]. lia. }
  assert (Fm : framed E x) by (exists fr', frs; split; [reflexivity|exact Or]).
  pose proof (proj2 (proj2 (all_ok P h G kind M Hw HG HGK HKlen n d (fcall h kind n d) IH)) b E x st1 m (a + 1) bb _ Cb C1 He Iv1 Sm2 (pscope_ne ps)) as Q.
  assert (Q' : ends P (att x (a + 1) [] st1 m) (exec_s h kind n (fcall h kind n d) b st1) n (SP P G kind M E (s_after E b) x (a + 1 + len bb) st1 m (att x (a + 1) [] st1 m))).
  { apply Q; [|exact Rm|exact Fm]. unfold E. cbn [sc]. rewrite pscope_len, Nat2Z.id. lia. } clear Q.
  eapply ends_bind; [eapply (ends_pre P kind 1); [exact Go|exact Q'|intros o st2 X; exact X]|].
  intros [u|] st2 X; cbn [ends].
  - destruct X as (m2 & fr2 & frs2 & cv & b2 & A1 & A2 & A3 & A4 & A5 & A6). injection A1 as <- <-. injection A2 as <- <-. cbn [kept E] in A6. exists m2. split; [|cbn [s_loc s_sees s_file]; auto].
    eapply goes_le; [exact (goes_trans P _ _ _ _ _ Go A3)|lia].
  - destruct X as (m2 & A1 & A2 & A3 & A4 & A5). cbn [kept E] in A5. exists m2. split; [|cbn [s_loc s_sees s_file]; auto].
    pose proof (here_hgt _ _ _ _ [] A2) as H2. destruct A2 as (cv & b2 & i & B1 & B2 & B3 & B4 & B5 & _). injection B1 as <- <-. cbn [sc s_after E set_sc] in *.
    assert (SL : scope_len (fafter (pscope ps) b) = Z.of_nat (length ps) + Z.of_nat (fdecls b)) by (rewrite fafter_len by apply pscope_ne; rewrite pscope_len; reflexivity).
    unfold hgt in H2. cbn [sc s_after E set_sc] in H2. change (x_base x) with (v :: below) in H2. cbn [length] in H2. rewrite (shape_length _ _ A5) in H2. change (s_file st1) with (s_file st) in H2. rewrite SL in H2.
    apply code_at_r in C1. pose proof (const_ok P x _ O_NCONST VUndef [] st2 m2 _ C1 ltac:(lia) ltac:(auto)) as Gn. apply code_at_r in C1. rewrite len_op in C1. pose proof (agree_length _ _ B5) as LA. rewrite SL in LA.
    pose proof (ret_ok P h G HG (a + 1 + len bb + 1) _ VUndef (vals (s_loc st2)) v below fr' frs nfp st2 m2 [] C1 ltac:(lia) ltac:(lia) Or) as Gr.
    assert (Gr' : goes 1 (att x (a + 1 + len bb + 1) [VUndef] st2 m2) (ret_at VUndef below (pc + 1) fr' frs st2 m2)).
    { unfold att, stack. cbn [app]. change (x_base x) with (v :: below). change (x_frs x) with (fr' :: frs). change (x_nfp x) with nfp. change (x_fp x) with nfp in B4 |- *. rewrite <- B4 in Gr. apply Gr. lia. }
    eapply goes_le; [exact (goes_trans P _ _ _ _ _ Go (goes_trans P _ _ _ _ _ A1 (goes_trans P _ _ _ _ _ Gn Gr')))|lia].
Qed.
End S.
