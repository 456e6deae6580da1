From Verif Require Import Base Bytes BytesProofs Value Table Ops Ast Stmt Limits Constants VM Compiler ValueProofs TableSpec ConstSpec ConstProofs Gen GenProofs GenProofs2 SimBase Sim CallSpec CallProofs Fn FnSpec FnCompiler FnCode FnGen FnSim FnSim2.

(** ** Declaring variables, entering and leaving blocks. *)
Lemma here_ne E x st m : here E x st m -> match E with SFile ss => ss <> [] | SFun _ _ _ => True end.
Proof. destruct E as [ss|]; cbn [here]; auto. intros (_ & _ & _ & A) ->. destruct (s_loc st); destruct A. Qed.
Lemma here_enter E x st m : here E x st m -> here (s_in E) x (f_enter st) m.
Proof.
  destruct E as [ss|U ss F]; cbn [here s_in set_sc sc].
  - intros (A & B & C & D). split; [exact A|]. split; [exact B|]. split; [exact C|]. cbn [f_enter set_loc s_loc s_file app]. split; [exact I|exact D].
  - intros (cv & b & n & A & B & C & D & H1 & H2). exists cv, b, n. cbn [f_enter set_loc s_loc s_file s_sees]. repeat (split; [assumption|]). split; [split; [exact I|exact H1]|exact H2].
Qed.
Lemma here_leave E s0 x st m : sc E <> [] -> here (set_sc E (s0 :: sc E)) x st m -> exists b l, s_loc st = b :: l /\ length b = length s0 /\ here E x (f_leave st) m.
Proof.
  destruct E as [ss|U ss F]; cbn [here set_sc sc]; intros Ne.
  - intros (A & B & C & D). destruct (s_loc st) as [|b l] eqn:El.
    + cbn [app] in D. destruct D as (_ & D). destruct ss; [congruence|destruct D].
    + cbn [app] in D. destruct D as (D1 & D2). exists b, l. split; [reflexivity|]. split; [eapply agree1_length; exact D1|]. cbn [f_leave set_loc s_loc s_file s_sees]. rewrite El. auto.
  - intros (cv & b & n & A & B & C & D & H1 & H2). destruct (s_loc st) as [|b0 l] eqn:El; [destruct H1|]. destruct H1 as (H0 & H1). exists b0, l. split; [reflexivity|]. split; [eapply agree1_length; exact H0|].
    exists cv, b, n. cbn [f_leave set_loc s_loc s_file s_sees]. rewrite El. auto 10.
Qed.
Definition kept (E : senv) (st st' : fstate) : Prop := match E with SFile _ => True | SFun _ _ _ => shape (s_file st') = shape (s_file st) end.
Lemma kept_refl E st : kept E st st.
Proof. destruct E; cbn; auto. Qed.
Lemma kept_trans E a b c : kept E a b -> kept E b c -> kept E a c.
Proof. destruct E; cbn; [auto|congruence]. Qed.
Lemma kept_same E a b : same a b -> kept E a b.
Proof. destruct E; cbn; [auto|]. intros (_ & _ & H). exact H. Qed.
Lemma kept_sc E ss a b : kept (set_sc E ss) a b <-> kept E a b.
Proof. destruct E; cbn; tauto. Qed.
Lemma last_decl ss x k : (length ss >= 2)%nat -> last (decl ss x k) [] = last ss [].
Proof. destruct ss as [|a [|b r]]; cbn; intros; try lia. reflexivity. Qed.
Lemma sc_decl_ne E x k : sc E <> [] -> sc (s_decl E x k) <> [].
Proof. unfold s_decl. rewrite sc_set. destruct (sc E); cbn; congruence. Qed.
(** the value on the top of the stack becomes a variable *)
Lemma declare_here E x st m y k v pc : here E x st m -> fresh (sc E) y = true ->
  exists st', f_declare st y k v = Some st' /\ att x pc [v] st m = att x pc [] st' m /\ here (s_decl E y k) x st' m /\ kept E st st' /\
    s_fun st' = s_fun st /\ s_next st' = s_next st /\ s_sees st' = s_sees st /\
    s_file st' = match s_loc st, s_sees st with [], None => (y, (k, v)) :: s_file st | _, _ => s_file st end.
Proof.
  intros He Fr. unfold f_declare. destruct E as [ss|U ss F]; cbn [here sc s_decl set_sc kept] in *.
  - destruct He as (A & B & C & D). rewrite A. destruct (s_loc st) as [|b l] eqn:El.
    + cbn [app] in D. destruct ss as [|s [|t r]]; [destruct D| |destruct D as (_ & D); destruct D]. destruct D as (D & _). cbn [fresh] in Fr.
      pose proof (assoc1 _ _ y _ (scope_len_nonneg []) D) as As. destruct (assoc s y); [discriminate|]. rewrite As. eexists. split; [reflexivity|].
      split; [unfold att, stack; cbn [set_file s_loc s_file s_gl s_out]; rewrite El, B; reflexivity|]. split; [|repeat split; auto].
      split; [exact A|]. split; [exact B|]. split; [exact C|]. cbn [set_file s_loc s_file]. rewrite El. pose proof (agree_decl [s] [s_file st] y k v (conj D I)) as Q. exact Q.
    + cbn [app] in D. destruct ss as [|s r]; [destruct D|]. destruct D as (D1 & D2). cbn [fresh] in Fr. pose proof (assoc1 _ _ y _ (scope_len_nonneg r) D1) as As. destruct (assoc s y); [discriminate|]. rewrite As. eexists. split; [reflexivity|].
      split; [unfold att, stack; cbn [set_loc s_loc s_file s_gl s_out]; rewrite El, !map_vals_cons; reflexivity|]. split; [|repeat split; auto].
      split; [exact A|]. split; [exact B|]. split; [exact C|]. cbn [set_loc s_loc s_file]. exact (agree_decl (s :: r) (b :: l ++ [s_file st]) y k v (conj D1 D2)).
  - destruct He as (cv & b0 & n & A & B & C & D & H1 & H2 & H3 & H4). destruct (s_loc st) as [|b l] eqn:El; [destruct ss; [discriminate|destruct H1]|]. rewrite B. destruct ss as [|s r]; [discriminate|].
    destruct H1 as (D1 & D2). cbn [fresh] in Fr. pose proof (assoc1 _ _ y _ (scope_len_nonneg r) D1) as As. destruct (assoc s y); [discriminate|]. rewrite As. eexists. split; [reflexivity|].
    split; [unfold att, stack; cbn [set_loc s_loc s_file s_gl s_out]; rewrite El, !map_vals_cons; reflexivity|]. split; [|repeat split; auto].
    exists cv, b0, n. cbn [set_loc s_loc s_file s_sees]. repeat (split; [assumption|]). split; [exact (agree_decl (s :: r) (b :: l) y k v (conj D1 D2))|auto].
Qed.

Section S.
Variable P : prog.
Variable h : host.
Variable G : scope.
Variable kind : nat -> option Z.
Variable M : nat.
Notation K := (p_consts P).
Hypothesis Hw : p_world P = h_world h.
Hypothesis HG : forall x, h_decl h x = option_map is_const (assoc G x).
Hypothesis HGK : gl_in G K.
Hypothesis HKlen : len (p_code P) <= int_max /\ Z.of_nat (length K) <= int_max.
Notation goes := (goes P). Notation halts := (halts P). Notation runs_on := (runs_on P). Notation code_at := (code_at P).
Notation Inv := (Inv P G kind M). Notation reg := (reg P G kind M).
Local Notation un_ok := (FnSim2.un_ok P h Hw).
Local Notation bop_ok := (FnSim2.bop_ok P h G kind M Hw HG).
Local Notation const_ok := (FnSim2.const_ok P).
Local Notation lit_ok := (FnSim2.lit_ok P h G kind M HG HKlen).
Local Notation brf_ok := (FnSim2.brf_ok P h G HG HKlen).
Local Notation br_ok := (FnSim2.br_ok P h G HG).
Local Notation sc_ok := (FnSim2.sc_ok P h G HG HKlen).
Local Notation pop_ok := (FnSim2.pop_ok P).
Local Notation dup_ok := (FnSim2.dup_ok P).
Local Notation load_ok := (FnSim2.load_ok P h G kind M HG HGK HKlen).
Local Notation store_ok := (FnSim2.store_ok P h G kind M HG HGK HKlen).
Local Notation fn_runs := (FnSim2.fn_runs P h G kind M HG HKlen).
Local Notation Inv_state := (FnSim2.Inv_state P h G kind M HG).
Local Notation reg_mono := (FnSim2.reg_mono P h G kind M HG).
Local Notation cv_slot := (FnSim2.cv_slot P kind M).
Local Notation code_in := (Sim.code_in P h G [] HG HKlen).

Lemma pops_ok ts : forall x pc temps st m bs, code_at pc (repeat (op_byte O_POP) (length ts) ++ bs) -> goes 0 (att x pc (ts ++ temps) st m) (att x (pc + Z.of_nat (length ts)) temps st m).
Proof.
  intros x pc temps st m bs C. pose proof (goes_pops P h G (x_fp x) [] (x_frs x) (x_nfp x) (m_upv m) (m_pend m) (m_clo m) HG ts pc (stack x temps st) (s_gl st) (s_out st) [] bs C) as Go.
  unfold att, stack. rewrite <- app_assoc. exact Go.
Qed.
Lemma Inv_loc st l m : Inv st m <-> Inv (set_loc st l) m.
Proof. reflexivity. Qed.
Lemma leave_ok E x st m b pc r : sc E <> [] -> here (s_after (s_in E) b) x st m -> Inv st m -> code_at pc (bpops E b ++ r) ->
  goes 0 (att x pc [] st m) (att x (pc + len (bpops E b)) [] (f_leave st) m) /\ here E x (f_leave st) m /\ Inv (f_leave st) m.
Proof.
  intros Ne He Iv C. unfold s_after, s_in in He. rewrite sc_set, set_set in He. unfold bpops in *. destruct (fafter_shape b [] (sc E)) as (u & Eu & Lu). change (@cons (list (name * Z)) [] (sc E)) with (@cons scope [] (sc E)) in *. rewrite Eu in He, C |- *. cbn [pops] in C |- *.
  destruct (here_leave E u x st m Ne He) as (b0 & l & El & Lb & Hl). split; [|split; [exact Hl|exact Iv]].
  replace (att x pc [] st m) with (att x pc (map bval b0 ++ []) (f_leave st) m) by (unfold att, stack, f_leave; cbn [set_loc s_loc s_file s_gl s_out]; rewrite El, map_vals_cons, app_nil_r; cbn [tl app]; rewrite <- !app_assoc; reflexivity).
  replace (length u) with (length (map bval b0)) in * by (rewrite map_length; exact Lb). replace (len (repeat (op_byte O_POP) (length (map bval b0)))) with (Z.of_nat (length (map bval b0))) by (unfold len; rewrite repeat_length; reflexivity).
  eapply pops_ok. exact C.
Qed.

Lemma Inv_declared st st' m E (x : cx) y k v : Inv st m -> s_fun st' = s_fun st -> s_next st' = s_next st ->
  s_file st' = match s_loc st, s_sees st with [], None => (y, (k, v)) :: s_file st | _, _ => s_file st end -> here E x st m -> Inv st' m.
Proof.
  intros (A & B & C & D) E1 E2 E3 _. split; [|split; [congruence|auto]]. intros u f H. rewrite E1 in H. rewrite E3. destruct (s_loc st); [destruct (s_sees st)|]; try (apply A, H).
  eapply reg_mono; [apply A, H|apply grow_refl|cbn [length]; lia|]. intros n Hn. rewrite oldest_cons by exact Hn. reflexivity.
Qed.

(** ** Function literals. *)
Lemma here_bounded E x st m : here E x st m -> scope_len (sc E) <= 128 -> bounded (fscope E) /\ (length (fscope E) <= 128)%nat.
Proof.
  intros He S. assert (Q : forall F b, agree1 0 F b -> (length F <= 128)%nat -> bounded F).
  { intros F b A L y z Ay. pose proof (assoc1 0 F y b ltac:(lia) A) as As. rewrite Ay in As. destruct As as (k & v & i & _ & _ & R & _). lia. }
  destruct E as [ss|U ss F]; cbn [here sc fscope] in *.
  - destruct He as (_ & _ & _ & D). assert (L : (length (last ss []) <= 128)%nat).
    { assert (length (last ss []) <= length (concat ss))%nat; [|unfold scope_len in S; lia]. clear. induction ss as [|s [|t r] IH]; cbn [last concat length] in *; [lia|rewrite app_nil_r; lia|]. rewrite app_length. lia. }
    split; [|exact L]. eapply Q; [eapply agree_last; exact D|exact L].
  - destruct He as (cv & b & n & A & B & C & D & H1 & H2 & (_ & _ & L) & H4). split; [eapply Q; eassumption|exact L].
Qed.
Lemma capturable_here E x st m temps : here E x st m -> capturable E (fscope E) (x_fp x) (stack x temps st) (m_clo m) (m_upv m).
Proof.
  destruct E as [ss|U ss F]; cbn [here capturable fscope].
  - intros (_ & _ & A & _). auto.
  - intros (cv & b & n & A & B & C & D & H1 & H2 & H3 & H4). split; [reflexivity|]. split; [eapply U_small; exact H3|]. destruct H4 as [->|(k & a & ids & -> & Q1 & Q2)]; [left; reflexivity|right].
    exists k, a, ids. split; [rewrite D; apply cv_slot; exact A|auto].
Qed.
Lemma made_Inv st m m' st2 l ps b F U bb a sees : Inv st m -> grow m m' -> Z.of_nat (length (m_clo m')) = fn_next kind st l -> open_all (m_upv m') (m_pend m') ->
  match fn_value kind st l with
    | VFn a' => a' = a + 9 /\ U = []
    | VClosure k => exists ids, nthZ (m_clo m') k = Some (Clo (a + 9) ids) /\ Forall2 (cap F (m_upv m')) U ids
    | _ => False
    end ->
  code_at (a + 9) ([Z.of_nat (length ps) mod 256] ++ bb ++ op O_NCONST ++ op O_RET ++ [scope_len (fafter (pscope ps) b) mod 256]) ->
  code_s K kind G (SFun U (pscope ps) F) (a + 9 + 1) b bb -> names_ok U F ->
  s_fun st2 = (fun u => if value_eq_dec u (fn_value kind st l) then Some (Fun ps b sees) else s_fun st u) -> s_next st2 = fn_next kind st l ->
  (length (s_file st) <= length (s_file st2))%nat -> (forall i, (i <= length (s_file st))%nat -> shape (oldest i (s_file st2)) = shape (oldest i (s_file st))) ->
  (sees <= length (s_file st2))%nat -> agree1 0 F (oldest sees (s_file st2)) -> small_fn M ps b = true -> small_s M b = true -> Inv st2 m'.
Proof.
  intros (Iv & _) Gr Cl (Op1 & Op2) Vf Cd Cb Nm Ef En Lf Sh Ls Ag Sm1 Sm2. split; [|split; [congruence|split; assumption]].
  intros u f. rewrite Ef. destruct (value_eq_dec u (fn_value kind st l)) as [->|_].
  - intros X. injection X as <-. exists U, F, bb, (a + 9). cbn [fr_params fr_body fr_sees]. split; [exact Vf|]. auto 10.
  - intros X. eapply reg_mono; [apply Iv, X|exact Gr|exact Lf|exact Sh].
Qed.

(** ** What the machine does when the program does [r]. *)
Definition ends {A} (s : vstate) (r : res A) (k : nat) (f : A -> fstate -> Prop) : Prop :=
  match r with Fn.RVal a st => f a st | RStop o out => halts s o out | RFuel => runs_on s k | RDeep | ROut => True | RStuck => False end.
Lemma ends_imp {A} s (r : res A) k (f g : A -> fstate -> Prop) : ends s r k f -> (forall a st, f a st -> g a st) -> ends s r k g.
Proof. destruct r; cbn [ends]; auto. Qed.
Lemma ends_pre {A} i s s1 (r : res A) k (f g : A -> fstate -> Prop) : goes i s s1 -> ends s1 r k f -> (forall a st, f a st -> g a st) -> ends s r k g.
Proof.
  intros Go. destruct r; cbn [ends]; auto.
  - intros H _. eapply goes_halts; eassumption.
  - intros H _. eapply runs_le; [eapply goes_runs; eassumption|lia].
Qed.
Lemma ends_bind {A B} s (r : res A) k (f : A -> fstate -> Prop) (g : A -> fstate -> res B) (f' : B -> fstate -> Prop) : ends s r k f -> (forall a st, f a st -> ends s (g a st) k f') -> ends s (rbind r g) k f'.
Proof. destruct r; cbn [ends rbind]; auto. Qed.

Section Body.
Variables (n d : nat) (call : value -> list value -> fstate -> res value).
Notation DM := (Z.of_nat d * Z.of_nat M).
Definition ret_at (u : value) (below : list value) (pc : Z) (fr : frame) (frs : list frame) (st : fstate) (m : mem) : vstate :=
  VS pc (u :: below ++ map bval (s_file st)) (f_prev_fp fr) (s_gl st) (s_out st) [] frs (f_curr_fp fr) (m_upv m) (m_pend m) (m_clo m).
Definition one_result (fr : frame) : Prop := (f_nret fr = 1 \/ f_nret fr = -1) /\ f_lp fr = -1.
Definition call_at (v : value) (vs below : list value) (pc fp : Z) (fr : frame) (frs : list frame) (st : fstate) (m : mem) : vstate :=
  VS pc (rev vs ++ v :: below ++ map bval (s_file st)) fp (s_gl st) (s_out st) [] (fr :: frs) (Z.of_nat (length below) + Z.of_nat (length (s_file st))) (m_upv m) (m_pend m) (m_clo m).
Definition call_spec : Prop := forall v vs st m pc fp fr frs below r, code_at pc (op O_CALL ++ r) -> callable v = true -> Inv st m -> one_result fr ->
  Z.of_nat (length below) + Z.of_nat (length (s_file st)) + 1 + DM <= 1000 -> Z.of_nat (length frs) <= Z.of_nat (length below) + Z.of_nat (length (s_file st)) ->
  ends (call_at v vs below pc fp fr frs st m) (call v vs st) n (fun u st' => exists m', goes 1 (call_at v vs below pc fp fr frs st m) (ret_at u below (pc + 1) fr frs st' m') /\
    s_loc st' = s_loc st /\ s_sees st' = s_sees st /\ shape (s_file st') = shape (s_file st) /\ grow m m' /\ Inv st' m').
Hypothesis Hcall : call_spec.
Definition room (E : senv) (x : cx) (st : fstate) (temps : list value) (k : nat) : Prop :=
  hgt E x st temps + Z.of_nat k + DM <= 1000 /\ Z.of_nat (length (x_frs x)) <= hgt E x st temps.
Lemma DM_pos : 0 <= DM.
Proof. apply Z.mul_nonneg_nonneg; lia. Qed.
Lemma room_same E x st st' temps k : room E x st temps k -> same st st' -> room E x st' temps k.
Proof. unfold room. intros H S. rewrite (hgt_same _ _ _ _ _ S). exact H. Qed.
Lemma hgt_cons E x st v temps : hgt E x st (v :: temps) = hgt E x st temps + 1.
Proof. unfold hgt. cbn [length]. lia. Qed.
Lemma room_le E x st temps j k : room E x st temps k -> (j <= k)%nat -> room E x st temps j.
Proof. unfold room. intros. lia. Qed.
Lemma room_cons E x st v temps j k : room E x st temps k -> (S j <= k)%nat -> room E x st (v :: temps) j.
Proof. unfold room. rewrite hgt_cons. intros. lia. Qed.
Lemma room_stack E x st m temps k : room E x st temps k -> here E x st m -> Z.of_nat (length (stack x temps st)) + Z.of_nat k <= 1000.
Proof. intros (R & _) He. rewrite (here_hgt _ _ _ _ _ He). pose proof DM_pos. lia. Qed.

Definition EP (x : cx) (pc : Z) (temps : list value) (st : fstate) (m : mem) (s : vstate) (v : value) (st' : fstate) : Prop :=
  exists m', goes 1 s (att x pc (v :: temps) st' m') /\ same st st' /\ grow m m' /\ Inv st' m'.
Definition AP (x : cx) (pc : Z) (temps : list value) (st : fstate) (m : mem) (s : vstate) (vs : list value) (st' : fstate) : Prop :=
  exists m', goes 0 s (att x pc (rev vs ++ temps) st' m') /\ same st st' /\ grow m m' /\ Inv st' m'.
Definition SP (E E' : senv) (x : cx) (pc : Z) (st : fstate) (m : mem) (s : vstate) (r : option value) (st' : fstate) : Prop :=
  match r with
  | None => exists m', goes 0 s (att x pc [] st' m') /\ here E' x st' m' /\ grow m m' /\ Inv st' m' /\ kept E st st'
  | Some u => match E with SFile _ => False | SFun _ _ _ => exists m' fr frs cv b, x_frs x = fr :: frs /\ x_base x = cv :: b /\
      goes 1 s (ret_at u b (f_pc fr) fr frs st' m') /\ grow m m' /\ Inv st' m' /\ kept E st st' end
  end.
Definition e_ok (e : fexpr) : Prop := forall E x st m pc temps bs r, code_e K kind G E pc e bs -> code_at pc (bs ++ r) -> here E x st m -> Inv st m -> small_e M e = true ->
  scope_len (sc E) <= 128 -> room E x st temps (fneed_e e) ->
  ends (att x pc temps st m) (eval_e h kind n call e st) n (EP x (pc + len bs) temps st m (att x pc temps st m)).
Definition a_ok (es : fargs) : Prop := forall E x st m pc temps bs r, code_args K kind G E pc es bs -> code_at pc (bs ++ r) -> here E x st m -> Inv st m -> small_args M es = true ->
  scope_len (sc E) <= 128 -> room E x st temps (fneed_args es) ->
  ends (att x pc temps st m) (eval_args h kind n call es st) n (AP x (pc + len bs) temps st m (att x pc temps st m)).
Definition framed (E : senv) (x : cx) : Prop := match E with SFile _ => True | SFun _ _ _ => exists fr frs, x_frs x = fr :: frs /\ one_result fr end.
Definition s_ok (s : fstmt) : Prop := forall E x st m pc bs r, code_s K kind G E pc s bs -> code_at pc (bs ++ r) -> here E x st m -> Inv st m -> small_s M s = true ->
  sc E <> [] -> Z.of_nat (fpeak (Z.to_nat (scope_len (sc E))) s) <= 128 -> room E x st [] (fneed s) -> framed E x ->
  ends (att x pc [] st m) (exec_s h kind n call s st) n (SP E (s_after E s) x (pc + len bs) st m (att x pc [] st m)).

Lemma EP_pre i x pc temps st m st1 m1 s s1 v st' : goes i s s1 -> same st st1 -> grow m m1 -> EP x pc temps st1 m1 s1 v st' -> EP x pc temps st m s v st'.
Proof. intros Go Sm Gr (m' & A & B & C & D). exists m'. split; [eapply goes_le; [eapply goes_trans; eassumption|lia]|]. split; [eapply same_trans; eassumption|]. split; [eapply grow_trans; eassumption|exact D]. Qed.
Lemma SP_pre i E E' x pc st m st1 m1 s s1 v st' : goes i s s1 -> kept E st st1 -> grow m m1 -> SP E E' x pc st1 m1 s1 v st' -> SP E E' x pc st m s v st'.
Proof.
  intros Go Sm Gr. destruct v as [u|]; cbn [SP].
  - destruct E; [tauto|]. intros (m' & fr & frs & cv & b & A1 & A2 & A3 & A4 & A5 & A6). exists m', fr, frs, cv, b. split; [exact A1|]. split; [exact A2|]. split; [eapply goes_le; [eapply goes_trans; eassumption|lia]|]. split; [eapply grow_trans; eassumption|]. split; [exact A5|eapply kept_trans; eassumption].
  - intros (m' & A & B & C & D & F). exists m'. split; [eapply goes_le; [eapply goes_trans; eassumption|lia]|]. split; [exact B|]. split; [eapply grow_trans; eassumption|]. split; [exact D|eapply kept_trans; eassumption].
Qed.
Lemma outcome_ends x pc temps st m st1 m1 s o : yield P s o (fun v => att x pc (v :: temps) st1 m1) (s_out st1) -> same st st1 -> grow m m1 -> Inv st1 m1 -> ends s (of_outcome st1 o) n (EP x pc temps st m s).
Proof. intros Y Sm Gr Iv. destruct o; cbn [yield of_outcome ends] in *; auto. exists m1. auto. Qed.
Lemma fneed_pos e : (1 <= fneed_e e)%nat.
Proof. induction e; cbn [fneed_e]; lia. Qed.

Ltac after Go Sa Gr := eapply (ends_pre 1); [exact Go| |let Q := fresh in intros ? ? Q; eapply (EP_pre 1); [exact Go|exact Sa|exact Gr|exact Q]].
Lemma ok_un o e : e_ok e -> e_ok (FUn o e).
Proof.
  intros IH E x st m pc temps bs r (b1 & C1 & ->) C He Iv Sm S R. cbn [eval_e eval_args exec_s small_e fneed_e] in *. rewrite <- app_assoc in C. rewrite len_app, len_op, Z.add_assoc.
  eapply ends_bind; [exact (IH E x st m pc temps b1 _ C1 C He Iv Sm S R)|]. intros v st1 (m1 & Go & Sa & Gr & Iv1). after Go Sa Gr.
  eapply outcome_ends; [|apply same_refl|apply grow_refl|exact Iv1]. eapply un_ok; [exact (code_at_r P _ _ _ C)|].
  pose proof (room_stack _ _ _ _ _ _ (room_same _ _ _ _ _ _ R Sa) (here_same _ _ _ _ _ _ He Sa Gr)). lia.
Qed.
Lemma ok_bin o e1 e2 : e_ok e1 -> e_ok e2 -> e_ok (FBin o e1 e2).
Proof.
  intros IH1 IH2 E x st m pc temps bs r (b1 & b2 & C1 & C2 & ->) C He Iv Sm S R. cbn [eval_e eval_args exec_s small_e fneed_e] in *. apply andb_true_iff in Sm. destruct Sm as (Sm1 & Sm2). rewrite <- !app_assoc in C. rewrite !len_app, !Z.add_assoc.
  pose proof (fneed_pos e2) as N2.
  eapply ends_bind; [(refine (IH1 E x st m pc temps b1 _ C1 C He Iv Sm1 S _); eapply room_le; [exact R|lia])|]. intros v st1 (m1 & Go & Sa & Gr & Iv1). after Go Sa Gr. apply code_at_r in C.
  pose proof (room_same _ _ _ _ _ _ R Sa) as R1. pose proof (here_same _ _ _ _ _ _ He Sa Gr) as He1.
  eapply ends_bind; [(refine (IH2 E x st1 m1 _ (v :: temps) b2 _ C2 C He1 Iv1 Sm2 S _); eapply room_cons; [exact R1|lia])|]. intros u st2 (m2 & Go2 & Sa2 & Gr2 & Iv2). after Go2 Sa2 Gr2. apply code_at_r in C.
  eapply outcome_ends; [|apply same_refl|apply grow_refl|exact Iv2]. eapply bop_ok; [exact C|].
  pose proof (room_stack _ _ _ _ _ _ (room_same _ _ _ _ _ _ R1 Sa2) (here_same _ _ _ _ _ _ He1 Sa2 Gr2)). lia.
Qed.
Lemma ok_sc o e1 e2 : e_ok e1 -> e_ok e2 -> e_ok (FSc o e1 e2).
Proof.
  intros IH1 IH2 E x st m pc temps bs r (bl & br & C1 & C2 & ->) C He Iv Sm S R. cbn [eval_e eval_args exec_s small_e fneed_e] in *. apply andb_true_iff in Sm. destruct Sm as (Sm1 & Sm2). rewrite <- !app_assoc in C.
  eapply ends_bind; [(refine (IH1 E x st m pc temps bl _ C1 C He Iv Sm1 S _); eapply room_le; [exact R|lia])|]. intros v st1 (m1 & Go & Sa & Gr & Iv1). after Go Sa Gr. apply code_at_r in C.
  pose proof (room_same _ _ _ _ _ _ R Sa) as R1. pose proof (here_same _ _ _ _ _ _ He Sa Gr) as He1. pose proof (room_stack _ _ _ _ _ _ R1 He1) as RS.
  replace (pc + len (bl ++ op O_DUP ++ op (sc_jump o) ++ enc8 (1 + len br) ++ op O_POP ++ br)) with (pc + len bl + 11 + len br) by (rewrite !len_app, !len_op, len_enc8; lia).
  set (p1 := pc + len bl) in *. pose proof (code_at_r P _ _ _ C) as D2. rewrite len_op in D2. pose proof (code_at_r P _ _ _ D2) as D3. rewrite len_op in D3. pose proof (code_at_r P _ _ _ D3) as D4. rewrite len_enc8 in D4. pose proof (code_at_r P _ _ _ D4) as D5. rewrite len_op in D5.
  assert (D : goes 2 (att x p1 (v :: temps) st1 m1) (att x (if decides o v then p1 + 11 + len br else p1 + 10) (v :: temps) st1 m1)).
  { eapply (goes_trans P 1 1); [exact (dup_ok x p1 v temps st1 m1 _ C ltac:(change (stack x (v :: temps) st1) with (v :: stack x temps st1); cbn [length]; lia))|].
    pose proof (sc_ok x o _ v (v :: temps) st1 m1 _ _ D2 ltac:(rewrite len_app, len_app, len_op; pose proof (len_nonneg br); pose proof (len_nonneg r); lia)) as Gs.
    replace (if decides o v then p1 + 11 + len br else p1 + 10) with (if decides o v then p1 + 1 + 9 + (1 + len br) else p1 + 1 + 9) by (destruct (decides o v); lia). exact Gs. }
  destruct (decides o v).
  - cbn [ends]. exists m1. split; [eapply goes_le; [exact D|lia]|]. split; [apply same_refl|]. split; [apply grow_refl|exact Iv1].
  - assert (D' : goes 1 (att x p1 (v :: temps) st1 m1) (att x (p1 + 11) temps st1 m1)).
    { eapply goes_le; [eapply goes_trans; [exact D|]|]. { replace (p1 + 1 + 1 + 8) with (p1 + 10) in D4 by lia. pose proof (pop_ok x _ v temps st1 m1 _ D4) as Gp. replace (p1 + 10 + 1) with (p1 + 11) in Gp by lia. exact Gp. } lia. }
    replace (p1 + 1 + 1 + 8 + 1) with (p1 + 11) in D5 by lia.
    eapply (ends_pre 1); [exact D'|(refine (IH2 E x st1 m1 _ temps br _ C2 D5 He1 Iv1 Sm2 S _); eapply room_le; [exact R1|lia])|]. intros a st' Q. eapply (EP_pre 1); [exact D'|apply same_refl|apply grow_refl|exact Q].
Qed.
Lemma ok_tri c a b : e_ok c -> e_ok a -> e_ok b -> e_ok (FTri c a b).
Proof.
  intros IH1 IH2 IH3 E x st m pc temps bs r (bc & bm & br & C1 & C2 & C3 & ->) C He Iv Sm S R. cbn [eval_e eval_args exec_s small_e fneed_e] in *. apply andb_true_iff in Sm. destruct Sm as (Sm & Sm3). apply andb_true_iff in Sm. destruct Sm as (Sm1 & Sm2). rewrite <- !app_assoc in C.
  eapply ends_bind; [(refine (IH1 E x st m pc temps bc _ C1 C He Iv Sm1 S _); eapply room_le; [exact R|lia])|]. intros v st1 (m1 & Go & Sa & Gr & Iv1). after Go Sa Gr. apply code_at_r in C.
  pose proof (room_same _ _ _ _ _ _ R Sa) as R1. pose proof (here_same _ _ _ _ _ _ He Sa Gr) as He1.
  replace (pc + len (bc ++ op O_BRF_8 ++ enc8 (len bm + 9) ++ bm ++ op O_BR_8 ++ enc8 (len br) ++ br)) with (pc + len bc + 18 + len bm + len br) by (rewrite !len_app, !len_op, !len_enc8; lia).
  set (p1 := pc + len bc) in *. pose proof (len_nonneg bm). pose proof (len_nonneg br). pose proof (len_nonneg r).
  pose proof (brf_ok x p1 v temps st1 m1 _ _ C ltac:(rewrite !len_app, !len_op, !len_enc8; lia)) as Gb.
  pose proof (code_at_r P _ _ _ (code_at_r P _ _ _ C)) as D2. rewrite len_op, len_enc8 in D2. pose proof (code_at_r P _ _ _ D2) as D3. pose proof (code_at_r P _ _ _ (code_at_r P _ _ _ D3)) as D4. rewrite len_op, len_enc8 in D4.
  eapply (ends_pre 1); [exact Gb| |intros ? ? Q; eapply (EP_pre 1); [exact Gb|apply same_refl|apply grow_refl|exact Q]]. destruct (is_falsey v).
  - replace (p1 + 9 + (len bm + 9)) with (p1 + len bm + 18) by lia. replace (p1 + 18 + len bm + len br) with (p1 + len bm + 18 + len br) by lia. replace (p1 + 1 + 8 + len bm + 1 + 8) with (p1 + len bm + 18) in D4 by lia.
    (refine (IH3 E x st1 m1 _ temps br _ C3 D4 He1 Iv1 Sm3 S _); eapply room_le; [exact R1|lia]).
  - replace (p1 + 1 + 8) with (p1 + 9) in * by lia.
    eapply ends_imp; [(refine (IH2 E x st1 m1 _ temps bm _ C2 D2 He1 Iv1 Sm2 S _); eapply room_le; [exact R1|lia])|]. intros u st2 (m2 & Go2 & Sa2 & Gr2 & Iv2). exists m2. split; [|auto].
    eapply goes_le; [eapply goes_trans; [exact Go2|]|]; [|instantiate (1 := 1%nat); lia]. pose proof (br_ok x _ (u :: temps) st2 m2 _ _ D3 ltac:(eapply code_in; [exact D3|rewrite !len_app; lia])) as Gj.
    replace (p1 + 18 + len bm + len br) with (p1 + 9 + len bm + 9 + len br) by lia. exact Gj.
Qed.
Lemma ok_call f args : e_ok f -> a_ok args -> e_ok (FCall f args).
Proof.
  intros IHf IHa E x st m pc temps bs r (k & bf & ba & Hk & C1 & C2 & ->) C He Iv Sm S R. cbn [eval_e eval_args exec_s small_e fneed_e] in *. apply andb_true_iff in Sm. destruct Sm as (Sm1 & Sm2). rewrite <- !app_assoc in C.
  eapply ends_bind; [(refine (IHf E x st m pc temps bf _ C1 C He Iv Sm1 S _); eapply room_le; [exact R|lia])|]. intros v st1 (m1 & Go & Sa & Gr & Iv1). after Go Sa Gr. apply code_at_r in C.
  pose proof (room_same _ _ _ _ _ _ R Sa) as R1. pose proof (here_same _ _ _ _ _ _ He Sa Gr) as He1.
  replace (pc + len (bf ++ op O_INIT_CALL ++ [k mod 256] ++ ba ++ op O_CALL)) with (pc + len bf + 2 + len ba + 1) by (rewrite !len_app, !len_op; unfold len; cbn [length]; lia).
  destruct (callable v) eqn:Cv; [|exact I]. set (p1 := pc + len bf) in *.
  set (fr := CF (p1 + 2) (x_fp x) (x_nfp x) (-1) k). set (x' := Cx (x_fp x) (x_base x) (fr :: x_frs x) (Z.of_nat (length (stack x temps st1)))).
  assert (Gi : goes 1 (att x p1 (v :: temps) st1 m1) (att x' (p1 + 2) (v :: temps) st1 m1)).
  { eapply op_goes; [exact C|]. cbn [VM.exec]. pose proof (code_at_r P _ _ _ C) as D. rewrite len_op in D. erewrite rd1_at by (cbn [att set_pc v_pc]; exact D).
    assert (Sk : schar (k mod 256) = k) by (destruct Hk as [->| ->]; reflexivity). rewrite Sk. unfold init_call. cbn [att set_pc v_stk stack app].
    assert (FR : (Z.of_nat (length (x_frs x)) >=? NUM_FRAMES) = false). { destruct R1 as (R1 & R2). pose proof (DM_pos). unfold NUM_FRAMES. destruct (Z.geb_spec (Z.of_nat (length (x_frs x))) 1000); [lia|reflexivity]. }
    assert (X : forall s : vstate, v_frames s = x_frs x -> (Z.of_nat (length (v_frames s)) >=? NUM_FRAMES) = false) by (intros s ->; exact FR).
    destruct v; try discriminate; rewrite X by reflexivity; unfold att, stack, set_frames, set_pc, sp, x', fr; cbn [v_pc v_stk v_fp v_gl v_out v_loops v_frames v_next_fp v_upv v_pending v_clo x_fp x_base x_frs x_nfp app length];
      rewrite Nat2Z.inj_succ; unfold stack, Z.succ; rewrite Z.add_simpl_r; replace (p1 + 1 + 1) with (p1 + 2) by lia; reflexivity. }
  eapply (ends_pre 1); [exact Gi| |intros ? ? Q; eapply (EP_pre 1); [exact Gi|apply same_refl|apply grow_refl|exact Q]].
  assert (He' : here E x' st1 m1) by exact He1.
  pose proof (code_at_r P _ _ _ (code_at_r P _ _ _ C)) as D2. rewrite len_op in D2. change (len [k mod 256]) with 1 in D2. replace (p1 + 1 + 1) with (p1 + 2) in D2 by lia.
  assert (R' : room E x' st1 (v :: temps) (fneed_args args)). { destruct R1 as (R1 & R2). split; rewrite hgt_cons; change (hgt E x' st1 temps) with (hgt E x st1 temps); [lia|]. unfold x'. cbn [x_frs length]. lia. }
  eapply ends_bind; [exact (IHa E x' st1 m1 _ (v :: temps) ba _ C2 D2 He' Iv1 Sm2 S R')|]. intros vs st2 (m2 & Go2 & Sa2 & Gr2 & Iv2). pose proof (code_at_r P _ _ _ D2) as D3.
  set (below := temps ++ vals (s_loc st2) ++ x_base x).
  assert (He2 : here E x st2 m2) by (eapply here_same; eassumption). pose proof (here_hgt _ _ _ _ temps He2) as H2. pose proof (here_hgt _ _ _ _ temps He1) as H1. rewrite (hgt_same _ _ _ _ _ Sa2) in H2.
  assert (Lb : Z.of_nat (length below) + Z.of_nat (length (s_file st2)) = hgt E x st1 temps) by (rewrite <- H2; unfold below, stack; rewrite !app_length, map_length; lia).
  assert (Ec : att x' (p1 + 2 + len ba) (rev vs ++ v :: temps) st2 m2 = call_at v vs below (p1 + 2 + len ba) (x_fp x) fr (x_frs x) st2 m2).
  { unfold att, call_at, x', stack, below. cbn [x_fp x_base x_frs x_nfp]. rewrite <- !app_assoc. cbn [app]. f_equal. unfold stack in H1. rewrite H1, <- Lb. reflexivity. }
  rewrite Ec in Go2. destruct R1 as (R1 & R2).
  eapply (ends_pre 0); [exact Go2|eapply Hcall; [exact D3|exact Cv|exact Iv2|split; [exact Hk|reflexivity]|lia|lia]|].
  intros u st3 (m3 & Go3 & L3 & S3 & F3 & Gr3 & Iv3). exists m3. split; [|split; [|split; [eapply grow_trans; eassumption|exact Iv3]]].
  - assert (Er : ret_at u below (p1 + 2 + len ba + 1) fr (x_frs x) st3 m3 = att x (p1 + 2 + len ba + 1) (u :: temps) st3 m3).
    { unfold ret_at, att, stack. cbn [x_fp x_base x_frs x_nfp fr f_prev_fp f_curr_fp]. rewrite L3. unfold below. rewrite <- !app_assoc. cbn [app]. reflexivity. }
    rewrite Er in Go3. eapply goes_le; [eapply goes_trans; [exact Go2|exact Go3]|]. lia.
  - eapply same_trans; [exact Sa2|]. split; [exact S3|]. split; [rewrite L3; reflexivity|exact F3].
Qed.

Lemma sees_agree E x st m : here E x st m -> (sees_here st <= length (s_file st))%nat /\ agree1 0 (fscope E) (oldest (sees_here st) (s_file st)).
Proof.
  unfold sees_here. destruct E as [ss|U ss F]; cbn [here fscope].
  - intros (A & _ & _ & D). rewrite A, oldest_all. split; [lia|]. eapply agree_last. exact D.
  - intros (cv & b & k & A & B & C & D & H1 & H2 & _). rewrite B. auto.
Qed.
Lemma ok_fn l ps b : e_ok (FFn l ps b).
Proof.
  intros E x st m pc temps bs r C1 C He Iv Sm S R. cbn [code_e code_args code_s eval_e eval_args exec_s small_e fneed_e] in *. apply andb_true_iff in Sm. destruct Sm as (Sm1 & Sm2).
  destruct (here_bounded _ _ _ _ He S) as (Bd & LF). pose proof (room_stack _ _ _ _ _ _ R He) as RS.
  destruct (fn_runs E (fscope E) l ps b _ x st m pc bs r temps C C1 (capturable_here _ _ _ _ temps He) Bd LF Iv ltac:(lia)) as (m' & U & bb & Go & Gr & A1 & A2 & A3 & A4 & A5 & A6).
  unfold make_fn. cbn [ends]. exists m'. split; [exact Go|]. split; [repeat split|]. split; [exact Gr|]. destruct (sees_agree _ _ _ _ He) as (Se & Ag).
  eapply (made_Inv st m m' _ l ps b); try eassumption; try reflexivity; cbn [s_file]; auto.
Qed.
Lemma ok_fndecl k y l ps b : s_ok (FFnDecl k y l ps b).
Proof.
  intros E x st m pc bs r (Fr & C1) C He Iv Sm Ne Pk R Fm. cbn [eval_e eval_args exec_s small_s fneed fpeak] in *. apply andb_true_iff in Sm. destruct Sm as (Sm1 & Sm2).
  pose proof (scope_len_nonneg (sc E)) as SN. pose proof (room_stack _ _ _ _ _ _ R He) as RS.
  destruct (declare_here E x st m y k VUndef pc He Fr) as (st0 & _ & _ & He0 & _).
  assert (SL : scope_len (sc (s_decl E y k)) = scope_len (sc E) + 1) by (unfold s_decl; rewrite sc_set; apply scope_len_decl; exact Ne).
  destruct (here_bounded _ _ _ _ He0 ltac:(lia)) as (Bd & LF).
  assert (Ca : capturable (s_decl E y k) (fscope (s_decl E y k)) (x_fp x) (stack x [] st) (m_clo m) (m_upv m)).
  { pose proof (capturable_here _ _ _ _ [] He) as Q. destruct E as [ss|U ss F]; cbn [capturable fscope s_decl set_sc] in *; [destruct Q; auto|exact Q]. }
  destruct (fn_runs _ _ l ps b _ x st m pc bs r [] C C1 Ca Bd LF Iv ltac:(lia)) as (m' & U & bb & Go & Gr & A1 & A2 & A3 & A4 & A5 & A6).
  cbn [make_fn]. unfold make_fn. fold (fn_value kind st l). fold (fn_next kind st l).
  match goal with |- context [f_declare ?s y k _] => set (st2 := s) end.
  assert (Sa : same st st2) by (repeat split). destruct (declare_here E x st2 m' y k (fn_value kind st l) (pc + len bs) (here_same _ _ _ _ _ _ He Sa Gr) Fr) as (st3 & D1 & D2 & D3 & D4 & D5 & D6 & D7 & D8).
  rewrite D1. cbn [f_legal ends SP]. exists m'. split; [rewrite <- D2; eapply goes_le; [exact Go|lia]|]. split; [exact D3|]. split; [exact Gr|]. split; [|exact D4].
  destruct (sees_agree _ _ _ _ D3) as (Se & Ag).
  assert (Es : match s_loc st with [] => match s_sees st with None => S (length (s_file st)) | Some _ => sees_here st end | _ => sees_here st end = sees_here st3).
  { unfold sees_here. rewrite D7, D8. unfold st2. cbn [s_loc s_sees s_file]. destruct (s_loc st); destruct (s_sees st); reflexivity. }
  eapply (made_Inv st m m' st3 l ps b (fscope (s_decl E y k)) U bb pc (sees_here st3)); try eassumption; try (rewrite D5; unfold st2; cbn [s_fun]; rewrite <- Es; reflexivity).
  - rewrite D8. unfold st2. cbn [s_loc s_sees s_file]. destruct (s_loc st); destruct (s_sees st); cbn [length]; lia.
  - intros i Hi. rewrite D8. unfold st2. cbn [s_loc s_sees s_file]. destruct (s_loc st); destruct (s_sees st); try reflexivity. rewrite oldest_cons by exact Hi. reflexivity.
Qed.

Lemma quiet_read E x st m y : here E x st m -> c_known G E y -> exists v, f_read h st y = Some v.
Proof.
  intros He Kn. assert (GL : assoc G y <> None -> exists v, match h_decl h y with Some _ => Some (match s_gl st y with Some v => v | None => VEnd end) | None => None end = Some v).
  { intros N. rewrite HG. destruct (assoc G y); [cbn [option_map]; eauto|congruence]. }
  unfold f_read. destruct (find_var (s_loc st) y) as [(k0 & v)|] eqn:Fv; [eauto|]. destruct (lookup (seen st) y) as [(k0 & v)|] eqn:Lk; [eauto|]. apply GL.
  unfold seen, unseen in Lk. unfold c_known in Kn. destruct E as [ss|U ss F]; cbn [here sc] in *.
  - destruct He as (A & _ & _ & D). rewrite A in Lk. cbn [skipn] in Lk. pose proof (get_var _ y _ D) as Q. rewrite find_var_app, Fv, Lk in Q.
    destruct Kn as [Kn|[[]|Kn]]; [|exact Kn]. destruct (scope_get ss y); [|congruence]. destruct Q as (k0 & v & i & Q & _). discriminate.
  - destruct He as (cv & b & i & A & B & C & D & H1 & H2 & _). rewrite B in Lk. pose proof (get_var _ y _ H1) as Q. rewrite Fv in Q. pose proof (assoc1 0 F y _ ltac:(lia) H2) as Q2. unfold oldest in Q2. rewrite Lk in Q2.
    destruct Kn as [Kn|[Kn|Kn]]; [| |exact Kn].
    + destruct (scope_get ss y); [|congruence]. destruct Q as (k0 & v & j & Q & _). discriminate.
    + destruct (assoc F y); [|congruence]. destruct Q2 as (k0 & v & j & Q2 & _). discriminate.
Qed.
Lemma quiet_eval E x st m e : here E x st m -> fquiet e = true -> match e with FVar y => c_known G E y | _ => True end -> exists v, eval_e h kind n call e st = Fn.RVal v st.
Proof.
  intros He Q Kn. destruct e; try discriminate; cbn [eval_e]; eauto. destruct (quiet_read _ _ _ _ _ He Kn) as (v & ->). eauto.
Qed.
Ltac sfter Go Sa Gr := eapply (ends_pre 1); [exact Go| |let Q := fresh in intros ? ? Q; eapply (SP_pre 1); [exact Go|apply kept_same; exact Sa|exact Gr|exact Q]].
Lemma s_after_none E s : fafter (sc E) s = sc E -> s_after E s = E.
Proof. intros H. unfold s_after. rewrite H. apply set_sc_id. Qed.
Lemma fpeak_ge s : forall k, (k + fdecls s <= fpeak k s)%nat.
Proof.
  induction s; intros k0; cbn [fdecls fpeak]; try lia.
  - specialize (IHs2 (k0 + fdecls s1)%nat). lia.
  - specialize (IHs k0). lia.
  - specialize (IHs k0). lia.
  - specialize (IHs1 k0). specialize (IHs2 k0). lia.
  - specialize (IHs k0). lia.
Qed.
Lemma peak_sc E s : Z.of_nat (fpeak (Z.to_nat (scope_len (sc E))) s) <= 128 -> scope_len (sc E) <= 128.
Proof. pose proof (fpeak_ge s (Z.to_nat (scope_len (sc E)))). pose proof (scope_len_nonneg (sc E)). lia. Qed.
Lemma ok_expr e : e_ok e -> s_ok (FExpr e).
Proof.
  intros IH E x st m pc bs r C1 C He Iv Sm Ne Pk R Fm. change (exec_s h kind n call (FExpr e) st) with (rbind (eval_e h kind n call e st) (fun _ st => Fn.RVal (@None value) st)). cbn [code_e code_args code_s small_s fneed fpeak] in *. rewrite s_after_none by reflexivity. destruct (fquiet e) eqn:Q.
  - destruct C1 as (-> & Kn). destruct (quiet_eval _ _ _ _ _ He Q Kn) as (v & Ev). rewrite Ev. cbn [rbind ends SP]. exists m. change (len []) with 0. rewrite Z.add_0_r. split; [apply goes_refl|]. split; [exact He|]. split; [apply grow_refl|]. split; [exact Iv|apply kept_refl].
  - destruct C1 as (b1 & C1 & ->). rewrite <- app_assoc in C. eapply ends_bind; [refine (IH E x st m pc [] b1 _ C1 C He Iv Sm _ R); lia|]. intros v st1 (m1 & Go & Sa & Gr & Iv1). apply code_at_r in C.
    cbn [ends SP]. exists m1. split; [|split; [eapply here_same; eassumption|split; [exact Gr|split; [exact Iv1|apply kept_same; exact Sa]]]].
    eapply goes_le; [eapply goes_trans; [exact Go|]|]; [|instantiate (1 := 1%nat); lia]. rewrite len_app, len_op, Z.add_assoc. exact (pop_ok x _ v [] st1 m1 _ C).
Qed.
Lemma ok_let k y e : e_ok e -> s_ok (FLet k y e).
Proof.
  intros IH E x st m pc bs r (Fr & C1) C He Iv Sm Ne Pk R Fm. cbn [eval_e eval_args exec_s small_s fneed fpeak] in *.
  eapply ends_bind; [refine (IH E x st m pc [] bs _ C1 C He Iv Sm _ R); lia|]. intros v st1 (m1 & Go & Sa & Gr & Iv1).
  pose proof (here_same _ _ _ _ _ _ He Sa Gr) as He1. destruct (declare_here E x st1 m1 y k v (pc + len bs) He1 Fr) as (st3 & D1 & D2 & D3 & D4 & D5 & D6 & D7 & D8).
  rewrite D1. cbn [f_legal ends SP]. exists m1. split; [rewrite <- D2; eapply goes_le; [exact Go|lia]|]. split; [exact D3|]. split; [exact Gr|]. split; [|eapply kept_trans; [apply kept_same; exact Sa|exact D4]].
  eapply Inv_declared; eassumption.
Qed.
Lemma ok_assign y e : e_ok e -> s_ok (FAssign y e).
Proof.
  intros IH E x st m pc bs r (b1 & b2 & C1 & C2 & ->) C He Iv Sm Ne Pk R Fm. cbn [eval_e eval_args exec_s small_s fneed fpeak] in *. rewrite s_after_none by reflexivity. rewrite <- app_assoc in C.
  assert (S : scope_len (sc E) <= 128) by lia.
  eapply ends_bind; [exact (IH E x st m pc [] b1 _ C1 C He Iv Sm S R)|]. intros v st1 (m1 & Go & Sa & Gr & Iv1).
  pose proof (here_same _ _ _ _ _ _ He Sa Gr) as He1. apply code_at_r in C. destruct (store_ok E x st1 m1 y v _ [] b2 r He1 C2 C S) as (st2 & W & G2 & Sa2 & F1 & F2).
  rewrite W. cbn [f_legal ends SP]. exists m1. split; [rewrite len_app, Z.add_assoc; eapply goes_le; [eapply goes_trans; [exact Go|exact G2]|lia]|]. split; [eapply here_same; [exact He1|exact Sa2|apply grow_refl]|]. split; [exact Gr|].
  split; [|eapply kept_trans; apply kept_same; eassumption]. eapply Inv_state; [exact Iv1|exact F1|exact F2|apply Sa2].
Qed.
Lemma ok_echo e : e_ok e -> s_ok (FEcho e).
Proof.
  intros IH E x st m pc bs r (b1 & C1 & ->) C He Iv Sm Ne Pk R Fm. cbn [eval_e eval_args exec_s small_s fneed fpeak] in *. rewrite s_after_none by reflexivity. rewrite <- !app_assoc in C.
  eapply ends_bind; [refine (IH E x st m pc [] b1 _ C1 C He Iv Sm _ R); lia|]. intros v st1 (m1 & Go & Sa & Gr & Iv1). apply code_at_r in C.
  assert (X : VM.exec P O_ECHO (set_pc (att x (pc + len b1) [v] st1 m1) (pc + len b1 + 1)) = lift (att x (pc + len b1 + 1 + 1) [] st1 m1) (w_tostr (h_world h) v) (fun t => Next (att x (pc + len b1 + 1 + 1) [] (set_fout st1 (s_out st1 ++ shown t)) m1))).
  { cbn [VM.exec]. erewrite rd1_at by (apply (code_at_r P _ _ _ C)). rewrite Hw. reflexivity. }
  destruct (w_tostr (h_world h) v) as [t|er| |]; cbn [lift ends SP] in *.
  - exists m1. split; [|split; [eapply here_same; [exact He| |exact Gr]; destruct Sa as (S1 & S2 & S3); repeat split; assumption|split; [exact Gr|split; [exact Iv1|apply kept_same; destruct Sa as (S1 & S2 & S3); repeat split; assumption]]]].
    replace (pc + len (b1 ++ op O_ECHO ++ [scope_len (sc E) mod 256])) with (pc + len b1 + 1 + 1) by (rewrite !len_app, len_op; unfold len; cbn [length]; lia).
    eapply goes_le; [eapply goes_trans; [exact Go|eapply op_goes; [exact C|exact X]]|lia].
  - eapply goes_halts; [exact Go|exact (op_halts P (att x (pc + len b1) [v] st1 m1) _ _ _ _ C X)].
  - eapply goes_halts; [exact Go|exact (op_halts P (att x (pc + len b1) [v] st1 m1) _ _ _ _ C X)].
  - eapply goes_halts; [exact Go|exact (op_halts P (att x (pc + len b1) [v] st1 m1) _ _ _ _ C X)].
Qed.
Lemma ok_assert e : e_ok e -> s_ok (FAssert e).
Proof.
  intros IH E x st m pc bs r (b1 & C1 & ->) C He Iv Sm Ne Pk R Fm. cbn [eval_e eval_args exec_s small_s fneed fpeak] in *. rewrite s_after_none by reflexivity. rewrite <- !app_assoc in C.
  eapply ends_bind; [refine (IH E x st m pc [] b1 _ C1 C He Iv Sm _ R); lia|]. intros v st1 (m1 & Go & Sa & Gr & Iv1). apply code_at_r in C.
  assert (X : VM.exec P O_ASS (set_pc (att x (pc + len b1) [v] st1 m1) (pc + len b1 + 1)) = if is_falsey v then lift (att x (pc + len b1 + 1) [] st1 m1) (w_tostr (h_world h) v) (fun _ => Stop (Err EAssert) (att x (pc + len b1 + 1) [] st1 m1)) else Next (att x (pc + len b1 + 1) [] st1 m1)).
  { cbn [VM.exec]. rewrite Hw. reflexivity. }
  destruct (is_falsey v).
  - destruct (w_tostr (h_world h) v) as [t|er| |]; cbn [lift ends SP] in *; (eapply goes_halts; [exact Go|exact (op_halts P (att x (pc + len b1) [v] st1 m1) _ _ _ _ C X)]).
  - cbn [ends SP]. exists m1. split; [|split; [eapply here_same; eassumption|split; [exact Gr|split; [exact Iv1|apply kept_same; exact Sa]]]].
    rewrite len_app, len_op, Z.add_assoc. eapply goes_le; [eapply goes_trans; [exact Go|eapply op_goes; [exact C|exact X]]|lia].
Qed.
Lemma ret_ok pc k v mid cv b fr frs nfp st m r : code_at pc (op O_RET ++ [k mod 256] ++ r) -> k = Z.of_nat (length mid) -> k < 256 -> one_result fr -> Z.of_nat (length b) + Z.of_nat (length (s_file st)) + 1 <= 1024 ->
  goes 1 (VS pc (v :: mid ++ cv :: b ++ map bval (s_file st)) (Z.of_nat (length b) + Z.of_nat (length (s_file st))) (s_gl st) (s_out st) [] (fr :: frs) nfp (m_upv m) (m_pend m) (m_clo m)) (ret_at v b (f_pc fr) fr frs st m).
Proof.
  intros C -> Lk (Nr & Lp) R. eapply op_goes; [exact C|]. cbn [VM.exec]. erewrite rd1_at by (apply (code_at_r P _ _ _ C)). rewrite Z.mod_small by lia.
  match goal with |- exitframe ?s _ = _ => destruct (exitframe_ok s [v] mid cv (b ++ map bval (s_file st)) fr frs [] []) as (s' & X & Y1 & Y2 & Y3 & Y4 & Y5 & Y6 & Y7 & Y8 & Y9 & Y10 & Y11) end.
  - reflexivity.
  - cbn. rewrite app_length, map_length. lia.
  - reflexivity.
  - reflexivity.
  - exact Lp.
  - rewrite app_length, map_length. destruct Nr as [-> | ->]; lia.
  - rewrite X. f_equal. replace (delivered (f_nret fr) [v]) with [v] in Y1 by (destruct Nr as [-> | ->]; reflexivity). unfold ret_at. destruct s'. cbn in *. congruence.
Qed.
Lemma ok_return e : e_ok e -> s_ok (FReturn e).
Proof.
  intros IH E x st m pc bs r (b1 & C1 & InF & ->) C He Iv Sm Ne Pk R Fm. cbn [eval_e eval_args exec_s small_s fneed fpeak] in *. rewrite <- !app_assoc in C. destruct E as [ss|U ss F]; [contradiction|]. destruct Fm as (fr & frs & Ef & Or).
  pose proof He as (_ & _ & n0 & _ & Sn & _). rewrite Sn.
  eapply ends_bind; [refine (IH _ x st m pc [] b1 _ C1 C He Iv Sm _ R); lia|]. intros v st1 (m1 & Go & Sa & Gr & Iv1). apply code_at_r in C.
  pose proof (here_same _ _ _ _ _ _ He Sa Gr) as He1. pose proof (room_stack _ _ _ _ _ _ (room_same _ _ _ _ _ _ R Sa) He1) as RS. destruct He1 as (cv & b & i & A & B & Ln & D & Ag & _).
  cbn [ends SP]. exists m1, fr, frs, cv, b. split; [exact Ef|]. split; [exact A|]. split; [|split; [exact Gr|split; [exact Iv1|apply (kept_same (SFun U ss F)); exact Sa]]].
  eapply goes_le; [eapply goes_trans; [exact Go|]|]; [|instantiate (1 := 1%nat); lia]. pose proof (agree_length _ _ Ag) as LA. cbn [sc] in *. pose proof (scope_len_nonneg ss).
  pose proof (ret_ok (pc + len b1) _ v (vals (s_loc st1)) cv b fr frs (x_nfp x) st1 m1 r C ltac:(lia) ltac:(lia) Or) as Q. unfold att, stack. rewrite A, D, Ef. cbn [app]. apply Q.
  unfold stack in RS. rewrite !app_length, map_length, A in RS. cbn [length] in RS. lia.
Qed.
Lemma ok_seq a b : s_ok a -> s_ok b -> s_ok (FSeq a b).
Proof.
  intros IHa IHb E x st m pc bs r (b1 & b2 & C1 & C2 & ->) C He Iv Sm Ne Pk R Fm. cbn [eval_e eval_args exec_s small_s fneed fpeak] in *. rewrite <- app_assoc in C. apply andb_true_iff in Sm. destruct Sm as (Sm1 & Sm2).
  pose proof (scope_len_nonneg (sc E)) as SN. assert (SL : scope_len (sc (s_after E a)) = scope_len (sc E) + Z.of_nat (fdecls a)) by (unfold s_after; rewrite sc_set; apply fafter_len; exact Ne).
  eapply ends_bind; [refine (IHa E x st m pc b1 _ C1 C He Iv Sm1 Ne _ _ Fm); [lia|eapply room_le; [exact R|lia]]|]. apply code_at_r in C.
  intros [u|] st1 Q; cbn [SP] in Q.
  - cbn [ends SP]. exact Q.
  - destruct Q as (m1 & Go & He1 & Gr & Iv1 & Kp).
    assert (E2 : s_after (s_after E a) b = s_after E (FSeq a b)) by (unfold s_after; rewrite sc_set, set_set; reflexivity).
    assert (H1 : hgt (s_after E a) x st1 [] = hgt E x st [] + Z.of_nat (fdecls a)).
    { unfold hgt. rewrite SL. destruct E; cbn [s_after set_sc kept] in *; [lia|]. rewrite (shape_length _ _ Kp). lia. }
    rewrite len_app, Z.add_assoc, <- E2. eapply (ends_pre 0); [exact Go|refine (IHb (s_after E a) x st1 m1 _ b2 r C2 C He1 Iv1 Sm2 _ _ _ _)|].
    + unfold s_after. rewrite sc_set. apply fafter_nonempty. exact Ne.
    + rewrite SL. replace (Z.to_nat (scope_len (sc E) + Z.of_nat (fdecls a))) with (Z.to_nat (scope_len (sc E)) + fdecls a)%nat by lia. lia.
    + destruct R as (R1 & R2). split; rewrite H1; lia.
    + destruct E; exact Fm.
    + intros o st' Q. assert (Q' : SP E (s_after (s_after E a) b) x (pc + len b1 + len b2) st1 m1 (att x (pc + len b1) [] st1 m1) o st') by (destruct o; destruct E; exact Q). eapply (SP_pre 0); [exact Go|exact Kp|exact Gr|exact Q'].
Qed.

Lemma SP_leave E x pc st m s u st' : SP (s_in E) (s_in E) x pc (f_enter st) m s (Some u) st' -> SP E E x pc st m s (Some u) (f_leave st').
Proof. destruct E; cbn [SP s_in set_sc]; [tauto|]. intros (m' & fr & frs & cv & b & A1 & A2 & A3 & A4 & A5 & A6). exists m', fr, frs, cv, b. auto 10. Qed.
Lemma framed_sc E ss x : framed E x -> framed (set_sc E ss) x.
Proof. destruct E; auto. Qed.
Lemma hgt_enter E x st : hgt (s_in E) x (f_enter st) [] = hgt E x st [].
Proof. destruct E; reflexivity. Qed.
Lemma ok_in b : s_ok b -> forall E x st m pc q r, code_s K kind G (s_in E) pc b q -> code_at pc ((q ++ bpops E b) ++ r) -> here E x st m -> Inv st m -> small_s M b = true ->
  sc E <> [] -> Z.of_nat (fpeak (Z.to_nat (scope_len (sc E))) b) <= 128 -> room E x st [] (fneed b) -> framed E x ->
  ends (att x pc [] st m) (f_leaving (exec_s h kind n call b (f_enter st))) n (SP E E x (pc + len (q ++ bpops E b)) st m (att x pc [] st m)).
Proof.
  intros IH E x st m pc q r C1 C He Iv Sm Ne Pk R Fm. rewrite <- app_assoc in C. unfold f_leaving.
  change (att x pc [] st m) with (att x pc [] (f_enter st) m).
  assert (E1 : sc (s_in E) = [] :: sc E) by (unfold s_in; apply sc_set).
  eapply ends_bind; [refine (IH (s_in E) x (f_enter st) m pc q _ C1 C (here_enter _ _ _ _ He) Iv Sm _ _ _ (framed_sc _ _ _ Fm))|].
  - rewrite E1. discriminate.
  - rewrite E1. exact Pk.
  - destruct R as (R1 & R2). split; rewrite hgt_enter; assumption.
  - intros [u|] st1 Q; cbn [ends].
    + apply (SP_leave E). destruct E; exact Q.
    + destruct Q as (m1 & Go & He1 & Gr & Iv1 & Kp). apply code_at_r in C. destruct (leave_ok E x st1 m1 b _ _ Ne He1 Iv1 C) as (Gl & Hl & Il). cbn [SP]. exists m1.
      split; [rewrite len_app, Z.add_assoc; exact (goes_trans P 0 0 _ _ _ Go Gl)|]. split; [exact Hl|]. split; [exact Gr|]. split; [exact Il|]. destruct E; exact Kp.
Qed.
Lemma ok_block b : s_ok b -> s_ok (FBlock b).
Proof.
  intros IH E x st m pc bs r (b1 & C1 & ->) C He Iv Sm Ne Pk R Fm. cbn [small_s fneed fpeak] in *. rewrite s_after_none by reflexivity. exact (ok_in b IH E x st m pc b1 r C1 C He Iv Sm Ne Pk R Fm).
Qed.
Lemma truthy_eval e st : f_truthy e = true -> exists v, eval_e h kind n call e st = Fn.RVal v st /\ is_falsey v = false.
Proof. intros T. destruct e; try discriminate; cbn in *; [subst|]; eauto. Qed.
Lemma falsey_eval e st : f_falsey e = true -> exists v, eval_e h kind n call e st = Fn.RVal v st /\ is_falsey v = true.
Proof. intros T. destruct e; try discriminate; cbn in *; [eauto|]. destruct b; [discriminate|]. eauto. Qed.
Lemma SP_done E x pc st m : here E x st m -> Inv st m -> SP E E x pc st m (att x pc [] st m) None st.
Proof. intros He Iv. cbn [SP]. exists m. split; [apply goes_refl|]. split; [exact He|]. split; [apply grow_refl|]. split; [exact Iv|apply kept_refl]. Qed.
Lemma exec_if c a st : exec_s h kind n call (FIf c a) st = rbind (eval_e h kind n call c st) (fun v st => if is_falsey v then Fn.RVal None st else f_leaving (exec_s h kind n call a (f_enter st))).
Proof. reflexivity. Qed.
Lemma exec_ifelse c a b st : exec_s h kind n call (FIfElse c a b) st = rbind (eval_e h kind n call c st) (fun v st => f_leaving (if is_falsey v then exec_s h kind n call b (f_enter st) else exec_s h kind n call a (f_enter st))).
Proof. reflexivity. Qed.
Lemma ok_if c a : e_ok c -> s_ok a -> s_ok (FIf c a).
Proof.
  intros IHc IHa E x st m pc bs r C1 C He Iv Sm Ne Pk R Fm. rewrite exec_if. cbn [code_e code_args code_s small_s fneed fpeak] in *. rewrite s_after_none by reflexivity. apply andb_true_iff in Sm. destruct Sm as (Sm1 & Sm2).
  destruct (f_truthy c) eqn:T; [|destruct (f_falsey c) eqn:Fl].
  - destruct C1 as (b1 & C1 & ->). destruct (truthy_eval c st T) as (v & -> & Fv). cbn [rbind]. rewrite Fv. refine (ok_in a IHa E x st m pc b1 r C1 C He Iv Sm2 Ne Pk _ Fm). eapply room_le; [exact R|lia].
  - subst bs. destruct (falsey_eval c st Fl) as (v & -> & Fv). cbn [rbind]. rewrite Fv. cbn [ends]. change (len []) with 0. rewrite Z.add_0_r. apply SP_done; assumption.
  - destruct C1 as (bc & b1 & C1 & C2 & ->). rewrite <- !app_assoc in C. pose proof (peak_sc _ _ Pk) as S.
    eapply ends_bind; [refine (IHc E x st m pc [] bc _ C1 C He Iv Sm1 S _); eapply room_le; [exact R|lia]|]. intros v st1 (m1 & Go & Sa & Gr & Iv1). apply code_at_r in C. sfter Go Sa Gr.
    pose proof (room_same _ _ _ _ _ _ R Sa) as R1. pose proof (here_same _ _ _ _ _ _ He Sa Gr) as He1. set (p1 := pc + len bc) in *.
    assert (EL : pc + len (bc ++ op O_BRF_8 ++ enc8 (len (b1 ++ bpops E a)) ++ b1 ++ bpops E a) = p1 + 9 + len (b1 ++ bpops E a)) by (rewrite !len_app, len_op, len_enc8; unfold p1; lia). rewrite EL.
    pose proof (len_nonneg (b1 ++ bpops E a)). pose proof (len_nonneg r). pose proof (brf_ok x p1 v [] st1 m1 _ _ C) as Gb. specialize (Gb ltac:(rewrite !len_app in *; lia)).
    eapply (ends_pre 1); [exact Gb| |intros ? ? Q; eapply (SP_pre 1); [exact Gb|apply kept_refl|apply grow_refl|exact Q]].
    destruct (is_falsey v); [apply SP_done; assumption|].
    pose proof (code_at_r P _ _ _ (code_at_r P _ _ _ C)) as D. rewrite len_op, len_enc8 in D. replace (p1 + 1 + 8) with (p1 + 9) in D by lia. rewrite app_assoc in D.
    refine (ok_in a IHa E x st1 m1 (p1 + 9) b1 r C2 D He1 Iv1 Sm2 Ne Pk _ Fm). eapply room_le; [exact R1|lia].
Qed.
Lemma ok_ifelse c a b : e_ok c -> s_ok a -> s_ok b -> s_ok (FIfElse c a b).
Proof.
  intros IHc IHa IHb E x st m pc bs r C1 C He Iv Sm Ne Pk R Fm. rewrite exec_ifelse. cbn [code_e code_args code_s small_s fneed fpeak] in *. rewrite s_after_none by reflexivity. apply andb_true_iff in Sm. destruct Sm as (Sm & Sm3). apply andb_true_iff in Sm. destruct Sm as (Sm1 & Sm2).
  destruct (f_truthy c) eqn:T; [|destruct (f_falsey c) eqn:Fl].
  - destruct C1 as (b1 & C1 & ->). destruct (truthy_eval c st T) as (v & -> & Fv). cbn [rbind]. rewrite Fv. refine (ok_in a IHa E x st m pc b1 r C1 C He Iv Sm2 Ne _ _ Fm); [lia|eapply room_le; [exact R|lia]].
  - destruct C1 as (b1 & C1 & ->). destruct (falsey_eval c st Fl) as (v & -> & Fv). cbn [rbind]. rewrite Fv. refine (ok_in b IHb E x st m pc b1 r C1 C He Iv Sm3 Ne _ _ Fm); [lia|eapply room_le; [exact R|lia]].
  - destruct C1 as (bc & q1 & q2 & C1 & C2 & C3 & ->). set (A1 := q1 ++ bpops E a) in *. set (A2 := q2 ++ bpops E b) in *. rewrite <- !app_assoc in C. assert (S : scope_len (sc E) <= 128) by (eapply (peak_sc _ a); lia).
    eapply ends_bind; [refine (IHc E x st m pc [] bc _ C1 C He Iv Sm1 S _); eapply room_le; [exact R|lia]|]. intros v st1 (m1 & Go & Sa & Gr & Iv1). apply code_at_r in C. sfter Go Sa Gr.
    pose proof (room_same _ _ _ _ _ _ R Sa) as R1. pose proof (here_same _ _ _ _ _ _ He Sa Gr) as He1. set (p1 := pc + len bc) in *.
    assert (EL : pc + len (bc ++ op O_BRF_8 ++ enc8 (len A1 + 9) ++ A1 ++ op O_BR_8 ++ enc8 (len A2) ++ A2) = p1 + 18 + len A1 + len A2) by (rewrite !len_app, !len_op, !len_enc8; unfold p1; lia). rewrite EL.
    pose proof (len_nonneg A1). pose proof (len_nonneg A2). pose proof (len_nonneg r). pose proof (brf_ok x p1 v [] st1 m1 _ _ C) as Gb. specialize (Gb ltac:(rewrite !len_app, !len_op, !len_enc8; lia)).
    eapply (ends_pre 1); [exact Gb| |intros ? ? Q; eapply (SP_pre 1); [exact Gb|apply kept_refl|apply grow_refl|exact Q]].
    pose proof (code_at_r P _ _ _ (code_at_r P _ _ _ C)) as D. rewrite len_op, len_enc8 in D. replace (p1 + 1 + 8) with (p1 + 9) in D by lia. pose proof (code_at_r P _ _ _ D) as D2. pose proof (code_at_r P _ _ _ (code_at_r P _ _ _ D2)) as D3. rewrite len_op, len_enc8 in D3.
    destruct (is_falsey v).
    + replace (p1 + 9 + (len A1 + 9)) with (p1 + 9 + len A1 + 9) by lia. replace (p1 + 18 + len A1 + len A2) with (p1 + 9 + len A1 + 9 + len A2) by lia. replace (p1 + 9 + len A1 + 1 + 8) with (p1 + 9 + len A1 + 9) in D3 by lia.
      refine (ok_in b IHb E x st1 m1 _ q2 r C3 D3 He1 Iv1 Sm3 Ne _ _ Fm); [lia|eapply room_le; [exact R1|lia]].
    + eapply ends_imp; [refine (ok_in a IHa E x st1 m1 _ q1 _ C2 D He1 Iv1 Sm2 Ne _ _ Fm); [lia|eapply room_le; [exact R1|lia]]|].
      intros [u|] st2 Q; [destruct E; exact Q|]. destruct Q as (m2 & Go2 & He2 & Gr2 & Iv2 & Kp2). cbn [SP]. exists m2. split; [|auto].
      pose proof (br_ok x _ [] st2 m2 _ _ D2) as Gj. specialize (Gj ltac:(eapply code_in; [exact D2|rewrite !len_app; lia])). replace (p1 + 18 + len A1 + len A2) with (p1 + 9 + len A1 + 9 + len A2) by lia.
      eapply goes_le; [exact (goes_trans P 0 1 _ _ _ Go2 Gj)|lia].
Qed.
Definition wloop (c : fexpr) (b : fstmt) : nat -> fstate -> res (option value) :=
  fix loop (m : nat) (st : fstate) : res (option value) :=
    match m with
    | O => RFuel
    | S m => rbind (eval_e h kind n call c st) (fun v st => if is_falsey v then Fn.RVal None st else
        rbind (f_leaving (exec_s h kind n call b (f_enter st))) (fun r st => match r with None => loop m st | Some v => Fn.RVal (Some v) st end))
    end.
Lemma exec_while c b st : exec_s h kind n call (FWhile c b) st = wloop c b n st.
Proof. reflexivity. Qed.
Lemma ends_le {A} s (r : res A) i j f : ends s r i f -> (j <= i)%nat -> ends s r j f.
Proof. destruct r; cbn [ends]; auto. intros. eapply runs_le; eassumption. Qed.
Lemma ends_step {A} i s s1 (r : res A) k (f g : A -> fstate -> Prop) : goes (S i) s s1 -> ends s1 r k f -> (forall a st, f a st -> g a st) -> ends s r (S k) g.
Proof.
  intros Go. destruct r; cbn [ends]; auto.
  - intros H _. eapply goes_halts; eassumption.
  - intros H _. eapply runs_le; [eapply goes_runs; eassumption|lia].
Qed.
Lemma ok_while c b : e_ok c -> s_ok b -> s_ok (FWhile c b).
Proof.
  intros IHc IHb E x st m pc bs r C1 C He Iv Sm Ne Pk R Fm. rewrite exec_while. cbn [code_e code_args code_s small_s fneed fpeak] in *. rewrite s_after_none by reflexivity. apply andb_true_iff in Sm. destruct Sm as (Sm1 & Sm2).
  destruct (f_falsey c) eqn:Fl.
  - subst bs. change (len []) with 0. rewrite Z.add_0_r. destruct n as [|k0] eqn:En at 1.
    + cbn [wloop ends]. exists 0%nat, (att x pc [] st m). split; [rewrite En; lia|reflexivity].
    + cbn [wloop]. destruct (falsey_eval c st Fl) as (v & -> & Fv). cbn [rbind]. rewrite Fv. cbn [ends]. apply SP_done; assumption.
  - destruct C1 as (bc & q & C1 & C2 & ->). set (A1 := q ++ bpops E b) in *. pose proof (peak_sc _ _ Pk) as S. pose proof C as C0. rewrite <- !app_assoc in C. set (p1 := pc + len bc) in *.
    assert (EL : pc + len (bc ++ op O_BRF_8 ++ enc8 (len A1 + 9) ++ A1 ++ op O_BR_8 ++ enc8 (- (len bc + 9 + len A1 + 9))) = p1 + 18 + len A1) by (rewrite !len_app, !len_op, !len_enc8; unfold p1; lia). rewrite EL. clear EL.
    pose proof (len_nonneg A1) as LA. pose proof (len_nonneg bc) as LB. pose proof (len_nonneg r) as LR.
    pose proof (code_at_r P _ _ _ C) as D0. fold p1 in D0. pose proof (code_at_r P _ _ _ (code_at_r P _ _ _ D0)) as D. rewrite len_op, len_enc8 in D. replace (p1 + 1 + 8) with (p1 + 9) in D by lia. pose proof (code_at_r P _ _ _ D) as D2.
    assert (L : forall j st m, (j <= n)%nat -> here E x st m -> Inv st m -> room E x st [] (Nat.max (fneed_e c) (fneed b)) -> ends (att x pc [] st m) (wloop c b j st) j (SP E E x (p1 + 18 + len A1) st m (att x pc [] st m))).
    { clear m st He Iv R. induction j as [|j IHj]; intros st m Hj He Iv R.
      - cbn [wloop ends]. exists 0%nat, (att x pc [] st m). split; [lia|reflexivity].
      - cbn [wloop]. eapply ends_bind; [eapply ends_le; [refine (IHc E x st m pc [] bc _ C1 C He Iv Sm1 S _); eapply room_le; [exact R|lia]|lia]|]. intros v st1 (m1 & Go & Sa & Gr & Iv1). fold p1 in Go. sfter Go Sa Gr.
        pose proof (room_same _ _ _ _ _ _ R Sa) as R1. pose proof (here_same _ _ _ _ _ _ He Sa Gr) as He1.
        pose proof (brf_ok x p1 v [] st1 m1 _ _ D0) as Gb. specialize (Gb ltac:(rewrite !len_app, !len_op, !len_enc8; lia)).
        eapply (ends_pre 1); [exact Gb| |intros ? ? Q; eapply (SP_pre 1); [exact Gb|apply kept_refl|apply grow_refl|exact Q]].
        destruct (is_falsey v); [replace (p1 + 9 + (len A1 + 9)) with (p1 + 18 + len A1) by lia; apply SP_done; assumption|].
        eapply ends_bind; [eapply ends_le; [refine (ok_in b IHb E x st1 m1 _ q _ C2 D He1 Iv1 Sm2 Ne Pk _ Fm); eapply room_le; [exact R1|lia]|lia]|].
        intros [u|] st2 Q; [cbn [ends]; destruct E; exact Q|]. destruct Q as (m2 & Go2 & He2 & Gr2 & Iv2 & Kp2). fold A1 in Go2.
        assert (Gj : goes 1 (att x (p1 + 9 + len A1) [] st2 m2) (att x pc [] st2 m2)).
        { replace pc with (p1 + 9 + len A1 + 9 + (- (len bc + 9 + len A1 + 9))) by (unfold p1; lia). eapply br_ok; [exact D2|].
          pose proof (code_at_len _ _ _ C) as CL. rewrite !len_app in CL. destruct HKlen. unfold in_i64, int_min, int_max in *. pose proof (len_nonneg (op O_BRF_8)). pose proof (len_nonneg (op O_BR_8)). rewrite !len_enc8, !len_op in CL. lia. }
        pose proof (goes_trans P 0 1 _ _ _ Go2 Gj) as Gk.
        assert (R2 : room E x st2 [] (Nat.max (fneed_e c) (fneed b))). { destruct R1 as (R1 & R1'). unfold room, hgt in *. destruct E; cbn [kept] in *; [split; assumption|]. rewrite (shape_length _ _ Kp2). split; assumption. }
        eapply (ends_step 0); [exact Gk|exact (IHj st2 m2 ltac:(lia) He2 Iv2 R2)|]. intros o st' Q. eapply (SP_pre 1); [exact Gk|exact Kp2|exact Gr2|exact Q]. }
    exact (L n st m ltac:(lia) He Iv R).
Qed.
Lemma all_ok : (forall e, e_ok e) /\ (forall es, a_ok es) /\ (forall s, s_ok s).
Proof.
  apply fn_ind.
  - intros E x st m pc temps bs r C1 C He Iv Sm S R. cbn in C1. subst bs. cbn [eval_e ends]. exists m. pose proof (room_stack _ _ _ _ _ _ R He) as RS. cbn [fneed_e] in RS. split; [|split; [apply same_refl|split; [apply grow_refl|exact Iv]]]. rewrite len_op. eapply const_ok; [exact C|lia|auto].
  - intros b E x st m pc temps bs r C1 C He Iv Sm S R. cbn in C1. subst bs. cbn [eval_e ends]. exists m. pose proof (room_stack _ _ _ _ _ _ R He) as RS. cbn [fneed_e] in RS. split; [|split; [apply same_refl|split; [apply grow_refl|exact Iv]]]. rewrite len_op. eapply const_ok; [exact C|lia|destruct b; auto].
  - intros i E x st m pc temps bs r (C1 & ->) C He Iv Sm S R. cbn [eval_e ends]. exists m. pose proof (room_stack _ _ _ _ _ _ R He) as RS. cbn [fneed_e] in RS. split; [|split; [apply same_refl|split; [apply grow_refl|exact Iv]]]. eapply lit_ok; [exact C1|lia|exact C].
  - intros i E x st m pc temps bs r (C1 & ->) C He Iv Sm S R. cbn [eval_e ends]. exists m. pose proof (room_stack _ _ _ _ _ _ R He) as RS. cbn [fneed_e] in RS. split; [|split; [apply same_refl|split; [apply grow_refl|exact Iv]]]. eapply lit_ok; [exact C1|lia|exact C].
  - intros i E x st m pc temps bs r (C1 & ->) C He Iv Sm S R. cbn [eval_e ends]. exists m. pose proof (room_stack _ _ _ _ _ _ R He) as RS. cbn [fneed_e] in RS. split; [|split; [apply same_refl|split; [apply grow_refl|exact Iv]]]. eapply lit_ok; [exact C1|lia|exact C].
  - intros y E x st m pc temps bs r C1 C He Iv Sm S R. cbn [eval_e]. destruct (load_ok E x st m y pc temps bs r He C1 C S) as (v & -> & Go); [destruct R as (R & _); pose proof DM_pos; cbn [fneed_e] in R; lia|].
    cbn [ends]. exists m. split; [exact Go|]. split; [apply same_refl|]. split; [apply grow_refl|exact Iv].
  - intros o e. apply ok_un.
  - intros o l IHl r IHr. apply ok_bin; assumption.
  - intros o l IHl r IHr. apply ok_sc; assumption.
  - intros c IHc a IHa b IHb. apply ok_tri; assumption.
  - intros f IHf es IHes. apply ok_call; assumption.
  - intros k e IH. exact IH.
  - intros l ps b _. apply ok_fn.
  - intros E x st m pc temps bs r C1 C He Iv Sm S R. cbn in C1. subst bs. cbn [eval_args ends]. exists m. change (len []) with 0. rewrite Z.add_0_r. split; [apply goes_refl|]. split; [apply same_refl|]. split; [apply grow_refl|exact Iv].
  - intros e IHe es IHes E x st m pc temps bs r (be & br & C1 & C2 & ->) C He Iv Sm S R. cbn [eval_e eval_args exec_s small_e small_args small_s fneed_e fneed_args] in *. apply andb_true_iff in Sm. destruct Sm as (Sm1 & Sm2). rewrite <- app_assoc in C. rewrite len_app, Z.add_assoc.
    eapply ends_bind; [refine (IHe E x st m pc temps be _ C1 C He Iv Sm1 S _); eapply room_le; [exact R|lia]|]. intros v st1 (m1 & Go & Sa & Gr & Iv1). apply code_at_r in C.
    pose proof (room_same _ _ _ _ _ _ R Sa) as R1. pose proof (here_same _ _ _ _ _ _ He Sa Gr) as He1.
    assert (Ends : ends (att x (pc + len be) (v :: temps) st1 m1) (eval_args h kind n call es st1) n (AP x (pc + len be + len br) (v :: temps) st1 m1 (att x (pc + len be) (v :: temps) st1 m1))) by (refine (IHes E x st1 m1 _ (v :: temps) br r C2 C He1 Iv1 Sm2 S _); eapply room_cons; [exact R1|lia]).
    eapply ends_bind; [eapply (ends_pre 1); [exact Go|exact Ends|intros a0 st0 Q0; exact Q0]|].
    intros vs st2 (m2 & Go2 & Sa2 & Gr2 & Iv2). cbn [ends]. exists m2. split; [cbn [rev]; rewrite <- app_assoc; cbn [app]; eapply goes_le; [eapply goes_trans; [exact Go|exact Go2]|lia]|]. split; [eapply same_trans; eassumption|]. split; [eapply grow_trans; eassumption|exact Iv2].
  - intros E x st m pc bs r C1 C He Iv Sm Ne Pk R Fm. cbn in C1. subst bs. cbn [exec_s ends]. change (len []) with 0. rewrite Z.add_0_r. rewrite s_after_none by reflexivity. apply SP_done; assumption.
  - intros a IHa b IHb. apply ok_seq; assumption.
  - intros e IH. apply ok_expr; assumption.
  - intros k y e IH. apply ok_let; assumption.
  - intros k y l ps b _. apply ok_fndecl.
  - intros y e IH. apply ok_assign; assumption.
  - intros b IH. apply ok_block; assumption.
  - intros c IHc a IHa. apply ok_if; assumption.
  - intros c IHc a IHa b IHb. apply ok_ifelse; assumption.
  - intros c IHc b IHb. apply ok_while; assumption.
  - intros e IH. apply ok_return; assumption.
  - intros es _ E x st m pc bs r C1. destruct C1.
  - intros e IH. apply ok_echo; assumption.
  - intros e IH. apply ok_assert; assumption.
Qed.
End Body.
End S.
