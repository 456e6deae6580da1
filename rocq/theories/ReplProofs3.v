From Verif Require Import Base Bytes BytesProofs Value Table Ops Ast Stmt Limits Constants VM Compiler ValueProofs TableSpec ConstSpec ConstProofs Gen GenProofs GenProofs2 SimBase Sim Program ProgProofs CompSpec CompProofs CompState Repl ReplSpec ReplProofs ReplProofs2.

(** ** Running a line. *)
Definition rel (G : scope) (se : sess) : Prop := forall x, in_scope (s_decl se) x = option_map is_const (assoc G x).
Lemma gl_back x z G K : gl_in ((x, z) :: G) K -> gl_in G K.
Proof. intros H y u A. pose proof (H y) as Hy. rewrite const_idx in Hy. destruct (name_eqb x y); eapply Hy; [reflexivity|exact A]. Qed.
Lemma gl_back_l l G K : gl_in (glob_l G l) K -> gl_in G K.
Proof. destruct l; cbn [glob_l]; auto; apply gl_back. Qed.
Lemma gl_back_ls ls K : forall G, gl_in (fold_left glob_l ls G) K -> gl_in G K.
Proof. induction ls as [|l ls IH]; intros G H; [exact H|]. apply IH in H. eapply gl_back_l; exact H. Qed.
Lemma gl_back1 s G K : gl_in (glob1 G s) K -> gl_in G K.
Proof. destruct s; cbn [glob1]; auto; try apply gl_back_l. apply gl_back_ls. Qed.
Lemma gl_back_line l K : forall G, gl_in (fold_left glob1 l G) K -> gl_in G K.
Proof. induction l as [|s l IH]; intros G H; [exact H|]. apply IH in H. eapply gl_back1; exact H. Qed.
Lemma in_glob_l l G K : gl_in (glob_l G l) K -> is_decl l = true -> In (VStr (lval_name l)) K.
Proof. intros H D. destruct l as [x|x|x]; try discriminate D; cbn [lval_name glob_l] in *; eapply (H x); rewrite const_idx, (proj2 (name_eqb_spec x x) eq_refl); reflexivity. Qed.

Lemma rel_new G se x (k : bool) z v : rel G se -> is_const z = k -> rel ((x, z) :: G) (Sess ((x, k) :: s_decl se) v (s_out se)).
Proof. intros R C y. cbn [s_decl in_scope]. rewrite const_idx. destruct (name_eqb x y); [cbn; congruence|apply R]. Qed.

Section Run.
Variable P : prog.
Variables (w : world) (ls ks : Z -> list value).
Hypothesis Hw : p_world P = w.
Hypothesis Hl : p_list P = ls.
Hypothesis Hk : p_keys P = ks.
Notation K := (p_consts P).
Hypothesis HKlen : len (p_code P) <= int_max /\ Z.of_nat (length K) <= int_max.
Notation goes := (SimBase.goes P). Notation halts := (SimBase.halts P). Notation runs_on := (SimBase.runs_on P). Notation code_at := (SimBase.code_at P).
Definition at_ (pc : Z) (temps : list value) (se : sess) : vstate := atp (-1) [] [] (-1) [] [] [] pc temps (env_in se) [].
Notation host_in := (ReplSpec.host_in w ls ks). Notation value_in := (ReplSpec.value_in w ls ks). Notation values_in := (ReplSpec.values_in w ls ks).

Lemma run_e G e se pc temps bs : rel G se -> gl_in G K -> ok_e G [[]] e = true -> incl (lits_e e) K -> Z.of_nat (length temps) + Z.of_nat (need_e e) <= 1024 -> code_at pc (gen_e K [[]] e ++ bs) ->
  (exists v, (forall k, value_in se e k = k v) /\ goes 1 (at_ pc temps se) (at_ (pc + len (gen_e K [[]] e)) (v :: temps) se)) \/
  (exists o, (forall k, value_in se e k = LStop o (s_out se)) /\ halts (at_ pc temps se) o (s_out se)).
Proof.
  intros R Gi O L N C.
  destruct (sim_e P (host_in se) G (-1) [] [] (-1) [] [] [] eq_refl Hw R Gi HKlen e [[]] (env_in se) pc temps [] bs O L (conj I I) ltac:(cbv; discriminate) ltac:(unfold room_for; cbn [length]; change (scope_len [[]]) with 0; lia) C) as (Cl & Y).
  unfold ReplSpec.value_in. rewrite Cl. change (h_world (host_in se)) with w in Y. destruct (eval w (rho (host_in se) (env_in se)) e) as [v|er| |]; cbn [yields] in Y.
  - left. exists v. split; [reflexivity|exact Y].
  - right. eexists. split; [reflexivity|exact Y].
  - right. eexists. split; [reflexivity|exact Y].
  - right. eexists. split; [reflexivity|exact Y].
Qed.
Lemma run_es G es se : forall pc temps bs, rel G se -> gl_in G K -> forallb (ok_e G [[]]) es = true -> incl (concat (map lits_e es)) K -> Z.of_nat (length temps) + Z.of_nat (need_es es) <= 1024 -> code_at pc (gen_es K [[]] es ++ bs) ->
  (exists vs, length vs = length es /\ (forall k, values_in se es k = k vs) /\ goes 0 (at_ pc temps se) (at_ (pc + len (gen_es K [[]] es)) (rev vs ++ temps) se)) \/
  (exists o, (forall k, values_in se es k = LStop o (s_out se)) /\ halts (at_ pc temps se) o (s_out se)).
Proof.
  induction es as [|e es IH]; intros pc temps bs R Gi O L N C.
  - left. exists []. split; [reflexivity|]. split; [reflexivity|]. cbn. change (len []) with 0. rewrite Z.add_0_r. apply goes_refl.
  - cbn [forallb] in O. apply andb_true_iff in O. destruct O as (O1 & O2). unfold gen_es in C. cbn [map concat need_es] in C, N, L. fold (gen_es K [[]] es) in C. rewrite <- app_assoc in C.
    destruct (run_e G e se pc temps _ R Gi O1 (incl_l _ _ _ L) ltac:(lia) C) as [(v & V & Gv)|(o & V & Hv)].
    + apply code_at_r in C. destruct (IH (pc + len (gen_e K [[]] e)) (v :: temps) bs R Gi O2 (incl_r _ _ _ L) ltac:(cbn [length]; lia) C) as [(vs & Lv & Vs & Gs)|(o & Vs & Hs)].
      * left. exists (v :: vs). split; [cbn; congruence|]. split; [intros k; cbn [ReplSpec.values_in]; rewrite V, Vs; reflexivity|]. unfold gen_es. cbn [map concat rev]. fold (gen_es K [[]] es). rewrite len_app, Z.add_assoc, <- app_assoc.
        eapply goes_le; [eapply goes_trans; [exact Gv|exact Gs]|lia].
      * right. exists o. split; [intros k; cbn [ReplSpec.values_in]; rewrite V, Vs; reflexivity|]. eapply goes_halts; [exact Gv|exact Hs].
    + right. exists o. split; [intros k; cbn [ReplSpec.values_in]; rewrite V; reflexivity|exact Hv].
Qed.

(** Storing: the machine knows nothing of declarations, so any host in which the names are variables will do. *)
Fixpoint upds (g : name -> option value) (l : list lval) (vs : list value) : name -> option value :=
  match l, vs with t :: l, v :: vs => upds (upd g (lval_name t) v) l vs | _, _ => g end.
Lemma store_run G x v se pc temps bs : gl_in G K -> In (VStr x) K -> code_at pc (store_code K [[]] x ++ bs) ->
  goes 1 (at_ pc (v :: temps) se) (atp (-1) [] [] (-1) [] [] [] (pc + len (store_code K [[]] x)) temps (Env [[]] (upd (s_vals se) x v) (s_out se)) []).
Proof.
  intros Gi I C. pose (h := Host w ls ks (fun y => option_map is_const (assoc [(x, 0)] y))).
  assert (Gx : gl_in [(x, 0)] K). { intros y z A. cbn [assoc] in A. destruct (name_eqb x y) eqn:E; [|discriminate]. apply name_eqb_spec in E. subst y. exact I. }
  assert (Wr : writable [(x, 0)] [[]] x = true) by (unfold writable; cbn [scope_get assoc]; rewrite (proj2 (name_eqb_spec x x) eq_refl); reflexivity).
  destruct (sim_store P h [(x, 0)] (-1) [] [] (-1) [] [] [] eq_refl (fun y => eq_refl) Gx HKlen x v [[]] (env_in se) pc temps [] bs Wr (conj Logic.I Logic.I) ltac:(cbv; discriminate) C) as (st' & E & _ & _ & Go).
  unfold write_var in E. cbn [env_in e_scopes find_var lookup h h_decl assoc] in E. rewrite (proj2 (name_eqb_spec x x) eq_refl) in E. cbn in E. injection E as <-. exact Go.
Qed.
Lemma give_assign h l : forall vs g o, length vs = length l -> (forall t, In t l -> h_decl h (lval_name t) = Some false) ->
  give h (map (fun t => LAssign (lval_name t)) l) vs (Env [[]] g o) = Some (Env [[]] (upds g l vs) o).
Proof.
  induction l as [|t l IH]; intros [|v vs] g o Lv D; try discriminate Lv; [reflexivity|]. cbn [map give upds]. unfold write_var. cbn [e_scopes find_var lookup]. rewrite (D t (or_introl eq_refl)). apply IH; [cbn in Lv; lia|]. intros u Hu. apply D. right. exact Hu.
Qed.
Lemma gen_ls_assign l : gen_lvals K [[]] (map (fun t => LAssign (lval_name t)) l) = gen_ls K l.
Proof. induction l as [|t l IH]; [reflexivity|]. cbn [map gen_lvals gen_ls concat]. fold (gen_ls K l). rewrite IH. unfold gen_l. rewrite <- !app_assoc. reflexivity. Qed.
Lemma ls_run l vs se pc bs : length vs = length l -> (length l <= 128)%nat -> (forall t, In t l -> In (VStr (lval_name t)) K) -> code_at pc (gen_ls K l ++ bs) ->
  goes 0 (at_ pc (rev vs) se) (atp (-1) [] [] (-1) [] [] [] (pc + len (gen_ls K l)) [] (Env [[]] (upds (s_vals se) l vs) (s_out se)) []).
Proof.
  intros Lv Ll I C. pose (G := map (fun t => (lval_name t, 0)) l : scope). pose (h := Host w ls ks (fun y => option_map is_const (assoc G y))).
  assert (AG : forall y z, assoc G y = Some z -> z = 0 /\ exists t, In t l /\ lval_name t = y).
  { unfold G. clear. induction l as [|t l IH]; intros y z A; cbn [map assoc] in A; [discriminate|]. destruct (name_eqb (lval_name t) y) eqn:E.
    - injection A as <-. split; [reflexivity|]. exists t. split; [left; reflexivity|]. apply name_eqb_spec, E.
    - destruct (IH y z A) as (Z0 & u & Hu & Eu). split; [exact Z0|]. exists u. split; [right; exact Hu|exact Eu]. }
  assert (AI : forall t, In t l -> assoc G (lval_name t) = Some 0).
  { intros t Ht. destruct (assoc G (lval_name t)) as [z|] eqn:A; [destruct (AG _ _ A) as (-> & _); reflexivity|]. exfalso. unfold G in A. clear - Ht A. induction l as [|u l IH]; [exact Ht|]. cbn [map assoc] in A. destruct (name_eqb (lval_name u) (lval_name t)) eqn:E; [discriminate|]. destruct Ht as [->|Ht]; [|exact (IH Ht A)]. rewrite (proj2 (name_eqb_spec _ _) eq_refl) in E. discriminate. }
  assert (Gx : gl_in G K) by (intros y z A; destruct (AG _ _ A) as (_ & t & Ht & <-); apply I, Ht).
  assert (Wr : ok_lvals G [[]] (map (fun t => LAssign (lval_name t)) l) = true).
  { clear - AI. assert (X : forall m, (forall t, In t m -> assoc G (lval_name t) = Some 0) -> ok_lvals G [[]] (map (fun t => LAssign (lval_name t)) m) = true); [|apply X, AI]. induction m as [|t m IH]; intros H; [reflexivity|]. cbn [map ok_lvals]. apply andb_true_iff. split; [|apply IH; intros u Hu; apply H; right; exact Hu]. unfold writable. cbn [scope_get assoc]. rewrite (H t (or_introl eq_refl)). reflexivity. }
  rewrite <- gen_ls_assign in C |- *.
  destruct (sim_lvals P h G (-1) [] [] (-1) [] [] [] eq_refl (fun y => eq_refl) Gx HKlen (map (fun t => LAssign (lval_name t)) l) vs [[]] (env_in se) pc [] bs) as (st' & E & _ & Go); auto.
  - rewrite map_length. exact Lv.
  - split; exact Logic.I.
  - rewrite map_length. change (scope_len [[]]) with 0. lia.
  - unfold env_in in E. rewrite give_assign in E; [injection E as <-; exact Go|exact Lv|]. intros t Ht. cbn [h h_decl]. rewrite (AI t Ht). reflexivity.
Qed.
Lemma give_ok l : forall vs G se, length vs = length l -> ok_ls G l -> rel G se ->
  exists se', give_all se l vs = Some se' /\ rel (fold_left glob_l l G) se' /\ s_out se' = s_out se /\ s_vals se' = upds (s_vals se) l vs.
Proof.
  induction l as [|t l IH]; intros [|v vs] G se Lv O R; try discriminate Lv; [exists se; auto|]. destruct O as (O1 & O2). cbn [give_all fold_left upds].
  assert (X : exists se1, give1 se t v = Some se1 /\ rel (glob_l G t) se1 /\ s_out se1 = s_out se /\ s_vals se1 = upd (s_vals se) (lval_name t) v).
  { destruct t as [x|x|x]; cbn [ok_l give1 glob_l lval_name] in *.
    - unfold introduce. rewrite (R x), O1. cbn [option_map]. eexists. split; [reflexivity|]. split; [apply rel_new; [exact R|]|auto]. unfold is_const. apply Z.ltb_ge. lia.
    - unfold introduce. rewrite (R x), O1. cbn [option_map]. eexists. split; [reflexivity|]. split; [apply rel_new; [exact R|]|auto]. apply lnot_neg. lia.
    - unfold change. rewrite (R x). unfold writable in O1. cbn [scope_get assoc] in O1. destruct (assoc G x) as [z|]; [|discriminate]. cbn [option_map]. destruct (is_const z); [discriminate|]. eexists. split; [reflexivity|]. auto. }
  destruct X as (se1 & E1 & R1 & U1 & V1). rewrite E1. destruct (IH vs (glob_l G t) se1 ltac:(cbn in Lv; lia) O2 R1) as (se' & E & Rl & U & V). exists se'. rewrite E, U, U1, V, V1. auto.
Qed.
Lemma ls_in l : forall G, ok_ls G l -> gl_in (fold_left glob_l l G) K -> forall t, In t l -> In (VStr (lval_name t)) K.
Proof.
  induction l as [|u l IH]; intros G O H t Ht; [contradiction|]. destruct O as (O1 & O2). cbn [fold_left] in H. destruct Ht as [->|Ht]; [|exact (IH _ O2 H t Ht)]. apply gl_back_ls in H. destruct t as [x|x|x]; [exact (in_glob_l _ _ _ H eq_refl)|exact (in_glob_l _ _ _ H eq_refl)|].
  cbn [ok_l glob_l lval_name] in *. unfold writable in O1. cbn [scope_get assoc] in O1. destruct (assoc G x) as [z|] eqn:A; [|discriminate]. eapply H; exact A.
Qed.

(** One statement. *)
Definition stmt_runs (r : lres) (n : nat) (pc : Z) (code : list Z) (G' : scope) (se : sess) : Prop :=
  match r with
  | LDone se' => rel G' se' /\ goes 0 (at_ pc [] se) (at_ (pc + len code) [] se')
  | LStop o out => halts (at_ pc [] se) o out
  | LFuel => runs_on (at_ pc [] se) n
  | LBad => False
  end.
Lemma decl_runs G x e (k : bool) z se pc bs n : rel G se -> gl_in ((x, z) :: G) K -> is_const z = k -> ok_e G [[]] e = true -> assoc G x = None -> incl (lits_e e) K -> (need_e e <= 1024)%nat -> code_at pc ((gen_e K [[]] e ++ store_code K [[]] x) ++ bs) ->
  stmt_runs (value_in se e (fun v => done (introduce se x k v))) n pc (gen_e K [[]] e ++ store_code K [[]] x) ((x, z) :: G) se.
Proof.
  intros R Gi Ck O A L N C. rewrite <- app_assoc in C. destruct (run_e G e se pc [] _ R (gl_back _ _ _ _ Gi) O L ltac:(cbn [length]; lia) C) as [(v & V & Gv)|(o & V & Hv)]; rewrite V.
  - unfold introduce. rewrite (R x), A. cbn [option_map done stmt_runs]. split; [apply rel_new; auto|]. apply code_at_r in C.
    assert (Ix : In (VStr x) K) by (eapply (Gi x); rewrite const_idx, (proj2 (name_eqb_spec x x) eq_refl); reflexivity).
    pose proof (store_run G x v se _ [] _ (gl_back _ _ _ _ Gi) Ix C) as St. rewrite len_app, Z.add_assoc. eapply goes_le; [eapply goes_trans; [exact Gv|exact St]|lia].
  - exact Hv.
Qed.
Lemma run1 n G s se pc bs : rel G se -> gl_in (glob1 G s) K -> ok1 G s -> item_ok s -> incl (lits_s s) K -> 0 <= pc -> code_at pc (gen1 K s ++ bs) ->
  stmt_runs (stmt_means w ls ks n s se) n pc (gen1 K s) (glob1 G s) se.
Proof.
  intros R Gi O (T & W & J & _ & _ & Pk & Nd & Fd) L Hp C.
  assert (X : no_decls s = true -> gl_in G K -> ok_s G [[]] false s = true -> code_at pc (gen_s K [[]] 0 [] s ++ bs) ->
    stmt_runs (match Stmt.exec (host_in se) n s (env_in se) with
         | XOk Normal st => LDone (Sess (s_decl se) (e_globals st) (e_out st)) | XStop o out => LStop o out | XFuel => LFuel | _ => LBad end) n pc (gen_s K [[]] 0 [] s) G se).
  { intros D Gi0 O0 C0. pose proof (sim_s P (host_in se) G (-1) [] [] (-1) [] [] [] eq_refl Hw Hl Hk R Gi0 HKlen n s [[]] (env_in se) pc 0 [] [] false 0%nat bs O0 L W J (conj I I) ltac:(discriminate)) as Sm.
    change (Z.to_nat (scope_len [[]])) with 0%nat in Sm. specialize (Sm ltac:(lia) ltac:(unfold room_for; change (scope_len [[]]) with 0; cbn [length]; lia) ltac:(cbn [length]; lia) Hp ltac:(lia) (Forall_nil _) ltac:(rewrite Z.add_0_r; exact C0)).
    rewrite !Z.add_0_r in Sm. pose proof (exec_jump (host_in se) n s (env_in se)) as EJ. pose proof (no_jump _ _ _ O0) as NJ. apply no_decls_iff in D.
    assert (AF : after ([[]] : list scope) s = [[]]). { destruct (after_shape s [] []) as (u & E & Lu & _). rewrite D in Lu. destruct u; [exact E|discriminate Lu]. }
    destruct (Stmt.exec (host_in se) n s (env_in se)) as [sg st|o out| |]; cbn [res] in Sm; try exact Sm.
    destruct sg; [|rewrite (EJ _ _ eq_refl ltac:(discriminate)) in NJ; discriminate..]. destruct Sm as (Go & A). rewrite AF in A. split; [exact R|].
    destruct st as [sc g out]. cbn [e_scopes e_globals e_out] in *. destruct sc as [|b [|]]; cbn [agree] in A; try tauto. destruct A as (A & _). destruct b as [|(?, (?, ?)) ?]; [|destruct A]. exact Go. }
  destruct s as [|a b|e|x e|x e|l rs|x e|b|cd a|cd a b|cd b|cd b post|x e b| | |e|e|s]; try (apply X; [exact T|exact Gi|exact O|exact C]); clear X; cbn [ok1 glob1 gen1 stmt_means lits_s need peak parsed] in *.
  - destruct O as (O1 & O2). eapply decl_runs; eauto. unfold is_const. apply Z.ltb_ge. lia.
  - destruct O as (O1 & O2). eapply decl_runs; eauto. apply lnot_neg. lia.
  - destruct O as (O1 & O2). apply Nat.eqb_eq in W. rewrite <- app_assoc in C. destruct (run_es G rs se pc [] _ R (gl_back_ls _ _ _ Gi) O1 L ltac:(cbn [length]; lia) C) as [(vs & Lv & V & Gv)|(o & V & Hv)]; rewrite V; [|exact Hv].
    destruct (give_ok l vs G se ltac:(congruence) O2 R) as (se' & E & R' & U & Vl). rewrite E. cbn [done stmt_runs]. split; [exact R'|]. apply code_at_r in C. rewrite app_nil_r in Gv.
    pose proof (ls_run l vs se _ bs ltac:(congruence) ltac:(lia) (ls_in l G O2 Gi) C) as St. rewrite len_app, Z.add_assoc.
    destruct se' as [d' v' o']. cbn [s_out s_vals] in U, Vl. subst o' v'. exact (goes_trans P 0 0 _ _ _ Gv St).
Qed.

(** A whole line. *)
Fixpoint plain_means (n : nat) (l : list stmt) (se : sess) : lres :=
  match l with [] => LDone se | s :: r => match stmt_means w ls ks n s se with LDone se => plain_means n r se | x => x end end.
Lemma means_items n line : forall se, line_means w ls ks n line se = plain_means n (items line) se.
Proof. induction line as [|s r IH]; intros se; [reflexivity|]. cbn [line_means items plain_means]. fold (items r). change (match r with [] => true | _ => false end) with (is_last r). destruct (stmt_means w ls ks n (shown_if_last (is_last r) s) se); auto. Qed.
Lemma run_line n l : forall G se pc bs, rel G se -> gl_in (fold_left glob1 l G) K -> ok_line G l -> Forall item_ok l -> incl (concat (map lits_s l)) K -> 0 <= pc -> code_at pc (gen_line K l ++ bs) ->
  stmt_runs (plain_means n l se) n pc (gen_line K l) (fold_left glob1 l G) se.
Proof.
  induction l as [|s l IH]; intros G se pc bs R Gi O F L Hp C.
  - cbn. change (len []) with 0. rewrite Z.add_0_r. split; [exact R|apply goes_refl].
  - inversion F as [|? ? Fs Fl]; subst. destruct O as (O1 & O2). cbn [fold_left map concat gen_line] in *. fold (gen_line K l) in *. rewrite <- app_assoc in C.
    pose proof (run1 n G s se pc _ R (gl_back_line _ _ _ Gi) O1 Fs (incl_l _ _ _ L) Hp C) as S1. cbn [plain_means]. apply code_at_r in C.
    destruct (stmt_means w ls ks n s se) as [se1|o out| |]; try exact S1. destruct S1 as (R1 & G1). pose proof (len_nonneg (gen1 K s)).
    pose proof (IH _ se1 (pc + len (gen1 K s)) bs R1 Gi O2 Fl (incl_r _ _ _ L) ltac:(lia) C) as S2. destruct (plain_means n l se1) as [se2|o out| |]; cbn [stmt_runs] in *; try exact S2.
    + destruct S2 as (R2 & G2). split; [exact R2|]. rewrite len_app, Z.add_assoc. exact (goes_trans P 0 0 _ _ _ G1 G2).
    + eapply goes_halts; eassumption.
    + exact (goes_runs P 0 n _ _ G1 S2).
Qed.
End Run.
