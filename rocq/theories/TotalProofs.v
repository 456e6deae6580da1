From Verif Require Import Base Bytes BytesProofs Value Table Ops Ast Stmt Limits Constants VM Compiler ValueProofs TableSpec TableProofs TableProofs2 TableProofs3 ConstSpec ConstProofs Gen GenProofs GenProofs2 Program ProgProofs CompSpec CompProofs.

Section T.
Variable fuel : nat.
Hypothesis Hf : FUEL_BOUND <= Z.of_nat fuel.

Definition pst (p : cpool) (cs : list value) : Prop := exists k m, pool_ok p cs k m.
(** [tot c cs n r ss cps]: [r] is a successful step from [c] adding at most [n] constants. *)
Definition tot (c : cst) (cs : list value) (n : nat) (r : outcome cst) (ss : list scope) (cps : list Z) : Prop :=
  exists c' cs' ext, r = Ok c' /\ pst (c_pool c') cs' /\ cs' = cs ++ ext /\ (length ext <= n)%nat /\ c_scopes c' = ss /\ c_globals c' = c_globals c /\ c_cps c' = cps.
Lemma tot_ret c cs c' ss cps n : pst (c_pool c') cs -> c_scopes c' = ss -> c_globals c' = c_globals c -> c_cps c' = cps -> tot c cs n (Ok c') ss cps.
Proof. intros. exists c', cs, []. rewrite app_nil_r. cbn [length]. repeat split; auto. lia. Qed.
Lemma tot_bind c cs n1 n2 n r f s1 s2 l1 l2 : tot c cs n1 r s1 l1 -> (n1 + n2 <= n)%nat ->
  (forall c' cs' ext, pst (c_pool c') cs' -> cs' = cs ++ ext -> (length ext <= n1)%nat -> c_scopes c' = s1 -> c_globals c' = c_globals c -> c_cps c' = l1 -> tot c' cs' n2 (f c') s2 l2) ->
  tot c cs n (bind r f) s2 l2.
Proof.
  intros (c' & cs' & ext & -> & P & E & L & S & G & C) Hn H. cbn [bind]. destruct (H c' cs' ext P E L S G C) as (c2 & cs2 & ext2 & -> & P2 & E2 & L2 & S2 & G2 & C2).
  exists c2, cs2, (ext ++ ext2). repeat split; auto; [rewrite E2, E, app_assoc; reflexivity|rewrite app_length; lia|congruence].
Qed.
Lemma gl_ext c c' cs ext : gl_in (c_globals c) cs -> c_globals c' = c_globals c -> gl_in (c_globals c') (cs ++ ext).
Proof. intros H ->. apply gl_in_ext, H. Qed.

Lemma tot_literal c cs v : pst (c_pool c) cs -> literal v -> Z.of_nat (length cs) < 2 ^ 29 -> tot c cs 1 (add_literal fuel c v) (c_scopes c) (c_cps c).
Proof.
  intros (k & m & P) L H. destruct (intern_ok fuel _ _ _ _ v P L H Hf) as (i & p' & cs' & k' & m' & E & P' & _ & D). unfold add_literal. rewrite E. cbn [bind fst snd].
  eexists. exists cs'. destruct D as [->| ->].
  - exists []. rewrite app_nil_r. repeat split; cbn; auto. exists k', m'. exact P'.
  - exists [v]. repeat split; cbn; auto. exists k', m'. exact P'.
Qed.
Lemma tot_search c cs x : pst (c_pool c) cs -> In (VStr x) cs -> exists i, pool_index fuel c x = Ok i.
Proof.
  intros (k & m & P) I. unfold pool_index. pose proof (po_lit _ _ _ _ P) as F. rewrite Forall_forall in F. specialize (F _ I).
  pose proof (ti_wf _ _ (po_t _ _ _ _ P)) as W. destruct (search_total fuel (cp_tab (c_pool c)) (VStr x) W (literal_good _ F)) as (r & Er).
  { pose proof (wf_lim _ W). unfold ALLOC_LIMIT, FUEL_BOUND in *. lia. }
  { left. eapply TInv_empty. exact (po_t _ _ _ _ P). }
  rewrite Er. eexists. reflexivity.
Qed.
Lemma tot_load c cs x : pst (c_pool c) cs -> gl_in (c_globals c) cs -> known (c_globals c) (c_scopes c) x = true -> tot c cs 0 (load_var fuel c x) (c_scopes c) (c_cps c).
Proof.
  intros P G K. unfold known, load_var in *. destruct (scope_get (c_scopes c) x); [apply tot_ret; auto|]. destruct (assoc (c_globals c) x) eqn:A; [|discriminate].
  destruct (tot_search c cs x P (G _ _ A)) as (i & ->). cbn [bind]. apply tot_ret; auto.
Qed.
Lemma tot_store c cs x : pst (c_pool c) cs -> gl_in (c_globals c) cs -> writable (c_globals c) (c_scopes c) x = true -> tot c cs 0 (store_var fuel c x) (c_scopes c) (c_cps c).
Proof.
  intros P G K. unfold writable, store_var in *. destruct (scope_get (c_scopes c) x) as [v|]; [destruct (is_const v); [discriminate|]; apply tot_ret; auto|]. destruct (assoc (c_globals c) x) eqn:A; [|discriminate].
  destruct (is_const z); [discriminate|]. destruct (tot_search c cs x P (G _ _ A)) as (i & ->). cbn [bind]. apply tot_ret; auto.
Qed.

Definition small (cs : list value) (n : nat) : Prop := Z.of_nat (length cs) + Z.of_nat n <= 2 ^ 29.
Ltac sm := unfold small in *; subst; rewrite ?app_length in *; cbn [length] in *; lia.
(* the state may differ from the one the step is accounted to *)
Lemma tot_from c c0 cs n r ss l : tot c0 cs n r ss l -> c_globals c0 = c_globals c -> tot c cs n r ss l.
Proof. intros (c' & cs' & ext & E & P & Ec & L & S & G & C) H. exists c', cs', ext. repeat split; auto. congruence. Qed.
Lemma tot_le c cs n m r ss l : tot c cs n r ss l -> (n <= m)%nat -> tot c cs m r ss l.
Proof. intros (c' & cs' & ext & E & P & Ec & L & S & G & C) H. exists c', cs', ext. repeat split; auto. lia. Qed.

Lemma tot_e e : forall c cs, pst (c_pool c) cs -> gl_in (c_globals c) cs -> ok_e (c_globals c) (c_scopes c) e = true -> Forall literal (lits_e e) -> small cs (length (lits_e e)) ->
  tot c cs (length (lits_e e)) (visit_e fuel e c) (c_scopes c) (c_cps c).
Proof.
  induction e as [|b|i|f|s|x|o e IH|o l IHl r IHr|o l IHl r IHr|a IHa b IHb d IHd]; intros c cs P G O L S; cbn [visit_e ok_e lits_e] in *.
  - apply tot_ret; auto.
  - apply tot_ret; auto.
  - inversion L; subst. apply tot_literal; auto. sm.
  - inversion L; subst. apply tot_literal; auto. sm.
  - inversion L; subst. apply tot_literal; auto. sm.
  - apply tot_load; auto.
  - eapply (tot_bind _ _ _ 0); [apply IH; auto|lia|]. intros c' cs' ext P' E' L' S' G' C'. apply tot_ret; auto.
  - apply andb_true_iff in O. destruct O as (O1 & O2). apply Forall_app in L. destruct L as (L1 & L2). rewrite app_length in *.
    eapply tot_bind; [apply IHl; auto; sm|apply le_n|]. intros c' cs' ext P' E' L' S' G' C'.
    eapply (tot_bind _ _ _ 0); [apply IHr; auto; [rewrite E'; eapply gl_ext; eassumption|rewrite S', G'; exact O2|sm]|lia|]. intros c2 cs2 ext2 P2 E2 L2' S2 G2 C2. apply tot_ret; cbn; congruence || auto.
  - apply andb_true_iff in O. destruct O as (O1 & O2). apply Forall_app in L. destruct L as (L1 & L2). rewrite app_length in *.
    eapply tot_bind; [apply IHl; auto; sm|apply le_n|]. intros c' cs' ext P' E' L' S' G' C'. cbn [enter_jmp]. 
    eapply tot_from; [eapply (tot_bind _ _ _ 0); [apply IHr; cbn; auto; [rewrite E'; eapply gl_ext; eassumption|rewrite S', G'; exact O2|sm]|lia|]|reflexivity]. intros c2 cs2 ext2 P2 E2 L2' S2 G2 C2. cbn in S2, G2, C2. apply tot_ret; cbn; congruence || auto.
  - apply andb_true_iff in O. destruct O as (O & O3). apply andb_true_iff in O. destruct O as (O1 & O2). apply Forall_app in L. destruct L as (L1 & L2). apply Forall_app in L2. destruct L2 as (L2 & L3). rewrite !app_length in *.
    eapply tot_bind; [apply IHa; auto; sm|apply le_n|]. intros c' cs' ext P' E' L' S' G' C'. cbn [enter_jmp].
    eapply tot_from; [eapply tot_bind; [apply IHb; cbn; auto; [rewrite E'; eapply gl_ext; eassumption|rewrite S', G'; exact O2|sm]|apply le_n|]|reflexivity]. intros c2 cs2 ext2 P2 E2 L2' S2 G2 C2. cbn in S2, G2, C2. cbn [enter_jmp].
    eapply tot_from; [eapply (tot_bind _ _ _ 0); [apply IHd; cbn; auto|lia|]|reflexivity].
    + rewrite E2. eapply gl_in_ext. rewrite G2, E'. eapply gl_ext; eassumption.
    + rewrite G2, G', S2, S'. exact O3.
    + sm.
    + intros c3 cs3 ext3 P3 E3 L3' S3 G3 C3. cbn in S3, G3, C3. apply tot_ret; cbn; congruence || auto.
Qed.
Lemma tot_es es : forall c cs, pst (c_pool c) cs -> gl_in (c_globals c) cs -> forallb (ok_e (c_globals c) (c_scopes c)) es = true -> Forall literal (concat (map lits_e es)) -> small cs (length (concat (map lits_e es))) ->
  tot c cs (length (concat (map lits_e es))) (visit_es fuel es c) (c_scopes c) (c_cps c).
Proof.
  induction es as [|e es IH]; intros c cs P G O L S; cbn [visit_es map concat forallb] in *; [apply tot_ret; auto|].
  apply andb_true_iff in O. destruct O as (O1 & O2). apply Forall_app in L. destruct L as (L1 & L2). rewrite app_length in *.
  eapply tot_bind; [apply tot_e; auto; sm|apply le_n|]. intros c' cs' ext P' E' L' S' G' C'. rewrite <- S', <- C'. apply IH; auto; [rewrite E'; eapply gl_ext; eassumption|rewrite S', G'; exact O2|sm].
Qed.

Lemma decl_var_tot c x : c_scopes c <> [] -> fresh (c_scopes c) x = true -> room (c_scopes c) = true -> decl_var fuel c x = Ok (set_scopes c (decl (c_scopes c) x false)).
Proof.
  intros N F R. unfold decl_var, fresh, room in *. destruct (c_scopes c) as [|s r] eqn:E; [congruence|]. unfold scope_decl. destruct (assoc s x); [discriminate|].
  change (((x, scope_len (s :: r)) :: s) :: r) with (decl (s :: r) x false). rewrite scope_len_decl by discriminate. apply Z.ltb_lt in R. destruct (Z.gtb_spec (scope_len (s :: r) + 1) 255); [lia|]. reflexivity.
Qed.
Lemma current_fresh c x : c_scopes c <> [] -> fresh (c_scopes c) x = true -> in_current c x = false.
Proof. unfold fresh, in_current. destruct (c_scopes c); [congruence|]. intros _. destruct (assoc s x); congruence. Qed.
Lemma writable_contains c x : writable (c_globals c) (c_scopes c) x = true -> contains_var c x = true.
Proof. unfold writable, contains_var. destruct (scope_get (c_scopes c) x); [reflexivity|]. destruct (assoc (c_globals c) x); [reflexivity|discriminate]. Qed.

Lemma tot_lvals ls : forall c cs, pst (c_pool c) cs -> gl_in (c_globals c) cs -> c_scopes c <> [] -> ok_lvals (c_globals c) (c_scopes c) ls = true ->
  tot c cs 0 (visit_lvals fuel ls c) (fold_left after_lval ls (c_scopes c)) (c_cps c).
Proof.
  induction ls as [|l ls IH]; intros c cs P G N O; cbn [visit_lvals fold_left]; [apply tot_ret; auto|]. destruct l as [x|x|x]; cbn [ok_lvals after_lval] in *.
  - apply andb_true_iff in O. destruct O as (O & O2). apply andb_true_iff in O. destruct O as (F & R). rewrite (current_fresh c x N F), (decl_var_tot c x N F R). cbn [bind set_scopes c_scopes].
    destruct (decl (c_scopes c) x false) as [|s0 r0] eqn:D; [exfalso; eapply decl_nonempty; eassumption|]. cbn [bind]. rewrite <- D in *. eapply tot_from; [apply (IH (set_scopes c (decl (c_scopes c) x false)) cs); cbn; auto using decl_nonempty|reflexivity].
  - apply andb_true_iff in O. destruct O as (O & O2). apply andb_true_iff in O. destruct O as (F & R). rewrite (current_fresh c x N F), (decl_var_tot c x N F R). cbn [bind set_scopes c_scopes].
    destruct (decl (c_scopes c) x false) as [|s0 r0] eqn:D; [exfalso; eapply decl_nonempty; eassumption|]. cbn [bind]. rewrite <- D in *.
    assert (MC : c_scopes (make_const (set_scopes c (decl (c_scopes c) x false)) x) = decl (c_scopes c) x true) by (rewrite (make_const_decl c x N F); reflexivity).
    assert (MG : c_globals (make_const (set_scopes c (decl (c_scopes c) x false)) x) = c_globals c /\ c_pool (make_const (set_scopes c (decl (c_scopes c) x false)) x) = c_pool c /\ c_cps (make_const (set_scopes c (decl (c_scopes c) x false)) x) = c_cps c) by (rewrite (make_const_decl c x N F); auto).
    destruct MG as (MG & MP & ML). eapply tot_from; [|exact MG]. rewrite <- MC, <- ML. apply IH; rewrite ?MC, ?MG, ?MP; auto using decl_nonempty.
  - apply andb_true_iff in O. destruct O as (W & O2). rewrite (writable_contains c x W).
    eapply (tot_bind _ _ 0 0); [eapply tot_from; [apply (tot_store (emit c (op O_MOVEUP_FP ++ [scope_len (c_scopes c) mod 256])) cs x); cbn; auto|reflexivity]|lia|]. cbn [emit set_buf c_scopes c_cps].
    intros c' cs' ext P' E' L' S' G' C'. rewrite <- S', <- C'. apply IH; auto; [rewrite E'; eapply gl_ext; eassumption|rewrite S'; exact N|rewrite S', G'; exact O2].
Qed.

Lemma tot_validate c cs n v ss l : tot c cs n (v c) ss l -> tot c cs n (validate v c) ss l.
Proof. intros (c' & cs' & ext & E & P & Ec & L & S & G & C). exists (set_buf c' (c_buf c)), cs', ext. unfold validate. rewrite E. repeat split; auto. Qed.
Lemma lits_len s : (length (lits_s s) <= length (literals s))%nat.
Proof. induction s; cbn [lits_s literals]; rewrite ?app_length; try lia; repeat match goal with |- context [if ?b then _ else _] => destruct b end; rewrite ?app_length; cbn [length]; lia. Qed.

Ltac gl := repeat first [assumption | match goal with E : ?cs' = ?cs ++ ?ext |- gl_in _ ?cs' => rewrite E end | match goal with G : c_globals ?c = _ |- gl_in (c_globals ?c) _ => rewrite G end; cbn [c_globals set_cps set_scopes set_buf emit enter_scope] | apply gl_in_ext].
(** How a state is related to the one it came from. *)
Lemma tot_s s : forall c cs, pst (c_pool c) cs -> gl_in (c_globals c) cs -> c_scopes c <> [] -> parsed s = true -> ok_s (c_globals c) (c_scopes c) (in_loop c) s = true ->
  (length (c_cps c) <> 1)%nat -> Forall literal (literals s) -> small cs (length (literals s)) ->
  tot c cs (length (literals s)) (visit_s fuel s c) (after (c_scopes c) s) (c_cps c).
Proof.
  induction s as [|a IHa b IHb|e|x e|x e|ls rs|x e|b IHb|cd a IHa|cd a IHa b IHb|cd b IHb|cd b IHb post IHp|x e b IHb| | |e|e|s IH];
    intros c cs P G N W O CP L S; cbn [visit_s ok_s parsed literals after] in *.
  - apply tot_ret; auto.
  - apply andb_true_iff in O. destruct O as (O1 & O2). apply andb_true_iff in W. destruct W as (W1 & W2). apply Forall_app in L. destruct L as (L1 & L2). rewrite app_length in *.
    eapply tot_bind; [apply IHa; auto; sm|apply le_n|]. intros c' cs' ext P' E' L' S' G' C'. rewrite <- S', <- C'.
    apply IHb; auto; [gl|rewrite S'; apply after_nonempty, N|rewrite S', G'; unfold in_loop in *; rewrite C'; exact O2|rewrite C'; exact CP|sm].
  - assert (V : tot c cs (length (lits_e e)) (do c <- visit_e fuel e c; Ok (emit c (op O_POP))) (c_scopes c) (c_cps c)).
    { eapply (tot_bind _ _ _ 0); [apply tot_e; auto|lia|]. intros c' cs' ext P' E' L' S' G' C'. apply tot_ret; auto. }
    destruct e; try exact V; try (apply tot_ret; auto; fail). apply tot_validate. apply (tot_e (EVar x)); auto.
  - apply andb_true_iff in O. destruct O as (O & R). apply andb_true_iff in O. destruct O as (F & O). unfold declare. rewrite (current_fresh c x N F).
    eapply (tot_bind _ _ _ 0); [apply tot_e; auto|lia|]. intros c' cs' ext P' E' L' S' G' C'. rewrite <- S' in *. rewrite (decl_var_tot c' x N F R). cbn [bind set_scopes c_scopes].
    destruct (decl (c_scopes c') x false) eqn:D; [exfalso; eapply decl_nonempty; eassumption|]. apply tot_ret; auto.
  - apply andb_true_iff in O. destruct O as (O & R). apply andb_true_iff in O. destruct O as (F & O). unfold declare. rewrite (current_fresh c x N F).
    eapply (tot_bind _ _ _ 0 _ _ _ (decl (c_scopes c) x false)); [|rewrite Nat.add_0_r; apply le_n|].
    + eapply (tot_bind _ _ _ 0); [apply tot_e; auto|lia|]. intros c' cs' ext P' E' L' S' G' C'. rewrite <- S' in *. rewrite (decl_var_tot c' x N F R). cbn [bind set_scopes c_scopes].
      destruct (decl (c_scopes c') x false) eqn:D; [exfalso; eapply decl_nonempty; eassumption|]. apply tot_ret; cbn; auto. exact C'.
    + intros c' cs' ext P' E' L' S' G' C'. pose proof (make_const_decl (set_scopes c' (c_scopes c)) x N F) as MC. cbn [c_scopes set_scopes] in MC.
      replace (set_scopes (set_scopes c' (c_scopes c)) (decl (c_scopes c) x false)) with c' in MC by (destruct c'; cbn in S' |- *; subst; reflexivity).
      apply tot_ret; rewrite MC; cbn; auto.
  - apply andb_true_iff in O. destruct O as (O1 & O2). eapply (tot_bind _ _ _ 0); [apply tot_es; auto|lia|]. intros c' cs' ext P' E' L' S' G' C'. rewrite <- S', <- C'.
    apply tot_lvals; auto; [gl|rewrite S'; exact N|rewrite S', G'; exact O2].
  - apply andb_true_iff in O. destruct O as (O1 & O2). rewrite (writable_contains c x O2). eapply (tot_bind _ _ _ 0); [apply tot_e; auto|lia|]. intros c' cs' ext P' E' L' S' G' C'. rewrite <- S', <- C'.
    apply tot_store; auto; [gl|rewrite S', G'; exact O2].
  - eapply (tot_bind _ _ _ 0); [eapply tot_from; [apply (IHb (enter_scope c) cs); cbn; auto; discriminate|reflexivity]|lia|]. cbn [enter_scope set_scopes c_scopes c_cps]. intros c' cs' ext P' E' L' S' G' C'.
    destruct (after_shape b [] (c_scopes c)) as (u & Eu & _). assert (S2 : c_scopes c' = u :: c_scopes c) by (rewrite S'; exact Eu). unfold exit_scope. rewrite S2. apply tot_ret; auto.
  - apply andb_true_iff in O. destruct O as (O1 & O2). apply andb_true_iff in W. destruct W as (W1 & W2). apply Forall_app in L. destruct L as (L1 & L2). rewrite app_length in *. pose proof (after_none a (c_scopes c) N W2) as AN.
    destruct (e_truthy cd); [|destruct (e_falsey cd)].
    + rewrite <- AN at 1. eapply tot_le; [apply IHa; auto; sm|lia].
    + apply tot_validate. rewrite <- AN at 1. eapply tot_le; [apply IHa; auto; sm|lia].
    + eapply tot_bind; [apply tot_e; auto; sm|apply le_n|]. intros c' cs' ext P' E' L' S' G' C'. cbn [enter_jmp].
      eapply tot_from; [eapply (tot_bind _ _ _ 0); [apply IHa; cbn; auto; [gl|rewrite S'; exact N|rewrite S', G'; unfold in_loop in *; cbn; rewrite C'; exact O2|rewrite C'; exact CP|sm]|lia|]|reflexivity].
      cbn. intros c2 cs2 ext2 P2 E2 L2' S2 G2 C2. apply tot_ret; cbn; auto; congruence.
  - apply andb_true_iff in O. destruct O as (O & O3). apply andb_true_iff in O. destruct O as (O1 & O2). apply andb_true_iff in W. destruct W as (W & W4). apply andb_true_iff in W. destruct W as (W & W3). apply andb_true_iff in W. destruct W as (W1 & W2).
    apply Forall_app in L. destruct L as (L1 & L2). apply Forall_app in L2. destruct L2 as (L2 & L3). rewrite !app_length in *. pose proof (after_none a (c_scopes c) N W2) as AN. pose proof (after_none b (c_scopes c) N W4) as BN.
    assert (IB : forall c' cs' ext, pst (c_pool c') cs' -> cs' = cs ++ ext -> (length ext <= length (lits_e cd) + length (literals a))%nat -> c_scopes c' = c_scopes c -> c_globals c' = c_globals c -> c_cps c' = c_cps c ->
      tot c' cs' (length (literals b)) (visit_s fuel b c') (c_scopes c) (c_cps c)).
    { intros c' cs' ext P' E' L' S' G' C'. rewrite <- BN, <- S', <- C'. apply IHb; auto; [gl|rewrite S'; exact N|rewrite S', G'; unfold in_loop in *; rewrite C'; exact O3|rewrite C'; exact CP|sm]. }
    destruct (e_truthy cd); [|destruct (e_falsey cd)].
    + eapply tot_bind; [apply IHa; auto; sm|instantiate (1 := length (literals b)); lia|]. intros c' cs' ext P' E' L' S' G' C'. apply tot_validate. rewrite AN in S'. eapply IB; eauto. lia.
    + eapply tot_bind; [apply tot_validate; apply IHa; auto; sm|instantiate (1 := length (literals b)); lia|]. intros c' cs' ext P' E' L' S' G' C'. rewrite AN in S'. eapply IB; eauto. lia.
    + eapply tot_bind; [apply tot_e; auto; sm|apply le_n|]. intros c' cs' ext P' E' L' S' G' C'. cbn [enter_jmp].
      eapply tot_from; [eapply tot_bind; [apply IHa; cbn; auto; [gl|rewrite S'; exact N|rewrite S', G'; unfold in_loop in *; cbn; rewrite C'; exact O2|rewrite C'; exact CP|sm]|apply le_n|]|reflexivity].
      cbn [emit set_buf c_scopes c_globals c_cps]. intros c2 cs2 ext2 P2 E2 L2' S2 G2 C2. cbn [enter_jmp].
      eapply tot_from; [eapply (tot_bind _ _ _ 0); [apply (IB _ _ (ext ++ ext2)); cbn; auto; [rewrite E2, E', app_assoc; reflexivity|rewrite app_length; lia|rewrite S2, S'; exact AN|congruence|congruence]|lia|]|reflexivity].
      intros c3 cs3 ext3 P3 E3 L3' S3 G3 C3. cbn in S3, G3, C3. apply tot_ret; cbn; auto; congruence.
  - apply andb_true_iff in O. destruct O as (O1 & O2). apply andb_true_iff in W. destruct W as (W1 & W2). apply Forall_app in L. destruct L as (L1 & L2). rewrite !app_length in *. pose proof (after_none b (c_scopes c) N W2) as BN.
    destruct (e_falsey cd).
    + apply tot_validate. rewrite <- BN at 1. eapply tot_le; [apply IHb; auto; sm|lia].
    + eapply tot_from; [eapply tot_bind; [apply tot_e; cbn; auto; sm|apply le_n|]|reflexivity]. cbn [set_cps c_scopes c_globals c_cps]. intros c' cs' ext P' E' L' S' G' C'. cbn [enter_jmp].
      eapply tot_from; [eapply (tot_bind _ _ _ 0); [apply IHb; cbn; auto; [gl|rewrite S'; exact N|rewrite S', G'; exact O2|rewrite C'; cbn; lia|sm]|lia|]|reflexivity].
      cbn. intros c2 cs2 ext2 P2 E2 L2' S2 G2 C2. apply tot_ret; cbn; auto; [rewrite S2, S', BN; reflexivity|rewrite C2, C'; reflexivity].
  - apply andb_true_iff in O. destruct O as (O & O3). apply andb_true_iff in O. destruct O as (O1 & O2). apply andb_true_iff in W. destruct W as (W & W5). apply andb_true_iff in W. destruct W as (W & W4). apply andb_true_iff in W. destruct W as (W & W3). apply andb_true_iff in W. destruct W as (W1 & W2).
    apply Forall_app in L. destruct L as (L1 & L2). apply Forall_app in L2. destruct L2 as (L2 & L3). rewrite !app_length in *. pose proof (after_none b (c_scopes c) N W2) as BN. pose proof (after_none post (c_scopes c) N W4) as PN.
    destruct (e_falsey cd).
    + eapply tot_bind; [apply tot_validate; apply IHb; auto; sm|instantiate (1 := length (literals post)); lia|]. intros c' cs' ext P' E' L' S' G' C'. rewrite BN in S'. apply tot_validate.
      rewrite <- PN, <- S', <- C'. apply IHp; auto; [gl|rewrite S'; exact N|rewrite S', G'; unfold in_loop in *; rewrite C'; exact O3|rewrite C'; exact CP|sm].
    + cbn [enter_jmp]. eapply tot_from; [eapply tot_bind; [apply (IHp (emit (emit c (op O_BR_8)) (enc8 0))); cbn; auto; sm|instantiate (1 := (length (lits_e cd) + length (literals b))%nat); lia|]|reflexivity].
      cbn [emit set_buf c_scopes c_globals c_cps]. intros c1 cs1 ext1 P1 E1 L1' S1 G1 C1. rewrite PN in S1.
      eapply tot_from; [eapply tot_bind; [apply tot_e; cbn; auto; [gl|rewrite S1, G1; exact O1|sm]|apply le_n|]|reflexivity]. cbn [set_cps exit_jmp patch set_buf c_scopes c_globals c_cps]. intros c' cs' ext P' E' L' S' G' C'. cbn [enter_jmp].
      eapply tot_from; [eapply (tot_bind _ _ _ 0); [apply IHb; cbn; auto; [rewrite E', G'; apply gl_in_ext; gl|rewrite S', S1; exact N|rewrite S', S1, G', G1; unfold in_loop; cbn [c_cps emit set_cps set_buf]; exact O2|rewrite C'; cbn; lia|sm]|lia|]|reflexivity].
      cbn. intros c2 cs2 ext2 P2 E2 L2' S2 G2 C2. apply tot_ret; cbn; auto; [rewrite S2, S', S1, BN; reflexivity|rewrite C2, C'; cbn; congruence].
  - apply andb_true_iff in O. destruct O as (O & O3). apply andb_true_iff in O. destruct O as (O1 & O2). apply andb_true_iff in W. destruct W as (W1 & W2). apply Forall_app in L. destruct L as (L1 & L2). rewrite !app_length in *.
    eapply tot_from; [eapply tot_bind; [apply (tot_e e (enter_scope c)); cbn; auto; sm|apply le_n|]|reflexivity]. cbn [enter_scope set_scopes c_scopes c_cps c_globals]. intros c1 cs1 ext1 P1 E1 L1' S1 G1 C1.
    rewrite (decl_var_tot (emit c1 (op O_INITFOR ++ op O_END)) x); cbn [emit set_buf c_scopes]; rewrite ?S1; [|discriminate|reflexivity|exact O2]. cbn [bind set_scopes c_buf c_globals c_pool c_cps emit set_buf enter_jmp set_cps].
    set (ss' := decl ([] :: c_scopes c) x false) in *.
    eapply (tot_bind _ _ 0 (length (literals b))); [eapply tot_from; [apply tot_store; cbn; [exact P1|gl|]|reflexivity]|lia|].
    + pose proof (scope_len_nonneg ([] :: c_scopes c)). unfold writable, ss', decl. cbn [scope_get assoc]. rewrite name_eqb_refl. unfold is_const. destruct (Z.ltb_spec (scope_len ([] :: c_scopes c)) 0); [lia|reflexivity].
    + cbn. intros c2 cs2 ext2 P2 E2 L2' S2 G2 C2. pose proof (after_none b ss' ltac:(discriminate) W2) as BN.
      eapply (tot_bind _ _ _ 0); [apply IHb; auto; [rewrite E2, G2; apply gl_in_ext; gl|rewrite S2; discriminate|rewrite S2, G2, G1; unfold in_loop; rewrite C2; exact O3|rewrite C2; cbn; lia|sm]|lia|].
      intros c3 cs3 ext3 P3 E3 L3' S3 G3 C3. assert (S4 : c_scopes c3 = ss') by (rewrite S3, S2; exact BN). clear S3. rename S4 into S3. unfold exit_scope. cbn [emit set_buf c_scopes branch_back exit_jmp patch]. rewrite S3. unfold ss'. cbn [decl].
      apply tot_ret; cbn; auto. rewrite C3, C2. exact C1.
  - unfold in_loop in O. destruct (c_cps c) eqn:E; [discriminate|]. apply tot_ret; cbn; auto.
  - unfold in_loop in O. destruct (c_cps c) as [|z [|z2 l]] eqn:E; [discriminate|cbn in CP; lia|]. apply tot_ret; cbn; auto.
  - eapply (tot_bind _ _ _ 0); [apply tot_e; auto|lia|]. intros c' cs' ext P' E' L' S' G' C'. apply tot_ret; auto.
  - eapply (tot_bind _ _ _ 0); [apply tot_e; auto|lia|]. intros c' cs' ext P' E' L' S' G' C'. apply tot_ret; auto.
  - discriminate.
Qed.
End T.

(** ** Legal programs meet the compiler's own conditions. *)
Section Legal.
Variable G : scope.
Variable gs : list name.
Hypothesis HG : good_globals G gs.
Lemma peak_ge s : forall d, (d <= peak d s)%nat.
Proof.
  induction s; intros d; cbn [peak]; try lia; auto.
  - specialize (IHs1 d). lia.
  - specialize (IHs1 d). lia.
  - specialize (IHs1 d). lia.
  - specialize (IHs (S d)). lia.
Qed.
Lemma lvals_complete ls : forall ss, ss <> [] -> legal_lvals gs (er ss) ls = true -> scope_len ss + Z.of_nat (length ls) <= 255 -> ok_lvals G ss ls = true.
Proof.
  induction ls as [|l ls IH]; intros ss N H P; [reflexivity|]. cbn [legal_lvals length] in *. rewrite <- er_after_lval in H. apply andb_true_iff in H. destruct H as (H1 & H2).
  assert (R : room ss = true) by (apply Z.ltb_lt; lia).
  destruct l as [x|x|x]; cbn [ok_lvals after_lval] in *; rewrite ?fresh_eq, ?(writable_eq G gs HG), H1, ?R; cbn [andb]; apply IH; auto using decl_nonempty; rewrite ?scope_len_decl by exact N; lia.
Qed.
Lemma never_falsey c : never c = e_falsey c.
Proof. destruct c; reflexivity. Qed.
Lemma legal_ok s : forall ss lp lp', ss <> [] -> legal_s gs (er ss) lp' s = true -> live_jumps lp s = true -> (peak (Z.to_nat (scope_len ss)) s <= 255)%nat -> ok_s G ss lp s = true.
Proof.
  induction s as [|a IHa b IHb|e|x e|x e|ls rs|x e|b IHb|c a IHa|c a IHa b IHb|c b IHb|c b IHb post IHp|x e b IHb| | |e|e|s IH]; intros ss lp lp' N H J P; cbn [ok_s legal_s live_jumps peak] in *; auto;
    pose proof (scope_len_nonneg ss);
    repeat match goal with H : _ && _ = true |- _ => apply andb_true_iff in H; destruct H end; repeat (apply andb_true_iff; split); rewrite ?never_falsey, ?(ok_e_eq G gs HG), ?fresh_eq, ?(writable_eq G gs HG), ?(forallb_ok_e G gs HG) in *; auto.
  - eapply IHa; eauto. lia.
  - rewrite <- er_after in *. eapply IHb; eauto; [apply after_nonempty, N|]. rewrite after_len' by exact N. replace (Z.to_nat (scope_len ss + Z.of_nat (decls a))) with (Z.to_nat (scope_len ss) + decls a)%nat by lia. lia.
  - apply Z.ltb_lt. lia.
  - apply Z.ltb_lt. lia.
  - apply lvals_complete; auto. lia.
  - eapply (IHb ([] :: ss)); eauto. discriminate.
  - eapply IHa; eauto.
  - eapply IHa; eauto. lia.
  - eapply IHb; eauto. lia.
  - eapply IHb; eauto.
  - eapply IHb; eauto. lia.
  - eapply IHp; eauto. lia.
  - change (er ([] :: ss)) with ([] :: er ss). rewrite legal_nil. auto.
  - apply Z.ltb_lt. pose proof (peak_ge b (Datatypes.S (Z.to_nat (scope_len ss)))). lia.
  - eapply IHb; eauto; [apply decl_nonempty; discriminate|rewrite er_decl; eassumption|]. rewrite scope_len_decl by discriminate. change (scope_len ([] :: ss)) with (scope_len ss). replace (Z.to_nat (scope_len ss + 1)) with (Datatypes.S (Z.to_nat (scope_len ss))) by lia. exact P.
  - eapply IH; eauto.
Qed.
Lemma legal_ok_top l : forall ss, ss <> [] -> legal_s gs (er ss) false (body l) = true -> live_jumps false (body l) = true -> (peak (Z.to_nat (scope_len ss)) (body l) <= 255)%nat -> ok_top G ss l = true.
Proof.
  induction l as [|s l IH]; intros ss N H J P; [reflexivity|]. cbn [ok_top body fold_right legal_s live_jumps peak] in *. apply andb_true_iff in H. destruct H as (H1 & H2). apply andb_true_iff in J. destruct J as (J1 & J2).
  pose proof (scope_len_nonneg ss). rewrite (legal_ok s ss false false N H1 J1) by lia. rewrite <- er_after in H2. apply IH; auto; [apply after_nonempty, N|].
  rewrite after_len' by exact N. replace (Z.to_nat (scope_len ss + Z.of_nat (decls s))) with (Z.to_nat (scope_len ss) + decls s)%nat by lia. unfold body. lia.
Qed.
End Legal.

(** ** Whole programs compile. *)
Section W.
Variable fuel : nat.
Hypothesis Hf : FUEL_BOUND <= Z.of_nat fuel.
Lemma tot_stmts l : forall code c cs, pst (c_pool c) cs -> gl_in (c_globals c) cs -> c_scopes c <> [] -> c_cps c = [] -> parsed (body l) = true -> ok_top (c_globals c) (c_scopes c) l = true ->
  Forall literal (literals (body l)) -> small cs (length (literals (body l))) -> exists r, compile_stmts fuel l code c = Ok r.
Proof.
  induction l as [|s l IH]; intros code c cs P G N C W O L S; cbn [compile_stmts]; [eauto|]. cbn [body fold_right literals parsed ok_top] in *. fold (body l) in *.
  apply andb_true_iff in W. destruct W as (W1 & W2). apply andb_true_iff in O. destruct O as (O1 & O2). apply Forall_app in L. destruct L as (L1 & L2). rewrite app_length in S.
  destruct (tot_s fuel Hf s c cs P G N W1) as (c1 & cs1 & ext & E & P1 & Ecs & L' & S1 & G1 & C1); auto.
  { unfold in_loop. rewrite C. exact O1. }
  { rewrite C. cbn. lia. }
  { unfold small in *. lia. }
  rewrite E. cbn [bind]. apply (IH _ (set_buf c1 []) cs1); cbn [set_buf c_pool c_globals c_scopes c_cps]; auto.
  - rewrite G1, Ecs. apply gl_in_ext, G.
  - rewrite S1. apply after_nonempty, N.
  - congruence.
  - rewrite G1, S1. exact O2.
  - unfold small in *. rewrite Ecs, app_length. lia.
Qed.
Lemma tot_globals gs : forall c cs done, pst (c_pool c) cs -> gl_in (c_globals c) cs -> good_globals (c_globals c) done -> c_cps c = [] -> c_scopes c = [] -> Forall (fun x => literal (VStr x)) gs ->
  small cs (length gs) -> exists c' cs' ext, declglobals fuel gs c = Ok c' /\ pst (c_pool c') cs' /\ gl_in (c_globals c') cs' /\ good_globals (c_globals c') (done ++ gs) /\ c_cps c' = [] /\ c_scopes c' = [] /\
    cs' = cs ++ ext /\ (length ext <= length gs)%nat.
Proof.
  induction gs as [|x gs IH]; intros c cs done P G Go C S F Sm; cbn [declglobals].
  - exists c, cs, []. rewrite !app_nil_r. auto 10.
  - inversion F; subst. cbn [length] in Sm. destruct P as (k & m & P). unfold small in Sm.
    destruct (intern_ok fuel _ _ _ _ (VStr x) P H1 ltac:(lia) Hf) as (i & p' & cs' & k' & m' & E & P' & In' & D). unfold declglobal. rewrite E. cbn [bind fst snd].
    assert (X : exists e1, cs' = cs ++ e1 /\ (length e1 <= 1)%nat) by (destruct D as [->| ->]; [exists []; rewrite app_nil_r|exists [VStr x]]; cbn; split; auto; lia).
    destruct X as (e1 & X1 & X2).
    assert (AS : forall y, assoc (match assoc (c_globals c) x with
                               | Some _ => assoc_put (c_globals c) x (Z.of_nat (length (c_globals c)))
                               | None => (x, Z.of_nat (length (c_globals c))) :: c_globals c end) y =
                 if name_eqb x y then Some (Z.of_nat (length (c_globals c))) else assoc (c_globals c) y).
    { intros y. destruct (assoc (c_globals c) x) eqn:Ax.
      - rewrite assoc_put_get. destruct (name_eqb x y) eqn:Exy; [apply name_eqb_spec in Exy; subst y; rewrite Ax; reflexivity|]. destruct (assoc (c_globals c) y); reflexivity.
      - cbn [assoc]. reflexivity. }
    match goal with |- context [declglobals fuel gs ?c1] => set (c1' := c1) end.
    destruct (IH c1' cs' (done ++ [x])) as (c2 & cs2 & ext & E2 & P2 & G2 & Go2 & C2 & S2 & Ec & Le); auto.
    + exists k', m'. exact P'.
    + cbn [c1' c_globals]. intros y z Hy. rewrite AS in Hy. destruct (name_eqb x y) eqn:Exy; [apply name_eqb_spec in Exy; subst y; eapply nth_error_In; exact In'|]. rewrite X1. apply in_or_app. left. eapply G. exact Hy.
    + intros y. cbn [c1' c_globals]. rewrite AS. rewrite existsb_app. cbn [existsb]. rewrite orb_false_r. destruct (name_eqb x y) eqn:Exy.
      * rewrite orb_true_r. cbn [option_map]. unfold is_const. destruct (Z.ltb_spec (Z.of_nat (length (c_globals c))) 0); [lia|reflexivity].
      * rewrite orb_false_r. apply Go.
    + unfold small. rewrite X1, app_length. lia.
    + exists c2, cs2, (e1 ++ ext). repeat split; auto.
      * rewrite <- app_assoc in Go2. exact Go2.
      * rewrite Ec, X1, app_assoc. reflexivity.
      * rewrite app_length. cbn [length]. lia.
Qed.
Lemma legal_compiles gs pr lines : legal_program gs (body pr) = true -> live_jumps false (body pr) = true -> (peak 0 (body pr) <= 255)%nat ->
  Forall (fun x => literal (VStr x)) gs -> Forall literal (literals (body pr)) -> parsed (body pr) = true ->
  Z.of_nat (length gs) + Z.of_nat (length (literals (body pr))) <= 2 ^ 29 ->
  exists bytes, compile_program fuel gs pr lines = Ok bytes.
Proof.
  intros L J P Fg Fl W Sm. unfold compile_program, compiler_new. destruct pool_new_ok as (p0 & k0 & m0 & E0 & P0). rewrite E0. cbn [bind].
  destruct (tot_globals gs (CS [] [] [] p0 []) [] []) as (c1 & cs1 & ext & E1 & P1 & G1 & Go & C1 & S1 & Ec & Le); auto.
  { exists k0, m0. exact P0. }
  { intros x z H. discriminate. }
  { intros x. reflexivity. }
  { unfold small, name in *. cbn [length]. lia. }
  rewrite E1. cbn [bind]. unfold compile. cbn [app] in *.
  destruct (tot_stmts pr [] (enter_scope c1) cs1) as (r & Er); unfold enter_scope; cbn [set_scopes c_pool c_globals c_scopes c_cps]; auto.
  - discriminate.
  - rewrite S1. apply (legal_ok_top _ gs Go); auto. discriminate.
  - unfold small, name in *. rewrite Ec. lia.
  - unfold enter_scope in Er. rewrite Er. cbn [bind]. eauto.
Qed.
End W.
