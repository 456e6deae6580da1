From Verif Require Import Base Bytes BytesProofs Value Table Ops Ast Stmt Limits Constants VM Compiler ValueProofs TableSpec TableProofs TableProofs2 TableProofs3 ConstSpec ConstProofs Gen GenProofs GenProofs2 SimBase Program ProgProofs Fn FnSpec FnCompiler FnCode FnGen FnGen2 FnGen3.

(** ** Places. *)
Lemma set_names_add pl D x : declare_in (set_names pl D) x = set_names pl (add_name D x).
Proof. destruct pl; reflexivity. Qed.
Lemma after_names s : forall ss pl, after_place (set_names pl (snames ss)) s = set_names pl (snames (fafter ss s)).
Proof.
  induction s; intros ss pl; cbn [after_place fafter]; try reflexivity.
  - rewrite IHs1. apply IHs2.
  - rewrite set_names_add, snames_decl. reflexivity.
  - rewrite set_names_add, snames_decl. reflexivity.
Qed.
Lemma good_after c pl F cs s : good c pl F cs -> set_names pl (snames (fafter (cur c) s)) = after_place pl s.
Proof. intros Gd. rewrite <- after_names, (good_names _ _ _ _ Gd). reflexivity. Qed.
Lemma good_inner c pl F cs : good c pl F cs -> set_names pl (snames ([] :: cur c)) = inner pl.
Proof. intros Gd. rewrite <- (good_names _ _ _ _ Gd) at 2. destruct pl; reflexivity. Qed.
Lemma good_declare c pl F cs x k : good c pl F cs -> set_names pl (snames (decl (cur c) x k)) = declare_in pl x.
Proof. intros Gd. rewrite snames_decl, <- set_names_add, (good_names _ _ _ _ Gd). reflexivity. Qed.
Lemma gens_refl c cs pl F : good c pl F cs -> gens c c cs cs (cur c) [].
Proof.
  intros Gd. pose proof (gens_set_cur c cs (cur c) (g_pool _ _ _ _ Gd) (g_ups _ _ _ _ Gd)) as Q. replace (set_cur c (cur c)) with c in Q; [exact Q|]. destruct c as (c & [|e r]); [destruct c|destruct e]; reflexivity.
Qed.
Lemma decl_nonempty ss x k : ss <> [] -> decl ss x k <> [].
Proof. destruct ss; [congruence|discriminate]. Qed.

(** The body of a function literal at a good place. *)
Lemma rel_body c pl F cs ps U : good c pl F cs -> rel (fn_body pl ps) (fn_env c ps) (fscope (senv_of c U F)).
Proof.
  intros Gd. pose proof (g_rel _ _ _ _ Gd) as R. unfold rel in R. unfold senv_of. destruct pl as [D|D hid ro]; destruct (f_envs c) as [|e r] eqn:Hes; try contradiction; cbn [fn_body rel fn_env f_envs f_c fe_scopes fscope]; rewrite ?Hes.
  - split; [apply pscope_names|]. split; [intros x; split; reflexivity|]. intros x Hx. split; [reflexivity|]. rewrite snames_removelast, R. exact Hx.
  - split; [apply pscope_names|]. destruct R as (R0 & A & B). split; [exact A|]. intros x Hx. rewrite mem_app in Hx. apply orb_false_iff in Hx. destruct Hx as (X1 & X2). destruct (B x X1) as (B1 & B2). split; [|exact B2].
    unfold env_contains in *. cbn [existsb]. rewrite get_mem, R0, X2. exact B1.
Qed.

Section V.
Variables (fuel : nat) (base : Z) (G : scope).
Definition er_ok (er : Z) : Prop := er = 1 \/ er = -1.
Definition spec_e (e : fexpr) : Prop := forall er c c' pl F cs kind, fvisit_e fuel e er c = Ok c' -> er_ok er -> good c pl F cs -> c_globals (f_c c) = G ->
  plain_e pl e = true -> Forall literal (flits_e e) -> NoDup (labels_e e) -> KI kind (base + fcount c) ->
  made base c c' cs (cur c) (labels_e e) kind (fun K k U bs => code_e K k G (senv_of c U F) (base + fcount c) e bs).
Definition spec_a (es : fargs) : Prop := forall er c c' pl F cs kind, fvisit_args fuel es er c = Ok c' -> er_ok er -> good c pl F cs -> c_globals (f_c c) = G ->
  plain_args pl es = true -> Forall literal (flits_args es) -> NoDup (labels_args es) -> KI kind (base + fcount c) ->
  made base c c' cs (cur c) (labels_args es) kind (fun K k U bs => code_args K k G (senv_of c U F) (base + fcount c) es bs).
Definition spec_s (s : fstmt) : Prop := forall er c c' pl F cs kind, fvisit_s fuel s er c = Ok c' -> er_ok er -> good c pl F cs -> c_globals (f_c c) = G ->
  plain_s pl s = true -> Forall literal (flits_s s) -> NoDup (labels_s s) -> KI kind (base + fcount c) ->
  made base c c' cs (fafter (cur c) s) (labels_s s) kind (fun K k U bs => code_s K k G (senv_of c U F) (base + fcount c) s bs).

(** The same after a piece [b0] that left the scopes as they were. *)
Lemma next_e e er c0 c1 c2 pl F cs0 cs kind b0 : spec_e e -> gens c0 c1 cs0 cs (cur c0) b0 -> fvisit_e fuel e er c1 = Ok c2 -> er_ok er -> good c0 pl F cs0 -> c_globals (f_c c0) = G ->
  plain_e pl e = true -> Forall literal (flits_e e) -> NoDup (labels_e e) -> KI kind (base + fcount c1) ->
  made base c1 c2 cs (cur c0) (labels_e e) kind (fun K k U bs => code_e K k G (senv_of c0 U F) (base + fcount c0 + len b0) e bs).
Proof.
  intros Sp Gn E R Gd Gl P L N KI0. pose proof (Sp er c1 c2 pl F cs kind E R (gens_good_same _ _ _ _ _ _ _ Gn Gd) ltac:(rewrite (gens_gl _ _ _ _ _ _ Gn); exact Gl) P L N KI0) as M.
  rewrite (gens_cur _ _ _ _ _ _ Gn) in M. eapply made_imp; [exact M|]. intros K k U b. cbn beta. rewrite (gens_senv_same _ _ _ _ _ U F Gn), (gens_count _ _ _ _ _ _ Gn), Z.add_assoc. auto.
Qed.
Lemma next_a e er c0 c1 c2 pl F cs0 cs kind b0 : spec_a e -> gens c0 c1 cs0 cs (cur c0) b0 -> fvisit_args fuel e er c1 = Ok c2 -> er_ok er -> good c0 pl F cs0 -> c_globals (f_c c0) = G ->
  plain_args pl e = true -> Forall literal (flits_args e) -> NoDup (labels_args e) -> KI kind (base + fcount c1) ->
  made base c1 c2 cs (cur c0) (labels_args e) kind (fun K k U bs => code_args K k G (senv_of c0 U F) (base + fcount c0 + len b0) e bs).
Proof.
  intros Sp Gn E R Gd Gl P L N KI0. pose proof (Sp er c1 c2 pl F cs kind E R (gens_good_same _ _ _ _ _ _ _ Gn Gd) ltac:(rewrite (gens_gl _ _ _ _ _ _ Gn); exact Gl) P L N KI0) as M.
  rewrite (gens_cur _ _ _ _ _ _ Gn) in M. eapply made_imp; [exact M|]. intros K k U b. cbn beta. rewrite (gens_senv_same _ _ _ _ _ U F Gn), (gens_count _ _ _ _ _ _ Gn), Z.add_assoc. auto.
Qed.
(** Blocks. *)
Lemma block_made s er c0 c1 c2 pl F cs0 cs kind b0 : spec_s s -> gens c0 c1 cs0 cs (cur c0) b0 -> (do c <- fvisit_s fuel s er (fenter_scope c1); Ok (fexit_scope c)) = Ok c2 ->
  er_ok er -> good c0 pl F cs0 -> c_globals (f_c c0) = G -> plain_s (inner pl) s = true -> Forall literal (flits_s s) -> NoDup (labels_s s) -> KI kind (base + fcount c1) ->
  made base c1 c2 cs (cur c0) (labels_s s) kind (fun K k U bs => exists b1, code_s K k G (s_in (senv_of c0 U F)) (base + fcount c0 + len b0) s b1 /\ bs = b1 ++ bpops (senv_of c0 U F) s).
Proof.
  intros Sp Gn E R Gd Gl P L N KI0. inv_bind E. injection E as <-. pose proof (gens_good_same _ _ _ _ _ _ _ Gn Gd) as Gd1. pose proof (gens_cur _ _ _ _ _ _ Gn) as C1.
  pose proof (gens_set_cur c1 cs ([] :: cur c1) (g_pool _ _ _ _ Gd1) (g_ups _ _ _ _ Gd1)) as Ge. change (set_cur c1 ([] :: cur c1)) with (fenter_scope c1) in Ge.
  pose proof (gens_good _ _ _ _ _ _ _ _ Ge Gd1 ltac:(discriminate)) as Gd2. rewrite (good_inner _ _ _ _ Gd1) in Gd2.
  assert (Cn : fcount (fenter_scope c1) = fcount c1) by (rewrite (gens_count _ _ _ _ _ _ Ge); unfold len; cbn [length]; lia).
  destruct (Sp er _ _ _ F cs kind E0 R Gd2 ltac:(rewrite (gens_gl _ _ _ _ _ _ Ge), (gens_gl _ _ _ _ _ _ Gn); exact Gl) P L N ltac:(rewrite Cn; exact KI0)) as (cs' & bs & k' & A & B & D & H).
  rewrite (gens_cur _ _ _ _ _ _ Ge), C1 in A. assert (Hs : exists t, fafter ([] :: cur c0) s = t :: cur c0) by (destruct (fafter_shape s [] (cur c0)) as (t & Hs & _); exists t; exact Hs). destruct Hs as (t & Hs).
  match type of A with gens _ _ _ _ ?x _ => change x with (fafter ([] :: cur c0) s) in A end. rewrite Hs in A.
  pose proof (gens_trans _ _ _ _ _ _ _ _ _ _ Ge A) as A'. apply gens_exit in A'. cbn [app] in A'. pose proof A as A0. apply gens_exit in A0.
  exists cs', (bs ++ pops (t :: cur c0)), k'. split; [exact A'|]. split; [|split; [exact D|]].
  - eapply KI_mono; [exact B|]. apply gens_count in A, A0. rewrite A, A0. unfold len. rewrite app_length. lia.
  - intros K U k2 HK HU HA. exists bs. unfold bpops. rewrite sc_senv, Hs. split; [|reflexivity].
    specialize (H K U k2 HK). assert (Up : upn (fexit_scope c) = upn c) by (unfold fexit_scope, upn; destruct c as (c & [|e r]); reflexivity). rewrite Up in HU. specialize (H HU HA).
    rewrite (gens_senv _ _ _ _ _ _ U F Ge), (gens_senv_same _ _ _ _ _ U F Gn), Cn, (gens_count _ _ _ _ _ _ Gn), Z.add_assoc, C1 in H. unfold s_in. rewrite sc_senv. exact H.
Qed.
Lemma back_made c1 cs index kind : pooled (c_pool (f_c c1)) cs -> ups_ok (last (c_scopes (f_c c1)) []) (f_envs c1) -> gens c1 (on_c (fun d => branch_back d index) c1) cs cs (cur c1) (op O_BR_8 ++ enc8 (index - (fcount c1 + 9))) /\ (KI kind (base + fcount c1) -> KI kind (base + fcount (on_c (fun d => branch_back d index) c1))).
Proof.
  intros P U. assert (Q : on_c (fun d => branch_back d index) c1 = femit c1 (op O_BR_8 ++ enc8 (index - (fcount c1 + 9)))).
  { unfold femit, on_c, branch_back. f_equal. unfold fcount. destruct (f_c c1) as [y1 y2 y3 y4 y5] eqn:Hc. unfold emit, set_buf, count. cbn [c_buf c_scopes c_globals c_pool c_cps]. rewrite <- app_assoc, app_length. cbn [op length]. replace (index - Z.of_nat (length y1 + 1) - 8) with (index - (Z.of_nat (length y1) + 9)) by lia. reflexivity. }
  rewrite Q. split; [apply gens_emit; assumption|]. intros K0. eapply KI_mono; [exact K0|]. rewrite fcount_femit. unfold len. lia.
Qed.
Ltac kmono := eapply KI_mono; [eassumption|rewrite ?fcount_femit; unfold len; lia].
Ltac spl P := apply andb_prop in P; let Q := fresh P in destruct P as (P & Q).
Ltac splF L := apply Forall_app in L; let Q := fresh L in destruct L as (L & Q).
Lemma nd_app {A} (a b : list A) : NoDup (a ++ b) -> NoDup a /\ NoDup b.
Proof. intros N. apply nodup_app_inv in N. tauto. Qed.
Lemma fn_ret_code c c2 er : fn_ret c = Ok c2 -> ups_ok er (f_envs c) -> f_envs c <> [] /\ c2 = femit c (op O_RET ++ [scope_len (cur c) mod 256]).
Proof.
  unfold fn_ret, cur. destruct (f_envs c) as [|e r]; [discriminate|]. intros [= <-] (_ & -> & _). split; [discriminate|reflexivity].
Qed.
Lemma named_rel c pl F cs x (k : bool) ps U : good c pl F cs -> fresh (cur c) x = true ->
  exists hid ro, named_body pl k x ps = InFun [rev (pnames ps)] hid ro /\ rel (InFun [rev (pnames ps)] hid ro) (fn_env (set_cur c (decl (cur c) x false)) ps) (fscope (s_decl (senv_of c U F) x k)).
Proof.
  intros Gd Fr. pose proof (gens_set_cur c cs (decl (cur c) x false) (g_pool _ _ _ _ Gd) (g_ups _ _ _ _ Gd)) as Ge.
  pose proof (gens_good _ _ _ _ _ _ _ _ Ge Gd (decl_nonempty _ _ _ (g_ne _ _ _ _ Gd))) as Gd1. rewrite (good_declare _ _ _ _ x false Gd) in Gd1.
  pose proof (rel_body _ _ _ _ ps U Gd1) as Rb. pose proof (g_rel _ _ _ _ Gd) as R0. pose proof (g_ne _ _ _ _ Gd) as N0.
  destruct pl as [D|D hid ro]; unfold rel in R0; destruct (f_envs c) as [|e r] eqn:Hes; try contradiction.
  - assert (C0 : cur c = c_scopes (f_c c)) by (unfold cur; rewrite Hes; reflexivity). rewrite C0 in *. destruct (c_scopes (f_c c)) as [|t [|t2 r]] eqn:Hs; [congruence| |].
    + subst D. cbn [snames map named_body]. exists [], (if k then [x] else []). split; [reflexivity|]. unfold senv_of. rewrite Hes, Hs. unfold s_decl. cbn [sc set_sc fscope decl last].
      unfold fn_env, set_cur. rewrite Hes. cbn [rel f_envs f_c fe_scopes set_scopes c_scopes last removelast snames map concat]. split; [apply pscope_names|]. split; [|intros y _; split; reflexivity].
      intros y. cbn [assoc]. destruct (name_eqb x y) eqn:Q; [|split; reflexivity]. apply name_eqb_spec in Q. subst y. split.
      * pose proof (scope_len_nonneg [t]) as Ln. destruct k; [|reflexivity]. cbn [option_map]. f_equal. rewrite (proj2 (lnot_neg _ Ln)), (proj2 (pos_not_const _ Ln)). reflexivity.
      * destruct k; [|reflexivity]. unfold mem. cbn [existsb]. rewrite name_eqb_refl. discriminate.
    + subst D. exists (concat (removelast (add_name (snames (t :: t2 :: r)) x))), []. split; [reflexivity|]. cbn [declare_in fn_body] in Rb. unfold senv_of in *. rewrite Hes, Hs. unfold set_cur in Rb |- *. rewrite Hes in Rb |- *. exact Rb.
  - exists (hid ++ concat (add_name D x)), ro. split; [reflexivity|]. cbn [declare_in fn_body] in Rb. unfold senv_of in *. rewrite Hes. unfold set_cur in Rb |- *. rewrite Hes in Rb |- *. exact Rb.
Qed.
Theorem fvisit_made : (forall e, spec_e e) /\ (forall es, spec_a es) /\ (forall s, spec_s s).
Proof.
  apply fn_ind.
  - (* undef *) intros er c c' pl F cs kind E R Gd Gl P L N KI0. injection E as <-. eapply made_imp; [apply made_emit; [apply Gd|apply Gd|exact KI0]|]. intros K k U b ->. reflexivity.
  - intros b er c c' pl F cs kind E R Gd Gl P L N KI0. injection E as <-. eapply made_imp; [apply made_emit; [apply Gd|apply Gd|exact KI0]|]. intros K k U b0 ->. reflexivity.
  - intros i er c c' pl F cs kind E R Gd Gl P L N KI0. inversion L; subst. eapply made_imp; [eapply lit_made; eassumption|]. auto.
  - intros f er c c' pl F cs kind E R Gd Gl P L N KI0. inversion L; subst. eapply made_imp; [eapply lit_made; eassumption|]. auto.
  - intros s er c c' pl F cs kind E R Gd Gl P L N KI0. inversion L; subst. eapply made_imp; [eapply lit_made; eassumption|]. auto.
  - intros x er c c' pl F cs kind E R Gd Gl P L N KI0. eapply made_imp; [eapply load_made; eassumption|]. cbn beta. intros K k U b. rewrite Gl. auto.
  - (* unary *) intros o e IH er c c' pl F cs kind E R Gd Gl P L N KI0. cbn [fvisit_e fvisit_args fvisit_s plain_e plain_args plain_s flits_e flits_args flits_s labels_e labels_args labels_s] in *. inv_bind E. injection E as <-.
    eapply made_imp; [apply made_emit_r; eapply IH; eassumption|]. intros K k U b (b' & A & ->). exists b'. auto.
  - (* binary *) intros o l IHl r IHr er c c' pl F cs kind E R Gd Gl P L N KI0. cbn [fvisit_e fvisit_args fvisit_s plain_e plain_args plain_s flits_e flits_args flits_s labels_e labels_args labels_s] in *. inv_bind E. inv_bind E. injection E as <-. spl P. splF L. destruct (nd_app _ _ N) as (N1 & N2).
    eapply made_seq; [exact N|eapply IHl; eassumption| |].
    + intros cs1 b1 k1 Gn K1. apply made_emit_r. eapply (next_e r er c); eassumption.
    + cbn beta. intros K k U b1 b2 A (b' & B & ->). exists b1, b'. rewrite <- ?app_assoc. auto.
  - (* short circuit *) intros o l IHl r IHr er c c' pl F cs kind E R Gd Gl P L N KI0. cbn [fvisit_e fvisit_args fvisit_s plain_e plain_args plain_s flits_e flits_args flits_s labels_e labels_args labels_s] in *. inv_bind E. cbn [fjmp] in E. inv_bind E. injection E as <-. spl P. splF L. destruct (nd_app _ _ N) as (N1 & N2).
    eapply made_seq; [exact N|eapply IHl; eassumption| |].
    + intros cs1 b1 k1 Gn K1. apply made_emit_l. apply made_jump. apply made_emit_l. eapply (next_e r er c); try eassumption; [|kmono]. repeat apply gens_emit_r. exact Gn.
    + cbn beta. intros K k U b1 b2 A (b' & (g & (b'' & B & ->) & ->) & ->). exists b1, b''. split; [exact A|].
      match type of B with code_e _ _ _ _ ?x _ _ => replace x with (base + fcount c + len b1 + 11) in B by (unfold len; rewrite !app_length, enc8_length; cbn [op length]; lia) end.
      split; [exact B|]. unfold len. rewrite app_length. cbn [op length]. replace (Z.of_nat (1 + length b'')) with (1 + Z.of_nat (length b'')) by lia. reflexivity.
  - (* ternary *) intros a IHa b IHb d IHd er c c' pl F cs kind E R Gd Gl P L N KI0. cbn [fvisit_e fvisit_args fvisit_s plain_e plain_args plain_s flits_e flits_args flits_s labels_e labels_args labels_s] in *. inv_bind E. cbn [fjmp] in E. inv_bind E. inv_bind E. injection E as <-. spl P. spl P. splF L. splF L0. destruct (nd_app _ _ N) as (N1 & N2). destruct (nd_app _ _ N2) as (N3 & N4).
    eapply made_seq; [exact N|eapply IHa; eassumption| |].
    + intros cs1 b1 k1 Gn K1. eapply (made_ifelse base c0 O_BRF_8 O_BR_8 c1 c2 cs1 (cur c) (cur c) _ _ k1 _ (fun g1 K k U bs => code_e K k G (senv_of c U F) (base + fcount c + len b1 + len g1 + 18) d bs)); [exact N2| |].
      * eapply (next_e b er c); try eassumption; [|kmono]. repeat apply gens_emit_r. exact Gn.
      * cbn beta. intros cs2 b2 k2 j G2 Gj K2 Cn. pose proof (gens_trans _ _ _ _ _ _ _ _ _ _ Gn Gj) as Gt. eapply made_imp; [exact (next_e d er c _ _ pl F cs cs2 k2 (b1 ++ j) IHd Gt E2 R Gd Gl P0 L1 N4 K2)|].
        cbn beta. intros K k U bs. replace (base + fcount c + len (b1 ++ j)) with (base + fcount c + len b1 + len b2 + 18); [auto|]. rewrite (gens_count _ _ _ _ _ _ Gt), (gens_count _ _ _ _ _ _ Gn) in Cn. lia.
    + cbn beta. intros K k U b1 b2 A (g1 & g2 & B & D & ->). exists b1, g1, g2. split; [exact A|].
      match type of B with code_e _ _ _ _ ?x _ _ => replace x with (base + fcount c + len b1 + 9) in B by (unfold len; rewrite !app_length, enc8_length; cbn [op length]; lia) end. auto.
  - (* call *) intros f IHf es IHes er c c' pl F cs kind E R Gd Gl P L N KI0. cbn [fvisit_e fvisit_args fvisit_s plain_e plain_args plain_s flits_e flits_args flits_s labels_e labels_args labels_s] in *. inv_bind E. inv_bind E. injection E as <-. spl P. splF L. destruct (nd_app _ _ N) as (N1 & N2).
    eapply made_seq; [exact N|eapply IHf; eassumption| |].
    + intros cs1 b1 k1 Gn K1. apply made_emit_r. apply made_emit_l. eapply (next_a es er c); try eassumption; [|kmono]. apply gens_emit_r. exact Gn.
    + cbn beta. intros K k U b1 b2 A (b' & (g & B & ->) & ->). exists er, b1, g. split; [exact R|]. split; [exact A|].
      match type of B with code_args _ _ _ _ ?x _ _ => replace x with (base + fcount c + len b1 + 2) in B by (unfold len; rewrite !app_length; cbn [op length]; lia) end.
      split; [exact B|]. rewrite <- !app_assoc. reflexivity.
  - (* context *) intros n e IH er c c' pl F cs kind E R Gd Gl P L N KI0. cbn [fvisit_e fvisit_args fvisit_s plain_e plain_args plain_s flits_e flits_args flits_s labels_e labels_args labels_s] in *. spl P.
    eapply IH; try eassumption. apply orb_prop in P. destruct P as [P|P]; apply Z.eqb_eq in P; [left|right]; exact P.
  - (* function *) intros l ps b IH er c c' pl F cs kind E R Gd Gl P L N KI0. cbn [fvisit_e fvisit_args fvisit_s plain_e plain_args plain_s flits_e flits_args flits_s labels_e labels_args labels_s] in *. inv_bind E. destruct c0 as (c0, old). inv_bind E. spl P.
    destruct (fn_start_ok _ _ _ _ _ E0 P) as (-> & ->). pose proof (rel_body c pl F cs ps [] Gd) as Rb.
    assert (Hb : exists hid ro, fn_body pl ps = InFun [rev (pnames ps)] hid ro) by (destruct pl; cbn [fn_body]; eauto). destruct Hb as (hid & ro & Hb). rewrite Hb in *.
    assert (Fs : forall U, fscope (senv_of c U F) = fscope (senv_of c [] F)) by (intros U; unfold senv_of; destruct (f_envs c); reflexivity).
    eapply made_imp; [eapply (fn_made base c ps er b c1 c' cs l kind hid ro (fscope (senv_of c [] F)) fuel (fun U => senv_of c U F) G); try eassumption|].
    + intros kind' K'. inversion N; subst. eapply made_imp; [eapply (IH er (fn_enter c ps) c1 _ _ cs kind'); try eassumption; apply good_enter; try exact Rb; apply Gd|]. auto.
    + unfold senv_of. destruct (f_envs c); [|eauto]. intros U x z Hz. exists z. auto.
    + cbn beta. intros K k U bs Hf. cbn [code_e]. rewrite Fs. exact Hf.
  - (* no arguments *) intros er c c' pl F cs kind E R Gd Gl P L N KI0. cbn [fvisit_args labels_args] in *. injection E as <-. eapply made_of_gens; [eapply gens_refl; exact Gd|exact KI0|]. reflexivity.
  - intros e IHe es IHes er c c' pl F cs kind E R Gd Gl P L N KI0. cbn [fvisit_e fvisit_args fvisit_s plain_e plain_args plain_s flits_e flits_args flits_s labels_e labels_args labels_s] in *. inv_bind E. spl P. splF L. destruct (nd_app _ _ N) as (N1 & N2).
    eapply made_seq; [exact N|eapply IHe; eassumption| |].
    + intros cs1 b1 k1 Gn K1. eapply (next_a es er c); eassumption.
    + cbn beta. intros K k U b1 b2 A B. exists b1, b2. auto.
  - (* skip *) intros er c c' pl F cs kind E R Gd Gl P L N KI0. cbn [fvisit_s labels_s fafter] in *. injection E as <-. eapply made_of_gens; [eapply gens_refl; exact Gd|exact KI0|]. reflexivity.
  - (* seq *) intros a IHa b IHb er c c' pl F cs kind E R Gd Gl P L N KI0. cbn [fvisit_e fvisit_args fvisit_s plain_e plain_args plain_s flits_e flits_args flits_s labels_e labels_args labels_s fafter] in *. inv_bind E. spl P. splF L. destruct (nd_app _ _ N) as (N1 & N2).
    eapply made_seq; [exact N|eapply IHa; eassumption| |].
    + intros cs1 b1 k1 Gn K1. pose proof (gens_good _ _ _ _ _ _ _ _ Gn Gd (fafter_nonempty a _ (g_ne _ _ _ _ Gd))) as Gd1. rewrite (good_after _ _ _ _ _ Gd) in Gd1.
      eapply (made_imp _ _ _ _ _ _ _ (fun K k U bs => code_s K k G (s_after (senv_of c U F) a) (base + fcount c + len b1) b bs)).
      * rewrite <- (gens_cur _ _ _ _ _ _ Gn). eapply made_imp; [eapply IHb; try eassumption; rewrite (gens_gl _ _ _ _ _ _ Gn); exact Gl|]. cbn beta. intros K k U bs Hb.
        rewrite (gens_senv _ _ _ _ _ _ U F Gn), (gens_count _ _ _ _ _ _ Gn), Z.add_assoc in Hb. unfold s_after. rewrite sc_senv. exact Hb.
      * intros K k U bs Hb. exact Hb.
    + cbn beta. intros K k U b1 b2 A B. exists b1, b2. auto.
  - (* expression statement *) intros e IHe er c c' pl F cs kind E R Gd Gl P L N KI0. cbn [plain_s flits_s labels_s fafter] in *.
    assert (Pop : forall c0, (do c1 <- fvisit_e fuel e er c0; Ok (femit c1 (op O_POP))) = Ok c' -> c0 = c -> fquiet e = false -> made base c c' cs (cur c) (labels_e e) kind (fun K k U bs => code_s K k G (senv_of c U F) (base + fcount c) (FExpr e) bs)).
    { intros c0 E' -> Q. inv_bind E'. injection E' as <-. eapply made_imp; [apply made_emit_r; eapply IHe; eassumption|]. intros K k U b (b' & A & ->). cbn [code_s]. rewrite Q. exists b'. auto. }
    assert (Qt : fquiet e = true -> labels_e e = [] -> Ok c = Ok c' -> match e with FVar _ => False | _ => True end -> made base c c' cs (cur c) (labels_e e) kind (fun K k U bs => code_s K k G (senv_of c U F) (base + fcount c) (FExpr e) bs)).
    { intros Q -> [= <-] NV. eapply made_of_gens; [eapply gens_refl; exact Gd|exact KI0|]. intros K U k _ _. cbn [code_s]. rewrite Q. split; [reflexivity|]. destruct e; try exact I; destruct NV. }
    destruct e; try (apply Qt; [reflexivity|reflexivity|exact E|exact I]); try (eapply Pop; [exact E|reflexivity|reflexivity]).
    change (fvalidate (fvisit_e fuel (FVar x) er) c = Ok c') in E. unfold fvalidate in E. destruct (fvisit_e fuel (FVar x) er c) as [c1| | |] eqn:E1; try discriminate. injection E as <-.
    pose proof (IHe er c c1 pl F cs kind E1 R Gd Gl P L N KI0) as M. eapply made_imp; [apply made_validate; [exact M|exact KI0]|]. cbn beta. intros K k U b (-> & Hx). destruct (Hx eq_refl) as (b' & Hb). cbn [code_s fquiet]. split; [reflexivity|]. eapply load_known. exact Hb.
  - (* let *) intros k x e IHe er c c' pl F cs kind E R Gd Gl P L N KI0. cbn [fvisit_e fvisit_args fvisit_s plain_e plain_args plain_s flits_e flits_args flits_s labels_e labels_args labels_s fafter] in *. inv_bind E.
    destruct (in_current (view c0) x) eqn:Fr; [discriminate|]. inv_bind E. injection E as <-.
    destruct (IHe er c c0 pl F cs kind E0 R Gd Gl P L N KI0) as (cs1 & b1 & k1 & Gn & K1 & Kf & H). pose proof (gens_good_same _ _ _ _ _ _ _ Gn Gd) as Gd1. pose proof (gens_cur _ _ _ _ _ _ Gn) as C1.
    assert (Fr' : fresh (cur c0) x = true) by (apply (fresh_current (view c0)); [apply Gd1|exact Fr]). rewrite (decl_k fuel c0 x k c1 E1 (g_ne _ _ _ _ Gd1) Fr'). rewrite C1 in *.
    pose proof (gens_set_cur c0 cs1 (decl (cur c) x k) (g_pool _ _ _ _ Gd1) (g_ups _ _ _ _ Gd1)) as Gs. pose proof (gens_trans _ _ _ _ _ _ _ _ _ _ Gn Gs) as Gt. rewrite app_nil_r in Gt.
    exists cs1, b1, k1. split; [exact Gt|]. split; [|split; [exact Kf|]].
    + eapply KI_mono; [exact K1|]. rewrite (gens_count _ _ _ _ _ _ Gs). unfold len. cbn [length]. lia.
    + intros K U k2 HK HU HA. cbn [code_s]. rewrite sc_senv. split; [exact Fr'|]. apply H; [exact HK|eapply prefix_trans; [|exact HU]; apply estep_upn, Gs|exact HA].
  - (* named function *) intros k x l ps b IH er c c' pl F cs kind E R Gd Gl P L N KI0. cbn [fvisit_e fvisit_args fvisit_s plain_e plain_args plain_s flits_e flits_args flits_s labels_e labels_args labels_s fafter] in *.
    destruct (in_current (view c) x) eqn:Fr; [discriminate|]. assert (Fr' : fresh (cur c) x = true) by (apply (fresh_current (view c)); [apply Gd|exact Fr]).
    inv_bind E. rewrite (decl_step _ _ _ _ E0 (g_ne _ _ _ _ Gd) Fr') in E. clear c0 E0. set (c0 := set_cur c (decl (cur c) x false)) in *. inv_bind E. destruct c1 as (c1, old). inv_bind E. inv_bind E. injection E as <-. spl P.
    destruct (fn_start_ok _ _ _ _ _ E0 P) as (-> & ->). destruct (named_rel c pl F cs x k ps [] Gd Fr') as (hid & ro & Hb & Rb). rewrite Hb in P0. fold c0 in Rb.
    pose proof (gens_set_cur c cs (decl (cur c) x false) (g_pool _ _ _ _ Gd) (g_ups _ _ _ _ Gd)) as Ge. fold c0 in Ge.
    pose proof (gens_good _ _ _ _ _ _ _ _ Ge Gd (decl_nonempty _ _ _ (g_ne _ _ _ _ Gd))) as Gd0. assert (C0 : fcount c0 = fcount c) by (rewrite (gens_count _ _ _ _ _ _ Ge); unfold len; cbn [length]; lia).
    assert (Gl0 : c_globals (f_c c0) = G) by (rewrite (gens_gl _ _ _ _ _ _ Ge); exact Gl).
    assert (Fs : forall U, fscope (s_decl (senv_of c U F) x k) = fscope (s_decl (senv_of c [] F) x k)) by (intros U; unfold senv_of; destruct (f_envs c); reflexivity).
    assert (M : made base c0 c3 cs (cur c0) (l :: labels_s b) kind (fun K k2 U bs => c_fn k2 (s_decl (senv_of c U F) x k) (fscope (s_decl (senv_of c [] F) x k)) l ps b (fun E' a' bs' => code_s K k2 G E' a' b bs') (base + fcount c0) bs)).
    { eapply (fn_made base c0 ps er b c2 c3 cs l kind hid ro (fscope (s_decl (senv_of c [] F) x k)) fuel (fun U => s_decl (senv_of c U F) x k) G); try eassumption.
      - intros kind' K'. inversion N; subst. eapply made_imp; [eapply (IH er (fn_enter c0 ps) c2 _ _ cs kind'); try eassumption; apply good_enter; try exact Rb; apply Gd0|]. auto.
      - rewrite C0. exact KI0.
      - unfold senv_of, c0, set_cur. destruct (f_envs c) as [|e r] eqn:Hes; cbn [f_envs f_c].
        + intros U y z Hz. unfold s_decl. cbn [sc set_sc c_capture]. unfold cur in Hz. rewrite Hes in Hz. cbn [set_scopes c_scopes] in Hz. destruct (c_scopes (f_c c)) as [|t [|t2 r]]; [discriminate Hz| |].
          * cbn [decl last assoc] in *. destruct (name_eqb x y); [|exists z; auto]. injection Hz as <-. eexists. split; [reflexivity|]. pose proof (scope_len_nonneg [t]) as Ln. destruct k; [|reflexivity]. rewrite (proj2 (lnot_neg _ Ln)), (proj2 (pos_not_const _ Ln)). reflexivity.
          * exists z. split; [exact Hz|reflexivity].
        + intros U. unfold s_decl. cbn [sc set_sc]. eauto. }
    destruct M as (cs1 & b1 & k1 & Gn & K1 & Kf & H). pose proof (gens_trans _ _ _ _ _ _ _ _ _ _ Ge Gn) as Gt. cbn [app] in Gt. replace (cur c0) with (decl (cur c) x false) in Gt by (unfold c0; rewrite cur_set_cur; reflexivity).
    assert (Gf : gens c (if k then unview c3 (make_const (view c3) x) else c3) cs cs1 (decl (cur c) x k) b1 /\ upn (if k then unview c3 (make_const (view c3) x) else c3) = upn c3).
    { destruct k; [|split; [exact Gt|reflexivity]]. pose proof (gens_cur _ _ _ _ _ _ Gt) as C3. destruct (cur c) as [|t r] eqn:Hc; [destruct (g_ne _ _ _ _ Gd Hc)|].
      rewrite (make_const_scopes _ t r x) by (rewrite view_scopes; exact C3). rewrite unview_view_set. split; [|destruct c3 as (c3 & [|? ?]); reflexivity].
      rewrite <- (app_nil_r b1). eapply gens_trans; [exact Gt|]. apply gens_set_cur; [apply (gens_pool _ _ _ _ _ _ Gt)|apply Gt]. }
    destruct Gf as (Gf & Up). exists cs1, b1, k1. split; [exact Gf|]. split; [|split; [exact Kf|]].
    + eapply KI_mono; [exact K1|]. rewrite (gens_count _ _ _ _ _ _ Gf), (gens_count _ _ _ _ _ _ Gt). lia.
    + intros K U k2 HK HU HA. rewrite Up in HU. specialize (H K U k2 HK HU HA). cbn beta in H. cbn [code_s]. rewrite sc_senv. split; [exact Fr'|]. rewrite C0 in H. rewrite Fs. exact H.
  - (* assign *) intros x e IHe er c c' pl F cs kind E R Gd Gl P L N KI0. cbn [fvisit_e fvisit_args fvisit_s plain_e plain_args plain_s flits_e flits_args flits_s labels_e labels_args labels_s fafter] in *.
    destruct (fcontains_var c x); [|discriminate]. inv_bind E. spl P. rewrite <- (app_nil_r (labels_e e)). eapply made_seq; [rewrite app_nil_r; exact N|eapply IHe; eassumption| |].
    + intros cs1 b1 k1 Gn K1. eapply made_imp; [rewrite <- (gens_cur _ _ _ _ _ _ Gn); eapply store_made; [exact E|eapply gens_good_same; eassumption|exact P|exact K1]|]. cbn beta. intros K k U b Hb. rewrite (gens_senv_same _ _ _ _ _ U F Gn), (gens_gl _ _ _ _ _ _ Gn), Gl in Hb. exact Hb.
    + cbn beta. intros K k U b1 b2 A B. exists b1, b2. auto.
  - (* block *) intros s IH er c c' pl F cs kind E R Gd Gl P L N KI0. cbn [fvisit_e fvisit_args fvisit_s plain_e plain_args plain_s flits_e flits_args flits_s labels_e labels_args labels_s fafter] in *.
    eapply made_imp; [eapply (block_made s er c c c' pl F cs cs kind []); try eassumption; eapply gens_refl; exact Gd|]. cbn beta. intros K k U bs (b1 & A & ->). rewrite Z.add_0_r in A. exists b1. auto.
  - (* if *) intros d IHd s IH er c c' pl F cs kind E R Gd Gl P L N KI0. cbn [fvisit_e fvisit_args fvisit_s plain_e plain_args plain_s flits_e flits_args flits_s labels_e labels_args labels_s fafter] in *. spl P. splF L. destruct (nd_app _ _ N) as (N1 & N2).
    assert (Tr : f_truthy d = true -> labels_e d = []) by (destruct d; (reflexivity || discriminate)). assert (Fa : f_falsey d = true -> labels_e d = []) by (destruct d; (reflexivity || discriminate)).
    destruct (f_truthy d) eqn:T; [|destruct (f_falsey d) eqn:Fl].
    + rewrite (Tr eq_refl). cbn [app]. eapply made_imp; [eapply (block_made s er c c c' pl F cs cs kind []); try eassumption; eapply gens_refl; exact Gd|]. cbn beta. intros K k U bs (b1 & A & ->). rewrite Z.add_0_r in A. cbn [code_s]. rewrite T. exists b1. auto.
    + rewrite (Fa eq_refl). cbn [app]. unfold fvalidate in E. destruct (do c1 <- fvisit_s fuel s er (fenter_scope c); Ok (fexit_scope c1)) as [c1| | |] eqn:E1; try discriminate. injection E as <-.
      eapply made_imp; [eapply made_validate; [eapply (block_made s er c c c1 pl F cs cs kind []); try eassumption; eapply gens_refl; exact Gd|exact KI0]|]. cbn beta. intros K k U b (-> & _). cbn [code_s]. rewrite T, Fl. reflexivity.
    + inv_bind E. cbn [fjmp] in E. inv_bind E. injection E as <-. eapply made_seq; [exact N|eapply IHd; eassumption| |].
      * intros cs1 b1 k1 Gn K1. apply made_jump. eapply (block_made s er c); try eassumption; [|kmono]. repeat apply gens_emit_r. exact Gn.
      * cbn beta. intros K k U b1 b2 A (g & (b & B & ->) & ->). cbn [code_s]. rewrite T, Fl. exists b1, b. split; [exact A|].
        match type of B with code_s _ _ _ _ ?x _ _ => replace x with (base + fcount c + len b1 + 9) in B by (unfold len; rewrite !app_length, enc8_length; cbn [op length]; lia) end. auto.
  - (* if else *) intros d IHd s IH s2 IH2 er c c' pl F cs kind E R Gd Gl P L N KI0. cbn [fvisit_e fvisit_args fvisit_s plain_e plain_args plain_s flits_e flits_args flits_s labels_e labels_args labels_s fafter] in *. spl P. spl P. splF L. splF L0. destruct (nd_app _ _ N) as (N1 & N2). destruct (nd_app _ _ N2) as (N3 & N4).
    assert (Tr : f_truthy d = true -> labels_e d = []) by (destruct d; (reflexivity || discriminate)). assert (Fa : f_falsey d = true -> labels_e d = []) by (destruct d; (reflexivity || discriminate)).
    destruct (f_truthy d) eqn:T; [|destruct (f_falsey d) eqn:Fl].
    + rewrite (Tr eq_refl). cbn [app]. inv_bind E. unfold fvalidate in E. destruct (do c1 <- fvisit_s fuel s2 er (fenter_scope c0); Ok (fexit_scope c1)) as [c1| | |] eqn:E1; try discriminate. injection E as <-.
      eapply made_seq; [exact N2|eapply (block_made s er c c c0 pl F cs cs kind []); try eassumption; eapply gens_refl; exact Gd| |].
      * intros cs1 b1 k1 Gn K1. eapply made_imp; [eapply made_validate; [eapply (block_made s2 er c); eassumption|exact K1]|]. cbn beta. intros K k U b (Hb & _). instantiate (1 := fun _ _ _ _ b => b = []). exact Hb.
      * cbn beta. intros K k U b1 b2 (q & A & ->) ->. rewrite Z.add_0_r in A. cbn [code_s]. rewrite T. exists q. rewrite app_nil_r. auto.
    + rewrite (Fa eq_refl). cbn [app]. inv_bind E. unfold fvalidate in E0. destruct (do c1 <- fvisit_s fuel s er (fenter_scope c); Ok (fexit_scope c1)) as [c1| | |] eqn:E1; try discriminate. injection E0 as <-.
      eapply made_seq; [exact N2|eapply made_validate; [eapply (block_made s er c c c1 pl F cs cs kind []); try eassumption; eapply gens_refl; exact Gd|exact KI0]| |].
      * intros cs1 b1 k1 Gn K1. eapply (block_made s2 er c); eassumption.
      * cbn beta. intros K k U b1 b2 (-> & _) (q & A & ->). rewrite Z.add_0_r in A. cbn [code_s]. rewrite T, Fl. exists q. auto.
    + inv_bind E. cbn [fjmp] in E. inv_bind E. inv_bind E. injection E as <-. eapply made_seq; [exact N|eapply IHd; eassumption| |].
      * intros cs1 b1 k1 Gn K1. eapply (made_ifelse base c0 O_BRF_8 O_BR_8 c1 c2 cs1 (cur c) (cur c) _ _ k1 _ (fun g1 K k U bs => exists q, code_s K k G (s_in (senv_of c U F)) (base + fcount c + len b1 + 9 + len g1 + 9) s2 q /\ bs = q ++ bpops (senv_of c U F) s2)); [exact N2| |].
        -- eapply (block_made s er c); try eassumption; [|kmono]. repeat apply gens_emit_r. exact Gn.
        -- cbn beta. intros cs2 b2 k2 j G2 Gj K2 Cn. pose proof (gens_trans _ _ _ _ _ _ _ _ _ _ Gn Gj) as Gt. eapply made_imp; [exact (block_made s2 er c _ _ pl F cs cs2 k2 (b1 ++ j) IH2 Gt E2 R Gd Gl P0 L1 N4 K2)|].
           cbn beta. intros K k U bs. replace (base + fcount c + len (b1 ++ j)) with (base + fcount c + len b1 + 9 + len b2 + 9); [auto|]. rewrite (gens_count _ _ _ _ _ _ Gt), (gens_count _ _ _ _ _ _ Gn) in Cn. lia.
      * cbn beta. intros K k U b1 b2 A (g1 & g2 & (q1 & B & ->) & (q2 & D & ->) & ->). cbn [code_s]. rewrite T, Fl. exists b1, q1, q2. split; [exact A|].
        match type of B with code_s _ _ _ _ ?x _ _ => replace x with (base + fcount c + len b1 + 9) in B by (unfold len; rewrite !app_length, enc8_length; cbn [op length]; lia) end. auto.
  - (* while *) intros d IHd s IH er c c' pl F cs kind E R Gd Gl P L N KI0. cbn [fvisit_e fvisit_args fvisit_s plain_e plain_args plain_s flits_e flits_args flits_s labels_e labels_args labels_s fafter] in *. spl P. splF L. destruct (nd_app _ _ N) as (N1 & N2).
    assert (Fa : f_falsey d = true -> labels_e d = []) by (destruct d; (reflexivity || discriminate)). destruct (f_falsey d) eqn:Fl.
    + rewrite (Fa eq_refl). cbn [app]. unfold fvalidate in E. destruct (do c1 <- fvisit_s fuel s er (fenter_scope c); Ok (fexit_scope c1)) as [c1| | |] eqn:E1; try discriminate. injection E as <-.
      eapply made_imp; [eapply made_validate; [eapply (block_made s er c c c1 pl F cs cs kind []); try eassumption; eapply gens_refl; exact Gd|exact KI0]|]. cbn beta. intros K k U b (-> & _). cbn [code_s]. rewrite Fl. reflexivity.
    + inv_bind E. cbn [fjmp] in E. inv_bind E. injection E as <-. eapply made_seq; [exact N|eapply IHd; eassumption| |].
      * intros cs1 b1 k1 Gn K1. apply (made_jump base c0 O_BRF_8 _ cs1 (cur c) (labels_s s) k1 (fun K k U bs => exists q, code_s K k G (s_in (senv_of c U F)) (base + fcount c + len b1 + 9) s q /\ bs = (q ++ bpops (senv_of c U F) s) ++ op O_BR_8 ++ enc8 (- (len b1 + 9 + len (q ++ bpops (senv_of c U F) s) + 9)))).
        assert (Gh : gens c (femit (femit c0 (op O_BRF_8)) (enc8 0)) cs cs1 (cur c) ((b1 ++ op O_BRF_8) ++ enc8 0)) by (repeat apply gens_emit_r; exact Gn).
        destruct (block_made s er c _ _ pl F cs cs1 k1 _ IH Gh E1 R Gd Gl P0 L0 N2 ltac:(kmono)) as (cs2 & b2 & k2 & G2 & K2 & Kf & H).
        pose proof (gens_cur _ _ _ _ _ _ G2) as C2. destruct (back_made c1 cs2 (fcount c) k2 (gens_pool _ _ _ _ _ _ G2) ltac:(apply G2)) as (Gb & Kb). rewrite C2 in Gb. pose proof (gens_trans _ _ _ _ _ _ _ _ _ _ G2 Gb) as Gt.
        pose proof (gens_count _ _ _ _ _ _ G2) as X2. pose proof (gens_count _ _ _ _ _ _ Gn) as X1. rewrite !fcount_femit in X2.
        assert (X3 : fcount c - (fcount c1 + 9) = - (len b1 + 9 + len b2 + 9)) by (rewrite X2, X1; unfold len; rewrite enc8_length; cbn [op length]; lia). rewrite X3 in Gt.
        exists cs2. eexists. exists k2. split; [exact Gt|]. split; [apply Kb, K2|]. split; [exact Kf|]. intros K U k HK HU HA. destruct (H K U k HK HU HA) as (q & A & ->). exists q. split; [|reflexivity].
        match type of A with code_s _ _ _ _ ?x _ _ => replace x with (base + fcount c + len b1 + 9) in A by (unfold len; rewrite !app_length, enc8_length; cbn [op length]; lia) end. exact A.
      * cbn beta. intros K k U b1 b2 A (g & (q & B & ->) & ->). cbn [code_s]. rewrite Fl. exists b1, q. split; [exact A|]. split; [exact B|].
        match goal with |- context [enc8 (len (?x ++ op O_BR_8 ++ enc8 ?y))] => replace (len (x ++ op O_BR_8 ++ enc8 y)) with (len x + 9) by (unfold len; rewrite !app_length, enc8_length; cbn [op length]; lia) end. rewrite <- ?app_assoc. reflexivity.
  - (* return *) intros e IHe er c c' pl F cs kind E R Gd Gl P L N KI0. cbn [fvisit_e fvisit_args fvisit_s plain_e plain_args plain_s flits_e flits_args flits_s labels_e labels_args labels_s fafter] in *.
    destruct (not_in_function c) eqn:Nf; [discriminate|]. inv_bind E. pose proof (IHe er c c0 pl F cs kind E0 R Gd Gl P L N KI0) as M. pose proof M as (cs1 & b1 & k1 & Gn & _).
    destruct (fn_ret_code c0 c' _ E ltac:(apply Gn)) as (_ & ->). rewrite (gens_cur _ _ _ _ _ _ Gn).
    eapply made_imp; [apply made_emit_r; exact M|].
    cbn beta. intros K k U b (b' & A & ->). cbn [code_s]. exists b'. rewrite sc_senv. split; [exact A|]. split; [|reflexivity]. unfold senv_of. unfold not_in_function in Nf. destruct (f_envs c); [discriminate|exact I].
  - intros es _ er c c' pl F cs kind E R Gd Gl P. discriminate P.
  - (* echo *) intros e IHe er c c' pl F cs kind E R Gd Gl P L N KI0. cbn [fvisit_e fvisit_args fvisit_s plain_e plain_args plain_s flits_e flits_args flits_s labels_e labels_args labels_s fafter] in *. inv_bind E. injection E as <-.
    pose proof (IHe er c c0 pl F cs kind E0 R Gd Gl P L N KI0) as M. assert (C0 : cur c0 = cur c) by (destruct M as (? & ? & ? & Gn & _); apply (gens_cur _ _ _ _ _ _ Gn)). rewrite C0.
    eapply made_imp; [apply made_emit_r; exact M|]. intros K k U b (b' & A & ->). exists b'. rewrite sc_senv. auto.
  - (* assert *) intros e IHe er c c' pl F cs kind E R Gd Gl P L N KI0. cbn [fvisit_e fvisit_args fvisit_s plain_e plain_args plain_s flits_e flits_args flits_s labels_e labels_args labels_s fafter] in *. inv_bind E. injection E as <-.
    eapply made_imp; [apply made_emit_r; eapply IHe; eassumption|]. intros K k U b (b' & A & ->). exists b'. auto.
Qed.
End V.
