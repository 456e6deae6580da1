From Verif Require Import Base Bytes BytesProofs Value Table Ops Ast Stmt Limits Constants VM Compiler ValueProofs TableSpec TableProofs TableProofs2 TableProofs3 ConstSpec ConstProofs Gen GenProofs GenProofs2 SimBase Program ProgProofs Fn FnSpec FnCompiler FnCode.

(** ** The scope in use. *)
Lemma set_scopes_eta d : set_scopes d (c_scopes d) = d.
Proof. destruct d; reflexivity. Qed.
Lemma view_unview c d : view (unview c d) = d.
Proof. destruct c as (c & [|e r]); destruct d; reflexivity. Qed.
Lemma view_femit c bs : view (femit c bs) = emit (view c) bs.
Proof. destruct c as (c & [|e r]); reflexivity. Qed.
Lemma view_fland c i : view (fland c i) = exit_jmp (view c) i.
Proof. destruct c as (c & [|e r]); reflexivity. Qed.
Lemma view_enter c : view (fenter_scope c) = enter_scope (view c).
Proof. destruct c as (c & [|e r]); reflexivity. Qed.
Lemma view_exit c : view (fexit_scope c) = exit_scope (view c).
Proof. apply view_unview. Qed.
Lemma view_scopes c : c_scopes (view c) = cur c.
Proof. reflexivity. Qed.
Lemma fcount_view c : fcount c = count (view c).
Proof. reflexivity. Qed.
Lemma cur_femit c bs : cur (femit c bs) = cur c.
Proof. destruct c as (c & [|e r]); reflexivity. Qed.

(** ** Names. *)
Lemma mem_in x l : mem x l = true <-> In x l.
Proof.
  unfold mem. rewrite existsb_exists. split.
  - intros (y & A & B). apply name_eqb_spec in B. subst. exact A.
  - intros A. exists x. split; [exact A|apply name_eqb_spec; reflexivity].
Qed.
Lemma mem_app x a b : mem x (a ++ b) = mem x a || mem x b.
Proof. apply existsb_app. Qed.
Definition snames (ss : list scope) : list (list name) := map (map fst) ss.
Lemma assoc_mem s x : match assoc s x with Some _ => true | None => false end = mem x (map fst s).
Proof. induction s as [|(y, z) s IH]; [reflexivity|]. cbn. destruct (name_eqb y x); [reflexivity|exact IH]. Qed.
Lemma get_mem ss x : contains ss x = mem x (concat (snames ss)).
Proof.
  unfold contains, snames. induction ss as [|s ss IH]; [reflexivity|]. cbn [scope_get map concat]. rewrite mem_app, <- assoc_mem. destruct (assoc s x); [reflexivity|exact IH].
Qed.
Lemma get_none ss x : mem x (concat (snames ss)) = false -> scope_get ss x = None.
Proof. rewrite <- get_mem. unfold contains. destruct (scope_get ss x); congruence. Qed.
Lemma get_last ss x : ss <> [] -> mem x (concat (snames (removelast ss))) = false -> scope_get ss x = assoc (last ss []) x.
Proof.
  induction ss as [|s ss IH]; [congruence|]. intros _ H. destruct ss as [|t r]; [cbn; destruct (assoc s x); reflexivity|].
  change (removelast (s :: t :: r)) with (s :: removelast (t :: r)) in H. unfold snames in H. cbn [map concat] in H. fold snames in H. rewrite mem_app in H. apply orb_false_iff in H. destruct H as (H1 & H2).
  rewrite <- assoc_mem in H1. change (last (s :: t :: r) []) with (last (t :: r) []). change (scope_get (s :: t :: r) x) with (match assoc s x with Some z => Some z | None => scope_get (t :: r) x end).
  destruct (assoc s x); [discriminate|]. apply IH; [discriminate|exact H2].
Qed.
Lemma snames_removelast ss : snames (removelast ss) = removelast (snames ss).
Proof. unfold snames. induction ss as [|s ss IH]; [reflexivity|]. cbn [removelast map]. destruct ss; [reflexivity|]. cbn [map] in *. rewrite IH. reflexivity. Qed.
Lemma snames_decl ss x k : snames (decl ss x k) = add_name (snames ss) x.
Proof. destruct ss; reflexivity. Qed.

Lemma fafter_shape s : forall t r, exists u, fafter (t :: r) s = u :: r /\ length u = (length t + fdecls s)%nat.
Proof.
  induction s; intros t r; cbn [fafter fdecls]; try (exists t; split; [reflexivity|lia]).
  - destruct (IHs1 t r) as (u & E & L). rewrite E. destruct (IHs2 u r) as (v & E2 & L2). exists v. split; [exact E2|lia].
  - eexists. split; [reflexivity|]. cbn. lia.
  - eexists. split; [reflexivity|]. cbn. lia.
Qed.
Lemma fafter_nonempty s ss : ss <> [] -> fafter ss s <> [].
Proof. intros N. destruct ss as [|t r]; [congruence|]. destruct (fafter_shape s t r) as (u & E & _). rewrite E. discriminate. Qed.
Lemma fafter_len s ss : ss <> [] -> scope_len (fafter ss s) = scope_len ss + Z.of_nat (fdecls s).
Proof. intros N. destruct ss as [|t r]; [congruence|]. destruct (fafter_shape s t r) as (u & E & L). rewrite E, !scope_len_cons, L. lia. Qed.
Lemma sc_set E ss : sc (set_sc E ss) = ss.
Proof. destruct E; reflexivity. Qed.
Lemma set_set E s1 s2 : set_sc (set_sc E s1) s2 = set_sc E s2.
Proof. destruct E; reflexivity. Qed.
Lemma set_sc_id E : set_sc E (sc E) = E.
Proof. destruct E; reflexivity. Qed.

(** ** Prefixes. *)
Definition prefix {A} (a b : list A) : Prop := exists more, b = a ++ more.
Lemma prefix_refl {A} (a : list A) : prefix a a.
Proof. exists []. rewrite app_nil_r. reflexivity. Qed.
Lemma prefix_trans {A} (a b c : list A) : prefix a b -> prefix b c -> prefix a c.
Proof. intros (x & ->) (y & ->). exists (x ++ y). apply app_assoc_reverse. Qed.
Lemma prefix_nth {A} (a b : list A) i x : prefix a b -> nth_error a i = Some x -> nth_error b i = Some x.
Proof. intros (m & ->) H. rewrite nth_error_app1; [exact H|]. apply nth_error_Some. congruence. Qed.
Lemma prefix_map {A B} (f : A -> B) a b : prefix a b -> prefix (map f a) (map f b).
Proof. intros (m & ->). exists (map f m). apply map_app. Qed.

(** ** Captured variables. *)
Definition unames (e : fenv) : list name := map fst (fe_ups e).
Definition env_same (e e' : fenv) : Prop := fe_scopes e' = fe_scopes e /\ prefix (fe_ups e) (fe_ups e').
Fixpoint ups_ok (F : scope) (es : list fenv) : Prop :=
  match es with
  | [] => True
  | e :: r => NoDup (unames e) /\ fe_used e = false /\ fe_clo e = match fe_ups e with [] => false | _ => true end /\
      (forall u, In u (fe_ups e) -> assoc F (fst u) <> None /\
         match r with
         | [] => exists z, assoc F (fst u) = Some z /\ snd u = get_index z
         | p :: _ => exists j, nth_error (unames p) j = Some (fst u) /\ snd u = Z.lnot (Z.of_nat j)
         end) /\ ups_ok F r
  end.
Lemma env_same_refl e : env_same e e.
Proof. split; [reflexivity|apply prefix_refl]. Qed.
Lemma env_same_trans a b c : env_same a b -> env_same b c -> env_same a c.
Proof. intros (A & B) (C & D). split; [congruence|eapply prefix_trans; eassumption]. Qed.
Lemma envs_same_refl es : Forall2 env_same es es.
Proof. induction es; constructor; auto using env_same_refl. Qed.
Lemma envs_same_trans a : forall b c, Forall2 env_same a b -> Forall2 env_same b c -> Forall2 env_same a c.
Proof. induction a; intros b c H1 H2; inversion H1; subst; inversion H2; subst; constructor; eauto using env_same_trans. Qed.
Lemma envs_same_scopes es es' : Forall2 env_same es es' -> map fe_scopes es' = map fe_scopes es.
Proof. induction 1 as [|e e' es es' (A & B) H IH]; [reflexivity|]. cbn [map]. congruence. Qed.
Lemma env_contains_eq es es' x : map fe_scopes es' = map fe_scopes es -> env_contains es' x = env_contains es x.
Proof. intros H. unfold env_contains. assert (Q : forall l, existsb (fun e => contains (fe_scopes e) x) l = existsb (fun s => contains s x) (map fe_scopes l)) by (induction l as [|a l IH]; [reflexivity|cbn; rewrite IH; reflexivity]). rewrite !Q, H. reflexivity. Qed.

Lemma up_index_some ups x i : up_index ups x = Some i -> nth_error (map fst ups) i = Some x.
Proof.
  unfold up_index. assert (Q : forall l k i, (fix go (l : list (name * Z)) (i : nat) := match l with [] => None | (y, _) :: r => if name_eqb y x then Some i else go r (S i) end) l k = Some i -> (k <= i)%nat /\ nth_error (map fst l) (i - k) = Some x).
  { clear. induction l as [|(y, z) l IH]; intros k i H; [discriminate|]. destruct (name_eqb y x) eqn:E.
    - injection H as <-. apply name_eqb_spec in E. subst. rewrite Nat.sub_diag. split; [lia|reflexivity].
    - apply IH in H. destruct H as (A & B). split; [lia|]. replace (i - k)%nat with (S (i - S k)) by lia. exact B. }
  intros H. apply Q in H. destruct H as (_ & H). rewrite Nat.sub_0_r in H. exact H.
Qed.
Lemma up_index_none ups x : up_index ups x = None -> ~ In x (map fst ups).
Proof.
  unfold up_index. generalize O. induction ups as [|(y, z) l IH]; intros k H; [intros []|]. destruct (name_eqb y x) eqn:E; [discriminate|]. cbn. intros [->|I].
  - rewrite (proj2 (name_eqb_spec x x) eq_refl) in E. discriminate.
  - exact (IH _ H I).
Qed.
Lemma nodup_snoc {A} (l : list A) x : NoDup l -> ~ In x l -> NoDup (l ++ [x]).
Proof. apply NoDup_app_snoc. Qed.

Lemma ups_put F e r x v : ups_ok F (e :: r) -> up_index (fe_ups e) x = None -> assoc F x <> None ->
  match r with [] => exists z, assoc F x = Some z /\ v = get_index z | p :: _ => exists j, nth_error (unames p) j = Some x /\ v = Z.lnot (Z.of_nat j) end ->
  ups_ok F (put_up e x v :: r).
Proof.
  intros (N & Us & Cl & Al & R) I A V. unfold put_up. cbn [ups_ok]. unfold unames at 1. cbn [fe_ups fe_used fe_clo]. rewrite map_app. cbn [map fst].
  split; [apply nodup_snoc; [exact N|apply up_index_none, I]|]. split; [exact Us|]. split; [destruct (fe_ups e); reflexivity|]. split; [|exact R].
  intros u Hu. apply in_app_or in Hu. destruct Hu as [Hu|[<-|[]]]; [apply Al, Hu|]. cbn [fst snd]. split; [exact A|exact V].
Qed.
Lemma ups_grow F e r r' : ups_ok F (e :: r) -> ups_ok F r' -> Forall2 env_same r r' -> ups_ok F (e :: r').
Proof.
  intros (N & Us & Cl & Al & R) R' S. cbn [ups_ok]. do 3 (split; [assumption|]). split; [|exact R'].
  intros u Hu. destruct (Al u Hu) as (A & B). split; [exact A|]. inversion S as [|p p' q q' (_ & P) S2]; subst; [exact B|].
  destruct B as (j & J & V). exists j. split; [|exact V]. eapply prefix_nth; [apply prefix_map, P|exact J].
Qed.

Lemma add_upval_ok stack x : stack <> [] -> mem x (concat (snames (removelast stack))) = false -> forall es i es', add_upval es stack x = Ok (i, es') ->
  (forall e, In e (tl es) -> contains (fe_scopes e) x = false) -> ups_ok (last stack []) es -> match es with e :: _ => up_index (fe_ups e) x = None | [] => True end ->
  Forall2 env_same es es' /\ ups_ok (last stack []) es' /\ match es' with e' :: _ => nth_error (unames e') i = Some x | [] => False end /\ assoc (last stack []) x <> None.
Proof.
  intros NE Hm. induction es as [|e r IH]; intros i es' E Hc U I; [discriminate|]. cbn [add_upval] in E.
  assert (NT : forall (e : fenv) v, nth_error (unames (put_up e x v)) (length (fe_ups e)) = Some x).
  { clear. intros e v. unfold unames, put_up; simpl fe_ups. rewrite map_app, nth_error_app2 by (rewrite map_length; lia). rewrite map_length, Nat.sub_diag. reflexivity. }
  assert (PX : forall (e : fenv) v, env_same e (put_up e x v)) by (intros; split; [reflexivity|eexists; reflexivity]).
  destruct r as [|p r].
  - rewrite (get_last stack x NE Hm) in E. destruct (assoc (last stack []) x) as [z|] eqn:A; [|discriminate]. injection E as <- <-.
    split; [constructor; [apply PX|constructor]|]. split; [|split; [apply NT|discriminate]]. apply ups_put; eauto. congruence.
  - assert (Cp : contains (fe_scopes p) x = false) by (apply Hc; left; reflexivity).
    assert (Q : exists p' q, (if negb (contains (fe_scopes p) x) && match up_index (fe_ups p) x with None => true | Some _ => false end
                  then omap snd (add_upval (p :: r) stack x) else Ok (p :: r)) = Ok (p' :: q) /\ Forall2 env_same (p :: r) (p' :: q) /\ ups_ok (last stack []) (p' :: q) /\ (exists j, nth_error (unames p') j = Some x) /\ assoc (last stack []) x <> None).
    { rewrite Cp. cbn [negb andb]. destruct (up_index (fe_ups p) x) as [j|] eqn:J.
      - exists p, r. split; [reflexivity|]. split; [apply envs_same_refl|]. destruct U as (_ & _ & _ & _ & U). split; [exact U|]. apply up_index_some in J. split; [eauto|].
        destruct U as (_ & _ & _ & Al & _). apply nth_error_In in J. apply in_map_iff in J. destruct J as (u & <- & Hu). apply (Al u Hu).
      - rewrite Cp in E. cbn [negb andb] in E. destruct (add_upval (p :: r) stack x) as [[j es1]| | |] eqn:E1; try discriminate. cbn [omap bind snd]. cbn [snd].
        destruct (IH j es1 eq_refl) as (A & B & C & D); [intros q Hq; apply Hc; right; exact Hq|apply U|reflexivity|]. destruct es1 as [|p' q]; [destruct C|]. exists p', q. eauto 8. }
    destruct Q as (p' & q & Q1 & Q2 & Q3 & (j & Q4) & Q5). rewrite Q1 in E. cbn [bind] in E.
    assert (Sp : fe_scopes p' = fe_scopes p) by (inversion Q2 as [|? ? ? ? (X & _)]; exact X). rewrite Sp in E. unfold contains in Cp. destruct (scope_get (fe_scopes p) x); [discriminate|].
    destruct (up_index (fe_ups p') x) as [j'|] eqn:J; [|discriminate]. injection E as <- <-. apply up_index_some in J.
    split; [constructor; [apply PX|exact Q2]|]. split; [|split; [apply NT|exact Q5]]. apply ups_put; [eapply ups_grow; eassumption|exact I|exact Q5|]. exists j'. split; [exact J|reflexivity].
Qed.

(** ** What a compilation step did. *)
Definition estep (c c' : fcst) : Prop :=
  match f_envs c, f_envs c' with
  | [], [] => True
  | e :: r, e' :: r' => c_scopes (f_c c') = c_scopes (f_c c) /\ prefix (fe_ups e) (fe_ups e') /\ Forall2 env_same r r'
  | _, _ => False
  end.
Lemma estep_refl c : estep c c.
Proof. unfold estep. destruct (f_envs c); [exact I|]. split; [reflexivity|]. split; [apply prefix_refl|apply envs_same_refl]. Qed.
Lemma estep_trans a b c : estep a b -> estep b c -> estep a c.
Proof.
  unfold estep. destruct (f_envs a), (f_envs b), (f_envs c); try tauto. intros (A & B & C) (D & E & F). split; [congruence|]. split; [eapply prefix_trans; eassumption|eapply envs_same_trans; eassumption].
Qed.
Definition gens (c c' : fcst) (cs cs' : list value) (ss' : list scope) (bs : list Z) : Prop :=
  ran (view c) (view c') cs cs' ss' (fun _ => bs) /\ estep c c' /\ ups_ok (last (c_scopes (f_c c')) []) (f_envs c').
Lemma gens_trans a b c cs1 cs2 cs3 s2 s3 x y : gens a b cs1 cs2 s2 x -> gens b c cs2 cs3 s3 y -> gens a c cs1 cs3 s3 (x ++ y).
Proof. intros (A & B & C) (D & E & F). split; [exact (ran_trans _ _ _ _ _ _ _ _ _ _ A D)|]. split; [eapply estep_trans; eassumption|exact F]. Qed.
Lemma gens_count c c' cs cs' ss bs : gens c c' cs cs' ss bs -> fcount c' = fcount c + len bs.
Proof. intros (A & _). exact (ran_count _ _ _ _ _ _ cs' A (ex_intro _ [] (eq_sym (app_nil_r _)))). Qed.
Lemma gens_cur c c' cs cs' ss bs : gens c c' cs cs' ss bs -> cur c' = ss.
Proof. intros (A & _). exact (ran_scopes _ _ _ _ _ _ A). Qed.
Lemma gens_gl c c' cs cs' ss bs : gens c c' cs cs' ss bs -> c_globals (f_c c') = c_globals (f_c c).
Proof. intros (A & _). exact (ran_gl _ _ _ _ _ _ A). Qed.
Lemma gens_pool c c' cs cs' ss bs : gens c c' cs cs' ss bs -> pooled (c_pool (f_c c')) cs'.
Proof. intros (A & _). exact (ran_pool _ _ _ _ _ _ A). Qed.
Lemma gens_ext c c' cs cs' ss bs K : gens c c' cs cs' ss bs -> extends cs' K -> extends cs K.
Proof. intros (A & _). exact (ran_extends _ _ _ _ _ _ _ A). Qed.
Lemma gens_eq c c' cs cs' ss bs bs' : gens c c' cs cs' ss bs -> bs = bs' -> gens c c' cs cs' ss bs'.
Proof. intros A <-. exact A. Qed.

Definition ro_rel (ro : list name) (F' F : scope) : Prop :=
  forall x, option_map get_index (assoc F x) = option_map get_index (assoc F' x) /\ (mem x ro = false -> assoc F x = assoc F' x).
Definition rel (pl : place) (c : fcst) (F : scope) : Prop :=
  match pl, f_envs c with
  | InFile D, [] => snames (c_scopes (f_c c)) = D
  | InFun D hid ro, e :: r => snames (fe_scopes e) = D /\ ro_rel ro (last (c_scopes (f_c c)) []) F /\
      forall x, mem x hid = false -> env_contains r x = false /\ mem x (concat (snames (removelast (c_scopes (f_c c))))) = false
  | _, _ => False
  end.
Record good (c : fcst) (pl : place) (F : scope) (cs : list value) : Prop := {
  g_pool : pooled (c_pool (f_c c)) cs;
  g_gl : gl_in (c_globals (f_c c)) cs;
  g_ne : cur c <> [];
  g_st : c_scopes (f_c c) <> [];
  g_ups : ups_ok (last (c_scopes (f_c c)) []) (f_envs c);
  g_rel : rel pl c F }.
Definition senv_of (c : fcst) (U : list name) (F : scope) : senv :=
  match f_envs c with [] => SFile (c_scopes (f_c c)) | e :: _ => SFun U (fe_scopes e) F end.
Lemma sc_senv c U F : sc (senv_of c U F) = cur c.
Proof. unfold senv_of, cur. destruct (f_envs c); reflexivity. Qed.
Definition upn (c : fcst) : list name := match f_envs c with [] => [] | e :: _ => unames e end.
Lemma estep_upn c c' : estep c c' -> prefix (upn c) (upn c').
Proof. unfold estep, upn. destruct (f_envs c), (f_envs c'); try tauto; intros; [apply prefix_refl|]. destruct H as (_ & H & _). apply prefix_map, H. Qed.

Definition set_names (pl : place) (D : list (list name)) : place := match pl with InFile _ => InFile D | InFun _ h r => InFun D h r end.
Lemma gens_good c c' cs cs' ss bs pl F : gens c c' cs cs' ss bs -> good c pl F cs -> ss <> [] -> good c' (set_names pl (snames ss)) F cs'.
Proof.
  intros Gn Gd N. pose proof (gens_cur _ _ _ _ _ _ Gn) as C. destruct Gn as (R & S & U). destruct Gd. constructor; auto.
  - exact (ran_pool _ _ _ _ _ _ R).
  - exact (ran_gl_in _ _ _ _ _ _ R g_gl0).
  - congruence.
  - unfold estep in S. unfold cur in C. destruct (f_envs c) as [|e r], (f_envs c') as [|e' r']; try tauto; [congruence|]. destruct S as (S & _). congruence.
  - unfold rel in *. unfold estep in S. unfold cur in C. destruct pl as [D|D hid ro]; cbn [set_names]; destruct (f_envs c) as [|e r], (f_envs c') as [|e' r']; try tauto; [congruence|].
    destruct S as (S1 & S2 & S3). destruct g_rel0 as (A & B & H). rewrite S1. split; [congruence|]. split; [exact B|].
    intros x Hx. destruct (H x Hx) as (H1 & H2). split; [|exact H2]. rewrite (env_contains_eq r r' x (envs_same_scopes _ _ S3)). exact H1.
Qed.
Lemma good_names c pl F cs : good c pl F cs -> set_names pl (snames (cur c)) = pl.
Proof. intros []. unfold rel, cur in *. destruct pl; destruct (f_envs c); try tauto; cbn; [congruence|]. destruct g_rel0 as (<- & _). reflexivity. Qed.
Lemma gens_good_same c c' cs cs' bs pl F : gens c c' cs cs' (cur c) bs -> good c pl F cs -> good c' pl F cs'.
Proof. intros Gn Gd. pose proof (gens_good _ _ _ _ _ _ _ _ Gn Gd (g_ne _ _ _ _ Gd)) as H. rewrite (good_names _ _ _ _ Gd) in H. exact H. Qed.
Lemma gens_senv c c' cs cs' ss bs U F : gens c c' cs cs' ss bs -> senv_of c' U F = set_sc (senv_of c U F) ss.
Proof.
  intros Gn. pose proof (gens_cur _ _ _ _ _ _ Gn) as C. destruct Gn as (R & S & _). unfold senv_of, cur, estep in *. destruct (f_envs c), (f_envs c'); try tauto; cbn; congruence.
Qed.
Lemma gens_senv_same c c' cs cs' bs U F : gens c c' cs cs' (cur c) bs -> senv_of c' U F = senv_of c U F.
Proof. intros Gn. rewrite (gens_senv _ _ _ _ _ _ U F Gn), <- (sc_senv c U F). apply set_sc_id. Qed.
