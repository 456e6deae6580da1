(** The compiler accepts exactly the legal programs with functions (proofs only). *)
From Verif Require Import Base Bytes BytesProofs Value Table Ops Ast Stmt Limits Constants VM Compiler ValueProofs TableSpec TableProofs TableProofs2 TableProofs3 ConstSpec ConstProofs Gen GenProofs GenProofs2 Program ProgProofs CompSpec CompProofs TotalProofs.
From Verif Require Import Fn FnSpec FnCompiler FnLegal.

(** ** Scopes and names. *)
Definition rel1 (s : scope) (d : list (name * bool)) : Prop := forall x, option_map is_const (assoc s x) = in_scope d x.
Lemma rel_get ss D x : Forall2 rel1 ss D -> option_map is_const (scope_get ss x) = in_scopes D x.
Proof. induction 1 as [|s d ss D H1 H2 IH]; [reflexivity|]. cbn [scope_get in_scopes]. specialize (H1 x). destruct (assoc s x), (in_scope d x); cbn in H1; try discriminate; [exact H1|exact IH]. Qed.
Lemma get_app a b x : scope_get (a ++ b) x = match scope_get a x with Some z => Some z | None => scope_get b x end.
Proof. induction a as [|s a IH]; [reflexivity|]. cbn [app scope_get]. destruct (assoc s x); [reflexivity|exact IH]. Qed.
Definition put_new (s : scope) (x : name) (n : Z) : scope := match assoc s x with Some _ => assoc_put s x n | None => (x, n) :: s end.
Lemma put_new_get s x n y : assoc (put_new s x n) y = if name_eqb x y then Some n else assoc s y.
Proof.
  unfold put_new. destruct (assoc s x) eqn:E; [|reflexivity]. rewrite assoc_put_get. destruct (name_eqb x y) eqn:N; [apply name_eqb_spec in N; subst y; rewrite E; reflexivity|destruct (assoc s y); reflexivity].
Qed.
Lemma put_new_len s x n : (length (put_new s x n) <= S (length s))%nat.
Proof. unfold put_new. destruct (assoc s x); [|cbn; lia]. assert (L : length (assoc_put s x n) = length s) by (induction s as [|(y, v) s IH]; [reflexivity|]; cbn; destruct (name_eqb y x); cbn; congruence). lia. Qed.
Lemma put_len s x n : length (assoc_put s x n) = length s.
Proof. induction s as [|(y, v) s IH]; [reflexivity|]; cbn; destruct (name_eqb y x); cbn; congruence. Qed.
Lemma rel_new s d x n k : rel1 s d -> is_const n = k -> rel1 (put_new s x n) ((x, k) :: d).
Proof. intros H K y. rewrite put_new_get. cbn [in_scope]. destruct (name_eqb x y); [cbn; congruence|apply H]. Qed.
Lemma rel_const s d x n : rel1 s d -> 0 <= n -> rel1 (assoc_put (put_new s x n) x (Z.lnot n)) ((x, true) :: d).
Proof.
  intros H K y. rewrite assoc_put_get, put_new_get. cbn [in_scope]. destruct (name_eqb x y); [|specialize (H y); destruct (assoc s y); exact H]. cbn. unfold is_const, Z.lnot. destruct (Z.ltb_spec (Z.pred (- n)) 0); [reflexivity|lia].
Qed.

Lemma const_rel s x d : rel1 s ((x, false) :: d) -> exists n, assoc s x = Some n /\ rel1 (assoc_put s x (Z.lnot n)) ((x, true) :: d).
Proof.
  intros R. pose proof (R x) as Rx. cbn [in_scope] in Rx. rewrite name_eqb_refl in Rx. destruct (assoc s x) as [n|] eqn:A; [|discriminate]. exists n. split; [reflexivity|]. injection Rx as Rx. unfold is_const in Rx. apply Z.ltb_ge in Rx.
  intros y. rewrite assoc_put_get. cbn [in_scope]. specialize (R y). cbn [in_scope] in R. destruct (name_eqb x y) eqn:Nx.
  - apply name_eqb_spec in Nx. subst y. rewrite A. cbn. unfold is_const, Z.lnot. destruct (Z.ltb_spec (Z.pred (- n)) 0); [reflexivity|lia].
  - rewrite <- R. destruct (assoc s y); reflexivity.
Qed.
Lemma bind_pair {A B C E : Type} (p : outcome (A * B)) (v : A -> outcome C) (e : C -> B -> outcome E) (g : E -> outcome E) :
  bind p (fun '(c, old) => bind (v c) (fun c => bind (e c old) g)) = bind (bind p (fun '(c, old) => bind (v c) (fun c => e c old))) g.
Proof. destruct p as [(c, old)| | |]; try reflexivity. cbn [bind]. destruct (v c); reflexivity. Qed.
Section T.
Variable fuel : nat.
Hypothesis Hf : FUEL_BOUND <= Z.of_nat fuel.
Variable gs : list name.

(** ** States: the scopes of the functions being compiled, innermost function first, the file last. *)
Definition chain (c : fcst) : list (list scope) := map fe_scopes (f_envs c) ++ [c_scopes (f_c c)].
Lemma chain_cur c : chain c = cur c :: tl (chain c).
Proof. destruct c as [d [|e r]]; reflexivity. Qed.
Lemma cur_of c ss t : chain c = ss :: t -> cur c = ss.
Proof. intros E. pose proof (chain_cur c) as X. congruence. Qed.
Lemma cur_same c c' : chain c' = chain c -> cur c' = cur c.
Proof. intros E. pose proof (chain_cur c) as X. pose proof (chain_cur c') as Y. congruence. Qed.
Lemma chain_set c ss : chain (set_cur c ss) = ss :: tl (chain c).
Proof. destruct c as [d [|e r]]; reflexivity. Qed.
Lemma set_cur_c c ss : c_pool (f_c (set_cur c ss)) = c_pool (f_c c) /\ c_globals (f_c (set_cur c ss)) = c_globals (f_c c).
Proof. destruct c as [d [|e r]]; split; reflexivity. Qed.
Record inv (c : fcst) (cs : list value) (D : names) : Prop := Inv_ {
  i_pool : pst (c_pool (f_c c)) cs; i_gl : gl_in (c_globals (f_c c)) cs; i_good : good_globals (c_globals (f_c c)) gs;
  i_rel : Forall2 rel1 (concat (chain c)) D; i_ne : Forall (fun ss => ss <> []) (chain c) }.
(** [step c cs n ok r Q]: if [ok], [r] is a state as [Q] says, with at most [n] new constants; else [r] is a syntax error. *)
Definition step (c : fcst) (cs : list value) (n : nat) (ok : bool) (r : outcome fcst) (Q : fcst -> Prop) : Prop :=
  if ok then exists c' cs' ext, r = Ok c' /\ pst (c_pool (f_c c')) cs' /\ cs' = cs ++ ext /\ (length ext <= n)%nat /\ c_globals (f_c c') = c_globals (f_c c) /\ Q c'
  else r = Err ESyntax.
Lemma step_ret c cs n c' (Q : fcst -> Prop) : pst (c_pool (f_c c')) cs -> c_globals (f_c c') = c_globals (f_c c) -> Q c' -> step c cs n true (Ok c') Q.
Proof. intros P G H. exists c', cs, []. rewrite app_nil_r. cbn [length]. repeat split; auto. lia. Qed.
Lemma step_bind c cs n1 n2 n ok1 ok2 r f (Q1 Q2 : fcst -> Prop) : step c cs n1 ok1 r Q1 -> (n1 + n2 <= n)%nat ->
  (ok1 = true -> forall c' ext, pst (c_pool (f_c c')) (cs ++ ext) -> (length ext <= n1)%nat -> c_globals (f_c c') = c_globals (f_c c) -> Q1 c' -> step c' (cs ++ ext) n2 ok2 (f c') Q2) ->
  step c cs n (ok1 && ok2) (bind r f) Q2.
Proof.
  intros H Hn K. destruct ok1; [|cbn in *; rewrite H; reflexivity]. destruct H as (c' & cs' & ext & -> & P & -> & L & G & Q). cbn [bind andb]. specialize (K eq_refl c' ext P L G Q). destruct ok2; [|exact K].
  destruct K as (c2 & cs2 & ext2 & -> & P2 & -> & L2 & G2 & H2). exists c2, ((cs ++ ext) ++ ext2), (ext ++ ext2). rewrite app_length, app_assoc. repeat split; auto; [lia|congruence].
Qed.
Lemma step_le c cs n m ok r Q : step c cs n ok r Q -> (n <= m)%nat -> step c cs m ok r Q.
Proof. intros H L. destruct ok; [|exact H]. destruct H as (c' & cs' & ext & E & P & Ec & Le & G & K). exists c', cs', ext. repeat split; auto. lia. Qed.
Lemma step_from c c0 cs n ok r Q : step c0 cs n ok r Q -> c_globals (f_c c0) = c_globals (f_c c) -> step c cs n ok r Q.
Proof. intros H E. destruct ok; [|exact H]. destruct H as (c' & cs' & ext & E' & P & Ec & Le & G & K). exists c', cs', ext. repeat split; auto. congruence. Qed.
Lemma step_weak c cs n ok r (Q Q' : fcst -> Prop) : step c cs n ok r Q -> (forall c', Q c' -> Q' c') -> step c cs n ok r Q'.
Proof. intros H K. destruct ok; [|exact H]. destruct H as (c' & cs' & ext & E' & P & Ec & Le & G & H'). exists c', cs', ext. repeat split; auto. Qed.
(** a step followed by something that always succeeds *)
Lemma step_then c cs n ok r f (Q1 Q2 : fcst -> Prop) : step c cs n ok r Q1 -> (forall c', Q1 c' -> exists c2, f c' = Ok c2 /\ c_pool (f_c c2) = c_pool (f_c c') /\ c_globals (f_c c2) = c_globals (f_c c') /\ Q2 c2) -> step c cs n ok (bind r f) Q2.
Proof.
  intros H K. destruct ok; [|cbn in *; rewrite H; reflexivity]. destruct H as (c' & cs' & ext & -> & P & Ec & L & G & Q). destruct (K c' Q) as (c2 & E2 & P2 & G2 & Q2'). cbn [bind]. exists c2, cs', ext. rewrite P2, G2. repeat split; auto.
Qed.
Lemma step_validate c cs n ok v (Q : fcst -> Prop) : step c cs n ok (v c) Q -> (forall c', Q c' -> Q (on_c (fun d => set_buf d (c_buf (f_c c))) c')) -> step c cs n ok (fvalidate v c) Q.
Proof.
  intros H K. unfold fvalidate. destruct ok; [|cbn in *; rewrite H; reflexivity]. destruct H as (c' & cs' & ext & -> & P & Ec & L & G & Q'). eexists. exists cs', ext. split; [reflexivity|]. repeat split; auto. 
Qed.
Definition same (c c' : fcst) : Prop := chain c' = chain c.
Lemma inv_step c cs D c' ext : inv c cs D -> pst (c_pool (f_c c')) (cs ++ ext) -> c_globals (f_c c') = c_globals (f_c c) -> same c c' -> inv c' (cs ++ ext) D.
Proof. intros [P G Go R N] P' G' S. constructor; auto; rewrite ?G', ?S; auto. apply gl_in_ext, G. Qed.

(** ** Steps of the compiler. *)
Lemma step_on_cur (c : fcst) (cs : list value) (n : nat) (ok : bool) (f : cst -> outcome cst) (Q : fcst -> Prop) : (if ok then tot (view c) cs n (f (view c)) (cur c) (c_cps (f_c c)) else f (view c) = Err ESyntax) -> (forall c', same c c' -> Q c') -> step c cs n ok (on_cur f c) Q.
Proof.
  intros H K. unfold on_cur. destruct ok; [|cbn in *; rewrite H; reflexivity]. destruct H as (d & cs' & ext & -> & P & Ec & L & S & G & C). cbn [omap bind].
  exists (unview c d), cs', ext. unfold unview. destruct (set_cur_c (FC (set_scopes d (c_scopes (f_c c))) (f_envs c)) (c_scopes d)) as (E1 & E2). rewrite E1, E2. cbn [f_c set_scopes c_pool c_globals]. repeat split; auto.
  apply K. unfold same. rewrite chain_set, S. symmetry. etransitivity; [apply chain_cur|]. f_equal.
Qed.
Lemma step_lit c cs v : pst (c_pool (f_c c)) cs -> literal v -> Z.of_nat (length cs) < 2 ^ 29 -> step c cs 1 true (on_cur (fun d => add_literal fuel d v) c) (same c).
Proof. intros P L S. apply step_on_cur; [|auto]. apply (tot_literal fuel Hf (view c)); auto. Qed.
Lemma contains_get ss x : contains ss x = match scope_get ss x with Some _ => true | None => false end. Proof. reflexivity. Qed.
Lemma chain_concat c : concat (chain c) = concat (map fe_scopes (f_envs c)) ++ c_scopes (f_c c).
Proof. unfold chain. rewrite concat_app. cbn. rewrite app_nil_r. reflexivity. Qed.
Lemma env_contains_get es x : env_contains es x = match scope_get (concat (map fe_scopes es)) x with Some _ => true | None => false end.
Proof. induction es as [|e es IH]; [reflexivity|]. cbn [env_contains existsb map concat]. rewrite get_app, contains_get. destruct (scope_get (fe_scopes e) x); [reflexivity|]. exact IH. Qed.
Lemma nearest_get_get es x : nearest_get es x = scope_get (concat (map fe_scopes es)) x.
Proof. unfold nearest_get. induction es as [|e es IH]; [reflexivity|]. cbn [find map concat]. rewrite get_app, contains_get. destruct (scope_get (fe_scopes e) x) eqn:E; [rewrite E; reflexivity|]. exact IH. Qed.
Lemma mark_scopes es x : map fe_scopes (mark_nearest es x) = map fe_scopes es.
Proof. induction es as [|e es IH]; [reflexivity|]. cbn [mark_nearest]. destruct (contains (fe_scopes e) x); cbn [map]; [reflexivity|rewrite IH; reflexivity]. Qed.
Lemma clo_scopes es : map fe_scopes (mark_clo es) = map fe_scopes es.
Proof. destruct es; reflexivity. Qed.
Lemma up_index_app ups x v : exists i, up_index (ups ++ [(x, v)]) x = Some i.
Proof.
  unfold up_index. generalize 0%nat. induction ups as [|(y, w) ups IH]; intros n; cbn [app]; [rewrite name_eqb_refl; eauto|]. destruct (name_eqb y x); eauto.
Qed.
Lemma add_upval_ok e r stack x : scope_get (concat (map fe_scopes r) ++ stack) x <> None -> exists i es', add_upval (e :: r) stack x = Ok (i, es') /\ map fe_scopes es' = map fe_scopes (e :: r) /\
  match es' with e' :: _ => exists j, up_index (fe_ups e') x = Some j | [] => False end.
Proof.
  revert e. induction r as [|p r IH]; intros e V.
  - cbn [add_upval]. cbn [map concat app] in V. destruct (scope_get stack x) as [z|]; [|congruence]. do 2 eexists. split; [reflexivity|]. split; [reflexivity|]. apply up_index_app.
  - assert (E : add_upval (e :: p :: r) stack x = do r' <- (if negb (contains (fe_scopes p) x) && match up_index (fe_ups p) x with None => true | Some _ => false end then omap snd (add_upval (p :: r) stack x) else Ok (p :: r));
        match r' with [] => UB | p' :: q => match scope_get (fe_scopes p') x with Some z => Ok (length (fe_ups e), put_up e x (get_index z) :: set_used p' :: q)
          | None => match up_index (fe_ups p') x with Some j => Ok (length (fe_ups e), put_up e x (Z.lnot (Z.of_nat j)) :: r') | None => UB end end end) by reflexivity.
    rewrite E. clear E. cbn [map concat] in V. rewrite <- app_assoc, get_app in V.
    destruct (scope_get (fe_scopes p) x) as [z|] eqn:Ep; rewrite contains_get, Ep; cbn [negb andb bind].
    + rewrite Ep. do 2 eexists. split; [reflexivity|]. split; [reflexivity|]. apply up_index_app.
    + destruct (up_index (fe_ups p) x) as [j|] eqn:Eu; cbn [bind].
      * rewrite Ep, Eu. do 2 eexists. split; [reflexivity|]. split; [reflexivity|]. apply up_index_app.
      * destruct (IH p V) as (i & es' & -> & S & U). cbn [omap bind snd]. destruct es' as [|p' q]; [destruct U|]. destruct U as (j & U). cbn [map] in S. injection S as S1 S2. rewrite S1, Ep, U.
        do 2 eexists. split; [reflexivity|]. split; [cbn [map put_up fe_scopes]; congruence|]. apply up_index_app.
Qed.
Lemma upval_ok o c x e r : f_envs c = e :: r -> scope_get (concat (map fe_scopes r) ++ c_scopes (f_c c)) x <> None ->
  exists c', upval_op o c x = Ok c' /\ c_pool (f_c c') = c_pool (f_c c) /\ c_globals (f_c c') = c_globals (f_c c) /\ same c c'.
Proof.
  intros E V. unfold upval_op, resolve_upval. rewrite E. cbn [mark_clo]. destruct (up_index (fe_ups (set_clo e)) x) as [i|] eqn:U.
  - cbn [bind]. eexists. split; [reflexivity|]. repeat split. unfold same, chain. rewrite E. reflexivity.
  - destruct (add_upval_ok (set_clo e) r (c_scopes (f_c c)) x V) as (i & es' & -> & S & _). cbn [bind]. eexists. split; [reflexivity|]. repeat split. unfold same, chain. cbn [f_envs f_c]. rewrite S, E. reflexivity.
Qed.
Lemma declared_get c cs D x : inv c cs D -> declared gs D x = match scope_get (concat (chain c)) x with Some _ => true | None => match assoc (c_globals (f_c c)) x with Some _ => true | None => false end end.
Proof. intros I. unfold declared. rewrite <- (rel_get _ _ x (i_rel _ _ _ I)). destruct (scope_get (concat (chain c)) x); [reflexivity|]. cbn. apply global_ok, I. Qed.
Lemma assignable_get c cs D x : inv c cs D -> CompSpec.assignable gs D x = match scope_get (concat (chain c)) x with Some z => negb (is_const z) | None => match assoc (c_globals (f_c c)) x with Some _ => true | None => false end end.
Proof. intros I. unfold CompSpec.assignable. rewrite <- (rel_get _ _ x (i_rel _ _ _ I)). destruct (scope_get (concat (chain c)) x); [reflexivity|]. cbn. apply global_ok, I. Qed.
Lemma chain_file c : f_envs c = [] -> concat (chain c) = c_scopes (f_c c) /\ cur c = c_scopes (f_c c).
Proof. intros E. unfold chain, cur. rewrite E. cbn. rewrite app_nil_r. split; reflexivity. Qed.
Lemma step_load c cs D x : inv c cs D -> step c cs 0 (declared gs D x) (fload_var fuel c x) (same c).
Proof.
  intros I. rewrite (declared_get _ _ _ x I). unfold fload_var. destruct (f_envs c) as [|e r] eqn:E.
  - destruct (chain_file c E) as (C1 & C2). rewrite C1. apply step_on_cur; [|auto].
    assert (V : view c = set_scopes (f_c c) (cur c)) by reflexivity. rewrite C2 in V |- *. replace (set_scopes (f_c c) (c_scopes (f_c c))) with (f_c c) in V by (destruct (f_c c); reflexivity). rewrite V.
    destruct (scope_get (c_scopes (f_c c)) x) eqn:S; [|destruct (assoc (c_globals (f_c c)) x) eqn:A].
    + apply tot_load; [exact Hf|apply I|apply I|]. unfold known. rewrite S. reflexivity.
    + apply tot_load; [exact Hf|apply I|apply I|]. unfold known. rewrite S, A. reflexivity.
    + unfold load_var. rewrite S, A. reflexivity.
  - rewrite chain_concat, E. cbn [map concat]. rewrite <- app_assoc, get_app. destruct (scope_get (fe_scopes e) x) eqn:Ee; [apply step_ret; [apply I|reflexivity..]|].
    rewrite env_contains_get. cbn [map concat]. rewrite !get_app, Ee. destruct (scope_get (concat (map fe_scopes r)) x) eqn:Er.
    + set (c1 := FC (f_c c) (mark_nearest (e :: r) x)). assert (E1 : f_envs c1 = e :: mark_nearest r x) by (unfold c1; cbn [f_envs mark_nearest]; rewrite contains_get, Ee; reflexivity).
      destruct (upval_ok O_ULOAD c1 x _ _ E1) as (c' & -> & P & G & S); [rewrite mark_scopes, get_app, Er; discriminate|]. apply step_ret; [rewrite P; apply I|rewrite G; reflexivity|]. unfold same in *. rewrite S. unfold chain. rewrite E1, E. cbn [map]. rewrite mark_scopes. reflexivity.
    + rewrite contains_get. destruct (scope_get (c_scopes (f_c c)) x) eqn:Ef.
      * destruct (upval_ok O_ULOAD c x _ _ E) as (c' & -> & P & G & S); [rewrite get_app, Er, Ef; discriminate|]. apply step_ret; [rewrite P; apply I|exact G|exact S].
      * destruct (assoc (c_globals (f_c c)) x) eqn:A; [|reflexivity]. destruct (tot_search fuel Hf (f_c c) cs x (i_pool _ _ _ I) (i_gl _ _ _ I _ _ A)) as (i & ->). cbn [bind]. apply step_ret; [apply I|reflexivity..].
Qed.
Lemma step_store c cs D x : inv c cs D -> step c cs 0 (CompSpec.assignable gs D x) (fstore_var fuel c x) (same c).
Proof.
  intros I. rewrite (assignable_get _ _ _ x I). unfold fstore_var. assert (GC : forall y z, assoc (c_globals (f_c c)) y = Some z -> is_const z = false) by (intros y z; apply (global_const _ _ (i_good _ _ _ I))). destruct (f_envs c) as [|e r] eqn:E.
  - destruct (chain_file c E) as (C1 & C2). rewrite C1. apply step_on_cur; [|auto].
    assert (V : view c = set_scopes (f_c c) (cur c)) by reflexivity. rewrite C2 in V |- *. replace (set_scopes (f_c c) (c_scopes (f_c c))) with (f_c c) in V by (destruct (f_c c); reflexivity). rewrite V.
    destruct (scope_get (c_scopes (f_c c)) x) as [z|] eqn:S; [destruct (is_const z) eqn:K|destruct (assoc (c_globals (f_c c)) x) eqn:A]; cbn [negb].
    + unfold store_var. rewrite S, K. reflexivity.
    + apply tot_store; [exact Hf|apply I|apply I|]. unfold writable. rewrite S, K. reflexivity.
    + apply tot_store; [exact Hf|apply I|apply I|]. unfold writable. rewrite S, A, (GC _ _ A). reflexivity.
    + unfold store_var. rewrite S, A. reflexivity.
  - rewrite chain_concat, E. cbn [map concat]. rewrite <- app_assoc, get_app. destruct (scope_get (fe_scopes e) x) as [z|] eqn:Ee; [destruct (is_const z); [reflexivity|apply step_ret; [apply I|reflexivity..]]|].
    rewrite nearest_get_get. cbn [map concat]. rewrite !get_app, Ee. destruct (scope_get (concat (map fe_scopes r)) x) as [z|] eqn:Er.
    + destruct (is_const z); [reflexivity|]. set (c1 := FC (f_c c) (mark_nearest (e :: r) x)). assert (E1 : f_envs c1 = e :: mark_nearest r x) by (unfold c1; cbn [f_envs mark_nearest]; rewrite contains_get, Ee; reflexivity).
      destruct (upval_ok O_USTORE c1 x _ _ E1) as (c' & -> & P & G & S); [rewrite mark_scopes, get_app, Er; discriminate|]. apply step_ret; [rewrite P; apply I|rewrite G; reflexivity|]. unfold same in *. rewrite S. unfold chain. rewrite E1, E. cbn [map]. rewrite mark_scopes. reflexivity.
    + destruct (scope_get (c_scopes (f_c c)) x) as [z|] eqn:Ef.
      * destruct (is_const z); [reflexivity|]. destruct (upval_ok O_USTORE c x _ _ E) as (c' & -> & P & G & S); [rewrite get_app, Er, Ef; discriminate|]. apply step_ret; [rewrite P; apply I|exact G|exact S].
      * destruct (assoc (c_globals (f_c c)) x) eqn:A; [|reflexivity]. rewrite (GC _ _ A). destruct (tot_search fuel Hf (f_c c) cs x (i_pool _ _ _ I) (i_gl _ _ _ I _ _ A)) as (i & ->). cbn [bind]. apply step_ret; [apply I|reflexivity..].
Qed.

(** ** Declarations. *)
Lemma decl_eq c x s r : cur c = s :: r -> (length (concat (s :: r)) + 1 <= 255)%nat -> on_cur (fun d => decl_var fuel d x) c = Ok (set_cur c (put_new s x (scope_len (s :: r)) :: r)).
Proof.
  intros E L. unfold on_cur. assert (V : c_scopes (view c) = s :: r) by (unfold view; cbn [set_scopes c_scopes]; exact E). unfold decl_var. rewrite V.
  assert (Sd : scope_decl (s :: r) x = put_new s x (scope_len (s :: r)) :: r) by (unfold scope_decl, put_new; destruct (assoc s x); reflexivity). rewrite Sd.
  assert (B : scope_len (put_new s x (scope_len (s :: r)) :: r) <= 255). { unfold scope_len in *. cbn [concat] in *. rewrite app_length in *. pose proof (put_new_len s x (Z.of_nat (length (s ++ concat r)))). rewrite app_length in *. lia. }
  destruct (Z.gtb_spec (scope_len (put_new s x (scope_len (s :: r)) :: r)) 255); [lia|]. cbn [omap bind]. f_equal. unfold unview, view. destruct c as [[bu sc gl po cp] [|e es]]; reflexivity.
Qed.
Lemma const_eq c x : cur c <> [] -> unview c (make_const (view c) x) = set_cur c (scope_const (cur c) x).
Proof.
  intros N. unfold make_const. assert (V : c_scopes (view c) = cur c) by reflexivity. rewrite V. destruct (cur c) as [|s r] eqn:E; [congruence|]. unfold unview, view. rewrite E. destruct c as [[bu sc gl po cp] [|e es]]; reflexivity.
Qed.
Lemma const_put s x n r : scope_const (put_new s x n :: r) x = assoc_put (put_new s x n) x (Z.lnot n) :: r.
Proof. cbn [scope_const]. rewrite put_new_get, name_eqb_refl. reflexivity. Qed.
(** the variable declared last *)
Definition newest (s s' : scope) (x : name) (k : bool) : Prop := (length s' <= S (length s))%nat /\ forall d, rel1 s d -> rel1 s' ((x, k) :: d).
Lemma newest_let s x n : 0 <= n -> newest s (put_new s x n) x false.
Proof. intros L. split; [apply put_new_len|]. intros d H. apply rel_new; [exact H|]. unfold is_const. destruct (Z.ltb_spec n 0); [lia|reflexivity]. Qed.
Lemma newest_const s x n : 0 <= n -> newest s (assoc_put (put_new s x n) x (Z.lnot n)) x true.
Proof. intros L. split; [rewrite put_len; apply put_new_len|]. intros d H. apply rel_const; assumption. Qed.
Lemma step_decl c cs x k s r : pst (c_pool (f_c c)) cs -> cur c = s :: r -> (length (concat (s :: r)) + 1 <= 255)%nat ->
  exists c', on_cur (fun d => decl_var fuel d x) c = Ok c' /\ exists s', let c2 := (if k : bool then unview c' (make_const (view c') x) else c') in
    c_pool (f_c c2) = c_pool (f_c c) /\ c_globals (f_c c2) = c_globals (f_c c) /\ chain c2 = (s' :: r) :: tl (chain c) /\ newest s s' x k.
Proof.
  intros P E L. rewrite (decl_eq c x s r E L). eexists. split; [reflexivity|]. set (n := scope_len (s :: r)). assert (Hn : 0 <= n) by (unfold n, scope_len; lia). set (c1 := set_cur c (put_new s x n :: r)).
  assert (C1 : chain c1 = (put_new s x n :: r) :: tl (chain c)) by apply chain_set. destruct (set_cur_c c (put_new s x n :: r)) as (E1 & E2). fold c1 in E1, E2.
  destruct k.
  - exists (assoc_put (put_new s x n) x (Z.lnot n)). assert (Cc : cur c1 = put_new s x n :: r) by (apply (cur_of _ _ _ C1)).
    cbv zeta. rewrite const_eq by congruence. rewrite Cc, const_put. destruct (set_cur_c c1 (assoc_put (put_new s x n) x (Z.lnot n) :: r)) as (E3 & E4). rewrite E3, E4, chain_set, C1. repeat split; auto; apply newest_const; exact Hn.
  - exists (put_new s x n). cbv zeta. repeat split; auto; apply newest_let; exact Hn.
Qed.
(** ** Entering and leaving scopes and functions. *)
Lemma infn_chain c : not_in_function c = match tl (chain c) with [] => true | _ => false end.
Proof. destruct c as [d [|e es]]; cbn; [reflexivity|]. destruct (map fe_scopes es); reflexivity. Qed.
Lemma enter_chain c : chain (fenter_scope c) = ([] :: cur c) :: tl (chain c).
Proof. apply chain_set. Qed.
Lemma enter_c c : c_pool (f_c (fenter_scope c)) = c_pool (f_c c) /\ c_globals (f_c (fenter_scope c)) = c_globals (f_c c).
Proof. apply set_cur_c. Qed.
Lemma exit_chain c s r t : chain c = (s :: r) :: t -> chain (fexit_scope c) = r :: t.
Proof. intros E. unfold fexit_scope, exit_scope. assert (V : c_scopes (view c) = s :: r) by (apply (cur_of c _ _ E)). rewrite V. unfold unview. rewrite chain_set. cbn [emit set_buf set_scopes c_scopes]. f_equal. assert (T : t = tl (chain c)) by (rewrite E; reflexivity). rewrite T. reflexivity. Qed.
Lemma exit_c c : c_pool (f_c (fexit_scope c)) = c_pool (f_c c) /\ c_globals (f_c (fexit_scope c)) = c_globals (f_c c).
Proof. unfold fexit_scope, exit_scope, unview, view. destruct c as [[bu sc gl po cp] [|e es]]; cbn; [destruct sc; split; reflexivity|]. destruct (fe_scopes e); split; reflexivity. Qed.
Lemma params_ok ps : forall c cs s t, pst (c_pool (f_c c)) cs -> chain c = [s] :: t -> (length s + length ps <= 255)%nat ->
  exists c' s', decl_params fuel ps c = Ok c' /\ c_pool (f_c c') = c_pool (f_c c) /\ c_globals (f_c c') = c_globals (f_c c) /\ chain c' = [s'] :: t /\ (length s' <= length s + length ps)%nat /\
    forall d, rel1 s d -> rel1 s' (rev ps ++ d).
Proof.
  induction ps as [|(x, k) ps IH]; intros c cs s t P C L; cbn [decl_params length] in *.
  - exists c, s. repeat split; auto. lia.
  - destruct (step_decl c cs x k s [] P (cur_of _ _ _ C)) as (c1 & -> & s1 & P1 & G1 & C1 & N1 & R1); [cbn; rewrite app_nil_r; lia|]. cbn [bind]. cbv zeta in P1, G1, C1. rewrite C in C1. cbn [tl] in C1.
    destruct (IH _ cs s1 t (eq_ind_r (fun p => pst p cs) P P1) C1) as (c' & s' & E & P2 & G2 & C2 & N2 & R2); [lia|]. exists c', s'. rewrite E, P2, G2, P1, G1. repeat split; auto; [lia|].
    intros d H. cbn [rev]. rewrite <- app_assoc. apply R2. apply R1, H.
Qed.
Lemma start_ok ps c cs : pst (c_pool (f_c c)) cs -> (length ps <= 255)%nat ->
  exists c' old s', fn_start fuel ps c = Ok (c', old) /\ c_pool (f_c c') = c_pool (f_c c) /\ c_globals (f_c c') = c_globals (f_c c) /\ chain c' = [s'] :: chain c /\ (length s' <= length ps)%nat /\ rel1 s' (rev ps).
Proof.
  intros P L. unfold fn_start. set (c1 := fenter_scope _). assert (C1 : chain c1 = [[]] :: chain c) by (unfold c1; rewrite enter_chain; reflexivity).
  destruct (enter_c (FC (f_c c) (FE [] [] false false :: f_envs c))) as (E1 & E2). fold c1 in E1, E2. cbn [f_c] in E1, E2.
  destruct (params_ok ps c1 cs [] (chain c)) as (c' & s' & E & P2 & G2 & C2 & N2 & R2); [rewrite E1; exact P|exact C1|cbn; lia|]. rewrite E. cbn [bind]. do 2 eexists. exists s'. split; [reflexivity|]. cbn [length] in N2.
  split; [cbn; congruence|]. split; [cbn; congruence|]. split; [exact C2|]. split; [lia|]. rewrite <- (app_nil_r (rev ps)). apply R2. intros y. reflexivity.
Qed.
Lemma end_ok c old s t : chain c = [s] :: t -> t <> [] -> exists c', fn_end c old = Ok c' /\ c_pool (f_c c') = c_pool (f_c c) /\ c_globals (f_c c') = c_globals (f_c c) /\ chain c' = t.
Proof.
  intros C N. destruct c as [[bu sc gl po cp] [|e es]]; [cbn in C; congruence|]. destruct e as [fs fu fc fd]. cbn in C. injection C as C1 C2. subst fs t. unfold fn_end, fexit_scope, exit_scope, unview, view. cbn. destruct fc; eexists; repeat split; reflexivity.
Qed.
Lemma fpeak_ge s : forall d, (d <= fpeak d s)%nat.
Proof.
  induction s using fstmt_mut with (P := fun _ => True) (P0 := fun _ => True); try exact I; intros d; cbn [fpeak];
    repeat match goal with A : forall d, (d <= fpeak d _)%nat |- _ => pose proof (A d); clear A end; lia.
Qed.
Lemma fpeak_mono s : forall d d', (d <= d')%nat -> (fpeak d s <= fpeak d' s)%nat.
Proof.
  induction s using fstmt_mut with (P := fun _ => True) (P0 := fun _ => True); try exact I; intros d d' H; cbn [fpeak]; try lia;
    repeat match goal with A : forall d d' : nat, _ -> (fpeak d ?a <= fpeak d' ?a)%nat |- _ => pose proof (A d d' H); assert (forall n, (fpeak (d + n) a <= fpeak (d' + n) a)%nat) by (intros n; apply A; lia); clear A end; try lia.
  match goal with A : forall n, (fpeak (d + n) ?a <= _)%nat |- context [fpeak (d + ?n) ?a] => specialize (A n) end. lia.
Qed.

(** ** The induction. *)
Lemma inv_on c cs D c0 : inv c cs D -> chain c0 = chain c -> c_pool (f_c c0) = c_pool (f_c c) -> c_globals (f_c c0) = c_globals (f_c c) -> inv c0 cs D.
Proof. intros [P G Go R N] E1 E2 E3. constructor; rewrite ?E1, ?E2, ?E3; assumption. Qed.
Lemma step_to c0 c cs n ok r (Q0 Q : fcst -> Prop) : step c0 cs n ok r Q0 -> c_globals (f_c c0) = c_globals (f_c c) -> (forall c', Q0 c' -> Q c') -> step c cs n ok r Q.
Proof. intros H E K. eapply step_from; [eapply step_weak; eassumption|exact E]. Qed.
Definition after (c : fcst) (s : fstmt) (D : names) (c' : fcst) : Prop :=
  exists sc rest sc', cur c = sc :: rest /\ chain c' = (sc' :: rest) :: tl (chain c) /\ (length sc' <= length sc + fdecls s)%nat /\ Forall2 rel1 (concat (chain c')) (fnames_after D s).
Lemma cur_ne c cs D : inv c cs D -> cur c <> [].
Proof. intros I. pose proof (i_ne _ _ _ I) as N. rewrite chain_cur in N. inversion N; assumption. Qed.
Lemma same_after c s D cs c' : inv c cs D -> same c c' -> fnames_after D s = D -> after c s D c'.
Proof.
  intros I E F. pose proof (cur_ne _ _ _ I) as N. destruct (cur c) as [|sc rest] eqn:Ec; [congruence|]. exists sc, rest, sc. unfold same in E. rewrite E, F. split; [exact Ec|]. split; [rewrite chain_cur, Ec at 1; reflexivity|]. split; [lia|]. apply I.
Qed.
Lemma after_inv c s D cs c' ext : inv c cs D -> after c s D c' -> pst (c_pool (f_c c')) (cs ++ ext) -> c_globals (f_c c') = c_globals (f_c c) -> inv c' (cs ++ ext) (fnames_after D s).
Proof.
  intros I (sc & rest & sc' & Ec & C & L & R) P G. constructor; [exact P|rewrite G; apply gl_in_ext, I|rewrite G; apply I|exact R|]. rewrite C. pose proof (i_ne _ _ _ I) as N. rewrite chain_cur in N. inversion N; subst. constructor; [discriminate|assumption].
Qed.
Lemma seq_e c cs D n1 n2 n ok1 ok2 r f Q : inv c cs D -> step c cs n1 ok1 r (same c) -> (n1 + n2 <= n)%nat -> small cs n ->
  (forall c' ext, inv c' (cs ++ ext) D -> small (cs ++ ext) n2 -> chain c' = chain c -> step c' (cs ++ ext) n2 ok2 (f c') Q) -> step c cs n (ok1 && ok2) (bind r f) Q.
Proof.
  intros I H L S K. eapply step_bind; [exact H|exact L|]. intros _ c' ext P Le G Sa. apply K; [eapply inv_step; eassumption| |exact Sa]. unfold small in *. rewrite app_length. lia.
Qed.
Lemma seq_s c cs D s n1 n2 n ok1 ok2 r f Q : inv c cs D -> step c cs n1 ok1 r (after c s D) -> (n1 + n2 <= n)%nat -> small cs n ->
  (forall c' ext, inv c' (cs ++ ext) (fnames_after D s) -> small (cs ++ ext) n2 -> after c s D c' -> step c' (cs ++ ext) n2 ok2 (f c') Q) -> step c cs n (ok1 && ok2) (bind r f) Q.
Proof.
  intros I H L S K. eapply step_bind; [exact H|exact L|]. intros _ c' ext P Le G Sa. apply K; [eapply after_inv; eassumption| |exact Sa]. unfold small in *. rewrite app_length. lia.
Qed.
Lemma current_new c cs D x : inv c cs D -> new_here D x = negb (in_current (view c) x).
Proof.
  intros I. pose proof (cur_ne _ _ _ I) as N. pose proof (i_rel _ _ _ I) as R. rewrite chain_cur in R. unfold in_current. assert (V : c_scopes (view c) = cur c) by reflexivity. rewrite V. destruct (cur c) as [|s r]; [congruence|]. cbn [concat app] in R.
  inversion R as [|s0 d ss D' H1 H2]; subst. cbn [new_here]. specialize (H1 x). destruct (assoc s x), (in_scope d x); cbn in H1; try discriminate; reflexivity.
Qed.
Lemma rel_add c cs D x k s r s' : inv c cs D -> cur c = s :: r -> newest s s' x k -> Forall2 rel1 (concat ((s' :: r) :: tl (chain c))) (CompSpec.add_name D x k).
Proof. intros I E (_ & N). pose proof (i_rel _ _ _ I) as R. rewrite chain_cur, E in R. cbn [concat app] in *. inversion R as [|s0 d ss D' H1 H2]; subst. constructor; [apply N, H1|exact H2]. Qed.
Lemma inv_new c cs D x k s r s' c1 : inv c cs D -> cur c = s :: r -> newest s s' x k -> c_pool (f_c c1) = c_pool (f_c c) -> c_globals (f_c c1) = c_globals (f_c c) -> chain c1 = (s' :: r) :: tl (chain c) -> inv c1 cs (CompSpec.add_name D x k).
Proof.
  intros I E N P G C. constructor; rewrite ?P, ?G, ?C; try apply I; [eapply rel_add; eassumption|]. pose proof (i_ne _ _ _ I) as Ne. rewrite chain_cur in Ne. inversion Ne; subst. constructor; [discriminate|assumption].
Qed.
Definition P_e (e : fexpr) : Prop := forall er c cs D, inv c cs D -> Forall literal (flits_e e) -> small cs (length (flits_e e)) -> narrow_e 255 e = true ->
  step c cs (length (flits_e e)) (flegal_e gs D e) (fvisit_e fuel e er c) (same c).
Definition P_a (e : fargs) : Prop := forall er c cs D, inv c cs D -> Forall literal (flits_args e) -> small cs (length (flits_args e)) -> narrow_args 255 e = true ->
  step c cs (length (flits_args e)) (flegal_args gs D e) (fvisit_args fuel e er c) (same c).
Definition P_s (s : fstmt) : Prop := forall er c cs D, inv c cs D -> Forall literal (flits_s s) -> small cs (length (flits_s s)) -> narrow_s 255 s = true -> (fpeak (length (concat (cur c))) s <= 255)%nat ->
  step c cs (length (flits_s s)) (flegal_s gs D (negb (not_in_function c)) s) (fvisit_s fuel s er c) (after c s D).
Lemma step_block b : P_s b -> forall er c cs D, inv c cs D -> Forall literal (flits_s b) -> small cs (length (flits_s b)) -> narrow_s 255 b = true -> (fpeak (length (concat (cur c))) b <= 255)%nat ->
  step c cs (length (flits_s b)) (flegal_s gs ([] :: D) (negb (not_in_function c)) b) (do c <- fvisit_s fuel b er (fenter_scope c); Ok (fexit_scope c)) (same c).
Proof.
  intros IH er c cs D I L S N Pk. destruct (enter_c c) as (E1 & E2). pose proof (enter_chain c) as C.
  assert (I1 : inv (fenter_scope c) cs ([] :: D)). { constructor; rewrite ?E1, ?E2; try apply I. - rewrite C. cbn [concat app]. pose proof (i_rel _ _ _ I) as R. rewrite chain_cur in R. constructor; [intros y; reflexivity|exact R]. - rewrite C. pose proof (i_ne _ _ _ I) as N'. rewrite chain_cur in N'. inversion N'; subst. constructor; [discriminate|assumption]. }
  assert (Nf : not_in_function (fenter_scope c) = not_in_function c) by (rewrite !infn_chain, C; reflexivity). rewrite <- Nf.
  eapply step_from; [|exact E2]. eapply step_then; [apply IH; auto|].
  - rewrite (cur_of _ _ _ C). cbn [concat app]. exact Pk.
  - intros c' (sc & rest & sc' & Ec & C' & _). rewrite (cur_of _ _ _ C) in Ec. injection Ec as <- <-. eexists. split; [reflexivity|]. destruct (exit_c c') as (X1 & X2). repeat split; auto.
    unfold same. erewrite exit_chain by exact C'. rewrite C. cbn [tl]. symmetry. apply chain_cur.
Qed.
Lemma step_fn ps b : P_s b -> forall er c cs D, inv c cs D -> Forall literal (flits_s b) -> small cs (length (flits_s b)) -> narrow_s 255 b = true -> (fpeak (length ps) b <= 255)%nat ->
  step c cs (length (flits_s b)) (flegal_s gs (with_params ps D) true b) (do (c, old) <- fn_start fuel ps c; do c <- fvisit_s fuel b er c; fn_end c old) (same c).
Proof.
  intros IH er c cs D I L S N Pk. pose proof (fpeak_ge b (length ps)) as Pg. destruct (start_ok ps c cs (i_pool _ _ _ I) ltac:(lia)) as (c1 & old & s1 & -> & P1 & G1 & C1 & L1 & R1). cbn [bind].
  assert (I1 : inv c1 cs (with_params ps D)). { constructor; rewrite ?P1, ?G1; try apply I. - rewrite C1. cbn [concat app]. constructor; [exact R1|apply I]. - rewrite C1. constructor; [discriminate|apply I]. }
  assert (Nf : not_in_function c1 = false) by (rewrite infn_chain, C1; cbn [tl]; rewrite chain_cur; reflexivity).
  eapply step_from; [|exact G1]. eapply step_then; [specialize (IH er c1 cs _ I1 L S N); rewrite Nf in IH; apply IH|].
  - rewrite (cur_of _ _ _ C1). cbn [concat]. rewrite app_nil_r. pose proof (fpeak_mono b _ _ L1). lia.
  - intros c' (sc & rest & sc' & Ec & C' & _). rewrite (cur_of _ _ _ C1) in Ec. injection Ec as <- <-. rewrite C1 in C'. cbn [tl] in C'. destruct (end_ok c' old sc' (chain c) C') as (c2 & E & P2 & G2 & C2); [rewrite chain_cur; discriminate|]. exists c2. auto.
Qed.
Lemma step_let c c1 cs D x k st : inv c1 cs D -> chain c1 = chain c -> (length (concat (cur c)) + 1 <= 255)%nat -> fdecls st = 1%nat -> fnames_after D st = CompSpec.add_name D x k ->
  step c1 cs 0 true (do c' <- on_cur (fun d => decl_var fuel d x) c1; Ok (if k then unview c' (make_const (view c') x) else c')) (after c st D).
Proof.
  intros I C Le E1 E2. pose proof (cur_ne _ _ _ I) as N. pose proof (chain_cur c1) as X. pose proof (chain_cur c) as Y. assert (Z1 : cur c1 = cur c) by congruence. rewrite <- Z1 in Le. destruct (cur c1) as [|s r] eqn:Ec; [congruence|].
  destruct (step_decl c1 cs x k s r (i_pool _ _ _ I) Ec Le) as (c2 & -> & s1 & P1 & G1 & C1 & N1). cbv zeta in P1, G1, C1. cbn [bind]. apply step_ret; [rewrite P1; apply I|exact G1|].
  exists s, r, s1. rewrite E1, E2, C1, C. repeat split; auto; [destruct N1; lia|]. rewrite <- C. eapply rel_add; eassumption.
Qed.
Ltac brk := repeat match goal with H : _ && _ = true |- _ => apply andb_true_iff in H; destruct H | H : Forall literal (_ ++ _) |- _ => apply Forall_app in H; destruct H | H : (_ <=? _)%nat = true |- _ => apply Nat.leb_le in H end; rewrite ?app_length in *.
Ltac sm := unfold small in *; cbn [flits_e flits_args flits_s] in *; rewrite ?app_length in *; cbn [length] in *; lia.
Lemma step_fin c1 cX c cs n ok r g : step c1 cs n ok r (same c1) -> c_globals (f_c c1) = c_globals (f_c cX) -> chain c1 = chain c ->
  (forall c', c_pool (f_c (g c')) = c_pool (f_c c') /\ c_globals (f_c (g c')) = c_globals (f_c c') /\ chain (g c') = chain c') -> step cX cs n ok (bind r (fun c' => Ok (g c'))) (same c).
Proof.
  intros H G C K. eapply step_from; [eapply step_then; [exact H|]|exact G]. intros c' Sa. destruct (K c') as (K1 & K2 & K3). eexists. split; [reflexivity|]. repeat split; auto. unfold same in *. congruence.
Qed.
(** an expression-like statement: the scopes stay *)
Lemma step_stmt c cs D s n ok r : inv c cs D -> step c cs n ok r (same c) -> fnames_after D s = D -> step c cs n ok r (after c s D).
Proof. intros I H E. eapply step_weak; [exact H|]. intros c' Sa. eapply same_after; [exact I|exact Sa|exact E]. Qed.
Lemma truthy_legal e D : f_truthy e = true -> flegal_e gs D e = true. Proof. destruct e; cbn; congruence. Qed.
Lemma falsey_legal e D : f_falsey e = true -> flegal_e gs D e = true. Proof. destruct e; cbn; congruence. Qed.
Lemma contains_legal c cs D x : inv c cs D -> fcontains_var c x = declared gs D x.
Proof.
  intros I. rewrite (declared_get _ _ _ x I). unfold fcontains_var. rewrite env_contains_get, contains_get, chain_concat, get_app. destruct (scope_get (concat (map fe_scopes (f_envs c))) x); [rewrite orb_true_r; reflexivity|]. rewrite orb_false_r. destruct (scope_get (c_scopes (f_c c)) x); reflexivity.
Qed.
Lemma assignable_declared D x : declared gs D x = false -> CompSpec.assignable gs D x = false.
Proof. unfold declared, CompSpec.assignable. destruct (in_scopes D x); [discriminate|auto]. Qed.
Lemma ret_ok c : not_in_function c = false -> exists c', fn_ret c = Ok c' /\ c_pool (f_c c') = c_pool (f_c c) /\ c_globals (f_c c') = c_globals (f_c c) /\ chain c' = chain c.
Proof. unfold fn_ret, not_in_function. destruct (f_envs c) eqn:E; [discriminate|]. intros _. eexists. repeat split. Qed.
Lemma same_nf c c' : chain c' = chain c -> not_in_function c' = not_in_function c.
Proof. intros E. rewrite !infn_chain, E. reflexivity. Qed.
Lemma all_ok : (forall e, P_e e) /\ (forall e, P_a e) /\ (forall s, P_s s).
Proof.
  apply fn_ind; unfold P_e, P_a.
  - (* FUndef *) intros er c cs D I L S N. apply step_ret; [apply I|reflexivity..].
  - intros b er c cs D I L S N. apply step_ret; [apply I|reflexivity..].
  - intros i er c cs D I L S N. inversion L; subst. apply step_lit; [apply I|assumption|sm].
  - intros i er c cs D I L S N. inversion L; subst. apply step_lit; [apply I|assumption|sm].
  - intros i er c cs D I L S N. inversion L; subst. apply step_lit; [apply I|assumption|sm].
  - intros x er c cs D I L S N. apply step_load; exact I.
  - intros o e IH er c cs D I L S N. cbn [fvisit_e flits_e flegal_e narrow_e] in *. eapply step_then; [apply IH; assumption|]. intros c' Sa. eexists. split; [reflexivity|]. repeat split. exact Sa.
  - intros o l IHl r IHr er c cs D I L S N. cbn [fvisit_e flits_e flegal_e narrow_e] in *. brk. eapply seq_e; [exact I|apply IHl; auto; sm|apply le_n|exact S|]. intros c1 x1 I1 S1 C1.
    eapply step_fin; [apply IHr; [exact I1|assumption|sm|assumption]|reflexivity|exact C1|intros c'; repeat split].
  - intros o l IHl r IHr er c cs D I L S N. cbn [fvisit_e flits_e flegal_e narrow_e] in *. brk. eapply seq_e; [exact I|apply IHl; auto; sm|apply le_n|exact S|]. intros c1 x1 I1 S1 C1. cbn [fjmp].
    eapply step_fin; [apply IHr; [eapply inv_on; [exact I1|reflexivity..]|assumption|sm|assumption]|reflexivity|exact C1|intros c'; repeat split].
  - intros q IHq a IHa b IHb er c cs D I L S N. cbn [fvisit_e flits_e flegal_e narrow_e] in *. brk. rewrite <- andb_assoc. eapply seq_e; [exact I|apply IHq; auto; sm|apply le_n|exact S|]. intros c1 x1 I1 S1 C1. cbn [fjmp].
    match goal with |- step _ _ _ _ (bind (fvisit_e _ _ _ ?c2) _) _ => assert (I2 : inv c2 (cs ++ x1) D) by (eapply inv_on; [exact I1|reflexivity..]); assert (C2 : chain c2 = chain c) by exact C1; apply (step_from c1 c2); [|reflexivity] end.
    eapply seq_e; [exact I2|apply IHa; [exact I2|assumption|sm|assumption]|apply le_n|exact S1|]. intros c3 x3 I3 S3 C3. cbn [fjmp].
    eapply step_fin; [apply IHb; [eapply inv_on; [exact I3|reflexivity..]|assumption|sm|assumption]|reflexivity|exact (eq_trans C3 C2)|intros c'; repeat split].
  - intros f IHf a IHa er c cs D I L S N. cbn [fvisit_e flits_e flegal_e narrow_e] in *. brk. eapply seq_e; [exact I|apply IHf; auto; sm|apply le_n|exact S|]. intros c1 x1 I1 S1 C1.
    eapply step_fin; [apply IHa; [eapply inv_on; [exact I1|reflexivity..]|assumption|sm|assumption]|reflexivity|exact C1|intros c'; repeat split].
  - intros n e IH er c cs D I L S N. apply IH; assumption.
  - intros l ps b IH er c cs D I L S N. cbn [narrow_e] in N. brk. apply step_fn; assumption.
  - intros er c cs D I L S N. apply step_ret; [apply I|reflexivity..].
  - intros e IHe r IHr er c cs D I L S N. cbn [fvisit_args flits_args flegal_args narrow_args] in *. brk. eapply seq_e; [exact I|apply IHe; auto; sm|apply le_n|exact S|]. intros c1 x1 I1 S1 C1.
    eapply step_to; [apply IHr; [exact I1|assumption|sm|assumption]|reflexivity|]. intros c' Sa. exact (eq_trans Sa C1).
  - (* FSkip *) intros er c cs D I L S N Pk. apply step_ret; [apply I|reflexivity|]. eapply same_after; [exact I|reflexivity..].
  - intros a IHa b IHb er c cs D I L S N Pk. cbn [fvisit_s flits_s flegal_s narrow_s fpeak] in *. brk. eapply seq_s; [exact I|apply IHa; auto; [sm|lia]|apply le_n|exact S|]. intros c1 x1 I1 S1 A1.
    pose proof A1 as (sc & rest & sc1 & E1 & C1 & L1 & R1). assert (Nf : not_in_function c1 = not_in_function c) by (rewrite !infn_chain, C1; reflexivity). rewrite <- Nf.
    eapply step_to; [apply IHb; auto|reflexivity|].
    + rewrite (cur_of _ _ _ C1). rewrite E1 in Pk. cbn [concat] in *. rewrite !app_length in *. match goal with |- (fpeak ?x b <= _)%nat => pose proof (fpeak_mono b x (length sc + length (concat rest) + fdecls a)) end. lia.
    + intros c' (sc0 & rest0 & sc' & E & C & Le & R). rewrite (cur_of _ _ _ C1) in E. injection E as <- <-. exists sc, rest, sc'. rewrite C, C1. cbn [tl fdecls fnames_after]. repeat split; auto; [lia|]. rewrite C, C1 in R. exact R.
  - (* FExpr *) intros e IH er c cs D I L S N Pk. cbn [flits_s flegal_s narrow_s] in *.
    assert (V : step c cs (length (flits_e e)) (flegal_e gs D e) (do c <- fvisit_e fuel e er c; Ok (femit c (op O_POP))) (after c (FExpr e) D)).
    { eapply step_then; [apply IH; auto|]. intros c' Sa. eexists. split; [reflexivity|]. split; [reflexivity|]. split; [reflexivity|]. eapply same_after; [exact I|exact Sa|reflexivity]. }
    assert (K : forall n, step c cs n true (Ok c) (after c (FExpr e) D)) by (intros n; apply step_ret; [apply I|reflexivity|eapply same_after; [exact I|reflexivity..]]).
    destruct e; try exact V; try (apply K). cbn [fvisit_s]. apply step_validate; [eapply step_weak; [apply (IH er c cs D); auto|]|].
    + intros c' Sa. eapply same_after; [exact I|exact Sa|reflexivity].
    + intros c' H. exact H.
  - (* FLet *) intros k x e IH er c cs D I L S N Pk. cbn [fvisit_s flits_s flegal_s narrow_s fpeak] in *. eapply (seq_e _ _ _ _ 0); [exact I|apply IH; auto|lia|exact S|]. intros c1 x1 I1 S1 C1. rewrite (current_new _ _ _ x I1).
    destruct (in_current (view c1) x); cbn [negb]; [reflexivity|]. apply (step_let c c1 _ D x k (FLet k x e)); auto; try lia.
  - (* FFnDecl *) intros k x l ps b IH er c cs D I L S N Pk. cbn [fvisit_s flits_s flegal_s narrow_s fpeak] in *. brk. rewrite (current_new _ _ _ x I). destruct (in_current (view c) x); cbn [negb andb]; [reflexivity|].
    pose proof (cur_ne _ _ _ I) as Nn. destruct (cur c) as [|s r] eqn:Ec; [congruence|].
    destruct (step_decl c cs x false s r (i_pool _ _ _ I) Ec) as (c1 & -> & s1 & P1 & G1 & C1 & N1); [lia|]. cbv zeta in P1, G1, C1. cbn [bind].
    assert (I1 : inv c1 cs (CompSpec.add_name D x false)) by (eapply inv_new; eassumption).
    eapply step_from; [|exact G1]. rewrite bind_pair. eapply step_then; [apply (step_fn ps b IH er c1 cs _ I1); auto|].
    intros c2 Sa. unfold same in Sa. assert (C2 : chain c2 = (s1 :: r) :: tl (chain c)) by congruence. eexists. split; [reflexivity|]. destruct k.
    + rewrite const_eq by (rewrite (cur_of _ _ _ C2); discriminate). destruct (set_cur_c c2 (scope_const (cur c2) x)) as (X1 & X2). rewrite X1, X2. split; [reflexivity|]. split; [reflexivity|]. 
      pose proof (i_rel _ _ _ I1) as R1. rewrite C1 in R1. cbn [concat app] in R1. pose proof (i_rel _ _ _ I) as R0. rewrite chain_cur, Ec in R0. cbn [concat app] in R0. inversion R0 as [|s0 d ss D' Ha Hb]; subst. cbn [CompSpec.add_name] in *. inversion R1 as [|? ? ? ? Hc Hd]; subst.
      destruct (const_rel _ _ _ Hc) as (n & A & Rn). exists s, r, (assoc_put s1 x (Z.lnot n)). rewrite chain_set, C2, (cur_of _ _ _ C2). cbn [scope_const tl fdecls fnames_after CompSpec.add_name]. rewrite A. repeat split; auto; [rewrite put_len; destruct N1; lia|].
      cbn [concat app]. constructor; assumption.
    + split; [reflexivity|]. split; [reflexivity|]. exists s, r, s1. rewrite C2. cbn [fdecls fnames_after]. repeat split; auto; [destruct N1; lia|]. eapply rel_add; eassumption.
  - (* FAssign *) intros x e IH er c cs D I L S N Pk. cbn [fvisit_s flits_s flegal_s narrow_s fpeak] in *. apply step_stmt; [exact I| |reflexivity]. rewrite (contains_legal _ _ _ x I). destruct (declared gs D x) eqn:Dx.
    + eapply (seq_e _ _ _ _ 0); [exact I|apply IH; auto|lia|exact S|]. intros c1 x1 I1 S1 C1. eapply step_weak; [apply step_store; exact I1|]. intros c' Sa. exact (eq_trans Sa C1).
    + rewrite (assignable_declared _ _ Dx), andb_false_r. reflexivity.
  - (* FBlock *) intros b IH er c cs D I L S N Pk. cbn [fvisit_s flits_s flegal_s narrow_s fpeak] in *. apply step_stmt; [exact I| |reflexivity]. apply step_block; auto.
  - (* FIf *) intros q IHq a IHa er c cs D I L S N Pk. cbn [fvisit_s flits_s flegal_s narrow_s fpeak] in *. cbv zeta. brk. apply step_stmt; [exact I| |reflexivity].
    assert (B : step c cs (length (flits_s a)) (flegal_s gs ([] :: D) (negb (not_in_function c)) a) (do c <- fvisit_s fuel a er (fenter_scope c); Ok (fexit_scope c)) (same c)) by (apply step_block; auto; sm).
    destruct (f_truthy q) eqn:Tq; [rewrite (truthy_legal _ _ Tq); eapply step_le; [exact B|lia]|]. destruct (f_falsey q) eqn:Fq; [rewrite (falsey_legal _ _ Fq); eapply step_le; [apply step_validate; [exact B|auto]|lia]|]. clear B.
    eapply seq_e; [exact I|apply IHq; auto; sm|apply le_n|exact S|]. intros c1 x1 I1 S1 C1. cbn [fjmp].
    match goal with |- context [fenter_scope ?c2] => assert (I2 : inv c2 (cs ++ x1) D) by (eapply inv_on; [exact I1|reflexivity..]); assert (C2 : chain c2 = chain c) by exact C1 end.
    rewrite <- (same_nf _ _ C2). eapply step_fin; [apply step_block; [exact IHa|exact I2|assumption|sm|assumption|]|reflexivity|exact C2|intros c'; repeat split]. rewrite (cur_same _ _ C2). exact Pk.
  - (* FIfElse *) intros q IHq a IHa b IHb er c cs D I L S N Pk. cbn [fvisit_s flits_s flegal_s narrow_s fpeak] in *. cbv zeta. brk. apply step_stmt; [exact I| |reflexivity].
    assert (Ba : forall c1 x1, inv c1 (cs ++ x1) D -> chain c1 = chain c -> small (cs ++ x1) (length (flits_s a)) -> step c1 (cs ++ x1) (length (flits_s a)) (flegal_s gs ([] :: D) (negb (not_in_function c)) a) (do c' <- fvisit_s fuel a er (fenter_scope c1); Ok (fexit_scope c')) (same c1)).
    { intros c1 x1 I1 C1 S1. rewrite <- (same_nf _ _ C1). apply step_block; auto. rewrite (cur_same _ _ C1). lia. }
    assert (Bb : forall c1 x1, inv c1 (cs ++ x1) D -> chain c1 = chain c -> small (cs ++ x1) (length (flits_s b)) -> step c1 (cs ++ x1) (length (flits_s b)) (flegal_s gs ([] :: D) (negb (not_in_function c)) b) (do c' <- fvisit_s fuel b er (fenter_scope c1); Ok (fexit_scope c')) (same c1)).
    { intros c1 x1 I1 C1 S1. rewrite <- (same_nf _ _ C1). apply step_block; auto. rewrite (cur_same _ _ C1). lia. }
    assert (Ba0 := Ba c []). rewrite app_nil_r in Ba0. specialize (Ba0 I eq_refl ltac:(sm)).
    destruct (f_truthy q) eqn:Tq.
    { rewrite (truthy_legal _ _ Tq). cbn [andb]. eapply seq_e; [exact I|exact Ba0|instantiate (1 := length (flits_s b)); lia|exact S|]. intros c1 x1 I1 S1 C1. eapply step_weak; [apply step_validate; [apply Bb; auto|auto]|]. intros c' Sa. exact (eq_trans Sa C1). }
    destruct (f_falsey q) eqn:Fq.
    { rewrite (falsey_legal _ _ Fq). cbn [andb]. eapply seq_e; [exact I|apply step_validate; [exact Ba0|auto]|instantiate (1 := length (flits_s b)); lia|exact S|]. intros c1 x1 I1 S1 C1. eapply step_weak; [apply Bb; auto|]. intros c' Sa. exact (eq_trans Sa C1). }
    rewrite <- andb_assoc. eapply seq_e; [exact I|apply IHq; auto; sm|apply le_n|exact S|]. intros c1 x1 I1 S1 C1. cbn [fjmp].
    match goal with |- context [fenter_scope ?c2] => assert (I2 : inv c2 (cs ++ x1) D) by (eapply inv_on; [exact I1|reflexivity..]); assert (C2 : chain c2 = chain c) by exact C1; apply (step_from c1 c2); [|reflexivity] end.
    eapply seq_e; [exact I2|apply Ba; [exact I2|exact C2|sm]|apply le_n|exact S1|]. intros c3 x3 I3 S3 C3. cbn [fjmp].
    rewrite <- app_assoc in *. eapply step_fin; [apply Bb; [eapply inv_on; [exact I3|reflexivity..]|exact (eq_trans C3 C2)|exact S3]|reflexivity|exact (eq_trans C3 C2)|intros c'; repeat split].
  - (* FWhile *) intros q IHq a IHa er c cs D I L S N Pk. cbn [fvisit_s flits_s flegal_s narrow_s fpeak] in *. cbv zeta. brk. apply step_stmt; [exact I| |reflexivity].
    destruct (f_falsey q) eqn:Fq; [rewrite (falsey_legal _ _ Fq); eapply step_le; [apply step_validate; [apply step_block; auto; sm|auto]|lia]|].
    eapply seq_e; [exact I|apply IHq; auto; sm|apply le_n|exact S|]. intros c1 x1 I1 S1 C1. cbn [fjmp].
    match goal with |- context [fenter_scope ?c2] => assert (I2 : inv c2 (cs ++ x1) D) by (eapply inv_on; [exact I1|reflexivity..]); assert (C2 : chain c2 = chain c) by exact C1 end.
    rewrite <- (same_nf _ _ C2). eapply step_fin; [apply step_block; [exact IHa|exact I2|assumption|sm|assumption|]|reflexivity|exact C2|intros c'; repeat split]. rewrite (cur_same _ _ C2). exact Pk.
  - (* FReturn *) intros e IH er c cs D I L S N Pk. cbn [fvisit_s flits_s flegal_s narrow_s fpeak] in *. apply step_stmt; [exact I| |reflexivity]. destruct (not_in_function c) eqn:Nf; cbn [negb andb]; [reflexivity|].
    eapply step_then; [apply IH; auto|]. intros c' Sa. destruct (ret_ok c') as (c2 & E & P2 & G2 & C2); [rewrite (same_nf _ _ Sa); exact Nf|]. exists c2. repeat split; auto. exact (eq_trans C2 Sa).
  - (* FReturns *) intros e IH er c cs D I L S N Pk. cbn [fvisit_s flits_s flegal_s narrow_s fpeak] in *. apply step_stmt; [exact I| |reflexivity]. destruct (not_in_function c) eqn:Nf; cbn [negb andb]; [reflexivity|].
    eapply step_then; [apply IH; auto|]. intros c' Sa. destruct (ret_ok c') as (c2 & E & P2 & G2 & C2); [rewrite (same_nf _ _ Sa); exact Nf|]. exists c2. repeat split; auto. exact (eq_trans C2 Sa).
  - (* FEcho *) intros e IH er c cs D I L S N Pk. cbn [fvisit_s flits_s flegal_s narrow_s fpeak] in *. apply step_stmt; [exact I| |reflexivity]. eapply step_fin; [apply IH; eauto|reflexivity..|intros c'; repeat split].
  - (* FAssert *) intros e IH er c cs D I L S N Pk. cbn [fvisit_s flits_s flegal_s narrow_s fpeak] in *. apply step_stmt; [exact I| |reflexivity]. eapply step_fin; [apply IH; eauto|reflexivity..|intros c'; repeat split].
Qed.

(** ** Programs. *)
Lemma stmts_ok pr : forall code c cs D, f_envs c = [] -> inv c cs D -> Forall literal (flits_s (fbody pr)) -> small cs (length (flits_s (fbody pr))) -> narrow_s 255 (fbody pr) = true -> (fpeak (length (concat (cur c))) (fbody pr) <= 255)%nat ->
  if flegal_s gs D false (fbody pr) then exists r, fcompile_stmts fuel pr code c = Ok r else fcompile_stmts fuel pr code c = Err ESyntax.
Proof.
  induction pr as [|s pr IH]; intros code c cs D Nf I L S N Pk; [cbn; eauto|]. cbn [fbody fold_right fcompile_stmts flits_s flegal_s narrow_s fpeak] in *. change (fold_right FSeq FSkip pr) with (fbody pr) in *. brk.
  pose proof (proj2 (proj2 all_ok) s 1 c cs D I) as A. unfold not_in_function in A. rewrite Nf in A. cbn [negb] in A. specialize (A ltac:(assumption) ltac:(sm) ltac:(assumption) ltac:(lia)).
  destruct (flegal_s gs D false s); cbn [andb]; [|cbn in A; rewrite A; reflexivity]. destruct A as (c1 & cs1 & ext & -> & P1 & -> & Le & G1 & A1). cbn [bind].
  pose proof (after_inv _ _ _ _ _ _ I A1 P1 G1) as I1. destruct A1 as (sc & rest & sc1 & E1 & C1 & L1 & R1).
  apply (IH _ (on_c (fun d => set_buf d []) c1) (cs ++ ext)); auto.
  - assert (X : not_in_function c1 = not_in_function c) by (rewrite !infn_chain, C1; reflexivity). unfold not_in_function in X. rewrite Nf in X. cbn. destruct (f_envs c1); [reflexivity|discriminate].
  - eapply inv_on; [exact I1|reflexivity..].
  - sm.
  - assert (X : chain (on_c (fun d => set_buf d []) c1) = (sc1 :: rest) :: tl (chain c)) by exact C1. rewrite (cur_of _ _ _ X). rewrite E1 in Pk. cbn [concat] in *. rewrite !app_length in *.
    match goal with |- (fpeak ?x ?b <= _)%nat => pose proof (fpeak_mono b x (length sc + length (concat rest) + fdecls s)) end. lia.
Qed.
End T.
Theorem verdict fuel gs pr lines : FUEL_BOUND <= Z.of_nat fuel -> Forall (fun x => literal (VStr x)) gs -> Forall literal (flits_s (fbody pr)) ->
  Z.of_nat (length gs) + Z.of_nat (length (flits_s (fbody pr))) <= 2 ^ 29 -> (fpeak 0 (fbody pr) <= 255)%nat -> narrow_s 255 (fbody pr) = true ->
  if flegal_program gs (fbody pr) then exists bytes, fcompile_program fuel gs pr lines = Ok bytes else fcompile_program fuel gs pr lines = Err ESyntax.
Proof.
  intros Hf Fg Fl Sm Pk N. unfold fcompile_program, compiler_new, flegal_program. destruct pool_new_ok as (p0 & k0 & m0 & E0 & P0). rewrite E0. cbn [bind].
  destruct (tot_globals fuel Hf gs (CS [] [] [] p0 []) [] []) as (c1 & cs1 & ext & E1 & P1 & G1 & Go & C1 & S1 & Ec & Le); auto.
  { exists k0, m0. exact P0. }
  { intros x z H. discriminate. }
  { intros x. reflexivity. }
  { unfold small, name in *. cbn [length]. lia. }
  rewrite E1. cbn [bind]. cbn [app] in *. set (c := FC (enter_scope c1) []).
  assert (Ch : chain c = [[[]]]) by (unfold chain, c; cbn; rewrite S1; reflexivity).
  assert (I : inv gs c cs1 [[]]). { constructor; auto; rewrite Ch; [repeat constructor|repeat constructor; discriminate]. }
  pose proof (stmts_ok fuel Hf gs pr [] c cs1 [[]] eq_refl I Fl) as A.
  assert (X1 : small cs1 (length (flits_s (fbody pr)))) by (unfold small, name in *; rewrite Ec; lia).
  assert (X2 : (fpeak (length (concat (cur c))) (fbody pr) <= 255)%nat) by (rewrite (cur_of _ _ _ Ch); exact Pk).
  specialize (A X1 N X2). destruct (flegal_s gs [[]] false (fbody pr)); [|rewrite A; reflexivity]. destruct A as ((co & c') & ->). cbn [bind]. eauto.
Qed.
