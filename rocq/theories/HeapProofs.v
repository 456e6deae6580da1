From Coq Require Import Permutation.
From Verif Require Import Base Bytes Value ValueProofs Hash Table TableSpec ListFacts TableProofs TableProofs2 TableProofs3 TableProofs4.
From Verif Require Import Lists ListSpec ListProofs Api ApiSpec ApiProofs.
From Verif Require Import Ops Text VM CallSpec CallProofs Names Heap HeapSpec.
Local Open Scope list_scope.
Local Open Scope Z_scope.

(** ** Finite maps: the same as in ApiSpec.v. *)
Lemma at_key_find kv k : at_key kv k = ApiSpec.find k kv.
Proof. induction kv as [|(k', v) r IH]; [reflexivity|]. cbn. destruct (value_eq_dec k k'); [reflexivity|exact IH]. Qed.
Lemma put_key_put kv k v : put_key kv k v = ApiSpec.put k v kv.
Proof. induction kv as [|(k', v') r IH]; [reflexivity|]. cbn. destruct (value_eq_dec k k'); [reflexivity|]. rewrite IH. reflexivity. Qed.
Lemma keyable_good k : keyable k = true -> good_key k.
Proof. exact (good_keyb_ok k). Qed.
Lemma never_unhash k : never_key k = true -> is_hashable k = false.
Proof. destruct k; cbn; congruence. Qed.
Lemma holds_same t l l' : holds t l -> NoDup (map fst l') -> (forall k, find k l' = find k l) -> holds t l'.
Proof.
  intros [I R N G C] N' E. assert (K : forall k, In k (map fst l') <-> In k (map fst l)).
  { intros k. rewrite <- !find_in. rewrite E. reflexivity. }
  constructor; auto.
  - eapply repr_iff; [|exact R]. intros q _. symmetry. apply E.
  - apply Forall_forall. intros k H. rewrite Forall_forall in G. apply G, K, H.
  - rewrite C. rewrite <- (map_length fst l), <- (map_length fst l'). f_equal. symmetry. apply Permutation_length, NoDup_Permutation; assumption.
Qed.

(** ** Metatables. *)
Fixpoint meths (id : Z) (names : list (list Z * Z)) (acc : list (value * value)) : list (value * value) :=
  match names with [] => acc | (x, _) :: r => meths (id + 1) r (ApiSpec.put (VStr x) (VCfn id) acc) end.
Fixpoint meth_id (id : Z) (names : list (list Z * Z)) (x : list Z) : option Z :=
  match names with [] => None | (y, _) :: r => if list_eq_dec Z.eq_dec x y then Some id else meth_id (id + 1) r x end.
Lemma meths_find names : forall id acc, NoDup (map fst names) -> forall k,
  find k (meths id names acc) = match k with VStr x => match meth_id id names x with Some i => Some (VCfn i) | None => find k acc end | _ => find k acc end.
Proof.
  induction names as [|(y, n) r IH]; intros id acc ND k; cbn [meths meth_id]; [destruct k; reflexivity|]. inversion ND as [|? ? NI ND']; subst. rewrite (IH _ _ ND').
  assert (P : find k (ApiSpec.put (VStr y) (VCfn id) acc) = if value_eq_dec k (VStr y) then Some (VCfn id) else find k acc).
  { rewrite find_put. reflexivity. }
  destruct k; try (rewrite P; destruct (value_eq_dec _ _) as [E|]; [discriminate E|reflexivity]).
  destruct (list_eq_dec Z.eq_dec s y) as [->|NE].
  - assert (M : forall j, meth_id j r y = None).
    { clear - NI. induction r as [|(z, n) r IH]; intros j; [reflexivity|]. cbn. destruct (list_eq_dec Z.eq_dec y z) as [->|]; [elim NI; left; reflexivity|]. apply IH. intros H. apply NI. right. exact H. }
    rewrite M, P. destruct (value_eq_dec (VStr y) (VStr y)) as [|C]; [reflexivity|congruence].
  - destruct (meth_id (id + 1) r s); [reflexivity|]. rewrite P. destruct (value_eq_dec (VStr s) (VStr y)) as [C|]; [congruence|reflexivity].
Qed.
Lemma builtins_ok fuel names : FUEL_BOUND <= Z.of_nat fuel -> forall id t acc, holds t acc -> Z.of_nat (length acc) + Z.of_nat (length names) < 2 ^ 29 ->
  exists t', builtins fuel id names t = Ok t' /\ holds t' (meths id names acc).
Proof.
  intros F. induction names as [|(x, n) r IH]; intros id t acc H L; cbn [builtins meths].
  - eauto.
  - cbn [length] in L. destruct (holds_insert fuel t acc (VStr x) (VCfn id) H I ltac:(split; discriminate) ltac:(lia) F) as (t1 & E1 & H1).
    rewrite E1. cbn [bind]. apply IH; [exact H1|]. pose proof (put_length (VStr x) (VCfn id) acc). lia.
Qed.

Definition metas : list (Z * list (list Z * Z)) :=
  [(MT_UNDEF, undef_names); (MT_FLOAT, float_names); (MT_INT, int_names); (MT_BOOL, bool_names); (MT_STR, str_names); (MT_LIST, list_names); (MT_TABLE, table_names)].
Definition meta_ok (h : heap) : Prop := forall mt names, In (mt, names) metas -> exists t, hp_tab h mt = Some t /\ holds t (meths (mt * 100) names []).
Definition name_nodupb (l : list (list Z * Z)) : bool :=
  (fix go (l : list (list Z)) := match l with [] => true | x :: r => negb (existsb (fun y => if list_eq_dec Z.eq_dec x y then true else false) r) && go r end) (map fst l).
Lemma metas_nodup mt names : In (mt, names) metas -> NoDup (map fst names).
Proof.
  assert (G : forall l, name_nodupb l = true -> NoDup (map fst l)).
  { intros l. unfold name_nodupb. generalize (map fst l) as k. induction k as [|x k IH]; intros H; [constructor|]. apply andb_true_iff in H. destruct H as (A & B).
    constructor; [|apply IH, B]. intros HI. apply negb_true_iff in A. apply Bool.not_true_iff_false in A. apply A. apply existsb_exists. exists x. split; [exact HI|]. destruct (list_eq_dec Z.eq_dec x x); congruence. }
  intros HI. apply G. cbn in HI. repeat destruct HI as [HI|HI]; try (injection HI as <- <-; vm_compute; reflexivity). contradiction.
Qed.

Record shows (h : heap) (m : mem) : Prop := {
  sh_list : forall p xs, m_list m p = Some xs -> hp_list h p = Some xs /\ hp_mt h p = Some MT_LIST /\ 16 <= p < m_next m;
  sh_tab : forall p kv, m_tab m p = Some kv -> hp_mt h p = Some MT_TABLE /\ 16 <= p < m_next m /\ exists t, hp_tab h p = Some t /\ holds t kv;
  sh_next : hp_next h = m_next m /\ 16 <= m_next m;
  sh_meta : meta_ok h }.

Section Fuel.
Variable fuel : nat.
Hypothesis HF : FUEL_BOUND <= Z.of_nat fuel.

Lemma heap_new_ok : exists h, heap_new fuel = Ok h /\ shows h mem_new.
Proof.
  assert (B : forall mt names, Z.of_nat (length names) < 100 -> exists t, builtin_table fuel mt names = Ok t /\ holds t (meths (mt * 100) names [])).
  { intros mt names L. unfold builtin_table. destruct holds_new as (t & E & H). rewrite E. cbn [bind]. apply builtins_ok; [exact HF|exact H|]. cbn [length]. lia. }
  unfold heap_new.
  destruct (B MT_UNDEF undef_names eq_refl) as (t0 & E0 & H0). destruct (B MT_FLOAT float_names eq_refl) as (t1 & E1 & H1).
  destruct (B MT_INT int_names eq_refl) as (t2 & E2 & H2). destruct (B MT_BOOL bool_names eq_refl) as (t3 & E3 & H3).
  destruct (B MT_STR str_names eq_refl) as (t4 & E4 & H4). destruct (B MT_LIST list_names eq_refl) as (t5 & E5 & H5).
  destruct (B MT_TABLE table_names eq_refl) as (t6 & E6 & H6).
  rewrite E0, E1, E2, E3, E4, E5, E6. cbn [bind]. eexists. split; [reflexivity|].
  constructor.
  - discriminate.
  - discriminate.
  - cbn. split; [reflexivity|lia].
  - intros mt names HI. cbn [hp_tab]. cbn in HI.
    repeat destruct HI as [HI|HI]; try (injection HI as <- <-; eexists; split; [reflexivity|assumption]). contradiction.
Qed.

(** searching a metatable *)
Lemma meta_search h mt names k : meta_ok h -> In (mt, names) metas -> keyable k = true ->
  search fuel h mt k = Ok (match k with VStr x => option_map VCfn (meth_id (mt * 100) names x) | _ => None end).
Proof.
  intros M HI G. destruct (M _ _ HI) as (t & E & Ht). unfold search, tab_at. rewrite E. cbn [bind].
  rewrite (holds_search fuel t _ k Ht (keyable_good _ G) HF), (meths_find _ _ _ (metas_nodup _ _ HI)). cbn [bind].
  destruct k; try reflexivity. destruct (meth_id (mt * 100) names s); reflexivity.
Qed.
Lemma meta_search_never h mt names k : meta_ok h -> In (mt, names) metas -> never_key k = true -> search fuel h mt k = Ok None.
Proof.
  intros M HI G. destruct (M _ _ HI) as (t & E & Ht). unfold search, tab_at. rewrite E. cbn [bind]. unfold table_search.
  rewrite (never_unhash _ G). reflexivity.
Qed.
Lemma meth_id_names names x : forall id, meth_id id names x = None <-> names_method names (VStr x) = false.
Proof.
  unfold names_method. induction names as [|(y, n) r IH]; intros id; cbn [meth_id existsb fst]; [tauto|]. destruct (list_eq_dec Z.eq_dec x y) as [->|N].
  - destruct (list_eq_dec Z.eq_dec y y); [|congruence]. cbn [orb]. split; intros C; discriminate C.
  - destruct (list_eq_dec Z.eq_dec y x); [congruence|]. cbn [orb]. apply IH.
Qed.
(** a key that is not a method name is not found there *)
Lemma meta_absent h mt names k : meta_ok h -> In (mt, names) metas -> keyable k && negb (names_method names k) || never_key k = true -> search fuel h mt k = Ok None.
Proof.
  intros M HI G. apply orb_true_iff in G. destruct G as [G|G].
  - apply andb_true_iff in G. destruct G as (G1 & G2). rewrite (meta_search h mt names k M HI G1). destruct k; try reflexivity.
    apply negb_true_iff in G2. apply (meth_id_names names s (mt * 100)) in G2. rewrite G2. reflexivity.
  - eapply meta_search_never; eassumption.
Qed.

End Fuel.
(** ** Calling a built-in method. *)
Lemma vs_eq s s' : v_pc s = v_pc s' -> v_stk s = v_stk s' -> v_fp s = v_fp s' -> v_gl s = v_gl s' -> v_out s = v_out s' -> v_loops s = v_loops s' ->
  v_frames s = v_frames s' -> v_next_fp s = v_next_fp s' -> v_upv s = v_upv s' -> v_pending s = v_pending s' -> v_clo s = v_clo s' -> s = s'.
Proof. destruct s, s'; cbn. intros; subst; reflexivity. Qed.
Definition free (s : vstate) (n : nat) : Prop := Z.of_nat (length (v_stk s)) + Z.of_nat n <= 1024.

Lemma shift_ok f args rest d : d = length args -> shift_down d (f :: rev args ++ rest) = rev args ++ f :: rest.
Proof.
  intros ->. unfold shift_down. rewrite <- (rev_length args). rewrite firstn_app, Nat.sub_diag, firstn_all, firstn_O, app_nil_r.
  rewrite skipn_app, skipn_all, Nat.sub_diag. reflexivity.
Qed.
(** the state inside the method *)
Definition inside (s : vstate) (id nret : Z) (args rest : list value) : vstate :=
  VS (v_pc s) (rev args ++ VCfn id :: rest) (Z.of_nat (length rest)) (v_gl s) (v_out s) (v_loops s)
     (CF (v_pc s) (v_fp s) (v_next_fp s) (Z.of_nat (length (v_loops s)) - 1) nret :: v_frames s) (Z.of_nat (length rest)) (v_upv s) (v_pending s) (v_clo s).
Lemma slot_fn args (f : value) rest : slot_get (rev args ++ f :: rest) (Z.of_nat (length rest)) = Some f.
Proof.
  unfold slot_get, from_top. rewrite app_length, rev_length. cbn [length].
  match goal with |- (if ?b then _ else _) = _ => assert (E : b = true) by lia; rewrite E end.
  replace (Z.to_nat _) with (length (rev args)) by (rewrite rev_length; lia). rewrite nth_error_app2, Nat.sub_diag by lia. reflexivity.
Qed.
Lemma firstn_rev_args (args : list value) f rest n : n = length args -> firstn n (rev args ++ f :: rest) = rev args.
Proof. intros ->. rewrite <- (rev_length args), firstn_app, Nat.sub_diag, firstn_all. cbn. apply app_nil_r. Qed.
Lemma skipn_rev_args (args : list value) f rest n : n = length args -> skipn n (rev args ++ f :: rest) = f :: rest.
Proof. intros ->. apply skipn_app_exact. rewrite rev_length. reflexivity. Qed.

(** [vm_CALL] on a frame that was entered for this call *)
Definition entered (s : vstate) (id nret : Z) (args rest : list value) : vstate :=
  VS (v_pc s) (rev args ++ VCfn id :: rest) (v_fp s) (v_gl s) (v_out s) (v_loops s)
     (CF (v_pc s) (v_fp s) (v_next_fp s) (Z.of_nat (length (v_loops s)) - 1) nret :: v_frames s) (Z.of_nat (length rest)) (v_upv s) (v_pending s) (v_clo s).
(** afterwards: the results where the function was *)
Definition returned (s : vstate) (nret : Z) (results rest : list value) : vstate :=
  set_stk s (rev (delivered nret results) ++ rest).
Lemma fit_same {A} (x : A) n l : n = length l -> firstn n (l ++ repeat x (n - length l)) = l.
Proof. intros ->. rewrite Nat.sub_diag. cbn. rewrite app_nil_r. apply firstn_all. Qed.
Section Call.
Variable fuel : nat.
Variable w : world.
Variable P : prog.
Lemma call_entered s h id c n nret args rest (pc0 : Z) :
  cfn_of id = Some (c, Z.of_nat n) ->
  Z.of_nat (length rest) + 1 + Z.of_nat n <= 1024 ->
  let s1 := set_pc (entered s id nret args rest) pc0 in
  match cbody fuel w (Z.to_nat (1023 - Z.of_nat (length rest) - Z.of_nat n)) (Z.to_nat (999 - Z.of_nat (length (v_frames s)))) h c (fit n args) with
  | Ok (h', seg, k) => forall results mid, seg = rev results ++ mid -> k = Z.of_nat (length results) ->
      Z.of_nat (length rest) + Z.max 0 nret <= 1024 ->
      h_call fuel w P s1 h = HNext (returned (set_pc s pc0) nret results rest) h'
  | Err e => exists s', h_call fuel w P s1 h = HStop (Err e) s' h /\ v_out s' = v_out s
  | UB => exists s', h_call fuel w P s1 h = HStop UB s' h
  | NoFuel => h_call fuel w P s1 h = HOut
  end.
Proof.
  intros Ec R. cbn zeta. unfold h_call. cbn [set_pc entered set_frames v_stk v_fp v_next_fp v_frames v_pc].
  rewrite slot_fn. unfold call_cfn. cbn [v_frames v_pc set_frames v_fp v_next_fp f_prev_fp f_curr_fp f_lp f_nret v_stk v_gl v_out v_loops v_upv v_pending v_clo].
  rewrite Ec.
  match goal with |- context [fill_args ?s ?k ?f] => pose proof (fill_args_ok s args (VCfn id) rest n f eq_refl eq_refl R) as FA end.
  rewrite FA. clear FA. cbn [then_].
  match goal with |- context [set_stk ?a ?b] => set (s4 := set_stk a b) end.
  replace (room s4) with (Z.to_nat (1023 - Z.of_nat (length rest) - Z.of_nat n)).
  2:{ unfold room, sp, s4, STACK_SIZE. cbn [set_stk v_stk]. rewrite app_length, rev_length, fit_length. cbn [length]. f_equal. lia. }
  replace (free_frames s4) with (Z.to_nat (999 - Z.of_nat (length (v_frames s)))).
  2:{ unfold free_frames, s4, NUM_FRAMES. cbn [set_stk set_frames v_frames length]. f_equal. lia. }
  change (v_stk s4) with (rev (fit n args) ++ VCfn id :: rest).
  rewrite Nat2Z.id. rewrite firstn_rev_args, rev_involutive by (rewrite fit_length; reflexivity).
  rewrite skipn_rev_args by (rewrite fit_length; reflexivity).
  destruct (cbody fuel w _ _ h c (fit n args)) as [[[h' seg] k]|e| |]; cbn [lifth].
  - intros results mid -> -> L.
    match goal with |- with_heap _ (exitframe ?s _) = _ => set (s5 := s) end.
    replace (sp s5 - Z.of_nat (length results) - v_fp s5) with (Z.of_nat (length mid)).
    2:{ unfold s5, s4, sp. cbn [set_stk set_frames set_pc v_stk v_fp]. rewrite !app_length, rev_length. cbn [length]. lia. }
    destruct (exitframe_ok s5 results mid (VCfn id) rest (CF pc0 (v_fp s) (v_next_fp s) (Z.of_nat (length (v_loops s)) - 1) nret) (v_frames s) [] (v_loops s))
      as (s' & E & A1 & A2 & A3 & A4 & A5 & A6 & A7 & A8 & A9 & A10 & A11); try reflexivity.
    { unfold s5. cbn [set_stk v_stk]. rewrite <- app_assoc. reflexivity. }
    { cbn [f_nret]. exact L. }
    rewrite E. cbn [with_heap]. f_equal. apply vs_eq; unfold returned; cbn [set_stk set_pc v_pc v_stk v_fp v_gl v_out v_loops v_frames v_next_fp v_upv v_pending v_clo]; try assumption.
  - eexists. split; reflexivity.
  - eexists. reflexivity.
  - reflexivity.
Qed.
End Call.
