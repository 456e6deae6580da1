From Coq Require Import Permutation.
From Verif Require Import Base Bytes Value ValueProofs Hash Table TableSpec ListFacts TableProofs TableProofs2 TableProofs3 TableProofs4.
From Verif Require Import Lists ListSpec ListProofs Api ApiSpec ApiProofs.
From Verif Require Import Ops Text VM CallSpec CallProofs Names Heap HeapSpec HeapProofs.
Local Open Scope list_scope.
Local Open Scope Z_scope.

(** ** Sequences. *)
Lemma index_position n i : Heap.index_of n i = position n i.
Proof.
  unfold Heap.index_of, position. cbv zeta.
  destruct (Z.leb_spec 0 i), (Z.ltb_spec i (Z.of_nat n)), (Z.leb_spec (- Z.of_nat n) i), (Z.ltb_spec i 0), (Z.ltb_spec i (- Z.of_nat n)), (Z.geb_spec i (Z.of_nat n)), (Z.geb_spec i 0); cbn [orb andb]; try lia; try reflexivity; f_equal; f_equal; lia.
Qed.
Lemma position_lt n i j : position n i = Some j -> (j < n)%nat.
Proof.
  unfold position. destruct (Z.leb_spec 0 i), (Z.ltb_spec i (Z.of_nat n)), (Z.leb_spec (- Z.of_nat n) i), (Z.ltb_spec i 0); cbn [andb]; intros E; try discriminate E; injection E as <-; lia.
Qed.
Lemma replace_set xs : forall n v, (n < length xs)%nat -> replace xs n v = set_nth xs n v.
Proof.
  unfold replace. induction xs as [|x xs IH]; intros n v H; [cbn in H; lia|]. destruct n; [reflexivity|]. cbn [firstn skipn set_nth app length] in *. f_equal. apply (IH n v). lia.
Qed.
Lemma last_pos_spec v : forall xs i r0, let r := fold_left (fun '(i, r) x => (i + 1, if is_equal x v then VInt i else r)) xs (i, r0) in
  snd r = match last_pos xs v i with VInt j => VInt j | _ => r0 end.
Proof.
  induction xs as [|x xs IH]; intros i r0; [reflexivity|]. cbn [fold_left last_pos]. cbv zeta in *. rewrite IH.
  destruct (last_pos xs v (i + 1)); try (destruct (is_equal x v); reflexivity).
Qed.
Lemma last_pos_shape xs v : forall i, match last_pos xs v i with VInt _ | VUndef => True | _ => False end.
Proof. induction xs as [|x xs IH]; intros i; cbn; [exact I|]. specialize (IH (i + 1)). destruct (last_pos xs v (i + 1)); try contradiction; auto. destruct (is_equal x v); exact I. Qed.

(** ** Memory. *)
Lemma now_same {A} (f : Z -> option A) p x : now f p x p = Some x.
Proof. unfold now. rewrite Z.eqb_refl. reflexivity. Qed.
Lemma at_same {A} (f : Z -> A) p x : at_ f p x p = x.
Proof. unfold at_. rewrite Z.eqb_refl. reflexivity. Qed.
Lemma meta_lt mt names : In (mt, names) metas -> 0 <= mt < 16.
Proof. intros HI. cbn in HI. repeat destruct HI as [HI|HI]; try (injection HI as HI _; unfold MT_UNDEF, MT_FLOAT, MT_INT, MT_BOOL, MT_STR, MT_LIST, MT_TABLE in HI; lia). contradiction. Qed.
Lemma shows_put_list h m p xs ys : shows h m -> m_list m p = Some xs -> shows (put_list h p ys) (HeapSpec.with_list m p ys).
Proof.
  intros [L T N M] E. constructor; cbn [put_list HeapSpec.with_list hp_list hp_tab hp_mt hp_next m_list m_tab m_next]; auto.
  - intros q zs. unfold now, at_. destruct (Z.eqb_spec q p) as [->|]; [|apply L]. intros [= <-]. destruct (L _ _ E) as (_ & B & C). auto.
Qed.
Lemma shows_put_tab h m p kv t kv' : shows h m -> m_tab m p = Some kv -> holds t kv' -> shows (put_tab h p t) (HeapSpec.with_tab m p kv').
Proof.
  intros [L T N M] E H. constructor; cbn [put_tab HeapSpec.with_tab hp_list hp_tab hp_mt hp_next m_list m_tab m_next]; auto.
  - intros q zs. unfold now, at_. destruct (Z.eqb_spec q p) as [->|]; [|apply T]. intros [= <-]. destruct (T _ _ E) as (B & C & _). split; [exact B|]. split; [exact C|]. eauto.
  - intros mt names HI. destruct (T _ _ E) as (_ & R & _). destruct (M _ _ HI) as (t' & A & B). exists t'. split; [|exact B]. pose proof (meta_lt _ _ HI). cbn [put_tab hp_tab]. unfold at_. destruct (Z.eqb_spec mt p) as [->|]; [lia|exact A].
Qed.
Lemma shows_new_list h m xs : shows h m -> shows (fst (new_list h xs)) (fresh_list m xs) /\ snd (new_list h xs) = VList (m_next m).
Proof.
  intros [L T (N & N16) M]. unfold new_list. rewrite N. split; [|reflexivity]. constructor; cbn [fst fresh_list hp_list hp_tab hp_mt hp_next m_list m_tab m_next]; auto.
  - intros q zs. unfold now, at_. destruct (Z.eqb_spec q (m_next m)) as [->|NE]; [intros [= <-]; repeat split; auto; lia|]. intros E. destruct (L _ _ E) as (A & B & C). repeat split; auto; lia.
  - intros q kv E. destruct (T _ _ E) as (A & B & C). unfold at_. destruct (Z.eqb_spec q (m_next m)) as [->|NE]; [lia|]. split; [exact A|]. split; [lia|exact C].
  - split; [reflexivity|lia].
Qed.
Lemma shows_new_tab h m t kv : shows h m -> holds t kv -> shows (fst (new_tab h t (Some MT_TABLE))) (fresh_tab m kv) /\ snd (new_tab h t (Some MT_TABLE)) = VTable (m_next m).
Proof.
  intros [L T (N & N16) M] H. unfold new_tab. rewrite N. split; [|reflexivity]. constructor; cbn [fst fresh_tab hp_list hp_tab hp_mt hp_next m_list m_tab m_next]; auto.
  - intros q zs E. destruct (L _ _ E) as (A & B & C). unfold at_. destruct (Z.eqb_spec q (m_next m)) as [->|NE]; [lia|]. repeat split; auto; lia.
  - intros q kv'. unfold now, at_. destruct (Z.eqb_spec q (m_next m)) as [->|NE].
    + intros [= <-]. split; [reflexivity|]. split; [lia|]. eauto.
    + intros E. destruct (T _ _ E) as (A & B & C). split; [exact A|]. split; [lia|exact C].
  - split; [reflexivity|lia].
  - intros mt names HI. destruct (M _ _ HI) as (t' & A & B). exists t'. split; [|exact B]. pose proof (meta_lt _ _ HI). cbn [hp_tab]. unfold at_. destruct (Z.eqb_spec mt (m_next m)); [lia|exact A].
Qed.

(** Tables are untouched, down to the order of their entries, except [d] *)
Definition kept (d : option Z) (h h' : heap) : Prop := hp_next h <= hp_next h' /\ forall q, q < hp_next h -> d <> Some q -> hp_tab h' q = hp_tab h q.
Definition becomes (d : option Z) (h h' : heap) (m' : mem) : Prop := shows h' m' /\ kept d h h'.
Lemma kept_refl d h : kept d h h. Proof. split; [lia|auto]. Qed.
Lemma became_same d h m : shows h m -> becomes d h h m. Proof. intros Sh. split; [exact Sh|apply kept_refl]. Qed.
Lemma became_put_list d h m p xs ys : shows h m -> m_list m p = Some xs -> becomes d h (put_list h p ys) (HeapSpec.with_list m p ys).
Proof. intros Sh E. split; [eapply shows_put_list; eassumption|split; [reflexivity|auto]]. Qed.
Lemma kept_new_list d h xs : kept d h (fst (new_list h xs)).
Proof. unfold new_list. split; cbn [fst hp_next hp_tab]; [lia|]. intros q Hq _. unfold at_. destruct (Z.eqb_spec q (hp_next h)); [lia|reflexivity]. Qed.
Lemma kept_new_tab d h t o : kept d h (fst (new_tab h t o)).
Proof. unfold new_tab. split; cbn [fst hp_next hp_tab]; [lia|]. intros q Hq _. unfold at_. destruct (Z.eqb_spec q (hp_next h)); [lia|reflexivity]. Qed.
Lemma kept_put_tab h p t : kept (Some p) h (put_tab h p t).
Proof. split; cbn [put_tab hp_next hp_tab]; [lia|]. intros q Hq N. unfold at_. destruct (Z.eqb_spec q p) as [->|]; [congruence|reflexivity]. Qed.

(** What an instruction does: [vs] are the values it leaves, topmost first, above [rest]. *)
Definition answers (d : option Z) (h : heap) (r : hres) (s : vstate) (rest : list value) (x : said (mem * list value)) : Prop :=
  match x with
  | Gives (m', vs) => exists h', r = HNext (set_stk s (vs ++ rest)) h' /\ becomes d h h' m'
  | Raises e => exists s' h', r = HStop (Err e) s' h' /\ v_out s' = v_out s
  | Unsaid => True
  end.
(** what a method body computes *)
Definition body_answers (d : option Z) (h : heap) (b : outcome ret) (x : said (mem * list value)) : Prop :=
  match x with
  | Gives (m', vs) => exists h' mid, b = Ok (h', vs ++ mid, Z.of_nat (length vs)) /\ becomes d h h' m'
  | Raises e => b = Err e
  | Unsaid => True
  end.
Definition omap_said {A B} (f : A -> B) (x : said A) : said B := match x with Gives a => Gives (f a) | Raises e => Raises e | Unsaid => Unsaid end.
(** [n] more values fit on the stack, and a call frame is free *)
Definition roomy (s : vstate) (n : nat) : Prop := Z.of_nat (length (v_stk s)) + Z.of_nat n <= 1024 /\ Z.of_nat (length (v_frames s)) < 1000.

Lemma body_enough r : (1 <= Z.to_nat r)%nat -> exists r', Z.to_nat r = S r'.
Proof. destruct (Z.to_nat r); [lia|eauto]. Qed.

Section Fuel.
Variable fuel : nat.
Hypothesis HF : FUEL_BOUND <= Z.of_nat fuel.
Variable w : world.
Variable P : prog.
Notation body := (cbody fuel w).


(** results adjusted to the number expected *)
Definition deliver (nret : Z) (x : mem * list value) : mem * list value := (fst x, rev (delivered nret (rev (snd x)))).
(** results delivered for an expectation of one value *)
Lemma delivered_one vs : rev (delivered 1 (rev vs)) = match rev vs with [] => [VUndef] | v :: _ => [v] end.
Proof. unfold delivered. cbn [Z.ltb Z.compare]. change (Z.to_nat 1) with 1%nat. unfold fit. destruct (rev vs) as [|v l]; reflexivity. Qed.

Lemma call_method_ok d s h id c n nret args rest x : cfn_of id = Some (c, Z.of_nat n) -> length args = n -> v_stk s = rev args ++ rest -> roomy s 1 ->
  body_answers d h (body (Z.to_nat (1023 - Z.of_nat (length rest) - Z.of_nat n)) (Z.to_nat (999 - Z.of_nat (length (v_frames s)))) h c args) x ->
  nret <= 1 ->
  answers d h (call_method fuel w P s h (VCfn id) n nret) s rest (omap_said (deliver nret) x).
Proof.
  intros Ec La Es (R1 & R2) B Hn. unfold call_method. rewrite push_ok by (rewrite Es in *; rewrite app_length in *; lia). cbn [then_].
  cbn [set_stk v_stk]. rewrite Es, (shift_ok _ _ _ _ (eq_sym La)).
  match goal with |- context [h_init_call _ ?s0 _ _ _ _] => set (s1 := s0) end.
  assert (S1 : sp s1 - Z.of_nat n = Z.of_nat (length rest)).
  { unfold s1, sp. cbn [set_stk v_stk]. rewrite app_length, rev_length. cbn [length]. lia. }
  unfold h_init_call. rewrite S1. change (v_stk s1) with (rev args ++ VCfn id :: rest). rewrite slot_fn. change (v_frames s1) with (v_frames s).
  unfold NUM_FRAMES. destruct (Z.geb_spec (Z.of_nat (length (v_frames s))) 1000); [lia|].
  assert (R3 : Z.of_nat (length rest) + 1 + Z.of_nat n <= 1024) by (rewrite Es, app_length, rev_length in R1; lia).
  pose proof (call_entered fuel w P s h id c n nret args rest (v_pc s) Ec R3) as CE. cbn zeta in CE.
  assert (FT : fit n args = args).
  { unfold fit. rewrite La, Nat.sub_diag. cbn [repeat]. rewrite app_nil_r, <- La. apply firstn_all. }
  rewrite FT in CE.
  assert (SE : set_pc s (v_pc s) = s) by (destruct s; reflexivity). rewrite SE in CE.
  match goal with |- answers _ _ (h_call _ _ _ ?s2 _) _ _ _ => replace s2 with (set_pc (entered s id nret args rest) (v_pc s)) by (destruct s; reflexivity) end.
  destruct x as [[m' vs]|e|]; cbn [body_answers answers omap_said deliver] in *.
  - destruct B as (h' & mid & E & Sh). rewrite E in CE. exists h'. split; [|exact Sh].
    rewrite (CE (rev vs) mid); [|rewrite rev_involutive; reflexivity|rewrite rev_length; reflexivity|lia].
    reflexivity.
  - rewrite B in CE. destruct CE as (s' & E & O). eauto.
  - exact I.
Qed.

(** ** Method bodies. *)
Ltac slots := match goal with |- context [need1 ?r _] => destruct r as [|?]; [lia|]; cbn [need1] end.
Lemma body_lget r f h m p xs k : shows h m -> m_list m p = Some xs -> (1 <= r)%nat -> keyable k && negb (names_method list_names k) || never_key k = true ->
  body_answers None h (body r f h (CList LGet) [VList p; k]) (omap_said (fun v => (m, [v])) (index_spec m (VList p) k)).
Proof.
  intros Sh E R K. destruct (sh_list _ _ Sh _ _ E) as (E1 & _). unfold index_spec. rewrite E. cbn [cbody lbody].
  destruct k; try (rewrite K; reflexivity).
  unfold list_at. rewrite E1. cbn [bind]. rewrite index_position. destruct (position (length xs) i) as [j|] eqn:Ep; [|reflexivity].
  pose proof (position_lt _ _ _ Ep) as Lj. destruct (nth_error xs j) as [v|] eqn:En; [|apply nth_error_None in En; lia].
  unfold Heap.pushing. slots. cbn [omap_said body_answers]. exists h, [VInt i; VList p]. split; [reflexivity|apply became_same, Sh].
Qed.
Lemma table_get_ok t kv k : holds t kv -> keyable k = true -> table_get fuel t k = Ok (match at_key kv k with Some v => v | None => VUndef end).
Proof.
  intros H K. unfold table_get. rewrite (holds_search fuel t kv k H (keyable_good _ K) HF), at_key_find. cbn [bind]. f_equal.
  destruct (find k kv) as [v|] eqn:E; [|reflexivity]. pose proof (holds_val _ _ _ _ H (keyable_good _ K) E) as (_ & NE). destruct v; try reflexivity. congruence.
Qed.
Lemma body_tget r f h m p kv k : shows h m -> m_tab m p = Some kv -> keyable k && negb (names_method table_names k) || never_key k = true ->
  body_answers None h (body r f h (CTable TGet) [VTable p; k]) (omap_said (fun v => (m, [v])) (index_spec m (VTable p) k)).
Proof.
  intros Sh E K. destruct (sh_tab _ _ Sh _ _ E) as (_ & _ & t & E1 & H). unfold index_spec. rewrite E. cbn [cbody tbody]. unfold tab_at. rewrite E1. cbn [bind].
  destruct (keyable k) eqn:K1.
  - rewrite (table_get_ok t kv k H K1). cbn [bind]. destruct (negb (names_method table_names k)) eqn:K2.
    + cbn [andb]. cbn [omap_said body_answers]. eexists _, [VTable p]. split; [reflexivity|apply became_same, Sh].
    + cbn [andb orb] in K. destruct k; discriminate.
  - cbn [andb orb] in *. rewrite K. cbn [omap_said body_answers]. unfold table_get, table_search. rewrite (never_unhash _ K). cbn [bind]. eexists _, [VTable p]. split; [reflexivity|apply became_same, Sh].
Qed.
Lemma body_lset r f h m p xs k v : shows h m -> m_list m p = Some xs ->
  body_answers None h (body r f h (CList LSet) [VList p; k; v]) (omap_said (fun m' => (m', [k])) (store_spec m (VList p) k v)).
Proof.
  intros Sh E. destruct (sh_list _ _ Sh _ _ E) as (E1 & _). unfold store_spec. rewrite E. cbn [cbody lbody].
  destruct k; cbn [omap_said body_answers]; try reflexivity.
  unfold list_at. rewrite E1. cbn [bind]. rewrite index_position. destruct (position (length xs) i) as [j|] eqn:Ep; cbn [omap_said body_answers]; [|reflexivity].
  eexists _, [VList p]. split; [reflexivity|]. rewrite replace_set by (eapply position_lt; exact Ep). eapply became_put_list; eassumption.
Qed.
Lemma holds_put t kv k v : holds t kv -> keyable k = true -> v <> VUndef -> v <> VEnd -> below_limit (length kv) = true ->
  exists t', insert_fast fuel t k v = Ok t' /\ holds t' (put_key kv k v).
Proof.
  intros H K U V L. rewrite put_key_put. apply holds_insert; auto; [apply keyable_good, K|split; assumption|]. unfold below_limit, LIMIT in L. lia.
Qed.
Lemma body_tset r f h m p kv k v : shows h m -> m_tab m p = Some kv ->
  body_answers (Some p) h (body r f h (CTable TSet) [VTable p; k; v]) (omap_said (fun m' => (m', [VTable p])) (store_spec m (VTable p) k v)).
Proof.
  intros Sh E. destruct (sh_tab _ _ Sh _ _ E) as (_ & _ & t & E1 & H). unfold store_spec. rewrite E. cbn [cbody tbody]. unfold tab_at. rewrite E1. cbn [bind].
  assert (G : forall u, u = v -> u <> VUndef -> u <> VEnd -> body_answers (Some p) h (do t' <- table_set fuel t k v; Ok (put_tab h p t', [VTable p], 1))
     (omap_said (fun m' => (m', [VTable p])) (if keyable k then if below_limit (length kv) then Gives (HeapSpec.with_tab m p (put_key kv k v)) else Unsaid else if never_key k then Raises EType else Unsaid))).
  { intros u -> U V. unfold table_set. assert (IU : is_undef v = false) by (destruct v; try reflexivity; congruence). rewrite IU. unfold table_insert.
    destruct (keyable k) eqn:K.
    - rewrite (good_hashable k (keyable_good _ K)). destruct (below_limit (length kv)) eqn:L; [|exact I]. destruct (holds_put t kv k v H K U V L) as (t' & E2 & H2). rewrite E2. cbn [omap bind omap_said body_answers].
      eexists _, []. split; [reflexivity|]. split; [eapply shows_put_tab; eassumption|apply kept_put_tab].
    - destruct (never_key k) eqn:NK; [|exact I]. rewrite (never_unhash _ NK). reflexivity. }
  destruct v; try (apply (G _ eq_refl); discriminate); cbn [omap_said body_answers]; try exact I.
  destruct (never_key k) eqn:NK; [|exact I]. cbn [omap_said body_answers]. unfold table_set, table_rm. cbn [is_undef]. rewrite (never_unhash _ NK). cbn [bind]. eexists _, []. split; [reflexivity|]. split; [|apply kept_put_tab].
  destruct Sh as [L T N M]. constructor; auto.
  - intros q kv' E'. destruct (T _ _ E') as (A & B & t' & C & D). split; [exact A|]. split; [exact B|]. cbn [put_tab hp_tab]. unfold at_. destruct (Z.eqb_spec q p) as [->|]; [|eauto].
    rewrite E1 in C. injection C as <-. eauto.
  - intros mt names HI. destruct (M _ _ HI) as (t' & A & B). pose proof (meta_lt _ _ HI). destruct (T _ _ E) as (_ & Rp & _). cbn [put_tab hp_tab]. unfold at_. destruct (Z.eqb_spec mt p); [lia|eauto].
Qed.
End Fuel.
