From Coq Require Import Permutation.
From Verif Require Import Base Bytes Value ValueProofs Hash Table TableSpec ListFacts TableProofs TableProofs2 TableProofs3 TableProofs4.
From Verif Require Import Lists ListSpec ListProofs Api ApiSpec ApiProofs.
From Verif Require Import Ops Text VM CallSpec CallProofs Names Heap HeapSpec HeapProofs HeapProofs2 HeapProofs3.
Local Open Scope list_scope.
Local Open Scope Z_scope.

(** ** Unions. *)
Definition put_all (l acc : list (value * value)) : list (value * value) := fold_left (fun acc p => ApiSpec.put (fst p) (snd p) acc) l acc.
Lemma put_all_find l : NoDup (map fst l) -> forall acc k, find k (put_all l acc) = match find k l with Some v => Some v | None => find k acc end.
Proof.
  induction l as [|(k', v) l IH]; intros ND acc k; [reflexivity|]. inversion ND as [|? ? NI ND']; subst. cbn [put_all fold_left fst snd]. fold (put_all l (ApiSpec.put k' v acc)). rewrite (IH ND').
  cbn [find]. rewrite find_put. unfold mset. destruct (value_eq_dec k k') as [->|N]; [|reflexivity].
  destruct (find k' l) eqn:E; [|reflexivity]. exfalso. apply NI. apply find_in. rewrite E. discriminate.
Qed.
Lemma put_all_nodup l : forall acc, NoDup (map fst acc) -> NoDup (map fst (put_all l acc)).
Proof. induction l as [|(k', v) l IH]; intros acc ND; [exact ND|]. cbn [put_all fold_left]. apply IH, put_nodup, ND. Qed.
Lemma join_put_all l r : join_maps l r = put_all r l.
Proof. unfold join_maps, put_all. revert l. induction r as [|(k, v) r IH]; intros l; [reflexivity|]. cbn [fold_left]. rewrite put_key_put. apply IH. Qed.
Lemma find_perm l l' : Permutation l l' -> NoDup (map fst l) -> forall k, find k l = find k l'.
Proof.
  intros P ND k. assert (ND' : NoDup (map fst l')) by (eapply Permutation_NoDup; [apply Permutation_map, P|exact ND]).
  assert (G : forall l, NoDup (map fst l) -> forall v, find k l = Some v <-> In (k, v) l).
  { clear. induction l as [|(k', v') l IH]; intros ND v; cbn [find In]; [split; [discriminate|intros []]|]. inversion ND as [|? ? NI ND']; subst. destruct (value_eq_dec k k') as [->|N].
    - split; [intros [= ->]; auto|]. intros [[= ->]|HI]; [reflexivity|]. exfalso. apply NI. apply in_map_iff. exists (k', v). auto.
    - rewrite (IH ND'). split; [auto|]. intros [[= ->]|HI]; [congruence|exact HI]. }
  destruct (find k l) as [v|] eqn:E.
  - symmetry. apply (G l' ND'). eapply Permutation_in; [exact P|]. apply (G l ND), E.
  - destruct (find k l') as [v|] eqn:E'; [|reflexivity]. apply (G l' ND') in E'. apply Permutation_sym in P. eapply Permutation_in in E'; [|exact P]. apply (G l ND) in E'. congruence.
Qed.
Lemma holds_new_sized t kv : holds t kv -> exists t0, table_new_sized (t_base t) = Ok t0 /\ holds t0 [].
Proof.
  intros [(k & I) _ _ _ _]. destruct (level_ok k (ti_k _ _ I)) as (p & Ep & Hp & _). pose proof (ti_size _ _ I) as Es. rewrite Ep in Es. injection Es as Es.
  assert (En : table_new_sized (t_base t) = Ok (Tbl p (t_base t) 0 (repeat EMPTY (Z.to_nat p)))).
  { unfold table_new_sized. rewrite (ti_base _ _ I), Ep. cbn [bind]. destruct (Z.ltb_spec p ALLOC_LIMIT); [reflexivity|lia]. }
  destruct (new_sized_ok _ _ En) as (W0 & R0 & C0 & B0 & S0 & Em & _).
  eexists. split; [exact En|]. set (nt := Tbl p (t_base t) 0 (repeat EMPTY (Z.to_nat p))) in *.
  assert (L0 : live_count nt = 0) by (unfold counted in C0; rewrite <- C0; reflexivity).
  constructor.
  - exists k. constructor; try assumption.
    + intros j Ej. apply Em in Ej. discriminate Ej.
    + exact (ti_k _ _ I).
    + exact (ti_base _ _ I).
    + rewrite L0. pose proof (size_pos nt W0). lia.
  - eapply repr_iff; [|exact R0]. reflexivity.
  - constructor.
  - constructor.
  - exact L0.
Qed.
Lemma put_all_length l : forall acc, (length (put_all l acc) <= length l + length acc)%nat.
Proof. induction l as [|(k, v) l IH]; intros acc; cbn [put_all fold_left length fst snd]; [lia|]. fold (put_all l (ApiSpec.put k v acc)). specialize (IH (ApiSpec.put k v acc)). pose proof (put_length k v acc). lia. Qed.
Lemma holds_insert_all fuel : FUEL_BOUND <= Z.of_nat fuel -> forall l t acc, holds t acc -> Forall (fun it => good_key (ik it) /\ good_val (iv it)) l -> Z.of_nat (length l) + Z.of_nat (length acc) < 2 ^ 29 ->
  exists t', insert_all (insert_fast fuel) l t = Ok t' /\ holds t' (put_all (map kv l) acc).
Proof.
  intros F. induction l as [|it l IH]; intros t acc Ht G L; cbn [insert_all map]; [eauto|]. inversion G as [|? ? [G1 G2] G']; subst. cbn [length] in L.
  destruct (holds_insert fuel t acc (ik it) (iv it) Ht G1 G2 ltac:(lia) F) as (t1 & E1 & H1). rewrite E1. cbn [bind]. pose proof (put_length (ik it) (iv it) acc). destruct (IH t1 _ H1 G' ltac:(lia)) as (t2 & E2 & H2).
  exists t2. split; [exact E2|exact H2].
Qed.
Lemma holds_wf t kv : holds t kv -> WF t.
Proof. intros [(k & I) _ _ _ _]. exact (ti_wf _ _ I). Qed.
Lemma kv_find t m : holds t m -> forall k, find k (map kv (for_table t)) = find k m.
Proof.
  intros Ht. apply find_perm; [apply kv_perm, Ht|]. pose proof (for_table_keys_nodup t (holds_wf _ _ Ht)) as ND. rewrite map_map. exact ND.
Qed.
Lemma kv_len t m : holds t m -> length (for_table t) = length m.
Proof. intros Ht. rewrite <- (map_length kv). apply Permutation_length, kv_perm, Ht. Qed.
Lemma kv_nodup t m : holds t m -> NoDup (map fst (map kv (for_table t))).
Proof. intros Ht. rewrite map_map. exact (for_table_keys_nodup t (holds_wf _ _ Ht)). Qed.
Lemma holds_bor fuel s t l r : FUEL_BOUND <= Z.of_nat fuel -> holds s l -> holds t r -> Z.of_nat (length l + length r) < 2 ^ 29 ->
  exists u, table_bor fuel s t = Ok u /\ holds u (join_maps l r).
Proof.
  intros F Hs Ht L. unfold table_bor. destruct (holds_new_sized s l Hs) as (t0 & E0 & H0). rewrite E0. cbn [bind].
  pose proof (kv_len _ _ Hs) as Ls. pose proof (kv_len _ _ Ht) as Lt.
  destruct (holds_insert_all fuel F (for_table s) t0 [] H0 (for_table_good s (holds_wf _ _ Hs)) ltac:(cbn [length]; lia)) as (t1 & E1 & H1). rewrite E1. cbn [bind].
  pose proof (put_all_length (map kv (for_table s)) []) as L1. rewrite map_length in L1. cbn [length] in L1.
  destruct (holds_insert_all fuel F (for_table t) t1 _ H1 (for_table_good t (holds_wf _ _ Ht)) ltac:(lia)) as (u & E2 & H2). exists u. split; [exact E2|].
  rewrite join_put_all. apply (holds_same u _ _ H2); [apply put_all_nodup, (hd_nodup _ _ Hs)|]. intros k.
  rewrite (put_all_find _ (hd_nodup _ _ Ht)), (put_all_find _ (kv_nodup _ _ Ht)), (put_all_find _ (kv_nodup _ _ Hs)), !(kv_find _ _ Ht), (kv_find _ _ Hs). cbn [find].
  destruct (find k r); [reflexivity|]. destruct (find k l); reflexivity.
Qed.

Section Fuel.
Variable fuel : nat.
Hypothesis HF : FUEL_BOUND <= Z.of_nat fuel.
Variable w : world.
Variable P : prog.

Lemma exec_bor_ok s h m a b rest : shows h m -> v_stk s = b :: a :: rest -> roomy s 2 -> is_container a = true ->
  answers None h (operator fuel w P s h a n_bor 2 1) s rest (omap_said (fun p => (fst p, [snd p])) (union_spec m a b)).
Proof.
  intros Sh Es Ro Ca. assert (Ro1 : roomy s 1) by (unfold roomy in *; lia). pose proof (sh_meta _ _ Sh) as M.
  destruct a; try discriminate Ca; try exact I. destruct (m_tab m p) as [l|] eqn:E; [|unfold union_spec; rewrite E; destruct b; exact I].
  assert (Q : exists r, Z.to_nat (1023 - Z.of_nat (length rest) - Z.of_nat 2) = S r) by (apply body_enough; destruct Ro as (R1 & _); rewrite Es in R1; cbn [length] in R1; lia). destruct Q as (r & Q).
  rewrite <- one_new. apply (operator_ok fuel HF w P None s h (VTable p) MT_TABLE table_names n_bor 808 (CTable TBor) 2 1 [VTable p; b] rest); try reflexivity; try assumption; auto with metas.
  - eapply mt_tab; eassumption.
  - destruct (sh_tab _ _ Sh _ _ E) as (_ & _ & t & E1 & Ht). unfold union_spec. rewrite E. cbn [cbody tbody]. destruct b; try reflexivity. destruct (m_tab m p0) as [kv|] eqn:E0; [|exact I].
    destruct (sh_tab _ _ Sh _ _ E0) as (_ & _ & t' & E2 & Ht'). unfold tab_at. rewrite E1, E2. cbn [bind]. destruct (below_limit (length l + length kv)) eqn:BL; [|exact I].
    destruct (holds_bor fuel t t' l kv HF Ht Ht' ltac:(unfold below_limit, LIMIT in BL; lia)) as (u & Eu & Hu). rewrite Eu. cbn [bind].
    destruct (shows_new_tab h m u _ Sh Hu) as (Sh' & Ev).
    pose proof (kept_new_tab None h u (Some MT_TABLE)) as KN. destruct (new_tab h u (Some MT_TABLE)) as (h', x). cbn [fst snd] in *. subst x. rewrite Q. cbn [need1 Heap.pushing omap_said body_answers fst snd]. exists h', [VTable p0; VTable p]. split; [reflexivity|exact (conj Sh' KN)].
Qed.

(** ** Literals. *)
Lemma above_end_ok xs rest : Forall (fun v => v <> VEnd) xs -> above_end (xs ++ VEnd :: rest) = Some (xs, rest).
Proof.
  induction 1 as [|x xs Nx _ IH]; [reflexivity|]. cbn [app above_end]. rewrite IH. destruct x; try reflexivity. congruence.
Qed.
Lemma exec_newlist_ok s h m xs rest : shows h m -> v_stk s = rev xs ++ VEnd :: rest -> Forall (fun v => v <> VEnd) xs ->
  answers None h (exec_newlist s h) s rest (Gives (fst (list_spec m xs), [snd (list_spec m xs)])).
Proof.
  intros Sh Es NE. unfold exec_newlist. rewrite Es, above_end_ok by (apply Forall_rev, NE). rewrite rev_involutive. destruct (shows_new_list h m xs Sh) as (Sh' & Ev).
  pose proof (kept_new_list None h xs) as KN. destruct (new_list h xs) as (h', l). cbn [fst snd] in *. subst l. cbn [answers list_spec fst snd]. exists h'. split; [reflexivity|exact (conj Sh' KN)].
Qed.
(** the values of a table literal, as they lie on the stack *)
Fixpoint flat (kvs : list (value * value)) : list value := match kvs with [] => [] | (k, v) :: r => k :: v :: flat r end.
Lemma flat_app a b : flat (a ++ b) = flat a ++ flat b.
Proof. induction a as [|(k, v) a IH]; [reflexivity|]. cbn. rewrite IH. reflexivity. Qed.
Lemma newtable_loop_app kvs : forall t stk, Forall (fun p => snd p <> VEnd) kvs ->
  newtable_loop fuel (rev (flat kvs) ++ stk) t = do r <- newtable_loop fuel (rev (flat kvs) ++ [VEnd]) t; newtable_loop fuel stk (fst r).
Proof.
  induction kvs as [|(k, v) r IH] using rev_ind; intros t stk NE.
  - cbn. destruct stk; reflexivity.
  - rewrite flat_app, rev_app_distr. cbn [flat rev app]. apply Forall_app in NE. destruct NE as (NE & Nv). inversion Nv as [|? ? Nv' _]; subst. cbn [snd] in Nv'.
    set (a := rev (flat r)) in *. assert (G : forall tl, newtable_loop fuel (v :: k :: a ++ tl) t = if is_undef v then newtable_loop fuel (a ++ tl) t else do x <- table_insert fuel t k v; match x with Some t' => newtable_loop fuel (a ++ tl) t' | None => Err EType end).
    { intros tl. cbn [newtable_loop]. destruct v; try reflexivity. congruence. }
    rewrite !G. destruct (is_undef v); [apply IH, NE|]. destruct (table_insert fuel t k v) as [[t'|]| | |]; cbn [bind]; try reflexivity. apply IH, NE.
Qed.
(** from the last entry to the first *)
Lemma entries_snoc_fail kvs k v : forall e, (forall acc, entries_of kvs <> Gives acc) -> entries_of kvs = Raises e \/ entries_of kvs = Unsaid -> match entries_of ((k, v) :: kvs) with Gives _ => False | x => x = entries_of kvs end.
Proof. intros e N C. cbn [entries_of]. destruct C as [->| ->]; reflexivity. Qed.
Lemma newtable_ok kvs : forall t0 rest, holds t0 [] -> Forall (fun p => snd p <> VEnd) kvs ->
  match entries_of kvs with
  | Gives acc => exists t, newtable_loop fuel (rev (flat kvs) ++ VEnd :: rest) t0 = Ok (t, rest) /\ holds t acc
  | Raises e => newtable_loop fuel (rev (flat kvs) ++ VEnd :: rest) t0 = Err e
  | Unsaid => True
  end.
Proof.
  induction kvs as [|(k, v) kvs IH]; intros t0 rest H0 NE.
  - cbn. eauto.
  - inversion NE as [|? ? Nv NE']; subst. cbn [snd] in Nv. cbn [flat rev]. rewrite <- !app_assoc. cbn [app]. rewrite newtable_loop_app by exact NE'.
    specialize (IH t0 [] H0 NE'). cbn [entries_of]. destruct (entries_of kvs) as [acc|e|]; [|rewrite IH; reflexivity|exact I].
    destruct IH as (t & E & Ht). rewrite E. cbn [bind fst].
    assert (G : v <> VUndef -> match (match k with VEnd => Unsaid | _ => if keyable k then if below_limit (length acc) then Gives (put_key acc k v) else Unsaid else if never_key k then Raises EType else Unsaid end) with
       | Gives acc0 => exists t1, newtable_loop fuel (v :: k :: VEnd :: rest) t = Ok (t1, rest) /\ holds t1 acc0
       | Raises e => newtable_loop fuel (v :: k :: VEnd :: rest) t = Err e | Unsaid => True end).
    { intros NU. assert (S1 : newtable_loop fuel (v :: k :: VEnd :: rest) t = do x <- table_insert fuel t k v; match x with Some t' => Ok (t', rest) | None => Err EType end).
      { cbn [newtable_loop]. destruct v; try reflexivity; congruence. }
      rewrite S1. unfold table_insert.
      assert (K1 : keyable k = true -> below_limit (length acc) = true -> exists t1, (do x <- omap Some (insert_fast fuel t k v); match x with Some t' => Ok (t', rest) | None => Err EType end) = Ok (t1, rest) /\ holds t1 (put_key acc k v)).
      { intros K L. destruct (holds_put fuel HF t acc k v Ht K NU Nv L) as (t1 & E1 & H1). rewrite E1. cbn [omap bind]. eauto. }
      destruct k; try exact I; try (cbn [keyable never_key]; reflexivity);
        try (cbn [keyable]; destruct (below_limit (length acc)) eqn:L; [apply (K1 eq_refl eq_refl)|exact I]).
      destruct f; cbn [keyable never_key]; try exact I; try (destruct s; try exact I); destruct (below_limit (length acc)) eqn:L; try exact I; apply (K1 eq_refl eq_refl). }
    destruct v; try (apply G; discriminate); try congruence.
    exists t. split; [reflexivity|exact Ht].
Qed.
Lemma exec_newtable_ok s h m kvs rest : shows h m -> v_stk s = rev (flat kvs) ++ VEnd :: rest -> Forall (fun p => snd p <> VEnd) kvs ->
  answers None h (exec_newtable fuel s h) s rest (omap_said (fun p => (fst p, [snd p])) (table_spec m kvs)).
Proof.
  intros Sh Es NE. unfold exec_newtable. destruct holds_new as (t0 & E0 & H0). rewrite E0, Es. cbn [bind]. pose proof (newtable_ok kvs t0 rest H0 NE) as N. unfold table_spec.
  destruct (entries_of kvs) as [acc|e|]; [| |exact I].
  - destruct N as (t & E & Ht). rewrite E. cbn [lifth omap_said answers fst snd]. destruct (shows_new_tab h m t acc Sh Ht) as (Sh' & Ev). pose proof (kept_new_tab None h t (Some MT_TABLE)) as KN. destruct (new_tab h t (Some MT_TABLE)) as (h', v). cbn [fst snd] in *. subst v. exists h'. split; [reflexivity|exact (conj Sh' KN)].
  - rewrite N. cbn [lifth omap_said answers]. eauto.
Qed.
End Fuel.
