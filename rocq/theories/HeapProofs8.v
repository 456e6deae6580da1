(** Operators that a built-in type does not have; iteration. *)
From Coq Require Import Permutation.
From Verif Require Import Base Bytes Value ValueProofs Hash Table TableSpec ListFacts TableProofs TableProofs2 TableProofs3.
From Verif Require Import ApiProofs Ops Text VM SimBase CallSpec CallProofs Names Heap HeapSpec HeapSpec2 HeapProofs HeapProofs2 HeapProofs3.
Local Open Scope list_scope.
Local Open Scope Z_scope.

Section Fuel.
Variable fuel : nat.
Hypothesis HF : FUEL_BOUND <= Z.of_nat fuel.
Variable w : world.

Lemma there_meta h m a : shows h m -> there m a -> exists mt names, In (mt, names) metas /\ metatable h a = Ok (Some mt) /\
  match a with VList _ => mt = MT_LIST /\ names = list_names | VTable _ => mt = MT_TABLE /\ names = table_names | _ => mt <> MT_LIST /\ mt <> MT_TABLE end.
Proof.
  intros Sh T. destruct a as [| | | | | |p|p| | | | |]; cbn [there is_atom] in T; try discriminate T; try (eexists _, _; split; [|split; [reflexivity|split; discriminate]]; eauto with metas; fail).
  - destruct (m_list m p) as [xs|] eqn:E; [|congruence]. exists MT_LIST, list_names. split; [eauto with metas|]. split; [eapply mt_list; eassumption|auto].
  - destruct (m_tab m p) as [xs|] eqn:E; [|congruence]. exists MT_TABLE, table_names. split; [eauto with metas|]. split; [eapply mt_tab; eassumption|auto].
Qed.
(** which types have which operators *)
Definition lacks (names : list (list Z * Z)) (x : list Z) : bool := match meth_id 0 names x with None => true | _ => false end.
Lemma lacks_none names x id : lacks names x = true -> meth_id id names x = None.
Proof. unfold lacks. intros L. apply (meth_id_names names x 0) || idtac. destruct (meth_id 0 names x) eqn:E; [discriminate L|]. apply (meth_id_names names x id), (meth_id_names names x 0), E. Qed.
Lemma no_binary mt names o : In (mt, names) metas -> o <> BEq -> o <> BId -> (mt = MT_LIST -> o <> BAdd) -> (mt = MT_TABLE -> o <> BOr) ->
  exists x, nthZ op_names2 (binop_code o) = Some x /\ lacks names x = true.
Proof.
  intros HI N1 N2 N3 N4. cbn in HI. repeat destruct HI as [HI|HI]; try contradiction; injection HI as <- <-; destruct o; try congruence; try (elim N3; reflexivity); try (elim N4; reflexivity); (eexists; split; [reflexivity|vm_compute; reflexivity]).
Qed.
Lemma no_unary mt names o : In (mt, names) metas -> o <> ULen -> o <> UNot -> exists x, nthZ op_names1 (unop_code o) = Some x /\ lacks names x = true.
Proof.
  intros HI N1 N2. cbn in HI. repeat destruct HI as [HI|HI]; try contradiction; injection HI as <- <-; destruct o; try congruence; (eexists; split; [reflexivity|vm_compute; reflexivity]).
Qed.
Lemma meta_op_type h m a slot names code x mt ns s : shows h m -> In (mt, ns) metas -> metatable h a = Ok (Some mt) -> nthZ names code = Some x -> lacks ns x = true -> (1 <= room s)%nat ->
  meta_op fuel slot names s h code a = Err EType.
Proof.
  intros Sh HI Em En L R. unfold meta_op. rewrite En, (method_name fuel HF h a mt ns x (sh_meta _ _ Sh) HI Em), (lacks_none ns x _ L). cbn [option_map bind].
  destruct slot; [|reflexivity]. destruct (room s); [lia|reflexivity].
Qed.
Lemma plain_binop h m a b o s : shows h m -> there m a -> plain_op o a = true -> (1 <= room s)%nat ->
  exec_binop (world_at fuel w s h) o a b = exec_binop (strict w) o a b.
Proof.
  intros Sh T Po R. destruct (there_meta h m a Sh T) as (mt & ns & HI & Em & Q).
  destruct (match o with BId => true | _ => false end) eqn:EI; [destruct o; try discriminate EI; reflexivity|].
  assert (M : w_meta2 (world_at fuel w s h) (binop_code o) a b = Err EType).
  { destruct (no_binary mt ns o HI) as (x & En & L).
    - intros ->. discriminate Po.
    - intros ->. discriminate EI.
    - intros -> ->. destruct a; try discriminate Po; destruct Q; discriminate || congruence.
    - intros -> ->. destruct a; try discriminate Po; destruct Q; discriminate || congruence.
    - cbn [world_at w_meta2]. replace (binop_code o =? binop_code BEq) with false by (destruct o; try reflexivity; discriminate Po).
      eapply meta_op_type; eassumption. }
  destruct o; try discriminate Po; try discriminate EI; cbn [exec_binop]; unfold vm_int_binop, vm_num_binop, vm_fdiv, vm_pow, vm_divmod, vm_comp, vm_int_binop; rewrite M; reflexivity.
Qed.
Lemma plain_unop h m a o s : shows h m -> there m a -> o <> ULen -> (1 <= room s)%nat ->
  exec_unop (world_at fuel w s h) o a = exec_unop (strict w) o a.
Proof.
  intros Sh T Po R. destruct (there_meta h m a Sh T) as (mt & ns & HI & Em & Q).
  destruct (match o with UNot => true | _ => false end) eqn:EI; [destruct o; try discriminate EI; reflexivity|].
  assert (M : w_meta1 (world_at fuel w s h) (unop_code o) a = Err EType).
  { destruct (no_unary mt ns o HI) as (x & En & L); [exact Po|intros ->; discriminate EI|]. cbn [world_at w_meta1]. eapply meta_op_type; eassumption. }
  destruct o; try congruence; try discriminate EI; cbn [exec_unop]; rewrite M; reflexivity.
Qed.

End Fuel.
(** ** Iteration: the keys not yet visited. *)
Definition keys_from (t : table) (i : Z) : list value := map ik (filter live (skipn (Z.to_nat i) (t_items t))).
Lemma keys_from_start t kv : holds t kv -> Permutation (keys_from t 0) (map fst kv).
Proof.
  intros Ht. destruct Ht as [(j & I) R N G C] eqn:EH. pose proof (ti_wf _ _ I) as W. pose proof (kv_perm t kv Ht) as PK. apply (Permutation_map fst) in PK. rewrite map_map in PK.
  unfold keys_from. cbn [Z.to_nat skipn]. rewrite <- (for_table_live t W). exact PK.
Qed.
Lemma keys_from_next t i : 0 <= i -> match iter_table t i with
  | None => keys_from t i = []
  | Some (k, i') => 0 <= i' /\ keys_from t i = k :: keys_from t i'
  end.
Proof.
  intros Hi. unfold iter_table, keys_from. pose proof (iter_skip_filter (skipn (Z.to_nat i) (t_items t)) i) as HS.
  destruct (iter_skip (skipn (Z.to_nat i) (t_items t)) i) as [[k i']|].
  - destruct HS as (it & pre & post & Esk & A & B & C & ->). split; [lia|].
    rewrite Esk, filter_app, A. cbn [app filter]. rewrite B. cbn [map]. rewrite C. f_equal. f_equal. f_equal.
    replace (Z.to_nat (i + Z.of_nat (length pre) + 1)) with (length pre + 1 + Z.to_nat i)%nat by lia.
    rewrite <- (skipn_skipn (length pre + 1)). rewrite Esk.
    replace (pre ++ it :: post) with ((pre ++ [it]) ++ post) by (rewrite <- app_assoc; reflexivity).
    rewrite skipn_app. rewrite skipn_all2 by (rewrite app_length; cbn; lia).
    rewrite app_length. cbn [length]. rewrite Nat.sub_diag. reflexivity.
  - rewrite HS. reflexivity.
Qed.
