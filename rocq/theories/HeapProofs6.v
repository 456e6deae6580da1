From Coq Require Import Permutation.
From Verif Require Import Base Bytes Value ValueProofs Hash Table TableSpec ListFacts TableProofs TableProofs2 TableProofs3 TableProofs4.
From Verif Require Import Lists ListSpec ListProofs Api ApiSpec ApiProofs.
From Verif Require Import Ops Text VM CallSpec CallProofs Names Heap HeapSpec HeapSpec2 HeapProofs HeapProofs2 HeapProofs3 HeapProofs4.
Local Open Scope list_scope.
Local Open Scope Z_scope.

(** ** Equality. *)
Lemma all_of_perm l l' : Permutation l l' -> all_of l = all_of l'.
Proof.
  induction 1 as [|x l l' _ IH|x y l|l1 l2 l3 _ IH1 _ IH2]; cbn; try congruence.
  - rewrite IH. reflexivity.
  - destruct x as [b|], y as [c|], (all_of l) as [d|]; try reflexivity. destruct b, c, d; reflexivity.
Qed.
Section Fuel.
Variable fuel : nat.
Hypothesis HF : FUEL_BOUND <= Z.of_nat fuel.

Lemma eq_items_ok f g l r : (forall x y b, In (x, y) l -> g x y = Some b -> f x y = Ok b) -> all_of (map (fun xy => g (fst xy) (snd xy)) l) = Some r -> eq_items f l = Ok r.
Proof.
  revert r. induction l as [|(x, y) l IH]; intros r G A; cbn [map all_of fst snd eq_items] in *; [injection A as <-; reflexivity|].
  destruct (g x y) as [b|] eqn:E; [|discriminate A]. destruct (all_of _) as [c|] eqn:E2; [|discriminate A]. injection A as <-.
  rewrite (G x y b (or_introl eq_refl) E). cbn [bind]. destruct b; cbn [andb]; [|reflexivity]. apply (IH c); [|reflexivity]. intros x' y' b' HI. apply G. right. exact HI.
Qed.
Lemma eq_entries_ok f g t kv its r : holds t kv -> Forall (fun it => good_key (ik it) /\ good_val (iv it)) its ->
  (forall it u b, In it its -> find (ik it) kv = Some u -> g (iv it) u = Some b -> f (iv it) u = Ok b) ->
  all_of (map (fun e => match at_key kv (fst e) with Some v => g (snd e) v | None => Some false end) (map TableProofs.kv its)) = Some r -> eq_entries fuel f t its = Ok r.
Proof.
  intros Ht. revert r. induction its as [|it its IH]; intros r Gd G A; cbn [map all_of eq_entries] in *; [injection A as <-; reflexivity|].
  inversion Gd as [|? ? [G1 _] Gd']; subst. change (fst (TableProofs.kv it)) with (ik it) in A. change (snd (TableProofs.kv it)) with (iv it) in A. rewrite at_key_find in A.
  rewrite (holds_search fuel t kv (ik it) Ht G1 HF). cbn [bind].
  destruct (find (ik it) kv) as [u|] eqn:E.
  - destruct (holds_val _ _ _ _ Ht G1 E) as (_ & NE). assert (IE : is_end u = false) by (destruct u; try reflexivity; congruence). rewrite IE.
    destruct (g (iv it) u) as [b|] eqn:E2; [|discriminate A]. destruct (all_of _) as [c|] eqn:E3; [|discriminate A]. injection A as <-.
    rewrite (G it u b (or_introl eq_refl) E E2). cbn [bind]. destruct b; cbn [andb]; [|reflexivity]. apply (IH c Gd'); [|reflexivity]. intros it' u' b' HI. apply G. right. exact HI.
  - cbn [is_end]. destruct (all_of _); [|discriminate A]. injection A as <-. reflexivity.
Qed.
Lemma heap_eq_ok h m : shows h m -> forall n a b r, equals m n a b = Some r -> forall room frames, (3 * n <= room)%nat -> (n <= frames)%nat -> heap_eq fuel room frames h a b = Ok r.
Proof.
  intros Sh. pose proof (sh_meta _ _ Sh) as M. induction n as [|n IH]; intros a b r E room frames R F.
  - destruct a, b; cbn [equals] in E; try discriminate E; injection E as <-; destruct room; reflexivity.
  - destruct a, b; cbn [equals] in E; try discriminate E; try (injection E as <-; destruct room; reflexivity).
    + destruct (m_list m p) as [xs|] eqn:E1; [|discriminate E]. destruct (m_list m p0) as [ys|] eqn:E2; [|discriminate E].
      destruct (sh_list _ _ Sh _ _ E1) as (H1 & _). destruct (sh_list _ _ Sh _ _ E2) as (H2 & _).
      destruct room as [|[|[|room]]]; try lia. destruct frames as [|frames]; [lia|]. cbn [heap_eq].
      rewrite (method_name fuel HF h (VList p) _ _ n_eq M m_lists (mt_list _ _ _ _ Sh E1)). cbn [option_map bind].
      replace (meth_id (MT_LIST * 100) list_names n_eq) with (Some 604) by reflexivity. cbn [option_map].
      replace (cfn_of 604) with (Some (CList LEq, 2)) by reflexivity. unfold list_at. rewrite H1, H2. cbn [bind].
      destruct (length xs =? length ys)%nat eqn:EL; cbn [negb]; [|injection E as <-; reflexivity].
      destruct xs as [|x xs]; [cbn in E; injection E as <-; reflexivity|]. apply (eq_items_ok _ (equals m n)); [|exact E]. intros x' y' b' _ G. apply IH; [exact G|lia|lia].
    + destruct (m_tab m p) as [l|] eqn:E1; [|discriminate E]. destruct (m_tab m p0) as [kv|] eqn:E2; [|discriminate E].
      destruct (sh_tab _ _ Sh _ _ E1) as (_ & _ & s & H1 & Hs). destruct (sh_tab _ _ Sh _ _ E2) as (_ & _ & t & H2 & Ht).
      destruct room as [|[|[|room]]]; try lia. destruct frames as [|frames]; [lia|]. cbn [heap_eq].
      rewrite (method_name fuel HF h (VTable p) _ _ n_eq M m_tables (mt_tab _ _ _ _ Sh E1)). cbn [option_map bind].
      replace (meth_id (MT_TABLE * 100) table_names n_eq) with (Some 809) by reflexivity. cbn [option_map].
      replace (cfn_of 809) with (Some (CTable TEq, 2)) by reflexivity. unfold tab_at. rewrite H1, H2. cbn [bind].
      assert (C1 : t_count s = Z.of_nat (length l)) by (destruct Hs as [(k & I) _ _ _ C]; pose proof (ti_cnt _ _ I) as Cn; unfold counted in Cn; congruence).
      assert (C2 : t_count t = Z.of_nat (length kv)) by (destruct Ht as [(k & I) _ _ _ C]; pose proof (ti_cnt _ _ I) as Cn; unfold counted in Cn; congruence).
      rewrite C1, C2. destruct (Nat.eqb_spec (length l) (length kv)) as [EL|NL].
      2:{ injection E as <-. destruct (Z.eqb_spec (Z.of_nat (length l)) (Z.of_nat (length kv))); [lia|reflexivity]. }
      rewrite EL, Z.eqb_refl. cbn [negb]. pose proof (kv_perm s l Hs) as PS.
      assert (A : all_of (map (fun e => match at_key kv (fst e) with Some v => equals m n (snd e) v | None => Some false end) (map TableProofs.kv (for_table s))) = Some r).
      { rewrite <- E. apply all_of_perm, Permutation_map, PS. }
      destruct (for_table s) as [|it its] eqn:ES; [cbn in A; injection A as <-; reflexivity|]. rewrite <- ES in *.
      apply (eq_entries_ok _ (equals m n) t kv); [exact Ht|apply for_table_good, (holds_wf _ _ Hs)| |exact A]. intros it' u b' _ _ G. apply IH; [exact G|lia|lia].
Qed.
(** a list that contains itself *)
Lemma heap_eq_cyclic h m p : shows h m -> m_list m p = Some [VList p] -> forall room frames, heap_eq fuel room frames h (VList p) (VList p) = Err EStackOverflow.
Proof.
  intros Sh E. pose proof (sh_meta _ _ Sh) as M. destruct (sh_list _ _ Sh _ _ E) as (H1 & _).
  assert (G : forall k room frames, (room < k)%nat -> heap_eq fuel room frames h (VList p) (VList p) = Err EStackOverflow).
  { induction k as [|k IH]; intros room frames L; [lia|]. destruct room as [|room]; [reflexivity|]. cbn [heap_eq].
    rewrite (method_name fuel HF h (VList p) _ _ n_eq M m_lists (mt_list _ _ _ _ Sh E)). cbn [option_map bind].
    replace (meth_id (MT_LIST * 100) list_names n_eq) with (Some 604) by reflexivity. cbn [option_map]. destruct frames as [|frames]; [reflexivity|].
    replace (cfn_of 604) with (Some (CList LEq, 2)) by reflexivity. unfold list_at. rewrite H1. cbn [bind]. destruct room as [|[|room]]; try reflexivity.
    cbn [length Nat.eqb negb pair_off combine eq_items]. rewrite IH by lia. reflexivity. }
  intros room frames. apply (G (S room)). lia.
Qed.
End Fuel.
