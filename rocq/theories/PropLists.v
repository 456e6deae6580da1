(** C11, C12, C14, C15: lists. Specification in ListSpec.v (sequences), model in Lists.v. *)
From Verif Require Import Base Value Ops Lists ListSpec ListProofs.

(** A list a program can hold, with its contents: a literal changed by any history of method calls. *)
Definition made (l : ylist) (xs : list value) : Prop :=
  (exists vs l0 ops rs, list_literal vs = Ok l0 /\ lrun l0 ops = Ok (rs, l)) /\ list_elements l = Ok xs.
Lemma made_lrep l xs : made l xs -> lrep l xs.
Proof.
  intros ((vs & l0 & ops & rs & A & B) & E). pose proof (made_rep _ _ _ _ _ A B) as R.
  rewrite (elements_rep _ _ R) in E. injection E as <-. exact R.
Qed.

(** ** C12: any history of push, insert, set, get, pop, reverse, clear, len, search, count on any list literal gives
    the answers and the contents the same history gives on a plain sequence; no access leaves the allocated block. *)
Theorem C12_list_history : forall vs ops, exists l0 l,
  list_literal vs = Ok l0 /\ lrun l0 ops = Ok (fst (spec_lrun vs ops), l) /\ list_elements l = Ok (snd (spec_lrun vs ops)).
Proof.
  intros vs ops. destruct (literal_rep vs) as (l0 & E & R). destruct (lrun_rep ops l0 vs R) as (l & E' & R').
  exists l0, l. repeat split; try assumption. apply elements_rep, R'.
Qed.
Print Assumptions C12_list_history.

(** Copy and concatenation. *)
Theorem C12_copy : forall l xs, made l xs -> exists c, list_copy l = Ok c /\ list_elements c = Ok xs.
Proof. intros l xs M. destruct (copy_rep l xs (made_lrep _ _ M)) as (c & E & R). exists c. split; [exact E|apply elements_rep, R]. Qed.
Print Assumptions C12_copy.
Theorem C12_concat : forall a b xs ys, made a xs -> made b ys -> exists c, list_concat a b = Ok c /\ list_elements c = Ok (xs ++ ys).
Proof. intros a b xs ys A B. destruct (concat_rep a b xs ys (made_lrep _ _ A) (made_lrep _ _ B)) as (c & E & R). exists c. split; [exact E|apply elements_rep, R]. Qed.
Print Assumptions C12_concat.
(** The number of elements never exceeds the block. *)
Theorem C12_capacity : forall l xs, made l xs -> l_count l = length xs /\ (l_count l <= l_size l)%nat.
Proof.
  intros l xs M. destruct (made_lrep _ _ M) as (C & rest & E). split; [exact C|]. unfold l_size. rewrite E, app_length, map_length. lia.
Qed.
Print Assumptions C12_capacity.
(** List equality is element-wise equality of lists of the same length. *)
Theorem C12_equality : forall veq f a b xs ys, made a xs -> made b ys ->
  (forall x y, In x xs -> In y ys -> veq x y = Ok (f x y)) ->
  exists r, list_eq veq a b = Ok r /\
   (r = true <-> length xs = length ys /\ forall i, (i < length xs)%nat -> f (nth i xs VUndef) (nth i ys VUndef) = true).
Proof.
  intros veq f a b xs ys A B V. eexists; split; [apply (eq_rep veq f _ _ _ _ (made_lrep _ _ A) (made_lrep _ _ B) V)|].
  rewrite andb_true_iff, Nat.eqb_eq, forallb_forall. split; intros (L & H); split; try exact L.
  - intros i Hi. apply (H (nth i xs VUndef, nth i ys VUndef)). rewrite <- combine_nth by exact L. apply nth_In. rewrite combine_length. lia.
  - intros [x y] I. destruct (In_nth _ _ (VUndef, VUndef) I) as (i & Hi & E). rewrite combine_length in Hi. rewrite combine_nth in E by exact L.
    injection E as <- <-. apply H. lia.
Qed.
Print Assumptions C12_equality.

(** ** C11: element access. *)
Theorem C11_get : forall l xs i, made l xs ->
  (forall p, (p < length xs)%nat -> i = Z.of_nat p \/ i = Z.of_nat p - Z.of_nat (length xs) -> list_get l i = Ok (nth p xs VUndef)) /\
  (i < - Z.of_nat (length xs) \/ Z.of_nat (length xs) <= i -> list_get l i = Err EValue).
Proof.
  intros l xs i M. rewrite (get_rep _ _ i (made_lrep _ _ M)). split.
  - intros p P I. rewrite (proj2 (position_spec (length xs) i p)) by (split; [exact P|exact I]). reflexivity.
  - intros I. destruct (position (length xs) i) as [p|] eqn:E; [|reflexivity]. apply position_spec in E. lia.
Qed.
Print Assumptions C11_get.
Theorem C11_set : forall l xs i v, made l xs ->
  (forall p, (p < length xs)%nat -> i = Z.of_nat p \/ i = Z.of_nat p - Z.of_nat (length xs) ->
     exists l' ys, list_set l i v = Ok l' /\ list_elements l' = Ok ys /\ length ys = length xs /\
       nth p ys VUndef = v /\ forall q, q <> p -> nth q ys VUndef = nth q xs VUndef) /\
  (i < - Z.of_nat (length xs) \/ Z.of_nat (length xs) <= i -> list_set l i v = Err EValue).
Proof.
  intros l xs i v M. pose proof (set_rep _ _ i v (made_lrep _ _ M)) as H. split.
  - intros p P I. rewrite (proj2 (position_spec (length xs) i p)) in H by (split; [exact P|exact I]).
    destruct H as (l' & E & R). exists l', (update xs p v). repeat split; [exact E|apply elements_rep, R|apply update_length, P| |].
    + rewrite nth_update by exact P. rewrite Nat.eqb_refl. reflexivity.
    + intros q Q. rewrite nth_update by exact P. apply Nat.eqb_neq in Q. rewrite Q. reflexivity.
  - intros I. destruct (position (length xs) i) as [p|] eqn:E; [apply position_spec in E; lia|exact H].
Qed.
Print Assumptions C11_set.

(** ** C14: search answers an index of an element equal to the argument, or undef when there is none; count
    counts them. *)
Theorem C14_search : forall l xs v, made l xs -> exists r, list_search l v = Ok r /\
  ((exists i, (i < length xs)%nat /\ r = VInt (Z.of_nat i) /\ is_equal (nth i xs VUndef) v = true /\
      (* in fact the last such index *)
      forall j, (i < j < length xs)%nat -> is_equal (nth j xs VUndef) v = false) \/
   (r = VUndef /\ forall j, (j < length xs)%nat -> is_equal (nth j xs VUndef) v = false)).
Proof.
  intros l xs v M. eexists; split; [apply (search_rep _ _ v (made_lrep _ _ M))|]. pose proof (last_index_spec xs v) as H.
  destruct (last_index xs v); try contradiction; [right; auto|left]. exists (Z.to_nat i). destruct H as (A & B & C). repeat split; try lia; try assumption. f_equal. lia.
Qed.
Print Assumptions C14_search.
Theorem C14_count : forall l xs v, made l xs ->
  list_count l v = Ok (VInt (Z.of_nat (length (filter (fun e => is_equal e v) xs)))).
Proof. intros l xs v M. apply (count_rep _ _ v (made_lrep _ _ M)). Qed.
Print Assumptions C14_count.
(** The index is the LAST one: "first occurrence", which the name suggests and str.search gives, fails. *)
Theorem C14_search_first_refuted : exists l, made l [VInt 7; VInt 7] /\ list_search l (VInt 7) = Ok (VInt 1).
Proof.
  eexists. split; [split|].
  - eexists [VInt 7; VInt 7], _, [], []. split; [vm_compute; reflexivity|]. cbn [lrun]. reflexivity.
  - vm_compute. reflexivity.
  - vm_compute. reflexivity.
Qed.
Print Assumptions C14_search_first_refuted.

(** ** C15: slicing. [resolve] counts a negative bound from the end and clamps to 0..len. *)
Theorem C15_slice : forall l xs va vb, made l xs ->
  match slice_bounds (Z.of_nat (length xs)) va vb with
  | Some (a, b) => exists s, list_slice l va vb = Ok s /\ list_elements s = Ok (sub_seq xs a b)
  | None => list_slice l va vb = Err EType
  end.
Proof.
  intros l xs va vb M. pose proof (slice_rep l xs va vb (made_lrep _ _ M)) as H.
  destruct (slice_bounds _ va vb) as [[a b]|]; [|exact H]. destruct H as (s & E & R). exists s. split; [exact E|apply elements_rep, R].
Qed.
Print Assumptions C15_slice.
(** The elements of a slice, by position. *)
Theorem C15_slice_elements : forall (xs : list value) a b k, 0 <= a -> b <= Z.of_nat (length xs) ->
  nth_error (sub_seq xs a b) k = if a + Z.of_nat k <? b then nth_error xs (Z.to_nat a + k) else None.
Proof.
  intros xs a b k A B. unfold sub_seq. destruct (Z.ltb_spec (a + Z.of_nat k) b) as [H|H].
  - rewrite <- (firstn_skipn (Z.to_nat (b - a)) (skipn (Z.to_nat a) xs)) at 1.
    assert (N : nth_error (firstn (Z.to_nat (b - a)) (skipn (Z.to_nat a) xs)) k = nth_error (skipn (Z.to_nat a) xs) k).
    { clear -H. revert k H. generalize (skipn (Z.to_nat a) xs). remember (Z.to_nat (b - a)) as n. intros l k H. assert (k < n)%nat by lia. clear H Heqn.
      revert n l H0. induction k; intros [|n] [|y l] Hk; try lia; try reflexivity. cbn. apply IHk. lia. }
    rewrite firstn_skipn. rewrite N.
    clear. revert xs. generalize (Z.to_nat a). intros n. induction n; intros [|x xs]; try reflexivity; [destruct k; reflexivity|]. cbn. apply IHn.
  - apply nth_error_None. rewrite firstn_length. lia.
Qed.
Print Assumptions C15_slice_elements.

Example C11_C15_nonvacuous :
  fst (spec_lrun [VInt 1; VInt 2; VInt 3] [LPush (VInt 4); LPush (VInt 5); LInsert (-1) (VInt 9); LReverse; LGet (-6); LSet 7 (VInt 0); LPop; LLen])
    = [inl VUndef; inl VUndef; inl VUndef; inl VUndef; inl (VInt 5); inr EValue; inl (VInt 1); inl (VInt 5)]
  /\ snd (spec_lrun [VInt 1; VInt 2; VInt 3] [LPush (VInt 4); LPush (VInt 5); LInsert (-1) (VInt 9); LReverse; LPop])
    = [VInt 5; VInt 9; VInt 4; VInt 3; VInt 2]
  /\ slice_bounds 5 (VInt (-3)) VUndef = Some (2, 5) /\ sub_seq [10; 11; 12; 13; 14] 2 5 = [12; 13; 14]
  /\ (exists l, made l [VInt 3; VInt 2; VInt 1] /\ list_get l (-1) = Ok (VInt 1)).
Proof.
  repeat (split; [vm_compute; reflexivity|]). eexists. split; [split|].
  - eexists [VInt 1; VInt 2; VInt 3], _, [LReverse], [inl VUndef]. split; vm_compute; reflexivity.
  - vm_compute. reflexivity.
  - vm_compute. reflexivity.
Qed.
