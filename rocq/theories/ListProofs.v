(** * Proofs about lists. *)
From Verif Require Import Base Value Ops Lists ListSpec.
Local Open Scope nat_scope.

Definition lrep (l : ylist) (xs : list value) : Prop :=
  l_count l = length xs /\ exists rest, l_items l = map Some xs ++ rest.

Lemma aget_rep xs rest i : i < length xs -> aget (map Some xs ++ rest) i = Ok (nth i xs VUndef).
Proof.
  intros H. unfold aget. rewrite nth_error_app1 by (rewrite map_length; exact H).
  rewrite nth_error_map. rewrite (nth_error_nth' xs VUndef H). reflexivity.
Qed.
Lemma aput_length a i o : i < length a -> length (aput a i o) = length a.
Proof. intros H. unfold aput. rewrite app_length. cbn [length]. rewrite firstn_length, skipn_length. lia. Qed.
Lemma firstn_map_some (xs : list value) rest i : i <= length xs -> firstn i (map Some xs ++ rest) = map Some (firstn i xs).
Proof.
  intros H. rewrite firstn_app, map_length. replace (i - length xs) with 0 by lia.
  cbn [firstn]. rewrite app_nil_r. apply firstn_map.
Qed.
Lemma skipn_map_some (xs : list value) rest i : i <= length xs -> skipn i (map Some xs ++ rest) = map Some (skipn i xs) ++ rest.
Proof. intros H. rewrite skipn_app, map_length. replace (i - length xs) with 0 by lia. cbn [skipn]. f_equal. apply skipn_map. Qed.
Lemma aset_rep xs rest i v : i < length xs ->
  aset (map Some xs ++ rest) i v = Ok (map Some (update xs i v) ++ rest).
Proof.
  intros H. unfold aset. rewrite app_length, map_length.
  destruct (Nat.ltb_spec i (length xs + length rest)); [|lia]. f_equal. unfold aput, update.
  rewrite firstn_map_some by lia. rewrite skipn_map_some by lia.
  rewrite map_app. cbn [map]. rewrite <- app_assoc. reflexivity.
Qed.
Lemma update_length xs i v : i < length xs -> length (update xs i v) = length xs.
Proof. intros H. unfold update. rewrite app_length. cbn [length]. rewrite firstn_length, skipn_length. lia. Qed.
Lemma nth_update xs i j v : i < length xs -> nth j (update xs i v) VUndef = if j =? i then v else nth j xs VUndef.
Proof.
  intros H. unfold update. destruct (Nat.eqb_spec j i) as [->|Hj].
  - rewrite app_nth2; rewrite firstn_length, Nat.min_l by lia; [|lia]. rewrite Nat.sub_diag. reflexivity.
  - destruct (Nat.lt_ge_cases j i).
    + rewrite app_nth1 by (rewrite firstn_length; lia). rewrite <- (firstn_skipn i xs) at 2.
      rewrite app_nth1 by (rewrite firstn_length; lia). reflexivity.
    + rewrite app_nth2 by (rewrite firstn_length; lia). rewrite firstn_length, Nat.min_l by lia.
      destruct (j - i) as [|k] eqn:E; [lia|]. cbn [nth].
      rewrite <- (firstn_skipn (S i) xs) at 2. rewrite app_nth2 by (rewrite firstn_length; lia).
      rewrite firstn_length, Nat.min_l by lia. f_equal. lia.
Qed.

Lemma room_rep l xs : lrep l xs -> lrep (list_room l) xs /\ length xs < l_size (list_room l).
Proof.
  intros (C & rest & E). unfold list_room. destruct (Nat.leb_spec (l_size l) (l_count l)) as [H|H].
  - unfold list_resize_up. assert (S : l_size l = length xs + length rest) by (unfold l_size; rewrite E, app_length, map_length; reflexivity).
    assert (R : rest = []) by (destruct rest; [reflexivity|cbn [length] in S; lia]). subst rest. cbn [length] in S. rewrite app_nil_r in E.
    set (n := if l_size l =? 0 then 1 else l_size l * 2).
    assert (N : length xs < n) by (unfold n; destruct (Nat.eqb_spec (l_size l) 0); lia).
    split.
    + split; [exact C|]. cbn [l_items]. unfold arealloc. rewrite E, map_length.
      rewrite firstn_all2 by (rewrite map_length; lia). eexists. reflexivity.
    + unfold l_size. cbn [l_items]. unfold arealloc. rewrite app_length, firstn_length, repeat_length, E, map_length. lia.
  - split; [split; [exact C|exists rest; exact E]|]. lia.
Qed.
Lemma append_rep l xs v : lrep l xs -> exists l', list_append l v = Ok l' /\ lrep l' (xs ++ [v]).
Proof.
  intros H. destruct (room_rep l xs H) as ((C & rest & E) & S). unfold list_append.
  remember (list_room l) as l1. unfold aset. fold (l_size l1). rewrite C.
  destruct (Nat.ltb_spec (length xs) (l_size l1)); [|lia]. cbn [bind]. eexists; split; [reflexivity|].
  split; [cbn; rewrite app_length; cbn [length]; lia|]. cbn [l_items].
  unfold l_size in S. rewrite E, app_length, map_length in S. destruct rest as [|o rest]; [cbn [length] in S; lia|].
  exists rest. unfold aput. rewrite E. rewrite firstn_map_some by lia. rewrite firstn_all.
  rewrite map_app. cbn [map]. rewrite <- app_assoc. cbn [app]. do 2 f_equal.
  rewrite skipn_app, map_length. rewrite skipn_all2 by (rewrite map_length; lia).
  replace (Datatypes.S (length xs) - length xs) with 1 by lia. reflexivity.
Qed.
Lemma append_all_rep vs : forall l xs, lrep l xs -> exists l', append_all l vs = Ok l' /\ lrep l' (xs ++ vs).
Proof.
  induction vs as [|v vs IH]; intros l xs H; cbn [append_all].
  - exists l. rewrite app_nil_r. auto.
  - destruct (append_rep l xs v H) as (l1 & E & H1). rewrite E. cbn [bind].
    destruct (IH l1 _ H1) as (l2 & E2 & H2). exists l2. split; [exact E2|]. rewrite <- app_assoc in H2. exact H2.
Qed.
Lemma new_rep n : lrep (list_new n) [].
Proof. split; [reflexivity|]. exists (repeat None n). reflexivity. Qed.

Lemma insert_at_rep l xs p v : lrep l xs -> p <= length xs ->
  exists l', list_insert_at l p v = Ok l' /\ lrep l' (insert_before xs p v).
Proof.
  intros H P. destruct (room_rep l xs H) as ((C & rest & E) & S). unfold list_insert_at.
  remember (list_room l) as l1. unfold amemmove. fold (l_size l1). rewrite C.
  destruct (Nat.leb_spec (p + 1 + (length xs - p)) (l_size l1)); [|lia].
  destruct (Nat.leb_spec (p + (length xs - p)) (l_size l1)); [|lia]. cbn [andb bind].
  unfold l_size in S. rewrite E, app_length, map_length in S. destruct rest as [|o rest]; [cbn [length] in S; lia|].
  set (a := firstn (p + 1) (l_items l1) ++ firstn (length xs - p) (skipn p (l_items l1)) ++ skipn (p + 1 + (length xs - p)) (l_items l1)).
  assert (A : exists y, a = map Some (firstn p xs) ++ y :: map Some (skipn p xs) ++ rest).
  { unfold a. rewrite E.
    rewrite (skipn_map_some xs (o :: rest) p P).
    assert (F1 : firstn (length xs - p) (map Some (skipn p xs) ++ o :: rest) = map Some (skipn p xs)).
    { rewrite firstn_map_some by (rewrite skipn_length; lia). f_equal. apply firstn_all2. rewrite skipn_length. lia. }
    rewrite F1. replace (p + 1 + (length xs - p)) with (length xs + 1) by lia.
    rewrite skipn_app, map_length. rewrite (@skipn_all2 _ (length xs + 1) (map Some xs)) by (rewrite map_length; lia).
    replace (length xs + 1 - length xs) with 1 by lia. cbn [skipn app].
    assert (L : length (map Some xs ++ o :: rest) > p) by (rewrite app_length, map_length; cbn [length]; lia).
    destruct (nth_error (map Some xs ++ o :: rest) p) as [y|] eqn:Ey; [|apply nth_error_None in Ey; lia].
    exists y. 
    assert (F2 : firstn (p + 1) (map Some xs ++ o :: rest) = map Some (firstn p xs) ++ [y]).
    { rewrite <- (firstn_map_some xs (o :: rest) p P). rewrite Nat.add_1_r.
      clear -Ey. revert p Ey. generalize (map Some xs ++ o :: rest). intros q. induction q as [|z q IH]; intros p Ey; [destruct p; discriminate|].
      destruct p; cbn in Ey; [injection Ey as ->; reflexivity|]. cbn [firstn app]. f_equal. apply IH, Ey. }
    rewrite F2. rewrite <- app_assoc. reflexivity. }
  fold a. clearbody a. destruct A as (y & ->). unfold aset.
  rewrite app_length, map_length, firstn_length, Nat.min_l by lia.
  cbn [length]. destruct (Nat.ltb_spec p (p + Datatypes.S (length (map Some (skipn p xs) ++ rest)))); [|lia]. cbn [bind].
  eexists; split; [reflexivity|]. split.
  - cbn [l_count]. unfold insert_before. rewrite app_length. cbn [length]. rewrite firstn_length, skipn_length. lia.
  - cbn [l_items]. exists rest. unfold aput, insert_before.
    rewrite firstn_app, map_length, firstn_length, Nat.min_l by lia. rewrite Nat.sub_diag.
    rewrite firstn_all2 by (rewrite map_length, firstn_length; lia). cbn [firstn]. rewrite app_nil_r.
    rewrite skipn_app, map_length, firstn_length, Nat.min_l by lia.
    rewrite skipn_all2 by (rewrite map_length, firstn_length; lia).
    replace (Datatypes.S p - p) with 1 by lia. cbn [skipn app].
    rewrite map_app. cbn [map]. rewrite <- app_assoc. reflexivity.
Qed.

(** Reversal: after [i] swaps the outer [i] elements on each side have changed places. *)
Lemma nth_rev_ (xs : list value) j : j < length xs -> nth j (rev xs) VUndef = nth (length xs - 1 - j) xs VUndef.
Proof. intros H. rewrite rev_nth by exact H. f_equal. lia. Qed.
Lemma list_ext (xs ys : list value) : length xs = length ys ->
  (forall j, j < length xs -> nth j xs VUndef = nth j ys VUndef) -> xs = ys.
Proof.
  revert ys. induction xs as [|x xs IH]; intros [|y ys] L H; try discriminate; [reflexivity|].
  f_equal; [apply (H 0); cbn [length]; lia|]. apply IH; [cbn [length] in L; lia|].
  intros j Hj. apply (H (S j)). cbn [length]. lia.
Qed.
Lemma reverse_loop_rep xs rest : forall n ys i,
  length ys = length xs -> i + n = length xs / 2 ->
  (forall j, j < length xs -> nth j ys VUndef = if (j <? i) || (length xs - 1 - i <? j) then nth (length xs - 1 - j) xs VUndef else nth j xs VUndef) ->
  reverse_loop (map Some ys ++ rest) (length xs) i n = Ok (map Some (rev xs) ++ rest).
Proof.
  induction n as [|n IH]; intros ys i L I H; cbn [reverse_loop].
  - do 2 f_equal. f_equal. apply list_ext; [rewrite rev_length; exact L|].
    intros j Hj. rewrite L in Hj. rewrite H by exact Hj. rewrite nth_rev_ by exact Hj.
    pose proof (Nat.div_mod (length xs) 2). pose proof (Nat.mod_upper_bound (length xs) 2).
    destruct (Nat.ltb_spec j i); [reflexivity|]. destruct (Nat.ltb_spec (length xs - 1 - i) j); [reflexivity|].
    cbn [orb]. f_equal. lia.
  - pose proof (Nat.div_mod (length xs) 2). pose proof (Nat.mod_upper_bound (length xs) 2).
    rewrite aget_rep by lia. cbn [bind]. rewrite aget_rep by lia. cbn [bind].
    rewrite aset_rep by lia. cbn [bind]. rewrite aset_rep by (rewrite update_length; lia). cbn [bind].
    apply IH.
    + rewrite !update_length; rewrite ?update_length; lia.
    + lia.
    + intros j Hj. rewrite nth_update by (rewrite update_length; lia). rewrite nth_update by lia.
      rewrite (H i) by lia. rewrite (H (length xs - i - 1)) by lia.
      destruct (Nat.ltb_spec i i); [lia|]. destruct (Nat.ltb_spec (length xs - 1 - i) i); [lia|].
      destruct (Nat.ltb_spec (length xs - i - 1) i); [lia|]. destruct (Nat.ltb_spec (length xs - 1 - i) (length xs - i - 1)); [lia|].
      cbn [orb]. rewrite (H j Hj).
      destruct (Nat.eqb_spec j (length xs - i - 1)) as [->|Ha].
      * destruct (Nat.ltb_spec (length xs - i - 1) (S i)); destruct (Nat.ltb_spec (length xs - 1 - S i) (length xs - i - 1)); cbn [orb]; f_equal; lia.
      * destruct (Nat.eqb_spec j i) as [->|Hb].
        -- destruct (Nat.ltb_spec i (S i)); [cbn [orb]; f_equal; lia|lia].
        -- destruct (Nat.ltb_spec j i); destruct (Nat.ltb_spec j (S i)); destruct (Nat.ltb_spec (length xs - 1 - i) j);
             destruct (Nat.ltb_spec (length xs - 1 - S i) j); cbn [orb]; try lia; reflexivity.
Qed.
Lemma reverse_rep l xs : lrep l xs -> exists l', list_reverse l = Ok l' /\ lrep l' (rev xs).
Proof.
  intros (C & rest & E). unfold list_reverse. rewrite C, E.
  rewrite (reverse_loop_rep xs rest (length xs / 2) xs 0); [|reflexivity|reflexivity|].
  - cbn [bind]. eexists; split; [reflexivity|]. split; [cbn [l_count]; rewrite rev_length; reflexivity|exists rest; reflexivity].
  - intros j Hj. destruct (Nat.ltb_spec j 0); [lia|]. destruct (Nat.ltb_spec (length xs - 1 - 0) j); [lia|]. reflexivity.
Qed.

Lemma elements_from_rep xs rest : forall n i, i + n <= length xs ->
  elements_from (map Some xs ++ rest) i n = Ok (firstn n (skipn i xs)).
Proof.
  induction n as [|n IH]; intros i H; cbn [elements_from]; [reflexivity|].
  rewrite aget_rep by lia. cbn [bind]. rewrite IH by lia. cbn [bind].
  assert (skipn i xs = nth i xs VUndef :: skipn (S i) xs) as ->; [|reflexivity].
  clear IH. assert (Hi : i < length xs) by lia. clear H. revert i Hi. induction xs as [|x xs IH]; intros i Hi; [cbn [length] in Hi; lia|].
  destruct i; [reflexivity|]. cbn [skipn nth]. apply IH. cbn [length] in Hi. lia.
Qed.
Lemma elements_rep l xs : lrep l xs -> list_elements l = Ok xs.
Proof.
  intros (C & rest & E). unfold list_elements. rewrite C, E, elements_from_rep by lia. cbn [skipn]. rewrite firstn_all. reflexivity.
Qed.
Lemma copy_rep l xs : lrep l xs -> exists l', list_copy l = Ok l' /\ lrep l' xs.
Proof. intros H. unfold list_copy. rewrite (elements_rep _ _ H). cbn [bind]. destruct (append_all_rep xs (list_new (l_size l)) [] (new_rep _)) as (l' & E & R). exists l'. auto. Qed.
Lemma concat_rep a b xs ys : lrep a xs -> lrep b ys -> exists l', list_concat a b = Ok l' /\ lrep l' (xs ++ ys).
Proof.
  intros Ha Hb. unfold list_concat. rewrite (elements_rep _ _ Ha), (elements_rep _ _ Hb). cbn [bind].
  destruct (append_all_rep xs (list_new (l_count a + l_count b)) [] (new_rep _)) as (l' & E & R). rewrite E. cbn [bind].
  destruct (append_all_rep ys l' xs R) as (l2 & E2 & R2). exists l2. auto.
Qed.
Lemma literal_rep vs : exists l, list_literal vs = Ok l /\ lrep l vs.
Proof. destruct (append_all_rep vs (list_new LIST_BASESIZE) [] (new_rep _)) as (l & E & R). exists l. auto. Qed.

Lemma position_spec n i p : position n i = Some p <->
  p < n /\ (i = Z.of_nat p \/ i = Z.of_nat p - Z.of_nat n)%Z.
Proof.
  unfold position. destruct (Z.leb_spec 0 i), (Z.ltb_spec i (Z.of_nat n)), (Z.leb_spec (- Z.of_nat n) i), (Z.ltb_spec i 0); cbn [andb];
  (split; [intros H'; try discriminate; injection H' as <-; lia|intros H'; try (f_equal; lia); lia]).
Qed.
Lemma get_rep l xs i : lrep l xs -> list_get l i = match position (length xs) i with Some p => Ok (nth p xs VUndef) | None => Err EValue end.
Proof.
  intros (C & rest & E). unfold list_get, list_length, position. rewrite C.
  destruct (Z.leb_spec 0 i), (Z.ltb_spec i (Z.of_nat (length xs))), (Z.leb_spec (Z.of_nat (length xs)) i),
    (Z.leb_spec (- Z.of_nat (length xs)) i), (Z.ltb_spec i 0), (Z.ltb_spec i (- Z.of_nat (length xs))); cbn [andb orb]; try lia; try reflexivity;
  rewrite E, aget_rep by lia; do 2 f_equal; lia.
Qed.
Lemma set_rep l xs i v : lrep l xs -> match position (length xs) i with
  | Some p => exists l', list_set l i v = Ok l' /\ lrep l' (update xs p v)
  | None => list_set l i v = Err EValue end.
Proof.
  intros (C & rest & E). unfold list_set, list_length, position. rewrite C.
  destruct (Z.leb_spec 0 i), (Z.ltb_spec i (Z.of_nat (length xs))), (Z.leb_spec (Z.of_nat (length xs)) i),
    (Z.leb_spec (- Z.of_nat (length xs)) i), (Z.ltb_spec i 0), (Z.ltb_spec i (- Z.of_nat (length xs))); cbn [andb orb]; try lia; try reflexivity;
  rewrite E, aget_rep by lia; cbn [bind]; rewrite aset_rep by lia; cbn [bind]; (eexists; split; [reflexivity|]);
  (split; [cbn [l_count]; rewrite update_length by lia; reflexivity|]); cbn [l_items]; exists rest; rewrite ?(Z.add_comm i); reflexivity.
Qed.
Lemma insert_rep l xs i v : lrep l xs ->
  match (if Z.eqb i (Z.of_nat (length xs)) then Some (xs ++ [v]) else match position (length xs) i with Some p => Some (insert_before xs p v) | None => None end) with
  | Some ys => exists l', list_insert l i v = Ok l' /\ lrep l' ys
  | None => list_insert l i v = Err EValue end.
Proof.
  intros R. pose proof R as (C & rest & E). unfold list_insert, list_length. rewrite C.
  destruct (Z.eqb_spec i (Z.of_nat (length xs))); [apply append_rep, R|]. unfold position.
  destruct (Z.leb_spec 0 i), (Z.ltb_spec i (Z.of_nat (length xs))), (Z.leb_spec (Z.of_nat (length xs)) i),
    (Z.leb_spec (- Z.of_nat (length xs)) i), (Z.ltb_spec i 0), (Z.ltb_spec i (- Z.of_nat (length xs))); cbn [andb orb]; try lia; try reflexivity;
  rewrite ?(Z.add_comm i); apply insert_at_rep; try exact R; lia.
Qed.
Lemma pop_rep l xs : lrep l xs -> match rev xs with
  | [] => list_pop l = Err EValue
  | v :: r => exists l', list_pop l = Ok (v, l') /\ lrep l' (rev r) end.
Proof.
  intros (C & rest & E). unfold list_pop. rewrite C. destruct (rev xs) as [|v r] eqn:R.
  - assert (xs = []) as -> by (rewrite <- (rev_involutive xs), R; reflexivity). reflexivity.
  - assert (X : xs = rev r ++ [v]) by (rewrite <- (rev_involutive xs), R; reflexivity). subst xs.
    rewrite app_length. cbn [length]. destruct (Nat.eqb_spec (length (rev r) + 1) 0); [lia|]. rewrite E, aget_rep by (rewrite app_length; cbn [length]; lia).
    rewrite app_nth2 by lia. replace (length (rev r) + 1 - 1 - length (rev r)) with 0 by lia. cbn [bind nth]. eexists; split; [reflexivity|].
    split; [cbn [l_count]; lia|]. cbn [l_items]. rewrite map_app, <- app_assoc. eexists; reflexivity.
Qed.
Lemma clear_rep l : lrep (list_clear l) [].
Proof. split; [reflexivity|]. eexists. reflexivity. Qed.

Lemma search_fold xs v : forall i r,
  snd (fold_left (fun st x => let '(i, r) := st in ((i + 1)%Z, if is_equal x v then VInt i else r)) xs (Z.of_nat i, r))
  = match find (fun p => is_equal (snd p) v) (rev (combine (seq i (length xs)) xs)) with Some (i, _) => VInt (Z.of_nat i) | None => r end.
Proof.
  induction xs as [|x xs IH]; intros i r; [reflexivity|].
  cbn [fold_left length seq combine rev]. replace (Z.of_nat i + 1)%Z with (Z.of_nat (S i)) by lia. rewrite IH.
  assert (FA : forall (f : nat * value -> bool) a b, find f (a ++ b) = match find f a with Some x => Some x | None => find f b end).
  { intros f a b. induction a as [|y a IHa]; [reflexivity|]. cbn. destruct (f y); [reflexivity|exact IHa]. }
  rewrite FA. destruct (find _ (rev _)) as [[j y]|]; [reflexivity|]. cbn. destruct (is_equal x v); reflexivity.
Qed.
Lemma search_rep l xs v : lrep l xs -> list_search l v = Ok (last_index xs v).
Proof. intros R. unfold list_search. rewrite (elements_rep _ _ R). cbn [bind]. f_equal. apply (search_fold xs v 0 VUndef). Qed.
Lemma count_fold xs v : forall c, fold_left (fun c e => (c + (if is_equal e v then 1 else 0))%Z) xs c = (c + count_equal xs v)%Z.
Proof.
  unfold count_equal. induction xs as [|x xs IH]; intros c; cbn [fold_left filter]; [cbn; lia|].
  rewrite IH. destruct (is_equal x v); cbn [length]; lia.
Qed.
Lemma count_rep l xs v : lrep l xs -> list_count l v = Ok (VInt (count_equal xs v)).
Proof. intros R. unfold list_count. rewrite (elements_rep _ _ R). cbn [bind]. rewrite count_fold. reflexivity. Qed.

(** One method call, then a history. *)
Lemma lstep_rep l xs o : lrep l xs ->
  match fst (spec_lstep xs o) with
  | inl v => exists l', lstep l o = Ok (v, l') /\ lrep l' (snd (spec_lstep xs o))
  | inr e => lstep l o = Err e /\ snd (spec_lstep xs o) = xs
  end.
Proof.
  intros R. destruct o; cbn [spec_lstep lstep].
  - destruct (append_rep l xs v R) as (l' & E & R'). cbn. rewrite E. cbn. eauto.
  - pose proof (insert_rep l xs i v R) as H. destruct (Z.eqb i (Z.of_nat (length xs))); [destruct H as (l' & E & R'); cbn; rewrite E; cbn; eauto|].
    destruct (position (length xs) i); [destruct H as (l' & E & R'); cbn; rewrite E; cbn; eauto|]. cbn. rewrite H. auto.
  - pose proof (set_rep l xs i v R) as H. destruct (position (length xs) i); [destruct H as (l' & E & R'); cbn; rewrite E; cbn; eauto|]. cbn. rewrite H. auto.
  - rewrite (get_rep l xs i R). destruct (position (length xs) i); cbn; eauto.
  - pose proof (pop_rep l xs R) as H. destruct (rev xs); cbn; [auto|]. exact H.
  - destruct (reverse_rep l xs R) as (l' & E & R'). cbn. rewrite E. cbn. eauto.
  - cbn. eexists; split; [reflexivity|]. apply clear_rep.
  - cbn. eexists; split; [|exact R]. unfold list_length. rewrite (proj1 R). reflexivity.
  - rewrite (search_rep l xs v R). cbn. eauto.
  - rewrite (count_rep l xs v R). cbn. eauto.
Qed.
Lemma lrun_rep ops : forall l xs, lrep l xs ->
  exists l', lrun l ops = Ok (fst (spec_lrun xs ops), l') /\ lrep l' (snd (spec_lrun xs ops)).
Proof.
  induction ops as [|o ops IH]; intros l xs R; cbn [lrun spec_lrun].
  - cbn. eauto.
  - pose proof (lstep_rep l xs o R) as H. destruct (spec_lstep xs o) as [[v|e] ys]; cbn [fst snd] in H.
    + destruct H as (l1 & E & R1). rewrite E. destruct (IH l1 ys R1) as (l2 & E2 & R2). rewrite E2.
      destruct (spec_lrun ys ops). cbn in *. eauto.
    + destruct H as (E & ->). rewrite E. destruct (IH l xs R) as (l2 & E2 & R2). rewrite E2.
      destruct (spec_lrun xs ops). cbn in *. eauto.
Qed.

(** Slices. *)
Lemma slice_loop_rep xs rest : forall n i dst ys, lrep dst ys -> (0 <= i)%Z -> Z.to_nat i + n <= length xs ->
  exists l', slice_loop (map Some xs ++ rest) i n dst = Ok l' /\ lrep l' (ys ++ firstn n (skipn (Z.to_nat i) xs)).
Proof.
  induction n as [|n IH]; intros i dst ys R P H; cbn [slice_loop].
  - exists dst. cbn [firstn]. rewrite app_nil_r. auto.
  - destruct (Z.ltb_spec i 0); [lia|]. rewrite aget_rep by lia. cbn [bind].
    destruct (append_rep dst ys (nth (Z.to_nat i) xs VUndef) R) as (d & E & Rd). rewrite E. cbn [bind].
    destruct (IH (i + 1)%Z d _ Rd) as (l' & E' & R'); [lia|lia|]. exists l'. split; [exact E'|].
    rewrite <- app_assoc in R'. cbn [app] in R'.
    assert (skipn (Z.to_nat i) xs = nth (Z.to_nat i) xs VUndef :: skipn (Z.to_nat (i + 1)) xs) as ->; [|exact R'].
    replace (Z.to_nat (i + 1)) with (S (Z.to_nat i)) by lia. assert (Hi : Z.to_nat i < length xs) by lia. revert Hi. generalize (Z.to_nat i). clear.
    induction xs as [|x xs IH]; intros i Hi; [cbn [length] in Hi; lia|]. destruct i; [reflexivity|]. cbn [skipn nth]. apply IH. cbn [length] in Hi. lia.
Qed.
Lemma slice_rep l xs va vb : lrep l xs ->
  match slice_bounds (Z.of_nat (length xs)) va vb with
  | Some (a, b) => exists l', list_slice l va vb = Ok l' /\ lrep l' (sub_seq xs a b)
  | None => list_slice l va vb = Err EType
  end.
Proof.
  intros (C & rest & E).
  assert (K : forall e s, (e <= Z.of_nat (length xs))%Z -> (0 <= s)%Z ->
    exists l', slice_loop (l_items l) s (Z.to_nat (e - s)) (list_new LIST_BASESIZE) = Ok l' /\ lrep l' (firstn (Z.to_nat (e - s)) (skipn (Z.to_nat s) xs))).
  { intros e s He Hs. rewrite E. destruct (Z.le_gt_cases e s).
    - replace (Z.to_nat (e - s)) with 0 by lia. exists (list_new LIST_BASESIZE). split; [reflexivity|apply new_rep].
    - destruct (slice_loop_rep xs rest (Z.to_nat (e - s)) s (list_new LIST_BASESIZE) [] (new_rep _) Hs) as (l' & El & Rl); [lia|]. eauto. }
  unfold list_slice, list_length. rewrite C. unfold slice_bounds, sub_seq, resolve.
  set (n := Z.of_nat (length xs)) in *.
  assert (EMP : forall a b, (b - a <= 0)%Z -> firstn (Z.to_nat (b - a)) (skipn (Z.to_nat a) xs) = []).
  { intros. replace (Z.to_nat (b - a)) with 0 by lia. reflexivity. }
  assert (OUT : forall a b, (n <= a)%Z -> firstn (Z.to_nat (b - a)) (skipn (Z.to_nat a) xs) = []).
  { intros. rewrite skipn_all2 by lia. apply firstn_nil. }
  assert (K2 : forall e s e' s', (e' <= n)%Z -> (0 <= s')%Z ->
     (e' = e /\ s' = s) \/ (e' - s' <= 0)%Z /\ ((e - s <= 0)%Z \/ (n <= s)%Z) ->
    exists l', slice_loop (l_items l) s' (Z.to_nat (e' - s')) (list_new LIST_BASESIZE) = Ok l' /\ lrep l' (firstn (Z.to_nat (e - s)) (skipn (Z.to_nat s) xs))).
  { intros e s e' s' A B D. destruct (K e' s' A B) as (l' & P & Q). exists l'. split; [exact P|].
    destruct D as [[-> ->]|[D1 D2]]; [exact Q|]. rewrite (EMP s' e' D1) in Q. destruct D2 as [D2|D2]; [rewrite (EMP s e D2); exact Q|rewrite (OUT s e D2); exact Q]. }
  destruct vb as [| |fb|ib|bb|sb|pb|pb|pb|pb|pb|pb|pb]; destruct va as [| |fa|ia|ba|sa|pa|pa|pa|pa|pa|pa|pa]; cbn [slice_end slice_start bind]; try reflexivity; apply K2; unfold n in *;
  repeat match goal with |- context[Z.ltb ?x ?y] => destruct (Z.ltb_spec x y) end; lia.
Qed.

(** Element-wise equality. *)
Lemma eq_loop_rep veq (f : value -> value -> bool) ra rb : forall n i xs ys,
  (forall x y, In x xs -> In y ys -> veq x y = Ok (f x y)) -> length xs = length ys -> i + n = length xs ->
  list_eq_loop veq (map Some xs ++ ra) (map Some ys ++ rb) i n = Ok (forallb (fun p => f (fst p) (snd p)) (combine (skipn i xs) (skipn i ys))).
Proof.
  induction n as [|n IH]; intros i xs ys V L I; cbn [list_eq_loop].
  - rewrite !skipn_all2 by lia. reflexivity.
  - rewrite !aget_rep by lia. cbn [bind].
    assert (SK : forall zs : list value, i < length zs -> skipn i zs = nth i zs VUndef :: skipn (S i) zs).
    { clear. induction i as [|i IH]; intros [|z zs] H; cbn [length] in H; try lia; [reflexivity|]. cbn [skipn nth]. apply IH. lia. }
    rewrite V by (apply nth_In; lia). cbn [bind]. rewrite (SK xs) by lia. rewrite (SK ys) by lia.
    cbn [combine forallb fst snd]. destruct (f _ _); [|reflexivity]. rewrite IH by (assumption || lia). reflexivity.
Qed.
Lemma eq_rep veq f a b xs ys : lrep a xs -> lrep b ys -> (forall x y, In x xs -> In y ys -> veq x y = Ok (f x y)) ->
  list_eq veq a b = Ok ((length xs =? length ys) && forallb (fun p => f (fst p) (snd p)) (combine xs ys)).
Proof.
  intros (Ca & ra & Ea) (Cb & rb & Eb) V. unfold list_eq. rewrite Ca, Cb, Ea, Eb.
  destruct (Nat.eqb_spec (length xs) (length ys)) as [L|L]; [|reflexivity]. cbn [negb andb].
  rewrite (eq_loop_rep veq f ra rb (length xs) 0 xs ys V L eq_refl). reflexivity.
Qed.

(** Joining: the buffer always has room and the result is the concatenation. *)
Lemma join_grow_ok need : forall fuel size, size <> 0 -> need < size * 2 ^ fuel -> exists s, join_grow (S fuel) need size = Ok s /\ need < s.
Proof.
  induction fuel as [|fuel IH]; intros size S H; cbn [join_grow].
  - cbn in H. destruct (Nat.leb_spec size need); [lia|]. exists size. auto.
  - destruct (Nat.leb_spec size need); [|exists size; auto]. apply IH; [lia|]. cbn in H. lia.
Qed.
Lemma join_grow_post need : forall fuel size s, join_grow fuel need size = Ok s -> need < s.
Proof.
  induction fuel as [|fuel IH]; intros size s H; cbn in H; [discriminate|].
  destruct (Nat.leb_spec size need); [apply (IH _ _ H)|]. injection H as <-. lia.
Qed.
Lemma join_add_ok fuel st s r : join_add fuel st s = Ok r -> fst r = fst st ++ s.
Proof.
  destruct st as [buf size]. unfold join_add. destruct (join_grow fuel _ size) as [sz| | |] eqn:G; try discriminate. cbn.
  destruct (_ <=? _); [|discriminate]. intros H; injection H as <-. reflexivity.
Qed.
Lemma join_add_never_ub fuel st s : join_add fuel st s <> UB.
Proof.
  destruct st as [buf size]. unfold join_add. destruct (join_grow fuel _ size) as [sz|e| |] eqn:G; try discriminate.
  - cbn. apply join_grow_post in G. destruct (Nat.leb_spec (length buf + length s) sz); [discriminate|lia].
  - revert size G. generalize (length buf + length s). clear. induction fuel; intros need size; cbn; [discriminate|]. destruct (_ <=? _); [apply IHfuel|discriminate].
Qed.

(** The lists a program can hold: a literal, then any methods. *)
Lemma made_rep vs l0 ops rs l : list_literal vs = Ok l0 -> lrun l0 ops = Ok (rs, l) -> lrep l (snd (spec_lrun vs ops)).
Proof.
  intros H R. destruct (literal_rep vs) as (l1 & E & L). rewrite E in H. injection H as <-.
  destruct (lrun_rep ops l1 vs L) as (l2 & E2 & R2). rewrite E2 in R. injection R as _ <-. exact R2.
Qed.
Lemma last_index_spec xs v :
  match last_index xs v with
  | VInt i => (0 <= i < Z.of_nat (length xs))%Z /\ is_equal (nth (Z.to_nat i) xs VUndef) v = true
              /\ forall j, Z.to_nat i < j < length xs -> is_equal (nth j xs VUndef) v = false
  | VUndef => forall j, j < length xs -> is_equal (nth j xs VUndef) v = false
  | _ => False
  end.
Proof.
  unfold last_index. induction xs as [|x xs IH] using rev_ind; [cbn; intros; lia|].
  rewrite app_length. cbn [length]. rewrite seq_app. cbn [seq plus].
  assert (CA : forall a b c d, length a = length c -> combine (a ++ b) (c ++ d) = combine a c ++ @combine nat value b d).
  { clear. induction a as [|y a IHa]; intros b [|z c] d L; try discriminate; [reflexivity|]. cbn. f_equal. apply IHa. cbn in L. lia. }
  rewrite CA by apply seq_length. rewrite rev_app_distr. cbn [rev app find combine snd].
  destruct (is_equal x v) eqn:Ex.
  - cbn. repeat split; [lia|lia| |intros j Hj; lia]. rewrite Nat2Z.id. rewrite app_nth2 by lia. rewrite Nat.sub_diag. exact Ex.
  - destruct (find _ _) as [[i y]|].
    + destruct IH as (A & B & C). repeat split; [lia|lia| |].
      * rewrite app_nth1 by lia. exact B.
      * intros j Hj. destruct (Nat.eq_dec j (length xs)) as [->|N]; [rewrite app_nth2 by lia; rewrite Nat.sub_diag; exact Ex|].
        rewrite app_nth1 by lia. apply C. lia.
    + intros j Hj. destruct (Nat.eq_dec j (length xs)) as [->|N]; [rewrite app_nth2 by lia; rewrite Nat.sub_diag; exact Ex|].
      rewrite app_nth1 by lia. apply IH. lia.
Qed.
