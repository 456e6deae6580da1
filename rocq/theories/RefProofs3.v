(** * RefProofs3: the operations on the stack alone. *)
From Verif Require Import Base Refs RefSpec RefProofs RefProofs2.

Lemma cnt_split i k l : cnt i l = (cnt i (firstn k l) + cnt i (skipn k l))%nat.
Proof. rewrite <- cnt_app, firstn_skipn. reflexivity. Qed.
Lemma skipn_add {A} (l : list A) a b : skipn b (skipn a l) = skipn (a + b) l.
Proof. revert l. induction a as [|a IH]; intros l; [reflexivity|]. destruct l as [|x r]; [cbn; apply skipn_nil|]. cbn [skipn plus]. apply IH. Qed.
Lemma cnt_seg i l a n : cnt i (skipn a l) = (cnt i (seg l a n) + cnt i (skipn (a + n) l))%nat.
Proof. unfold seg. rewrite (cnt_split i n (skipn a l)), skipn_add. reflexivity. Qed.
Lemma cnt_skip1 i l k x : nth_error l k = Some x -> cnt i (skipn k l) = (is_ref i x + cnt i (skipn (S k) l))%nat.
Proof.
  revert k. induction l as [|y r IH]; intros [|k] H; cbn in H; try discriminate.
  - injection H as ->. reflexivity.
  - cbn [skipn]. apply IH. exact H.
Qed.
Lemma cnt_first1 i l k x : nth_error l k = Some x -> cnt i (firstn (S k) l) = (cnt i (firstn k l) + is_ref i x)%nat.
Proof.
  intros H. pose proof (cnt_split i k l). pose proof (cnt_split i (S k) l). pose proof (cnt_skip1 i l k x H). lia.
Qed.
Lemma seg_len {A} (l : list A) a n : (a + n <= length l)%nat -> length (seg l a n) = n.
Proof. intros H. unfold seg. rewrite firstn_length, skipn_length. lia. Qed.
Lemma memmove_ok l d s n : (d + n <= length l)%nat -> (s + n <= length l)%nat ->
  memmove l d s n = Ok (firstn d l ++ seg l s n ++ skipn (d + n) l).
Proof. intros H1 H2. unfold memmove. replace ((d + n <=? length l) && (s + n <=? length l))%nat with true by lia. reflexivity. Qed.
Lemma memmove_len {A} (l : list A) d s n : (d + n <= length l)%nat -> (s + n <= length l)%nat ->
  length (firstn d l ++ seg l s n ++ skipn (d + n) l) = length l.
Proof. intros H1 H2. rewrite !app_length, seg_len, firstn_length, skipn_length by exact H2. lia. Qed.
Lemma nth_skip {A} (l : list A) a j : nth_error (skipn a l) j = nth_error l (a + j).
Proof. revert l. induction a as [|a IH]; intros [|x r]; cbn; auto. destruct j; reflexivity. Qed.
Lemma nth_first {A} (l : list A) a j : (j < a)%nat -> nth_error (firstn a l) j = nth_error l j.
Proof. revert a j. induction l as [|x r IH]; intros [|a] [|j] H; cbn; auto; try lia. apply IH. lia. Qed.
Lemma memmove_after {A} (l : list A) d s n k : (d + n <= length l)%nat -> (s + n <= length l)%nat -> (d + n <= k)%nat ->
  nth_error (firstn d l ++ seg l s n ++ skipn (d + n) l) k = nth_error l k.
Proof.
  intros H1 H2 H3. rewrite nth_error_app2 by (rewrite firstn_length; lia). rewrite nth_error_app2 by (rewrite firstn_length, seg_len by exact H2; lia).
  rewrite firstn_length, seg_len by exact H2. rewrite nth_skip. f_equal. lia.
Qed.
Lemma memmove_before {A} (l : list A) d s n k : (k < d)%nat -> (d <= length l)%nat ->
  nth_error (firstn d l ++ seg l s n ++ skipn (d + n) l) k = nth_error l k.
Proof.
  intros H1 H2. rewrite nth_error_app1 by (rewrite firstn_length; lia).
  apply nth_first. exact H1.
Qed.
Lemma cnt_upd' i l k x y : nth_error l k = Some y -> (cnt i (upd l k x) = cnt i l + is_ref i x - is_ref i y)%nat.
Proof. intros H. pose proof (cnt_upd i l k x y H). lia. Qed.
Lemma rest_stk s l n : rest (with_stk s l n) = rest s. Proof. reflexivity. Qed.
Lemma rest_hp s h : rest (with_hp s h) = rest s. Proof. reflexivity. Qed.

Lemma W_stack h E s l n h' : W h' None E (l ++ rest s) -> length l = STACK_SIZE -> (n <= STACK_SIZE)%nat -> mts s = [RP LIST_MT; RP TABLE_MT] -> h' = h ->
  okE E (with_stk (with_hp s h) l n).
Proof. intros HW HL Hn HM ->. split; [exact HW|]. auto. Qed.

Lemma swap_good s : okE [] s -> (2 <= sz s)%nat -> good (swap s).
Proof.
  intros (HW & HL & HS & HM) H. unfold swap. destruct (peek_ok s 0 HL HS ltac:(lia)) as (a & -> & Ea & _). cbn [bind].
  destruct (peek_ok s 1 HL HS ltac:(lia)) as (b & -> & Eb & _). cbn [bind]. apply good_fine. split; [|cbn [stk sz with_stk mts]; rewrite !upd_len; auto].
  cbn [hp with_stk]. eapply W_ext; [|exact HW]. intros i. rewrite !places_stk, rest_stk, !cnt_app. f_equal. cbn [stk with_stk].
  replace (sz s - 1 - 0)%nat with (sz s - 1)%nat in Ea by lia. replace (sz s - 1 - 1)%nat with (sz s - 2)%nat in Eb by lia.
  assert (E2 : nth_error (upd (stk s) (sz s - 1) b) (sz s - 2) = Some b) by (rewrite upd_other by lia; exact Eb).
  pose proof (cnt_upd i _ _ a b E2). pose proof (cnt_upd i _ _ b a Ea). lia.
Qed.

Lemma rm_good s k : okE [] s -> (k < sz s)%nat -> good (rm s k).
Proof.
  intros (HW & HL & HS & HM) H. unfold rm. replace (sz s <=? k)%nat with false by lia.
  destruct (slot_ok s k HL ltac:(lia)) as (old & Eo & -> & _). cbn [bind].
  destruct (W_dec (hp s) None [] old (upd (stk s) k RU ++ rest s)) as (h1 & -> & W1 & _); [|exact I|].
  { eapply W_ext; [|exact HW]. intros i. rewrite places_stk, cnt_cons, !cnt_app. pose proof (cnt_upd i (stk s) k RU old Eo) as Hu. cbn [is_ref] in Hu. lia. }
  cbn [bind]. rewrite memmove_ok by lia. cbn [bind]. apply good_fine.
  set (l1 := firstn k (stk s) ++ _). assert (L1 : length l1 = STACK_SIZE) by (unfold l1; rewrite memmove_len by lia; exact HL).
  eapply W_stack; [|rewrite upd_len; exact L1|lia|exact HM|reflexivity].
  eapply W_ext; [|exact W1]. intros i. rewrite !cnt_app. f_equal.
  destruct (slot_ok s (sz s - 1) HL ltac:(lia)) as (t & Et & _).
  assert (E2 : nth_error l1 (sz s - 1) = Some t) by (unfold l1; rewrite memmove_after by lia; exact Et).
  pose proof (cnt_upd i l1 _ RE t E2) as X. pose proof (cnt_upd i (stk s) k RU old Eo) as Y. cbn [is_ref] in X, Y.
  unfold l1 in X. rewrite !cnt_app in X. replace (k + (sz s - 1 - k))%nat with (sz s - 1)%nat in X by lia. fold l1 in X.
  pose proof (cnt_skip1 i (stk s) _ t Et) as A. pose proof (cnt_skip1 i (stk s) _ old Eo) as B. pose proof (cnt_split i k (stk s)) as C.
  pose proof (cnt_seg i (stk s) (S k) (sz s - 1 - k)) as D. replace (S k + (sz s - 1 - k))%nat with (S (sz s - 1)) in D by lia.
  replace (k + 1)%nat with (S k) in X by lia. unfold l1 in *. replace (k + 1)%nat with (S k) in * by lia.
  replace (k + (sz s - 1 - k))%nat with (sz s - 1)%nat in * by lia. lia.
Qed.

Lemma moveup_good s k : okE [] s -> (k < sz s)%nat -> good (moveup s k).
Proof.
  intros (HW & HL & HS & HM) H. unfold moveup. replace (sz s <=? k)%nat with false by lia.
  destruct (slot_ok s k HL ltac:(lia)) as (old & Eo & -> & _). cbn [bind].
  rewrite memmove_ok by lia. cbn [bind]. apply good_fine.
  set (l1 := firstn k (stk s) ++ _). assert (L1 : length l1 = STACK_SIZE) by (unfold l1; rewrite memmove_len by lia; exact HL).
  split; [|split; [cbn [stk with_stk]; rewrite upd_len; exact L1|split; [exact HS|exact HM]]]. cbn [hp with_stk].
  eapply W_ext; [|exact HW]. intros i. rewrite !places_stk, rest_stk, !cnt_app. f_equal. cbn [stk with_stk].
  destruct (slot_ok s (sz s - 1) HL ltac:(lia)) as (t & Et & _).
  assert (E2 : nth_error l1 (sz s - 1) = Some t) by (unfold l1; rewrite memmove_after by lia; exact Et).
  pose proof (cnt_upd i l1 _ old t E2) as X.
  unfold l1 in X at 2. rewrite !cnt_app in X. replace (k + (sz s - 1 - k))%nat with (sz s - 1)%nat in X by lia.
  pose proof (cnt_skip1 i (stk s) _ t Et) as A. pose proof (cnt_skip1 i (stk s) _ old Eo) as B. pose proof (cnt_split i k (stk s)) as C.
  pose proof (cnt_seg i (stk s) (S k) (sz s - 1 - k)) as D. replace (S k + (sz s - 1 - k))%nat with (S (sz s - 1)) in D by lia.
  replace (k + 1)%nat with (S k) in X by lia. lia.
Qed.

Lemma shift_good s d : okE [] s -> (d < sz s)%nat -> good (shift s d).
Proof.
  intros (HW & HL & HS & HM) H. unfold shift. replace (sz s <=? d)%nat with false by lia.
  destruct (peek_ok s 0 HL HS ltac:(lia)) as (top & -> & Et & Hin). cbn [bind]. replace (sz s - 1 - 0)%nat with (sz s - 1)%nat in Et by lia.
  destruct (W_inc (hp s) None [] top _ HW) as (h1 & -> & W1 & _).
  { eapply W_livev; [exact HW|]. rewrite places_stk. apply in_or_app. auto. }
  cbn [bind]. rewrite memmove_ok by lia. cbn [bind].
  destruct (W_dec h1 None [] top _ W1 I) as (h2 & -> & W2 & _). cbn [bind]. apply good_fine.
  set (l1 := firstn _ (stk s) ++ _). assert (L1 : length l1 = STACK_SIZE) by (unfold l1; rewrite memmove_len by lia; exact HL).
  eapply W_stack; [|rewrite upd_len; exact L1|lia|exact HM|reflexivity].
  eapply W_ext; [|exact W2]. intros i. rewrite places_stk, !cnt_app. f_equal.
  destruct (slot_ok s (sz s - 1 - d) HL ltac:(lia)) as (t & Ex & _).
  assert (E2 : nth_error l1 (sz s - 1 - d) = Some t) by (unfold l1; rewrite memmove_before by lia; exact Ex).
  pose proof (cnt_upd i l1 _ top t E2) as X. unfold l1 in X at 2. rewrite !cnt_app in X. replace (sz s - d + d)%nat with (S (sz s - 1)) in X by lia.
  pose proof (cnt_first1 i (stk s) _ t Ex) as A. replace (S (sz s - 1 - d)) with (sz s - d)%nat in A by lia.
  pose proof (cnt_split i (sz s - 1 - d) (stk s)) as B. pose proof (cnt_seg i (stk s) (sz s - 1 - d) d) as C.
  replace (sz s - 1 - d + d)%nat with (sz s - 1)%nat in C by lia. pose proof (cnt_skip1 i (stk s) _ top Et) as D. lia.
Qed.

Lemma insert_good s k v : okE [] s -> (k <= sz s)%nat -> unboxed v -> good (insert s k v).
Proof.
  intros (HW & HL & HS & HM) H Hv. unfold insert. destruct (Nat.leb_spec STACK_SIZE (sz s)) as [Hg|Hlt]; [eapply good_fail; split; [exact HW|auto]|].
  replace (sz s <? k)%nat with false by lia.
  destruct (slot_ok s (sz s) HL ltac:(lia)) as (old & Eo & -> & _). cbn [bind].
  destruct (W_dec (hp s) None [] old (upd (stk s) (sz s) RU ++ rest s)) as (h1 & -> & W1 & _); [|exact I|].
  { eapply W_ext; [|exact HW]. intros i. rewrite places_stk, cnt_cons, !cnt_app. pose proof (cnt_upd i (stk s) (sz s) RU old Eo) as Hu. cbn [is_ref] in Hu. lia. }
  cbn [bind]. rewrite memmove_ok by lia. cbn [bind]. apply good_fine.
  set (l1 := firstn _ (stk s) ++ _). assert (L1 : length l1 = STACK_SIZE) by (unfold l1; rewrite memmove_len by lia; exact HL).
  eapply W_stack; [|rewrite upd_len; exact L1|lia|exact HM|reflexivity].
  eapply W_ext; [|exact W1]. intros i. rewrite !cnt_app. f_equal.
  destruct (slot_ok s k HL ltac:(lia)) as (t & Ex & _).
  assert (E2 : nth_error l1 k = Some t) by (unfold l1; rewrite memmove_before by lia; exact Ex).
  pose proof (cnt_upd i l1 _ v t E2) as X. unfold l1 in X at 2. rewrite !cnt_app in X. rewrite (is_ref_unboxed i v Hv) in X.
  pose proof (cnt_upd i (stk s) (sz s) RU old Eo) as Y. cbn [is_ref] in Y.
  pose proof (cnt_first1 i (stk s) _ t Ex) as A. replace (S k) with (k + 1)%nat in A by lia.
  pose proof (cnt_split i k (stk s)) as B. pose proof (cnt_seg i (stk s) k (sz s - k)) as C.
  replace (k + (sz s - k))%nat with (sz s) in C by lia. replace (k + 1 + (sz s - k))%nat with (S (sz s)) in X by lia.
  pose proof (cnt_skip1 i (stk s) _ old Eo) as D. lia.
Qed.

Lemma in_seg {A} (l : list A) a n x : In x (seg l a n) -> In x l.
Proof.
  unfold seg. intros H. assert (H1 : In x (skipn a l)) by (rewrite <- (firstn_skipn n (skipn a l)); apply in_or_app; auto).
  rewrite <- (firstn_skipn a l). apply in_or_app. auto.
Qed.
Lemma seg_split i (l : list rv) a n m : cnt i (seg l a (n + m)) = (cnt i (seg l a n) + cnt i (seg l (a + n) m))%nat.
Proof. pose proof (cnt_seg i l a (n + m)). pose proof (cnt_seg i l a n). pose proof (cnt_seg i l (a + n) m). replace (a + n + m)%nat with (a + (n + m))%nat in * by lia. lia. Qed.

Lemma rm_range_full s a b : okE [] s -> (a <= b <= sz s)%nat -> exists h l, rm_range s a b = fine (with_stk (with_hp s h) l (sz s - (b - a))) /\
  okE [] (with_stk (with_hp s h) l (sz s - (b - a))) /\ length l = STACK_SIZE.
Proof.
  intros (HW & HL & HS & HM) H. unfold rm_range. replace ((sz s <? b) || (b <? a))%nat with false by lia.
  set (af := (sz s - b)%nat). set (len := (b - a)%nat). set (m := Nat.min af len).
  assert (Hm : (m <= af /\ m <= len)%nat) by (unfold m; lia).
  set (L1 := firstn a (stk s) ++ skipn (a + m) (stk s) ++ rest s).
  destruct (W_decs (hp s) None [] (seg (stk s) a m) L1) as (h1 & -> & W1 & _); [|exact I|].
  { eapply W_ext; [|exact HW]. intros i. unfold L1. rewrite places_stk, !cnt_app. pose proof (cnt_split i a (stk s)). pose proof (cnt_seg i (stk s) a m). lia. }
  cbn [bind].
  destruct (W_incs h1 None [] (rev (seg (stk s) (sz s - m) m)) L1 W1) as (h2 & -> & W2 & _).
  { apply Forall_forall. intros x Hx. apply in_rev in Hx. eapply W_livev; [exact W1|]. unfold L1.
    assert (Hin : In x (skipn (a + m) (stk s))).
    { (* the top [m] slots lie above the removed ones *)
      unfold seg in Hx. assert (Hx1 : In x (skipn (sz s - m) (stk s))) by (rewrite <- (firstn_skipn m (skipn (sz s - m) (stk s))); apply in_or_app; auto).
      replace (sz s - m)%nat with ((a + m) + (sz s - m - (a + m)))%nat in Hx1 by lia. rewrite <- skipn_add in Hx1.
      rewrite <- (firstn_skipn (sz s - m - (a + m)) (skipn (a + m) (stk s))). apply in_or_app. auto. }
    apply in_or_app. right. apply in_or_app. auto. }
  cbn [bind]. rewrite memmove_ok by lia. cbn [bind].
  eexists h2, _. split; [reflexivity|].
  assert (LL : length (firstn a (stk s) ++ seg (stk s) b af ++ skipn (a + af) (stk s)) = STACK_SIZE) by (rewrite memmove_len by lia; exact HL).
  split; [|exact LL]. eapply W_stack; [|exact LL|lia|exact HM|reflexivity].
  eapply W_ext; [|exact W2]. intros i. unfold L1. rewrite !cnt_app, cnt_rev.
  destruct (Nat.le_gt_cases af len) as [C|C].
  - replace m with af in * by lia. replace (sz s - af)%nat with b by lia. lia.
  - replace m with len in * by lia. replace (a + len)%nat with b in * by lia.
    pose proof (cnt_seg i (stk s) b af) as X. replace (b + af)%nat with (sz s) in X by lia.
    pose proof (cnt_seg i (stk s) (a + af) len) as Y. replace (a + af + len)%nat with (sz s) in Y by lia.
    replace (sz s - len)%nat with (a + af)%nat by lia. lia.
Qed.
Lemma rm_range_good s a b : okE [] s -> (a <= b <= sz s)%nat -> good (rm_range s a b).
Proof. intros H1 H2. destruct (rm_range_full s a b H1 H2) as (h & l & -> & H & _). apply good_fine. exact H. Qed.

Lemma endfor_full s : okE [] s -> loops s <> [] -> exists h, endfor s = fine (with_loops (with_hp s h) (tl (loops s))) /\ okE [] (with_loops (with_hp s h) (tl (loops s))).
Proof.
  intros (HW & HL & HS & HM) H. unfold endfor. destruct (loops s) as [|[v n] r] eqn:E; [contradiction|].
  destruct (W_dec (hp s) None [] v (stk s ++ map fst r ++ cons_ s ++ flat (globs s) ++ mts s)) as (h1 & -> & W1 & _); [|exact I|].
  { eapply W_ext; [|exact HW]. intros i. unfold places. rewrite E. cbn [map fst]. rewrite cnt_cons, !cnt_app, cnt_cons. lia. }
  cbn [bind tl]. exists h1. split; [reflexivity|]. split; [exact W1|]. auto.
Qed.
Lemma endfor_good s : okE [] s -> loops s <> [] -> good (endfor s).
Proof. intros H1 H2. destruct (endfor_full s H1 H2) as (h & -> & H). apply good_fine. exact H. Qed.
Lemma nth_res_push : forall n s, okE [] s -> good (nth_res n (fun s => push s RU) s).
Proof.
  induction n as [|n IH]; intros s H; cbn [nth_res]; [apply good_fine; exact H|]. apply good_then; [|exact IH].
  apply push_good; [exact H|]. apply surv_unboxed. exact I.
Qed.
Lemma nth_res_endfor : forall n s, okE [] s -> (n <= length (loops s))%nat -> good (nth_res n endfor s).
Proof.
  induction n as [|n IH]; intros s H Hn; cbn [nth_res]; [apply good_fine; exact H|].
  destruct (endfor_full s H) as (h & -> & H1); [destruct (loops s); cbn in *; [lia|discriminate]|].
  unfold andthen, fine. cbn [bind]. apply IH; [exact H1|]. cbn [loops with_loops]. destruct (loops s); cbn in *; lia.
Qed.
Lemma exitframe_good s fp len nr lp : okE [] s -> (fp + len + 1 <= sz s)%nat -> good (exitframe s fp len nr lp).
Proof.
  intros H Hf. unfold exitframe. destruct (rm_range_full s fp (fp + len + 1) H ltac:(lia)) as (h & l & -> & H1 & _).
  unfold andthen at 1. unfold fine at 1. cbn [bind]. set (s1 := with_stk _ _ _) in *.
  apply good_then.
  - destruct nr as [k|]; [|apply good_fine; exact H1]. destruct (Nat.ltb_spec (sz s1) (fp + k)) as [A|A].
    + apply nth_res_push. exact H1.
    + rewrite popn_ok by lia. cbn [bind]. apply good_fine. apply okE_sp; [exact H1|]. destruct H1 as (_ & _ & H1 & _). lia.
  - intros s2 H2. apply nth_res_endfor; [exact H2|lia].
Qed.
