(** * RefProofs6: every instruction, whole runs, vm_cleanup. *)
From Verif Require Import Base Refs RefSpec RefProofs RefProofs2 RefProofs3 RefProofs4 RefProofs5.

Lemma in_stk_live E s v : okE E s -> In v (stk s) -> livev (hp s) v.
Proof. intros (HW & _) H. eapply W_livev; [exact HW|]. rewrite places_stk. apply in_or_app. auto. Qed.
Lemma stk_safe E s a : okE E s -> In (RP a) (stk s) -> (0 < cnt a (places s))%nat.
Proof. intros _ H. apply cnt_in. rewrite places_stk. apply in_or_app. auto. Qed.
Lemma as_list_eq s x a l m : as_list s x = Some (a, l, m) -> x = RP a /\ hget (hp s) a = Some (OList l m).
Proof. unfold as_list. destruct x as [| |z|b]; try discriminate. destruct (hget (hp s) b) as [[| |]|] eqn:Q; try discriminate. intros [= <- <- <-]. auto. Qed.
Lemma as_tab_eq s x a l m : as_tab s x = Some (a, l, m) -> x = RP a /\ hget (hp s) a = Some (OTab l m).
Proof. unfold as_tab. destruct x as [| |z|b]; try discriminate. destruct (hget (hp s) b) as [[| |]|] eqn:Q; try discriminate. intros [= <- <- <-]. auto. Qed.

Ltac pk s k v E I := let HH := fresh in match goal with H : okE _ s |- _ => pose proof H as HH end; destruct (peek_ok s k ltac:(apply HH) ltac:(apply HH) ltac:(lia)) as (v & -> & E & I); clear HH; cbn [bind].
Ltac pp := rewrite popn_ok by (cbn [sz with_stk with_hp]; lia); cbn [bind].

Lemma lindex_lt {A} (l : list A) z n : lindex l z = Some n -> (n < length l)%nat.
Proof. unfold lindex. destruct ((z <? - Z.of_nat (length l)) || (Z.of_nat (length l) <=? z)) eqn:C; [discriminate|]. intros [= <-]. destruct (z <? 0) eqn:D; lia. Qed.
Lemma kids_in_list l m v : In v l -> In v (kids (OList l m)). Proof. cbn [kids]. intros H. apply in_or_app. auto. Qed.
Lemma items_live E s a l m : okE E s -> hget (hp s) a = Some (OList l m) -> Forall (livev (hp s)) l.
Proof. intros (HW & _) H. apply Forall_forall. intros v Hv. eapply W_kid; [exact HW|exact H|]. apply kids_in_list. exact Hv. Qed.

(** A change of contents of an object on the stack. *)
Lemma change_good s a o0 o ups downs : okE [] s -> hget (hp s) a = Some o0 -> In (RP a) (stk s) -> Forall (livev (hp s)) ups ->
  (forall i, cnt i downs + cnt i (kids o) = cnt i ups + cnt i (kids o0))%nat ->
  exists h1 h2 h3, mfold inc ups (hp s) = Ok h1 /\ mfold dec downs h1 = Ok h2 /\ set_body h2 a o = Ok h3 /\ okE [] (with_hp s h3).
Proof.
  intros H Ha Hin HU HC. pose proof H as (HW & HL & HS & HM). pose proof (stk_safe _ _ _ H Hin) as HP.
  destruct (change (hp s) [] (places s) a o0 o ups downs HW Ha HU) as (h1 & h2 & h3 & E1 & E2 & E3 & W3 & _); [left; exact HP|lia|exact HC|].
  exists h1, h2, h3. split; [exact E1|]. split; [exact E2|]. split; [exact E3|]. split; [exact W3|]. auto.
Qed.
Lemma mfold1 {A B} (f : A -> B -> outcome A) x a r : mfold f [x] a = Ok r -> f a x = Ok r.
Proof. cbn [mfold]. destruct (f a x); cbn [bind]; congruence. Qed.

Lemma step_good s i : okE [] s -> fits s i -> good (step s i).
Proof.
  intros H HF. pose proof H as (HW & HL & HS & HM). destruct i; cbn [step fits] in *; unfold room in *; try contradiction.
  - (* IPush *) apply push_good; [exact H|]. apply surv_unboxed. exact HF.
  - (* ILit *) destruct (nth_error (cons_ s) i) as [v|] eqn:Q; [|apply nth_error_None in Q; lia]. apply push_good; [exact H|]. apply surv_rest.
    unfold rest. apply in_or_app. right. apply in_or_app. left. eapply nth_error_In; exact Q.
  - (* IFresh *) pp. unfold alloc. apply push_fresh.
    + split; [apply W_alloc; [exact HW|reflexivity]|]. split; [exact HL|]. split; [cbn [sz with_hp with_stk]; lia|exact HM].
    + cbn [hp with_hp with_stk]. rewrite hget_app_new. discriminate.
    + cbn [hp with_hp with_stk]. unfold count_of. rewrite nth_error_app2, Nat.sub_diag by lia. reflexivity.
  - (* IUnb *) pp. apply push_good; [apply okE_sp; [exact H|lia]|]. apply surv_unboxed. exact I.
  - (* IPop *) pp. apply good_fine. apply okE_sp; [exact H|lia].
  - (* IDup *) pk s O v E1 I1. apply push_good; [exact H|]. eapply surv_slot; [exact E1|lia].
  - apply swap_good; assumption.
  - apply shift_good; assumption.
  - apply moveup_good; assumption.
  - apply rm_good; assumption.
  - apply insert_good; tauto.
  - apply rm_range_good; assumption.
  - apply exitframe_good; assumption.
  - (* ILoad *) destruct (slot_ok s i HL ltac:(lia)) as (v & E1 & -> & I1). cbn [bind]. apply push_good; [exact H|]. eapply surv_slot; [exact E1|lia].
  - (* IStore *) destruct (slot_ok s i HL ltac:(lia)) as (old & Eo & -> & _). cbn [bind].
    pk s O v E1 I1. replace (sz s - 1 - 0)%nat with (sz s - 1)%nat in E1 by lia.
    destruct (W_dec (hp s) None [] old (upd (stk s) i RU ++ rest s)) as (h1 & -> & W1 & S1); [|exact I|].
    { eapply W_ext; [|exact HW]. intros k. rewrite places_stk, cnt_cons, !cnt_app. pose proof (cnt_upd k (stk s) i RU old Eo) as Hu. cbn [is_ref] in Hu. lia. }
    cbn [bind]. destruct (W_inc h1 None [] v _ W1) as (h2 & -> & W2 & _). { eapply W_livev; [exact W1|]. apply in_or_app. left. eapply in_upd; [exact E1|lia]. }
    cbn [bind]. pp. apply good_fine. apply W_stack with (h' := h2); [|rewrite upd_len; exact HL|cbn [sz with_stk]; lia|exact HM|reflexivity].
    eapply W_ext; [|exact W2]. intros k. rewrite cnt_cons, !cnt_app. change (rest (with_stk s (stk s) (sz s - 1))) with (rest s). pose proof (cnt_upd k (stk s) i RU old Eo) as Hu. pose proof (cnt_upd k (stk s) i v old Eo). cbn [is_ref] in Hu. lia.
  - (* IBind *) destruct HF as (HF1 & HF2 & HF3). pk s O v E1 I1. replace (sz s - 1 - 0)%nat with (sz s - 1)%nat in E1 by lia.
    destruct (slot_ok s i HL ltac:(lia)) as (old & Eo & -> & _). cbn [bind].
    destruct (W_dec (hp s) None [] old (upd (stk s) i RU ++ rest s)) as (h1 & -> & W1 & S1); [|exact I|].
    { eapply W_ext; [|exact HW]. intros k. rewrite places_stk, cnt_cons, !cnt_app. pose proof (cnt_upd k (stk s) i RU old Eo) as Hu. cbn [is_ref] in Hu. lia. }
    cbn [bind]. destruct (W_inc h1 None [] v _ W1) as (h2 & -> & W2 & _). { eapply W_livev; [exact W1|]. apply in_or_app. left. eapply in_upd; [exact E1|lia]. }
    cbn [bind]. apply good_fine. apply W_stack with (h' := h2); [|rewrite upd_len; exact HL|lia|exact HM|reflexivity].
    eapply W_ext; [|exact W2]. intros k. rewrite cnt_cons, !cnt_app. pose proof (cnt_upd k (stk s) i RU old Eo) as Hu. pose proof (cnt_upd k (stk s) i v old Eo). cbn [is_ref] in Hu. lia.
  - (* IDecsp *) pp. apply good_fine. apply okE_sp; [exact H|lia].
  - (* IIncsp *) replace (sz s + k <=? STACK_SIZE)%nat with true by lia. apply good_fine. apply okE_sp; [exact H|lia].
  - (* IGload *) destruct (nth_error (cons_ s) i) as [c|] eqn:Q; [|apply nth_error_None in Q; lia]. apply push_good; [exact H|].
    destruct (tfind (hp s) (globs s) c) as [e|] eqn:F; [|apply surv_unboxed; exact I]. apply surv_rest. apply tfind_in in F.
    unfold rest. apply in_or_app. right. apply in_or_app. right. apply in_or_app. left. exact F.
  - (* IGstore *) destruct HF as [HF1 HF2]. destruct (nth_error (cons_ s) i) as [c|] eqn:Q; [|apply nth_error_None in Q; lia].
    pk s O v E1 I1. pp. cbn [hp globs with_stk].
    destruct (W_incs (hp s) None [] [v; c] (places s) HW) as (h1 & X1 & W1 & G1).
    { constructor; [eapply in_stk_live; eassumption|]. constructor; [|constructor]. eapply W_livev; [exact HW|]. unfold places.
      apply in_or_app. right. apply in_or_app. right. apply in_or_app. left. eapply nth_error_In; exact Q. }
    destruct (W_decs h1 None [] (olddowns (hp s) (globs s) c) (stk s ++ map fst (loops s) ++ cons_ s ++ flat (tput (hp s) (globs s) c [(c, v)]) ++ mts s)) as (h2 & X2 & W2 & S2).
    { eapply W_ext; [|exact W1]. intros k. unfold places. pose proof (tput_cnt k (hp s) (globs s) c [(c, v)]) as HT. pose proof (downs_cnt k (hp s) (globs s) c) as HD.
      rewrite !cnt_app, !cnt_cons, cnt_nil. change (flat [(c, v)]) with [c; v] in HT. rewrite !cnt_cons, cnt_nil in HT.
      destruct (tfind (hp s) (globs s) c) as [[k0 v0]|]; lia. }
    { exact I. }
    rewrite (tinsert_folds _ _ _ _ _ _ X1 X2). cbn [bind]. apply good_fine. split; [exact W2|]. split; [exact HL|]. split; [cbn [sz with_globs with_hp with_stk]; lia|exact HM].
  - (* INewList *) apply new_list_good; assumption.
  - (* INewTable *) destruct HF as (pre & ps & F1 & F2). eapply new_table_good; eassumption.
  - (* IInitFor *) pk s O v E1 I1. destruct (W_inc (hp s) None [] v _ HW) as (h1 & -> & W1 & _); [eapply in_stk_live; eassumption|]. cbn [bind]. pp.
    apply good_fine. split; [|split; [exact HL|split; [cbn [sz with_loops with_stk with_hp]; lia|exact HM]]].
    eapply W_ext; [|exact W1]. intros k. unfold places. cbn [hp stk loops cons_ globs mts with_loops with_hp with_stk map fst].
    repeat rewrite ?cnt_cons, ?cnt_app. lia.
  - (* IIter *) apply iter1_good; assumption.
  - (* IEndFor *) apply endfor_good; assumption.
  - (* IEndComp *) destruct HF as [HF1 HF2]. pk s O v E1 I1. pp.
    destruct (push_full [] (with_stk s (stk s) (sz s - 2)) v) as (h2 & -> & H2 & _).
    { apply okE_sp; [exact H|lia]. } { cbn [sz with_stk]. lia. } { eapply surv_slot; [exact E1|]. cbn [sz with_stk]. lia. }
    change (andthen (fine ?x) endfor) with (endfor x). apply endfor_good; [exact H2|exact HF2].
  - (* IListGet *) pk s 1%nat x E1 I1. pk s O y E2 I2. destruct (as_list s x) as [[[a l] m]|] eqn:Q; [|eapply good_fail; exact H].
    apply as_list_eq in Q. destruct Q as [-> Q]. destruct y as [| |z|b]; try (eapply good_fail; exact H).
    destruct (lindex l z) as [n|] eqn:EL; [|eapply good_fail; exact H]. apply lindex_lt in EL.
    destruct (nth_error l n) as [v|] eqn:EN; [|apply nth_error_None in EN; lia]. apply push_good; [exact H|].
    eapply surv_kid; [right; eexists; split; [exact E1|lia]|exact Q|]. apply kids_in_list. eapply nth_error_In; exact EN.
  - (* IListSet *) pk s O v E1 I1. pp. assert (H1 : okE [] (with_stk s (stk s) (sz s - 1))) by (apply okE_sp; [exact H|lia]).
    set (s1 := with_stk s (stk s) (sz s - 1)) in *. assert (Hz : sz s1 = (sz s - 1)%nat) by reflexivity.
    pk s1 1%nat x E2 I2. pk s1 O y E3 I3. destruct (as_list s1 x) as [[[a l] m]|] eqn:Q; [|eapply good_fail; exact H1].
    apply as_list_eq in Q. destruct Q as [-> Q]. destruct y as [| |z|b]; try (eapply good_fail; exact H1).
    destruct (lindex l z) as [n|] eqn:EL; [|eapply good_fail; exact H1]. apply lindex_lt in EL.
    destruct (nth_error l n) as [w|] eqn:EN; [|apply nth_error_None in EN; lia].
    destruct (change_good s1 a (OList l m) (OList (upd l n v) m) [v] [w] H1 Q I2) as (h1 & h2 & h3 & X1 & X2 & X3 & H3).
    { constructor; [|constructor]. exact (in_stk_live _ _ _ H I1). }
    { intros k. rewrite !kids_list, !cnt_cons, !cnt_nil. pose proof (cnt_upd k l n v w EN). lia. }
    apply mfold1 in X1. apply mfold1 in X2. rewrite X1. cbn [bind]. rewrite X2. cbn [bind]. rewrite X3. cbn [bind]. apply good_fine. exact H3.
  - (* IListPush *) pk s 1%nat x E1 I1. destruct (as_list s x) as [[[a l] m]|] eqn:Q; [|eapply good_fail; exact H].
    apply as_list_eq in Q. destruct Q as [-> Q]. pk s O v E2 I2. pp.
    assert (H1 : okE [] (with_stk s (stk s) (sz s - 1))) by (apply okE_sp; [exact H|lia]).
    destruct (append_ok (with_stk s (stk s) (sz s - 1)) [] (places s) a l m v HW Q) as (h' & -> & W1 & _).
    { exact (in_stk_live _ _ _ H I2). } { left. eapply stk_safe; eassumption. } { intros Hc. pose proof (stk_safe _ _ _ H I1). lia. }
    cbn [bind]. apply good_fine. destruct H1 as (_ & H1). split; [exact W1|exact H1].
  - (* IListConcat *) pk s 1%nat x E1 I1. pk s O y E2 I2. destruct (as_list s x) as [[[a l] m]|] eqn:Q; [|eapply good_fail; exact H].
    destruct (as_list s y) as [[[b r] m']|] eqn:Q'; [|eapply good_fail; exact H]. apply as_list_eq in Q, Q'. destruct Q as [-> Q], Q' as [-> Q'].
    pose proof (push_newlist s O (l ++ r) H) as HP. assert (HF' : Forall (livev (hp s)) (l ++ r)) by (apply Forall_app; split; eapply items_live; eassumption).
    destruct (newlist_ok s (l ++ r) H HF') as (h' & Enl & Hn). rewrite Enl in *. cbn [bind] in *. specialize (HP HF' ltac:(lia)). rewrite popn_ok in HP by lia. cbn [bind] in HP.
    rewrite Nat.sub_0_r in HP. exact HP.
  - (* IListClear *) pk s O x E1 I1. destruct (as_list s x) as [[[a l] m]|] eqn:Q; [|eapply good_fail; exact H].
    apply as_list_eq in Q. destruct Q as [-> Q].
    destruct (change_good s a (OList l m) (OList [] m) [] l H Q I1) as (h1 & h2 & h3 & X1 & X2 & X3 & H3).
    { constructor. } { intros k. rewrite !kids_list, !cnt_nil. lia. }
    cbn [mfold] in X1. injection X1 as <-. rewrite X2. cbn [bind]. rewrite X3. cbn [bind]. apply good_fine. exact H3.
  - (* ISliceList *) destruct HF as [HF1 (v0 & x0 & l0 & m0 & P0 & -> & P2 & P3)]. rewrite P0. cbn [bind]. unfold as_list. rewrite P2. pp.
    replace ((b <=? length l0) || (b <=? a))%nat with true by lia.
    assert (H1 : okE [] (with_stk s (stk s) (sz s - 3))) by (apply okE_sp; [exact H|lia]).
    assert (HF' : Forall (livev (hp s)) (seg l0 a (b - a))).
    { apply Forall_forall. intros w Hw. apply in_seg in Hw. pose proof (items_live _ _ _ _ _ H P2) as HX. rewrite Forall_forall in HX. auto. }
    pose proof (push_newlist (with_stk s (stk s) (sz s - 3)) O (seg l0 a (b - a)) H1 HF' ltac:(lia)) as HP.
    destruct (newlist_ok (with_stk s (stk s) (sz s - 3)) (seg l0 a (b - a)) H1 HF') as (h' & Enl & Hn). rewrite Enl in *. cbn [bind] in *. rewrite popn_ok in HP by lia. cbn [bind] in HP.
    rewrite Nat.sub_0_r in HP. exact HP.
  - (* ITabGet *) pk s O c E1 I1. pp. assert (H1 : okE [] (with_stk s (stk s) (sz s - 1))) by (apply okE_sp; [exact H|lia]).
    set (s1 := with_stk s (stk s) (sz s - 1)) in *. assert (Hz : sz s1 = (sz s - 1)%nat) by reflexivity.
    pk s1 O x E2 I2. destruct (as_tab s1 x) as [[[a es] m]|] eqn:Q; [|eapply good_fail; exact H1]. apply as_tab_eq in Q. destruct Q as [-> Q].
    apply push_good; [exact H1|]. destruct (hashable (hp s1) c); [|apply surv_unboxed; exact I].
    destruct (tfind (hp s1) es c) as [e|] eqn:F; [|apply surv_unboxed; exact I]. apply tfind_in in F.
    eapply surv_kid; [right; eexists; split; [exact E2|lia]|exact Q|]. cbn [kids]. apply in_or_app. auto.
  - (* ITabSet *) pk s O v E1 I1. pp. set (s0 := with_stk s (stk s) (sz s - 1)) in *. assert (H0 : okE [] s0) by (apply okE_sp; [exact H|lia]).
    assert (Hz0 : sz s0 = (sz s - 1)%nat) by reflexivity. pk s0 O c E2 I2. pp. set (s1 := with_stk s0 (stk s0) (sz s0 - 1)) in *.
    assert (H1 : okE [] s1) by (apply okE_sp; [exact H0|lia]). assert (Hz : sz s1 = (sz s0 - 1)%nat) by reflexivity.
    pk s1 O x E3 I3. destruct (as_tab s1 x) as [[[a es] m]|] eqn:Q; [|eapply good_fail; exact H1]. apply as_tab_eq in Q. destruct Q as [-> Q].
    assert (Hins : good (if hashable (hp s1) c then do (h1, es1) <- tinsert (hp s1) es c v; do h2 <- set_body h1 a (OTab es1 m); fine (with_hp s1 h2) else fail s1 EType)).
    { destruct (hashable (hp s1) c); [|eapply good_fail; exact H1].
      destruct (tab_insert (hp s1) [] (places s1) a es m c v) as (h1 & h2 & h3 & X1 & X2 & W3 & _).
      - apply H1. - exact Q. - exact (in_stk_live _ _ _ H0 I2). - exact (in_stk_live _ _ _ H I1). - left. eapply stk_safe; eassumption.
      - intros Hc. pose proof (stk_safe _ _ _ H1 I3). lia.
      - rewrite X1. cbn [bind]. rewrite X2. cbn [bind]. apply good_fine. destruct H1 as (_ & H1). split; [exact W3|exact H1]. }
    destruct v; try exact Hins. destruct (hashable (hp s1) c); [|apply good_fine; exact H1]. clear Hins.
    destruct (change_good s1 a (OTab es m) (OTab (tput (hp s1) es c []) m) [] (olddowns (hp s1) es c) H1 Q I3) as (h1 & h2 & h3 & X1 & X2 & X3 & H3).
    { constructor. } { intros k. rewrite !kids_tab, cnt_nil, downs_cnt. pose proof (tput_cnt k (hp s1) es c []) as HT. change (flat []) with (@nil rv) in HT. rewrite cnt_nil in HT. destruct (tfind (hp s1) es c) as [[k0 v0]|]; lia. }
    cbn [mfold] in X1. injection X1 as <-. rewrite (tremove_folds _ _ _ _ X2). cbn [bind]. rewrite X3. cbn [bind]. apply good_fine. exact H3.
  - (* ITabClear *) pk s O x E1 I1. destruct (as_tab s x) as [[[a es] m]|] eqn:Q; [|eapply good_fail; exact H]. apply as_tab_eq in Q. destruct Q as [-> Q].
    destruct (W_inc (hp s) None [] (RP a) _ HW) as (h0 & -> & W0 & G0); [eapply in_stk_live; eassumption|]. cbn [bind].
    assert (Q0 : hget h0 a = Some (OTab es m)) by (rewrite (grown_hget _ _ _ G0); exact Q).
    destruct (change h0 [] (RP a :: places s) a (OTab es m) (OTab [] m) [] (flat es) W0 Q0) as (h1 & h2 & h3 & X1 & X2 & X3 & W3 & _).
    { constructor. } { left. rewrite cnt_cons, is_ref_self. lia. } { rewrite cnt_cons, is_ref_self. lia. } { intros k. rewrite !kids_tab, cnt_nil. change (flat []) with (@nil rv). rewrite cnt_nil. lia. }
    cbn [mfold] in X1. injection X1 as <-. rewrite X2. cbn [bind]. rewrite X3. cbn [bind].
    destruct (W_dec h3 None [] (RP a) _ W3 I) as (h4 & -> & W4 & _). cbn [bind]. pp. apply good_fine.
    split; [exact W4|]. split; [exact HL|]. split; [cbn [sz with_stk with_hp]; lia|exact HM].
  - (* ISetMt *) pk s O m E1 I1. destruct (as_tab s m) as [[[b es] mm]|] eqn:Q; [|apply good_fine; exact H]. apply as_tab_eq in Q. destruct Q as [-> Q]. pp.
    set (s1 := with_stk s (stk s) (sz s - 1)) in *. assert (H1 : okE [] s1) by (apply okE_sp; [exact H|lia]). assert (Hz : sz s1 = (sz s - 1)%nat) by reflexivity.
    pk s1 O x E2 I2. destruct x as [| |z|a]; try (apply good_fine; exact H1).
    destruct (as_str s1 (RP a)) eqn:QS; [apply good_fine; exact H1|].
    pose proof (in_stk_live _ _ _ H1 I2) as [o Ho].
    destruct (setmt_ok s1 [] (places s1) a o (Some b)) as (h' & -> & W1 & _).
    { apply H1. } { exact Ho. } { intros t ->. unfold as_str in QS. rewrite Ho in QS. discriminate. }
    { constructor; [|constructor]. exact (in_stk_live _ _ _ H I1). } { left. eapply stk_safe; eassumption. } { intros Hc. pose proof (stk_safe _ _ _ H1 I2). lia. }
    cbn [bind]. apply good_fine. destruct H1 as (_ & H1). split; [exact W1|exact H1].
Qed.
