(** * RefProofs5: O_NEWTABLE, every instruction, whole runs and vm_cleanup. *)
From Verif Require Import Base Refs RefSpec RefProofs RefProofs2 RefProofs3 RefProofs4.

Lemma first_snoc {A} (l X : list A) n x : firstn n l = X ++ [x] -> (n <= length l)%nat -> n = S (length X) /\ nth_error l (length X) = Some x /\ firstn (length X) l = X.
Proof.
  intros H Hn. assert (HL : length (firstn n l) = n) by (rewrite firstn_length; lia). rewrite H, app_length in HL. cbn in HL.
  split; [lia|]. split.
  - rewrite <- (nth_first l n) by lia. rewrite H, nth_error_app2, Nat.sub_diag by lia. reflexivity.
  - replace (length X) with (Nat.min (length X) n) at 1 by lia. rewrite <- firstn_firstn, H, firstn_app, firstn_all, Nat.sub_diag. cbn. apply app_nil_r.
Qed.

Lemma W_free h E L a o : W h (Some (a, o)) E L -> kids o = [] -> cnt a L = O -> count_of h a = 0 ->
  W (upd h a (Cell (count_of h a) None)) None E L.
Proof.
  intros (HI & HE & HV) HK HZ HC. destruct HV as [o0 H0]. pose proof (hget_len _ _ _ H0) as La.
  assert (Hl : forall x y, Some (a, o) = Some (x, y) -> live h x) by (intros ? ? [= <- <-]; exists o0; exact H0).
  assert (EG : G (upd h a (Cell (count_of h a) None)) = upd (gov h (Some (a, o))) a None) by (unfold G; rewrite upd_map; cbn [gov body]; rewrite upd_upd; reflexivity).
  destruct HI as [HL HI].
  assert (HT : forall i, tot (upd (gov h (Some (a, o))) a None) L i = tot (gov h (Some (a, o))) L i).
  { intros i. unfold tot. assert (Lg : (a < length (gov h (Some (a, o))))%nat) by (rewrite HL; exact La).
    pose proof (allkids_upd i (gov h (Some (a, o))) a None Lg) as X. rewrite gget_gov, Nat.eqb_refl in X by exact Hl. cbn [okids] in X. rewrite HK, cnt_nil in X. lia. }
  split; [|split; [|exact I]].
  - split; [cbn [gov]; rewrite G_len; reflexivity|]. intros i. cbn [gov]. rewrite EG, HT. specialize (HI i). destruct (Nat.eq_dec i a) as [->|N].
    + rewrite gget_upd_same by (rewrite HL; exact La). rewrite gget_gov, Nat.eqb_refl in HI by exact Hl. destruct HI as (o' & HI & _).
      unfold count_of in HC. rewrite HI in HC. cbn [refs] in HC. lia.
    + rewrite gget_upd_other, upd_other by auto. destruct (gget (gov h (Some (a, o))) i); [|exact HI]. destruct HI as (o' & HI & [[X|[]]|X]); [congruence|]. eauto.
  - intros i x Hx. destruct (Nat.eq_dec i a) as [->|N].
    + unfold hget in Hx. rewrite upd_same in Hx by exact La. discriminate.
    + unfold hget, count_of in *. rewrite upd_other in * by auto. apply (HE i x). exact Hx.
Qed.

Lemma count_inc h h1 a v k E L o : W h None E L -> hget h a = Some o -> cnt a L = O -> count_of h a = 0 -> is_ref a v = O -> is_ref a k = O ->
  livev h v -> livev h k -> mfold inc [v; k] h = Ok h1 -> count_of h1 a = 0.
Proof.
  intros HW Ha HZ HC Hv Hk Lv Lk E1. destruct (W_incs h None E [v; k] L HW) as (h1' & E1' & W1' & G1); [repeat constructor; assumption|].
  rewrite E1 in E1'. injection E1' as <-. rewrite (W_count _ _ _ _ W1') by (exists o; rewrite (grown_hget _ _ _ G1); exact Ha).
  rewrite (W_count _ _ _ _ HW) in HC by (eexists; exact Ha). rewrite (inside_G _ _ (grown_G _ _ G1)). cbn [app]. rewrite !cnt_cons. lia.
Qed.

Lemma table_loop_ok a pre : forall pairs fuel s es, okE [a] s -> firstn (sz s) (stk s) = pre ++ RE :: flat pairs -> Forall (fun e => snd e <> RE) pairs ->
  hget (hp s) a = Some (OTab es None) -> cnt a (places s) = O -> count_of (hp s) a = 0 -> (length pairs < fuel)%nat ->
  exists s' e, table_loop fuel s a = Ok (s', e) /\
    (e = None -> okE [a] s' /\ (exists es', hget (hp s') a = Some (OTab es' None)) /\ cnt a (places s') = O /\ count_of (hp s') a = 0 /\ (1 <= sz s')%nat) /\
    okE [a] s'.
Proof.
  induction pairs as [|[k v] ps IH] using rev_ind; intros fuel s es H Hst Hne Ha HZ HC HF; (destruct fuel as [|f]; [lia|]); cbn [table_loop].
  - pose proof H as (HW & HL & HS & HM). destruct (first_snoc _ _ _ _ Hst ltac:(lia)) as (A & B & _).
    destruct (peek_ok s 0 HL HS ltac:(lia)) as (t & -> & Et & _). cbn [bind]. replace (sz s - 1 - 0)%nat with (length pre) in Et by lia.
    assert (t = RE) by congruence. subst t. exists s, None. split; [reflexivity|]. split; [|exact H]. intros _. split; [exact H|]. split; [eauto|]. split; [exact HZ|]. split; [exact HC|lia].
  - pose proof H as (HW & HL & HS & HM). apply Forall_app in Hne. destruct Hne as [Hne Hv]. inversion Hv as [|? ? Hv1 _]; subst. cbn in Hv1.
    rewrite flat_app in Hst. cbn [flat flat_map app fst snd] in Hst. fold (flat ps) in Hst.
    assert (S1 : firstn (sz s) (stk s) = (pre ++ RE :: flat ps ++ [k]) ++ [v]) by (rewrite Hst, <- !app_assoc; cbn [app]; rewrite <- !app_assoc; reflexivity).
    destruct (first_snoc _ _ _ _ S1 ltac:(lia)) as (A1 & B1 & C1).
    assert (C1' : firstn (sz s - 1) (stk s) = (pre ++ RE :: flat ps) ++ [k]) by (replace (sz s - 1)%nat with (length (pre ++ RE :: flat ps ++ [k])) by lia; rewrite C1, <- app_assoc; reflexivity).
    destruct (first_snoc _ _ _ _ C1' ltac:(lia)) as (A2 & B2 & C2).
    assert (C2' : firstn (sz s - 1 - 1) (stk s) = pre ++ RE :: flat ps) by (replace (sz s - 1 - 1)%nat with (length (pre ++ RE :: flat ps)) by lia; exact C2).
    destruct (peek_ok s 0 HL HS ltac:(lia)) as (t & -> & Et & Hti). cbn [bind].
    assert (t = v) by (replace (sz s - 1 - 0)%nat with (length (pre ++ RE :: flat ps ++ [k])) in Et by lia; congruence). subst t. clear Et.
    rewrite popn_ok by lia. cbn [bind].
    set (s1 := with_stk s (stk s) (sz s - 1)).
    destruct (peek_ok s1 0 HL ltac:(cbn [s1 sz with_stk]; lia) ltac:(cbn [s1 sz with_stk]; lia)) as (t & -> & Et & Hki). cbn [bind].
    assert (t = k) by (cbn [s1 sz stk with_stk] in Et; replace (sz s - 1 - 1 - 0)%nat with (length (pre ++ RE :: flat ps)) in Et by lia; congruence). subst t. clear Et.
    rewrite popn_ok by (cbn [s1 sz with_stk]; lia). cbn [bind].
    set (s2 := with_stk s1 (stk s1) (sz s1 - 1)).
    assert (H2 : okE [a] s2) by (apply okE_sp; [apply okE_sp; [exact H|lia]|cbn [s1 sz with_stk]; lia]).
    assert (Lv : livev (hp s2) v /\ is_ref a v = O).
    { assert (In v (places s)) by (rewrite places_stk; apply in_or_app; auto). split; [exact (W_livev _ _ _ _ HW H0)|].
      destruct v as [| |z|b]; cbn; auto. destruct (Nat.eqb_spec a b) as [->|]; [|auto]. apply cnt_in in H0. lia. }
    assert (Lk : livev (hp s2) k /\ is_ref a k = O).
    { assert (In k (places s)) by (rewrite places_stk; apply in_or_app; auto). split; [exact (W_livev _ _ _ _ HW H0)|].
      destruct k as [| |z|b]; cbn; auto. destruct (Nat.eqb_spec a b) as [->|]; [|auto]. apply cnt_in in H0. lia. }
    destruct Lv as [Lv Nv], Lk as [Lk Nk].
    assert (HI0 : cnt a (inside (hp s)) = O) by (rewrite (W_count _ _ _ _ HW) in HC by (eexists; exact Ha); lia).
    rewrite app_length in HF. cbn in HF.
    assert (Ha2 : hget (hp s2) a = Some (OTab es None)) by exact Ha.
    assert (Gen : exists s' e, match hget (hp s2) a with
        | Some (OTab es m) =>
            if hashable (hp s2) k
            then do (h1, es1) <- tinsert (hp s2) es k v; do h2 <- set_body h1 a (OTab es1 m); table_loop f (with_hp s2 h2) a
            else do h1 <- mfold dec (flat es) (hp s2); match nth_error h1 a with Some (Cell r (Some _)) => fail (with_hp s2 (upd h1 a (Cell r None))) EType | _ => UB end
        | _ => UB end = Ok (s', e) /\ (e = None -> okE [a] s' /\ (exists es', hget (hp s') a = Some (OTab es' None)) /\ cnt a (places s') = O /\ count_of (hp s') a = 0 /\ (1 <= sz s')%nat) /\ okE [a] s').
    { rewrite Ha2. destruct (hashable (hp s2) k) eqn:Hh.
      - destruct (tab_insert (hp s2) [a] (places s) a es None k v HW Ha2 Lk Lv) as (h1 & h2 & h3 & -> & E3 & W3 & L3 & B3 & C3 & E1); [right; cbn [s2 s1 hp with_stk]; lia|lia|].
        cbn [bind]. rewrite E3. cbn [bind].
        assert (Z1 : count_of h1 a = 0) by exact (count_inc (hp s2) h1 a v k [a] (places s) _ HW Ha2 HZ HC Nv Nk Lv Lk E1).
        eapply (IH f (with_hp s2 h3)).
        + split; [exact W3|]. split; [exact HL|]. split; [cbn [sz with_hp with_stk s2 s1]; lia|exact HM].
        + cbn [sz stk with_hp s2 s1 with_stk]. exact C2'.
        + exact Hne.
        + exact B3.
        + exact HZ.
        + cbn [hp with_hp]. assert (0 <= count_of h3 a) by (rewrite (W_count _ _ _ _ W3) by (eexists; exact B3); lia). lia.
        + lia.
      - pose proof (W_begin (hp s2) [a] (places s) (flat es ++ places s) a (OTab es None) (OTab [] None) HW Ha2) as WB.
        destruct (W_decs (hp s2) (Some (a, OTab [] None)) [a] (flat es) (places s)) as (h1 & -> & W1 & S1'); [|right; exact HC|].
        { apply WB. intros i. rewrite !kids_tab, cnt_app. change (flat []) with (@nil rv). rewrite !cnt_nil. lia. }
        cbn [bind].
        assert (B1' : hget h1 a = Some (OTab es None)) by (rewrite (shrink_zero _ _ a S1' HC); exact Ha2).
        assert (Hc1 : count_of h1 a = 0).
        { destruct S1' as [_ S1']. destruct (S1' a) as [_ X]. specialize (X ltac:(congruence)).
          assert (Y : 0 <= count_of h1 a).
          { destruct (W_end h1 [a] (places s) a (OTab [] None)) as (h3 & _ & W3 & _ & C3 & B3 & _); [assumption|].
            rewrite <- C3, (W_count _ _ _ _ W3) by (eexists; exact B3). lia. }
          cbn [s2 s1 hp with_stk] in X. lia. }
        pose proof B1' as B1''. unfold hget in B1''. destruct (nth_error h1 a) as [[r b]|] eqn:Q; [|discriminate]. cbn in B1''. subst b.
        unfold count_of in Hc1. rewrite Q in Hc1. cbn in Hc1. subst r.
        eexists _, (Some EType). split; [reflexivity|]. split; [discriminate|]. split; [|split; [exact HL|split; [cbn [sz with_hp with_stk s2 s1]; lia|exact HM]]].
        cbn [hp with_hp]. change (places (with_hp s2 (upd h1 a (Cell 0 None)))) with (places s).
        replace 0 with (count_of h1 a) at 1 by (unfold count_of; rewrite Q; reflexivity).
        eapply W_free; [exact W1|reflexivity|exact HZ|unfold count_of; rewrite Q; reflexivity]. }
    destruct v as [| |z|b]; [|contradiction| |]; try exact Gen.
    eapply (IH f s2 es).
    + exact H2.
    + exact C2'.
    + exact Hne.
    + exact Ha2.
    + exact HZ.
    + exact HC.
    + lia.
Qed.

Lemma flat_length ps : length (flat ps) = (2 * length ps)%nat.
Proof. induction ps as [|e r IH]; [reflexivity|]. cbn [flat flat_map length app]. fold (flat r). rewrite IH. lia. Qed.
Lemma new_table_good s pre pairs : okE [] s -> firstn (sz s) (stk s) = pre ++ RE :: flat pairs -> Forall (fun e => snd e <> RE) pairs -> good (new_table s).
Proof.
  intros H Hst Hne. pose proof H as (HW & HL & HS & HM). unfold new_table, alloc. set (a := length (hp s)). set (s1 := with_hp s _).
  assert (W0 : W (hp s1) None [a] (places s)) by (apply W_alloc; [exact HW|reflexivity]).
  pose proof (fresh_unref _ _ _ HW) as Fr. fold a in Fr.
  assert (B0 : hget (hp s1) a = Some (OTab [] None)) by apply hget_app_new.
  assert (C0 : count_of (hp s1) a = 0).
  { unfold count_of, s1, a. cbn [hp with_hp]. rewrite nth_error_app2, Nat.sub_diag by lia. reflexivity. }
  assert (HF : (length pairs < S (sz s))%nat).
  { assert (X : length (firstn (sz s) (stk s)) = sz s) by (rewrite firstn_length; lia). rewrite Hst, app_length in X. cbn [length] in X. rewrite flat_length in X. lia. }
  destruct (table_loop_ok a pre pairs (S (sz s)) s1 []) as (s2 & e & -> & H2 & H3); try assumption.
  - split; [exact W0|]. auto.
  - change (places s1) with (places s). lia.
  - unfold andthen. cbn [bind]. destruct e as [e|]; [eapply good_fail1; exact H3|].
    destruct (H2 eq_refl) as (K1 & [es' K2] & K3 & K4 & K5). clear H2 H3. pose proof K1 as (W2 & L2 & S2 & M2).
    assert (LM : livev (hp s2) (RP TABLE_MT)).
    { eapply W_livev; [exact W2|]. unfold places. rewrite M2. do 4 (apply in_or_app; right). right. left. reflexivity. }
    assert (NM : is_ref a (RP TABLE_MT) = O).
    { cbn. destruct (Nat.eqb_spec a TABLE_MT) as [E|]; [|auto]. exfalso. assert (X : In (RP a) (places s2)). { unfold places. rewrite M2. do 4 (apply in_or_app; right). right. left. rewrite E. reflexivity. }
      apply cnt_in in X. lia. }
    destruct (setmt_ok s2 [a] (places s2) a (OTab es' None) (Some TABLE_MT)) as (h1 & E1 & W1 & L1 & B1 & C1 & _).
    + exact W2.
    + exact K2.
    + discriminate.
    + constructor; [exact LM|constructor].
    + right. rewrite (W_count _ _ _ _ W2) in K4 by (eexists; exact K2). lia.
    + intros _. cbn [of_mt]. rewrite cnt_cons, cnt_nil, NM. reflexivity.
    + rewrite E1. cbn [bind]. rewrite popn_ok by exact K5. cbn [bind]. apply push_fresh.
      * apply okE_sp; [|cbn [sz with_hp]; lia]. split; [exact W1|]. auto.
      * cbn [hp with_stk with_hp]. congruence.
      * cbn [hp with_stk with_hp]. apply C1. exact K3.
Qed.

Lemma above_end_in : forall rl items, above_end rl = Some items -> (length items < length rl)%nat /\ incl items rl.
Proof.
  induction rl as [|v r IH]; cbn [above_end]; [discriminate|]. intros items H.
  assert (G : forall l, above_end r = Some l -> items = l ++ [v] -> (length items < length (v :: r))%nat /\ incl items (v :: r)).
  { intros l Hl ->. destruct (IH l Hl) as [A B]. rewrite app_length. cbn. split; [lia|]. intros x Hx. apply in_app_or in Hx. destruct Hx as [Hx|[<-|[]]]; [right; auto|left; auto]. }
  destruct v; try (destruct (above_end r) eqn:Q; [|discriminate]; injection H as <-; eapply G; eauto).
  injection H as <-. cbn. split; [lia|]. intros x [].
Qed.
Lemma above_end_some rl : In RE rl -> exists items, above_end rl = Some items.
Proof.
  induction rl as [|v r IH]; [intros []|]. intros H. cbn [above_end]. destruct v; try (destruct H as [H|H]; [discriminate|destruct (IH H) as [l ->]; eauto]). eauto.
Qed.
Lemma new_list_good s : okE [] s -> In RE (firstn (sz s) (stk s)) -> good (new_list s).
Proof.
  intros H HE. pose proof H as (HW & HL & HS & HM). unfold new_list. destruct (above_end_some (rev (firstn (sz s) (stk s)))) as [items Hi].
  { apply in_rev in HE. exact HE. }
  rewrite Hi. destruct (above_end_in _ _ Hi) as [A B]. rewrite rev_length, firstn_length in A.
  apply push_newlist; [exact H| |lia]. apply Forall_forall. intros x Hx. eapply W_livev; [exact HW|]. rewrite places_stk. apply in_or_app. left.
  apply B in Hx. apply in_rev in Hx. rewrite <- (firstn_skipn (sz s) (stk s)). apply in_or_app. auto.
Qed.

Lemma okE_loops s r : okE [] s -> (forall i, cnt i (map fst r) = cnt i (map fst (loops s))) -> okE [] (with_loops s r).
Proof.
  intros (HW & HL & HS & HM) H. split; [|auto]. eapply W_ext; [|exact HW]. intros i. unfold places. cbn [with_loops stk loops cons_ globs mts].
  rewrite !cnt_app, H. lia.
Qed.
Lemma iter_push_good s r it i x : okE [] s -> loops s = (it, i) :: r ->
  (forall v, x = Some v -> forall j, survives (with_loops s ((it, j) :: r)) v) -> good (iter_push s r it i x).
Proof.
  intros H Hl Hx. unfold iter_push. destruct x as [v|].
  - apply good_then; [|intros s1 H1; apply push_good; [exact H1|apply surv_unboxed; exact I]].
    apply push_good; [|apply Hx; reflexivity]. apply okE_loops; [exact H|]. intros k. rewrite Hl. reflexivity.
  - apply push_good; [exact H|]. apply surv_unboxed. exact I.
Qed.
Lemma iter1_good s : okE [] s -> loops s <> [] -> good (iter1 s).
Proof.
  intros H Hne. pose proof H as (HW & HL & HS & HM). unfold iter1. destruct (loops s) as [|[it i] r] eqn:El; [contradiction|].
  destruct it as [| |z|a]; try (eapply good_fail; exact H).
  assert (Hin : forall j, In (RP a) (rest (with_loops s ((RP a, j) :: r)))) by (intros j; cbn; auto).
  assert (La : livev (hp s) (RP a)). { eapply W_livev; [exact HW|]. rewrite places_stk. apply in_or_app. right. unfold rest. rewrite El. left. reflexivity. }
  destruct La as [o Ho]. rewrite Ho. destruct o as [t|l m|es m].
  - destruct (nth_error t i) as [b|] eqn:Q; [|apply push_good; [exact H|apply surv_unboxed; exact I]].
    unfold alloc. cbn [iter_push]. set (h0 := hp s ++ _). set (a' := length (hp s)).
    assert (W0 : W h0 None [a'] (places s)) by (apply W_alloc; [exact HW|reflexivity]).
    apply good_then; [|intros s1 H1; apply push_good; [exact H1|apply surv_unboxed; exact I]].
    apply push_fresh.
    + split; [|auto]. eapply W_ext; [|exact W0]. intros k. unfold places. cbn [with_loops with_hp stk loops cons_ globs mts]. rewrite El. reflexivity.
    + cbn [hp with_loops with_hp]. unfold h0, a'. rewrite hget_app_new. discriminate.
    + cbn [hp with_loops with_hp]. unfold h0, a', count_of. rewrite nth_error_app2, Nat.sub_diag by lia. reflexivity.
  - apply iter_push_good; [exact H|exact El|]. intros v Hv j. eapply surv_kid with (a := a); [left; apply Hin|exact Ho|]. cbn [kids]. apply in_or_app. right. eapply nth_error_In; exact Hv.
  - apply iter_push_good; [exact H|exact El|]. intros v Hv j. eapply surv_kid with (a := a); [left; apply Hin|exact Ho|]. cbn [kids]. apply in_or_app. right.
    destruct (nth_error es i) as [[k w]|] eqn:Q; [|discriminate]. injection Hv as <-. cbn [fst]. apply nth_error_In in Q. unfold flat. apply in_flat_map. exists (k, w). split; [exact Q|]. cbn. auto.
Qed.
