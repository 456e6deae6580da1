(** * RefProofs4: operations on lists and tables, and every instruction. *)
From Verif Require Import Base Refs RefSpec RefProofs RefProofs2 RefProofs3.

Lemma upd_comm {A} (h : list A) a b x y : a <> b -> upd (upd h a x) b y = upd (upd h b y) a x.
Proof. revert a b. induction h as [|z r IH]; intros [|a] [|b] N; cbn; auto; [congruence|]. f_equal. apply IH. congruence. Qed.
Lemma inside_G h h' : G h' = G h -> inside h' = inside h.
Proof. intros H. rewrite <- !allkids_G, H. reflexivity. Qed.
Lemma grown_G h h' : grown h h' -> G h' = G h.
Proof. intros [A B]. apply list_ext_gget; [rewrite !G_len; exact A|]. intros i. rewrite !gget_G. apply B. Qed.
Lemma grown_hget h h' i : grown h h' -> hget h' i = hget h i. Proof. intros [_ B]. apply B. Qed.
Lemma grown_livev h h' v : grown h h' -> livev h v -> livev h' v.
Proof. intros H. destruct v; cbn; auto. intros [o X]. exists o. rewrite (grown_hget _ _ _ H). exact X. Qed.
Lemma grown_trans h h1 h2 : grown h h1 -> grown h1 h2 -> grown h h2.
Proof. intros [A B] [C D]. split; [congruence|]. intros i. destruct (B i), (D i). split; [congruence|lia]. Qed.
Lemma grown_refl h : grown h h. Proof. split; [auto|]. intros i. split; [auto|lia]. Qed.

(** An object that a change of contents may not free: referenced from outside, or not referenced at all. *)
Definition safe_in (h : heap) (L : list rv) (a : nat) : Prop := (0 < cnt a L)%nat \/ (cnt a L + cnt a (inside h) = 0)%nat.

(** Exchanging the contents of a live object: [ups] are counted, [downs] released. *)
Lemma change h E L a o0 o ups downs : W h None E L -> hget h a = Some o0 -> Forall (livev h) ups -> safe_in h L a ->
  (cnt a L = 0 -> cnt a ups = 0)%nat ->
  (forall i, cnt i downs + cnt i (kids o) = cnt i ups + cnt i (kids o0))%nat ->
  exists h1 h2 h3, mfold inc ups h = Ok h1 /\ mfold dec downs h1 = Ok h2 /\ set_body h2 a o = Ok h3 /\ W h3 None E L /\ length h3 = length h /\
    hget h3 a = Some o /\ count_of h3 a <= count_of h1 a /\ grown h h1 /\ shrink h1 h2 /\ (forall i, i <> a -> hget h3 i = hget h2 i).
Proof.
  intros HW Ha HU HS HZ HC. destruct (W_incs h None E ups L HW HU) as (h1 & E1 & W1 & G1).
  assert (Ha1 : hget h1 a = Some o0) by (rewrite (grown_hget _ _ _ G1); exact Ha).
  pose proof (W_begin h1 E (ups ++ L) (downs ++ L) a o0 o W1 Ha1) as WB.
  destruct (W_decs h1 (Some (a, o)) E downs L) as (h2 & E2 & W2 & S2).
  - apply WB. intros i. rewrite !cnt_app. specialize (HC i). lia.
  - destruct HS as [HS|HS]; [auto|right]. rewrite (W_count _ _ _ _ W1) by (exists o0; exact Ha1). rewrite (inside_G h h1 (grown_G _ _ G1)), cnt_app. lia.
  - destruct (W_end h2 E L a o W2) as (h3 & E3 & W3 & L3 & C3 & B3 & B4). exists h1, h2, h3.
    split; [exact E1|]. split; [exact E2|]. split; [exact E3|]. split; [exact W3|].
    assert (LL : length h3 = length h) by (destruct G1 as [G1 _], S2 as [S2 _]; congruence).
    split; [exact LL|]. split; [exact B3|]. split.
    { rewrite C3. destruct S2 as [_ S2]. destruct (S2 a) as [_ S3]. apply S3. destruct W2 as (_ & _ & [x Hx]). congruence. }
    split; [exact G1|]. split; [exact S2|exact B4].
Qed.

Lemma flat_app e f : flat (e ++ f) = flat e ++ flat f. Proof. apply flat_map_app. Qed.
Lemma tput_cnt i h es k n :
  (cnt i (flat (tput h es k n)) + match tfind h es k with Some (k0, v0) => is_ref i k0 + is_ref i v0 | None => 0 end = cnt i (flat es) + cnt i (flat n))%nat.
Proof.
  induction es as [|[k1 v1] r IH]; cbn [tput tfind fst]; [cbn; lia|].
  destruct (keq h k1 k).
  - rewrite flat_app, cnt_app. change (flat ((k1, v1) :: r)) with ([k1; v1] ++ flat r). rewrite cnt_app, !cnt_cons, cnt_nil. lia.
  - change (flat ((k1, v1) :: tput h r k n)) with ([k1; v1] ++ flat (tput h r k n)). change (flat ((k1, v1) :: r)) with ([k1; v1] ++ flat r).
    rewrite !cnt_app. lia.
Qed.
Lemma tfind_none h es k n : tfind h es k = None -> tput h es k n = es ++ n.
Proof. induction es as [|e r IH]; cbn [tfind tput]; [reflexivity|]. destruct (keq h (fst e) k); [discriminate|]. intros H. cbn [app]. f_equal. apply IH. exact H. Qed.
Lemma tfind_in h es k e : tfind h es k = Some e -> In (snd e) (flat es).
Proof.
  induction es as [|x r IH]; cbn [tfind]; [discriminate|]. destruct (keq h (fst x) k).
  - intros [= ->]. cbn. auto.
  - intros H. cbn. right. right. apply IH. exact H.
Qed.

Definition olddowns (h : heap) (es : list (rv * rv)) (k : rv) : list rv := match tfind h es k with Some (k0, v0) => [k0; v0] | None => [] end.
Lemma tinsert_folds h es k v h1 h2 : mfold inc [v; k] h = Ok h1 -> mfold dec (olddowns h es k) h1 = Ok h2 ->
  tinsert h es k v = Ok (h2, tput h es k [(k, v)]).
Proof.
  unfold tinsert, olddowns. cbn [mfold]. intros H1 H2. destruct (inc h v) as [x| | |]; try discriminate. cbn [bind] in *.
  destruct (inc x k) as [y| | |]; try discriminate. cbn [bind] in *. injection H1 as ->.
  destruct (tfind h es k) as [[k0 v0]|]; cbn [mfold] in H2.
  - destruct (dec h1 k0) as [z| | |]; try discriminate. cbn [bind] in *. destruct (dec z v0) as [w| | |]; try discriminate. cbn [bind] in *. congruence.
  - congruence.
Qed.
Lemma tremove_folds h es k h2 : mfold dec (olddowns h es k) h = Ok h2 -> tremove h es k = Ok (h2, tput h es k []).
Proof.
  unfold tremove, olddowns. intros H2. destruct (tfind h es k) as [[k0 v0]|] eqn:Q; cbn [mfold] in H2.
  - destruct (dec h k0) as [z| | |]; try discriminate. cbn [bind] in *. destruct (dec z v0) as [w| | |]; try discriminate. cbn [bind] in *. congruence.
  - rewrite (tfind_none _ _ _ _ Q), app_nil_r. congruence.
Qed.
Lemma kids_tab i es m : cnt i (kids (OTab es m)) = (cnt i (of_mt m) + cnt i (flat es))%nat. Proof. cbn [kids]. apply cnt_app. Qed.
Lemma kids_list i l m : cnt i (kids (OList l m)) = (cnt i (of_mt m) + cnt i l)%nat. Proof. cbn [kids]. apply cnt_app. Qed.
Lemma downs_cnt i h es k : cnt i (olddowns h es k) = match tfind h es k with Some (k0, v0) => (is_ref i k0 + is_ref i v0)%nat | None => O end.
Proof. unfold olddowns. destruct (tfind h es k) as [[k0 v0]|]; [|reflexivity]. rewrite !cnt_cons, cnt_nil. lia. Qed.

Lemma tab_insert h E L a es m k v : W h None E L -> hget h a = Some (OTab es m) -> livev h k -> livev h v -> safe_in h L a ->
  (cnt a L = 0 -> is_ref a k + is_ref a v = 0)%nat ->
  exists h1 h2 h3, tinsert h es k v = Ok (h2, tput h es k [(k, v)]) /\ set_body h2 a (OTab (tput h es k [(k, v)]) m) = Ok h3 /\ W h3 None E L /\
    length h3 = length h /\ hget h3 a = Some (OTab (tput h es k [(k, v)]) m) /\ count_of h3 a <= count_of h1 a /\ mfold inc [v; k] h = Ok h1.
Proof.
  intros HW Ha Hk Hv HS HZ.
  destruct (change h E L a (OTab es m) (OTab (tput h es k [(k, v)]) m) [v; k] (olddowns h es k) HW Ha) as (h1 & h2 & h3 & E1 & E2 & E3 & W3 & L3 & B3 & C3 & _).
  - repeat constructor; assumption.
  - exact HS.
  - rewrite !cnt_cons, cnt_nil. lia.
  - intros i. rewrite downs_cnt, !kids_tab, !cnt_cons, cnt_nil. pose proof (tput_cnt i h es k [(k, v)]) as X.
    change (flat [(k, v)]) with [k; v] in X. rewrite !cnt_cons, cnt_nil in X. lia.
  - exists h1, h2, h3. split; [eapply tinsert_folds; eassumption|]. auto 10.
Qed.

(** set_body and inc do not interfere: YASL_List_append stores first. *)
Lemma append_ok s E L a l m v : W (hp s) None E L -> hget (hp s) a = Some (OList l m) -> livev (hp s) v -> safe_in (hp s) L a ->
  (cnt a L = 0 -> is_ref a v = 0)%nat ->
  exists h', append s a v = Ok (with_hp s h') /\ W h' None E L /\ length h' = length (hp s) /\ hget h' a = Some (OList (l ++ [v]) m) /\
    (forall i, hget h' i <> None <-> hget (hp s) i <> None).
Proof.
  intros HW Ha Hv HS HZ.
  destruct (change (hp s) E L a (OList l m) (OList (l ++ [v]) m) [v] [] HW Ha) as (h1 & h2 & h3 & E1 & E2 & E3 & W3 & L3 & B3 & C3 & G1 & S2 & B4).
  - repeat constructor; assumption.
  - exact HS.
  - rewrite cnt_cons, cnt_nil. lia.
  - intros i. rewrite !kids_list, cnt_app, cnt_nil. lia.
  - cbn [mfold] in E2. injection E2 as <-. exists h3. split; [|split; [exact W3|split; [exact L3|split; [exact B3|]]]].
    + unfold append. rewrite Ha. cbn [mfold] in E1.
      assert (X : exists c, nth_error (hp s) a = Some (Cell c (Some (OList l m)))).
      { unfold hget in Ha. destruct (nth_error (hp s) a) as [[r b]|] eqn:Q; [|discriminate]. cbn in Ha. subst b. eauto. }
      destruct X as [c Hc]. unfold set_body at 1. rewrite Hc. cbn [bind].
      assert (La : (a < length (hp s))%nat) by (eapply nth_some; exact Hc).
      destruct (inc (hp s) v) as [hi| | |] eqn:Ei; try discriminate. cbn [bind] in E1. injection E1 as ->.
      destruct v as [| |z|b]; cbn [inc] in Ei |- *; try (injection Ei as <-; unfold set_body in E3; rewrite Hc in E3; injection E3 as <-; reflexivity).
      destruct (Nat.eq_dec b a) as [->|N].
      * rewrite Hc in Ei. injection Ei as <-. rewrite upd_same by exact La. cbn [bind]. rewrite upd_upd.
        unfold set_body in E3. rewrite upd_same in E3 by exact La. rewrite upd_upd in E3. injection E3 as <-. reflexivity.
      * rewrite upd_other by auto. destruct (nth_error (hp s) b) as [[rb [ob|]]|] eqn:Qb; try discriminate. injection Ei as <-. cbn [bind].
        unfold set_body in E3. rewrite upd_other in E3 by auto. rewrite Hc in E3. injection E3 as <-. f_equal. f_equal.
        apply upd_comm. congruence.
    + intros i. destruct (Nat.eq_dec i a) as [->|N]; [rewrite B3, Ha; split; discriminate|]. rewrite B4 by exact N. rewrite (grown_hget _ _ _ G1). tauto.
Qed.
Lemma with_hp_hp s h h' : with_hp (with_hp s h) h' = with_hp s h'. Proof. reflexivity. Qed.
Lemma with_hp_id s : with_hp s (hp s) = s. Proof. destruct s; reflexivity. Qed.

Lemma safe_zero h L a : cnt a L = O -> safe_in h L a -> (cnt a (inside h) = 0)%nat.
Proof. intros H [X|X]; lia. Qed.

(** Appending values that are held from outside to a new list. *)
Lemma appends E L a : forall items s l m, W (hp s) None E L -> hget (hp s) a = Some (OList l m) -> cnt a L = O -> cnt a (inside (hp s)) = O ->
  Forall (livev (hp s)) items -> Forall (fun v => is_ref a v = O) items ->
  exists h', mfold (fun s x => append s a x) items s = Ok (with_hp s h') /\ W h' None E L /\ length h' = length (hp s) /\
    hget h' a = Some (OList (l ++ items) m) /\ count_of h' a = 0.
Proof.
  induction items as [|v r IH]; intros s l m HW Ha HZ HI HL HN.
  - exists (hp s). cbn [mfold]. rewrite with_hp_id, app_nil_r. split; [reflexivity|]. split; [exact HW|]. split; [reflexivity|]. split; [exact Ha|].
    rewrite (W_count _ _ _ _ HW) by (exists (OList l m); exact Ha). lia.
  - inversion HL as [|? ? H1 H2]; subst. inversion HN as [|? ? N1 N2]; subst.
    destruct (append_ok s E L a l m v HW Ha H1) as (h' & E1 & W1 & L1 & B1 & K1); [right; lia|auto|].
    cbn [mfold]. rewrite E1. cbn [bind].
    destruct (IH (with_hp s h') (l ++ [v]) m) as (h2 & E2 & W2 & L2 & B2 & C2).
    + exact W1.
    + exact B1.
    + exact HZ.
    + cbn [hp with_hp]. (* nothing refers to the new list *)
      assert (HC : (cnt a (inside h') = cnt a (inside (hp s)) + is_ref a v)%nat).
      { clear IH. unfold append in E1. rewrite Ha in E1. unfold set_body in E1. destruct (nth_error (hp s) a) as [[rr [bb|]]|] eqn:Q; cbn [bind] in E1; try discriminate.
        assert (La : (a < length (hp s))%nat) by (eapply nth_some; exact Q).
        assert (Hb : bb = OList l m) by (unfold hget in Ha; rewrite Q in Ha; cbn in Ha; congruence). subst bb.
        set (hh := upd (hp s) a (Cell rr (Some (OList (l ++ [v]) m)))) in *.
        destruct (inc hh v) as [h3| | |] eqn:Ei; cbn [bind] in E1; try discriminate. injection E1 as E1.
        assert (EG : G h3 = G hh).
        { clear - Ei. destruct v as [| |z|b]; cbn [inc] in Ei; try (injection Ei as <-; reflexivity).
          destruct (nth_error hh b) as [[rb [ob|]]|] eqn:Qb; try discriminate. injection Ei as <-.
          apply list_ext_gget; [rewrite !G_len, upd_len; reflexivity|]. intros i. rewrite !gget_G. unfold hget. destruct (Nat.eq_dec i b) as [->|N].
          - rewrite upd_same by (eapply nth_some; exact Qb). rewrite Qb. reflexivity.
          - rewrite upd_other by auto. reflexivity. }
        subst h3. rewrite <- !allkids_G, EG. unfold hh, G. rewrite upd_map. fold (G (hp s)).
        pose proof (allkids_upd a (G (hp s)) a (Some (OList (l ++ [v]) m)) ltac:(rewrite G_len; exact La)) as X.
        rewrite gget_G, Ha in X. cbn [okids body] in X |- *. rewrite !kids_list, cnt_app in X. rewrite cnt_cons, cnt_nil in X. lia. }
      lia.
    + cbn [hp with_hp]. eapply Forall_impl; [|exact H2]. intros w Hw. destruct w as [| |z|b]; cbn in *; auto. destruct Hw as [ow Hw].
      assert (X : hget h' b <> None) by (apply K1; congruence). destruct (hget h' b) as [o|] eqn:Q; [exists o; exact Q|contradiction].
    + exact N2.
    + exists h2. split; [exact E2|]. split; [exact W2|]. split; [cbn [hp with_hp] in L2; congruence|]. split; [rewrite <- app_assoc in B2; exact B2|exact C2].
Qed.

Lemma setmt_ok s E L a o m : W (hp s) None E L -> hget (hp s) a = Some o -> (forall t, o <> OStr t) -> Forall (livev (hp s)) (of_mt m) -> safe_in (hp s) L a ->
  (cnt a L = 0 -> cnt a (of_mt m) = 0)%nat ->
  exists h', setmt s a m = Ok (with_hp s h') /\ W h' None E L /\ length h' = length (hp s) /\ hget h' a = Some (setmt_obj o m) /\
    (cnt a L = O -> count_of h' a = 0) /\ (mt_of o = None -> forall i, hget h' i <> None <-> hget (hp s) i <> None).
Proof.
  intros HW Ha Ho Hm HS HZ.
  destruct (change (hp s) E L a o (setmt_obj o m) (of_mt m) (of_mt (mt_of o)) HW Ha Hm HS HZ) as (h1 & h2 & h3 & E1 & E2 & E3 & W3 & L3 & B3 & C3 & G1 & S2 & B4).
  - intros i. destruct o as [t|l m0|es m0]; [exfalso; eapply Ho; reflexivity| |]; cbn [setmt_obj mt_of]; rewrite ?kids_list, ?kids_tab; lia.
  - exists h3. split; [unfold setmt; rewrite Ha, E1; cbn [bind]; rewrite E2; cbn [bind]; rewrite E3; reflexivity|].
    split; [exact W3|]. split; [exact L3|]. split; [exact B3|]. split.
    + intros Z0. specialize (HZ Z0). pose proof (safe_zero _ _ _ Z0 HS) as HI.
      assert (X : count_of h1 a = 0).
      { destruct (W_incs (hp s) None E (of_mt m) L HW Hm) as (h1' & E1' & W1' & _). rewrite E1 in E1'. injection E1' as <-.
        rewrite (W_count _ _ _ _ W1') by (exists o; rewrite (grown_hget _ _ _ G1); exact Ha). rewrite (inside_G _ _ (grown_G _ _ G1)), cnt_app. lia. }
      assert (Y : 0 <= count_of h3 a) by (rewrite (W_count _ _ _ _ W3) by (eexists; exact B3); lia). lia.
    + intros N i. rewrite N in E2. cbn [of_mt mfold] in E2. injection E2 as <-. destruct (Nat.eq_dec i a) as [->|Ni]; [rewrite B3, Ha; split; discriminate|].
      rewrite B4 by exact Ni. rewrite (grown_hget _ _ _ G1). tauto.
Qed.

Lemma fresh_unref h E L : W h None E L -> (cnt (length h) L + cnt (length h) (inside h) = 0)%nat.
Proof.
  intros HW. destruct (Nat.eq_dec (cnt (length h) L + cnt (length h) (inside h)) 0) as [X|X]; [exact X|].
  destruct (W_live h E L (length h) HW ltac:(lia)) as [o Ho]. apply hget_len in Ho. lia.
Qed.
Lemma inside_app h o : inside (h ++ [Cell 0 (Some o)]) = inside h ++ kids o.
Proof. unfold inside. rewrite flat_map_app. cbn. rewrite app_nil_r. reflexivity. Qed.

(** A new list holding [items], which are held from outside or by a live object. *)
Lemma newlist_ok s items : okE [] s -> Forall (livev (hp s)) items ->
  exists h', newlist s items = Ok (with_hp s h', RP (length (hp s))) /\ okE [length (hp s)] (with_hp s h') /\
    hget h' (length (hp s)) = Some (OList items (Some LIST_MT)) /\ count_of h' (length (hp s)) = 0.
Proof.
  intros (HW & HL & HS & HM) HI. unfold newlist, alloc. set (a := length (hp s)). set (h0 := hp s ++ [Cell 0 (Some (OList [] None))]).
  assert (W0 : W h0 None [a] (places s)) by (apply W_alloc; [exact HW|reflexivity]).
  pose proof (fresh_unref _ _ _ HW) as Fr. fold a in Fr.
  assert (I0 : inside h0 = inside (hp s)) by (unfold h0; rewrite inside_app; cbn [kids of_mt app]; apply app_nil_r).
  assert (Bk : forall v, livev (hp s) v -> livev h0 v /\ is_ref a v = O).
  { intros [| |z|b] Hv; cbn; auto. destruct Hv as [o Ho]. pose proof (hget_len _ _ _ Ho) as Lb. split.
    - exists o. unfold h0. rewrite hget_app_old by exact Lb. exact Ho.
    - unfold a. destruct (Nat.eqb_spec (length (hp s)) b); lia. }
  assert (LM : livev (hp s) (RP LIST_MT)).
  { eapply W_livev; [exact HW|]. unfold places. rewrite HM. apply in_or_app. right. apply in_or_app. right. apply in_or_app. right. apply in_or_app. right. left. reflexivity. }
  destruct (setmt_ok (with_hp s h0) [a] (places s) a (OList [] None) (Some LIST_MT)) as (h1 & E1 & W1 & L1 & B1 & C1 & K1).
  - exact W0.
  - apply hget_app_new.
  - discriminate.
  - cbn [of_mt]. constructor; [apply Bk; exact LM|constructor].
  - right. cbn [hp with_hp]. rewrite I0. lia.
  - intros _. cbn [of_mt]. rewrite cnt_cons, cnt_nil. destruct (Bk _ LM) as [_ ->]. reflexivity.
  - rewrite E1. cbn [bind setmt_obj] in *. rewrite with_hp_hp.
    replace (length (hp (with_hp s h0)) - 1)%nat with a by (cbn [hp with_hp]; unfold h0; rewrite app_length; cbn; unfold a; lia).
    assert (Z0 : cnt a (places s) = O) by lia.
    destruct (appends [a] (places s) a items (with_hp s h1) [] (Some LIST_MT)) as (h2 & E2 & W2 & L2 & B2 & C2).
    + exact W1.
    + exact B1.
    + exact Z0.
    + cbn [hp with_hp]. assert (X : count_of h1 a = 0) by (apply C1; exact Z0). rewrite (W_count _ _ _ _ W1) in X by (eexists; exact B1). lia.
    + cbn [hp with_hp]. apply Forall_forall. intros v Hv. rewrite Forall_forall in HI. destruct (Bk v (HI v Hv)) as [X _].
      destruct v as [| |z|b]; cbn in *; auto. destruct X as [o Ho]. assert (Y : hget h1 b <> None) by (apply (K1 eq_refl); cbn [hp with_hp]; congruence).
      destruct (hget h1 b) as [o'|] eqn:Q; [exists o'; exact Q|contradiction].
    + apply Forall_forall. intros v Hv. rewrite Forall_forall in HI. apply Bk. apply HI. exact Hv.
    + rewrite E2. cbn [bind]. rewrite with_hp_hp. exists h2. split; [reflexivity|]. split; [|split; [exact B2|exact C2]]. split; [exact W2|]. auto.
Qed.

Lemma push_newlist s s1 items : okE [] s -> Forall (livev (hp s)) items -> (s1 <= sz s)%nat ->
  good (do (s2, v) <- newlist s items; do s3 <- popn s2 s1; push s3 v).
Proof.
  intros H HI Hk. destruct (newlist_ok s items H HI) as (h' & -> & H1 & B1 & C1). cbn [bind].
  rewrite popn_ok by exact Hk. cbn [bind]. apply push_fresh.
  - apply okE_sp; [exact H1|]. destruct H as (_ & _ & H & _). cbn [sz with_hp]. lia.
  - cbn [hp with_stk with_hp]. congruence.
  - exact C1.
Qed.
